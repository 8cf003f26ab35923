(** * Parameters of the problems, read from the parameter file

    Models the constructors of /repo/src/shared/problems/*.h and the lines of
    HydroInitFunctors2D.h/3D.h that read the four-quadrant problem, as functions of the
    parsed file ([cmap], Config.v).  [cv] widens a float to [real_t]; [M] is what the
    memory of the structure held before, for the members that are never assigned.
    Members that no kernel uses (velocity of Gresho, field of Rayleigh-Taylor, seeds,
    quadrature, ...) are left out. *)
From Coq Require Import Ascii String ZArith List Bool.
From Coq Require Import Floats.SpecFloat.
From Verif Require Import Num HydroNum Config Params Binary64 Init.
Import ListNotations.
Local Open Scope Z_scope.

(** A literal [num/den] of type double, and the conversion of a double to float. *)
Definition lit64 (num : Z) (den : positive) : b64 :=
  match num with
  | Z0 => S754_zero false
  | Zpos n | Zneg n =>
      let '(q, e, l) := SFdiv_core_binary 53 1024 (Zpos n) 0 (Zpos den) 0 in
      binary_round_aux 53 1024 (num <? 0) q e l
  end.
Definition narrow (x : b64) : b32 :=
  match x with
  | S754_finite s m e => binary_normalize 24 128 (cond_Zopp s (Zpos m)) e s
  | x => x
  end.
(** float to double: the same number, its mantissa brought to 53 bits *)
Definition widen (x : b32) : b64 :=
  match x with
  | S754_finite s m e => binary_normalize 53 1024 (cond_Zopp s (Zpos m)) e s
  | x => x
  end.
Definition dflt (num : Z) (den : positive) : b32 := narrow (lit64 num den).

(** Unassigned members. *)
Record memory (T : Type) := mkmemory { j_bzin : T; j_bzout : T; j_mode : Z; j_w0 : T; j_delta : T }.
Arguments j_bzin {T}. Arguments j_bzout {T}. Arguments j_mode {T}. Arguments j_w0 {T}. Arguments j_delta {T}.

Section Read.
Context {T : Type} (cv : b32 -> T) (M : memory T) (c : cmap).

Definition flt (section name : string) (default : b32) : b32 := get_float c (lit section) (lit name) default.
Definition real (section name : string) (default : b32) : T := cv (flt section name default).
Definition flag (section name : string) (default : bool) : bool := get_bool c (lit section) (lit name) default.

(** BlastParams.h:31-37, IsentropicVortexParams.h:41-47: bounds of the domain *)
Definition lower (k : string) : b32 := flt "mesh" k (dflt 0 1).
Definition upper (k : string) : b32 := flt "mesh" k (dflt 1 1).
(** (lo + hi) / 2 in double *)
Definition mid (lo hi : b32) : b64 := SFdiv 53 1024 (SFadd 53 1024 (widen lo) (widen hi)) (b64_Z 2).
(** BrioWuParams.h:62: lo + hi in float, halved in double *)
Definition mid_f (lo hi : b32) : b64 := SFdiv 53 1024 (widen (SFadd 24 128 lo hi)) (b64_Z 2).

(** ImplodeParams.h:38-60 *)
Definition read_implode : implode_params T :=
  mkimplode T
    (mkgas (real "implode" "density_outer" (dflt 1 1)) (real "implode" "pressure_outer" (dflt 1 1))
           (real "implode" "vx_outer" (dflt 0 1)) (real "implode" "vy_outer" (dflt 0 1)) (real "implode" "vz_outer" (dflt 0 1))
           (real "implode" "Bx_outer" (dflt 0 1)) (real "implode" "By_outer" (dflt 0 1)) (real "implode" "Bz_outer" (dflt 0 1)))
    (mkgas (real "implode" "density_inner" (dflt 125 1000)) (real "implode" "pressure_inner" (dflt 14 100))
           (real "implode" "vx_inner" (dflt 0 1)) (real "implode" "vy_inner" (dflt 0 1)) (real "implode" "vz_inner" (dflt 0 1))
           (real "implode" "Bx_inner" (dflt 0 1)) (real "implode" "By_inner" (dflt 0 1)) (real "implode" "Bz_inner" (dflt 0 1)))
    (int_setting c "implode" "shape_region" 0).

(** BlastParams.h:28-54; lines 50 and 53 read the keys of bz into by *)
Definition read_blast : blast_params T :=
  let xlo := lower "xmin" in let ylo := lower "ymin" in let zlo := lower "zmin" in
  let xhi := upper "xmax" in let yhi := upper "ymax" in let zhi := upper "zmax" in
  let radius := real "blast" "radius" (narrow (SFdiv 53 1024 (mid xlo xhi) (b64_Z 10))) in
  let cx := real "blast" "center_x" (narrow (mid xlo xhi)) in
  let cy := real "blast" "center_y" (narrow (mid ylo yhi)) in
  let cz := real "blast" "center_z" (narrow (mid zlo zhi)) in
  let din := real "blast" "density_in" (dflt 1 1) in
  let dout := real "blast" "density_out" (dflt 12 10) in
  let pin := real "blast" "pressure_in" (dflt 10 1) in
  let pout := real "blast" "pressure_out" (dflt 1 10) in
  let bx_in := real "blast" "bx_in" (dflt 5 10) in
  let by_in := real "blast" "by_in" (dflt 5 10) in
  let by_in := real "blast" "bz_in" (dflt 5 10) in
  let bx_out := real "blast" "bx_out" (dflt 5 10) in
  let by_out := real "blast" "by_out" (dflt 5 10) in
  let by_out := real "blast" "bz_out" (dflt 5 10) in
  mkblast T radius cx cy cz din dout pin pout bx_in by_in (j_bzin M) bx_out by_out (j_bzout M).

(** KHParams.h:43-90 (the seed and the sizes are not used by the kernels) *)
Definition read_kh : kh_params T :=
  let sine := flag "KH" "perturbation_sine" false in
  let rob := flag "KH" "perturbation_sine_robertson" true in
  let rnd := flag "KH" "perturbation_rand" false in
  let some := (rob || sine)%bool in
  mkkh T (real "KH" "d_in" (dflt 1 1)) (real "KH" "d_out" (dflt 1 1)) (real "KH" "pressure" (dflt 10 1))
    sine rob rnd
    (real "KH" "vflow_in" (dflt (-5) 10)) (real "KH" "vflow_out" (dflt 5 10))
    (real "KH" "amplitude" (dflt 1 10))
    (if some then int_setting c "KH" "mode" 2 else j_mode M)
    (if some then real "KH" "w0" (dflt 1 10) else j_w0 M)
    (if some then real "KH" "delta" (dflt 3 100) else j_delta M).

(** GreshoParams.h:24-28 *)
Definition read_gresho : gresho_params T :=
  mkgresho T (real "Gresho" "rho0" (dflt 1 1)) (real "Gresho" "Ma" (dflt 1 10)).

(** HydroInitFunctors2D.h:473-477, HydroInitFunctors3D.h:565-570; [states]: getRiemannConfig2d/3d *)
Definition read_quad (states : Z -> Z -> hs T) : quad_params T :=
  mkquad T (states (int_setting c "riemann2d" "config_number" 0))
    (real "riemann2d" "x" (dflt 8 10)) (real "riemann2d" "y" (dflt 8 10)) (real "riemann2d" "z" (dflt 8 10)).

(** IsentropicVortexParams.h:38-60 *)
Definition read_vortex : vortex_params T :=
  let xlo := lower "xmin" in let ylo := lower "ymin" in
  let xhi := upper "xmax" in let yhi := upper "ymax" in
  mkvortex T (real "isentropic_vortex" "density_ambient" (dflt 1 1)) (real "isentropic_vortex" "temperature_ambient" (dflt 1 1))
    (real "isentropic_vortex" "vx_ambient" (dflt 1 1)) (real "isentropic_vortex" "vy_ambient" (dflt 1 1))
    (real "isentropic_vortex" "center_x" (narrow (mid xlo xhi))) (real "isentropic_vortex" "center_y" (narrow (mid ylo yhi)))
    (real "isentropic_vortex" "strength" (dflt 5 1)).

(** RayleighTaylorInstabilityParams.h:22-31 *)
Definition read_rti : rti_params T :=
  mkrti T (real "rayleigh_taylor" "amplitude" (dflt 1 100)) (real "rayleigh_taylor" "d0" (dflt 1 1))
    (real "rayleigh_taylor" "d1" (dflt 2 1)) (real "rayleigh_taylor" "gx" (dflt 0 1))
    (real "rayleigh_taylor" "gy" (dflt (-1) 10)) (real "rayleigh_taylor" "gz" (dflt 0 1)).

(** BrioWuParams.h:42-76 *)
Definition read_briowu : briowu_params T :=
  let direction := int_setting c "brio-wu" "direction" 0 in
  let xd :=
    if direction =? 0 then real "brio-wu" "xd" (narrow (mid_f (lower "xmin") (upper "xmax")))
    else if direction =? 1 then real "brio-wu" "xd" (narrow (mid_f (lower "ymin") (upper "ymax")))
    else real "brio-wu" "xd" (narrow (mid_f (lower "zmin") (upper "zmax"))) in
  mkbriowu T (real "brio-wu" "rhoL" (dflt 1 1)) (real "brio-wu" "pL" (dflt 1 1)) (real "brio-wu" "uL" (dflt 0 1))
    (real "brio-wu" "ByL" (dflt 1 1)) (real "brio-wu" "rhoR" (dflt 125 1000)) (real "brio-wu" "pR" (dflt 1 10))
    (real "brio-wu" "uR" (dflt 0 1)) (real "brio-wu" "ByR" (dflt (-1) 1)) (real "brio-wu" "Bx" (dflt 75 100))
    direction xd.

(** OrszagTangParams.h:24-28 *)
Definition read_ot : ot_params T :=
  mkot T (real "OrszagTang" "kt" (dflt 0 1)) (int_setting c "OrszagTang" "vortex_dir" 2).

(** RotorParams.h:17-25; M_PI is 3.14159265358979323846 *)
Definition M_PI : b64 := lit64 314159265358979323846 100000000000000000000.
Definition read_rotor : rotor_params T :=
  mkrotor T (real "rotor" "r0" (dflt 1 10)) (real "rotor" "r1" (dflt 115 1000)) (real "rotor" "u0" (dflt 2 1))
    (real "rotor" "p0" (dflt 1 1))
    (real "rotor" "b0" (narrow (SFdiv 53 1024 (b64_Z 5) (SFsqrt 53 1024 (SFmul 53 1024 (b64_Z 4) M_PI))))).

(** FieldLoopParams.h:22-28 *)
Definition read_loop : loop_params T :=
  mkloop T (real "FieldLoop" "radius" (dflt 1 1)) (real "FieldLoop" "density_in" (dflt 1 1))
    (real "FieldLoop" "amplitude" (dflt 1 1)) (real "FieldLoop" "vflow" (dflt 1 1)).

Definition read_problems (states : Z -> Z -> hs T) : problems T :=
  mkproblems T read_implode read_blast read_kh read_gresho (read_quad states) read_vortex read_rti
    read_briowu read_ot read_rotor read_loop.
End Read.
