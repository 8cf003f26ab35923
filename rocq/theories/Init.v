(** * Initial conditions

    Models /repo/src/muscl/HydroInitFunctors2D.h, HydroInitFunctors3D.h,
    MHDInitFunctors2D.h, MHDInitFunctors3D.h and the choice of the problem in
    SolverHydroMuscl.cpp:82-200 and SolverMHDMuscl.h:645-706 (runs that are not
    restarts).

    A functor assigns variables of one cell; it is modelled by the list of its
    stores, in order (so a variable it forgets is in no list).  Values it reads back
    from the cell it has just stored are the stored ones.  The functions of <cmath>
    are arbitrary ([mlib]); [rand_gen.drand()] is an arbitrary number [rnd n i j k]
    for the n-th draw in cell (i,j,k).  The table of Riemann configurations
    (initRiemannConfig2d.cpp) is an argument ([q_states]). *)
From Coq Require Import ZArith List Bool String.
From Verif Require Import Num Exec Grid HydroNum Kernels Mhd2D Mhd3D Params.
Import ListNotations.
Local Open Scope Z_scope.

(** sin, cos, exp, log, pow, atan2, asin and the constants of real_type.h:66-77
    (PI_v, PI_F, M_PI: [lpi]; TWOPI_F: [ltwopi]). *)
Record mlib (T : Type) := mkmlib {
  lsin : T -> T; lcos : T -> T; lexp : T -> T; llog : T -> T;
  lpow : T -> T -> T; latan2 : T -> T -> T; lasin : T -> T; lpi : T; ltwopi : T }.
Arguments lsin {T}. Arguments lcos {T}. Arguments lexp {T}. Arguments llog {T}.
Arguments lpow {T}. Arguments latan2 {T}. Arguments lasin {T}. Arguments lpi {T}. Arguments ltwopi {T}.

(** HydroParams.h: xmin..zmax of the whole domain, myMpiPos (zero in a serial build). *)
Record box (T : Type) := mkbox {
  xmin : T; xmax : T; ymin : T; ymax : T; zmin : T; zmax : T; pos_i : Z; pos_j : Z; pos_k : Z }.
Arguments xmin {T}. Arguments xmax {T}. Arguments ymin {T}. Arguments ymax {T}.
Arguments zmin {T}. Arguments zmax {T}. Arguments pos_i {T}. Arguments pos_j {T}. Arguments pos_k {T}.

(** ** Parameters of the problems (/repo/src/shared/problems) *)

(** One uniform state of ImplodeParams.h *)
Record gas (T : Type) := mkgas {
  g_rho : T; g_p : T; g_u : T; g_v : T; g_w : T; g_bx : T; g_by : T; g_bz : T }.
Arguments mkgas {T}. Arguments g_rho {T}. Arguments g_p {T}. Arguments g_u {T}. Arguments g_v {T}.
Arguments g_w {T}. Arguments g_bx {T}. Arguments g_by {T}. Arguments g_bz {T}.
(** ImplodeParams.h:17-47 *)
Record implode_params (T : Type) := mkimplode { i_out : gas T; i_in : gas T; i_shape : Z }.
Arguments i_out {T}. Arguments i_in {T}. Arguments i_shape {T}.
(** BlastParams.h:12-35; velocities of the two states are not parameters *)
Record blast_params (T : Type) := mkblast {
  b_radius : T; b_cx : T; b_cy : T; b_cz : T; b_din : T; b_dout : T; b_pin : T; b_pout : T;
  b_bxin : T; b_byin : T; b_bzin : T; b_bxout : T; b_byout : T; b_bzout : T }.
Arguments b_radius {T}. Arguments b_cx {T}. Arguments b_cy {T}. Arguments b_cz {T}.
Arguments b_din {T}. Arguments b_dout {T}. Arguments b_pin {T}. Arguments b_pout {T}.
Arguments b_bxin {T}. Arguments b_byin {T}. Arguments b_bzin {T}.
Arguments b_bxout {T}. Arguments b_byout {T}. Arguments b_bzout {T}.
(** KHParams.h *)
Record kh_params (T : Type) := mkkh {
  k_din : T; k_dout : T; k_p : T; k_sine : bool; k_rob : bool; k_rand : bool;
  k_vin : T; k_vout : T; k_ampl : T; k_mode : Z; k_w0 : T; k_delta : T }.
Arguments k_din {T}. Arguments k_dout {T}. Arguments k_p {T}. Arguments k_sine {T}.
Arguments k_rob {T}. Arguments k_rand {T}. Arguments k_vin {T}. Arguments k_vout {T}.
Arguments k_ampl {T}. Arguments k_mode {T}. Arguments k_w0 {T}. Arguments k_delta {T}.
(** GreshoParams.h (u, v, w are not used) *)
Record gresho_params (T : Type) := mkgresho { gr_rho0 : T; gr_ma : T }.
Arguments gr_rho0 {T}. Arguments gr_ma {T}.
(** Arguments of InitFourQuadrantFunctor2D/3D; [q_states] before primToCons *)
Record quad_params (T : Type) := mkquad { q_states : Z -> hs T; q_xt : T; q_yt : T; q_zt : T }.
Arguments q_states {T}. Arguments q_xt {T}. Arguments q_yt {T}. Arguments q_zt {T}.
(** IsentropicVortexParams.h *)
Record vortex_params (T : Type) := mkvortex {
  v_rho : T; v_T : T; v_u : T; v_v : T; v_x : T; v_y : T; v_beta : T }.
Arguments v_rho {T}. Arguments v_T {T}. Arguments v_u {T}. Arguments v_v {T}.
Arguments v_x {T}. Arguments v_y {T}. Arguments v_beta {T}.
(** RayleighTaylorInstabilityParams.h *)
Record rti_params (T : Type) := mkrti {
  r_ampl : T; r_d0 : T; r_d1 : T; r_gx : T; r_gy : T; r_gz : T }.
Arguments r_ampl {T}. Arguments r_d0 {T}. Arguments r_d1 {T}.
Arguments r_gx {T}. Arguments r_gy {T}. Arguments r_gz {T}.
(** BrioWuParams.h; direction X = 0, Y = 1, Z = 2 *)
Record briowu_params (T : Type) := mkbriowu {
  w_rhoL : T; w_pL : T; w_uL : T; w_ByL : T; w_rhoR : T; w_pR : T; w_uR : T; w_ByR : T;
  w_Bx : T; w_dir : Z; w_xd : T }.
Arguments w_rhoL {T}. Arguments w_pL {T}. Arguments w_uL {T}. Arguments w_ByL {T}.
Arguments w_rhoR {T}. Arguments w_pR {T}. Arguments w_uR {T}. Arguments w_ByR {T}.
Arguments w_Bx {T}. Arguments w_dir {T}. Arguments w_xd {T}.
(** OrszagTangParams.h; vortex_dir X = 0, Y = 1, Z = 2 *)
Record ot_params (T : Type) := mkot { o_kt : T; o_dir : Z }.
Arguments o_kt {T}. Arguments o_dir {T}.
(** RotorParams.h *)
Record rotor_params (T : Type) := mkrotor { t_r0 : T; t_r1 : T; t_u0 : T; t_p0 : T; t_b0 : T }.
Arguments t_r0 {T}. Arguments t_r1 {T}. Arguments t_u0 {T}. Arguments t_p0 {T}. Arguments t_b0 {T}.
(** FieldLoopParams.h (amp and seed are not used) *)
Record loop_params (T : Type) := mkloop { f_radius : T; f_din : T; f_ampl : T; f_vflow : T }.
Arguments f_radius {T}. Arguments f_din {T}. Arguments f_ampl {T}. Arguments f_vflow {T}.

(** All problems; the parameter file gives the parameters of each one. *)
Record problems (T : Type) := mkproblems {
  p_implode : implode_params T; p_blast : blast_params T; p_kh : kh_params T;
  p_gresho : gresho_params T; p_quad : quad_params T; p_vortex : vortex_params T;
  p_rti : rti_params T; p_briowu : briowu_params T; p_ot : ot_params T;
  p_rotor : rotor_params T; p_loop : loop_params T }.
Arguments p_implode {T}. Arguments p_blast {T}. Arguments p_kh {T}. Arguments p_gresho {T}.
Arguments p_quad {T}. Arguments p_vortex {T}. Arguments p_rti {T}. Arguments p_briowu {T}.
Arguments p_ot {T}. Arguments p_rotor {T}. Arguments p_loop {T}.

Inductive problem := Implode | Blast | KelvinHelmholtz | Gresho | FourQuadrant
  | IsentropicVortex | RayleighTaylor | BrioWu | OrszagTang | Rotor | FieldLoop.

(** ** Choice of the problem *)
Local Open Scope string_scope.
(** SolverHydroMuscl.cpp:102-146 *)
Definition problem_hydro2 (name : string) : problem :=
  if String.eqb name "implode" then Implode
  else if String.eqb name "blast" then Blast
  else if String.eqb name "kelvin_helmholtz" then KelvinHelmholtz
  else if String.eqb name "gresho_vortex" then Gresho
  else if String.eqb name "four_quadrant" then FourQuadrant
  else if String.eqb name "isentropic_vortex" then IsentropicVortex
  else if String.eqb name "rayleigh_taylor" then RayleighTaylor
  else Implode.
(** SolverHydroMuscl.cpp:163-205 *)
Definition problem_hydro3 (name : string) : problem :=
  if String.eqb name "implode" then Implode
  else if String.eqb name "blast" then Blast
  else if String.eqb name "kelvin_helmholtz" then KelvinHelmholtz
  else if String.eqb name "gresho_vortex" then Gresho
  else if String.eqb name "four_quadrant" then FourQuadrant
  else if String.eqb name "rayleigh_taylor" then RayleighTaylor
  else Implode.
(** SolverMHDMuscl.h:662-704 *)
Definition problem_mhd (name : string) : problem :=
  if String.eqb name "blast" then Blast
  else if String.eqb name "implode" then Implode
  else if String.eqb name "brio-wu" then BrioWu
  else if String.eqb name "orszag_tang" then OrszagTang
  else if String.eqb name "kelvin_helmholtz" then KelvinHelmholtz
  else if String.eqb name "rotor" then Rotor
  else if String.eqb name "field_loop" || String.eqb name "field loop" then FieldLoop
  else OrszagTang.
Local Close Scope string_scope.

Section Init.
Context {T : Type} `{Num T}.
Variable L : mlib T.
Variable m : mesh.
Variable S : hset T.
Variable B : box T.
Variable rnd : nat -> Z -> Z -> Z -> T.

(** Coordinates of the centre of the cell. *)
Definition px (i : Z) : T := centre (xmin B) (dx S) (nx m) (pos_i B) (gw m) i.
Definition py (j : Z) : T := centre (ymin B) (dy S) (ny m) (pos_j B) (gw m) j.
Definition pz (k : Z) : T := centre (zmin B) (dz S) (nz m) (pos_k B) (gw m) k.

Open Scope num_scope.

(** Literals. *)
Definition c34 : T := nZ 3 / nZ 4.           (* 0.75 *)
Definition c32 : T := nZ 3 / nZ 2.           (* 1.5 *)
Definition c52 : T := nZ 5 / nZ 2.           (* 2.5 *)
Definition c02 : T := nZ 1 / nZ 5.           (* 0.2 *)
Definition c04 : T := nZ 2 / nZ 5.           (* 0.4 *)
Definition sqr (x : T) : T := x * x.
Definition gm1 : T := gamma0 S - n1.

(** Stores of one cell: variables and values. *)
Definition stores := list (Z * T).

(** ** Hydrodynamics, 2D *)

(** HydroInitFunctors2D.h:83-112 *)
Definition implode_region2 (shape : Z) (x y : T) : bool :=
  if (shape =? 1)%Z then (x + y * y >? nhalf) && (x + y * y <? c32)
  else x + y >? (xmin B + xmax B) / n2 + ymin B.
Definition implode2 (P : implode_params T) (x y : T) : stores :=
  let g := if implode_region2 (i_shape P) x y then i_out P else i_in P in
  [(ID, g_rho g); (IP, g_p g / gm1 + nhalf * g_rho g * (g_u g * g_u g + g_v g * g_v g));
   (IU, g_u g); (IV, g_v g)].

(** HydroInitFunctors2D.h:169-200 *)
Definition blast2 (P : blast_params T) (x y : T) : stores :=
  let d2 := (x - b_cx P) * (x - b_cx P) + (y - b_cy P) * (y - b_cy P) in
  let '(d, p) := if d2 <? b_radius P * b_radius P then (b_din P, b_pin P) else (b_dout P, b_pout P) in
  [(ID, d); (IP, p / gm1); (IU, n0); (IV, n0)].

(** HydroInitFunctors2D.h:308-309, MHDInitFunctors2D.h, and with z for y
    HydroInitFunctors3D.h:396-397 *)
Definition ramp (P : kh_params T) (y : T) : T :=
  n1 / (n1 + lexp L (nZ 2 * (y - nquarter) / k_delta P)) +
  n1 / (n1 + lexp L (nZ 2 * (c34 - y) / k_delta P)).
Definition mix (a b r : T) : T := a + r * (b - a).
(** HydroInitFunctors2D.h:265-281: [yn < 0.25 or yn > 0.75] *)
Definition kh_outer (lo hi y : T) : bool :=
  let yn := (y - lo) / (hi - lo) in (yn <? nquarter) || (yn >? c34).
Definition draw (P : kh_params T) (n : nat) (i j k : Z) : T := k_ampl P * (rnd n i j k - nhalf).
(** HydroInitFunctors2D.h:260-331; no branch for p_sine *)
Definition kh2 (P : kh_params T) (i j : Z) (x y : T) : stores :=
  if k_rand P then
    let out := kh_outer (ymin B) (ymax B) y in
    let d := if out then k_dout P else k_din P in
    let u := (if out then k_vout P else k_vin P) + draw P 0 i j 0 in
    let v := n0 + draw P 1 i j 0 in
    [(ID, d); (IU, d * u); (IV, d * v); (IP, k_p P / gm1 + nhalf * d * (u * u + v * v))]
  else if k_rob P then
    let r := ramp P y in
    let d := mix (k_din P) (k_dout P) r in
    let u := mix (k_vin P) (k_vout P) r in
    let v := k_w0 P * lsin L (nZ (k_mode P) * lpi L * x) in
    [(ID, d); (IU, d * u); (IV, d * v); (IP, k_p P / gm1 + nhalf * d * (u * u + v * v))]
  else [].

(** HydroInitFunctors2D.h:392-428: azimuthal velocity and pressure at radius [r] *)
Definition gresho_p0 (P : gresho_params T) : T := gr_rho0 P / (gamma0 S * gr_ma P * gr_ma P).
Definition gresho_uphi (r : T) : T :=
  if r <? c02 then nZ 5 * r else if r <? c04 then nZ 2 - nZ 5 * r else n0.
Definition gresho_p (P : gresho_params T) (r : T) : T :=
  let p0 := gresho_p0 P in
  if r <? c02 then p0 + nZ 25 / n2 * r * r
  else if r <? c04 then
    p0 + nZ 25 / n2 * r * r + nZ 4 * (n1 - nZ 5 * r - llog L c02 + llog L r)
  else p0 - nZ 2 + nZ 4 * llog L n2.
(** HydroInitFunctors2D.h:397-437 *)
Definition gresho2 (P : gresho_params T) (x y : T) : stores :=
  let r := nsqrt (x * x + y * y) in
  let t := latan2 L y x in
  let uphi := gresho_uphi r in
  let mx := gr_rho0 P * (- lsin L t * uphi) in
  let my := gr_rho0 P * (lcos L t * uphi) in
  [(ID, gr_rho0 P); (IU, mx); (IV, my);
   (IP, gresho_p P r / gm1 + nhalf * (mx * mx + my * my) / gr_rho0 P)].

(** initRiemannConfig2d.h:50-80 [primToCons] *)
Definition prim_to_cons2 (q : hs T) : hs T :=
  mk2 (hd q) (hp q / gm1 + hd q * (hu q * hu q + hv q * hv q) * nhalf) (hd q * hu q) (hd q * hv q).
(** HydroInitFunctors2D.h:510-553 *)
Definition quadrant2 (P : quad_params T) (x y : T) : Z :=
  if x <? q_xt P then if y <? q_yt P then 2%Z else 1%Z else if y <? q_yt P then 3%Z else 0%Z.
Definition four2 (P : quad_params T) (x y : T) : stores :=
  let u := prim_to_cons2 (q_states P (quadrant2 P x y)) in
  [(ID, hd u); (IP, hp u); (IU, hu u); (IV, hv u)].

(** HydroInitFunctors2D.h:611-642 *)
Definition vortex_T (P : vortex_params T) (r : T) : T :=
  v_T P - gm1 * v_beta P * v_beta P / (nZ 8 * gamma0 S * lpi L * lpi L) * lexp L (n1 - r * r).
Definition vortex_rho (P : vortex_params T) (r : T) : T :=
  v_rho P * lpow L (vortex_T P r / v_T P) (n1 / gm1).
Definition vortex2 (P : vortex_params T) (x y : T) : stores :=
  let xp := x - v_x P in
  let yp := y - v_y P in
  let r := nsqrt (xp * xp + yp * yp) in
  let du := - yp * v_beta P / (nZ 2 * lpi L) * lexp L (nhalf * (n1 - r * r)) in
  let dv := xp * v_beta P / (nZ 2 * lpi L) * lexp L (nhalf * (n1 - r * r)) in
  let t := vortex_T P r in
  let rho := vortex_rho P r in
  [(ID, rho); (IU, rho * (v_u P + du)); (IV, rho * (v_v P + dv));
   (IP, rho * t / gm1 + nhalf * rho * (v_u P + du) * (v_u P + du) +
        nhalf * rho * (v_v P + dv) * (v_v P + dv))].

(** HydroInitFunctors2D.h:748-767 and 769-771 (gravity) *)
Definition rti2 (P : rti_params T) (x y : T) : stores :=
  let d := if y >? (ymin B + ymax B) / nZ 2 then r_d1 P else r_d0 P in
  [(ID, d); (IU, n0);
   (IV, r_ampl P * d * (n1 + lcos L (nZ 2 * lpi L * x / (xmax B - xmin B))) *
        (n1 + lcos L (nZ 2 * lpi L * y / (ymax B - ymin B))) / nZ 4);
   (IP, (n1 + d * (r_gx P * x + r_gy P * y)) / gm1)].

(** ** Hydrodynamics, 3D *)

(** HydroInitFunctors3D.h:133-159 *)
Definition implode_region3 (shape : Z) (x y z : T) : bool :=
  if (shape =? 1)%Z then (x + y + z >? nhalf) && (x + y + z <? c52)
  else x + y + z >? (xmin B + xmax B) / n2 + ymin B + zmin B.
Definition implode3 (P : implode_params T) (x y z : T) : stores :=
  let g := if implode_region3 (i_shape P) x y z then i_out P else i_in P in
  [(ID, g_rho g);
   (IP, g_p g / gm1 + nhalf * g_rho g * (g_u g * g_u g + g_v g * g_v g + g_w g * g_w g));
   (IU, g_u g); (IV, g_v g); (IW, g_w g)].

(** HydroInitFunctors3D.h:223-262 *)
Definition blast_in3 (P : blast_params T) (x y z : T) : bool :=
  (x - b_cx P) * (x - b_cx P) + (y - b_cy P) * (y - b_cy P) + (z - b_cz P) * (z - b_cz P)
  <? b_radius P * b_radius P.
Definition blast3 (P : blast_params T) (x y z : T) : stores :=
  let '(d, p) := if blast_in3 P x y z then (b_din P, b_pin P) else (b_dout P, b_pout P) in
  [(ID, d); (IP, p / gm1); (IU, n0); (IV, n0); (IW, n0)].

(** HydroInitFunctors3D.h:330-411; no branch for p_sine *)
Definition kh3 (P : kh_params T) (i j k : Z) (x y z : T) : stores :=
  if k_rand P then
    let out := kh_outer (zmin B) (zmax B) z in
    let d := if out then k_dout P else k_din P in
    let u := (if out then k_vout P else k_vin P) + draw P 0 i j k in
    let v := n0 + draw P 1 i j k in
    let w := n0 + draw P 2 i j k in
    [(ID, d); (IU, d * u); (IV, d * v); (IW, d * w);
     (IP, k_p P / gm1 + nhalf * d * (u * u + v * v + w * w))]
  else if k_rob P then
    let r := ramp P z in
    let d := mix (k_din P) (k_dout P) r in
    let u := mix (k_vin P) (k_vout P) r in
    let v := mix (k_vin P / nZ 2) (k_vout P / nZ 2) r in
    let w := k_w0 P * lsin L (nZ (k_mode P) * lpi L * x) * lsin L (nZ (k_mode P) * lpi L * y) in
    [(ID, d); (IU, d * u); (IV, d * v); (IW, d * w);
     (IP, k_p P / gm1 + nhalf * d * (u * u + v * v + w * w))]
  else [].

(** HydroInitFunctors3D.h:484-527; the z momentum is rho0*(cosT*uphi) *)
Definition gresho3 (P : gresho_params T) (x y : T) : stores :=
  let r := nsqrt (x * x + y * y) in
  let t := latan2 L y x in
  let uphi := gresho_uphi r in
  let mx := gr_rho0 P * (- lsin L t * uphi) in
  let my := gr_rho0 P * (lcos L t * uphi) in
  let mz := gr_rho0 P * (lcos L t * uphi) in
  [(ID, gr_rho0 P); (IU, mx); (IV, my); (IW, mz);
   (IP, gresho_p P r / gm1 + nhalf * (mx * mx + my * my + mz * mz) / gr_rho0 P)].

(** initRiemannConfig2d.h:50-80 [primToCons<3>] *)
Definition prim_to_cons3 (q : hs T) : hs T :=
  mkhs (hd q) (hp q / gm1 + hd q * (hu q * hu q + hv q * hv q + hw q * hw q) * nhalf)
       (hd q * hu q) (hd q * hv q) (hd q * hw q).
(** HydroInitFunctors3D.h:618-707 *)
Definition quadrant3 (P : quad_params T) (x y z : T) : Z :=
  if x <? q_xt P then
    if y <? q_yt P then if z <? q_zt P then 2%Z else 6%Z else if z <? q_zt P then 1%Z else 5%Z
  else if y <? q_yt P then if z <? q_zt P then 3%Z else 7%Z else if z <? q_zt P then 0%Z else 4%Z.
Definition four3 (P : quad_params T) (x y z : T) : stores :=
  let u := prim_to_cons3 (q_states P (quadrant3 P x y z)) in
  [(ID, hd u); (IP, hp u); (IU, hu u); (IV, hv u); (IW, hw u)].

(** HydroInitFunctors3D.h:823-844 *)
Definition rti3 (P : rti_params T) (x y z : T) : stores :=
  let d := if z >? (zmin B + zmax B) / nZ 2 then r_d1 P else r_d0 P in
  [(ID, d); (IU, n0); (IV, n0);
   (IW, r_ampl P * d * (n1 + lcos L (nZ 2 * lpi L * x / (xmax B - xmin B))) *
        (n1 + lcos L (nZ 2 * lpi L * y / (ymax B - ymin B))) / nZ 4);
   (IP, (n1 + d * (r_gx P * x + r_gy P * y + r_gz P * z)) / gm1)].

(** ** MHD, 2D *)

(** MHDInitFunctors2D.h:100-131 *)
Definition mimplode_region2 (shape : Z) (x y : T) : bool :=
  if (shape =? 1)%Z then (x + y >? nhalf) && (x + y <? c52)
  else x + y >? (xmin B + xmax B) / n2 + ymin B.
Definition mimplode2 (P : implode_params T) (x y : T) : stores :=
  let g := if mimplode_region2 (i_shape P) x y then i_out P else i_in P in
  [(ID, g_rho g);
   (IP, g_p g / gm1 + nhalf * g_rho g * (g_u g * g_u g + g_v g * g_v g) +
        nhalf * (g_bx g * g_bx g + g_by g * g_by g));
   (IU, g_u g); (IV, g_v g); (IW, n0); (IA, g_bx g); (IB, g_by g); (IC, n0)].

(** MHDInitFunctors2D.h:210-234 *)
Definition briowu2 (P : briowu_params T) (x y : T) : stores :=
  let d0 := w_dir P in
  let d1 := ((w_dir P + 1) mod 2)%Z in
  let pos := if (w_dir P =? 0)%Z then x else y in
  let '(rho, p, u, by_) := if pos <=? w_xd P then (w_rhoL P, w_pL P, w_uL P, w_ByL P)
                           else (w_rhoR P, w_pR P, w_uR P, w_ByR P) in
  [(ID, rho);
   (IP, p / gm1 + nhalf * rho * u * u + nhalf * (w_Bx P * w_Bx P + by_ * by_));
   ((IU + d0)%Z, rho * u); ((IU + d1)%Z, n0); (IW, n0);
   ((IA + d0)%Z, w_Bx P); ((IA + d1)%Z, by_); (IC, n0)].

(** MHDInitFunctors2D.h:297-330, MHDInitFunctors3D.h:330-362 *)
Definition mblast_state (P : blast_params T) (inside : bool) : stores :=
  let '(d, p, a, b, c) :=
    if inside then (b_din P, b_pin P, b_bxin P, b_byin P, b_bzin P)
    else (b_dout P, b_pout P, b_bxout P, b_byout P, b_bzout P) in
  [(ID, d); (IU, n0); (IV, n0); (IW, n0); (IA, a); (IB, b); (IC, c);
   (IP, p / gm1 + nhalf * (sqr a + sqr b + sqr c))].
Definition mblast2 (P : blast_params T) (x y : T) : stores :=
  mblast_state P ((x - b_cx P) * (x - b_cx P) + (y - b_cy P) * (y - b_cy P)
                  <? b_radius P * b_radius P).

(** MHDInitFunctors2D.h:406-435 [TagInitOtherVars] *)
Definition ot_vars2 (x y : T) : stores :=
  let b0 := n1 / nsqrt (nZ 2 * ltwopi L) in
  let p0 := gamma0 S / (nZ 2 * ltwopi L) in
  let d0 := gamma0 S * p0 in
  [(ID, d0); (IU, - d0 * n1 * lsin L (y * ltwopi L)); (IV, d0 * n1 * lsin L (x * ltwopi L));
   (IW, n0); (IA, - b0 * lsin L (y * ltwopi L)); (IB, b0 * lsin L (n2 * x * ltwopi L)); (IC, n0)].
(** MHDInitFunctors2D.h:440-471 [TagInitTotalEnergy] *)
Definition ot_energy2 (c : Z * Z) : prog T :=
  let (i, j) := c in
  if ((i <? isize m - 1) && (j <? jsize m - 1))%Z then
    let p0 := gamma0 S / (n2 * (nZ 4 * lasin L n1)) in
    Rd (L2 A_U i j IU) (fun u => Rd (L2 A_U i j ID) (fun d => Rd (L2 A_U i j IV) (fun v =>
    Rd (L2 A_U i j IA) (fun a => Rd (L2 A_U (i + 1)%Z j IA) (fun a' =>
    Rd (L2 A_U i j IB) (fun b => Rd (L2 A_U i (j + 1)%Z IB) (fun b' =>
    Wr (L2 A_U i j IP)
      (p0 / gm1 + nhalf * (sqr u / d + sqr v / d) +
       nhalf * (sqr ((a + a') / nZ 2) + sqr ((b + b') / nZ 2))) Done)))))))
  else Done.

(** MHDInitFunctors2D.h:545-653; IW is not assigned *)
Definition mkh_state2 (P : kh_params T) (d u v : T) : stores :=
  let bx := nhalf in
  [(ID, d); (IU, d * u); (IV, d * v); (IA, bx); (IB, n0); (IC, n0);
   (IP, k_p P / gm1 + nhalf * d * (u * u + v * v) + nhalf * (bx * bx + n0 * n0 + n0 * n0))].
Definition mkh2 (P : kh_params T) (i j : Z) (x y : T) : stores :=
  if k_rand P then
    let out := kh_outer (ymin B) (ymax B) y in
    mkh_state2 P (if out then k_dout P else k_din P)
      ((if out then k_vout P else k_vin P) + draw P 0 i j 0) (n0 + draw P 1 i j 0)
  else if k_rob P then
    mkh_state2 P (mix (k_din P) (k_dout P) (ramp P y)) (mix (k_vin P) (k_vout P) (ramp P y))
      (k_w0 P * lsin L (nZ (k_mode P) * lpi L * x))
  else if k_sine P then
    let inside := (y >=? nquarter) && (y <=? c34) in
    mkh_state2 P (if inside then k_din P else k_dout P) (if inside then k_vin P else k_vout P)
      (k_w0 P * lsin L (nZ (k_mode P) * lpi L * x))
  else [].

(** MHDInitFunctors2D.h:734-770 *)
Definition rotor2 (P : rotor_params T) (x y : T) : stores :=
  let xc := (xmax B + xmin B) / nZ 2 in
  let yc := (ymax B + ymin B) / nZ 2 in
  let r := nsqrt ((x - xc) * (x - xc) + (y - yc) * (y - yc)) in
  let f := (t_r1 P - r) / (t_r1 P - t_r0 P) in
  let '(d, u, v) :=
    if r <=? t_r0 P then
      let d := nZ 10 in (d, - d * f * t_u0 P * (y - yc) / t_r0 P, d * f * t_u0 P * (x - xc) / t_r0 P)
    else if r <=? t_r1 P then
      let d := n1 + nZ 9 * f in (d, - d * f * t_u0 P * (y - yc) / r, d * f * t_u0 P * (x - xc) / r)
    else (n1, n0, n0) in
  [(ID, d); (IU, u); (IV, v); (IW, n0); (IA, t_b0 P); (IB, n0); (IC, n0);
   (IP, t_p0 P / gm1 + nhalf * (u * u + v * v + n0 * n0) / d + nhalf * (t_b0 P * t_b0 P))].

(** MHDInitFunctors2D.h:893-936 [compute_vector_potential] *)
Definition loop_A (P : loop_params T) (x y : T) : T :=
  let r := nsqrt (x * x + y * y) in
  if r <? f_radius P then f_ampl P * (f_radius P - r) else n0.
Definition loop_pot2 (P : loop_params T) (c : Z * Z) : prog T :=
  let (i, j) := c in Wr (L2 A_Pot i j 0%Z) (loop_A P (px i) (py j)) Done.
(** MHDInitFunctors2D.h:938-993 [do_init_condition] *)
Definition inner2 (i j : Z) : bool :=
  ((gw m <=? i) && (i <? isize m - gw m) && (gw m <=? j) && (j <? jsize m - gw m))%Z.
Definition loop_vars2 (P : loop_params T) (c : Z * Z) : prog T :=
  let (i, j) := c in
  if inner2 i j then
    let x := px i in
    let y := py j in
    let cost := n2 / nsqrt (nZ 5) in
    let sint := nsqrt (n1 - cost * cost) in
    let diag := nsqrt (n1 * nZ (nx m * nx m + ny m * ny m + nz m * nz m)%Z) in
    let d := if nsqrt (x * x + y * y) <? f_radius P then f_din P else n1 in
    Rd (L2 A_Pot i (j + 1)%Z 0%Z) (fun au => Rd (L2 A_Pot i j 0%Z) (fun a0 =>
    Rd (L2 A_Pot (i + 1)%Z j 0%Z) (fun ar =>
    wrl [(L2 A_U i j ID, d); (L2 A_U i j IU, d * f_vflow P * cost);
         (L2 A_U i j IV, d * f_vflow P * sint); (L2 A_U i j IW, d * f_vflow P * nZ (nz m) / diag);
         (L2 A_U i j IA, (au - a0) / dy S); (L2 A_U i j IB, - (ar - a0) / dx S);
         (L2 A_U i j IC, n0)] Done)))
  else Done.
(** MHDInitFunctors2D.h:995-1029 [do_init_energy], cIso = 0 *)
Definition loop_energy2 (c : Z * Z) : prog T :=
  let (i, j) := c in
  if inner2 i j then
    Rd (L2 A_U i j IA) (fun a => Rd (L2 A_U (i + 1)%Z j IA) (fun a' =>
    Rd (L2 A_U i j IB) (fun b => Rd (L2 A_U i (j + 1)%Z IB) (fun b' =>
    Rd (L2 A_U i j IU) (fun u => Rd (L2 A_U i j IV) (fun v => Rd (L2 A_U i j ID) (fun d =>
    Wr (L2 A_U i j IP)
      (n1 / gm1 + nhalf * (nquarter * sqr (a + a') + nquarter * sqr (b + b')) +
       nhalf * (u * u + v * v) / d) Done)))))))
  else Done.

(** ** MHD, 3D *)

(** MHDInitFunctors3D.h:108-141 *)
Definition mimplode3 (P : implode_params T) (x y z : T) : stores :=
  let g := if implode_region3 (i_shape P) x y z then i_out P else i_in P in
  [(ID, g_rho g);
   (IP, g_p g / gm1 + nhalf * g_rho g * (g_u g * g_u g + g_v g * g_v g + g_w g * g_w g) +
        nhalf * (g_bx g * g_bx g + g_by g * g_by g + g_bz g * g_bz g));
   (IU, g_u g); (IV, g_v g); (IW, g_w g); (IA, g_bx g); (IB, g_by g); (IC, g_bz g)].

(** MHDInitFunctors3D.h:192-205: here [nz = params.ny] *)
Definition briowu_pz (k : Z) : T := centre (zmin B) (dz S) (ny m) (pos_k B) (gw m) k.
(** MHDInitFunctors3D.h:223-253 *)
Definition briowu3 (P : briowu_params T) (x y z : T) : stores :=
  let d0 := w_dir P in
  let d1 := ((w_dir P + 1) mod 3)%Z in
  let d2 := ((w_dir P + 2) mod 3)%Z in
  let pos := if (w_dir P =? 0)%Z then x else if (w_dir P =? 1)%Z then y else z in
  let '(rho, p, u, by_) := if pos <=? w_xd P then (w_rhoL P, w_pL P, w_uL P, w_ByL P)
                           else (w_rhoR P, w_pR P, w_uR P, w_ByR P) in
  [(ID, rho);
   (IP, p / gm1 + nhalf * rho * u * u + nhalf * (w_Bx P * w_Bx P + by_ * by_));
   ((IU + d0)%Z, rho * u); ((IU + d1)%Z, n0); ((IU + d2)%Z, n0);
   ((IA + d0)%Z, w_Bx P); ((IA + d1)%Z, by_); ((IA + d2)%Z, n0)].

(** MHDInitFunctors3D.h:326-362 *)
Definition mblast3 (P : blast_params T) (x y z : T) : stores := mblast_state P (blast_in3 P x y z).

(** MHDInitFunctors3D.h:447-516 [TagInitOtherVars] *)
Definition ot_vars3 (P : ot_params T) (x y z : T) : stores :=
  let b0 := n1 / nsqrt (nZ 4 * lpi L) in
  let p0 := gamma0 S / (nZ 4 * lpi L) in
  let d0 := gamma0 S * p0 in
  let wave (t lo hi : T) := lcos L (nZ 2 * ltwopi L * o_kt P * (t - lo) / (hi - lo)) in
  if (o_dir P =? 2)%Z then
    [(ID, d0); (IU, - d0 * n1 * lsin L (y * ltwopi L)); (IV, d0 * n1 * lsin L (x * ltwopi L));
     (IW, n0); (IA, - b0 * wave z (zmin B) (zmax B) * lsin L (y * ltwopi L));
     (IB, b0 * wave z (zmin B) (zmax B) * lsin L (n2 * x * ltwopi L)); (IC, n0)]
  else if (o_dir P =? 0)%Z then
    [(ID, d0); (IV, - d0 * n1 * lsin L (z * ltwopi L)); (IW, d0 * n1 * lsin L (y * ltwopi L));
     (IU, n0); (IB, - b0 * wave x (xmin B) (xmax B) * lsin L (z * ltwopi L));
     (IC, b0 * wave x (xmin B) (xmax B) * lsin L (n2 * y * ltwopi L)); (IA, n0)]
  else if (o_dir P =? 1)%Z then
    [(ID, d0); (IW, - d0 * n1 * lsin L (x * ltwopi L)); (IU, d0 * n1 * lsin L (z * ltwopi L));
     (IV, n0); (IC, - b0 * wave y (ymin B) (ymax B) * lsin L (x * ltwopi L));
     (IA, b0 * wave y (ymin B) (ymax B) * lsin L (n2 * z * ltwopi L)); (IB, n0)]
  else [].
(** MHDInitFunctors3D.h:518-549 [TagInitTotalEnergy] *)
Definition ot_energy3 (c : Z * Z * Z) : prog T :=
  let '(i, j, k) := c in
  if ((i <? isize m - 1) && (j <? jsize m - 1) && (k <? ksize m - 1))%Z then
    let p0 := gamma0 S / (nZ 4 * lpi L) in
    Rd (mkloc A_U i j k IU) (fun u => Rd (mkloc A_U i j k ID) (fun d =>
    Rd (mkloc A_U i j k IV) (fun v => Rd (mkloc A_U i j k IW) (fun w =>
    Rd (mkloc A_U i j k IA) (fun a => Rd (mkloc A_U (i + 1)%Z j k IA) (fun a' =>
    Rd (mkloc A_U i j k IB) (fun b => Rd (mkloc A_U i (j + 1)%Z k IB) (fun b' =>
    Rd (mkloc A_U i j k IC) (fun c0 => Rd (mkloc A_U i j (k + 1)%Z IC) (fun c' =>
    Wr (mkloc A_U i j k IP)
      (p0 / gm1 + nhalf * (sqr u / d + sqr v / d + sqr w / d) +
       nhalf * (sqr ((a + a') / nZ 2) + sqr ((b + b') / nZ 2) + sqr ((c0 + c') / nZ 2))) Done))))))))))
  else Done.

(** MHDInitFunctors3D.h:634-740; no magnetic field in the p_rand branch *)
Definition mkh_state3 (P : kh_params T) (d u v w : T) : stores :=
  let bx := nhalf in
  [(ID, d); (IU, d * u); (IV, d * v); (IW, d * w); (IA, bx); (IB, n0); (IC, n0);
   (IP, k_p P / gm1 + nhalf * d * (u * u + v * v + w * w) + nhalf * (bx * bx + n0 * n0 + n0 * n0))].
Definition mkh3 (P : kh_params T) (i j k : Z) (x y z : T) : stores :=
  if k_rand P then kh3 P i j k x y z
  else if k_rob P then
    mkh_state3 P (mix (k_din P) (k_dout P) (ramp P z)) (mix (k_vin P) (k_vout P) (ramp P z))
      (mix (k_vin P / nZ 2) (k_vout P / nZ 2) (ramp P z))
      (k_w0 P * lsin L (nZ (k_mode P) * lpi L * x) * lsin L (nZ (k_mode P) * lpi L * y))
  else if k_sine P then
    let inside := (z >=? nquarter) && (z <=? c34) in
    mkh_state3 P (if inside then k_din P else k_dout P) (if inside then k_vin P else k_vout P) n0
      (k_w0 P * lsin L (nZ (k_mode P) * lpi L * x))
  else [].

(** MHDInitFunctors3D.h:820-863; the momenta have no factor density *)
Definition rotor3 (P : rotor_params T) (x y : T) : stores :=
  let xc := (xmax B + xmin B) / nZ 2 in
  let yc := (ymax B + ymin B) / nZ 2 in
  let r := nsqrt ((x - xc) * (x - xc) + (y - yc) * (y - yc)) in
  let f := (t_r1 P - r) / (t_r1 P - t_r0 P) in
  let '(d, u, v) :=
    if r <=? t_r0 P then (nZ 10, - t_u0 P * (y - yc) / t_r0 P, t_u0 P * (x - xc) / t_r0 P)
    else if r <=? t_r1 P then
      (n1 + nZ 9 * f, - f * t_u0 P * (y - yc) / r, f * t_u0 P * (x - xc) / r)
    else (n1, n0, n0) in
  [(ID, d); (IU, u); (IV, v); (IW, n0); (IA, t_b0 P); (IB, n0); (IC, n0);
   (IP, t_p0 P / gm1 + (u * u + v * v + n0 * n0) / nZ 2 / d + (t_b0 P * t_b0 P) / nZ 2)].

(** MHDInitFunctors3D.h:991-1036 [compute_vector_potential]: components 0, 1, 2 *)
Definition loop_pot3 (P : loop_params T) (c : Z * Z * Z) : prog T :=
  let '(i, j, k) := c in
  wrl ([(mkloc A_Pot i j k 0%Z, n0); (mkloc A_Pot i j k 1%Z, n0); (mkloc A_Pot i j k 2%Z, n0)] ++
       (if nsqrt (px i * px i + py j * py j) <? f_radius P
        then [(mkloc A_Pot i j k IZ, f_ampl P * (f_radius P - nsqrt (px i * px i + py j * py j)))]
        else [])) Done.
(** MHDInitFunctors3D.h:1038-1117 [do_init_condition] *)
Definition inner3 (i j k : Z) : bool :=
  ((gw m <=? i) && (i <? isize m - gw m) && (gw m <=? j) && (j <? jsize m - gw m) &&
   (gw m <=? k) && (k <? ksize m - gw m))%Z.
Definition loop_vars3 (P : loop_params T) (c : Z * Z * Z) : prog T :=
  let '(i, j, k) := c in
  if inner3 i j k then
    let x := px i in
    let y := py j in
    let cost := n2 / nsqrt (nZ 5) in
    let sint := nsqrt (n1 - cost * cost) in
    let d := if nsqrt (x * x + y * y) <? f_radius P then f_din P else n1 in
    let A i j k v := mkloc A_Pot i j k v in
    Rd (A i j k 0%Z) (fun x0 => Rd (A i j k 1%Z) (fun y0 => Rd (A i j k 2%Z) (fun z0 =>
    Rd (A i (j + 1)%Z k 2%Z) (fun zy => Rd (A i j (k + 1)%Z 1%Z) (fun yz =>
    Rd (A i j (k + 1)%Z 0%Z) (fun xz => Rd (A (i + 1)%Z j k 2%Z) (fun zx =>
    Rd (A (i + 1)%Z j k 1%Z) (fun yx => Rd (A i (j + 1)%Z k 0%Z) (fun xy =>
    wrl [(mkloc A_U i j k ID, d); (mkloc A_U i j k IU, d * f_vflow P * cost);
         (mkloc A_U i j k IV, d * f_vflow P * sint); (mkloc A_U i j k IW, d * f_vflow P);
         (mkloc A_U i j k IA, (zy - z0) / dy S - (yz - y0) / dz S);
         (mkloc A_U i j k IB, (xz - x0) / dz S - (zx - z0) / dx S);
         (mkloc A_U i j k IC, (yx - y0) / dx S - (xy - x0) / dy S)] Done)))))))))
  else Done.
(** MHDInitFunctors3D.h:1119-1158 [do_init_energy], cIso = 0 *)
Definition loop_energy3 (c : Z * Z * Z) : prog T :=
  let '(i, j, k) := c in
  if inner3 i j k then
    Rd (mkloc A_U i j k IA) (fun a => Rd (mkloc A_U (i + 1)%Z j k IA) (fun a' =>
    Rd (mkloc A_U i j k IB) (fun b => Rd (mkloc A_U i (j + 1)%Z k IB) (fun b' =>
    Rd (mkloc A_U i j k IC) (fun c0 => Rd (mkloc A_U i j (k + 1)%Z IC) (fun c' =>
    Rd (mkloc A_U i j k IU) (fun u => Rd (mkloc A_U i j k IV) (fun v =>
    Rd (mkloc A_U i j k IW) (fun w => Rd (mkloc A_U i j k ID) (fun d =>
    Wr (mkloc A_U i j k IP)
      (n1 / gm1 + nhalf * (nquarter * sqr (a + a') + nquarter * sqr (b + b') + nquarter * sqr (c0 + c')) +
       nhalf * (u * u + v * v + w * w) / d) Done))))))))))
  else Done.

Close Scope num_scope.

(** ** The kernels *)

(** A functor that assigns [f i j] in cell (i,j) of U, over all cells, ghosts included
    (MDRangePolicy {0,0} {isize,jsize}). *)
Definition store2 (f : Z -> Z -> stores) (c : Z * Z) : prog T :=
  let (i, j) := c in wrl (map (fun w => (L2 A_U i j (fst w), snd w)) (f i j)) Done.
Definition store3 (f : Z -> Z -> Z -> stores) (c : Z * Z * Z) : prog T :=
  let '(i, j, k) := c in wrl (map (fun w => (mkloc A_U i j k (fst w), snd w)) (f i j k)) Done.

(** HydroInitFunctors2D.h:742-774: the state, then the gravity field *)
Definition rti_item2 (P : rti_params T) (c : Z * Z) : prog T :=
  let (i, j) := c in
  wrl (map (fun w => (L2 A_U i j (fst w), snd w)) (rti2 P (px i) (py j)) ++
       [(L2 A_G i j IX, r_gx P); (L2 A_G i j IY, r_gy P)]) Done.
(** HydroInitFunctors3D.h:818-850 *)
Definition rti_item3 (P : rti_params T) (c : Z * Z * Z) : prog T :=
  let '(i, j, k) := c in
  wrl (map (fun w => (mkloc A_U i j k (fst w), snd w)) (rti3 P (px i) (py j) (pz k)) ++
       [(mkloc A_G i j k IX, r_gx P); (mkloc A_G i j k IY, r_gy P); (mkloc A_G i j k IZ, r_gz P)]) Done.

(** The state written by the one-kernel problems. *)
Definition hydro_stores2 (Q : problems T) (p : problem) (i j : Z) : stores :=
  let x := px i in
  let y := py j in
  match p with
  | Blast => blast2 (p_blast Q) x y
  | KelvinHelmholtz => kh2 (p_kh Q) i j x y
  | Gresho => gresho2 (p_gresho Q) x y
  | FourQuadrant => four2 (p_quad Q) x y
  | IsentropicVortex => vortex2 (p_vortex Q) x y
  | RayleighTaylor => rti2 (p_rti Q) x y
  | _ => implode2 (p_implode Q) x y
  end.
Definition hydro_stores3 (Q : problems T) (p : problem) (i j k : Z) : stores :=
  let x := px i in
  let y := py j in
  let z := pz k in
  match p with
  | Blast => blast3 (p_blast Q) x y z
  | KelvinHelmholtz => kh3 (p_kh Q) i j k x y z
  | Gresho => gresho3 (p_gresho Q) x y
  | FourQuadrant => four3 (p_quad Q) x y z
  | RayleighTaylor => rti3 (p_rti Q) x y z
  | _ => implode3 (p_implode Q) x y z
  end.
(** All variables (OrszagTang: all but the energy). *)
Definition mhd_stores2 (Q : problems T) (p : problem) (i j : Z) : stores :=
  let x := px i in
  let y := py j in
  match p with
  | Blast => mblast2 (p_blast Q) x y
  | Implode => mimplode2 (p_implode Q) x y
  | BrioWu => briowu2 (p_briowu Q) x y
  | KelvinHelmholtz => mkh2 (p_kh Q) i j x y
  | Rotor => rotor2 (p_rotor Q) x y
  | _ => ot_vars2 x y
  end.
Definition mhd_stores3 (Q : problems T) (p : problem) (i j k : Z) : stores :=
  let x := px i in
  let y := py j in
  let z := pz k in
  match p with
  | Blast => mblast3 (p_blast Q) x y z
  | Implode => mimplode3 (p_implode Q) x y z
  | BrioWu => briowu3 (p_briowu Q) x y (briowu_pz k)
  | KelvinHelmholtz => mkh3 (p_kh Q) i j k x y z
  | Rotor => rotor3 (p_rotor Q) x y
  | _ => ot_vars3 (p_ot Q) x y z
  end.

Definition c2 := range2 (isize m) (jsize m).
Definition c3 := range3 (isize m) (jsize m) (ksize m).

(** SolverHydroMuscl.cpp:82-205 and SolverHydroMuscl.h:347-506 *)
Definition init_hydro2 (Q : problems T) (name : string) : list (list (prog T)) :=
  match problem_hydro2 name with
  | RayleighTaylor => [map (rti_item2 (p_rti Q)) c2]
  | p => [map (store2 (hydro_stores2 Q p)) c2]
  end.
Definition init_hydro3 (Q : problems T) (name : string) : list (list (prog T)) :=
  match problem_hydro3 name with
  | RayleighTaylor => [map (rti_item3 (p_rti Q)) c3]
  | p => [map (store3 (hydro_stores3 Q p)) c3]
  end.
(** SolverMHDMuscl.h:645-706 and 456-605; MHDInitFunctors2D.h:363-380, 848-870 *)
Definition init_mhd2 (Q : problems T) (name : string) : list (list (prog T)) :=
  match problem_mhd name with
  | FieldLoop => [map (loop_pot2 (p_loop Q)) c2; map (loop_vars2 (p_loop Q)) c2; map loop_energy2 c2]
  | OrszagTang => [map (store2 (mhd_stores2 Q OrszagTang)) c2; map ot_energy2 c2]
  | p => [map (store2 (mhd_stores2 Q p)) c2]
  end.
Definition init_mhd3 (Q : problems T) (name : string) : list (list (prog T)) :=
  match problem_mhd name with
  | FieldLoop => [map (loop_pot3 (p_loop Q)) c3; map (loop_vars3 (p_loop Q)) c3; map loop_energy3 c3]
  | OrszagTang => [map (store3 (mhd_stores3 Q OrszagTang)) c3; map ot_energy3 c3]
  | p => [map (store3 (mhd_stores3 Q p)) c3]
  end.

End Init.

(** Extents during the initialisation: the arrays of the solver and, for the field loop,
    the vector potential (MHDInitFunctors2D.h:833, MHDInitFunctors3D.h:927). *)
Definition init_nv2 (nv : arr -> Z) (a : arr) : Z := match a with A_Pot => 1 | _ => nv a end.
Definition init_nv3 (nv : arr -> Z) (a : arr) : Z := match a with A_Pot => 3 | _ => nv a end.
