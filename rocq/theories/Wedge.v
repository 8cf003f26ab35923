(** * Double Mach reflection: time-dependent ghost cells

    Models /repo/src/shared/problems/WedgeParams.h and
    /repo/src/shared/BoundariesFunctorsWedge.h.  No file of the project launches the
    functor; it is launched here as [SolverBase::make_boundary] launches the others
    (face by face, same number of iterations). *)
From Coq Require Import ZArith List Bool String Reals.
Import ListNotations.
From Verif Require Import Num Exec Grid.
Local Open Scope Z_scope.

(** WedgeParams.h:20-36: members used by the functor, and the pre-shock state. *)
Record wedge (T : Type) : Type := mkwedge {
  x_f : T; slope_f : T; delta_x : T;
  rho1 : T; e_tot1 : T; rho_u1 : T; rho_v1 : T;
  rho2 : T; e_tot2 : T; rho_u2 : T; rho_v2 : T
}.
Arguments x_f {T}. Arguments slope_f {T}. Arguments delta_x {T}.
Arguments rho1 {T}. Arguments e_tot1 {T}. Arguments rho_u1 {T}. Arguments rho_v1 {T}.
Arguments rho2 {T}. Arguments e_tot2 {T}. Arguments rho_u2 {T}. Arguments rho_v2 {T}.

(** WedgeParams.h:38-80 [WedgeParams(configMap, t)] over the real numbers: [get section
    name default] stands for [configMap.getFloat]; its rounding to single precision is
    not modelled. *)
Definition wedge_params (get : string -> string -> R -> R) (t : R) : wedge R :=
  (let gamma0 := get "hydro" "gamma0" (14 / 10) in
   let x_f := get "wedge" "front_x" (1 / 10) in
   let angle_f := get "wedge" "front_angle" (PI / 3) in
   let slope_f := tan angle_f in
   let shock_speed := get "wedge" "shock_speed" 10 in
   let shock_speed := shock_speed / cos (PI / 2 - angle_f) in
   let delta_x := shock_speed * t in
   let rho1 := get "wedge" "rho1" 8 in
   let p1 := get "wedge" "p1" (1165 / 10) in
   let u1 := get "wedge" "u1" (825 / 100 * cos (angle_f - PI / 2)) in
   let v1 := get "wedge" "v1" (825 / 100 * sin (angle_f - PI / 2)) in
   let w1 := get "wedge" "w1" 0 in
   let e_tot1 := p1 / (gamma0 - 1) + 5 / 10 * rho1 * (u1 * u1 + v1 * v1 + w1 * w1) in
   let rho2 := get "wedge" "rho2" (14 / 10) in
   let p2 := get "wedge" "p2" 1 in
   let u2 := get "wedge" "u2" 0 in
   let v2 := get "wedge" "v2" 0 in
   let w2 := get "wedge" "w2" 0 in
   let e_tot2 := p2 / (gamma0 - 1) + 5 / 10 * rho2 * (u2 * u2 + v2 * v2 + w2 * w2) in
   mkwedge R x_f slope_f delta_x rho1 e_tot1 (rho1 * u1) (rho1 * v1)
     rho2 e_tot2 (rho2 * u2) (rho2 * v2))%R%string.

Section Wedge.
Context {T : Type} `{Num T}.
Variable m : mesh.
(** HydroParams: size of the cells and lower corner of the box *)
Variables dx dy xmin ymin : T.
Variable w : wedge T.
Variable a : arr.

(** [Udata(i,j,ID) = rho1; ...], BoundariesFunctorsWedge.h:74-77, 119-122, 161-164 *)
Definition inflow_cell (i j : Z) : prog T :=
  Wr (mkloc a i j 0 ID) (rho1 w)
    (Wr (mkloc a i j 0 IP) (e_tot1 w)
      (Wr (mkloc a i j 0 IU) (rho_u1 w) (Wr (mkloc a i j 0 IV) (rho_v1 w) Done))).

(** [for (iVar = v; iVar < v+n; iVar++) Udata(dst,iVar) = f(Udata(src,iVar))] *)
Fixpoint move_vars (n : nat) (v : Z) (dst src : Z -> loc) (f : Z -> T -> T) : prog T :=
  match n with
  | O => Done
  | S n' => Rd (src v) (fun x => Wr (dst v) (f v x) (move_vars n' (v + 1) dst src f))
  end.

(** Outflow, BoundariesFunctorsWedge.h:92-94, 168-170 *)
Definition outflow_cell (i j i0 j0 : Z) : prog T :=
  move_vars (Z.to_nat (nbvar m)) 0 (mkloc a i j 0) (mkloc a i0 j0 0) (fun _ x => x).

(** BoundariesFunctorsWedge.h:127-134: [sign] is declared before the loop and, once
    negative, stays so for the variables after IV. *)
Definition wall_sign (v : Z) : T := if IV <=? v then nopp n1 else nZ 1.
Definition wall_cell (i j i0 j0 : Z) : prog T :=
  move_vars (Z.to_nat (nbvar m)) 0 (mkloc a i j 0) (mkloc a i0 j0 0) (fun v x => nmul x (wall_sign v)).

(** BoundariesFunctorsWedge.h:110, 153-154: centre of a cell *)
Definition x_of (i : Z) : T := nadd (nadd xmin (ndiv dx n2)) (nmul (nZ (i - gw m)) dx).
Definition y_of (j : Z) : T := nadd (nadd ymin (ndiv dy n2)) (nmul (nZ (j - gw m)) dy).

(** [MakeBoundariesFunctor2D_wedge<faceId>::operator()], BoundariesFunctorsWedge.h:31-177 *)
Definition wedge_item (f : face) (index : Z) : prog T :=
  let g := gw m in
  match f with
  | XMIN =>
      let j := index / g in
      let i := index - j * g in
      if between (jmin m) j (jmax m) && (0 <=? i) && (i <? g) then inflow_cell i j else Done
  | XMAX =>
      let j := index / g in
      let i := index - j * g + (nx m + g) in
      if between (jmin m) j (jmax m) && between (nx m + g) i (nx m + 2 * g - 1)
      then outflow_cell i j (nx m + g - 1) j else Done
  | YMIN =>
      let i := index / g in
      let j := index - i * g in
      if between (imin m) i (imax m) && (0 <=? j) && (j <? g)
      then if nltb (x_of i) (x_f w) then inflow_cell i j else wall_cell i j i (2 * g - 1 - j)
      else Done
  | YMAX =>
      let i := index / g in
      let j := index - i * g + (ny m + g) in
      if between (imin m) i (imax m) && between (ny m + g) j (ny m + 2 * g - 1)
      then if nltb (x_of i) (nadd (nadd (x_f w) (ndiv (y_of j) (slope_f w))) (delta_x w))
           then inflow_cell i j else outflow_cell i j i (ny m + g - 1)
      else Done
  | ZMIN | ZMAX => Done
  end.

Definition make_wedge (f : face) : list (prog T) :=
  map (wedge_item f) (range (gw m * Z.max (isize m) (jsize m))).
Definition make_wedges : list (list (prog T)) := map make_wedge [XMIN; XMAX; YMIN; YMAX].

End Wedge.
