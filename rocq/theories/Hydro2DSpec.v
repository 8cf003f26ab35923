(** * The 2D scheme as a function on fields (no arrays, no kernels, no schedule)

    [step2 U G i j v] is the value of variable [v] in cell (i,j) after one step
    of the unsplit MUSCL-Hancock scheme applied to the field [U] with gravity
    acceleration [G]. *)
From Coq Require Import ZArith List Bool Permutation.
Import ListNotations.
From Verif Require Import Num Exec Grid HydroNum Kernels Hydro2D.
Local Open Scope Z_scope.

(** A field: variable [v] in cell (i,j). *)
Definition field2 (T : Type) := Z -> Z -> Z -> T.

Section Spec.
Context {T : Type} `{Num T}.
Variable S : hset T.
Variable g : gravp.
Variable dt : T.

Definition cell_state (U : field2 T) (i j : Z) : hs T :=
  mk2 (U i j ID) (U i j IP) (U i j IU) (U i j IV).

(** Configurations for which slopes and fluxes are defined. *)
Definition slope_ok : Prop :=
  (neqb (slope_type S) n0 || neqb (slope_type S) n1 || neqb (slope_type S) n2)%bool = true.
Definition solver_ok2 : Prop := solver S <> R_HLLD.
Definition solver_ok3 : Prop := solver S <> R_HLLD /\ solver S <> R_HLL.

(** Primitive state of a cell. *)
Definition Qf (U : field2 T) (i j : Z) : hs T := fst (prim2 S (cell_state U i j)).

Section Fluxes.
Variable Q : Z -> Z -> hs T.   (* primitive states *)
Variable G : field2 T.         (* gravity acceleration *)

(** Limited slopes of a cell. *)
Definition dqf (i j : Z) : hs T * hs T :=
  match slopes2 S (Q i j) (Q (i + 1) j) (Q (i - 1) j) (Q i (j + 1)) (Q i (j - 1)) with
  | Some d => d | None => (hzero, hzero) end.

(** Half-step state of cell (i,j) on its face [f], with gravity predictor. *)
Definition face_state (i j : Z) (f : face) : hs T :=
  let q := trace2 S (Q i j) (fst (dqf i j)) (snd (dqf i j)) (ndiv dt (dx S)) (ndiv dt (dy S)) f in
  if (g_enabled g && g_hancock g)%bool then kick2 dt q (G i j IX) (G i j IY) else q.

Definition solve (ql qr : hs T) : hs T :=
  match riemann2 S ql qr with Some f => f | None => hzero end.

(** Flux through the face between (i-1,j) and (i,j), times dt/dx. *)
Definition FX (i j v : Z) : T :=
  nmul (hget (solve (face_state (i - 1) j XMAX) (face_state i j XMIN)) v) (ndiv dt (dx S)).

(** Flux through the face between (i,j-1) and (i,j), times dt/dy: the solver
    works along its first velocity component. *)
Definition FY (i j v : Z) : T :=
  nmul (hget (swap_uv (solve (swap_uv (face_state i (j - 1) YMAX)) (swap_uv (face_state i j YMIN)))) v)
       (ndiv dt (dy S)).

End Fluxes.

Section Step.
Variable U : field2 T.
Variable G : field2 T.

(** Flux balance of a cell. *)
Definition adv2 (i j v : Z) : T :=
  nsub (nadd (nsub (nadd (U i j v) (FX (Qf U) G i j v)) (FX (Qf U) G (i + 1) j v))
             (FY (Qf U) G i j v)) (FY (Qf U) G i (j + 1) v).

(** The same four flux contributions, applied in some order: what remains
    specified when they are accumulated by atomic operations. *)
Definition adv2_any_order (i j v : Z) (x : T) : Prop :=
  exists ops, Permutation ops
    [ (fun y => nadd y (FX (Qf U) G i j v)); (fun y => nsub y (FX (Qf U) G (i + 1) j v));
      (fun y => nadd y (FY (Qf U) G i j v)); (fun y => nsub y (FY (Qf U) G i (j + 1) v)) ] /\
    x = fold_left (fun y f => f y) ops (U i j v).

(** Gravity source term applied after the flux balance [W]. *)
Definition grav_source (W : field2 T) (i j v : Z) : T :=
  let rhoNew := nmax (smallr S) (W i j ID) in
  let rhoSum := nadd (U i j ID) rhoNew in
  let mu := nadd (W i j IU) (nmul (nmul (nmul nhalf dt) (G i j IX)) rhoSum) in
  let mv := nadd (W i j IV) (nmul (nmul (nmul nhalf dt) (G i j IY)) rhoSum) in
  let ekin a b := ndiv (nmul nhalf (nadd (nmul a a) (nmul b b))) rhoNew in
  if v =? IU then mu
  else if v =? IV then mv
  else if v =? IE then nadd (W i j IE) (nsub (ekin mu mv) (ekin (W i j IU) (W i j IV)))
  else W i j v.

Definition step2 (i j v : Z) : T :=
  if g_enabled g then grav_source adv2 i j v else adv2 i j v.

End Step.
End Spec.

(** The two conservative-variable arrays, in either role. *)
Definition buffers (ain aout : arr) : Prop :=
  (ain = A_U /\ aout = A_U2) \/ (ain = A_U2 /\ aout = A_U).
