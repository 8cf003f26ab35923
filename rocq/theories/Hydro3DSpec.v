(** * The 3D scheme as a function on fields (no arrays, no kernels, no schedule)

    [step3 full U G i j k v] is the value of variable [v] in cell (i,j,k) after
    one step of the unsplit MUSCL-Hancock scheme applied to the field [U] with
    gravity acceleration [G].  [full = true] is the scheme as intended, where the
    gravity predictor acts on both states of every face; with [full = false] it
    is left out of the upper state of faces normal to Z. *)
From Coq Require Import ZArith List Bool Permutation.
Import ListNotations.
From Verif Require Import Num Exec Grid HydroNum Kernels Hydro2DSpec Hydro3D.
Local Open Scope Z_scope.

(** A field: variable [v] in cell (i,j,k). *)
Definition field3 (T : Type) := Z -> Z -> Z -> Z -> T.

Section Spec.
Context {T : Type} `{Num T}.
Variable S : hset T.
Variable g : gravp.
Variable dt : T.
Variable full : bool.

Definition cell_state3 (U : field3 T) (i j k : Z) : hs T :=
  mkhs (U i j k ID) (U i j k IP) (U i j k IU) (U i j k IV) (U i j k IW).

(** Primitive state of a cell. *)
Definition Qf3 (U : field3 T) (i j k : Z) : hs T := fst (prim3 S (cell_state3 U i j k)).

Section Fluxes.
Variable Q : Z -> Z -> Z -> hs T.   (* primitive states *)
Variable G : field3 T.              (* gravity acceleration *)

(** Limited slopes of a cell. *)
Definition dqf3 (i j k : Z) : hs T * hs T * hs T :=
  match slopes3 S (Q i j k) (Q (i + 1) j k) (Q (i - 1) j k) (Q i (j + 1) k) (Q i (j - 1) k)
                (Q i j (k + 1)) (Q i j (k - 1)) with
  | Some d => d | None => (hzero, hzero, hzero) end.

Definition predictor (b : bool) (q : hs T) (i j k : Z) : hs T :=
  if (b && (g_enabled g && g_hancock g))%bool
  then kick3 dt q (G i j k IX) (G i j k IY) (G i j k IZ) else q.

(** Half-step state of cell (i,j,k) on its face [f]; [b]: with gravity predictor. *)
Definition face_state3 (b : bool) (i j k : Z) (f : face) : hs T :=
  predictor b
    (trace3 S (Q i j k) (fst (fst (dqf3 i j k))) (snd (fst (dqf3 i j k))) (snd (dqf3 i j k))
       (ndiv dt (dx S)) (ndiv dt (dy S)) (ndiv dt (dz S)) f) i j k.

Definition solve3 (ql qr : hs T) : hs T :=
  match riemann3 S ql qr with Some f => f | None => hzero end.

(** Flux through the low face of (i,j,k) along [d], times dt over the cell size:
    the solver works along its first velocity component. *)
Definition flux3 (d : dir) (i j k : Z) : hs T :=
  swapd d (solve3 (swapd d (face_state3 true (i - ox d) (j - oy d) (k - oz d) (fhi d)))
                  (swapd d (face_state3 (full || kicked_right d) i j k (flo d)))).

Definition F3 (d : dir) (i j k v : Z) : T := nmul (hget (flux3 d i j k) v) (dtd S dt d).

End Fluxes.

Section Step.
Variable U : field3 T.
Variable G : field3 T.

Notation FF d := (F3 (Qf3 U) G d).

(** Flux balance of a cell. *)
Definition adv3 (i j k v : Z) : T :=
  nsub (nadd (nsub (nadd (nsub (nadd (U i j k v)
    (FF DX i j k v)) (FF DX (i + 1) j k v))
    (FF DY i j k v)) (FF DY i (j + 1) k v))
    (FF DZ i j k v)) (FF DZ i j (k + 1) v).

(** The same six flux contributions, applied in some order. *)
Definition adv3_any_order (i j k v : Z) (x : T) : Prop :=
  exists ops, Permutation ops
    [ (fun y => nadd y (FF DX i j k v)); (fun y => nsub y (FF DX (i + 1) j k v));
      (fun y => nadd y (FF DY i j k v)); (fun y => nsub y (FF DY i (j + 1) k v));
      (fun y => nadd y (FF DZ i j k v)); (fun y => nsub y (FF DZ i j (k + 1) v)) ] /\
    x = fold_left (fun y f => f y) ops (U i j k v).

(** Gravity source term applied after the flux balance [W]. *)
Definition grav_source3 (W : field3 T) (i j k v : Z) : T :=
  let rhoNew := W i j k ID in
  let rhoSum := nadd (U i j k ID) rhoNew in
  let mu := nadd (W i j k IU) (nmul (nmul (nmul nhalf dt) (G i j k IX)) rhoSum) in
  let mv := nadd (W i j k IV) (nmul (nmul (nmul nhalf dt) (G i j k IY)) rhoSum) in
  let mw := nadd (W i j k IW) (nmul (nmul (nmul nhalf dt) (G i j k IZ)) rhoSum) in
  let ekin a b c := ndiv (nmul nhalf (nadd (nadd (nmul a a) (nmul b b)) (nmul c c))) rhoNew in
  if v =? IU then mu
  else if v =? IV then mv
  else if v =? IW then mw
  else if v =? IE then
    nadd (W i j k IE) (nsub (ekin mu mv mw) (ekin (W i j k IU) (W i j k IV) (W i j k IW)))
  else W i j k v.

Definition step3 (i j k v : Z) : T :=
  if g_enabled g then grav_source3 adv3 i j k v else adv3 i j k v.

End Step.
End Spec.

(** Which variant each implementation version computes. *)
Definition full_of (iv : impl) : bool := match iv with V1 => false | _ => true end.
