(** * The 2D MHD scheme as a function on fields (no arrays, no kernels, no schedule)

    Unsplit MUSCL-Hancock with constrained transport: the cell-centred variables
    are advanced by fluxes, the face-centred field components IA (lower x face)
    and IB (lower y face) by the electromotive force at the lower left corner. *)
From Coq Require Import ZArith List Bool Permutation.
Import ListNotations.
From Verif Require Import Num Exec Grid HydroNum Kernels Hydro2DSpec MhdNum.
Local Open Scope Z_scope.

Section Spec.
Context {T : Type} `{Num T}.
Variable S : hset T.
Variable dt : T.

Definition mstate (U : field2 T) (i j : Z) : ms T :=
  mkms (U i j ID) (U i j IP) (U i j IU) (U i j IV) (U i j IW) (U i j IA) (U i j IB) (U i j IC).

(** Configurations for which slopes and fluxes are defined. *)
Definition mslope_ok : Prop := (neqb (slope_type S) n1 || neqb (slope_type S) n2)%bool = true.
Definition msolver_ok : Prop := solver S = R_HLLD \/ solver S = R_HLL \/ solver S = R_LLF.

(** Primitive state of a cell: the field at the cell centre uses the upper faces. *)
Definition mQ (U : field2 T) (i j : Z) : ms T :=
  prim_mhd S (mstate U i j) (U (i + 1) j IA) (U i (j + 1) IB) n0.

Definition mtzero : traced T := mktraced mzero mzero mzero mzero mzero mzero mzero mzero.

Section Fluxes.
Variable Q : Z -> Z -> ms T.   (* primitive states *)
Variable U : field2 T.         (* conservative variables *)

(** Half-step states of cell (i,j) on its four faces and at its four corners. *)
Definition mtr (i j : Z) : traced T :=
  match trace_mhd2 S (fun di dj => Q (i + Z.of_nat di - 1) (j + Z.of_nat dj - 1))
    (fun di dj => let i' := i + Z.of_nat di - 1 in let j' := j + Z.of_nat dj - 1 in
                  mkbf (U i' j' IA) (U i' j' IB) (U i' j' IC))
    (ndiv dt (dx S)) (ndiv dt (dy S)) with
  | Some t => t | None => mtzero end.

Definition msolve (ql qr : ms T) : ms T :=
  match riemann_mhd S ql qr with Some f => f | None => mzero end.

(** Flux through the face between (i-1,j) and (i,j). *)
Definition mFX (i j : Z) : ms T := msolve (t_mx (mtr (i - 1) j)) (t_px (mtr i j)).

(** Flux through the face between (i,j-1) and (i,j): the solver works along its
    first component. *)
Definition mFY (i j : Z) : ms T :=
  swap_xy (msolve (swap_xy (t_my (mtr i (j - 1)))) (swap_xy (t_py (mtr i j)))).

(** Electromotive force at the lower left corner of cell (i,j). *)
Definition mE (i j : Z) : T :=
  compute_emf S EMFZ (t_rt (mtr (i - 1) (j - 1))) (t_rb (mtr (i - 1) j))
                     (t_lt (mtr i (j - 1))) (t_lb (mtr i j)).

End Fluxes.

Notation dtx := (ndiv dt (dx S)).
Notation dty := (ndiv dt (dy S)).

Section Balance.
Variables fx fy : Z -> Z -> ms T.   (* fluxes through the lower x and y faces *)
Variable emf : Z -> Z -> T.         (* electromotive force at the lower left corners *)
Variable U : field2 T.

(** Flux balance of the cell-centred variables, Faraday's law for the face-centred field. *)
Definition mbalance (i j v : Z) : T :=
  if v =? IA then nadd (U i j IA) (nmul (nsub (emf i (j + 1)) (emf i j)) dty)
  else if v =? IB then nsub (U i j IB) (nmul (nsub (emf (i + 1) j) (emf i j)) dtx)
  else nsub (nadd (nsub (nadd (U i j v) (nmul (mget (fx i j) v) dtx))
                        (nmul (mget (fx (i + 1) j) v) dtx))
                  (nmul (mget (fy i j) v) dty))
            (nmul (mget (fy i (j + 1)) v) dty).

(** The same contributions applied one by one, in some order. *)
Definition mbalance_any (i j v : Z) (x : T) : Prop :=
  exists ops, Permutation ops
    (if v =? IA then
       [ (fun y => nsub y (nmul (emf i j) dty)); (fun y => nadd y (nmul (emf i (j + 1)) dty)) ]
     else if v =? IB then
       [ (fun y => nadd y (nmul (emf i j) dtx)); (fun y => nsub y (nmul (emf (i + 1) j) dtx)) ]
     else
       [ (fun y => nadd y (nmul (mget (fx i j) v) dtx));
         (fun y => nsub y (nmul (mget (fx (i + 1) j) v) dtx));
         (fun y => nadd y (nmul (mget (fy i j) v) dty));
         (fun y => nsub y (nmul (mget (fy i (j + 1)) v) dty)) ]) /\
    x = fold_left (fun y f => f y) ops (U i j v).

End Balance.

(** One step. *)
Definition mstep2 (U : field2 T) : field2 T :=
  mbalance (mFX (mQ U) U) (mFY (mQ U) U) (mE (mQ U) U) U.
Definition mstep2_any_order (U : field2 T) : Z -> Z -> Z -> T -> Prop :=
  mbalance_any (mFX (mQ U) U) (mFY (mQ U) U) (mE (mQ U) U) U.

End Spec.
