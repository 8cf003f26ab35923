(** * Symmetries of ideal MHD: what they are

    Independent of the program. Reversing an axis reverses the velocity and the field
    along it; exchanging two axes exchanges the components. (The field is an axial
    vector, so a reflection should also reverse the whole field; reversing the field
    is itself a symmetry, and the two have been combined.) *)
From Coq Require Import ZArith Reals.
From Verif Require Import Num Exec Grid HydroNum MhdNum.
Local Open Scope R_scope.

(** Reversal of the first axis: a state, and the flux through a face across it. *)
Definition mir (q : ms R) : ms R := mkms (md q) (mp q) (- mu q) (mv q) (mw q) (- ma q) (mb q) (mc q).
Definition mirF (F : ms R) : ms R := mkms (- md F) (- mp F) (mu F) (- mv F) (- mw F) (ma F) (- mb F) (- mc F).

(** Exchange of the second and third axes, of the first and second axes. *)
Definition tr (q : ms R) : ms R := mkms (md q) (mp q) (mu q) (mw q) (mv q) (ma q) (mc q) (mb q).
Definition sw (q : ms R) : ms R := mkms (md q) (mp q) (mv q) (mu q) (mw q) (mb q) (ma q) (mc q).

(** Reversal of the magnetic field. *)
Definition rev (q : ms R) : ms R := mkms (md q) (mp q) (mu q) (mv q) (mw q) (- ma q) (- mb q) (- mc q).

(** The four states around an edge along the third axis, lower-left (LL), lower-right
    (RL), upper-left (LR) and upper-right (RR) of it, from the states of the four
    cells at their corners next to the edge ([qRT]: right-top corner of the cell, and
    so on): neighbours share the field component across the face between them. *)
Definition put_ab (q : ms R) (a b : R) : ms R := mkms (md q) (mp q) (mu q) (mv q) (mw q) a b (mc q).
Definition edge_states (qRT qRB qLT qLB : ms R) : ms R * ms R * ms R * ms R :=
  let aT := (ma qRT + ma qLT) / 2 in let aB := (ma qRB + ma qLB) / 2 in
  let bR := (mb qRT + mb qRB) / 2 in let bL := (mb qLT + mb qLB) / 2 in
  (put_ab qRT aT bR, put_ab qLT aT bL, put_ab qRB aB bR, put_ab qLB aB bL).

(** A state seen with the edge's axis as third axis. *)
Definition turned (d : emfdir) (q : ms R) : ms R :=
  match d with
  | EMFZ => q
  | EMFX => mkms (md q) (mp q) (mv q) (mw q) (mu q) (mb q) (mc q) (ma q)
  | EMFY => mkms (md q) (mp q) (mw q) (mu q) (mv q) (mc q) (ma q) (mb q)
  end.
