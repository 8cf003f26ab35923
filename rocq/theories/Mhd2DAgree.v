(** * The fluxes and EMF of versions 0-1 and of version 2 are equal over the reals *)
From Coq Require Import ZArith List Bool Lia Reals Lra.
Import ListNotations.
From Verif Require Import Num Exec Grid HydroNum Kernels Hydro2DSpec HydroPhysics
  MhdNum Mhd2D Mhd2DSpec MhdFacts Mhd2DFacts Mhd2DV2.
Local Open Scope Z_scope.

Section Agree.
Variable S : hset R.
Variable dt : R.
Hypothesis Hslope : mslope_ok S.
Variable Q : Z -> Z -> ms R.
Variable U : field2 R.

Definition table (i j : Z) : option (traced R) :=
  trace_mhd2 S (nbq (map (fun c => Q (fst c) (snd c)) (nb3 i j)))
    (nbb (map (fun c => (fun a b => mkbf (U a b IA) (U a b IB) (U a b IC)) (fst c) (snd c)) (nb4 i j)))
    (ndiv dt (dx S)) (ndiv dt (dy S)).

Lemma mtr_table i j : mtr S dt Q U i j = match table i j with Some t => t | None => mtzero end.
Proof.
  unfold mtr, table. erewrite trace_mhd2_ext; [reflexivity| |].
  - intros. symmetry. apply (nb3_list Q); auto.
  - intros. symmetry. apply (nb4_list (fun a b => mkbf (U a b IA) (U a b IB) (U a b IC))); lia.
Qed.

Lemma el_10 i j : vEl Q U (i + 1) j =
  elec2 (Q i (j - 1)) (Q i j) (Q (i + 1) (j - 1)) (Q (i + 1) j)
        (U (i + 1) (j - 1) IA) (U (i + 1) j IA) (U i j IB) (U (i + 1) j IB).
Proof. unfold vEl. replace (i + 1 - 1) with i by lia. reflexivity. Qed.
Lemma el_01 i j : vEl Q U i (j + 1) =
  elec2 (Q (i - 1) j) (Q (i - 1) (j + 1)) (Q i j) (Q i (j + 1))
        (U i j IA) (U i (j + 1) IA) (U (i - 1) (j + 1) IB) (U i (j + 1) IB).
Proof. unfold vEl. replace (j + 1 - 1) with j by lia. reflexivity. Qed.
Lemma el_11 i j : vEl Q U (i + 1) (j + 1) =
  elec2 (Q i j) (Q i (j + 1)) (Q (i + 1) j) (Q (i + 1) (j + 1))
        (U (i + 1) j IA) (U (i + 1) (j + 1) IA) (U i (j + 1) IB) (U (i + 1) (j + 1) IB).
Proof. unfold vEl. replace (j + 1 - 1) with j by lia. replace (i + 1 - 1) with i by lia. reflexivity. Qed.

Lemma ms_eq (x y : ms R) : md x = md y -> mp x = mp y -> mu x = mu y -> mv x = mv y -> mw x = mw y ->
  ma x = ma y -> mb x = mb y -> mc x = mc y -> x = y.
Proof. destruct x, y; simpl; intros; congruence. Qed.

Ltac cell i j :=
  rewrite mtr_table; unfold table, trace_mhd2, mslopes2;
  pose proof Hslope as Hs; unfold mslope_ok in Hs; rewrite Hs; clear Hs;
  unfold nbq, nbb; cbn [Nat.mul Nat.add nb3 nb4 map nth fst snd bx by_ bz];
  rewrite <- ?el_10, <- ?el_01, <- ?el_11; fold (vEl Q U i j);
  cbn [t_mx t_px t_my t_py t_rt t_rb t_lt t_lb].

Ltac parts :=
  apply ms_eq; cbn [mface vQ2 vSx vSy mfloor set_a set_b set_ab mmap2 mscale source2 mslope
  md mp mu mv mw ma mb mc]; Rn; unfold Rdiv;
  [ f_equal; ring | f_equal; [f_equal; f_equal; ring | ring] | ring | ring | ring | ring | ring | ring ].

Lemma px_v2 i j : t_px (mtr S dt Q U i j) =
  set_a (mface S nsub (vQ2 S dt Q U i j) (vSx S Q U i j)) (nadd (U i j IA) (vsx S dt Q U i j)).
Proof. cell i j. unfold vsx. parts. Qed.

Lemma mx_v2 i j : t_mx (mtr S dt Q U i j) =
  set_a (mface S nadd (vQ2 S dt Q U i j) (vSx S Q U i j)) (nadd (U (i + 1) j IA) (vsx S dt Q U (i + 1) j)).
Proof. cell i j. unfold vsx. parts. Qed.

Lemma py_v2 i j : t_py (mtr S dt Q U i j) =
  set_b (mface S nsub (vQ2 S dt Q U i j) (vSy S Q U i j)) (nadd (U i j IB) (vsy S dt Q U i j)).
Proof. cell i j. unfold vsy. parts. Qed.

Lemma my_v2 i j : t_my (mtr S dt Q U i j) =
  set_b (mface S nadd (vQ2 S dt Q U i j) (vSy S Q U i j)) (nadd (U i (j + 1) IB) (vsy S dt Q U i (j + 1))).
Proof. cell i j. unfold vsy. parts. Qed.

Lemma rt_v2 i j : t_rt (mtr S dt Q U i j) = vcorner S dt Q U i j (i + 1) j i (j + 1) 1 1 1 1.
Proof. cell i j. unfold vcorner, vsx, vsy. replace (j + 1 + 1) with (j + 2) by lia.
  replace (i + 1 + 1) with (i + 2) by lia. parts. Qed.
Lemma rb_v2 i j : t_rb (mtr S dt Q U i j) = vcorner S dt Q U i j (i + 1) j i j 1 (-1) (-1) 1.
Proof. cell i j. unfold vcorner, vsx, vsy. parts. Qed.
Lemma lt_v2 i j : t_lt (mtr S dt Q U i j) = vcorner S dt Q U i j i j i (j + 1) (-1) 1 1 (-1).
Proof. cell i j. unfold vcorner, vsx, vsy. parts. Qed.
Lemma lb_v2 i j : t_lb (mtr S dt Q U i j) = vcorner S dt Q U i j i j i j (-1) (-1) (-1) (-1).
Proof. cell i j. unfold vcorner, vsx, vsy. parts. Qed.

Lemma vFX_eq i j : vFX S dt Q U i j = mFX S dt Q U i j.
Proof. unfold mFX. rewrite px_v2, mx_v2. replace (i - 1 + 1) with i by lia. reflexivity. Qed.
Lemma vFY_eq i j : vFY S dt Q U i j = mFY S dt Q U i j.
Proof. unfold mFY. rewrite py_v2, my_v2. replace (j - 1 + 1) with j by lia. reflexivity. Qed.
Lemma vE_eq i j : vE S dt Q U i j = mE S dt Q U i j.
Proof. unfold mE, vE. rewrite rt_v2, rb_v2, lt_v2, lb_v2. reflexivity. Qed.
End Agree.
