(** * Finite sums over consecutive integers *)
From Coq Require Import ZArith Lia Reals Lra.
From Verif Require Import Num Exec Grid GridFacts.
Local Open Scope R_scope.

(** f a + f (a+1) + ... + f (a+n-1) *)
Fixpoint sumn (a : Z) (n : nat) (f : Z -> R) : R :=
  match n with O => 0 | S n' => f a + sumn (a + 1) n' f end.

Definition sumz (a n : Z) (f : Z -> R) : R := sumn a (Z.to_nat n) f.

Lemma sumn_ext n : forall a f h, (forall i, (a <= i < a + Z.of_nat n)%Z -> f i = h i) -> sumn a n f = sumn a n h.
Proof.
  induction n as [|n IH]; intros a f h H; simpl; auto. rewrite H by lia. f_equal. apply IH.
  intros i Hi. apply H. lia.
Qed.

Lemma sumz_ext a n f h : (forall i, (a <= i < a + n)%Z -> f i = h i) -> sumz a n f = sumz a n h.
Proof. intros H. apply sumn_ext. intros i Hi. apply H. lia. Qed.

Lemma sumn_add n : forall a f h, sumn a n (fun i => f i + h i) = sumn a n f + sumn a n h.
Proof. induction n as [|n IH]; intros; simpl; [lra|]. rewrite IH. lra. Qed.
Lemma sumz_add a n f h : sumz a n (fun i => f i + h i) = sumz a n f + sumz a n h.
Proof. apply sumn_add. Qed.

Lemma sumn_sub n : forall a f h, sumn a n (fun i => f i - h i) = sumn a n f - sumn a n h.
Proof. induction n as [|n IH]; intros; simpl; [lra|]. rewrite IH. lra. Qed.
Lemma sumz_sub a n f h : sumz a n (fun i => f i - h i) = sumz a n f - sumz a n h.
Proof. apply sumn_sub. Qed.

Lemma sumn_zero n : forall a f, (forall i, (a <= i < a + Z.of_nat n)%Z -> f i = 0) -> sumn a n f = 0.
Proof.
  induction n as [|n IH]; intros a f H; simpl; auto. rewrite H by lia. rewrite IH; [lra|].
  intros i Hi. apply H. lia.
Qed.
Lemma sumz_zero a n f : (forall i, (a <= i < a + n)%Z -> f i = 0) -> sumz a n f = 0.
Proof. intros H. apply sumn_zero. intros i Hi. apply H. lia. Qed.

(** Telescoping. *)
Lemma sumn_tele n : forall a f, sumn a n (fun i => f i - f (i + 1)%Z) = f a - f (a + Z.of_nat n)%Z.
Proof.
  induction n as [|n IH]; intros a f; simpl.
  - rewrite Z.add_0_r. lra.
  - rewrite IH. replace (a + 1 + Z.of_nat n)%Z with (a + Z.pos (Pos.of_succ_nat n))%Z by lia. lra.
Qed.
Lemma sumz_tele a n f : (0 <= n)%Z -> sumz a n (fun i => f i - f (i + 1)%Z) = f a - f (a + n)%Z.
Proof. intros H. unfold sumz. rewrite sumn_tele, Z2Nat.id by auto. reflexivity. Qed.

Lemma sumn_scal n : forall a c f, sumn a n (fun i => c * f i) = c * sumn a n f.
Proof. induction n as [|n IH]; intros; simpl; [lra|]. rewrite IH. lra. Qed.
Lemma sumz_scal a n c f : sumz a n (fun i => c * f i) = c * sumz a n f.
Proof. apply sumn_scal. Qed.

(** Double sums. *)
Lemma sumz_swap a n b k (f : Z -> Z -> R) :
  sumz a n (fun i => sumz b k (fun j => f i j)) = sumz b k (fun j => sumz a n (fun i => f i j)).
Proof.
  unfold sumz. generalize (Z.to_nat n) as N. clear n. intros N. revert a.
  induction N as [|N IH]; intros a; simpl.
  - symmetry. apply sumn_zero. auto.
  - rewrite IH, <- sumn_add. reflexivity.
Qed.
