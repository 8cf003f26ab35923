(** Newton iteration of the two-shock solver between a gas and its mirror image
    (RiemannSolvers.h:84-111), in the variable t = w / w0, where w is the mass
    flux through the wave and w0 its acoustic value.  With
    m = (gamma + 1) / 2 * Mach number, the exact solution satisfies
    t^2 = 1 + m t, and one iteration maps t to t' with
    t'^2 = t^2 + 2 t^2 / (t^2 + 1) * (1 + m t - t^2). *)
From Coq Require Import Reals Lra Psatz Lia.
Local Open Scope R_scope.

Section Wall.
Variable m : R.

(** Residual. *)
Definition resid (t : R) : R := 1 + m * t - t * t.
(** Relative residual. *)
Definition rres (t : R) : R := resid t / (t * t + 1).

Definition step_to (t t' : R) : Prop :=
  0 < t' /\ t' * t' = t * t + 2 * (t * t) / (t * t + 1) * resid t.

Hypothesis Hm : 0 <= m.

Section One.
Variables t t' : R.
Hypothesis Ht : 1 <= t.
Hypothesis HR : 0 <= resid t.
Hypothesis HS : step_to t t'.

Let k := t' / t.
Let T := t * t.

Lemma T_ge1 : 1 <= T. Proof. unfold T. nra. Qed.

Lemma k_sq : k * k = 1 + 2 * rres t.
Proof.
  destruct HS as [_ E]. unfold k, rres. pose proof T_ge1 as HT. unfold T in HT.
  replace (t' / t * (t' / t)) with (t' * t' / (t * t)) by (field; lra). rewrite E. field. split; lra.
Qed.

Lemma k_ge1 : 1 <= k.
Proof.
  pose proof k_sq as E. pose proof T_ge1 as HT. unfold T in HT.
  assert (0 <= rres t) by (apply Rmult_le_pos; [exact HR | left; apply Rinv_0_lt_compat; lra]).
  assert (0 < k) by (unfold k; apply Rdiv_lt_0_compat; [apply HS | lra]). nra.
Qed.

Lemma t'_k : t' = k * t. Proof. unfold k. field. lra. Qed.

Lemma step_up : t <= t'.
Proof. rewrite t'_k. pose proof k_ge1. nra. Qed.

(** Relative residual after the iteration. *)
Lemma rres_next : rres t' = (k - 1) * (k - 1) * (k + 2 + T * k) / (2 * (k * k * T + 1)).
Proof.
  pose proof T_ge1 as HT. pose proof k_ge1 as Hk. pose proof k_sq as E.
  assert (HX : resid t = rres t * (T + 1)) by (unfold rres, T; field; unfold T in HT; lra).
  assert (Em : m * t = rres t * (T + 1) + T - 1) by (rewrite <- HX; unfold resid, T; ring).
  assert (EX : rres t = (k * k - 1) / 2) by lra.
  assert (Hd : 0 < k * k * T + 1) by (assert (0 <= k * k * T) by (apply Rmult_le_pos; [apply Rmult_le_pos|]; lra); lra).
  unfold rres at 1. unfold resid. rewrite t'_k.
  replace (k * t * (k * t)) with (k * k * T) by (unfold T; ring).
  replace (m * (k * t)) with (k * (m * t)) by ring. rewrite Em, EX. field. lra.
Qed.

Lemma resid_next : 0 <= resid t'.
Proof.
  pose proof T_ge1 as HT. pose proof k_ge1 as Hk. pose proof rres_next as E.
  assert (Hd : 0 < k * k * T + 1) by (assert (0 <= k * k * T) by (apply Rmult_le_pos; [apply Rmult_le_pos|]; lra); lra).
  assert (0 <= rres t').
  { rewrite E. apply Rmult_le_pos; [|left; apply Rinv_0_lt_compat; lra].
    apply Rmult_le_pos; [nra|]. assert (0 <= T * k) by nra. lra. }
  assert (0 < t' * t' + 1) by nra.
  replace (resid t') with (rres t' * (t' * t' + 1)) by (unfold rres; field; lra). nra.
Qed.

Lemma rres_sq : rres t' <= rres t * rres t.
Proof.
  pose proof T_ge1 as HT. pose proof k_ge1 as Hk. pose proof k_sq as E.
  assert (EX : rres t = (k * k - 1) / 2) by lra.
  assert (H0 : 0 <= k * k * T) by (apply Rmult_le_pos; [apply Rmult_le_pos|]; lra).
  rewrite rres_next, EX.
  assert (Hm1 : 2 * (k + 2 + T * k) <= (k + 1) * (k + 1) * (k * k * T + 1)).
  { assert (k <= k * k) by nra. assert (A : T * k <= k * k * T) by nra.
    assert (4 <= (k + 1) * (k + 1)) by nra.
    assert (4 * (k * k * T + 1) <= (k + 1) * (k + 1) * (k * k * T + 1)) by (apply Rmult_le_compat_r; lra).
    assert (k <= k * k * T) by nra. lra. }
  apply Rmult_le_reg_r with (2 * (k * k * T + 1)); [lra|].
  unfold Rdiv at 1. rewrite Rmult_assoc, Rinv_l, Rmult_1_r by lra.
  replace ((k * k - 1) / 2 * ((k * k - 1) / 2) * (2 * (k * k * T + 1)))
    with ((k - 1) * (k - 1) * ((k + 1) * (k + 1) * (k * k * T + 1)) / 2) by field.
  assert (0 <= (k - 1) * (k - 1)) by nra.
  assert ((k - 1) * (k - 1) * (2 * (k + 2 + T * k)) <= (k - 1) * (k - 1) * ((k + 1) * (k + 1) * (k * k * T + 1)))
    by (apply Rmult_le_compat_l; auto). lra.
Qed.

(** Decrease of a large relative residual. *)
Lemma rres_big b K b' : rres t <= b -> 1 <= K -> 1 + 2 * b <= K * K ->
  (K - 1) * (K * K - 1) <= b' * (K * K + 1) -> rres t' <= b'.
Proof.
  intros Hb HK1 HK Hb'. pose proof T_ge1 as HT. pose proof k_ge1 as Hk. pose proof k_sq as E.
  assert (HkK : k <= K) by nra.
  assert (H0 : 0 <= k * k * T) by (apply Rmult_le_pos; [apply Rmult_le_pos|]; lra).
  assert (A : rres t' <= (k - 1) * (k * k - 1) / (k * k + 1)).
  { rewrite rres_next.
    apply Rmult_le_reg_r with (2 * (k * k * T + 1)); [lra|].
    unfold Rdiv at 1. rewrite Rmult_assoc, Rinv_l, Rmult_1_r by lra.
    apply Rmult_le_reg_r with (k * k + 1); [nra|].
    replace ((k - 1) * (k * k - 1) / (k * k + 1) * (2 * (k * k * T + 1)) * (k * k + 1))
      with ((k - 1) * (k - 1) * (2 * (k + 1) * (k * k * T + 1))) by (field; nra).
    rewrite Rmult_assoc. apply Rmult_le_compat_l; [nra|].
    assert (0 <= (T - 1) * (k * k * k + 2 * (k * k) - k)) by (apply Rmult_le_pos; [lra|]; assert (k <= k * k) by nra; assert (k * k <= k * k * k) by nra; lra).
    nra. }
  apply Rle_trans with (1 := A).
  apply Rmult_le_reg_r with (k * k + 1); [nra|].
  unfold Rdiv. rewrite Rmult_assoc, Rinv_l, Rmult_1_r by nra.
  assert (B1 : (k - 1) * (k * k - 1) <= (K - 1) * (k * k - 1)) by (apply Rmult_le_compat_r; nra).
  apply Rle_trans with (1 := B1).
  assert (HKK : 0 < K * K + 1) by nra.
  apply Rmult_le_reg_r with (K * K + 1); auto.
  assert (B2 : (K - 1) * (k * k - 1) * (K * K + 1) <= (K - 1) * (K * K - 1) * (k * k + 1)).
  { assert (k * k <= K * K) by nra. replace ((K - 1) * (k * k - 1) * (K * K + 1)) with ((K - 1) * ((k * k - 1) * (K * K + 1))) by ring.
    rewrite Rmult_assoc. apply Rmult_le_compat_l; [lra|]. nra. }
  apply Rle_trans with (1 := B2).
  replace (b' * (k * k + 1) * (K * K + 1)) with (b' * (K * K + 1) * (k * k + 1)) by ring.
  apply Rmult_le_compat_r; [nra|exact Hb'].
Qed.

(** Residual after a small step. *)
Lemma resid_stop e : 0 <= e -> e <= 1 / 100 -> t' * t' - t * t <= e * (t' * t') -> resid t' <= 2 * (e * e) * (t' * t').
Proof.
  intros He He1 HD. pose proof T_ge1 as HT. pose proof k_ge1 as Hk. pose proof k_sq as E. pose proof rres_sq as HQ.
  pose proof step_up as Hup.
  assert (EX : rres t = (k * k - 1) / 2) by lra.
  assert (Ek : t' * t' = k * k * T) by (rewrite t'_k; unfold T; ring).
  fold T in HD. rewrite Ek in *.
  assert (HX : k * k - 1 <= e * (k * k)).
  { apply Rmult_le_reg_r with T; [lra|]. lra. }
  assert (Hk2 : k * k <= 100 / 99) by nra.
  assert (HX2 : rres t <= e * (100 / 99) / 2) by (rewrite EX; nra).
  assert (HX0 : 0 <= rres t) by (rewrite EX; nra).
  assert (HX3 : rres t' <= e * e * (2501/9801)).
  { apply Rle_trans with (1 := HQ). assert (rres t * rres t <= (e * (100 / 99) / 2) * (e * (100 / 99) / 2)) by (apply Rmult_le_compat; lra). nra. }
  assert (Hd : 0 < t' * t' + 1) by nra.
  replace (resid t') with (rres t' * (t' * t' + 1)) by (unfold rres; field; lra).
  rewrite Ek. assert (1 <= k * k * T) by nra.
  apply Rle_trans with (e * e * (2501 / 9801) * (k * k * T + 1)); [apply Rmult_le_compat_r; lra|].
  assert (0 <= e * e) by nra. nra.
Qed.

End One.

(** Below the exact solution. *)
Lemma below t : 0 <= resid t -> 0 <= t -> t <= m + 1.
Proof. unfold resid. intros H Ht. destruct (Rle_dec t (m + 1)); auto. exfalso. nra. Qed.

(** Residual at most 1: the shock moves faster than the gas. *)
Lemma resid_fast t : 0 < t -> resid t <= 1 -> m <= t.
Proof. unfold resid. intros Ht H. destruct (Rle_dec m t); auto. exfalso. nra. Qed.

(** Upper bound on an iteration. *)
Lemma step_bound t t' : 1 <= t -> step_to t t' -> t' * t' <= 3 + 2 * m * t.
Proof.
  intros Ht [_ E]. rewrite E. unfold resid. assert (HT : 1 <= t * t) by nra.
  apply Rmult_le_reg_r with (t * t + 1); [lra|].
  replace ((t * t + 2 * (t * t) / (t * t + 1) * (1 + m * t - t * t)) * (t * t + 1))
    with (t * t * (3 + 2 * m * t - t * t)) by (field; lra).
  assert (0 <= 2 * m * t) by nra. nra.
Qed.

End Wall.

(** Bounds on the relative residual when [n] iterations are left. *)
Definition left_bound (n : nat) : R :=
  match n with
  | 10%nat => 317 | 9%nat => 245 / 10 | 8%nat => 59 / 10 | 7%nat => 23 / 10 | 6%nat => 1 | 5%nat => 4 / 10
  | 4%nat => 16 / 100 | 3%nat => 3 / 100 | 2%nat => 1 / 1000 | 1%nat => 1 / 1000000 | _ => 1 / 1000000000000
  end.

Lemma left_step m t t' n : 0 <= m -> 1 <= t -> 0 <= resid m t -> step_to m t t' -> (n < 10)%nat ->
  rres m t <= left_bound (S n) -> rres m t' <= left_bound n.
Proof.
  intros Hm Ht HR HS Hn Hb.
  pose proof (rres_sq m t t' Ht HR HS) as HQ.
  assert (H0 : 0 <= rres m t) by (apply Rmult_le_pos; [exact HR | left; apply Rinv_0_lt_compat; nra]).
  destruct n as [|[|[|[|[|[|[|[|[|[|n]]]]]]]]]]; cbn [left_bound] in *; try (nra); try lia.
  - apply (rres_big m t t' Ht HR HS 1 (174/100)); lra.
  - apply (rres_big m t t' Ht HR HS (23/10) (24/10)); lra.
  - apply (rres_big m t t' Ht HR HS (59/10) (36/10)); lra.
  - apply (rres_big m t t' Ht HR HS (245/10) (71/10)); lra.
  - apply (rres_big m t t' Ht HR HS 317 (252/10)); lra.
Qed.

(** The first guess, t^2 = 1 + m. *)
Lemma left_first m t : 0 <= m <= 100000 -> 0 < t -> t * t = 1 + m -> 1 <= t /\ 0 <= resid m t /\ rres m t <= left_bound 10.
Proof.
  intros Hm Ht E. assert (H1 : 1 <= t) by nra. split; auto.
  assert (E2 : resid m t = m * (t - 1)) by (unfold resid; lra).
  split; [rewrite E2; nra|]. unfold rres. rewrite E2, E. cbn [left_bound].
  apply Rmult_le_reg_r with (1 + m + 1); [lra|]. unfold Rdiv. rewrite Rmult_assoc, Rinv_l, Rmult_1_r by lra.
  assert (t <= 317) by nra. nra.
Qed.

(** At the last iteration. *)
Lemma left_last m t : 0 <= m <= 100000 -> 1 <= t -> 0 <= resid m t -> rres m t <= left_bound 0 -> resid m t <= 1.
Proof.
  intros Hm Ht HR HX. pose proof (below m (proj1 Hm) t HR ltac:(lra)) as HB. cbn [left_bound] in HX.
  replace (resid m t) with (rres m t * (t * t + 1)) by (unfold rres; field; nra).
  assert (t * t <= 100001 * 100001) by nra.
  assert (0 < t * t + 1) by nra.
  apply Rle_trans with (1 / 1000000000000 * (t * t + 1)); [apply Rmult_le_compat_r; lra|]. lra.
Qed.

(** When the iteration stops early. *)
Lemma left_stop m t t' : 0 <= m <= 100000 -> 1 <= t -> 0 <= resid m t -> step_to m t t' ->
  t' * t' - t * t <= 2 / 1000000 * (t' * t') -> resid m t' <= 1.
Proof.
  intros Hm Ht HR HS HD.
  pose proof (resid_stop m t t' Ht HR HS (2 / 1000000) ltac:(lra) ltac:(lra) HD) as HQ.
  pose proof (step_up m t t' Ht HR HS) as Hup.
  pose proof (below m (proj1 Hm) t' (resid_next m t t' Ht HR HS) ltac:(lra)) as HB.
  assert (t' * t' <= 100001 * 100001) by nra. lra.
Qed.
