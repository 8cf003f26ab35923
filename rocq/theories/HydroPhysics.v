(** * Properties of the per-cell hydrodynamics functions over the reals *)
From Coq Require Import ZArith List Bool Reals Lra Psatz.
From Verif Require Import Num Exec Grid HydroNum EulerSpec.
Local Open Scope R_scope.

Ltac Rn := unfold n0, n1, n2, nhalf, nquarter in *;
  cbn [nZ nadd nsub nmul ndiv nopp nsqrt nabs nmin nmax nltb nleb nsgn Rnum] in *.

Lemma hs_eq {T} (a b : hs T) :
  hd a = hd b -> hp a = hp b -> hu a = hu b -> hv a = hv b -> hw a = hw b -> a = b.
Proof. destruct a, b; simpl; congruence. Qed.

Lemma Rmax_case a b : (a <= b /\ Rmax a b = b) \/ (b <= a /\ Rmax a b = a).
Proof. destruct (Rle_dec a b); [left|right]; split; try lra; [apply Rmax_right|apply Rmax_left]; lra. Qed.
Lemma Rmin_case a b : (a <= b /\ Rmin a b = a) \/ (b <= a /\ Rmin a b = b).
Proof. destruct (Rle_dec a b); [left|right]; split; try lra; [apply Rmin_left|apply Rmin_right]; lra. Qed.

Section Phys.
Variable S : hset R.
Hypothesis HS : sane S.

Lemma gamma_gt1 : 1 < gamma0 S. Proof. apply HS. Qed.
Lemma smallr_pos : 0 < smallr S. Proof. apply HS. Qed.
Lemma smallc_pos : 0 < smallc S. Proof. apply HS. Qed.
Lemma smallp_pos : 0 < smallp S.
Proof.
  destruct HS as (Hg & Hr & Hc & -> & _). apply Rmult_lt_0_compat; [nra|]. apply Rinv_0_lt_compat; lra.
Qed.
Lemma smallpp_pos : 0 < smallpp S.
Proof. destruct HS as (Hg & Hr & Hc & _ & _ & ->). pose proof smallp_pos. nra. Qed.
Lemma gamma_smallp : gamma0 S * smallp S = smallc S * smallc S.
Proof. destruct HS as (Hg & Hr & Hc & -> & _). field. lra. Qed.

Lemma adm_pos q : admissible S q -> 0 < hd q /\ 0 < hp q.
Proof.
  intros [H1 H2]. pose proof smallr_pos. pose proof smallp_pos. split; [lra|].
  assert (0 < hd q * smallp S) by (apply Rmult_lt_0_compat; lra). lra.
Qed.

(** ** Primitive conversion *)

(** Pressure of a conservative state (rho, E, rho u, rho v, rho w). *)
Definition pressure (d3 : bool) (u : hs R) : R :=
  (gamma0 S - 1) * (hp u - (hu u * hu u + hv u * hv u + (if d3 then hw u * hw u else 0)) / (2 * hd u)).

Definition primd (d3 : bool) (u : hs R) : hs R * R := if d3 then prim3 S u else prim2 S u.

Lemma prim_sound d3 u : let '(q, c) := primd d3 u in
  smallr S <= hd q /\ hd q * smallp S <= hp q /\ 0 < hd q /\ 0 < hp q /\
  smallc S <= c /\ c * c = gamma0 S * hp q / hd q.
Proof.
  assert (Main : forall d p0 : R, smallr S <= d ->
    let p := Rmax p0 (d * smallp S) in
    let c := sqrt (gamma0 S * p / d) in
    smallr S <= d /\ d * smallp S <= p /\ 0 < d /\ 0 < p /\ smallc S <= c /\ c * c = gamma0 S * p / d).
  { intros d p0 Hd p c.
    pose proof smallr_pos. pose proof smallp_pos. pose proof gamma_gt1. pose proof smallc_pos.
    assert (Hp : d * smallp S <= p) by apply Rmax_r.
    assert (0 < d) by lra. assert (0 < d * smallp S) by (apply Rmult_lt_0_compat; lra).
    assert (Hq : smallc S * smallc S <= gamma0 S * p / d).
    { apply Rmult_le_reg_r with d; auto. replace (gamma0 S * p / d * d) with (gamma0 S * p) by (field; lra).
      rewrite <- gamma_smallp. nra. }
    repeat split; try lra.
    - unfold c. rewrite <- (sqrt_square (smallc S)) by lra. apply sqrt_le_1_alt. exact Hq.
    - unfold c. apply sqrt_sqrt. nra. }
  destruct d3; simpl; Rn; apply Main; apply Rmax_r.
Qed.

Lemma prim_inverse d3 u :
  smallr S <= hd u -> hd u * smallp S <= pressure d3 u -> (d3 = false -> hw u = 0) ->
  let q := fst (primd d3 u) in
  hd u = hd q /\ hp u = energy S d3 q /\ hu u = hd q * hu q /\ hv u = hd q * hv q /\ hw u = hd q * hw q.
Proof.
  intros Hr Hp Hw. pose proof smallr_pos. pose proof gamma_gt1. unfold pressure in Hp.
  assert (Hd : 0 < hd u) by lra.
  destruct d3; unfold primd, prim2, prim3, energy, vel2; cbn [fst hd hp hu hv hw mk2]; Rn;
  rewrite (Rmax_left (hd u) (smallr S)) by lra.
  - assert (E : (gamma0 S - 1) * hd u * (hp u / hd u - 1 / 2 *
      (hu u / hd u * (hu u / hd u) + hv u / hd u * (hv u / hd u) + hw u / hd u * (hw u / hd u)))
      = (gamma0 S - 1) * (hp u - (hu u * hu u + hv u * hv u + hw u * hw u) / (2 * hd u)))
      by (field; lra).
    rewrite E, Rmax_left by lra.
    repeat split; field; lra.
  - assert (E : (gamma0 S - 1) * hd u * (hp u / hd u - 1 / 2 *
      (hu u / hd u * (hu u / hd u) + hv u / hd u * (hv u / hd u)))
      = (gamma0 S - 1) * (hp u - (hu u * hu u + hv u * hv u + 0) / (2 * hd u)))
      by (field; lra).
    rewrite E, Rmax_left by lra. rewrite (Hw eq_refl).
    repeat split; field; lra.
Qed.

(** ** Limited slopes *)
Section Slopes.
Variables q qp qm : R.
Notation st := (slope_type S).
Notation sl := (slope1 S q qp qm).
Hypothesis Hst : 0 <= st.

Lemma slope_cases :
  ((q - qm) * (qp - q) * (st * st) <= 0 /\ sl = 0) \/
  (0 < (q - qm) * (qp - q) * (st * st) /\ 0 <= qp - qm /\
   sl = Rmin (Rmin (st * Rabs (q - qm)) (st * Rabs (qp - q))) (Rabs (qp - qm) / 2)) \/
  (0 < (q - qm) * (qp - q) * (st * st) /\ qp - qm < 0 /\
   sl = - Rmin (Rmin (st * Rabs (q - qm)) (st * Rabs (qp - q))) (Rabs (qp - qm) / 2)).
Proof.
  unfold slope1. Rn.
  assert (E : st * (q - qm) * (st * (qp - q)) = (q - qm) * (qp - q) * (st * st)) by ring.
  rewrite E. rewrite !Rabs_mult, (Rabs_pos_eq st) by auto. rewrite (Rabs_pos_eq (1 / 2)) by lra.
  replace (1 / 2 * Rabs (qp - qm)) with (Rabs (qp - qm) / 2) by field.
  destruct (Rle_dec ((q - qm) * (qp - q) * (st * st)) 0).
  - left. split; auto. rewrite Rmin_left; [ring|]. pose proof (Rabs_pos (qp - qm)). lra.
  - right. destruct (Rle_dec 0 (1 / 2 * (qp - qm))); [left|right]; repeat split; lra.
Qed.

Lemma slope_extremum : (q - qm) * (qp - q) <= 0 -> sl = 0.
Proof.
  intros H. destruct slope_cases as [[_ E]|[[Hc _]|[Hc _]]]; auto; exfalso;
  assert (0 <= st * st) by nra; nra.
Qed.

Lemma Rmin3_pos : 0 <= Rmin (Rmin (st * Rabs (q - qm)) (st * Rabs (qp - q))) (Rabs (qp - qm) / 2).
Proof.
  pose proof (Rabs_pos (qp - qm)). pose proof (Rabs_pos (q - qm)). pose proof (Rabs_pos (qp - q)).
  assert (0 <= st * Rabs (q - qm)) by nra. assert (0 <= st * Rabs (qp - q)) by nra.
  repeat apply Rmin_glb; lra.
Qed.

Lemma slope_sign : 0 <= sl * (qp - qm).
Proof.
  pose proof Rmin3_pos. destruct slope_cases as [[_ ->]|[(_ & Hc & ->)|(_ & Hc & ->)]]; nra.
Qed.

Lemma slope_bound : Rabs sl <= Rabs (qp - qm) / 2 /\ Rabs sl <= st * Rabs (q - qm) /\
  Rabs sl <= st * Rabs (qp - q).
Proof.
  pose proof Rmin3_pos as HP.
  pose proof (Rabs_pos (qp - qm)). pose proof (Rabs_pos (q - qm)). pose proof (Rabs_pos (qp - q)).
  assert (0 <= st * Rabs (q - qm)) by nra. assert (0 <= st * Rabs (qp - q)) by nra.
  pose proof (Rmin_l (Rmin (st * Rabs (q - qm)) (st * Rabs (qp - q))) (Rabs (qp - qm) / 2)).
  pose proof (Rmin_r (Rmin (st * Rabs (q - qm)) (st * Rabs (qp - q))) (Rabs (qp - qm) / 2)).
  pose proof (Rmin_l (st * Rabs (q - qm)) (st * Rabs (qp - q))).
  pose proof (Rmin_r (st * Rabs (q - qm)) (st * Rabs (qp - q))).
  destruct slope_cases as [[_ ->]|[(_ & Hc & ->)|(_ & Hc & ->)]];
  rewrite ?Rabs_Ropp, ?Rabs_R0, ?(Rabs_pos_eq _ HP); lra.
Qed.

Lemma slope_linear d : 1 <= st -> q - qm = d -> qp - q = d -> sl = d.
Proof.
  intros H1 E1 E2. assert (E3 : qp - qm = 2 * d) by lra.
  assert (Ha : Rabs (qp - qm) / 2 = Rabs d).
  { rewrite E3, Rabs_mult, (Rabs_pos_eq 2) by lra. field. }
  assert (Hm : Rmin (Rmin (st * Rabs (q - qm)) (st * Rabs (qp - q))) (Rabs (qp - qm) / 2) = Rabs d).
  { rewrite Ha, E1, E2. pose proof (Rabs_pos d). rewrite Rmin_left with (y := st * Rabs d) by lra.
    apply Rmin_right. nra. }
  destruct slope_cases as [[H ->]|[(_ & Hc & ->)|(_ & Hc & ->)]].
  - rewrite E1, E2 in H. destruct (Req_dec d 0) as [->|Hd]; [reflexivity|exfalso].
    assert (0 < d * d) by (apply Rsqr_pos_lt; auto). assert (0 < st * st) by nra.
    assert (0 < d * d * (st * st)) by (apply Rmult_lt_0_compat; auto). lra.
  - rewrite Hm. apply Rabs_pos_eq. lra.
  - rewrite Hm. rewrite Rabs_left by lra. ring.
Qed.

(** Values reconstructed at the two faces stay between neighbouring cells. *)
Lemma slope_tvd : st <= 2 ->
  Rmin q qp <= q + sl / 2 <= Rmax q qp /\ Rmin q qm <= q - sl / 2 <= Rmax q qm.
Proof.
  intros H2. destruct slope_bound as (_ & B1 & B2). pose proof slope_sign as Hs.
  pose proof slope_extremum as He.
  assert (B1' : Rabs sl <= 2 * Rabs (q - qm)) by (pose proof (Rabs_pos (q - qm)); nra).
  assert (B2' : Rabs sl <= 2 * Rabs (qp - q)) by (pose proof (Rabs_pos (qp - q)); nra).
  destruct (Rmin_case q qp) as [[? ->]|[? ->]], (Rmax_case q qp) as [[? ->]|[? ->]],
           (Rmin_case q qm) as [[? ->]|[? ->]], (Rmax_case q qm) as [[? ->]|[? ->]];
  try (rewrite He by nra; lra);
  revert B1' B2'; unfold Rabs; repeat destruct (Rcase_abs _); intros; try lra; nra.
Qed.

End Slopes.

Lemma slope_odd q qp qm : 0 <= slope_type S -> slope1 S q qm qp = - slope1 S q qp qm.
Proof.
  intros Hst. unfold slope1. Rn.
  replace (slope_type S * (q - qp) * (slope_type S * (qm - q)))
    with (slope_type S * (q - qm) * (slope_type S * (qp - q))) by ring.
  replace (Rabs (slope_type S * (q - qp))) with (Rabs (slope_type S * (qp - q)))
    by (rewrite <- Rabs_Ropp; f_equal; ring).
  replace (Rabs (slope_type S * (qm - q))) with (Rabs (slope_type S * (q - qm)))
    by (rewrite <- Rabs_Ropp; f_equal; ring).
  replace (Rabs (1 / 2 * (qm - qp))) with (Rabs (1 / 2 * (qp - qm)))
    by (rewrite <- Rabs_Ropp; f_equal; ring).
  rewrite (Rmin_comm (Rabs (slope_type S * (qp - q)))).
  destruct (Rtotal_order (qp - qm) 0) as [H|[H|H]].
  - destruct (Rle_dec 0 (1 / 2 * (qm - qp))), (Rle_dec 0 (1 / 2 * (qp - qm))); try lra.
  - rewrite H. rewrite Rmult_0_r, Rabs_R0.
    rewrite Rmin_right; [ring|]. destruct (Rle_dec _ 0); [lra|].
    apply Rmin_glb; apply Rabs_pos.
  - destruct (Rle_dec 0 (1 / 2 * (qm - qp))), (Rle_dec 0 (1 / 2 * (qp - qm))); try lra.
Qed.

Lemma slope_neg q qp qm : 0 <= slope_type S -> slope1 S (- q) (- qp) (- qm) = - slope1 S q qp qm.
Proof.
  intros Hst. rewrite <- slope_odd by auto. unfold slope1. Rn.
  replace (- q - - qm) with (qm - q) by ring. replace (- qp - - q) with (q - qp) by ring.
  replace (- qp - - qm) with (qm - qp) by ring.
  rewrite (Rmult_comm (slope_type S * (qm - q))), (Rmin_comm (Rabs (slope_type S * (qm - q)))).
  reflexivity.
Qed.

Lemma slope_const q : 0 <= slope_type S -> slope1 S q q q = 0.
Proof. intros. apply slope_extremum; auto. lra. Qed.

End Phys.
