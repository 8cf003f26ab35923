(** * Riemann solvers over the reals: consistency, symmetry, upwinding *)
From Coq Require Import ZArith List Bool Reals Lra Psatz.
From Verif Require Import Num Exec Grid HydroNum EulerSpec HydroPhysics TwoShock.
Local Open Scope R_scope.

Section Solvers.
Variable S : hset R.
Hypothesis HS : sane S.
Variable d3 : bool.

(** ** LLF and HLL *)

Lemma side_llf q : side_flux_llf d3 q (cons_of S d3 q) = euler_flux S d3 q.
Proof.
  pose proof (gamma_gt1 S HS).
  unfold side_flux_llf, cons_of, euler_flux, energy, vel2; destruct d3; apply hs_eq; cbn [hd hp hu hv hw]; Rn;
  try reflexivity; try ring; field; lra.
Qed.

Lemma side_hll q : side_flux_hll d3 q (cons_of S d3 q) = euler_flux S d3 q.
Proof.
  pose proof (gamma_gt1 S HS).
  unfold side_flux_hll, cons_of, euler_flux, energy, vel2; destruct d3; apply hs_eq; cbn [hd hp hu hv hw]; Rn;
  try reflexivity; try ring; field; lra.
Qed.

Lemma llf_consistent q : riemann_llf S d3 q q = euler_flux S d3 q.
Proof.
  rewrite <- side_llf. unfold riemann_llf, map4. cbv zeta.
  apply hs_eq; cbn [hd hp hu hv hw]; Rn; try field.
  unfold side_flux_llf. cbn [hw]. Rn. destruct d3; [field|reflexivity].
Qed.

Lemma mirror_cons q : cons_of S d3 (mirror q) =
  mkhs (hd (cons_of S d3 q)) (hp (cons_of S d3 q)) (- hu (cons_of S d3 q))
       (hv (cons_of S d3 q)) (hw (cons_of S d3 q)).
Proof.
  unfold cons_of, mirror. destruct d3; apply hs_eq; cbn [hd hp hu hv hw]; Rn; ring.
Qed.

Lemma mirror_side_llf q :
  side_flux_llf d3 (mirror q) (cons_of S d3 (mirror q)) = mirror_flux (side_flux_llf d3 q (cons_of S d3 q)).
Proof.
  rewrite mirror_cons. unfold side_flux_llf, mirror, mirror_flux.
  destruct d3; apply hs_eq; cbn [hd hp hu hv hw]; Rn; ring.
Qed.

Lemma mirror_side_hll q :
  side_flux_hll d3 (mirror q) (cons_of S d3 (mirror q)) = mirror_flux (side_flux_hll d3 q (cons_of S d3 q)).
Proof.
  rewrite mirror_cons. unfold side_flux_hll, mirror, mirror_flux.
  destruct d3; apply hs_eq; cbn [hd hp hu hv hw]; Rn; ring.
Qed.

Lemma llf_mirror ql qr :
  riemann_llf S d3 (mirror qr) (mirror ql) = mirror_flux (riemann_llf S d3 ql qr).
Proof.
  unfold riemann_llf. cbv zeta. rewrite !mirror_side_llf, !mirror_cons.
  replace (hu (mirror qr)) with (- hu qr) by reflexivity.
  replace (hu (mirror ql)) with (- hu ql) by reflexivity.
  replace (hd (mirror qr)) with (hd qr) by reflexivity.
  replace (hd (mirror ql)) with (hd ql) by reflexivity.
  replace (hp (mirror qr)) with (hp qr) by reflexivity.
  replace (hp (mirror ql)) with (hp ql) by reflexivity.
  Rn. rewrite !Rabs_Ropp.
  rewrite (Rmax_comm (Rabs (hu qr) + _)).
  set (cm := Rmax (Rabs (hu ql) + _) _). clearbody cm.
  unfold map4, mirror_flux. apply hs_eq; cbn [hd hp hu hv hw]; Rn; try field.
  destruct d3; [field|ring].
Qed.

Section Waves.
Variables ql qr : hs R.
Notation rl := (Rmax (hd ql) (smallr S)).
Notation rr := (Rmax (hd qr) (smallr S)).
Notation pl := (Rmax (hp ql) (rl * smallp S)).
Notation pr := (Rmax (hp qr) (rr * smallp S)).

Lemma floors_pos q : 0 < Rmax (hd q) (smallr S) /\
  0 < Rmax (hp q) (Rmax (hd q) (smallr S) * smallp S) /\
  smallc S * smallc S <= gamma0 S * Rmax (hp q) (Rmax (hd q) (smallr S) * smallp S) / Rmax (hd q) (smallr S).
Proof.
  pose proof (smallr_pos S HS). pose proof (smallp_pos S HS). pose proof (gamma_gt1 S HS).
  pose proof (Rmax_r (hd q) (smallr S)) as H2.
  pose proof (Rmax_r (hp q) (Rmax (hd q) (smallr S) * smallp S)) as H3.
  set (r := Rmax (hd q) (smallr S)) in *. set (p := Rmax (hp q) (r * smallp S)) in *.
  assert (0 < r * smallp S) by (apply Rmult_lt_0_compat; lra).
  repeat split; try lra.
  apply Rmult_le_reg_r with r; [lra|].
  replace (gamma0 S * p / r * r) with (gamma0 S * p) by (field; lra).
  rewrite <- (gamma_smallp S HS). nra.
Qed.

Lemma sound_floor_pos q :
  0 < sqrt (gamma0 S * Rmax (hp q) (Rmax (hd q) (smallr S) * smallp S) / Rmax (hd q) (smallr S)).
Proof.
  destruct (floors_pos q) as (_ & _ & H). pose proof (smallc_pos S HS). apply sqrt_lt_R0. nra.
Qed.
End Waves.

Lemma adm_floor q : admissible S q ->
  Rmax (hd q) (smallr S) = hd q /\ Rmax (hp q) (hd q * smallp S) = hp q.
Proof. intros [H1 H2]. split; apply Rmax_left; lra. Qed.

Lemma hll_consistent q : riemann_hll S d3 q q = euler_flux S d3 q.
Proof.
  rewrite <- side_hll. unfold riemann_hll, map4. cbv zeta. Rn.
  pose proof (sound_floor_pos q) as Hc.
  set (c := sqrt _) in *. clearbody c.
  rewrite (Rmin_left (hu q) (hu q)), (Rmax_left (hu q) (hu q)), (Rmax_left c c) by lra.
  set (SL := Rmin (hu q - c) 0). set (SR := Rmax (hu q + c) 0).
  assert (SL <= hu q - c) by apply Rmin_l. assert (hu q + c <= SR) by apply Rmax_l.
  clearbody SL SR.
  apply hs_eq; cbn [hd hp hu hv hw]; try (field; lra).
  unfold side_flux_hll. cbn [hw]. Rn. destruct d3; [field; lra|reflexivity].
Qed.

Lemma Rmin_opp a b : Rmin (- a) (- b) = - Rmax a b.
Proof. destruct (Rmax_case a b) as [[? ->]|[? ->]]; [rewrite Rmin_right|rewrite Rmin_left]; lra. Qed.
Lemma Rmax_opp a b : Rmax (- a) (- b) = - Rmin a b.
Proof. destruct (Rmin_case a b) as [[? ->]|[? ->]]; [rewrite Rmax_left|rewrite Rmax_right]; lra. Qed.

Lemma hll_mirror ql qr :
  riemann_hll S d3 (mirror qr) (mirror ql) = mirror_flux (riemann_hll S d3 ql qr).
Proof.
  unfold riemann_hll. cbv zeta. rewrite !mirror_side_hll, !mirror_cons.
  replace (hu (mirror qr)) with (- hu qr) by reflexivity.
  replace (hu (mirror ql)) with (- hu ql) by reflexivity.
  replace (hd (mirror qr)) with (hd qr) by reflexivity.
  replace (hd (mirror ql)) with (hd ql) by reflexivity.
  replace (hp (mirror qr)) with (hp qr) by reflexivity.
  replace (hp (mirror ql)) with (hp ql) by reflexivity.
  Rn. pose proof (sound_floor_pos ql) as Hc1. pose proof (sound_floor_pos qr) as Hc2.
  set (cl := sqrt (gamma0 S * Rmax (hp ql) _ / _)) in *.
  set (cr := sqrt (gamma0 S * Rmax (hp qr) _ / _)) in *.
  clearbody cl cr.
  rewrite Rmin_opp, Rmax_opp, (Rmax_comm cr cl), (Rmax_comm (hu qr)), (Rmin_comm (hu qr)).
  set (c := Rmax cl cr).
  assert (0 < c) by (pose proof (Rmax_l cl cr); unfold c; lra).
  assert (Rmin (hu ql) (hu qr) <= Rmax (hu ql) (hu qr))
    by (pose proof (Rmin_l (hu ql) (hu qr)); pose proof (Rmax_l (hu ql) (hu qr)); lra).
  replace (- Rmax (hu ql) (hu qr) - c) with (- (Rmax (hu ql) (hu qr) + c)) by ring.
  replace (- Rmin (hu ql) (hu qr) + c) with (- (Rmin (hu ql) (hu qr) - c)) by ring.
  replace (Rmin (- (Rmax (hu ql) (hu qr) + c)) 0) with (- Rmax (Rmax (hu ql) (hu qr) + c) 0)
    by (rewrite <- Rmin_opp; f_equal; ring).
  replace (Rmax (- (Rmin (hu ql) (hu qr) - c)) 0) with (- Rmin (Rmin (hu ql) (hu qr) - c) 0)
    by (rewrite <- Rmax_opp; f_equal; ring).
  set (SL := Rmin (Rmin (hu ql) (hu qr) - c) 0). set (SR := Rmax (Rmax (hu ql) (hu qr) + c) 0).
  assert (SL <= Rmin (hu ql) (hu qr) - c) by apply Rmin_l.
  assert (Rmax (hu ql) (hu qr) + c <= SR) by apply Rmax_l.
  assert (SR - SL <> 0) by lra. clearbody SL SR.
  unfold map4, mirror_flux. apply hs_eq; cbn [hd hp hu hv hw]; Rn; try (field; lra).
  destruct d3; [field; lra|ring].
Qed.

Lemma sound_floor q : admissible S q ->
  sqrt (gamma0 S * Rmax (hp q) (Rmax (hd q) (smallr S) * smallp S) / Rmax (hd q) (smallr S)) = sound S q.
Proof. intros Ha. destruct (adm_floor q Ha) as [E1 E2]. rewrite E1, E2. reflexivity. Qed.

Lemma hll_upwind_right ql qr : admissible S ql -> admissible S qr -> supersonic_right S ql qr ->
  riemann_hll S d3 ql qr = euler_flux S d3 ql.
Proof.
  intros Al Ar H. unfold supersonic_right in H. rewrite <- side_hll.
  unfold riemann_hll. cbv zeta. Rn. pose proof (sound_floor_pos ql) as Hc.
  rewrite !sound_floor in * by auto.
  rewrite (Rmin_right _ 0) by lra.
  pose proof (Rmax_l (sound S ql) (sound S qr)). pose proof (Rmin_l (hu ql) (hu qr)).
  pose proof (Rmax_l (hu ql) (hu qr)).
  rewrite (Rmax_left _ 0) by lra.
  set (SR := Rmax (hu ql) (hu qr) + _) in *. assert (0 < SR) by (unfold SR; lra). clearbody SR.
  unfold map4. apply hs_eq; cbn [hd hp hu hv hw]; try (field; lra).
  unfold side_flux_hll. cbn [hw]. Rn. destruct d3; [field; lra|reflexivity].
Qed.

(** Symmetric configurations follow from the right-going ones. *)
Lemma mirror_mirror q : mirror (mirror q) = q.
Proof. destruct q; unfold mirror; simpl. f_equal. ring. Qed.
Lemma mirror_flux_mirror f : mirror_flux (mirror_flux f) = f.
Proof. destruct f; unfold mirror_flux; simpl. f_equal; ring. Qed.
Lemma sound_mirror q : sound S (mirror q) = sound S q.
Proof. reflexivity. Qed.
Lemma adm_mirror q : admissible S q -> admissible S (mirror q).
Proof. auto. Qed.
Lemma euler_mirror q : euler_flux S d3 (mirror q) = mirror_flux (euler_flux S d3 q).
Proof.
  unfold euler_flux, mirror_flux, mirror, energy, vel2; destruct d3;
  apply hs_eq; cbn [hd hp hu hv hw]; unfold Rdiv; ring.
Qed.

Lemma supersonic_mirror ql qr :
  supersonic_left S ql qr -> supersonic_right S (mirror qr) (mirror ql).
Proof.
  unfold supersonic_left, supersonic_right. rewrite !sound_mirror. unfold mirror; cbn [hu].
  rewrite Rmin_opp, (Rmax_comm (sound S qr)), (Rmax_comm (hu qr)). lra.
Qed.

Lemma upwind_left_from_right (riem : hs R -> hs R -> hs R) :
  (forall ql qr, admissible S ql -> admissible S qr -> supersonic_right S ql qr -> riem ql qr = euler_flux S d3 ql) ->
  (forall ql qr, riem (mirror qr) (mirror ql) = mirror_flux (riem ql qr)) ->
  forall ql qr, admissible S ql -> admissible S qr -> supersonic_left S ql qr -> riem ql qr = euler_flux S d3 qr.
Proof.
  intros HR HM ql qr Al Ar H. rewrite <- (mirror_flux_mirror (riem ql qr)), <- HM.
  rewrite HR by (auto using supersonic_mirror). rewrite euler_mirror. apply mirror_flux_mirror.
Qed.

(** ** HLLC *)

(** The intermediate quantities of [riemann_hllc]. *)
Definition hllc_total (q : hs R) (r p : R) : R :=
  p * (1 / (gamma0 S - 1)) +
  (if d3 then 1 / 2 * r * hu q * hu q + 1 / 2 * r * hv q * hv q + 1 / 2 * r * hw q * hw q
   else 1 / 2 * r * hu q * hu q + 1 / 2 * r * hv q * hv q).

Definition hllc_c (q : hs R) (r p : R) : R := sqrt (Rmax (gamma0 S * p / r) (smallc S * smallc S)).

Lemma hllc_c_floor q : hllc_c q (Rmax (hd q) (smallr S)) (Rmax (hp q) (Rmax (hd q) (smallr S) * smallp S))
  = sqrt (gamma0 S * Rmax (hp q) (Rmax (hd q) (smallr S) * smallp S) / Rmax (hd q) (smallr S)).
Proof. destruct (floors_pos q) as (_ & _ & H). unfold hllc_c. rewrite Rmax_left; auto. Qed.

(** Star-region quantities for given wave speeds. *)
Definition hllc_sel (rl ul pl el rr ur pr er SL SR : R) : R * R * R * R :=
  let rcl := rl * (ul - SL) in
  let rcr := rr * (SR - ur) in
  let us := (rcr * ur + rcl * ul + (pl - pr)) / (rcr + rcl) in
  let ps := (rcr * pl + rcl * pr + rcl * rcr * (ul - ur)) / (rcr + rcl) in
  if Rlt_dec 0 SL then (rl, ul, pl, el)
  else if Rlt_dec 0 us
       then (rl * (SL - ul) / (SL - us), us, ps, ((SL - ul) * el - pl * ul + ps * us) / (SL - us))
  else if Rlt_dec 0 SR
       then (rr * (SR - ur) / (SR - us), us, ps, ((SR - ur) * er - pr * ur + ps * us) / (SR - us))
  else (rr, ur, pr, er).

Definition hllc_flux (x : R * R * R * R) (ql qr : hs R) : hs R :=
  let '(ro, uo, po, eo) := x in
  let fd := ro * uo in
  mkhs fd ((eo + po) * uo) (ro * uo * uo + po)
       (if Rlt_dec 0 fd then fd * hv ql else fd * hv qr)
       (if d3 then (if Rlt_dec 0 fd then fd * hw ql else fd * hw qr) else 0).

Lemma hllc_unfold ql qr :
  let rl := Rmax (hd ql) (smallr S) in
  let rr := Rmax (hd qr) (smallr S) in
  let pl := Rmax (hp ql) (rl * smallp S) in
  let pr := Rmax (hp qr) (rr * smallp S) in
  let c := Rmax (hllc_c ql rl pl) (hllc_c qr rr pr) in
  riemann_hllc S d3 ql qr =
  hllc_flux (hllc_sel rl (hu ql) pl (hllc_total ql rl pl) rr (hu qr) pr (hllc_total qr rr pr)
    (Rmin (hu ql) (hu qr) - c) (Rmax (hu ql) (hu qr) + c)) ql qr.
Proof.
  intros rl rr pl pr c. unfold riemann_hllc, hllc_sel, hllc_flux, hllc_total. cbv zeta. Rn.
  fold rl rr pl pr. fold (hllc_c ql rl pl) (hllc_c qr rr pr). fold c.
  repeat match goal with |- context [Rlt_dec 0 ?a] => destruct (Rlt_dec 0 a) end; reflexivity.
Qed.

(** Ordering of the waves. *)
Section HllcWaves.
Variables rl ul pl el rr ur pr er SL SR c : R.
Hypothesis Hrl : 0 < rl. Hypothesis Hrr : 0 < rr.
Hypothesis Hpl : 0 < pl. Hypothesis Hpr : 0 < pr.
Hypothesis Hc : 0 < c.
Hypothesis Hcl : pl < rl * (c * c). Hypothesis Hcr : pr < rr * (c * c).
Hypothesis HSL : SL = Rmin ul ur - c. Hypothesis HSR : SR = Rmax ul ur + c.

Notation rcl := (rl * (ul - SL)).
Notation rcr := (rr * (SR - ur)).
Notation us := ((rcr * ur + rcl * ul + (pl - pr)) / (rcr + rcl)).
Notation ps := ((rcr * pl + rcl * pr + rcl * rcr * (ul - ur)) / (rcr + rcl)).

Lemma hllc_gaps : c <= ul - SL /\ c <= ur - SL /\ c <= SR - ul /\ c <= SR - ur.
Proof.
  rewrite HSL, HSR. pose proof (Rmin_l ul ur). pose proof (Rmin_r ul ur).
  pose proof (Rmax_l ul ur). pose proof (Rmax_r ul ur). lra.
Qed.

Lemma rc_pos : 0 < rcl /\ 0 < rcr /\ 0 < rcr + rcl.
Proof.
  destruct hllc_gaps as (G1 & G2 & G3 & G4).
  assert (0 < rcl) by (apply Rmult_lt_0_compat; lra).
  assert (0 < rcr) by (apply Rmult_lt_0_compat; lra). lra.
Qed.

Lemma us_bounds : SL < us < SR.
Proof.
  destruct hllc_gaps as (G1 & G2 & G3 & G4). destruct rc_pos as (P1 & P2 & P3).
  assert (E : us * (rcr + rcl) = rcr * ur + rcl * ul + (pl - pr)) by (field; lra).
  assert (A1 : c * c <= (ul - SL) * (ul - SL)) by nra.
  assert (A2 : c * c <= (SR - ur) * (SR - ur)) by nra.
  assert (A3 : c * c <= (SR - ur) * (ur - SL)) by nra.
  assert (A4 : c * c <= (ul - SL) * (SR - ul)) by nra.
  assert (B1 : rl * (c * c) <= rl * ((ul - SL) * (ul - SL))) by (apply Rmult_le_compat_l; lra).
  assert (B2 : rr * (c * c) <= rr * ((SR - ur) * (SR - ur))) by (apply Rmult_le_compat_l; lra).
  assert (B3 : rr * (c * c) <= rr * ((SR - ur) * (ur - SL))) by (apply Rmult_le_compat_l; lra).
  assert (B4 : rl * (c * c) <= rl * ((ul - SL) * (SR - ul))) by (apply Rmult_le_compat_l; lra).
  split; apply Rmult_lt_reg_r with (rcr + rcl); auto; rewrite E; nra.
Qed.

(** The star pressure seen from each side. *)
Lemma ps_left : ps = pl + rl * (SL - ul) * (us - ul).
Proof. destruct rc_pos as (P1 & P2 & P3). field. lra. Qed.
Lemma ps_right : ps = pr + rr * (SR - ur) * (us - ur).
Proof. destruct rc_pos as (P1 & P2 & P3). field. lra. Qed.

End HllcWaves.

Lemma hllc_speeds ql qr :
  let rl := Rmax (hd ql) (smallr S) in
  let rr := Rmax (hd qr) (smallr S) in
  let pl := Rmax (hp ql) (rl * smallp S) in
  let pr := Rmax (hp qr) (rr * smallp S) in
  let c := Rmax (hllc_c ql rl pl) (hllc_c qr rr pr) in
  0 < rl /\ 0 < rr /\ 0 < pl /\ 0 < pr /\ 0 < c /\ pl < rl * (c * c) /\ pr < rr * (c * c).
Proof.
  intros rl rr pl pr c. destruct (floors_pos ql) as (H1 & H2 & _). destruct (floors_pos qr) as (H3 & H4 & _).
  fold rl pl in H1, H2. fold rr pr in H3, H4.
  assert (C : forall q r p, 0 < r -> 0 < p -> 0 < hllc_c q r p /\ p < r * (hllc_c q r p * hllc_c q r p)).
  { intros q r p Hr Hp. pose proof (smallc_pos S HS). pose proof (gamma_gt1 S HS).
    assert (0 < gamma0 S * p / r) by (apply Rdiv_lt_0_compat; nra).
    pose proof (Rmax_l (gamma0 S * p / r) (smallc S * smallc S)).
    unfold hllc_c. split; [apply sqrt_lt_R0; lra|]. rewrite sqrt_sqrt by lra.
    apply Rlt_le_trans with (r * (gamma0 S * p / r)); [|apply Rmult_le_compat_l; lra].
    replace (r * (gamma0 S * p / r)) with (gamma0 S * p) by (field; lra). nra. }
  destruct (C ql rl pl H1 H2) as [C1 C2]. destruct (C qr rr pr H3 H4) as [C3 C4].
  pose proof (Rmax_l (hllc_c ql rl pl) (hllc_c qr rr pr)) as M1.
  pose proof (Rmax_r (hllc_c ql rl pl) (hllc_c qr rr pr)) as M2. fold c in M1, M2.
  repeat split; auto; try lra.
  - apply Rlt_le_trans with (1 := C2). apply Rmult_le_compat_l; [lra|]. nra.
  - apply Rlt_le_trans with (1 := C4). apply Rmult_le_compat_l; [lra|]. nra.
Qed.

Lemma hllc_consistent q : admissible S q -> riemann_hllc S d3 q q = euler_flux S d3 q.
Proof.
  intros Ha. rewrite hllc_unfold. destruct (adm_floor q Ha) as [E1 E2].
  pose proof (hllc_speeds q q) as HH. cbv zeta in HH. rewrite E1, E2 in *.
  destruct HH as (Hr & _ & Hp & _ & Hc & _).
  set (c := Rmax (hllc_c q (hd q) (hp q)) (hllc_c q (hd q) (hp q))) in *. clearbody c.
  rewrite (Rmin_left (hu q) (hu q)), (Rmax_left (hu q) (hu q)) by lra.
  assert (E : hllc_sel (hd q) (hu q) (hp q) (hllc_total q (hd q) (hp q)) (hd q) (hu q) (hp q)
     (hllc_total q (hd q) (hp q)) (hu q - c) (hu q + c) = (hd q, hu q, hp q, hllc_total q (hd q) (hp q))).
  { unfold hllc_sel. cbv zeta.
    replace ((hd q * (hu q + c - hu q) * hu q + hd q * (hu q - (hu q - c)) * hu q + (hp q - hp q)) /
      (hd q * (hu q + c - hu q) + hd q * (hu q - (hu q - c)))) with (hu q) by (field; nra).
    replace ((hd q * (hu q + c - hu q) * hp q + hd q * (hu q - (hu q - c)) * hp q +
       hd q * (hu q - (hu q - c)) * (hd q * (hu q + c - hu q)) * (hu q - hu q)) /
      (hd q * (hu q + c - hu q) + hd q * (hu q - (hu q - c)))) with (hp q) by (field; nra).
    destruct (Rlt_dec 0 (hu q - c)), (Rlt_dec 0 (hu q)), (Rlt_dec 0 (hu q + c)); auto;
    repeat (f_equal; try (field; lra)). }
  rewrite E. pose proof (gamma_gt1 S HS).
  unfold hllc_flux, hllc_total, euler_flux, energy, vel2. cbv zeta.
  destruct (Rlt_dec 0 (hd q * hu q)), d3; apply hs_eq; cbn [hd hp hu hv hw]; try field; lra.
Qed.

Lemma hllc_upwind_right ql qr : admissible S ql -> admissible S qr -> supersonic_right S ql qr ->
  riemann_hllc S d3 ql qr = euler_flux S d3 ql.
Proof.
  intros Al Ar H. unfold supersonic_right in H. rewrite hllc_unfold, !hllc_c_floor, !sound_floor by auto.
  destruct (adm_floor ql Al) as [-> ->]. destruct (adm_floor qr Ar) as [-> ->].
  unfold hllc_sel. cbv zeta. destruct (Rlt_dec 0 _); [|exfalso; lra].
  destruct (adm_pos S HS ql Al) as [Hr Hp]. pose proof (gamma_gt1 S HS).
  assert (0 < sound S ql) by (apply sqrt_lt_R0; apply Rdiv_lt_0_compat; nra).
  pose proof (Rmax_l (sound S ql) (sound S qr)). pose proof (Rmin_l (hu ql) (hu qr)).
  assert (0 < hd ql * hu ql) by (apply Rmult_lt_0_compat; lra).
  unfold hllc_flux, hllc_total, euler_flux, energy, vel2. cbv zeta.
  destruct (Rlt_dec 0 (hd ql * hu ql)); [|exfalso; lra].
  destruct d3; apply hs_eq; cbn [hd hp hu hv hw]; try field; lra.
Qed.

Lemma hllc_sel_mirror rl ul pl el rr ur pr er SL SR c ql qr :
  0 < rl -> 0 < rr -> 0 < pl -> 0 < pr -> 0 < c -> pl < rl * (c * c) -> pr < rr * (c * c) ->
  SL = Rmin ul ur - c -> SR = Rmax ul ur + c ->
  hllc_flux (hllc_sel rr (- ur) pr er rl (- ul) pl el (- SR) (- SL)) (mirror qr) (mirror ql) =
  mirror_flux (hllc_flux (hllc_sel rl ul pl el rr ur pr er SL SR) ql qr).
Proof.
  intros Hrl Hrr Hpl Hpr Hc Hcl Hcr HSL HSR.
  pose proof (us_bounds rl ul pl rr ur pr SL SR c Hrl Hrr Hpl Hpr Hc Hcl Hcr HSL HSR) as HB.
  pose proof (rc_pos rl ul rr ur SL SR c Hrl Hrr Hc HSL HSR) as (P1 & P2 & P3).
  pose proof (ps_left rl ul pl rr ur pr SL SR c Hrl Hrr Hc HSL HSR) as EL.
  pose proof (ps_right rl ul pl rr ur pr SL SR c Hrl Hrr Hc HSL HSR) as ER.
  unfold hllc_sel. cbv zeta.
  replace ((rl * (- SL - - ul) * - ul + rr * (- ur - - SR) * - ur + (pr - pl)) /
     (rl * (- SL - - ul) + rr * (- ur - - SR)))
    with (- ((rr * (SR - ur) * ur + rl * (ul - SL) * ul + (pl - pr)) / (rr * (SR - ur) + rl * (ul - SL))))
    by (field; lra).
  replace ((rl * (- SL - - ul) * pr + rr * (- ur - - SR) * pl +
      rr * (- ur - - SR) * (rl * (- SL - - ul)) * (- ur - - ul)) /
     (rl * (- SL - - ul) + rr * (- ur - - SR)))
    with ((rr * (SR - ur) * pl + rl * (ul - SL) * pr + rl * (ul - SL) * (rr * (SR - ur)) * (ul - ur)) /
     (rr * (SR - ur) + rl * (ul - SL))) by (field; lra).
  set (us := (rr * (SR - ur) * ur + rl * (ul - SL) * ul + (pl - pr)) / (rr * (SR - ur) + rl * (ul - SL))) in *.
  set (ps := (rr * (SR - ur) * pl + rl * (ul - SL) * pr + rl * (ul - SL) * (rr * (SR - ur)) * (ul - ur)) /
     (rr * (SR - ur) + rl * (ul - SL))) in *.
  clearbody us ps. clear HSL HSR P1 P2 P3.
  assert (TV : forall fd fd' a b : R, fd' = - fd ->
    (if Rlt_dec 0 fd' then fd' * b else fd' * a) = - (if Rlt_dec 0 fd then fd * a else fd * b)).
  { intros fd fd' a b ->. destruct (Rlt_dec 0 (- fd)), (Rlt_dec 0 fd); try lra.
    replace fd with 0 by lra. ring. }
  assert (FIN : forall ro uo po eo ro' uo' po' eo',
    ro' * uo' = - (ro * uo) -> (eo' + po') * uo' = - ((eo + po) * uo) ->
    ro' * uo' * uo' + po' = ro * uo * uo + po ->
    hllc_flux (ro', uo', po', eo') (mirror qr) (mirror ql) = mirror_flux (hllc_flux (ro, uo, po, eo) ql qr)).
  { intros ro uo po eo ro' uo' po' eo' F1 F2 F3. unfold hllc_flux, mirror_flux, mirror. cbv zeta.
    apply hs_eq; cbn [hd hp hu hv hw]; auto. destruct d3; auto. ring. }
  destruct (Rlt_dec 0 SL) as [H1|H1].
  { destruct (Rlt_dec 0 (- SR)); [lra|]. destruct (Rlt_dec 0 (- us)); [lra|].
    destruct (Rlt_dec 0 (- SL)); [lra|]. apply FIN; ring. }
  destruct (Rlt_dec 0 us) as [H2|H2].
  { destruct (Rlt_dec 0 (- SR)); [lra|]. destruct (Rlt_dec 0 (- us)); [lra|].
    destruct (Rlt_dec 0 (- SL)).
    - apply FIN; field; lra.
    - replace SL with 0 in * by lra. apply FIN; rewrite ?EL; field; lra. }
  destruct (Rlt_dec 0 SR) as [H3|H3].
  { destruct (Rlt_dec 0 (- SR)); [lra|]. destruct (Rlt_dec 0 (- us)).
    - apply FIN; field; lra.
    - destruct (Rlt_dec 0 (- SL)); [|lra]. replace us with 0 in * by lra. apply FIN; ring. }
  destruct (Rlt_dec 0 (- SR)).
  - apply FIN; ring.
  - destruct (Rlt_dec 0 (- us)); [|lra]. replace SR with 0 in * by lra.
    apply FIN; rewrite ?ER; field; lra.
Qed.

Lemma mirror_hd q : hd (mirror q) = hd q. Proof. reflexivity. Qed.
Lemma mirror_hp q : hp (mirror q) = hp q. Proof. reflexivity. Qed.
Lemma mirror_hu q : hu (mirror q) = - hu q. Proof. reflexivity. Qed.
Lemma mirror_hv q : hv (mirror q) = hv q. Proof. reflexivity. Qed.
Lemma mirror_hw q : hw (mirror q) = hw q. Proof. reflexivity. Qed.

Lemma hllc_mirror ql qr :
  riemann_hllc S d3 (mirror qr) (mirror ql) = mirror_flux (riemann_hllc S d3 ql qr).
Proof.
  rewrite !hllc_unfold. destruct (hllc_speeds ql qr) as (H1 & H2 & H3 & H4 & H5 & H6 & H7).
  rewrite !mirror_hd, !mirror_hp, !mirror_hu, Rmin_opp, Rmax_opp.
  set (rl := Rmax (hd ql) (smallr S)) in *. set (rr := Rmax (hd qr) (smallr S)) in *.
  set (pl := Rmax (hp ql) (rl * smallp S)) in *. set (pr := Rmax (hp qr) (rr * smallp S)) in *.
  change (hllc_c (mirror qr) rr pr) with (hllc_c qr rr pr).
  change (hllc_c (mirror ql) rl pl) with (hllc_c ql rl pl).
  rewrite (Rmax_comm (hllc_c qr rr pr)), (Rmax_comm (hu qr)), (Rmin_comm (hu qr)).
  set (c := Rmax (hllc_c ql rl pl) (hllc_c qr rr pr)) in *.
  replace (- Rmax (hu ql) (hu qr) - c) with (- (Rmax (hu ql) (hu qr) + c)) by ring.
  replace (- Rmin (hu ql) (hu qr) + c) with (- (Rmin (hu ql) (hu qr) - c)) by ring.
  assert (ET : forall q r p, hllc_total (mirror q) r p = hllc_total q r p).
  { intros. unfold hllc_total, mirror. destruct d3; cbn [hd hp hu hv hw]; ring. }
  rewrite !ET. eapply hllc_sel_mirror; eauto.
Qed.

(** ** Two-shock approximate solver *)

Lemma newton_conv n cl cr pl pr ul ur p : newton S n cl cr pl pr ul ur p 0 = p.
Proof. destruct n; cbn [newton]; auto. Rn. destruct (Rlt_dec _ 0); auto. lra. Qed.

Lemma newton_mirror n : forall cl cr pl pr ul ur p c,
  newton S n cr cl pr pl (- ur) (- ul) p c = newton S n cl cr pl pr ul ur p c.
Proof.
  induction n as [|n IH]; intros; cbn [newton]; auto.
  replace (newton_step S cr cl pr pl (- ur) (- ul) p) with (newton_step S cl cr pl pr ul ur p).
  { destruct (newton_step S cl cr pl pr ul ur p). rewrite IH. reflexivity. }
  unfold newton_step. cbv zeta. Rn.
  set (wl := sqrt (cl * _)). set (wr := sqrt (cr * _)).
  set (a := 2 * wl * wl * wl / _). set (b := 2 * wr * wr * wr / _).
  assert (E : b * a / (b + a) * (ul - (p - pl) / wl - (ur + (p - pr) / wr)) =
              a * b / (a + b) * (- ur - (p - pr) / wr - (- ul + (p - pl) / wl)))
    by (rewrite (Rplus_comm b a); unfold Rdiv; ring).
  rewrite E. reflexivity.
Qed.

Lemma pstar_mirror rl ul pl rr ur pr :
  approx_pstar S rr (- ur) pr rl (- ul) pl = approx_pstar S rl ul pl rr ur pr.
Proof.
  unfold approx_pstar. cbv zeta. rewrite newton_mirror. Rn. do 2 f_equal.
  rewrite (Rplus_comm (sqrt (gamma0 S * pr * rr)) (sqrt (gamma0 S * pl * rl))).
  unfold Rdiv. f_equal. ring.
Qed.

Lemma ustar_mirror rl ul pl rr ur pr ps :
  approx_ustar S rr (- ur) pr rl (- ul) pl ps = - approx_ustar S rl ul pl rr ur pr ps.
Proof. unfold approx_ustar. Rn. unfold Rdiv. ring. Qed.

Lemma sample_mirror ro uo po wo ps us sg :
  approx_sample S ro (- uo) po wo ps (- us) (- sg) =
  let '(d, p, u) := approx_sample S ro uo po wo ps us sg in (d, p, - u).
Proof.
  unfold approx_sample. cbv zeta. Rn.
  replace (wo / ro - - sg * - uo) with (wo / ro - sg * uo) by ring.
  replace (Rmax (smallc S) (sqrt (Rabs (gamma0 S * po / ro))) - - sg * - uo)
    with (Rmax (smallc S) (sqrt (Rabs (gamma0 S * po / ro))) - sg * uo) by ring.
  set (rst := Rmax (ro / _) (smallr S)).
  replace (Rmax (smallc S) (sqrt (Rabs (gamma0 S * ps / rst))) - - sg * - us)
    with (Rmax (smallc S) (sqrt (Rabs (gamma0 S * ps / rst))) - sg * us) by ring.
  repeat match goal with |- context [if Rlt_dec ?a ?b then _ else _] => destruct (Rlt_dec a b) end; auto.
  f_equal. ring.
Qed.

Lemma cmpflx_euler q : cmpflx S d3 q = euler_flux S d3 q.
Proof.
  pose proof (gamma_gt1 S HS). unfold cmpflx, euler_flux, energy, vel2.
  destruct d3; apply hs_eq; cbn [hd hp hu hv hw]; cbv zeta; Rn; try ring; field; lra.
Qed.

(** Velocity of the contact wave found by the solver. *)
Definition contact_speed (ql qr : hs R) : R :=
  let rl := Rmax (hd ql) (smallr S) in
  let rr := Rmax (hd qr) (smallr S) in
  let pl := Rmax (hp ql) (rl * smallp S) in
  let pr := Rmax (hp qr) (rr * smallp S) in
  approx_ustar S rl (hu ql) pl rr (hu qr) pr (approx_pstar S rl (hu ql) pl rr (hu qr) pr).

Lemma approx_mirror ql qr : contact_speed ql qr <> 0 ->
  riemann_approx S d3 (mirror qr) (mirror ql) = mirror_flux (riemann_approx S d3 ql qr).
Proof.
  unfold contact_speed. cbv zeta. intros Hne.
  unfold riemann_approx. rewrite !cmpflx_euler, <- euler_mirror. f_equal.
  unfold approx_state. cbv zeta. rewrite !mirror_hd, !mirror_hp, !mirror_hu, !mirror_hv, !mirror_hw.
  Rn. rewrite !pstar_mirror, !ustar_mirror.
  set (rl := Rmax (hd ql) (smallr S)) in *. set (rr := Rmax (hd qr) (smallr S)) in *.
  set (pl := Rmax (hp ql) (rl * smallp S)) in *. set (pr := Rmax (hp qr) (rr * smallp S)) in *.
  set (ps := approx_pstar S rl (hu ql) pl rr (hu qr) pr) in *.
  set (us := approx_ustar S rl (hu ql) pl rr (hu qr) pr ps) in *.
  clearbody us ps.
  destruct (Rlt_dec us 0), (Rlt_dec (- us) 0); try lra;
    (destruct (Rlt_dec 0 1); [|lra]); (destruct (Rlt_dec 0 (-1)); [lra|]).
  - replace (approx_sample S rr (- hu qr) pr (approx_w S rr pr ps) ps (- us) 1)
      with (approx_sample S rr (- hu qr) pr (approx_w S rr pr ps) ps (- us) (- (-1))) by (f_equal; lra).
    rewrite sample_mirror.
    destruct (approx_sample S rr (hu qr) pr _ ps us (-1)) as [[d p] u].
    apply hs_eq; reflexivity.
  - change (-1) with (- (1)). rewrite sample_mirror.
    destruct (approx_sample S rl (hu ql) pl _ ps us 1) as [[d p] u].
    apply hs_eq; reflexivity.
Qed.

(** *** Equal states *)

Lemma approx_w_same r p : approx_w S r p p = sqrt (gamma0 S * p * r).
Proof.
  unfold approx_w. Rn. f_equal. replace (p - p) with 0 by ring.
  unfold Rdiv. ring.
Qed.

Lemma newton_step_fix cl cr pl pr ul ur p :
  0 < p -> (ul - (p - pl) / sqrt (cl * (1 + gamma6 S * (p - pl) / pl)) =
            ur + (p - pr) / sqrt (cr * (1 + gamma6 S * (p - pr) / pr))) ->
  newton_step S cl cr pl pr ul ur p = (p, 0).
Proof.
  intros Hp E. unfold newton_step. cbv zeta. Rn. rewrite E.
  match goal with |- context [Rmax (?a * (?b - ?b)) _] => replace (a * (b - b)) with 0 by ring end.
  rewrite (Rmax_left 0 (- p)) by lra. f_equal; [ring|].
  unfold Rdiv. rewrite Rmult_0_l. apply Rabs_R0.
Qed.

Lemma newton_fix n cl cr pl pr ul ur p c :
  newton_step S cl cr pl pr ul ur p = (p, 0) -> newton S n cl cr pl pr ul ur p c = p.
Proof.
  intros E. destruct n; cbn [newton]; auto. rewrite E, newton_conv.
  destruct (nltb _ _); reflexivity.
Qed.

(** Any property of the pressure kept by one iteration holds at the end. *)
Lemma newton_inv (I : R -> Prop) cl cr pl pr ul ur :
  (forall p, I p -> I (fst (newton_step S cl cr pl pr ul ur p))) ->
  forall n p c, I p -> I (newton S n cl cr pl pr ul ur p c).
Proof.
  intros HI n. induction n as [|n IH]; intros p c Hp; cbn [newton]; auto.
  destruct (nltb _ _); auto. specialize (HI p Hp).
  destruct (newton_step S cl cr pl pr ul ur p) as [p' c']. apply IH. exact HI.
Qed.

Lemma pstar_same r u p : 0 < r -> 0 < p -> approx_pstar S r u p r u p = p.
Proof.
  intros Hr Hp. unfold approx_pstar. cbv zeta. Rn.
  pose proof (gamma_gt1 S HS) as Hg.
  assert (Hw : 0 < sqrt (gamma0 S * p * r)).
  { apply sqrt_lt_R0. apply Rmult_lt_0_compat; auto. apply Rmult_lt_0_compat; lra. }
  set (w := sqrt _) in *.
  replace ((w * p + w * p + w * w * (u - u)) / (w + w)) with p by (field; lra).
  rewrite Rmax_left by lra. apply newton_fix. apply newton_step_fix; auto.
  replace (p - p) with 0 by ring. unfold Rdiv. ring.
Qed.

Lemma ustar_same r u p : approx_ustar S r u p r u p p = u.
Proof. unfold approx_ustar. Rn. replace (p - p) with 0 by ring. unfold Rdiv. rewrite !Rmult_0_l. field. Qed.

Lemma rstar_same r p w : admissible S (mkhs r p 0 0 0) ->
  Rmax (r / (1 + r * (p - p) / (w * w))) (smallr S) = r.
Proof.
  intros [H _]. cbn [hd] in H. replace (p - p) with 0 by ring.
  unfold Rdiv. rewrite Rmult_0_r, Rmult_0_l, Rplus_0_r, Rinv_1, Rmult_1_r.
  apply Rmax_left. lra.
Qed.

Lemma sample_same r u p w sg : admissible S (mkhs r p 0 0 0) ->
  approx_sample S r u p w p u sg = (r, p, u).
Proof.
  intros Ha. unfold approx_sample. cbv zeta. Rn. rewrite (rstar_same r p w Ha).
  repeat match goal with |- context [if Rlt_dec ?a ?b then _ else _] => destruct (Rlt_dec a b) end; auto;
    repeat f_equal; ring.
Qed.

Lemma approx_state_same q : admissible S q ->
  approx_state S d3 q q = mkhs (hd q) (hp q) (hu q) (hv q) (if d3 then hw q else 0).
Proof.
  intros Ha. destruct (adm_floor q Ha) as [F1 F2]. destruct (adm_pos S HS q Ha) as [P1 P2].
  unfold approx_state. cbv zeta. Rn. rewrite !F1, !F2, pstar_same, ustar_same by auto.
  rewrite !sample_same by exact Ha.
  destruct (Rlt_dec _ _); destruct d3; reflexivity.
Qed.

Lemma approx_consistent q : admissible S q -> riemann_approx S d3 q q = euler_flux S d3 q.
Proof.
  intros Ha. unfold riemann_approx. rewrite cmpflx_euler, approx_state_same by auto.
  unfold euler_flux, energy, vel2. destruct d3; reflexivity.
Qed.

(** *** Wall: mirror states

    The Newton iteration climbs monotonically towards the exact star
    pressure, because the shock velocity jump is a concave function of the
    pressure. *)

Ltac posm := repeat first [assumption | lra | apply Rmult_lt_0_compat].

Section WallNewton.
Variables r u p : R.
Hypothesis Hr : 0 < r.
Hypothesis Hp : 0 < p.
Hypothesis Hu : 0 <= u.

Let C := gamma0 S * p * r.
Let w0 := sqrt C.
Let a := (gamma0 S + 1) / 2 * r.
Let m := a * u / w0.

(** Mass flux through the wave over its acoustic value. *)
Definition wall_t (x : R) : R := approx_w S r p x / w0.

Lemma wall_C : 0 < C. Proof. pose proof (gamma_gt1 S HS). unfold C. posm. Qed.
Lemma wall_w0 : 0 < w0 /\ w0 * w0 = C.
Proof. pose proof wall_C. split; [apply sqrt_lt_R0 | apply sqrt_sqrt]; lra. Qed.
Lemma wall_a : 0 < a.
Proof. pose proof (gamma_gt1 S HS). unfold a. apply Rmult_lt_0_compat; lra. Qed.
Lemma wall_m : 0 <= m.
Proof.
  pose proof wall_a. destruct wall_w0. unfold m. apply Rmult_le_pos; [apply Rmult_le_pos; lra|].
  left. apply Rinv_0_lt_compat. lra.
Qed.

Lemma wall_arg x : C * (1 + gamma6 S * (x - p) / p) = C + a * (x - p).
Proof.
  pose proof (gamma_gt1 S HS). assert (E : gamma6 S = (gamma0 S + 1) / (2 * gamma0 S)) by apply HS.
  rewrite E. unfold C, a. field. lra.
Qed.

Lemma wall_w x : p <= x -> 0 < approx_w S r p x /\ approx_w S r p x * approx_w S r p x = C + a * (x - p).
Proof.
  intros Hx. pose proof wall_C. pose proof wall_a. unfold approx_w. Rn. fold C. rewrite wall_arg.
  assert (0 <= a * (x - p)) by (apply Rmult_le_pos; lra).
  split; [apply sqrt_lt_R0 | apply sqrt_sqrt]; lra.
Qed.

Lemma wall_t_sq x : p <= x -> 1 <= wall_t x /\ wall_t x * wall_t x = 1 + a / C * (x - p).
Proof.
  intros Hx. destruct (wall_w x Hx) as [W1 W2]. destruct wall_w0 as [V1 V2]. pose proof wall_C. pose proof wall_a.
  assert (E : wall_t x * wall_t x = 1 + a / C * (x - p)).
  { unfold wall_t. replace (approx_w S r p x / w0 * (approx_w S r p x / w0))
      with (approx_w S r p x * approx_w S r p x / (w0 * w0)) by (field; lra).
    rewrite W2, V2. field. lra. }
  split; auto.
  assert (0 < wall_t x) by (unfold wall_t; apply Rdiv_lt_0_compat; lra).
  assert (0 <= a / C * (x - p)).
  { apply Rmult_le_pos; [|lra]. apply Rmult_le_pos; [lra|]. left. apply Rinv_0_lt_compat. lra. }
  nra.
Qed.

(** One iteration of RiemannSolvers.h:99-110 is [step_to]. *)
Lemma wall_step x : p <= x -> 0 <= resid m (wall_t x) ->
  exists x', newton_step S C C p p u (- u) x = (x', Rabs ((x' - x) / (x' + smallpp S))) /\
    x <= x' /\ step_to m (wall_t x) (wall_t x').
Proof.
  intros Hx HR. destruct (wall_w x Hx) as [W1 W2]. destruct wall_w0 as [V1 V2]. pose proof wall_C as HC.
  pose proof wall_a as Ha. destruct (wall_t_sq x Hx) as [T1 T2].
  unfold newton_step. cbv zeta. Rn.
  change (sqrt (C * (1 + gamma6 S * (x - p) / p))) with (approx_w S r p x).
  set (W := approx_w S r p x) in *.
  set (q := 2 * W * W * W / (W * W + C)).
  assert (HWW : 0 < W * W) by posm.
  assert (Hq : 0 < q) by (unfold q; apply Rdiv_lt_0_compat; [posm | lra]).
  set (d := u - (x - p) / W).
  replace (q * q / (q + q) * (d - (- u + (x - p) / W))) with (q * d) by (unfold d; field; lra).
  set (t := wall_t x) in *.
  assert (EW : W = w0 * t) by (unfold t, wall_t; fold W; field; lra).
  assert (Exp : x - p = C / a * (t * t - 1)) by (rewrite T2; field; lra).
  assert (Ed : d = w0 / (a * t) * resid m t).
  { unfold d, resid, m. rewrite Exp, EW, <- V2. field. repeat split; lra. }
  assert (Hd : 0 <= d).
  { rewrite Ed. apply Rmult_le_pos; auto. left. apply Rdiv_lt_0_compat; auto. apply Rmult_lt_0_compat; lra. }
  assert (Hqd : 0 <= q * d) by (apply Rmult_le_pos; lra).
  rewrite Rmax_left by lra. exists (x + q * d).
  split; [f_equal; f_equal; f_equal; ring|]. split; [lra|].
  destruct (wall_t_sq (x + q * d)) as [T1' T2']; [lra|].
  split; [lra|]. rewrite T2'.
  replace (1 + a / C * (x + q * d - p)) with (t * t + a / C * (q * d)) by (rewrite T2; ring).
  f_equal. unfold q. rewrite Ed, EW, <- V2. field.
  assert (0 <= t * t) by nra. repeat split; try lra.
  assert (0 < w0 * w0) by posm. nra.
Qed.

Lemma wall_newton : smallpp S <= p -> 0 < smallpp S -> m <= 100000 -> forall n x conv, (n <= 10)%nat ->
  p <= x -> 0 <= resid m (wall_t x) -> rres m (wall_t x) <= left_bound n ->
  (1 / 1000000 < conv \/ resid m (wall_t x) <= 1) ->
  p <= newton S n C C p p u (- u) x conv /\ resid m (wall_t (newton S n C C p p u (- u) x conv)) <= 1.
Proof.
  intros Hpp Hpp0 Hm n. pose proof wall_m as Hm0. pose proof wall_C as HC. pose proof wall_a as Ha.
  pose proof (gamma_gt1 S HS) as Hg.
  induction n as [|n IH]; intros x conv Hn Hx HR HB Hc; cbn [newton].
  - destruct (wall_t_sq x Hx) as [T1 T2]. split; auto. apply left_last; auto; lra.
  - Rn. destruct (Rlt_dec (1 / 1000000) conv) as [Hl|Hl]; [|destruct Hc; [contradiction|auto]].
    destruct (wall_step x Hx HR) as (x' & E & Hxx & HS'). rewrite E.
    destruct (wall_t_sq x Hx) as [T1 T2]. destruct (wall_t_sq x') as [T1' T2']; [lra|].
    apply IH; try lia; try lra.
    + apply (resid_next m (wall_t x)); auto.
    + apply (left_step m (wall_t x)); auto.
    + destruct (Rlt_dec (1 / 1000000) (Rabs ((x' - x) / (x' + smallpp S)))) as [|Hn']; auto. right.
      apply (left_stop m (wall_t x)); auto; try lra.
      assert (Hd : x' - x <= 2 / 1000000 * x').
      { rewrite Rabs_pos_eq in Hn'.
        - assert (Hi : (x' - x) / (x' + smallpp S) <= 1 / 1000000) by lra.
          apply (Rmult_le_compat_r (x' + smallpp S)) in Hi; [|lra].
          replace ((x' - x) / (x' + smallpp S) * (x' + smallpp S)) with (x' - x) in Hi by (field; lra). lra.
        - apply Rmult_le_pos; [lra|]. left. apply Rinv_0_lt_compat. lra. }
      rewrite T2, T2'.
      assert (Hk : 0 < a / C) by (apply Rdiv_lt_0_compat; lra).
      assert (Hkp : a / C * p <= 1).
      { unfold a, C. replace ((gamma0 S + 1) / 2 * r / (gamma0 S * p * r) * p) with ((gamma0 S + 1) / (2 * gamma0 S)) by (field; lra).
        apply Rmult_le_reg_r with (2 * gamma0 S); [lra|]. unfold Rdiv. rewrite Rmult_assoc, Rinv_l; lra. }
      assert (a / C * (x' - x) <= a / C * (2 / 1000000 * x')) by (apply Rmult_le_compat_l; lra).
      replace (1 + a / C * (x' - p) - (1 + a / C * (x - p))) with (a / C * (x' - x)) by ring.
      replace (1 + a / C * (x' - p)) with (a / C * x' + (1 - a / C * p)) by ring. lra.
Qed.

Lemma wall_first : wall_t (p + w0 * u) * wall_t (p + w0 * u) = 1 + m /\ p <= p + w0 * u.
Proof.
  destruct wall_w0 as [V1 V2]. pose proof wall_C. assert (0 <= w0 * u) by (apply Rmult_le_pos; lra).
  split; [|lra]. destruct (wall_t_sq (p + w0 * u)) as [_ E]; [lra|]. rewrite E. unfold m. rewrite <- V2. field. lra.
Qed.

Lemma wall_pstar : approx_pstar S r u p r (- u) p = newton S 10 C C p p u (- u) (p + w0 * u) 1.
Proof.
  unfold approx_pstar. cbv zeta. Rn. fold C. fold w0. destruct wall_w0 as [V1 V2].
  replace ((w0 * p + w0 * p + w0 * w0 * (u - - u)) / (w0 + w0)) with (p + w0 * u) by (field; lra).
  assert (0 <= w0 * u) by (apply Rmult_le_pos; lra).
  rewrite Rmax_left by lra. reflexivity.
Qed.

(** The shock reflected by a wall leaves it. *)
Lemma wall_shock_pos : smallpp S <= p -> 0 < smallpp S -> a * u <= 100000 * w0 ->
  u < approx_w S r p (approx_pstar S r u p r (- u) p) / r.
Proof.
  intros Hpp Hpp0 HM. destruct wall_w0 as [V1 V2]. pose proof wall_m as Hm0. pose proof (gamma_gt1 S HS) as Hg.
  assert (Hm : m <= 100000).
  { unfold m. apply Rmult_le_reg_r with w0; auto. unfold Rdiv. rewrite Rmult_assoc, Rinv_l; lra. }
  destruct wall_first as [E0 Hle]. destruct (wall_t_sq _ Hle) as [T1 _].
  destruct (left_first m (wall_t (p + w0 * u)) (conj Hm0 Hm) ltac:(lra) E0) as (_ & R0 & X0).
  destruct (wall_newton Hpp Hpp0 Hm 10 (p + w0 * u) 1) as [A B]; auto; [left; lra|].
  rewrite wall_pstar. set (ps := newton _ _ _ _ _ _ _ _ _ _) in *.
  destruct (wall_t_sq ps A) as [T2 _]. destruct (wall_w ps A) as [W1 _].
  pose proof (resid_fast m (wall_t ps) ltac:(lra) B) as HF.
  assert (HF' : a * u <= approx_w S r p ps).
  { unfold m, wall_t in HF. apply (Rmult_le_compat_r w0) in HF; [|lra].
    replace (a * u / w0 * w0) with (a * u) in HF by (field; lra).
    replace (approx_w S r p ps / w0 * w0) with (approx_w S r p ps) in HF by (field; lra). exact HF. }
  apply Rmult_lt_reg_r with r; auto. replace (approx_w S r p ps / r * r) with (approx_w S r p ps) by (field; lra).
  destruct (Req_dec u 0) as [->|Hne]; [lra|].
  assert (0 < r * u) by (apply Rmult_lt_0_compat; lra).
  unfold a in HF'. nra.
Qed.

End WallNewton.

(** The same whatever the direction of the flow: the gas may approach the wall
    with (gamma + 1) / 2 times its Mach number up to 100000. *)
Lemma wall_shock r u p : 0 < r -> 0 < p -> smallpp S <= p ->
  (gamma0 S + 1) / 2 * (r * u) <= 100000 * sqrt (gamma0 S * p * r) ->
  p <= approx_pstar S r u p r (- u) p ->
  u < approx_w S r p (approx_pstar S r u p r (- u) p) / r.
Proof.
  intros Hr Hp Hpp HM Hge. destruct (Rle_dec u 0) as [Hu|Hu].
  - destruct (wall_w r p Hr Hp _ Hge) as [W _].
    apply Rle_lt_trans with (1 := Hu). apply Rdiv_lt_0_compat; auto.
  - apply wall_shock_pos; auto; try lra.
    destruct HS as (H1 & H2 & H3 & H4 & _ & H5). rewrite H5, H4.
    apply Rmult_lt_0_compat; auto. apply Rdiv_lt_0_compat; [apply Rmult_lt_0_compat; auto|lra].
Qed.

Lemma ustar_wall r u p ps : approx_ustar S r u p r (- u) p ps = 0.
Proof. unfold approx_ustar. Rn. ring. Qed.

(** No mass, energy or transverse momentum crosses a wall.  The solver works
    with floored density and pressure. *)
Lemma approx_wall q :
  let r := Rmax (hd q) (smallr S) in
  let p := Rmax (hp q) (r * smallp S) in
  (gamma0 S + 1) / 2 * hu q <= 100000 * sqrt (gamma0 S * p / r) ->
  no_flow (riemann_approx S d3 q (mirror q)).
Proof.
  intros r p HM. destruct (floors_pos q) as (P1 & P2 & _). fold r in P1, P2. fold p in P2.
  pose proof (gamma_gt1 S HS) as Hg.
  assert (HM' : (gamma0 S + 1) / 2 * (r * hu q) <= 100000 * sqrt (gamma0 S * p * r)).
  { replace (sqrt (gamma0 S * p * r)) with (r * sqrt (gamma0 S * p / r)).
    - replace (100000 * (r * sqrt (gamma0 S * p / r))) with (r * (100000 * sqrt (gamma0 S * p / r))) by ring.
      replace ((gamma0 S + 1) / 2 * (r * hu q)) with (r * ((gamma0 S + 1) / 2 * hu q)) by ring.
      apply Rmult_le_compat_l; lra.
    - rewrite <- (sqrt_Rsqr r) at 1 by lra. rewrite <- sqrt_mult_alt.
      + f_equal. unfold Rsqr. field. lra.
      + apply Rle_0_sqr. }
  assert (Hpp : smallpp S <= p).
  { assert (E : smallpp S = smallr S * smallp S) by apply HS. rewrite E.
    apply Rle_trans with (r * smallp S); [|apply Rmax_r].
    apply Rmult_le_compat_r; [|apply Rmax_r].
    destruct HS as (H1 & H2 & H3 & H4 & _). rewrite H4. left. apply Rdiv_lt_0_compat; [apply Rmult_lt_0_compat; auto|lra]. }
  assert (Hz : hu (approx_state S d3 q (mirror q)) = 0).
  { unfold approx_state. cbv zeta. rewrite !mirror_hd, !mirror_hp, !mirror_hu. Rn.
    fold r. fold p. rewrite !ustar_wall.
    destruct (Rlt_dec 0 0); [lra|]. destruct (Rlt_dec 0 1); [|lra].
    set (ps := approx_pstar S r (hu q) p r (- hu q) p).
    unfold approx_sample. cbv zeta. Rn.
    destruct (Rle_dec p ps) as [Hs|Hs].
    - pose proof (wall_shock r (hu q) p P1 P2 Hpp HM' Hs) as HW. fold ps in HW.
      destruct (Rlt_dec 0 (approx_w S r p ps / r - 1 * hu q)); [|exfalso; lra].
      reflexivity.
    - match goal with |- context [Rlt_dec 0 (Rmax ?a ?b - 1 * 0)] =>
        pose proof (Rmax_l a b) as HL; destruct (Rlt_dec 0 (Rmax a b - 1 * 0)) as [|Hn] end.
      + reflexivity.
      + exfalso. assert (0 < smallc S) by apply HS. lra. }
  unfold riemann_approx. rewrite cmpflx_euler. unfold no_flow, euler_flux. cbn [hd hp hu hv hw].
  rewrite Hz. destruct d3; repeat split; ring.
Qed.

Lemma wall_from_mirror (riem : hs R -> hs R -> hs R) :
  (forall ql qr, riem (mirror qr) (mirror ql) = mirror_flux (riem ql qr)) ->
  forall q, no_flow (riem q (mirror q)).
Proof.
  intros H q. pose proof (H q (mirror q)) as E. rewrite mirror_mirror in E.
  unfold no_flow. destruct (riem q (mirror q)) as [d p u v w]. unfold mirror_flux in E.
  cbn [hd hp hu hv hw] in *. inversion E. repeat split; lra.
Qed.

(** ** Isolated contact discontinuities *)

Lemma euler_at_rest ql qr : hu ql = 0 -> hu qr = 0 -> hp ql = hp qr ->
  euler_flux S d3 ql = euler_flux S d3 qr.
Proof.
  intros E1 E2 Ep. unfold euler_flux. rewrite E1, E2, Ep. destruct d3; apply hs_eq; cbn [hd hp hu hv hw]; ring.
Qed.

Lemma approx_contact ql qr : admissible S ql -> admissible S qr -> hp ql = hp qr -> hu ql = hu qr ->
  riemann_approx S d3 ql qr = euler_flux S d3 (if Rlt_dec 0 (hu ql) then ql else qr).
Proof.
  intros Al Ar Ep Eu. destruct (adm_floor ql Al) as [Fl1 Fl2]. destruct (adm_floor qr Ar) as [Fr1 Fr2].
  destruct (adm_pos S HS ql Al) as [Pl1 Pl2]. destruct (adm_pos S HS qr Ar) as [Pr1 Pr2].
  pose proof (gamma_gt1 S HS) as Hg.
  assert (E : approx_state S d3 ql qr =
    let q := if Rlt_dec (hu ql) 0 then qr else ql in
    mkhs (hd q) (hp q) (hu q) (hv q) (if d3 then hw q else 0)).
  { unfold approx_state. cbv zeta. Rn. rewrite !Fl1, !Fl2, !Fr1, !Fr2, <- !Eu, <- !Ep.
    assert (Eps : approx_pstar S (hd ql) (hu ql) (hp ql) (hd qr) (hu ql) (hp ql) = hp ql).
    { unfold approx_pstar. cbv zeta. Rn.
      assert (H1 : 0 < gamma0 S * hp ql * hd ql) by posm. assert (H2 : 0 < gamma0 S * hp ql * hd qr) by posm.
      pose proof (sqrt_lt_R0 _ H1). pose proof (sqrt_lt_R0 _ H2).
      set (wl := sqrt (gamma0 S * hp ql * hd ql)) in *. set (wr := sqrt (gamma0 S * hp ql * hd qr)) in *.
      replace ((wr * hp ql + wl * hp ql + wl * wr * (hu ql - hu ql)) / (wl + wr)) with (hp ql) by (field; lra).
      rewrite Rmax_left by lra. apply newton_fix, newton_step_fix; auto.
      replace (hp ql - hp ql) with 0 by ring. unfold Rdiv. ring. }
    rewrite Eps.
    assert (Eus : approx_ustar S (hd ql) (hu ql) (hp ql) (hd qr) (hu ql) (hp ql) (hp ql) = hu ql).
    { unfold approx_ustar. Rn. replace (hp ql - hp ql) with 0 by ring. unfold Rdiv. rewrite !Rmult_0_l. field. }
    rewrite Eus. rewrite (sample_same (hd ql)) by exact Al.
    rewrite (sample_same (hd qr)) by (destruct Ar as [A1 A2]; split; cbn [hd hp]; [exact A1 | rewrite Ep; exact A2]).
    destruct (Rlt_dec (hu ql) 0).
    - destruct (Rlt_dec 0 (-1)); [lra|]. rewrite Ep, Eu. reflexivity.
    - destruct (Rlt_dec 0 1); [|lra]. reflexivity. }
  unfold riemann_approx. rewrite cmpflx_euler, E. cbv zeta.
  assert (Eq : forall q, euler_flux S d3 (mkhs (hd q) (hp q) (hu q) (hv q) (if d3 then hw q else 0)) = euler_flux S d3 q).
  { intros q. unfold euler_flux, energy, vel2. destruct d3; reflexivity. }
  rewrite Eq. destruct (Rlt_dec (hu ql) 0), (Rlt_dec 0 (hu ql)); try lra; auto.
  apply euler_at_rest; lra.
Qed.

Lemma hllc_contact ql qr : admissible S ql -> admissible S qr -> hp ql = hp qr -> hu ql = hu qr ->
  riemann_hllc S d3 ql qr = euler_flux S d3 (if Rlt_dec 0 (hu ql) then ql else qr).
Proof.
  intros Al Ar Ep Eu. destruct (adm_floor ql Al) as [Fl1 Fl2]. destruct (adm_floor qr Ar) as [Fr1 Fr2].
  destruct (adm_pos S HS ql Al) as [Pl1 Pl2]. destruct (adm_pos S HS qr Ar) as [Pr1 Pr2].
  pose proof (gamma_gt1 S HS) as Hg.
  rewrite hllc_unfold. pose proof (hllc_speeds ql qr) as HH. cbv zeta in HH.
  rewrite Fl1, Fl2, Fr1, Fr2 in *. destruct HH as (_ & _ & _ & _ & Hc & _).
  set (c := Rmax (hllc_c ql (hd ql) (hp ql)) (hllc_c qr (hd qr) (hp qr))) in *. clearbody c.
  rewrite <- Eu, <- Ep. set (u := hu ql) in *. set (p := hp ql) in *.
  rewrite (Rmin_left u u), (Rmax_left u u) by lra.
  set (SL := u - c). set (SR := u + c).
  assert (HL : 0 < hd ql * (u - SL)) by (unfold SL; apply Rmult_lt_0_compat; lra).
  assert (HR : 0 < hd qr * (SR - u)) by (unfold SR; apply Rmult_lt_0_compat; lra).
  unfold hllc_sel. cbv zeta.
  replace ((hd qr * (SR - u) * u + hd ql * (u - SL) * u + (p - p)) / (hd qr * (SR - u) + hd ql * (u - SL)))
    with u by (field; lra).
  replace ((hd qr * (SR - u) * p + hd ql * (u - SL) * p + hd ql * (u - SL) * (hd qr * (SR - u)) * (u - u)) /
     (hd qr * (SR - u) + hd ql * (u - SL))) with p by (field; lra).
  assert (FIN : forall q ro eo, (q = ql /\ 0 < u) \/ (q = qr /\ u <= 0) ->
    ro = hd q -> eo = hllc_total q (hd q) p -> hllc_flux (ro, u, p, eo) ql qr = euler_flux S d3 q).
  { intros q ro eo Hq -> ->.
    assert (HU : hu q = u) by (destruct Hq as [[-> _]|[-> _]]; auto).
    assert (HP : hp q = p) by (destruct Hq as [[-> _]|[-> _]]; auto).
    assert (HD : 0 < hd q) by (destruct Hq as [[-> _]|[-> _]]; auto).
    unfold hllc_flux, hllc_total, euler_flux, energy, vel2. rewrite HU, HP.
    assert (TV : forall a b x, (q = ql -> x = a) -> (q = qr -> x = b) ->
      (if Rlt_dec 0 (hd q * u) then hd q * u * a else hd q * u * b) = hd q * u * x).
    { intros a b x Ha Hb. destruct Hq as [[Eq Hu]|[Eq Hu]].
      - assert (0 < hd q * u) by (apply Rmult_lt_0_compat; auto).
        destruct (Rlt_dec 0 (hd q * u)); [|lra]. rewrite Ha; auto.
      - assert (hd q * u <= 0). { assert (0 <= hd q * - u) by (apply Rmult_le_pos; lra). lra. }
        destruct (Rlt_dec 0 (hd q * u)); [lra|]. rewrite Hb; auto. }
    cbv zeta. rewrite (TV (hv ql) (hv qr) (hv q)) by (intros ->; reflexivity).
    rewrite (TV (hw ql) (hw qr) (hw q)) by (intros ->; reflexivity).
    destruct d3; apply hs_eq; cbn [hd hp hu hv hw]; try ring; field; lra. }
  destruct (Rlt_dec 0 SL).
  { assert (0 < u) by (unfold SL in *; lra). destruct (Rlt_dec 0 u); [|lra]. apply FIN; auto. }
  destruct (Rlt_dec 0 u).
  { apply FIN; auto; field; unfold SL; lra. }
  destruct (Rlt_dec 0 SR).
  { apply FIN; auto; try (right; split; auto; lra); field; unfold SR; lra. }
  apply FIN; auto. right; split; auto; lra.
Qed.

End Solvers.
