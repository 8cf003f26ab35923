(** * C47, C48, C49 and C38 for MHD, over the reals: interface fluxes, symmetries *)
From Coq Require Import ZArith List Bool Reals Lra Psatz Sorted.
Import ListNotations.
From Verif Require Import Num Exec Grid HydroNum EulerSpec HydroPhysics MhdNum Mhd2DAgree MhdSpec MhdPhysics MhdFanSpec MhdFan
  ExecFacts Hydro2DSpec BoundariesSpec Kernels Hydro2DRun Hydro2DLaws Mhd2D Mhd2DSpec Mhd2DRun PropHydro2D PropMhd2D MhdSymSpec MhdSym Mhd2DSwap.
Local Open Scope R_scope.

(** Every physical state has exactly one fast speed. *)
Lemma C47_fast_speed S q : mhd_sane S -> mhd_adm q -> exists! c, fast_speed S q c.
Proof.
  intros HS Ha. exists (fast_x S q). split; [apply fast_speed_exists; auto|].
  intros c Hc. symmetry. apply (fast_speed_unique S HS); auto.
Qed.

(** LLF: one state between two jumps at plus and minus the largest speed. *)
Theorem C47_llf_fan :
  forall (S : hset R) (ql qr : ms R) cl cr, mhd_sane S -> mhd_adm ql -> mhd_adm qr ->
  let a := (ma ql + ma qr) / 2 in
  fast_speed S (with_bn ql a) cl -> fast_speed S (with_bn qr a) cr ->
  let s := Rmax (cl + Rabs (mu ql)) (cr + Rabs (mu qr)) in
  exists u,
  mfan_flux S ql qr
    [(- s, (u, mhd_llf S ql qr)); (s, (conserved S (with_bn qr a), ideal_flux S (with_bn qr a)))]
    (mhd_llf S ql qr) /\
  - s <= s /\ mencloses (- s) s ql cl /\ mencloses (- s) s qr cr.
Proof. intros. apply mllf_fan; auto. Qed.
Print Assumptions C47_llf_fan.

(** HLL: one state between jumps at the smallest and the largest wave speed. *)
Theorem C47_hll_fan :
  forall (S : hset R) (ql qr : ms R) cl cr, mhd_sane S -> mhd_adm ql -> mhd_adm qr ->
  let a := (ma ql + ma qr) / 2 in
  fast_speed S (with_bn ql a) cl -> fast_speed S (with_bn qr a) cr ->
  let sl := Rmin (Rmin (mu ql) (mu qr) - Rmax cl cr) 0 in
  let sr := Rmax (Rmax (mu ql) (mu qr) + Rmax cl cr) 0 in
  exists u,
  mfan_flux S ql qr
    [(sl, (u, mhd_hll S ql qr)); (sr, (conserved S (with_bn qr a), ideal_flux S (with_bn qr a)))]
    (mhd_hll S ql qr) /\
  sl <= sr /\ mencloses sl sr ql cl /\ mencloses sl sr qr cr.
Proof. intros. apply mhll_fan; auto. Qed.
Print Assumptions C47_hll_fan.

(** HLLD: four states of positive density moving at the contact speed under one total
    pressure; the two inner ones share the transverse velocity and field. The outer
    jumps are the fast waves, the inner ones Alfven waves and the contact. The waves
    are in order when the mass crossing each outer wave is large enough. *)
Theorem C47_hlld_fan :
  forall (S : hset R) (ql qr : ms R) c0 c1, mhd_sane S -> mhd_adm ql -> mhd_adm qr ->
  let a := (ma ql + ma qr) / 2 in
  let l := with_bn ql a in
  let r := with_bn qr a in
  fast_speed S l c0 -> fast_speed S r c1 ->
  let sl := Rmin (mu ql) (mu qr) - Rmax c0 c1 in
  let sr := Rmax (mu ql) (mu qr) + Rmax c0 c1 in
  let s := contact_speed l r sl sr in
  let ml := md ql * (mu ql - sl) in
  let mr := md qr * (sr - mu qr) in
  let rl := ml / (s - sl) in
  let rr := mr / (sr - s) in
  let sal := s - Rabs a / sqrt rl in
  let sar := s + Rabs a / sqrt rr in
  sl < s < sr /\ 0 < rl /\ 0 < rr /\ mencloses sl sr ql c0 /\ mencloses sl sr qr c1 /\
  (regular a ml (s - sl) -> regular a mr (sr - s) ->
   exists p el er e2l e2r vl wl bl cl v w b c vr wr br cr,
   mfan_flux S ql qr
     [(sl, mcarried a rl el s p vl wl bl cl); (sal, mcarried a rl e2l s p v w b c);
      (s, mcarried a rr e2r s p v w b c); (sar, mcarried a rr er s p vr wr br cr);
      (sr, (conserved S r, ideal_flux S r))]
     (mhd_hlld S ql qr)) /\
  (a * a <= ml * (s - sl) -> a * a <= mr * (sr - s) -> StronglySorted Rle [sl; sal; s; sar; sr]).
Proof.
  intros S ql qr c0 c1 HS Al Ar a l r Hl Hr sl sr s ml mr rl rr sal sar.
  destruct (contact_between S HS l r _ (with_bn_adm _ a Al) (with_bn_adm _ a Ar) c0 c1 eq_refl Hl Hr eq_refl)
    as (Pm1 & Pm2 & C1 & C2).
  change (0 < ml) in Pm1. change (0 < mr) in Pm2. change (sl < s) in C1. change (s < sr) in C2.
  assert (Drl : 0 < rl) by (apply Rdiv_lt_0_compat; lra).
  assert (Drr : 0 < rr) by (apply Rdiv_lt_0_compat; lra).
  split; [lra|]. split; [auto|]. split; [auto|].
  split. { unfold mencloses, sl, sr. pose proof (Rmin_l (mu ql) (mu qr)). pose proof (Rmax_l (mu ql) (mu qr)).
    pose proof (Rmax_l c0 c1). lra. }
  split. { unfold mencloses, sl, sr. pose proof (Rmin_r (mu ql) (mu qr)). pose proof (Rmax_r (mu ql) (mu qr)).
    pose proof (Rmax_r c0 c1). lra. }
  destruct (hlld_resolved S HS ql qr c0 c1 Al Ar Hl Hr)
    as (F1 & F2 & F3 & F4 & F5 & F6 & F7 & F8 & F9 & X & (L2 & L3 & L4 & L5) & J1 & J2 & J3 & J4 & J5 & _).
  split.
  - intros R1 R2. fold a l r sl sr s in F1, F2, F3, F4, F5, F6, F7, F8, F9, X, L2, L3, L4, L5, J1, J2, J3, J4, J5.
    destruct X as (p & el & er & e2l & e2r & vl & wl & bl & cl & v & w & b & c & vr & wr & br & cr & E1 & E2 & E3 & E4).
    exists p, el, er, e2l, e2r, vl, wl, bl, cl, v, w, b, c, vr, wr, br, cr.
    change (md l * (mu l - sl) / (s - sl)) with rl in F6. change (md r * (sr - mu r) / (sr - s)) with rr in F7.
    rewrite F6 in E1, E2. rewrite F7 in E3, E4. rewrite F6 in F8. rewrite F7 in F9. fold sal in F8. fold sar in F9.
    specialize (J1 R1). specialize (J5 R2). rewrite F8 in J2. rewrite F9 in J4.
    split.
    + rewrite <- E1, <- E2, <- E3, <- E4. fold a l r.
      repeat match goal with |- context [state_of a ?o] => rewrite (surjective_pairing (state_of a o)); 
        let u := fresh "u" in let f := fresh "f" in
        set (u := fst (state_of a o)) in *; set (f := snd (state_of a o)) in * end.
      repeat (constructor; auto).
    + fold a l r. rewrite <- E1, <- E2, <- E3, <- E4. unfold mhd_hlld.
      replace (nhalf * (ma ql + ma qr))%num with a by (unfold a; Rn; field).
      rewrite <- F1, <- F8, <- F3, <- F9, <- F2.
      assert (Ll : same_line a (f_l (hlld_fan S ql qr))) by (rewrite F4; reflexivity).
      assert (Lr : same_line a (f_r (hlld_fan S ql qr))) by (rewrite F5; reflexivity).
      apply (sample_at_rest a); auto.
      * rewrite F4. change a with (ma l). rewrite state_sample. reflexivity.
      * rewrite F5. change a with (ma r). rewrite state_sample. reflexivity.
  - intros W1 W2.
    assert (Q : forall m d, 0 < m -> 0 < d -> a * a <= m * d -> 0 <= Rabs a / sqrt (m / d) <= d).
    { intros m d Hm Hd Hle. assert (Hp : 0 < m / d) by (apply Rdiv_lt_0_compat; auto).
      pose proof (sqrt_lt_R0 _ Hp) as Hq. pose proof (sqrt_sqrt (m / d) ltac:(lra)) as Hqq.
      pose proof (Rabs_pos a) as Ha0. pose proof (Rsqr_abs a) as Ha2. unfold Rsqr in Ha2.
      split; [apply Rmult_le_pos; [auto|left; apply Rinv_0_lt_compat; auto]|].
      apply (Rmult_le_reg_r (sqrt (m / d))); auto. unfold Rdiv at 1. rewrite Rmult_assoc, Rinv_l, Rmult_1_r by lra.
      apply Rsqr_incr_0_var; [|nra]. unfold Rsqr. rewrite <- Ha2.
      replace (d * sqrt (m / d) * (d * sqrt (m / d))) with (d * d * (sqrt (m / d) * sqrt (m / d))) by ring.
      rewrite Hqq. replace (d * d * (m / d)) with (m * d) by (field; lra). auto. }
    pose proof (Q ml (s - sl) Pm1 ltac:(lra) W1) as Q1. pose proof (Q mr (sr - s) Pm2 ltac:(lra) W2) as Q2.
    fold rl in Q1. fold rr in Q2. unfold sal, sar.
    repeat (apply SSorted_cons || apply SSorted_nil); repeat (apply Forall_cons || apply Forall_nil); lra.
Qed.
Print Assumptions C47_hlld_fan.

(** *** Exceptions *)

Definition fan_set (g : R) : hset R := derive g 1 1 1 1 R_HLLD 1 1 1.
Lemma fan_set_sane g : 1 < g -> mhd_sane (fan_set g).
Proof. intros. unfold mhd_sane, fan_set, derive. cbn [gamma0 smallr smallc]. lra. Qed.

Lemma mjump_comp s u1 f1 u2 f2 : mjump s u1 f1 u2 f2 ->
  md f2 - md f1 = s * (md u2 - md u1) /\ mv f2 - mv f1 = s * (mv u2 - mv u1) /\ mb f2 - mb f1 = s * (mb u2 - mb u1).
Proof.
  intros H. split; [|split]; [apply (H ID)|apply (H IV)|apply (H IB)]; unfold mhd_vars; cbn [In]; tauto.
Qed.

Lemma fast_speed_witness S q c o : 0 < c -> o < c * c ->
  (forall x, magnetosonic S q (ma q) x = (x - c * c) * (x - o)) -> fast_speed S q c.
Proof.
  intros H1 H2 H3. split; [auto|]. split; [rewrite H3; ring|]. intros x Hx. rewrite H3. apply Rmult_lt_0_compat; lra.
Qed.

(** The test meant for the degenerate star state compares the wrong quantity with
    one: it also holds for star states far from degenerate, and the state then used
    does not satisfy the jump conditions. Here x = 0 lies between the left fast wave
    and the left Alfven wave, and no state joined to the left one by a jump at the
    speed of the fast wave has the flux that is returned. *)
Theorem C47_hlld_cutoff_refuted :
  exists (S : hset R) (ql qr : ms R) c0 c1, mhd_sane S /\ mhd_adm ql /\ mhd_adm qr /\
  let a := (ma ql + ma qr) / 2 in
  let l := with_bn ql a in
  let r := with_bn qr a in
  fast_speed S l c0 /\ fast_speed S r c1 /\
  let sl := Rmin (mu ql) (mu qr) - Rmax c0 c1 in
  let sr := Rmax (mu ql) (mu qr) + Rmax c0 c1 in
  let s := contact_speed l r sl sr in
  let ml := md ql * (mu ql - sl) in
  a * a < ml * (s - sl) /\ sl < 0 /\ 0 < s - Rabs a / sqrt (ml / (s - sl)) /\
  ~ exists d e s' p v w b c,
    mjump sl (conserved S l) (ideal_flux S l) (fst (mcarried a d e s' p v w b c)) (mhd_hlld S ql qr) /\
    snd (mcarried a d e s' p v w b c) = mhd_hlld S ql qr.
Proof.
  set (S := fan_set (12 / 7)). set (ql := mkms 1 1 (7 / 4) 0 0 (3 / 2) 1 0). set (qr := mkms 1 (1 / 2) (7 / 4) 0 0 (3 / 2) 0 0).
  assert (HS : mhd_sane S) by (apply fan_set_sane; lra).
  assert (Al : mhd_adm ql) by (unfold mhd_adm, ql; cbn [md mp]; lra).
  assert (Ar : mhd_adm qr) by (unfold mhd_adm, qr; cbn [md mp]; lra).
  exists S, ql, qr, 2, (3 / 2). split; [auto|]. split; [auto|]. split; [auto|]. cbv zeta.
  assert (Ea : (ma ql + ma qr) / 2 = 3 / 2) by (unfold ql, qr; cbn [ma]; lra).
  assert (El : with_bn ql ((ma ql + ma qr) / 2) = ql) by (rewrite Ea; reflexivity).
  assert (Er : with_bn qr ((ma ql + ma qr) / 2) = qr) by (rewrite Ea; reflexivity).
  assert (Hl : fast_speed S ql 2).
  { apply (fast_speed_witness _ _ _ (27 / 28)); try lra. intros x.
    unfold magnetosonic, sound_sq, b_sq, ql, S, fan_set, derive. cbn [md mp ma mb mc gamma0]. field. }
  assert (Hr : fast_speed S qr (3 / 2)).
  { apply (fast_speed_witness _ _ _ (6 / 7)); try lra. intros x.
    unfold magnetosonic, sound_sq, b_sq, qr, S, fan_set, derive. cbn [md mp ma mb mc gamma0]. field. }
  pose proof (hlld_resolved S HS ql qr 2 (3 / 2) Al Ar) as Rs. cbv zeta in Rs. rewrite El, Er in *. rewrite Ea in *.
  specialize (Rs Hl Hr).
  assert (Esl : Rmin (mu ql) (mu qr) - Rmax 2 (3 / 2) = - (1 / 4))
    by (unfold ql, qr; cbn [mu]; rewrite Rmin_left, Rmax_left by lra; lra).
  assert (Esr : Rmax (mu ql) (mu qr) + Rmax 2 (3 / 2) = 15 / 4)
    by (unfold ql, qr; cbn [mu]; rewrite !Rmax_left by lra; lra).
  rewrite Esl, Esr in *.
  assert (Es : contact_speed ql qr (- (1 / 4)) (15 / 4) = 2)
    by (unfold contact_speed, total_pressure, b_sq, ql, qr; cbn [md mp mu ma mb mc]; field).
  unfold resolved in Rs. cbv zeta in Rs. rewrite Es in *.
  destruct Rs as (F1 & _ & F3 & _ & _ & F6 & _ & F8 & _ & X & (L2 & _) & _ & _ & _ & _ & _ & St).
  assert (Em : md ql * (mu ql - - (1 / 4)) / (2 - - (1 / 4)) = 8 / 9) by (unfold ql; cbn [md mu]; field).
  rewrite Em in *. rewrite F6 in F8.
  assert (Hq : 0 < 2 - Rabs (3 / 2) / sqrt (8 / 9)).
  { rewrite Rabs_right by lra. pose proof (sqrt_lt_R0 (8 / 9) ltac:(lra)) as Hq0.
    pose proof (sqrt_sqrt (8 / 9) ltac:(lra)) as Hqq.
    assert (3 / 2 / sqrt (8 / 9) < 2); [|lra]. apply (Rmult_lt_reg_r (sqrt (8 / 9))); auto.
    unfold Rdiv at 1. rewrite Rmult_assoc, Rinv_l by lra. nra. }
  split; [auto|]. split; [auto|].
  split; [unfold ql; cbn [md mu]; lra|]. split; [lra|]. split; [exact Hq|].
  assert (St' : star_side (3 / 2) (md ql) (mu ql) (mv ql) (mw ql) (mb ql) (mc ql) (- (1 / 4)) 2 = (mv ql, mw ql, mb ql, mc ql)).
  { unfold star_side, ql. cbn [md mu mv mw mb mc]. Rn.
    destruct (Rlt_dec 0 (3 / 2 * (3 / 2))) as [|N]; [|exfalso; apply N; lra].
    match goal with |- context [Rle_dec (Rabs ?x) ?y] => destruct (Rle_dec (Rabs x) y) as [|N]; [reflexivity|] end.
    exfalso. apply N. match goal with |- Rabs ?x <= _ => replace x with 0 by field end. rewrite Rabs_R0. 
    change (10 ^ 8)%Z with 100000000%Z. lra. }
  rewrite St' in St. injection St as Ev Ew Eb Ec.
  assert (EF : mhd_hlld S ql qr = snd (state_of (3 / 2) (f_ls (hlld_fan S ql qr)))).
  { unfold mhd_hlld. replace (nhalf * (ma ql + ma qr))%num with (3 / 2) by (unfold ql, qr; cbn [ma]; Rn; field).
    unfold fan_sample. Rn. rewrite F1, F8.
    destruct (Rlt_dec 0 (- (1 / 4))); [lra|]. destruct (Rlt_dec 0 (2 - Rabs (3 / 2) / sqrt (8 / 9))); [|lra].
    apply state_flux. exact L2. }
  destruct X as (p0 & el & er & e2l & e2r & vl & wl & bl & cl & v0 & w0 & b0 & c0' & vr & wr & br & cr & E1 & _).
  rewrite EF. intros (d & e & s' & p & v & w & b & c & J & EQ).
  assert (Ou : o_u (f_ls (hlld_fan S ql qr)) = 2 /\ o_r (f_ls (hlld_fan S ql qr)) = 8 / 9).
  { split; [|exact F6]. apply (f_equal (fun x => mu (fst x))) in E1. unfold state_of, mcarried in E1. cbn [fst mu] in E1.
    rewrite F6 in E1. lra. }
  destruct Ou as [Ou Or]. unfold state_of in J, EQ. rewrite Or, Ou, <- Ev, <- Ew, <- Eb, <- Ec in J, EQ.
  unfold mcarried, ql, conserved, ideal_flux in J, EQ. cbn [fst snd mv mw mb mc md mu ma] in J, EQ.
  pose proof (f_equal mv EQ) as Qv. cbn [mv] in Qv.
  pose proof (f_equal md EQ) as Qd. cbn [md] in Qd.
  destruct (mjump_comp _ _ _ _ _ J) as (Jd & Jv & Jb). cbn [md mv mb] in Jd, Jv, Jb.
  assert (d = 8 / 9) by lra. subst d. assert (v = 0) by lra. subst v. assert (b = 0) by lra. subst b. lra.
Qed.
Print Assumptions C47_hlld_cutoff_refuted.

(** The waves need not be in order: the Alfven wave can run ahead of the fast wave. *)
Theorem C47_hlld_order_refuted :
  exists (S : hset R) (ql qr : ms R) c0 c1, mhd_sane S /\ mhd_adm ql /\ mhd_adm qr /\
  let a := (ma ql + ma qr) / 2 in
  let l := with_bn ql a in
  let r := with_bn qr a in
  fast_speed S l c0 /\ fast_speed S r c1 /\
  let sl := Rmin (mu ql) (mu qr) - Rmax c0 c1 in
  let sr := Rmax (mu ql) (mu qr) + Rmax c0 c1 in
  let s := contact_speed l r sl sr in
  let ml := md ql * (mu ql - sl) in
  let mr := md qr * (sr - mu qr) in
  regular a ml (s - sl) /\ regular a mr (sr - s) /\ s - Rabs a / sqrt (ml / (s - sl)) < sl.
Proof.
  set (S := fan_set (5 / 3)). set (ql := mkms 1 (1 / 10) 0 0 0 1 0 0). set (qr := mkms 1 (1 / 2) 0 0 0 1 0 0).
  exists S, ql, qr, 1, 1. split; [apply fan_set_sane; lra|].
  split; [unfold mhd_adm, ql; cbn [md mp]; lra|]. split; [unfold mhd_adm, qr; cbn [md mp]; lra|]. cbv zeta.
  assert (Ea : (ma ql + ma qr) / 2 = 1) by (unfold ql, qr; cbn [ma]; lra). rewrite Ea.
  change (with_bn ql 1) with ql. change (with_bn qr 1) with qr.
  split. { apply (fast_speed_witness _ _ _ (1 / 6)); try lra. intros x.
    unfold magnetosonic, sound_sq, b_sq, ql, S, fan_set, derive. cbn [md mp ma mb mc gamma0]. field. }
  split. { apply (fast_speed_witness _ _ _ (5 / 6)); try lra. intros x.
    unfold magnetosonic, sound_sq, b_sq, qr, S, fan_set, derive. cbn [md mp ma mb mc gamma0]. field. }
  assert (Esl : Rmin (mu ql) (mu qr) - Rmax 1 1 = - (1)) by (unfold ql, qr; cbn [mu]; rewrite Rmin_left, Rmax_left by lra; lra).
  assert (Esr : Rmax (mu ql) (mu qr) + Rmax 1 1 = 1) by (unfold ql, qr; cbn [mu]; rewrite !Rmax_left by lra; lra).
  rewrite Esl, Esr.
  assert (Es : contact_speed ql qr (- (1)) 1 = - (1 / 5))
    by (unfold contact_speed, total_pressure, b_sq, ql, qr; cbn [md mp mu ma mb mc]; field).
  rewrite Es. unfold ql, qr. cbn [md mu]. unfold regular.
  split. { split; [lra|]. intros [_ H]. revert H. apply Rlt_not_le. rewrite Rabs_left; lra. }
  split. { split; [lra|]. intros [_ H]. revert H. apply Rlt_not_le. rewrite Rabs_left; lra. }
  replace (1 * (0 - - (1)) / (- (1 / 5) - - (1))) with (5 / 4) by field.
  rewrite Rabs_right by lra. pose proof (sqrt_lt_R0 (5 / 4) ltac:(lra)) as Hq0. pose proof (sqrt_sqrt (5 / 4) ltac:(lra)) as Hqq.
  assert (4 / 5 < 1 / sqrt (5 / 4)); [|lra]. apply (Rmult_lt_reg_r (sqrt (5 / 4))); auto.
  unfold Rdiv at 3. rewrite Rmult_assoc, Rinv_l by lra. nra.
Qed.
Print Assumptions C47_hlld_order_refuted.

(** A case of the theorems: different states on both sides with all field components. *)
Example C47_case : exists S ql qr c0 c1, mhd_sane S /\ mhd_adm ql /\ mhd_adm qr /\
  let a := (ma ql + ma qr) / 2 in
  let l := with_bn ql a in
  let r := with_bn qr a in
  fast_speed S l c0 /\ fast_speed S r c1 /\
  let sl := Rmin (mu ql) (mu qr) - Rmax c0 c1 in
  let sr := Rmax (mu ql) (mu qr) + Rmax c0 c1 in
  let s := contact_speed l r sl sr in
  let ml := md ql * (mu ql - sl) in
  let mr := md qr * (sr - mu qr) in
  ma ql <> ma qr /\ mb ql <> mb qr /\
  regular a ml (s - sl) /\ regular a mr (sr - s) /\ a * a <= ml * (s - sl) /\ a * a <= mr * (sr - s).
Proof.
  (* gamma = 12/7, left: fast speed 2, right: fast speed 3/2 with the mean field 3/2 *)
  exists (fan_set (12 / 7)), (mkms 1 1 0 1 0 1 1 0), (mkms 1 (1 / 4) 0 0 1 2 0 0), 2, (3 / 2).
  split; [apply fan_set_sane; lra|]. split; [unfold mhd_adm; cbn; lra|]. split; [unfold mhd_adm; cbn; lra|]. cbv zeta.
  cbn [ma mu md mb]. replace ((1 + 2) / 2) with (3 / 2) by lra.
  split. { apply (fast_speed_witness _ _ _ (27 / 28)); try lra. intros x.
    unfold magnetosonic, sound_sq, b_sq, fan_set, derive, with_bn. cbn [md mp ma mb mc gamma0]. field. }
  split. { apply (fast_speed_witness _ _ _ (3 / 7)); try lra. intros x.
    unfold magnetosonic, sound_sq, b_sq, fan_set, derive, with_bn. cbn [md mp ma mb mc gamma0]. field. }
  rewrite Rmin_left, !Rmax_left by lra.
  match goal with |- context [contact_speed ?l ?r ?x ?y] => assert (Es : contact_speed l r x y = 5 / 16)
    by (unfold contact_speed, total_pressure, b_sq, with_bn; cbn [md mp mu ma mb mc]; field) end.
  rewrite Es. unfold regular.
  split; [lra|]. split; [lra|].
  split. { split; [lra|]. intros [_ H]. revert H. apply Rlt_not_le. rewrite Rabs_right; lra. }
  split. { split; [lra|]. intros [_ H]. revert H. apply Rlt_not_le. rewrite Rabs_left; lra. }
  lra.
Qed.

(** ** C48 *)

(** Exchange of the two transverse axes: every solver, every pair of states. *)
Theorem C48_transverse_exchange :
  forall (S : hset R) (ql qr : ms R), mhd_sane S ->
  riemann_mhd S (tr ql) (tr qr) = option_map tr (riemann_mhd S ql qr).
Proof.
  intros S ql qr HS. unfold riemann_mhd. rewrite hlld_tr, (hll_tr S HS), (llf_tr S HS). destruct (solver S); reflexivity.
Qed.
Print Assumptions C48_transverse_exchange.

(** Reversal of the field: every solver, every pair of states. *)
Theorem C48_field_reversal :
  forall (S : hset R) (ql qr : ms R), mhd_sane S ->
  riemann_mhd S (rev ql) (rev qr) = option_map rev (riemann_mhd S ql qr).
Proof.
  intros S ql qr HS. unfold riemann_mhd. rewrite hlld_rev, (hll_rev S HS), (llf_rev S HS). destruct (solver S); reflexivity.
Qed.
Print Assumptions C48_field_reversal.

(** Reversal of the normal axis: HLL and LLF, every pair of states. *)
Theorem C48_mirror :
  forall (S : hset R) (ql qr : ms R), mhd_sane S -> solver S <> R_HLLD ->
  riemann_mhd S (mir qr) (mir ql) = option_map mirF (riemann_mhd S ql qr).
Proof.
  intros S ql qr HS H. unfold riemann_mhd. rewrite (hll_mir S HS), (llf_mir S HS). destruct (solver S); congruence || reflexivity.
Qed.
Print Assumptions C48_mirror.

(** HLLD: for the fans of C47 with the waves in order. *)
Theorem C48_hlld_mirror :
  forall (S : hset R) (ql qr : ms R) cl cr, mhd_sane S -> solver S = R_HLLD -> mhd_adm ql -> mhd_adm qr ->
  let a := (ma ql + ma qr) / 2 in
  let l := with_bn ql a in
  let r := with_bn qr a in
  fast_speed S l cl -> fast_speed S r cr ->
  let sl := Rmin (mu ql) (mu qr) - Rmax cl cr in
  let sr := Rmax (mu ql) (mu qr) + Rmax cl cr in
  let s := contact_speed l r sl sr in
  let ml := md ql * (mu ql - sl) in
  let mr := md qr * (sr - mu qr) in
  regular a ml (s - sl) -> regular a mr (sr - s) -> a * a <= ml * (s - sl) -> a * a <= mr * (sr - s) ->
  riemann_mhd S (mir qr) (mir ql) = option_map mirF (riemann_mhd S ql qr).
Proof.
  intros S ql qr cl cr HS Hs Al Ar a l r Hl Hr sl sr s ml mr R1 R2 W1 W2.
  unfold riemann_mhd. rewrite Hs. cbn [option_map]. apply f_equal.
  exact (hlld_mir S HS ql qr cl cr Al Ar Hl Hr R1 R2 W1 W2).
Qed.
Print Assumptions C48_hlld_mirror.

(** When the waves are out of order it matters which side is tested first: the
    left state is returned as it is, the mirrored problem returns an inner state. *)
Theorem C48_hlld_mirror_refuted :
  exists (S : hset R) (ql qr : ms R), mhd_sane S /\ solver S = R_HLLD /\ mhd_adm ql /\ mhd_adm qr /\
  riemann_mhd S (mir qr) (mir ql) <> option_map mirF (riemann_mhd S ql qr).
Proof.
  set (S := fan_set (5 / 3)). set (ql := mkms 1 (1 / 10) (21 / 20) 0 0 1 0 0).
  set (qr := mkms 1 (1 / 2) (21 / 20) 0 0 1 0 0).
  assert (HS : mhd_sane S) by (apply fan_set_sane; lra).
  assert (Al : mhd_adm ql) by (unfold mhd_adm, ql; cbn [md mp]; lra).
  assert (Ar : mhd_adm qr) by (unfold mhd_adm, qr; cbn [md mp]; lra).
  exists S, ql, qr. split; [auto|]. split; [reflexivity|]. split; [auto|]. split; [auto|].
  unfold riemann_mhd. change (solver S) with R_HLLD. cbn [option_map]. intros E.
  apply (f_equal (fun o => match o with Some q => md q | None => 0 end)) in E.
  revert E. change (md (mhd_hlld S (mir qr) (mir ql)) = - md (mhd_hlld S ql qr) -> False).
  assert (Hfl : fast_speed S ql 1).
  { apply (fast_speed_witness _ _ _ (1 / 6)); try lra. intros x.
    unfold magnetosonic, sound_sq, b_sq, ql, S, fan_set, derive. cbn [md mp ma mb mc gamma0]. field. }
  assert (Hfr : fast_speed S qr 1).
  { apply (fast_speed_witness _ _ _ (5 / 6)); try lra. intros x.
    unfold magnetosonic, sound_sq, b_sq, qr, S, fan_set, derive. cbn [md mp ma mb mc gamma0]. field. }
  assert (Hfl' : fast_speed S (mir qr) 1).
  { apply (fast_speed_witness _ _ _ (5 / 6)); try lra. intros x.
    unfold magnetosonic, sound_sq, b_sq, mir, qr, S, fan_set, derive. cbn [md mp ma mb mc gamma0]. field. }
  assert (Hfr' : fast_speed S (mir ql) 1).
  { apply (fast_speed_witness _ _ _ (1 / 6)); try lra. intros x.
    unfold magnetosonic, sound_sq, b_sq, mir, ql, S, fan_set, derive. cbn [md mp ma mb mc gamma0]. field. }
  assert (M1 : md (mhd_hlld S ql qr) = 21 / 20).
  { pose proof (hlld_resolved S HS ql qr 1 1 Al Ar) as Rs. cbv zeta in Rs.
    assert (Ea : (ma ql + ma qr) / 2 = 1) by (unfold ql, qr; cbn [ma]; lra).
    assert (El : with_bn ql ((ma ql + ma qr) / 2) = ql) by (rewrite Ea; reflexivity).
    assert (Er : with_bn qr ((ma ql + ma qr) / 2) = qr) by (rewrite Ea; reflexivity).
    rewrite El, Er in Rs. specialize (Rs Hfl Hfr).
    assert (Esl : Rmin (mu ql) (mu qr) - Rmax 1 1 = 1 / 20) by (unfold ql, qr; cbn [mu]; rewrite Rmin_left, Rmax_left by lra; lra).
    rewrite Esl in Rs. unfold resolved in Rs. cbv zeta in Rs. destruct Rs as (F1 & _ & _ & F4 & _).
    unfold mhd_hlld, fan_sample. Rn. rewrite F1. destruct (Rlt_dec 0 (1 / 20)); [|lra].
    rewrite F4. unfold sample_flux. cbn. lra. }
  assert (M2 : md (mhd_hlld S (mir qr) (mir ql)) = - (17 / 16)).
  { assert (Al' : mhd_adm (mir qr)) by exact Ar. assert (Ar' : mhd_adm (mir ql)) by exact Al.
    pose proof (hlld_resolved S HS (mir qr) (mir ql) 1 1 Al' Ar') as Rs. cbv zeta in Rs.
    assert (Ea : (ma (mir qr) + ma (mir ql)) / 2 = - (1)) by (unfold mir, ql, qr; cbn [ma]; lra).
    assert (El : with_bn (mir qr) ((ma (mir qr) + ma (mir ql)) / 2) = mir qr) by (rewrite Ea; reflexivity).
    assert (Er : with_bn (mir ql) ((ma (mir qr) + ma (mir ql)) / 2) = mir ql) by (rewrite Ea; reflexivity).
    rewrite El, Er in Rs. specialize (Rs Hfl' Hfr').
    assert (Esl : Rmin (mu (mir qr)) (mu (mir ql)) - Rmax 1 1 = - (41 / 20)) by (unfold mir, ql, qr; cbn [mu]; rewrite Rmin_left, Rmax_left by lra; lra).
    assert (Esr : Rmax (mu (mir qr)) (mu (mir ql)) + Rmax 1 1 = - (1 / 20)) by (unfold mir, ql, qr; cbn [mu]; rewrite !Rmax_left by lra; lra).
    rewrite Esl, Esr, Ea in Rs.
    assert (Es : contact_speed (mir qr) (mir ql) (- (41 / 20)) (- (1 / 20)) = - (17 / 20))
      by (unfold contact_speed, total_pressure, b_sq, mir, ql, qr; cbn [md mp mu ma mb mc]; field).
    unfold resolved in Rs. cbv zeta in Rs. rewrite Es in Rs.
    assert (Em : md (mir ql) * (- (1 / 20) - mu (mir ql)) / (- (1 / 20) - - (17 / 20)) = 5 / 4) by (unfold mir, ql; cbn [md mu]; field).
    assert (Em' : md (mir qr) * (mu (mir qr) - - (41 / 20)) / (- (17 / 20) - - (41 / 20)) = 5 / 6) by (unfold mir, qr; cbn [md mu]; field).
    rewrite Em, Em' in Rs.
    destruct Rs as (F1 & F2 & F3 & _ & _ & F6 & F7 & F8 & F9 & X & (L2 & L3 & L4 & L5) & _).
    rewrite F7 in F9. rewrite F6 in F8.
    destruct X as (p & el & er & e2l & e2r & vl & wl & bl & cl & v & w & b & c & vr & wr & br & cr & _ & _ & E3 & _).
    unfold mhd_hlld. replace (nhalf * (ma (mir qr) + ma (mir ql)))%num with (- (1)) by (rewrite <- Ea; Rn; field).
    unfold fan_sample. Rn. rewrite F1, F8, F3, F9, Rabs_Ropp, Rabs_R1.
    destruct (Rlt_dec 0 (- (41 / 20))); [lra|].
    destruct (Rlt_dec 0 (- (17 / 20) - 1 / sqrt (5 / 6))) as [H|_].
    { exfalso. pose proof (sqrt_lt_R0 (5 / 6) ltac:(lra)) as Hq. pose proof (Rdiv_lt_0_compat 1 _ ltac:(lra) Hq). lra. }
    destruct (Rlt_dec 0 (- (17 / 20))); [lra|].
    destruct (Rlt_dec 0 (- (17 / 20) + 1 / sqrt (5 / 4))) as [_|H].
    - rewrite state_flux by exact L4. rewrite E3, F7. unfold mcarried. cbn [snd md]. lra.
    - exfalso. apply H. pose proof (sqrt_lt_R0 (5 / 4) ltac:(lra)) as Hq. pose proof (sqrt_sqrt (5 / 4) ltac:(lra)) as Hqq.
      assert (17 / 20 < 1 / sqrt (5 / 4)); [|lra]. apply (Rmult_lt_reg_r (sqrt (5 / 4))); auto.
      unfold Rdiv at 3. rewrite Rmult_assoc, Rinv_l by lra. nra. }
  rewrite M1, M2. lra.
Qed.
Print Assumptions C48_hlld_mirror_refuted.

(** What the maps do to a state; the hypotheses of the HLLD theorem are those met in
    [C47_case]. *)
Example C48_case :
  let q := mkms 1 2 3 4 5 6 7 8 in
  mir q = mkms 1 2 (-3) 4 5 (-6) 7 8 /\ tr q = mkms 1 2 3 5 4 6 8 7 /\
  rev q = mkms 1 2 3 4 5 (-6) (-7) (-8) /\ sw q = mkms 1 2 4 3 5 7 6 8 /\
  mirF q = mkms (-1) (-2) 3 (-4) (-5) 6 (-7) (-8).
Proof. cbv zeta. unfold mir, tr, rev, sw, mirF. cbn [md mp mu mv mw ma mb mc]. repeat split. Qed.

(** ** C49 *)

(** The electromotive force on the edge between four states is that of the four
    states with the two axes exchanged, with the opposite sign (E = u B - v A). *)
Theorem C49_edge_exchange :
  forall (S : hset R) (qRT qRB qLT qLB : ms R),
  compute_emf S EMFZ (sw qRT) (sw qLT) (sw qRB) (sw qLB) = - compute_emf S EMFZ qRT qRB qLT qLB.
Proof. intros. apply emf_sw. Qed.
Print Assumptions C49_edge_exchange.

(** Edges along the other axes are edges along the third, seen from there. *)
Theorem C49_edge_axes :
  forall (S : hset R) d (qRT qRB qLT qLB : ms R),
  compute_emf S d qRT qRB qLT qLB = compute_emf S EMFZ (turned d qRT) (turned d qRB) (turned d qLT) (turned d qLB).
Proof. intros S d qRT qRB qLT qLB. destruct d; reflexivity. Qed.
Print Assumptions C49_edge_axes.

(** Reversing the field reverses the electromotive force. *)
Theorem C49_edge_field_reversal :
  forall (S : hset R) (qRT qRB qLT qLB : ms R),
  compute_emf S EMFZ (rev qRT) (rev qRB) (rev qLT) (rev qLB) = - compute_emf S EMFZ qRT qRB qLT qLB.
Proof. intros. apply emf_rev. Qed.
Print Assumptions C49_edge_field_reversal.

(** Reversing the first axis, hence exchanging the cells on its two sides, changes
    the sign, unless an outermost wave along it stands still. *)
Theorem C49_edge_mirror :
  forall (S : hset R) (qRT qRB qLT qLB : ms R), mhd_sane S ->
  mhd_adm qRT -> mhd_adm qRB -> mhd_adm qLT -> mhd_adm qLB ->
  let '(LL, RL, LR, RR) := edge_states qRT qRB qLT qLB in
  forall cLL cRL cLR cRR,
  fast_speed S LL cLL -> fast_speed S RL cRL -> fast_speed S LR cLR -> fast_speed S RR cRR ->
  let c := Rmax (Rmax cLL cRL) (Rmax cLR cRR) in
  Rmin (Rmin (mu LL) (mu RL)) (Rmin (mu LR) (mu RR)) - c <> 0 ->
  Rmax (Rmax (mu LL) (mu RL)) (Rmax (mu LR) (mu RR)) + c <> 0 ->
  compute_emf S EMFZ (mir qLT) (mir qLB) (mir qRT) (mir qRB) = - compute_emf S EMFZ qRT qRB qLT qLB.
Proof.
  intros S qRT qRB qLT qLB HS A1 A2 A3 A4. destruct (edge_states qRT qRB qLT qLB) as [[[LL RL] LR] RR] eqn:E.
  assert (Ad : mhd_adm LL /\ mhd_adm RL /\ mhd_adm LR /\ mhd_adm RR).
  { unfold edge_states in E. inversion E. subst. unfold mhd_adm, put_ab in *. cbn [md mp]. auto. }
  destruct Ad as (B1 & B2 & B3 & B4).
  intros cLL cRL cLR cRR H1 H2 H3 H4. cbv zeta.
  rewrite (fast_speed_unique S HS LL _ B1 H1), (fast_speed_unique S HS RL _ B2 H2),
    (fast_speed_unique S HS LR _ B3 H3), (fast_speed_unique S HS RR _ B4 H4).
  intros N1 N2. apply emf_mir. rewrite E. rewrite speeds_pairs. split; assumption.
Qed.
Print Assumptions C49_edge_mirror.

(** When every wave leaves the edge towards one side along both axes, the
    electromotive force is the electric field of the state it leaves. *)
Theorem C49_edge_upwind :
  forall (S : hset R) (qRT qRB qLT qLB : ms R) (xup yup : bool), mhd_sane S ->
  mhd_adm qRT -> mhd_adm qRB -> mhd_adm qLT -> mhd_adm qLB ->
  let '(LL, RL, LR, RR) := edge_states qRT qRB qLT qLB in
  let qs := [LL; RL; LR; RR] in
  (forall q q' c, In q qs -> In q' qs -> fast_speed S q c -> c < if xup then mu q' else - mu q') ->
  (forall q q' c, In q qs -> In q' qs -> fast_speed S (sw q) c -> c < if yup then mv q' else - mv q') ->
  compute_emf S EMFZ qRT qRB qLT qLB =
  ideal_emf EMFZ (if xup then if yup then LL else LR else if yup then RL else RR).
Proof.
  intros S qRT qRB qLT qLB xup yup HS A1 A2 A3 A4.
  destruct (edge_states qRT qRB qLT qLB) as [[[LL RL] LR] RR] eqn:E. intros qs HX HY.
  assert (Ad : forall q, In q qs -> mhd_adm q).
  { unfold edge_states in E. inversion E. subst. intros q [<-|[<-|[<-|[<-|[]]]]]; unfold mhd_adm, put_ab in *; cbn [md mp]; auto. }
  assert (FX : forall q q', In q qs -> In q' qs -> fast_x S q < if xup then mu q' else - mu q').
  { intros q q' Hq Hq'. apply (HX q q'); auto. apply fast_speed_exists; auto. }
  assert (FY : forall q q', In q qs -> In q' qs -> fast_y S q < if yup then mv q' else - mv q').
  { intros q q' Hq Hq'. apply (HY q q'); auto. rewrite <- (fast_sw S q). apply fast_speed_exists; auto.
    destruct (Ad q Hq). split; assumption. }
  assert (I1 : In LL qs) by (left; reflexivity). assert (I2 : In RL qs) by (right; left; reflexivity).
  assert (I3 : In LR qs) by (right; right; left; reflexivity). assert (I4 : In RR qs) by (right; right; right; left; reflexivity).
  clearbody qs.
  assert (Mx : forall (f : ms R -> R) x, (forall q, In q qs -> f q < x) -> Rmax (Rmax (f LL) (f RL)) (Rmax (f LR) (f RR)) < x).
  { intros f x Hf. repeat apply Rmax_lub_lt; apply Hf; assumption. }
  assert (Mn : forall (f : ms R -> R) x, (forall q, In q qs -> x < f q) -> x < Rmin (Rmin (f LL) (f RL)) (Rmin (f LR) (f RR))).
  { intros f x Hf. repeat apply Rmin_glb_lt; apply Hf; assumption. }
  rewrite emf_states, E. cbv beta iota zeta. unfold mag_riemann2d. rewrite regions_parts, speeds_pairs. cbv beta iota zeta. rewrite select_spec.
  set (SL := Rmin (Rmin (mu LL) _) _ - _). set (SR := Rmax (Rmax (mu LL) _) _ + _). set (SB := Rmin (Rmin (mv LL) _) _ - _). set (ST := Rmax (Rmax (mv LL) _) _ + _).
  assert (X : if xup then 0 < SL else SR < 0).
  { destruct xup.
    - assert (Rmax (Rmax (fast_x S LL) (fast_x S RL)) (Rmax (fast_x S LR) (fast_x S RR)) <
              Rmin (Rmin (mu LL) (mu RL)) (Rmin (mu LR) (mu RR))); [|unfold SL; lra].
      apply Mx. intros q Hq. apply Mn. intros q' Hq'. apply (FX q q'); auto.
    - assert (Rmax (Rmax (fast_x S LL) (fast_x S RL)) (Rmax (fast_x S LR) (fast_x S RR)) <
              - Rmax (Rmax (mu LL) (mu RL)) (Rmax (mu LR) (mu RR))); [|unfold SR; lra].
      apply Mx. intros q Hq. apply Ropp_lt_cancel. rewrite Ropp_involutive. apply Mx. intros q' Hq'.
      pose proof (FX q q' Hq Hq'). cbv beta iota in *. lra. }
  assert (Y : if yup then 0 < SB else ST < 0).
  { destruct yup.
    - assert (Rmax (Rmax (fast_y S LL) (fast_y S RL)) (Rmax (fast_y S LR) (fast_y S RR)) <
              Rmin (Rmin (mv LL) (mv RL)) (Rmin (mv LR) (mv RR))); [|unfold SB; lra].
      apply Mx. intros q Hq. apply Mn. intros q' Hq'. apply (FY q q'); auto.
    - assert (Rmax (Rmax (fast_y S LL) (fast_y S RL)) (Rmax (fast_y S LR) (fast_y S RR)) <
              - Rmax (Rmax (mv LL) (mv RL)) (Rmax (mv LR) (mv RR))); [|unfold ST; lra].
      apply Mx. intros q Hq. apply Ropp_lt_cancel. rewrite Ropp_involutive. apply Mx. intros q' Hq'.
      pose proof (FY q q' Hq Hq'). cbv beta iota in *. lra. }
  assert (OX : SL <= SR) by (pose proof (speeds_order S LL RL LR RR) as O; rewrite speeds_pairs in O; exact O).
  assert (OY : SB <= ST).
  { pose proof (speeds_order S (sw LL) (sw LR) (sw RL) (sw RR)) as O. pose proof (speeds_sw S LL RL LR RR) as O'.
    rewrite speeds_pairs in O'. cbv zeta in O'. rewrite O' in O. exact O. }
  clearbody SL SR SB ST. unfold edge_parts. cbv zeta. cbn [e_LL e_RL e_LR e_RR].
  destruct xup, yup, (Rlt_dec SB 0), (Rlt_dec ST 0), (Rlt_dec SL 0), (Rlt_dec SR 0); try reflexivity; exfalso; lra.
Qed.
Print Assumptions C49_edge_upwind.

(** Four equal states: the electromotive force is the ideal one, so neither side is
    zero in general. *)
Example C49_case : exists (S : hset R) q, compute_emf S EMFZ q q q q = 1 /\
  compute_emf S EMFZ (sw q) (sw q) (sw q) (sw q) = - (1).
Proof.
  exists (fan_set (5 / 3)), (mkms 1 1 1 0 0 0 1 0).
  assert (E : compute_emf (fan_set (5 / 3)) EMFZ (mkms 1 1 1 0 0 0 1 0) (mkms 1 1 1 0 0 0 1 0)
                (mkms 1 1 1 0 0 0 1 0) (mkms 1 1 1 0 0 0 1 0) = 1).
  { rewrite C26_edge_consistency; [|apply fan_set_sane; lra|unfold mhd_adm; cbn [md mp]; lra].
    unfold ideal_emf. cbn [mu mv ma mb]. lra. }
  split; [exact E|]. rewrite C49_edge_exchange, E. reflexivity.
Qed.

(** Two different states on either side: the flow is faster than every wave along both
    axes, so the hypotheses of [C49_edge_upwind] and [C49_edge_mirror] hold. *)
Example C49_upwind_case : exists (S : hset R) l r,
  mhd_sane S /\ mhd_adm l /\ mhd_adm r /\ l <> r /\
  compute_emf S EMFZ l l r r = -6 /\ compute_emf S EMFZ (mir r) (mir r) (mir l) (mir l) = - (-6).
Proof.
  set (l := mkms 1 1 9 9 0 1 (1 / 3) 0). set (r := mkms 2 1 9 9 0 1 0 0).
  exists (fan_set 2), l, r.
  assert (HS : mhd_sane (fan_set 2)) by (apply fan_set_sane; lra).
  assert (Al : mhd_adm l) by (unfold mhd_adm, l; cbn [md mp]; lra).
  assert (Ar : mhd_adm r) by (unfold mhd_adm, r; cbn [md mp]; lra).
  assert (N : l <> r) by (intros E; apply (f_equal (@md R)) in E; unfold l, r in E; cbn [md] in E; lra).
  assert (El : edge_states l l r r = (l, r, l, r)).
  { unfold edge_states, put_ab, l, r. cbn [md mp mu mv mw ma mb mc].
    replace ((1 + 1) / 2) with 1 by lra. replace ((1 / 3 + 1 / 3) / 2) with (1 / 3) by lra.
    replace ((0 + 0) / 2) with 0 by lra. reflexivity. }
  assert (F : forall q c, mhd_adm q -> sound_sq (fan_set 2) q + b_sq q / md q < 9 * 9 -> fast_speed (fan_set 2) q c -> c < 9).
  { intros q c [Hd Hp] Hq (C1 & C2 & C3). destruct (Rlt_dec c 9) as [|G]; auto. exfalso.
    unfold magnetosonic in C2. assert (0 < sound_sq (fan_set 2) q).
    { unfold sound_sq. change (gamma0 (fan_set 2)) with 2. apply Rdiv_lt_0_compat; lra. }
    assert (0 <= ma q * ma q / md q) by (apply Rmult_le_pos; [nra|left; apply Rinv_0_lt_compat; lra]).
    assert (0 <= sound_sq (fan_set 2) q * (ma q * ma q / md q)) by (apply Rmult_le_pos; lra).
    assert (9 * 9 <= c * c) by nra. nra. }
  assert (Fl : forall q, In q [l; r; l; r] -> mhd_adm q /\ mhd_adm (sw q) /\ mu q = 9 /\ mv q = 9 /\
     sound_sq (fan_set 2) q + b_sq q / md q < 9 * 9 /\ sound_sq (fan_set 2) (sw q) + b_sq (sw q) / md (sw q) < 9 * 9).
  { assert (Gl : mhd_adm l /\ mhd_adm (sw l) /\ mu l = 9 /\ mv l = 9 /\
     sound_sq (fan_set 2) l + b_sq l / md l < 9 * 9 /\ sound_sq (fan_set 2) (sw l) + b_sq (sw l) / md (sw l) < 9 * 9).
    { repeat split; try apply Al; unfold sound_sq, b_sq, l, sw; cbn [md mp ma mb mc]; change (gamma0 (fan_set 2)) with 2; lra. }
    assert (Gr : mhd_adm r /\ mhd_adm (sw r) /\ mu r = 9 /\ mv r = 9 /\
     sound_sq (fan_set 2) r + b_sq r / md r < 9 * 9 /\ sound_sq (fan_set 2) (sw r) + b_sq (sw r) / md (sw r) < 9 * 9).
    { repeat split; try apply Ar; unfold sound_sq, b_sq, r, sw; cbn [md mp ma mb mc]; change (gamma0 (fan_set 2)) with 2; lra. }
    intros q [<-|[<-|[<-|[<-|[]]]]]; assumption. }
  assert (E : compute_emf (fan_set 2) EMFZ l l r r = -6).
  { pose proof (C49_edge_upwind (fan_set 2) l l r r true true HS Al Al Ar Ar) as U. rewrite El in U. cbv zeta in U.
    rewrite U; [unfold ideal_emf, l; cbn [mu mv ma mb]; lra| |].
    - intros q q' c Hq Hq' Hc. destruct (Fl q Hq) as (D1 & _ & _ & _ & D2 & _). destruct (Fl q' Hq') as (_ & _ & D3 & _).
      rewrite D3. apply (F q); assumption.
    - intros q q' c Hq Hq' Hc. destruct (Fl q Hq) as (_ & D1 & _ & _ & _ & D2). destruct (Fl q' Hq') as (_ & _ & _ & D3 & _).
      rewrite D3. apply (F (sw q)); assumption. }
  split; [exact HS|]. split; [exact Al|]. split; [exact Ar|]. split; [exact N|]. split; [exact E|]. rewrite <- E.
  pose proof (C49_edge_mirror (fan_set 2) l l r r HS Al Al Ar Ar) as M. rewrite El in M.
  destruct (C47_fast_speed (fan_set 2) l HS Al) as (cl & Hl & _). destruct (C47_fast_speed (fan_set 2) r HS Ar) as (cr & Hr & _).
  assert (Cl : cl < 9) by (apply (F l); auto; apply Fl; left; reflexivity).
  assert (Cr : cr < 9) by (apply (F r); auto; apply Fl; right; left; reflexivity).
  assert (Pl : 0 < cl) by apply Hl. assert (Pr : 0 < cr) by apply Hr.
  assert (Pc : 0 < Rmax (Rmax cl cr) (Rmax cl cr) < 9).
  { split; [eapply Rlt_le_trans; [exact Pl|]; eapply Rle_trans; [apply Rmax_l|apply Rmax_l]|].
    repeat apply Rmax_lub_lt; assumption. }
  apply (M cl cr cl cr Hl Hr Hl Hr); unfold l, r; cbn [mu].
  - replace (Rmin (Rmin 9 9) (Rmin 9 9)) with 9 by (unfold Rmin; destruct (Rle_dec 9 9); destruct (Rle_dec _ _); lra). lra.
  - replace (Rmax (Rmax 9 9) (Rmax 9 9)) with 9 by (unfold Rmax; destruct (Rle_dec 9 9); destruct (Rle_dec _ _); lra). lra.
Qed.

(** ** C38 for MHD *)
Theorem C38_mhd_axis_exchange :
  forall m (S : hset R) inb inb' iv iv' n dts s1 s1' s2 s2',
  mready2 m S ->
  msame (swap_mesh m) (field_of (cur n) s2) (mtranspose (field_of (cur n) s1)) ->
  execs inb s1 (msteps2 m S iv n dts) s1' ->
  execs inb' s2 (msteps2 (swap_mesh m) (swap_set S) iv' n dts) s2' ->
  msame (swap_mesh m) (final_field n dts s2') (mtranspose (final_field n dts s1')).
Proof.
  intros m S inb inb' iv iv' n dts s1 s1' s2 s2' (Hw & Hg & Hn & Hs & Hr) HU E1 E2.
  pose proof (mrun_refines m S Hw Hg inb iv (mrefines_R m S inb iv Hw Hg Hn Hs Hr) _ _ _ _ E1) as A.
  pose proof (mrun_refines (swap_mesh m) (swap_set S) (wide2_swap m Hw) Hg inb' iv'
    (mrefines_R (swap_mesh m) (swap_set S) inb' iv' (wide2_swap m Hw) Hg Hn Hs Hr) _ _ _ _ E2) as B.
  intros i j v Hp Hv. unfold final_field. rewrite B by assumption.
  rewrite (mrun_spec_ext (swap_mesh m) (swap_set S) (wide2_swap m Hw) Hg dts _ (mtranspose (field_of (cur n) s1)) HU) by assumption.
  rewrite mrun_transpose by assumption. unfold mtranspose. symmetry. apply A.
  - destruct Hp as [H1 H2]. split; [exact H2|exact H1].
  - apply mswap_var_range. assumption.
Qed.
Print Assumptions C38_mhd_axis_exchange.

Example C38_mhd_case : nx (swap_mesh ex_mhd_walls2) = 3%Z /\ bc (swap_mesh ex_mhd_walls2) XMIN = 1%Z /\
  bc (swap_mesh ex_mhd_walls2) YMAX = 3%Z /\ mswap_var IU = IV /\ mswap_var IB = IA /\ mswap_var IC = IC.
Proof. repeat split. Qed.
