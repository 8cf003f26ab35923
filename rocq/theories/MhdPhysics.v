(** * Properties of the MHD per-cell functions in exact arithmetic *)
From Coq Require Import ZArith List Bool Lia Reals Lra Psatz.
From Verif Require Import Num Exec Grid HydroNum HydroPhysics MhdNum MhdSpec Mhd2DAgree.
Local Open Scope R_scope.

(** Turn the outermost [let]s into local definitions. *)
Ltac open_let_eq := repeat match goal with
  | |- (let x := ?v in @?b x) = ?r => let y := fresh x in pose (y := v); change (b y = r); cbv beta end.

Section Phys.
Variable S : hset R.
Hypothesis HS : mhd_sane S.

(** ** The fast speed *)
Section Fast.
Variable q : ms R.
Hypothesis Ha : mhd_adm q.
Variable bn : R.
Hypothesis Hbn : bn * bn <= b_sq q.

Lemma sound_sq_pos : 0 < sound_sq S q.
Proof.
  destruct HS as (H1 & _). destruct Ha as (Hd & Hp). unfold sound_sq.
  apply Rdiv_lt_0_compat; auto. apply Rmult_lt_0_compat; lra.
Qed.

Lemma b_sq_nonneg : 0 <= b_sq q.
Proof. unfold b_sq. nra. Qed.

Definition hsum := (b_sq q / md q + sound_sq S q) / 2.
Definition disc := hsum * hsum - sound_sq S q * (bn * bn / md q).

Lemma bn_d : 0 <= bn * bn / md q <= b_sq q / md q.
Proof.
  destruct Ha as (Hd & Hp). assert (0 < / md q) by (apply Rinv_0_lt_compat; auto).
  unfold Rdiv. split; [nra|]. apply Rmult_le_compat_r; lra.
Qed.

Lemma disc_nonneg : 0 <= disc.
Proof.
  pose proof bn_d. pose proof sound_sq_pos. unfold disc, hsum.
  set (x := b_sq q / md q) in *. set (c := sound_sq S q) in *. set (y := bn * bn / md q) in *.
  assert (c * y <= c * x) by (apply Rmult_le_compat_l; lra).
  pose proof (Rle_0_sqr (x - c)) as Q. unfold Rsqr in Q. nra.
Qed.

Lemma hsum_pos : 0 < hsum.
Proof. pose proof bn_d. pose proof sound_sq_pos. unfold hsum. lra. Qed.

Lemma fast_eq : fast S q bn = sqrt (hsum + sqrt disc).
Proof.
  unfold fast, disc, hsum, sound_sq, b_sq. Rn. do 2 f_equal; [field; destruct Ha; lra|].
  f_equal. destruct Ha. field. lra.
Qed.

Lemma fast_sq : fast S q bn * fast S q bn = hsum + sqrt disc.
Proof.
  rewrite fast_eq. apply sqrt_sqrt. pose proof hsum_pos. pose proof (sqrt_pos disc). lra.
Qed.

Lemma fast_pos : 0 < fast S q bn.
Proof.
  rewrite fast_eq. apply sqrt_lt_R0. pose proof hsum_pos. pose proof (sqrt_pos disc). lra.
Qed.

(** The squared fast speed is the largest root of the magnetosonic polynomial. *)
Lemma fast_root : magnetosonic S q bn (fast S q bn * fast S q bn) = 0.
Proof.
  rewrite fast_sq. unfold magnetosonic. pose proof (sqrt_sqrt disc disc_nonneg) as E.
  set (r := sqrt disc) in *. unfold disc in E.
  replace (sound_sq S q + b_sq q / md q) with (2 * hsum) by (unfold hsum; lra). nra.
Qed.

Lemma fast_largest x : fast S q bn * fast S q bn < x -> 0 < magnetosonic S q bn x.
Proof.
  rewrite fast_sq. intros Hx. unfold magnetosonic. pose proof (sqrt_sqrt disc disc_nonneg) as E.
  pose proof (sqrt_pos disc). set (r := sqrt disc) in *. unfold disc in E.
  replace (sound_sq S q + b_sq q / md q) with (2 * hsum) by (unfold hsum; lra). nra.
Qed.
End Fast.

Lemma bn_le q : ma q * ma q <= b_sq q /\ mb q * mb q <= b_sq q /\ mc q * mc q <= b_sq q.
Proof. unfold b_sq. repeat split; nra. Qed.

(** ** Consistency *)

Lemma flux_ok q : mhd_flux S q = (conserved S q, ideal_flux S q).
Proof.
  destruct HS as (H1 & _).
  unfold mhd_flux, conserved, ideal_flux, mhd_energy, total_pressure, v_sq, b_sq, v_dot_b. Rn.
  f_equal; apply ms_eq; cbn [md mp mu mv mw ma mb mc]; try ring; field; lra.
Qed.

Lemma half_sum x : 1 / 2 * (x + x) = x. Proof. lra. Qed.
Lemma set_a_same (q : ms R) : set_a q (1 / 2 * (ma q + ma q)) = q.
Proof. rewrite half_sum. destruct q; reflexivity. Qed.

Lemma hll_consistent q : mhd_adm q -> mhd_hll S q q = ideal_flux S q.
Proof.
  intros Ha. unfold mhd_hll. Rn. rewrite set_a_same, flux_ok.
  pose proof (fast_pos q Ha (ma q) (proj1 (bn_le q))) as Hc. unfold fast_x.
  set (c := fast S q (ma q)) in *. clearbody c.
  rewrite !(Rmin_left (mu q) (mu q)), !(Rmax_left (mu q) (mu q)), !(Rmax_left c c) by lra.
  pose proof (Rmin_r (mu q - c) 0). pose proof (Rmin_l (mu q - c) 0).
  pose proof (Rmax_r (mu q + c) 0). pose proof (Rmax_l (mu q + c) 0).
  set (sl := Rmin (mu q - c) 0) in *. set (sr := Rmax (mu q + c) 0) in *. clearbody sl sr.
  unfold mmap4. apply ms_eq; cbn [md mp mu mv mw ma mb mc]; field; lra.
Qed.

Lemma llf_consistent q : mhd_llf S q q = ideal_flux S q.
Proof.
  unfold mhd_llf. Rn. rewrite set_a_same, flux_ok.
  unfold mmap4. apply ms_eq; cbn [md mp mu mv mw ma mb mc]; field.
Qed.

(** The denominator of the HLLD star states vanishes in the switch-on configuration only. *)
Lemma estar_nonzero q : mhd_adm q -> ~ switch_on S q ->
  md q * (fast_x S q * fast_x S q) - ma q * ma q <> 0.
Proof.
  intros Ha Hn E. apply Hn. pose proof Ha as (Hd & Hp).
  pose proof (fast_root q Ha (ma q) (proj1 (bn_le q))) as ER.
  pose proof (fast_sq q Ha (ma q) (proj1 (bn_le q))) as EQ.
  pose proof (sqrt_pos (disc q (ma q))) as Hs. fold (fast_x S q) in *.
  set (x := fast_x S q * fast_x S q) in *. clearbody x.
  assert (Ex : x = ma q * ma q / md q).
  { apply (Rmult_eq_reg_l (md q)); [|lra]. field_simplify; lra. }
  assert (Hx : 0 < x). { pose proof (hsum_pos q Ha (ma q) (proj1 (bn_le q))). lra. }
  unfold magnetosonic in ER. rewrite <- Ex in ER.
  assert (Hb : b_sq q / md q = x).
  { assert (x * (x - b_sq q / md q) = 0) by lra. apply Rmult_integral in H. lra. }
  assert (Hbb : b_sq q = ma q * ma q).
  { rewrite Ex in Hb. apply (f_equal (fun t => t * md q)) in Hb. unfold Rdiv in Hb.
    rewrite !Rmult_assoc, Rinv_l, !Rmult_1_r in Hb by lra. exact Hb. }
  unfold b_sq in Hbb.
  assert (Hbc : mb q * mb q = 0 /\ mc q * mc q = 0) by nra.
  split; [|split; [|split]].
  - destruct Hbc as [Hbc _]. apply Rmult_integral in Hbc. tauto.
  - destruct Hbc as [_ Hbc]. apply Rmult_integral in Hbc. tauto.
  - intros E0. rewrite E0 in Ex. unfold Rdiv in Ex. rewrite !Rmult_0_l in Ex. lra.
  - unfold hsum in EQ. rewrite Hb in EQ.
    assert (Hc : sound_sq S q <= x) by lra. unfold sound_sq in Hc. rewrite Ex in Hc.
    apply (Rmult_le_compat_r (md q)) in Hc; [|lra]. unfold Rdiv in Hc.
    rewrite !Rmult_assoc, Rinv_l, !Rmult_1_r in Hc by lra. lra.
Qed.

Definition sample_of (q : ms R) : sample R :=
  mksample (md q) (mu q) (mv q) (mw q) (mb q) (mc q) (total_pressure q) (mhd_energy S q) (v_dot_b q).

Lemma sample_flux_ok q : sample_flux (ma q) (sample_of q) = ideal_flux S q.
Proof.
  unfold sample_flux, sample_of, ideal_flux. cbn [o_r o_u o_v o_w o_b o_c o_ptot o_etot o_vdotb]. Rn.
  apply ms_eq; cbn [md mp mu mv mw ma mb mc]; ring.
Qed.

Lemma star_same a r u v w b c s : r * (s - u) * (s - u) - a * a <> 0 ->
  star_side a r u v w b c s u = (v, w, b, c).
Proof.
  intros He. unfold star_side. Rn. set (e := r * (s - u) * (s - u) - a * a) in *. clearbody e.
  destruct (_ && _)%bool; [reflexivity|].
  repeat f_equal; field; auto.
Qed.

Lemma sample_eq (x y : sample R) : o_r x = o_r y -> o_u x = o_u y -> o_v x = o_v y -> o_w x = o_w y ->
  o_b x = o_b y -> o_c x = o_c y -> o_ptot x = o_ptot y -> o_etot x = o_etot y -> o_vdotb x = o_vdotb y -> x = y.
Proof. destruct x, y; simpl; intros; congruence. Qed.

Definition same_fan (q : ms R) (f : fan R) : Prop :=
  f_l f = sample_of q /\ f_ls f = sample_of q /\ f_lss f = sample_of q /\
  f_rss f = sample_of q /\ f_rs f = sample_of q /\ f_r f = sample_of q.

Ltac open_let := repeat match goal with
  | |- same_fan ?q (let x := ?v in @?b x) =>
    let y := fresh x in pose (y := v); change (same_fan q (b y)); cbv beta end.

Lemma hlld_fan_same q : mhd_adm q -> ~ switch_on S q -> same_fan q (hlld_fan S q q).
Proof.
  intros Ha Hn. pose proof HS as (H1 & _). pose proof Ha as (Hd & Hp).
  pose proof (estar_nonzero q Ha Hn) as He.
  pose proof (fast_pos q Ha (ma q) (proj1 (bn_le q))) as Hc. fold (fast_x S q) in Hc.
  cbv delta [hlld_fan]. cbv beta. open_let.
  assert (Ea : a = ma q) by (unfold a; Rn; apply half_sum).
  assert (Eql : ql = q) by (unfold ql; rewrite Ea; destruct q; reflexivity).
  assert (Eqr : qr = q) by (unfold qr; rewrite Ea; destruct q; reflexivity).
  clearbody a ql qr. subst a ql qr.
  assert (Esl : sl = mu q - fast_x S q).
  { unfold sl, ul, ur, cfastl, cfastr. Rn. rewrite Rmin_left, Rmax_left by lra. reflexivity. }
  assert (Esr : sr = mu q + fast_x S q).
  { unfold sr, ul, ur, cfastl, cfastr. Rn. rewrite !Rmax_left by lra. reflexivity. }
  set (c := fast_x S q) in *. clearbody c. clearbody sl sr. subst sl sr. clear cfastl cfastr.
  assert (Hsg : sgnm = 1 \/ sgnm = - (1)) by (unfold sgnm; Rn; destruct (Rle_dec _ _); auto). clearbody sgnm.
  assert (Et : etotl = mhd_energy S q)
    by (unfold etotl, mhd_energy, v_sq, b_sq, entho, ecinl, emagl, rl, pl, ul, vl, wl, bl, cl; Rn; field; lra).
  assert (Ep : ptotl = total_pressure q)
    by (unfold ptotl, total_pressure, b_sq, emagl, pl, bl, cl; Rn; field; lra).
  change etotr with etotl. change ptotr with ptotl in *. change vdotbr with vdotbl.
  assert (Ev : vdotbl = v_dot_b q) by reflexivity.
  assert (Hdc : 0 < md q * c) by (apply Rmult_lt_0_compat; lra).
  assert (Ercl : rcl = md q * c) by (unfold rcl, rl, ul; Rn; ring).
  assert (Ercr : rcr = md q * c) by (unfold rcr, rr, ur; Rn; ring).
  assert (Eu : ustar = mu q).
  { unfold ustar. rewrite Ercl, Ercr. change ptotr with ptotl. unfold ul, ur. Rn. field; lra. }
  assert (Eps : ptotstar = total_pressure q).
  { unfold ptotstar. rewrite Ercl, Ercr. change ptotr with ptotl. unfold ul, ur. rewrite Ep. Rn. field; lra. }
  assert (Erl : rstarl = md q) by (unfold rstarl, rl, ul; rewrite Eu; Rn; field; lra).
  clearbody ustar ptotstar rstarl. subst ustar ptotstar rstarl.
  change rl with (md q). change ul with (mu q). rewrite star_same
    by (replace (md q * (mu q - c - mu q) * (mu q - c - mu q)) with (md q * (c * c)) by ring; exact He).
  cbv beta iota. open_let.
  assert (Err : rstarr = md q) by (unfold rstarr, rr, ur; Rn; field; lra).
  clearbody rstarr. subst rstarr.
  change rr with (md q). change ur with (mu q). rewrite star_same
    by (replace (md q * (mu q + c - mu q) * (mu q + c - mu q)) with (md q * (c * c)) by ring; exact He).
  cbv beta iota. open_let.
  assert (Hq : 0 < sqrt (md q)) by (apply sqrt_lt_R0; auto).
  assert (Hl : sqrrstarl = sqrt (md q)) by reflexivity. assert (Hr : sqrrstarr = sqrt (md q)) by reflexivity.
  set (sq := sqrt (md q)) in *. clearbody sq.
  assert (Evs : vss = mv q) by (unfold vss, sum, vl, vr, bl, br; rewrite Hl, Hr; Rn; field; lra).
  assert (Ews : wss = mw q) by (unfold wss, sum, wl, wr, cl, cr; rewrite Hl, Hr; Rn; field; lra).
  assert (Ebs : bss = mb q) by (unfold bss, sum, vl, vr, bl, br; rewrite Hl, Hr; Rn; field; lra).
  assert (Ecs : css = mc q) by (unfold css, sum, wl, wr, cl, cr; rewrite Hl, Hr; Rn; field; lra).
  assert (Evb : vdotbss = v_dot_b q) by (unfold vdotbss, v_dot_b; rewrite Evs, Ews, Ebs, Ecs; reflexivity).
  assert (Evl : vdotbstarl = v_dot_b q) by reflexivity.
  assert (Evr : vdotbstarr = v_dot_b q) by reflexivity.
  assert (Eel : etotstarl = mhd_energy S q).
  { unfold etotstarl, ul. rewrite Evl, Ev, Et, Ep. Rn. field; lra. }
  assert (Eer : etotstarr = mhd_energy S q).
  { unfold etotstarr, ur. change etotr with etotl. change ptotr with ptotl. change vdotbr with vdotbl.
    rewrite Evr, Ev, Et, Ep. Rn. field; lra. }
  assert (Eesl : etotssl = mhd_energy S q) by (unfold etotssl; rewrite Eel, Evl, Evb; Rn; ring).
  assert (Eesr : etotssr = mhd_energy S q) by (unfold etotssr; rewrite Eer, Evr, Evb; Rn; ring).
  unfold same_fan. cbn [f_l f_ls f_lss f_rss f_rs f_r].
  rewrite Eesl, Eesr, Eel, Eer, Evl, Evr, Evb, Evs, Ews, Ebs, Ecs, Ev, Et, Ep.
  repeat split; reflexivity.
Qed.

Lemma hlld_consistent q : mhd_adm q -> ~ switch_on S q -> mhd_hlld S q q = ideal_flux S q.
Proof.
  intros Ha Hn. destruct (hlld_fan_same q Ha Hn) as (E1 & E2 & E3 & E4 & E5 & E6).
  unfold mhd_hlld. rewrite <- sample_flux_ok. f_equal; [Rn; apply half_sum|].
  unfold fan_sample. repeat match goal with |- context [if ?b then _ else _] => destruct b end; auto.
Qed.
End Phys.

(** ** The edge solver *)
Section Edge.
Variable S : hset R.
Hypothesis HS : mhd_sane S.
Notation pos := (@pos R Rnum). Notation neg := (@neg R Rnum).

Lemma pos_spec x : pos x = if Rlt_dec x 0 then 0%Z else 1%Z.
Proof.
  unfold MhdNum.pos. Rn. destruct (Rlt_dec x 0); destruct (Rlt_dec _ _); auto; lra.
Qed.

(** What the code selects, for all speeds. *)
Lemma select_spec SL SR SB ST e :
  select_emf SL SR SB ST e =
  if Rlt_dec SB 0 then
    if Rlt_dec ST 0 then
      if Rlt_dec SL 0 then if Rlt_dec SR 0 then e_RR e else e_T e else e_LR e
    else if Rlt_dec SL 0 then if Rlt_dec SR 0 then e_R e else e_C e else e_L e
  else if Rlt_dec SL 0 then if Rlt_dec SR 0 then e_RL e else e_B e else e_LL e.
Proof.
  unfold select_emf, MhdNum.neg. rewrite !pos_spec.
  destruct (Rlt_dec SB 0), (Rlt_dec ST 0), (Rlt_dec SL 0), (Rlt_dec SR 0);
  rewrite ?Z.sub_0_r, ?Z.sub_diag, ?Z.mul_0_l, ?Z.mul_0_r, ?Z.mul_1_l, ?Z.mul_1_r; Rn; lra.
Qed.

Lemma select_documented SL SR SB ST e : SB <> 0 -> SL <> 0 ->
  select_emf SL SR SB ST e = documented_emf SL SR SB ST e.
Proof.
  intros H1 H2. rewrite select_spec. unfold documented_emf.
  repeat match goal with |- context [Rlt_dec ?a ?b] => destruct (Rlt_dec a b) end; try reflexivity; lra.
Qed.

Lemma select_const SL SR SB ST e x :
  e_LL e = x -> e_RL e = x -> e_LR e = x -> e_RR e = x -> e_B e = x -> e_T e = x -> e_L e = x ->
  e_R e = x -> e_C e = x -> select_emf SL SR SB ST e = x.
Proof.
  intros. rewrite select_spec.
  repeat match goal with |- context [Rlt_dec ?a ?b] => destruct (Rlt_dec a b) end; auto.
Qed.

Lemma fmax4_same (x : R) : fmax4 x x x x = x.
Proof. unfold fmax4. Rn. repeat match goal with |- context [Rlt_dec ?a ?b] => destruct (Rlt_dec a b) end; try reflexivity; lra. Qed.
Lemma fmin4_same (x : R) : fmin4 x x x x = x.
Proof. unfold fmin4. Rn. repeat match goal with |- context [Rlt_dec ?a ?b] => destruct (Rlt_dec a b) end; try reflexivity; lra. Qed.

Lemma fmax5_ge (a b c d e : R) : e <= fmax5 a b c d e.
Proof.
  unfold fmax5. Rn.
  repeat match goal with |- context [Rlt_dec ?a ?b] => destruct (Rlt_dec a b) end; lra.
Qed.

Lemma speeds_same q : emf_speeds S q q q q =
  (mu q - fast_x S q, mu q + fast_x S q, mv q - fast_y S q, mv q + fast_y S q).
Proof. unfold emf_speeds. rewrite !fmax4_same, !fmin4_same. reflexivity. Qed.

Lemma edge_regions_same q : mhd_adm q ->
  let E := mu q * mb q - mv q * ma q in
  emf_regions S q q q q E E E E = mkregions E E E E E E E E E.
Proof.
  intros Ha E. pose proof HS as (H1 & _ & Hsc). pose proof Ha as (Hd & Hp).
  pose proof (fast_pos S HS q Ha (ma q) (proj1 (bn_le q))) as Hcx. fold (fast_x S q) in Hcx.
  pose proof (fast_pos S HS q Ha (mb q) (proj1 (proj2 (bn_le q)))) as Hcy. fold (fast_y S q) in Hcy.
  cbv delta [emf_regions]. cbv beta. rewrite speeds_same.
  set (cx := fast_x S q) in *. set (cy := fast_y S q) in *. clearbody cx cy.
  cbv beta iota. open_let_eq.
  assert (Hdx : 0 < md q * cx) by (apply Rmult_lt_0_compat; lra).
  assert (Hdy : 0 < md q * cy) by (apply Rmult_lt_0_compat; lra).
  assert (X1 : rcLLx = md q * cx) by (unfold rcLLx, rLL, uLL; Rn; ring).
  assert (X2 : rcRLx = md q * cx) by (unfold rcRLx, rRL, uRL; Rn; ring).
  assert (X3 : rcLRx = md q * cx) by (unfold rcLRx, rLR, uLR; Rn; ring).
  assert (X4 : rcRRx = md q * cx) by (unfold rcRRx, rRR, uRR; Rn; ring).
  assert (Y1 : rcLLy = md q * cy) by (unfold rcLLy, rLL, vLL; Rn; ring).
  assert (Y2 : rcRLy = md q * cy) by (unfold rcRLy, rRL, vRL; Rn; ring).
  assert (Y3 : rcLRy = md q * cy) by (unfold rcLRy, rLR, vLR; Rn; ring).
  assert (Y4 : rcRRy = md q * cy) by (unfold rcRRy, rRR, vRR; Rn; ring).
  assert (Eu : ustar = mu q).
  { unfold ustar. rewrite X1, X2, X3, X4. unfold uLL, uLR, uRL, uRR, PLL, PLR, PRL, PRR. Rn. field; lra. }
  assert (Ev : vstar = mv q).
  { unfold vstar. rewrite Y1, Y2, Y3, Y4. unfold vLL, vLR, vRL, vRR, PLL, PLR, PRL, PRR. Rn. field; lra. }
  assert (B1 : BstarLL = mb q) by (unfold BstarLL, bLL, uLL; rewrite Eu; Rn; field; lra).
  assert (B2 : BstarLR = mb q) by (unfold BstarLR, bLR, uLR; rewrite Eu; Rn; field; lra).
  assert (B3 : BstarRL = mb q) by (unfold BstarRL, bRL, uRL; rewrite Eu; Rn; field; lra).
  assert (B4 : BstarRR = mb q) by (unfold BstarRR, bRR, uRR; rewrite Eu; Rn; field; lra).
  assert (A1 : AstarLL = ma q) by (unfold AstarLL, aLL, vLL; rewrite Ev; Rn; field; lra).
  assert (A2 : AstarLR = ma q) by (unfold AstarLR, aLR, vLR; rewrite Ev; Rn; field; lra).
  assert (A3 : AstarRL = ma q) by (unfold AstarRL, aRL, vRL; rewrite Ev; Rn; field; lra).
  assert (A4 : AstarRR = ma q) by (unfold AstarRR, aRR, vRR; rewrite Ev; Rn; field; lra).
  assert (CL : smallc S <= calfvenL) by apply fmax5_ge. assert (CR : smallc S <= calfvenR) by apply fmax5_ge.
  assert (CB : smallc S <= calfvenB) by apply fmax5_ge. assert (CT : smallc S <= calfvenT) by apply fmax5_ge.
  clearbody calfvenL calfvenR calfvenB calfvenT.
  pose proof (Rmin_l (ustar - calfvenL) 0) as L1. pose proof (Rmin_r (ustar - calfvenL) 0) as L2.
  pose proof (Rmax_l (ustar + calfvenR) 0) as L3. pose proof (Rmax_r (ustar + calfvenR) 0) as L4.
  pose proof (Rmin_l (vstar - calfvenB) 0) as L5. pose proof (Rmin_r (vstar - calfvenB) 0) as L6.
  pose proof (Rmax_l (vstar + calfvenT) 0) as L7. pose proof (Rmax_r (vstar + calfvenT) 0) as L8.
  change (Rmin (ustar - calfvenL) 0) with SAL in *. change (Rmax (ustar + calfvenR) 0) with SAR in *.
  change (Rmin (vstar - calfvenB) 0) with SAB in *. change (Rmax (vstar + calfvenT) 0) with SAT in *.
  clearbody SAL SAR SAB SAT.
  assert (EE : EstarLLx = E /\ EstarLLy = E /\ EstarLL = E /\ EstarLRx = E /\ EstarLRy = E /\ EstarLR = E /\
    EstarRLx = E /\ EstarRLy = E /\ EstarRL = E /\ EstarRRx = E /\ EstarRRy = E /\ EstarRR = E).
  { unfold EstarLLx, EstarLLy, EstarLL, EstarLRx, EstarLRy, EstarLR, EstarRLx, EstarRLy, EstarRL,
      EstarRRx, EstarRRy, EstarRR. rewrite B1, B2, B3, B4, A1, A2, A3, A4, Eu, Ev. repeat split; reflexivity. }
  destruct EE as (E1 & E2 & E3 & E4 & E5 & E6 & E7 & E8 & E9 & E10 & E11 & E12).
  rewrite E1, E2, E3, E4, E5, E6, E7, E8, E9, E10, E11, E12.
  unfold AstarT, AstarB, BstarR, BstarL. rewrite B1, B2, B3, B4, A1, A2, A3, A4.
  unfold bRL, bLL, bRR, bLR, aLR, aLL, aRR, aRL. Rn. clearbody E.
  f_equal; field; lra.
Qed.

Lemma edge_consistent d q : mhd_adm q -> compute_emf S d q q q q = ideal_emf d q.
Proof.
  intros Ha. unfold compute_emf. Rn. rewrite !half_sum.
  set (r := emf_rot d q).
  assert (Hr : mhd_adm r) by (unfold r; destruct d; exact Ha).
  replace (set_ab r (ma r) (mb r)) with r by (destruct r; reflexivity).
  assert (Er : ideal_emf d q = mu r * mb r - mv r * ma r)
    by (unfold r; destruct d; reflexivity).
  rewrite Er. unfold mag_riemann2d. rewrite speeds_same.
  pose proof (edge_regions_same r Hr) as E. cbv zeta in E.
  apply select_const; rewrite E; reflexivity.
Qed.
End Edge.
