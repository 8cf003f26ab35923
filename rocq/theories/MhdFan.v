(** * MHD interface fluxes and fans of jumps: proofs *)
From Coq Require Import ZArith List Bool Reals Lra Psatz Sorted.
Import ListNotations.
From Verif Require Import Num Exec Grid HydroNum EulerSpec HydroPhysics MhdNum Mhd2DAgree MhdFacts MhdSpec MhdPhysics MhdFanSpec.
Local Open Scope R_scope.

Lemma mjump_vars s u1 f1 u2 f2 :
  md f2 - md f1 = s * (md u2 - md u1) -> mp f2 - mp f1 = s * (mp u2 - mp u1) ->
  mu f2 - mu f1 = s * (mu u2 - mu u1) -> mv f2 - mv f1 = s * (mv u2 - mv u1) ->
  mw f2 - mw f1 = s * (mw u2 - mw u1) -> ma f2 - ma f1 = s * (ma u2 - ma u1) ->
  mb f2 - mb f1 = s * (mb u2 - mb u1) -> mc f2 - mc f1 = s * (mc u2 - mc u1) ->
  mjump s u1 f1 u2 f2.
Proof.
  intros. intros x Hx. unfold mhd_vars in Hx. cbn [In] in Hx.
  repeat (destruct Hx as [<-|Hx]; [assumption|]). destruct Hx.
Qed.

(** ** One intermediate state *)
Lemma mtwo_jumps ul fl ur fr sl sr : sl < sr ->
  let mix f g := (f - g) / (sr - sl) in
  let us := mmap4 (fun f1 f2 u1 u2 => (sr * u2 - sl * u1 + f1 - f2) / (sr - sl)) fl fr ul ur in
  let fs := mmap4 (fun f1 f2 u1 u2 => (sr * f1 - sl * f2 + sr * sl * (u2 - u1)) / (sr - sl)) fl fr ul ur in
  mfan ul fl [(sl, (us, fs)); (sr, (ur, fr))] ur fr.
Proof.
  intros Hs mix us fs. constructor; [|constructor; [|constructor]]; unfold us, fs, mmap4;
  apply mjump_vars; cbn [md mp mu mv mw ma mb mc]; field; lra.
Qed.

Section Fan.
Variable S : hset R.
Hypothesis HS : mhd_sane S.

Lemma fast_speed_unique q c : mhd_adm q -> fast_speed S q c -> c = fast_x S q.
Proof.
  intros Ha (C1 & C2 & C3). pose proof (fast_pos S HS q Ha (ma q) (proj1 (bn_le q))) as F1.
  pose proof (fast_root S HS q Ha (ma q) (proj1 (bn_le q))) as F2.
  pose proof (fast_largest S HS q Ha (ma q) (proj1 (bn_le q))) as F3. fold (fast_x S q) in *.
  set (f := fast_x S q) in *. clearbody f.
  destruct (Rtotal_order (c * c) (f * f)) as [H|[H|H]].
  - specialize (C3 _ H). lra.
  - nra.
  - specialize (F3 _ H). lra.
Qed.

Lemma fast_speed_exists q : mhd_adm q -> fast_speed S q (fast_x S q).
Proof.
  intros Ha. split; [|split]; [apply fast_pos|apply fast_root|apply fast_largest]; auto; apply bn_le.
Qed.

(** The fast speed is at least the sound speed combined with the transverse field. *)
Lemma fast_speed_lower q c : mhd_adm q -> fast_speed S q c ->
  gamma0 S * mp q + mb q * mb q + mc q * mc q <= md q * (c * c).
Proof.
  intros Ha (C1 & C2 & C3). pose proof Ha as [Hd Hp].
  set (x := (gamma0 S * mp q + mb q * mb q + mc q * mc q) / md q).
  assert (Ex : md q * x = gamma0 S * mp q + mb q * mb q + mc q * mc q) by (unfold x; field; lra).
  rewrite <- Ex. apply Rmult_le_compat_l; [lra|].
  destruct (Rle_lt_dec x (c * c)) as [|H]; auto. exfalso. specialize (C3 _ H).
  assert (E : magnetosonic S q (ma q) x = - (ma q * ma q / md q) * ((mb q * mb q + mc q * mc q) / md q)).
  { unfold magnetosonic, x, sound_sq, b_sq. field. lra. }
  rewrite E in C3.
  assert (0 <= ma q * ma q / md q) by (apply Rmult_le_pos; [nra|left; apply Rinv_0_lt_compat; auto]).
  assert (0 <= (mb q * mb q + mc q * mc q) / md q) by (apply Rmult_le_pos; [nra|left; apply Rinv_0_lt_compat; auto]).
  nra.
Qed.

Lemma with_bn_adm q a : mhd_adm q -> mhd_adm (with_bn q a).
Proof. intros [H1 H2]. split; auto. Qed.

Lemma set_a_with_bn (q1 q2 q : ms R) : set_a q (nhalf * (ma q1 + ma q2))%num = with_bn q ((ma q1 + ma q2) / 2).
Proof. unfold set_a, with_bn. f_equal. Rn. field. Qed.

Lemma mhll_fan ql qr cl cr : mhd_adm ql -> mhd_adm qr ->
  let a := (ma ql + ma qr) / 2 in
  fast_speed S (with_bn ql a) cl -> fast_speed S (with_bn qr a) cr ->
  let sl := Rmin (Rmin (mu ql) (mu qr) - Rmax cl cr) 0 in
  let sr := Rmax (Rmax (mu ql) (mu qr) + Rmax cl cr) 0 in
  exists u, mfan_flux S ql qr
    [(sl, (u, mhd_hll S ql qr)); (sr, (conserved S (with_bn qr a), ideal_flux S (with_bn qr a)))] (mhd_hll S ql qr) /\
  sl <= sr /\ mencloses sl sr ql cl /\ mencloses sl sr qr cr.
Proof.
  intros Al Ar a Hcl Hcr sl sr.
  pose proof (fast_speed_unique _ _ (with_bn_adm _ a Al) Hcl) as El.
  pose proof (fast_speed_unique _ _ (with_bn_adm _ a Ar) Hcr) as Er.
  destruct Hcl as (Pl & _). destruct Hcr as (Pr & _).
  assert (L0 : sl <= 0) by apply Rmin_r. assert (R0 : 0 <= sr) by apply Rmax_r.
  assert (L1 : sl <= Rmin (mu ql) (mu qr) - Rmax cl cr) by apply Rmin_l.
  assert (R1 : Rmax (mu ql) (mu qr) + Rmax cl cr <= sr) by apply Rmax_l.
  pose proof (Rmin_l (mu ql) (mu qr)). pose proof (Rmin_r (mu ql) (mu qr)).
  pose proof (Rmax_l (mu ql) (mu qr)). pose proof (Rmax_r (mu ql) (mu qr)).
  pose proof (Rmax_l cl cr). pose proof (Rmax_r cl cr).
  assert (Hs : sl < sr) by lra.
  pose proof (mtwo_jumps (conserved S (with_bn ql a)) (ideal_flux S (with_bn ql a)) (conserved S (with_bn qr a))
    (ideal_flux S (with_bn qr a)) sl sr Hs) as J. cbv beta zeta in J.
  match type of J with mfan _ _ [(_, (?u, ?f)); _] _ _ => set (us := u) in J; assert (E : f = mhd_hll S ql qr) end.
  { unfold mhd_hll. cbv zeta. rewrite !(set_a_with_bn ql qr). fold a. rewrite !(flux_ok S HS). rewrite <- El, <- Er.
    reflexivity. }
  rewrite E in J. exists us. split; [split; [exact J|]|].
  - cbn [mat_rest]. fold a. destruct (Rle_dec sl 0); [|lra]. destruct (Rle_dec sr 0) as [Hz|]; [|reflexivity].
    assert (Z : sr = 0) by lra. rewrite <- E. clear -Z Hs. unfold mmap4. rewrite Z in *.
    apply ms_eq; cbn [md mp mu mv mw ma mb mc]; field; lra.
  - unfold mencloses. lra.
Qed.

Lemma mllf_fan ql qr cl cr : mhd_adm ql -> mhd_adm qr ->
  let a := (ma ql + ma qr) / 2 in
  fast_speed S (with_bn ql a) cl -> fast_speed S (with_bn qr a) cr ->
  let s := Rmax (cl + Rabs (mu ql)) (cr + Rabs (mu qr)) in
  exists u, mfan_flux S ql qr
    [(- s, (u, mhd_llf S ql qr)); (s, (conserved S (with_bn qr a), ideal_flux S (with_bn qr a)))] (mhd_llf S ql qr) /\
  - s <= s /\ mencloses (- s) s ql cl /\ mencloses (- s) s qr cr.
Proof.
  intros Al Ar a Hcl Hcr s.
  pose proof (fast_speed_unique _ _ (with_bn_adm _ a Al) Hcl) as El.
  pose proof (fast_speed_unique _ _ (with_bn_adm _ a Ar) Hcr) as Er.
  destruct Hcl as (Pl & _). destruct Hcr as (Pr & _).
  assert (M1 : cl + Rabs (mu ql) <= s) by apply Rmax_l.
  assert (M2 : cr + Rabs (mu qr) <= s) by apply Rmax_r.
  pose proof (Rabs_pos (mu ql)). assert (Hs : 0 < s) by lra.
  assert (Hl : - Rabs (mu ql) <= mu ql <= Rabs (mu ql)) by (unfold Rabs; destruct (Rcase_abs _); lra).
  assert (Hr : - Rabs (mu qr) <= mu qr <= Rabs (mu qr)) by (unfold Rabs; destruct (Rcase_abs _); lra).
  pose proof (mtwo_jumps (conserved S (with_bn ql a)) (ideal_flux S (with_bn ql a)) (conserved S (with_bn qr a))
    (ideal_flux S (with_bn qr a)) (- s) s ltac:(lra)) as J. cbv beta zeta in J.
  match type of J with mfan _ _ [(_, (?u, ?f)); _] _ _ => set (us := u) in J; assert (E : f = mhd_llf S ql qr) end.
  { unfold mhd_llf. cbv zeta. rewrite !(set_a_with_bn ql qr). fold a. rewrite !(flux_ok S HS). unfold info_x. rewrite <- El, <- Er.
    Rn. change (mu (with_bn ql a)) with (mu ql). change (mu (with_bn qr a)) with (mu qr). fold s. clearbody s. clear - Hs.
    unfold mmap4, conserved, ideal_flux, with_bn.
    apply ms_eq; cbn [md mp mu mv mw ma mb mc]; field; lra. }
  rewrite E in J. exists us. split; [split; [exact J|]|].
  - cbn [mat_rest]. fold a. destruct (Rle_dec (- s) 0); [|lra]. destruct (Rle_dec s 0) as [Hz|]; [lra|reflexivity].
  - unfold mencloses. lra.
Qed.

(** ** HLLD: the five jumps *)

(** Outer jump, with the star state given by the jump conditions. *)
Lemma outer_jump a r u v w b c E pt s us ps : s <> us ->
  let m := r * (s - u) in
  let d := m * (s - us) - a * a in
  d <> 0 ->
  ps - pt = m * (us - u) ->
  let rs := m / (s - us) in
  let vs := v - a * b * (us - u) / d in
  let ws := w - a * c * (us - u) / d in
  let e := m * (s - u) - a * a in
  let bs := b * e / d in
  let cs := c * e / d in
  let Es := ((s - u) * E - pt * u + ps * us + a * (u * a + v * b + w * c - (us * a + vs * bs + ws * cs))) / (s - us) in
  mjump s (mkms r E (r * u) (r * v) (r * w) a b c)
          (mkms (r * u) ((E + pt) * u - a * (u * a + v * b + w * c)) (r * u * u + pt - a * a)
             (r * u * v - a * b) (r * u * w - a * c) 0 (u * b - v * a) (u * c - w * a))
          (fst (mcarried a rs Es us ps vs ws bs cs)) (snd (mcarried a rs Es us ps vs ws bs cs)).
Proof.
  intros Hs m d Hd Hp rs vs ws e bs cs Es. unfold mcarried. cbn [fst snd].
  assert (Hs' : s - us <> 0) by lra.
  assert (Ers : rs * (s - us) = m) by (unfold rs; field; auto).
  assert (EEs : Es * (s - us) = (s - u) * E - pt * u + ps * us + a * (u * a + v * b + w * c - (us * a + vs * bs + ws * cs)))
    by (unfold Es; field; auto).
  assert (Evs : (vs - v) * d = - a * b * (us - u)) by (unfold vs; field; auto).
  assert (Ews : (ws - w) * d = - a * c * (us - u)) by (unfold ws; field; auto).
  assert (Ebs : bs * d = b * e) by (unfold bs; field; auto).
  assert (Ecs : cs * d = c * e) by (unfold cs; field; auto).
  clearbody rs vs ws bs cs Es.
  assert (Ede : e - d = m * (us - u)) by (unfold e, d; ring).
  assert (Hb : (bs - b) * d = b * m * (us - u)) by (replace ((bs - b) * d) with (bs * d - b * d) by ring; rewrite Ebs; rewrite <- Rmult_minus_distr_l, Ede; ring).
  assert (Hc : (cs - c) * d = c * m * (us - u)) by (replace ((cs - c) * d) with (cs * d - c * d) by ring; rewrite Ecs; rewrite <- Rmult_minus_distr_l, Ede; ring).
  (* momentum and induction, transverse *)
  assert (Mv : m * (vs - v) = - a * (bs - b)).
  { apply (Rmult_eq_reg_r d); auto. replace (m * (vs - v) * d) with (m * ((vs - v) * d)) by ring.
    replace (- a * (bs - b) * d) with (- a * ((bs - b) * d)) by ring. rewrite Evs, Hb. ring. }
  assert (Mw : m * (ws - w) = - a * (cs - c)).
  { apply (Rmult_eq_reg_r d); auto. replace (m * (ws - w) * d) with (m * ((ws - w) * d)) by ring.
    replace (- a * (cs - c) * d) with (- a * ((cs - c) * d)) by ring. rewrite Ews, Hc. ring. }
  assert (Ib : (s - us) * bs - (s - u) * b = - a * (vs - v)).
  { apply (Rmult_eq_reg_r d); auto. replace (((s - us) * bs - (s - u) * b) * d) with ((s - us) * (bs * d) - (s - u) * b * d) by ring.
    replace (- a * (vs - v) * d) with (- a * ((vs - v) * d)) by ring. rewrite Ebs, Evs. unfold e, d, m. ring. }
  assert (Ic : (s - us) * cs - (s - u) * c = - a * (ws - w)).
  { apply (Rmult_eq_reg_r d); auto. replace (((s - us) * cs - (s - u) * c) * d) with ((s - us) * (cs * d) - (s - u) * c * d) by ring.
    replace (- a * (ws - w) * d) with (- a * ((ws - w) * d)) by ring. rewrite Ecs, Ews. unfold e, d, m. ring. }
  clear Evs Ews Ebs Ecs Hb Hc Ede Hd. clearbody d e. unfold m in *. clear m d e.
  apply mjump_vars; cbn [md mp mu mv mw ma mb mc].
  - lra.
  - lra.
  - assert (rs * us * us - s * (rs * us) = - (rs * (s - us)) * us) by ring.
    assert (Hp' : ps = pt + r * (s - u) * (us - u)) by lra. rewrite Hp'. rewrite Ers in H. lra.
  - assert (rs * us * vs - s * (rs * vs) = - (rs * (s - us)) * vs) by ring. rewrite Ers in H. lra.
  - assert (rs * us * ws - s * (rs * ws) = - (rs * (s - us)) * ws) by ring. rewrite Ers in H. lra.
  - lra.
  - lra.
  - lra.
Qed.

(** Alfven jump between a star state and the common inner state; [k] is the signed
    square root of the density with [a = l * k * (s - us)...]. *)
Lemma alfven_jump a r E E2 us p v w b c v2 w2 b2 c2 s k : 
  r = k * k -> (us - s) * k = a -> b2 - b = k * (v2 - v) -> c2 - c = k * (w2 - w) ->
  E2 - E = k * ((us * a + v2 * b2 + w2 * c2) - (us * a + v * b + w * c)) ->
  mjump s (fst (mcarried a r E us p v w b c)) (snd (mcarried a r E us p v w b c))
          (fst (mcarried a r E2 us p v2 w2 b2 c2)) (snd (mcarried a r E2 us p v2 w2 b2 c2)).
Proof.
  intros -> Ha Hb Hc HE. unfold mcarried. cbn [fst snd].
  assert (Ea : a = (us - s) * k) by lra.
  apply mjump_vars; cbn [md mp mu mv mw ma mb mc]; try lra.
  - assert (HE2 : E2 = E + k * ((us * a + v2 * b2 + w2 * c2) - (us * a + v * b + w * c))) by lra.
    rewrite HE2. clear HE HE2. set (X := us * a + v2 * b2 + w2 * c2). set (Y := us * a + v * b + w * c).
    clearbody X Y. rewrite Ea. ring.
  - assert (b2 = b + k * (v2 - v)) by lra. subst b2. rewrite Ea. ring.
  - assert (c2 = c + k * (w2 - w)) by lra. subst c2. rewrite Ea. ring.
  - assert (b2 = b + k * (v2 - v)) by lra. subst b2. rewrite Ea. ring.
  - assert (c2 = c + k * (w2 - w)) by lra. subst c2. rewrite Ea. ring.
Qed.

(** The same jump crossed from the inner state. *)
Lemma mjump_sym s u1 f1 u2 f2 : mjump s u1 f1 u2 f2 -> mjump s u2 f2 u1 f1.
Proof. intros H v Hv. specialize (H v Hv). lra. Qed.

(** Value and flux of a sampled state. *)
Definition state_of (a : R) (o : sample R) : ms R * ms R :=
  mcarried a (o_r o) (o_etot o) (o_u o) (o_ptot o) (o_v o) (o_w o) (o_b o) (o_c o).

Definition same_line (a : R) (o : sample R) : Prop := o_vdotb o = o_u o * a + o_v o * o_b o + o_w o * o_c o.

Lemma state_flux a o : same_line a o -> sample_flux a o = snd (state_of a o).
Proof.
  intros H. unfold sample_flux, state_of, mcarried. rewrite H. Rn.
  apply ms_eq; cbn [md mp mu mv mw ma mb mc snd]; ring.
Qed.

Lemma state_sample q : state_of (ma q) (sample_of S q) = (conserved S q, ideal_flux S q).
Proof.
  unfold state_of, sample_of, mcarried, conserved, ideal_flux, v_dot_b.
  cbn [o_r o_u o_v o_w o_b o_c o_ptot o_etot o_vdotb]. f_equal; apply ms_eq; cbn [md mp mu mv mw ma mb mc]; ring.
Qed.

Lemma contact_jump a r1 r2 E1 E2 us p v w b c :
  mjump us (fst (mcarried a r1 E1 us p v w b c)) (snd (mcarried a r1 E1 us p v w b c))
           (fst (mcarried a r2 E2 us p v w b c)) (snd (mcarried a r2 E2 us p v w b c)).
Proof. unfold mcarried. cbn [fst snd]. apply mjump_vars; cbn [md mp mu mv mw ma mb mc]; ring. Qed.

(** The middle speed lies strictly between the outer ones. *)
Lemma contact_between l r c : mhd_adm l -> mhd_adm r ->
  forall cl cr, ma l = ma r -> fast_speed S l cl -> fast_speed S r cr -> c = Rmax cl cr ->
  let sl := Rmin (mu l) (mu r) - c in
  let sr := Rmax (mu l) (mu r) + c in
  0 < md l * (mu l - sl) /\ 0 < md r * (sr - mu r) /\
  sl < contact_speed l r sl sr /\ contact_speed l r sl sr < sr.
Proof.
  intros Al Ar cl cr Ea Hl Hr -> sl sr.
  pose proof (fast_speed_lower _ _ Al Hl) as Ll. pose proof (fast_speed_lower _ _ Ar Hr) as Lr.
  destruct Hl as (Pl & _). destruct Hr as (Pr & _). destruct Al as [Dl Ql]. destruct Ar as [Dr Qr].
  destruct HS as (Hg & _).
  pose proof (Rmax_l cl cr) as M1. pose proof (Rmax_r cl cr) as M2.
  assert (U1 : sl + Rmax cl cr <= mu l) by (unfold sl; pose proof (Rmin_l (mu l) (mu r)); lra).
  assert (U2 : sl + Rmax cl cr <= mu r) by (unfold sl; pose proof (Rmin_r (mu l) (mu r)); lra).
  assert (U3 : mu l + Rmax cl cr <= sr) by (unfold sr; pose proof (Rmax_l (mu l) (mu r)); lra).
  assert (U4 : mu r + Rmax cl cr <= sr) by (unfold sr; pose proof (Rmax_r (mu l) (mu r)); lra).
  set (c := Rmax cl cr) in *. clearbody c sl sr.
  assert (Kl : md l * (cl * cl) <= md l * (c * c)) by (apply Rmult_le_compat_l; nra).
  assert (Kr : md r * (cr * cr) <= md r * (c * c)) by (apply Rmult_le_compat_l; nra).
  assert (Gl : mp l < gamma0 S * mp l) by nra. assert (Gr : mp r < gamma0 S * mp r) by nra.
  set (ml := md l * (mu l - sl)). set (mr := md r * (sr - mu r)).
  assert (Bl : md l * c <= ml) by (apply Rmult_le_compat_l; lra).
  assert (Br : md r * c <= mr) by (apply Rmult_le_compat_l; lra).
  assert (Hl0 : 0 < md l * c) by (apply Rmult_lt_0_compat; lra).
  assert (Hr0 : 0 < md r * c) by (apply Rmult_lt_0_compat; lra).
  assert (Tl : md l * (c * c) <= ml * c) by nra.
  assert (Tr : md r * (c * c) <= mr * c) by nra.
  split; [lra|]. split; [lra|].
  assert (Y1 : mr * c <= mr * (mu r - sl)) by (apply Rmult_le_compat_l; lra).
  assert (Y2 : 0 <= ml * (mu l - sl)) by (apply Rmult_le_pos; lra).
  assert (Y3 : ml * c <= ml * (sr - mu l)) by (apply Rmult_le_compat_l; lra).
  assert (Y4 : 0 <= mr * (sr - mu r)) by (apply Rmult_le_pos; lra).
  pose proof (Rle_0_sqr (mb l)). pose proof (Rle_0_sqr (mc l)). pose proof (Rle_0_sqr (mb r)). pose proof (Rle_0_sqr (mc r)).
  unfold Rsqr in *.
  unfold contact_speed. fold ml mr. unfold total_pressure, b_sq. rewrite Ea. clearbody ml mr.
  match goal with |- _ < ?n / ?d /\ _ => set (N := n); set (D := d) end.
  assert (HD : 0 < D) by (unfold D; lra).
  assert (HN : N / D * D = N) by (field; lra).
  split; apply (Rmult_lt_reg_r D); auto; rewrite HN; unfold N, D; lra.
Qed.

Lemma star_regular a r u v w b c s us : regular a (r * (u - s)) (us - s) ->
  let d := r * (s - u) * (s - us) - a * a in
  d <> 0 /\
  star_side a r u v w b c s us =
    (v - a * b * (us - u) / d, w - a * c * (us - u) / d,
     b * (r * (s - u) * (s - u) - a * a) / d, c * (r * (s - u) * (s - u) - a * a) / d).
Proof.
  intros [H1 H2] d.
  assert (E : r * (u - s) * (us - s) - a * a = d) by (unfold d; ring).
  split; [intros Z; apply H1; lra|].
  unfold star_side. Rn. fold d.
  destruct (Rlt_dec 0 (a * a)) as [Ha|Ha]; cbn [andb]; [|reflexivity].
  rewrite E in H2.
  destruct (Rle_dec (Rabs (d / (a * a) - 1)) (1 / IZR (10 ^ 8))) as [Hc|Hc]; [exfalso|reflexivity].
  apply H2. split; [intros Z; rewrite Z in Ha; lra|].
  change (10 ^ 8)%Z with 100000000%Z in Hc. lra.
Qed.

(** What the HLLD fan is. *)
Definition resolved (a : R) (l r : ms R) (sl sr : R) (f : fan R) : Prop :=
  let s := contact_speed l r sl sr in
  f_sl f = sl /\ f_sr f = sr /\ f_ustar f = s /\
  f_l f = sample_of S l /\ f_r f = sample_of S r /\
  o_r (f_ls f) = md l * (mu l - sl) / (s - sl) /\ o_r (f_rs f) = md r * (sr - mu r) / (sr - s) /\
  f_sal f = s - Rabs a / sqrt (o_r (f_ls f)) /\ f_sar f = s + Rabs a / sqrt (o_r (f_rs f)) /\
  (exists p el er e2l e2r vl wl bl cl v w b c vr wr br cr,
    state_of a (f_ls f) = mcarried a (o_r (f_ls f)) el s p vl wl bl cl /\
    state_of a (f_lss f) = mcarried a (o_r (f_ls f)) e2l s p v w b c /\
    state_of a (f_rss f) = mcarried a (o_r (f_rs f)) e2r s p v w b c /\
    state_of a (f_rs f) = mcarried a (o_r (f_rs f)) er s p vr wr br cr) /\
  (same_line a (f_ls f) /\ same_line a (f_lss f) /\ same_line a (f_rss f) /\ same_line a (f_rs f)) /\
  (regular a (md l * (mu l - sl)) (s - sl) ->
     mjump sl (conserved S l) (ideal_flux S l) (fst (state_of a (f_ls f))) (snd (state_of a (f_ls f)))) /\
  mjump (f_sal f) (fst (state_of a (f_ls f))) (snd (state_of a (f_ls f)))
                  (fst (state_of a (f_lss f))) (snd (state_of a (f_lss f))) /\
  mjump s (fst (state_of a (f_lss f))) (snd (state_of a (f_lss f)))
          (fst (state_of a (f_rss f))) (snd (state_of a (f_rss f))) /\
  mjump (f_sar f) (fst (state_of a (f_rss f))) (snd (state_of a (f_rss f)))
                  (fst (state_of a (f_rs f))) (snd (state_of a (f_rs f))) /\
  (regular a (md r * (sr - mu r)) (sr - s) ->
     mjump sr (fst (state_of a (f_rs f))) (snd (state_of a (f_rs f))) (conserved S r) (ideal_flux S r)) /\
  star_side a (md l) (mu l) (mv l) (mw l) (mb l) (mc l) sl s =
    (o_v (f_ls f), o_w (f_ls f), o_b (f_ls f), o_c (f_ls f)).

Ltac open_res := repeat match goal with
  | |- resolved ?a ?l ?r ?s1 ?s2 (let x := ?v in @?b x) =>
    let y := fresh x in pose (y := v); change (resolved a l r s1 s2 (b y)); cbv beta end.

Lemma hlld_resolved ql qr c0 c1 : mhd_adm ql -> mhd_adm qr ->
  let bn := (ma ql + ma qr) / 2 in
  let l0 := with_bn ql bn in
  let r0 := with_bn qr bn in
  fast_speed S l0 c0 -> fast_speed S r0 c1 ->
  resolved bn l0 r0 (Rmin (mu ql) (mu qr) - Rmax c0 c1) (Rmax (mu ql) (mu qr) + Rmax c0 c1) (hlld_fan S ql qr).
Proof.
  intros Al Ar bn l0 r0 Hcl Hcr. pose proof HS as (H1 & _).
  assert (Al0 : mhd_adm l0) by (apply with_bn_adm; auto).
  assert (Ar0 : mhd_adm r0) by (apply with_bn_adm; auto).
  destruct (contact_between l0 r0 _ Al0 Ar0 c0 c1 eq_refl Hcl Hcr eq_refl) as (Pm1 & Pm2 & C1 & C2).
  change (mu l0) with (mu ql) in *. change (mu r0) with (mu qr) in *.
  pose proof (fast_speed_unique _ _ Al0 Hcl) as E0. pose proof (fast_speed_unique _ _ Ar0 Hcr) as E1.
  set (sl0 := Rmin (mu ql) (mu qr) - Rmax c0 c1) in *. set (sr0 := Rmax (mu ql) (mu qr) + Rmax c0 c1) in *.
  cbv delta [hlld_fan]. cbv beta. open_res.
  assert (Ea : a = bn) by (unfold a, bn; Rn; field).
  assert (Eql : ql0 = l0) by (unfold ql0; rewrite Ea; reflexivity).
  assert (Eqr : qr0 = r0) by (unfold qr0; rewrite Ea; reflexivity).
  assert (Hsg : (sgnm = 1 /\ 0 <= bn) \/ (sgnm = - (1) /\ bn < 0)).
  { unfold sgnm. rewrite Ea. Rn. clearbody bn. destruct (Rle_dec 0 bn); cbv iota; [left|right]; split; try reflexivity; lra. }
  clearbody a ql0 qr0 sgnm. subst a ql0 qr0.
  assert (Esl : sl = sl0) by (unfold sl, sl0, cfastl, cfastr; rewrite <- E0, <- E1; reflexivity).
  assert (Esr : sr = sr0) by (unfold sr, sr0, cfastl, cfastr; rewrite <- E0, <- E1; reflexivity).
  clearbody sl sr. subst sl sr. clear cfastl cfastr.
  assert (Etl : etotl = mhd_energy S l0)
    by (unfold etotl, mhd_energy, v_sq, b_sq, entho, ecinl, emagl, rl, pl, ul, vl, wl, bl, cl; Rn; cbn [ma l0 with_bn]; field; lra).
  assert (Epl : ptotl = total_pressure l0)
    by (unfold ptotl, total_pressure, b_sq, emagl, pl, bl, cl; Rn; cbn [ma l0 with_bn]; field; lra).
  assert (Etr : etotr = mhd_energy S r0)
    by (unfold etotr, mhd_energy, v_sq, b_sq, entho, ecinr, emagr, rr, pr, ur, vr, wr, br, cr; Rn; cbn [ma r0 with_bn]; field; lra).
  assert (Epr : ptotr = total_pressure r0)
    by (unfold ptotr, total_pressure, b_sq, emagr, pr, br, cr; Rn; cbn [ma r0 with_bn]; field; lra).
  assert (Evl : vdotbl = ul * bn + vl * bl + wl * cl) by reflexivity.
  assert (Evr : vdotbr = ur * bn + vr * br + wr * cr) by reflexivity.
  clearbody etotl ptotl etotr ptotr vdotbl vdotbr. clear ecinl emagl ecinr emagr entho.
  assert (Eu : ustar = contact_speed l0 r0 sl0 sr0).
  { unfold ustar, contact_speed, rcl, rcr, rl, rr, ul, ur. rewrite Epl, Epr. Rn.
    f_equal. ring. }
  change (md l0) with rl in Pm1. change (mu ql) with ul in Pm1. change (md r0) with rr in Pm2. change (mu qr) with ur in Pm2.
  assert (Prl : ptotstar - ptotl = rl * (sl0 - ul) * (ustar - ul)).
  { unfold ptotstar, ustar, rcl, rcr. Rn. field. lra. }
  assert (Prr : ptotstar - ptotr = rr * (sr0 - ur) * (ustar - ur)).
  { unfold ptotstar, ustar, rcl, rcr. Rn. field. lra. }
  clearbody ustar ptotstar. clear rcl rcr. rewrite <- Eu in C1, C2.
  assert (Erl : rstarl = rl * (ul - sl0) / (ustar - sl0)) by (unfold rstarl; Rn; field; lra).
  assert (Erl2 : rstarl = rl * (sl0 - ul) / (sl0 - ustar)) by reflexivity.
  assert (Drl : 0 < rstarl) by (rewrite Erl; apply Rdiv_lt_0_compat; lra).
  clearbody rstarl.
  destruct (star_side bn rl ul vl wl bl cl sl0 ustar) as [[[vstarl wstarl] bstarl] cstarl] eqn:Sl.
  cbv beta iota. open_res.
  assert (Err : rstarr = rr * (sr0 - ur) / (sr0 - ustar)) by reflexivity.
  assert (Drr : 0 < rstarr) by (rewrite Err; apply Rdiv_lt_0_compat; lra).
  clearbody rstarr.
  destruct (star_side bn rr ur vr wr br cr sr0 ustar) as [[[vstarr wstarr] bstarr] cstarr] eqn:Sr.
  cbv beta iota. open_res.
  assert (Hkl : 0 < sqrrstarl) by (apply sqrt_lt_R0; auto).
  assert (Hkr : 0 < sqrrstarr) by (apply sqrt_lt_R0; auto).
  assert (Qkl : sqrrstarl * sqrrstarl = rstarl) by (apply sqrt_sqrt; lra).
  assert (Qkr : sqrrstarr * sqrrstarr = rstarr) by (apply sqrt_sqrt; lra).
  assert (Esal : sal = ustar - Rabs bn / sqrt rstarl) by reflexivity.
  assert (Esar : sar = ustar + Rabs bn / sqrt rstarr) by reflexivity.
  assert (Ksal : (ustar - sal) * (sgnm * sqrrstarl) = bn).
  { rewrite Esal. change (sqrt rstarl) with sqrrstarl.
    replace ((ustar - (ustar - Rabs bn / sqrrstarl)) * (sgnm * sqrrstarl)) with (sgnm * Rabs bn) by (field; lra).
    destruct Hsg as [[-> Hb]|[-> Hb]]; [rewrite Rabs_right by lra|rewrite Rabs_left by lra]; ring. }
  assert (Ksar : (ustar - sar) * (- sgnm * sqrrstarr) = bn).
  { rewrite Esar. change (sqrt rstarr) with sqrrstarr.
    replace ((ustar - (ustar + Rabs bn / sqrrstarr)) * (- sgnm * sqrrstarr)) with (sgnm * Rabs bn) by (field; lra).
    destruct Hsg as [[-> Hb]|[-> Hb]]; [rewrite Rabs_right by lra|rewrite Rabs_left by lra]; ring. }
  assert (Sg2 : sgnm * sgnm = 1) by (destruct Hsg as [[-> _]|[-> _]]; ring).
  assert (Bl : bss - bstarl = sgnm * sqrrstarl * (vss - vstarl)).
  { unfold bss, vss, sum. Rn. apply (Rmult_eq_reg_r (sqrrstarl + sqrrstarr)); [|lra]. field_simplify; [|lra|lra]. nra. }
  assert (Cl : css - cstarl = sgnm * sqrrstarl * (wss - wstarl)).
  { unfold css, wss, sum. Rn. apply (Rmult_eq_reg_r (sqrrstarl + sqrrstarr)); [|lra]. field_simplify; [|lra|lra]. nra. }
  assert (Br : bss - bstarr = - sgnm * sqrrstarr * (vss - vstarr)).
  { unfold bss, vss, sum. Rn. apply (Rmult_eq_reg_r (sqrrstarl + sqrrstarr)); [|lra]. field_simplify; [|lra|lra]. nra. }
  assert (Cr : css - cstarr = - sgnm * sqrrstarr * (wss - wstarr)).
  { unfold css, wss, sum. Rn. apply (Rmult_eq_reg_r (sqrrstarl + sqrrstarr)); [|lra]. field_simplify; [|lra|lra]. nra. }
  assert (Eel : etotssl - etotstarl = sgnm * sqrrstarl * (vdotbss - vdotbstarl)) by (unfold etotssl; Rn; ring).
  assert (Eer : etotssr - etotstarr = - sgnm * sqrrstarr * (vdotbss - vdotbstarr)) by (unfold etotssr; Rn; ring).
  assert (Sq : forall x, x * x = sgnm * x * (sgnm * x)).
  { intros x. replace (sgnm * x * (sgnm * x)) with (sgnm * sgnm * (x * x)) by ring. rewrite Sg2. ring. }
  assert (Sq' : forall x, x * x = - sgnm * x * (- sgnm * x)).
  { intros x. replace (- sgnm * x * (- sgnm * x)) with (sgnm * sgnm * (x * x)) by ring. rewrite Sg2. ring. }
  unfold resolved. rewrite <- Eu.
  cbn [f_sl f_sal f_ustar f_sar f_sr f_l f_ls f_lss f_rss f_rs f_r].
  unfold state_of, same_line. cbn [o_r o_u o_v o_w o_b o_c o_ptot o_etot o_vdotb].
  split; [reflexivity|]. split; [reflexivity|]. split; [reflexivity|].
  split; [rewrite Etl, Epl, Evl; reflexivity|]. split; [rewrite Etr, Epr, Evr; reflexivity|].
  split; [exact Erl|]. split; [exact Err|]. split; [exact Esal|]. split; [exact Esar|].
  split; [do 17 eexists; repeat split; reflexivity|].
  split; [repeat split; reflexivity|].
  split; [|split; [|split; [|split; [|split; [|exact Sl]]]]].
  - intros Hreg. change (md l0 * (mu l0 - sl0)) with (rl * (ul - sl0)) in Hreg.
    destruct (star_regular bn rl ul vl wl bl cl sl0 ustar Hreg) as [Hd Es]. rewrite Sl in Es. injection Es as -> -> -> ->.
    pose proof (outer_jump bn rl ul vl wl bl cl etotl ptotl sl0 ustar ptotstar ltac:(lra) Hd Prl) as J.
    cbv zeta in J. rewrite <- Erl2 in J. unfold etotstarl, vdotbstarl. rewrite Evl. Rn.
    match type of J with mjump _ ?u ?f _ _ =>
      replace u with (conserved S l0) in J by (unfold conserved; rewrite Etl; reflexivity);
      replace f with (ideal_flux S l0) in J by (unfold ideal_flux; rewrite Etl, Epl; reflexivity) end.
    exact J.
  - apply (alfven_jump bn rstarl etotstarl etotssl ustar ptotstar vstarl wstarl bstarl cstarl vss wss bss css sal
      (sgnm * sqrrstarl)); [rewrite <- Qkl; apply Sq|exact Ksal|exact Bl|exact Cl|exact Eel].
  - apply contact_jump.
  - apply mjump_sym.
    apply (alfven_jump bn rstarr etotstarr etotssr ustar ptotstar vstarr wstarr bstarr cstarr vss wss bss css sar
      (- sgnm * sqrrstarr)); [rewrite <- Qkr; apply Sq'|exact Ksar|exact Br|exact Cr|exact Eer].
  - intros Hreg. change (md r0 * (sr0 - mu r0)) with (rr * (sr0 - ur)) in Hreg.
    assert (Hreg' : regular bn (rr * (ur - sr0)) (ustar - sr0)).
    { destruct Hreg as [R1 R2]. replace (rr * (sr0 - ur) * (sr0 - ustar)) with (rr * (ur - sr0) * (ustar - sr0)) in * by ring.
      split; auto. }
    destruct (star_regular bn rr ur vr wr br cr sr0 ustar Hreg') as [Hd Es]. rewrite Sr in Es. injection Es as -> -> -> ->.
    pose proof (outer_jump bn rr ur vr wr br cr etotr ptotr sr0 ustar ptotstar ltac:(lra) Hd Prr) as J.
    cbv zeta in J. rewrite <- Err in J. unfold etotstarr, vdotbstarr. rewrite Evr. Rn.
    match type of J with mjump _ ?u ?f _ _ =>
      replace u with (conserved S r0) in J by (unfold conserved; rewrite Etr; reflexivity);
      replace f with (ideal_flux S r0) in J by (unfold ideal_flux; rewrite Etr, Epr; reflexivity) end.
    apply mjump_sym. exact J.
Qed.

Lemma mat_rest_cons F s p l : mat_rest F ((s, p) :: l) = if Rle_dec s 0 then mat_rest (snd p) l else F.
Proof. destruct p. reflexivity. Qed.

(** The sampled flux is the flux of the fan at rest. *)
Lemma sample_at_rest a F l (f : fan R) :
  same_line a (f_l f) -> same_line a (f_ls f) -> same_line a (f_lss f) ->
  same_line a (f_rss f) -> same_line a (f_rs f) -> same_line a (f_r f) ->
  F = snd (state_of a (f_l f)) -> l = state_of a (f_r f) ->
  mat_rest F [(f_sl f, state_of a (f_ls f)); (f_sal f, state_of a (f_lss f)); (f_ustar f, state_of a (f_rss f));
              (f_sar f, state_of a (f_rs f)); (f_sr f, l)] = sample_flux a (fan_sample f).
Proof.
  intros L1 L2 L3 L4 L5 L6 -> ->. unfold fan_sample. Rn.
  assert (G : forall x (A B : ms R), (if Rle_dec x 0 then A else B) = (if Rlt_dec 0 x then B else A)).
  { intros. destruct (Rle_dec x 0), (Rlt_dec 0 x); auto; lra. }
  rewrite !mat_rest_cons. cbn [mat_rest]. rewrite !G.
  destruct (Rlt_dec 0 (f_sl f)); [symmetry; apply state_flux; auto|].
  destruct (Rlt_dec 0 (f_sal f)); [symmetry; apply state_flux; auto|].
  destruct (Rlt_dec 0 (f_ustar f)); [symmetry; apply state_flux; auto|].
  destruct (Rlt_dec 0 (f_sar f)); [symmetry; apply state_flux; auto|].
  destruct (Rlt_dec 0 (f_sr f)); [symmetry; apply state_flux; auto|].
  symmetry; apply state_flux; auto.
Qed.
End Fan.
