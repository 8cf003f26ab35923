(** * Symmetries of the MHD Riemann solvers: proofs *)
From Coq Require Import ZArith List Bool Reals Lra Psatz.
Import ListNotations.
From Verif Require Import Num Exec Grid HydroNum EulerSpec HydroPhysics MhdNum Mhd2DAgree MhdFacts MhdSpec MhdPhysics
  MhdFanSpec MhdFan MhdSymSpec.
Local Open Scope R_scope.

Lemma Rdiv_oo x y : - x / - y = x / y.
Proof. unfold Rdiv. rewrite Rinv_opp. ring. Qed.
Lemma Rdiv_on x y : - x / y = - (x / y).
Proof. unfold Rdiv. ring. Qed.
Lemma Rdiv_no x y : x / - y = - (x / y).
Proof. unfold Rdiv. rewrite Rinv_opp. ring. Qed.

Lemma Rmin_mir x y : Rmin (- x) (- y) = - Rmax x y.
Proof. unfold Rmin, Rmax. destruct (Rle_dec _ _), (Rle_dec _ _); lra. Qed.
Lemma Rmax_mir x y : Rmax (- x) (- y) = - Rmin x y.
Proof. unfold Rmin, Rmax. destruct (Rle_dec _ _), (Rle_dec _ _); lra. Qed.

Section Sym.
Variable S : hset R.
Hypothesis HS : mhd_sane S.

(** ** The fast speed *)
Lemma fast_mir q : fast_x S (mir q) = fast_x S q.
Proof.
  unfold fast_x, fast, mir. cbn [md mp mu mv mw ma mb mc]. Rn.
  replace (- ma q * - ma q) with (ma q * ma q) by ring.
  replace (gamma0 S * mp q / md q * - ma q * - ma q) with (gamma0 S * mp q / md q * ma q * ma q) by ring. reflexivity.
Qed.
Lemma fast_tr q : fast_x S (tr q) = fast_x S q.
Proof.
  unfold fast_x, fast, tr. cbn [md mp mu mv mw ma mb mc]. Rn.
  replace (ma q * ma q + mc q * mc q + mb q * mb q) with (ma q * ma q + mb q * mb q + mc q * mc q) by ring. reflexivity.
Qed.
Lemma fast_rev q : fast_x S (rev q) = fast_x S q.
Proof.
  unfold fast_x, fast, rev. cbn [md mp mu mv mw ma mb mc]. Rn.
  replace (- ma q * - ma q + - mb q * - mb q + - mc q * - mc q) with (ma q * ma q + mb q * mb q + mc q * mc q) by ring.
  replace (gamma0 S * mp q / md q * - ma q * - ma q) with (gamma0 S * mp q / md q * ma q * ma q) by ring. reflexivity.
Qed.
Lemma fast_sw q : fast_x S (sw q) = fast_y S q.
Proof.
  unfold fast_x, fast_y, fast, sw. cbn [md mp mu mv mw ma mb mc]. Rn.
  replace (mb q * mb q + ma q * ma q + mc q * mc q) with (ma q * ma q + mb q * mb q + mc q * mc q) by ring. reflexivity.
Qed.

(** ** HLL, LLF *)
Lemma flux_mir q : mhd_flux S (mir q) = (mir (fst (mhd_flux S q)), mirF (snd (mhd_flux S q))).
Proof.
  rewrite !(flux_ok S HS). cbn [fst snd].
  unfold mir, mirF, conserved, ideal_flux, mhd_energy, total_pressure, v_sq, b_sq, v_dot_b.
  cbn [md mp mu mv mw ma mb mc]. f_equal; apply ms_eq; cbn [md mp mu mv mw ma mb mc];
    try replace (- ma q * - ma q) with (ma q * ma q) by ring;
    try replace (- mu q * - mu q) with (mu q * mu q) by ring; ring.
Qed.
Lemma flux_tr q : mhd_flux S (tr q) = (tr (fst (mhd_flux S q)), tr (snd (mhd_flux S q))).
Proof.
  rewrite !(flux_ok S HS). cbn [fst snd].
  unfold tr, conserved, ideal_flux, mhd_energy, total_pressure, v_sq, b_sq, v_dot_b.
  cbn [md mp mu mv mw ma mb mc]. f_equal; apply ms_eq; cbn [md mp mu mv mw ma mb mc]; try ring; unfold Rdiv; ring.
Qed.

Lemma set_a_mir q a : set_a (mir q) (- a) = mir (set_a q a).
Proof. reflexivity. Qed.
Lemma set_a_tr q a : set_a (tr q) a = tr (set_a q a).
Proof. reflexivity. Qed.
Lemma mu_mir q : mu (mir q) = - mu q.
Proof. reflexivity. Qed.
Lemma mean_mir q1 q2 : (nhalf * (ma (mir q2) + ma (mir q1)))%num = - (nhalf * (ma q1 + ma q2))%num.
Proof. unfold mir. cbn [ma]. Rn. ring. Qed.

Lemma hll_mir ql qr : mhd_hll S (mir qr) (mir ql) = mirF (mhd_hll S ql qr).
Proof.
  unfold mhd_hll. rewrite mean_mir, !set_a_mir, !flux_mir, !fast_mir.
  set (a := (nhalf * (ma ql + ma qr))%num).
  destruct (mhd_flux S (set_a ql a)) as [ul fl] eqn:El. destruct (mhd_flux S (set_a qr a)) as [ur fr] eqn:Er.
  cbn [fst snd]. cbv zeta. rewrite !mu_mir. Rn.
  set (c := Rmax (fast_x S (set_a ql a)) (fast_x S (set_a qr a))). rewrite (Rmax_comm (fast_x S (set_a qr a))). fold c.
  set (u1 := mu (set_a ql a)). set (u2 := mu (set_a qr a)).
  assert (E1 : Rmin (Rmin (- u2) (- u1) - c) 0 = - Rmax (Rmax u1 u2 + c) 0).
  { clearbody c u1 u2. unfold Rmin, Rmax. repeat destruct (Rle_dec _ _); lra. }
  assert (E2 : Rmax (Rmax (- u2) (- u1) + c) 0 = - Rmin (Rmin u1 u2 - c) 0).
  { clearbody c u1 u2. unfold Rmin, Rmax. repeat destruct (Rle_dec _ _); lra. }
  rewrite E1, E2. set (sl := Rmin (Rmin u1 u2 - c) 0). set (sr := Rmax (Rmax u1 u2 + c) 0).
  unfold mmap4, mir, mirF. 
  replace (- sl - - sr) with (sr - sl) by ring.
  apply ms_eq; cbn [md mp mu mv mw ma mb mc]; unfold Rdiv; ring.
Qed.

Lemma llf_mir ql qr : mhd_llf S (mir qr) (mir ql) = mirF (mhd_llf S ql qr).
Proof.
  unfold mhd_llf, info_x. rewrite mean_mir, !set_a_mir, !flux_mir, !fast_mir.
  set (a := (nhalf * (ma ql + ma qr))%num).
  destruct (mhd_flux S (set_a ql a)) as [ul fl] eqn:El. destruct (mhd_flux S (set_a qr a)) as [ur fr] eqn:Er.
  cbn [fst snd]. cbv zeta. rewrite !mu_mir. Rn. rewrite !Rabs_Ropp.
  rewrite (Rmax_comm (fast_x S (set_a qr a) + _)).
  match goal with |- context [Rmax ?x ?y] => set (s := Rmax x y) end.
  unfold mmap4, mir, mirF.
  apply ms_eq; cbn [md mp mu mv mw ma mb mc]; unfold Rdiv; ring.
Qed.

Lemma hll_tr ql qr : mhd_hll S (tr ql) (tr qr) = tr (mhd_hll S ql qr).
Proof.
  unfold mhd_hll. change (ma (tr ql)) with (ma ql). change (ma (tr qr)) with (ma qr). rewrite !set_a_tr, !flux_tr, !fast_tr.
  set (a := (nhalf * (ma ql + ma qr))%num).
  destruct (mhd_flux S (set_a ql a)) as [ul fl] eqn:El. destruct (mhd_flux S (set_a qr a)) as [ur fr] eqn:Er.
  reflexivity.
Qed.
Lemma llf_tr ql qr : mhd_llf S (tr ql) (tr qr) = tr (mhd_llf S ql qr).
Proof.
  unfold mhd_llf, info_x. change (ma (tr ql)) with (ma ql). change (ma (tr qr)) with (ma qr). rewrite !set_a_tr, !flux_tr, !fast_tr.
  set (a := (nhalf * (ma ql + ma qr))%num).
  destruct (mhd_flux S (set_a ql a)) as [ul fl] eqn:El. destruct (mhd_flux S (set_a qr a)) as [ur fr] eqn:Er.
  reflexivity.
Qed.

Lemma flux_rev q : mhd_flux S (rev q) = (rev (fst (mhd_flux S q)), rev (snd (mhd_flux S q))).
Proof.
  rewrite !(flux_ok S HS). cbn [fst snd].
  unfold rev, conserved, ideal_flux, mhd_energy, total_pressure, v_sq, b_sq, v_dot_b.
  cbn [md mp mu mv mw ma mb mc]. f_equal; apply ms_eq; cbn [md mp mu mv mw ma mb mc]; unfold Rdiv; ring.
Qed.
Lemma set_a_rev q a : set_a (rev q) (- a) = rev (set_a q a).
Proof. reflexivity. Qed.
Lemma mean_rev q1 q2 : (nhalf * (ma (rev q1) + ma (rev q2)))%num = - (nhalf * (ma q1 + ma q2))%num.
Proof. unfold rev. cbn [ma]. Rn. ring. Qed.

Lemma hll_rev ql qr : mhd_hll S (rev ql) (rev qr) = rev (mhd_hll S ql qr).
Proof.
  unfold mhd_hll. rewrite mean_rev, !set_a_rev, !flux_rev, !fast_rev.
  set (a := (nhalf * (ma ql + ma qr))%num).
  destruct (mhd_flux S (set_a ql a)) as [ul fl] eqn:El. destruct (mhd_flux S (set_a qr a)) as [ur fr] eqn:Er.
  cbn [fst snd]. cbv zeta. change (mu (rev (set_a ql a))) with (mu (set_a ql a)). change (mu (rev (set_a qr a))) with (mu (set_a qr a)).
  unfold mmap4, rev. Rn. apply ms_eq; cbn [md mp mu mv mw ma mb mc]; unfold Rdiv; ring.
Qed.
Lemma llf_rev ql qr : mhd_llf S (rev ql) (rev qr) = rev (mhd_llf S ql qr).
Proof.
  unfold mhd_llf, info_x. rewrite mean_rev, !set_a_rev, !flux_rev, !fast_rev.
  set (a := (nhalf * (ma ql + ma qr))%num).
  destruct (mhd_flux S (set_a ql a)) as [ul fl] eqn:El. destruct (mhd_flux S (set_a qr a)) as [ur fr] eqn:Er.
  cbn [fst snd]. cbv zeta. change (mu (rev (set_a ql a))) with (mu (set_a ql a)). change (mu (rev (set_a qr a))) with (mu (set_a qr a)).
  unfold mmap4, rev. Rn. apply ms_eq; cbn [md mp mu mv mw ma mb mc]; unfold Rdiv; ring.
Qed.

(** ** HLLD, in parts *)

(** An Alfven wave that is not faster than the outer wave. *)
Lemma alfven_inside a m d : 0 < m -> 0 < d -> a * a <= m * d -> 0 <= Rabs a / sqrt (m / d) <= d.
Proof.
  intros Hm Hd Hle. assert (Hp : 0 < m / d) by (apply Rdiv_lt_0_compat; auto).
  pose proof (sqrt_lt_R0 _ Hp) as Hq. pose proof (sqrt_sqrt (m / d) ltac:(lra)) as Hqq.
  pose proof (Rabs_pos a) as Ha0. pose proof (Rsqr_abs a) as Ha2. unfold Rsqr in Ha2.
  split; [apply Rmult_le_pos; [auto|left; apply Rinv_0_lt_compat; auto]|].
  apply (Rmult_le_reg_r (sqrt (m / d))); auto. unfold Rdiv at 1. rewrite Rmult_assoc, Rinv_l, Rmult_1_r by lra.
  apply Rsqr_incr_0_var; [|nra]. unfold Rsqr. rewrite <- Ha2.
  replace (d * sqrt (m / d) * (d * sqrt (m / d))) with (d * d * (sqrt (m / d) * sqrt (m / d))) by ring.
  rewrite Hqq. replace (d * d * (m / d)) with (m * d) by (field; lra). auto.
Qed.


(** The given state of a side. *)
Definition given (a : R) (q : ms R) : sample R :=
  let emag := 1 / 2 * (a * a + mb q * mb q + mc q * mc q) in
  mksample (md q) (mu q) (mv q) (mw q) (mb q) (mc q) (mp q + emag)
    (mp q * (1 / (gamma0 S - 1)) + 1 / 2 * (mu q * mu q + mv q * mv q + mw q * mw q) * md q + emag)
    (mu q * a + mv q * mb q + mw q * mc q).

(** The star state of a side. *)
Definition star (a ps us s : R) (o : sample R) : sample R :=
  let t := star_side a (o_r o) (o_u o) (o_v o) (o_w o) (o_b o) (o_c o) s us in
  let v := fst (fst (fst t)) in let w := snd (fst (fst t)) in let b := snd (fst t) in let c := snd t in
  let vb := us * a + v * b + w * c in
  mksample (o_r o * (s - o_u o) / (s - us)) us v w b c ps
    (((s - o_u o) * o_etot o - o_ptot o * o_u o + ps * us + a * (o_vdotb o - vb)) / (s - us)) vb.

(** The inner state next to the star state [o], with square roots of densities [kl],
    [kr], sign [sg] of the field, and energy [e] for a given product v.B. *)
Definition inner (a sg kl kr : R) (x y o : sample R) (e : R -> R) : sample R :=
  let sum := kl + kr in
  let v := (kl * o_v x + kr * o_v y + sg * (o_b y - o_b x)) / sum in
  let w := (kl * o_w x + kr * o_w y + sg * (o_c y - o_c x)) / sum in
  let b := (kl * o_b y + kr * o_b x + sg * kl * kr * (o_v y - o_v x)) / sum in
  let c := (kl * o_c y + kr * o_c x + sg * kl * kr * (o_w y - o_w x)) / sum in
  let vb := o_u o * a + v * b + w * c in
  mksample (o_r o) (o_u o) v w b c (o_ptot o) (e vb) vb.

Definition middle (l r : sample R) (sl sr : R) : R * R :=
  let ml := o_r l * (o_u l - sl) in
  let mr := o_r r * (sr - o_u r) in
  ((mr * o_u r + ml * o_u l + (o_ptot l - o_ptot r)) / (mr + ml),
   (mr * o_ptot l + ml * o_ptot r + ml * mr * (o_u l - o_u r)) / (mr + ml)).

Definition sgn_of (a : R) : R := if (n0 <=? a)%num then 1 else - (1).

Definition parts (a sl sr : R) (l r : sample R) : fan R :=
  let us := fst (middle l r sl sr) in
  let ps := snd (middle l r sl sr) in
  let x := star a ps us sl l in
  let y := star a ps us sr r in
  let kl := sqrt (o_r x) in let kr := sqrt (o_r y) in let sg := sgn_of a in
  mkfan sl (us - Rabs a / kl) us (us + Rabs a / kr) sr l x
    (inner a sg kl kr x y x (fun vb => o_etot x - sg * kl * (o_vdotb x - vb)))
    (inner a sg kl kr x y y (fun vb => o_etot y + sg * kr * (o_vdotb y - vb))) y r.

Lemma hlld_parts ql qr :
  let a := (nhalf * (ma ql + ma qr))%num in
  let c := Rmax (fast_x S (set_a ql a)) (fast_x S (set_a qr a)) in
  hlld_fan S ql qr = parts a (Rmin (mu ql) (mu qr) - c) (Rmax (mu ql) (mu qr) + c) (given a ql) (given a qr).
Proof.
  intros a c. cbv delta [hlld_fan]. cbv beta. open_let_eq.
  destruct (star_side a0 rl ul vl wl bl cl sl ustar) as [[[v1 w1] b1] c1] eqn:S1. cbv beta iota. open_let_eq.
  destruct (star_side a0 rr ur vr wr br cr sr ustar) as [[[v2 w2] b2] c2] eqn:S2. cbv beta iota. open_let_eq.
  unfold parts.
  assert (Eu : middle (given a ql) (given a qr) (Rmin (mu ql) (mu qr) - c) (Rmax (mu ql) (mu qr) + c) = (ustar, ptotstar)) by reflexivity.
  rewrite Eu. cbn [fst snd]. 
  assert (Ex : star a ptotstar ustar (Rmin (mu ql) (mu qr) - c) (given a ql) =
    mksample rstarl ustar v1 w1 b1 c1 ptotstar etotstarl vdotbstarl).
  { unfold star. change (star_side a (o_r (given a ql)) (o_u (given a ql)) (o_v (given a ql)) (o_w (given a ql)) (o_b (given a ql))
      (o_c (given a ql)) (Rmin (mu ql) (mu qr) - c) ustar) with (star_side a0 rl ul vl wl bl cl sl ustar). rewrite S1. reflexivity. }
  assert (Ey : star a ptotstar ustar (Rmax (mu ql) (mu qr) + c) (given a qr) =
    mksample rstarr ustar v2 w2 b2 c2 ptotstar etotstarr vdotbstarr).
  { unfold star. change (star_side a (o_r (given a qr)) (o_u (given a qr)) (o_v (given a qr)) (o_w (given a qr)) (o_b (given a qr))
      (o_c (given a qr)) (Rmax (mu ql) (mu qr) + c) ustar) with (star_side a0 rr ur vr wr br cr sr ustar). rewrite S2. reflexivity. }
  rewrite Ex, Ey. cbn [o_r o_u o_v o_w o_b o_c o_ptot o_etot o_vdotb].
  change (sgn_of a) with sgnm. reflexivity.
Qed.

Ltac samples := apply sample_eq; cbn [o_r o_u o_v o_w o_b o_c o_ptot o_etot o_vdotb]; try reflexivity.

(** *** Reversal of the axis *)
Definition smir (o : sample R) : sample R :=
  mksample (o_r o) (- o_u o) (o_v o) (o_w o) (o_b o) (o_c o) (o_ptot o) (o_etot o) (o_vdotb o).

Lemma sample_flux_mir a o : sample_flux (- a) (smir o) = mirF (sample_flux a o).
Proof.
  unfold sample_flux, smir, mirF. cbn [o_r o_u o_v o_w o_b o_c o_ptot o_etot o_vdotb md mp mu mv mw ma mb mc]. Rn.
  apply ms_eq; cbn [md mp mu mv mw ma mb mc]; ring.
Qed.

Lemma given_mir a q : given (- a) (mir q) = smir (given a q).
Proof.
  unfold given, smir, mir. cbn [md mp mu mv mw ma mb mc]. cbv zeta. samples.
  - ring.
  - replace (- mu q * - mu q) with (mu q * mu q) by ring. replace (- a * - a) with (a * a) by ring. ring.
  - ring.
Qed.

Lemma middle_mir l r sl sr :
  middle (smir r) (smir l) (- sr) (- sl) = (- fst (middle l r sl sr), snd (middle l r sl sr)).
Proof.
  unfold middle, smir. cbn [o_r o_u o_ptot fst snd].
  set (ml := o_r l * (o_u l - sl)). set (mr := o_r r * (sr - o_u r)).
  replace (o_r l * (- sl - - o_u l)) with ml by (unfold ml; ring).
  replace (o_r r * (- o_u r - - sr)) with mr by (unfold mr; ring).
  rewrite (Rplus_comm ml mr). unfold Rdiv. f_equal; ring.
Qed.

Lemma star_side_mir a r u v w b c s us :
  star_side (- a) r (- u) v w b c (- s) (- us) = star_side a r u v w b c s us.
Proof.
  unfold star_side. Rn.
  replace (r * (- s - - u) * (- s - - us) - - a * - a) with (r * (s - u) * (s - us) - a * a) by ring.
  replace (r * (- s - - u) * (- s - - u) - - a * - a) with (r * (s - u) * (s - u) - a * a) by ring.
  replace (- a * - a) with (a * a) by ring.
  replace (- a * b * (- us - - u)) with (a * b * (us - u)) by ring.
  replace (- a * c * (- us - - u)) with (a * c * (us - u)) by ring. reflexivity.
Qed.

Lemma star_mir a ps us s o : star (- a) ps (- us) (- s) (smir o) = smir (star a ps us s o).
Proof.
  unfold star, smir. cbn [o_r o_u o_v o_w o_b o_c o_ptot o_etot o_vdotb]. rewrite star_side_mir.
  destruct (star_side a _ _ _ _ _ _ s us) as [[[v w] b] c]. cbn [fst snd]. cbv zeta.
  replace (- s - - us) with (- (s - us)) by ring. replace (- s - - o_u o) with (- (s - o_u o)) by ring.
  replace (- us * - a) with (us * a) by ring. samples.
  - rewrite <- Ropp_mult_distr_r. apply Rdiv_oo.
  - rewrite <- Rdiv_oo. f_equal; ring.
Qed.

Lemma inner_mir a sg kl kr x y o e :
  inner (- a) (- sg) kr kl (smir y) (smir x) (smir o) e = smir (inner a sg kl kr x y o e).
Proof.
  unfold inner, smir. cbn [o_r o_u o_v o_w o_b o_c o_ptot o_etot o_vdotb]. cbv zeta.
  replace (kr + kl) with (kl + kr) by ring.
  replace (kr * o_v y + kl * o_v x + - sg * (o_b x - o_b y)) with (kl * o_v x + kr * o_v y + sg * (o_b y - o_b x)) by ring.
  replace (kr * o_w y + kl * o_w x + - sg * (o_c x - o_c y)) with (kl * o_w x + kr * o_w y + sg * (o_c y - o_c x)) by ring.
  replace (kr * o_b x + kl * o_b y + - sg * kr * kl * (o_v x - o_v y))
    with (kl * o_b y + kr * o_b x + sg * kl * kr * (o_v y - o_v x)) by ring.
  replace (kr * o_c x + kl * o_c y + - sg * kr * kl * (o_w x - o_w y))
    with (kl * o_c y + kr * o_c x + sg * kl * kr * (o_w y - o_w x)) by ring.
  replace (- o_u o * - a) with (o_u o * a) by ring. reflexivity.
Qed.

Lemma sgn_opp a : a <> 0 -> sgn_of (- a) = - sgn_of a.
Proof. intros H. unfold sgn_of. Rn. destruct (Rle_dec 0 (- a)), (Rle_dec 0 a); lra. Qed.

Lemma inner_ext a sg kl kr x y o e e' : (forall z, e z = e' z) -> inner a sg kl kr x y o e = inner a sg kl kr x y o e'.
Proof. intros H. unfold inner. cbv zeta. rewrite H. reflexivity. Qed.

(** The fan of the reversed states is the reversed fan. *)
Definition mirrored (a : R) (f f' : fan R) : Prop :=
  f_sl f' = - f_sr f /\ f_sal f' = - f_sar f /\ f_ustar f' = - f_ustar f /\ f_sar f' = - f_sal f /\ f_sr f' = - f_sl f /\
  f_l f' = smir (f_r f) /\ f_ls f' = smir (f_rs f) /\ f_rs f' = smir (f_ls f) /\ f_r f' = smir (f_l f) /\
  (a <> 0 -> f_lss f' = smir (f_rss f) /\ f_rss f' = smir (f_lss f)).

Lemma parts_mir a sl sr l r : mirrored a (parts a sl sr l r) (parts (- a) (- sr) (- sl) (smir r) (smir l)).
Proof.
  unfold parts. rewrite middle_mir. cbn [fst snd]. set (us := fst _). set (ps := snd _).
  rewrite !star_mir. set (x := star a ps us sl l). set (y := star a ps us sr r). cbv zeta.
  change (o_r (smir x)) with (o_r x). change (o_r (smir y)) with (o_r y). rewrite Rabs_Ropp.
  unfold mirrored. cbn [f_sl f_sal f_ustar f_sar f_sr f_l f_ls f_lss f_rss f_rs f_r].
  repeat (split; [try reflexivity; ring|]).
  intros Ha. rewrite sgn_opp by auto. split; rewrite inner_mir; f_equal; apply inner_ext; intros z;
  change (o_etot (smir x)) with (o_etot x); change (o_etot (smir y)) with (o_etot y);
  change (o_vdotb (smir x)) with (o_vdotb x); change (o_vdotb (smir y)) with (o_vdotb y); ring.
Qed.

Lemma hlld_mirrored ql qr : mirrored ((ma ql + ma qr) / 2) (hlld_fan S ql qr) (hlld_fan S (mir qr) (mir ql)).
Proof.
  rewrite !hlld_parts. rewrite mean_mir, !set_a_mir, !fast_mir, !given_mir, !mu_mir.
  replace ((ma ql + ma qr) / 2) with (nhalf * (ma ql + ma qr))%num by (Rn; field).
  set (a := (nhalf * (ma ql + ma qr))%num). rewrite (Rmax_comm (fast_x S (set_a qr a))).
  set (c := Rmax (fast_x S (set_a ql a)) (fast_x S (set_a qr a))).
  rewrite Rmin_mir, Rmax_mir, (Rmax_comm (mu qr)), (Rmin_comm (mu qr)).
  replace (- Rmax (mu ql) (mu qr) - c) with (- (Rmax (mu ql) (mu qr) + c)) by ring.
  replace (- Rmin (mu ql) (mu qr) + c) with (- (Rmin (mu ql) (mu qr) - c)) by ring.
  apply parts_mir.
Qed.

Lemma mjump_zero u1 f1 u2 f2 : mjump 0 u1 f1 u2 f2 -> f1 = f2.
Proof.
  intros H.
  assert (K : forall v, In v mhd_vars -> mget f1 v = mget f2 v) by (intros v Hv; specialize (H v Hv); lra).
  apply ms_eq; [apply (K ID)|apply (K IP)|apply (K IU)|apply (K IV)|apply (K IW)|apply (K IA)|apply (K IB)|apply (K IC)];
  unfold mhd_vars; cbn [In]; tauto.
Qed.

(** Sampling from the right instead of from the left. *)
Lemma sample_mirrored a (f f' : fan R) (G : sample R -> ms R) : mirrored a f f' ->
  f_sl f <= f_sal f <= f_ustar f -> f_ustar f <= f_sar f <= f_sr f ->
  (a = 0 -> f_sal f = f_ustar f /\ f_sar f = f_ustar f) ->
  (f_sl f = 0 -> G (f_l f) = G (f_ls f)) -> (f_sal f = 0 -> G (f_ls f) = G (f_lss f)) ->
  (f_ustar f = 0 -> G (f_lss f) = G (f_rss f)) -> (f_sar f = 0 -> G (f_rss f) = G (f_rs f)) ->
  (f_sr f = 0 -> G (f_rs f) = G (f_r f)) ->
  exists o, fan_sample f' = smir o /\ G o = G (fan_sample f).
Proof.
  intros (E1 & E2 & E3 & E4 & E5 & E6 & E7 & E8 & E9 & E10) O1 O2 Z J1 J2 J3 J4 J5.
  unfold fan_sample. Rn. rewrite E1, E2, E3, E4, E5, E6, E7, E8, E9.
  destruct (Req_EM_T a 0) as [Ha|Ha].
  - destruct (Z Ha) as [Z1 Z2]. clear E10. rewrite Z1, Z2 in *.
    destruct (Rtotal_order (f_sl f) 0) as [H1|[H1|H1]], (Rtotal_order (f_ustar f) 0) as [H2|[H2|H2]],
      (Rtotal_order (f_sr f) 0) as [H3|[H3|H3]]; try (exfalso; lra);
    repeat match goal with |- context [Rlt_dec ?p ?q] =>
      first [destruct (Rlt_dec p q) as [?|?]; [exfalso; lra|] | destruct (Rlt_dec p q) as [?|?]; [|exfalso; lra]] end;
    eexists; (split; [reflexivity|]);
    repeat match goal with H : _ = 0 -> _ |- _ => first [specialize (H ltac:(assumption)) | clear H] end; congruence.
  - destruct (E10 Ha) as [E11 E12]. clear E10 Z. rewrite E11, E12.
    destruct (Rtotal_order (f_sl f) 0) as [H1|[H1|H1]], (Rtotal_order (f_sal f) 0) as [H2|[H2|H2]];
      try (exfalso; lra);
    destruct (Rtotal_order (f_ustar f) 0) as [H3|[H3|H3]]; try (exfalso; lra);
    destruct (Rtotal_order (f_sar f) 0) as [H4|[H4|H4]]; try (exfalso; lra);
    destruct (Rtotal_order (f_sr f) 0) as [H5|[H5|H5]]; try (exfalso; lra);
    repeat match goal with |- context [Rlt_dec ?p ?q] =>
      first [destruct (Rlt_dec p q) as [?|?]; [exfalso; lra|] | destruct (Rlt_dec p q) as [?|?]; [|exfalso; lra]] end;
    eexists; (split; [reflexivity|]);
    repeat match goal with H : _ = 0 -> _ |- _ => first [specialize (H ltac:(assumption)) | clear H] end; congruence.
Qed.

Lemma hlld_mir ql qr cl cr : mhd_adm ql -> mhd_adm qr ->
  let a := (ma ql + ma qr) / 2 in
  let l := with_bn ql a in
  let r := with_bn qr a in
  fast_speed S l cl -> fast_speed S r cr ->
  let sl := Rmin (mu ql) (mu qr) - Rmax cl cr in
  let sr := Rmax (mu ql) (mu qr) + Rmax cl cr in
  let s := contact_speed l r sl sr in
  let ml := md ql * (mu ql - sl) in
  let mr := md qr * (sr - mu qr) in
  regular a ml (s - sl) -> regular a mr (sr - s) -> a * a <= ml * (s - sl) -> a * a <= mr * (sr - s) ->
  mhd_hlld S (mir qr) (mir ql) = mirF (mhd_hlld S ql qr).
Proof.
  intros Al Ar a l r Hl Hr sl sr s ml mr R1 R2 W1 W2.
  destruct (contact_between S HS l r _ (with_bn_adm _ a Al) (with_bn_adm _ a Ar) cl cr eq_refl Hl Hr eq_refl)
    as (Pm1 & Pm2 & C1 & C2).
  change (0 < ml) in Pm1. change (0 < mr) in Pm2. change (sl < s) in C1. change (s < sr) in C2.
  destruct (hlld_resolved S HS ql qr cl cr Al Ar Hl Hr)
    as (F1 & F2 & F3 & F4 & F5 & F6 & F7 & F8 & F9 & X & (L2 & L3 & L4 & L5) & J1 & J2 & J3 & J4 & J5 & _).
  fold a l r sl sr s in F1, F2, F3, F4, F5, F6, F7, F8, F9, L2, L3, L4, L5, J1, J2, J3, J4, J5.
  change (md l * (mu l - sl) / (s - sl)) with (ml / (s - sl)) in F6. change (md r * (sr - mu r) / (sr - s)) with (mr / (sr - s)) in F7.
  rewrite F6 in F8. rewrite F7 in F9. specialize (J1 R1). specialize (J5 R2).
  pose proof (alfven_inside a ml (s - sl) Pm1 ltac:(lra) W1) as Q1.
  pose proof (alfven_inside a mr (sr - s) Pm2 ltac:(lra) W2) as Q2.
  unfold mhd_hlld. rewrite mean_mir.
  replace (nhalf * (ma ql + ma qr))%num with a by (unfold a; Rn; field).
  pose proof (hlld_mirrored ql qr) as M. fold a in M.
  set (f := hlld_fan S ql qr) in *. set (f' := hlld_fan S (mir qr) (mir ql)) in *. clearbody f f'.
  assert (G1 : sample_flux a (f_l f) = ideal_flux S l) by (rewrite F4; change a with (ma l); apply sample_flux_ok).
  assert (G6 : sample_flux a (f_r f) = ideal_flux S r) by (rewrite F5; change a with (ma r); apply sample_flux_ok).
  destruct (sample_mirrored a f f' (sample_flux a) M) as (o & Eo & Go).
  - rewrite F1, F8, F3. lra.
  - rewrite F2, F9, F3. lra.
  - intros Ha. rewrite F8, F9, F3, Ha, Rabs_R0. unfold Rdiv. rewrite !Rmult_0_l. lra.
  - intros Z. rewrite F1 in Z. rewrite Z in J1. rewrite G1, (state_flux a (f_ls f)) by auto. exact (mjump_zero _ _ _ _ J1).
  - intros Z. rewrite Z in J2. rewrite !state_flux by auto. exact (mjump_zero _ _ _ _ J2).
  - intros Z. rewrite F3 in Z. rewrite Z in J3. rewrite !state_flux by auto. exact (mjump_zero _ _ _ _ J3).
  - intros Z. rewrite Z in J4. rewrite !state_flux by auto. exact (mjump_zero _ _ _ _ J4).
  - intros Z. rewrite F2 in Z. rewrite Z in J5. rewrite G6, (state_flux a (f_rs f)) by auto. exact (mjump_zero _ _ _ _ J5).
  - rewrite Eo, sample_flux_mir, Go. reflexivity.
Qed.

(** *** Exchange of the transverse axes *)
Definition str (o : sample R) : sample R :=
  mksample (o_r o) (o_u o) (o_w o) (o_v o) (o_c o) (o_b o) (o_ptot o) (o_etot o) (o_vdotb o).
Definition ftr (f : fan R) : fan R :=
  mkfan (f_sl f) (f_sal f) (f_ustar f) (f_sar f) (f_sr f)
    (str (f_l f)) (str (f_ls f)) (str (f_lss f)) (str (f_rss f)) (str (f_rs f)) (str (f_r f)).

Lemma given_tr a q : given a (tr q) = str (given a q).
Proof. unfold given, str, tr. cbn [md mp mu mv mw ma mb mc]. cbv zeta. samples; unfold Rdiv; ring. Qed.

Lemma star_tr a ps us s o : star a ps us s (str o) = str (star a ps us s o).
Proof.
  unfold star, str, star_side. cbn [o_r o_u o_v o_w o_b o_c o_ptot o_etot o_vdotb].
  destruct (_ && _)%bool; cbn [fst snd]; cbv zeta; samples; unfold Rdiv; ring.
Qed.

Lemma inner_tr a sg kl kr x y o e : inner a sg kl kr (str x) (str y) (str o) e = str (inner a sg kl kr x y o e).
Proof.
  unfold inner, str. cbn [o_r o_u o_v o_w o_b o_c o_ptot o_etot o_vdotb]. cbv zeta. samples.
  - f_equal. ring.
  - ring.
Qed.

Lemma parts_tr a sl sr l r : parts a sl sr (str l) (str r) = ftr (parts a sl sr l r).
Proof.
  unfold parts. change (middle (str l) (str r) sl sr) with (middle l r sl sr).
  rewrite !star_tr. cbv zeta. unfold ftr. cbn [f_sl f_sal f_ustar f_sar f_sr f_l f_ls f_lss f_rss f_rs f_r].
  rewrite !inner_tr. reflexivity.
Qed.

Lemma ma_tr q : ma (tr q) = ma q. Proof. reflexivity. Qed.
Lemma mu_tr q : mu (tr q) = mu q. Proof. reflexivity. Qed.

Lemma hlld_fan_tr ql qr : hlld_fan S (tr ql) (tr qr) = ftr (hlld_fan S ql qr).
Proof.
  rewrite (hlld_parts ql qr), (hlld_parts (tr ql) (tr qr)). rewrite !ma_tr, !mu_tr, !set_a_tr, !fast_tr, !given_tr.
  apply parts_tr.
Qed.

Lemma sample_tr f : fan_sample (ftr f) = str (fan_sample f).
Proof.
  unfold fan_sample, ftr. cbn [f_sl f_sal f_ustar f_sar f_sr f_l f_ls f_lss f_rss f_rs f_r].
  repeat match goal with |- context [if ?b then _ else _] => destruct b end; reflexivity.
Qed.

Lemma hlld_tr ql qr : mhd_hlld S (tr ql) (tr qr) = tr (mhd_hlld S ql qr).
Proof. unfold mhd_hlld. rewrite hlld_fan_tr, sample_tr, !ma_tr. reflexivity. Qed.

(** *** Reversal of the field *)
Definition srev (o : sample R) : sample R :=
  mksample (o_r o) (o_u o) (o_v o) (o_w o) (- o_b o) (- o_c o) (o_ptot o) (o_etot o) (- o_vdotb o).

Lemma sample_flux_rev a o : sample_flux (- a) (srev o) = rev (sample_flux a o).
Proof.
  unfold sample_flux, srev, rev. cbn [o_r o_u o_v o_w o_b o_c o_ptot o_etot o_vdotb md mp mu mv mw ma mb mc]. Rn.
  apply ms_eq; cbn [md mp mu mv mw ma mb mc]; ring.
Qed.

Lemma given_rev a q : given (- a) (rev q) = srev (given a q).
Proof. unfold given, srev, rev. cbn [md mp mu mv mw ma mb mc]. cbv zeta. samples; unfold Rdiv; ring. Qed.

Lemma star_rev a ps us s o : star (- a) ps us s (srev o) = srev (star a ps us s o).
Proof.
  unfold star, srev, star_side. cbn [o_r o_u o_v o_w o_b o_c o_ptot o_etot o_vdotb]. Rn.
  replace (- a * - a) with (a * a) by ring.
  destruct (_ && _)%bool; cbn [fst snd]; cbv zeta; samples; unfold Rdiv; ring.
Qed.

Lemma inner_rev a sg kl kr x y o e e' : (forall z, e (- z) = e' z) ->
  inner (- a) (- sg) kl kr (srev x) (srev y) (srev o) e = srev (inner a sg kl kr x y o e').
Proof.
  intros He. unfold inner, srev. cbn [o_r o_u o_v o_w o_b o_c o_ptot o_etot o_vdotb]. cbv zeta.
  samples; try (unfold Rdiv; ring). rewrite <- He. f_equal. unfold Rdiv. ring.
Qed.

Lemma hlld_rev ql qr : mhd_hlld S (rev ql) (rev qr) = rev (mhd_hlld S ql qr).
Proof.
  unfold mhd_hlld. rewrite mean_rev, !hlld_parts, mean_rev.
  change (mu (rev ql)) with (mu ql). change (mu (rev qr)) with (mu qr).
  rewrite !set_a_rev, !fast_rev, !given_rev.
  set (a := (nhalf * (ma ql + ma qr))%num). set (c := Rmax _ _). set (sl := Rmin _ _ - c). set (sr := Rmax _ _ + c).
  set (l := given a ql). set (r := given a qr). clearbody a sl sr l r.
  assert (E : fan_sample (parts (- a) sl sr (srev l) (srev r)) = srev (fan_sample (parts a sl sr l r)));
    [|rewrite E; apply sample_flux_rev].
  unfold parts. change (middle (srev l) (srev r) sl sr) with (middle l r sl sr).
  rewrite !star_rev. set (us := fst _). set (ps := snd _). set (x := star a ps us sl l). set (y := star a ps us sr r). cbv zeta.
  change (o_r (srev x)) with (o_r x). change (o_r (srev y)) with (o_r y). rewrite Rabs_Ropp.
  unfold fan_sample. cbn [f_sl f_sal f_ustar f_sar f_sr f_l f_ls f_lss f_rss f_rs f_r]. Rn.
  destruct (Req_EM_T a 0) as [Ha|Ha].
  - rewrite Ha, Rabs_R0. unfold Rdiv. rewrite !Rmult_0_l.
    destruct (Rlt_dec 0 sl); [reflexivity|].
    destruct (Rlt_dec 0 (us - 0)), (Rlt_dec 0 us), (Rlt_dec 0 (us + 0)); try (exfalso; lra); try reflexivity.
    destruct (Rlt_dec 0 sr); reflexivity.
  - rewrite sgn_opp by auto.
    rewrite (inner_rev a _ _ _ x y x _ (fun vb => o_etot x - sgn_of a * sqrt (o_r x) * (o_vdotb x - vb)))
      by (intros z; cbn [srev o_etot o_vdotb]; ring).
    rewrite (inner_rev a _ _ _ x y y _ (fun vb => o_etot y + sgn_of a * sqrt (o_r y) * (o_vdotb y - vb)))
      by (intros z; cbn [srev o_etot o_vdotb]; ring).
    repeat match goal with |- context [Rlt_dec ?p ?q] => destruct (Rlt_dec p q) end; reflexivity.
Qed.

(** ** The edge solver: exchange of the two axes across the edge *)
Lemma gt_max (x r : R) : (if (x >? r)%num then x else r) = Rmax r x.
Proof. Rn. unfold Rmax. destruct (Rlt_dec r x), (Rle_dec r x); try reflexivity; lra. Qed.
Lemma lt_min (x r : R) : (if (x <? r)%num then x else r) = Rmin r x.
Proof. Rn. unfold Rmin. destruct (Rlt_dec x r), (Rle_dec r x); try reflexivity; lra. Qed.
Lemma fmax4_swap (w x y z : R) : fmax4 w y x z = fmax4 w x y z.
Proof. unfold fmax4. rewrite !gt_max. rewrite <- (Rmax_assoc w y x), (Rmax_comm y x), (Rmax_assoc w x y). reflexivity. Qed.
Lemma fmin4_swap (w x y z : R) : fmin4 w y x z = fmin4 w x y z.
Proof. unfold fmin4. rewrite !lt_min. rewrite <- (Rmin_assoc w y x), (Rmin_comm y x), (Rmin_assoc w x y). reflexivity. Qed.
Lemma fmax5_perm (v w x y z : R) : fmax5 x y v w z = fmax5 v w x y z.
Proof.
  unfold fmax5. rewrite !gt_max. f_equal.
  rewrite <- (Rmax_assoc (Rmax x y) v w), <- (Rmax_assoc (Rmax v w) x y). apply Rmax_comm.
Qed.
Lemma fast_y_sw q : fast_y S (sw q) = fast_x S q.
Proof. rewrite <- (fast_sw (sw q)). destruct q. reflexivity. Qed.

Lemma speeds_sw qLL qRL qLR qRR :
  let '(SL, SR, SB, ST) := emf_speeds S qLL qRL qLR qRR in
  emf_speeds S (sw qLL) (sw qLR) (sw qRL) (sw qRR) = (SB, ST, SL, SR).
Proof.
  unfold emf_speeds. rewrite !fast_sw, !fast_y_sw.
  change (mu (sw qLL)) with (mv qLL). change (mu (sw qLR)) with (mv qLR). change (mu (sw qRL)) with (mv qRL). change (mu (sw qRR)) with (mv qRR).
  change (mv (sw qLL)) with (mu qLL). change (mv (sw qLR)) with (mu qLR). change (mv (sw qRL)) with (mu qRL). change (mv (sw qRR)) with (mu qRR).
  rewrite (fmax4_swap (fast_y S qLL)), (fmax4_swap (fast_x S qLL)), (fmax4_swap (mu qLL)), (fmax4_swap (mv qLL)),
    (fmin4_swap (mu qLL)), (fmin4_swap (mv qLL)). reflexivity.
Qed.

(** The regions of the exchanged problem. *)
Definition rsw (e : regions R) : regions R :=
  mkregions (- e_LL e) (- e_LR e) (- e_RL e) (- e_RR e) (- e_L e) (- e_R e) (- e_B e) (- e_T e) (- e_C e).

Lemma select_sw SL SR SB ST e : select_emf SB ST SL SR (rsw e) = - select_emf SL SR SB ST e.
Proof.
  rewrite !select_spec. unfold rsw. cbn [e_LL e_RL e_LR e_RR e_B e_T e_L e_R e_C].
  destruct (Rlt_dec SB 0), (Rlt_dec ST 0), (Rlt_dec SL 0), (Rlt_dec SR 0); reflexivity.
Qed.

(** The edge solver in parts: the star states of a corner. *)
Record corner := mkcorner { c_rx : R; c_ry : R; c_r : R; c_A : R; c_B : R; c_Ex : R; c_Ey : R; c_E : R }.
Definition corner_of (q : ms R) (Sx Sy us vs : R) : corner :=
  let A := ma q * (Sy - mv q) / (Sy - vs) in
  let B := mb q * (Sx - mu q) / (Sx - us) in
  mkcorner (md q * (Sx - mu q) / (Sx - us)) (md q * (Sy - mv q) / (Sy - vs))
    (md q * (Sx - mu q) / (Sx - us) * (Sy - mv q) / (Sy - vs)) A B
    (us * B - mv q * ma q) (mu q * mb q - vs * A) (us * B - vs * A).

Definition mean_speed (mLL mLR mRL mRR uLL uLR uRL uRR d : R) : R :=
  (mLL * uLL + mLR * uLR + mRL * uRL + mRR * uRR + d) / (mLL + mLR + mRL + mRR).

Definition edge_parts (SL SR SB ST : R) (qLL qRL qLR qRR : ms R) (ELL ERL ELR ERR : R) : regions R :=
  let us := mean_speed (md qLL * (mu qLL - SL)) (md qLR * (mu qLR - SL)) (md qRL * (SR - mu qRL)) (md qRR * (SR - mu qRR))
    (mu qLL) (mu qLR) (mu qRL) (mu qRR) (mptot qLL - mptot qRL + mptot qLR - mptot qRR) in
  let vs := mean_speed (md qLL * (mv qLL - SB)) (md qLR * (ST - mv qLR)) (md qRL * (mv qRL - SB)) (md qRR * (ST - mv qRR))
    (mv qLL) (mv qLR) (mv qRL) (mv qRR) (mptot qLL - mptot qLR + mptot qRL - mptot qRR) in
  let LL := corner_of qLL SL SB us vs in
  let LR := corner_of qLR SL ST us vs in
  let RL := corner_of qRL SR SB us vs in
  let RR := corner_of qRR SR ST us vs in
  let cL := fmax5 (Rabs (ma qLR) / sqrt (c_rx LR)) (Rabs (c_A LR) / sqrt (c_r LR))
                  (Rabs (ma qLL) / sqrt (c_rx LL)) (Rabs (c_A LL) / sqrt (c_r LL)) (smallc S) in
  let cR := fmax5 (Rabs (ma qRR) / sqrt (c_rx RR)) (Rabs (c_A RR) / sqrt (c_r RR))
                  (Rabs (ma qRL) / sqrt (c_rx RL)) (Rabs (c_A RL) / sqrt (c_r RL)) (smallc S) in
  let cB := fmax5 (Rabs (mb qLL) / sqrt (c_ry LL)) (Rabs (c_B LL) / sqrt (c_r LL))
                  (Rabs (mb qRL) / sqrt (c_ry RL)) (Rabs (c_B RL) / sqrt (c_r RL)) (smallc S) in
  let cT := fmax5 (Rabs (mb qLR) / sqrt (c_ry LR)) (Rabs (c_B LR) / sqrt (c_r LR))
                  (Rabs (mb qRR) / sqrt (c_ry RR)) (Rabs (c_B RR) / sqrt (c_r RR)) (smallc S) in
  let L := Rmin (us - cL) 0 in let R := Rmax (us + cR) 0 in
  let B := Rmin (vs - cB) 0 in let T := Rmax (vs + cT) 0 in
  mkregions ELL ERL ELR ERR
    ((R * c_Ex LL - L * c_Ex RL + R * L * (mb qRL - mb qLL)) / (R - L))
    ((R * c_Ex LR - L * c_Ex RR + R * L * (mb qRR - mb qLR)) / (R - L))
    ((T * c_Ey LL - B * c_Ey LR - T * B * (ma qLR - ma qLL)) / (T - B))
    ((T * c_Ey RL - B * c_Ey RR - T * B * (ma qRR - ma qRL)) / (T - B))
    ((L * B * c_E RR - L * T * c_E RL - R * B * c_E LR + R * T * c_E LL) / (R - L) / (T - B) -
     T * B / (T - B) * ((R * c_A RR - L * c_A LR) / (R - L) - (R * c_A RL - L * c_A LL) / (R - L)) +
     R * L / (R - L) * ((T * c_B RR - B * c_B RL) / (T - B) - (T * c_B LR - B * c_B LL) / (T - B))).

Lemma regions_parts qLL qRL qLR qRR ELL ERL ELR ERR :
  emf_regions S qLL qRL qLR qRR ELL ERL ELR ERR =
  let '(SL, SR, SB, ST) := emf_speeds S qLL qRL qLR qRR in edge_parts SL SR SB ST qLL qRL qLR qRR ELL ERL ELR ERR.
Proof.
  cbv delta [emf_regions]. cbv beta. destruct (emf_speeds S qLL qRL qLR qRR) as [[[SL SR] SB] ST].
  cbv beta iota. open_let_eq. reflexivity.
Qed.

Definition csw (c : corner) : corner :=
  mkcorner (c_ry c) (c_rx c) (c_r c) (c_B c) (c_A c) (- c_Ey c) (- c_Ex c) (- c_E c).

Lemma corner_sw q Sx Sy us vs : corner_of (sw q) Sy Sx vs us = csw (corner_of q Sx Sy us vs).
Proof.
  unfold corner_of, csw, sw. cbn [md mp mu mv mw ma mb mc c_rx c_ry c_r c_A c_B c_Ex c_Ey c_E].
  f_equal; unfold Rdiv; ring.
Qed.

Lemma mptot_sw q : mptot (sw q) = mptot q.
Proof. unfold mptot, sw. cbn [mp ma mb mc]. Rn. ring. Qed.

Lemma mean_speed_sw a b c d u v w x e : mean_speed a c b d u w v x e = mean_speed a b c d u v w x e.
Proof. unfold mean_speed. f_equal; ring. Qed.

Lemma edge_sw SL SR SB ST qLL qRL qLR qRR ELL ERL ELR ERR :
  edge_parts SB ST SL SR (sw qLL) (sw qLR) (sw qRL) (sw qRR) (- ELL) (- ELR) (- ERL) (- ERR) =
  rsw (edge_parts SL SR SB ST qLL qRL qLR qRR ELL ERL ELR ERR).
Proof.
  unfold edge_parts. rewrite !mptot_sw.
  set (us := mean_speed (md qLL * (mu qLL - SL)) _ _ _ _ _ _ _ _).
  set (vs := mean_speed (md qLL * (mv qLL - SB)) _ _ _ _ _ _ _ _).
  cbn [sw md mu mv ma mb].
  rewrite (mean_speed_sw (md qLL * (mv qLL - SB))), (mean_speed_sw (md qLL * (mu qLL - SL))). fold us vs.
  cbv zeta. rewrite !corner_sw.
  set (LL := corner_of qLL SL SB us vs). set (LR := corner_of qLR SL ST us vs).
  set (RL := corner_of qRL SR SB us vs). set (RR := corner_of qRR SR ST us vs).
  unfold csw. cbn [c_rx c_ry c_r c_A c_B c_Ex c_Ey c_E].
  rewrite (fmax5_perm (Rabs (mb qLL) / _)), (fmax5_perm (Rabs (mb qLR) / _)).
  rewrite (fmax5_perm (Rabs (ma qLR) / _)), (fmax5_perm (Rabs (ma qRR) / _)).
  match goal with |- context [Rmin (us - ?x) 0] => set (L := Rmin (us - x) 0) end.
  match goal with |- context [Rmin (vs - ?x) 0] => set (B := Rmin (vs - x) 0) end.
  match goal with |- context [Rmax (us + ?x) 0] => set (R := Rmax (us + x) 0) end.
  match goal with |- context [Rmax (vs + ?x) 0] => set (T := Rmax (vs + x) 0) end.
  unfold rsw. cbn [e_LL e_RL e_LR e_RR e_B e_T e_L e_R e_C].
  f_equal; unfold Rdiv; ring.
Qed.

Lemma mag_sw qLL qRL qLR qRR ELL ERL ELR ERR :
  mag_riemann2d S (sw qLL) (sw qLR) (sw qRL) (sw qRR) (- ELL) (- ELR) (- ERL) (- ERR) =
  - mag_riemann2d S qLL qRL qLR qRR ELL ERL ELR ERR.
Proof.
  unfold mag_riemann2d. rewrite !regions_parts. pose proof (speeds_sw qLL qRL qLR qRR) as E.
  destruct (emf_speeds S qLL qRL qLR qRR) as [[[SL SR] SB] ST]. rewrite E, edge_sw. apply select_sw.
Qed.

Lemma set_ab_sw q a b : set_ab (sw q) b a = sw (set_ab q a b).
Proof. reflexivity. Qed.

(** The edge of the exchanged cells: right-bottom and left-top change places. *)
Lemma emf_sw qRT qRB qLT qLB :
  compute_emf S EMFZ (sw qRT) (sw qLT) (sw qRB) (sw qLB) = - compute_emf S EMFZ qRT qRB qLT qLB.
Proof.
  unfold compute_emf. cbn [emf_rot]. cbv zeta.
  change (ma (sw qRT)) with (mb qRT). change (ma (sw qRB)) with (mb qRB). change (ma (sw qLT)) with (mb qLT). change (ma (sw qLB)) with (mb qLB).
  change (mb (sw qRT)) with (ma qRT). change (mb (sw qRB)) with (ma qRB). change (mb (sw qLT)) with (ma qLT). change (mb (sw qLB)) with (ma qLB).
  rewrite !set_ab_sw. rewrite <- mag_sw. f_equal; cbn [sw set_ab mu mv ma mb]; Rn; ring.
Qed.
(** ** The edge solver: reversal of an axis and of the field *)
Lemma fmax4_mir (w x y z : R) : fmax4 (- w) (- x) (- y) (- z) = - fmin4 w x y z.
Proof. unfold fmax4, fmin4. rewrite !gt_max, !lt_min, !Rmax_mir. reflexivity. Qed.
Lemma fmin4_mir (w x y z : R) : fmin4 (- w) (- x) (- y) (- z) = - fmax4 w x y z.
Proof. unfold fmax4, fmin4. rewrite !gt_max, !lt_min, !Rmin_mir. reflexivity. Qed.
Lemma fmax4_cross (w x y z : R) : fmax4 y z w x = fmax4 w x y z.
Proof.
  unfold fmax4. rewrite !gt_max.
  rewrite <- (Rmax_assoc (Rmax y z) w x), <- (Rmax_assoc (Rmax w x) y z). apply Rmax_comm.
Qed.
Lemma fmin4_cross (w x y z : R) : fmin4 y z w x = fmin4 w x y z.
Proof.
  unfold fmin4. rewrite !lt_min.
  rewrite <- (Rmin_assoc (Rmin y z) w x), <- (Rmin_assoc (Rmin w x) y z). apply Rmin_comm.
Qed.
Lemma fast_y_mir q : fast_y S (mir q) = fast_y S q.
Proof.
  unfold fast_y, fast, mir. cbn [md mp mu mv mw ma mb mc]. Rn.
  replace (- ma q * - ma q) with (ma q * ma q) by ring. reflexivity.
Qed.
Lemma fast_y_rev q : fast_y S (rev q) = fast_y S q.
Proof.
  unfold fast_y, fast, rev. cbn [md mp mu mv mw ma mb mc]. Rn.
  replace (- ma q * - ma q + - mb q * - mb q + - mc q * - mc q) with (ma q * ma q + mb q * mb q + mc q * mc q) by ring.
  replace (gamma0 S * mp q / md q * - mb q * - mb q) with (gamma0 S * mp q / md q * mb q * mb q) by ring. reflexivity.
Qed.
Lemma mptot_mir q : mptot (mir q) = mptot q.
Proof. unfold mptot, mir. cbn [mp ma mb mc]. Rn. ring. Qed.
Lemma mptot_rev q : mptot (rev q) = mptot q.
Proof. unfold mptot, rev. cbn [mp ma mb mc]. Rn. ring. Qed.

Lemma speeds_mir qLL qRL qLR qRR :
  let '(SL, SR, SB, ST) := emf_speeds S qLL qRL qLR qRR in
  emf_speeds S (mir qRL) (mir qLL) (mir qRR) (mir qLR) = (- SR, - SL, SB, ST).
Proof.
  unfold emf_speeds. rewrite !fast_mir, !fast_y_mir, !mu_mir.
  change (mv (mir qLL)) with (mv qLL). change (mv (mir qLR)) with (mv qLR).
  change (mv (mir qRL)) with (mv qRL). change (mv (mir qRR)) with (mv qRR).
  rewrite !fmax4_mir, !fmin4_mir.
  rewrite (fmax4_cross (fast_y S qLL)), (fmax4_cross (fast_x S qLL)), (fmax4_cross (mu qLL)), (fmax4_cross (mv qLL)),
    (fmin4_cross (mu qLL)), (fmin4_cross (mv qLL)). Rn.
  f_equal. f_equal. f_equal; lra.
Qed.
Lemma speeds_rev qLL qRL qLR qRR :
  emf_speeds S (rev qLL) (rev qRL) (rev qLR) (rev qRR) = emf_speeds S qLL qRL qLR qRR.
Proof. unfold emf_speeds. rewrite !fast_rev, !fast_y_rev. reflexivity. Qed.

Definition rmir (e : regions R) : regions R :=
  mkregions (- e_RL e) (- e_LL e) (- e_RR e) (- e_LR e) (- e_B e) (- e_T e) (- e_R e) (- e_L e) (- e_C e).
Definition rrev (e : regions R) : regions R :=
  mkregions (- e_LL e) (- e_RL e) (- e_LR e) (- e_RR e) (- e_B e) (- e_T e) (- e_L e) (- e_R e) (- e_C e).

Lemma select_mir SL SR SB ST e : SL <> 0 -> SR <> 0 -> SL <= SR ->
  select_emf (- SR) (- SL) SB ST (rmir e) = - select_emf SL SR SB ST e.
Proof.
  intros H1 H2 H. rewrite !select_spec. unfold rmir. cbn [e_LL e_RL e_LR e_RR e_B e_T e_L e_R e_C].
  destruct (Rlt_dec SB 0), (Rlt_dec ST 0), (Rlt_dec SL 0), (Rlt_dec SR 0), (Rlt_dec (- SL) 0), (Rlt_dec (- SR) 0);
  try reflexivity; exfalso; lra.
Qed.
Lemma select_rev SL SR SB ST e : select_emf SL SR SB ST (rrev e) = - select_emf SL SR SB ST e.
Proof.
  rewrite !select_spec. unfold rrev. cbn [e_LL e_RL e_LR e_RR e_B e_T e_L e_R e_C].
  destruct (Rlt_dec SB 0), (Rlt_dec ST 0), (Rlt_dec SL 0), (Rlt_dec SR 0); reflexivity.
Qed.

Definition cmir (c : corner) : corner :=
  mkcorner (c_rx c) (c_ry c) (c_r c) (- c_A c) (c_B c) (- c_Ex c) (- c_Ey c) (- c_E c).
Definition crev (c : corner) : corner :=
  mkcorner (c_rx c) (c_ry c) (c_r c) (- c_A c) (- c_B c) (- c_Ex c) (- c_Ey c) (- c_E c).
Lemma corner_mir q Sx Sy us vs : corner_of (mir q) (- Sx) Sy (- us) vs = cmir (corner_of q Sx Sy us vs).
Proof.
  unfold corner_of, cmir, mir. cbn [md mp mu mv mw ma mb mc c_rx c_ry c_r c_A c_B c_Ex c_Ey c_E].
  replace (- Sx - - us) with (- (Sx - us)) by ring. unfold Rdiv. rewrite Rinv_opp. f_equal; ring.
Qed.
Lemma corner_rev q Sx Sy us vs : corner_of (rev q) Sx Sy us vs = crev (corner_of q Sx Sy us vs).
Proof.
  unfold corner_of, crev, rev. cbn [md mp mu mv mw ma mb mc c_rx c_ry c_r c_A c_B c_Ex c_Ey c_E].
  f_equal; unfold Rdiv; ring.
Qed.

Lemma mean_speed_mir mLL mLR mRL mRR uLL uLR uRL uRR d :
  mean_speed mRL mRR mLL mLR (- uRL) (- uRR) (- uLL) (- uLR) (- d) = - mean_speed mLL mLR mRL mRR uLL uLR uRL uRR d.
Proof. unfold mean_speed. replace (mRL + mRR + mLL + mLR) with (mLL + mLR + mRL + mRR) by ring. unfold Rdiv. ring. Qed.
Lemma mean_speed_cross mLL mLR mRL mRR uLL uLR uRL uRR d :
  mean_speed mRL mRR mLL mLR uRL uRR uLL uLR d = mean_speed mLL mLR mRL mRR uLL uLR uRL uRR d.
Proof. unfold mean_speed. replace (mRL + mRR + mLL + mLR) with (mLL + mLR + mRL + mRR) by ring. unfold Rdiv. ring. Qed.

Lemma edge_mir SL SR SB ST qLL qRL qLR qRR ELL ERL ELR ERR :
  edge_parts (- SR) (- SL) SB ST (mir qRL) (mir qLL) (mir qRR) (mir qLR) (- ERL) (- ELL) (- ERR) (- ELR) =
  rmir (edge_parts SL SR SB ST qLL qRL qLR qRR ELL ERL ELR ERR).
Proof.
  unfold edge_parts. rewrite !mptot_mir.
  set (us := mean_speed (md qLL * (mu qLL - SL)) _ _ _ _ _ _ _ _).
  set (vs := mean_speed (md qLL * (mv qLL - SB)) _ _ _ _ _ _ _ _).
  cbn [mir md mu mv ma mb].
  replace (mean_speed (md qRL * (- mu qRL - - SR)) _ _ _ _ _ _ _ _) with (- us).
  2:{ unfold us. rewrite <- mean_speed_mir. f_equal; ring. }
  replace (mean_speed (md qRL * (mv qRL - SB)) _ _ _ _ _ _ _ _) with vs.
  2:{ unfold vs. rewrite <- mean_speed_cross. f_equal; ring. }
  cbv zeta. rewrite !corner_mir.
  set (LL := corner_of qLL SL SB us vs). set (LR := corner_of qLR SL ST us vs).
  set (RL := corner_of qRL SR SB us vs). set (RR := corner_of qRR SR ST us vs).
  unfold cmir. cbn [c_rx c_ry c_r c_A c_B c_Ex c_Ey c_E]. rewrite !Rabs_Ropp.
  rewrite (fmax5_perm (Rabs (mb qLL) / _)), (fmax5_perm (Rabs (mb qLR) / _)).
  clearbody us vs LL LR RL RR.
  set (cR := fmax5 (Rabs (ma qRR) / _) _ _ _ _). set (cL := fmax5 (Rabs (ma qLR) / _) _ _ _ _).
  set (cB := fmax5 (Rabs (mb qLL) / _) _ _ _ _). set (cT := fmax5 (Rabs (mb qLR) / _) _ _ _ _).
  replace (Rmin (- us - cR) 0) with (- Rmax (us + cR) 0)
    by (rewrite <- Rmin_mir; f_equal; ring).
  replace (Rmax (- us + cL) 0) with (- Rmin (us - cL) 0)
    by (rewrite <- Rmax_mir; f_equal; ring).
  set (L := Rmin (us - cL) 0). set (R := Rmax (us + cR) 0). set (B := Rmin (vs - _) 0). set (T := Rmax (vs + _) 0).
  unfold rmir. cbn [e_LL e_RL e_LR e_RR e_B e_T e_L e_R e_C].
  replace (- L - - R) with (R - L) by ring.
  f_equal; unfold Rdiv; ring.
Qed.

Lemma edge_rev SL SR SB ST qLL qRL qLR qRR ELL ERL ELR ERR :
  edge_parts SL SR SB ST (rev qLL) (rev qRL) (rev qLR) (rev qRR) (- ELL) (- ERL) (- ELR) (- ERR) =
  rrev (edge_parts SL SR SB ST qLL qRL qLR qRR ELL ERL ELR ERR).
Proof.
  unfold edge_parts. rewrite !mptot_rev.
  set (us := mean_speed (md qLL * (mu qLL - SL)) _ _ _ _ _ _ _ _).
  set (vs := mean_speed (md qLL * (mv qLL - SB)) _ _ _ _ _ _ _ _).
  cbn [rev md mu mv ma mb]. fold us vs. cbv zeta. rewrite !corner_rev.
  set (LL := corner_of qLL SL SB us vs). set (LR := corner_of qLR SL ST us vs).
  set (RL := corner_of qRL SR SB us vs). set (RR := corner_of qRR SR ST us vs).
  unfold crev. cbn [c_rx c_ry c_r c_A c_B c_Ex c_Ey c_E]. rewrite !Rabs_Ropp.
  set (L := Rmin (us - _) 0). set (R := Rmax (us + _) 0). set (B := Rmin (vs - _) 0). set (T := Rmax (vs + _) 0).
  unfold rrev. cbn [e_LL e_RL e_LR e_RR e_B e_T e_L e_R e_C].
  f_equal; unfold Rdiv; ring.
Qed.

Lemma speeds_order qLL qRL qLR qRR :
  let '(SL, SR, SB, ST) := emf_speeds S qLL qRL qLR qRR in SL <= SR.
Proof.
  unfold emf_speeds.
  assert (0 <= fmax4 (fast_x S qLL) (fast_x S qLR) (fast_x S qRL) (fast_x S qRR)).
  { unfold fmax4. rewrite !gt_max. unfold fast_x, fast. Rn.
    eapply Rle_trans; [|eapply Rle_trans; [|eapply Rle_trans; [|apply Rmax_l]; apply Rmax_l]; apply Rmax_l]. apply sqrt_pos. }
  assert (fmin4 (mu qLL) (mu qLR) (mu qRL) (mu qRR) <= mu qLL).
  { unfold fmin4. rewrite !lt_min. 
    eapply Rle_trans; [apply Rmin_l|]. eapply Rle_trans; [apply Rmin_l|]. apply Rmin_l. }
  assert (mu qLL <= fmax4 (mu qLL) (mu qLR) (mu qRL) (mu qRR)).
  { unfold fmax4. rewrite !gt_max. 
    eapply Rle_trans; [|eapply Rle_trans; [|eapply Rle_trans; [|apply Rmax_l]; apply Rmax_l]; apply Rmax_l]. lra. }
  Rn. lra.
Qed.

Lemma mag_mir qLL qRL qLR qRR ELL ERL ELR ERR :
  (let '(SL, SR, _, _) := emf_speeds S qLL qRL qLR qRR in SL <> 0 /\ SR <> 0) ->
  mag_riemann2d S (mir qRL) (mir qLL) (mir qRR) (mir qLR) (- ERL) (- ELL) (- ERR) (- ELR) =
  - mag_riemann2d S qLL qRL qLR qRR ELL ERL ELR ERR.
Proof.
  unfold mag_riemann2d. rewrite !regions_parts. pose proof (speeds_mir qLL qRL qLR qRR) as E.
  pose proof (speeds_order qLL qRL qLR qRR) as O.
  destruct (emf_speeds S qLL qRL qLR qRR) as [[[SL SR] SB] ST]. intros [H1 H2]. rewrite E, edge_mir.
  apply select_mir; auto.
Qed.
Lemma mag_rev qLL qRL qLR qRR ELL ERL ELR ERR :
  mag_riemann2d S (rev qLL) (rev qRL) (rev qLR) (rev qRR) (- ELL) (- ERL) (- ELR) (- ERR) =
  - mag_riemann2d S qLL qRL qLR qRR ELL ERL ELR ERR.
Proof.
  unfold mag_riemann2d. rewrite !regions_parts, speeds_rev.
  destruct (emf_speeds S qLL qRL qLR qRR) as [[[SL SR] SB] ST]. rewrite edge_rev. apply select_rev.
Qed.

Definition E_of (q : ms R) : R := mu q * mb q - mv q * ma q.
Lemma emf_states qRT qRB qLT qLB :
  compute_emf S EMFZ qRT qRB qLT qLB =
  let '(LL, RL, LR, RR) := edge_states qRT qRB qLT qLB in
  mag_riemann2d S LL RL LR RR (E_of LL) (E_of RL) (E_of LR) (E_of RR).
Proof.
  unfold compute_emf, edge_states, put_ab, E_of. cbn [emf_rot]. cbv zeta. Rn.
  replace (1 / 2 * (ma qRT + ma qLT)) with ((ma qRT + ma qLT) / 2) by lra.
  replace (1 / 2 * (ma qRB + ma qLB)) with ((ma qRB + ma qLB) / 2) by lra.
  replace (1 / 2 * (mb qRT + mb qRB)) with ((mb qRT + mb qRB) / 2) by lra.
  replace (1 / 2 * (mb qLT + mb qLB)) with ((mb qLT + mb qLB) / 2) by lra.
  reflexivity.
Qed.

Lemma emf_mir qRT qRB qLT qLB :
  (let '(LL, RL, LR, RR) := edge_states qRT qRB qLT qLB in
   let '(SL, SR, _, _) := emf_speeds S LL RL LR RR in SL <> 0 /\ SR <> 0) ->
  compute_emf S EMFZ (mir qLT) (mir qLB) (mir qRT) (mir qRB) = - compute_emf S EMFZ qRT qRB qLT qLB.
Proof.
  rewrite !emf_states. unfold edge_states.
  replace (ma (mir qLT) + ma (mir qRT)) with (- (ma qRT + ma qLT)) by (cbn [mir ma]; ring).
  replace (ma (mir qLB) + ma (mir qRB)) with (- (ma qRB + ma qLB)) by (cbn [mir ma]; ring).
  change (mb (mir qLT)) with (mb qLT). change (mb (mir qLB)) with (mb qLB).
  change (mb (mir qRT)) with (mb qRT). change (mb (mir qRB)) with (mb qRB). cbv zeta.
  rewrite !Rdiv_on.
  set (aT := (ma qRT + ma qLT) / 2). set (aB := (ma qRB + ma qLB) / 2). set (bR := (mb qRT + mb qRB) / 2).
  set (bL := (mb qLT + mb qLB) / 2).
  assert (X : forall q a b, put_ab (mir q) (- a) b = mir (put_ab q a b)) by reflexivity.
  assert (Y : forall q, E_of (mir q) = - E_of q) by (intros q; unfold E_of, mir; cbn [mu mv ma mb]; ring).
  rewrite !X, !Y. intros H. apply mag_mir. exact H.
Qed.
Lemma emf_rev qRT qRB qLT qLB :
  compute_emf S EMFZ (rev qRT) (rev qRB) (rev qLT) (rev qLB) = - compute_emf S EMFZ qRT qRB qLT qLB.
Proof.
  rewrite !emf_states. unfold edge_states.
  replace (ma (rev qRT) + ma (rev qLT)) with (- (ma qRT + ma qLT)) by (cbn [rev ma]; ring).
  replace (ma (rev qRB) + ma (rev qLB)) with (- (ma qRB + ma qLB)) by (cbn [rev ma]; ring).
  replace (mb (rev qRT) + mb (rev qRB)) with (- (mb qRT + mb qRB)) by (cbn [rev mb]; ring).
  replace (mb (rev qLT) + mb (rev qLB)) with (- (mb qLT + mb qLB)) by (cbn [rev mb]; ring). cbv zeta.
  rewrite !Rdiv_on.
  assert (X : forall q a b, put_ab (rev q) (- a) (- b) = rev (put_ab q a b)) by reflexivity.
  assert (Y : forall q, E_of (rev q) = - E_of q) by (intros q; unfold E_of, rev; cbn [mu mv ma mb]; ring).
  rewrite !X, !Y. apply mag_rev.
Qed.

Lemma fmax4_pairs (w x y z : R) : fmax4 w x y z = Rmax (Rmax w y) (Rmax x z).
Proof. rewrite <- fmax4_swap. unfold fmax4. rewrite !gt_max. rewrite <- Rmax_assoc. reflexivity. Qed.
Lemma fmin4_pairs (w x y z : R) : fmin4 w x y z = Rmin (Rmin w y) (Rmin x z).
Proof. rewrite <- fmin4_swap. unfold fmin4. rewrite !lt_min. rewrite <- Rmin_assoc. reflexivity. Qed.
Lemma speeds_pairs LL RL LR RR : emf_speeds S LL RL LR RR =
  let m f := Rmin (Rmin (f LL) (f RL)) (Rmin (f LR) (f RR)) in
  let M f := Rmax (Rmax (f LL) (f RL)) (Rmax (f LR) (f RR)) in
  (m mu - M (fast_x S), M mu + M (fast_x S), m mv - M (fast_y S), M mv + M (fast_y S)).
Proof. unfold emf_speeds. rewrite !fmax4_pairs, !fmin4_pairs. reflexivity. Qed.
End Sym.
