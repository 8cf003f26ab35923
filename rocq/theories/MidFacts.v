(** * Half-way points of the domain in float and double arithmetic *)
From Coq Require Import ZArith List Bool Reals Lia Lra Floats.SpecFloat.
From Flocq Require Import Core.Core IEEE754.BinarySingleNaN.
From Verif Require Import DecimalSpec Config DecimalFacts Num Binary64 Binary64Valid ProblemParams.
Local Open Scope Z_scope.

Section Norm.
Context (prec emax : Z) (Hp : Prec_gt_0 prec) (He : Prec_lt_emax prec emax).

Lemma norm_aux sx mx ex lx :
  SpecFloat.binary_round_aux prec emax sx mx ex lx = binary_round_aux prec emax mode_NE sx mx ex lx.
Proof.
  unfold SpecFloat.binary_round_aux, binary_round_aux. destruct (shr_fexp _ _ _ _ _) as [mrs e].
  rewrite (nearest_even sx). reflexivity.
Qed.
Lemma norm_round s m e : SpecFloat.binary_round prec emax s m e = binary_round prec emax mode_NE s m e.
Proof.
  unfold SpecFloat.binary_round, binary_round, shl_align_fexp. destruct (shl_align _ _ _). apply norm_aux.
Qed.
Lemma norm_sf m e z : SpecFloat.binary_normalize prec emax m e z = B2SF (binary_normalize prec emax _ _ mode_NE m e z).
Proof. destruct m; simpl; [reflexivity| |]; rewrite B2SF_SF2B; apply norm_round. Qed.
Lemma add_sf (x y : binary_float prec emax) : SFadd prec emax (B2SF x) (B2SF y) = B2SF (Bplus mode_NE x y).
Proof. destruct x, y; try (reflexivity || (simpl; destruct (Bool.eqb _ _); reflexivity)). apply norm_sf. Qed.
End Norm.

#[local] Instance p24 : Prec_gt_0 24 := eq_refl.
#[local] Instance e24 : Prec_lt_emax 24 128 := eq_refl.
#[local] Instance p53 : Prec_gt_0 53 := eq_refl.
#[local] Instance e53 : Prec_lt_emax 53 1024 := eq_refl.

Definition valid32 (x : b32) : Prop := SpecFloat.valid_binary 24 128 x = true.
Definition real_of (x : spec_float) : R := SF2R radix2 x.
Definition format32 (y : R) : Prop := generic_format radix2 (FLT_exp (-149) 24) y.
Definition format64 (y : R) : Prop := generic_format radix2 (FLT_exp (-1074) 53) y.

Lemma ratio32_valid neg num den : valid32 (ratio32 neg num den).
Proof.
  unfold valid32, ratio32. destruct num as [|n|n]; try reflexivity. destruct den as [|d|d]; try reflexivity.
  unfold round32.
  assert (H := Bdiv_correct_aux 24 128 p24 e24 mode_NE neg n 0 false d 0); cbv zeta in H.
  destruct (SFdiv_core_binary 24 128 (Zpos n) 0 (Zpos d) 0) as [[q e] l].
  rewrite round_aux32. rewrite xorb_false_r in H. apply H.
Qed.

Lemma strtof_valid l x : strtof l = Some x -> valid32 x.
Proof.
  unfold strtof. destruct (sign (lskip l)) as [neg r].
  destruct (starts _ r); [ intros H; injection H as <-; reflexivity |].
  destruct (starts _ r); [ intros H; injection H as <-; reflexivity |].
  destruct (hex_prefix r) as [t|].
  - destruct (mantissa 16 t) as [[[n v] nf] q]. destruct (scale _ _ _) as [num den].
    intros H; injection H as <-. apply ratio32_valid.
  - destruct (mantissa 10 r) as [[[n v] nf] q]. destruct (n =? 0); [ discriminate |].
    destruct (scale _ _ _) as [num den]. intros H; injection H as <-. apply ratio32_valid.
Qed.

(** A valid float as a number of Flocq. *)
Lemma valid32_b x : valid32 x -> exists b : binary_float 24 128, B2SF b = x.
Proof. intros V. exists (SF2B x V). apply B2SF_SF2B. Qed.

Lemma format32_64 y : format32 y -> format64 y.
Proof. apply generic_inclusion_mag. intros _. unfold FLT_exp. lia. Qed.

Lemma b32_format (b : binary_float 24 128) : format32 (B2R b).
Proof. apply (generic_format_B2R 24 128 b). Qed.

Lemma round53_id y : format64 y -> round radix2 (SpecFloat.fexp 53 1024) (round_mode mode_NE) y = y.
Proof. intros H. apply round_generic; [ auto with typeclass_instances | exact H ]. Qed.

Lemma abs32 (b : binary_float 24 128) : (Rabs (B2R b) < bpow radix2 128)%R.
Proof. apply abs_B2R_lt_emax. Qed.

Lemma widen_b x : valid32 x -> is_finite_SF x = true ->
  exists b : v64, widen x = B2SF b /\ is_finite b = true /\ B2R b = real_of x.
Proof.
  intros V F. destruct (valid32_b x V) as (b32 & E).
  assert (R32 : B2R b32 = real_of x) by (unfold real_of; rewrite <- E, <- SF2R_B2SF; reflexivity).
  destruct x as [s|s| |s m e]; try discriminate F.
  - exists (B754_zero s); repeat split.
  - exists (binary_normalize 53 1024 p53 e53 mode_NE (SpecFloat.cond_Zopp s (Zpos m)) e s).
    split; [ apply norm_sf |].
    assert (H := binary_normalize_correct 53 1024 p53 e53 mode_NE (SpecFloat.cond_Zopp s (Zpos m)) e s); cbv zeta in H.
    change (F2R (Float radix2 (SpecFloat.cond_Zopp s (Zpos m)) e)) with (real_of (S754_finite s m e)) in H.
    rewrite <- R32 in *. rewrite round53_id in H by (apply format32_64, b32_format).
    rewrite Rlt_bool_true in H.
    + destruct H as (H1 & H2 & _); auto.
    + eapply Rlt_trans; [ apply abs32 | apply bpow_lt; reflexivity ].
Qed.

Lemma multiple32 (b : binary_float 24 128) : exists k : Z, B2R b = (IZR k * bpow radix2 (-149))%R.
Proof.
  assert (H : generic_format radix2 (FIX_exp (-149)) (B2R b)).
  { apply generic_format_FIX_FLT with (prec := 24). apply b32_format. }
  apply FIX_format_generic in H. destruct H as [f H1 H2]. exists (Defs.Fnum f).
  rewrite H1. unfold F2R. rewrite H2. reflexivity.
Qed.

Lemma half_format y : format64 y -> (exists k : Z, y = (IZR k * bpow radix2 (-149))%R) -> format64 (y / 2).
Proof.
  intros F (k & Hk). apply FLT_format_generic in F; [| auto with typeclass_instances ]. destruct F as [f F1 F2 F3].
  destruct (Z_le_gt_dec (-1073) (Fexp f)) as [L | L].
  - apply generic_format_FLT. exists (Float radix2 (Defs.Fnum f) (Fexp f - 1)).
    + rewrite F1. unfold F2R; cbn [Defs.Fnum Fexp]. unfold Zminus. rewrite bpow_plus.
      change (bpow radix2 (-(1))) with (/ 2)%R. unfold Rdiv. ring.
    + exact F2.
    + cbn [Fexp]. lia.
  - assert (E : Fexp f = -1074) by lia.
    assert (K0 : k = 0).
    { destruct (Z.eq_dec k 0) as [|N]; [ assumption | exfalso ].
      assert (B : (Rabs y < bpow radix2 (-1021))%R).
      { rewrite F1. unfold F2R. rewrite E, Rabs_mult, (Rabs_pos_eq (bpow radix2 (-1074))) by apply bpow_ge_0.
        replace (bpow radix2 (-1021)) with (IZR (radix2 ^ 53) * bpow radix2 (-1074))%R.
        - apply Rmult_lt_compat_r; [ apply bpow_gt_0 |]. rewrite <- abs_IZR. apply IZR_lt. exact F2.
        - change (IZR (radix2 ^ 53)) with (bpow radix2 53). rewrite <- bpow_plus. reflexivity. }
      assert (C : (bpow radix2 (-149) <= Rabs y)%R).
      { rewrite Hk, Rabs_mult, (Rabs_pos_eq (bpow radix2 (-149))) by apply bpow_ge_0.
        rewrite <- (Rmult_1_l (bpow radix2 (-149))) at 1. apply Rmult_le_compat_r; [ apply bpow_ge_0 |].
        rewrite <- abs_IZR. apply IZR_le. lia. }
      assert (D : (bpow radix2 (-1021) < bpow radix2 (-149))%R) by (apply bpow_lt; reflexivity). lra. }
    rewrite Hk, K0, Rmult_0_l. unfold Rdiv; rewrite Rmult_0_l. apply generic_format_0.
Qed.

(** Converting a double to float gives the nearest float. *)
Lemma narrow_near (b : v64) : is_finite b = true -> is_float_of (B2R b) (narrow (B2SF b)).
Proof.
  destruct b as [s|s| |s m e H]; intros F; try discriminate F.
  - cbn. unfold is_float_of. replace (near32 0) with 0%R by (symmetry; apply round_0; auto with typeclass_instances).
    rewrite Rabs_R0. split; intros L; [ split; reflexivity |]. exfalso; assert (K := bpow_gt_0 radix2 128); lra.
  - unfold narrow; cbn [B2SF]. rewrite norm_sf with (Hp := p24) (He := e24).
    assert (K := binary_normalize_correct 24 128 p24 e24 mode_NE (SpecFloat.cond_Zopp s (Zpos m)) e s); cbv zeta in K.
    change (F2R (Float radix2 (SpecFloat.cond_Zopp s (Zpos m)) e)) with (B2R (B754_finite s m e H)) in K.
    change (SpecFloat.fexp 24 128) with (FLT_exp (-149) 24) in K. change (round_mode mode_NE) with ZnearestE in K.
    set (y := B2R (B754_finite s m e H)) in *. fold (near32 y) in K. unfold is_float_of.
    destruct (Rlt_bool_spec (Rabs (near32 y)) (bpow radix2 128)) as [L | L]; split; intros L'; try lra.
    + destruct K as (K1 & K2 & _). rewrite is_finite_SF_B2SF, <- K1, <- SF2R_B2SF. split; [ exact K2 | reflexivity ].
    + rewrite K. reflexivity.
Qed.

Lemma two_b : exists b : v64, b64_Z 2 = B2SF b /\ is_finite b = true /\ B2R b = 2%R.
Proof.
  exists (binary_normalize 53 1024 p53 e53 mode_NE 2 0 false). split; [ apply norm_sf | split; [ reflexivity |]].
  rewrite <- SF2R_B2SF, <- norm_sf. change (SpecFloat.binary_normalize 53 1024 2 0 false) with (S754_finite false (2 ^ 52) (-51)).
  unfold SF2R, F2R, SpecFloat.cond_Zopp, Defs.Fnum, Fexp. change (IZR (Zpos (2 ^ 52))) with (bpow radix2 52).
  rewrite <- bpow_plus. reflexivity.
Qed.

(** Halving is exact. *)
Lemma half_b (b : v64) : is_finite b = true -> format64 (B2R b / 2) ->
  exists h : v64, SFdiv 53 1024 (B2SF b) (b64_Z 2) = B2SF h /\ is_finite h = true /\ B2R h = (B2R b / 2)%R.
Proof.
  intros F Hf. destruct two_b as (t & Et & Ft & Rt). rewrite Et.
  exists (Bdiv mode_NE b t). split; [ apply sf_div |].
  assert (K := Bdiv_correct 53 1024 p53 e53 mode_NE b t). rewrite Rt in K.
  specialize (K ltac:(lra)). rewrite round53_id in K by exact Hf.
  rewrite Rlt_bool_true in K.
  - destruct K as (K1 & K2 & _). rewrite K2. auto.
  - eapply Rle_lt_trans; [| apply (abs_B2R_lt_emax 53 1024 b) ].
    unfold Rdiv. rewrite Rabs_mult, (Rabs_pos_eq (/ 2)) by lra. assert (P := Rabs_pos (B2R b)). lra.
Qed.

(** (lo + hi) / 2 in double, then to float (BlastParams.h, IsentropicVortexParams.h). *)
Lemma mid_near lo hi : valid32 lo -> valid32 hi -> is_finite_SF lo = true -> is_finite_SF hi = true ->
  format64 (real_of lo + real_of hi) -> is_float_of ((real_of lo + real_of hi) / 2) (narrow (mid lo hi)).
Proof.
  intros Vl Vh Fl Fh Hf.
  destruct (widen_b lo Vl Fl) as (bl & El & Fbl & Rl). destruct (widen_b hi Vh Fh) as (bh & Eh & Fbh & Rh).
  unfold mid. rewrite El, Eh. rewrite add_sf with (Hp := p53) (He := e53).
  destruct (valid32_b lo Vl) as (cl & Cl). destruct (valid32_b hi Vh) as (ch & Ch).
  assert (Rcl : B2R cl = real_of lo) by (unfold real_of; rewrite <- Cl, <- SF2R_B2SF; reflexivity).
  assert (Rch : B2R ch = real_of hi) by (unfold real_of; rewrite <- Ch, <- SF2R_B2SF; reflexivity).
  assert (K := Bplus_correct 53 1024 p53 e53 mode_NE bl bh Fbl Fbh). rewrite Rl, Rh in K.
  rewrite round53_id in K by exact Hf.
  rewrite Rlt_bool_true in K.
  2: { assert (A := abs32 cl). assert (B := abs32 ch). rewrite Rcl in A. rewrite Rch in B.
       eapply Rle_lt_trans; [ apply Rabs_triang |].
       apply Rlt_le_trans with (bpow radix2 128 + bpow radix2 128)%R; [ lra |].
       replace (bpow radix2 128 + bpow radix2 128)%R with (bpow radix2 129).
       - apply bpow_le. discriminate.
       - change 129 with (1 + 128). rewrite bpow_plus. change (bpow radix2 1) with 2%R. ring. }
  destruct K as (K1 & K2 & _).
  destruct (half_b (Bplus mode_NE bl bh) K2) as (h & Eh' & Fh' & Rh').
  { rewrite K1. apply half_format; [ exact Hf |].
    destruct (multiple32 cl) as (k & Hk). destruct (multiple32 ch) as (k' & Hk'). rewrite <- Rcl, <- Rch, Hk, Hk'.
    exists (k + k'). rewrite plus_IZR. ring. }
  rewrite Eh'. rewrite <- K1, <- Rh'. apply narrow_near. exact Fh'.
Qed.

(** lo + hi in float, halved in double (BrioWuParams.h). *)
Lemma mid_f_near lo hi : valid32 lo -> valid32 hi -> is_finite_SF lo = true -> is_finite_SF hi = true ->
  format32 (real_of lo + real_of hi) -> (Rabs (real_of lo + real_of hi) < bpow radix2 128)%R ->
  is_float_of ((real_of lo + real_of hi) / 2) (narrow (mid_f lo hi)).
Proof.
  intros Vl Vh Fl Fh Hf Hb.
  destruct (valid32_b lo Vl) as (cl & Cl). destruct (valid32_b hi Vh) as (ch & Ch).
  assert (Rcl : B2R cl = real_of lo) by (unfold real_of; rewrite <- Cl, <- SF2R_B2SF; reflexivity).
  assert (Rch : B2R ch = real_of hi) by (unfold real_of; rewrite <- Ch, <- SF2R_B2SF; reflexivity).
  rewrite <- Cl, is_finite_SF_B2SF in Fl. rewrite <- Ch, is_finite_SF_B2SF in Fh.
  unfold mid_f. replace (SFadd 24 128 lo hi) with (B2SF (Bplus mode_NE cl ch)) by (rewrite <- Cl, <- Ch; symmetry; apply add_sf).
  assert (K := Bplus_correct 24 128 p24 e24 mode_NE cl ch Fl Fh). rewrite Rcl, Rch in K.
  replace (round radix2 (SpecFloat.fexp 24 128) (round_mode mode_NE) (real_of lo + real_of hi)) with (real_of lo + real_of hi)%R in K
    by (symmetry; apply round_generic; [ auto with typeclass_instances | exact Hf ]).
  rewrite Rlt_bool_true in K by exact Hb. destruct K as (K1 & K2 & _).
  destruct (widen_b (B2SF (Bplus mode_NE cl ch))) as (b & Eb & Fb & Rb).
  { apply valid_binary_B2SF. }
  { rewrite is_finite_SF_B2SF. exact K2. }
  unfold real_of at 1 in Rb. rewrite (SF2R_B2SF 24 128), K1 in Rb.
  rewrite Eb. destruct (half_b b Fb) as (h & Eh & Fh' & Rh).
  { rewrite Rb. apply half_format; [ apply format32_64; exact Hf |].
    destruct (multiple32 (Bplus mode_NE cl ch)) as (k & Hk). exists k. rewrite <- Hk. symmetry; exact K1. }
  rewrite Eh, <- Rb, <- Rh. apply narrow_near. exact Fh'.
Qed.
