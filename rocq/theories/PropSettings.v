(** * C30 (setting a real) and C57 (version of the implementation) *)
From Coq Require Import Ascii String ZArith List Bool Reals Lia Lra Floats.SpecFloat.
From Flocq Require Import Core.Core IEEE754.BinarySingleNaN.
From Verif Require Import ConfigSpec DecimalSpec HydroNum Config ConfigFacts ConfigNumbers PropConfig DecimalFacts
  Num Params Binary64 Init ProblemParams MidFacts PropParams.
Import ListNotations.
Local Open Scope Z_scope.
Local Notation length := List.length.

(** ** Powers of ten *)
Definition p10 (k : Z) : R := powerRZ 10 k.

Lemma p10_add a b : (p10 (a + b) = p10 a * p10 b)%R.
Proof. apply powerRZ_add. lra. Qed.
Lemma p10_pos k : (0 < p10 k)%R.
Proof. apply powerRZ_lt. lra. Qed.
Lemma p10_Z k : 0 <= k -> p10 k = IZR (10 ^ k).
Proof.
  intros H. unfold p10. rewrite <- (Z2Nat.id k H) at 1. rewrite <- pow_powerRZ.
  rewrite <- (Z2Nat.id k H) at 2. rewrite pow_IZR. reflexivity.
Qed.
Lemma p10_neg k : (p10 (- k) = / p10 k)%R.
Proof.
  assert (H := p10_add k (- k)). rewrite Z.add_opp_diag_r in H. change (p10 0) with 1%R in H.
  assert (P := p10_pos k). apply (Rmult_eq_reg_l (p10 k)); [| lra ]. rewrite <- H. field. lra.
Qed.

Lemma le_pow10_spec X num den : 0 < den -> (le_pow10 X num den = true <-> (p10 X * IZR den <= IZR num)%R).
Proof.
  intros Hd. unfold le_pow10. destruct (0 <=? X) eqn:E.
  - rewrite Z.leb_le. apply Z.leb_le in E. rewrite p10_Z, <- mult_IZR by exact E. rewrite Z.mul_comm.
    split; intros H; [ apply IZR_le, H | apply le_IZR, H ].
  - rewrite Z.leb_le. apply Z.leb_gt in E. assert (P := p10_pos X). assert (Q := p10_neg X).
    rewrite (p10_Z (- X)) in Q by lia.
    assert (K : (p10 X * IZR (10 ^ (- X)) = 1)%R) by (rewrite Q; field; lra).
    split; intros H.
    + apply IZR_le in H. rewrite mult_IZR in H. replace (IZR num) with (p10 X * (IZR num * IZR (10 ^ (- X))))%R
        by (rewrite (Rmult_comm (IZR num)), <- Rmult_assoc, K; ring).
      apply Rmult_le_compat_l; lra.
    + apply le_IZR. rewrite mult_IZR. apply (Rmult_le_reg_l (p10 X)); [ exact P |].
      rewrite (Rmult_comm (IZR num)), <- Rmult_assoc, K. lra.
Qed.

Lemma log10_spec n : forall X num den, 0 < den ->
  (p10 (X - Z.of_nat n) * IZR den <= IZR num < p10 (X + 1) * IZR den)%R ->
  let Y := log10 n X num den in X - Z.of_nat n <= Y <= X /\ (p10 Y * IZR den <= IZR num < p10 (Y + 1) * IZR den)%R.
Proof.
  induction n as [|n IH]; intros X num den Hd H; cbn [log10].
  - rewrite Z.sub_0_r in H. split; [ lia | exact H ].
  - destruct (le_pow10 X num den) eqn:E.
    + apply le_pow10_spec in E; [| exact Hd ]. split; [ lia |]. split; [ exact E | apply H ].
    + assert (E' : ~ (p10 X * IZR den <= IZR num)%R) by (intros K; apply le_pow10_spec in K; [ congruence | exact Hd ]).
      destruct (IH (X - 1) num den Hd) as [K1 K2].
      * replace (X - 1 - Z.of_nat n) with (X - Z.of_nat (Datatypes.S n)) by lia. replace (X - 1 + 1) with X by lia.
        split; [ apply H | lra ].
      * split; [ lia | exact K2 ].
Qed.

Lemma round_even_spec num den : 0 < den -> (Rabs (IZR (round_even num den) * IZR den - IZR num) <= IZR den / 2)%R.
Proof.
  intros Hd. rewrite <- mult_IZR, <- minus_IZR, <- abs_IZR. unfold round_even.
  assert (D := Z.div_mod num den ltac:(lia)). assert (M := Z.mod_pos_bound num den Hd).
  set (q := num / den) in *. set (r := num mod den) in *. clearbody q r.
  assert (G : forall z, 2 * Z.abs z <= den -> (IZR (Z.abs z) <= IZR den / 2)%R).
  { intros z Hz. apply IZR_le in Hz. rewrite mult_IZR in Hz. lra. }
  apply G.
  destruct (2 * r <? den) eqn:E1; [ apply Z.ltb_lt in E1 | apply Z.ltb_ge in E1; destruct (den <? 2 * r) eqn:E2;
    [ apply Z.ltb_lt in E2 | apply Z.ltb_ge in E2; destruct (Z.even q) ] ]; nia.
Qed.

(** ** Digits *)
Lemma digits_bounds d ds : Forall decimal (d :: ds) -> d <> "0"%char ->
  10 ^ Z.of_nat (length ds) <= dvalue (d :: ds) < 10 ^ Z.of_nat (Datatypes.S (length ds)).
Proof.
  intros H Hd.
  assert (U : forall l, Forall decimal l -> 0 <= dvalue l < 10 ^ Z.of_nat (length l)).
  { intros l Hl. split; [ apply dvalue_nonneg, Hl |]. rewrite <- (rev_involutive l), rev_length. apply Forall_rev in Hl.
    induction (rev l) as [|c t IH]; [ reflexivity |]. cbn [rev length]. inversion Hl as [|? ? Hc Ht]; subst.
    specialize (IH Ht). rewrite dvalue_app. cbn [length]. change (10 ^ Z.of_nat 1) with 10.
    rewrite Nat2Z.inj_succ, Z.pow_succ_r by lia. apply decimal_code in Hc.
    change (dvalue [c]) with (0 * 10 + (code c - 48)). lia. }
  inversion H as [|? ? Hc Ht]; subst. change (d :: ds) with ([d] ++ ds). rewrite dvalue_app.
  specialize (U ds Ht). change (dvalue [d]) with (0 * 10 + (code d - 48)).
  assert (C := Hc). apply decimal_code in C.
  assert (code d <> 48).
  { intros K. apply Hd. unfold code in K. change "0"%char with (ascii_of_nat 48). rewrite <- (ascii_nat_embedding d). f_equal. lia. }
  rewrite Nat2Z.inj_succ, Z.pow_succ_r by lia. nia.
Qed.

Lemma six_digits d : 10 ^ 5 <= d < 10 ^ 6 -> Forall decimal (dec 20 d []) /\ dvalue (dec 20 d []) = d /\ length (dec 20 d []) = 6%nat.
Proof.
  intros H. destruct (dec_spec 20 d []) as (a & ds & E & Hd & Hv & H0).
  { change (10 ^ Z.of_nat 20) with 100000000000000000000. lia. }
  { lia. }
  rewrite app_nil_r in E. rewrite E. split; [ exact Hd |]. split; [ exact Hv |].
  assert (B := digits_bounds a ds Hd (H0 ltac:(lia))). rewrite Hv in B. cbn [length].
  assert (K1 : Z.of_nat (length ds) < 6) by (apply (Z.pow_lt_mono_r_iff 10); lia).
  assert (K2 : 5 < Z.of_nat (Datatypes.S (length ds))) by (apply (Z.pow_lt_mono_r_iff 10); lia).
  lia.
Qed.

Lemma strip_spec l : exists k, l = repeat "0"%char k ++ strip_zeros l.
Proof.
  induction l as [|c t (k & IH)]; [ exists 0%nat; reflexivity |]. cbn [strip_zeros]. destruct (Ascii.eqb_spec c "0").
  - exists (Datatypes.S k). cbn [repeat app]. rewrite <- IH. subst. reflexivity.
  - exists 0%nat. reflexivity.
Qed.

Lemma rev_repeat {A} (a : A) n : rev (repeat a n) = repeat a n.
Proof.
  induction n as [|n IH]; [ reflexivity |]. cbn [repeat rev]. rewrite IH. clear IH.
  induction n as [|n IH]; [ reflexivity |]. cbn [repeat app]. rewrite IH. reflexivity.
Qed.

Lemma dvalue_zeros k : dvalue (repeat "0"%char k) = 0.
Proof.
  induction k as [|k IH]; [ reflexivity |]. change (repeat "0"%char (Datatypes.S k)) with (["0"%char] ++ repeat "0"%char k).
  rewrite dvalue_app, IH. reflexivity.
Qed.
Lemma zeros_decimal k : Forall decimal (repeat "0"%char k).
Proof. apply Forall_forall. intros c Hc. apply repeat_spec in Hc. subst. unfold decimal. cbn. lia. Qed.

Definition point (a b : text) : text := match strip_zeros (rev b) with [] => a | r => a ++ ["."%char] ++ rev r end.

Lemma point_spec a b : Forall decimal b ->
  exists dot fp, point a b = a ++ dot ++ fp /\ (dot = ["."%char] \/ dot = [] /\ fp = []) /\ Forall decimal fp /\
    (IZR (dvalue (a ++ fp)) * p10 (- Z.of_nat (length fp)) = IZR (dvalue (a ++ b)) * p10 (- Z.of_nat (length b)))%R.
Proof.
  intros Hb. destruct (strip_spec (rev b)) as (k & E). unfold point. set (r := strip_zeros (rev b)) in *.
  assert (Eb : b = rev r ++ repeat "0"%char k).
  { rewrite <- (rev_involutive b), E, rev_app_distr, rev_repeat. reflexivity. }
  clearbody r. clear E.
  assert (V : (IZR (dvalue (a ++ rev r)) * p10 (- Z.of_nat (length (rev r))) = IZR (dvalue (a ++ b)) * p10 (- Z.of_nat (length b)))%R).
  { rewrite Eb. rewrite app_assoc, (dvalue_app (a ++ rev r)), dvalue_zeros, Z.add_0_r, mult_IZR, <- p10_Z by lia.
    rewrite (app_length (rev r)), repeat_length, Nat2Z.inj_add, Z.opp_add_distr, p10_add.
    rewrite (p10_neg (Z.of_nat k)). assert (P := p10_pos (Z.of_nat k)). field. lra. }
  assert (F : Forall decimal (rev r)) by (rewrite Eb in Hb; apply Forall_app in Hb; apply Hb).
  destruct r as [|c t].
  - exists [], []. cbn [app]. rewrite !app_nil_r. cbn [rev] in V. rewrite !app_nil_r in V.
    split; [ reflexivity |]. split; [ right; auto |]. split; [ constructor | exact V ].
  - exists ["."%char], (rev (c :: t)). split; [ reflexivity |]. split; [ auto |]. split; [ exact F | exact V ].
Qed.

Lemma show_two_spec n : 0 <= n < 100 -> show_two n <> [] /\ Forall decimal (show_two n) /\ dvalue (show_two n) = n.
Proof.
  intros H. unfold show_two. destruct (dec_spec 20 n []) as (a & ds & E & Hd & Hv & _).
  { change (10 ^ Z.of_nat 20) with 100000000000000000000. lia. }
  { lia. }
  rewrite app_nil_r in E. rewrite E. destruct (n <? 10).
  - split; [ discriminate |]. split.
    + constructor; [| exact Hd ]. apply decimal_code. rewrite dchar_code; lia.
    + change (dchar 0 :: a :: ds) with ([dchar 0] ++ a :: ds). rewrite dvalue_app, Hv. reflexivity.
  - split; [ discriminate |]. auto.
Qed.

(** ** The printed text *)
Definition unsigned_text (v : chars) (y : R) : Prop :=
  exists ip dot fp e k, v = ip ++ dot ++ fp ++ e /\
    Forall decimal ip /\ Forall decimal fp /\ ip ++ fp <> [] /\
    (dot = ["."%char] \/ dot = [] /\ fp = []) /\ exponent_text e k /\
    y = (IZR (dvalue (ip ++ fp)) * powerRZ 10 (k - Z.of_nat (length fp)))%R.

Lemma unsigned_point a b e k : Forall decimal a -> a <> [] -> Forall decimal b -> exponent_text e k ->
  unsigned_text (point a b ++ e) (IZR (dvalue (a ++ b)) * p10 (k - Z.of_nat (length b))).
Proof.
  intros Ha Na Hb He. destruct (point_spec a b Hb) as (dot & fp & E & Hdot & Hf & V).
  exists a, dot, fp, e, k. rewrite E, <- !app_assoc. split; [ reflexivity |]. split; [ exact Ha |]. split; [ exact Hf |].
  split; [ destruct a; [ congruence | discriminate ] |]. split; [ exact Hdot |]. split; [ exact He |].
  change (powerRZ 10 ?z) with (p10 z). unfold Z.sub. rewrite !p10_add.
  rewrite (Rmult_comm (p10 k) (p10 (- Z.of_nat (length b)))), (Rmult_comm (p10 k) (p10 (- Z.of_nat (length fp)))), <- !Rmult_assoc, V. reflexivity.
Qed.

Lemma show_pos_spec num den : 0 < den -> (p10 (-61) * IZR den <= IZR num < p10 40 * IZR den)%R ->
  exists y, unsigned_text (show_pos num den) y /\ (Rabs (y * IZR den - IZR num) <= IZR num * (5 / 10 ^ 6))%R.
Proof.
  intros Hd Hn. assert (Hd' : (0 < IZR den)%R) by (apply IZR_lt, Hd).
  destruct (log10_spec 100 39 num den Hd Hn) as [BX HX]. unfold show_pos. set (X := log10 100 39 num den) in *. clearbody X.
  change (39 - Z.of_nat 100) with (-61) in BX.
  set (d := if 0 <=? 5 - X then _ else _).
  assert (HDd : (Rabs (IZR d * p10 (X - 5) * IZR den - IZR num) <= p10 (X - 5) * IZR den / 2)%R).
  { assert (P := p10_pos (X - 5)). subst d. destruct (0 <=? 5 - X) eqn:E.
    - apply Z.leb_le in E. assert (K := round_even_spec (num * 10 ^ (5 - X)) den Hd).
      rewrite mult_IZR, <- p10_Z in K by exact E.
      assert (Q : (p10 (X - 5) * p10 (5 - X) = 1)%R) by (rewrite <- p10_add; replace (X - 5 + (5 - X)) with 0 by lia; reflexivity).
      set (q := round_even _ _) in *. clearbody q.
      replace (IZR q * p10 (X - 5) * IZR den - IZR num)%R with (p10 (X - 5) * (IZR q * IZR den - IZR num * p10 (5 - X)))%R.
      2:{ transitivity (IZR q * p10 (X - 5) * IZR den - (p10 (X - 5) * p10 (5 - X)) * IZR num)%R; [ ring | rewrite Q; ring ]. }
      rewrite Rabs_mult, (Rabs_pos_eq (p10 (X - 5))) by lra.
      apply (Rmult_le_compat_l (p10 (X - 5))) in K; lra.
    - apply Z.leb_gt in E. assert (K := round_even_spec num (den * 10 ^ (X - 5))).
      rewrite mult_IZR, <- p10_Z in K by lia. 
      assert (0 < 10 ^ (X - 5)) by (apply Z.pow_pos_nonneg; lia). specialize (K ltac:(nia)).
      set (q := round_even _ _) in *. clearbody q.
      replace (IZR q * p10 (X - 5) * IZR den - IZR num)%R with (IZR q * (IZR den * p10 (X - 5)) - IZR num)%R by ring.
      lra. }
  clearbody d.
  assert (PX := p10_pos (X - 5)).
  assert (E5 : (p10 X = p10 (X - 5) * 100000)%R).
  { replace X with (X - 5 + 5) at 1 by lia. rewrite p10_add, (p10_Z 5) by lia. reflexivity. }
  assert (E6 : (p10 (X + 1) = p10 (X - 5) * 1000000)%R).
  { replace (X + 1) with (X - 5 + 6) at 1 by lia. rewrite p10_add, (p10_Z 6) by lia. reflexivity. }
  rewrite E5, E6 in HX. set (u := (p10 (X - 5) * IZR den)%R).
  assert (Hu : (0 < u)%R) by (apply Rmult_lt_0_compat; assumption).
  assert (HX1 : (100000 * u <= IZR num)%R) by (unfold u; lra). assert (HX2 : (IZR num < 1000000 * u)%R) by (unfold u; lra).
  replace (IZR d * p10 (X - 5) * IZR den)%R with (IZR d * u)%R in HDd by (unfold u; ring).
  fold u in HDd.
  assert (Bd : 100000 <= d <= 1000000).
  { apply Rabs_le_inv in HDd.
    assert (K1 : (99999 < IZR d)%R) by (apply (Rmult_lt_reg_r u); lra).
    assert (K2 : (IZR d < 1000001)%R) by (apply (Rmult_lt_reg_r u); lra).
    apply lt_IZR in K1, K2. lia. }
  assert (N : exists d' X', (if d =? 1000000 then (100000, X + 1) else (d, X)) = (d', X') /\
    10 ^ 5 <= d' < 10 ^ 6 /\ -61 <= X' <= 40 /\ (IZR d' * p10 (X' - 5) = IZR d * p10 (X - 5))%R).
  { destruct (d =? 1000000) eqn:E.
    - apply Z.eqb_eq in E. subst d. exists 100000, (X + 1). split; [ reflexivity |]. split; [ lia |]. split; [ lia |].
      replace (X + 1 - 5) with (X - 5 + 1) by lia. rewrite p10_add. change (p10 1) with (10 * 1)%R. lra.
    - apply Z.eqb_neq in E. exists d, X. split; [ reflexivity |]. split; [ lia |]. split; [ lia | reflexivity ]. }
  destruct N as (d' & X' & -> & Hd6 & BX' & EV). cbv zeta.
  change (fun a b : list ascii => _) with point.
  assert (Err : (Rabs (IZR d' * p10 (X' - 5) * IZR den - IZR num) <= IZR num * (5 / 10 ^ 6))%R).
  { rewrite EV. replace (IZR d * p10 (X - 5) * IZR den)%R with (IZR d * u)%R by (unfold u; ring). lra. }
  exists (IZR d' * p10 (X' - 5))%R. split; [| exact Err ]. clear - Hd6 BX'.
  destruct (six_digits d' Hd6) as (D & V & L). set (ds := dec 20 d' []) in *. clearbody ds.
  assert (Fd : forall n, Forall decimal (firstn n ds) /\ Forall decimal (skipn n ds)).
  { intros n. apply Forall_app. rewrite firstn_skipn. exact D. }
  destruct ((X' <? -4) || (6 <=? X')) eqn:E.
  - destruct (show_two_spec (Z.abs X')) as (S1 & S2 & S3); [ lia |].
    assert (K := unsigned_point (firstn 1 ds) (skipn 1 ds)
      (["e"%char; if X' <? 0 then "-"%char else "+"%char] ++ show_two (Z.abs X')) X' (proj1 (Fd 1%nat))).
    rewrite firstn_skipn, skipn_length, L, V in K. apply K.
    + destruct ds; [ discriminate L | discriminate ].
    + apply Fd.
    + right. exists "e"%char, [if X' <? 0 then "-"%char else "+"%char], (show_two (Z.abs X')).
      split; [ reflexivity |]. split; [ auto |]. split; [ destruct (X' <? 0); [ right; left | right; right ]; reflexivity |].
      split; [ exact S1 |]. split; [ exact S2 |]. rewrite S3. destruct (X' <? 0) eqn:Es.
      * apply Z.ltb_lt in Es. change (signum ["-"%char]) with (-1). lia.
      * apply Z.ltb_ge in Es. change (signum ["+"%char]) with 1. lia.
  - apply orb_false_iff in E. destruct E as [E1 E2]. apply Z.ltb_ge in E1. apply Z.leb_gt in E2.
    assert (Ex : exponent_text [] 0) by (left; auto).
    destruct (X' <? 0) eqn:Es.
    + apply Z.ltb_lt in Es.
      assert (K := unsigned_point (lit "0") (zeros (- X' - 1) ++ ds) [] 0).
      rewrite app_nil_r in K. unfold zeros in K. rewrite app_length, repeat_length, L, app_assoc, dvalue_app, L, V in K.
      change (lit "0" ++ repeat "0"%char (Z.to_nat (- X' - 1))) with (repeat "0"%char (Datatypes.S (Z.to_nat (- X' - 1)))) in K.
      rewrite dvalue_zeros in K. replace (0 - Z.of_nat (Z.to_nat (- X' - 1) + 6)) with (X' - 5) in K by lia.
      apply K; [ apply (zeros_decimal 1) | discriminate | apply Forall_app; split; [ apply zeros_decimal | exact D ] | exact Ex ].
    + apply Z.ltb_ge in Es.
      assert (K := unsigned_point (firstn (Z.to_nat (X' + 1)) ds) (skipn (Z.to_nat (X' + 1)) ds) [] 0).
      rewrite app_nil_r, firstn_skipn, skipn_length, L, V in K.
      replace (0 - Z.of_nat (6 - Z.to_nat (X' + 1))) with (X' - 5) in K by lia.
      apply K; [ apply Fd | | apply Fd | exact Ex ].
      replace (Z.to_nat (X' + 1)) with (Datatypes.S (Z.to_nat X')) by lia. destruct ds; [ discriminate L | discriminate ].
Qed.

Lemma valid32_range s m e : valid32 (S754_finite s m e) -> (Z.pos m < 2 ^ 24) /\ -149 <= e <= 104.
Proof.
  intros V. unfold valid32, SpecFloat.valid_binary, SpecFloat.bounded, SpecFloat.canonical_mantissa in V.
  apply andb_true_iff in V. destruct V as [V1 V2]. apply Zeq_bool_eq in V1. apply Z.leb_le in V2.
  unfold SpecFloat.fexp, SpecFloat.emin in V1. rewrite Digits.Zpos_digits2_pos in V1.
  split; [| lia ]. assert (K := Digits.Zdigits_correct radix2 (Z.pos m)).
  apply Z.lt_le_trans with (radix2 ^ Zaux.radix_val radix2 * 0 + radix2 ^ (Digits.Zdigits radix2 (Z.pos m))).
  - rewrite Z.mul_0_r. apply K.
  - rewrite Z.mul_0_r. cbn [Z.add]. change (radix_val radix2) with 2. apply Z.pow_le_mono_r; lia.
Qed.

Lemma real_finite s m e : real_of (S754_finite s m e) = (IZR (if s then Z.neg m else Z.pos m) * bpow radix2 e)%R.
Proof. destruct s; reflexivity. Qed.

Lemma show_float_spec x : valid32 x -> is_finite_SF x = true ->
  exists y, decimal_text (show_float x) y /\ (Rabs (y - real_of x) <= Rabs (real_of x) * (5 / 10 ^ 6))%R.
Proof.
  intros V F. destruct x as [s|s| |s m e]; try discriminate F.
  - exists 0%R. split.
    + assert (G : forall sg, signed sg -> decimal_text (sg ++ lit "0") 0).
      { intros sg Hsg. exists sg, (lit "0"), [], [], [], 0. split; [ cbn [app]; reflexivity |]. split; [ exact Hsg |].
        split; [ apply (zeros_decimal 1) |]. split; [ constructor |]. split; [ discriminate |].
        split; [ right; auto |]. split; [ left; auto |]. change (dvalue (lit "0" ++ [])) with 0. rewrite Z.mul_0_r. ring. }
      destruct s; [ apply (G (lit "-")); right; left; reflexivity | apply (G []); left; reflexivity ].
    + cbn. rewrite Rminus_0_r, Rabs_R0. lra.
  - destruct (valid32_range s m e V) as [Bm Be].
    assert (U : exists y, unsigned_text (if 0 <=? e then show_pos (Zpos m * 2 ^ e) 1 else show_pos (Zpos m) (2 ^ (- e))) y /\
      (Rabs (y - IZR (Z.pos m) * bpow radix2 e) <= IZR (Z.pos m) * bpow radix2 e * (5 / 10 ^ 6))%R).
    { assert (Q : p10 (-61) = (/ IZR (10 ^ 61))%R) by (change (-61) with (- (61)); rewrite p10_neg, p10_Z by lia; reflexivity).
      assert (Q40 : p10 40 = IZR (10 ^ 40)) by (apply p10_Z; lia).
      assert (P61 : (0 < IZR (10 ^ 61))%R) by (apply IZR_lt; reflexivity).
      destruct (0 <=? e) eqn:E.
      - apply Z.leb_le in E. assert (B : bpow radix2 e = IZR (2 ^ e)) by (rewrite <- IZR_Zpower by exact E; reflexivity).
        assert (Pe : 1 <= 2 ^ e <= 2 ^ 104) by (split; [ assert (0 < 2 ^ e) by (apply Z.pow_pos_nonneg; lia); lia | apply Z.pow_le_mono_r; lia ]).
        destruct (show_pos_spec (Z.pos m * 2 ^ e) 1 ltac:(lia)) as (y & Hy & He).
        + rewrite !Rmult_1_r, Q, Q40. split.
          * apply Rle_trans with 1%R; [| apply IZR_le; nia ].
            rewrite <- Rinv_1. apply Rinv_le_contravar; [ lra | apply IZR_le; discriminate ].
          * apply IZR_lt. apply Z.lt_trans with (2 ^ 24 * 2 ^ 104); [ nia | apply Z.ltb_lt; vm_compute; reflexivity ].
        + exists y. split; [ exact Hy |]. rewrite B. rewrite Rmult_1_r, mult_IZR in He. exact He.
      - apply Z.leb_gt in E. assert (B : (bpow radix2 e = / IZR (2 ^ (- e)))%R).
        { replace e with (- (- e)) at 1 by lia. rewrite bpow_opp, <- IZR_Zpower by lia. reflexivity. }
        assert (Pe : 1 <= 2 ^ (- e) <= 2 ^ 149) by (split; [ assert (0 < 2 ^ (- e)) by (apply Z.pow_pos_nonneg; lia); lia | apply Z.pow_le_mono_r; lia ]).
        assert (PeR : (1 <= IZR (2 ^ (- e)))%R) by (apply IZR_le; lia).
        destruct (show_pos_spec (Z.pos m) (2 ^ (- e)) ltac:(lia)) as (y & Hy & He).
        + rewrite Q, Q40. split.
          * apply Rle_trans with 1%R; [| apply IZR_le; lia ]. apply (Rmult_le_reg_l (IZR (10 ^ 61))); [ exact P61 |].
            rewrite <- Rmult_assoc, Rinv_r, Rmult_1_l, Rmult_1_r by lra. apply IZR_le.
            apply Z.le_trans with (2 ^ 149); [ apply Pe | apply Z.leb_le; vm_compute; reflexivity ].
          * rewrite <- mult_IZR. apply IZR_lt. apply Z.lt_le_trans with (10 ^ 40 * 1); [ apply Z.lt_trans with (2 ^ 24); [ exact Bm | apply Z.ltb_lt; vm_compute; reflexivity ] |].
            apply Z.mul_le_mono_nonneg_l; [ apply Z.leb_le; vm_compute; reflexivity | apply Pe ].
        + exists y. split; [ exact Hy |]. rewrite B. set (D := IZR (2 ^ (- e))) in *. clearbody D. set (M := IZR (Z.pos m)) in *. clearbody M.
          replace (y - M * / D)%R with ((y * D - M) * / D)%R by (field; lra).
          rewrite Rabs_mult, (Rabs_pos_eq (/ D)) by (apply Rlt_le, Rinv_0_lt_compat; lra).
          replace (M * / D * (5 / 10 ^ 6))%R with ((M * (5 / 10 ^ 6)) * / D)%R by ring.
          apply Rmult_le_compat_r; [ apply Rlt_le, Rinv_0_lt_compat; lra | exact He ]. }
    destruct U as (y & (ip & dot & fp & ex & k & Et & Hi & Hf & Hn & Hdot & Hex & Ey) & Hy).
    assert (Pv : (0 < IZR (Z.pos m) * bpow radix2 e)%R) by (apply Rmult_lt_0_compat; [ apply IZR_lt; lia | apply bpow_gt_0 ]).
    rewrite real_finite. exists (IZR (if s then -1 else 1) * y)%R. split.
    + exists (if s then lit "-" else []), ip, dot, fp, ex, k. split; [ exact (f_equal (app (if s then lit "-" else [])) Et) |]. split; [ destruct s; [ right; left | left ]; reflexivity |].
      split; [ exact Hi |]. split; [ exact Hf |]. split; [ exact Hn |]. split; [ exact Hdot |]. split; [ exact Hex |].
      rewrite Ey, mult_IZR, <- Rmult_assoc. destruct s; reflexivity.
    + destruct s.
      * change (Z.neg m) with (- Z.pos m). rewrite opp_IZR.
        replace (IZR (-1) * y - - IZR (Z.pos m) * bpow radix2 e)%R with (- (y - IZR (Z.pos m) * bpow radix2 e))%R by ring.
        rewrite Ropp_mult_distr_l_reverse, !Rabs_Ropp, (Rabs_pos_eq (_ * _)) by lra. exact Hy.
      * rewrite Rmult_1_l, (Rabs_pos_eq (IZR _ * _)) by lra. exact Hy.
Qed.

Lemma decimal_text_no_nul v y : decimal_text v y -> ~ In nul v.
Proof.
  intros (sg & ip & dot & fp & e & k & -> & Hsg & Hi & Hf & _ & Hdot & He & _).
  assert (D : forall l, Forall decimal l -> ~ In nul l).
  { intros l Hl' Hin. rewrite Forall_forall in Hl'. specialize (Hl' _ Hin). unfold decimal in Hl'. cbn in Hl'. lia. }
  assert (G : forall g, signed g -> ~ In nul g).
  { intros g [-> | [-> | ->]]; cbn; [ tauto | |]; intros [E' | []]; discriminate E'. }
  rewrite !in_app_iff. intros [H | [H | [H | [H | H]]]].
  - exact (G sg Hsg H).
  - exact (D ip Hi H).
  - destruct Hdot as [-> | (-> & _)]; [ destruct H as [H | []]; discriminate | destruct H ].
  - exact (D fp Hf H).
  - destruct He as [(-> & _) | (ch & sg' & ds & -> & Hch & Hs' & _ & Hd & _)]; [ destruct H |].
    destruct H as [H | H]; [ destruct Hch; subst ch; discriminate |].
    apply in_app_iff in H; destruct H as [H | H]; [ exact (G sg' Hs' H) | exact (D ds Hd H) ].
Qed.

(** A real that was set is stored as a decimal number with a relative error of at most
    5e-6 (six significant digits), and read back as the float nearest to that number;
    infinities and NaN come back unchanged. *)
Theorem C30_set_then_get_real : forall (c : cmap) s n s' n' x, same s s' -> same n n' -> valid32 x ->
  (is_finite_SF x = true ->
   exists v y x', get_string (set_float c s n x) s' n' [] = v /\ decimal_text v y /\
     (Rabs (y - real_of x) <= Rabs (real_of x) * (5 / 10 ^ 6))%R /\
     is_float_of y x' /\ forall d, get_float (set_float c s n x) s' n' d = x') /\
  (is_finite_SF x = false -> forall d, get_float (set_float c s n x) s' n' d = x).
Proof.
  intros c s n s' n' x Hs Hn V.
  assert (E : forall d, get_string (set_float c s n x) s' n' d = show_float x)
    by (intros d; apply (proj1 (C30_set_then_get c s n s' n') Hs Hn)).
  split.
  - intros F. destruct (show_float_spec x V F) as (y & Ht & Hy). destruct (strtof_decimal _ _ Ht) as (x' & Ex & Hx).
    exists (show_float x), y, x'. split; [ apply E |]. split; [ exact Ht |]. split; [ exact Hy |]. split; [ exact Hx |].
    intros d. unfold get_float. rewrite E, cstr_id, Ex; [ reflexivity |]. exact (decimal_text_no_nul _ _ Ht).
  - intros F d. unfold get_float. rewrite E. destruct x as [|[]| |]; try discriminate F; reflexivity.
Qed.
Print Assumptions C30_set_then_get_real.
Example C30_set_then_get_real_case :
  valid32 (S754_finite false 13421773 (-27)) /\
  get_string (set_float [] (lit "hydro") (lit "cfl") (S754_finite false 13421773 (-27))) (lit "Hydro") (lit "CFL") [] = lit "0.1" /\
  get_string (set_float [] (lit "hydro") (lit "cfl") (S754_finite true 9999999 (-13))) (lit "Hydro") (lit "CFL") [] = lit "-1220.7".
Proof. split; [ reflexivity | split; vm_compute; reflexivity ]. Qed.

(** ** C57: the version of the implementation

    Versions 1 and 2 run for a value in [1, 2) and [2, 3); for every other value, also NaN
    and infinities, version 0 runs. *)
Definition in_range (x : b32) (a b : Z) : Prop := is_finite_SF x = true /\ (IZR a <= real_of x < IZR b)%R.

Lemma trunc_range s m e : exists z, float_to_int (S754_finite s m e) = z /\
  ((IZR 1 <= real_of (S754_finite s m e) < IZR 2)%R <-> z = 1) /\ ((IZR 2 <= real_of (S754_finite s m e) < IZR 3)%R <-> z = 2).
Proof.
  rewrite real_finite. unfold float_to_int. cbv zeta.
  assert (G : forall n : Z, 0 <= n -> (IZR n <= IZR (Z.pos m) * bpow radix2 e < IZR (n + 1))%R ->
    let z := if (- 2 ^ 31 <=? (if s then - n else n)) && ((if s then - n else n) <? 2 ^ 31) then (if s then - n else n) else - 2 ^ 31 in
    ((IZR 1 <= IZR (if s then Z.neg m else Z.pos m) * bpow radix2 e < IZR 2)%R <-> z = 1) /\
    ((IZR 2 <= IZR (if s then Z.neg m else Z.pos m) * bpow radix2 e < IZR 3)%R <-> z = 2)).
  { intros n Hn B.
    assert (K : forall j, 1 <= j <= 2 ->
      ((if (- 2 ^ 31 <=? (if s then - n else n)) && ((if s then - n else n) <? 2 ^ 31) then (if s then - n else n) else - 2 ^ 31) = j
       <-> s = false /\ n = j)).
    { intros j Hj. change (2 ^ 31) with 2147483648. destruct s; destruct (_ && _) eqn:A; split; intros H; try lia; try (split; [reflexivity|lia]).
      all: apply andb_false_iff in A; destruct H as [_ ->]; destruct A as [A|A]; [ apply Z.leb_gt in A | apply Z.ltb_ge in A ]; lia. }
    assert (J : forall j, 1 <= j <= 2 -> ((IZR j <= IZR (if s then Z.neg m else Z.pos m) * bpow radix2 e < IZR (j + 1))%R <-> s = false /\ n = j)).
    { intros j Hj. assert (P := bpow_gt_0 radix2 e). split.
      - intros [J1 J2]. destruct s; cbv iota in J1, J2.
        + exfalso. assert (IZR (Z.neg m) < 0)%R by (apply IZR_lt; reflexivity). assert (IZR 1 <= IZR j)%R by (apply IZR_le; lia). nra.
        + split; [ reflexivity |]. assert (n < j + 1) by (apply lt_IZR; eapply Rle_lt_trans; [ apply B | exact J2 ]).
          assert (j < n + 1) by (apply lt_IZR; eapply Rle_lt_trans; [ exact J1 | apply B ]). lia.
      - intros [-> ->]. exact B. }
    cbv zeta. split; [ rewrite (K 1 ltac:(lia)); apply (J 1 ltac:(lia)) | rewrite (K 2 ltac:(lia)); apply (J 2 ltac:(lia)) ]. }
  destruct (0 <=? e) eqn:E.
  - apply Z.leb_le in E. eexists; split; [ reflexivity |]. apply (G (Z.pos m * 2 ^ e)).
    + assert (0 < 2 ^ e) by (apply Z.pow_pos_nonneg; lia). lia.
    + rewrite <- IZR_Zpower by exact E. change (radix_val radix2) with 2. rewrite <- mult_IZR. split; [ lra | apply IZR_lt; lia ].
  - apply Z.leb_gt in E. eexists; split; [ reflexivity |]. apply (G (Z.pos m / 2 ^ (- e))).
    + apply Z.div_pos; [ lia | apply Z.pow_pos_nonneg; lia ].
    + assert (P : 0 < 2 ^ (- e)) by (apply Z.pow_pos_nonneg; lia).
      assert (B : (bpow radix2 e = / IZR (2 ^ (- e)))%R).
      { replace e with (- (- e)) at 1 by lia. rewrite bpow_opp, <- IZR_Zpower by lia. reflexivity. }
      rewrite B. set (D := 2 ^ (- e)) in *. clearbody D. assert (DM := Z.div_mod (Z.pos m) D ltac:(lia)).
      assert (M := Z.mod_pos_bound (Z.pos m) D P). set (q := Z.pos m / D) in *. set (r := Z.pos m mod D) in *. clearbody q r.
      assert (PR : (0 < IZR D)%R) by (apply IZR_lt, P).
      split; apply (Rmult_le_reg_r (IZR D)) || apply (Rmult_lt_reg_r (IZR D)); try exact PR;
        rewrite (Rmult_assoc (IZR (Z.pos m))), Rinv_l, Rmult_1_r, <- mult_IZR by lra; [ apply IZR_le | apply IZR_lt ]; nia.
Qed.

Theorem C57_version : forall out c d x, settings_of out c -> as_real (lit "0") = Some d ->
  gives as_real "OTHER" "implementationVersion" d out x ->
  (version_setting c = 1 <-> in_range x 1 2) /\ (version_setting c = 2 <-> in_range x 2 3) /\
  (version_setting c = 0 <-> ~ in_range x 1 2 /\ ~ in_range x 2 3).
Proof.
  intros out c d x Hc Hd Hx. vm_compute in Hd. injection Hd as <-.
  unfold version_setting. rewrite (real_gives out c "OTHER" "implementationVersion" (S754_zero false) x);
    [ | dotless_ | exact Hc | exact Hx ].
  assert (R : (in_range x 1 2 <-> float_to_int x = 1) /\ (in_range x 2 3 <-> float_to_int x = 2)).
  { unfold in_range. destruct x as [s|s| |s m e].
    - cbn. split; split; intros H; try discriminate H; destruct H as [_ H]; exfalso; lra.
    - cbn. split; split; intros H; try discriminate H; destruct H as [H _]; discriminate H.
    - cbn. split; split; intros H; try discriminate H; destruct H as [H _]; discriminate H.
    - destruct (trunc_range s m e) as (z & -> & T1 & T2). split; [ rewrite <- T1 | rewrite <- T2 ]; cbn [is_finite_SF]; tauto. }
  destruct R as [R1 R2]. rewrite R1, R2. set (z := float_to_int x) in *. clearbody z.
  destruct (Z.eqb_spec z 0), (Z.eqb_spec z 1), (Z.eqb_spec z 2); cbn [negb andb]; lia.
Qed.
Print Assumptions C57_version.
Example C57_version_case : version_setting (serial_parameters (Some (lit "[other]
implementationversion=2.9
"))) = 2 /\ version_setting (serial_parameters (Some (lit "[OTHER]
implementationVersion=3
"))) = 0 /\ in_range (S754_finite false 12163482 (-22)) 2 3.
Proof. split; [ vm_compute; reflexivity | split; [ vm_compute; reflexivity |]]. split; [ reflexivity |]. rewrite real_finite.
  change (bpow radix2 (-22)) with (/ IZR 4194304)%R. lra. Qed.
