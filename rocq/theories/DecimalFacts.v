(** * The numbers of the parameter file are read to the nearest float *)
From Coq Require Import Ascii String ZArith List Bool Reals Lia Lra Floats.SpecFloat.
From Flocq Require Import Core.Core IEEE754.BinarySingleNaN.
From Verif Require Import ConfigSpec DecimalSpec Config ConfigFacts ConfigNumbers.
Import ListNotations.
Local Open Scope Z_scope.
Local Notation length := List.length.

Section Round.
Let p24 : Prec_gt_0 24 := eq_refl.
Let e24 : Prec_lt_emax 24 128 := eq_refl.
#[local] Existing Instance p24.
#[local] Existing Instance e24.

Lemma nearest_even s m l : round_nearest_even m l = choice_mode mode_NE s m l.
Proof. destruct l as [|[]]; try reflexivity. simpl. unfold Round.cond_incr. destruct (Z.even m); reflexivity. Qed.

Lemma round_aux32 sx mx ex lx :
  SpecFloat.binary_round_aux 24 128 sx mx ex lx = binary_round_aux 24 128 mode_NE sx mx ex lx.
Proof.
  unfold SpecFloat.binary_round_aux, binary_round_aux. destruct (shr_fexp _ _ _ _ _) as [mrs e].
  rewrite (nearest_even sx). reflexivity.
Qed.

Lemma round32_float neg num den :
  is_float_of ((if neg : bool then -1 else 1) * (IZR (Zpos num) / IZR (Zpos den))) (round32 neg num den).
Proof.
  unfold round32.
  assert (H := Bdiv_correct_aux 24 128 p24 e24 mode_NE neg num 0 false den 0); cbv zeta in H.
  destruct (SFdiv_core_binary 24 128 (Zpos num) 0 (Zpos den) 0) as [[q e] l].
  rewrite round_aux32. rewrite xorb_false_r in H.
  assert (E : (F2R (Float radix2 (SpecFloat.cond_Zopp neg (Zpos num)) 0) / F2R (Float radix2 (SpecFloat.cond_Zopp false (Zpos den)) 0) =
               (if neg then -1 else 1) * (IZR (Zpos num) / IZR (Zpos den)))%R).
  { unfold F2R, Defs.Fnum, Defs.Fexp, SpecFloat.cond_Zopp; cbn [bpow].
    assert (IZR (Zpos den) <> 0)%R by (apply IZR_neq; discriminate).
    destruct neg; [ rewrite opp_IZR |]; field; assumption. }
  rewrite E in H. destruct H as [_ H]. change (SpecFloat.fexp 24 128) with (FLT_exp (-149) 24) in H.
  change (round_mode mode_NE) with ZnearestE in H. fold (near32 ((if neg then -1 else 1) * (IZR (Zpos num) / IZR (Zpos den)))) in H.
  set (y := ((if neg then -1 else 1) * (IZR (Zpos num) / IZR (Zpos den)))%R) in *.
  unfold is_float_of. destruct (Rlt_bool_spec (Rabs (near32 y)) (bpow radix2 128)) as [L | L]; split; intros L'; try lra.
  - destruct H as (H1 & H2 & _); split; assumption.
  - rewrite H. unfold binary_overflow, overflow_to_inf. cbn. f_equal.
    assert (0 < IZR (Zpos num) / IZR (Zpos den))%R
      by (apply Rdiv_lt_0_compat; apply IZR_lt; reflexivity).
    subst y; destruct neg; [ rewrite Rlt_bool_true | rewrite Rlt_bool_false ]; try reflexivity; lra.
Qed.

Lemma ratio32_float (neg : bool) num den : 0 <= num -> 0 < den ->
  is_float_of ((if neg then -1 else 1) * (IZR num / IZR den)) (ratio32 neg num den).
Proof.
  intros Hn Hd. destruct num as [|n|n]; [| | lia ].
  - unfold ratio32. replace ((if neg then -1 else 1) * (0 / IZR den))%R with 0%R by (unfold Rdiv; ring).
    unfold is_float_of. replace (near32 0) with 0%R by (symmetry; apply round_0; auto with typeclass_instances).
    rewrite Rabs_R0; split; intros H.
    + split; reflexivity.
    + exfalso; assert (K := bpow_gt_0 radix2 128); lra.
  - destruct den as [|d|d]; [ lia | | lia ]. apply round32_float.
Qed.
End Round.

Lemma fold_value ds : forall acc, fold_left (fun a c => a * 10 + (code c - 48)) ds acc = acc * 10 ^ Z.of_nat (length ds) + dvalue ds.
Proof.
  assert (G : forall ds a, fold_left (fun a c => a * 10 + (code c - 48)) ds a =
     a * 10 ^ Z.of_nat (length ds) + fold_left (fun a c => a * 10 + (code c - 48)) ds 0).
  { intros l; induction l as [|c l IH]; intros a.
    - cbn [fold_left length]; change (10 ^ Z.of_nat 0) with 1; lia.
    - cbn [fold_left length]; rewrite (IH (a * 10 + (code c - 48))), (IH (0 * 10 + (code c - 48))).
      rewrite Nat2Z.inj_succ, Z.pow_succ_r by lia. ring. }
  intros acc; rewrite G; reflexivity.
Qed.

Lemma dvalue_nonneg ds : Forall decimal ds -> 0 <= dvalue ds.
Proof.
  intros H. unfold dvalue. rewrite <- fold_left_rev_right. apply Forall_rev in H.
  induction (rev ds) as [|c l IH]; cbn [fold_right]; [ lia |].
  inversion H as [|? ? Hc Hl]; subst. specialize (IH Hl). unfold decimal in Hc. lia.
Qed.

Lemma dvalue_app a b : dvalue (a ++ b) = dvalue a * 10 ^ Z.of_nat (length b) + dvalue b.
Proof. rewrite <- fold_value. unfold dvalue, code. rewrite fold_left_app. reflexivity. Qed.

Lemma exponent_spec e k : exponent_text e k -> exponent "e" e = k.
Proof.
  intros [(-> & ->) | (c & sg & ds & -> & Hc & Hs & Hd0 & Hd & ->)]; [ reflexivity |].
  cbn [exponent]. replace (Ascii.eqb (tolower c) "e") with true by (destruct Hc as [-> | ->]; reflexivity).
  rewrite sign_of; auto.
  2: { intros _ x t E. destruct ds as [|d ds]; [ discriminate |]. injection E as <- _.
       inversion Hd; apply decimal_not_sign; assumption. }
  replace ds with (ds ++ []) by apply app_nil_r.
  rewrite digits_decimal; [| exact Hd | discriminate ].
  assert (length ds <> 0)%nat by (destruct ds; [ congruence | discriminate ]).
  replace (0 + Z.of_nat (length ds) =? 0) with false by (symmetry; apply Z.eqb_neq; lia).
  rewrite app_nil_r, fold_value.
  destruct Hs as [-> | [-> | ->]];
    [ change (signum []) with 1 | change (signum ["-"%char]) with (-1) | change (signum ["+"%char]) with 1 ];
    cbn [Z.eqb Pos.eqb]; lia.
Qed.

Lemma exponent_start e k : exponent_text e k -> forall c t, e = c :: t -> ~ decimal c /\ c <> "."%char.
Proof.
  intros [(-> & _) | (c & sg & ds & -> & Hc & _)] x t E; [ discriminate |]. injection E as <- _.
  destruct Hc as [-> | ->]; (split; [ unfold decimal; cbn; lia | discriminate ]).
Qed.

Lemma mantissa_decimal ip dot fp e k : Forall decimal ip -> Forall decimal fp -> ip ++ fp <> [] ->
  (dot = ["."%char] \/ dot = [] /\ fp = []) -> exponent_text e k ->
  exists n, 0 < n /\ mantissa 10 (ip ++ dot ++ fp ++ e) = (n, dvalue (ip ++ fp), Z.of_nat (length fp), e).
Proof.
  intros Hi Hf H0 Hdot He. assert (Hes := exponent_start e k He). unfold mantissa.
  assert (Hlen : 0 < Z.of_nat (length ip) + Z.of_nat (length fp)).
  { assert (length (ip ++ fp) <> 0)%nat by (destruct (ip ++ fp); [ congruence | discriminate ]). rewrite app_length in *. lia. }
  destruct Hdot as [-> | (-> & ->)].
  - rewrite digits_decimal; [| exact Hi |].
    2: { intros c t E; injection E as <- _; unfold decimal; cbn; lia. }
    change (("."%char :: []) ++ fp ++ e) with ("."%char :: fp ++ e); cbv iota.
    change (Ascii.eqb "." ".") with true; cbv iota.
    rewrite digits_decimal; [| exact Hf | intros c t E; apply (Hes c t E) ].
    rewrite !fold_value.
    replace (0 + Z.of_nat (length ip) + (0 + Z.of_nat (length fp)) =? 0) with false by (symmetry; apply Z.eqb_neq; lia).
    exists (0 + Z.of_nat (length ip) + (0 + Z.of_nat (length fp))); split; [ lia |].
    rewrite dvalue_app. do 3 f_equal; lia.
  - cbn [app]. rewrite app_nil_r in *. rewrite digits_decimal; [| exact Hi | intros c t E; apply (Hes c t E) ].
    rewrite fold_value. exists (Z.of_nat (length ip)). cbn [length] in *. split; [ lia |].
    destruct e as [|c t].
    + do 3 f_equal; lia.
    + destruct (Hes c t eq_refl) as [_ Hc]. apply Ascii.eqb_neq in Hc; rewrite Hc. do 3 f_equal; lia.
Qed.

Lemma strtof_decimal v y : decimal_text v y -> exists x, strtof v = Some x /\ is_float_of y x.
Proof.
  intros (sg & ip & dot & fp & e & k & -> & Hs & Hi & Hf & H0 & Hdot & He & ->).
  set (r := ip ++ dot ++ fp ++ e).
  assert (Hr : exists c t, r = c :: t /\ (decimal c \/ c = "."%char)).
  { subst r. destruct ip as [|c ip]; cbn [app].
    - destruct Hdot as [-> | (-> & ->)]; [ cbn [app]; eauto | cbn in H0; congruence ].
    - inversion Hi; eauto. }
  destruct Hr as (c0 & t0 & Er & Hc0).
  assert (W : ~ white c0 /\ c0 <> "-"%char /\ c0 <> "+"%char).
  { destruct Hc0 as [Hc | ->].
    - split; [ apply decimal_not_white | apply decimal_not_sign ]; exact Hc.
    - repeat split; [ apply isspace_not_white; reflexivity | discriminate | discriminate ]. }
  assert (L : lskip (sg ++ r) = sg ++ r).
  { change (sg ++ r) with ([] ++ sg ++ r) at 1. rewrite lskip_number; auto; [ constructor |].
    intros _ c t E; rewrite Er in E; injection E as <- _; apply W. }
  unfold strtof; rewrite L, sign_of; auto.
  2: { intros _ c t E; rewrite Er in E; injection E as <- _; apply W. }
  assert (Low : tolower c0 <> "i"%char /\ tolower c0 <> "n"%char).
  { assert (K := all_chars (fun c => implb ((48 <=? code c) && (code c <=? 57) || Ascii.eqb c ".")
        (negb (Ascii.eqb "i" (tolower c)) && negb (Ascii.eqb "n" (tolower c)))) eq_refl c0); cbv beta in K.
    assert (X : ((48 <=? code c0) && (code c0 <=? 57) || Ascii.eqb c0 ".") = true).
    { destruct Hc0 as [Hc | ->]; [| reflexivity ]. apply decimal_code in Hc. apply orb_true_iff; left.
      apply andb_true_iff; split; apply Z.leb_le; lia. }
    rewrite X in K. cbn [implb] in K. apply andb_true_iff in K. destruct K as [K1 K2].
    apply negb_true_iff in K1, K2. apply Ascii.eqb_neq in K1, K2. split; congruence. }
  assert (S1 : starts (lit "inf") r = false).
  { rewrite Er. change (starts (lit "inf") (c0 :: t0)) with (Ascii.eqb "i" (tolower c0) && starts (lit "nf") t0)%bool.
    apply andb_false_iff; left. apply Ascii.eqb_neq; intros E; exact (proj1 Low (eq_sym E)). }
  assert (S2 : starts (lit "nan") r = false).
  { rewrite Er. change (starts (lit "nan") (c0 :: t0)) with (Ascii.eqb "n" (tolower c0) && starts (lit "an") t0)%bool.
    apply andb_false_iff; left. apply Ascii.eqb_neq; intros E; exact (proj2 Low (eq_sym E)). }
  rewrite S1, S2.
  assert (Hx : hex_prefix r = None).
  { destruct (hex_prefix r) as [t|] eqn:E; [| reflexivity ]. exfalso.
    assert (Hsec : forall z x u, r = z :: x :: u -> x <> "x"%char /\ x <> "X"%char).
    { intros z x u Eu. assert (Kd : forall c, decimal c -> c <> "x"%char /\ c <> "X"%char).
      { intros c Hc; split; intros ->; unfold decimal in Hc; cbn in Hc; lia. }
      assert (Ke : forall c t, e = c :: t -> c <> "x"%char /\ c <> "X"%char).
      { intros c t' Ec. destruct He as [(-> & _) | (c' & sg' & ds & -> & Hc' & _)]; [ discriminate |].
        injection Ec as <- _; destruct Hc' as [-> | ->]; split; discriminate. }
      subst r. destruct ip as [|a ip]; cbn [app] in Eu.
      - destruct Hdot as [-> | (-> & ->)]; [| cbn in H0; congruence ]. cbn [app] in Eu. injection Eu as _ Eu.
        destruct fp as [|b fp]; [ cbn in H0; congruence |]. injection Eu as <- _. inversion Hf; auto.
      - injection Eu as _ Eu. destruct ip as [|b ip]; cbn [app] in Eu.
        + destruct Hdot as [-> | (-> & ->)]; cbn [app] in Eu; [ injection Eu as <- _; split; discriminate |].
          destruct e as [|c e']; [ discriminate |]. injection Eu as <- _. apply (Ke c e' eq_refl).
        + injection Eu as <- _. inversion Hi as [|? ? _ Hi']; inversion Hi'; auto. }
    revert E. destruct r as [|z [|x [|h u]]]; cbn [hex_prefix]; try discriminate.
    destruct (Hsec z x (h :: u) eq_refl) as [X1 X2].
    apply Ascii.eqb_neq in X1, X2. rewrite X1, X2. rewrite andb_false_r. discriminate. }
  rewrite Hx.
  destruct (mantissa_decimal ip dot fp e k Hi Hf H0 Hdot He) as (n & Hn & Em). fold r in Em. rewrite Em.
  replace (n =? 0) with false by (symmetry; apply Z.eqb_neq; lia).
  rewrite (exponent_spec e k He).
  assert (Hv : 0 <= dvalue (ip ++ fp)) by (apply dvalue_nonneg, Forall_app; auto).
  set (V := dvalue (ip ++ fp)) in *. set (K := k - Z.of_nat (length fp)).
  assert (Sg : ((if signum sg =? -1 then -1 else 1) = IZR (signum sg))%R).
  { destruct Hs as [-> | [-> | ->]];
    [ change (signum []) with 1 | change (signum ["-"%char]) with (-1) | change (signum ["+"%char]) with 1 ]; reflexivity. }
  assert (Hneg : (IZR (signum sg * V) * powerRZ 10 K =
     (if (if signum sg =? -1 then true else false) then -1 else 1) * (IZR (fst (scale 10 K V)) / IZR (snd (scale 10 K V))))%R).
  { rewrite mult_IZR. replace (if (if signum sg =? -1 then true else false) then (-1)%R else 1%R) with (IZR (signum sg)).
    2: { rewrite <- Sg. destruct (signum sg =? -1); reflexivity. }
    rewrite Rmult_assoc. f_equal. unfold scale. destruct (0 <=? K) eqn:EK; cbn [fst snd].
    - apply Z.leb_le in EK. rewrite mult_IZR. replace (IZR (10 ^ K)) with (powerRZ 10 K); [ field |].
      rewrite <- (Z2Nat.id K) by exact EK. rewrite <- pow_powerRZ, pow_IZR. reflexivity.
    - apply Z.leb_gt in EK. replace (IZR (10 ^ - K)) with (powerRZ 10 (- K)).
      2: { rewrite <- (Z2Nat.id (- K)) by lia. rewrite <- pow_powerRZ, pow_IZR. reflexivity. }
      replace K with (- - K)%Z at 1 by lia. rewrite powerRZ_neg'. reflexivity. }
  destruct (scale 10 K V) as [num den] eqn:Es. cbn [fst snd] in Hneg.
  exists (ratio32 (if signum sg =? -1 then true else false) num den). split; [ reflexivity |].
  rewrite Hneg. apply ratio32_float.
  - unfold scale in Es. destruct (0 <=? K) eqn:EK; injection Es as <- _; [| exact Hv ].
    apply Z.leb_le in EK. apply Z.mul_nonneg_nonneg; [ exact Hv | apply Z.pow_nonneg; lia ].
  - unfold scale in Es. destruct (0 <=? K) eqn:EK; injection Es as _ <-; [ lia |].
    apply Z.leb_gt in EK. apply Z.pow_pos_nonneg; lia.
Qed.
