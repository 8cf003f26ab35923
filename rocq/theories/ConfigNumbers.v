(** * Facts about the numbers of a parameter file *)
From Coq Require Import Ascii String ZArith NArith List Bool Lia.
From Verif Require Import Config ConfigSpec ConfigFacts.
Import ListNotations.
Local Open Scope Z_scope.
Local Open Scope bool_scope.
Local Notation length := List.length.

Lemma decimal_code c : decimal c <-> 48 <= code c <= 57.
Proof. unfold decimal, code; lia. Qed.

Lemma digit_decimal c : decimal c -> digit c = Some (code c - 48).
Proof.
  intros H; apply decimal_code in H; unfold digit.
  replace ((48 <=? code c) && (code c <=? 57)) with true; [ reflexivity |].
  symmetry; apply andb_true_iff; rewrite !Z.leb_le; lia.
Qed.
Lemma digit_small c d b : digit c = Some d -> b <= 10 -> d < b -> decimal c.
Proof.
  unfold digit; intros H Hb Hd; apply decimal_code.
  destruct ((48 <=? code c) && (code c <=? 57)) eqn:E1.
  { apply andb_true_iff in E1; rewrite !Z.leb_le in E1; lia. }
  destruct ((65 <=? code c) && (code c <=? 90)) eqn:E2.
  { apply andb_true_iff in E2; rewrite !Z.leb_le in E2; injection H as <-; lia. }
  destruct ((97 <=? code c) && (code c <=? 122)) eqn:E3; [| discriminate ].
  apply andb_true_iff in E3; rewrite !Z.leb_le in E3; injection H as <-; lia.
Qed.

Lemma digits_count_mono b l : forall n acc, n <= fst (fst (digits b n acc l)).
Proof.
  induction l as [|c l IH]; intros n acc; cbn [digits]; [ cbn; lia |].
  destruct (digit c) as [d|]; [| cbn; lia ].
  destruct (d <? b); [| cbn; lia ].
  specialize (IH (n + 1) (acc * b + d)); lia.
Qed.

Lemma digits_decimal ds r : Forall decimal ds -> (forall c t, r = c :: t -> ~ decimal c) ->
  forall n acc, digits 10 n acc (ds ++ r) =
    (n + Z.of_nat (length ds), fold_left (fun a c => a * 10 + (code c - 48)) ds acc, r).
Proof.
  intros Hd Hr; induction Hd as [|c ds Hc Hd IH]; intros n acc.
  - cbn [app fold_left length]; rewrite Z.add_0_r.
    destruct r as [|c r]; [ reflexivity |]; cbn [digits].
    destruct (digit c) as [d|] eqn:E; [| reflexivity ].
    destruct (d <? 10) eqn:E2; [| reflexivity ].
    apply Z.ltb_lt in E2; exfalso; eapply Hr; [ reflexivity | eapply digit_small; [ exact E | | exact E2 ]; lia ].
  - cbn [app digits fold_left length]; rewrite (digit_decimal c Hc).
    assert (Hc' := proj1 (decimal_code c) Hc).
    replace (code c - 48 <? 10) with true by (symmetry; apply Z.ltb_lt; lia).
    rewrite IH; f_equal; f_equal; lia.
Qed.

Lemma sign_spec l : exists sg r, l = sg ++ r /\ signed sg /\ sign l = (if signum sg =? -1 then true else false, r) /\
  (sg = [] -> forall c t, r = c :: t -> c <> "-"%char /\ c <> "+"%char).
Proof.
  destruct l as [|c l]; [ exists [], []; repeat split; [ left; reflexivity | discriminate | discriminate ] |].
  cbn [sign]; destruct (Ascii.eqb c "-") eqn:E1.
  { apply Ascii.eqb_eq in E1; subst c; exists ["-"%char], l; repeat split; [ right; left; reflexivity | discriminate | discriminate ]. }
  destruct (Ascii.eqb c "+") eqn:E2.
  { apply Ascii.eqb_eq in E2; subst c; exists ["+"%char], l; repeat split; [ right; right; reflexivity | discriminate | discriminate ]. }
  apply Ascii.eqb_neq in E1; apply Ascii.eqb_neq in E2.
  exists [], (c :: l); repeat split; try (left; reflexivity); injection H0 as <- _; assumption.
Qed.

Lemma sign_of sg r : signed sg -> (sg = [] -> forall c t, r = c :: t -> c <> "-"%char /\ c <> "+"%char) ->
  sign (sg ++ r) = (if signum sg =? -1 then true else false, r).
Proof.
  intros [-> | [-> | ->]] H; [| reflexivity | reflexivity ].
  destruct r as [|c r]; [ reflexivity |]; cbn [app sign].
  destruct (H eq_refl c r eq_refl) as [H1 H2]; apply Ascii.eqb_neq in H1; apply Ascii.eqb_neq in H2.
  rewrite H1, H2; reflexivity.
Qed.

Lemma sign_not_white sg c t : signed sg -> sg = c :: t -> ~ white c.
Proof. intros [-> | [-> | ->]] E; try discriminate; injection E as <- _; apply isspace_not_white; reflexivity. Qed.

Lemma decimal_not_white c : decimal c -> ~ white c.
Proof. unfold decimal, white; cbn [In]; lia. Qed.
Lemma decimal_not_sign c : decimal c -> c <> "-"%char /\ c <> "+"%char.
Proof. intros H; split; intros ->; unfold decimal in H; cbn in H; lia. Qed.

Lemma lskip_number w sg r : blank w -> signed sg -> (sg = [] -> forall c t, r = c :: t -> ~ white c) ->
  lskip (w ++ sg ++ r) = sg ++ r.
Proof.
  intros Hw Hs Hr; rewrite lskip_blank by exact Hw; apply lskip_solid.
  intros c t E; destruct sg as [|d sg].
  - exact (Hr eq_refl c t E).
  - cbn in E; injection E as <- _; eapply sign_not_white; [ exact Hs | reflexivity ].
Qed.

(** A number starts where the skipping stops. *)
Lemma split_unique w sg r w' sg' r' : blank w -> signed sg -> blank w' -> signed sg' ->
  (forall c t, r = c :: t -> ~ white c /\ c <> "-"%char /\ c <> "+"%char) -> r <> [] ->
  w ++ sg ++ r = w' ++ sg' ++ r' ->
  (forall c t, sg' ++ r' = c :: t -> ~ white c) ->
  (sg' = [] -> forall c t, r' = c :: t -> c <> "-"%char /\ c <> "+"%char) -> r = r'.
Proof.
  intros Hw Hs Hw' Hs' Hr H0 E N S'.
  assert (E1 : lskip (w ++ sg ++ r) = sg ++ r).
  { apply lskip_number; auto; intros -> c t Ec; exact (proj1 (Hr c t Ec)). }
  rewrite E, lskip_blank, lskip_solid in E1 by assumption.
  assert (E2 : sign (sg ++ r) = (if signum sg =? -1 then true else false, r)).
  { apply sign_of; auto; intros _ c t Ec; exact (proj2 (Hr c t Ec)). }
  rewrite <- E1, sign_of in E2 by assumption; congruence.
Qed.

Lemma hex_prefix_zero l t : hex_prefix l = Some t -> exists x, l = "0"%char :: x :: t.
Proof.
  destruct l as [|z [|x [|h l]]]; cbn [hex_prefix]; try discriminate.
  destruct (Ascii.eqb z "0" && (Ascii.eqb x "x" || Ascii.eqb x "X")) eqn:E; [| discriminate ].
  destruct (digit h) as [d|]; [| discriminate ]; destruct (d <? 16); [| discriminate ].
  apply andb_true_iff in E; destruct E as [E _]; apply Ascii.eqb_eq in E; subst z.
  intros H; injection H as <-; eauto.
Qed.
Lemma hex_prefix_digit l t : hex_prefix l = Some t -> exists n v r, digits 16 0 0 t = (n, v, r) /\ n <> 0.
Proof.
  destruct l as [|z [|x [|h l]]]; cbn [hex_prefix]; try discriminate.
  destruct (Ascii.eqb z "0" && (Ascii.eqb x "x" || Ascii.eqb x "X")) eqn:E; [| discriminate ].
  destruct (digit h) as [d|] eqn:Ed; [| discriminate ]; destruct (d <? 16) eqn:E2; [| discriminate ].
  intros H; injection H as <-; cbn [digits]; rewrite Ed, E2.
  destruct (digits 16 (0 + 1) (0 * 16 + d) l) as [[n v] r] eqn:Eg; exists n, v, r; split; [ reflexivity |].
  assert (K := digits_count_mono 16 l (0 + 1) (0 * 16 + d)); rewrite Eg in K; cbn in K; lia.
Qed.

(** [strtol] reads nothing exactly when there is no number to read. *)
Lemma strtol0_none l : strtol0 l = None <-> ~ has_integer l.
Proof.
  destruct (lskip_split l) as (w & El & Hw & Hn).
  destruct (sign_spec (lskip l)) as (sg & r & Es & Hs & Esg & Hsg).
  unfold strtol0; rewrite Esg.
  assert (K : has_integer l <-> exists d t, r = d :: t /\ decimal d).
  { split.
    - intros (w' & sg' & d & t & E & Hw' & Hs' & Hd).
      exists d, t; split; [| exact Hd ]; symmetry.
      apply (split_unique w' sg' (d :: t) w sg r); auto.
      + intros c u Ec; injection Ec as <- _; split; [ apply decimal_not_white | apply decimal_not_sign ]; exact Hd.
      + discriminate.
      + rewrite <- Es, <- El, E; reflexivity.
      + rewrite <- Es; exact Hn.
    - intros (d & t & -> & Hd); exists w, sg, d, t; rewrite <- Es; auto. }
  rewrite K; clear K.
  set (nvr := match hex_prefix r with Some t => digits 16 0 0 t | None => _ end).
  assert (C : fst (fst nvr) = 0 <-> ~ exists d t, r = d :: t /\ decimal d).
  { subst nvr; destruct (hex_prefix r) as [t|] eqn:Eh.
    - destruct (hex_prefix_zero _ _ Eh) as (x & ->).
      destruct (hex_prefix_digit _ _ Eh) as (n & v & u & -> & Hn0); cbn [fst]; split; [ contradiction |].
      intros H; exfalso; apply H; eexists _, _; split; [ reflexivity |]; unfold decimal; cbn; lia.
    - destruct r as [|c r]; [ cbn; split; [ intros _ (d & t & E & _); discriminate | reflexivity ] |].
      destruct (Ascii.eqb c "0") eqn:E0.
      + apply Ascii.eqb_eq in E0; subst c; cbn [digits].
        change (digit "0"%char) with (Some 0); cbn [Z.ltb Z.compare].
        assert (M := digits_count_mono 8 r (0 + 1) (0 * 8 + 0)); split; [ intros E0; rewrite E0 in M; lia |].
        intros H; exfalso; apply H; eexists _, _; split; [ reflexivity |]; unfold decimal; cbn; lia.
      + cbn [digits]; destruct (digit c) as [d|] eqn:Ed.
        * destruct (d <? 10) eqn:Elt.
          -- apply Z.ltb_lt in Elt.
             assert (Hc : decimal c) by (eapply digit_small; [ exact Ed | | exact Elt ]; lia).
             assert (M := digits_count_mono 10 r (0 + 1) (0 * 10 + d)).
             split; [ intros E1; rewrite E1 in M; lia | intros H; exfalso; apply H; eauto ].
          -- apply Z.ltb_ge in Elt; split; [ intros _ (d' & t & E & Hc) | reflexivity ].
             injection E as <- _; assert (Hc' := Hc); rewrite (digit_decimal c Hc) in Ed; injection Ed as <-.
             apply decimal_code in Hc'; lia.
        * split; [ intros _ (d' & t & E & Hc) | reflexivity ].
          injection E as <- _; rewrite (digit_decimal c Hc) in Ed; discriminate. }
  rewrite <- C; clearbody nvr; destruct nvr as [[n v] u]; cbn [fst].
  destruct (n =? 0) eqn:E; [ apply Z.eqb_eq in E | apply Z.eqb_neq in E ]; split; congruence.
Qed.

(** Decimal numbers. *)
Definition clamp (n : Z) : Z := Z.max LONG_MIN (Z.min LONG_MAX n).

Lemma strtol0_decimal w sg d ds r : blank w -> signed sg -> Forall decimal (d :: ds) ->
  (forall c t, r = c :: t -> ~ decimal c) -> d <> "0"%char ->
  strtol0 (w ++ sg ++ (d :: ds) ++ r) = Some (clamp (signum sg * dvalue (d :: ds))).
Proof.
  intros Hw Hs Hd Hr H0.
  assert (Hdd : decimal d) by (inversion Hd; assumption).
  unfold strtol0; rewrite lskip_number; auto.
  2: { intros _ c t E; injection E as <- _; apply decimal_not_white; exact Hdd. }
  rewrite sign_of; auto.
  2: { intros _ c t E; injection E as <- _; apply decimal_not_sign; exact Hdd. }
  replace (hex_prefix ((d :: ds) ++ r)) with (@None text).
  2: { symmetry; destruct (hex_prefix ((d :: ds) ++ r)) as [t|] eqn:E; [| reflexivity ].
       destruct (hex_prefix_zero _ _ E) as (x & Ex); cbn in Ex; injection Ex as -> _; congruence. }
  cbn [app]; assert (E0 := H0); apply Ascii.eqb_neq in E0; rewrite E0.
  change (d :: ds ++ r) with ((d :: ds) ++ r); rewrite digits_decimal by assumption.
  replace (0 + Z.of_nat (length (d :: ds)) =? 0) with false by (symmetry; apply Z.eqb_neq; cbn [length]; lia).
  unfold clamp; do 3 f_equal; unfold dvalue.
  destruct Hs as [-> | [-> | ->]]; cbn [signum];
    [ change (signum []) with 1 | change (signum ["-"%char]) with (-1) | change (signum ["+"%char]) with 1 ];
    cbn [Z.eqb Pos.eqb]; unfold code; lia.
Qed.

Lemma strtol0_zero : strtol0 [dchar 0] = Some 0.
Proof. reflexivity. Qed.

(** ** Printing *)
Lemma dchar_code d : 0 <= d < 10 -> code (dchar d) = 48 + d.
Proof.
  intros H; unfold dchar, code; rewrite nat_ascii_embedding by lia; lia.
Qed.

Lemma dec_spec f : forall n acc, 0 <= n < 10 ^ Z.of_nat f -> (f > 0)%nat ->
  exists d ds, dec f n acc = (d :: ds) ++ acc /\ Forall decimal (d :: ds) /\ dvalue (d :: ds) = n /\
    (0 < n -> d <> "0"%char).
Proof.
  induction f as [|f IH]; intros n acc Hn Hf; [ lia |]; cbn [dec].
  assert (Hm : 0 <= n mod 10 < 10) by (apply Z.mod_pos_bound; lia).
  assert (Hdec : decimal (dchar (n mod 10))) by (apply decimal_code; rewrite dchar_code; lia).
  destruct (n <? 10) eqn:E.
  - apply Z.ltb_lt in E; exists (dchar (n mod 10)), []; split; [ reflexivity |]; split; [ constructor; [ exact Hdec | constructor ] |].
    rewrite Z.mod_small in * by lia; split.
    + change (0 * 10 + (code (dchar n) - 48) = n); rewrite dchar_code by lia; lia.
    + intros Hp E0; assert (K := dchar_code n ltac:(lia)); rewrite E0 in K; change (code "0"%char) with 48 in K; lia.
  - apply Z.ltb_ge in E.
    assert (Hf0 : (f > 0)%nat).
    { destruct f; [| lia ]; cbn in Hn; lia. }
    assert (Hq : 0 <= n / 10 < 10 ^ Z.of_nat f).
    { split; [ apply Z.div_pos; lia |]; apply Z.div_lt_upper_bound; [ lia |].
      rewrite Nat2Z.inj_succ, Z.pow_succ_r in Hn by lia; lia. }
    destruct (IH (n / 10) (dchar (n mod 10) :: acc) Hq Hf0) as (d & ds & E1 & E2 & E3 & E4).
    exists d, (ds ++ [dchar (n mod 10)]); repeat split.
    + rewrite E1; cbn [app]; rewrite <- app_assoc; reflexivity.
    + inversion E2; subst; constructor; [ assumption |]; apply Forall_app; split; [ assumption | constructor; [ exact Hdec | constructor ] ].
    + unfold dvalue in *; change (d :: ds ++ [dchar (n mod 10)]) with ((d :: ds) ++ [dchar (n mod 10)]).
      rewrite fold_left_app, E3.
      change (n / 10 * 10 + (code (dchar (n mod 10)) - 48) = n); rewrite dchar_code by exact Hm.
      assert (Hdm := Z.div_mod n 10 ltac:(lia)); lia.
    + intros _; apply E4; apply Z.div_str_pos; lia.
Qed.

Lemma strtol0_show n : LONG_MIN <= n <= LONG_MAX -> strtol0 (show_long n) = Some n.
Proof.
  intros H; unfold show_long.
  assert (B : 2 ^ 63 < 10 ^ Z.of_nat 20) by (vm_compute; reflexivity).
  assert (Hb : forall z, LONG_MIN <= z <= LONG_MAX -> clamp z = z) by (intros z Hz; unfold clamp; lia).
  assert (C : forall c t, @nil ascii = c :: t -> ~ decimal c) by discriminate.
  unfold LONG_MIN, LONG_MAX in H.
  destruct (n <? 0) eqn:E.
  - apply Z.ltb_lt in E.
    destruct (dec_spec 20 (- n) [] ltac:(lia) ltac:(lia)) as (d & ds & -> & Hd & Hv & H0).
    change ("-"%char :: (d :: ds) ++ []) with ([] ++ ["-"%char] ++ (d :: ds) ++ []).
    rewrite strtol0_decimal; auto; [| constructor | right; left; reflexivity | apply H0; lia ].
    rewrite Hv; change (signum ["-"%char]) with (-1); rewrite Hb; [ f_equal; lia |]; unfold LONG_MIN, LONG_MAX; lia.
  - apply Z.ltb_ge in E; destruct (Z.eq_dec n 0) as [->|Hn]; [ reflexivity |].
    destruct (dec_spec 20 n [] ltac:(lia) ltac:(lia)) as (d & ds & -> & Hd & Hv & H0).
    change ((d :: ds) ++ []) with ([] ++ [] ++ (d :: ds) ++ []).
    rewrite strtol0_decimal; auto; [| constructor | left; reflexivity | apply H0; lia ].
    rewrite Hv; change (signum []) with 1; rewrite Hb; [ f_equal; lia |]; unfold LONG_MIN, LONG_MAX; lia.
Qed.

Lemma show_long_no_nul n : LONG_MIN <= n <= LONG_MAX -> ~ In nul (show_long n).
Proof.
  assert (B : 2 ^ 63 < 10 ^ Z.of_nat 20) by (vm_compute; reflexivity).
  assert (K : forall l, Forall decimal l -> ~ In nul (l ++ [])).
  { intros l Hl Hi; rewrite app_nil_r in Hi; apply (proj1 (Forall_forall _ _) Hl) in Hi; unfold decimal in Hi; cbn in Hi; lia. }
  intros H; unfold LONG_MIN, LONG_MAX in H; unfold show_long; destruct (n <? 0) eqn:E.
  - apply Z.ltb_lt in E; destruct (dec_spec 20 (- n) [] ltac:(lia) ltac:(lia)) as (d & ds & -> & Hd & _).
    intros [Hi|Hi]; [ discriminate | exact (K _ Hd Hi) ].
  - apply Z.ltb_ge in E; destruct (dec_spec 20 n [] ltac:(lia) ltac:(lia)) as (d & ds & -> & Hd & _); exact (K _ Hd).
Qed.

(** ** Reals *)
Lemma starts_spec w l : (forall c, In c w -> tolower c = c) ->
  (starts w l = true <-> exists u t, l = u ++ t /\ same u w).
Proof.
  revert l; induction w as [|a w IH]; intros l Hw; cbn [starts].
  - split; [ intros _; exists [], l; split; [ reflexivity | constructor ] | reflexivity ].
  - destruct l as [|b l].
    + split; [ discriminate |]; intros (u & t & E & Hu); inversion Hu; subst; discriminate.
    + rewrite andb_true_iff, Ascii.eqb_eq, IH by (intros c Hc; apply Hw; right; exact Hc).
      assert (Ea : tolower a = a) by (apply Hw; left; reflexivity).
      split.
      * intros (E & u & t & -> & Hu); exists (b :: u), t; split; [ reflexivity |].
        constructor; [ apply tolower_twin; congruence | exact Hu ].
      * intros (u & t & E & Hu); inversion Hu as [|x y u' w' Hx Hu']; subst; cbn in E; injection E as -> ->.
        split; [ apply tolower_twin in Hx; congruence | eauto ].
Qed.

Lemma digits_zero b l : b = 10 -> fst (fst (digits b 0 0 l)) = 0 <-> ~ exists d t, l = d :: t /\ decimal d.
Proof.
  intros ->; destruct l as [|c r]; [ cbn; split; [ intros _ (d & t & E & _); discriminate | reflexivity ] |].
  cbn [digits]; destruct (digit c) as [d|] eqn:Ed.
  - destruct (d <? 10) eqn:Elt.
    + apply Z.ltb_lt in Elt.
      assert (Hc : decimal c) by (eapply digit_small; [ exact Ed | | exact Elt ]; lia).
      assert (M := digits_count_mono 10 r (0 + 1) (0 * 10 + d)).
      split; [ intros E1; rewrite E1 in M; lia | intros H; exfalso; apply H; eauto ].
    + apply Z.ltb_ge in Elt; split; [ intros _ (d' & t & E & Hc) | reflexivity ].
      injection E as <- _; assert (Hc' := Hc); rewrite (digit_decimal c Hc) in Ed; injection Ed as <-.
      apply decimal_code in Hc'; lia.
  - split; [ intros _ (d' & t & E & Hc) | reflexivity ].
    injection E as <- _; rewrite (digit_decimal c Hc) in Ed; discriminate.
Qed.

Lemma digits_count_acc b l : forall n a a', fst (fst (digits b n a l)) = fst (fst (digits b n a' l)).
Proof.
  induction l as [|c l IH]; intros n a a'; cbn [digits]; [ reflexivity |].
  destruct (digit c) as [d|]; [| reflexivity ]; destruct (d <? b); [ apply IH | reflexivity ].
Qed.

Lemma mantissa_zero l : fst (fst (fst (mantissa 10 l))) = 0 <->
  ~ ((exists d t, l = d :: t /\ decimal d) \/ (exists d t, l = "."%char :: d :: t /\ decimal d)).
Proof.
  unfold mantissa.
  assert (Z1 := digits_zero 10 l eq_refl).
  assert (M1 := digits_count_mono 10 l 0 0).
  destruct (digits 10 0 0 l) as [[n1 v1] r1] eqn:E1; cbn [fst] in *.
  assert (R : n1 = 0 -> r1 = l).
  { intros Hz; destruct l as [|c l']; [ cbn in E1; congruence |]; cbn [digits] in E1.
    destruct (digit c) as [d|]; [| congruence ]; destruct (d <? 10); [| congruence ].
    assert (M := digits_count_mono 10 l' (0 + 1) (0 * 10 + d)); rewrite E1 in M; cbn in M; lia. }
  destruct r1 as [|c t].
  - cbn [fst]; rewrite Z1; split.
    + intros H [H' | (d & t & El & _)]; [ exact (H H') |].
      assert (n1 = 0) by (apply Z1; exact H); rewrite <- (R H0) in El; discriminate.
    + intros H H'; apply H; left; exact H'.
  - destruct (Ascii.eqb c ".") eqn:Ec.
    + apply Ascii.eqb_eq in Ec; subst c.
      assert (Z2 := digits_zero 10 t eq_refl).
      assert (M2 := digits_count_mono 10 t 0 v1).
      rewrite (digits_count_acc 10 t 0 0 v1) in Z2.
      destruct (digits 10 0 v1 t) as [[n2 v2] r2] eqn:E2; cbn [fst] in *.
      assert (P : n1 + n2 = 0 <-> ~ ((exists d u, l = d :: u /\ decimal d) \/
        (exists d u, l = "."%char :: d :: u /\ decimal d))).
      { split.
        - intros Hz; assert (H1 : n1 = 0) by lia; assert (H2 : n2 = 0) by lia.
          assert (El := R H1); apply Z1 in H1; apply Z2 in H2.
          intros [H | (d & u & Ed & Hd)]; [ exact (H1 H) |].
          apply H2; exists d, u; rewrite <- El in Ed; injection Ed as ->; auto.
        - intros H; assert (H1 : n1 = 0) by (apply Z1; tauto); assert (El := R H1).
          assert (H2 : n2 = 0).
          { apply Z2; intros (d & u & -> & Hd); apply H; right; exists d, u; rewrite <- El; auto. }
          lia. }
      destruct (n1 + n2 =? 0) eqn:Ez; cbn [fst].
      * apply Z.eqb_eq in Ez; tauto.
      * apply Z.eqb_neq in Ez; tauto.
    + cbn [fst]; rewrite Z1; split.
      * intros H [H' | (d & u & El & _)]; [ exact (H H') |].
        assert (Hz : n1 = 0) by (apply Z1; exact H); apply R in Hz; rewrite El in Hz; injection Hz as -> _.
        discriminate.
      * intros H H'; apply H; left; exact H'.
Qed.

Lemma inf_solid u r0 c t word : (word = lit "inf" \/ word = lit "nan") -> same u word -> u ++ r0 = c :: t ->
  ~ white c /\ c <> "-"%char /\ c <> "+"%char.
Proof.
  intros Hw Hu E.
  assert (K : tolower c = "i"%char \/ tolower c = "n"%char).
  { destruct Hw as [-> | ->]; inversion Hu as [|x y u' w' Hx Hu']; subst; cbn in E; injection E as -> _;
      apply tolower_twin in Hx; [ left | right ]; exact Hx. }
  repeat split.
  - intros Hc; apply isspace_white in Hc.
    assert (L := all_chars (fun c => implb (isspace c) (negb (Ascii.eqb (tolower c) "i") && negb (Ascii.eqb (tolower c) "n"))) eq_refl c).
    cbv beta in L; rewrite Hc in L; destruct K as [K | K]; rewrite K in L; discriminate.
  - intros ->; destruct K as [K | K]; discriminate.
  - intros ->; destruct K as [K | K]; discriminate.
Qed.

Lemma strtof_none l : strtof l = None <-> ~ has_number l.
Proof.
  destruct (lskip_split l) as (w & El & Hw & Hn).
  destruct (sign_spec (lskip l)) as (sg & r & Es & Hs & Esg & Hsg).
  unfold strtof; rewrite Esg.
  assert (K : has_number l <-> ((exists d t, r = d :: t /\ decimal d) \/
     (exists d t, r = "."%char :: d :: t /\ decimal d) \/
     (exists u t, r = u ++ t /\ (same u (lit "inf") \/ same u (lit "nan"))))).
  { split.
    - intros (w' & sg' & r' & E & Hw' & Hs' & H).
      replace r with r'; [ exact H |].
      apply (split_unique w' sg' r' w sg r); auto.
      + intros c u Ec; destruct H as [(d & t & -> & Hd) | [(d & t & -> & Hd) | (v & t & -> & Hv)]].
        * injection Ec as <- _; split; [ apply decimal_not_white | apply decimal_not_sign ]; exact Hd.
        * injection Ec as <- _; repeat split; [ apply isspace_not_white; reflexivity | discriminate | discriminate ].
        * destruct Hv as [Hv | Hv]; eapply inf_solid; try exact Hv; try exact Ec; [ left | right ]; reflexivity.
      + intros ->; destruct H as [(d & t & H & _) | [(d & t & H & _) | (v & t & H & Hv)]]; try discriminate.
        destruct v; [| discriminate ]; destruct Hv as [Hv | Hv]; inversion Hv.
      + rewrite <- Es, <- El, E; reflexivity.
      + rewrite <- Es; exact Hn.
    - intros H; exists w, sg, r; rewrite <- Es; auto. }
  rewrite K; clear K.
  assert (Li : forall c, In c (lit "inf") -> tolower c = c).
  { intros c [<-|[<-|[<-|[]]]]; reflexivity. }
  assert (Ln : forall c, In c (lit "nan") -> tolower c = c).
  { intros c [<-|[<-|[<-|[]]]]; reflexivity. }
  destruct (starts (lit "inf") r) eqn:E1.
  { apply (starts_spec _ _ Li) in E1; destruct E1 as (u & t & Eu & Hu).
    split; [ discriminate |]; intros H; exfalso; apply H; right; right; eauto. }
  destruct (starts (lit "nan") r) eqn:E2.
  { apply (starts_spec _ _ Ln) in E2; destruct E2 as (u & t & Eu & Hu).
    split; [ discriminate |]; intros H; exfalso; apply H; right; right; eauto. }
  assert (N3 : ~ (exists u t, r = u ++ t /\ (same u (lit "inf") \/ same u (lit "nan")))).
  { intros (u & t & Eu & [Hu | Hu]).
    - assert (X : starts (lit "inf") r = true) by (apply starts_spec; eauto); congruence.
    - assert (X : starts (lit "nan") r = true) by (apply starts_spec; eauto); congruence. }
  destruct (hex_prefix r) as [t|] eqn:Eh.
  { destruct (hex_prefix_zero _ _ Eh) as (x & ->).
    destruct (mantissa 16 t) as [[[n v] nf] q]; destruct (scale 2 _ v); split; [ discriminate |].
    intros H; exfalso; apply H; left; eexists _, _; split; [ reflexivity |]; unfold decimal; cbn; lia. }
  assert (M := mantissa_zero r).
  destruct (mantissa 10 r) as [[[n v] nf] q]; cbn [fst] in M.
  destruct (n =? 0) eqn:Ez.
  - apply Z.eqb_eq in Ez; apply M in Ez; split; [ intros _ | reflexivity ]; tauto.
  - apply Z.eqb_neq in Ez; destruct (scale 10 _ v); split; [ discriminate |].
    intros H; exfalso; apply Ez; apply M; tauto.
Qed.
