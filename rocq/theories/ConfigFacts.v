(** * Facts about the parameter file parser *)
From Coq Require Import Ascii String ZArith NArith List Bool Lia.
From Verif Require Import Config ConfigSpec.
Import ListNotations.
Local Open Scope nat_scope.
Local Open Scope bool_scope.
Local Notation length := List.length.

(** ** Characters *)
Lemma all_chars (P : ascii -> bool) :
  forallb P (map ascii_of_nat (seq 0 256)) = true -> forall c, P c = true.
Proof.
  intros H c; rewrite forallb_forall in H; apply H; apply in_map_iff.
  exists (nat_of_ascii c); split; [ apply ascii_nat_embedding |].
  apply in_seq; pose proof (nat_ascii_bounded c); lia.
Qed.

Lemma isspace_white c : isspace c = true <-> white c.
Proof.
  unfold isspace, white; cbn [In].
  rewrite orb_true_iff, andb_true_iff, !Nat.leb_le, Nat.eqb_eq; lia.
Qed.
Lemma isspace_not_white c : isspace c = false <-> ~ white c.
Proof. rewrite <- isspace_white; destruct (isspace c); intuition congruence. Qed.

Lemma tolower_twin a b : tolower a = tolower b <-> twin a b.
Proof.
  unfold twin, capital.
  assert (Ha := nat_ascii_bounded a); assert (Hb := nat_ascii_bounded b).
  assert (Ea : nat_of_ascii (tolower a) =
    if (65 <=? nat_of_ascii a) && (nat_of_ascii a <=? 90) then nat_of_ascii a + 32 else nat_of_ascii a).
  { unfold tolower; destruct ((65 <=? nat_of_ascii a) && (nat_of_ascii a <=? 90)) eqn:E; [| reflexivity].
    apply andb_true_iff in E; rewrite !Nat.leb_le in E; apply nat_ascii_embedding; lia. }
  assert (Eb : nat_of_ascii (tolower b) =
    if (65 <=? nat_of_ascii b) && (nat_of_ascii b <=? 90) then nat_of_ascii b + 32 else nat_of_ascii b).
  { unfold tolower; destruct ((65 <=? nat_of_ascii b) && (nat_of_ascii b <=? 90)) eqn:E; [| reflexivity].
    apply andb_true_iff in E; rewrite !Nat.leb_le in E; apply nat_ascii_embedding; lia. }
  assert (K : forall x y, x = y <-> nat_of_ascii x = nat_of_ascii y).
  { intros x y; split; [ intros ->; reflexivity |]; intros E.
    rewrite <- (ascii_nat_embedding x), <- (ascii_nat_embedding y), E; reflexivity. }
  rewrite (K (tolower a)), (K a), Ea, Eb.
  destruct (65 <=? nat_of_ascii a) eqn:E1, (nat_of_ascii a <=? 90) eqn:E2,
    (65 <=? nat_of_ascii b) eqn:E3, (nat_of_ascii b <=? 90) eqn:E4; cbn [andb];
    rewrite ?Nat.leb_le, ?Nat.leb_gt in *; lia.
Qed.

Lemma lower_same a b : map tolower a = map tolower b <-> same a b.
Proof.
  unfold same; revert b; induction a as [|x a IH]; intros [|y b]; cbn; split; intros H;
    try (constructor; fail); try discriminate; try (inversion H; fail).
  - injection H as H1 H2; constructor; [ apply tolower_twin; exact H1 | apply IH; exact H2 ].
  - inversion H; subst; f_equal; [ apply tolower_twin; assumption | apply IH; assumption ].
Qed.

Lemma same_refl a : same a a.
Proof. apply lower_same; reflexivity. Qed.

Lemma text_eqb_eq a b : text_eqb a b = true <-> a = b.
Proof. unfold text_eqb; destruct (list_eq_dec ascii_dec a b); intuition congruence. Qed.

(** A point has no other letter case, so the first point of a key ends the section. *)
Lemma tolower_dot c : tolower c = "."%char <-> c = "."%char.
Proof.
  assert (K : (if ascii_dec (tolower c) "."%char then true else false) = (if ascii_dec c "."%char then true else false)).
  { apply eqb_prop.
    exact (all_chars (fun c => Bool.eqb (if ascii_dec (tolower c) "."%char then true else false)
                                        (if ascii_dec c "."%char then true else false)) eq_refl c). }
  destruct (ascii_dec (tolower c) "."%char), (ascii_dec c "."%char); intuition congruence.
Qed.

Lemma first_dot (a b x y : text) :
  ~ In "."%char a -> ~ In "."%char b -> a ++ "."%char :: x = b ++ "."%char :: y -> a = b /\ x = y.
Proof.
  revert b; induction a as [|c a IH]; intros [|d b] Ha Hb E; cbn in E.
  - injection E as ->; auto.
  - injection E as E _; exfalso; apply Hb; left; congruence.
  - injection E as E _; exfalso; apply Ha; left; congruence.
  - injection E as -> E; apply IH in E.
    + destruct E as [-> ->]; auto.
    + intros H; apply Ha; right; exact H.
    + intros H; apply Hb; right; exact H.
Qed.

Lemma make_key_same s n s' n' : dotless s -> dotless s' ->
  (make_key s n = make_key s' n' <-> same s s' /\ same n n').
Proof.
  intros Hs Hs'; unfold make_key; rewrite !map_app; cbn [map app].
  replace (tolower "."%char) with "."%char by reflexivity.
  rewrite <- !lower_same; split.
  - intros E; apply first_dot in E; [ exact E | |].
    + intros H; apply in_map_iff in H; destruct H as (c & H1 & H2); apply (proj1 (tolower_dot c)) in H1; subst c; exact (Hs H2).
    + intros H; apply in_map_iff in H; destruct H as (c & H1 & H2); apply (proj1 (tolower_dot c)) in H1; subst c; exact (Hs' H2).
  - intros [-> ->]; reflexivity.
Qed.

Lemma make_key_congr s n s' n' : same s s' -> same n n' -> make_key s n = make_key s' n'.
Proof.
  rewrite <- !lower_same; intros H1 H2; unfold make_key; rewrite !map_app, H1, H2; reflexivity.
Qed.

(** ** Trimming *)
Lemma rstrip_mid a x t : ~ white x -> rstrip (a ++ x :: t) = a ++ x :: rstrip t.
Proof.
  intros Hx; apply isspace_not_white in Hx; induction a as [|c a IH]; cbn [rstrip app].
  - rewrite Hx; destruct (rstrip t); reflexivity.
  - rewrite IH; destruct a; reflexivity.
Qed.

Lemma rstrip_blank w : blank w -> rstrip w = [].
Proof.
  intros H; induction H as [|c w Hc Hw IH]; [ reflexivity |]; cbn [rstrip].
  rewrite IH; apply isspace_white in Hc; rewrite Hc; reflexivity.
Qed.

Lemma rstrip_app_blank l w : blank w -> rstrip (l ++ w) = rstrip l.
Proof.
  intros H; induction l as [|c l IH]; cbn [rstrip app]; [ apply rstrip_blank; exact H |].
  rewrite IH; reflexivity.
Qed.

Lemma rstrip_split l : exists w, l = rstrip l ++ w /\ blank w.
Proof.
  induction l as [|c l (w & E & Hw)]; [ exists []; split; [ reflexivity | constructor ] |].
  cbn [rstrip]; destruct (rstrip l) as [|d r] eqn:Er.
  - destruct (isspace c) eqn:Ec.
    + exists (c :: l); split; [ reflexivity |].
      constructor; [ apply isspace_white; exact Ec | rewrite E; exact Hw ].
    + exists w; split; [ cbn; f_equal; exact E | exact Hw ].
  - exists w; split; [ cbn; f_equal; exact E | exact Hw ].
Qed.

Lemma rstrip_last l t c : rstrip l = t ++ [c] -> ~ white c.
Proof.
  revert t; induction l as [|x l IH]; intros t E; cbn [rstrip] in E.
  - destruct t; discriminate.
  - destruct (rstrip l) as [|d r] eqn:Er.
    + destruct (isspace x) eqn:Ex; [ destruct t; discriminate |].
      destruct t as [|y t]; [| destruct t; discriminate ].
      injection E as <-; apply isspace_not_white; exact Ex.
    + destruct t as [|y t]; [ discriminate |].
      injection E as <- E; exact (IH t E).
Qed.

Lemma snoc_case {A} (l : list A) : l = [] \/ exists t c, l = t ++ [c].
Proof. induction l as [|c l _] using rev_ind; [ left; reflexivity | right; eauto ]. Qed.

Lemma rstrip_solid n : (forall t c, n = t ++ [c] -> ~ white c) -> rstrip n = n.
Proof.
  intros Hn; destruct (snoc_case n) as [-> | (t & c & ->)]; [ reflexivity |].
  rewrite rstrip_mid by (eapply Hn; reflexivity); reflexivity.
Qed.

Lemma rstrip_solid_app n a : (forall t c, n = t ++ [c] -> ~ white c) -> n <> [] ->
  rstrip (n ++ a) = n ++ rstrip a.
Proof.
  intros Hn H0; destruct (snoc_case n) as [-> | (t & c & ->)]; [ congruence |].
  rewrite <- !app_assoc; cbn [app]; apply rstrip_mid; eapply Hn; reflexivity.
Qed.

Lemma lskip_blank w l : blank w -> lskip (w ++ l) = lskip l.
Proof.
  intros H; induction H as [|c w Hc Hw IH]; [ reflexivity |]; cbn [lskip app].
  apply isspace_white in Hc; rewrite Hc; exact IH.
Qed.

Lemma lskip_solid l : (forall c t, l = c :: t -> ~ white c) -> lskip l = l.
Proof.
  destruct l as [|c l]; [ reflexivity |]; intros H; cbn [lskip].
  assert (E : isspace c = false) by (apply isspace_not_white; eapply H; reflexivity).
  rewrite E; reflexivity.
Qed.

Lemma lskip_split l : exists w, l = w ++ lskip l /\ blank w /\ (forall c t, lskip l = c :: t -> ~ white c).
Proof.
  induction l as [|c l (w & E & Hw & Hs)].
  - exists []; repeat split; [ constructor | intros; discriminate ].
  - cbn [lskip]; destruct (isspace c) eqn:Ec.
    + exists (c :: w); split; [ cbn; f_equal; exact E |]; split; [| exact Hs ].
      constructor; [ apply isspace_white; exact Ec | exact Hw ].
    + exists []; repeat split; [ constructor |].
      intros d t Ed; injection Ed as <- <-; apply isspace_not_white; exact Ec.
Qed.

Lemma semicolon_not_white : ~ white ";"%char.
Proof. apply isspace_not_white; reflexivity. Qed.
Lemma equal_not_white : ~ white "="%char.
Proof. apply isspace_not_white; reflexivity. Qed.

(** ** Searching *)
Lemma uncommented_nil : uncommented [].
Proof. intros a s b E; destruct a; discriminate. Qed.
Lemma uncommented_tail x l : uncommented (x :: l) -> uncommented l.
Proof. intros H a s b E; apply (H (x :: a) s b); cbn; f_equal; exact E. Qed.
Lemma uncommented_app_l a b : uncommented (a ++ b) -> uncommented a.
Proof.
  intros H u s v E; apply (H u s (v ++ b)); rewrite E, <- app_assoc; reflexivity.
Qed.
Lemma uncommented_cons x l : uncommented l ->
  (forall t, l = ";"%char :: t -> ~ white x) -> uncommented (x :: l).
Proof.
  intros H H0 [|y a] s b E; injection E as -> E.
  - exact (H0 _ E).
  - exact (H a s b E).
Qed.

(** The result: what precedes holds neither the character nor the start of a comment. *)
Lemma find_from_spec was c l a b : find_from was c l = (a, b) ->
  l = a ++ b /\ (forall x, c = Some x -> ~ In x a) /\ uncommented a /\
  (was = true -> forall t, a <> ";"%char :: t) /\
  (b = [] \/ exists x t, b = x :: t /\
     (c = Some x \/ x = ";"%char /\ (was = true /\ a = [] \/ exists u s, a = u ++ [s] /\ white s))).
Proof.
  revert was a b; induction l as [|x l IH]; intros was a b E; cbn [find_from] in E.
  - injection E as <- <-; repeat split; auto using uncommented_nil; discriminate.
  - destruct (is_char c x || was && Ascii.eqb x semicolon) eqn:Es.
    + injection E as <- <-; repeat split; auto using uncommented_nil; [ discriminate |].
      right; exists x, l; split; [ reflexivity |].
      apply orb_true_iff in Es; destruct Es as [Es | Es].
      * left; destruct c as [y|]; [| discriminate ]; cbn in Es; apply Ascii.eqb_eq in Es; congruence.
      * right; apply andb_true_iff in Es; destruct Es as [E1 E2]; apply Ascii.eqb_eq in E2; auto.
    + destruct (find_from (isspace x) c l) as [a' b'] eqn:Ef; injection E as <- <-.
      apply orb_false_iff in Es; destruct Es as [E1 E2].
      destruct (IH _ _ _ Ef) as (Hl & Hc & Hu & Hw & Hb).
      repeat split.
      * cbn; f_equal; exact Hl.
      * intros y -> [-> | Hy]; [ cbn in E1; rewrite Ascii.eqb_refl in E1; discriminate | exact (Hc y eq_refl Hy) ].
      * apply uncommented_cons; [ exact Hu |].
        intros t Et Hx; apply isspace_white in Hx; exact (Hw Hx t Et).
      * intros -> t Et; injection Et as -> _; discriminate E2.
      * destruct Hb as [-> | (y & t & -> & Hy)]; [ left; reflexivity | right; exists y, t; split; [ reflexivity |]].
        destruct Hy as [Hy | (Hy & H)]; [ left; exact Hy | right; split; [ exact Hy | right ]].
        destruct H as [(Hx & ->) | (u & s & -> & Hs)].
        -- exists [], x; split; [ reflexivity | apply isspace_white; exact Hx ].
        -- exists (x :: u), s; split; [ reflexivity | exact Hs ].
Qed.

Lemma is_char_false c x : (forall y, c = Some y -> x <> y) -> is_char c x = false.
Proof.
  destruct c as [y|]; [| reflexivity ]; intros H; cbn; apply Ascii.eqb_neq; apply H; reflexivity.
Qed.

(** Skips over a part without the character and without a comment. *)
Lemma find_from_skip c n l was :
  (forall x, c = Some x -> ~ In x n) -> uncommented n -> (was = true -> forall t, n <> ";"%char :: t) ->
  find_from was c (n ++ l) =
  (n ++ fst (find_from (match n with [] => was | _ => isspace (last n nul) end) c l),
   snd (find_from (match n with [] => was | _ => isspace (last n nul) end) c l)).
Proof.
  revert was; induction n as [|x n IH]; intros was Hc Hu Hw.
  - cbn [app]; destruct (find_from was c l); reflexivity.
  - cbn [app find_from].
    replace (is_char c x || was && Ascii.eqb x semicolon) with false.
    + rewrite IH.
      * destruct n; reflexivity.
      * intros y Ey Hy; apply (Hc y Ey); right; exact Hy.
      * eapply uncommented_tail; exact Hu.
      * intros Hx t ->; apply (Hu [] x t eq_refl), isspace_white, Hx.
    + symmetry; apply orb_false_iff; split.
      * apply is_char_false; intros y Ey ->; apply (Hc y Ey); left; reflexivity.
      * destruct was; [| reflexivity ]; cbn; apply Ascii.eqb_neq; intros ->; exact (Hw eq_refl n eq_refl).
Qed.

Lemma find_hit c n l : ~ In c n -> uncommented n ->
  find_char_or_comment (Some c) (n ++ c :: l) = (n, c :: l).
Proof.
  intros Hc Hu; unfold find_char_or_comment; rewrite find_from_skip.
  - cbn [find_from is_char]; rewrite Ascii.eqb_refl; cbn [orb fst snd]; rewrite app_nil_r; reflexivity.
  - intros x Ex; injection Ex as <-; exact Hc.
  - exact Hu.
  - discriminate.
Qed.

Lemma find_none n : uncommented n -> find_char_or_comment None n = (n, []).
Proof.
  intros Hu; unfold find_char_or_comment; rewrite <- (app_nil_r n) at 1; rewrite find_from_skip.
  - cbn; rewrite app_nil_r; reflexivity.
  - discriminate.
  - exact Hu.
  - discriminate.
Qed.

Lemma find_comment n s l : uncommented (n ++ s) -> s <> [] -> blank s ->
  find_char_or_comment None ((n ++ s) ++ ";"%char :: l) = (n ++ s, ";"%char :: l).
Proof.
  intros Hu H0 Hs; unfold find_char_or_comment; rewrite find_from_skip.
  - destruct (snoc_case s) as [-> | (s' & x & ->)]; [ congruence |].
    assert (Ex : isspace x = true).
    { apply isspace_white; apply Forall_app in Hs; destruct Hs as [_ Hs]; inversion Hs; assumption. }
    rewrite (app_assoc n s' [x]), last_last.
    destruct ((n ++ s') ++ [x]) eqn:E; [ destruct (n ++ s'); discriminate |]; rewrite <- E.
    cbn [find_from is_char]; rewrite Ex; cbn; rewrite app_nil_r; reflexivity.
  - discriminate.
  - exact Hu.
  - discriminate.
Qed.

(** No hit when the character does not come before the end or a comment. *)
Lemma find_miss c n t : c <> ";"%char -> ~ white c -> ~ In c n ->
  (t = [] \/ exists s u, t = s :: ";"%char :: u /\ white s) ->
  match find_char_or_comment (Some c) (n ++ t) with (_, x :: _) => x <> c | (_, []) => True end.
Proof.
  intros H0 Hw Hn Ht.
  destruct (find_char_or_comment (Some c) (n ++ t)) as [a [|x b]] eqn:E; [ exact I |].
  intros ->; destruct (find_from_spec _ _ _ _ _ E) as (El & Ha & Hu & _ & _).
  assert (Ha' := Ha c eq_refl).
  destruct Ht as [-> | (s & u & -> & Hs)].
  - rewrite app_nil_r in El; apply Hn; rewrite El; apply in_or_app; right; left; reflexivity.
  - clear Ha E; revert n Hn El; induction a as [|y a IH]; intros n Hn El.
    + destruct n as [|z n]; cbn in El; injection El as -> El; [ exact (Hw Hs) | apply Hn; left; reflexivity ].
    + destruct n as [|z n]; cbn in El.
      * injection El as -> El; destruct a as [|z a]; cbn in El; injection El as <- El; [ congruence |].
        exact (Hu [] y a eq_refl Hs).
      * injection El as -> El; apply (IH (uncommented_tail _ _ Hu)) in El; [ exact El | |].
        -- intros H; apply Ha'; right; exact H.
        -- intros H; apply Hn; right; exact H.
Qed.

Lemma uncommented_app_blank n s : uncommented n -> blank s -> uncommented (n ++ s).
Proof.
  intros Hn Hs; induction n as [|x n IH]; cbn [app].
  - intros a y b E; rewrite E in Hs; apply Forall_app in Hs; destruct Hs as [_ Hs].
    inversion Hs as [|? ? ? Hs']; inversion Hs' as [|? ? Hbad]; exfalso; exact (semicolon_not_white Hbad).
  - apply uncommented_cons; [ apply IH; eapply uncommented_tail; exact Hn |].
    intros t E; destruct n as [|y n]; cbn in E.
    + rewrite E in Hs; inversion Hs; exfalso; exact (semicolon_not_white H1).
    + injection E as -> E; exact (Hn [] x n eq_refl).
Qed.

(** ** One line *)
Lemma margin_no_more (prev w s : text) : at_margin (is_pending prev) w ->
  (match prev with [] => false | _ => true end) && negb (length s =? length (w ++ s)) = false.
Proof.
  intros [_ H]; destruct prev; [ reflexivity |].
  rewrite (H eq_refl); cbn [app]; rewrite Nat.eqb_refl; reflexivity.
Qed.

(** What a line does to the state. *)
Definition act (st : ini) (i : item) : ini :=
  let k := S (i_lineno st) in
  match i with
  | Nothing => mkini (i_section st) (i_prev st) (i_values st) k (i_error st)
  | Section n => mkini (cut n) [] (i_values st) k (i_error st)
  | Setting n v => mkini (i_section st) (cut n) ((make_key (i_section st) n, v) :: i_values st) k (i_error st)
  | More v => mkini (i_section st) (i_prev st) ((make_key (i_section st) (i_prev st), v) :: i_values st) k (i_error st)
  | Wrong => mkini (i_section st) (i_prev st) (i_values st) k (first_error (i_error st) k)
  end.

Lemma nonwhite_neq c x : white x -> isspace c = false -> Ascii.eqb x c = false.
Proof. intros Hx Hc; apply Ascii.eqb_neq; intros ->; apply isspace_white in Hx; congruence. Qed.

Lemma parse_line_reads st l i : reads (is_pending (i_prev st)) l i -> parse_line st l = act st i.
Proof.
  destruct st as [sec prev vals ln err]; cbn [i_prev]; intros H; unfold parse_line.
  cbn [i_section i_prev i_values i_lineno i_error]; inversion H; subst; clear H.
  - (* blank *)
    rewrite rstrip_blank by assumption; reflexivity.
  - (* comment *)
    assert (Hc : ~ white c).
    { destruct H1 as [-> | ->]; apply isspace_not_white; reflexivity. }
    rewrite rstrip_mid by exact Hc.
    destruct H0 as [Hw Hm]; rewrite lskip_blank by exact Hw.
    rewrite lskip_solid by (intros ? ? E; injection E as <- <-; exact Hc).
    rewrite margin_no_more by (split; assumption).
    replace (Ascii.eqb c ";" || Ascii.eqb c "#") with true; [ reflexivity |].
    destruct H1 as [-> | ->]; reflexivity.
  - (* section *)
    assert (Hc : ~ white "["%char) by (apply isspace_not_white; reflexivity).
    assert (Hd : ~ white "]"%char) by (apply isspace_not_white; reflexivity).
    rewrite rstrip_mid by exact Hc; rewrite rstrip_mid by exact Hd.
    destruct H0 as [Hw Hm]; rewrite lskip_blank by exact Hw.
    rewrite lskip_solid by (intros ? ? E; injection E as <- <-; exact Hc).
    rewrite margin_no_more by (split; assumption).
    cbn [orb Ascii.eqb Bool.eqb]; rewrite find_hit by assumption; reflexivity.
  - (* setting *)
    rewrite !app_assoc, <- (app_assoc (w ++ n)), <- app_assoc; cbn [app].
    rewrite (app_assoc w), (app_assoc (w ++ n)).
    rewrite rstrip_mid by exact equal_not_white.
    rewrite <- (app_assoc w n a), <- (app_assoc w (n ++ a)).
    destruct H0 as [Hw Hm]; rewrite lskip_blank by exact Hw.
    assert (Hsolid : forall d t, (n ++ a) ++ "="%char :: rstrip ((b ++ v) ++ c) = d :: t -> ~ white d).
    { intros d t E; destruct n as [|x n].
      - rewrite (H6 eq_refl) in E; cbn in E; injection E as <- _; exact equal_not_white.
      - cbn in E; injection E as <- _; eapply (proj1 H1); reflexivity. }
    rewrite lskip_solid by exact Hsolid.
    rewrite margin_no_more by (split; assumption).
    assert (Hfirst : exists d t, (n ++ a) ++ "="%char :: rstrip ((b ++ v) ++ c) = d :: t /\
      Ascii.eqb d ";" = false /\ Ascii.eqb d "#" = false /\ Ascii.eqb d "[" = false).
    { destruct n as [|x n].
      - rewrite (H6 eq_refl); cbn; eexists _, _; repeat split; reflexivity.
      - cbn; eexists _, _; split; [ reflexivity |].
        destruct (H5 x n eq_refl) as [Ho Hb]; unfold opening in Ho; rewrite !Ascii.eqb_neq; intuition. }
    destruct Hfirst as (d & t & Ed & E1 & E2 & E3); rewrite Ed, E1, E2, E3; cbn [orb]; rewrite <- Ed.
    rewrite find_hit.
    2: { intros Hi; apply in_app_or in Hi; destruct Hi as [Hi|Hi]; [ exact (H3 Hi) |].
         apply (proj1 (Forall_forall _ _) H2) in Hi; exact (equal_not_white Hi). }
    2: { apply uncommented_app_blank; assumption. }
    cbn [Ascii.eqb Bool.eqb].
    rewrite rstrip_app_blank by assumption; rewrite (rstrip_solid n) by (exact (proj2 H1)).
    unfold act; cbn [i_section i_prev i_values i_lineno i_error].
    assert (Ev : rstrip (fst (find_char_or_comment None (lskip (rstrip ((b ++ v) ++ c))))) = v).
    { rewrite <- app_assoc; destruct (snoc_case v) as [-> | (v' & y & Ey)].
      - assert (Hc : blank c) by (destruct H10 as [Hc | [Hc _]]; [ exact Hc | congruence ]).
        rewrite (rstrip_blank (b ++ [] ++ c)) by (apply Forall_app; split; assumption); reflexivity.
      - assert (Hy : ~ white y) by (eapply (proj2 H8); exact Ey).
        assert (Es : rstrip (b ++ v ++ c) = b ++ v ++ rstrip c).
        { rewrite Ey, <- app_assoc, !app_assoc, <- app_assoc; cbn [app].
          rewrite rstrip_mid by exact Hy.
          rewrite <- !app_assoc; reflexivity. }
        rewrite Es, lskip_blank by assumption.
        rewrite lskip_solid.
        2: { intros d0 t0 E; destruct v as [|x v]; [ destruct v'; discriminate |].
             cbn in E; injection E as <- _; eapply (proj1 H8); reflexivity. }
        destruct H10 as [Hc | (Hv & s & u & -> & Hs & H0)].
        + rewrite (rstrip_blank c) by exact Hc; rewrite app_nil_r, find_none by assumption; cbn [fst].
          apply rstrip_solid; exact (proj2 H8).
        + rewrite (rstrip_mid s ";"%char u) by exact semicolon_not_white; rewrite app_assoc, find_comment; cbn [fst].
          * rewrite rstrip_app_blank by exact Hs; apply rstrip_solid; exact (proj2 H8).
          * apply uncommented_app_blank; assumption.
          * exact H0.
          * exact Hs. }
    cbv zeta; rewrite Ev; reflexivity.
  - (* more *)
    rewrite app_assoc.
    rewrite rstrip_app_blank by assumption.
    rewrite rstrip_solid.
    2: { intros t d E; destruct (snoc_case v) as [-> | (v' & y & ->)]; [ congruence |].
         rewrite app_assoc in E; apply app_inj_tail in E; destruct E as [_ <-].
         eapply (proj2 H4); reflexivity. }
    rewrite lskip_blank by assumption; rewrite lskip_solid by (exact (proj1 H4)).
    destruct v as [|x v]; [ congruence |].
    destruct prev as [|p0 prev]; [ discriminate |].
    replace (negb _) with true; [ reflexivity |].
    symmetry; apply negb_true_iff, Nat.eqb_neq; rewrite app_length.
    destruct w; [ congruence | cbn; lia ].
  - (* no closing bracket *)
    assert (Hc : ~ white "["%char) by (apply isspace_not_white; reflexivity).
    rewrite rstrip_mid by exact Hc.
    destruct H0 as [Hw Hm]; rewrite lskip_blank by exact Hw.
    rewrite lskip_solid by (intros ? ? E; injection E as <- <-; exact Hc).
    rewrite margin_no_more by (split; assumption).
    cbn [orb Ascii.eqb Bool.eqb].
    assert (K : exists n' t', rstrip (n ++ t) = n' ++ t' /\ ~ In "]"%char n' /\
      (t' = [] \/ exists s u, t' = s :: ";"%char :: u /\ white s)).
    { destruct H2 as [-> | (s & u & -> & Hs)].
      - rewrite app_nil_r; destruct (rstrip_split n) as (w' & En & _).
        exists (rstrip n), []; rewrite app_nil_r; repeat split; [| left; reflexivity ].
        intros Hi; apply H1; rewrite En; apply in_or_app; left; exact Hi.
      - exists n, (s :: ";"%char :: rstrip u); repeat split; [| exact H1 | right; eauto ].
        change (n ++ s :: ";"%char :: u) with (n ++ [s] ++ ";"%char :: u).
        rewrite app_assoc, rstrip_mid by exact semicolon_not_white.
        rewrite <- app_assoc; reflexivity. }
    destruct K as (n' & t' & -> & Hn' & Ht').
    assert (M := find_miss "]"%char n' t' ltac:(discriminate) ltac:(apply isspace_not_white; reflexivity) Hn' Ht').
    destruct (find_char_or_comment (Some "]"%char) (n' ++ t')) as [a0 [|x b0]]; [ reflexivity |].
    apply Ascii.eqb_neq in M; rewrite M; reflexivity.
  - (* no equal sign *)
    rewrite rstrip_mid by assumption.
    destruct H0 as [Hw Hm]; rewrite lskip_blank by exact Hw.
    rewrite lskip_solid by (intros ? ? E; injection E as <- <-; assumption).
    rewrite margin_no_more by (split; assumption).
    assert (E1 : Ascii.eqb x ";" || Ascii.eqb x "#" = false).
    { apply orb_false_iff; rewrite !Ascii.eqb_neq; unfold opening in H2; intuition. }
    rewrite E1; apply Ascii.eqb_neq in H3; rewrite H3.
    assert (K : exists n' t', x :: rstrip (n ++ t) = n' ++ t' /\ ~ In "="%char n' /\
      (t' = [] \/ exists s u, t' = s :: ";"%char :: u /\ white s)).
    { destruct H6 as [-> | (s & u & -> & Hs)].
      - rewrite app_nil_r; destruct (rstrip_split n) as (w' & En & _).
        exists (x :: rstrip n), []; rewrite app_nil_r; repeat split; [| left; reflexivity ].
        intros [Hi|Hi]; [ congruence |]; apply H5; rewrite En; apply in_or_app; left; exact Hi.
      - exists (x :: n), (s :: ";"%char :: rstrip u); repeat split; [| intros [Hi|Hi]; [ congruence | exact (H5 Hi) ] | right; eauto ].
        cbn [app]; f_equal.
        change (n ++ s :: ";"%char :: u) with (n ++ [s] ++ ";"%char :: u).
        rewrite app_assoc, rstrip_mid by exact semicolon_not_white.
        rewrite <- app_assoc; reflexivity. }
    destruct K as (n' & t' & -> & Hn' & Ht').
    assert (M := find_miss "="%char n' t' ltac:(discriminate) equal_not_white Hn' Ht').
    destruct (find_char_or_comment (Some "="%char) (n' ++ t')) as [a0 [|y b0]]; [ reflexivity |].
    apply Ascii.eqb_neq in M; rewrite M; reflexivity.
Qed.

(** ** Every line is read in some way *)
Lemma find_total c l was : c <> ";"%char ->
  (exists n t, l = n ++ c :: t /\ ~ In c n /\ uncommented n) \/
  (exists n t, l = n ++ t /\ ~ In c n /\
     (t = [] \/ (exists u, was = true /\ n = [] /\ t = ";"%char :: u) \/
      exists s u, t = s :: ";"%char :: u /\ white s)).
Proof.
  intros Hc; destruct (find_from was (Some c) l) as [a b] eqn:E.
  destruct (find_from_spec _ _ _ _ _ E) as (El & Ha & Hu & _ & Hb).
  assert (Ha' := Ha c eq_refl).
  destruct Hb as [-> | (x & t & -> & [Hx | (-> & Hx)])].
  - right; exists a, []; auto.
  - injection Hx as <-; left; exists a, t; auto.
  - right; destruct Hx as [(Hw & ->) | (u & s & -> & Hs)].
    + exists [], (";"%char :: t); split; [ exact El |]; split; [ intros [] | right; left; eauto ].
    + exists u, (s :: ";"%char :: t); split; [ rewrite El, <- app_assoc; reflexivity |]; split.
      * intros H; apply Ha'; apply in_or_app; left; exact H.
      * right; right; eauto.
Qed.

(** A text is its leading white space, a trimmed part and trailing white space. *)
Lemma three_parts l : exists w v c, l = w ++ v ++ c /\ blank w /\ trimmed v /\ blank c.
Proof.
  destruct (lskip_split l) as (w & El & Hw & Hs); destruct (rstrip_split (lskip l)) as (c & Ec & Hc).
  exists w, (rstrip (lskip l)), c; split; [ congruence |]; split; [ exact Hw |]; split; [| exact Hc ].
  split; [| intros t d E; exact (rstrip_last _ _ _ E) ].
  intros d t E; apply (Hs d (t ++ c)); rewrite Ec, E; reflexivity.
Qed.

Lemma value_parts l : exists b v c, l = b ++ v ++ c /\ blank b /\ trimmed v /\ uncommented v /\
  (blank c \/ v <> [] /\ exists s t, c = s ++ ";"%char :: t /\ blank s /\ s <> []).
Proof.
  destruct (lskip_split l) as (b & El & Hb & Hs).
  destruct (find_from false None (lskip l)) as [a r] eqn:Ef.
  destruct (find_from_spec _ _ _ _ _ Ef) as (Ea & _ & Hu & _ & Hr).
  destruct (rstrip_split a) as (s & Es & Hsb).
  assert (Ht : trimmed (rstrip a)).
  { split; [| intros t d E; exact (rstrip_last _ _ _ E) ].
    intros d t E; apply (Hs d (t ++ s ++ r)); rewrite Ea, Es at 1.
    rewrite E, <- app_assoc; reflexivity. }
  exists b, (rstrip a), (s ++ r); split; [| split; [ exact Hb | split; [ exact Ht | split ]]].
  - rewrite El at 1; f_equal; rewrite Ea; rewrite Es at 1; rewrite <- app_assoc; reflexivity.
  - rewrite Es in Hu; eapply uncommented_app_l; exact Hu.
  - destruct Hr as [-> | (x & t & -> & [Hx | (-> & Hx)])].
    + left; rewrite app_nil_r; exact Hsb.
    + discriminate.
    + right; destruct Hx as [(Hx & _) | (u & y & Ey & Hy)]; [ discriminate |]; split.
      * intros E0; rewrite E0 in Es; cbn in Es.
        destruct a as [|z a]; [ destruct u; discriminate |].
        apply (Hs z (a ++ ";"%char :: t)); [ rewrite Ea; reflexivity |].
        rewrite <- Es in Hsb; inversion Hsb; assumption.
      * exists s, t; split; [ reflexivity |]; split; [ exact Hsb |].
        intros ->; rewrite app_nil_r in Es; rewrite Ey in Es.
        exact (rstrip_last _ _ _ (eq_sym Es) Hy).
Qed.

Theorem reads_total pending l : exists i, reads pending l i.
Proof.
  destruct (lskip_split l) as (w & El & Hw & Hs).
  destruct (lskip l) as [|x t] eqn:Est.
  { exists Nothing; rewrite El, app_nil_r; constructor; exact Hw. }
  assert (Hx : ~ white x) by (eapply Hs; reflexivity).
  assert (Cm : (pending = true /\ w <> []) \/ at_margin pending w).
  { unfold at_margin; destruct pending, w; auto; try (right; split; [ exact Hw | congruence ]).
    left; split; congruence. }
  destruct Cm as [(Hp & Hw0) | Hm].
  { destruct (rstrip_split (x :: t)) as (c & Ec & Hc).
    exists (More (rstrip (x :: t))); rewrite El; rewrite Ec at 1.
    apply reads_more; auto.
    - change (x :: t) with ([] ++ x :: t); rewrite rstrip_mid by exact Hx; discriminate.
    - split; [| intros u d E; exact (rstrip_last _ _ _ E) ].
      change (x :: t) with ([] ++ x :: t); rewrite rstrip_mid by exact Hx.
      intros d u E; injection E as <- _; exact Hx. }
  destruct (ascii_dec x ";"%char) as [-> | N1].
  { exists Nothing; rewrite El; apply reads_comment; [ exact Hm | left; reflexivity ]. }
  destruct (ascii_dec x "#"%char) as [-> | N2].
  { exists Nothing; rewrite El; apply reads_comment; [ exact Hm | right; reflexivity ]. }
  assert (No : ~ opening x) by (unfold opening; tauto).
  destruct (ascii_dec x "["%char) as [-> | N3].
  { destruct (find_total "]"%char t false ltac:(discriminate)) as [(n & u & -> & Hn & Hu) | (n & u & -> & Hn & Hu)].
    - exists (Section n); rewrite El; apply reads_section; assumption.
    - exists Wrong; rewrite El; apply reads_unclosed; [ exact Hm | exact Hn |].
      destruct Hu as [Hu | [(v & Hf & _) | Hu]]; [ auto | discriminate | auto ]. }
  destruct (find_total "="%char (x :: t) false ltac:(discriminate)) as [(n & u & E & Hn & Hu) | (n & u & E & Hn & Hu)].
  - destruct (value_parts u) as (b & v & c & -> & Hb & Hv & Huv & Hc).
    destruct (rstrip_split n) as (a & Ea & Ha).
    exists (Setting (rstrip n) v).
    assert (En : l = w ++ rstrip n ++ a ++ "="%char :: b ++ v ++ c).
    { rewrite El, E; f_equal; rewrite (app_assoc (rstrip n) a), <- Ea; reflexivity. }
    rewrite En; apply reads_setting; auto.
    + split; [| intros y d Ed; exact (rstrip_last _ _ _ Ed) ].
      intros d y Ed; rewrite Ed in Ea; rewrite Ea in E; cbn in E; injection E as -> _; exact Hx.
    + intros Hi; apply Hn; rewrite Ea; apply in_or_app; left; exact Hi.
    + rewrite Ea in Hu; eapply uncommented_app_l; exact Hu.
    + intros d y Ed; rewrite Ed in Ea; rewrite Ea in E; cbn in E; injection E as -> _; split; assumption.
    + intros E0; rewrite E0 in Ea; cbn in Ea; rewrite Ea in E.
      destruct a as [|d a]; [ reflexivity |]; cbn in E; injection E as -> _.
      inversion Ha; contradiction.
  - destruct n as [|y n].
    + exfalso; cbn in E; destruct Hu as [-> | [(v & Hf & _) | (s & v & -> & Hsw)]]; [ discriminate | discriminate |].
      injection E as -> _; contradiction.
    + cbn in E; injection E as <- ->; exists Wrong; rewrite El.
      apply reads_no_equal; auto.
      * intros ->; apply Hn; left; reflexivity.
      * intros Hi; apply Hn; right; exact Hi.
      * destruct Hu as [Hu | [(v & Hf & _) | Hu]]; [ auto | discriminate | auto ].
Qed.

(** ** All lines *)
Definition key_value (x : chars * chars * chars) : text * text := (make_key (fst (fst x)) (snd (fst x)), snd x).

Lemma fold_means k sec prev ls out err : means k sec prev ls out err ->
  forall vals e0, (k > 0)%nat ->
  exists sec' prev',
  fold_left parse_line ls (mkini sec prev vals (k - 1) e0) =
  mkini sec' prev' (rev (map key_value out) ++ vals) (k - 1 + length ls)
    (match e0 with O => match err with Some e => e | None => 0 end | _ => e0 end).
Proof.
  induction 1 as [| ? ? ? ? ? ? ? R M IH | ? ? ? ? ? ? ? ? R M IH | ? ? ? ? ? ? ? ? ? R M IH
    | ? ? ? ? ? ? ? ? R M IH | ? ? ? ? ? ? ? R M IH ]; intros vals e0 Hk; cbn [fold_left].
  { exists sec, prev; cbn; rewrite Nat.add_0_r; destruct e0; reflexivity. }
  all: rewrite (parse_line_reads (mkini sec prev vals (k - 1) e0) _ _ R); unfold act; cbn [i_section i_prev i_values i_lineno i_error];
    replace (S (k - 1)) with (k + 1 - 1) by lia.
  1: destruct (IH vals e0 ltac:(lia)) as (s' & p' & ->).
  2: destruct (IH vals e0 ltac:(lia)) as (s' & p' & ->).
  3: destruct (IH ((make_key sec n, v) :: vals) e0 ltac:(lia)) as (s' & p' & ->).
  4: destruct (IH ((make_key sec prev, v) :: vals) e0 ltac:(lia)) as (s' & p' & ->).
  5: destruct (IH vals (first_error e0 (k + 1 - 1)) ltac:(lia)) as (s' & p' & ->).
  all: exists s', p'; cbn [map rev length]; rewrite <- ?app_assoc; cbn [app];
    replace (k + 1 - 1 + length ls) with (k - 1 + S (length ls)) by lia; try reflexivity.
  unfold first_error; replace (k + 1 - 1) with k by lia.
  destruct e0; cbn [Nat.eqb]; [ destruct k; [ lia | reflexivity ] | reflexivity ].
Qed.

Lemma means_total ls : forall k sec prev, exists out err, means k sec prev ls out err.
Proof.
  induction ls as [|l ls IH]; intros k sec prev; [ do 2 eexists; constructor |].
  destruct (reads_total (is_pending prev) l) as (i & R); destruct i.
  - destruct (IH (k + 1) sec prev) as (o & e & M); do 2 eexists; eapply means_nothing; eassumption.
  - destruct (IH (k + 1) (cut name) []) as (o & e & M); do 2 eexists; eapply means_section; eassumption.
  - destruct (IH (k + 1) sec (cut name)) as (o & e & M); do 2 eexists; eapply means_setting; eassumption.
  - destruct (IH (k + 1) sec prev) as (o & e & M); do 2 eexists; eapply means_more; eassumption.
  - destruct (IH (k + 1) sec prev) as (o & e & M); do 2 eexists; eapply means_wrong; eassumption.
Qed.

(** ** Splitting into lines *)
Lemma getlines_line l acc t : ~ In eol l -> getlines acc (l ++ eol :: t) = (rev acc ++ l) :: getlines [] t.
Proof.
  revert acc; induction l as [|c l IH]; intros acc H; cbn [app getlines].
  - change (Ascii.eqb eol newline) with true; cbv iota; rewrite app_nil_r; reflexivity.
  - replace (Ascii.eqb c newline) with false.
    + rewrite IH by (intros Hi; apply H; right; exact Hi); cbn [rev]; rewrite <- app_assoc; reflexivity.
    + symmetry; apply Ascii.eqb_neq; intros ->; apply H; left; reflexivity.
Qed.
Lemma getlines_last l acc : ~ In eol l -> rev acc ++ l <> [] -> getlines acc l = [rev acc ++ l].
Proof.
  revert acc; induction l as [|c l IH]; intros acc H H0; cbn [getlines].
  - rewrite app_nil_r in *; destruct acc; [ exfalso; apply H0; reflexivity | reflexivity ].
  - replace (Ascii.eqb c newline) with false.
    + rewrite IH; cbn [rev]; rewrite <- ?app_assoc; [ reflexivity | | exact H0 ].
      intros Hi; apply H; right; exact Hi.
    + symmetry; apply Ascii.eqb_neq; intros ->; apply H; left; reflexivity.
Qed.

Lemma buffer_lines_app front t : Forall (fun l => ~ In eol l) front ->
  buffer_lines (concat (map (fun l => l ++ [eol]) front) ++ t) = front ++ buffer_lines t.
Proof.
  unfold buffer_lines; induction 1 as [|l front Hl Hf IH]; [ reflexivity |].
  cbn [map concat app]; rewrite <- !app_assoc; cbn [app].
  rewrite getlines_line by exact Hl; cbn [rev app]; rewrite IH; reflexivity.
Qed.

Lemma buffer_lines_spec t ls : lines_of t ls -> buffer_lines t = ls.
Proof.
  intros [Hl [-> | (front & last & -> & Hn & ->)]].
  - rewrite <- (app_nil_r (concat _)), buffer_lines_app by exact Hl; apply app_nil_r.
  - apply Forall_app in Hl; destruct Hl as [Hf Hl]; inversion Hl; subst.
    rewrite buffer_lines_app by exact Hf; f_equal; unfold buffer_lines.
    rewrite getlines_last; [ reflexivity | assumption | exact Hn ].
Qed.

Lemma lines_exist t : exists ls, lines_of t ls.
Proof.
  induction t as [|c t (ls & Hl & H)].
  - exists []; split; [ constructor | left; reflexivity ].
  - destruct (ascii_dec c eol) as [-> | Hc].
    + exists ([] :: ls); split; [ constructor; [ intros [] | exact Hl ] |].
      destruct H as [-> | (front & last & -> & Hn & ->)].
      * left; reflexivity.
      * right; exists ([] :: front), last; repeat split; auto.
    + destruct ls as [|l ls].
      * exists [[c]]; split; [ constructor; [ intros [E|[]]; congruence | constructor ] |].
        right; exists [], [c]; repeat split; [ discriminate |].
        destruct H as [-> | (front & last & E & _)]; [ reflexivity | destruct front; discriminate ].
      * exists ((c :: l) :: ls); inversion Hl; subst; split.
        { constructor; [ intros [E|E]; [ congruence | contradiction ] | assumption ]. }
        destruct H as [-> | (front & last & E & Hn & ->)].
        -- left; reflexivity.
        -- right; destruct front as [|f front]; cbn in E; injection E as <- ->.
           ++ exists [], (c :: l); repeat split; discriminate.
           ++ exists ((c :: l) :: front), last; repeat split; exact Hn.
Qed.

(** [fgets] on a line that fits, and on the last one. *)
Lemma chunks_line l : forall room acc t, ~ In eol l -> length l < room ->
  chunks room acc (l ++ eol :: t) = (rev acc ++ l ++ [eol]) :: chunks 199 [] t.
Proof.
  induction l as [|c l IH]; intros room acc t H Hr; cbn [app chunks].
  - change (Ascii.eqb eol newline) with true; cbn [orb rev]; reflexivity.
  - cbn [length] in Hr.
    replace (Ascii.eqb c newline || (room <=? 1)) with false.
    + rewrite IH; [| intros Hi; apply H; right; exact Hi | lia ].
      cbn [rev]; rewrite <- !app_assoc; reflexivity.
    + symmetry; apply orb_false_iff; split; [| apply Nat.leb_gt; lia ].
      apply Ascii.eqb_neq; intros ->; apply H; left; reflexivity.
Qed.
Lemma chunks_last l : forall room acc, ~ In eol l -> length l <= room -> rev acc ++ l <> [] ->
  chunks room acc l = [rev acc ++ l].
Proof.
  induction l as [|c l IH]; intros room acc H Hr H0; cbn [chunks].
  - rewrite app_nil_r in *; destruct acc; [ exfalso; apply H0; reflexivity | reflexivity ].
  - cbn [length] in Hr.
    assert (Ec : Ascii.eqb c newline = false).
    { apply Ascii.eqb_neq; intros ->; apply H; left; reflexivity. }
    rewrite Ec; cbn [orb]; destruct (room <=? 1) eqn:Er.
    + apply Nat.leb_le in Er; destruct l; [ reflexivity | cbn in Hr; lia ].
    + rewrite IH; cbn [rev]; rewrite <- ?app_assoc; [ reflexivity | | apply Nat.leb_gt in Er; lia | exact H0 ].
      intros Hi; apply H; right; exact Hi.
Qed.
(** A line longer than the buffer is cut. *)
Lemma chunks_cut l : forall room acc t, ~ In eol l -> length l = room -> 0 < room ->
  chunks room acc (l ++ t) = (rev acc ++ l) :: chunks 199 [] t.
Proof.
  induction l as [|c l IH]; intros room acc t H Hr H0; cbn [app chunks]; cbn [length] in Hr; [ lia |].
  assert (Ec : Ascii.eqb c newline = false).
  { apply Ascii.eqb_neq; intros ->; apply H; left; reflexivity. }
  rewrite Ec; cbn [orb]; destruct (room <=? 1) eqn:Er.
  - apply Nat.leb_le in Er; destruct l; [| cbn in Hr; lia ]; reflexivity.
  - apply Nat.leb_gt in Er; rewrite IH; [| intros Hi; apply H; right; exact Hi | lia | lia ].
    cbn [rev]; rewrite <- !app_assoc; reflexivity.
Qed.

Lemma cstr_eol l : rstrip (cstr (l ++ [eol])) = rstrip (cstr l).
Proof.
  assert (K : cstr (l ++ [eol]) = cstr l \/ cstr (l ++ [eol]) = cstr l ++ [eol]).
  { induction l as [|c l IH]; [ right; reflexivity |]; cbn [app cstr].
    destruct (Ascii.eqb c nul); [ left; reflexivity |].
    destruct IH as [-> | ->]; [ left | right ]; reflexivity. }
  destruct K as [-> | ->]; [ reflexivity |].
  apply rstrip_app_blank; constructor; [ apply isspace_white; reflexivity | constructor ].
Qed.

Lemma parse_line_rstrip st a b : rstrip a = rstrip b -> parse_line st a = parse_line st b.
Proof. intros E; unfold parse_line; rewrite E; reflexivity. Qed.

Lemma fold_same_lines ls ls' : Forall2 (fun a b => rstrip a = rstrip b) ls ls' ->
  forall st, fold_left parse_line ls st = fold_left parse_line ls' st.
Proof.
  induction 1 as [|a b ls ls' E F IH]; intros st; [ reflexivity |]; cbn [fold_left].
  rewrite (parse_line_rstrip st a b E); apply IH.
Qed.

Lemma cstr_id l : ~ In nul l -> cstr l = l.
Proof.
  induction l as [|c l IH]; intros H; [ reflexivity |]; cbn [cstr].
  replace (Ascii.eqb c nul) with false.
  - rewrite IH; [ reflexivity |]; intros Hi; apply H; right; exact Hi.
  - symmetry; apply Ascii.eqb_neq; intros ->; apply H; left; reflexivity.
Qed.

(** ** Both readers see the same lines *)
Definition alike (a b : ini) : Prop :=
  i_section a = i_section b /\ i_prev a = i_prev b /\ i_values a = i_values b.

Lemma parse_line_alike a b l l' : alike a b -> rstrip l = rstrip l' -> alike (parse_line a l) (parse_line b l').
Proof.
  destruct a as [s p v k e], b as [s' p' v' k' e']; intros (E1 & E2 & E3) E.
  cbn in E1, E2, E3; subst s' p' v'; unfold parse_line; rewrite <- E.
  cbn [i_section i_prev i_values i_lineno i_error].
  destruct (lskip (rstrip l)) as [|c0 rest]; [ repeat split |].
  destruct ((match p with [] => false | _ => true end) && _); [ repeat split |].
  destruct (Ascii.eqb c0 ";" || Ascii.eqb c0 "#"); [ repeat split |].
  destruct (Ascii.eqb c0 "[").
  - destruct (find_char_or_comment (Some "]"%char) rest) as [sec [|c t]]; [ repeat split |].
    destruct (Ascii.eqb c "]"); repeat split.
  - destruct (find_char_or_comment (Some "="%char) (c0 :: rest)) as [n [|c t]]; [ repeat split |].
    destruct (Ascii.eqb c "="); repeat split.
Qed.

Lemma parse_line_blank a b l : alike a b -> blank l -> alike (parse_line a l) b.
Proof.
  destruct a as [s p v k e]; intros H Hl; unfold parse_line; rewrite rstrip_blank by exact Hl; exact H.
Qed.

(** The same lines, up to trailing white space and additional blank lines. *)
Inductive similar : list text -> list text -> Prop :=
| similar_nil : similar [] []
| similar_line l l' ls ls' : rstrip l = rstrip l' -> similar ls ls' -> similar (l :: ls) (l' :: ls')
| similar_blank l ls ls' : blank l -> similar ls ls' -> similar (l :: ls) ls'.

Lemma fold_similar ls ls' : similar ls ls' ->
  forall a b, alike a b -> alike (fold_left parse_line ls a) (fold_left parse_line ls' b).
Proof.
  induction 1 as [| l l' ls ls' E H IH | l ls ls' E H IH]; intros a b Hab; cbn [fold_left].
  - exact Hab.
  - apply IH, parse_line_alike; assumption.
  - apply IH, parse_line_blank; assumption.
Qed.

Lemma alike_refl a : alike a a.
Proof. repeat split. Qed.

Lemma blank_eol : blank [eol].
Proof. constructor; [ apply isspace_white; reflexivity | constructor ]. Qed.

(** Lines of at most 198 characters, the last of at most 199. *)
Lemma file_lines_short front last :
  Forall (fun l => ~ In eol l /\ length l <= 198) front -> ~ In eol last -> length last <= 199 ->
  file_lines (concat (map (fun l => l ++ [eol]) front) ++ last) =
  map (fun l => l ++ [eol]) front ++ match last with [] => [] | _ => [last] end.
Proof.
  unfold file_lines; change (MAX_LINE - 1) with 199.
  induction 1 as [|l front [Hl Hn] Hf IH]; intros Hlast Hlen; cbn [map concat app].
  - destruct last as [|c t]; [ reflexivity |].
    rewrite chunks_last; [ reflexivity | exact Hlast | exact Hlen | discriminate ].
  - rewrite <- !app_assoc; cbn [app]; rewrite chunks_line by (auto; lia); cbn [rev app].
    rewrite IH by assumption; reflexivity.
Qed.

(** Lines of at most 199 characters. *)
Lemma file_lines_fit front last :
  Forall (fun l => ~ In eol l /\ length l <= 199) front -> ~ In eol last -> length last <= 199 ->
  similar (map cstr (file_lines (concat (map (fun l => l ++ [eol]) front) ++ last)))
          (map cstr (front ++ match last with [] => [] | _ => [last] end)).
Proof.
  unfold file_lines; change (MAX_LINE - 1) with 199.
  induction 1 as [|l front [Hl Hn] Hf IH]; intros Hlast Hlen; cbn [map concat app].
  - destruct last as [|c t]; [ constructor |].
    rewrite chunks_last; [| exact Hlast | exact Hlen | discriminate ].
    cbn [rev app map]; constructor; [ reflexivity | constructor ].
  - rewrite <- !app_assoc; cbn [app].
    destruct (Nat.eq_dec (length l) 199) as [E|E].
    + rewrite chunks_cut by (auto; lia); cbn [rev app map].
      constructor; [ reflexivity |].
      change (chunks 199 [] (eol :: ?x)) with ([eol] :: chunks 199 [] x).
      cbn [chunks]; change (Ascii.eqb eol newline) with true; cbn [orb map rev app].
      apply similar_blank; [ exact blank_eol |]; apply IH; assumption.
    + rewrite chunks_line by (auto; lia); cbn [rev app map].
      constructor; [ apply cstr_eol |]; apply IH; assumption.
Qed.

(** Lines are read independently of what follows. *)
Lemma chunks_app p : forall room acc x,
  chunks room acc (p ++ eol :: x) = chunks room acc (p ++ [eol]) ++ chunks 199 [] x.
Proof.
  induction p as [|c p IH]; intros room acc x; cbn [app chunks].
  - change (Ascii.eqb eol newline) with true; cbn [orb chunks app]; reflexivity.
  - destruct (Ascii.eqb c newline || (room <=? 1)); [ cbn [app]; f_equal; apply IH | apply IH ].
Qed.

Lemma similar_refl ls : similar ls ls.
Proof. induction ls; constructor; auto. Qed.
Lemma similar_app a b c d : similar a b -> similar c d -> similar (a ++ c) (b ++ d).
Proof. induction 1; intros H'; cbn [app]; [ exact H' | constructor; auto | apply similar_blank; auto ]. Qed.

(** ** Looking up *)
Lemma find_key_map out s n : dotless s -> sections_dotless out -> forall rest,
  (forall v, latest s n out v -> find_key (make_key s n) (rev (map key_value out) ++ rest) = Some v) /\
  (unset s n out -> find_key (make_key s n) (rev (map key_value out) ++ rest) = find_key (make_key s n) rest).
Proof.
  intros Hs Ho; induction out as [|x out IH] using rev_ind; intros rest.
  - split; [ intros v (b & ? & ? & ? & E & _); destruct b; discriminate | reflexivity ].
  - rewrite map_app, rev_app_distr; cbn [map rev app].
    apply Forall_app in Ho; destruct Ho as [Ho Hx]; inversion Hx as [|? ? Hd _]; subst; clear Hx.
    destruct x as [[sec nm] w]; cbn [fst] in Hd; unfold key_value at 1 3; cbn [fst snd find_key].
    assert (K : text_eqb (make_key s n) (make_key sec nm) = true <-> same sec s /\ same nm n).
    { rewrite text_eqb_eq; split.
      - intros E; symmetry in E; apply make_key_same in E; auto.
      - intros E; symmetry; apply make_key_same; auto. }
    specialize (IH Ho rest); destruct IH as [IH1 IH2].
    destruct (text_eqb (make_key s n) (make_key sec nm)) eqn:E.
    + apply proj1 in K; specialize (K eq_refl); split.
      * intros v (b & sec' & nm' & aft & E' & H1 & H2 & H3).
        destruct (snoc_case aft) as [-> | (aft' & y & ->)].
        -- apply app_inj_tail in E'; destruct E' as [_ E']; injection E' as -> -> ->; reflexivity.
        -- exfalso; rewrite app_comm_cons, app_assoc in E'; apply app_inj_tail in E'; destruct E' as [_ <-].
           apply Forall_app in H3; destruct H3 as [_ H3]; inversion H3; contradiction.
      * intros Hu; apply Forall_app in Hu; destruct Hu as [_ Hu]; inversion Hu; contradiction.
    + assert (N : ~ (same sec s /\ same nm n)) by (intros H; apply K in H; discriminate); split.
      * intros v (b & sec' & nm' & aft & E' & H1 & H2 & H3).
        destruct (snoc_case aft) as [-> | (aft' & y & ->)].
        -- apply app_inj_tail in E'; destruct E' as [_ E']; injection E' as -> -> ->; tauto.
        -- rewrite app_comm_cons, app_assoc in E'; apply app_inj_tail in E'; destruct E' as [E' <-].
           apply IH1; exists b, sec', nm', aft'; repeat split; auto.
           apply Forall_app in H3; tauto.
      * intros Hu; apply IH2; apply Forall_app in Hu; tauto.
Qed.
