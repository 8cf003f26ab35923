(** * Properties of the parameter file, the choice of the solver and the mesh
    (C30, C31, C36, C40) *)
From Coq Require Import Ascii String ZArith NArith Reals List Bool Lia Lra.
From Coq Require Import Floats.SpecFloat.
From Verif Require Import Num Exec Grid BoundariesNarrow HydroNum HydroPhysics Doomed Config ConfigSpec ConfigFacts ConfigNumbers Params.
Import ListNotations.
Local Open Scope nat_scope.
Local Notation length := List.length.
Local Open Scope list_scope.

(** ** C31: reading the file and reading the broadcast buffer *)
Lemma lines_shape t ls : lines_of t ls -> exists front last,
  t = concat (map (fun l => l ++ [eol]) front) ++ last /\
  ls = front ++ match last with [] => [] | _ => [last] end /\
  Forall (fun l => ~ In eol l) front /\ ~ In eol last.
Proof.
  intros [Hl [-> | (front & last & -> & Hn & ->)]].
  - exists ls, []; rewrite !app_nil_r; repeat split; auto.
  - apply Forall_app in Hl; destruct Hl as [Hf Hl]; inversion Hl; subst.
    exists front, last; repeat split; auto; destruct last; [ congruence | reflexivity ].
Qed.

Lemma both_forall {A} (P Q : A -> Prop) l : Forall P l -> Forall Q l -> Forall (fun x => P x /\ Q x) l.
Proof. rewrite !Forall_forall; auto. Qed.

(** Whatever the bytes of the file: if no line is longer than 199 characters, both
    give the same settings; if none is longer than 198, also the same error line. *)
Theorem C31_file_and_buffer_agree : forall (t : chars) ls, lines_of t ls ->
  (Forall (fun l => length l <= 199) ls -> i_values (ini_parse t) = i_values (ini_parse_buffer t)) /\
  (Forall (fun l => length l <= 198) ls -> ini_parse t = ini_parse_buffer t).
Proof.
  intros t ls Hls; assert (Hb := buffer_lines_spec t ls Hls).
  destruct (lines_shape t ls Hls) as (front & last & -> & -> & Hf & Hl).
  unfold ini_parse, ini_parse_buffer; rewrite Hb; split; intros H; apply Forall_app in H; destruct H as [H1 H2].
  - assert (Hlen : length last <= 199) by (destruct last; [ cbn; lia | inversion H2; assumption ]).
    apply (fold_similar _ _ (file_lines_fit front last (both_forall _ _ _ Hf H1) Hl Hlen)); apply alike_refl.
  - assert (Hlen : length last <= 199) by (destruct last; [ cbn; lia | inversion H2; lia ]).
    rewrite file_lines_short; [| | exact Hl | exact Hlen ].
    + apply fold_same_lines; rewrite !map_app, map_map.
      apply Forall2_app; [| destruct last; repeat constructor ].
      clear; induction front; cbn [map]; constructor; [ apply cstr_eol | assumption ].
    + exact (both_forall _ _ _ Hf H1).
Qed.

Print Assumptions C31_file_and_buffer_agree.

Definition nl : chars := [eol].
Definition ex_file : chars :=
  lit "; shock tube" ++ nl ++ lit "[Run]" ++ nl ++ lit "solver_name = Hydro_Muscl_2D  ; comment" ++ nl ++
  lit "tEnd=1.0" ++ nl ++ nl ++ lit "[mesh]" ++ nl ++ lit "nx=100" ++ nl ++ lit "NX = 64" ++ nl ++ lit "ny" ++ nl ++ lit "ny=32".
Example C31_case : exists ls, lines_of ex_file ls /\ Forall (fun l => length l <= 198) ls /\ length ls = 10 /\
  i_error (ini_parse ex_file) = 9 /\ length (i_values (ini_parse ex_file)) = 5.
Proof.
  exists (buffer_lines ex_file); split; [| repeat split; try (vm_compute; reflexivity) ].
  - split.
    + apply Forall_forall; intros l Hl Hi.
      assert (K : forallb (fun l => forallb (fun c => negb (Ascii.eqb c eol)) l) (buffer_lines ex_file) = true) by (vm_compute; reflexivity).
      rewrite forallb_forall in K; specialize (K l Hl); rewrite forallb_forall in K; specialize (K eol Hi); discriminate.
    + right; exists (removelast (buffer_lines ex_file)), (lit "ny=32"); repeat split; try discriminate; vm_compute; reflexivity.
  - apply Forall_forall; intros l Hl.
    assert (K : forallb (fun l => length l <=? 198) (buffer_lines ex_file) = true) by (vm_compute; reflexivity).
    rewrite forallb_forall in K; apply Nat.leb_le; exact (K l Hl).
Qed.

(** The serial build reads a longer line as if it ended after 199 characters,
    wherever it stands and whatever follows. *)
Theorem C31_longer_lines_split : forall (before a b : chars),
  (before = [] \/ exists p, before = p ++ [eol]) -> ~ In eol a -> length a = 199 ->
  i_values (ini_parse (before ++ a ++ b)) = i_values (ini_parse (before ++ a ++ [eol] ++ b)).
Proof.
  intros before a b Hb Ha Hlen.
  assert (K : similar (map cstr (file_lines (before ++ a ++ [eol] ++ b))) (map cstr (file_lines (before ++ a ++ b)))).
  { assert (K0 : similar (map cstr (chunks 199 [] (a ++ [eol] ++ b))) (map cstr (chunks 199 [] (a ++ b)))).
    { rewrite (chunks_cut a 199 [] ([eol] ++ b)), (chunks_cut a 199 [] b) by (auto; lia); cbn [rev app map]; apply similar_line; [ reflexivity |].
      cbn [chunks]; change (Ascii.eqb eol newline) with true; cbn [orb map rev app].
      apply similar_blank; [ exact blank_eol | apply similar_refl ]. }
    unfold file_lines; change (MAX_LINE - 1) with 199.
    destruct Hb as [-> | (p & ->)]; [ exact K0 |].
    rewrite <- !(app_assoc p [eol]); cbn [app].
    rewrite (chunks_app p 199 [] (a ++ eol :: b)), (chunks_app p 199 [] (a ++ b)), !map_app.
    apply similar_app; [ apply similar_refl | exact K0 ]. }
  symmetry; apply (fold_similar _ _ K); apply alike_refl.
Qed.
Print Assumptions C31_longer_lines_split.

(** Without the bound the two builds differ: the end of a long comment is read as a
    setting by the serial build only. *)
Definition long_comment : chars := lit "[mesh]" ++ nl ++ lit ";" ++ repeat " "%char 198 ++ lit "nx=5" ++ nl.
Theorem C31_long_line_refuted : exists t,
  get_integer (serial_parameters (Some t)) (lit "mesh") (lit "nx") 1 = 5%Z /\
  get_integer (distributed_parameters (Some t) 0) (lit "mesh") (lit "nx") 1 = 1%Z.
Proof. exists long_comment; split; vm_compute; reflexivity. Qed.
Print Assumptions C31_long_line_refuted.

(** ** C30: looking up *)

(** The settings a process of either build ends up with. *)
Inductive obtains (file : option chars) : cmap -> Prop :=
| obtains_serial : (forall t ls, file = Some t -> lines_of t ls -> Forall (fun l => length l <= 199) ls) ->
    obtains file (serial_parameters file)
| obtains_distributed rank : obtains file (distributed_parameters file rank).

Lemma obtains_buffer t c : obtains (Some t) c -> c = i_values (ini_parse_buffer t).
Proof.
  intros H; inversion H as [Hfit Ec | rank Ec]; subst; clear H.
  - destruct (lines_exist t) as (ls & Hls); cbn.
    exact (proj1 (C31_file_and_buffer_agree t ls Hls) (Hfit t ls eq_refl Hls)).
  - unfold distributed_parameters, bcast; cbn [read_on Nat.eqb].
    destruct (0 <? length t) eqn:E; [ reflexivity |].
    apply Nat.ltb_ge in E; destruct t; [ reflexivity | cbn in E; lia ].
Qed.

(** Every file has a meaning, however badly written. *)
Theorem C30_every_file_has_a_meaning : forall t, exists ls out err, lines_of t ls /\ means 1 [] [] ls out err.
Proof.
  intros t; destruct (lines_exist t) as (ls & H); destruct (means_total ls 1 [] []) as (o & e & M); eauto 6.
Qed.
Print Assumptions C30_every_file_has_a_meaning.

(** The last definition wins, whatever the letter case; without one, the default. *)
Theorem C30_last_definition_wins : forall (t : chars) c ls out err s n d,
  no_nul t -> obtains (Some t) c -> lines_of t ls -> means 1 [] [] ls out err ->
  dotless s -> sections_dotless out ->
  (forall v, latest s n out v -> get_string c s n d = v) /\ (unset s n out -> get_string c s n d = d).
Proof.
  intros t c ls out err s n d Hn Hc Hls M Hs Ho.
  rewrite (obtains_buffer t c Hc); unfold ini_parse_buffer; rewrite (buffer_lines_spec t ls Hls).
  assert (E : map cstr ls = ls).
  { assert (Hin : forall l, In l ls -> ~ In nul l).
    { intros l Hl Hi; apply Hn; destruct (lines_shape t ls Hls) as (front & last & -> & -> & _ & _).
      apply in_or_app; apply in_app_or in Hl; destruct Hl as [Hl | Hl].
      - left; apply in_concat; exists (l ++ [eol]); split; [ apply in_map_iff; eauto | apply in_or_app; left; exact Hi ].
      - right; destruct last; [ destruct Hl | destruct Hl as [<- | []]; exact Hi ]. }
    clear - Hin; induction ls as [|l ls IH]; [ reflexivity |]; cbn [map]; rewrite cstr_id by (apply Hin; left; reflexivity).
    f_equal; apply IH; intros l' Hl'; apply Hin; right; exact Hl'. }
  rewrite E; unfold ini_start.
  destruct (fold_means 1 [] [] ls out err M [] 0 ltac:(lia)) as (sec' & prev' & Ef).
  change (1 - 1) with 0 in Ef; rewrite Ef; cbn [i_values].
  destruct (find_key_map out s n Hs Ho []) as [K1 K2].
  unfold get_string; split.
  - intros v Hv; rewrite (K1 v Hv); reflexivity.
  - intros Hu; rewrite (K2 Hu); reflexivity.
Qed.
Print Assumptions C30_last_definition_wins.

(** The parser reports the first wrong line, or none. *)
Theorem C30_first_wrong_line : forall (t : chars) ls out err,
  no_nul t -> lines_of t ls -> means 1 [] [] ls out err ->
  i_error (ini_parse_buffer t) = match err with Some k => k | None => 0 end /\
  (Forall (fun l => length l <= 198) ls -> i_error (ini_parse t) = match err with Some k => k | None => 0 end).
Proof.
  intros t ls out err Hn Hls M.
  assert (K : i_error (ini_parse_buffer t) = match err with Some k => k | None => 0 end).
  { unfold ini_parse_buffer; rewrite (buffer_lines_spec t ls Hls).
    assert (E : map cstr ls = ls).
    { assert (Hin : forall l, In l ls -> ~ In nul l).
      { intros l Hl Hi; apply Hn; destruct (lines_shape t ls Hls) as (front & last & -> & -> & _ & _).
        apply in_or_app; apply in_app_or in Hl; destruct Hl as [Hl | Hl].
        - left; apply in_concat; exists (l ++ [eol]); split; [ apply in_map_iff; eauto | apply in_or_app; left; exact Hi ].
        - right; destruct last; [ destruct Hl | destruct Hl as [<- | []]; exact Hi ]. }
      clear - Hin; induction ls as [|l ls IH]; [ reflexivity |]; cbn [map]; rewrite cstr_id by (apply Hin; left; reflexivity).
      f_equal; apply IH; intros l' Hl'; apply Hin; right; exact Hl'. }
    rewrite E; unfold ini_start.
    destruct (fold_means 1 [] [] ls out err M [] 0 ltac:(lia)) as (sec' & prev' & Ef).
    change (1 - 1) with 0 in Ef; rewrite Ef; reflexivity. }
  split; [ exact K |]; intros Hf; rewrite (proj2 (C31_file_and_buffer_agree t ls Hls) Hf); exact K.
Qed.
Print Assumptions C30_first_wrong_line.

(** A file, what it means, and what is found. *)
Definition ex_small : chars := lit "[Mesh]" ++ nl ++ lit "nx=100" ++ nl ++ lit "NX = 64 ; cells" ++ nl.
Lemma no_white l c : forallb (fun x => negb (isspace x)) l = true -> In c l -> ~ white c.
Proof.
  intros H Hi; rewrite forallb_forall in H; specialize (H c Hi); apply isspace_not_white; destruct (isspace c); [ discriminate | reflexivity ].
Qed.
Lemma solid_trimmed l : forallb (fun x => negb (isspace x)) l = true -> trimmed l.
Proof.
  intros H; split; intros; apply (no_white l); auto; subst l; [ left; reflexivity | apply in_or_app; right; left; reflexivity ].
Qed.
Lemma solid_uncommented l : forallb (fun x => negb (isspace x)) l = true -> uncommented l.
Proof. intros H a s b ->; apply (no_white _ s H); apply in_or_app; right; left; reflexivity. Qed.
Lemma not_in_eqb (c : ascii) l : forallb (fun x => negb (Ascii.eqb c x)) l = true -> ~ In c l.
Proof. intros H Hi; rewrite forallb_forall in H; specialize (H c Hi); rewrite Ascii.eqb_refl in H; discriminate. Qed.

Example C30_case : exists ls out err,
  no_nul ex_small /\ lines_of ex_small ls /\ means 1 [] [] ls out err /\ err = None /\
  sections_dotless out /\ latest (lit "mesh") (lit "Nx") out (lit "64") /\ unset (lit "mesh") (lit "ny") out /\
  obtains (Some ex_small) (serial_parameters (Some ex_small)).
Proof.
  exists [lit "[Mesh]"; lit "nx=100"; lit "NX = 64 ; cells"],
    [(lit "Mesh", lit "nx", lit "100"); (lit "Mesh", lit "NX", lit "64")], None.
  assert (L : lines_of ex_small [lit "[Mesh]"; lit "nx=100"; lit "NX = 64 ; cells"]).
  { split; [| left; reflexivity ].
    repeat constructor; apply not_in_eqb; reflexivity. }
  split; [ apply not_in_eqb; reflexivity |]; split; [ exact L |]; split; [| split; [ reflexivity |] ].
  - eapply (means_section _ _ _ _ _ _ _ (lit "Mesh")).
    { apply (reads_section false [] (lit "Mesh") []); [ split; [ constructor | discriminate ] | apply not_in_eqb; reflexivity | apply solid_uncommented; reflexivity ]. }
    eapply means_setting.
    { apply (reads_setting _ [] (lit "nx") [] [] (lit "100") []); try constructor; try discriminate;
        try (apply solid_trimmed; reflexivity); try (apply solid_uncommented; reflexivity); try (apply not_in_eqb; reflexivity);
        try (injection H as <- _); try (intros [?|?]; discriminate); try discriminate; try constructor.
      all: try (apply (proj1 (solid_trimmed (lit "nx") eq_refl))); try (apply (proj2 (solid_trimmed (lit "nx") eq_refl))).
      all: try (apply (proj1 (solid_trimmed (lit "100") eq_refl))); try (apply (proj2 (solid_trimmed (lit "100") eq_refl))). }
    eapply means_setting; [| constructor ].
    assert (B : blank (lit " ")) by (constructor; [ apply isspace_white; reflexivity | constructor ]).
    apply (reads_setting _ [] (lit "NX") (lit " ") (lit " ") (lit "64") (lit " ; cells")).
    + split; [ constructor | reflexivity ].
    + apply solid_trimmed; reflexivity.
    + exact B.
    + apply not_in_eqb; reflexivity.
    + apply solid_uncommented; reflexivity.
    + intros x t E; injection E as <- _; split; [ intros [?|?]; discriminate | discriminate ].
    + discriminate.
    + exact B.
    + apply solid_trimmed; reflexivity.
    + apply solid_uncommented; reflexivity.
    + right; split; [ discriminate |]; exists (lit " "), (lit " cells"); repeat split; [ exact B | discriminate ].
  - split; [ repeat constructor; apply not_in_eqb; reflexivity |]; split.
    { exists [(lit "Mesh", lit "nx", lit "100")], (lit "Mesh"), (lit "NX"), []; split; [ reflexivity |]; split; [| split ];
        [ apply lower_same; reflexivity | apply lower_same; reflexivity | constructor ]. }
    split.
    { repeat constructor; intros [_ E]; cbn [fst snd] in E; apply lower_same in E; discriminate. }
    constructor; intros t ls Et Hls; injection Et as <-.
    rewrite <- (buffer_lines_spec _ _ Hls), (buffer_lines_spec _ _ L); repeat constructor.
Qed.

(** Letter case never matters, in any configuration, however it was filled. *)
Theorem C30_case_blind : forall (c : cmap) s n s' n', same s s' -> same n n' ->
  (forall d, get_string c s n d = get_string c s' n' d) /\ (forall d, get_integer c s n d = get_integer c s' n' d) /\
  (forall d, get_float c s n d = get_float c s' n' d) /\ (forall d, get_bool c s n d = get_bool c s' n' d) /\
  (forall v, set_string c s n v = set_string c s' n' v).
Proof.
  intros c s n s' n' Hs Hn.
  assert (E : forall d, get_string c s n d = get_string c s' n' d).
  { intros d; unfold get_string; rewrite (make_key_congr s n s' n' Hs Hn); reflexivity. }
  split; [ exact E |]; unfold get_integer, get_float, get_bool, set_string.
  rewrite !E, (make_key_congr s n s' n' Hs Hn); auto.
Qed.
Print Assumptions C30_case_blind.
Example C30_case_blind_case : same (lit "OTHER") (lit "other") /\ same (lit "implementationVersion") (lit "IMPLEMENTATIONversion").
Proof. split; apply lower_same; reflexivity. Qed.

(** A missing or unparsable value yields the default, a parsable one does not; decimal
    integers are read as written (within the range of long). *)
Theorem C30_integers : forall (c : cmap) s n d v, get_string c s n [] = v -> no_nul v ->
  (~ has_integer v -> get_integer c s n d = d) /\
  (forall w sg x xs r, v = w ++ sg ++ (x :: xs) ++ r -> blank w -> signed sg -> Forall decimal (x :: xs) ->
     x <> "0"%char -> (forall y t, r = y :: t -> ~ decimal y) ->
     let z := (signum sg * dvalue (x :: xs))%Z in
     get_integer c s n d = if (z <? - 2 ^ 63)%Z then (- 2 ^ 63)%Z else if (2 ^ 63 - 1 <? z)%Z then (2 ^ 63 - 1)%Z else z) /\
  (has_integer v -> exists z, forall d', get_integer c s n d' = z).
Proof.
  intros c s n d v Ev Hv; unfold get_integer; rewrite Ev, (cstr_id v Hv); split; [| split ].
  - intros H; apply strtol0_none in H; rewrite H; reflexivity.
  - intros w sg x xs r -> Hw Hs Hx H0 Hr; rewrite strtol0_decimal by assumption.
    set (z := (signum sg * dvalue (x :: xs))%Z); unfold clamp, LONG_MIN, LONG_MAX.
    destruct (z <? - 2 ^ 63)%Z eqn:E1; [ apply Z.ltb_lt in E1; lia | apply Z.ltb_ge in E1 ].
    destruct (2 ^ 63 - 1 <? z)%Z eqn:E2; [ apply Z.ltb_lt in E2; lia | apply Z.ltb_ge in E2; lia ].
  - intros H; destruct (strtol0 v) as [z|] eqn:E; [ exists z; reflexivity |].
    apply strtol0_none in E; contradiction.
Qed.
Print Assumptions C30_integers.
Example C30_integers_case :
  let c := [(lit "mesh.nx", lit " -120 cells"); (lit "mesh.ny", lit "many")] in
  get_integer c (lit "mesh") (lit "NX") 1 = (-120)%Z /\ get_integer c (lit "mesh") (lit "ny") 7 = 7%Z /\
  get_integer c (lit "mesh") (lit "nz") 9 = 9%Z /\ ~ has_integer (lit "many").
Proof. repeat split; try reflexivity; apply strtol0_none; reflexivity. Qed.

Theorem C30_reals : forall (c : cmap) s n v, get_string c s n [] = v -> no_nul v ->
  (~ has_number v -> forall d, get_float c s n d = d) /\
  (has_number v -> exists x, forall d, get_float c s n d = x).
Proof.
  intros c s n v Ev Hv; unfold get_float; rewrite Ev, (cstr_id v Hv); split; intros H.
  - intros d; apply strtof_none in H; rewrite H; reflexivity.
  - destruct (strtof v) as [x|] eqn:E; [ exists x; reflexivity |]; apply strtof_none in E; contradiction.
Qed.
Print Assumptions C30_reals.
Example C30_reals_case :
  let c := [(lit "hydro.gamma0", lit "1.5"); (lit "hydro.cfl", lit "auto")] in
  get_float c (lit "hydro") (lit "gamma0") S754_nan = S754_finite false 12582912 (-23) /\
  get_float c (lit "hydro") (lit "CFL") (S754_zero true) = S754_zero true /\ ~ has_number (lit "auto").
Proof. repeat split; try reflexivity; apply strtof_none; reflexivity. Qed.

Definition yes_words : list chars := [lit "1"; lit "yes"; lit "true"; lit "on"].
Definition no_words : list chars := [lit "0"; lit "no"; lit "false"; lit "off"].
Theorem C30_booleans : forall (c : cmap) s n d v, get_string c s n [] = v ->
  (In v yes_words -> get_bool c s n d = true) /\ (In v no_words -> get_bool c s n d = false) /\
  (~ In v yes_words -> ~ In v no_words -> get_bool c s n d = d).
Proof.
  intros c s n d v Ev; unfold get_bool; rewrite Ev; repeat split.
  - intros [<-|[<-|[<-|[<-|[]]]]]; reflexivity.
  - intros [<-|[<-|[<-|[<-|[]]]]]; reflexivity.
  - intros Hy Hn.
    assert (K : forall w ws, In w ws -> ~ In v ws -> text_eqb v w = false).
    { intros w ws Hw Hv; destruct (text_eqb v w) eqn:E; [| reflexivity ].
      apply text_eqb_eq in E; subst w; contradiction. }
    rewrite (K (lit "1") yes_words), (K (lit "yes") yes_words), (K (lit "true") yes_words), (K (lit "on") yes_words)
      by (unfold yes_words in *; cbn [In] in *; tauto).
    rewrite (K (lit "0") no_words), (K (lit "no") no_words), (K (lit "false") no_words), (K (lit "off") no_words)
      by (unfold no_words in *; cbn [In] in *; tauto).
    cbn [orb]; destruct v; reflexivity.
Qed.
Print Assumptions C30_booleans.
Example C30_booleans_case :
  get_bool [(lit "gravity.static", lit "on")] (lit "gravity") (lit "static") false = true /\
  get_bool [(lit "gravity.static", lit "maybe")] (lit "gravity") (lit "static") true = true.
Proof. split; reflexivity. Qed.

(** Setting then getting returns what was set, and leaves every other setting alone. *)
Theorem C30_set_then_get : forall (c : cmap) s n s' n',
  (same s s' -> same n n' ->
     (forall v d, get_string (set_string c s n v) s' n' d = v) /\
     (forall z d, (- 2 ^ 63 <= z < 2 ^ 63)%Z -> get_integer (set_integer c s n z) s' n' d = z) /\
     (forall b d, get_bool (set_bool c s n b) s' n' d = b)) /\
  (dotless s -> dotless s' -> ~ (same s s' /\ same n n') ->
     forall v d, get_string (set_string c s n v) s' n' d = get_string c s' n' d).
Proof.
  intros c s n s' n'; split.
  - intros Hs Hn.
    assert (E : forall v d, get_string (set_string c s n v) s' n' d = v).
    { intros v d; unfold get_string, set_string; cbn [find_key].
      rewrite (make_key_congr s n s' n' Hs Hn).
      replace (text_eqb (make_key s' n') (make_key s' n')) with true by (symmetry; apply text_eqb_eq; reflexivity).
      reflexivity. }
    split; [ exact E | split ].
    + intros z d Hz; unfold get_integer, set_integer; rewrite E.
      rewrite cstr_id by (apply show_long_no_nul; unfold LONG_MIN, LONG_MAX; lia).
      rewrite strtol0_show by (unfold LONG_MIN, LONG_MAX; lia); reflexivity.
    + intros b d; unfold get_bool, set_bool; rewrite !E; destruct b; reflexivity.
  - intros Hs Hs' N v d; unfold get_string, set_string; cbn [find_key].
    replace (text_eqb (make_key s' n') (make_key s n)) with false; [ reflexivity |].
    symmetry; destruct (text_eqb (make_key s' n') (make_key s n)) eqn:E; [| reflexivity ].
    apply text_eqb_eq in E; symmetry in E; apply make_key_same in E; auto; contradiction.
Qed.
Print Assumptions C30_set_then_get.
Example C30_set_then_get_case :
  get_integer (set_integer (set_integer [] (lit "mesh") (lit "nx") (-12345)) (lit "mesh") (lit "ny") 7) (lit "MESH") (lit "Nx") 0
  = (-12345)%Z.
Proof. reflexivity. Qed.

(** Every process has the settings process 0 read; without a file, no settings. *)
Theorem C30_all_processes_agree : forall file c c', obtains file c -> obtains file c' -> c = c'.
Proof.
  intros [t|] c c' H H'.
  - rewrite (obtains_buffer t c H), (obtains_buffer t c' H'); reflexivity.
  - assert (K : forall x, obtains None x -> x = []) by (intros x Hx; inversion Hx; reflexivity).
    rewrite (K c H), (K c' H'); reflexivity.
Qed.
Print Assumptions C30_all_processes_agree.
Example C30_all_processes_case : obtains (Some ex_small) (distributed_parameters (Some ex_small) 3) /\
  get_integer (distributed_parameters (Some ex_small) 3) (lit "mesh") (lit "nx") 1 = 64%Z.
Proof. split; [ apply obtains_distributed | vm_compute; reflexivity ]. Qed.

(** *** Where the claims fail *)
(** Sections with a point: two different settings share one place. *)
Theorem C30_dotted_section_refuted : exists t, no_nul t /\
  get_integer (serial_parameters (Some t)) (lit "a") (lit "b.c") 0 = 2%Z /\
  ~ In (lit "b.c=2") (buffer_lines t).
Proof.
  exists (lit "[a]" ++ nl ++ lit "b.c=1" ++ nl ++ lit "[a.b]" ++ nl ++ lit "c=2" ++ nl).
  split; [ apply not_in_eqb; reflexivity |]; split; [ vm_compute; reflexivity |].
  vm_compute; intros H; repeat (destruct H as [H|H]; [ discriminate |]); exact H.
Qed.
Print Assumptions C30_dotted_section_refuted.

(** An indented comment replaces the setting above it. *)
Theorem C30_indented_comment_refuted : exists t,
  get_string (serial_parameters (Some t)) (lit "mesh") (lit "nx") [] = lit "; number of cells" /\
  get_integer (serial_parameters (Some t)) (lit "mesh") (lit "nx") 1 = 1%Z.
Proof.
  exists (lit "[mesh]" ++ nl ++ lit "nx=100" ++ nl ++ lit "  ; number of cells" ++ nl); split; vm_compute; reflexivity.
Qed.
Print Assumptions C30_indented_comment_refuted.

(** After an empty value a comment is taken for the value. *)
Theorem C30_comment_as_value_refuted :
  get_string (serial_parameters (Some (lit "[hydro]" ++ nl ++ lit "problem= ; none" ++ nl))) (lit "hydro") (lit "problem") [] = lit "; none".
Proof. vm_compute; reflexivity. Qed.
Print Assumptions C30_comment_as_value_refuted.

(** Not every malformed number yields the default: the readable beginning counts, and a
    leading zero means octal. *)
Theorem C30_malformed_integer_refuted :
  let c v := [(lit "mesh.nx", lit v)] in
  get_integer (c "1e3"%string) (lit "mesh") (lit "nx") 7 = 1%Z /\ get_integer (c "0100"%string) (lit "mesh") (lit "nx") 7 = 64%Z /\
  get_integer (c "09"%string) (lit "mesh") (lit "nx") 7 = 0%Z.
Proof. repeat split; reflexivity. Qed.
Print Assumptions C30_malformed_integer_refuted.

(** Reals are written with six digits: setting then getting may change them. *)
Theorem C30_set_real_refuted : exists x d,
  get_float (set_float [] (lit "run") (lit "tend") x) (lit "run") (lit "tend") d <> x.
Proof. exists (S754_finite false 8388609 1), (S754_zero false); vm_compute; discriminate. Qed.
Print Assumptions C30_set_real_refuted.

(** ** C40: choosing the solver *)
Definition documented (name : string) : option program :=
  if string_dec name "Hydro_Muscl_2D" then Some (HydroMuscl TWO_D)
  else if string_dec name "Hydro_Muscl_3D" then Some (HydroMuscl THREE_D)
  else if string_dec name "MHD_Muscl_2D" then Some (MHDMuscl TWO_D)
  else if string_dec name "MHD_Muscl_3D" then Some (MHDMuscl THREE_D)
  else None.

Theorem C40_factory : forall name, create name = documented name.
Proof.
  intros name; unfold documented.
  destruct (string_dec name "Hydro_Muscl_2D") as [->|N1]; [ reflexivity |].
  destruct (string_dec name "Hydro_Muscl_3D") as [->|N2]; [ reflexivity |].
  destruct (string_dec name "MHD_Muscl_2D") as [->|N3]; [ reflexivity |].
  destruct (string_dec name "MHD_Muscl_3D") as [->|N4]; [ reflexivity |].
  assert (K : forall k, name <> k -> String.eqb k name = false) by (intros k Hk; apply String.eqb_neq; congruence).
  unfold create; change factory with
    [("MHD_Muscl_3D"%string, MHDMuscl THREE_D); ("MHD_Muscl_2D"%string, MHDMuscl TWO_D);
     ("Hydro_Muscl_3D"%string, HydroMuscl THREE_D); ("Hydro_Muscl_2D"%string, HydroMuscl TWO_D)].
  cbn [find fst]; rewrite !K by assumption; reflexivity.
Qed.
Print Assumptions C40_factory.
Example C40_factory_case : create "MHD_Muscl_3D" = Some (MHDMuscl THREE_D) /\ create "mhd_muscl_3d" = None /\ create "" = None.
Proof. repeat split; reflexivity. Qed.

(** What each solver needs: dimension, variables, ghost cells, kind of boundary. *)
Definition needs (p : program) : dimension * Z * Z * bool :=
  match p with
  | HydroMuscl TWO_D => (TWO_D, 4, 2, false)
  | HydroMuscl THREE_D => (THREE_D, 5, 2, false)
  | MHDMuscl d => (d, 8, 3, true)
  end%Z.

(** From any configuration: the name decides, a missing or unknown one aborts, and the
    parameters were set up for the solver that is created. *)
Theorem C40_main : forall c,
  main_creates c = documented (string_of_list_ascii (get_string c (lit "run") (lit "solver_name") (lit "none"))) /\
  (forall p, main_creates c = Some p ->
     (get_dim c, nbvar (mesh_setting c), gw (mesh_setting c), p_mhd (mesh_setting c)) = needs p).
Proof.
  intros c; unfold main_creates, get_dim, mesh_setting, solver_name, get_string; split.
  - rewrite C40_factory; destruct (find_key _ c); reflexivity.
  - intros p Hp; rewrite C40_factory in Hp; unfold documented in Hp.
    destruct (find_key (make_key (lit "run") (lit "solver_name")) c) as [v|].
    2: discriminate Hp.
    destruct (string_dec (string_of_list_ascii v) "Hydro_Muscl_2D") as [->|N1]; [ injection Hp as <-; reflexivity |].
    destruct (string_dec (string_of_list_ascii v) "Hydro_Muscl_3D") as [->|N2]; [ injection Hp as <-; reflexivity |].
    destruct (string_dec (string_of_list_ascii v) "MHD_Muscl_2D") as [->|N3]; [ injection Hp as <-; reflexivity |].
    destruct (string_dec (string_of_list_ascii v) "MHD_Muscl_3D") as [->|N4]; [ injection Hp as <-; reflexivity |].
    discriminate Hp.
Qed.
Print Assumptions C40_main.
Example C40_main_case : main_creates (serial_parameters (Some ex_file)) = Some (HydroMuscl TWO_D) /\
  main_creates [] = None /\ nx (mesh_setting (serial_parameters (Some ex_file))) = 64%Z.
Proof. repeat split; vm_compute; reflexivity. Qed.

(** ** C36: mesh geometry *)
Local Open Scope R_scope.

(** The cells of one axis: the cells of all processes have the size of the domain
    together; every point of the domain is in exactly one physical cell of exactly one
    process; no physical cell leaves the domain. *)
(** The three axes. *)
Inductive axis := ax | ay | az.

Definition in_cell (lo d : R) (n g r i : Z) (x : R) : Prop :=
  centre lo d n r g i - d / 2 <= x < centre lo d n r g i + d / 2.
Definition cells (n m g r i : Z) : Prop := (0 <= r < m)%Z /\ (g <= i < g + n)%Z.

Lemma cell_size_pos lo hi n m : lo < hi -> (0 < n)%Z -> (0 < m)%Z -> 0 < cell_size lo hi n m.
Proof.
  intros H Hn Hm; unfold cell_size; Rn; apply Rdiv_lt_0_compat; [ lra |].
  apply (IZR_lt 0); apply Z.mul_pos_pos; assumption.
Qed.

Lemma in_cell_index lo d n g r i x : 0 < d ->
  (in_cell lo d n g r i x <-> Int_part ((x - lo) / d) = (i + n * r - g)%Z).
Proof.
  intros Hd; unfold in_cell, centre; Rn.
  set (k := (i + n * r - g)%Z); set (y := (x - lo) / d).
  assert (Ex : x = lo + y * d) by (unfold y; field; lra).
  destruct (base_Int_part y) as [B1 B2].
  split.
  - intros [H1 H2].
    assert (K1 : IZR k <= y).
    { apply (Rmult_le_reg_r d); [ exact Hd |]; lra. }
    assert (K2 : y < IZR k + 1).
    { apply (Rmult_lt_reg_r d); [ exact Hd |]; lra. }
    assert (A : (Int_part y < k + 1)%Z) by (apply lt_IZR; rewrite plus_IZR; lra).
    assert (B : (k < Int_part y + 1)%Z) by (apply lt_IZR; rewrite plus_IZR; lra).
    lia.
  - intros E; rewrite E in *.
    assert (K1 : IZR k * d <= y * d) by (apply Rmult_le_compat_r; lra).
    assert (K2 : y * d < (IZR k + 1) * d) by (apply Rmult_lt_compat_r; lra).
    lra.
Qed.

Theorem C36_axis : forall lo hi n m g, lo < hi -> (0 < n)%Z -> (0 < m)%Z ->
  let d := cell_size lo hi n m in
  IZR (n * m) * d = hi - lo /\
  (forall x, lo <= x < hi -> exists! ri, cells n m g (fst ri) (snd ri) /\ in_cell lo d n g (fst ri) (snd ri) x) /\
  (forall r i x, cells n m g r i -> in_cell lo d n g r i x -> lo <= x < hi).
Proof.
  intros lo hi n m g H Hn Hm d.
  assert (Hd : 0 < d) by (apply cell_size_pos; assumption).
  assert (Hnm : 0 < IZR (n * m)) by (apply (IZR_lt 0), Z.mul_pos_pos; assumption).
  assert (Et : IZR (n * m) * d = hi - lo) by (unfold d, cell_size; Rn; field; lra).
  split; [ exact Et | split ].
  - intros x Hx; set (k := Int_part ((x - lo) / d)).
    assert (Hk : (0 <= k < n * m)%Z).
    { destruct (base_Int_part ((x - lo) / d)) as [B1 B2]; fold k in B1, B2.
      assert (Y0 : 0 <= (x - lo) / d) by (apply Rmult_le_pos; [ lra | apply Rlt_le, Rinv_0_lt_compat; exact Hd ]).
      assert (Y1 : (x - lo) / d < IZR (n * m)).
      { apply (Rmult_lt_reg_r d); [ exact Hd |]; replace ((x - lo) / d * d) with (x - lo) by (field; lra); lra. }
      split; [ assert ((-1 < k)%Z) by (apply lt_IZR; lra); lia | apply lt_IZR; lra ]. }
    exists (k / n, k mod n + g)%Z; split.
    + cbn [fst snd]; split.
      * split; [ split; [ apply Z.div_pos; lia | apply Z.div_lt_upper_bound; lia ] |].
        assert (0 <= k mod n < n)%Z by (apply Z.mod_pos_bound; lia); lia.
      * apply in_cell_index; [ exact Hd |]; fold k; assert (E := Z.div_mod k n ltac:(lia)); lia.
    + intros [r i] [[Hr Hi] Hc]; cbn [fst snd] in *; apply in_cell_index in Hc; [| exact Hd ]; fold k in Hc.
      assert (E : k = (n * r + (i - g))%Z) by lia.
      assert (E1 : (k / n = r)%Z) by (symmetry; apply (Z.div_unique k n r (i - g)); [ lia | lia ]).
      assert (E2 : (k mod n = i - g)%Z) by (symmetry; apply (Z.mod_unique k n r (i - g)); [ lia | lia ]).
      rewrite E1, E2; f_equal; lia.
  - intros r i x [Hr Hi] Hc; apply in_cell_index in Hc; [| exact Hd ].
    set (y := (x - lo) / d) in *; assert (Ex : x = lo + y * d) by (unfold y; field; lra).
    destruct (base_Int_part y) as [B1 B2]; rewrite Hc in B1, B2.
    assert (K : (0 <= i + n * r - g < n * m)%Z) by nia.
    assert (K1 : 0 <= IZR (i + n * r - g)) by (apply (IZR_le 0); lia).
    assert (K2 : IZR (i + n * r - g) + 1 <= IZR (n * m)) by (rewrite <- plus_IZR; apply IZR_le; lia).
    assert (0 <= y * d) by (apply Rmult_le_pos; lra).
    assert (y * d < IZR (n * m) * d) by (apply Rmult_lt_compat_r; lra).
    lra.
Qed.
Print Assumptions C36_axis.

(** The whole mesh: every point of the box is in exactly one physical cell of exactly
    one process (position [r], cell [i] on each axis). *)
Theorem C36_mesh : forall (lo hi : axis -> R) (n m : axis -> Z) (g : Z),
  (forall a, lo a < hi a) -> (forall a, (0 < n a)%Z) -> (forall a, (0 < m a)%Z) ->
  forall x : axis -> R, (forall a, lo a <= x a < hi a) ->
  exists r i, (forall a, cells (n a) (m a) g (r a) (i a) /\
                         in_cell (lo a) (cell_size (lo a) (hi a) (n a) (m a)) (n a) g (r a) (i a) (x a)) /\
    forall r' i', (forall a, cells (n a) (m a) g (r' a) (i' a) /\
                         in_cell (lo a) (cell_size (lo a) (hi a) (n a) (m a)) (n a) g (r' a) (i' a) (x a)) ->
    forall a, r' a = r a /\ i' a = i a.
Proof.
  intros lo hi n m g Hl Hn Hm x Hx.
  assert (A : forall a, exists! ri, cells (n a) (m a) g (fst ri) (snd ri) /\
    in_cell (lo a) (cell_size (lo a) (hi a) (n a) (m a)) (n a) g (fst ri) (snd ri) (x a)).
  { intros a; apply (C36_axis (lo a) (hi a) (n a) (m a) g); auto. }
  destruct (A ax) as ([r1 i1] & H1 & U1), (A ay) as ([r2 i2] & H2 & U2), (A az) as ([r3 i3] & H3 & U3).
  exists (fun a => match a with ax => r1 | ay => r2 | az => r3 end),
         (fun a => match a with ax => i1 | ay => i2 | az => i3 end); split.
  - intros []; assumption.
  - intros r' i' H a; specialize (H a); destruct a.
    + specialize (U1 (r' ax, i' ax) H); injection U1 as -> ->; auto.
    + specialize (U2 (r' ay, i' ay) H); injection U2 as -> ->; auto.
    + specialize (U3 (r' az, i' az) H); injection U3 as -> ->; auto.
Qed.
Print Assumptions C36_mesh.
Example C36_case : cells 4 3 2 1 3 /\ in_cell 0 (cell_size 0 1 4 3) 4 2 1 3 (5.5 / 12).
Proof.
  split; [ split; lia |]; unfold in_cell, centre, cell_size; Rn.
  change (4 * 3)%Z with 12%Z; change (3 + 4 * 1 - 2)%Z with 5%Z; split; lra.
Qed.

(** In any arithmetic, rounding included: a process gives its cells the size and the
    place they have in the undivided mesh, and its ghost cells those of the
    neighbour's physical cells they stand for. *)
Theorem C36_any_arithmetic : forall (T : Type) (N : Num T) (lo hi : T) (n m g r i : Z),
  cell_size lo hi n m = cell_size lo hi (n * m) 1 /\
  (forall d, centre lo d n r g i = centre lo d (n * m) 0 g (i + n * r)) /\
  (forall d, centre lo d n r g (i + n) = centre lo d n (r + 1) g i).
Proof.
  intros T N lo hi n m g r i; unfold cell_size, centre; repeat split; intros.
  - replace (n * m * 1)%Z with (n * m)%Z by lia; reflexivity.
  - replace (i + n * r + n * m * 0 - g)%Z with (i + n * r - g)%Z by lia; reflexivity.
  - replace (i + n + n * r - g)%Z with (i + n * (r + 1) - g)%Z by lia; reflexivity.
Qed.
Print Assumptions C36_any_arithmetic.
Example C36_any_arithmetic_case :
  centre (H := Znum) 0%Z 10%Z 4 2 3 5 = centre (H := Znum) 0%Z 10%Z 12 0 3 13 /\ centre (H := Znum) 0%Z 10%Z 4 2 3 5 = 105%Z.
Proof. split; reflexivity. Qed.
