(** * Facts about reductions and the size of the time step *)
From Coq Require Import ZArith List Bool Lia ZifyBool Permutation Reals Lra Psatz Floats.SpecFloat.
Import ListNotations.
From Verif Require Import Num Exec Grid GridFacts Boundaries BoundariesSpec BoundariesNarrow HydroNum
  Kernels KernelFacts Hydro2D Hydro2DSpec Hydro2DRun Hydro3D Hydro3DSpec Hydro3DRun EulerSpec HydroPhysics
  Binary64 TimeStep.
Local Open Scope Z_scope.

(** ** The outcome of a maximum reduction *)
Section Order.
Context {I T : Type} {N : Num T}.
(** [ok]: values among which [<] is a strict total order. *)
Variable ok : T -> Prop.
Hypothesis lt_irrefl : forall a, ok a -> nltb a a = false.
Hypothesis lt_trans : forall a b d, ok a -> ok b -> ok d -> nltb a b = true -> nltb b d = true -> nltb a d = true.
Hypothesis lt_total : forall a b, ok a -> ok b -> nltb a b = false -> nltb b a = false -> a = b.
Hypothesis max_lt : forall a b, ok a -> ok b -> nmax a b = if nltb a b then b else a.

Variable act : I -> bool.
Variable val : I -> T.
Variable init : T.
Variable f : I -> T -> T.
Hypothesis Hf : forall i a, ok a -> f i a = if act i then nmax a (val i) else a.
Hypothesis Hinit : ok init.

Definition upper (l : list I) (v : T) : Prop :=
  ok v /\ (v = init \/ exists i, In i l /\ act i = true /\ v = val i) /\
  nltb v init = false /\ forall i, In i l -> act i = true -> nltb v (val i) = false.

Lemma not_lt_trans a b d : ok a -> ok b -> ok d -> nltb b a = false -> nltb a d = false -> nltb b d = false.
Proof.
  intros Ha Hb Hd H1 H2. destruct (nltb b d) eqn:E; auto.
  destruct (nltb a b) eqn:E2.
  - rewrite (lt_trans a b d) in H2 by auto. discriminate.
  - rewrite (lt_total a b) in H2 by auto. congruence.
Qed.

Lemma lt_asym a b : ok a -> ok b -> nltb a b = true -> nltb b a = false.
Proof.
  intros Ha Hb E. destruct (nltb b a) eqn:E2; auto.
  rewrite <- (lt_irrefl a Ha). symmetry. eapply lt_trans; [| |exact Ha| |]; eauto.
Qed.

Lemma fold_upper l : (forall i, In i l -> act i = true -> ok (val i)) -> forall a, ok a ->
  let v := fold_left (fun a i => f i a) l a in
  ok v /\ (v = a \/ exists i, In i l /\ act i = true /\ v = val i) /\
  nltb v a = false /\ forall i, In i l -> act i = true -> nltb v (val i) = false.
Proof.
  induction l as [|i l IH]; intros Hl a Ha; simpl.
  - repeat split; auto. intros i [].
  - assert (Hl' : forall j, In j l -> act j = true -> ok (val j)) by (intros; apply Hl; simpl; auto).
    rewrite Hf by auto. destruct (act i) eqn:Ei.
    + assert (Hv : ok (val i)) by (apply Hl; simpl; auto).
      rewrite max_lt by auto. destruct (nltb a (val i)) eqn:E.
      * destruct (IH Hl' (val i) Hv) as (A & B & C & D). repeat split; auto.
        -- destruct B as [B|(j & Hj & B)]; [right; exists i; simpl; auto|right; exists j; simpl; tauto].
        -- eapply not_lt_trans; [exact Hv|auto|auto|exact C|]. apply lt_asym; auto.
        -- intros j [<-|Hj] Haj; auto.
      * destruct (IH Hl' a Ha) as (A & B & C & D). repeat split; auto.
        -- destruct B as [B|(j & Hj & B)]; [auto|right; exists j; simpl; tauto].
        -- intros j [<-|Hj] Haj; auto. eapply not_lt_trans; [exact Ha|auto|auto|exact C|auto].
    + destruct (IH Hl' a Ha) as (A & B & C & D). repeat split; auto.
      * destruct B as [B|(j & Hj & B)]; [auto|right; exists j; simpl; tauto].
      * intros j [<-|Hj] Haj; [congruence|auto].
Qed.

Lemma red_upper l v : (forall i, In i l -> act i = true -> ok (val i)) ->
  reduction f max_join init l v -> upper l v.
Proof.
  intros Hl HR. induction HR as [l|l1 l2 a b H1 IH1 H2 IH2|l l' a Hp H1 IH].
  - apply fold_upper; auto.
  - destruct IH1 as (A1 & B1 & C1 & D1); [intros; apply Hl; auto; apply in_or_app; auto|].
    destruct IH2 as (A2 & B2 & C2 & D2); [intros; apply Hl; auto; apply in_or_app; auto|].
    unfold max_join. destruct (nltb a b) eqn:E.
    + repeat split; auto.
      * destruct B2 as [B|(j & Hj & B)]; auto. right. exists j. rewrite in_app_iff. tauto.
      * intros i Hi Ha. apply in_app_or in Hi. destruct Hi as [Hi|Hi]; auto.
        eapply not_lt_trans; [exact A1|auto|apply Hl; auto; apply in_or_app; auto| |auto].
        apply lt_asym; auto.
    + repeat split; auto.
      * destruct B1 as [B|(j & Hj & B)]; auto. right. exists j. rewrite in_app_iff. tauto.
      * intros i Hi Ha. apply in_app_or in Hi. destruct Hi as [Hi|Hi]; auto.
        eapply not_lt_trans; [exact A2|auto|apply Hl; auto; apply in_or_app; auto|auto|auto].
  - destruct IH as (A & B & C & D).
    { intros. apply Hl; auto. eapply Permutation_in; eauto. }
    repeat split; auto.
    + destruct B as [B|(j & Hj & B)]; auto. right. exists j. split; auto. eapply Permutation_in; eauto.
    + intros i Hi Ha. apply D; auto. eapply Permutation_in; [symmetry; eauto|auto].
Qed.

Lemma upper_unique l v w : (forall i, In i l -> act i = true -> ok (val i)) -> upper l v -> upper l w -> v = w.
Proof.
  intros Hl (A1 & B1 & C1 & D1) (A2 & B2 & C2 & D2). apply lt_total; auto.
  - destruct B2 as [->|(j & Hj & Ha & ->)]; auto.
  - destruct B1 as [->|(j & Hj & Ha & ->)]; auto.
Qed.

Lemma red_unique l v w : (forall i, In i l -> act i = true -> ok (val i)) ->
  reduction f max_join init l v -> reduction f max_join init l w -> v = w.
Proof. intros. eapply upper_unique; eauto using red_upper. Qed.

(** Minimum over the processes. *)
Definition lower (l : list T) (v : T) : Prop := In v l /\ forall x, In x l -> nltb x v = false.

Lemma allreduce_lower l v : Forall ok l -> allreduce_min l v -> lower l v.
Proof.
  intros Hl HR. induction HR as [d|l1 l2 a b H1 IH1 H2 IH2|l l' a Hp H1 IH].
  - inversion Hl; subst. split; [left; auto|]. intros x [<-|[]]; auto.
  - apply Forall_app in Hl. destruct Hl as [Hl1 Hl2].
    destruct (IH1 Hl1) as [A1 B1]. destruct (IH2 Hl2) as [A2 B2].
    rewrite Forall_forall in Hl1, Hl2. unfold min_join. destruct (nltb b a) eqn:E.
    + split; [apply in_or_app; auto|]. intros x Hx. apply in_app_or in Hx. destruct Hx as [Hx|Hx]; auto.
      eapply not_lt_trans with (a := a); auto. apply lt_asym; auto.
    + split; [apply in_or_app; auto|]. intros x Hx. apply in_app_or in Hx. destruct Hx as [Hx|Hx]; auto.
      eapply not_lt_trans with (a := b); auto.
  - destruct IH as [A B].
    { rewrite Forall_forall in *. intros x Hx. apply Hl. eapply Permutation_in; eauto. }
    split; [eapply Permutation_in; eauto|]. intros x Hx. apply B. eapply Permutation_in; [symmetry; eauto|auto].
Qed.

Lemma allreduce_unique l v w : Forall ok l -> allreduce_min l v -> allreduce_min l w -> v = w.
Proof.
  intros Hl H1 H2. destruct (allreduce_lower _ _ Hl H1) as [A1 B1]. destruct (allreduce_lower _ _ Hl H2) as [A2 B2].
  rewrite Forall_forall in Hl. apply lt_total; auto.
Qed.
End Order.

(** Reductions only look at the functor on the listed items. *)
Lemma reduction_ext {I T} (f f' : I -> T -> T) join init l v :
  (forall i a, In i l -> f i a = f' i a) -> reduction f join init l v -> reduction f' join init l v.
Proof.
  intros He HR. induction HR as [l|l1 l2 a b H1 IH1 H2 IH2|l l' a Hp H1 IH].
  - assert (E : forall a, fold_left (fun a i => f i a) l a = fold_left (fun a i => f' i a) l a).
    { induction l as [|i l IHl]; intros a; simpl; auto. rewrite He by (simpl; auto).
      apply IHl. intros. apply He. simpl; auto. }
    rewrite E. constructor.
  - constructor; [apply IH1|apply IH2]; intros; apply He; apply in_or_app; auto.
  - eapply red_perm; eauto. apply IH. intros. apply He. eapply Permutation_in; eauto.
Qed.

Lemma allreduce_exists {T} {N : Num T} (l : list T) : l <> [] -> exists v, allreduce_min l v.
Proof.
  intros Hl. destruct l as [|a l]; [congruence|]. clear Hl. revert a. induction l as [|b l IH]; intros a.
  - exists a. constructor.
  - destruct (IH b) as [v Hv]. exists (min_join a v). apply (min_more [a] (b :: l)); auto. constructor.
Qed.

(** ** Exact arithmetic *)
Section OverR.
Lemma R_lt_irrefl (a : R) : True -> nltb a a = false.
Proof. intros _. cbn. destruct (Rlt_dec a a); auto; lra. Qed.
Lemma R_lt_trans (a b d : R) : True -> True -> True -> nltb a b = true -> nltb b d = true -> nltb a d = true.
Proof. intros _ _ _. cbn. destruct (Rlt_dec a b), (Rlt_dec b d), (Rlt_dec a d); auto; try discriminate; lra. Qed.
Lemma R_lt_total (a b : R) : True -> True -> nltb a b = false -> nltb b a = false -> a = b.
Proof. intros _ _. cbn. destruct (Rlt_dec a b), (Rlt_dec b a); try discriminate; intros; lra. Qed.
Lemma R_max_lt (a b : R) : True -> True -> nmax a b = if nltb a b then b else a.
Proof. intros _ _. cbn. destruct (Rlt_dec a b); [apply Rmax_right|apply Rmax_left]; lra. Qed.
Lemma R_nlt (a b : R) : nltb a b = false -> (b <= a)%R.
Proof. cbn. destruct (Rlt_dec a b); try discriminate; intros; lra. Qed.

Lemma red_R {J} (act : J -> bool) (val : J -> R) f init l v :
  (forall i a, f i a = if act i then Rmax a (val i) else a) ->
  reduction f max_join init l v ->
  (v = init \/ exists i, In i l /\ act i = true /\ v = val i) /\
  forall i, In i l -> act i = true -> (val i <= v)%R.
Proof.
  intros Hf HR.
  destruct (red_upper (fun _ => True) R_lt_irrefl R_lt_trans R_lt_total R_max_lt act val init f
    (fun i a _ => Hf i a) I l v (fun _ _ _ => I) HR) as (_ & B & _ & D).
  split; auto. intros. apply R_nlt. auto.
Qed.

Lemma red_R_unique {J} (act : J -> bool) (val : J -> R) f init l v w :
  (forall i a, f i a = if act i then Rmax a (val i) else a) ->
  reduction f max_join init l v -> reduction f max_join init l w -> v = w.
Proof.
  intros Hf. apply (red_unique (fun _ => True) R_lt_irrefl R_lt_trans R_lt_total R_max_lt act val init f
    (fun i a _ => Hf i a) I l v w (fun _ _ _ => I)).
Qed.

Lemma allreduce_R l (v : R) : allreduce_min l v -> In v l /\ forall x, In x l -> (v <= x)%R.
Proof.
  intros HR. destruct (allreduce_lower (fun _ => True) R_lt_irrefl R_lt_trans R_lt_total l v
    ltac:(apply Forall_forall; auto) HR) as [A B].
  split; auto. intros. apply R_nlt. auto.
Qed.
End OverR.

(** ** IEEE doubles: every value except NaN and -0 *)
Section OverF.
Definition okF (x : b64) : Prop := is_nan x = false /\ x <> S754_zero true.

Ltac cmp := unfold nltb, Fnum, SFltb, SFcompare.

(** Order of a value other than NaN and -0: class and magnitude. *)
Definition cls (x : b64) : Z * Z * Z :=
  match x with
  | S754_infinity true => (-2, 0, 0)
  | S754_finite true m e => (-1, - e, - Zpos m)
  | S754_zero _ => (0, 0, 0)
  | S754_finite false m e => (1, e, Zpos m)
  | S754_infinity false => (2, 0, 0)
  | S754_nan => (3, 0, 0)
  end.
Definition lex (a b : Z * Z * Z) : Prop :=
  let '(a1, a2, a3) := a in let '(b1, b2, b3) := b in
  a1 < b1 \/ a1 = b1 /\ (a2 < b2 \/ a2 = b2 /\ a3 < b3).

Lemma ltb_lex a b : okF a -> okF b -> nltb (Num := Fnum) a b = true <-> lex (cls a) (cls b).
Proof.
  intros [Ha Ha'] [Hb Hb']. destruct a as [[]|[]| |[] ma ea]; try discriminate; try congruence;
  destruct b as [[]|[]| |[] mb eb]; try discriminate; try congruence;
  cmp; unfold cls, lex; try (split; intros; [lia|reflexivity]); try (split; intros; [discriminate|lia]).
  - destruct (Z.compare_spec ea eb); [subst; change (Pos.compare_cont Eq ma mb) with (Pos.compare ma mb)| |].
    + destruct (Pos.compare_spec ma mb) as [E|E|E]; simpl; split; intros; try discriminate; try reflexivity; lia.
    + split; intros; [discriminate|lia].
    + split; intros; [lia|reflexivity].
  - destruct (Z.compare_spec ea eb); [subst; change (Pos.compare_cont Eq ma mb) with (Pos.compare ma mb)| |].
    + destruct (Pos.compare_spec ma mb) as [E|E|E]; simpl; split; intros; try discriminate; try reflexivity; lia.
    + split; intros; [lia|reflexivity].
    + split; intros; [discriminate|lia].
Qed.

Lemma cls_inj a b : okF a -> okF b -> cls a = cls b -> a = b.
Proof.
  intros [Ha Ha'] [Hb Hb']. destruct a as [[]|[]| |[] ma ea]; try discriminate; try congruence;
  destruct b as [[]|[]| |[] mb eb]; try discriminate; try congruence; unfold cls; intros E;
  injection E; intros; try lia; f_equal; lia.
Qed.

Lemma F_lt_irrefl a : okF a -> nltb (Num := Fnum) a a = false.
Proof.
  intros Ha. destruct (nltb a a) eqn:E; auto. apply ltb_lex in E; auto.
  exfalso. destruct (cls a) as [[? ?] ?]. simpl in E. lia.
Qed.
Lemma F_lt_trans a b d : okF a -> okF b -> okF d ->
  nltb (Num := Fnum) a b = true -> nltb (Num := Fnum) b d = true -> nltb (Num := Fnum) a d = true.
Proof.
  intros Ha Hb Hd. rewrite !ltb_lex by auto. destruct (cls a) as [[? ?] ?], (cls b) as [[? ?] ?], (cls d) as [[? ?] ?].
  unfold lex. lia.
Qed.
Lemma F_lt_total a b : okF a -> okF b ->
  nltb (Num := Fnum) a b = false -> nltb (Num := Fnum) b a = false -> a = b.
Proof.
  intros Ha Hb H1 H2. apply cls_inj; auto.
  assert (N1 : ~ lex (cls a) (cls b)) by (rewrite <- ltb_lex by auto; congruence).
  assert (N2 : ~ lex (cls b) (cls a)) by (rewrite <- ltb_lex by auto; congruence).
  destruct (cls a) as [[? ?] ?], (cls b) as [[? ?] ?]. unfold lex in *. f_equal; [f_equal|]; lia.
Qed.
Lemma F_max_lt a b : okF a -> okF b -> nmax (Num := Fnum) a b = if nltb (Num := Fnum) a b then b else a.
Proof. intros [Ha _] [Hb _]. cbn [nmax nltb Fnum]. unfold b64_max. rewrite Ha, Hb. reflexivity. Qed.

Lemma okF_init : okF (max_init (H := Fnum)).
Proof. split; [reflexivity|]. vm_compute. discriminate. Qed.

(** NaN contributions are ignored by [fmax]. *)
Lemma red_F_unique {I} (act : I -> bool) (val : I -> b64) f l v w :
  (forall i a, f i a = if act i then nmax (Num := Fnum) a (val i) else a) ->
  (forall i, In i l -> act i = true -> val i <> S754_zero true) ->
  reduction f (max_join (H := Fnum)) (max_init (H := Fnum)) l v ->
  reduction f (max_join (H := Fnum)) (max_init (H := Fnum)) l w -> v = w.
Proof.
  intros Hf Hv.
  apply (red_unique (N := Fnum) okF F_lt_irrefl F_lt_trans F_lt_total F_max_lt
    (fun i => act i && negb (is_nan (val i))) val (max_init (H := Fnum)) f).
  - intros i a [Ha _]. rewrite Hf. destruct (act i); auto. cbn [nmax Fnum]. unfold b64_max. rewrite Ha.
    destruct (is_nan (val i)); reflexivity.
  - apply okF_init.
  - intros i Hi HA. apply andb_true_iff in HA. destruct HA as [HA HN]. split; auto.
    destruct (is_nan (val i)); auto; discriminate.
Qed.
End OverF.

(** ** The CFL condition *)
Local Open Scope R_scope.

(** The time step with gravity solves  gsum d^2/(2h) + w d/h <= cfl. *)
Lemma corrected_bound (S : hset R) w gs h : 0 < cfl S -> 0 < w -> 0 <= gs -> 0 < h ->
  0 < corrected S w gs h /\
  forall d, 0 < d -> d * corrected S w gs h <= cfl S -> d * w / h + gs * (d * d) / (2 * h) <= cfl S.
Proof.
  intros Hc Hw Hg Hh. unfold corrected, tiny_k. Rn.
  set (k0 := gs * (cfl S * h / (w * w))). set (k := Rmax k0 (1 / 10000)).
  assert (Hk : 1 / 10000 <= k) by apply Rmax_r. assert (Hk0 : k0 <= k) by apply Rmax_l.
  set (r := sqrt (1 + 2 * k) - 1).
  assert (Hs : sqrt (1 + 2 * k) * sqrt (1 + 2 * k) = 1 + 2 * k) by (apply sqrt_sqrt; lra).
  assert (Hs1 : 1 < sqrt (1 + 2 * k)) by (rewrite <- sqrt_1 at 1; apply sqrt_lt_1; lra).
  assert (Hr : 0 < r) by (unfold r; lra).
  assert (Er : r * (r + 2) = 2 * k) by (unfold r; nra).
  assert (EW : w * (k / r) / h = w * (r + 2) / (2 * h)).
  { replace k with (r * (r + 2) / 2) by lra. field. split; lra. }
  rewrite EW.
  split.
  - apply Rdiv_lt_0_compat; [|lra]. apply Rmult_lt_0_compat; lra.
  - intros d Hd Hb.
    assert (Hx : d * w * (r + 2) <= 2 * h * cfl S).
    { apply (Rmult_le_compat_r (2 * h)) in Hb; [|lra].
      replace (d * (w * (r + 2) / (2 * h)) * (2 * h)) with (d * w * (r + 2)) in Hb by (field; lra). lra. }
    set (x := d * w / h). assert (Hxp : 0 < x) by (unfold x; apply Rdiv_lt_0_compat; nra).
    assert (Hx' : x * (r + 2) <= 2 * cfl S).
    { unfold x. apply (Rmult_le_reg_r h); [lra|]. replace (d * w / h * (r + 2) * h) with (d * w * (r + 2)) by (field; lra). lra. }
    assert (Hgs : gs * (d * d) / (2 * h) <= k * (x * x) / (2 * cfl S)).
    { assert (E : gs * (d * d) / (2 * h) = k0 * (x * x) / (2 * cfl S)) by (unfold k0, x; field; repeat split; lra).
      rewrite E. apply Rmult_le_compat_r; [left; apply Rinv_0_lt_compat; lra|]. apply Rmult_le_compat_r; nra. }
    apply Rle_trans with (x + k * (x * x) / (2 * cfl S)); [unfold x in *; lra|].
    apply (Rmult_le_reg_r (2 * cfl S)); [lra|].
    replace ((x + k * (x * x) / (2 * cfl S)) * (2 * cfl S)) with (2 * cfl S * x + k * (x * x)) by (field; lra).
    replace k with (r * (r + 2) / 2) by lra.
    (* 2 cfl x + r (r+2) x^2 / 2 <= 2 cfl^2  with  y = x (r+2) <= 2 cfl *)
    assert (Hrx : r * x <= 2 * cfl S - 2 * x) by lra.
    assert (r * x * (x * (r + 2)) <= (2 * cfl S - 2 * x) * (2 * cfl S)).
    { apply Rmult_le_compat; nra. }
    nra.
Qed.

Section Cfl.
Variable S : hset R.
Hypothesis HS : sane S.
Hypothesis Hcfl : 0 < cfl S.
Hypothesis Hdx : 0 < dx S.
Hypothesis Hdy : 0 < dy S.
Variable m : mesh.
Variable g : gravp.

Lemma sound_prim (d3 : bool) (u : hs R) : snd (if d3 then prim3 S u else prim2 S u) = sound S (fst (if d3 then prim3 S u else prim2 S u)) /\
  0 < sound S (fst (if d3 then prim3 S u else prim2 S u)).
Proof.
  pose proof (prim_sound S HS d3 u) as H. unfold primd in H.
  assert (E : snd (if d3 then prim3 S u else prim2 S u) = sound S (fst (if d3 then prim3 S u else prim2 S u))) by (destruct d3; reflexivity).
  split; auto. rewrite <- E. destruct (if d3 then _ else _) as [q c]. simpl in *. pose proof (smallc_pos S HS). lra.
Qed.

(** Speed at which waves cross a cell: sum over the axes of (sound + |v|)/size. *)
Definition rate2 (U : field2 R) i j : R :=
  let q := fst (prim2 S (cell_state U i j)) in
  (sound S q + Rabs (hu q)) / dx S + (sound S q + Rabs (hv q)) / dy S.
Definition rate3 (U : field3 R) i j k : R :=
  let q := fst (prim3 S (cell_state3 U i j k)) in
  (sound S q + Rabs (hu q)) / dx S + (sound S q + Rabs (hv q)) / dy S + (sound S q + Rabs (hw q)) / dz S.

Lemma speeds2_rate U i j : speeds2 S U i j = rate2 U i j /\ 0 < rate2 U i j.
Proof.
  unfold speeds2, rate2. destruct (sound_prim false (cell_state U i j)) as [A B].
  destruct (prim2 S (cell_state U i j)) as [q c]. cbn [fst snd] in *. rewrite A. split; [reflexivity|].
  apply Rplus_lt_0_compat; apply Rdiv_lt_0_compat; auto;
  apply Rplus_lt_le_0_compat; auto; apply Rabs_pos.
Qed.

Lemma speeds3_rate U i j k : 0 < dz S -> speeds3 S U i j k = rate3 U i j k /\ 0 < rate3 U i j k.
Proof.
  intros Hdz. unfold speeds3, rate3. destruct (sound_prim true (cell_state3 U i j k)) as [A B].
  destruct (prim3 S (cell_state3 U i j k)) as [q c]. cbn [fst snd] in *. rewrite A. split; [reflexivity|].
  repeat apply Rplus_lt_0_compat; apply Rdiv_lt_0_compat; auto;
  apply Rplus_lt_le_0_compat; auto; apply Rabs_pos.
Qed.

Lemma inner2_phys i j : inner2 m i j = true <-> phys2 m i j.
Proof. unfold inner2, phys2, physical, isize, jsize. lia. Qed.
Lemma inner3_phys i j k : inner3 m i j k = true <-> phys3 m i j k.
Proof. unfold inner3, phys3, phys2, physical, isize, jsize, ksize. lia. Qed.

Lemma phys_cells2 i j : (0 <= gw m)%Z -> phys2 m i j -> In (i, j) (cells2 m).
Proof. intros Hg [Hi Hj]. apply in_range2. unfold physical, isize, jsize in *. lia. Qed.
Lemma phys_cells3 i j k : (0 <= gw m)%Z -> phys3 m i j k -> In (i, j, k) (cells3 m).
Proof. intros Hg [[Hi Hj] Hk]. apply in_range3. unfold physical, isize, jsize, ksize in *. lia. Qed.

Lemma init_neg : max_init (T := R) < 0.
Proof. unfold max_init. cbn [nZ Rnum]. apply IZR_lt. reflexivity. Qed.

Hypothesis Hgw : (0 <= gw m)%Z.

(** Abstract form: the inverse time step is the largest rate. *)
Lemma inv_dt {I} (f : I -> R -> R) (act : I -> bool) (val : I -> R) l v d :
  (forall i a, f i a = if act i then Rmax a (val i) else a) ->
  (forall i, In i l -> act i = true -> 0 < val i) ->
  (exists i, In i l /\ act i = true) ->
  reduction f max_join max_init l v -> d = cfl S / v ->
  0 < d /\ (forall i, In i l -> act i = true -> d * val i <= cfl S) /\
  exists i, In i l /\ act i = true /\ d * val i = cfl S.
Proof.
  intros Hf Hv (i0 & Hi0 & Ha0) HR ->.
  destruct (red_R act val f max_init l v Hf HR) as [B D].
  pose proof init_neg as Hn. pose proof (D _ Hi0 Ha0) as H0. pose proof (Hv _ Hi0 Ha0) as H1.
  assert (0 < v) by lra. split; [apply Rdiv_lt_0_compat; auto|]. split.
  - intros i Hi Ha. pose proof (D _ Hi Ha).
    apply (Rmult_le_reg_r v); auto. replace (cfl S / v * val i * v) with (cfl S * val i) by (field; lra). nra.
  - destruct B as [->|(i & Hi & Ha & E)]; [lra|]. exists i. split; auto. split; auto. rewrite <- E. field. lra.
Qed.

Lemma dt_local2_bound U G d : g_enabled g = false -> (exists i j, phys2 m i j) ->
  dt_local2 m S g U G d ->
  0 < d /\ (forall i j, phys2 m i j -> d * rate2 U i j <= cfl S) /\
  exists i j, phys2 m i j /\ d * rate2 U i j = cfl S.
Proof.
  intros Hg (i0 & j0 & H0) (v & HR & Hd). rewrite Hg in HR.
  destruct (inv_dt (dt_item2 m S U) (fun c => inner2 m (fst c) (snd c)) (fun c => speeds2 S U (fst c) (snd c))
     (cells2 m) v d) as (A & B & (i & j) & C1 & C2 & C3); auto.
  - intros [i j] a. reflexivity.
  - intros [i j] _ _. simpl. destruct (speeds2_rate U i j) as [-> ?]. auto.
  - exists (i0, j0). split; [apply phys_cells2|apply inner2_phys]; auto.
  - split; auto. split.
    + intros i' j' Hp. destruct (speeds2_rate U i' j') as [<- _].
      apply (B (i', j')); [apply phys_cells2|apply inner2_phys]; auto.
    + exists i, j. simpl in *. destruct (speeds2_rate U i j) as [<- _]. split; auto. apply inner2_phys; auto.
Qed.

Lemma dt_local3_bound U G d : 0 < dz S -> g_enabled g = false -> (exists i j k, phys3 m i j k) ->
  dt_local3 m S g U G d ->
  0 < d /\ (forall i j k, phys3 m i j k -> d * rate3 U i j k <= cfl S) /\
  exists i j k, phys3 m i j k /\ d * rate3 U i j k = cfl S.
Proof.
  intros Hdz Hg (i0 & j0 & k0 & H0) (v & HR & Hd). rewrite Hg in HR.
  destruct (inv_dt (dt_item3 m S U) (fun c => inner3 m (fst (fst c)) (snd (fst c)) (snd c))
     (fun c => speeds3 S U (fst (fst c)) (snd (fst c)) (snd c))
     (cells3 m) v d) as (A & B & ((i & j) & k) & C1 & C2 & C3); auto.
  - intros [[i j] k] a. reflexivity.
  - intros [[i j] k] _ _. simpl. destruct (speeds3_rate U i j k Hdz) as [-> ?]. auto.
  - exists (i0, j0, k0). split; [apply phys_cells3|apply inner3_phys]; auto.
  - split; auto. split.
    + intros i' j' k' Hp. destruct (speeds3_rate U i' j' k' Hdz) as [<- _].
      apply (B (i', j', k')); [apply phys_cells3|apply inner3_phys]; auto.
    + exists i, j, k. simpl in *. destruct (speeds3_rate U i j k Hdz) as [<- _]. split; auto. apply inner3_phys; auto.
Qed.

(** With gravity. *)
Definition total_speed2 (U : field2 R) i j : R :=
  let q := fst (prim2 S (cell_state U i j)) in 2 * sound S q + Rabs (hu q) + Rabs (hv q).
Definition total_speed3 (U : field3 R) i j k : R :=
  let q := fst (prim3 S (cell_state3 U i j k)) in 3 * sound S q + Rabs (hu q) + Rabs (hv q) + Rabs (hw q).

Lemma gravity_speeds2_eq U G i j :
  gravity_speeds2 S U G i j = corrected S (total_speed2 U i j) (Rabs (G i j IX) + Rabs (G i j IY)) (Rmin (dx S) (dy S)) /\
  0 < total_speed2 U i j.
Proof.
  unfold gravity_speeds2, total_speed2. destruct (sound_prim false (cell_state U i j)) as [A B].
  destruct (prim2 S (cell_state U i j)) as [q c]. cbn [fst snd] in *. rewrite A. split.
  - Rn. f_equal. ring.
  - pose proof (Rabs_pos (hu q)). pose proof (Rabs_pos (hv q)). lra.
Qed.
Lemma gravity_speeds3_eq U G i j k :
  gravity_speeds3 S U G i j k = corrected S (total_speed3 U i j k)
     (Rabs (G i j k IX) + Rabs (G i j k IY) + Rabs (G i j k IZ)) (Rmin (Rmin (dx S) (dy S)) (dz S)) /\
  0 < total_speed3 U i j k.
Proof.
  unfold gravity_speeds3, total_speed3. destruct (sound_prim true (cell_state3 U i j k)) as [A B].
  destruct (prim3 S (cell_state3 U i j k)) as [q c]. cbn [fst snd] in *. rewrite A. split.
  - Rn. f_equal. ring.
  - pose proof (Rabs_pos (hu q)). pose proof (Rabs_pos (hv q)). pose proof (Rabs_pos (hw q)). lra.
Qed.

Lemma dt_local2_gravity U G d : g_enabled g = true -> (exists i j, phys2 m i j) ->
  dt_local2 m S g U G d ->
  0 < d /\ forall i j, phys2 m i j ->
  d * total_speed2 U i j / Rmin (dx S) (dy S) +
  (Rabs (G i j IX) + Rabs (G i j IY)) * (d * d) / (2 * Rmin (dx S) (dy S)) <= cfl S.
Proof.
  intros Hg (i0 & j0 & H0) (v & HR & Hd). rewrite Hg in HR.
  assert (Hh : 0 < Rmin (dx S) (dy S)) by (apply Rmin_pos; auto).
  assert (Hga : forall i j, 0 <= Rabs (G i j IX) + Rabs (G i j IY)).
  { intros. pose proof (Rabs_pos (G i j IX)). pose proof (Rabs_pos (G i j IY)). lra. }
  destruct (inv_dt (dt_gravity_item2 m S U G) (fun c => inner2 m (fst c) (snd c)) (fun c => gravity_speeds2 S U G (fst c) (snd c))
     (cells2 m) v d) as (A & B & _); auto.
  - intros [i j] a. reflexivity.
  - intros [i j] _ _. simpl. destruct (gravity_speeds2_eq U G i j) as [-> ?]. apply corrected_bound; auto.
  - exists (i0, j0). split; [apply phys_cells2|apply inner2_phys]; auto.
  - split; auto. intros i j Hp. destruct (gravity_speeds2_eq U G i j) as [E HW].
    apply (proj2 (corrected_bound S _ _ _ Hcfl HW (Hga i j) Hh) d A). rewrite <- E.
    apply (B (i, j)); [apply phys_cells2|apply inner2_phys]; auto.
Qed.

Lemma dt_local3_gravity U G d : 0 < dz S -> g_enabled g = true -> (exists i j k, phys3 m i j k) ->
  dt_local3 m S g U G d ->
  0 < d /\ forall i j k, phys3 m i j k ->
  d * total_speed3 U i j k / Rmin (Rmin (dx S) (dy S)) (dz S) +
  (Rabs (G i j k IX) + Rabs (G i j k IY) + Rabs (G i j k IZ)) * (d * d) / (2 * Rmin (Rmin (dx S) (dy S)) (dz S)) <= cfl S.
Proof.
  intros Hdz Hg (i0 & j0 & k0 & H0) (v & HR & Hd). rewrite Hg in HR.
  assert (Hh : 0 < Rmin (Rmin (dx S) (dy S)) (dz S)) by (repeat apply Rmin_pos; auto).
  assert (Hga : forall i j k, 0 <= Rabs (G i j k IX) + Rabs (G i j k IY) + Rabs (G i j k IZ)).
  { intros. pose proof (Rabs_pos (G i j k IX)). pose proof (Rabs_pos (G i j k IY)). pose proof (Rabs_pos (G i j k IZ)). lra. }
  destruct (inv_dt (dt_gravity_item3 m S U G) (fun c => inner3 m (fst (fst c)) (snd (fst c)) (snd c))
     (fun c => gravity_speeds3 S U G (fst (fst c)) (snd (fst c)) (snd c))
     (cells3 m) v d) as (A & B & _); auto.
  - intros [[i j] k] a. reflexivity.
  - intros [[i j] k] _ _. simpl. destruct (gravity_speeds3_eq U G i j k) as [-> ?]. apply corrected_bound; auto.
  - exists (i0, j0, k0). split; [apply phys_cells3|apply inner3_phys]; auto.
  - split; auto. intros i j k Hp. destruct (gravity_speeds3_eq U G i j k) as [E HW].
    apply (proj2 (corrected_bound S _ _ _ Hcfl HW (Hga i j k) Hh) d A). rewrite <- E.
    apply (B (i, j, k)); [apply phys_cells3|apply inner3_phys]; auto.
Qed.

(** The plain CFL bound follows. *)
Lemma gravity_rate2 U G d i j : 0 < d ->
  d * total_speed2 U i j / Rmin (dx S) (dy S) +
  (Rabs (G i j IX) + Rabs (G i j IY)) * (d * d) / (2 * Rmin (dx S) (dy S)) <= cfl S ->
  d * rate2 U i j <= cfl S.
Proof.
  intros Hd HB. assert (Hh : 0 < Rmin (dx S) (dy S)) by (apply Rmin_pos; auto).
  assert (H0 : 0 <= (Rabs (G i j IX) + Rabs (G i j IY)) * (d * d) / (2 * Rmin (dx S) (dy S))).
  { pose proof (Rabs_pos (G i j IX)). pose proof (Rabs_pos (G i j IY)).
    apply Rmult_le_pos; [nra|left; apply Rinv_0_lt_compat; lra]. }
  enough (rate2 U i j <= total_speed2 U i j / Rmin (dx S) (dy S)) by (unfold Rdiv in *; nra).
  unfold rate2, total_speed2. destruct (sound_prim false (cell_state U i j)) as [_ Hc]. cbv iota in Hc.
  set (q := fst (prim2 S (cell_state U i j))) in *.
  pose proof (Rabs_pos (hu q)). pose proof (Rabs_pos (hv q)).
  pose proof (Rmin_l (dx S) (dy S)). pose proof (Rmin_r (dx S) (dy S)).
  assert (Hinv : forall x y, 0 <= x -> Rmin (dx S) (dy S) <= y -> x / y <= x / Rmin (dx S) (dy S)).
  { intros x y Hx Hy. apply Rmult_le_compat_l; auto. apply Rinv_le_contravar; auto. }
  replace ((2 * sound S q + Rabs (hu q) + Rabs (hv q)) / Rmin (dx S) (dy S)) with
    ((sound S q + Rabs (hu q)) / Rmin (dx S) (dy S) + (sound S q + Rabs (hv q)) / Rmin (dx S) (dy S)) by (field; lra).
  apply Rplus_le_compat; apply Hinv; lra.
Qed.

Lemma gravity_rate3 U G d i j k : 0 < d -> 0 < dz S ->
  d * total_speed3 U i j k / Rmin (Rmin (dx S) (dy S)) (dz S) +
  (Rabs (G i j k IX) + Rabs (G i j k IY) + Rabs (G i j k IZ)) * (d * d) / (2 * Rmin (Rmin (dx S) (dy S)) (dz S)) <= cfl S ->
  d * rate3 U i j k <= cfl S.
Proof.
  intros Hd Hdz HB. set (h := Rmin (Rmin (dx S) (dy S)) (dz S)) in *.
  assert (Hh : 0 < h) by (unfold h; repeat apply Rmin_pos; auto).
  assert (H0 : 0 <= (Rabs (G i j k IX) + Rabs (G i j k IY) + Rabs (G i j k IZ)) * (d * d) / (2 * h)).
  { pose proof (Rabs_pos (G i j k IX)). pose proof (Rabs_pos (G i j k IY)). pose proof (Rabs_pos (G i j k IZ)).
    apply Rmult_le_pos; [nra|left; apply Rinv_0_lt_compat; lra]. }
  enough (rate3 U i j k <= total_speed3 U i j k / h) by (unfold Rdiv in *; nra).
  unfold rate3, total_speed3. destruct (sound_prim true (cell_state3 U i j k)) as [_ Hc]. cbv iota in Hc.
  set (q := fst (prim3 S (cell_state3 U i j k))) in *.
  pose proof (Rabs_pos (hu q)). pose proof (Rabs_pos (hv q)). pose proof (Rabs_pos (hw q)).
  assert (h <= dx S /\ h <= dy S /\ h <= dz S) as (? & ? & ?).
  { unfold h. pose proof (Rmin_l (dx S) (dy S)). pose proof (Rmin_r (dx S) (dy S)).
    pose proof (Rmin_l (Rmin (dx S) (dy S)) (dz S)). pose proof (Rmin_r (Rmin (dx S) (dy S)) (dz S)). lra. }
  assert (Hinv : forall x y, 0 <= x -> h <= y -> x / y <= x / h).
  { intros x y Hx Hy. apply Rmult_le_compat_l; auto. apply Rinv_le_contravar; auto. }
  replace ((3 * sound S q + Rabs (hu q) + Rabs (hv q) + Rabs (hw q)) / h) with
    ((sound S q + Rabs (hu q)) / h + (sound S q + Rabs (hv q)) / h + (sound S q + Rabs (hw q)) / h) by (field; lra).
  repeat apply Rplus_le_compat; apply Hinv; lra.
Qed.

Lemma dt_local2_unique U G d d' : dt_local2 m S g U G d -> dt_local2 m S g U G d' -> d = d'.
Proof.
  intros (v & HR & ->) (w & HR' & ->). f_equal. destruct (g_enabled g).
  - eapply (red_R_unique (fun c => inner2 m (fst c) (snd c)) (fun c => gravity_speeds2 S U G (fst c) (snd c))); eauto.
    intros [i j] a. reflexivity.
  - eapply (red_R_unique (fun c => inner2 m (fst c) (snd c)) (fun c => speeds2 S U (fst c) (snd c))); eauto.
    intros [i j] a. reflexivity.
Qed.
Lemma dt_local3_unique U G d d' : dt_local3 m S g U G d -> dt_local3 m S g U G d' -> d = d'.
Proof.
  intros (v & HR & ->) (w & HR' & ->). f_equal. destruct (g_enabled g).
  - eapply (red_R_unique (fun c => inner3 m (fst (fst c)) (snd (fst c)) (snd c))
      (fun c => gravity_speeds3 S U G (fst (fst c)) (snd (fst c)) (snd c))); eauto.
    intros [[i j] k] a. reflexivity.
  - eapply (red_R_unique (fun c => inner3 m (fst (fst c)) (snd (fst c)) (snd c))
      (fun c => speeds3 S U (fst (fst c)) (snd (fst c)) (snd c))); eauto.
    intros [[i j] k] a. reflexivity.
Qed.
End Cfl.

(** A time step always exists. *)
Lemma dt_local2_exists {T} {N : Num T} m (S : hset T) g U G : exists d, dt_local2 m S g U G d.
Proof. eexists. eexists. split; [apply red_chunk|reflexivity]. Qed.
Lemma dt_local3_exists {T} {N : Num T} m (S : hset T) g U G : exists d, dt_local3 m S g U G d.
Proof. eexists. eexists. split; [apply red_chunk|reflexivity]. Qed.
