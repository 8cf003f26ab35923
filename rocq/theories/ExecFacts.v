(** * Facts about the execution model: race freedom gives determinism. *)
From Coq Require Import ZArith List Bool Lia Permutation.
Import ListNotations.
From Verif Require Import Num Exec.

Section Facts.
Context {T : Type}.
Implicit Types s : store T.
Implicit Types p : prog T.

Definition nowhere : loc -> Prop := fun _ => False.

Lemma upd_same s l x : upd s l x l = x.
Proof. unfold upd; destruct (loc_eq_dec l l); congruence. Qed.

Lemma upd_other s l l' x : l <> l' -> upd s l x l' = s l'.
Proof. unfold upd; destruct (loc_eq_dec l l'); congruence. Qed.

(** [run] depends only on the locations read/updated and on the location observed. *)
Lemma run_agree (R W A : loc -> Prop) p : forall s1 s2 l,
  foot R W A p ->
  (forall m, R m \/ A m -> s1 m = s2 m) ->
  s1 l = s2 l ->
  run p s1 l = run p s2 l.
Proof.
  induction p as [| |m k IH|m x k IH|m f k IH]; intros s1 s2 l Hf Hag Hl; simpl in *; auto.
  - destruct Hf as [Hm Hk]. rewrite (Hag m (or_introl Hm)). apply IH; auto.
  - destruct Hf as [Hm Hk]. apply IH; auto.
    + intros m' Hm'. unfold upd. destruct (loc_eq_dec m m'); auto.
    + unfold upd. destruct (loc_eq_dec m l); auto.
  - destruct Hf as [Hm Hk]. apply IH; auto.
    + intros m' Hm'. unfold upd. destruct (loc_eq_dec m m'); auto.
      rewrite (Hag m); auto.
    + unfold upd. destruct (loc_eq_dec m l); auto. rewrite (Hag m); auto.
Qed.

(** [run] changes only locations of the write footprint. *)
Lemma run_frame (R W A : loc -> Prop) p : forall s l,
  foot R W A p -> ~ W l -> ~ A l -> run p s l = s l.
Proof.
  induction p as [| |m k IH|m x k IH|m f k IH]; intros s l Hf Hw Ha; simpl in *; auto.
  - destruct Hf as [Hm Hk]. apply IH; auto.
  - destruct Hf as [Hm Hk]. rewrite IH; auto. apply upd_other. congruence.
  - destruct Hf as [Hm Hk]. rewrite IH; auto. apply upd_other. congruence.
Qed.

Lemma foot_mono (R W A R' W' A' : loc -> Prop) p :
  (forall l, R l -> R' l) -> (forall l, W l -> W' l) -> (forall l, A l -> A' l) ->
  foot R W A p -> foot R' W' A' p.
Proof.
  intros HR HW HA. induction p; simpl; intuition auto.
Qed.

Lemma tstep_foot inb (R W A : loc -> Prop) p s p' s' :
  foot R W A p -> tstep inb p s = Some (p', s') -> foot R W A p'.
Proof.
  destruct p; simpl; try congruence; destruct (inb l); try congruence;
  intros [H1 H2] E; inversion E; subst; auto.
Qed.

Lemma tstep_run inb p s p' s' :
  tstep inb p s = Some (p', s') -> run p' s' = run p s.
Proof.
  destruct p; simpl; try congruence; destruct (inb l); try congruence;
  intros E; inversion E; subst; auto.
Qed.

Lemma tstep_frame inb (R W A : loc -> Prop) p s p' s' l :
  foot R W A p -> tstep inb p s = Some (p', s') -> ~ W l -> ~ A l -> s' l = s l.
Proof.
  destruct p; simpl; try congruence; destruct (inb l0); try congruence;
  intros [H1 H2] E Hw Ha; inversion E; subst; auto; apply upd_other; congruence.
Qed.

Lemma psteps_trans inb c1 c2 c3 :
  @psteps T inb c1 c2 -> psteps inb c2 c3 -> psteps inb c1 c3.
Proof. induction 1; auto. intros. econstructor; eauto. Qed.

(** ** Determinism of race-free pools *)

Definition pool_foot (Rf Wf : nat -> loc -> Prop) (P : list (prog T)) : Prop :=
  forall t p, nth_error P t = Some p -> foot (Rf t) (Wf t) nowhere p.

Definition race_free (n : nat) (Rf Wf : nat -> loc -> Prop) : Prop :=
  forall t t' l, (t < n)%nat -> (t' < n)%nat -> t <> t' ->
    Wf t l -> ~ Wf t' l /\ ~ Rf t' l.

Definition pool_inv (Rf Wf : nat -> loc -> Prop) (P0 : list (prog T)) s0 (c : store T * list (prog T)) :=
  let '(s, P) := c in
  length P = length P0 /\ pool_foot Rf Wf P /\
  (forall t p p0 l, nth_error P t = Some p -> nth_error P0 t = Some p0 ->
      Wf t l -> run p s l = run p0 s0 l) /\
  (forall l, (forall t, (t < length P0)%nat -> ~ Wf t l) -> s l = s0 l).

Lemma nth_error_upd_same {A} (P1 : list A) (p : A) P2 :
  nth_error (P1 ++ p :: P2) (length P1) = Some p.
Proof. rewrite nth_error_app2, PeanoNat.Nat.sub_diag; auto. Qed.

Lemma nth_error_upd_other {A} (P1 : list A) (p p' : A) P2 t :
  t <> length P1 -> nth_error (P1 ++ p' :: P2) t = nth_error (P1 ++ p :: P2) t.
Proof.
  intros H. destruct (Compare_dec.lt_dec t (length P1)).
  - rewrite !nth_error_app1; auto.
  - rewrite !nth_error_app2 by lia.
    destruct (t - length P1)%nat eqn:E; [lia|]. reflexivity.
Qed.

Lemma pool_inv_step inb Rf Wf P0 s0 c c' :
  race_free (length P0) Rf Wf ->
  pool_inv Rf Wf P0 s0 c -> pstep inb c c' -> pool_inv Rf Wf P0 s0 c'.
Proof.
  intros HRF Hinv Hst. destruct Hst as [P1 p P2 s p' s' E].
  destruct Hinv as (Hlen & Hfoot & Hrun & Hfr).
  set (n := length P1) in *.
  assert (Hn : nth_error (P1 ++ p :: P2) n = Some p) by apply nth_error_upd_same.
  assert (Hn' : nth_error (P1 ++ p' :: P2) n = Some p') by apply nth_error_upd_same.
  assert (Hnl : (n < length P0)%nat).
  { rewrite <- Hlen, app_length. simpl. unfold n. lia. }
  pose proof (Hfoot _ _ Hn) as Hfp.
  assert (Hkeep : forall l, ~ Wf n l -> s' l = s l).
  { intros l Hl. eapply tstep_frame; eauto. }
  repeat split.
  - rewrite <- Hlen, !app_length. reflexivity.
  - intros t q Hq. destruct (PeanoNat.Nat.eq_dec t n) as [->|Hne].
    + rewrite Hn' in Hq. inversion Hq; subst. eapply tstep_foot; eauto.
    + rewrite (nth_error_upd_other P1 p p' P2) in Hq by exact Hne. auto.
  - intros t q q0 l Hq Hq0 Hw. destruct (PeanoNat.Nat.eq_dec t n) as [->|Hne].
    + rewrite Hn' in Hq. inversion Hq; subst.
      rewrite (tstep_run _ _ _ _ _ E). eauto.
    + rewrite (nth_error_upd_other P1 p p' P2) in Hq by exact Hne.
      rewrite <- (Hrun _ _ _ _ Hq Hq0 Hw).
      assert (Ht : (t < length P0)%nat) by (apply nth_error_Some; congruence).
      apply (run_agree (Rf t) (Wf t) nowhere).
      * apply Hfoot; auto.
      * intros m [Hm|[]]. apply Hkeep. intros Hc.
        destruct (HRF n t m) as [_ H]; auto.
      * apply Hkeep. intros Hc. destruct (HRF n t l) as [H _]; auto.
  - intros l Hl. rewrite Hkeep; auto.
Qed.

Lemma pool_inv_steps inb Rf Wf P0 s0 c c' :
  race_free (length P0) Rf Wf ->
  psteps inb c c' -> pool_inv Rf Wf P0 s0 c -> pool_inv Rf Wf P0 s0 c'.
Proof.
  intros HRF H. induction H; auto. intros. apply IHpsteps.
  eapply pool_inv_step; eauto.
Qed.

Lemma pool_inv_init Rf Wf P s : pool_foot Rf Wf P -> pool_inv Rf Wf P s (s, P).
Proof.
  intros H. repeat split; auto. intros t p p0 l H1 H2. rewrite H1 in H2.
  inversion H2; auto.
Qed.

(** ** [parallel_for] over an index list *)

Section ParFor.
Context {I : Type}.
Variable body : I -> prog T.
Variable idx : list I.
Variables Rf Wf : I -> loc -> Prop.
Variable inb : extents.
Hypothesis idx_nodup : NoDup idx.
Hypothesis foots : forall i, In i idx -> foot (Rf i) (Wf i) nowhere (body i).
Hypothesis norace : forall i j l, In i idx -> In j idx -> i <> j ->
  Wf i l -> ~ Wf j l /\ ~ Rf j l.

Let Rn (t : nat) (l : loc) := exists i, nth_error idx t = Some i /\ Rf i l.
Let Wn (t : nat) (l : loc) := exists i, nth_error idx t = Some i /\ Wf i l.

Local Lemma pf_foot : pool_foot Rn Wn (map body idx).
Proof.
  intros t p H. rewrite nth_error_map in H.
  destruct (nth_error idx t) as [i|] eqn:E; simpl in H; inversion H; subst.
  eapply foot_mono; [| | |apply foots; eapply nth_error_In; eauto].
  - intros l Hl. exists i; auto.
  - intros l Hl. exists i; auto.
  - auto.
Qed.

Local Lemma pf_rf : race_free (length (map body idx)) Rn Wn.
Proof.
  intros t t' l Ht Ht' Hne [i [Hi Hw]].
  rewrite map_length in *.
  assert (HN : forall j, nth_error idx t' = Some j -> i <> j).
  { intros j Hj Heq. subst j. apply Hne.
    eapply (proj1 (NoDup_nth_error idx) idx_nodup); [exact Ht|congruence]. }
  split; intros [j [Hj Hx]].
  - destruct (norace i j l); eauto using nth_error_In.
  - destruct (norace i j l); eauto using nth_error_In.
Qed.

(** Every schedule of a race-free kernel yields the same store. *)
Theorem parallel_for_spec s s' :
  exec inb s (map body idx) s' ->
  (forall i l, In i idx -> Wf i l -> s' l = run (body i) s l) /\
  (forall l, (forall i, In i idx -> ~ Wf i l) -> s' l = s l).
Proof.
  intros (P' & Hst & Hdone).
  pose proof (pool_inv_steps inb Rn Wn (map body idx) s _ _ pf_rf Hst
                (pool_inv_init _ _ _ _ pf_foot)) as (Hlen & Hft & Hrun & Hfr).
  split.
  - intros i l Hi Hw. apply In_nth_error in Hi. destruct Hi as [t Ht].
    assert (H0 : nth_error (map body idx) t = Some (body i)) by (rewrite nth_error_map, Ht; auto).
    destruct (nth_error P' t) as [p|] eqn:Ep.
    + assert (p = Done) by (apply Hdone; eapply nth_error_In; eauto). subst p.
      rewrite <- (Hrun _ _ _ l Ep H0); auto. exists i; auto.
    + apply nth_error_None in Ep. rewrite Hlen in Ep.
      assert (nth_error (map body idx) t <> None) by congruence.
      apply nth_error_Some in H. lia.
  - intros l Hl. apply Hfr. intros t Ht [i [Hi Hw]].
    apply (Hl i); eauto using nth_error_In.
Qed.

(** Any two schedules agree. *)
Corollary parallel_for_deterministic s s1 s2 :
  (forall l, (exists i, In i idx /\ Wf i l) \/ (forall i, In i idx -> ~ Wf i l)) ->
  exec inb s (map body idx) s1 -> exec inb s (map body idx) s2 ->
  forall l, s1 l = s2 l.
Proof.
  intros Hdec H1 H2 l.
  apply parallel_for_spec in H1. apply parallel_for_spec in H2.
  destruct H1 as [A1 B1], H2 as [A2 B2].
  destruct (Hdec l) as [[i [Hi Hw]]|Hn].
  - rewrite (A1 i), (A2 i); auto.
  - rewrite B1, B2; auto.
Qed.

End ParFor.

(** ** Safety *)

Lemma foot_tstep_progress inb (R W A : loc -> Prop) p s :
  foot R W A p -> (forall l, R l \/ W l \/ A l -> inb l = true) ->
  p = Done \/ exists p' s', tstep inb p s = Some (p', s').
Proof.
  intros Hf Hb. destruct p; simpl in *; auto; try tauto;
  destruct Hf as [H1 H2]; rewrite (Hb l) by auto; right; eauto.
Qed.

Definition in_foot inb p := foot (fun l => inb l = true) (fun l => inb l = true) (fun l => inb l = true) p.

Lemma in_foot_not_faulting inb p : in_foot inb p -> ~ @faulting T inb p.
Proof. unfold in_foot. destruct p; simpl; intuition congruence. Qed.

Lemma pstep_in_foot inb c c' :
  @pstep T inb c c' -> Forall (in_foot inb) (snd c) -> Forall (in_foot inb) (snd c').
Proof.
  intros H. destruct H as [P1 p P2 s p' s' E]. simpl. rewrite !Forall_app.
  intros [H1 H2]. inversion H2; subst. split; auto. constructor; auto.
  eapply tstep_foot; eauto.
Qed.

Lemma psteps_in_foot inb c c' :
  @psteps T inb c c' -> Forall (in_foot inb) (snd c) -> Forall (in_foot inb) (snd c').
Proof. induction 1; auto. intros. apply IHpsteps. eapply pstep_in_foot; eauto. Qed.

Theorem in_foot_safe inb s K :
  Forall (in_foot inb) K -> @safe T inb s K.
Proof.
  intros H s' P' p Hst Hin. apply (psteps_in_foot _ _ _ Hst) in H. simpl in H.
  rewrite Forall_forall in H. apply in_foot_not_faulting. auto.
Qed.

(** Every in-bounds kernel can be run to completion from any reachable point. *)
Lemma run_one inb p : forall s P1 P2, in_foot inb p ->
  psteps inb (s, P1 ++ p :: P2) (run p s, P1 ++ Done :: P2).
Proof.
  induction p as [| |m k IH|m x k IH|m f k IH]; intros s P1 P2 Hf; simpl in *.
  - apply psteps_refl.
  - contradiction.
  - destruct Hf as [H1 H2]. eapply psteps_step.
    + constructor. simpl. rewrite H1. reflexivity.
    + apply IH. apply H2.
  - destruct Hf as [H1 H2]. eapply psteps_step.
    + constructor. simpl. rewrite H1. reflexivity.
    + apply IH. apply H2.
  - destruct Hf as [H1 H2]. eapply psteps_step.
    + constructor. simpl. rewrite H1. reflexivity.
    + apply IH. apply H2.
Qed.

Lemma complete_aux inb : forall P2 P1 s, all_done P1 -> Forall (in_foot inb) P2 ->
  exists s' P', psteps inb (s, P1 ++ P2) (s', P') /\ @all_done T P'.
Proof.
  induction P2 as [|p P2 IH]; intros P1 s H1 H2.
  - exists s, P1. rewrite app_nil_r. split; auto. apply psteps_refl.
  - inversion H2; subst.
    destruct (IH (P1 ++ [Done]) (run p s)) as (s' & P' & Hs & Hd); auto.
    { intros q Hq. apply in_app_or in Hq. destruct Hq as [Hq|[Hq|[]]]; auto. }
    exists s', P'. split; auto. eapply psteps_trans; [apply run_one; auto|].
    rewrite <- app_assoc in Hs. exact Hs.
Qed.

Theorem in_foot_completes inb s K s1 P1 :
  Forall (in_foot inb) K -> psteps inb (s, K) (s1, P1) ->
  exists s' P', psteps inb (s1, P1) (s', P') /\ @all_done T P'.
Proof.
  intros H Hst. apply (complete_aux inb P1 [] s1).
  - intros p [].
  - apply (psteps_in_foot _ _ _ Hst H).
Qed.

Corollary in_foot_exec inb s K : Forall (in_foot inb) K -> exists s', @exec T inb s K s'.
Proof.
  intros H. destruct (in_foot_completes inb s K s K H) as (s' & P' & H1 & H2).
  - apply psteps_refl.
  - exists s', P'. auto.
Qed.

Lemma execs_app inb Ks1 : forall Ks2 s s2,
  @execs T inb s (Ks1 ++ Ks2) s2 <-> exists s1, execs inb s Ks1 s1 /\ execs inb s1 Ks2 s2.
Proof.
  induction Ks1 as [|K Ks1 IH]; simpl; intros Ks2 s s2; split.
  - intros H. exists s. split; auto. constructor.
  - intros (s1 & H1 & H2). inversion H1; subst; auto.
  - intros H. inversion H; subst. apply IH in H5. destruct H5 as (s3 & H5 & H6).
    exists s3. split; auto. econstructor; eauto.
  - intros (s1 & H1 & H2). inversion H1; subst. econstructor; eauto.
    apply IH. eauto.
Qed.

(** Kernels with in-bounds footprints: the whole sequence is safe and runs. *)
Lemma in_foot_safes inb Ks : forall s,
  Forall (Forall (in_foot inb)) Ks -> @safes T inb s Ks.
Proof.
  induction Ks as [|K Ks IH]; intros s HF; constructor; inversion HF; subst.
  - apply in_foot_safe; auto.
  - intros s1 _. apply IH; auto.
Qed.

Lemma in_foot_execs inb Ks : forall s,
  Forall (Forall (in_foot inb)) Ks -> exists s', @execs T inb s Ks s'.
Proof.
  induction Ks as [|K Ks IH]; intros s HF.
  - exists s. constructor.
  - inversion HF; subst. destruct (in_foot_exec inb s K) as [s1 H1']; auto.
    destruct (IH s1) as [s' H']; auto. exists s'. econstructor; eauto.
Qed.

(** ** Sequential schedules in any order *)

Fixpoint run_list (P : list (prog T)) (s : store T) : store T :=
  match P with [] => s | p :: P => run_list P (run p s) end.

Lemma seq_psteps inb : forall P2 P1 s, Forall (in_foot inb) P2 -> @all_done T P1 ->
  exists P', psteps inb (s, P1 ++ P2) (run_list P2 s, P') /\ all_done P'.
Proof.
  induction P2 as [|p P2 IH]; intros P1 s HF H1.
  - exists P1. rewrite app_nil_r. split; auto. apply psteps_refl.
  - inversion HF; subst.
    destruct (IH (P1 ++ [Done]) (run p s)) as (P' & Hs & Hd); auto.
    { intros q Hq. apply in_app_or in Hq. destruct Hq as [Hq|[Hq|[]]]; auto. }
    exists P'. split; auto. eapply psteps_trans; [apply run_one; auto|].
    rewrite <- app_assoc in Hs. exact Hs.
Qed.

Lemma exec_seq inb K s : Forall (in_foot inb) K -> exec inb s K (run_list K s).
Proof.
  intros HF. destruct (seq_psteps inb K [] s HF) as (P' & H1 & H2).
  - intros p [].
  - exists P'. auto.
Qed.

Lemma pstep_perm inb s P s' P' Q :
  pstep inb (s, P) (s', P') -> Permutation P Q ->
  exists Q', @pstep T inb (s, Q) (s', Q') /\ Permutation P' Q'.
Proof.
  intros Hst Hp. inversion Hst as [P1 p P2 s0 p' s0' E]; subst.
  assert (Hin : In p Q) by (eapply Permutation_in; [exact Hp|apply in_elt]).
  apply in_split in Hin. destruct Hin as (Q1 & Q2 & ->).
  exists (Q1 ++ p' :: Q2). split.
  - constructor. exact E.
  - apply Permutation_app_inv in Hp.
    transitivity (p' :: P1 ++ P2); [symmetry; apply Permutation_middle|].
    transitivity (p' :: Q1 ++ Q2); [constructor; exact Hp|apply Permutation_middle].
Qed.

Lemma psteps_perm inb c c' : psteps inb c c' -> forall Q, Permutation (snd c) Q ->
  exists Q', @psteps T inb (fst c, Q) (fst c', Q') /\ Permutation (snd c') Q'.
Proof.
  induction 1 as [c|c1 c2 c3 Hs Hr IH]; intros Q HQ.
  - exists Q. split; auto. constructor.
  - destruct c1 as [s1 P1], c2 as [s2 P2].
    destruct (pstep_perm _ _ _ _ _ _ Hs HQ) as (Q' & Hq & Hp).
    destruct (IH Q' Hp) as (Q'' & Hq' & Hp').
    exists Q''. split; auto. econstructor; eauto.
Qed.

(** The order in which work items are listed is irrelevant. *)
Lemma exec_perm inb s K K' s' : Permutation K K' -> @exec T inb s K s' -> exec inb s K' s'.
Proof.
  intros Hp (P' & Hs & Hd). destruct (psteps_perm _ _ _ Hs K' Hp) as (Q' & Hq & HpQ).
  exists Q'. split; auto. intros p Hin. apply Hd. eapply Permutation_in; [|exact Hin].
  symmetry. exact HpQ.
Qed.

(** Running the work items one after the other in any order is a schedule. *)
Lemma exec_any_order inb K K' s :
  Permutation K K' -> Forall (in_foot inb) K -> @exec T inb s K (run_list K' s).
Proof.
  intros Hp HF. apply (exec_perm inb s K'); [symmetry; auto|]. apply exec_seq.
  rewrite Forall_forall in *. intros p Hin. apply HF.
  eapply Permutation_in; [symmetry; exact Hp|exact Hin].
Qed.

End Facts.
