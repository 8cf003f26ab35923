(** * Kernels made of atomic updates

    Every schedule of a kernel whose items read an untouched part of the memory
    and otherwise only perform atomic updates applies, in some order, exactly the
    updates each item would issue alone.  With exact addition the order is
    irrelevant. *)
From Coq Require Import ZArith List Bool Lia Permutation Reals Lra.
Import ListNotations.
From Verif Require Import Num Exec ExecFacts Grid GridFacts HydroNum Kernels KernelFacts.
Local Open Scope Z_scope.

Section Atomic.
Context {T : Type}.

(** Updates issued by an item that reads from [s]. *)
Fixpoint effects (p : prog T) (s : store T) : list (loc * (T -> T)) :=
  match p with
  | Done | Crash => []
  | Rd l k => effects (k (s l)) s
  | Wr l x k => effects k s
  | Upd l f k => (l, f) :: effects k s
  end.

Fixpoint apply (L : list (loc * (T -> T))) (s : store T) : store T :=
  match L with
  | [] => s
  | e :: L' => apply L' (upd s (fst e) (snd e (s (fst e))))
  end.

Lemma apply_app L1 : forall L2 s, apply (L1 ++ L2) s = apply L2 (apply L1 s).
Proof. induction L1; simpl; auto. Qed.

Lemma effects_ext (R A : loc -> Prop) p : forall s1 s2,
  foot R nowhere A p -> (forall l, R l -> s1 l = s2 l) -> effects p s1 = effects p s2.
Proof.
  induction p as [| |m k IH|m x k IH|m f k IH]; intros s1 s2 Hf He; simpl in *; auto.
  - destruct Hf as [Hm Hk]. rewrite (He m Hm). apply IH; auto.
  - destruct Hf as [[] _].
  - destruct Hf as [Hm Hk]. f_equal. apply IH; auto.
Qed.

Section Pool.
Variables R A : loc -> Prop.
Hypothesis RA : forall l, R l -> ~ A l.
Variable inb : extents.

Definition pool_ok (s0 : store T) (P0 : list (prog T)) (c : store T * list (prog T)) : Prop :=
  let '(s, P) := c in
  Forall (foot R nowhere A) P /\ (forall l, R l -> s l = s0 l) /\
  exists L, (forall l, s l = apply L s0 l) /\
    Permutation (L ++ concat (map (fun p => effects p s0) P))
                (concat (map (fun p => effects p s0) P0)).

Lemma pool_ok_step s0 P0 c c' : pool_ok s0 P0 c -> pstep inb c c' -> pool_ok s0 P0 c'.
Proof.
  intros Hok Hst. destruct Hst as [P1 p P2 s p' s' E].
  destruct Hok as (HF & HR & L & HL & HP).
  assert (Hp : foot R nowhere A p) by (rewrite Forall_forall in HF; apply HF; apply in_elt).
  assert (HF' : Forall (foot R nowhere A) (P1 ++ p' :: P2)).
  { apply Forall_app in HF. destruct HF as [F1 F2]. inversion F2; subst.
    apply Forall_app. split; auto. constructor; auto. eapply tstep_foot; eauto. }
  rewrite map_app, concat_app in HP. simpl in HP.
  destruct p as [| |l k|l x k|l f k]; simpl in E; try discriminate.
  - destruct (inb l); inversion E; subst. split; auto. split; auto.
    exists L. split; auto. rewrite map_app, concat_app. simpl.
    destruct Hp as [Hl Hk]. rewrite (HR l Hl). exact HP.
  - destruct Hp as [[] _].
  - destruct (inb l); inversion E; subst. destruct Hp as [Hl Hk]. split; auto. split.
    + intros l' Hl'. rewrite <- (HR l' Hl'). apply upd_other. intros ->. apply (RA l'); auto.
    + exists (L ++ [(l, f)]). split.
      * intros l'. rewrite apply_app. simpl. unfold upd. rewrite <- !HL. reflexivity.
      * rewrite map_app, concat_app. simpl.
        rewrite <- app_assoc. simpl. etransitivity; [|exact HP].
        apply Permutation_app_head. simpl. apply Permutation_middle.
Qed.

Lemma pool_ok_steps s0 P0 c c' : psteps inb c c' -> pool_ok s0 P0 c -> pool_ok s0 P0 c'.
Proof. induction 1; auto. intros. apply IHpsteps. eapply pool_ok_step; eauto. Qed.

(** Every schedule applies a permutation of the updates issued by the items. *)
Theorem atomic_exec s K s' :
  Forall (foot R nowhere A) K -> exec inb s K s' ->
  (forall l, ~ A l -> s' l = s l) /\
  exists L, Permutation L (concat (map (fun p => effects p s) K)) /\
            forall l, s' l = apply L s l.
Proof.
  intros HF (P' & Hst & Hd).
  assert (Hok : pool_ok s K (s', P')).
  { apply (pool_ok_steps s K _ _ Hst). split; auto. split; auto. exists []. split; auto. }
  destruct Hok as (HF' & HR & L & HL & HP).
  assert (E : concat (map (fun p => effects p s) P') = []).
  { clear - Hd. induction P' as [|p P' IH]; simpl; auto.
    rewrite (Hd p) by (simpl; auto). simpl. apply IH. intros q Hq. apply Hd. simpl; auto. }
  rewrite E, app_nil_r in HP. split; [|exists L; auto].
  intros l Hl. rewrite HL.
  assert (HA : Forall (fun e => A (fst e)) L).
  { apply Forall_forall. intros e He.
    assert (In e (concat (map (fun p => effects p s) K))) as Hin by (eapply Permutation_in; eauto).
    apply in_concat in Hin. destruct Hin as (x & Hx & Hex). apply in_map_iff in Hx.
    destruct Hx as (p & <- & Hp). rewrite Forall_forall in HF. specialize (HF p Hp).
    clear - HF Hex. revert Hex HF. generalize p. clear p.
    induction p as [| |m k IH|m x k IH|m f k IH]; simpl; try tauto.
    - intros He Hk. apply (IH (s m)); auto. apply Hk.
    - intros He Hk. destruct Hk as [Hm Hk]. destruct He as [<-|He]; auto. }
  clear - HA Hl. revert s. induction L as [|e L IH]; intros s; simpl; auto.
  inversion HA; subst. rewrite IH; auto. apply upd_other. intros E. apply Hl. congruence.
Qed.

End Pool.

(** Updates of a list that hit location [l], in order. *)
Definition at_loc (l : loc) (L : list (loc * (T -> T))) : list (T -> T) :=
  map snd (filter (fun e => if loc_eq_dec (fst e) l then true else false) L).

Lemma at_loc_app l L1 L2 : at_loc l (L1 ++ L2) = at_loc l L1 ++ at_loc l L2.
Proof. unfold at_loc. rewrite filter_app, map_app. reflexivity. Qed.

Lemma at_loc_concat {I} l (f : I -> list (loc * (T -> T))) idx :
  at_loc l (concat (map f idx)) = concat (map (fun c => at_loc l (f c)) idx).
Proof. induction idx; simpl; auto. rewrite at_loc_app, IHidx. reflexivity. Qed.

Lemma at_loc_perm l L1 L2 : Permutation L1 L2 -> Permutation (at_loc l L1) (at_loc l L2).
Proof.
  intros HP. unfold at_loc. apply Permutation_map.
  induction HP; simpl; auto.
  - destruct (loc_eq_dec (fst x) l); auto.
  - destruct (loc_eq_dec (fst x) l), (loc_eq_dec (fst y) l); auto. apply perm_swap.
  - etransitivity; eauto.
Qed.

Lemma apply_at L : forall s l, apply L s l = fold_left (fun x f => f x) (at_loc l L) (s l).
Proof.
  induction L as [|e L IH]; intros s l; simpl; auto. rewrite IH. unfold at_loc at 2. simpl.
  destruct (loc_eq_dec (fst e) l) as [<-|Hn]; simpl.
  - rewrite upd_same. reflexivity.
  - rewrite upd_other by auto. reflexivity.
Qed.

(** Final value of one location: its own updates, in some order. *)
Theorem atomic_exec_at {I} (R A : loc -> Prop) inb s (body : I -> prog T) idx s' l :
  (forall l, R l -> ~ A l) ->
  (forall c, In c idx -> foot R nowhere A (body c)) ->
  exec inb s (map body idx) s' ->
  exists ops, Permutation ops (concat (map (fun c => at_loc l (effects (body c) s)) idx)) /\
    s' l = fold_left (fun x f => f x) ops (s l).
Proof.
  intros HRA HF Hex.
  destruct (atomic_exec R A HRA inb s (map body idx) s') as (_ & L & HP & HL); auto.
  { apply Forall_forall. intros p Hp. apply in_map_iff in Hp. destruct Hp as (c & <- & Hc). auto. }
  exists (at_loc l L). split.
  - rewrite map_map in HP. rewrite <- at_loc_concat. apply at_loc_perm. exact HP.
  - rewrite HL. apply apply_at.
Qed.

(** Only some of the indices contribute. *)
Lemma concat_nil {I B} (f : I -> list B) idx :
  (forall c, In c idx -> f c = []) -> concat (map f idx) = [].
Proof. induction idx; simpl; intros H; auto. rewrite H, IHidx; auto. Qed.

Lemma pick_rest {I} (picks : list I) : forall idx,
  NoDup picks -> incl picks idx -> exists rest, Permutation idx (picks ++ rest).
Proof.
  induction picks as [|c ps IH]; intros idx Hp Hi; [exists idx; auto|].
  inversion Hp; subst. destruct (in_split c idx) as (l1 & l2 & ->); [apply Hi; simpl; auto|].
  destruct (IH (l1 ++ l2)) as (rest & HR); auto.
  { intros x Hx. assert (In x (l1 ++ c :: l2)) as Hx' by (apply Hi; simpl; auto).
    apply in_app_iff in Hx'. apply in_app_iff. simpl in Hx'.
    destruct Hx' as [|[->|]]; auto. contradiction. }
  exists rest. simpl. symmetry. etransitivity; [|apply Permutation_middle]. constructor. symmetry. auto.
Qed.

Lemma perm_concat_map {I B} (f : I -> list B) l1 l2 :
  Permutation l1 l2 -> Permutation (concat (map f l1)) (concat (map f l2)).
Proof.
  induction 1; simpl; auto.
  - apply Permutation_app_head. auto.
  - rewrite !app_assoc. apply Permutation_app_tail. apply Permutation_app_comm.
  - etransitivity; eauto.
Qed.

Lemma concat_pick {I B} (f : I -> list B) idx picks :
  NoDup idx -> NoDup picks -> incl picks idx ->
  (forall c, In c idx -> ~ In c picks -> f c = []) ->
  Permutation (concat (map f idx)) (concat (map f picks)).
Proof.
  intros Hn Hp Hi H0. destruct (pick_rest picks idx Hp Hi) as (rest & HR).
  etransitivity; [apply perm_concat_map; exact HR|]. rewrite map_app, concat_app.
  rewrite (concat_nil f rest), app_nil_r; auto.
  intros c Hc. apply H0.
  - eapply Permutation_in; [symmetry; exact HR|]. apply in_app_iff; auto.
  - intros Hc'. assert (Hnd : NoDup (picks ++ rest)) by (eapply Permutation_NoDup; eauto).
    clear - Hc Hc' Hnd. induction picks as [|p ps IH]; simpl in *; [tauto|].
    inversion Hnd; subst. destruct Hc' as [->|]; auto. apply H1. apply in_app_iff; auto.
Qed.

End Atomic.

(** ** Exact addition *)

Definition Rsum (l : list R) : R := fold_right Rplus 0%R l.

Local Open Scope R_scope.

Lemma Rsum_app a b : Rsum (a ++ b) = Rsum a + Rsum b.
Proof. induction a; simpl; [lra|]. rewrite IHa. lra. Qed.

Lemma Rsum_perm a b : Permutation a b -> Rsum a = Rsum b.
Proof. induction 1; simpl; lra. Qed.

Lemma Rsum_map_add {A} (f h : A -> R) l :
  Rsum (map (fun x => f x + h x) l) = Rsum (map f l) + Rsum (map h l).
Proof. induction l; simpl; [lra|]. rewrite IHl. lra. Qed.

Lemma Rsum_map_scal {A} (c : R) (f : A -> R) l :
  Rsum (map (fun x => c * f x) l) = c * Rsum (map f l).
Proof. induction l; simpl; [lra|]. rewrite IHl. lra. Qed.

Lemma Rsum_map_ext {A} (f h : A -> R) l :
  (forall x, In x l -> f x = h x) -> Rsum (map f l) = Rsum (map h l).
Proof. intros H. rewrite (map_ext_in f h); auto. Qed.

Lemma Rsum_map_zero {A} (f : A -> R) l : (forall x, In x l -> f x = 0) -> Rsum (map f l) = 0.
Proof. induction l; simpl; intros H; [lra|]. rewrite H, IHl by auto. lra. Qed.

(** Only one index contributes. *)
Lemma Rsum_map_one {A} (f : A -> R) (c0 : A) l :
  NoDup l -> In c0 l -> (forall c, In c l -> c <> c0 -> f c = 0) -> Rsum (map f l) = f c0.
Proof.
  induction l as [|c l IH]; simpl; [tauto|]. intros Hnd Hin H0. inversion Hnd; subst.
  destruct Hin as [->|Hin].
  - rewrite Rsum_map_zero; [lra|]. intros x Hx. apply H0; auto. congruence.
  - rewrite IH; auto. rewrite (H0 c); auto; [lra|congruence].
Qed.

(** An update that adds a constant. *)
Definition additive (f : R -> R) : Prop := forall x, f x = x + f 0.

(** Amount an item adds to location [l]. *)
Definition contrib (p : prog R) (s : store R) (l : loc) : R :=
  Rsum (map (fun e => if loc_eq_dec (fst e) l then snd e 0 else 0) (effects p s)).

Lemma apply_sum L : forall s l, Forall (fun e => additive (snd e)) L ->
  apply L s l = s l + Rsum (map (fun e => if loc_eq_dec (fst e) l then snd e 0 else 0) L).
Proof.
  induction L as [|e L IH]; intros s l Ha; simpl; [lra|]. inversion Ha; subst.
  rewrite IH; auto. unfold upd. destruct (loc_eq_dec (fst e) l) as [->|].
  - rewrite H1. lra.
  - lra.
Qed.

(** The result of a kernel of atomic additions does not depend on the schedule. *)
Theorem atomic_sum (Rd0 A : loc -> Prop) inb s K s' :
  (forall l, Rd0 l -> ~ A l) ->
  Forall (foot Rd0 nowhere A) K ->
  (forall p, In p K -> Forall (fun e => additive (snd e)) (effects p s)) ->
  exec inb s K s' ->
  forall l, s' l = s l + Rsum (map (fun p => contrib p s l) K).
Proof.
  intros HRA HF Hadd Hex l.
  destruct (atomic_exec Rd0 A HRA inb s K s' HF Hex) as (_ & L & HP & HL).
  rewrite HL, apply_sum.
  - f_equal. rewrite (Rsum_perm _ _ (Permutation_map _ HP)). clear.
    induction K as [|p K IH]; simpl; auto. rewrite map_app, Rsum_app, IH. reflexivity.
  - apply Forall_forall. intros e He.
    assert (In e (concat (map (fun p => effects p s) K))) as Hin by (eapply Permutation_in; eauto).
    apply in_concat in Hin. destruct Hin as (x & Hx & Hex'). apply in_map_iff in Hx.
    destruct Hx as (p & <- & Hp). specialize (Hadd p Hp). rewrite Forall_forall in Hadd. auto.
Qed.
