(** * Facts about cell-wise kernels *)
From Coq Require Import ZArith List Bool Lia ZifyBool.
Import ListNotations.
From Verif Require Import Num Exec ExecFacts Grid GridFacts HydroNum Kernels.
Local Open Scope Z_scope.

Section KernelFacts.
Context {T : Type}.
Implicit Types s : store T.

Lemma run_ext p : forall s1 s2 : store T, (forall l, s1 l = s2 l) -> forall l, run p s1 l = run p s2 l.
Proof.
  induction p as [| |m k IH|m x k IH|m f k IH]; intros s1 s2 He l; simpl; auto.
  - rewrite He. apply IH; auto.
  - apply IH. intros l'. unfold upd. destruct (loc_eq_dec m l'); auto.
  - apply IH. intros l'. unfold upd. rewrite He. destruct (loc_eq_dec m l'); auto.
Qed.

Definition pair_eq_dec (a b : Z * Z) : {a = b} + {a <> b}.
Proof. decide equality; apply Z.eq_dec. Defined.
Definition cell_eq_dec (a b : Z * Z * Z) : {a = b} + {a <> b}.
Proof. decide equality; [apply Z.eq_dec|apply pair_eq_dec]. Defined.

(** The cell of a location. *)
Definition cell_of (l : loc) : Z * Z * Z := (li l, lj l, lk l).

(** Footprint of a work item that writes only its own cell, in the arrays
    selected by [Wa], and reads those arrays only in its own cell. *)
Definition own_foot (Wa : arr -> bool) (c : Z * Z * Z) (p : prog T) : Prop :=
  foot (fun l => Wa (la l) = true -> cell_of l = c)
       (fun l => Wa (la l) = true /\ cell_of l = c) nowhere p.

Section CellWise.
Context {I : Type}.
Variable cell : I -> Z * Z * Z.
Variable body : I -> prog T.
Variable idx : list I.
Variable Wa : arr -> bool.
Variable inb : extents.
Hypothesis idx_nodup : NoDup idx.
Hypothesis cell_inj : forall a b, In a idx -> In b idx -> cell a = cell b -> a = b.
Hypothesis own : forall i, In i idx -> own_foot Wa (cell i) (body i).

(** Every schedule of a cell-wise kernel gives each cell the value computed by
    its own work item from the initial contents. *)
Theorem cellwise_spec s s' :
  exec inb s (map body idx) s' ->
  (forall i l, In i idx -> cell_of l = cell i -> s' l = run (body i) s l) /\
  (forall l, (forall i, In i idx -> cell_of l <> cell i) -> s' l = s l).
Proof.
  intros Hex.
  pose proof (parallel_for_spec body idx
    (fun i l => Wa (la l) = true -> cell_of l = cell i)
    (fun i l => Wa (la l) = true /\ cell_of l = cell i) inb idx_nodup own) as HP.
  destruct (HP) with (s := s) (s' := s') as [H1 H2]; auto.
  { intros i j l Hi Hj Hne [Hw Hc]. split.
    - intros [_ Hc']. apply Hne. apply cell_inj; congruence.
    - intros Hr. specialize (Hr Hw). apply Hne. apply cell_inj; congruence. }
  split.
  - intros i l Hi Hc. destruct (Wa (la l)) eqn:E.
    + apply H1; auto.
    + rewrite (run_frame _ _ _ (body i) s l (own i Hi)).
      * apply H2. intros j Hj [Hw _]. congruence.
      * intros [Hw _]. congruence.
      * intros [].
  - intros l Hl. apply H2. intros i Hi [_ Hc]. apply (Hl i); auto.
Qed.

End CellWise.

(** 2D index space. *)
Definition cell2of (c : Z * Z) : Z * Z * Z := (fst c, snd c, 0).

Lemma cellwise2 (body : Z * Z -> prog T) n1 n2 Wa inb s s' :
  (forall c, own_foot Wa (cell2of c) (body c)) ->
  exec inb s (map body (range2 n1 n2)) s' ->
  (forall a i j v, 0 <= i < n1 -> 0 <= j < n2 ->
     s' (mkloc a i j 0 v) = run (body (i, j)) s (mkloc a i j 0 v)) /\
  (forall l, Wa (la l) = false -> s' l = s l).
Proof.
  intros Ho Hex.
  destruct (cellwise_spec cell2of body (range2 n1 n2) Wa inb) with (s := s) (s' := s') as [H1 H2]; auto.
  - apply nodup_range2.
  - intros [a b] [c d] _ _ E. inversion E; auto.
  - split.
    + intros a i j v Hi Hj. apply H1; auto. apply in_range2. auto.
    + intros l Hl.
      destruct (in_dec pair_eq_dec
                  (li l, lj l) (range2 n1 n2)) as [Hin|Hn].
      * destruct (Z.eq_dec (lk l) 0) as [E|E].
        { rewrite (H1 (li l, lj l) l Hin).
          - apply (run_frame _ _ _ _ _ _ (Ho _)).
            + intros [Hw _]. congruence.
            + intros [].
          - unfold cell_of, cell2of. simpl. congruence. }
        { apply H2. intros [a b] _ Hc. unfold cell_of, cell2of in Hc. simpl in Hc.
          inversion Hc. contradiction. }
      * apply H2. intros [a b] Hin Hc. unfold cell_of, cell2of in Hc. simpl in Hc.
        inversion Hc. subst. contradiction.
Qed.

(** 3D index space. *)
Lemma cellwise3 (body : Z * Z * Z -> prog T) n1 n2 n3 Wa inb s s' :
  (forall c, own_foot Wa c (body c)) ->
  exec inb s (map body (range3 n1 n2 n3)) s' ->
  (forall a i j k v, 0 <= i < n1 -> 0 <= j < n2 -> 0 <= k < n3 ->
     s' (mkloc a i j k v) = run (body (i, j, k)) s (mkloc a i j k v)) /\
  (forall l, Wa (la l) = false -> s' l = s l).
Proof.
  intros Ho Hex.
  destruct (cellwise_spec (fun c => c) body (range3 n1 n2 n3) Wa inb) with (s := s) (s' := s') as [H1 H2]; auto.
  - apply nodup_range3.
  - split.
    + intros a i j k v Hi Hj Hk. apply H1; auto. apply in_range3. auto.
    + intros l Hl.
      destruct (in_dec cell_eq_dec
                  (cell_of l) (range3 n1 n2 n3)) as [Hin|Hn].
      * rewrite (H1 (cell_of l) l Hin) by reflexivity.
        apply (run_frame _ _ _ _ _ _ (Ho _)).
        { intros [Hw _]. congruence. }
        { intros []. }
      * apply H2. intros c Hin Hc. congruence.
Qed.

(** ** Footprints of the building blocks *)

Context `{N : Num T}.

Lemma foot_need {A} (R W At : loc -> Prop) (o : option A) (k : A -> prog T) :
  o <> None -> (forall x, foot R W At (k x)) -> foot R W At (need o k).
Proof. destruct o; simpl; intros; auto; congruence. Qed.

Lemma foot_rd2 (R W At : loc -> Prop) a i j (k : hs T -> prog T) :
  (forall v, In v vars2 -> R (L2 a i j v)) -> (forall q, foot R W At (k q)) ->
  foot R W At (rd2 a i j k).
Proof. intros HR Hk. simpl. repeat (split; [apply HR; simpl; tauto|intro]). apply Hk. Qed.

Lemma foot_wr2 (R W At : loc -> Prop) a i j q (k : prog T) :
  (forall v, In v vars2 -> W (L2 a i j v)) -> foot R W At k ->
  foot R W At (wr2 a i j q k).
Proof. intros HW Hk. simpl. repeat (split; [apply HW; simpl; tauto|]). apply Hk. Qed.

Lemma foot_rd3 (R W At : loc -> Prop) a i j k (c : hs T -> prog T) :
  (forall v, In v vars3 -> R (mkloc a i j k v)) -> (forall q, foot R W At (c q)) ->
  foot R W At (rd3 a i j k c).
Proof. intros HR Hk. simpl. repeat (split; [apply HR; simpl; tauto|intro]). apply Hk. Qed.

Lemma foot_wr3 (R W At : loc -> Prop) a i j k q (c : prog T) :
  (forall v, In v vars3 -> W (mkloc a i j k v)) -> foot R W At c ->
  foot R W At (wr3 a i j k q c).
Proof. intros HW Hk. simpl. repeat (split; [apply HW; simpl; tauto|]). apply Hk. Qed.

Lemma foot_accum (R W At : loc -> Prop) op vars dst src (k : prog T) :
  (forall v, In v vars -> R (dst v) /\ R (src v) /\ W (dst v)) -> foot R W At k ->
  foot R W At (accum op vars dst src k).
Proof.
  intros Hv Hk. induction vars as [|v vs IH]; simpl in *; auto.
  destruct (Hv v (or_introl eq_refl)) as (H1 & H2 & H3).
  repeat split; auto.
Qed.

Lemma foot_atomics (R W At : loc -> Prop) op vars dst val (k : prog T) :
  (forall v, In v vars -> At (dst v)) -> foot R W At k ->
  foot R W At (atomics op vars dst val k).
Proof.
  intros Hv Hk. induction vars as [|v vs IH]; simpl in *; auto.
Qed.

Lemma foot_copy_n (R W At : loc -> Prop) dst src : forall n v0,
  (forall v, v0 <= v < v0 + Z.of_nat n -> R (src v) /\ W (dst v)) ->
  foot R W At (copy_n (T := T) n v0 dst src).
Proof.
  induction n as [|n IH]; simpl; auto. intros v0 Hv.
  split; [apply Hv; lia|intros _]. split; [apply Hv; lia|]. apply IH. intros v Hr. apply Hv. lia.
Qed.

(** ** Values computed by the building blocks *)

Lemma run_copy_n_other dst src : forall n v0 s l,
  (forall v, v0 <= v < v0 + Z.of_nat n -> dst v <> l) ->
  run (copy_n (T := T) n v0 dst src) s l = s l.
Proof.
  induction n as [|n IH]; simpl; auto. intros v0 s l Hl. rewrite IH.
  - apply upd_other. apply Hl. lia.
  - intros v Hv. apply Hl. lia.
Qed.

Lemma run_copy_n dst src : forall n v0 s v,
  (forall v1 v2, dst v1 = dst v2 -> v1 = v2) ->
  (forall v1 v2, dst v1 <> src v2) ->
  v0 <= v < v0 + Z.of_nat n ->
  run (copy_n (T := T) n v0 dst src) s (dst v) = s (src v).
Proof.
  induction n as [|n IH]; simpl; [lia|]. intros v0 s v Hd Hs Hv.
  destruct (Z.eq_dec v v0) as [->|Hne].
  - rewrite run_copy_n_other.
    + apply upd_same.
    + intros v Hv' E. apply Hd in E. lia.
  - rewrite IH; auto; [|lia]. apply upd_other. apply Hs.
Qed.

(** Store after an accumulation. *)
Definition acc (op : T -> T -> T) (vars : list Z) (dst src : Z -> loc) s : store T :=
  fold_left (fun s v => upd s (dst v) (op (s (dst v)) (s (src v)))) vars s.

Lemma run_accum op vars dst src k : forall s,
  run (accum op vars dst src k) s = run k (acc op vars dst src s).
Proof. induction vars as [|v vs IH]; intros s; [reflexivity|]. simpl. rewrite IH. reflexivity. Qed.

Lemma acc_other op vars dst src : forall s l,
  (forall v, In v vars -> dst v <> l) -> acc op vars dst src s l = s l.
Proof.
  induction vars as [|v vs IH]; simpl; auto. intros s l Hl. unfold acc in *. simpl.
  rewrite IH; auto. apply upd_other. auto.
Qed.

Lemma acc_val op vars dst src : forall s v,
  NoDup vars -> (forall v1 v2, dst v1 = dst v2 -> v1 = v2) ->
  (forall v1 v2, dst v1 <> src v2) -> In v vars ->
  acc op vars dst src s (dst v) = op (s (dst v)) (s (src v)).
Proof.
  induction vars as [|w vs IH]; simpl; [tauto|]. intros s v Hnd Hd Hs Hin.
  inversion Hnd; subst. unfold acc in *. simpl.
  destruct Hin as [->|Hin].
  - pose proof (acc_other op vs dst src
      (upd s (dst v) (op (s (dst v)) (s (src v)))) (dst v)) as HO.
    unfold acc in HO. rewrite HO.
    + apply upd_same.
    + intros v' Hv' E. apply Hd in E. subst. contradiction.
  - rewrite IH; auto.
    assert (dst w <> dst v) by (intros E; apply Hd in E; subst; contradiction).
    rewrite !upd_other; auto.
Qed.

Lemma nodup_vars2 : NoDup vars2.
Proof. unfold vars2. repeat constructor; simpl; cbv; intuition congruence. Qed.
Lemma nodup_vars3 : NoDup vars3.
Proof. unfold vars3. repeat constructor; simpl; cbv; intuition congruence. Qed.

Lemma in_vars2 v : In v vars2 <-> 0 <= v < 4.
Proof. unfold vars2, ID, IP, IU, IV. simpl. lia. Qed.
Lemma in_vars3 v : In v vars3 <-> 0 <= v < 5.
Proof. unfold vars3, ID, IP, IU, IV, IW. simpl. lia. Qed.

(** State stored in a cell. *)
Definition get2 s (a : arr) (i j : Z) : hs T :=
  mk2 (s (L2 a i j ID)) (s (L2 a i j IP)) (s (L2 a i j IU)) (s (L2 a i j IV)).
Definition get3 s (a : arr) (i j k : Z) : hs T :=
  mkhs (s (mkloc a i j k ID)) (s (mkloc a i j k IP)) (s (mkloc a i j k IU))
       (s (mkloc a i j k IV)) (s (mkloc a i j k IW)).

Lemma run_rd2 a i j k s : run (rd2 a i j k) s = run (k (get2 s a i j)) s.
Proof. reflexivity. Qed.
Lemma run_rd3 a i j k c s : run (rd3 a i j k c) s = run (c (get3 s a i j k)) s.
Proof. reflexivity. Qed.

(** Store after writing a state. *)
Definition put2 s (a : arr) (i j : Z) (q : hs T) : store T :=
  upd (upd (upd (upd s (L2 a i j ID) (hd q)) (L2 a i j IP) (hp q))
    (L2 a i j IU) (hu q)) (L2 a i j IV) (hv q).
Definition put3 s (a : arr) (i j k : Z) (q : hs T) : store T :=
  upd (upd (upd (upd (upd s (mkloc a i j k ID) (hd q)) (mkloc a i j k IP) (hp q))
    (mkloc a i j k IU) (hu q)) (mkloc a i j k IV) (hv q)) (mkloc a i j k IW) (hw q).

Lemma run_wr2 a i j q k s : run (wr2 a i j q k) s = run k (put2 s a i j q).
Proof. reflexivity. Qed.
Lemma run_wr3 a i j k q c s : run (wr3 a i j k q c) s = run c (put3 s a i j k q).
Proof. reflexivity. Qed.

Lemma put2_other s a i j q l :
  ~ (la l = a /\ cell_of l = (i, j, 0)) -> put2 s a i j q l = s l.
Proof.
  intros Hl. unfold put2. rewrite !upd_other; auto; intros E; apply Hl; subst l; split; reflexivity.
Qed.

Lemma put2_same s a i j q v : 0 <= v < 4 -> put2 s a i j q (L2 a i j v) = hget q v.
Proof.
  intros Hv. assert (v = 0 \/ v = 1 \/ v = 2 \/ v = 3) as [->|[->|[->| ->]]] by lia;
  unfold put2; repeat (first [rewrite upd_same | rewrite upd_other by (cbv; congruence)]); reflexivity.
Qed.

Lemma put3_other s a i j k q l :
  ~ (la l = a /\ cell_of l = (i, j, k)) -> put3 s a i j k q l = s l.
Proof.
  intros Hl. unfold put3. rewrite !upd_other; auto; intros E; apply Hl; subst l; split; reflexivity.
Qed.

Lemma put3_same s a i j k q v : 0 <= v < 5 -> put3 s a i j k q (mkloc a i j k v) = hget q v.
Proof.
  intros Hv. assert (v = 0 \/ v = 1 \/ v = 2 \/ v = 3 \/ v = 4) as [->|[->|[->|[->| ->]]]] by lia;
  unfold put3; repeat (first [rewrite upd_same | rewrite upd_other by (cbv; congruence)]); reflexivity.
Qed.

Lemma hget_get2 s a i j v : 0 <= v < 4 -> hget (get2 s a i j) v = s (L2 a i j v).
Proof.
  intros Hv. assert (v = 0 \/ v = 1 \/ v = 2 \/ v = 3) as [->|[->|[->| ->]]] by lia; reflexivity.
Qed.
Lemma hget_get3 s a i j k v : 0 <= v < 5 -> hget (get3 s a i j k) v = s (mkloc a i j k v).
Proof.
  intros Hv. assert (v = 0 \/ v = 1 \/ v = 2 \/ v = 3 \/ v = 4) as [->|[->|[->|[->| ->]]]] by lia; reflexivity.
Qed.

Lemma get2_eq s a i j q : hw q = n0 ->
  (forall v, 0 <= v < 4 -> s (L2 a i j v) = hget q v) -> get2 s a i j = q.
Proof.
  intros Hw Hv. destruct q as [d p u v w]. unfold get2, mk2. simpl in Hw. subst w.
  rewrite !Hv by (unfold ID, IP, IU, IV; lia). reflexivity.
Qed.
Lemma get3_eq s a i j k q :
  (forall v, 0 <= v < 5 -> s (mkloc a i j k v) = hget q v) -> get3 s a i j k = q.
Proof.
  intros Hv. destruct q as [d p u v w]. unfold get3.
  rewrite !Hv by (unfold ID, IP, IU, IV, IW; lia). reflexivity.
Qed.

Lemma get2_ext s1 s2 a b i j i' j' :
  (forall v, 0 <= v < 4 -> s1 (L2 a i j v) = s2 (L2 b i' j' v)) -> get2 s1 a i j = get2 s2 b i' j'.
Proof. intros Hv. unfold get2. rewrite !Hv by (unfold ID, IP, IU, IV; lia). reflexivity. Qed.
Lemma get3_ext s1 s2 a b i j k i' j' k' :
  (forall v, 0 <= v < 5 -> s1 (mkloc a i j k v) = s2 (mkloc b i' j' k' v)) ->
  get3 s1 a i j k = get3 s2 b i' j' k'.
Proof. intros Hv. unfold get3. rewrite !Hv by (unfold ID, IP, IU, IV, IW; lia). reflexivity. Qed.

End KernelFacts.

(** Every item of a kernel in bounds. *)
Lemma kernel_in_bounds {T I} (body : I -> prog T) (idx : list I) inb :
  (forall i, In i idx -> in_foot inb (body i)) -> Forall (in_foot inb) (map body idx).
Proof. intros H. apply Forall_forall. intros p Hp. apply in_map_iff in Hp. destruct Hp as (i & <- & Hi). auto. Qed.
