(** * Every run of a matched program is a lockstep run, and none is stuck *)
From Coq Require Import ZArith List Bool Arith Lia.
Import ListNotations.
From Verif Require Import Num Exec ExecFacts MpiRun.

Section Spmd.
Context {T : Type}.
Variable inb : extents.
Variable np : nat.
Variable P : nat -> list (action T).
Variable n : nat.
Implicit Types (w : world T) (M : nat -> store T) (H : nat -> nat -> store T).
Hypothesis P_len : forall p, p < np -> length (P p) = n.

(** The [k]-th actions of all processes belong together. *)
Definition matched (k : nat) : Prop :=
  (forall p, p < np -> exists K, nth_error (P p) k = Some (Compute K)) \/
  (forall p, p < np -> nth_error (P p) k = Some Barrier) \/
  (forall p, p < np -> exists sb d tg rb src rt,
     nth_error (P p) k = Some (Sendrecv sb d tg rb src rt) /\ d < np /\ src < np /\
     (exists sb' rb' src' rt', nth_error (P src) k = Some (Sendrecv sb' p rt rb' src' rt')) /\
     (exists sb' d' tg' rb', nth_error (P d) k = Some (Sendrecv sb' d' tg' rb' p tg))).

Hypothesis P_matched : forall k, k < n -> matched k.

Definition sends (a k b : nat) (t : Z) : bool :=
  match nth_error (P a) k with
  | Some (Sendrecv _ d tg _ _ _) => (d =? b) && (tg =? t)%Z
  | _ => false
  end.
Definition sbuf (a k : nat) : arr :=
  match nth_error (P a) k with Some (Sendrecv sb _ _ _ _ _) => sb | _ => A_U end.

(** One lockstep action of process [p]: [M] before, [s'] after. *)
Definition lock1 (p k : nat) (M : nat -> store T) (s' : store T) : Prop :=
  match nth_error (P p) k with
  | Some (Compute K) => exec inb (M p) K s'
  | Some (Sendrecv _ _ _ rb src _) => s' = received (M p) rb (content (M src) (sbuf src k))
  | Some Barrier => s' = M p
  | None => False
  end.

Definition posted (w : world T) (p : nat) : nat :=
  match st w p with Idle => pc w p | _ => S (pc w p) end.
Definition recvd (w : world T) (p : nat) : nat :=
  match st w p with Received => S (pc w p) | _ => pc w p end.

Record inv (H : nat -> nat -> store T) (w : world T) : Prop := {
  i_mem : forall p, p < np -> mem w p = H (recvd w p) p;
  i_rel : forall p k, p < np -> k < recvd w p -> lock1 p k (H k) (H (S k) p);
  i_src : forall p k sb d tg rb src rt, p < np -> k < recvd w p ->
    nth_error (P p) k = Some (Sendrecv sb d tg rb src rt) -> k < posted w src;
  i_net : forall a b t, a < np -> b < np ->
    net w a b t = map (fun k => content (H k a) (sbuf a k))
      (filter (fun k => sends a k b t) (seq (recvd w b) (posted w a - recvd w b)));
  i_bar : forall p q k, p < np -> q < np -> nth_error (P p) k = Some Barrier ->
    k < pc w p -> k < pc w q;
  i_st : forall p, p < np -> st w p <> Idle ->
    exists sb d tg rb src rt, nth_error (P p) (pc w p) = Some (Sendrecv sb d tg rb src rt);
  i_pc : forall p, p < np -> pc w p <= n
}.

Lemma set_same {A} (f : nat -> A) p x : set f p x p = x.
Proof. unfold set. now rewrite Nat.eqb_refl. Qed.
Lemma set_other {A} (f : nat -> A) p q x : p <> q -> set f p x q = f q.
Proof. intros. unfold set. now rewrite (proj2 (Nat.eqb_neq p q)). Qed.

Lemma pc_lt w p a : p < np -> nth_error (P p) (pc w p) = Some a -> pc w p < n.
Proof. intros Hp E. rewrite <- (P_len p Hp). apply nth_error_Some. congruence. Qed.

Lemma matched_sr k p sb d tg rb src rt : p < np -> k < n ->
  nth_error (P p) k = Some (Sendrecv sb d tg rb src rt) ->
  d < np /\ src < np /\
  (exists sb' rb' src' rt', nth_error (P src) k = Some (Sendrecv sb' p rt rb' src' rt')) /\
  (exists sb' d' tg' rb', nth_error (P d) k = Some (Sendrecv sb' d' tg' rb' p tg)).
Proof.
  intros Hp Hk E. destruct (P_matched k Hk) as [M|[M|M]].
  - destruct (M p Hp) as (K & E'). congruence.
  - specialize (M p Hp). congruence.
  - destruct (M p Hp) as (sb1 & d1 & tg1 & rb1 & src1 & rt1 & E' & M1).
    rewrite E in E'. inversion E'; subst. tauto.
Qed.

(** whoever sends to [b] in action [k] is the source [b] expects *)
Lemma sends_source a k b t : a < np -> b < np -> k < n -> sends a k b t = true ->
  exists sb d tg rb, nth_error (P b) k = Some (Sendrecv sb d tg rb a t).
Proof.
  intros Ha Hb Hk. unfold sends. destruct (nth_error (P a) k) as [[ |sb d tg rb src rt| ]|] eqn:E;
    try discriminate.
  intros E'. apply andb_prop in E'. destruct E' as [E1 E2].
  apply Nat.eqb_eq in E1. apply Z.eqb_eq in E2. subst.
  destruct (matched_sr k a _ _ _ _ _ _ Ha Hk E) as (_ & _ & _ & X). exact X.
Qed.

Lemma source_sends p k sb d tg rb src rt : p < np -> k < n ->
  nth_error (P p) k = Some (Sendrecv sb d tg rb src rt) -> sends src k p rt = true.
Proof.
  intros Hp Hk E. destruct (matched_sr k p _ _ _ _ _ _ Hp Hk E) as (_ & _ & (a & b & c & e & X) & _).
  unfold sends. rewrite X, Nat.eqb_refl, Z.eqb_refl. reflexivity.
Qed.

Lemma inv_start M : inv (fun _ => M) (start M).
Proof.
  constructor; simpl; unfold recvd, posted; simpl; intros; try lia; auto. congruence.
Qed.

Lemma filter_seq_none (f : nat -> bool) a c :
  (forall k, a <= k < a + c -> f k = false) -> filter f (seq a c) = [].
Proof.
  revert a. induction c as [|c IH]; intros a Hf; simpl; auto.
  rewrite Hf by lia. apply IH. intros; apply Hf; lia.
Qed.

Lemma map_ext_filter {B} (f g : nat -> B) h a c :
  (forall k, a <= k < a + c -> f k = g k) -> map f (filter h (seq a c)) = map g (filter h (seq a c)).
Proof.
  intros E. apply map_ext_in. intros k Hk. apply filter_In in Hk. destruct Hk as [Hk _].
  apply in_seq in Hk. apply E. lia.
Qed.

(** Recording a new memory of process [p] at time [k]. *)
Definition record (H : nat -> nat -> store T) (k p : nat) (s : store T) : nat -> nat -> store T :=
  fun k' => if k =? k' then set (H k') p s else H k'.

Lemma record_same H k p s : record H k p s k p = s.
Proof. unfold record. rewrite Nat.eqb_refl. apply set_same. Qed.
Lemma record_other H k p s k' p' : k <> k' \/ p <> p' -> record H k p s k' p' = H k' p'.
Proof.
  unfold record. intros X. destruct (k =? k') eqn:E; auto. apply Nat.eqb_eq in E.
  apply set_other. destruct X; congruence.
Qed.

Lemma lock1_agree p k M1 M2 s' :
  M1 p = M2 p ->
  (forall sb d tg rb src rt, nth_error (P p) k = Some (Sendrecv sb d tg rb src rt) -> M1 src = M2 src) ->
  lock1 p k M1 s' -> lock1 p k M2 s'.
Proof.
  unfold lock1. intros E1 E2 L. destruct (nth_error (P p) k) as [[K|sb d tg rb src rt| ]|]; auto.
  - rewrite <- E1; auto.
  - rewrite <- E1, <- (E2 _ _ _ _ _ _ eq_refl). auto.
  - rewrite <- E1; auto.
Qed.

Lemma recvd_posted w p : recvd w p <= posted w p <= S (recvd w p).
Proof. unfold recvd, posted. destruct (st w p); lia. Qed.

(** The relations already established do not look at the new record. *)
Lemma rel_record H w p s q k : q < np -> p < np -> k < recvd w q -> inv H w ->
  lock1 q k (H k) (H (S k) q) ->
  lock1 q k (record H (S (recvd w p)) p s k) (record H (S (recvd w p)) p s (S k) q).
Proof.
  intros Hq Hp Hk I L.
  rewrite (record_other _ _ _ _ (S k) q).
  2:{ destruct (Nat.eq_dec p q); [subst; left; lia|right; auto]. }
  eapply lock1_agree; [| |exact L].
  - symmetry. apply record_other. destruct (Nat.eq_dec p q); [subst; left; lia|right; auto].
  - intros. symmetry. apply record_other. destruct (Nat.eq_dec p src); [subst|right; auto].
    left. pose proof (i_src _ _ I q k _ _ _ _ _ _ Hq Hk H0). pose proof (recvd_posted w src). lia.
Qed.

Lemma net_record H w p s a b t : inv H w -> a < np -> b < np ->
  map (fun k => content (record H (S (recvd w p)) p s k a) (sbuf a k))
    (filter (fun k => sends a k b t) (seq (recvd w b) (posted w a - recvd w b))) = net w a b t.
Proof.
  intros I Ha Hb. rewrite (i_net _ _ I a b t Ha Hb).
  apply map_ext_filter. intros k Hk. rewrite record_other; auto.
  destruct (Nat.eq_dec p a); [subst; left|right; auto]. pose proof (recvd_posted w a). lia.
Qed.

Lemma record_lt H w p s k q : inv H w -> k <= recvd w q ->
  (q = p -> k <= recvd w p) -> record H (S (recvd w p)) p s k q = H k q.
Proof.
  intros I Hk Hq. apply record_other. destruct (Nat.eq_dec p q); [subst; left; lia|right; auto].
Qed.

Section Step.
Variables (eager : nat -> nat -> bool).

Lemma inv_compute H w p K s' :
  inv H w -> p < np -> nth_error (P p) (pc w p) = Some (Compute K) -> st w p = Idle ->
  exec inb (mem w p) K s' ->
  inv (record H (S (recvd w p)) p s')
      (mkworld (set (mem w) p s') (set (pc w) p (S (pc w p))) (st w) (net w)).
Proof.
  intros I Hp E Hs X. pose proof (pc_lt _ _ _ Hp E) as Hn.
  set (w' := mkworld _ _ _ _).
  assert (Ep : recvd w p = pc w p) by (unfold recvd; rewrite Hs; auto).
  assert (Eq : posted w p = pc w p) by (unfold posted; rewrite Hs; auto).
  assert (R1 : recvd w' p = S (pc w p)).
  { unfold recvd, w'; simpl. rewrite Hs, set_same. auto. }
  assert (R2 : posted w' p = S (pc w p)).
  { unfold posted, w'; simpl. rewrite Hs, set_same. auto. }
  assert (R3 : forall q, p <> q -> recvd w' q = recvd w q).
  { intros. unfold recvd, w'; simpl. rewrite set_other; auto. }
  assert (R4 : forall q, p <> q -> posted w' q = posted w q).
  { intros. unfold posted, w'; simpl. rewrite set_other; auto. }
  constructor.
  - intros q Hq. destruct (Nat.eq_dec p q) as [<-|Ne].
    + rewrite R1, Ep, record_same. simpl. apply set_same.
    + rewrite R3 by auto. rewrite record_other by auto. simpl. rewrite set_other by auto.
      apply (i_mem _ _ I); auto.
  - intros q k Hq Hk. destruct (Nat.eq_dec p q) as [<-|Ne].
    + rewrite R1 in Hk. destruct (Nat.eq_dec k (pc w p)) as [->|].
      * rewrite Ep. rewrite record_same. unfold lock1. rewrite E.
        rewrite record_other by lia. rewrite <- Ep. rewrite <- (i_mem _ _ I) by auto. exact X.
      * apply rel_record; auto; [lia|]. apply (i_rel _ _ I); auto. lia.
    + rewrite R3 in Hk by auto. apply rel_record; auto. apply (i_rel _ _ I); auto.
  - intros q k sb d tg rb src rt Hq Hk E'.
    assert (Hk' : k < recvd w q).
    { destruct (Nat.eq_dec p q) as [<-|Ne]; [|rewrite R3 in Hk; auto].
      rewrite R1 in Hk. rewrite Ep. destruct (Nat.eq_dec k (pc w p)) as [->|]; [congruence|lia]. }
    pose proof (i_src _ _ I q k _ _ _ _ _ _ Hq Hk' E').
    destruct (Nat.eq_dec p src) as [<-|Ne]; [lia|rewrite R4; auto].
  - intros a b t Ha Hb. simpl net. rewrite <- (net_record H w p s' a b t I Ha Hb).
    f_equal.
    assert (Hone : forall q, q < np -> sends q (pc w p) b t = true -> q <> p -> b <> p).
    { intros q Hq Hqs Hqp ->. destruct (sends_source q _ p t Hq Hp Hn Hqs) as (?&?&?&?&?).
      congruence. }
    assert (Hnp : sends p (pc w p) b t = false) by (unfold sends; rewrite E; auto).
    destruct (Nat.eq_dec p a) as [<-|Na]; destruct (Nat.eq_dec p b) as [<-|Nb].
    + rewrite R1, R2, Ep, Eq, !Nat.sub_diag. reflexivity.
    + rewrite R2, R3, Eq by auto.
      destruct (le_lt_dec (recvd w b) (pc w p)).
      * replace (S (pc w p) - recvd w b) with ((pc w p - recvd w b) + 1) by lia.
        rewrite seq_app, filter_app. simpl seq.
        replace (recvd w b + (pc w p - recvd w b)) with (pc w p) by lia.
        simpl. rewrite Hnp, app_nil_r. reflexivity.
      * replace (S (pc w p) - recvd w b) with 0 by lia.
        replace (pc w p - recvd w b) with 0 by lia. reflexivity.
    + rewrite R4, R1, Ep by auto.
      destruct (le_lt_dec (posted w a) (pc w p)).
      * replace (posted w a - pc w p) with 0 by lia.
        replace (posted w a - S (pc w p)) with 0 by lia. reflexivity.
      * replace (posted w a - pc w p) with (S (posted w a - S (pc w p))) by lia.
        simpl. destruct (sends a (pc w p) p t) eqn:Es; auto.
        exfalso. apply (Hone a Ha Es); auto.
    + rewrite R4, R3 by auto. reflexivity.
  - intros q r k Hq Hr Eb Hk. unfold w' in *; simpl in *.
    destruct (Nat.eq_dec p q) as [<-|Nq].
    + rewrite set_same in Hk. assert (k < pc w p) by (destruct (Nat.eq_dec k (pc w p)); [subst; congruence|lia]).
      pose proof (i_bar _ _ I p r k Hp Hr Eb H0).
      destruct (Nat.eq_dec p r) as [<-|Nr]; [rewrite set_same; lia|rewrite set_other; auto].
    + rewrite set_other in Hk by auto. pose proof (i_bar _ _ I q r k Hq Hr Eb Hk).
      destruct (Nat.eq_dec p r) as [<-|Nr]; [rewrite set_same; lia|rewrite set_other; auto].
  - intros q Hq Hst. unfold w' in *; simpl in *. destruct (Nat.eq_dec p q) as [<-|Nq].
    + congruence.
    + rewrite set_other by auto. apply (i_st _ _ I); auto.
  - intros q Hq. unfold w'; simpl. destruct (Nat.eq_dec p q) as [<-|Nq].
    + rewrite set_same. lia.
    + rewrite set_other by auto. apply (i_pc _ _ I); auto.
Qed.

Lemma inv_post H w p sb d tg rb src rt :
  inv H w -> p < np -> nth_error (P p) (pc w p) = Some (Sendrecv sb d tg rb src rt) ->
  st w p = Idle ->
  inv H (mkworld (mem w) (pc w) (set (st w) p Posted)
      (set_net (net w) p d tg (net w p d tg ++ [content (mem w p) sb]))).
Proof.
  intros I Hp E Hs. pose proof (pc_lt _ _ _ Hp E) as Hn.
  set (w' := mkworld _ _ _ _).
  assert (Ep : recvd w p = pc w p) by (unfold recvd; rewrite Hs; auto).
  assert (Eq : posted w p = pc w p) by (unfold posted; rewrite Hs; auto).
  assert (R3 : forall q, recvd w' q = recvd w q).
  { intros q. unfold recvd, w'; simpl. destruct (Nat.eq_dec p q) as [<-|];
    [rewrite set_same, Hs; auto|rewrite set_other; auto]. }
  assert (R2 : posted w' p = S (pc w p)) by (unfold posted, w'; simpl; rewrite set_same; auto).
  assert (R4 : forall q, p <> q -> posted w' q = posted w q).
  { intros q Ne. unfold posted, w'; simpl. rewrite set_other; auto. }
  destruct (matched_sr _ _ _ _ _ _ _ _ Hp Hn E) as (Hd & Hsrc & _ & (sb2 & d2 & tg2 & rb2 & Ed)).
  assert (Hrd : recvd w d <= pc w p).
  { destruct (le_lt_dec (recvd w d) (pc w p)) as [|L]; auto.
    pose proof (i_src _ _ I d (pc w p) _ _ _ _ _ _ Hd L Ed). lia. }
  constructor.
  - intros q Hq. rewrite R3. apply (i_mem _ _ I); auto.
  - intros q k Hq Hk. rewrite R3 in Hk. apply (i_rel _ _ I); auto.
  - intros q k sb1 d1 tg1 rb1 src1 rt1 Hq Hk E1. rewrite R3 in Hk.
    pose proof (i_src _ _ I q k _ _ _ _ _ _ Hq Hk E1).
    destruct (Nat.eq_dec p src1) as [<-|Ne]; [lia|rewrite R4; auto].
  - intros a b t Ha Hb. rewrite R3. unfold w' at 1; cbn [net]. unfold set_net.
    destruct (Nat.eq_dec p a) as [<-|Na].
    + rewrite R2. rewrite Nat.eqb_refl.
      destruct ((d =? b) && (tg =? t)%Z) eqn:Edt.
      * apply andb_prop in Edt. destruct Edt as [E1 E2]. rewrite E1, E2. cbn [andb].
        apply Nat.eqb_eq in E1. apply Z.eqb_eq in E2. subst b t.
        rewrite (i_net _ _ I) by auto. rewrite Eq.
        replace (S (pc w p) - recvd w d) with ((pc w p - recvd w d) + 1) by lia.
        rewrite seq_app, filter_app, map_app. f_equal. simpl seq.
        replace (recvd w d + (pc w p - recvd w d)) with (pc w p) by lia.
        simpl. unfold sends. rewrite E, Nat.eqb_refl, Z.eqb_refl. simpl.
        unfold sbuf. rewrite E. rewrite (i_mem _ _ I) by auto. rewrite Ep. reflexivity.
      * assert (X : (if true && (d =? b) && (tg =? t)%Z then net w p d tg ++ [content (mem w p) sb]
                     else net w p b t) = net w p b t).
        { simpl andb. rewrite Edt. reflexivity. }
        rewrite X. rewrite (i_net _ _ I) by auto. rewrite Eq.
        destruct (le_lt_dec (recvd w b) (pc w p)).
        -- replace (S (pc w p) - recvd w b) with ((pc w p - recvd w b) + 1) by lia.
           rewrite seq_app, filter_app. simpl seq.
           replace (recvd w b + (pc w p - recvd w b)) with (pc w p) by lia.
           assert (sends p (pc w p) b t = false) as Hnp.
           { unfold sends. rewrite E. exact Edt. }
           simpl. rewrite Hnp, app_nil_r. reflexivity.
        -- replace (S (pc w p) - recvd w b) with 0 by lia.
           replace (pc w p - recvd w b) with 0 by lia. reflexivity.
    + rewrite R4 by auto. rewrite (proj2 (Nat.eqb_neq p a)) by auto. simpl.
      apply (i_net _ _ I); auto.
  - intros q r k Hq Hr Eb Hk. apply (i_bar _ _ I q r k); auto.
  - intros q Hq Hst. unfold w' in *; simpl in *. destruct (Nat.eq_dec p q) as [<-|Nq].
    + repeat eexists. eauto.
    + rewrite set_other in Hst by auto. apply (i_st _ _ I); auto.
  - intros q Hq. apply (i_pc _ _ I); auto.
Qed.

Lemma inv_recv H w p sb d tg rb src rt x rest :
  inv H w -> p < np -> nth_error (P p) (pc w p) = Some (Sendrecv sb d tg rb src rt) ->
  st w p = Posted -> net w src p rt = x :: rest ->
  inv (record H (S (recvd w p)) p (received (mem w p) rb x))
    (mkworld (set (mem w) p (received (mem w p) rb x)) (pc w) (set (st w) p Received)
      (set_net (net w) src p rt rest)).
Proof.
  intros I Hp E Hs En. pose proof (pc_lt _ _ _ Hp E) as Hn.
  set (w' := mkworld _ _ _ _).
  set (s' := received (mem w p) rb x) in *.
  assert (Ep : recvd w p = pc w p) by (unfold recvd; rewrite Hs; auto).
  assert (Eq : posted w p = S (pc w p)) by (unfold posted; rewrite Hs; auto).
  assert (R1 : recvd w' p = S (pc w p)) by (unfold recvd, w'; simpl; rewrite set_same; auto).
  assert (R3 : forall q, p <> q -> recvd w' q = recvd w q).
  { intros q Ne. unfold recvd, w'; simpl. rewrite set_other; auto. }
  assert (R4 : forall q, posted w' q = posted w q).
  { intros q. unfold posted, w'; simpl. destruct (Nat.eq_dec p q) as [<-|];
    [rewrite set_same, Hs; auto|rewrite set_other; auto]. }
  destruct (matched_sr _ _ _ _ _ _ _ _ Hp Hn E) as (Hd & Hsrc & (sb2 & rb2 & src2 & rt2 & Esrc) & _).
  pose proof (source_sends _ _ _ _ _ _ _ _ Hp Hn E) as Hsend.
  (* the message at the head of the channel is the one of this action *)
  assert (Hhead : pc w p < posted w src /\ x = content (H (pc w p) src) (sbuf src (pc w p)) /\
     rest = map (fun k => content (H k src) (sbuf src k))
      (filter (fun k => sends src k p rt) (seq (S (pc w p)) (posted w src - S (pc w p))))).
  { rewrite (i_net _ _ I src p rt Hsrc Hp), Ep in En.
    destruct (le_lt_dec (posted w src) (pc w p)).
    - replace (posted w src - pc w p) with 0 in En by lia. discriminate.
    - replace (posted w src - pc w p) with (S (posted w src - S (pc w p))) in En by lia.
      simpl in En. rewrite Hsend in En. simpl in En. inversion En. auto. }
  destruct Hhead as (Hh1 & Hh2 & Hh3).
  constructor.
  - intros q Hq. destruct (Nat.eq_dec p q) as [<-|Ne].
    + rewrite R1, Ep, record_same. simpl. apply set_same.
    + rewrite R3 by auto. rewrite record_other by auto. simpl. rewrite set_other by auto.
      apply (i_mem _ _ I); auto.
  - intros q k Hq Hk. destruct (Nat.eq_dec p q) as [<-|Ne].
    + rewrite R1 in Hk. destruct (Nat.eq_dec k (pc w p)) as [->|].
      * rewrite Ep. rewrite record_same. unfold lock1. rewrite E.
        rewrite (record_other H (S (pc w p)) p s' (pc w p) p) by lia.
        rewrite (record_other H (S (pc w p)) p s' (pc w p) src) by lia.
        unfold s'. rewrite Hh2. rewrite (i_mem _ _ I) by auto. rewrite Ep. reflexivity.
      * apply rel_record; auto; [lia|]. apply (i_rel _ _ I); auto. lia.
    + rewrite R3 in Hk by auto. apply rel_record; auto. apply (i_rel _ _ I); auto.
  - intros q k sb1 d1 tg1 rb1 src1 rt1 Hq Hk E'. rewrite R4.
    destruct (Nat.eq_dec p q) as [<-|Ne].
    + rewrite R1 in Hk. destruct (Nat.eq_dec k (pc w p)) as [->|].
      * rewrite E in E'. inversion E'; subst. exact Hh1.
      * eapply (i_src _ _ I p); eauto. lia.
    + rewrite R3 in Hk by auto. eapply (i_src _ _ I q); eauto.
  - intros a b t Ha Hb. rewrite R4. unfold w' at 1; cbn [net]. unfold set_net.
    destruct (Nat.eq_dec p b) as [<-|Nb].
    + rewrite R1. rewrite Nat.eqb_refl, andb_true_r.
      destruct ((src =? a) && (rt =? t)%Z) eqn:Est.
      * apply andb_prop in Est. destruct Est as [E1 E2].
        apply Nat.eqb_eq in E1. apply Z.eqb_eq in E2. subst a t.
        rewrite Hh3. apply map_ext_filter. intros k Hk. rewrite record_other; auto.
        destruct (Nat.eq_dec p src) as [<-|]; [|right; auto]. rewrite Eq in Hk. lia.
      * rewrite <- (net_record H w p s' a p t I Ha Hp). rewrite Ep.
        f_equal. destruct (le_lt_dec (posted w a) (pc w p)).
        -- replace (posted w a - S (pc w p)) with 0 by lia.
           replace (posted w a - pc w p) with 0 by lia. reflexivity.
        -- replace (posted w a - pc w p) with (S (posted w a - S (pc w p))) by lia.
           simpl. destruct (sends a (pc w p) p t) eqn:Es; auto.
           exfalso. destruct (sends_source _ _ _ _ Ha Hp Hn Es) as (?&?&?&?&Ex).
           rewrite E in Ex. inversion Ex; subst. rewrite Nat.eqb_refl, Z.eqb_refl in Est. discriminate.
    + rewrite R3 by auto. rewrite (proj2 (Nat.eqb_neq p b)) by auto.
      rewrite andb_false_r. simpl. symmetry. apply (net_record H w p s' a b t I Ha Hb).
  - intros q r k Hq Hr Eb Hk. apply (i_bar _ _ I q r k); auto.
  - intros q Hq Hst. unfold w' in *; simpl in *. destruct (Nat.eq_dec p q) as [<-|Nq].
    + repeat eexists. eauto.
    + rewrite set_other in Hst by auto. apply (i_st _ _ I); auto.
  - intros q Hq. apply (i_pc _ _ I); auto.
Qed.

Lemma inv_return H w p sb d tg rb src rt :
  inv H w -> p < np -> nth_error (P p) (pc w p) = Some (Sendrecv sb d tg rb src rt) ->
  st w p = Received ->
  inv H (mkworld (mem w) (set (pc w) p (S (pc w p))) (set (st w) p Idle) (net w)).
Proof.
  intros I Hp E Hs. pose proof (pc_lt _ _ _ Hp E) as Hn.
  set (w' := mkworld _ _ _ _).
  assert (R3 : forall q, recvd w' q = recvd w q).
  { intros q. unfold recvd, w'; simpl. destruct (Nat.eq_dec p q) as [<-|];
    [rewrite !set_same, Hs; auto|rewrite !set_other; auto]. }
  assert (R4 : forall q, posted w' q = posted w q).
  { intros q. unfold posted, w'; simpl. destruct (Nat.eq_dec p q) as [<-|];
    [rewrite !set_same, Hs; auto|rewrite !set_other; auto]. }
  constructor.
  - intros q Hq. rewrite R3. apply (i_mem _ _ I); auto.
  - intros q k Hq Hk. rewrite R3 in Hk. apply (i_rel _ _ I); auto.
  - intros q k sb1 d1 tg1 rb1 src1 rt1 Hq Hk E'. rewrite R4. rewrite R3 in Hk.
    eapply (i_src _ _ I q); eauto.
  - intros a b t Ha Hb. rewrite R3, R4. apply (i_net _ _ I); auto.
  - intros q r k Hq Hr Eb Hk. unfold w' in *; simpl in *.
    assert (k < pc w q).
    { destruct (Nat.eq_dec p q) as [<-|]; [rewrite set_same in Hk|rewrite set_other in Hk; auto].
      destruct (Nat.eq_dec k (pc w p)); [subst; congruence|lia]. }
    pose proof (i_bar _ _ I q r k Hq Hr Eb H0).
    destruct (Nat.eq_dec p r) as [<-|Nr]; [rewrite set_same; lia|rewrite set_other; auto].
  - intros q Hq Hst. unfold w' in *; simpl in *. destruct (Nat.eq_dec p q) as [<-|Nq].
    + rewrite set_same in Hst. congruence.
    + rewrite set_other in Hst by auto. rewrite set_other by auto. apply (i_st _ _ I); auto.
  - intros q Hq. unfold w'; simpl. destruct (Nat.eq_dec p q) as [<-|Nq].
    + rewrite set_same. lia.
    + rewrite set_other by auto. apply (i_pc _ _ I); auto.
Qed.

(** At a barrier all processes are at the same action. *)
Lemma bar_same_pc H w : inv H w ->
  (forall p, p < np -> nth_error (P p) (pc w p) = Some Barrier /\ st w p = Idle) ->
  forall p q, p < np -> q < np -> pc w p = pc w q.
Proof.
  intros I Hb p q Hp Hq.
  destruct (lt_eq_lt_dec (pc w p) (pc w q)) as [[L|L]|L]; auto.
  - exfalso. destruct (Hb p Hp) as [E _].
    assert (E' : nth_error (P q) (pc w p) = Some Barrier).
    { destruct (P_matched _ (pc_lt _ _ _ Hp E)) as [M|[M|M]]; auto.
      - destruct (M p Hp); congruence.
      - destruct (M p Hp) as (?&?&?&?&?&?&?&?); congruence. }
    pose proof (i_bar _ _ I q p _ Hq Hp E' L). lia.
  - exfalso. destruct (Hb q Hq) as [E _].
    assert (E' : nth_error (P p) (pc w q) = Some Barrier).
    { destruct (P_matched _ (pc_lt _ _ _ Hq E)) as [M|[M|M]]; auto.
      - destruct (M q Hq); congruence.
      - destruct (M q Hq) as (?&?&?&?&?&?&?&?); congruence. }
    pose proof (i_bar _ _ I p q _ Hp Hq E' L). lia.
Qed.

Lemma inv_barrier H w : 0 < np ->
  inv H w ->
  (forall p, p < np -> nth_error (P p) (pc w p) = Some Barrier /\ st w p = Idle) ->
  exists H', inv H' (mkworld (mem w) (fun p => S (pc w p)) (st w) (net w)) /\
    (forall p, p < np -> H' 0 p = H 0 p).
Proof.
  intros Hnp I Hb. set (w' := mkworld _ _ _ _).
  set (k0 := pc w 0).
  assert (Hpc : forall p, p < np -> pc w p = k0) by (intros; eapply bar_same_pc; eauto).
  assert (Hr : forall p, p < np -> recvd w p = k0).
  { intros. unfold recvd. destruct (Hb p) as [_ ->]; auto. }
  assert (Ho : forall p, p < np -> posted w p = k0).
  { intros. unfold posted. destruct (Hb p) as [_ ->]; auto. }
  assert (Hr' : forall p, p < np -> recvd w' p = S k0).
  { intros. unfold recvd, w'; simpl. destruct (Hb p) as [_ ->]; auto. }
  assert (Ho' : forall p, p < np -> posted w' p = S k0).
  { intros. unfold posted, w'; simpl. destruct (Hb p) as [_ ->]; auto. }
  assert (Hbar : forall p, p < np -> nth_error (P p) k0 = Some Barrier).
  { intros p Hp. rewrite <- (Hpc p Hp). apply Hb; auto. }
  assert (Hlt : k0 < n).
  { destruct (Hb 0 Hnp) as [E0 _]. exact (pc_lt w 0 Barrier Hnp E0). }
  exists (fun k => if k =? S k0 then mem w else H k). split.
  2:{ intros. reflexivity. }
  constructor.
  - intros q Hq. rewrite Hr' by auto. rewrite Nat.eqb_refl. reflexivity.
  - intros q k Hq Hk. rewrite Hr' in Hk by auto.
    rewrite (proj2 (Nat.eqb_neq k (S k0))) by lia.
    destruct (Nat.eq_dec k k0) as [->|].
    + rewrite Nat.eqb_refl. unfold lock1. rewrite Hbar by auto.
      rewrite (i_mem _ _ I) by auto. rewrite Hr by auto. reflexivity.
    + rewrite (proj2 (Nat.eqb_neq (S k) (S k0))) by lia. apply (i_rel _ _ I); auto.
      rewrite Hr by auto. lia.
  - intros q k sb d tg rb src rt Hq Hk E. rewrite Hr' in Hk by auto.
    assert (k <> k0) by (intros ->; rewrite Hbar in E by auto; discriminate).
    destruct (matched_sr k q _ _ _ _ _ _ Hq ltac:(lia) E) as (_ & Hsrc & _).
    rewrite Ho' by auto. lia.
  - intros a b t Ha Hb'. rewrite Hr', Ho' by auto. rewrite Nat.sub_diag. simpl.
    rewrite (i_net _ _ I) by auto. rewrite Hr, Ho, Nat.sub_diag by auto. reflexivity.
  - intros q r k Hq Hrr Eb Hk. unfold w' in *; simpl in *. rewrite !Hpc in * by auto. exact Hk.
  - intros q Hq Hst. unfold w' in *; simpl in *. destruct (Hb q Hq). congruence.
  - intros q Hq. unfold w'; simpl. rewrite Hpc by auto. lia.
Qed.

Lemma inv_step H w w' : mstep inb np P eager w w' -> inv H w ->
  exists H', inv H' w' /\ (forall p, p < np -> H' 0 p = H 0 p).
Proof.
  intros Hst I. inversion Hst; subst.
  - eexists. split; [eapply inv_compute; eauto|]. intros. apply record_other. lia.
  - eexists. split; [eapply inv_post; eauto|]. auto.
  - eexists. split; [eapply inv_recv; eauto|]. intros. apply record_other. lia.
  - eexists. split; [eapply inv_return; eauto|]. auto.
  - eapply inv_barrier; eauto.
Qed.

Lemma inv_steps c M w : msteps inb np P eager c (start M) w ->
  exists H, inv H w /\ (forall p, p < np -> H 0 p = M p).
Proof.
  remember (start M) as w0. intros Hs. revert Heqw0. induction Hs; intros ->.
  - eexists. split; [apply inv_start|]. auto.
  - destruct (IHHs eq_refl) as (H' & I & E). destruct (inv_step _ _ _ H I) as (H2 & I2 & E2).
    exists H2. split; auto. intros. rewrite E2; auto.
Qed.

(** ** Every complete run is a lockstep run *)
Theorem async_lockstep c M w : msteps inb np P eager c (start M) w -> finished np P w ->
  exists H : nat -> nat -> store T,
    (forall p, p < np -> H 0 p = M p) /\
    (forall p k, p < np -> k < n -> lock1 p k (H k) (H (S k) p)) /\
    (forall p, p < np -> mem w p = H n p).
Proof.
  intros Hs Hf. destruct (inv_steps _ _ _ Hs) as (H & I & E). exists H.
  assert (Hr : forall p, p < np -> recvd w p = n).
  { intros p Hp. unfold recvd. pose proof (Hf p Hp) as Hpc. rewrite (P_len p Hp) in Hpc.
    destruct (st w p) eqn:Es; auto.
    destruct (i_st _ _ I p Hp) as (?&?&?&?&?&?&X); [congruence|].
    apply (pc_lt w p _ Hp) in X. lia. }
  split; [auto|]. split.
  - intros p k Hp Hk. apply (i_rel _ _ I); auto. rewrite Hr; auto.
  - intros p Hp. rewrite <- (Hr p Hp). apply (i_mem _ _ I); auto.
Qed.

(** ** No deadlock *)
Definition runnable (M : nat -> store T) : Prop :=
  forall c w p K, msteps inb np P eager c (start M) w -> p < np ->
    nth_error (P p) (pc w p) = Some (Compute K) -> exists s', exec inb (mem w p) K s'.

(** The process that is furthest behind. *)
Lemma least_exists (f : nat -> nat) : forall m, 0 < m -> exists p, p < m /\ forall q, q < m -> f p <= f q.
Proof.
  induction m as [|m IH]; [lia|]. intros _. destruct m as [|m].
  - exists 0. split; [lia|]. intros q Hq. replace q with 0 by lia. lia.
  - destruct IH as (p & Hp & Hmin); [lia|]. destruct (le_lt_dec (f p) (f (S m))).
    + exists p. split; [lia|]. intros q Hq. destruct (Nat.eq_dec q (S m)) as [->|]; auto.
      apply Hmin. lia.
    + exists (S m). split; [lia|]. intros q Hq. destruct (Nat.eq_dec q (S m)) as [->|]; auto.
      assert (f p <= f q) by (apply Hmin; lia). lia.
Qed.

Lemma can_post w p sb d tg rb src rt : p < np ->
  nth_error (P p) (pc w p) = Some (Sendrecv sb d tg rb src rt) -> st w p = Idle ->
  exists w', mstep inb np P eager w w'.
Proof. intros. eexists. eapply m_post; eauto. Qed.

Lemma can_recv H w p sb d tg rb src rt : inv H w -> p < np ->
  nth_error (P p) (pc w p) = Some (Sendrecv sb d tg rb src rt) -> st w p = Posted ->
  pc w p < posted w src -> exists w', mstep inb np P eager w w'.
Proof.
  intros I Hp E Hs Hpost. pose proof (pc_lt _ _ _ Hp E) as Hn.
  destruct (matched_sr _ _ _ _ _ _ _ _ Hp Hn E) as (_ & Hsrc & _).
  pose proof (i_net _ _ I src p rt Hsrc Hp) as En.
  assert (Er : recvd w p = pc w p) by (unfold recvd; rewrite Hs; auto).
  rewrite Er in En.
  replace (posted w src - pc w p) with (S (posted w src - S (pc w p))) in En by lia.
  simpl in En. rewrite (source_sends _ _ _ _ _ _ _ _ Hp Hn E) in En. simpl in En.
  eexists. exact (m_recv inb np P eager w p sb d tg rb src rt _ _ Hp E Hs En).
Qed.

Lemma progress c M w : 0 < np -> runnable M -> msteps inb np P eager c (start M) w ->
  finished np P w \/ exists w', mstep inb np P eager w w'.
Proof.
  intros Hnp Hrun Hs. destruct (inv_steps _ _ _ Hs) as (H & I & _).
  destruct (least_exists (pc w) np Hnp) as (p & Hp & Hmin).
  destruct (Nat.eq_dec (pc w p) n) as [En|En].
  { left. intros q Hq. rewrite P_len by auto. pose proof (i_pc _ _ I q Hq). specialize (Hmin q Hq). lia. }
  right. pose proof (i_pc _ _ I p Hp) as Hle. assert (Hlt : pc w p < n) by lia.
  destruct (nth_error (P p) (pc w p)) as [[K|sb d tg rb src rt| ]|] eqn:E.
  - destruct (Hrun _ _ _ _ Hs Hp E) as (s' & X).
    assert (st w p = Idle).
    { destruct (st w p) eqn:Es; auto; destruct (i_st _ _ I p Hp) as (?&?&?&?&?&?&?); congruence. }
    eexists. eapply m_compute; eauto.
  - destruct (matched_sr _ _ _ _ _ _ _ _ Hp Hlt E) as
      (Hd & Hsrc & (sb1 & rb1 & src1 & rt1 & Esrc) & (sb2 & d2 & tg2 & rb2 & Ed)).
    destruct (st w p) eqn:Es.
    + exact (can_post w p _ _ _ _ _ _ Hp E Es).
    + (* waiting for its message *)
      destruct (le_lt_dec (posted w src) (pc w p)) as [L|L].
      * assert (pc w src = pc w p /\ st w src = Idle) as [E1 E2].
        { specialize (Hmin src Hsrc). unfold posted in L. destruct (st w src); split; auto; lia. }
        apply (can_post w src sb1 p rt rb1 src1 rt1); auto. rewrite E1; auto.
      * exact (can_recv H w p _ _ _ _ _ _ I Hp E Es L).
    + (* waiting for its own message to be received *)
      destruct (le_lt_dec (recvd w d) (pc w p)) as [L|L].
      * assert (E1 : pc w d = pc w p).
        { specialize (Hmin d Hd). unfold recvd in L. destruct (st w d); lia. }
        rewrite <- E1 in Ed.
        destruct (st w d) eqn:Esd.
        -- exact (can_post w d _ _ _ _ _ _ Hd Ed Esd).
        -- refine (can_recv H w d _ _ _ _ _ _ I Hd Ed Esd _). rewrite E1. unfold posted. rewrite Es. lia.
        -- unfold recvd in L. rewrite Esd in L. lia.
      * eexists. refine (m_return inb np P eager w p _ _ _ _ _ _ Hp E Es _). right. rewrite (i_net _ _ I) by auto.
        unfold posted. rewrite Es. replace (S (pc w p) - recvd w d) with 0 by lia. reflexivity.
  - assert (Hall : forall q, q < np -> nth_error (P q) (pc w q) = Some Barrier /\ st w q = Idle).
    { intros q Hq.
      assert (Eb : forall r, r < np -> nth_error (P r) (pc w p) = Some Barrier).
      { intros r Hr. destruct (P_matched _ Hlt) as [M'|[M'|M']]; auto.
        - destruct (M' p Hp); congruence.
        - destruct (M' p Hp) as (?&?&?&?&?&?&?&?); congruence. }
      assert (Epc : pc w q = pc w p).
      { specialize (Hmin q Hq). destruct (Nat.eq_dec (pc w q) (pc w p)); auto.
        pose proof (i_bar _ _ I q p (pc w p) Hq Hp (Eb q Hq)). lia. }
      split; [rewrite Epc; auto|].
      destruct (st w q) eqn:Es; auto; destruct (i_st _ _ I q Hq) as (?&?&?&?&?&?&X);
        try congruence; rewrite Epc, Eb in X by auto; congruence. }
    eexists. eapply m_barrier; eauto.
  - exfalso. apply nth_error_None in E. rewrite P_len in E by auto. lia.
Qed.

(** ** Runs are bounded *)
Fixpoint total (f : nat -> nat) (m : nat) : nat :=
  match m with 0 => 0 | S m' => total f m' + f m' end.

Lemma total_le f g m : (forall p, p < m -> f p <= g p) -> total f m <= total g m.
Proof. induction m; simpl; intros Hm; [lia|]. specialize (IHm ltac:(auto)). specialize (Hm m). lia. Qed.

Lemma total_lt f g m p : p < m -> (forall q, q < m -> f q <= g q) -> f p < g p -> total f m < total g m.
Proof.
  induction m; simpl; intros Hp Hm L; [lia|].
  destruct (Nat.eq_dec p m) as [->|].
  - pose proof (total_le f g m ltac:(auto)). lia.
  - specialize (IHm ltac:(lia) ltac:(auto) L). specialize (Hm m). lia.
Qed.

Lemma total_const c m : total (fun _ => c) m = m * c.
Proof. induction m; simpl; lia. Qed.

Definition done_of (w : world T) (p : nat) : nat :=
  3 * pc w p + match st w p with Idle => 0 | Posted => 1 | Received => 2 end.

Lemma step_grows w w' : mstep inb np P eager w w' ->
  total (done_of w) np < total (done_of w') np.
Proof.
  intros Hst. inversion Hst; subst.
  - apply total_lt with (p := p); auto; unfold done_of; simpl.
    + intros q Hq. destruct (Nat.eq_dec p q) as [<-|]; [rewrite set_same|rewrite set_other; auto]; lia.
    + rewrite set_same. lia.
  - apply total_lt with (p := p); auto; unfold done_of; simpl.
    + intros q Hq. destruct (Nat.eq_dec p q) as [<-|]; [rewrite set_same, H1|rewrite set_other; auto]; lia.
    + rewrite set_same, H1. lia.
  - apply total_lt with (p := p); auto; unfold done_of; simpl.
    + intros q Hq. destruct (Nat.eq_dec p q) as [<-|]; [rewrite set_same, H1|rewrite set_other; auto]; lia.
    + rewrite set_same, H1. lia.
  - apply total_lt with (p := p); auto; unfold done_of; simpl.
    + intros q Hq. destruct (Nat.eq_dec p q) as [<-|];
      [rewrite !set_same, H1|rewrite !set_other; auto]; lia.
    + rewrite !set_same, H1. lia.
  - apply total_lt with (p := 0); auto; unfold done_of; simpl; intros; lia.
Qed.

Theorem bounded_runs c M w : msteps inb np P eager c (start M) w -> c <= np * (3 * n).
Proof.
  intros Hs. destruct (inv_steps _ _ _ Hs) as (H & I & _).
  assert (A : c <= total (done_of w) np).
  { clear I H. remember (start M) as w0. induction Hs; [lia|]. specialize (IHHs Heqw0).
    pose proof (step_grows _ _ H). lia. }
  assert (B : total (done_of w) np <= total (fun _ => 3 * n) np).
  { apply total_le. intros p Hp. unfold done_of. pose proof (i_pc _ _ I p Hp).
    destruct (st w p) eqn:Es; [lia| |];
    (destruct (i_st _ _ I p Hp) as (?&?&?&?&?&?&X); [congruence|]; apply (pc_lt w p _ Hp) in X; lia). }
  rewrite total_const in B. lia.
Qed.

End Step.
End Spmd.

(** * Lockstep runs of program segments *)
Section Lockrun.
Context {T : Type}.
Variable inb : extents.
Variable np : nat.
Implicit Types (M : nat -> store T) (Q : nat -> list (action T)).

Definition lockrun Q (n : nat) M M' : Prop :=
  exists H : nat -> nat -> store T,
    (forall p, p < np -> H 0 p = M p) /\
    (forall p k, p < np -> k < n -> lock1 inb Q p k (H k) (H (S k) p)) /\
    (forall p, p < np -> M' p = H n p).

Lemma lock1_same_actions Q Q' p k k' M s' :
  (forall q, nth_error (Q q) k = nth_error (Q' q) k') ->
  lock1 inb Q p k M s' -> lock1 inb Q' p k' M s'.
Proof.
  intros E. unfold lock1, sbuf. rewrite E. destruct (nth_error (Q' p) k') as [[ | | ]|]; auto.
  rewrite E. auto.
Qed.

Lemma lock1_same_mem Q p k M M2 s' :
  (forall q, q < np -> M q = M2 q) -> p < np ->
  (forall sb d tg rb src rt, nth_error (Q p) k = Some (Sendrecv sb d tg rb src rt) -> src < np) ->
  lock1 inb Q p k M s' -> lock1 inb Q p k M2 s'.
Proof.
  intros E Hp Hsrc. apply lock1_agree; auto. intros. apply E. eapply Hsrc; eauto.
Qed.

Definition in_range_sources Q : Prop :=
  forall p k sb d tg rb src rt, p < np ->
    nth_error (Q p) k = Some (Sendrecv sb d tg rb src rt) -> src < np.

Lemma lockrun_ext (Q Q' : nat -> list (action T)) n M M' : (forall p, Q p = Q' p) ->
  lockrun Q n M M' -> lockrun Q' n M M'.
Proof.
  intros E (H & H0 & Hr & He). exists H. split; [exact H0|]. split; [|exact He].
  intros p k Hp Hk. specialize (Hr p k Hp Hk). unfold lock1, sbuf in *. rewrite <- E.
  destruct (nth_error (Q p) k) as [[]|]; auto. rewrite <- E. exact Hr.
Qed.

Lemma lockrun_app Q1 Q2 n1 n2 M M' :
  (forall p, length (Q1 p) = n1) ->
  lockrun (fun p => Q1 p ++ Q2 p) (n1 + n2) M M' ->
  exists M1, lockrun Q1 n1 M M1 /\ lockrun Q2 n2 M1 M'.
Proof.
  intros Hl (H & H0 & Hr & He). exists (H n1). split.
  - exists H. split; [auto|]. split; [|auto]. intros p k Hp Hk.
    eapply lock1_same_actions; [|apply Hr; auto; lia].
    intros q. simpl. rewrite nth_error_app1; auto. rewrite Hl; auto.
  - exists (fun k => H (n1 + k)). split; [intros; f_equal; lia|]. split.
    + intros p k Hp Hk. rewrite Nat.add_succ_r.
      eapply lock1_same_actions; [|apply Hr; auto; lia].
      intros q. simpl. rewrite nth_error_app2; rewrite Hl; [|lia]. f_equal. lia.
    + intros. rewrite He; auto.
Qed.

Lemma lockrun_cons (A : nat -> action T) Q n M M' :
  lockrun (fun p => A p :: Q p) (S n) M M' ->
  exists M1, lockrun (fun p => [A p]) 1 M M1 /\ lockrun Q n M1 M'.
Proof. apply (lockrun_app (fun p => [A p]) Q 1 n). reflexivity. Qed.

Lemma lockrun_nil Q M M' : lockrun Q 0 M M' -> forall p, p < np -> M' p = M p.
Proof. intros (H & H0 & _ & He) p Hp. rewrite He, H0; auto. Qed.

Lemma lockrun_compute (K : nat -> list (prog T)) M M' :
  lockrun (fun p => [Compute (K p)]) 1 M M' -> forall p, p < np -> exec inb (M p) (K p) (M' p).
Proof.
  intros (H & H0 & Hr & He) p Hp. specialize (Hr p 0 Hp ltac:(lia)). unfold lock1 in Hr. simpl in Hr.
  rewrite <- H0, He; auto.
Qed.

Lemma lockrun_barrier M M' :
  lockrun (fun p => [Barrier]) 1 M M' -> forall p, p < np -> M' p = M p.
Proof.
  intros (H & H0 & Hr & He) p Hp. specialize (Hr p 0 Hp ltac:(lia)). unfold lock1 in Hr. simpl in Hr.
  rewrite He, <- H0; auto.
Qed.

Lemma lockrun_sendrecv sb (d : nat -> nat) tg rb (src : nat -> nat) rt M M' :
  (forall p, p < np -> src p < np) ->
  lockrun (fun p => [Sendrecv sb (d p) tg rb (src p) rt]) 1 M M' ->
  forall p, p < np -> M' p = received (M p) rb (content (M (src p)) sb).
Proof.
  intros Hs (H & H0 & Hr & He) p Hp. specialize (Hr p 0 Hp ltac:(lia)). unfold lock1, sbuf in Hr.
  simpl in Hr. rewrite He by auto. rewrite Hr. rewrite !H0; auto.
Qed.

Lemma lockrun_computes : forall n (Ks : nat -> list (list (prog T))) M M',
  (forall p, p < np -> length (Ks p) = n) ->
  lockrun (fun p => map Compute (Ks p)) n M M' ->
  forall p, p < np -> execs inb (M p) (Ks p) (M' p).
Proof.
  intros n Ks M M' Hl (H & H0 & Hr & He) p Hp.
  assert (Hx : forall l k, length l = n - k -> k <= n ->
    (forall j, nth_error (map Compute l) j = nth_error (map (@Compute T) (Ks p)) (k + j)) ->
    execs inb (H k p) l (H n p)).
  { induction l as [|K l IH]; intros k Hlen Hk Hn.
    - simpl in Hlen. replace k with n by lia. constructor.
    - simpl in Hlen. apply execs_cons with (H (S k) p).
      + specialize (Hr p k Hp ltac:(lia)). unfold lock1 in Hr. specialize (Hn 0). simpl in Hn.
        rewrite Nat.add_0_r in Hn. rewrite <- Hn in Hr. exact Hr.
      + apply IH; [lia|lia|]. intros j. specialize (Hn (S j)). simpl in Hn. rewrite Hn. f_equal. lia. }
  rewrite <- H0, He by auto. apply Hx; [rewrite Hl; auto; lia|lia|]. reflexivity.
Qed.

End Lockrun.

Lemma matched_ext {T} np (Q Q' : nat -> list (action T)) k : (forall p, Q p = Q' p) ->
  matched np Q k -> matched np Q' k.
Proof.
  intros E Hm. unfold matched in *. destruct Hm as [A|[A|A]]; [left|right; left|right; right].
  - intros p Hp. rewrite <- E. auto.
  - intros p Hp. rewrite <- E. auto.
  - intros p Hp. destruct (A p Hp) as (sb & d & tg & rb & src & rt & E1 & H1 & H2 & E2 & E3).
    exists sb, d, tg, rb, src, rt. rewrite <- !E. auto.
Qed.

Lemma matched_app {T} np (Q1 Q2 : nat -> list (action T)) n1 n2 :
  (forall p, length (Q1 p) = n1) ->
  (forall k, k < n1 -> matched np Q1 k) -> (forall k, k < n2 -> matched np Q2 k) ->
  forall k, k < n1 + n2 -> matched np (fun p => Q1 p ++ Q2 p) k.
Proof.
  intros Hl M1 M2 k Hk. destruct (lt_dec k n1) as [L|L].
  - assert (E : forall p, nth_error (Q1 p ++ Q2 p) k = nth_error (Q1 p) k).
    { intros p. apply nth_error_app1. rewrite Hl. auto. }
    destruct (M1 k L) as [A|[A|A]]; [left|right; left|right; right].
    + intros p Hp. rewrite E. auto.
    + intros p Hp. rewrite E. auto.
    + intros p Hp. destruct (A p Hp) as (sb & d & tg & rb & src & rt & E1 & H1 & H2 & E2 & E3).
      exists sb, d, tg, rb, src, rt. rewrite !E. auto.
  - assert (E : forall p, nth_error (Q1 p ++ Q2 p) k = nth_error (Q2 p) (k - n1)).
    { intros p. rewrite nth_error_app2; rewrite Hl; auto. lia. }
    destruct (M2 (k - n1)) as [A|[A|A]]; [lia|left|right; left|right; right].
    + intros p Hp. rewrite E. auto.
    + intros p Hp. rewrite E. auto.
    + intros p Hp. destruct (A p Hp) as (sb & d & tg & rb & src & rt & E1 & H1 & H2 & E2 & E3).
      exists sb, d, tg, rb, src, rt. rewrite !E. auto.
Qed.

Lemma matched_computes {T} np (Ks : list (list (prog T))) k : k < length Ks ->
  matched np (fun _ => map Compute Ks) k.
Proof.
  intros Hk. left. intros p Hp. rewrite nth_error_map.
  destruct (nth_error Ks k) eqn:E; [eexists; reflexivity|].
  apply nth_error_None in E. lia.
Qed.

(** Kernels that stay inside the arrays can always run. *)
Lemma in_foot_runnable {T} inb np (P : nat -> list (action T)) eager M :
  (forall p K, p < np -> In (Compute K) (P p) -> Forall (in_foot inb) K) ->
  runnable inb np P eager M.
Proof.
  intros HF c w p K _ Hp E. apply nth_error_In in E.
  destruct (in_foot_execs inb [K] (mem w p)) as (s' & X).
  { constructor; [|constructor]. eauto. }
  inversion X as [|? ? s1 ? ? X1 X2]; subst. inversion X2; subst. eauto.
Qed.

Theorem async_lockrun {T} inb np (P : nat -> list (action T)) n :
  (forall p, p < np -> length (P p) = n) -> (forall k, k < n -> matched np P k) ->
  forall eager c M w, msteps inb np P eager c (start M) w -> finished np P w ->
  lockrun inb np P n M (mem w).
Proof.
  intros Hl Hm eager c M w Hs Hf.
  destruct (async_lockstep inb np P n Hl Hm eager c M w Hs Hf) as (H & H0 & Hr & He).
  exists H. auto.
Qed.
