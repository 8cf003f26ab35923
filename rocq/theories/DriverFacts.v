(** * Facts about the main loop *)
From Coq Require Import ZArith List Bool Lia ZifyBool Reals Lra Sorted.
Import ListNotations.
From Verif Require Import Num Exec Grid Driver.
Local Open Scope Z_scope.

Section Facts.
Context {T : Type} {N : Num T} {M D : Type}.
Variable P : machine T M D.
Variable c : config (T := T).
Implicit Types s x : sol (T := T) (M := M) (D := D).

Lemma maybe_save_same s :
  s_t (maybe_save P c s) = s_t s /\ s_it (maybe_save P c s) = s_it s /\ s_mem (maybe_save P c s) = s_mem s.
Proof. unfold maybe_save. destruct (_ && _); auto. Qed.
Lemma main_save_same s :
  s_t (main_save P c s) = s_t s /\ s_it (main_save P c s) = s_it s /\ s_mem (main_save P c s) = s_mem s.
Proof. unfold main_save. destruct (_ =? _); auto. Qed.

Lemma next_it s s' : next P c s s' -> s_it s' = S (s_it s).
Proof.
  intros (_ & m1 & d & m2 & _ & _ & _ & ->). destruct (maybe_save_same s) as (_ & E & _). simpl. congruence.
Qed.

Lemma loop_head s tr s' : loop P c s tr s' -> exists tl, tr = s :: tl.
Proof. inversion 1; eauto. Qed.

(** Iterations are counted. *)
Lemma loop_it s tr s' : loop P c s tr s' ->
  s_it s' = (s_it s + (length tr - 1))%nat /\ (1 <= length tr)%nat /\
  (forall k x, (k < length tr)%nat -> s_it (nth k tr x) = (s_it s + k)%nat) /\ forall x, last tr x = s'.
Proof.
  induction 1 as [s Hf|s s1 tr s' Hf Hn Hl IH].
  - simpl. split; [lia|]. split; [lia|]. split; auto. intros k x Hk. assert (k = 0)%nat by lia. subst. lia.
  - pose proof (next_it _ _ Hn) as E. destruct IH as (A & B & C & L). simpl length.
    split; [lia|]. split; [lia|]. split.
    + intros [|k] x Hk; simpl; [lia|]. rewrite C by lia. lia.
    + intros x. destruct (loop_head _ _ _ Hl) as [tl Etl]. subst tr. exact (L x).
Qed.

Lemma loop_finished s tr s' : loop P c s tr s' -> finished c s' = true.
Proof. induction 1; auto. Qed.

Lemma loop_bound s tr s' : loop P c s tr s' ->
  Z.of_nat (s_it s') <= Z.max (Z.of_nat (s_it s)) (c_nStepmax c).
Proof.
  induction 1 as [s Hf|s s1 tr s' Hf Hn Hl IH]; [lia|].
  pose proof (next_it _ _ Hn) as E. unfold finished in Hf. lia.
Qed.

(** Consecutive states of the trace are related by [next]. *)
Lemma loop_next s tr s' : loop P c s tr s' ->
  forall k x, (S k < length tr)%nat ->
  finished c (nth k tr x) = false /\ next P c (nth k tr x) (nth (S k) tr x).
Proof.
  induction 1 as [s Hf|s s1 tr s' Hf Hn Hl IH]; intros k x Hk.
  - simpl in Hk. lia.
  - destruct k as [|k].
    + simpl. split; auto. destruct (loop_head _ _ _ Hl) as [tl ->]. simpl. auto.
    + apply (IH k x). simpl in Hk. lia.
Qed.

(** ** Files *)

(** The file that [save] writes in state [s]. *)
Definition shot s : file := mkfile (s_saved s) (s_t s) (current P (s_it s) (s_mem s)).

Definition saves s : bool := enable_output c && should_save c s.

Lemma next_files s s' : next P c s s' ->
  s_files s' = s_files s ++ (if saves s then [shot s] else []) /\
  s_saved s' = s_saved s + (if saves s then 1 else 0).
Proof.
  intros (_ & m1 & d & m2 & _ & _ & _ & ->). unfold maybe_save, saves. simpl.
  destruct (_ && _); simpl; rewrite ?app_nil_r, ?Z.add_0_r; auto.
Qed.

Lemma loop_files s tr s' : loop P c s tr s' ->
  s_files s' = s_files s ++ map shot (filter saves (removelast tr)) /\
  s_saved s' = s_saved s + Z.of_nat (length (filter saves (removelast tr))) /\
  map (fun x => f_number (shot x)) (filter saves (removelast tr)) =
    map (fun k => s_saved s + Z.of_nat k) (seq 0 (length (filter saves (removelast tr)))).
Proof.
  induction 1 as [s Hf|s s1 tr s' Hf Hn Hl IH].
  - simpl. rewrite app_nil_r. repeat split. lia.
  - destruct (next_files _ _ Hn) as [E1 E2]. destruct IH as (A & B & C).
    destruct (loop_head _ _ _ Hl) as [tl Etl].
    assert (ER : removelast (s :: tr) = s :: removelast tr) by (rewrite Etl; reflexivity).
    rewrite ER. cbn [filter]. destruct (saves s) eqn:ES.
    + cbn [map length]. split; [|split].
      * rewrite A, E1, <- app_assoc. reflexivity.
      * rewrite B, E2. lia.
      * cbn [seq map]. rewrite C, E2. f_equal; [simpl; lia|].
        rewrite <- seq_shift, map_map. apply map_ext. intros. lia.
    + split; [|split].
      * rewrite A, E1, app_nil_r. reflexivity.
      * rewrite B, E2. lia.
      * rewrite C, E2. apply map_ext. intros. lia.
Qed.

(** ** Simulation by another machine *)
Section Sim.
Context {M2 D2 : Type}.
Variable P2 : machine T M2 D2.
Variable Rel : nat -> M -> M2 -> Prop.    (* at the loop head *)
Variable Rel' : nat -> M -> M2 -> Prop.   (* when the time step is computed *)
Variable DR : D -> D2 -> Prop.
Hypothesis Hbefore : forall n a a' b, Rel n a b -> before P n a a' ->
  exists b', before P2 n b b' /\ Rel' n a' b'.
Hypothesis Hdt : forall n a b d, Rel' n a b -> local_dt P n a d -> local_dt P2 n b d.
Hypothesis Hafter : forall dt n a a' b, Rel' n a b -> after P dt n a a' ->
  exists b', after P2 dt n b b' /\ Rel (S n) a' b'.
Hypothesis Hcur : forall n a b, Rel n a b -> DR (current P n a) (current P2 n b).

Definition same_file (f : file (T := T) (D := D)) (f2 : file (T := T) (D := D2)) : Prop :=
  f_number f = f_number f2 /\ f_time f = f_time f2 /\ DR (f_data f) (f_data f2).

Definition same_sol s (z : sol (T := T) (M := M2) (D := D2)) : Prop :=
  s_t s = s_t z /\ s_dt s = s_dt z /\ s_it s = s_it z /\ s_saved s = s_saved z /\
  Forall2 same_file (s_files s) (s_files z) /\ Rel (s_it s) (s_mem s) (s_mem z).

Lemma sim_save s z : same_sol s z -> same_sol (save P s) (save P2 z).
Proof.
  intros (A & B & C & E & F & G). unfold same_sol, save; simpl. repeat split; auto; try congruence.
  apply Forall2_app; auto. constructor; [|constructor]. repeat split; simpl; auto.
  rewrite <- C. auto.
Qed.

Lemma sim_finished s z : same_sol s z -> finished c s = finished c z.
Proof. intros (A & B & C & _). unfold finished. rewrite A, C. reflexivity. Qed.

Lemma sim_maybe s z : same_sol s z -> same_sol (maybe_save P c s) (maybe_save P2 c z).
Proof.
  intros HS. unfold maybe_save.
  assert (E : should_save c s = should_save c z).
  { destruct HS as (A & B & C & E & _). unfold should_save. rewrite A, E. reflexivity. }
  rewrite E. destruct (_ && _); auto using sim_save.
Qed.

Lemma sim_next s s' z : same_sol s z -> next P c s s' -> exists z', next P2 c z z' /\ same_sol s' z'.
Proof.
  intros HS (Hlog & m1 & d & m2 & HB & HD & HA & ->).
  apply sim_maybe in HS. destruct HS as (A & B & C & E & F & G).
  destruct (Hbefore _ _ _ _ G HB) as (b1 & HB2 & G1).
  destruct (Hafter _ _ _ _ _ G1 HA) as (b2 & HA2 & G2).
  eexists. split.
  - split; [exact Hlog|]. exists b1, d, b2. rewrite <- C, <- A. split; [exact HB2|].
    split; [eapply Hdt; eauto|]. split; [exact HA2|reflexivity].
  - repeat split; simpl; auto; try congruence.
Qed.

Lemma sim_loop s tr s' z : same_sol s z -> loop P c s tr s' ->
  exists ztr z', loop P2 c z ztr z' /\ Forall2 same_sol tr ztr /\ same_sol s' z'.
Proof.
  intros HS HL. revert z HS. induction HL as [s Hf|s s1 tr s' Hf Hn Hl IH]; intros z HS.
  - exists [z], z. split; [constructor; rewrite <- (sim_finished _ _ HS); auto|]. split; auto.
  - destruct (sim_next _ _ _ HS Hn) as (z1 & Hz & HS1). destruct (IH z1 HS1) as (ztr & z' & H1 & H2 & H3).
    exists (z :: ztr), z'. split; [econstructor; eauto; rewrite <- (sim_finished _ _ HS); auto|]. auto.
Qed.

Lemma sim_main s tr s' z : same_sol s z -> main P c s tr s' ->
  exists ztr z', main P2 c z ztr z' /\ Forall2 same_sol tr ztr /\ same_sol s' z'.
Proof.
  intros HS (s1 & HL & ->).
  assert (HM : forall s z, same_sol s z -> same_sol (main_save P c s) (main_save P2 c z)).
  { intros. unfold main_save. destruct (_ =? _); auto using sim_save. }
  destruct (sim_loop _ _ _ _ (HM _ _ HS) HL) as (ztr & z1 & A & B & C).
  exists ztr, (main_save P2 c z1). split; [exists z1; auto|]. auto.
Qed.
End Sim.

(** ** Two machines in step *)
Section Both.
Context {M2 D2 : Type}.
Variable P2 : machine T M2 D2.
Variable Rel : nat -> M -> M2 -> Prop.
Variable Rel' : nat -> M -> M2 -> Prop.
Variable DR : D -> D2 -> Prop.
Hypothesis Bbefore : forall n a a' b b', Rel n a b -> before P n a a' -> before P2 n b b' -> Rel' n a' b'.
Hypothesis Bdt : forall n a b d d2, Rel' n a b -> local_dt P n a d -> local_dt P2 n b d2 -> d = d2.
Hypothesis Bafter : forall dt n a a' b b', Rel' n a b -> after P dt n a a' -> after P2 dt n b b' ->
  Rel (S n) a' b'.
Hypothesis Bcur : forall n a b, Rel n a b -> DR (current P n a) (current P2 n b).

Lemma both_next s s' z z' : same_sol Rel DR s z -> next P c s s' -> next P2 c z z' ->
  same_sol Rel DR s' z'.
Proof.
  intros HS (_ & m1 & d & m2 & HB & HD & HA & ->) (_ & q1 & d2 & q2 & HB2 & HD2 & HA2 & ->).
  apply (sim_maybe P2 Rel DR Bcur) in HS. destruct HS as (A & B & C & E & F & G).
  rewrite <- C, <- A in *. pose proof (Bbefore _ _ _ _ _ G HB HB2) as G1.
  pose proof (Bdt _ _ _ _ _ G1 HD HD2) as <-.
  pose proof (Bafter _ _ _ _ _ _ G1 HA HA2) as G2.
  repeat split; simpl; auto.
Qed.

Lemma both_loop s tr s' : loop P c s tr s' -> forall z ztr z', same_sol Rel DR s z -> loop P2 c z ztr z' ->
  Forall2 (same_sol Rel DR) tr ztr /\ same_sol Rel DR s' z'.
Proof.
  intros HL. induction HL as [s Hf|s s1 tr s' Hf Hn Hl IH]; intros z ztr z' HS HZ;
    pose proof (sim_finished Rel DR _ _ HS) as E; inversion HZ; subst; try congruence.
  - auto.
  - destruct (IH _ _ _ (both_next _ _ _ _ HS Hn H0) H1) as [A B]. auto.
Qed.

Lemma both_main s tr s' z ztr z' : same_sol Rel DR s z -> main P c s tr s' -> main P2 c z ztr z' ->
  Forall2 (same_sol Rel DR) tr ztr /\ same_sol Rel DR s' z'.
Proof.
  intros HS (s1 & HL & ->) (z1 & HZ & ->).
  assert (HM : forall s z, same_sol Rel DR s z -> same_sol Rel DR (main_save P c s) (main_save P2 c z)).
  { intros. unfold main_save. destruct (_ =? _); auto using sim_save. }
  destruct (both_loop _ _ _ HL _ _ _ (HM _ _ HS) HZ) as [A B]. auto.
Qed.
End Both.

(** ** Termination *)

(** No infinite sequence of iterations. *)
Lemma no_infinite_run (f : nat -> sol (T := T) (M := M) (D := D)) :
  (forall k, finished c (f k) = false /\ next P c (f k) (f (S k))) -> False.
Proof.
  intros Hf.
  assert (E : forall k, s_it (f k) = (s_it (f O) + k)%nat).
  { induction k; [lia|]. destruct (Hf k) as [_ Hn]. rewrite (next_it _ _ Hn), IHk. lia. }
  destruct (Hf (Z.to_nat (Z.max 0 (c_nStepmax c)))) as [H _]. unfold finished in H. rewrite E in H. lia.
Qed.

(** If no iteration gets stuck the loop terminates. *)
Lemma loop_exists s :
  (forall s, finished c s = false -> exists s', next P c s s') -> exists tr s', loop P c s tr s'.
Proof.
  intros HP. remember (Z.to_nat (c_nStepmax c - Z.of_nat (s_it s))) as k eqn:Ek.
  revert s Ek. induction k as [|k IH]; intros s Ek.
  - exists [s], s. constructor. unfold finished. lia.
  - destruct (finished c s) eqn:Hf; [exists [s], s; constructor; auto|].
    destruct (HP s Hf) as [s1 Hn]. pose proof (next_it _ _ Hn).
    destruct (IH s1 ltac:(lia)) as (tr & s' & HL). exists (s :: tr), s'. econstructor; eauto.
Qed.

End Facts.

(** ** Time, in exact arithmetic *)
Local Open Scope R_scope.
Section Time.
Context {M D : Type}.
Variable P : machine R M D.
Variable c : config (T := R).
Hypothesis Hpos : forall n m m1 d, before P n m m1 -> local_dt P n m1 d -> 0 < d.
Implicit Types s x : sol (T := R) (M := M) (D := D).

Lemma eps_end_pos : 0 < eps_end (T := R).
Proof.
  unfold eps_end, n1; cbn [ndiv nZ Rnum]. apply Rdiv_lt_0_compat; apply IZR_lt; reflexivity.
Qed.

Lemma next_time s s' : next P c s s' -> s_t s < c_tEnd c ->
  exists d, 0 < d /\ s_dt s' = Rmin d (c_tEnd c - s_t s) /\ s_t s' = Rmin (s_t s + d) (c_tEnd c) /\
  s_t s < s_t s' <= c_tEnd c.
Proof.
  intros (_ & m1 & d & m2 & HB & HD & _ & ->) Ht. destruct (maybe_save_same P c s) as (E & _ & _).
  apply (Hpos _ _ _ _ HB) in HD. exists d. split; auto. cbn [s_dt s_t]. rewrite E.
  unfold clamp. cbn [nltb nadd nsub Rnum]. destruct (Rlt_dec _ _); simpl.
  - rewrite !Rmin_right by lra. repeat split; lra.
  - rewrite !Rmin_left by lra. repeat split; lra.
Qed.

Lemma unfinished_time s : finished c s = false -> s_t s < c_tEnd c.
Proof.
  unfold finished. intros H. apply orb_false_elim in H. destruct H as [H _].
  cbn [nleb nsub Rnum] in H. destruct (Rle_dec _ _) in H; [discriminate|].
  pose proof eps_end_pos. unfold eps_end, n1 in *. cbn [ndiv nZ Rnum] in *. lra.
Qed.

Lemma loop_time s tr s' : loop P c s tr s' -> s_t s <= c_tEnd c ->
  (forall x, In x tr -> s_t s <= s_t x <= c_tEnd c) /\ s_t s <= s_t s' <= c_tEnd c.
Proof.
  induction 1 as [s Hf|s s1 tr s' Hf Hn Hl IH]; intros Ht.
  - split; [|lra]. intros x [<-|[]]. lra.
  - destruct (next_time _ _ Hn (unfinished_time _ Hf)) as (d & Hd & _ & _ & B).
    destruct IH as [I1 I2]; [lra|]. split; [|lra].
    intros x [<-|Hx]; [lra|]. specialize (I1 _ Hx). lra.
Qed.

End Time.
