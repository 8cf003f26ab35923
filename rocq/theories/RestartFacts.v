(** * Two runs of the main loop that differ by their past

    Run [P] has already done [p] iterations and written the files [old] where run
    [P2] has done [q] and written [old2]; from there on they do the same. *)
From Coq Require Import ZArith List Bool Lia ZifyBool.
Import ListNotations.
From Verif Require Import Num Exec Grid Driver DriverFacts.
Local Open Scope Z_scope.

Section Shift.
Context {T : Type} {N : Num T} {M D M2 D2 : Type}.
Variable P : machine T M D.
Variable P2 : machine T M2 D2.
Variable c : config (T := T).
Variables p q : nat.
Variable old : list (file (T := T) (D := D)).
Variable old2 : list (file (T := T) (D := D2)).
Variable Rel : nat -> M -> M2 -> Prop.
Variable Rel' : nat -> M -> M2 -> Prop.
Variable DR : D -> D2 -> Prop.
Hypothesis Hbefore : forall n a a' b, Rel n a b -> before P (p + n) a a' ->
  exists b', before P2 (q + n) b b' /\ Rel' n a' b'.
Hypothesis Hdt : forall n a b d, Rel' n a b -> local_dt P (p + n) a d -> local_dt P2 (q + n) b d.
Hypothesis Hafter : forall dt n a a' b, Rel' n a b -> after P dt (p + n) a a' ->
  exists b', after P2 dt (q + n) b b' /\ Rel (S n) a' b'.
Hypothesis Hcur : forall n a b, Rel n a b -> DR (current P (p + n) a) (current P2 (q + n) b).

Implicit Types s : sol (T := T) (M := M) (D := D).
Implicit Types z : sol (T := T) (M := M2) (D := D2).

(** Same time, files after the old ones and memory; iteration numbers [p + n] and [q + n]. *)
Definition like (n : nat) s z : Prop :=
  s_it s = (p + n)%nat /\ s_it z = (q + n)%nat /\ s_t s = s_t z /\ s_saved s = s_saved z /\
  (exists new new2, s_files s = old ++ new /\ s_files z = old2 ++ new2 /\ Forall2 (same_file DR) new new2) /\
  Rel n (s_mem s) (s_mem z).

(** ... and the same time step. *)
Definition same_later (n : nat) s z : Prop := like n s z /\ s_dt s = s_dt z.

Lemma like_save n s z : like n s z -> like n (save P s) (save P2 z).
Proof.
  intros (A & B & C & E & (new & new2 & F1 & F2 & F3) & G). unfold like, save; simpl.
  repeat split; auto; try congruence.
  eexists (new ++ [_]), (new2 ++ [_]). rewrite !app_assoc, <- F1, <- F2. split; [reflexivity|]. split; [reflexivity|].
  apply Forall2_app; auto. constructor; [|constructor]. repeat split; simpl; auto.
  rewrite A, B. auto.
Qed.

Lemma like_maybe n s z : like n s z -> like n (maybe_save P c s) (maybe_save P2 c z).
Proof.
  intros HL. unfold maybe_save.
  assert (E : should_save c s = should_save c z).
  { destruct HL as (_ & _ & A & B & _). unfold should_save. rewrite A, B. reflexivity. }
  rewrite E. destruct (_ && _); auto using like_save.
Qed.

(** The part of an iteration after the output. *)
Definition advance {M0 D0} (P0 : machine T M0 D0) (s s' : sol (T := T) (M := M0) (D := D0)) : Prop :=
  c_nlog c <> 0 /\ exists m1 d m2,
    before P0 (s_it s) (s_mem s) m1 /\ local_dt P0 (s_it s) m1 d /\
    after P0 (clamp c (s_t s) d) (s_it s) m1 m2 /\
    s' = mksol (nadd (s_t s) (clamp c (s_t s) d)) (clamp c (s_t s) d) (S (s_it s)) (s_saved s) (s_files s) m2.

Lemma next_advance {M0 D0} (P0 : machine T M0 D0) (s s' : sol (T := T) (M := M0) (D := D0)) : next P0 c s s' <-> advance P0 (maybe_save P0 c s) s'.
Proof. unfold next, advance. reflexivity. Qed.

Lemma like_advance n s s' z : like n s z -> advance P s s' ->
  exists z', advance P2 z z' /\ same_later (S n) s' z'.
Proof.
  intros (A & B & C & E & F & G) (Hlog & m1 & d & m2 & HB & HD & HA & ->).
  rewrite A in *. destruct (Hbefore _ _ _ _ G HB) as (b1 & HB2 & G1).
  destruct (Hafter _ _ _ _ _ G1 HA) as (b2 & HA2 & G2).
  eexists. split.
  - split; [exact Hlog|]. exists b1, d, b2. rewrite B, <- C. split; [exact HB2|].
    split; [eapply Hdt; eauto|]. split; [exact HA2|reflexivity].
  - unfold same_later, like; cbn [s_t s_dt s_it s_saved s_files s_mem]. repeat split; auto; try congruence; lia.
Qed.

Lemma like_finished n s z : like n s z -> Z.of_nat (p + n) < c_nStepmax c -> Z.of_nat (q + n) < c_nStepmax c ->
  finished c s = finished c z.
Proof.
  intros (A & B & C & _) H1 H2. unfold finished. rewrite A, B, C.
  replace (c_nStepmax c <=? Z.of_nat (p + n)) with false by lia.
  replace (c_nStepmax c <=? Z.of_nat (q + n)) with false by lia. reflexivity.
Qed.

(** States [s], [s1], ... and [z], [z1], ... are alike one by one. *)
Fixpoint all_later (n : nat) (l : list (sol (T := T) (M := M) (D := D))) (l2 : list (sol (T := T) (M := M2) (D := D2))) : Prop :=
  match l, l2 with
  | [], [] => True
  | s :: l, z :: l2 => same_later n s z /\ all_later (S n) l l2
  | _, _ => False
  end.

Lemma later_loop s tr s' : loop P c s tr s' -> forall n z, same_later n s z ->
  Z.of_nat (s_it s') < c_nStepmax c -> Z.of_nat (q + (s_it s' - p)) < c_nStepmax c ->
  exists ztr z', loop P2 c z ztr z' /\ all_later n tr ztr /\ same_later (s_it s' - p) s' z'.
Proof.
  intros HL. induction HL as [s Hf|s s1 tr s' Hf Hn Hl IH]; intros n z HS H1 H2.
  - pose proof HS as ((A & B & _) & _). rewrite A in *. replace (p + n - p)%nat with n in * by lia.
    exists [z], z. split; [constructor; rewrite <- (like_finished n s z); auto; apply HS|].
    split; [cbn; auto|exact HS].
  - pose proof HS as ((A & B & _) & _).
    destruct (loop_it P c _ _ _ Hl) as (I1 & _). pose proof (next_it P c _ _ Hn) as I2.
    apply next_advance in Hn. destruct (like_advance n _ _ (maybe_save P2 c z) (like_maybe _ _ _ (proj1 HS)) Hn) as (z1 & Hz & HS1).
    destruct (IH (S n) z1 HS1 H1 H2) as (ztr & z' & L1 & L2 & L3).
    exists (z :: ztr), z'. split; [|split; [cbn; auto|exact L3]].
    econstructor; [|apply next_advance; exact Hz|exact L1].
    rewrite <- (like_finished n s z); [auto|apply HS|lia|lia].
Qed.

Lemma later_main_save n s z : same_later n s z -> same_later n (main_save P c s) (main_save P2 c z).
Proof.
  intros [HL E]. unfold main_save. destruct (_ =? _); [split; auto|]. split; [apply like_save; auto|exact E].
Qed.

End Shift.

Lemma all_later_flip {T M D M2 D2} p q old old2 (Rel : nat -> M -> M2 -> Prop) (Rel2 : nat -> M2 -> M -> Prop) (DR : D -> D2 -> Prop) (DR2 : D2 -> D -> Prop) :
  (forall n (a : M) (b : M2), Rel n a b -> Rel2 n b a) -> (forall a b, DR a b -> DR2 b a) ->
  forall (l : list (sol (T := T) (M := M) (D := D))) l2 n,
  all_later p q old old2 Rel DR n l l2 -> all_later q p old2 old Rel2 DR2 n l2 l.
Proof.
  intros HR HD. assert (HF : forall f f2, same_file (T := T) DR f f2 -> same_file DR2 f2 f).
  { intros f f2 (A & B & C). repeat split; auto. }
  assert (HFs : forall n n2, Forall2 (same_file (T := T) DR) n n2 -> Forall2 (same_file DR2) n2 n) by (induction 1; auto).
  induction l as [|s l IH]; intros [|z l2] n H; cbn in *; auto.
  destruct H as [((A & B & C & E & (new & new2 & F1 & F2 & F3) & G) & I) H]. split; [|apply IH; auto].
  split; [|auto]. repeat split; auto. exists new2, new. auto.
Qed.

Lemma same_later_flip {T M D M2 D2} p q old old2 (Rel : nat -> M -> M2 -> Prop) (Rel2 : nat -> M2 -> M -> Prop) (DR : D -> D2 -> Prop) (DR2 : D2 -> D -> Prop) :
  (forall n (a : M) (b : M2), Rel n a b -> Rel2 n b a) -> (forall a b, DR a b -> DR2 b a) ->
  forall n (s : sol (T := T) (M := M) (D := D)) z,
  same_later p q old old2 Rel DR n s z -> same_later q p old2 old Rel2 DR2 n z s.
Proof.
  intros HR HD n s z H. apply (all_later_flip p q old old2 Rel Rel2 DR DR2 HR HD [s] [z] n). cbn. auto.
Qed.

(** ** Solvers whose steps depend on their memory only through what it represents

    [rep n a u]: at iteration [n] the memory [a] represents the state [u];
    [rep' n a u]: the same when the time step is computed. *)
Record represented {T M D E} (P : machine T M D) (rep rep' : nat -> M -> E -> Prop)
    (dtI : E -> T -> Prop) (stepI : T -> E -> E) (DR : D -> D -> Prop) : Prop := mkrepresented {
  r_before : forall n a u, rep n a u -> (exists a', before P n a a') /\ forall a', before P n a a' -> rep' n a' u;
  r_dt : forall n a u d, rep' n a u -> (local_dt P n a d <-> dtI u d);
  r_after : forall dt n a u, rep' n a u ->
    (exists a', after P dt n a a') /\ forall a', after P dt n a a' -> rep (S n) a' (stepI dt u);
  r_cur : forall n n2 a b u, rep n a u -> rep n2 b u -> DR (current P n a) (current P n2 b);
  r_sym : forall a b, DR a b -> DR b a
}.

Section Resume.
Context {T : Type} {N : Num T} {M D E : Type}.
Variable P : machine T M D.
Variable c : config (T := T).
Variables rep rep' : nat -> M -> E -> Prop.
Variable dtI : E -> T -> Prop.
Variable stepI : T -> E -> E.
Variable DR : D -> D -> Prop.
Hypothesis HP : represented P rep rep' dtI stepI DR.
Implicit Types s x z : sol (T := T) (M := M) (D := D).

Definition both_rep (r : nat -> M -> E -> Prop) (p q n : nat) (a b : M) : Prop :=
  exists u, r (p + n)%nat a u /\ r (q + n)%nat b u.

Section Offsets.
Variables p q : nat.
Lemma off_before n a a' b : both_rep rep p q n a b -> before P (p + n) a a' ->
  exists b', before P (q + n) b b' /\ both_rep rep' p q n a' b'.
Proof.
  intros (u & A & B) H. destruct (r_before _ _ _ _ _ _ HP _ _ _ A) as [_ A']. destruct (r_before _ _ _ _ _ _ HP _ _ _ B) as [[b' Hb] B'].
  exists b'. split; auto. exists u. auto.
Qed.
Lemma off_dt n a b d : both_rep rep' p q n a b -> local_dt P (p + n) a d -> local_dt P (q + n) b d.
Proof.
  intros (u & A & B) H. apply (r_dt _ _ _ _ _ _ HP _ _ _ _ B). apply (r_dt _ _ _ _ _ _ HP _ _ _ _ A). auto.
Qed.
Lemma off_after dt n a a' b : both_rep rep' p q n a b -> after P dt (p + n) a a' ->
  exists b', after P dt (q + n) b b' /\ both_rep rep p q (S n) a' b'.
Proof.
  intros (u & A & B) H. destruct (r_after _ _ _ _ _ _ HP dt _ _ _ A) as [_ A'].
  destruct (r_after _ _ _ _ _ _ HP dt _ _ _ B) as [[b' Hb] B'].
  exists b'. split; auto. exists (stepI dt u). rewrite <- !plus_n_Sm. auto.
Qed.
Lemma off_cur n a b : both_rep rep p q n a b -> DR (current P (p + n) a) (current P (q + n) b).
Proof. intros (u & A & B). eapply (r_cur _ _ _ _ _ _ HP); eauto. Qed.
End Offsets.

(** The uninterrupted run is at the loop head in state [x] and writes a file;
    [z] is the state of the program restarted from that file. *)
Section From.
Variables x z : sol (T := T) (M := M) (D := D).
Hypothesis Hunf : finished c x = false.
Hypothesis Hsave : saves c x = true.
Hypothesis Hquiet : should_save c (save P x) = false.
Hypothesis Hz : s_t z = s_t x /\ s_it z = O /\ s_saved z = s_saved x /\ s_files z = [].
Hypothesis Hrep : both_rep rep (s_it x) O O (s_mem x) (s_mem z).

Lemma from_like : like (s_it x) O (s_files x) [] (both_rep rep (s_it x) O) DR O (save P x) (save P z).
Proof.
  apply like_save.
  - intros n a b. apply off_cur.
  - destruct Hz as (A & B & C & F). repeat split; auto. exists [], []. rewrite app_nil_r. auto.
Qed.

Lemma from_maybe : maybe_save P c x = save P x.
Proof. unfold maybe_save. unfold saves in Hsave. rewrite Hsave. reflexivity. Qed.
Lemma from_maybe_z : maybe_save P c (save P z) = save P z.
Proof.
  unfold maybe_save. replace (should_save c (save P z)) with (should_save c (save P x)).
  - rewrite Hquiet, andb_false_r. reflexivity.
  - destruct Hz as (A & _ & C & _). unfold should_save, save; cbn [s_t s_saved]. rewrite A, C. reflexivity.
Qed.
Lemma from_main_save : main_save P c z = save P z.
Proof.
  unfold main_save. unfold saves, enable_output in Hsave. destruct (c_nOutput c =? 0); auto. discriminate.
Qed.
Lemma from_time : nleb (nsub (c_tEnd c) eps_end) (s_t x) = false.
Proof. unfold finished in Hunf. apply orb_false_elim in Hunf. tauto. Qed.

Lemma resume_forward tr s1 : loop P c x tr s1 -> Z.of_nat (s_it s1) < c_nStepmax c ->
  exists ztr z1, loop P c (main_save P c z) (main_save P c z :: ztr) z1 /\
    all_later (s_it x) O (s_files x) [] (both_rep rep (s_it x) O) DR 1 (tl tr) ztr /\
    same_later (s_it x) O (s_files x) [] (both_rep rep (s_it x) O) DR (s_it s1 - s_it x) s1 z1.
Proof.
  intros HL Hlim. rewrite from_main_save. inversion HL as [? Hf|? x1 tr' ? Hf Hn HL']; subst; [congruence|]. cbn [tl].
  destruct (loop_it P c _ _ _ HL') as (I1 & _). pose proof (next_it P c _ _ Hn) as I2.
  apply (proj1 (next_advance c P _ _)) in Hn. rewrite from_maybe in Hn.
  destruct (like_advance P P c (s_it x) O (s_files x) [] (both_rep rep (s_it x) O) (both_rep rep' (s_it x) O) DR
              (off_before _ _) (off_dt _ _) (off_after _ _) _ _ _ _ from_like Hn) as (z1 & Hz1 & HS1).
  destruct (later_loop P P c (s_it x) O (s_files x) [] (both_rep rep (s_it x) O) (both_rep rep' (s_it x) O) DR
              (off_before _ _) (off_dt _ _) (off_after _ _) (off_cur _ _) _ _ _ HL' 1%nat z1 HS1 Hlim ltac:(lia))
    as (ztr & z' & L1 & L2 & L3).
  exists ztr, z'. split; [|auto]. econstructor; [|apply (proj2 (next_advance c P _ _)); rewrite from_maybe_z; exact Hz1|exact L1].
  unfold finished, save; cbn [s_t s_it]. destruct Hz as (A & B & _). rewrite A, B, from_time. cbn [orb]. lia.
Qed.

Lemma resume_backward ztr z1 : loop P c (main_save P c z) ztr z1 -> Z.of_nat (s_it x + s_it z1) < c_nStepmax c ->
  exists tr s1, loop P c x (x :: tr) s1 /\
    all_later (s_it x) O (s_files x) [] (both_rep rep (s_it x) O) DR 1 tr (tl ztr) /\
    same_later (s_it x) O (s_files x) [] (both_rep rep (s_it x) O) DR (s_it z1) s1 z1.
Proof.
  intros HL Hlim. rewrite from_main_save in HL.
  assert (Hfz : finished c (save P z) = false).
  { unfold finished, save; cbn [s_t s_it]. destruct Hz as (A & B & _). rewrite A, B, from_time. cbn [orb]. lia. }
  inversion HL as [? Hf|? y1 tr' ? Hf Hn HL']; subst; [congruence|]. cbn [tl].
  destruct (loop_it P c _ _ _ HL') as (I1 & _). pose proof (next_it P c _ _ Hn) as I2.
  apply (proj1 (next_advance c P _ _)) in Hn. rewrite from_maybe_z in Hn.
  assert (Hlk : like O (s_it x) [] (s_files x) (both_rep rep O (s_it x)) (fun a b => DR a b) O (save P z) (save P x)).
  { apply like_save; [intros n a b; apply off_cur|].
    destruct Hz as (A & B & C & F). repeat split; auto.
    - exists [], []. rewrite !app_nil_r. auto.
    - destruct Hrep as (u & R1 & R2). exists u. auto. }
  destruct (like_advance P P c O (s_it x) [] (s_files x) (both_rep rep O (s_it x)) (both_rep rep' O (s_it x)) DR
              (off_before _ _) (off_dt _ _) (off_after _ _) _ _ _ _ Hlk Hn) as (x1 & Hx1 & HS1).
  destruct (later_loop P P c O (s_it x) [] (s_files x) (both_rep rep O (s_it x)) (both_rep rep' O (s_it x)) DR
              (off_before _ _) (off_dt _ _) (off_after _ _) (off_cur _ _) _ _ _ HL' 1%nat x1 HS1 ltac:(lia) ltac:(lia))
    as (tr & s' & L1 & L2 & L3).
  rewrite Nat.sub_0_r in L3.
  assert (Hflip : forall n a b, both_rep rep O (s_it x) n a b -> both_rep rep (s_it x) O n b a).
  { intros n a b (u & R1 & R2). exists u. auto. }
  exists tr, s'. split; [|split].
  - econstructor; [exact Hunf|apply (proj2 (next_advance c P _ _)); rewrite from_maybe; exact Hx1|exact L1].
  - revert L2. apply all_later_flip; [exact Hflip|apply (r_sym _ _ _ _ _ _ HP)].
  - revert L3. apply same_later_flip; [exact Hflip|apply (r_sym _ _ _ _ _ _ HP)].
Qed.

End From.
End Resume.
