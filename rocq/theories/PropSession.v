(** * C65: MPI and Kokkos are started and ended once, in a legal order *)
From Coq Require Import List Bool Arith Lia.
Import ListNotations.
From Verif Require Import Session.

Definition at_start : lib := mklib false false 0 [] 0.

(** While an environment lives: MPI runs, Kokkos runs, and the communicators alive are
    those of the caller and the one the environment owns. *)
Record alive (base : list nat) (e : env) (l : lib) : Prop := {
  a_on : mpi_on l = true;
  a_off : mpi_off l = false;
  a_kokkos : kokkos l = 1;
  a_base : Forall (fun c => c < made l) base;
  a_comm : match e_comm e with
           | (World, false) => living l = base
           | (Made n, true) => living l = n :: base /\ n < made l /\ ~ In n base
           | _ => False
           end
}.

Lemma drop_head n base : ~ In n base -> filter (fun x => negb (Nat.eqb n x)) (n :: base) = base.
Proof.
  intros Hn. cbn [filter]. rewrite Nat.eqb_refl. cbn [negb].
  induction base as [|b base IH]; cbn [filter]; [reflexivity|].
  destruct (Nat.eqb_spec n b) as [->|]; [exfalso; apply Hn; left; reflexivity|]. cbn [negb]. f_equal. apply IH.
  intros H. apply Hn. right. exact H.
Qed.

Lemma drop_second m n base : m <> n -> ~ In n base -> filter (fun x => negb (Nat.eqb n x)) (m :: n :: base) = m :: base.
Proof.
  intros Hm Hn. change (m :: n :: base) with ([m] ++ n :: base). rewrite filter_app, drop_head by exact Hn.
  cbn [filter app]. destruct (Nat.eqb_spec n m) as [->|]; [contradiction|reflexivity].
Qed.

Lemma alive_use base e l u : alive base e l ->
  exists e' l', env_use u e l = Some (e', l') /\ alive base e' l' /\ e_session e' = e_session e.
Proof.
  intros [H1 H2 H3 H4 H5]. destruct l as [on off ko lv md], e as [i [c o]]. cbn in H1, H2, H3, H4, H5 |- *. subst on off ko.
  assert (Hmd : ~ In md base).
  { intros H. rewrite Forall_forall in H4. apply H4 in H. lia. }
  assert (H4' : Forall (fun c => c < S md) base) by (eapply Forall_impl; [|exact H4]; cbn; lia).
  destruct u.
  - unfold env_use, comm_create, comm_use, usable, running. cbn. rewrite Nat.eqb_refl. cbn.
    destruct c as [|n], o; try contradiction; cbn.
    + subst lv. do 2 eexists. split; [reflexivity|]. split; [|reflexivity].
      constructor; cbn; auto.
    + destruct H5 as (-> & Hn & Hb). unfold comm_release, usable, running. cbn.
      rewrite Nat.eqb_refl, orb_true_r. cbn [bind].
      do 2 eexists. split; [reflexivity|]. split; [|reflexivity].
      constructor; cbn [mpi_on mpi_off kokkos living made e_comm]; auto.
      assert (E : md <> n) by lia. apply (drop_second md n base) in E; [|exact Hb].
      cbn [filter] in E. rewrite Nat.eqb_refl in E.
      split; [exact E|]. split; [lia|exact Hmd].
  - unfold env_use, comm_use, usable, running. cbn.
    destruct c as [|n], o; try contradiction; cbn.
    + do 2 eexists. split; [reflexivity|]. split; [|reflexivity]. constructor; cbn; auto.
    + destruct H5 as (-> & Hn & Hb). cbn. rewrite Nat.eqb_refl. cbn.
      do 2 eexists. split; [reflexivity|]. split; [|reflexivity]. constructor; cbn; auto.
Qed.

Lemma alive_uses base us : forall e l, alive base e l ->
  exists e' l', env_uses us e l = Some (e', l') /\ alive base e' l' /\ e_session e' = e_session e.
Proof.
  induction us as [|u us IH]; intros e l Ha; cbn [env_uses].
  - exists e, l. auto.
  - destruct (alive_use base e l u Ha) as (e1 & l1 & -> & H1 & H2). cbn [bind].
    destruct (IH e1 l1 H1) as (e2 & l2 & -> & H3 & H4). exists e2, l2. split; [reflexivity|]. split; [exact H3|congruence].
Qed.

Lemma alive_end base e l : alive base e l ->
  exists n, env_end e l = Some (mklib true (e_session e) 2 base n).
Proof.
  intros [H1 H2 H3 H4 H5]. destruct l as [on off ko lv md], e as [i [c o]]. cbn in H1, H2, H3, H4, H5 |- *. subst on off ko.
  unfold env_end, kokkos_finalize. cbn. destruct c as [|n], o; try contradiction; cbn.
  - subst lv. exists md. unfold session_end, mpi_finalize, running. destruct i; reflexivity.
  - destruct H5 as (-> & Hn & Hb). unfold comm_release, usable, running. cbn. rewrite Nat.eqb_refl. cbn [negb orb bind].
    exists md. pose proof (drop_head n base Hb) as E. cbn [filter] in E. rewrite Nat.eqb_refl in E. cbn [negb] in E.
    rewrite E. unfold session_end, mpi_finalize, running. destruct i; reflexivity.
Qed.

(** The program by itself, whatever it does with its environment and in whichever order
    the libraries start: no call is illegal, MPI and Kokkos are ended, and every communicator
    has been freed. *)
Theorem C65_standalone : forall (first : bool) (us : list use),
  exists n, standalone first us at_start = Some (mklib true true 2 [] n).
Proof.
  intros first us. unfold standalone.
  assert (E : env_make first at_start = Some (mkenv true (World, false), mklib true false 1 [] 0)) by (destruct first; reflexivity).
  rewrite E. cbn [bind].
  destruct (alive_uses [] us (mkenv true (World, false)) (mklib true false 1 [] 0)) as (e & l & -> & Ha & Hs).
  { constructor; cbn; auto. }
  cbn [bind]. destruct (alive_end [] e l Ha) as [n H]. exists n. rewrite H, Hs. reflexivity.
Qed.
Print Assumptions C65_standalone.

(** Inside a program that has started MPI and hands over one of its communicators: no
    call is illegal, MPI keeps running, and the communicators alive are the same as before. *)
Theorem C65_library : forall (c : comm) (us : list use) (l : lib),
  mpi_on l = true -> mpi_off l = false -> kokkos l = 0 -> Forall (fun x => x < made l) (living l) ->
  match c with World => True | Made n => In n (living l) end ->
  exists n, as_library c us l = Some (mklib true false 2 (living l) n).
Proof.
  intros c us [on off ko lv md] H1 H2 H3 H4 H5. cbn in H1, H2, H3, H4, H5. subst on off ko. cbn [living].
  unfold as_library.
  assert (E : env_make_from c (mklib true false 0 lv md) =
              Some (mkenv false (Made md, true), mklib true false 1 (md :: lv) (S md))).
  { unfold env_make_from, session_make, comm_create, usable, running. cbn.
    assert (U : match c with World => true | Made n => existsb (Nat.eqb n) lv end = true).
    { destruct c as [|n]; [reflexivity|]. apply existsb_exists. exists n. split; [exact H5|apply Nat.eqb_refl]. }
    rewrite U. cbn. unfold comm_use, usable, running. cbn. rewrite Nat.eqb_refl. reflexivity. }
  rewrite E. cbn [bind].
  destruct (alive_uses lv us (mkenv false (Made md, true)) (mklib true false 1 (md :: lv) (S md))) as (e & l & -> & Ha & Hs).
  { constructor; cbn; auto.
    - eapply Forall_impl; [|exact H4]. cbn. lia.
    - split; [reflexivity|]. split; [lia|]. intros H. rewrite Forall_forall in H4. apply H4 in H. lia. }
  cbn [bind]. destruct (alive_end lv e l Ha) as [n H]. exists n. rewrite H, Hs. reflexivity.
Qed.
Print Assumptions C65_library.

(** Sessions may be nested to any depth: the outermost one starts and ends MPI, and MPI
    runs until then; inside a program that started MPI none of them ends it. *)
Theorem C65_nested : forall (depth : nat) (l : lib),
  mpi_off l = false ->
  nested (S depth) l = Some (mklib true (negb (mpi_on l)) (kokkos l) (living l) (made l)).
Proof.
  assert (K : forall d l, mpi_on l = true -> mpi_off l = false -> nested d l = Some l).
  { induction d as [|d IH]; intros l H1 H2; cbn [nested].
    - unfold comm_use, usable, running. rewrite H1, H2. reflexivity.
    - unfold session_make. rewrite H1. cbn [bind]. rewrite (IH l H1 H2). cbn [bind].
      unfold comm_use, usable, running. rewrite H1, H2. reflexivity. }
  intros depth [on off ko lv md] H. cbn in H. subst off. cbn [nested].
  destruct on; cbn [session_make mpi_on mpi_init bind mpi_off]; rewrite K by reflexivity; reflexivity.
Qed.
Print Assumptions C65_nested.

(** An environment cannot be made a second time: MPI_Initialized is still true after
    MPI_Finalize, so MPI is taken to be running. *)
Theorem C65_second_refuted : forall (first first' : bool) (us us' : list use) (l : lib),
  standalone first us at_start = Some l ->
  standalone first' us' l = None /\
  session_make l = Some (false, l) /\ comm_use World l = None.
Proof.
  intros first first' us us' l H. destruct (C65_standalone first us) as [n E]. rewrite E in H. injection H as <-.
  destruct first'; repeat split; reflexivity.
Qed.
Print Assumptions C65_second_refuted.

(** Two topologies one after the other; a caller with two communicators. *)
Example C65_case :
  standalone true [Talk; Topology; Talk; Topology; Talk] at_start = Some (mklib true true 2 [] 2) /\
  as_library (Made 1) [Talk; Topology] (mklib true false 0 [1; 0] 2) = Some (mklib true false 2 [1; 0] 4) /\
  nested 3 at_start = Some (mklib true true 0 [] 0).
Proof. repeat split. Qed.
