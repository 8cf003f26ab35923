(** * C13-C16: time step, main loop and outputs of the hydro solvers *)
From Coq Require Import String ZArith List Bool Lia ZifyBool Permutation Reals Lra Floats.SpecFloat.
Import ListNotations.
From Verif Require Import Num Exec ExecFacts Grid GridFacts Boundaries BoundariesSpec
  BoundariesFacts BoundariesFill BoundariesNarrow HydroNum Kernels KernelFacts Atomics
  Hydro2D Hydro2DSpec Hydro2DFacts Hydro2DStep Determ Hydro2DRun EulerSpec HydroPhysics
  HydroRiemann PropPhysics Sums Hydro2DLaws Binary64 Doomed PropHydro2D
  Hydro3D Hydro3DSpec Hydro3DFacts Hydro3DStep Hydro3DRun Hydro3DLaws Hydro3DAxes Doomed3 PropHydro3D
  TimeStep TimeStepFacts Driver DriverFacts HydroMachine.
Local Open Scope Z_scope.
Local Notation length := List.length.

(** ** C13 *)

(** The solver state (two buffers, ghosts) at iteration [n] represents [u]. *)
Definition holds2 {T} (m : mesh) (G : field2 T) (n : nat) (s : store T) (u : field2 T) : Prop :=
  same_phys m (field_of (in_array n) s) u /\ forall i j v, s (L2 A_G i j v) = G i j v.
Definition holds3 {T} (m : mesh) (G : field3 T) (n : nat) (s : store T) (u : field3 T) : Prop :=
  same_phys3 m (field_of3 (in_array n) s) u /\ forall i j k v, s (mkloc A_G i j k v) = G i j k v.

Lemma dt_local2_ext {T} {N : Num T} m (S : hset T) g U U' G G' d :
  same_phys m U U' -> (forall i j v, G i j v = G' i j v) ->
  dt_local2 m S g U G d -> dt_local2 m S g U' G' d.
Proof.
  intros HU HG (v & HR & ->). exists v. split; [|reflexivity]. revert HR.
  apply reduction_ext. intros [i j] a _.
  assert (E : inner2 m i j = true -> cell_state U i j = cell_state U' i j).
  { intros Hi. apply inner2_phys in Hi. unfold cell_state. rewrite !HU by (auto; unfold ID, IP, IU, IV; lia). reflexivity. }
  destruct (g_enabled g); simpl; destruct (inner2 m i j) eqn:Hi; auto.
  - unfold gravity_speeds2. rewrite E, !HG by auto. reflexivity.
  - unfold speeds2. rewrite E by auto. reflexivity.
Qed.

Lemma dt_local3_ext {T} {N : Num T} m (S : hset T) g U U' G G' d :
  same_phys3 m U U' -> (forall i j k v, G i j k v = G' i j k v) ->
  dt_local3 m S g U G d -> dt_local3 m S g U' G' d.
Proof.
  intros HU HG (v & HR & ->). exists v. split; [|reflexivity]. revert HR.
  apply reduction_ext. intros [[i j] k] a _.
  assert (E : inner3 m i j k = true -> cell_state3 U i j k = cell_state3 U' i j k).
  { intros Hi. apply inner3_phys in Hi. unfold cell_state3. rewrite !HU by (auto; unfold ID, IP, IU, IV, IW; lia). reflexivity. }
  destruct (g_enabled g); simpl; destruct (inner3 m i j k) eqn:Hi; auto.
  - unfold gravity_speeds3. rewrite E, !HG by auto. reflexivity.
  - unfold speeds3. rewrite E by auto. reflexivity.
Qed.

Lemma hydro2_sim {T} {N : Num T} m (S : hset T) g inb iv c G s tr s' z :
  wide2 m -> 2 <= gw m -> refines2 m S g inb iv ->
  same_sol (holds2 m G) (same_phys m) s z ->
  main (hydro2 m S g inb iv) c s tr s' ->
  exists ztr z', main (ideal2 m S g G) c z ztr z' /\
    Forall2 (same_sol (holds2 m G) (same_phys m)) tr ztr /\ same_sol (holds2 m G) (same_phys m) s' z'.
Proof.
  intros Hw Hg Href. eapply sim_main with (Rel' := holds2 m G).
  - intros n a a' b HR ->. exists b. split; [reflexivity|exact HR].
  - intros n a b d [HU HG] Hd. cbn [local_dt hydro2 ideal2] in *. revert Hd. apply dt_local2_ext; auto.
  - intros dt n a a' b [HU HG] Hx. cbn [after hydro2 ideal2] in *. eexists. split; [reflexivity|].
    destruct (Href dt n a a' Hx) as [A B]. split.
    + intros i j v Hp Hv. change (field_of (in_array (Datatypes.S n)) a') with (field_of (cur (Datatypes.S n)) a').
      rewrite cur_S, A by auto. apply step_ext; auto.
    + intros. rewrite B. auto.
  - intros n a b [HU _]. exact HU.
Qed.

Lemma hydro3_sim {T} {N : Num T} m (S : hset T) g full inb iv c G s tr s' z :
  wide3 m -> 2 <= gw m -> refines3 m S g full inb iv ->
  same_sol (holds3 m G) (same_phys3 m) s z ->
  main (hydro3 m S g inb iv) c s tr s' ->
  exists ztr z', main (ideal3 m S g full G) c z ztr z' /\
    Forall2 (same_sol (holds3 m G) (same_phys3 m)) tr ztr /\ same_sol (holds3 m G) (same_phys3 m) s' z'.
Proof.
  intros Hw Hg Href. eapply sim_main with (Rel' := holds3 m G).
  - intros n a a' b HR ->. exists b. split; [reflexivity|exact HR].
  - intros n a b d [HU HG] Hd. cbn [local_dt hydro3 ideal3] in *. revert Hd. apply dt_local3_ext; auto.
  - intros dt n a a' b [HU HG] Hx. cbn [after hydro3 ideal3] in *. eexists. split; [reflexivity|].
    destruct (Href dt n a a' Hx) as [A B]. split.
    + intros i j k v Hp Hv. change (field_of3 (in_array (Datatypes.S n)) a') with (field_of3 (cur (Datatypes.S n)) a').
      rewrite cur_S, A by auto. apply step3_ext; auto.
    + intros. rewrite B. auto.
  - intros n a b [HU _]. exact HU.
Qed.

Lemma built2_holds {T} {N : Num T} {O : NumOne T} m inb (s0 s : store T) : wide2 m -> 0 <= nbvar m ->
  built2 m inb s0 s -> holds2 m (field_of A_G s0) 0 s (field_of A_U s0).
Proof.
  intros Hw Hn HB. apply execs_app in HB. destruct HB as (s1 & H1 & H2).
  destruct (fill2d_spec m A_U inb s0 s1 Hw H1) as (A & B & C).
  inversion H2; subst. inversion H6; subst.
  destruct (deep_copy_spec m inb A_U2 A_U _ _ ltac:(discriminate) Hn H4) as (D & E).
  split.
  - intros i j v Hp Hv. unfold field_of, in_array. simpl. rewrite E by discriminate. apply B. auto.
  - intros. rewrite E, C by discriminate. reflexivity.
Qed.

Lemma built3_holds {T} {N : Num T} {O : NumOne T} m inb (s0 s : store T) : wide3 m -> 0 <= nbvar m ->
  built3 m inb s0 s -> holds3 m (field_of3 A_G s0) 0 s (field_of3 A_U s0).
Proof.
  intros Hw Hn HB. apply execs_app in HB. destruct HB as (s1 & H1 & H2).
  destruct (fill3d_spec m A_U inb s0 s1 Hw H1) as (A & B & C).
  inversion H2; subst. inversion H6; subst.
  destruct (deep_copy_spec3 m inb A_U2 A_U _ _ ltac:(discriminate) Hn H4) as (D & E).
  split.
  - intros i j k v Hp Hv. unfold field_of3, in_array. simpl. rewrite E by discriminate. apply B. auto.
  - intros. rewrite E, C by discriminate. reflexivity.
Qed.

Lemma start_same {T M D M2 D2} (Rel : nat -> M -> M2 -> Prop) (DR : D -> D2 -> Prop) (t0 : T) k0 mem s u :
  start t0 k0 mem s -> Rel O mem u -> same_sol (D := D) Rel DR s (mksol (D := D2) t0 (s_dt s) O k0 [] u).
Proof.
  intros (E1 & E2 & E3 & E4 & E5) HR. unfold same_sol; simpl. rewrite E1, E2, E3, E4, E5. repeat (split; auto).
Qed.

(** Every run of the solver, from the constructor to the last file, is a run of
    the specification that has a single state: same times, time steps,
    iteration and file counters, and files with the same contents. *)
Theorem C13_two_buffers_act_as_one_state_2d :
  forall (T : Type) (N : Num T) (O : NumOne T) m (S : hset T) g inb iv c t0 k0 s0 mem s tr s',
  ready2 m S -> iv = V0 \/ iv = V1 ->
  built2 m inb s0 mem -> start t0 k0 mem s ->
  main (hydro2 m S g inb iv) c s tr s' ->
  exists ztr z',
    main (ideal2 m S g (field_of A_G s0)) c (mksol t0 (s_dt s) 0 k0 [] (field_of A_U s0)) ztr z' /\
    Forall2 (same_sol (holds2 m (field_of A_G s0)) (same_phys m)) tr ztr /\
    same_sol (holds2 m (field_of A_G s0)) (same_phys m) s' z'.
Proof.
  intros T N O m S g inb iv c t0 k0 s0 mem s tr s' (Hw & Hg & Hn & Hs & Hr) Hiv HB HS HM.
  eapply hydro2_sim; eauto.
  - apply refines_V01; auto.
  - apply start_same with (mem := mem); auto. apply (built2_holds m inb s0 mem); auto; lia.
Qed.
Print Assumptions C13_two_buffers_act_as_one_state_2d.

Theorem C13_two_buffers_act_as_one_state_exact_2d :
  forall m (S : hset R) g inb iv c t0 k0 s0 mem s tr s',
  ready2 m S -> built2 m inb s0 mem -> start t0 k0 mem s ->
  main (hydro2 m S g inb iv) c s tr s' ->
  exists ztr z',
    main (ideal2 m S g (field_of A_G s0)) c (mksol t0 (s_dt s) 0 k0 [] (field_of A_U s0)) ztr z' /\
    Forall2 (same_sol (holds2 m (field_of A_G s0)) (same_phys m)) tr ztr /\
    same_sol (holds2 m (field_of A_G s0)) (same_phys m) s' z'.
Proof.
  intros m S g inb iv c t0 k0 s0 mem s tr s' (Hw & Hg & Hn & Hs & Hr) HB HS HM.
  eapply hydro2_sim; eauto.
  - apply refines_R; auto.
  - apply start_same with (mem := mem); auto. apply (built2_holds m inb s0 mem); auto; lia.
Qed.
Print Assumptions C13_two_buffers_act_as_one_state_exact_2d.

Theorem C13_two_buffers_act_as_one_state_3d :
  forall (T : Type) (N : Num T) (O : NumOne T) m (S : hset T) g inb iv c t0 k0 s0 mem s tr s',
  ready3 m S -> iv = V0 \/ iv = V1 ->
  built3 m inb s0 mem -> start t0 k0 mem s ->
  main (hydro3 m S g inb iv) c s tr s' ->
  exists ztr z',
    main (ideal3 m S g (full_of iv) (field_of3 A_G s0)) c (mksol t0 (s_dt s) 0 k0 [] (field_of3 A_U s0)) ztr z' /\
    Forall2 (same_sol (holds3 m (field_of3 A_G s0)) (same_phys3 m)) tr ztr /\
    same_sol (holds3 m (field_of3 A_G s0)) (same_phys3 m) s' z'.
Proof.
  intros T N O m S g inb iv c t0 k0 s0 mem s tr s' (Hw & Hg & Hn & Hs & Hr) Hiv HB HS HM.
  eapply hydro3_sim; eauto.
  - apply refines3_V01; auto.
  - apply start_same with (mem := mem); auto. apply (built3_holds m inb s0 mem); auto; lia.
Qed.
Print Assumptions C13_two_buffers_act_as_one_state_3d.

Theorem C13_two_buffers_act_as_one_state_exact_3d :
  forall m (S : hset R) g inb iv c t0 k0 s0 mem s tr s',
  ready3 m S -> built3 m inb s0 mem -> start t0 k0 mem s ->
  main (hydro3 m S g inb iv) c s tr s' ->
  exists ztr z',
    main (ideal3 m S g (full_of iv) (field_of3 A_G s0)) c (mksol t0 (s_dt s) 0 k0 [] (field_of3 A_U s0)) ztr z' /\
    Forall2 (same_sol (holds3 m (field_of3 A_G s0)) (same_phys3 m)) tr ztr /\
    same_sol (holds3 m (field_of3 A_G s0)) (same_phys3 m) s' z'.
Proof.
  intros m S g inb iv c t0 k0 s0 mem s tr s' (Hw & Hg & Hn & Hs & Hr) HB HS HM.
  eapply hydro3_sim; eauto.
  - apply refines3_R; auto.
  - apply start_same with (mem := mem); auto. apply (built3_holds m inb s0 mem); auto; lia.
Qed.
Print Assumptions C13_two_buffers_act_as_one_state_exact_3d.

(** ** C14 *)
Local Open Scope R_scope.

(** What C14 asks of a run with loop-head states [tr] (started at time [t0])
    that left the loop in [s1]. *)
Definition timely {M D} (P : machine R M D) (c : config) (t0 : R) (tr : list (sol (T := R) (M := M) (D := D)))
    (s1 : sol (T := R) (M := M) (D := D)) : Prop :=
  (forall k x, (Datatypes.S k < length tr)%nat ->
     s_t (nth k tr x) < s_t (nth (Datatypes.S k) tr x) /\
     exists d m1, 0 < d /\ before P (s_it (nth k tr x)) (s_mem (nth k tr x)) m1 /\
       local_dt P (s_it (nth k tr x)) m1 d /\
       s_dt (nth (Datatypes.S k) tr x) = Rmin d (c_tEnd c - s_t (nth k tr x)) /\
       s_t (nth (Datatypes.S k) tr x) = Rmin (s_t (nth k tr x) + d) (c_tEnd c)) /\
  (forall x, In x tr -> t0 <= s_t x <= c_tEnd c) /\
  (Z.of_nat (length tr - 1) <= Z.max 0 (c_nStepmax c))%Z /\
  (forall x, last tr x = s1) /\
  ((Z.of_nat (length tr - 1) < c_nStepmax c)%Z -> c_tEnd c - 1 / 10 ^ 14 <= s_t s1 <= c_tEnd c).

Lemma timely_main {M D} (P : machine R M D) c t0 k0 m0 s tr s' :
  (forall n m m1 d, before P n m m1 -> local_dt P n m1 d -> 0 < d) ->
  start t0 k0 m0 s -> t0 <= c_tEnd c -> main P c s tr s' ->
  exists s1, timely P c t0 tr s1 /\ s' = main_save P c s1.
Proof.
  intros Hpos (E1 & E2 & _) Ht (s1 & HL & ->). exists s1. split; auto.
  destruct (main_save_same P c s) as (M1 & M2 & M3).
  assert (Ht' : s_t (main_save P c s) <= c_tEnd c) by (rewrite M1, E1; auto).
  destruct (loop_it P c _ _ _ HL) as (I1 & I2 & I3 & I4).
  destruct (loop_time P c Hpos _ _ _ HL Ht') as (T1 & T2).
  rewrite M1, E1 in T1, T2. unfold timely. split; [|split; [exact T1|split; [|split; [exact I4|]]]].
  - intros k x Hk. destruct (loop_next P c _ _ _ HL k x Hk) as [Hf Hn].
    pose proof (unfinished_time c _ Hf) as Hu. split.
    + destruct (next_time P c Hpos _ _ Hn Hu) as (d & Hd & _ & _ & B). lra.
    + destruct Hn as (_ & m1 & d & m2 & HB & HD & _ & Hs'). destruct (maybe_save_same P c (nth k tr x)) as (F1 & F2 & F3).
      rewrite F2, ?F3, ?F1 in *. exists d, m1. pose proof (Hpos _ _ _ _ HB HD) as Hd. repeat split; auto.
      * rewrite Hs'. cbn [s_dt]. unfold clamp. cbn [nltb nadd nsub Rnum].
        destruct (Rlt_dec _ _); [rewrite Rmin_right|rewrite Rmin_left]; lra.
      * rewrite Hs'. cbn [s_t]. unfold clamp. cbn [nltb nadd nsub Rnum].
        destruct (Rlt_dec _ _); [rewrite Rmin_right|rewrite Rmin_left]; lra.
  - pose proof (loop_bound P c _ _ _ HL) as HB. rewrite M2, E2 in *. lia.
  - intros Hlt. split; [|apply T2].
    pose proof (loop_finished P c _ _ _ HL) as Hfin. unfold finished in Hfin.
    apply orb_true_iff in Hfin. destruct Hfin as [Hfin|Hfin]; [|exfalso; rewrite M2, E2 in *; lia].
    cbn [nleb nsub Rnum] in Hfin. destruct (Rle_dec _ _) as [Hle|]; [|discriminate].
    unfold eps_end, n1 in Hle. cbn [nZ ndiv Rnum] in Hle. replace (10 ^ 14) with (IZR (10 ^ 14)); [exact Hle|].
    change (10 ^ 14)%Z with (10 ^ Z.of_nat 14)%Z. rewrite <- pow_IZR. reflexivity.
Qed.

(** Any solver whose time step is positive. *)
Theorem C14_end_time :
  forall (M D : Type) (P : machine R M D) c t0 k0 m0 s tr s',
  (forall n m m1 d, before P n m m1 -> local_dt P n m1 d -> 0 < d) ->
  start t0 k0 m0 s -> t0 <= c_tEnd c -> main P c s tr s' ->
  exists s1, timely P c t0 tr s1 /\ s' = main_save P c s1.
Proof. exact @timely_main. Qed.
Print Assumptions C14_end_time.

(** Settings for which the time step is positive. *)
Definition steppable (S : hset R) : Prop := sane S /\ 0 < cfl S /\ 0 < dx S /\ 0 < dy S /\ 0 < dz S.

Lemma wide2_phys m : wide2 m -> (0 <= gw m)%Z /\ exists i j, phys2 m i j.
Proof.
  intros (Hg & _ & (H1 & _) & _ & (H3 & _) & _). split; [lia|]. exists (gw m), (gw m). unfold phys2, physical. lia.
Qed.
Lemma wide3_phys m : wide3 m -> (0 <= gw m)%Z /\ exists i j k, phys3 m i j k.
Proof.
  intros ((Hg & _ & (H1 & _) & _ & (H3 & _) & _) & (H5 & _) & _). split; [lia|].
  exists (gw m), (gw m), (gw m). unfold phys3, phys2, physical. lia.
Qed.

Lemma hydro2_pos m (S : hset R) g inb iv : wide2 m -> steppable S ->
  forall n s d, local_dt (hydro2 m S g inb iv) n s d -> 0 < d.
Proof.
  intros Hw (HS & Hc & Hx & Hy & _) n s d Hd. destruct (wide2_phys m Hw) as [Hg He].
  cbn [local_dt hydro2] in Hd. destruct (g_enabled g) eqn:E.
  - eapply dt_local2_gravity; eauto.
  - eapply dt_local2_bound; eauto.
Qed.
Lemma hydro3_pos m (S : hset R) g inb iv : wide3 m -> steppable S ->
  forall n s d, local_dt (hydro3 m S g inb iv) n s d -> 0 < d.
Proof.
  intros Hw (HS & Hc & Hx & Hy & Hz) n s d Hd. destruct (wide3_phys m Hw) as [Hg He].
  cbn [local_dt hydro3] in Hd. destruct (g_enabled g) eqn:E.
  - eapply dt_local3_gravity; eauto.
  - eapply dt_local3_bound; eauto.
Qed.

Theorem C14_end_time_2d :
  forall m (S : hset R) g inb iv c t0 k0 m0 s tr s',
  wide2 m -> steppable S ->
  start t0 k0 m0 s -> t0 <= c_tEnd c -> main (hydro2 m S g inb iv) c s tr s' ->
  exists s1, timely (hydro2 m S g inb iv) c t0 tr s1 /\ s' = main_save (hydro2 m S g inb iv) c s1.
Proof. intros. eapply timely_main; eauto. intros ? ? ? ? _. apply hydro2_pos; auto. Qed.
Print Assumptions C14_end_time_2d.

Theorem C14_end_time_3d :
  forall m (S : hset R) g inb iv c t0 k0 m0 s tr s',
  wide3 m -> steppable S ->
  start t0 k0 m0 s -> t0 <= c_tEnd c -> main (hydro3 m S g inb iv) c s tr s' ->
  exists s1, timely (hydro3 m S g inb iv) c t0 tr s1 /\ s' = main_save (hydro3 m S g inb iv) c s1.
Proof. intros. eapply timely_main; eauto. intros ? ? ? ? _. apply hydro3_pos; auto. Qed.
Print Assumptions C14_end_time_3d.

(** The run does stop: no infinite execution, whatever the arithmetic, and no
    execution gets stuck. *)
Theorem C14_stops :
  forall (T : Type) (N : Num T) (M D : Type) (P : machine T M D) c (f : nat -> sol (T := T) (M := M) (D := D)),
  ~ (forall k, finished c (f k) = false /\ next P c (f k) (f (Datatypes.S k))).
Proof. intros T N M D P c f H. exact (no_infinite_run P c f H). Qed.
Print Assumptions C14_stops.

Theorem C14_runs_complete_2d :
  forall (T : Type) (N : Num T) m (S : hset T) g iv c s,
  ready2 m S -> c_nlog c <> 0%Z ->
  exists tr s', main (hydro2 m S g (alloc2d m (nv2 m g iv)) iv) c s tr s'.
Proof.
  intros T N m S g iv c s HR Hl.
  destruct (loop_exists (hydro2 m S g (alloc2d m (nv2 m g iv)) iv) c (main_save (hydro2 m S g (alloc2d m (nv2 m g iv)) iv) c s)) as (tr & s1 & HL).
  - intros x _. set (y := maybe_save (hydro2 m S g (alloc2d m (nv2 m g iv)) iv) c x).
    destruct (dt_local2_exists m S g (field_of (dt_array (s_it y)) (s_mem y)) (field_of A_G (s_mem y))) as [d Hd].
    destruct (C02_steps_in_bounds T N m S g iv (s_it y) [clamp c (s_t y) d] (s_mem y) HR) as [_ [m2 Hm]].
    cbn [steps2] in Hm. rewrite app_nil_r in Hm.
    eexists. split; [exact Hl|]. exists (s_mem y), d, m2.
    split; [reflexivity|]. split; [exact Hd|]. split; [exact Hm|reflexivity].
  - exists tr, (main_save (hydro2 m S g (alloc2d m (nv2 m g iv)) iv) c s1). exists s1. auto.
Qed.
Print Assumptions C14_runs_complete_2d.

Theorem C14_runs_complete_3d :
  forall (T : Type) (N : Num T) m (S : hset T) g iv c s,
  ready3 m S -> c_nlog c <> 0%Z ->
  exists tr s', main (hydro3 m S g (alloc3d m (nv3 m g iv)) iv) c s tr s'.
Proof.
  intros T N m S g iv c s HR Hl.
  destruct (loop_exists (hydro3 m S g (alloc3d m (nv3 m g iv)) iv) c (main_save (hydro3 m S g (alloc3d m (nv3 m g iv)) iv) c s)) as (tr & s1 & HL).
  - intros x _. set (y := maybe_save (hydro3 m S g (alloc3d m (nv3 m g iv)) iv) c x).
    destruct (dt_local3_exists m S g (field_of3 (dt_array (s_it y)) (s_mem y)) (field_of3 A_G (s_mem y))) as [d Hd].
    destruct (C02_3d_steps_in_bounds T N m S g iv (s_it y) [clamp c (s_t y) d] (s_mem y) HR) as [_ [m2 Hm]].
    cbn [steps3] in Hm. rewrite app_nil_r in Hm.
    eexists. split; [exact Hl|]. exists (s_mem y), d, m2.
    split; [reflexivity|]. split; [exact Hd|]. split; [exact Hm|reflexivity].
  - exists tr, (main_save (hydro3 m S g (alloc3d m (nv3 m g iv)) iv) c s1). exists s1. auto.
Qed.
Print Assumptions C14_runs_complete_3d.

(** With nlog = 0 the first iteration divides by zero: a run that has something
    to do never completes. *)
Theorem C14_nlog_zero_refuted :
  forall (T : Type) (N : Num T) (M D : Type) (P : machine T M D) c s,
  c_nlog c = 0%Z -> finished c s = false -> forall tr s', ~ main P c s tr s'.
Proof.
  intros T N M D P c s Hl Hf tr s' (s1 & HL & _).
  assert (Hf' : finished c (main_save P c s) = false).
  { unfold finished in *. destruct (main_save_same P c s) as (-> & -> & _). exact Hf. }
  inversion HL; subst; [congruence|]. destruct H0 as [H0 _]. contradiction.
Qed.
Print Assumptions C14_nlog_zero_refuted.

(** ** C15 *)

(** File [f] holds the time and the current array of loop-head state [x]. *)
Definition snapshot_of {T M D} (P : machine T M D) (f : file (T := T) (D := D)) (x : sol (T := T) (M := M) (D := D)) : Prop :=
  f_time f = s_t x /\ f_data f = current P (s_it x) (s_mem x).

(** Numbers are consecutive; the files are snapshots of the initial state, of a
    subsequence of the states met at the loop head, and of the final state. *)
Theorem C15_files :
  forall (T : Type) (N : Num T) (M D : Type) (P : machine T M D) c t0 k0 m0 s tr s',
  start t0 k0 m0 s -> main P c s tr s' -> c_nOutput c <> 0%Z ->
  map f_number (s_files s') = map (fun k => k0 + Z.of_nat k)%Z (seq 0 (length (s_files s'))) /\
  (exists keep first last_, hd_error tr = Some first /\ last_ = last tr first /\
    s_t first = t0 /\ s_it first = O /\ s_mem first = m0 /\ s_t last_ = s_t s' /\ s_mem last_ = s_mem s' /\
    Forall2 (snapshot_of P) (s_files s') (first :: filter keep (removelast tr) ++ [last_])) /\
  (forall k x, (k < length tr)%nat -> s_it (nth k tr x) = k).
Proof.
  intros T N M D P c t0 k0 m0 s tr s' (E1 & E2 & E3 & E4 & E5) (s1 & HL & ->) Ho.
  assert (EO : (c_nOutput c =? 0)%Z = false) by lia.
  assert (EM : main_save P c s = save P s) by (unfold main_save; rewrite EO; reflexivity).
  assert (EM1 : main_save P c s1 = save P s1) by (unfold main_save; rewrite EO; reflexivity).
  rewrite EM1. rewrite EM in HL.
  destruct (loop_files P c _ _ _ HL) as (A & B & C).
  destruct (loop_it P c _ _ _ HL) as (I1 & I2 & I3 & I4).
  destruct (loop_head P c _ _ _ HL) as [tl Etl].
  unfold save in A, B, C, I1, I3. cbn [s_files s_saved s_it] in A, B, C, I1, I3. rewrite E4, E3, E2 in *. cbn [app] in A.
  split; [|split].
  - unfold save. cbn [s_files]. rewrite A, map_app. cbn [map f_number].
    rewrite map_map, C. cbn [app length]. rewrite !app_length. cbn [length]. rewrite map_length.
    set (n := length (filter (saves c) (removelast tr))) in *.
    cbn [seq]. rewrite seq_app, <- seq_shift, map_cons, map_app.
    cbn [seq map app]. f_equal; [lia|]. f_equal.
    + rewrite map_map. apply map_ext. intros. lia.
    + rewrite B. f_equal. lia.
  - exists (saves c), (save P s), s1. subst tr. split; [reflexivity|]. split; [symmetry; apply I4|].
    unfold save at 1 2 3. cbn [s_t s_it s_mem]. repeat split; auto.
    unfold save. cbn [s_files]. rewrite A. cbn [app]. constructor.
    + split; cbn [f_time f_data s_t s_it s_mem]; rewrite ?E2; auto.
    + apply Forall2_app; [|repeat constructor].
      clear. induction (filter (saves c) _) as [|x l IH]; simpl; [constructor|]. constructor; auto. split; reflexivity.
  - intros k x Hk. rewrite I3; auto.
Qed.
Print Assumptions C15_files.

Theorem C15_disabled_no_file :
  forall (T : Type) (N : Num T) (M D : Type) (P : machine T M D) c t0 k0 m0 s tr s',
  start t0 k0 m0 s -> main P c s tr s' -> c_nOutput c = 0%Z -> s_files s' = [].
Proof.
  intros T N M D P c t0 k0 m0 s tr s' (E1 & E2 & E3 & E4 & E5) (s1 & HL & ->) Ho.
  assert (EM : forall s, main_save P c s = s) by (intros; unfold main_save; rewrite Ho; reflexivity).
  rewrite EM in *. destruct (loop_files P c _ _ _ HL) as (A & _ & _). rewrite A, E4.
  assert (F : forall l : list (sol (T := T) (M := M) (D := D)), filter (saves c) l = []).
  { induction l; simpl; auto. unfold saves, enable_output at 1. rewrite Ho. auto. }
  rewrite F. reflexivity.
Qed.
Print Assumptions C15_disabled_no_file.

(** Recorded times are non-decreasing. *)
Fixpoint nondecreasing (l : list R) : Prop :=
  match l with
  | a :: (b :: _) as l' => a <= b /\ nondecreasing l'
  | _ => True
  end.

Lemma loop_times {M D} (P : machine R M D) c : (forall n m m1 d, before P n m m1 -> local_dt P n m1 d -> 0 < d) ->
  forall s tr s', loop P c s tr s' -> s_t s <= c_tEnd c ->
  forall keep lo, lo <= s_t s ->
  nondecreasing (lo :: map s_t (filter keep (removelast tr)) ++ [s_t s']).
Proof.
  intros Hpos s tr s' HL. induction HL as [s Hf|s s1 tr s' Hf Hn Hl IH]; intros Ht keep lo Hlo.
  - simpl. lra.
  - destruct (next_time P c Hpos _ _ Hn (unfinished_time c _ Hf)) as (d & Hd & _ & _ & B).
    destruct (loop_head P c _ _ _ Hl) as [tl Etl].
    assert (ER : removelast (s :: tr) = s :: removelast tr) by (rewrite Etl; reflexivity).
    rewrite ER. cbn [filter]. destruct (keep s).
    + cbn [map app]. split; [exact Hlo|]. apply IH; lra.
    + apply IH; lra.
Qed.

Theorem C15_times_nondecreasing :
  forall (M D : Type) (P : machine R M D) c t0 k0 m0 s tr s',
  (forall n m m1 d, before P n m m1 -> local_dt P n m1 d -> 0 < d) ->
  start t0 k0 m0 s -> t0 <= c_tEnd c -> main P c s tr s' ->
  nondecreasing (map f_time (s_files s')).
Proof.
  intros M D P c t0 k0 m0 s tr s' Hpos HS Ht HM.
  destruct (Z.eq_dec (c_nOutput c) 0) as [Ho|Ho].
  { rewrite (C15_disabled_no_file _ _ _ _ _ _ _ _ _ _ _ _ HS HM Ho). exact I. }
  destruct HS as (E1 & E2 & E3 & E4 & E5). destruct HM as (s1 & HL & ->).
  assert (EO : (c_nOutput c =? 0)%Z = false) by lia.
  assert (EM : forall s, main_save P c s = save P s) by (intros; unfold main_save; rewrite EO; reflexivity).
  rewrite EM in *. destruct (loop_files P c _ _ _ HL) as (A & _ & _).
  unfold save. cbn [s_files]. rewrite A. unfold save. cbn [s_files]. rewrite E4. cbn [app map f_time].
  rewrite map_app, map_map. cbn [map f_time]. rewrite E1.
  apply (loop_times P c Hpos _ _ _ HL); cbn [s_t save]; lra.
Qed.
Print Assumptions C15_times_nondecreasing.

(** ** C16 *)

(** The time step used never exceeds the CFL bound in any physical cell, in any
    iteration of any run. *)
Theorem C16_cfl_bound_2d :
  forall m (S : hset R) g inb iv c t0 k0 m0 s tr s',
  wide2 m -> steppable S ->
  start t0 k0 m0 s -> t0 <= c_tEnd c -> main (hydro2 m S g inb iv) c s tr s' ->
  forall k x, (Datatypes.S k < length tr)%nat ->
  let U := field_of (in_array k) (s_mem (nth k tr x)) in
  let G := field_of A_G (s_mem (nth k tr x)) in
  let dt := s_dt (nth (Datatypes.S k) tr x) in
  0 < dt /\
  forall i j, phys2 m i j ->
    dt * rate2 S U i j <= cfl S /\
    (g_enabled g = true ->
     dt * total_speed2 S U i j / Rmin (dx S) (dy S) +
     (Rabs (G i j IX) + Rabs (G i j IY)) * (dt * dt) / (2 * Rmin (dx S) (dy S)) <= cfl S).
Proof.
  intros m S g inb iv c t0 k0 m0 s tr s' Hw HS Hst Ht HM k x Hk U G dt.
  destruct (C14_end_time_2d m S g inb iv c t0 k0 m0 s tr s' Hw HS Hst Ht HM) as (s1 & (A & B & _) & _).
  destruct (A k x Hk) as (Hlt & d & m1 & Hd & Hm1 & HD & Hdt & Htm). cbn [before hydro2] in Hm1. subst m1.
  assert (Hit : s_it (nth k tr x) = k).
  { destruct HM as (s2 & HL & _). destruct (loop_it _ c _ _ _ HL) as (_ & _ & I3 & _). rewrite I3 by lia.
    destruct (main_save_same (hydro2 m S g inb iv) c s) as (_ & -> & _). destruct Hst as (_ & -> & _). reflexivity. }
  rewrite Hit in HD. cbn [local_dt hydro2] in HD. change (dt_array k) with (in_array k) in HD.
  fold U G in HD. fold dt in Hdt.
  assert (Hle : dt <= d) by (rewrite Hdt; apply Rmin_l).
  assert (Hp : 0 < dt).
  { rewrite Hdt. apply Rmin_pos; auto. pose proof (B (nth (Datatypes.S k) tr x)). specialize (H ltac:(apply nth_In; lia)). lra. }
  split; auto. intros i j Hph. destruct HS as (HS & Hc & Hx & Hy & _). destruct (wide2_phys m Hw) as [Hgw He].
  destruct (speeds2_rate S HS Hx Hy U i j) as [_ Hrate].
  destruct (g_enabled g) eqn:Eg.
  - destruct (dt_local2_gravity S HS Hc Hx Hy m g Hgw U G d Eg He HD) as [_ HB]. specialize (HB i j Hph).
    assert (Hh : 0 < Rmin (dx S) (dy S)) by (apply Rmin_pos; auto).
    destruct (gravity_speeds2_eq S HS U G i j) as [_ HW].
    assert (HB' : dt * total_speed2 S U i j / Rmin (dx S) (dy S) +
      (Rabs (G i j IX) + Rabs (G i j IY)) * (dt * dt) / (2 * Rmin (dx S) (dy S)) <= cfl S).
    { eapply Rle_trans; [|exact HB]. pose proof (Rabs_pos (G i j IX)). pose proof (Rabs_pos (G i j IY)).
      apply Rplus_le_compat; apply Rmult_le_compat_r; try (left; apply Rinv_0_lt_compat; lra).
      - apply Rmult_le_compat_r; lra.
      - apply Rmult_le_compat_l; [lra|]. apply Rmult_le_compat; lra. }
    split; [|auto]. eapply gravity_rate2; eauto.
  - split; [|discriminate]. destruct (dt_local2_bound S HS Hc Hx Hy m g Hgw U G d Eg He HD) as (_ & HB & _).
    specialize (HB i j Hph). nra.
Qed.
Print Assumptions C16_cfl_bound_2d.

Theorem C16_cfl_bound_3d :
  forall m (S : hset R) g inb iv c t0 k0 m0 s tr s',
  wide3 m -> steppable S ->
  start t0 k0 m0 s -> t0 <= c_tEnd c -> main (hydro3 m S g inb iv) c s tr s' ->
  forall n x, (Datatypes.S n < length tr)%nat ->
  let U := field_of3 (in_array n) (s_mem (nth n tr x)) in
  let G := field_of3 A_G (s_mem (nth n tr x)) in
  let dt := s_dt (nth (Datatypes.S n) tr x) in
  0 < dt /\
  forall i j k, phys3 m i j k ->
    dt * rate3 S U i j k <= cfl S /\
    (g_enabled g = true ->
     dt * total_speed3 S U i j k / Rmin (Rmin (dx S) (dy S)) (dz S) +
     (Rabs (G i j k IX) + Rabs (G i j k IY) + Rabs (G i j k IZ)) * (dt * dt) / (2 * Rmin (Rmin (dx S) (dy S)) (dz S)) <= cfl S).
Proof.
  intros m S g inb iv c t0 k0 m0 s tr s' Hw HS Hst Ht HM n x Hk U G dt.
  destruct (C14_end_time_3d m S g inb iv c t0 k0 m0 s tr s' Hw HS Hst Ht HM) as (s1 & (A & B & _) & _).
  destruct (A n x Hk) as (Hlt & d & m1 & Hd & Hm1 & HD & Hdt & Htm). cbn [before hydro3] in Hm1. subst m1.
  assert (Hit : s_it (nth n tr x) = n).
  { destruct HM as (s2 & HL & _). destruct (loop_it _ c _ _ _ HL) as (_ & _ & I3 & _). rewrite I3 by lia.
    destruct (main_save_same (hydro3 m S g inb iv) c s) as (_ & -> & _). destruct Hst as (_ & -> & _). reflexivity. }
  rewrite Hit in HD. cbn [local_dt hydro3] in HD. change (dt_array n) with (in_array n) in HD.
  fold U G in HD. fold dt in Hdt.
  assert (Hle : dt <= d) by (rewrite Hdt; apply Rmin_l).
  assert (Hp : 0 < dt).
  { rewrite Hdt. apply Rmin_pos; auto. pose proof (B (nth (Datatypes.S n) tr x)). specialize (H ltac:(apply nth_In; lia)). lra. }
  split; auto. intros i j k Hph. destruct HS as (HS & Hc & Hx & Hy & Hz). destruct (wide3_phys m Hw) as [Hgw He].
  destruct (speeds3_rate S HS Hx Hy U i j k Hz) as [_ Hrate].
  destruct (g_enabled g) eqn:Eg.
  - destruct (dt_local3_gravity S HS Hc Hx Hy m g Hgw U G d Hz Eg He HD) as [_ HB]. specialize (HB i j k Hph).
    set (h := Rmin (Rmin (dx S) (dy S)) (dz S)) in *.
    assert (Hh : 0 < h) by (unfold h; repeat apply Rmin_pos; auto).
    destruct (gravity_speeds3_eq S HS U G i j k) as [_ HW].
    assert (HB' : dt * total_speed3 S U i j k / h +
      (Rabs (G i j k IX) + Rabs (G i j k IY) + Rabs (G i j k IZ)) * (dt * dt) / (2 * h) <= cfl S).
    { eapply Rle_trans; [|exact HB].
      pose proof (Rabs_pos (G i j k IX)). pose proof (Rabs_pos (G i j k IY)). pose proof (Rabs_pos (G i j k IZ)).
      apply Rplus_le_compat; apply Rmult_le_compat_r; try (left; apply Rinv_0_lt_compat; lra).
      - apply Rmult_le_compat_r; lra.
      - apply Rmult_le_compat_l; [lra|]. apply Rmult_le_compat; lra. }
    split; [|auto]. eapply gravity_rate3; eauto.
  - split; [|discriminate]. destruct (dt_local3_bound S HS Hc Hx Hy m g Hgw U G d Hz Eg He HD) as (_ & HB & _).
    specialize (HB i j k Hph). nra.
Qed.
Print Assumptions C16_cfl_bound_3d.

(** Without gravity the bound is attained: the step is as large as CFL allows. *)
Theorem C16_cfl_attained :
  forall m (S : hset R) g (U : field2 R) (U3 : field3 R) G G3 d d3,
  steppable S -> g_enabled g = false ->
  (wide2 m -> dt_local2 m S g U G d -> exists i j, phys2 m i j /\ d * rate2 S U i j = cfl S) /\
  (wide3 m -> dt_local3 m S g U3 G3 d3 -> exists i j k, phys3 m i j k /\ d3 * rate3 S U3 i j k = cfl S).
Proof.
  intros m S g U U3 G G3 d d3 (HS & Hc & Hx & Hy & Hz) Hg. split; intros Hw HD.
  - destruct (wide2_phys m Hw) as [Hgw He]. eapply dt_local2_bound; eauto.
  - destruct (wide3_phys m Hw) as [Hgw He]. eapply dt_local3_bound; eauto.
Qed.
Print Assumptions C16_cfl_attained.

(** Several processes: the global step bounds every cell of every process, and
    does not depend on how the two reductions are carried out. *)
Theorem C16_all_processes_2d :
  forall m (S : hset R) g (procs : list (field2 R * field2 R)) ds d,
  wide2 m -> steppable S ->
  Forall2 (fun p d => dt_local2 m S g (fst p) (snd p) d) procs ds -> allreduce_min ds d ->
  (0 < d /\ forall U G i j, In (U, G) procs -> phys2 m i j -> d * rate2 S U i j <= cfl S) /\
  forall ds' d', Forall2 (fun p d => dt_local2 m S g (fst p) (snd p) d) procs ds' -> allreduce_min ds' d' -> d' = d.
Proof.
  intros m S g procs ds d Hw (HS & Hc & Hx & Hy & _) HF HA. destruct (wide2_phys m Hw) as [Hgw He].
  assert (HL : forall p d, dt_local2 m S g (fst p) (snd p) d ->
     0 < d /\ forall i j, phys2 m i j -> d * rate2 S (fst p) i j <= cfl S).
  { intros [U G] d0 Hd0. simpl in *. destruct (g_enabled g) eqn:Eg.
    - destruct (dt_local2_gravity S HS Hc Hx Hy m g Hgw U G d0 Eg He Hd0) as [A B]. split; auto.
      intros. eapply gravity_rate2; eauto.
    - destruct (dt_local2_bound S HS Hc Hx Hy m g Hgw U G d0 Eg He Hd0) as (A & B & _). auto. }
  destruct (allreduce_R _ _ HA) as [A1 A2]. split; [split|].
  - assert (Hall : Forall (fun d => 0 < d) ds).
    { clear - HF HL. induction HF; constructor; auto. eapply HL; eauto. }
    rewrite Forall_forall in Hall. auto.
  - intros U G i j Hin Hp. destruct (speeds2_rate S HS Hx Hy U i j) as [_ Hrate].
    assert (exists d0, In d0 ds /\ dt_local2 m S g U G d0) as (d0 & Hd0 & Hl).
    { clear - HF Hin. induction HF; [destruct Hin|]. destruct Hin as [->|Hin]; [exists y; simpl; auto|].
      destruct (IHHF Hin) as (d0 & ? & ?). exists d0. simpl; auto. }
    destruct (HL (U, G) d0 Hl) as [_ HB]. specialize (HB i j Hp). specialize (A2 d0 Hd0). simpl in HB. nra.
  - intros ds' d' HF' HA'.
    assert (ds' = ds).
    { clear - HF HF'. revert ds' HF'. induction HF; intros ds' HF'; inversion HF'; subst; auto. f_equal; auto.
      eapply dt_local2_unique; eauto. }
    subst ds'. destruct (allreduce_R _ _ HA') as [B1 B2].
    apply Rle_antisym; auto.
Qed.
Print Assumptions C16_all_processes_2d.

Theorem C16_all_processes_3d :
  forall m (S : hset R) g (procs : list (field3 R * field3 R)) ds d,
  wide3 m -> steppable S ->
  Forall2 (fun p d => dt_local3 m S g (fst p) (snd p) d) procs ds -> allreduce_min ds d ->
  (0 < d /\ forall U G i j k, In (U, G) procs -> phys3 m i j k -> d * rate3 S U i j k <= cfl S) /\
  forall ds' d', Forall2 (fun p d => dt_local3 m S g (fst p) (snd p) d) procs ds' -> allreduce_min ds' d' -> d' = d.
Proof.
  intros m S g procs ds d Hw (HS & Hc & Hx & Hy & Hz) HF HA. destruct (wide3_phys m Hw) as [Hgw He].
  assert (HL : forall p d, dt_local3 m S g (fst p) (snd p) d ->
     0 < d /\ forall i j k, phys3 m i j k -> d * rate3 S (fst p) i j k <= cfl S).
  { intros [U G] d0 Hd0. simpl in *. destruct (g_enabled g) eqn:Eg.
    - destruct (dt_local3_gravity S HS Hc Hx Hy m g Hgw U G d0 Hz Eg He Hd0) as [A B]. split; auto.
      intros. eapply gravity_rate3; eauto.
    - destruct (dt_local3_bound S HS Hc Hx Hy m g Hgw U G d0 Hz Eg He Hd0) as (A & B & _). auto. }
  destruct (allreduce_R _ _ HA) as [A1 A2]. split; [split|].
  - assert (Hall : Forall (fun d => 0 < d) ds).
    { clear - HF HL. induction HF; constructor; auto. eapply HL; eauto. }
    rewrite Forall_forall in Hall. auto.
  - intros U G i j k Hin Hp. destruct (speeds3_rate S HS Hx Hy U i j k Hz) as [_ Hrate].
    assert (exists d0, In d0 ds /\ dt_local3 m S g U G d0) as (d0 & Hd0 & Hl).
    { clear - HF Hin. induction HF; [destruct Hin|]. destruct Hin as [->|Hin]; [exists y; simpl; auto|].
      destruct (IHHF Hin) as (d0 & ? & ?). exists d0. simpl; auto. }
    destruct (HL (U, G) d0 Hl) as [_ HB]. specialize (HB i j k Hp). specialize (A2 d0 Hd0). simpl in HB. nra.
  - intros ds' d' HF' HA'.
    assert (ds' = ds).
    { clear - HF HF'. revert ds' HF'. induction HF; intros ds' HF'; inversion HF'; subst; auto. f_equal; auto.
      eapply dt_local3_unique; eauto. }
    subst ds'. destruct (allreduce_R _ _ HA') as [B1 B2].
    apply Rle_antisym; auto.
Qed.
Print Assumptions C16_all_processes_3d.

(** In IEEE double arithmetic too the reduction tree does not matter, NaN cells
    included; only a cell with speed -0 could make a difference. *)
Theorem C16_order_independent_binary64_2d :
  forall m (S : hset b64) g (U G : field2 b64) d d',
  (forall i j, phys2 m i j ->
     (if g_enabled g then gravity_speeds2 (H := Fnum) S U G i j else speeds2 (H := Fnum) S U i j) <> S754_zero true) ->
  dt_local2 (H := Fnum) m S g U G d -> dt_local2 (H := Fnum) m S g U G d' -> d = d'.
Proof.
  intros m S g U G d d' Hz (v & HR & ->) (w & HR' & ->). f_equal. destruct (g_enabled g).
  - refine (red_F_unique (fun c => inner2 m (fst c) (snd c)) (fun c => gravity_speeds2 (H := Fnum) S U G (fst c) (snd c)) _ _ _ _ _ _ HR HR').
    + intros [i j] a. reflexivity.
    + intros [i j] _ Hi. apply Hz. apply inner2_phys. exact Hi.
  - refine (red_F_unique (fun c => inner2 m (fst c) (snd c)) (fun c => speeds2 (H := Fnum) S U (fst c) (snd c)) _ _ _ _ _ _ HR HR').
    + intros [i j] a. reflexivity.
    + intros [i j] _ Hi. apply Hz. apply inner2_phys. exact Hi.
Qed.
Print Assumptions C16_order_independent_binary64_2d.

Theorem C16_order_independent_binary64_3d :
  forall m (S : hset b64) g (U G : field3 b64) d d',
  (forall i j k, phys3 m i j k ->
     (if g_enabled g then gravity_speeds3 (H := Fnum) S U G i j k else speeds3 (H := Fnum) S U i j k) <> S754_zero true) ->
  dt_local3 (H := Fnum) m S g U G d -> dt_local3 (H := Fnum) m S g U G d' -> d = d'.
Proof.
  intros m S g U G d d' Hz (v & HR & ->) (w & HR' & ->). f_equal. destruct (g_enabled g).
  - refine (red_F_unique (fun c => inner3 m (fst (fst c)) (snd (fst c)) (snd c)) (fun c => gravity_speeds3 (H := Fnum) S U G (fst (fst c)) (snd (fst c)) (snd c)) _ _ _ _ _ _ HR HR').
    + intros [[i j] k] a. reflexivity.
    + intros [[i j] k] _ Hi. apply Hz. apply inner3_phys. exact Hi.
  - refine (red_F_unique (fun c => inner3 m (fst (fst c)) (snd (fst c)) (snd c)) (fun c => speeds3 (H := Fnum) S U (fst (fst c)) (snd (fst c)) (snd c)) _ _ _ _ _ _ HR HR').
    + intros [[i j] k] a. reflexivity.
    + intros [[i j] k] _ Hi. apply Hz. apply inner3_phys. exact Hi.
Qed.
Print Assumptions C16_order_independent_binary64_3d.

(** ** Cases *)
Local Open Scope Z_scope.

Lemma ex_steppable rs : steppable (ex_set rs 1).
Proof.
  unfold steppable. split; [apply derived_settings_are_sane; lra|]. unfold ex_set, derive; simpl. repeat split; lra.
Qed.

(** A run of the 2D and of the 3D solver with at least one step, from the
    constructor to the final file. *)
Definition ex_config : config (T := R) := mkconfig 1%R 100 2 10.

Lemma unfinished_two {T} {N : Num T} {M D} (P : machine T M D) c s tr s' :
  finished c s = false -> main P c s tr s' -> (2 <= length tr)%nat.
Proof.
  intros Hf (s1 & HL & _).
  assert (Hf' : finished c (main_save P c s) = false).
  { unfold finished in *. destruct (main_save_same P c s) as (-> & -> & _). exact Hf. }
  inversion HL as [|? s2 tr2 ? ? ? HL2]; subst; [congruence|].
  destruct (loop_head P c _ _ _ HL2) as [tl ->]. simpl. lia.
Qed.

Example C13_case_2d : forall iv (s0 : store R), exists mem s tr s',
  let inb := alloc2d ex_mesh2 (nv2 ex_mesh2 no_gravity iv) in
  ready2 ex_mesh2 (ex_set R_HLLC 1) /\ steppable (ex_set R_HLLC 1) /\
  built2 ex_mesh2 inb s0 mem /\ start 0%R 0 mem s /\
  main (hydro2 ex_mesh2 (ex_set R_HLLC 1) no_gravity inb iv) ex_config s tr s' /\ (2 <= length tr)%nat.
Proof.
  intros iv s0. set (inb := alloc2d ex_mesh2 (nv2 ex_mesh2 no_gravity iv)).
  assert (HR : ready2 ex_mesh2 (ex_set R_HLLC 1)) by (apply ex_ready2; [discriminate|simpl; auto]).
  assert (HF : Forall (Forall (in_foot inb)) (make_boundaries2d ex_mesh2 A_U ++ [deep_copy2 (T := R) ex_mesh2 A_U2 A_U])).
  { destruct HR as (Hw & Hg & Hn & Hs & Hr).
    pose proof (godunov2_in_foot ex_mesh2 (ex_set R_HLLC 1) no_gravity 1%R Hs Hr Hw Hg Hn A_U A_U2
                 (or_introl (conj eq_refl eq_refl)) iv Hs) as HF.
    unfold godunov2, godunov2_body in HF. apply Forall_app in HF. destruct HF as [HF1 HF2]. apply Forall_app. split; auto.
    apply Forall_app in HF2. destruct HF2 as [HF2 _]. inversion HF2; subst. constructor; auto. }
  destruct (in_foot_execs inb _ s0 HF) as [mem Hmem].
  set (s := mksol (D := field2 R) 0%R 0%R O 0 [] mem).
  destruct (C14_runs_complete_2d R Rnum ex_mesh2 (ex_set R_HLLC 1) no_gravity iv ex_config s HR) as (tr & s' & HM); [discriminate|].
  exists mem, s, tr, s'. split; auto. split; [apply ex_steppable|]. split; auto. split; [repeat split|].
  split; auto. eapply unfinished_two; [|exact HM]. unfold finished, s, ex_config, eps_end, n1; cbn [s_t c_tEnd c_nStepmax s_it nleb nsub ndiv nZ Rnum].
  destruct (Rle_dec _ _) as [Hle|]; [|reflexivity]. exfalso.
  assert (1 / IZR (10 ^ 14) < 1 / 2)%R.
  { apply Rmult_lt_compat_l; [lra|]. apply Rinv_lt_contravar; [|apply IZR_lt; reflexivity].
    rewrite <- mult_IZR. apply IZR_lt. reflexivity. }
  lra.
Qed.

(** [C14] in double arithmetic: the last step can overshoot the end time by one
    unit in the last place. *)
Module Overshoot.
Definition q := Witness.q.
Definition S : hset b64 :=
  derive (H := Fnum) (q 7 5) (q 1 10000000000) (q 1 10000000000) (q 1 1) (q 1 2) R_HLLC (q 30 1) (q 30 1) (q 30 1).
Definition m : mesh := Witness.m.
Definition c : config (T := b64) := mkconfig (q (2 ^ 52 + 3) (2 ^ 52)) 1000 0 1.
Definition t0 : b64 := q 3 (2 ^ 53).
Definition s : sol (T := b64) (M := store b64) (D := field2 b64) := mksol t0 t0 O 0 [] Witness.s0.
Definition inb := alloc2d m (nv2 m no_gravity V0).
Definition P := hydro2 (H := Fnum) m S no_gravity inb V0.
Definition d : b64 :=
  ndiv (Num := Fnum) (cfl S)
   (fold_left (fun a i => dt_item2 (H := Fnum) m S (field_of A_U Witness.s0) i a) (cells2 m) (max_init (H := Fnum))).
Definition dt : b64 := clamp (H := Fnum) c t0 d.

Lemma ready : ready2 (N := Fnum) m S.
Proof.
  unfold ready2. repeat apply conj; try (simpl; lia); try (left; reflexivity);
  try reflexivity; discriminate.
Qed.

Lemma run : exists tr s', main (H := Fnum) P c s tr s' /\ s_t s' = nadd (Num := Fnum) t0 dt.
Proof.
  destruct (C02_steps_in_bounds b64 Fnum m S no_gravity V0 O [dt] Witness.s0 ready) as [_ [m2 Hm]].
  cbn [steps2] in Hm. rewrite app_nil_r in Hm.
  set (s1 := mksol (D := field2 b64) (nadd (Num := Fnum) t0 dt) dt 1 0 [] m2).
  exists [s; s1], s1. split; [|reflexivity]. exists s1. split; [|reflexivity].
  apply loop_step with (s1 := s1).
  - vm_compute. reflexivity.
  - split; [discriminate|]. exists Witness.s0, d, m2.
    split; [reflexivity|]. split; [|split; [exact Hm|reflexivity]].
    eexists. split; [apply red_chunk|reflexivity].
  - apply loop_done. vm_compute. reflexivity.
Qed.
End Overshoot.

Theorem C14_binary64_overshoot_refuted :
  exists m (S : hset b64) c t0 k0 m0 s tr s',
  ready2 (N := Fnum) m S /\ start t0 k0 m0 s /\ nltb (Num := Fnum) t0 (c_tEnd c) = true /\
  main (H := Fnum) (hydro2 (H := Fnum) m S no_gravity (alloc2d m (nv2 m no_gravity V0)) V0) c s tr s' /\
  nltb (Num := Fnum) (c_tEnd c) (s_t s') = true.
Proof.
  destruct Overshoot.run as (tr & s' & HM & E).
  exists Overshoot.m, Overshoot.S, Overshoot.c, Overshoot.t0, 0, Witness.s0, Overshoot.s, tr, s'.
  split; [exact Overshoot.ready|]. split; [repeat split|]. split; [vm_compute; reflexivity|].
  split; [exact HM|]. rewrite E. vm_compute. reflexivity.
Qed.
Print Assumptions C14_binary64_overshoot_refuted.

(** Numbering starts at 0 unless restarted; two outputs at least. *)
Example C15_case : forall (T : Type) (N : Num T) (M D : Type) (P : machine T M D) c t0 m0 s tr s',
  start t0 0 m0 s -> main P c s tr s' -> c_nOutput c <> 0 ->
  map f_number (firstn 2 (s_files s')) = [0; 1].
Proof.
  intros T N M D P c t0 m0 s tr s' HS HM Ho.
  destruct (C15_files _ _ _ _ _ _ _ _ _ _ _ _ HS HM Ho) as (A & (keep & f & l & _ & _ & _ & _ & _ & _ & _ & F) & _).
  assert (F' : forall A B (R : A -> B -> Prop) l l', Forall2 R l l' -> length l = length l')
    by (induction 1; simpl; auto).
  apply F' in F. cbn [length] in F. rewrite app_length in F. cbn [length] in F.
  destruct (s_files s') as [|f1 [|f2 fs]]; simpl in F; try lia.
  cbn [map length seq] in A. injection A. intros _ E2 E1. simpl. rewrite E1, E2. reflexivity.
Qed.

(** The CFL hypotheses are met by a one-process and a two-process case. *)
Example C16_case : forall U1 U2 G : field2 R, exists ds d,
  Forall2 (fun p d => dt_local2 ex_mesh2 (ex_set R_LLF 1) no_gravity (fst p) (snd p) d) [(U1, G); (U2, G)] ds /\
  allreduce_min ds d.
Proof.
  intros U1 U2 G.
  destruct (dt_local2_exists ex_mesh2 (ex_set R_LLF 1) no_gravity U1 G) as [d1 H1].
  destruct (dt_local2_exists ex_mesh2 (ex_set R_LLF 1) no_gravity U2 G) as [d2 H2].
  exists [d1; d2]. destruct (allreduce_exists [d1; d2]) as [d Hd]; [discriminate|]. exists d. auto.
Qed.
