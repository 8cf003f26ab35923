(** * C13, C14, C16 for the 3D MHD solver: time step, main loop and outputs *)
From Coq Require Import String ZArith List Bool Lia ZifyBool Permutation Reals Lra Psatz Floats.SpecFloat.
Import ListNotations.
From Verif Require Import Num Exec ExecFacts Grid GridFacts Boundaries BoundariesSpec
  BoundariesFacts BoundariesFill BoundariesNarrow HydroNum Kernels KernelFacts Atomics
  Hydro2D Hydro2DSpec Hydro2DFacts Hydro2DStep Determ Hydro2DRun EulerSpec HydroPhysics
  HydroRiemann PropPhysics Sums Hydro2DLaws Binary64 Doomed PropHydro2D
  Hydro3D Hydro3DSpec Hydro3DFacts Hydro3DStep Hydro3DRun Hydro3DLaws
  TimeStep TimeStepFacts Driver DriverFacts HydroMachine PropDriver
  MhdNum MhdFacts MhdSpec MhdPhysics MhdMachine PropMhdDriver
  Mhd3DNum Mhd3D Mhd3DSpec Mhd3DFacts Mhd3DStep Mhd3DV2 Mhd3DRun PropMhd3D Mhd3DMachine.
Local Open Scope Z_scope.
Local Notation length := List.length.

(** ** C13 *)

(** The solver state at iteration [n] represents [u]. *)
Definition mholds3 {T} (m : mesh) (n : nat) (s : store T) (u : field3 T) : Prop :=
  msame3 m (field_of3 (in_array n) s) u.

Lemma mready3_ext {T} {N : Num T} m (S : hset T) ain aout U U' s :
  (forall i j k v, cell3 m i j k -> 0 <= v < 8 -> U i j k v = U' i j k v) ->
  0 <= gw m -> Mhd3DStep.ready3 m S ain aout U s -> Mhd3DStep.ready3 m S ain aout U' s.
Proof.
  intros HU Hg (A & B & C). split; [|split].
  - intros. rewrite <- HU; auto.
  - intros. rewrite <- HU; auto.
  - intros i j k Hi Hj Hk. rewrite C by auto. unfold mQ3, mstate3.
    rewrite !HU by (unfold cell3, cell2, isize, jsize, ksize, ID, IP, IU, IV, IW, IA, IB, IC in *; lia). reflexivity.
Qed.

Lemma mdt_local3_ext {T} {N : Num T} m (S : hset T) Q Q' d :
  (forall i j k, phys3 m i j k -> Q i j k = Q' i j k) -> mdt_local3 m S Q d -> mdt_local3 m S Q' d.
Proof.
  intros HQ (v & HR & ->). exists v. split; [|reflexivity]. revert HR.
  apply reduction_ext. intros [[i j] k] a _. unfold mdt_item3, mspeeds3.
  destruct (inner3 m i j k) eqn:Hi; auto. apply inner3_phys in Hi. rewrite HQ by auto. reflexivity.
Qed.

Lemma mready3_Q {T} {N : Num T} m (S : hset T) ain aout U s i j k : 1 <= gw m -> Mhd3DStep.ready3 m S ain aout U s ->
  phys3 m i j k -> getm s (mkloc A_Q i j k) = mQ3 S U i j k.
Proof. intros Hg (_ & _ & C) [[Hi Hj] Hk]. apply C; unfold physical, isize, jsize, ksize in *; lia. Qed.

(** The scheme, from the state left by the first part of the step. *)
Definition mscheme_ok3 {T} {N : Num T} m (S : hset T) inb iv : Prop :=
  forall dt n U s s', Mhd3DStep.ready3 m S (in_array n) (out_array n) U s ->
    execs inb s (mscheme3 m S dt iv (in_array n) (out_array n)) s' ->
    msame3 m (field_of3 (out_array n) s') (mstepv3 iv S dt U).

Lemma mscheme_ok3_V0 {T} {N : Num T} m (S : hset T) inb : mready3 V0 m S -> mscheme_ok3 m S inb V0.
Proof.
  intros (Hw & Hg & Hn & Hr & Hs) dt n U s s' HR Hex i j k v Hp Hv.
  destruct (mscheme3_V0 m S dt inb Hr Hg _ _ (io_buffers n) U s s' HR Hex) as (A & _).
  rewrite mstepv3_V0. exact (A i j k v Hp Hv).
Qed.

Lemma mscheme_ok3_R m (S : hset R) inb iv : mready3 iv m S -> mscheme_ok3 m S inb iv.
Proof.
  intros HM. pose proof HM as (Hw & Hg & Hn & Hr & Hs).
  destruct iv; [apply mscheme_ok3_V0; auto| |]; intros dt n U s s' HR Hex i j k v Hp Hv.
  - destruct (mscheme3_V1 m S dt inb Hr Hg _ _ (io_buffers n) U s s' HR Hex) as (A & _).
    unfold field_of3. apply mbalance_any3_R. apply A; auto.
  - destruct (mscheme3_V2 m S dt inb (Hs eq_refl) Hr Hg _ _ (io_buffers n) U s s' HR Hex) as (A & _).
    unfold field_of3. apply mbalance_any3_R. apply A; auto.
Qed.

Lemma mhd3_sim {T} {N : Num T} {O : NumOne T} m (S : hset T) inb iv c s tr s' z :
  mready3 iv m S -> mscheme_ok3 m S inb iv ->
  same_sol (mholds3 m) (msame3 m) s z ->
  main (mhd3 m S inb iv) c s tr s' ->
  exists ztr z', main (mideal3 m S iv) c z ztr z' /\
    Forall2 (same_sol (mholds3 m) (msame3 m)) tr ztr /\ same_sol (mholds3 m) (msame3 m) s' z'.
Proof.
  intros (Hw & Hg & Hn & Hr & Hs) Hok.
  eapply sim_main with (Rel' := fun n s u => Mhd3DStep.ready3 m S (in_array n) (out_array n) (extend3 m u) s).
  - intros n a a' b HR Hex. exists b. split; [reflexivity|].
    pose proof (mprefix_ready3 m S inb Hw Hn _ _ (io_buffers n) a a' Hex) as HP.
    revert HP. apply mready3_ext; [|lia]. intros i j k v Hc Hv. apply mextend3_ext; auto.
  - intros n a b d HR Hd. cbn [local_dt mhd3 mideal3] in *. revert Hd. apply mdt_local3_ext.
    intros i j k Hp. eapply mready3_Q; [|exact HR|exact Hp]. lia.
  - intros dt n a a' b HR Hx. cbn [after mhd3 mideal3] in *. eexists. split; [reflexivity|].
    unfold mholds3. change (in_array (Datatypes.S n)) with (cur (Datatypes.S n)). rewrite cur_S.
    exact (Hok dt n _ a a' HR Hx).
  - intros n a b HU. exact HU.
Qed.

Lemma mbuilt3_holds {T} {N : Num T} {O : NumOne T} m (S : hset T) iv inb (s0 s : store T) : mready3 iv m S ->
  mbuilt3 m S inb s0 s -> mholds3 m 0 s (field_of3 A_U s0).
Proof.
  intros (Hw & Hg & Hn & Hr & Hs) HB. apply execs_app in HB. destruct HB as (s1 & H1 & H2).
  destruct (fill3d_spec m A_U inb s0 s1 Hw H1) as (A & B & C).
  inversion H2; subst. inversion H6; subst. inversion H8; subst.
  destruct (deep_copy_spec3 m inb A_U2 A_U _ _ ltac:(discriminate) ltac:(lia) H4) as (D & E).
  destruct (mconvert_spec3 m S inb A_U _ _ ltac:(left; reflexivity) H5) as (F & G).
  intros i j k v Hp Hv. unfold field_of3, in_array. simpl. rewrite G by discriminate. rewrite E by discriminate. apply B. auto.
Qed.

(** Every run of the 3D MHD solver, from the constructor to the last file, is a run
    of the specification that has a single state: same times, time steps,
    iteration and file counters, and files with the same contents. *)
Theorem C13_mhd3d_two_buffers_act_as_one_state :
  forall (T : Type) (N : Num T) (O : NumOne T) m (S : hset T) inb c t0 k0 s0 mem s tr s',
  mready3 V0 m S -> mbuilt3 m S inb s0 mem -> start t0 k0 mem s ->
  main (mhd3 m S inb V0) c s tr s' ->
  exists ztr z',
    main (mideal3 m S V0) c (mksol t0 (s_dt s) 0 k0 [] (field_of3 A_U s0)) ztr z' /\
    Forall2 (same_sol (mholds3 m) (msame3 m)) tr ztr /\ same_sol (mholds3 m) (msame3 m) s' z'.
Proof.
  intros T N O m S inb c t0 k0 s0 mem s tr s' HR HB HS HM.
  eapply mhd3_sim; eauto using mscheme_ok3_V0.
  apply start_same with (mem := mem); auto. eapply mbuilt3_holds; eauto.
Qed.
Print Assumptions C13_mhd3d_two_buffers_act_as_one_state.

(** In exact arithmetic for the three versions. *)
Theorem C13_mhd3d_two_buffers_act_as_one_state_exact :
  forall m (S : hset R) inb iv c t0 k0 s0 mem s tr s',
  mready3 iv m S -> mbuilt3 m S inb s0 mem -> start t0 k0 mem s ->
  main (mhd3 m S inb iv) c s tr s' ->
  exists ztr z',
    main (mideal3 m S iv) c (mksol t0 (s_dt s) 0 k0 [] (field_of3 A_U s0)) ztr z' /\
    Forall2 (same_sol (mholds3 m) (msame3 m)) tr ztr /\ same_sol (mholds3 m) (msame3 m) s' z'.
Proof.
  intros m S inb iv c t0 k0 s0 mem s tr s' HR HB HS HM.
  eapply mhd3_sim; eauto using mscheme_ok3_R.
  apply start_same with (mem := mem); auto. eapply mbuilt3_holds; eauto.
Qed.
Print Assumptions C13_mhd3d_two_buffers_act_as_one_state_exact.

(** ** C16 *)
Local Open Scope R_scope.

Section Cfl.
Variable S : hset R.
Hypothesis HS : steppable S.
Variable m : mesh.
Hypothesis Hw : wide3 m.

Lemma mQ3_adm U i j k : mhd_sane S /\ mhd_adm (mQ3 S U i j k).
Proof.
  destruct HS as ((H1 & H2 & H3 & H4 & _) & _).
  split; [split; auto|]. unfold mhd_adm, mQ3, prim_mhd. cbn [md mp]. Rn.
  pose proof (Rmax_r (md (mstate3 U i j k)) (smallr S)).
  split; [lra|]. eapply Rlt_le_trans; [|apply Rmax_r]. rewrite H4.
  apply Rmult_lt_0_compat; [lra|]. apply Rdiv_lt_0_compat; nra.
Qed.

(** What the CFL condition bounds in a cell: a magnetosonic speed and the flow
    speed along each axis. *)
Definition crossing3 (q : ms R) (wx wy wz : R) : R :=
  (wx + Rabs (mu q)) / dx S + (wy + Rabs (mv q)) / dy S + (wz + Rabs (mw q)) / dz S.

Definition waves3 (q : ms R) (wx wy wz : R) : Prop :=
  magnetosonic_speed S q (ma q) wx /\ magnetosonic_speed S q (mb q) wy /\ magnetosonic_speed S q (mc q) wz.

Lemma mspeeds3_crossing Q i j k : mspeeds3 S Q i j k =
  crossing3 (Q i j k) (fast S (Q i j k) (ma (Q i j k))) (fast S (Q i j k) (mb (Q i j k))) (fast S (Q i j k) (mc (Q i j k))).
Proof. reflexivity. Qed.

Lemma fast_waves3 q : mhd_adm q -> waves3 q (fast S q (ma q)) (fast S q (mb q)) (fast S q (mc q)).
Proof.
  intros Ha. destruct HS as ((H1 & H2 & H3 & _) & _). assert (Hs : mhd_sane S) by (split; auto).
  destruct (bn_le q) as (B1 & B2 & B3).
  split; [|split]; (split; [left; apply fast_pos; auto|apply fast_root; auto]).
Qed.

Lemma crossing3_pos q : mhd_adm q -> 0 < crossing3 q (fast S q (ma q)) (fast S q (mb q)) (fast S q (mc q)).
Proof.
  intros Ha. destruct HS as ((H1 & H2 & H3 & H4 & _) & _ & Hx & Hy & Hz).
  assert (Hs : mhd_sane S) by (split; auto). destruct (bn_le q) as (B1 & B2 & B3).
  pose proof (fast_pos S Hs q Ha _ B1). pose proof (fast_pos S Hs q Ha _ B2). pose proof (fast_pos S Hs q Ha _ B3).
  unfold crossing3. pose proof (Rabs_pos (mu q)). pose proof (Rabs_pos (mv q)). pose proof (Rabs_pos (mw q)).
  repeat apply Rplus_lt_0_compat; apply Rdiv_lt_0_compat; auto; lra.
Qed.

(** No waves cross more than the fast ones. *)
Lemma crossing3_max q wx wy wz : mhd_adm q -> waves3 q wx wy wz ->
  0 <= crossing3 q wx wy wz <= crossing3 q (fast S q (ma q)) (fast S q (mb q)) (fast S q (mc q)).
Proof.
  intros Ha (Hx & Hy & Hz). destruct (bn_le q) as (B1 & B2 & B3).
  pose proof (fast_upper S HS q _ wx Ha B1 Hx) as Fx. pose proof (fast_upper S HS q _ wy Ha B2 Hy) as Fy.
  pose proof (fast_upper S HS q _ wz Ha B3 Hz) as Fz.
  destruct HS as (_ & _ & Dx & Dy & Dz).
  assert (HM : forall a b h, 0 < h -> 0 <= a -> a <= b -> 0 <= a / h <= b / h).
  { intros a b h Hh Ha0 Hab. pose proof (Rinv_0_lt_compat h Hh). unfold Rdiv. split; [apply Rmult_le_pos; lra|].
    apply Rmult_le_compat_r; lra. }
  pose proof (Rabs_pos (mu q)). pose proof (Rabs_pos (mv q)). pose proof (Rabs_pos (mw q)).
  destruct Hx as [Hx0 _]. destruct Hy as [Hy0 _]. destruct Hz as [Hz0 _]. unfold crossing3.
  pose proof (HM (wx + Rabs (mu q)) (fast S q (ma q) + Rabs (mu q)) (dx S) Dx ltac:(lra) ltac:(lra)).
  pose proof (HM (wy + Rabs (mv q)) (fast S q (mb q) + Rabs (mv q)) (dy S) Dy ltac:(lra) ltac:(lra)).
  pose proof (HM (wz + Rabs (mw q)) (fast S q (mc q) + Rabs (mw q)) (dz S) Dz ltac:(lra) ltac:(lra)).
  lra.
Qed.

Lemma mdt_local3_bound Q d : (forall i j k, phys3 m i j k -> mhd_adm (Q i j k)) -> mdt_local3 m S Q d ->
  0 < d /\ (forall i j k, phys3 m i j k -> d * mspeeds3 S Q i j k <= cfl S) /\
  exists i j k, phys3 m i j k /\ d * mspeeds3 S Q i j k = cfl S.
Proof.
  intros HQ (v & HR & Hd). destruct (wide3_phys m Hw) as (Hgw & i0 & j0 & k0 & H0).
  pose proof HS as (_ & Hc & _).
  destruct (inv_dt S Hc (mdt_item3 m S Q) (fun c => inner3 m (fst (fst c)) (snd (fst c)) (snd c))
     (fun c => mspeeds3 S Q (fst (fst c)) (snd (fst c)) (snd c)) (cells3 m) v d) as (A & B & ((i & j) & k) & C1 & C2 & C3); auto.
  - intros [[i j] k] a. reflexivity.
  - intros [[i j] k] _ Hi. cbn [fst snd] in *. rewrite mspeeds3_crossing. apply crossing3_pos. apply HQ. apply inner3_phys. exact Hi.
  - exists (i0, j0, k0). split; [apply phys_cells3|apply inner3_phys]; auto.
  - split; auto. split.
    + intros i' j' k' Hp. apply (B (i', j', k')); [apply phys_cells3|apply inner3_phys]; auto.
    + exists i, j, k. split; auto. apply inner3_phys; auto.
Qed.

(** The bound in terms of the waves. *)
Lemma mdt_local3_waves U d e : mdt_local3 m S (mQ3 S U) d -> 0 <= e <= d ->
  forall i j k wx wy wz, phys3 m i j k -> waves3 (mQ3 S U i j k) wx wy wz ->
    e * crossing3 (mQ3 S U i j k) wx wy wz <= cfl S.
Proof.
  intros HD He i j k wx wy wz Hp HW.
  destruct (mdt_local3_bound (mQ3 S U) d (fun i j k _ => proj2 (mQ3_adm U i j k)) HD) as (_ & HB & _).
  specialize (HB i j k Hp). rewrite mspeeds3_crossing in HB. eapply Rle_trans; [|exact HB].
  destruct (crossing3_max _ _ _ _ (proj2 (mQ3_adm U i j k)) HW).
  apply Rmult_le_compat; lra.
Qed.
End Cfl.

Lemma mhd3_step_pos m (S : hset R) inb iv n a s d : mready3 iv m S -> steppable S ->
  before (mhd3 m S inb iv) n a s -> local_dt (mhd3 m S inb iv) n s d -> 0 < d.
Proof.
  intros HR HS Hb Hd. pose proof HR as (Hw & Hg & Hn & _). cbn [before local_dt mhd3] in *.
  pose proof (mprefix_ready3 m S inb Hw Hn _ _ (io_buffers n) a s Hb) as HP.
  eapply (mdt_local3_bound S HS m Hw); [|exact Hd]. intros i j k Hp. cbv beta.
  rewrite (mready3_Q m S _ _ _ s i j k ltac:(lia) HP Hp). apply mQ3_adm. auto.
Qed.

(** The time step used never exceeds the CFL bound in any physical cell, in any
    iteration of any run: with [q] the primitive state of the cell (of the field
    found at the loop head, ghosts filled in), no wave - none of the fast and slow
    magnetosonic waves - crosses more than the fraction [cfl] of a cell, the three
    directions added together. *)
Theorem C16_mhd3d_cfl_bound :
  forall m (S : hset R) inb iv c t0 k0 m0 s tr s',
  mready3 iv m S -> steppable S ->
  start t0 k0 m0 s -> t0 <= c_tEnd c -> main (mhd3 m S inb iv) c s tr s' ->
  forall n x, (Datatypes.S n < length tr)%nat ->
  let U := extend3 m (field_of3 (in_array n) (s_mem (nth n tr x))) in
  let dt := s_dt (nth (Datatypes.S n) tr x) in
  0 < dt /\
  forall i j k wx wy wz, phys3 m i j k ->
    let q := mQ3 S U i j k in
    magnetosonic_speed S q (ma q) wx -> magnetosonic_speed S q (mb q) wy -> magnetosonic_speed S q (mc q) wz ->
    dt * ((wx + Rabs (mu q)) / dx S + (wy + Rabs (mv q)) / dy S + (wz + Rabs (mw q)) / dz S) <= cfl S.
Proof.
  intros m S inb iv c t0 k0 m0 s tr s' HR HS Hst Ht HM n x Hk U dt.
  pose proof HR as (Hw & Hg & Hn & _).
  destruct (timely_main (mhd3 m S inb iv) c t0 k0 m0 s tr s') as (s1 & (A & B & _) & _); auto.
  { intros. eapply mhd3_step_pos; eauto. }
  destruct (A n x Hk) as (Hlt & d & m1 & Hd & Hm1 & HD & Hdt & Htm).
  assert (Hit : s_it (nth n tr x) = n).
  { destruct HM as (s2 & HL & _). destruct (loop_it _ c _ _ _ HL) as (_ & _ & I3 & _). rewrite I3 by lia.
    destruct (main_save_same (mhd3 m S inb iv) c s) as (_ & -> & _). destruct Hst as (_ & -> & _). reflexivity. }
  rewrite Hit in *. cbn [before local_dt mhd3] in Hm1, HD.
  pose proof (mprefix_ready3 m S inb Hw Hn _ _ (io_buffers n) _ m1 Hm1) as HP. fold U in HP. fold dt in Hdt.
  assert (HQ : forall i j k, phys3 m i j k -> getm m1 (mkloc A_Q i j k) = mQ3 S U i j k).
  { intros. eapply mready3_Q; [|exact HP|auto]. lia. }
  apply (mdt_local3_ext _ _ _ _ _ HQ) in HD.
  assert (Hle : dt <= d) by (rewrite Hdt; apply Rmin_l).
  assert (Hp : 0 < dt).
  { rewrite Hdt. apply Rmin_pos; auto. pose proof (B (nth (Datatypes.S n) tr x)). specialize (H ltac:(apply nth_In; lia)). lra. }
  split; auto. intros i j k wx wy wz Hph q Hx Hy Hz.
  apply (mdt_local3_waves S HS m Hw U d dt HD ltac:(lra) i j k wx wy wz Hph). split; auto.
Qed.
Print Assumptions C16_mhd3d_cfl_bound.

(** The bound is attained, by the fast waves of some physical cell: the step is as
    large as CFL allows. *)
Theorem C16_mhd3d_cfl_attained :
  forall m (S : hset R) (U : field3 R) d,
  wide3 m -> steppable S -> mdt_local3 m S (mQ3 S U) d ->
  exists i j k wx wy wz, phys3 m i j k /\ let q := mQ3 S U i j k in
    magnetosonic_speed S q (ma q) wx /\ magnetosonic_speed S q (mb q) wy /\ magnetosonic_speed S q (mc q) wz /\
    d * ((wx + Rabs (mu q)) / dx S + (wy + Rabs (mv q)) / dy S + (wz + Rabs (mw q)) / dz S) = cfl S.
Proof.
  intros m S U d Hw HS HD.
  destruct (mdt_local3_bound S HS m Hw (mQ3 S U) d (fun i j k _ => proj2 (mQ3_adm S HS U i j k)) HD) as (_ & _ & i & j & k & Hp & E).
  destruct (fast_waves3 S HS (mQ3 S U i j k) (proj2 (mQ3_adm S HS U i j k))) as (W1 & W2 & W3).
  do 6 eexists. split; [exact Hp|]. split; [exact W1|]. split; [exact W2|]. split; [exact W3|]. exact E.
Qed.
Print Assumptions C16_mhd3d_cfl_attained.

Lemma mdt_local3_unique m (S : hset R) Q d d' : mdt_local3 m S Q d -> mdt_local3 m S Q d' -> d = d'.
Proof.
  intros (v & HR & ->) (w & HR' & ->). f_equal.
  refine (red_R_unique (fun c => inner3 m (fst (fst c)) (snd (fst c)) (snd c))
    (fun c => mspeeds3 S Q (fst (fst c)) (snd (fst c)) (snd c)) _ _ _ _ _ _ HR HR').
  intros [[i j] k] a. reflexivity.
Qed.

(** Several processes: the global step bounds every cell of every process, and
    does not depend on how the two reductions are carried out. *)
Theorem C16_mhd3d_all_processes :
  forall m (S : hset R) (procs : list (field3 R)) ds d,
  wide3 m -> steppable S ->
  Forall2 (fun U d => mdt_local3 m S (mQ3 S U) d) procs ds -> allreduce_min ds d ->
  (0 < d /\ forall U i j k wx wy wz, In U procs -> phys3 m i j k ->
     let q := mQ3 S U i j k in
     magnetosonic_speed S q (ma q) wx -> magnetosonic_speed S q (mb q) wy -> magnetosonic_speed S q (mc q) wz ->
     d * ((wx + Rabs (mu q)) / dx S + (wy + Rabs (mv q)) / dy S + (wz + Rabs (mw q)) / dz S) <= cfl S) /\
  forall ds' d', Forall2 (fun U d => mdt_local3 m S (mQ3 S U) d) procs ds' -> allreduce_min ds' d' -> d' = d.
Proof.
  intros m S procs ds d Hw HS HF HA.
  assert (HL : forall U d, mdt_local3 m S (mQ3 S U) d -> 0 < d).
  { intros U d0 Hd0.
    destruct (mdt_local3_bound S HS m Hw (mQ3 S U) d0 (fun i j k _ => proj2 (mQ3_adm S HS U i j k)) Hd0) as (A & B & _). auto. }
  destruct (allreduce_R _ _ HA) as [A1 A2].
  assert (Hd : 0 < d).
  { assert (Hall : Forall (fun d => 0 < d) ds).
    { clear - HF HL. induction HF; constructor; auto. eapply HL; eauto. }
    rewrite Forall_forall in Hall. auto. }
  split; [split; auto|].
  - intros U i j k wx wy wz Hin Hp q Hx Hy Hz.
    assert (exists d0, In d0 ds /\ mdt_local3 m S (mQ3 S U) d0) as (d0 & Hd0 & Hl).
    { clear - HF Hin. induction HF; [destruct Hin|]. destruct Hin as [->|Hin]; [exists y; simpl; auto|].
      destruct (IHHF Hin) as (d0 & ? & ?). exists d0. simpl; auto. }
    specialize (A2 d0 Hd0). pose proof (HL U d0 Hl).
    apply (mdt_local3_waves S HS m Hw U d0 d Hl ltac:(lra) i j k wx wy wz Hp). split; auto.
  - intros ds' d' HF' HA'.
    assert (ds' = ds).
    { clear - HF HF'. revert ds' HF'. induction HF; intros ds' HF'; inversion HF'; subst; auto. f_equal; auto.
      eapply mdt_local3_unique; eauto. }
    subst ds'. destruct (allreduce_R _ _ HA') as [B1 B2].
    apply Rle_antisym; auto.
Qed.
Print Assumptions C16_mhd3d_all_processes.

(** In IEEE double arithmetic too the reduction tree does not matter, NaN cells
    included; only a cell with speed -0 could make a difference. *)
Theorem C16_mhd3d_order_independent_binary64 :
  forall m (S : hset b64) (Q : Z -> Z -> Z -> ms b64) d d',
  (forall i j k, phys3 m i j k -> mspeeds3 (H := Fnum) S Q i j k <> S754_zero true) ->
  mdt_local3 (H := Fnum) m S Q d -> mdt_local3 (H := Fnum) m S Q d' -> d = d'.
Proof.
  intros m S Q d d' Hz (v & HR & ->) (w & HR' & ->). f_equal.
  refine (red_F_unique (fun c => inner3 m (fst (fst c)) (snd (fst c)) (snd c))
    (fun c => mspeeds3 (H := Fnum) S Q (fst (fst c)) (snd (fst c)) (snd c)) _ _ _ _ _ _ HR HR').
  - intros [[i j] k] a. reflexivity.
  - intros [[i j] k] _ Hi. apply Hz. apply inner3_phys. exact Hi.
Qed.
Print Assumptions C16_mhd3d_order_independent_binary64.

(** ** C14 *)
Theorem C14_mhd3d_end_time :
  forall m (S : hset R) inb iv c t0 k0 m0 s tr s',
  mready3 iv m S -> steppable S ->
  start t0 k0 m0 s -> t0 <= c_tEnd c -> main (mhd3 m S inb iv) c s tr s' ->
  exists s1, timely (mhd3 m S inb iv) c t0 tr s1 /\ s' = main_save (mhd3 m S inb iv) c s1.
Proof. intros. eapply timely_main; eauto. intros. eapply mhd3_step_pos; eauto. Qed.
Print Assumptions C14_mhd3d_end_time.

(** No execution gets stuck. *)
Theorem C14_mhd3d_runs_complete :
  forall (T : Type) (N : Num T) m (S : hset T) iv c s,
  mready3 iv m S -> c_nlog c <> 0%Z ->
  exists tr s', main (mhd3 m S (alloc3d m (mnv3 m iv)) iv) c s tr s'.
Proof.
  intros T N m S iv c s HR Hl. set (P := mhd3 m S (alloc3d m (mnv3 m iv)) iv).
  destruct (loop_exists P c (main_save P c s)) as (tr & s1 & HL).
  - intros x _. set (y := maybe_save P c x). pose proof HR as (Hw & Hg & Hn & Hr & Hs).
    assert (HF : forall dt, Forall (Forall (in_foot (alloc3d m (mnv3 m iv))))
        (mgodunov3 m S dt iv (in_array (s_it y)) (out_array (s_it y)))).
    { intros dt. apply mgodunov3_in_foot; auto using io_buffers. }
    assert (HF1 : Forall (Forall (in_foot (alloc3d m (mnv3 m iv)))) (mprefix3 m S (in_array (s_it y)) (out_array (s_it y)))).
    { specialize (HF n0). apply Forall_app in HF. tauto. }
    destruct (in_foot_execs _ _ (s_mem y) HF1) as [m1 Hm1].
    set (Q := fun i j k => getm m1 (mkloc A_Q i j k)).
    set (d := ndiv (cfl S) (fold_left (fun a i => mdt_item3 m S Q i a) (cells3 m) max_init)).
    assert (HF2 : Forall (Forall (in_foot (alloc3d m (mnv3 m iv))))
       (mscheme3 m S (clamp c (s_t y) d) iv (in_array (s_it y)) (out_array (s_it y)))).
    { specialize (HF (clamp c (s_t y) d)). apply Forall_app in HF. tauto. }
    destruct (in_foot_execs _ _ m1 HF2) as [m2 Hm2].
    eexists. split; [exact Hl|]. exists m1, d, m2.
    split; [exact Hm1|]. split; [|split; [exact Hm2|reflexivity]].
    eexists. split; [apply red_chunk|reflexivity].
  - exists tr, (main_save P c s1). exists s1. auto.
Qed.
Print Assumptions C14_mhd3d_runs_complete.

(** ** Cases *)
Local Open Scope Z_scope.

(** A run of the 3D MHD solver with at least one step, from the constructor to the
    final file. *)
Example C13_mhd3d_case : forall iv (s0 : store R), exists mem s tr s',
  let inb := alloc3d ex_mhd_walls3 (mnv3 ex_mhd_walls3 iv) in
  mready3 iv ex_mhd_walls3 (ex_set R_HLLD 1) /\ steppable (ex_set R_HLLD 1) /\
  mbuilt3 ex_mhd_walls3 (ex_set R_HLLD 1) inb s0 mem /\ start 0%R 0 mem s /\
  main (mhd3 ex_mhd_walls3 (ex_set R_HLLD 1) inb iv) ex_config s tr s' /\ (2 <= length tr)%nat.
Proof.
  intros iv s0. set (inb := alloc3d ex_mhd_walls3 (mnv3 ex_mhd_walls3 iv)).
  assert (HR : mready3 iv ex_mhd_walls3 (ex_set R_HLLD 1)) by (apply ex_mready3; try discriminate; simpl; auto).
  assert (HF : Forall (Forall (in_foot inb)) (mprefix3 ex_mhd_walls3 (ex_set R_HLLD 1) A_U A_U2)).
  { destruct HR as (Hw & Hg & Hn & Hr & Hs). apply mprefix3_in_foot; auto. left; auto. }
  destruct (in_foot_execs inb _ s0 HF) as [mem Hmem].
  set (s := mksol (D := field3 R) 0%R 0%R O 0 [] mem).
  destruct (C14_mhd3d_runs_complete R Rnum ex_mhd_walls3 (ex_set R_HLLD 1) iv ex_config s HR) as (tr & s' & HM); [discriminate|].
  exists mem, s, tr, s'. split; auto. split; [apply ex_steppable|]. split; [exact Hmem|]. split; [repeat split|].
  split; auto. eapply unfinished_two; [|exact HM]. unfold finished, s, ex_config, eps_end, n1; cbn [s_t c_tEnd c_nStepmax s_it nleb nsub ndiv nZ Rnum].
  destruct (Rle_dec _ _) as [Hle|]; [|reflexivity]. exfalso.
  assert (1 / IZR (10 ^ 14) < 1 / 2)%R.
  { apply Rmult_lt_compat_l; [lra|]. apply Rinv_lt_contravar; [|apply IZR_lt; reflexivity].
    rewrite <- mult_IZR. apply IZR_lt. reflexivity. }
  lra.
Qed.

Example C16_mhd3d_case : forall U1 U2 : field3 R, exists ds d,
  Forall2 (fun U d => mdt_local3 ex_mhd3 (ex_set R_HLLD 1) (mQ3 (ex_set R_HLLD 1) U) d) [U1; U2] ds /\
  allreduce_min ds d.
Proof.
  intros U1 U2.
  assert (HE : forall U, exists d, mdt_local3 ex_mhd3 (ex_set R_HLLD 1) (mQ3 (ex_set R_HLLD 1) U) d).
  { intros U. eexists. eexists. split; [apply red_chunk|reflexivity]. }
  destruct (HE U1) as [d1 H1]. destruct (HE U2) as [d2 H2].
  exists [d1; d2]. destruct (allreduce_exists [d1; d2]) as [d Hd]; [discriminate|]. exists d. auto.
Qed.
