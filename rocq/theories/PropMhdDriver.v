(** * C13, C14, C16 for the 2D MHD solver: time step, main loop and outputs *)
From Coq Require Import String ZArith List Bool Lia ZifyBool Permutation Reals Lra Psatz Floats.SpecFloat.
Import ListNotations.
From Verif Require Import Num Exec ExecFacts Grid GridFacts Boundaries BoundariesSpec
  BoundariesFacts BoundariesFill BoundariesNarrow HydroNum Kernels KernelFacts Atomics
  Hydro2D Hydro2DSpec Hydro2DFacts Hydro2DStep Determ Hydro2DRun EulerSpec HydroPhysics
  HydroRiemann PropPhysics Sums Hydro2DLaws Binary64 Doomed PropHydro2D
  TimeStep TimeStepFacts Driver DriverFacts HydroMachine PropDriver
  MhdNum Mhd2D Mhd2DSpec MhdFacts Mhd2DFacts Mhd2DStep Mhd2DV2 Mhd2DAgree Mhd2DRun
  MhdSpec MhdPhysics Mhd2DLaws Mhd2DDoomed PropMhd2D MhdMachine.
Local Open Scope Z_scope.
Local Notation length := List.length.

(** ** C13 *)

(** The solver state at iteration [n] represents [u]. *)
Definition mholds2 {T} (m : mesh) (n : nat) (s : store T) (u : field2 T) : Prop :=
  msame m (field_of (in_array n) s) u.

Lemma io_buffers n : buffers (in_array n) (out_array n).
Proof. exact (cur_nxt n). Qed.

Lemma ready_ext {T} {N : Num T} m (S : hset T) ain aout U U' s :
  (forall i j v, cell2 m i j -> 0 <= v < 8 -> U i j v = U' i j v) ->
  0 <= gw m -> ready m S ain aout U s -> ready m S ain aout U' s.
Proof.
  intros HU Hg (A & B & C). split; [|split].
  - intros. rewrite <- HU; auto.
  - intros. rewrite <- HU; auto.
  - intros i j Hi Hj. rewrite C by auto. apply mQ_ext. intros. apply HU; auto.
    unfold cell2, isize, jsize in *. lia.
Qed.

Lemma mdt_local2_ext {T} {N : Num T} m (S : hset T) Q Q' d :
  (forall i j, phys2 m i j -> Q i j = Q' i j) -> mdt_local2 m S Q d -> mdt_local2 m S Q' d.
Proof.
  intros HQ (v & HR & ->). exists v. split; [|reflexivity]. revert HR.
  apply reduction_ext. intros [i j] a _. unfold mdt_item2, mspeeds2.
  destruct (inner2 m i j) eqn:Hi; auto. apply inner2_phys in Hi. rewrite HQ by auto. reflexivity.
Qed.

Lemma ready_Q {T} {N : Num T} m (S : hset T) ain aout U s i j : 1 <= gw m -> ready m S ain aout U s ->
  phys2 m i j -> getm s (L2 A_Q i j) = mQ S U i j.
Proof. intros Hg (_ & _ & C) [Hi Hj]. apply C; unfold physical, isize, jsize in *; lia. Qed.

(** The scheme, from the state left by the first part of the step. *)
Definition mscheme_ok {T} {N : Num T} m (S : hset T) inb iv : Prop :=
  forall dt n U s s', ready m S (in_array n) (out_array n) U s ->
    execs inb s (mscheme2 m S dt iv (in_array n) (out_array n)) s' ->
    msame m (field_of (out_array n) s') (mstep2 S dt U).

Lemma mscheme_ok_V0 {T} {N : Num T} m (S : hset T) inb : mready2 m S -> mscheme_ok m S inb V0.
Proof.
  intros (Hw & Hg & Hn & Hs & Hr) dt n U s s' HR Hex i j v Hp Hv.
  destruct (mscheme_V0 m S dt inb Hs Hr Hg _ _ (io_buffers n) U s s' HR Hex) as (A & _).
  exact (A i j v Hp Hv).
Qed.

Lemma mscheme_ok_R m (S : hset R) inb iv : mready2 m S -> mscheme_ok m S inb iv.
Proof.
  intros HM. pose proof HM as (Hw & Hg & Hn & Hs & Hr).
  destruct iv; [apply mscheme_ok_V0; auto| |]; intros dt n U s s' HR Hex i j v Hp Hv.
  - destruct (mscheme_V1 m S dt inb Hs Hr Hg _ _ (io_buffers n) U s s' HR Hex) as (A & _).
    unfold field_of. apply mbalance_any_R. apply A; auto.
  - destruct (mscheme_V2 m S dt inb Hs Hr Hg _ _ (io_buffers n) U s s' HR Hex) as (A & _).
    unfold field_of. rewrite (mbalance_any_R _ _ _ _ _ _ _ _ _ _ (A i j v Hp Hv)).
    unfold mstep2. apply mbalance_ext; intros; [apply vFX_eq|apply vFY_eq|apply vE_eq]; auto.
Qed.

Lemma mhd2_sim {T} {N : Num T} {O : NumOne T} m (S : hset T) inb iv c s tr s' z :
  mready2 m S -> mscheme_ok m S inb iv ->
  same_sol (mholds2 m) (msame m) s z ->
  main (mhd2 m S inb iv) c s tr s' ->
  exists ztr z', main (mideal2 m S) c z ztr z' /\
    Forall2 (same_sol (mholds2 m) (msame m)) tr ztr /\ same_sol (mholds2 m) (msame m) s' z'.
Proof.
  intros (Hw & Hg & Hn & Hs & Hr) Hok.
  eapply sim_main with (Rel' := fun n s u => ready m S (in_array n) (out_array n) (extend m u) s).
  - intros n a a' b HR Hex. exists b. split; [reflexivity|].
    pose proof (mprefix_ready m S inb Hw Hn _ _ (io_buffers n) a a' Hex) as HP.
    revert HP. apply ready_ext; [|lia]. intros i j v Hc Hv. apply mextend_ext; auto.
  - intros n a b d HR Hd. cbn [local_dt mhd2 mideal2] in *. revert Hd. apply mdt_local2_ext.
    intros i j Hp. eapply ready_Q; [|exact HR|exact Hp]. lia.
  - intros dt n a a' b HR Hx. cbn [after mhd2 mideal2] in *. eexists. split; [reflexivity|].
    unfold mholds2. change (in_array (Datatypes.S n)) with (cur (Datatypes.S n)). rewrite cur_S.
    exact (Hok dt n _ a a' HR Hx).
  - intros n a b HU. exact HU.
Qed.

Lemma mbuilt2_holds {T} {N : Num T} {O : NumOne T} m (S : hset T) inb (s0 s : store T) : mready2 m S ->
  mbuilt2 m S inb s0 s -> mholds2 m 0 s (field_of A_U s0).
Proof.
  intros (Hw & Hg & Hn & Hs & Hr) HB. apply execs_app in HB. destruct HB as (s1 & H1 & H2).
  destruct (fill2d_spec m A_U inb s0 s1 Hw H1) as (A & B & C).
  inversion H2; subst. inversion H6; subst. inversion H8; subst.
  destruct (deep_copy_spec m inb A_U2 A_U _ _ ltac:(discriminate) ltac:(lia) H4) as (D & E).
  destruct (mconvert_spec m S inb A_U _ _ ltac:(simpl; intuition discriminate) H5) as (F & G).
  intros i j v Hp Hv. unfold field_of, in_array. simpl. rewrite G by discriminate. rewrite E by discriminate. apply B. auto.
Qed.

(** Every run of the MHD solver, from the constructor to the last file, is a run
    of the specification that has a single state: same times, time steps,
    iteration and file counters, and files with the same contents. *)
Theorem C13_mhd_two_buffers_act_as_one_state :
  forall (T : Type) (N : Num T) (O : NumOne T) m (S : hset T) inb c t0 k0 s0 mem s tr s',
  mready2 m S -> mbuilt2 m S inb s0 mem -> start t0 k0 mem s ->
  main (mhd2 m S inb V0) c s tr s' ->
  exists ztr z',
    main (mideal2 m S) c (mksol t0 (s_dt s) 0 k0 [] (field_of A_U s0)) ztr z' /\
    Forall2 (same_sol (mholds2 m) (msame m)) tr ztr /\ same_sol (mholds2 m) (msame m) s' z'.
Proof.
  intros T N O m S inb c t0 k0 s0 mem s tr s' HR HB HS HM.
  eapply mhd2_sim; eauto using mscheme_ok_V0.
  apply start_same with (mem := mem); auto. eapply mbuilt2_holds; eauto.
Qed.
Print Assumptions C13_mhd_two_buffers_act_as_one_state.

(** In exact arithmetic for the three versions. *)
Theorem C13_mhd_two_buffers_act_as_one_state_exact :
  forall m (S : hset R) inb iv c t0 k0 s0 mem s tr s',
  mready2 m S -> mbuilt2 m S inb s0 mem -> start t0 k0 mem s ->
  main (mhd2 m S inb iv) c s tr s' ->
  exists ztr z',
    main (mideal2 m S) c (mksol t0 (s_dt s) 0 k0 [] (field_of A_U s0)) ztr z' /\
    Forall2 (same_sol (mholds2 m) (msame m)) tr ztr /\ same_sol (mholds2 m) (msame m) s' z'.
Proof.
  intros m S inb iv c t0 k0 s0 mem s tr s' HR HB HS HM.
  eapply mhd2_sim; eauto using mscheme_ok_R.
  apply start_same with (mem := mem); auto. eapply mbuilt2_holds; eauto.
Qed.
Print Assumptions C13_mhd_two_buffers_act_as_one_state_exact.

(** ** C16 *)
Local Open Scope R_scope.

Section Cfl.
Variable S : hset R.
Hypothesis HS : steppable S.
Variable m : mesh.
Hypothesis Hw : wide2 m.

Lemma mQ_adm U i j : mhd_sane S /\ mhd_adm (mQ S U i j).
Proof.
  destruct HS as ((H1 & H2 & H3 & H4 & _) & _).
  split; [split; auto|]. unfold mhd_adm, mQ, prim_mhd. cbn [md mp]. Rn.
  pose proof (Rmax_r (md (mstate U i j)) (smallr S)).
  split; [lra|]. eapply Rlt_le_trans; [|apply Rmax_r]. rewrite H4.
  apply Rmult_lt_0_compat; [lra|]. apply Rdiv_lt_0_compat; nra.
Qed.

Lemma mspeeds2_pos Q i j : mhd_adm (Q i j) -> 0 < mspeeds2 S Q i j.
Proof.
  destruct HS as ((H1 & H2 & H3 & H4 & _) & _ & Hx & Hy & _). intros Ha.
  assert (Hs : mhd_sane S) by (split; auto). destruct (bn_le (Q i j)) as (B1 & B2 & _).
  pose proof (fast_pos S Hs _ Ha _ B1) as F1. pose proof (fast_pos S Hs _ Ha _ B2) as F2.
  unfold mspeeds2, info_x, info_y, fast_x, fast_y. Rn.
  pose proof (Rabs_pos (mu (Q i j))). pose proof (Rabs_pos (mv (Q i j))).
  apply Rplus_lt_0_compat; apply Rdiv_lt_0_compat; auto; lra.
Qed.

Lemma mdt_local2_bound Q d : (forall i j, phys2 m i j -> mhd_adm (Q i j)) -> mdt_local2 m S Q d ->
  0 < d /\ (forall i j, phys2 m i j -> d * mspeeds2 S Q i j <= cfl S) /\
  exists i j, phys2 m i j /\ d * mspeeds2 S Q i j = cfl S.
Proof.
  intros HQ (v & HR & Hd). destruct (wide2_phys m Hw) as (Hgw & i0 & j0 & H0).
  pose proof HS as (_ & Hc & _).
  destruct (inv_dt S Hc (mdt_item2 m S Q) (fun c => inner2 m (fst c) (snd c))
     (fun c => mspeeds2 S Q (fst c) (snd c)) (cells2 m) v d) as (A & B & (i & j) & C1 & C2 & C3); auto.
  - intros [i j] a. reflexivity.
  - intros [i j] _ Hi. apply mspeeds2_pos. apply HQ. apply inner2_phys. exact Hi.
  - exists (i0, j0). split; [apply phys_cells2|apply inner2_phys]; auto.
  - split; auto. split.
    + intros i' j' Hp. apply (B (i', j')); [apply phys_cells2|apply inner2_phys]; auto.
    + exists i, j. split; auto. apply inner2_phys; auto.
Qed.

(** A magnetosonic speed of the state [q] in a direction with field component [bn]. *)
Definition magnetosonic_speed (q : ms R) (bn w : R) : Prop := 0 <= w /\ magnetosonic S q bn (w * w) = 0.

Lemma fast_upper q bn w : mhd_adm q -> bn * bn <= b_sq q -> magnetosonic_speed q bn w ->
  w <= fast S q bn.
Proof.
  intros Ha Hb [Hw0 Hw1]. destruct HS as ((H1 & H2 & H3 & _) & _).
  assert (Hs : mhd_sane S) by (split; auto).
  destruct (Rle_lt_dec w (fast S q bn)) as [|Hlt]; auto. exfalso.
  pose proof (fast_pos S Hs q Ha bn Hb). 
  pose proof (fast_largest S Hs q Ha bn Hb (w * w)) as HL. rewrite Hw1 in HL.
  apply (Rlt_irrefl 0). apply HL. apply Rmult_le_0_lt_compat; lra.
Qed.
End Cfl.

Lemma mhd2_step_pos m (S : hset R) inb iv n a s d : mready2 m S -> steppable S ->
  before (mhd2 m S inb iv) n a s -> local_dt (mhd2 m S inb iv) n s d -> 0 < d.
Proof.
  intros HR HS Hb Hd. pose proof HR as (Hw & Hg & Hn & _). cbn [before local_dt mhd2] in *.
  pose proof (mprefix_ready m S inb Hw Hn _ _ (io_buffers n) a s Hb) as HP.
  eapply (mdt_local2_bound S HS m Hw); [|exact Hd]. intros i j Hp. cbv beta.
  rewrite (ready_Q m S _ _ _ s i j ltac:(lia) HP Hp). apply mQ_adm. auto.
Qed.

(** The time step used never exceeds the CFL bound in any physical cell, in any
    iteration of any run: with [q] the primitive state of the cell (of the field
    found at the loop head, ghosts filled in), no wave - none of the fast and slow
    magnetosonic waves - crosses more than the fraction [cfl] of a cell. *)
Theorem C16_mhd_cfl_bound :
  forall m (S : hset R) inb iv c t0 k0 m0 s tr s',
  mready2 m S -> steppable S ->
  start t0 k0 m0 s -> t0 <= c_tEnd c -> main (mhd2 m S inb iv) c s tr s' ->
  forall n x, (Datatypes.S n < length tr)%nat ->
  let U := extend m (field_of (in_array n) (s_mem (nth n tr x))) in
  let dt := s_dt (nth (Datatypes.S n) tr x) in
  0 < dt /\
  forall i j wx wy, phys2 m i j ->
    let q := mQ S U i j in
    magnetosonic_speed S q (ma q) wx -> magnetosonic_speed S q (mb q) wy ->
    dt * ((wx + Rabs (mu q)) / dx S + (wy + Rabs (mv q)) / dy S) <= cfl S.
Proof.
  intros m S inb iv c t0 k0 m0 s tr s' HR HS Hst Ht HM n x Hk U dt.
  pose proof HR as (Hw & Hg & Hn & _).
  destruct (timely_main (mhd2 m S inb iv) c t0 k0 m0 s tr s') as (s1 & (A & B & _) & _); auto.
  { intros. eapply mhd2_step_pos; eauto. }
  destruct (A n x Hk) as (Hlt & d & m1 & Hd & Hm1 & HD & Hdt & Htm).
  assert (Hit : s_it (nth n tr x) = n).
  { destruct HM as (s2 & HL & _). destruct (loop_it _ c _ _ _ HL) as (_ & _ & I3 & _). rewrite I3 by lia.
    destruct (main_save_same (mhd2 m S inb iv) c s) as (_ & -> & _). destruct Hst as (_ & -> & _). reflexivity. }
  rewrite Hit in *. cbn [before local_dt mhd2] in Hm1, HD.
  pose proof (mprefix_ready m S inb Hw Hn _ _ (io_buffers n) _ m1 Hm1) as HP. fold U in HP. fold dt in Hdt.
  assert (HQ : forall i j, phys2 m i j -> getm m1 (L2 A_Q i j) = mQ S U i j).
  { intros. eapply ready_Q; [|exact HP|auto]. lia. }
  apply (mdt_local2_ext _ _ _ _ _ HQ) in HD.
  destruct (mdt_local2_bound S HS m Hw (mQ S U) d (fun i j _ => proj2 (mQ_adm S HS U i j)) HD) as (_ & HB & _).
  assert (Hle : dt <= d) by (rewrite Hdt; apply Rmin_l).
  assert (Hp : 0 < dt).
  { rewrite Hdt. apply Rmin_pos; auto. pose proof (B (nth (Datatypes.S n) tr x)). specialize (H ltac:(apply nth_In; lia)). lra. }
  split; auto. intros i j wx wy Hph q Hx Hy. specialize (HB i j Hph).
  destruct (mQ_adm S HS U i j) as [_ Ha]. destruct (bn_le q) as (B1 & B2 & _).
  pose proof (fast_upper S HS q _ wx Ha B1 Hx) as Fx. pose proof (fast_upper S HS q _ wy Ha B2 Hy) as Fy.
  eapply Rle_trans; [|exact HB]. unfold mspeeds2, info_x, info_y, fast_x, fast_y. Rn. fold q.
  destruct HS as (_ & _ & Dx & Dy & _).
  assert (E1 : (wx + Rabs (mu q)) / dx S <= (fast S q (ma q) + Rabs (mu q)) / dx S).
  { apply Rmult_le_compat_r; [left; apply Rinv_0_lt_compat; auto|lra]. }
  assert (E2 : (wy + Rabs (mv q)) / dy S <= (fast S q (mb q) + Rabs (mv q)) / dy S).
  { apply Rmult_le_compat_r; [left; apply Rinv_0_lt_compat; auto|lra]. }
  assert (P1 : 0 <= (wx + Rabs (mu q)) / dx S).
  { apply Rmult_le_pos; [|left; apply Rinv_0_lt_compat; auto]. pose proof (Rabs_pos (mu q)). destruct Hx. lra. }
  assert (P2 : 0 <= (wy + Rabs (mv q)) / dy S).
  { apply Rmult_le_pos; [|left; apply Rinv_0_lt_compat; auto]. pose proof (Rabs_pos (mv q)). destruct Hy. lra. }
  apply Rmult_le_compat; lra.
Qed.
Print Assumptions C16_mhd_cfl_bound.

(** The bound is attained, by the fast waves of some physical cell: the step is as
    large as CFL allows. *)
Theorem C16_mhd_cfl_attained :
  forall m (S : hset R) (U : field2 R) d,
  wide2 m -> steppable S -> mdt_local2 m S (mQ S U) d ->
  exists i j wx wy, phys2 m i j /\ let q := mQ S U i j in
    magnetosonic_speed S q (ma q) wx /\ magnetosonic_speed S q (mb q) wy /\
    d * ((wx + Rabs (mu q)) / dx S + (wy + Rabs (mv q)) / dy S) = cfl S.
Proof.
  intros m S U d Hw HS HD.
  destruct (mdt_local2_bound S HS m Hw (mQ S U) d (fun i j _ => proj2 (mQ_adm S HS U i j)) HD) as (_ & _ & i & j & Hp & E).
  exists i, j, (fast S (mQ S U i j) (ma (mQ S U i j))), (fast S (mQ S U i j) (mb (mQ S U i j))).
  destruct (mQ_adm S HS U i j) as [Hs Ha]. set (q := mQ S U i j) in *. destruct (bn_le q) as (B1 & B2 & _).
  split; auto. split; [|split; [|exact E]].
  - split; [left; apply fast_pos; auto|apply fast_root; auto].
  - split; [left; apply fast_pos; auto|apply fast_root; auto].
Qed.
Print Assumptions C16_mhd_cfl_attained.

Lemma mdt_local2_unique m (S : hset R) Q d d' : mdt_local2 m S Q d -> mdt_local2 m S Q d' -> d = d'.
Proof.
  intros (v & HR & ->) (w & HR' & ->). f_equal.
  refine (red_R_unique (fun c => inner2 m (fst c) (snd c)) (fun c => mspeeds2 S Q (fst c) (snd c)) _ _ _ _ _ _ HR HR').
  intros [i j] a. reflexivity.
Qed.

(** Several processes: the global step bounds every cell of every process, and
    does not depend on how the two reductions are carried out. *)
Theorem C16_mhd_all_processes :
  forall m (S : hset R) (procs : list (field2 R)) ds d,
  wide2 m -> steppable S ->
  Forall2 (fun U d => mdt_local2 m S (mQ S U) d) procs ds -> allreduce_min ds d ->
  (0 < d /\ forall U i j wx wy, In U procs -> phys2 m i j ->
     let q := mQ S U i j in
     magnetosonic_speed S q (ma q) wx -> magnetosonic_speed S q (mb q) wy ->
     d * ((wx + Rabs (mu q)) / dx S + (wy + Rabs (mv q)) / dy S) <= cfl S) /\
  forall ds' d', Forall2 (fun U d => mdt_local2 m S (mQ S U) d) procs ds' -> allreduce_min ds' d' -> d' = d.
Proof.
  intros m S procs ds d Hw HS HF HA.
  assert (HL : forall U d, mdt_local2 m S (mQ S U) d ->
     0 < d /\ forall i j, phys2 m i j -> d * mspeeds2 S (mQ S U) i j <= cfl S).
  { intros U d0 Hd0.
    destruct (mdt_local2_bound S HS m Hw (mQ S U) d0 (fun i j _ => proj2 (mQ_adm S HS U i j)) Hd0) as (A & B & _). auto. }
  destruct (allreduce_R _ _ HA) as [A1 A2].
  assert (Hd : 0 < d).
  { assert (Hall : Forall (fun d => 0 < d) ds).
    { clear - HF HL. induction HF; constructor; auto. eapply HL; eauto. }
    rewrite Forall_forall in Hall. auto. }
  split; [split; auto|].
  - intros U i j wx wy Hin Hp q Hx Hy.
    assert (exists d0, In d0 ds /\ mdt_local2 m S (mQ S U) d0) as (d0 & Hd0 & Hl).
    { clear - HF Hin. induction HF; [destruct Hin|]. destruct Hin as [->|Hin]; [exists y; simpl; auto|].
      destruct (IHHF Hin) as (d0 & ? & ?). exists d0. simpl; auto. }
    destruct (HL U d0 Hl) as [_ HB]. specialize (HB i j Hp). specialize (A2 d0 Hd0).
    destruct (mQ_adm S HS U i j) as [_ Ha]. destruct (bn_le q) as (B1 & B2 & _).
    pose proof (fast_upper S HS q _ wx Ha B1 Hx) as Fx. pose proof (fast_upper S HS q _ wy Ha B2 Hy) as Fy.
    eapply Rle_trans; [|exact HB]. unfold mspeeds2, info_x, info_y, fast_x, fast_y. Rn. fold q.
    destruct HS as (_ & _ & Dx & Dy & _).
    assert (E1 : (wx + Rabs (mu q)) / dx S <= (fast S q (ma q) + Rabs (mu q)) / dx S).
    { apply Rmult_le_compat_r; [left; apply Rinv_0_lt_compat; auto|lra]. }
    assert (E2 : (wy + Rabs (mv q)) / dy S <= (fast S q (mb q) + Rabs (mv q)) / dy S).
    { apply Rmult_le_compat_r; [left; apply Rinv_0_lt_compat; auto|lra]. }
    assert (P1 : 0 <= (wx + Rabs (mu q)) / dx S).
    { apply Rmult_le_pos; [|left; apply Rinv_0_lt_compat; auto]. pose proof (Rabs_pos (mu q)). destruct Hx. lra. }
    assert (P2 : 0 <= (wy + Rabs (mv q)) / dy S).
    { apply Rmult_le_pos; [|left; apply Rinv_0_lt_compat; auto]. pose proof (Rabs_pos (mv q)). destruct Hy. lra. }
    apply Rmult_le_compat; lra.
  - intros ds' d' HF' HA'.
    assert (ds' = ds).
    { clear - HF HF'. revert ds' HF'. induction HF; intros ds' HF'; inversion HF'; subst; auto. f_equal; auto.
      eapply mdt_local2_unique; eauto. }
    subst ds'. destruct (allreduce_R _ _ HA') as [B1 B2].
    apply Rle_antisym; auto.
Qed.
Print Assumptions C16_mhd_all_processes.

(** In IEEE double arithmetic too the reduction tree does not matter, NaN cells
    included; only a cell with speed -0 could make a difference. *)
Theorem C16_mhd_order_independent_binary64 :
  forall m (S : hset b64) (Q : Z -> Z -> ms b64) d d',
  (forall i j, phys2 m i j -> mspeeds2 (H := Fnum) S Q i j <> S754_zero true) ->
  mdt_local2 (H := Fnum) m S Q d -> mdt_local2 (H := Fnum) m S Q d' -> d = d'.
Proof.
  intros m S Q d d' Hz (v & HR & ->) (w & HR' & ->). f_equal.
  refine (red_F_unique (fun c => inner2 m (fst c) (snd c)) (fun c => mspeeds2 (H := Fnum) S Q (fst c) (snd c)) _ _ _ _ _ _ HR HR').
  - intros [i j] a. reflexivity.
  - intros [i j] _ Hi. apply Hz. apply inner2_phys. exact Hi.
Qed.
Print Assumptions C16_mhd_order_independent_binary64.

(** ** C14 *)
Theorem C14_mhd_end_time :
  forall m (S : hset R) inb iv c t0 k0 m0 s tr s',
  mready2 m S -> steppable S ->
  start t0 k0 m0 s -> t0 <= c_tEnd c -> main (mhd2 m S inb iv) c s tr s' ->
  exists s1, timely (mhd2 m S inb iv) c t0 tr s1 /\ s' = main_save (mhd2 m S inb iv) c s1.
Proof. intros. eapply timely_main; eauto. intros. eapply mhd2_step_pos; eauto. Qed.
Print Assumptions C14_mhd_end_time.

(** No execution gets stuck. *)
Theorem C14_mhd_runs_complete :
  forall (T : Type) (N : Num T) m (S : hset T) iv c s,
  mready2 m S -> c_nlog c <> 0%Z ->
  exists tr s', main (mhd2 m S (alloc2d m (mnv2 m iv)) iv) c s tr s'.
Proof.
  intros T N m S iv c s HR Hl. set (P := mhd2 m S (alloc2d m (mnv2 m iv)) iv).
  destruct (loop_exists P c (main_save P c s)) as (tr & s1 & HL).
  - intros x _. set (y := maybe_save P c x). pose proof HR as (Hw & Hg & Hn & Hs & Hr).
    assert (HF : forall dt, Forall (Forall (in_foot (alloc2d m (mnv2 m iv))))
        (mgodunov2 m S dt iv (in_array (s_it y)) (out_array (s_it y)))).
    { intros dt. apply mgodunov2_in_foot; auto using io_buffers. }
    assert (HF1 : Forall (Forall (in_foot (alloc2d m (mnv2 m iv)))) (mprefix2 m S (in_array (s_it y)) (out_array (s_it y)))).
    { specialize (HF n0). apply Forall_app in HF. tauto. }
    destruct (in_foot_execs _ _ (s_mem y) HF1) as [m1 Hm1].
    set (Q := fun i j => getm m1 (L2 A_Q i j)).
    set (d := ndiv (cfl S) (fold_left (fun a i => mdt_item2 m S Q i a) (cells2 m) max_init)).
    assert (HF2 : Forall (Forall (in_foot (alloc2d m (mnv2 m iv))))
       (mscheme2 m S (clamp c (s_t y) d) iv (in_array (s_it y)) (out_array (s_it y)))).
    { specialize (HF (clamp c (s_t y) d)). apply Forall_app in HF. tauto. }
    destruct (in_foot_execs _ _ m1 HF2) as [m2 Hm2].
    eexists. split; [exact Hl|]. exists m1, d, m2.
    split; [exact Hm1|]. split; [|split; [exact Hm2|reflexivity]].
    eexists. split; [apply red_chunk|reflexivity].
  - exists tr, (main_save P c s1). exists s1. auto.
Qed.
Print Assumptions C14_mhd_runs_complete.

(** ** Cases *)
Local Open Scope Z_scope.

(** A run of the MHD solver with at least one step, from the constructor to the
    final file. *)
Example C13_mhd_case : forall iv (s0 : store R), exists mem s tr s',
  let inb := alloc2d ex_mhd_walls2 (mnv2 ex_mhd_walls2 iv) in
  mready2 ex_mhd_walls2 (ex_set R_HLLD 1) /\ steppable (ex_set R_HLLD 1) /\
  mbuilt2 ex_mhd_walls2 (ex_set R_HLLD 1) inb s0 mem /\ start 0%R 0 mem s /\
  main (mhd2 ex_mhd_walls2 (ex_set R_HLLD 1) inb iv) ex_config s tr s' /\ (2 <= length tr)%nat.
Proof.
  intros iv s0. set (inb := alloc2d ex_mhd_walls2 (mnv2 ex_mhd_walls2 iv)).
  assert (HR : mready2 ex_mhd_walls2 (ex_set R_HLLD 1)) by (apply ex_mready2; try discriminate; simpl; auto).
  assert (HF : Forall (Forall (in_foot inb)) (mprefix2 ex_mhd_walls2 (ex_set R_HLLD 1) A_U A_U2)).
  { destruct HR as (Hw & Hg & Hn & Hs & Hr). apply mprefix_in_foot; auto. left; auto. }
  destruct (in_foot_execs inb _ s0 HF) as [mem Hmem].
  set (s := mksol (D := field2 R) 0%R 0%R O 0 [] mem).
  destruct (C14_mhd_runs_complete R Rnum ex_mhd_walls2 (ex_set R_HLLD 1) iv ex_config s HR) as (tr & s' & HM); [discriminate|].
  exists mem, s, tr, s'. split; auto. split; [apply ex_steppable|]. split; [exact Hmem|]. split; [repeat split|].
  split; auto. eapply unfinished_two; [|exact HM]. unfold finished, s, ex_config, eps_end, n1; cbn [s_t c_tEnd c_nStepmax s_it nleb nsub ndiv nZ Rnum].
  destruct (Rle_dec _ _) as [Hle|]; [|reflexivity]. exfalso.
  assert (1 / IZR (10 ^ 14) < 1 / 2)%R.
  { apply Rmult_lt_compat_l; [lra|]. apply Rinv_lt_contravar; [|apply IZR_lt; reflexivity].
    rewrite <- mult_IZR. apply IZR_lt. reflexivity. }
  lra.
Qed.

Example C16_mhd_case : forall U1 U2 : field2 R, exists ds d,
  Forall2 (fun U d => mdt_local2 ex_mhd2 (ex_set R_HLLD 1) (mQ (ex_set R_HLLD 1) U) d) [U1; U2] ds /\
  allreduce_min ds d.
Proof.
  intros U1 U2.
  assert (HE : forall U, exists d, mdt_local2 ex_mhd2 (ex_set R_HLLD 1) (mQ (ex_set R_HLLD 1) U) d).
  { intros U. eexists. eexists. split; [apply red_chunk|reflexivity]. }
  destruct (HE U1) as [d1 H1]. destruct (HE U2) as [d2 H2].
  exists [d1; d2]. destruct (allreduce_exists [d1; d2]) as [d Hd]; [discriminate|]. exists d. auto.
Qed.
