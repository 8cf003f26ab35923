(** * 2D MHD: the whole step, bounds, determinism, runs of many steps *)
From Coq Require Import ZArith List Bool Lia ZifyBool Permutation Reals Lra.
Import ListNotations.
From Verif Require Import Num Exec ExecFacts Grid GridFacts Boundaries BoundariesSpec
  BoundariesFacts BoundariesFill BoundariesNarrow HydroNum Kernels KernelFacts Atomics
  Hydro2D Hydro2DSpec Hydro2DFacts Hydro2DStep Hydro2DRun Determ
  MhdNum Mhd2D Mhd2DSpec MhdFacts Mhd2DFacts Mhd2DStep Mhd2DV2 Mhd2DAgree.
Local Open Scope Z_scope.

Section Step.
Context {T : Type} {N : Num T} {O : NumOne T}.
Variable m : mesh.
Variable S : hset T.
Variable dt : T.
Variable inb : extents.
Hypothesis Hslope : mslope_ok S.
Hypothesis Hsolver : msolver_ok S.
Hypothesis Hwide : wide2 m.
Hypothesis Hgw : 3 <= gw m.
Hypothesis Hnv : nbvar m = 8.
Variables ain aout : arr.
Hypothesis Hb : buffers ain aout.

Lemma mprefix_ready s s1 : execs inb s (mprefix2 m S ain aout) s1 ->
  ready m S ain aout (extend m (field_of ain s)) s1.
Proof.
  intros Hex. unfold mprefix2 in Hex. apply execs_app in Hex. destruct Hex as (s0 & H1 & H2).
  destruct (fill2d_spec m ain inb s s0 Hwide H1) as (F1 & F2 & F3).
  apply (mprefix_spec m S inb Hnv ain aout Hb _ s0); auto.
  intros i j v Hc Hv. rewrite <- filled_extend. apply F1; auto. lia.
Qed.

Definition mU (s : store T) : field2 T := extend m (field_of ain s).

Theorem mstep_V0 s s' : execs inb s (mgodunov2 m S dt V0 ain aout) s' ->
  mresult m S dt aout (mU s) s'.
Proof.
  intros Hex. apply execs_app in Hex. destruct Hex as (s1 & H1 & H2).
  apply (mscheme_V0 m S dt inb Hslope Hsolver Hgw ain aout Hb (mU s) s1); auto.
  apply mprefix_ready; auto.
Qed.

Theorem mstep_V1 s s' : execs inb s (mgodunov2 m S dt V1 ain aout) s' ->
  mresult_any m S dt aout (mU s) (mFX S dt (mQ S (mU s)) (mU s)) (mFY S dt (mQ S (mU s)) (mU s))
    (mE S dt (mQ S (mU s)) (mU s)) s'.
Proof.
  intros Hex. apply execs_app in Hex. destruct Hex as (s1 & H1 & H2).
  apply (mscheme_V1 m S dt inb Hslope Hsolver Hgw ain aout Hb (mU s) s1); auto.
  apply mprefix_ready; auto.
Qed.

Theorem mstep_V2 s s' : execs inb s (mgodunov2 m S dt V2 ain aout) s' ->
  mresult_any m S dt aout (mU s) (vFX S dt (mQ S (mU s)) (mU s)) (vFY S dt (mQ S (mU s)) (mU s))
    (vE S dt (mQ S (mU s)) (mU s)) s'.
Proof.
  intros Hex. apply execs_app in Hex. destruct Hex as (s1 & H1 & H2).
  apply (mscheme_V2 m S dt inb Hslope Hsolver Hgw ain aout Hb (mU s) s1); auto.
  apply mprefix_ready; auto.
Qed.

(** ** Bounds *)

Lemma in_mvars2 v : In v mvars2 -> 0 <= v < 8.
Proof. unfold mvars2, ID, IP, IU, IV, IW, IC. simpl. lia. Qed.

Ltac inside :=
  intros;
  repeat match goal with
  | H : In _ (if ?b then _ else _) |- _ => destruct b eqn:?; [|destruct H]
  | H : In _ mvars2 |- _ => apply in_mvars2 in H
  end;
  repeat split; apply alloc2_ok; unfold ID, IP, IU, IV, IW, IA, IB, IC, IX, IY; cbn [mnv2];
  lia.

Lemma cell_bounds i j : In (i, j) (cells2 m) -> 0 <= i < nx m + 2 * gw m /\ 0 <= j < ny m + 2 * gw m.
Proof. intros Hc. apply in_range2 in Hc. unfold isize, jsize in Hc. lia. Qed.

Lemma mprefix_in_foot iv : Forall (Forall (in_foot (alloc2d m (mnv2 m iv)))) (mprefix2 m S ain aout).
Proof.
  assert (Hain : mnv2 m iv ain = 8) by (destruct Hb as [[-> ->]|[-> ->]]; simpl; auto).
  assert (Haout : mnv2 m iv aout = 8) by (destruct Hb as [[-> ->]|[-> ->]]; simpl; auto).
  unfold mprefix2. apply Forall_app. split.
  - pose proof Hwide as (Hg & Hv & H1 & H2 & H3 & H4). apply fill2d_in_foot; auto.
    intros. apply alloc2_ok; unfold isize, jsize in *; lia.
  - repeat constructor.
    + apply kernel_in_bounds. intros [i j] Hc. apply cell_bounds in Hc. unfold in_foot.
      apply foot_copy_n. intros. split; apply alloc2_ok; lia.
    + apply kernel_in_bounds. intros [i j] Hc. apply cell_bounds in Hc. unfold in_foot, mconvert_item2.
      destruct (_ && _) eqn:HG; [|exact Logic.I]. unfold isize, jsize in HG. footm2; inside.
Qed.

Lemma mtrace_in_foot iv : iv <> V2 ->
  Forall (in_foot (alloc2d m (mnv2 m iv))) (map (mtrace_item2 m S dt ain) (cells2 m)).
Proof.
  intros Hiv. assert (Hain : mnv2 m iv ain = 8) by (destruct Hb as [[-> ->]|[-> ->]]; simpl; auto).
  apply kernel_in_bounds. intros [i j] Hc. unfold in_foot, mtrace_item2.
  destruct (trace_range2 m i j) eqn:HG; [|exact Logic.I]. unfold trace_range2, isize, jsize in HG.
  footm2; try solve [destruct iv; try congruence; inside].
  - intros c Hc' k Hk. footm2; auto. simpl in Hc'.
    repeat (destruct Hc' as [<- | Hc']); try contradiction Hc'; cbn [fst snd]; inside.
  - intros c Hc' k Hk. footm2; auto. simpl in Hc'.
    repeat (destruct Hc' as [<- | Hc']); try contradiction Hc'; cbn [fst snd]; inside.
Qed.

Lemma mslopes_in_foot :
  Forall (in_foot (alloc2d m (mnv2 m V2))) (map (mslopes_item2 m S ain) (cells2 m)).
Proof.
  assert (Hain : mnv2 m V2 ain = 8) by (destruct Hb as [[-> ->]|[-> ->]]; simpl; auto).
  apply kernel_in_bounds; intros [i j] Hc; apply cell_bounds in Hc; unfold in_foot.
  unfold mslopes_item2. destruct (_ && _) eqn:HG; [|exact Logic.I].
  unfold isize, jsize in HG. footm2; inside.
Qed.

Lemma mhalf_in_foot :
  Forall (Forall (in_foot (alloc2d m (mnv2 m V2))))
    [ map (mhalf_item2 m S dt ain) (cells2 m); map (melec_item2 m ain) (cells2 m);
      map (msface_item2 m S dt) (cells2 m) ].
Proof.
  assert (Hain : mnv2 m V2 ain = 8) by (destruct Hb as [[-> ->]|[-> ->]]; simpl; auto).
  repeat constructor; apply kernel_in_bounds; intros [i j] Hc; apply cell_bounds in Hc; unfold in_foot.
  - unfold mhalf_item2. destruct (trace_range2 m i j) eqn:HG; [|exact Logic.I].
    unfold trace_range2, isize, jsize in HG. cbv zeta. footm2; inside.
  - unfold melec_item2. destruct (_ && _) eqn:HG; [|exact Logic.I].
    unfold isize, jsize in HG. footm2; inside.
  - unfold msface_item2. destruct (_ && _) eqn:HG; [|exact Logic.I].
    unfold isize, jsize in HG. footm2; inside.
Qed.

Lemma mgodunov2_in_foot iv :
  Forall (Forall (in_foot (alloc2d m (mnv2 m iv)))) (mgodunov2 m S dt iv ain aout).
Proof.
  unfold mgodunov2. apply Forall_app. split; [apply mprefix_in_foot|].
  assert (Hain : mnv2 m iv ain = 8) by (destruct Hb as [[-> ->]|[-> ->]]; simpl; auto).
  assert (Haout : mnv2 m iv aout = 8) by (destruct Hb as [[-> ->]|[-> ->]]; simpl; auto).
  destruct iv; cbn [mscheme2];
  try (constructor; [first [apply mtrace_in_foot; discriminate | apply mslopes_in_foot]|]);
  try (apply (Forall_app _ [_; _; _] [_; _; _]); split; [apply mhalf_in_foot|]);
  repeat constructor;
  apply kernel_in_bounds; intros [i j] Hc; apply cell_bounds in Hc; unfold in_foot.
  - unfold mfluxes_item2. destruct (upto_face2 m i j) eqn:HG; [|exact Logic.I].
    unfold upto_face2, isize, jsize in HG. footm2; inside.
  - unfold memf_item2, medge2. destruct (upto_face2 m i j) eqn:HG; [|exact Logic.I].
    unfold upto_face2, isize, jsize in HG. footm2; inside.
  - unfold mupdate_item2. destruct (inner2 m i j) eqn:HG; [|exact Logic.I].
    unfold inner2, isize, jsize in HG. footm2; inside.
  - unfold mupdate_emf_item2. destruct (inner2 m i j) eqn:HG; [|exact Logic.I].
    unfold inner2, isize, jsize in HG. footm2; inside.
  - unfold mfluxes_update_item2, mflux_x_updates, mflux_y_updates. destruct (upto_face2 m i j) eqn:HG; [|exact Logic.I].
    unfold upto_face2, isize, jsize in HG. cbv zeta. footm2; inside.
  - unfold memf_update_item2, medge2, memf_updates. destruct (upto_face2 m i j) eqn:HG; [|exact Logic.I].
    unfold upto_face2, isize, jsize in HG. footm2; inside.
  - unfold mflux_dir_item2, mflux_x_updates, mflux_y_updates. destruct (upto_face2 m i j) eqn:HG; [|exact Logic.I].
    unfold upto_face2, isize, jsize in HG. cbv zeta. footm2; inside.
  - unfold mflux_dir_item2, mflux_x_updates, mflux_y_updates. destruct (upto_face2 m i j) eqn:HG; [|exact Logic.I].
    unfold upto_face2, isize, jsize in HG. cbv zeta. footm2; inside.
  - unfold medge_emf_item2, medge_rec2, rd_slope_x, rd_slope_y, memf_updates.
    destruct (upto_face2 m i j) eqn:HG; [|exact Logic.I].
    unfold upto_face2, isize, jsize in HG. cbv zeta. footm2; inside.
Qed.

Theorem mgodunov2_safe iv s :
  safes (alloc2d m (mnv2 m iv)) s (mgodunov2 m S dt iv ain aout) /\
  exists s', execs (alloc2d m (mnv2 m iv)) s (mgodunov2 m S dt iv ain aout) s'.
Proof.
  pose proof (mgodunov2_in_foot iv).
  split; [apply in_foot_safes|apply in_foot_execs]; auto.
Qed.

Theorem mgodunov2_det : deterministic inb (mgodunov2 m S dt V0 ain aout).
Proof.
  unfold mgodunov2, mprefix2. 
  pose proof (buf_in ain aout Hb) as Hai. pose proof (buf_out ain aout Hb) as Hao.
  assert (Hne : aout <> ain) by (destruct Hb as [[-> ->]|[-> ->]]; congruence).
  apply det_app; [apply det_app; [apply det_fill2d; auto|]|].
  - apply det_cons; [eapply det_cell2; apply own_deep_copy; auto|].
    eapply det_cell2. apply own_mconvert; auto.
  - cbn [mscheme2].
    apply det_cons; [eapply det_cell2; apply own_mtrace; auto|].
    apply det_cons; [eapply det_cell2; apply own_mfluxes; auto|].
    apply det_cons; [eapply det_cell2; apply own_memf; auto|].
    apply det_cons; [eapply det_cell2; apply own_mupdate; auto|].
    eapply det_cell2; apply own_mupdate_emf; auto.
Qed.

End Step.

(** ** Over the reals the order of the contributions does not matter *)
Lemma mbalance_any_R (S : hset R) dt fx fy emf U i j v x :
  mbalance_any S dt fx fy emf U i j v x -> x = mbalance S dt fx fy emf U i j v.
Proof.
  intros (ops & HP & ->). apply Permutation_sym in HP.
  assert (HA : forall l, Permutation l ops -> Forall additive l -> 
     fold_left (fun y f => f y) ops (U i j v) = fold_left (fun y f => f y) l (U i j v)).
  { intros l Hl Hf. symmetry. apply fold_perm_R; auto. }
  unfold mbalance. destruct (v =? IA) eqn:EA; [|destruct (v =? IB) eqn:EB].
  - rewrite (HA _ HP) by (repeat constructor; intro; unfold nadd, nsub; simpl; lra).
    replace v with IA by lia. simpl. lra.
  - rewrite (HA _ HP) by (repeat constructor; intro; unfold nadd, nsub; simpl; lra).
    replace v with IB by lia. simpl. lra.
  - rewrite (HA _ HP) by (repeat constructor; intro; unfold nadd, nsub; simpl; lra).
    reflexivity.
Qed.

Lemma mbalance_ext {T} {N : Num T} (S : hset T) dt fx fy emf fx' fy' emf' U i j v :
  (forall i j, fx i j = fx' i j) -> (forall i j, fy i j = fy' i j) -> (forall i j, emf i j = emf' i j) ->
  mbalance S dt fx fy emf U i j v = mbalance S dt fx' fy' emf' U i j v.
Proof. intros H1 H2 H3. unfold mbalance. rewrite !H1, !H2, !H3. reflexivity. Qed.

(** ** Runs *)
Section Runs.
Context {T : Type} {N : Num T}.
Variable m : mesh.
Variable S : hset T.

(** Consecutive calls of [next_iteration] (SolverMHDMuscl.h:743-801) with time steps
    [dts], the first one being iteration [n]. *)
Fixpoint msteps2 (iv : impl) (n : nat) (dts : list T) : list (list (prog T)) :=
  match dts with
  | [] => []
  | dt :: dts' => mgodunov2 m S dt iv (cur n) (nxt n) ++ msteps2 iv (Datatypes.S n) dts'
  end.

(** The scheme iterated on a field. *)
Fixpoint mrun_spec (dts : list T) (u : field2 T) : field2 T :=
  match dts with
  | [] => u
  | dt :: dts' => mrun_spec dts' (mstep2 S dt (extend m u))
  end.

Definition msame (u1 u2 : field2 T) : Prop :=
  forall i j v, phys2 m i j -> 0 <= v < 8 -> u1 i j v = u2 i j v.

Hypothesis Hwide : wide2 m.
Hypothesis Hgw : 3 <= gw m.

Lemma mextend_ext u1 u2 i j v : msame u1 u2 -> cell2 m i j -> 0 <= v < 8 ->
  extend m u1 i j v = extend m u2 i j v.
Proof. intros He Hc Hv. unfold extend. rewrite He; auto. apply image_phys2; auto. Qed.

(** The new value of a cell is determined by the cells from three below to three above. *)
Lemma mstep2_stencil dt U1 U2 i j v :
  (forall i' j' v, i - 2 <= i' <= i + 3 -> j - 2 <= j' <= j + 3 -> 0 <= v < 8 -> U1 i' j' v = U2 i' j' v) ->
  0 <= v < 8 -> mstep2 S dt U1 i j v = mstep2 S dt U2 i j v.
Proof.
  intros HU Hv.
  assert (HQ : forall i' j', i - 2 <= i' <= i + 2 -> j - 2 <= j' <= j + 2 -> mQ S U1 i' j' = mQ S U2 i' j').
  { intros. apply mQ_ext. intros. apply HU; lia. }
  unfold mstep2, mbalance.
  assert (HX : forall a, 0 <= a <= 1 -> mFX S dt (mQ S U1) U1 (i + a) j = mFX S dt (mQ S U2) U2 (i + a) j).
  { intros. apply mFX_ext; intros; [apply HQ|apply HU]; lia. }
  assert (HY : forall a, 0 <= a <= 1 -> mFY S dt (mQ S U1) U1 i (j + a) = mFY S dt (mQ S U2) U2 i (j + a)).
  { intros. apply mFY_ext; intros; [apply HQ|apply HU]; lia. }
  assert (HE : forall a b, 0 <= a <= 1 -> 0 <= b <= 1 ->
     mE S dt (mQ S U1) U1 (i + a) (j + b) = mE S dt (mQ S U2) U2 (i + a) (j + b)).
  { intros. apply mE_ext; intros; [apply HQ|apply HU]; lia. }
  pose proof (HX 0 ltac:(lia)) as X0. pose proof (HX 1 ltac:(lia)) as X1.
  pose proof (HY 0 ltac:(lia)) as Y0. pose proof (HY 1 ltac:(lia)) as Y1.
  pose proof (HE 0 0 ltac:(lia) ltac:(lia)) as E0. pose proof (HE 1 0 ltac:(lia) ltac:(lia)) as E1.
  pose proof (HE 0 1 ltac:(lia) ltac:(lia)) as E2.
  rewrite ?Z.add_0_r in X0. rewrite ?Z.add_0_r in Y0. rewrite ?Z.add_0_r in E0.
  rewrite ?Z.add_0_r in E1. rewrite ?Z.add_0_r in E2.
  rewrite X0, X1, Y0, Y1, E0, E1, E2. rewrite !HU by (unfold IA, IB; lia). reflexivity.
Qed.

Lemma mstep_ext dt u1 u2 : msame u1 u2 ->
  msame (mstep2 S dt (extend m u1)) (mstep2 S dt (extend m u2)).
Proof.
  intros He i j v [Hi Hj] Hv. apply mstep2_stencil; auto.
  intros. apply mextend_ext; auto. unfold cell2, physical in *. lia.
Qed.

Lemma mrun_spec_ext dts : forall u1 u2, msame u1 u2 -> msame (mrun_spec dts u1) (mrun_spec dts u2).
Proof. induction dts as [|dt dts IH]; intros; simpl; auto. apply IH; auto. apply mstep_ext; auto. Qed.

Definition mrefines2 (inb : extents) (iv : impl) : Prop :=
  forall dt n s s', execs inb s (mgodunov2 m S dt iv (cur n) (nxt n)) s' ->
    msame (field_of (nxt n) s') (mstep2 S dt (extend m (field_of (cur n) s))).

Lemma mrun_refines inb iv : mrefines2 inb iv -> forall dts n s s',
  execs inb s (msteps2 iv n dts) s' ->
  msame (field_of (cur (n + length dts)) s') (mrun_spec dts (field_of (cur n) s)).
Proof.
  intros Href. induction dts as [|dt dts IH]; intros n s s' Hex; cbn [msteps2] in Hex.
  - inversion Hex; subst. simpl. rewrite Nat.add_0_r. intros i j v _ _. reflexivity.
  - apply execs_app in Hex. destruct Hex as (s1 & H1 & H2).
    pose proof (Href dt n s s1 H1) as A. pose proof (IH (Datatypes.S n) s1 s' H2) as C.
    simpl length. replace (n + Datatypes.S (length dts))%nat with (Datatypes.S n + length dts)%nat by lia.
    intros i j v Hp Hv. rewrite C by auto. simpl. apply mrun_spec_ext; auto.
    rewrite cur_S. exact A.
Qed.

Hypothesis Hslope : mslope_ok S.
Hypothesis Hsolver : msolver_ok S.
Hypothesis Hnv : nbvar m = 8.

Lemma mrefines_V0 {O : NumOne T} inb : mrefines2 inb V0.
Proof.
  intros dt n s s' Hex i j v Hp Hv.
  destruct (mstep_V0 m S dt inb Hslope Hsolver Hwide Hgw Hnv _ _ (cur_nxt n) s s' Hex) as (A & _).
  unfold field_of at 1. rewrite A; auto.
Qed.

End Runs.

Lemma mrefines_R m (S : hset R) inb iv :
  wide2 m -> 3 <= gw m -> nbvar m = 8 -> mslope_ok S -> msolver_ok S -> mrefines2 m S inb iv.
Proof.
  intros Hwide Hgw Hnv Hslope Hsolver. destruct iv.
  - exact (mrefines_V0 m S Hwide Hgw Hslope Hsolver Hnv inb).
  - intros dt n s s' Hex i j v Hp Hv.
    destruct (mstep_V1 m S dt inb Hslope Hsolver Hwide Hgw Hnv _ _ (cur_nxt n) s s' Hex) as (A & _).
    unfold field_of at 1. apply mbalance_any_R. apply A; auto.
  - intros dt n s s' Hex i j v Hp Hv.
    destruct (mstep_V2 m S dt inb Hslope Hsolver Hwide Hgw Hnv _ _ (cur_nxt n) s s' Hex) as (A & _).
    unfold field_of at 1. rewrite (mbalance_any_R _ _ _ _ _ _ _ _ _ _ (A i j v Hp Hv)).
    unfold mstep2. apply mbalance_ext; intros; [apply vFX_eq|apply vFY_eq|apply vE_eq]; auto.
Qed.
