(** * 2D steps: bounds, determinism, and runs of many steps *)
From Coq Require Import ZArith List Bool Lia ZifyBool Permutation Reals Lra.
Import ListNotations.
From Verif Require Import Num Exec ExecFacts Grid GridFacts Boundaries BoundariesSpec
  BoundariesFacts BoundariesFill BoundariesNarrow HydroNum Kernels KernelFacts Atomics
  Hydro2D Hydro2DSpec Hydro2DFacts Hydro2DStep Determ.
Local Open Scope Z_scope.

Section Bounds.
Context {T : Type} {N : Num T}.
Variable m : mesh.
Variable S : hset T.
Variable g : gravp.
Variable dt : T.
Hypothesis Hslope : slope_ok S.
Hypothesis Hsolver : solver_ok2 S.
Hypothesis Hwide : wide2 m.
Hypothesis Hgw : 2 <= gw m.
Hypothesis Hnv : nbvar m = 4.
Variables ain aout : arr.
Hypothesis Hb : buffers ain aout.

Lemma alloc2_ok nv a i j v :
  0 <= i < nx m + 2 * gw m -> 0 <= j < ny m + 2 * gw m -> 0 <= v < nv a ->
  alloc2d m nv (mkloc a i j 0 v) = true.
Proof. intros. unfold alloc2d, isize, jsize; simpl. lia. Qed.

Ltac inside2 :=
  intros;
  repeat match goal with
  | H : In _ (if ?b then _ else _) |- _ => destruct b eqn:?; [|destruct H]
  | H : In _ vars2 |- _ => apply in_vars2 in H
  end;
  repeat split; apply alloc2_ok; unfold ID, IP, IU, IV, IE, IX, IY; cbn [nv2];
  try replace (g_enabled g) with true by lia; lia.

Lemma godunov2_in_foot iv : slope_ok S ->
  Forall (Forall (in_foot (alloc2d m (nv2 m g iv)))) (godunov2 m S g dt iv ain aout).
Proof.
  intros _. unfold godunov2, godunov2_body.
  assert (Hcell : forall i j, In (i, j) (cells2 m) -> 0 <= i < nx m + 2 * gw m /\ 0 <= j < ny m + 2 * gw m).
  { intros i j Hc. apply in_range2 in Hc. unfold isize, jsize in Hc. lia. }
  assert (Hain : nv2 m g iv ain = 4) by (destruct Hb as [[-> ->]|[-> ->]]; simpl; auto).
  assert (Haout : nv2 m g iv aout = 4) by (destruct Hb as [[-> ->]|[-> ->]]; simpl; auto).
  apply Forall_app. split.
  { pose proof Hwide as (Hg & Hv & H1 & H2 & H3 & H4). apply fill2d_in_foot; auto.
    intros. apply alloc2_ok; unfold isize, jsize in *; lia. }
  apply Forall_app. split.
  { repeat constructor.
    - apply kernel_in_bounds. intros [i j] Hc. apply Hcell in Hc. unfold in_foot.
      apply foot_copy_n. intros. split; apply alloc2_ok; lia.
    - apply kernel_in_bounds. intros [i j] Hc. apply Hcell in Hc. unfold in_foot, convert_item2.
      destruct (_ && _); [|exact I]. foots2; inside2. }
  apply Forall_app. split.
  { destruct iv; cbn [scheme2].
    - repeat constructor.
      + apply kernel_in_bounds. intros [i j] Hc. unfold in_foot, fluxes_item2.
        destruct (inner2_le m i j) eqn:HG; [|exact I]. unfold inner2_le, isize, jsize in HG.
        foots2; inside2.
      + apply kernel_in_bounds. intros [i j] Hc. unfold in_foot, update_item2.
        destruct (inner2 m i j) eqn:HG; [|exact I]. unfold inner2, isize, jsize in HG.
        foots2; inside2.
    - repeat constructor.
      + apply kernel_in_bounds. intros [i j] Hc. unfold in_foot, slopes_item2.
        destruct (_ && _) eqn:HG; [|exact I]. unfold isize, jsize in HG.
        foots2; inside2.
      + apply kernel_in_bounds. intros [i j] Hc. unfold in_foot, trace_fluxes_item2.
        destruct (inner2_le m i j) eqn:HG; [|exact I]. unfold inner2_le, isize, jsize in HG.
        foots2; inside2.
      + apply kernel_in_bounds. intros [i j] Hc. unfold in_foot, update_dir_item2.
        destruct (inner2 m i j) eqn:HG; [|exact I]. unfold inner2, isize, jsize in HG.
        foots2; inside2.
      + apply kernel_in_bounds. intros [i j] Hc. unfold in_foot, trace_fluxes_item2.
        destruct (inner2_le m i j) eqn:HG; [|exact I]. unfold inner2_le, isize, jsize in HG.
        foots2; inside2.
      + apply kernel_in_bounds. intros [i j] Hc. unfold in_foot, update_dir_item2.
        destruct (inner2 m i j) eqn:HG; [|exact I]. unfold inner2, isize, jsize in HG.
        foots2; inside2.
    - repeat constructor.
      apply kernel_in_bounds. intros [i j] Hc. unfold in_foot, all_fluxes_item2.
      destruct (inner2_le m i j) eqn:HG; [|exact I]. unfold inner2_le, isize, jsize in HG.
      unfold isize, jsize. foots2; inside2. }
  destruct (g_enabled g) eqn:HE; [|constructor].
  repeat constructor. apply kernel_in_bounds. intros [i j] Hc. unfold in_foot, gravity_item2.
  destruct (inner2 m i j) eqn:HG; [|exact I]. unfold inner2, isize, jsize in HG.
  foots2; inside2.
Qed.

Theorem godunov2_safe iv s :
  safes (alloc2d m (nv2 m g iv)) s (godunov2 m S g dt iv ain aout) /\
  exists s', execs (alloc2d m (nv2 m g iv)) s (godunov2 m S g dt iv ain aout) s'.
Proof.
  pose proof (godunov2_in_foot iv Hslope).
  split; [apply in_foot_safes|apply in_foot_execs]; auto.
Qed.

Theorem godunov2_det {O : NumOne T} iv inb : iv = V0 \/ iv = V1 ->
  deterministic inb (godunov2 m S g dt iv ain aout).
Proof.
  intros Hiv. unfold godunov2, godunov2_body. apply det_app; [apply det_fill2d; auto|].
  assert (Hai : ain = A_U \/ ain = A_U2) by (destruct Hb as [[-> ->]|[-> ->]]; auto).
  assert (Hao : aout = A_U \/ aout = A_U2) by (destruct Hb as [[-> ->]|[-> ->]]; auto).
  assert (Hne : aout <> ain) by (destruct Hb as [[-> ->]|[-> ->]]; congruence).
  apply det_app; [|apply det_app].
  - apply det_cons; [eapply det_cell2; apply own_deep_copy; auto|].
    eapply det_cell2. apply own_convert; auto.
  - destruct Hiv as [-> | ->]; cbn [scheme2].
    + apply det_cons; eapply det_cell2; [apply own_fluxes|apply own_update]; auto.
    + apply det_cons; [eapply det_cell2; apply own_slopes|].
      apply det_cons; [eapply det_cell2; apply own_trace; auto|].
      apply det_cons; [eapply det_cell2; apply own_update_dir; auto|].
      apply det_cons; [eapply det_cell2; apply own_trace; auto|].
      eapply det_cell2; apply own_update_dir; auto.
  - destruct (g_enabled g); [|apply det_nil]. eapply det_cell2. apply own_gravity; auto.
Qed.

End Bounds.

(** ** Runs of many steps *)

(** The array holding the state after [n] steps, and the other one:
    SolverHydroMuscl.h:686-700 ([godunov_unsplit]: U -> U2 when m_iteration is
    even, U2 -> U when it is odd). *)
Definition cur (n : nat) : arr := if Nat.even n then A_U else A_U2.
Definition nxt (n : nat) : arr := if Nat.even n then A_U2 else A_U.

Lemma cur_nxt n : buffers (cur n) (nxt n).
Proof. unfold buffers, cur, nxt. destruct (Nat.even n); auto. Qed.
Lemma cur_S n : cur (S n) = nxt n.
Proof. unfold cur, nxt. rewrite Nat.even_succ, <- Nat.negb_even. destruct (Nat.even n); auto. Qed.

Section Runs.
Context {T : Type} {N : Num T}.
Variable m : mesh.
Variable S : hset T.
Variable g : gravp.

(** The kernels launched by consecutive calls of [next_iteration]
    (SolverHydroMuscl.h:635-679) with time steps [dts], the first one being
    iteration [n]. *)
Fixpoint steps2 (iv : impl) (n : nat) (dts : list T) : list (list (prog T)) :=
  match dts with
  | [] => []
  | dt :: dts' => godunov2 m S g dt iv (cur n) (nxt n) ++ steps2 iv (Datatypes.S n) dts'
  end.

(** Contents of the physical part of an array as a field. *)
Definition field_of (a : arr) (s : store T) : field2 T := fun i j v => s (L2 a i j v).

(** Ghost-filled extension of a field: every cell takes the value of its image. *)
Definition extend (u : field2 T) : field2 T := fun i j v =>
  flip_if (mirrored_y m j && odd_y (p_mhd m) v)
   (flip_if (mirrored_x m i && odd_x (p_mhd m) v) (u (image_x m i) (image_y m j) v)).

Lemma filled_extend a s : filled2 m a s = extend (field_of a s).
Proof. reflexivity. Qed.

(** The scheme iterated on a field. *)
Fixpoint run_spec (G : field2 T) (dts : list T) (u : field2 T) : field2 T :=
  match dts with
  | [] => u
  | dt :: dts' => run_spec G dts' (step2 S g dt (extend u) G)
  end.

(** Two fields agree on the physical cells. *)
Definition same_phys (u1 u2 : field2 T) : Prop :=
  forall i j v, phys2 m i j -> 0 <= v < 4 -> u1 i j v = u2 i j v.

Hypothesis Hwide : wide2 m.
Hypothesis Hgw : 2 <= gw m.

Lemma image_phys2 i j : cell2 m i j -> phys2 m (image_x m i) (image_y m j).
Proof.
  pose proof Hwide as (Hg & Hv & (H1 & H1') & (H2 & H2') & (H3 & H3') & (H4 & H4')).
  unfold cell2, phys2, physical, image_x, image_y, image. intros [Hi Hj].
  split.
  - destruct (i <? gw m) eqn:E; [destruct (kind_of (bc m XMIN)); destruct H1'; try congruence; lia|].
    destruct (nx m + gw m <=? i) eqn:E2; [destruct (kind_of (bc m XMAX)); destruct H2'; try congruence; lia|lia].
  - destruct (j <? gw m) eqn:E; [destruct (kind_of (bc m YMIN)); destruct H3'; try congruence; lia|].
    destruct (ny m + gw m <=? j) eqn:E2; [destruct (kind_of (bc m YMAX)); destruct H4'; try congruence; lia|lia].
Qed.

Lemma extend_ext u1 u2 i j v : same_phys u1 u2 -> cell2 m i j -> 0 <= v < 4 ->
  extend u1 i j v = extend u2 i j v.
Proof. intros He Hc Hv. unfold extend. rewrite He; auto. apply image_phys2; auto. Qed.

Lemma Qf_ext (U1 U2 : field2 T) i j :
  (forall v, 0 <= v < 4 -> U1 i j v = U2 i j v) -> Qf S U1 i j = Qf S U2 i j.
Proof. intros H. unfold Qf, cell_state. rewrite !H by (unfold ID, IP, IU, IV; lia). reflexivity. Qed.

Lemma adv2_ext dt U1 U2 G1 G2 i j v :
  (forall i' j' v, i - 2 <= i' <= i + 2 -> j - 2 <= j' <= j + 2 -> 0 <= v < 4 -> U1 i' j' v = U2 i' j' v) ->
  (forall i' j' v, i - 1 <= i' <= i + 1 -> j - 1 <= j' <= j + 1 -> G1 i' j' v = G2 i' j' v) ->
  0 <= v < 4 ->
  adv2 S g dt U1 G1 i j v = adv2 S g dt U2 G2 i j v.
Proof.
  intros HU HG Hv. unfold adv2.
  rewrite HU by lia.
  rewrite !(FX_ext S g dt (Qf S U1) (Qf S U2) G1 G2), !(FY_ext S g dt (Qf S U1) (Qf S U2) G1 G2);
    auto; intros; try (apply Qf_ext; intros; apply HU; lia); apply HG; lia.
Qed.

(** The new value of a cell is determined by the cells at most two away. *)
Lemma step2_stencil dt U1 U2 G1 G2 i j v :
  (forall i' j' v, i - 2 <= i' <= i + 2 -> j - 2 <= j' <= j + 2 -> 0 <= v < 4 -> U1 i' j' v = U2 i' j' v) ->
  (forall i' j' v, i - 1 <= i' <= i + 1 -> j - 1 <= j' <= j + 1 -> G1 i' j' v = G2 i' j' v) ->
  0 <= v < 4 ->
  step2 S g dt U1 G1 i j v = step2 S g dt U2 G2 i j v.
Proof.
  intros HU HG Hv. unfold step2. destruct (g_enabled g) eqn:E.
  - apply grav_source_ext; auto.
    + apply HU; unfold ID; lia.
    + intros. apply HG; lia.
    + intros. apply adv2_ext; auto.
  - apply adv2_ext; auto.
Qed.

Lemma step_ext dt u1 u2 G1 G2 : same_phys u1 u2 -> (forall i j v, G1 i j v = G2 i j v) ->
  same_phys (step2 S g dt (extend u1) G1) (step2 S g dt (extend u2) G2).
Proof.
  intros He HG i j v [Hi Hj] Hv. apply step2_stencil; auto.
  intros. apply extend_ext; auto. unfold cell2, physical in *. lia.
Qed.

Lemma run_spec_ext dts : forall u1 u2 G1 G2, same_phys u1 u2 -> (forall i j v, G1 i j v = G2 i j v) ->
  same_phys (run_spec G1 dts u1) (run_spec G2 dts u2).
Proof.
  induction dts as [|dt dts IH]; intros; simpl; auto. apply IH; auto. apply step_ext; auto.
Qed.

(** One step of the program computes the scheme. *)
Definition refines2 (inb : extents) (iv : impl) : Prop :=
  forall dt n s s', execs inb s (godunov2 m S g dt iv (cur n) (nxt n)) s' ->
    same_phys (field_of (nxt n) s') (step2 S g dt (extend (field_of (cur n) s)) (field_of A_G s)) /\
    (forall i j v, s' (L2 A_G i j v) = s (L2 A_G i j v)).

Lemma run_refines inb iv : refines2 inb iv -> forall dts n s s',
  execs inb s (steps2 iv n dts) s' ->
  same_phys (field_of (cur (n + length dts)) s') (run_spec (field_of A_G s) dts (field_of (cur n) s)) /\
  (forall i j v, s' (L2 A_G i j v) = s (L2 A_G i j v)).
Proof.
  intros Href. induction dts as [|dt dts IH]; intros n s s' Hex; cbn [steps2] in Hex.
  - inversion Hex; subst. simpl. rewrite Nat.add_0_r. split; auto. intros i j v _ _. reflexivity.
  - apply execs_app in Hex. destruct Hex as (s1 & H1 & H2).
    destruct (Href dt n s s1 H1) as [A B]. destruct (IH (Datatypes.S n) s1 s' H2) as [C D].
    simpl length. replace (n + Datatypes.S (length dts))%nat with (Datatypes.S n + length dts)%nat by lia.
    split.
    + intros i j v Hp Hv. rewrite C by auto. simpl. apply run_spec_ext; auto.
      * rewrite cur_S. exact A.
    + intros. rewrite D, B. auto.
Qed.

Hypothesis Hslope : slope_ok S.
Hypothesis Hsolver : solver_ok2 S.
Hypothesis Hnv : nbvar m = 4.

Lemma refines_V01 {O : NumOne T} inb iv : iv = V0 \/ iv = V1 -> refines2 inb iv.
Proof.
  intros Hiv dt n s s' Hex.
  destruct (step_V01 m S g dt inb Hslope Hsolver Hwide Hgw Hnv _ _ (cur_nxt n) iv s s' Hiv Hex)
    as (A & _ & _ & D).
  split; [|exact D]. intros i j v Hp Hv. unfold field_of at 1. rewrite A; auto.
Qed.

End Runs.

(** Over the reals the three versions compute the scheme. *)
Lemma refines_R m (S : hset R) g inb iv :
  wide2 m -> 2 <= gw m -> nbvar m = 4 -> slope_ok S -> solver_ok2 S -> refines2 m S g inb iv.
Proof.
  intros Hwide Hgw Hnv Hslope Hsolver. destruct iv.
  - refine (refines_V01 m S g Hwide Hgw Hslope Hsolver Hnv inb _ _); auto.
  - refine (refines_V01 m S g Hwide Hgw Hslope Hsolver Hnv inb _ _); auto.
  - intros dt n s s' Hex.
    destruct (step_V2 m S g dt inb Hslope Hsolver Hwide Hgw Hnv _ _ (cur_nxt n) s s' Hex)
      as (W & A & B & _ & _ & D).
    split; [|exact D]. intros i j v Hp Hv. unfold field_of at 1. rewrite B by auto.
    rewrite filled_extend in *. unfold step2.
    destruct (g_enabled g).
    + apply grav_source_ext; auto. intros. apply any_order_R. apply A; auto.
    + apply any_order_R. apply A; auto.
Qed.
