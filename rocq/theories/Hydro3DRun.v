(** * 3D steps: bounds, determinism, and runs of many steps *)
From Coq Require Import ZArith List Bool Lia ZifyBool Permutation Reals Lra.
Import ListNotations.
From Verif Require Import Num Exec ExecFacts Grid GridFacts Boundaries BoundariesSpec
  BoundariesFacts BoundariesFill BoundariesNarrow HydroNum Kernels KernelFacts Atomics
  Hydro2D Hydro2DSpec Hydro2DFacts Hydro2DStep Determ Hydro2DRun
  Hydro3D Hydro3DSpec Hydro3DFacts Hydro3DStep.
Local Open Scope Z_scope.

Section Bounds.
Context {T : Type} {N : Num T}.
Variable m : mesh.
Variable S : hset T.
Variable g : gravp.
Variable dt : T.
Hypothesis Hslope : slope_ok S.
Hypothesis Hsolver : solver_ok3 S.
Hypothesis Hwide : wide3 m.
Hypothesis Hgw : 2 <= gw m.
Hypothesis Hnv : nbvar m = 5.
Variables ain aout : arr.
Hypothesis Hb : buffers ain aout.

Lemma alloc3_ok nv a i j k v :
  0 <= i < nx m + 2 * gw m -> 0 <= j < ny m + 2 * gw m -> 0 <= k < nz m + 2 * gw m ->
  0 <= v < nv a -> alloc3d m nv (mkloc a i j k v) = true.
Proof. intros. unfold alloc3d, isize, jsize, ksize; simpl. lia. Qed.

Ltac inside3 :=
  intros;
  repeat match goal with
  | H : In _ (if ?b then _ else _) |- _ => destruct b eqn:?; [|destruct H]
  | H : In _ vars3 |- _ => apply in_vars3 in H
  end;
  repeat split; apply alloc3_ok; unfold ID, IP, IU, IV, IW, IE, IX, IY, IZ, add_ok, sub_ok in *;
  cbn [nv3 ox oy oz] in *; unfold isize, jsize, ksize in *;
  try replace (g_enabled g) with true by lia; lia.

Lemma godunov3_in_foot iv :
  Forall (Forall (in_foot (alloc3d m (nv3 m g iv)))) (godunov3 m S g dt iv ain aout).
Proof.
  unfold godunov3, godunov3_body.
  assert (Hcell : forall i j k, In (i, j, k) (cells3 m) ->
    0 <= i < nx m + 2 * gw m /\ 0 <= j < ny m + 2 * gw m /\ 0 <= k < nz m + 2 * gw m).
  { intros i j k Hc. apply in_range3 in Hc. unfold isize, jsize, ksize in Hc. lia. }
  assert (Hain : nv3 m g iv ain = 5) by (destruct Hb as [[-> ->]|[-> ->]]; simpl; auto).
  assert (Haout : nv3 m g iv aout = 5) by (destruct Hb as [[-> ->]|[-> ->]]; simpl; auto).
  apply Forall_app. split.
  { pose proof Hwide as ((Hg & Hv & H1 & H2 & H3 & H4) & H5 & H6). apply fill3d_in_foot; auto.
    intros. apply alloc3_ok; unfold isize, jsize, ksize in *; lia. }
  apply Forall_app. split.
  { repeat constructor.
    - apply kernel_in_bounds. intros [[i j] k] Hc. apply Hcell in Hc. unfold in_foot.
      apply foot_copy_n. intros. split; apply alloc3_ok; lia.
    - apply kernel_in_bounds. intros [[i j] k] Hc. apply Hcell in Hc. unfold in_foot, convert_item3.
      destruct (_ && _); [|exact I]. foots3; inside3. }
  assert (Htr : forall d, iv = V1 ->
    Forall (in_foot (alloc3d m (nv3 m g iv))) (map (trace_fluxes_item3 m S g dt d A_Fx) (cells3 m))).
  { intros d ->. apply kernel_in_bounds. intros [[i j] k] Hc. unfold in_foot, trace_fluxes_item3.
    destruct (inner3_le m i j k) eqn:HG; [|exact I]. unfold inner3_le in HG.
    destruct d; cbn [kicked_right]; foots3; inside3. }
  assert (Hud : forall d, iv = V1 ->
    Forall (in_foot (alloc3d m (nv3 m g iv))) (map (update_dir_item3 m d aout A_Fx) (cells3 m))).
  { intros d ->. apply kernel_in_bounds. intros [[i j] k] Hc. unfold in_foot, update_dir_item3.
    destruct (inner3 m i j k) eqn:HG; [|exact I]. unfold inner3 in HG.
    destruct d; foots3; inside3. }
  apply Forall_app. split.
  { destruct iv; cbn [scheme3].
    - repeat constructor.
      + apply kernel_in_bounds. intros [[i j] k] Hc. unfold in_foot, fluxes_item3.
        destruct (inner3_le m i j k) eqn:HG; [|exact I]. unfold inner3_le in HG.
        foots3; inside3.
      + apply kernel_in_bounds. intros [[i j] k] Hc. unfold in_foot, update_item3.
        destruct (inner3 m i j k) eqn:HG; [|exact I]. unfold inner3 in HG.
        foots3; inside3.
    - constructor; [|repeat constructor; auto].
      apply kernel_in_bounds. intros [[i j] k] Hc. unfold in_foot, slopes_item3.
      destruct (_ && _) eqn:HG; [|exact I].
      foots3; inside3.
    - repeat constructor.
      apply kernel_in_bounds. intros [[i j] k] Hc. unfold in_foot, all_fluxes_item3.
      destruct (inner3_le m i j k) eqn:HG; [|exact I]. unfold inner3_le in HG.
      foots3; inside3. }
  destruct (g_enabled g) eqn:HE; [|constructor].
  repeat constructor. apply kernel_in_bounds. intros [[i j] k] Hc. unfold in_foot, gravity_item3.
  destruct (inner3 m i j k) eqn:HG; [|exact I]. unfold inner3 in HG.
  foots3; inside3.
Qed.

Theorem godunov3_safe iv s :
  safes (alloc3d m (nv3 m g iv)) s (godunov3 m S g dt iv ain aout) /\
  exists s', execs (alloc3d m (nv3 m g iv)) s (godunov3 m S g dt iv ain aout) s'.
Proof.
  pose proof (godunov3_in_foot iv).
  split; [apply in_foot_safes|apply in_foot_execs]; auto.
Qed.

Theorem godunov3_det {O : NumOne T} iv inb : iv = V0 \/ iv = V1 ->
  deterministic inb (godunov3 m S g dt iv ain aout).
Proof.
  intros Hiv. unfold godunov3, godunov3_body. apply det_app; [apply det_fill3d; auto|].
  assert (Hai : ain = A_U \/ ain = A_U2) by (destruct Hb as [[-> ->]|[-> ->]]; auto).
  assert (Hao : aout = A_U \/ aout = A_U2) by (destruct Hb as [[-> ->]|[-> ->]]; auto).
  assert (Hne : aout <> ain) by (destruct Hb as [[-> ->]|[-> ->]]; congruence).
  apply det_app; [|apply det_app].
  - apply det_cons; [eapply det_cell3; apply own_deep_copy3; auto|].
    eapply det_cell3. apply own_convert3; auto.
  - destruct Hiv as [-> | ->]; cbn [scheme3].
    + apply det_cons; eapply det_cell3; [apply own_fluxes3|apply own_update3]; auto.
    + apply det_cons; [eapply det_cell3; apply own_slopes3; auto|].
      do 2 (apply det_cons; [eapply det_cell3; apply own_trace3; auto|];
            apply det_cons; [eapply det_cell3; apply own_update_dir3; auto|]).
      apply det_cons; [eapply det_cell3; apply own_trace3; auto|].
      eapply det_cell3; apply own_update_dir3; auto.
  - destruct (g_enabled g); [|apply det_nil]. eapply det_cell3. apply own_gravity3; auto.
Qed.

End Bounds.

(** ** Runs of many steps *)

Section Runs.
Context {T : Type} {N : Num T}.
Variable m : mesh.
Variable S : hset T.
Variable g : gravp.
Variable full : bool.

(** The kernels launched by consecutive calls of [next_iteration]
    (SolverHydroMuscl.h:635-679) with time steps [dts], the first one being
    iteration [n]. *)
Fixpoint steps3 (iv : impl) (n : nat) (dts : list T) : list (list (prog T)) :=
  match dts with
  | [] => []
  | dt :: dts' => godunov3 m S g dt iv (cur n) (nxt n) ++ steps3 iv (Datatypes.S n) dts'
  end.

(** Contents of an array as a field. *)
Definition field_of3 (a : arr) (s : store T) : field3 T := fun i j k v => s (mkloc a i j k v).

(** Ghost-filled extension of a field: every cell takes the value of its image. *)
Definition extend3 (u : field3 T) : field3 T := fun i j k v =>
  flip_if (mirrored_z m k && odd_z (p_mhd m) v)
   (flip_if (mirrored_y m j && odd_y (p_mhd m) v)
    (flip_if (mirrored_x m i && odd_x (p_mhd m) v) (u (image_x m i) (image_y m j) (image_z m k) v))).

Lemma filled_extend3 a s : filled3 m a s = extend3 (field_of3 a s).
Proof. reflexivity. Qed.

(** The scheme iterated on a field. *)
Fixpoint run_spec3 (G : field3 T) (dts : list T) (u : field3 T) : field3 T :=
  match dts with
  | [] => u
  | dt :: dts' => run_spec3 G dts' (step3 S g dt full (extend3 u) G)
  end.

(** Two fields agree on the physical cells. *)
Definition same_phys3 (u1 u2 : field3 T) : Prop :=
  forall i j k v, phys3 m i j k -> 0 <= v < 5 -> u1 i j k v = u2 i j k v.

Hypothesis Hwide : wide3 m.
Hypothesis Hgw : 2 <= gw m.

Lemma extend3_ext u1 u2 i j k v : same_phys3 u1 u2 -> cell3 m i j k -> 0 <= v < 5 ->
  extend3 u1 i j k v = extend3 u2 i j k v.
Proof. intros He Hc Hv. unfold extend3. rewrite He; auto. apply images_phys3; auto. Qed.

Lemma Qf3_ext (U1 U2 : field3 T) i j k :
  (forall v, 0 <= v < 5 -> U1 i j k v = U2 i j k v) -> Qf3 S U1 i j k = Qf3 S U2 i j k.
Proof. intros H. unfold Qf3, cell_state3. rewrite !H by (unfold ID, IP, IU, IV, IW; lia). reflexivity. Qed.

Lemma adv3_ext dt U1 U2 G1 G2 i j k v :
  (forall i' j' k' v, i - 2 <= i' <= i + 2 -> j - 2 <= j' <= j + 2 -> k - 2 <= k' <= k + 2 ->
     0 <= v < 5 -> U1 i' j' k' v = U2 i' j' k' v) ->
  (forall i' j' k' v, i - 1 <= i' <= i + 1 -> j - 1 <= j' <= j + 1 -> k - 1 <= k' <= k + 1 ->
     G1 i' j' k' v = G2 i' j' k' v) ->
  0 <= v < 5 ->
  adv3 S g dt full U1 G1 i j k v = adv3 S g dt full U2 G2 i j k v.
Proof.
  intros HU HG Hv. unfold adv3, F3.
  assert (HF : forall d i' j' k', i <= i' <= i + ox d -> j <= j' <= j + oy d -> k <= k' <= k + oz d ->
    flux3 S g dt full (Qf3 S U1) G1 d i' j' k' = flux3 S g dt full (Qf3 S U2) G2 d i' j' k').
  { intros d i' j' k' Hi Hj Hk. apply flux3_ext.
    - intros. apply Qf3_ext. intros. apply HU; destruct d; simpl in *; lia.
    - intros. apply HG; destruct d; simpl in *; lia. }
  rewrite HU by lia.
  rewrite !(HF DX), !(HF DY), !(HF DZ) by (simpl; lia). reflexivity.
Qed.

(** The new value of a cell is determined by the cells at most two away. *)
Lemma step3_stencil dt U1 U2 G1 G2 i j k v :
  (forall i' j' k' v, i - 2 <= i' <= i + 2 -> j - 2 <= j' <= j + 2 -> k - 2 <= k' <= k + 2 ->
     0 <= v < 5 -> U1 i' j' k' v = U2 i' j' k' v) ->
  (forall i' j' k' v, i - 1 <= i' <= i + 1 -> j - 1 <= j' <= j + 1 -> k - 1 <= k' <= k + 1 ->
     G1 i' j' k' v = G2 i' j' k' v) ->
  0 <= v < 5 ->
  step3 S g dt full U1 G1 i j k v = step3 S g dt full U2 G2 i j k v.
Proof.
  intros HU HG Hv. unfold step3. destruct (g_enabled g) eqn:E.
  - apply grav_source3_ext; auto.
    + apply HU; unfold ID; lia.
    + intros. apply HG; lia.
    + intros. apply adv3_ext; auto.
  - apply adv3_ext; auto.
Qed.

Lemma step3_ext dt u1 u2 G1 G2 : same_phys3 u1 u2 -> (forall i j k v, G1 i j k v = G2 i j k v) ->
  same_phys3 (step3 S g dt full (extend3 u1) G1) (step3 S g dt full (extend3 u2) G2).
Proof.
  intros He HG i j k v [[Hi Hj] Hk] Hv. apply step3_stencil; auto.
  intros. apply extend3_ext; auto. unfold cell3, cell2, physical in *. lia.
Qed.

Lemma run_spec3_ext dts : forall u1 u2 G1 G2, same_phys3 u1 u2 ->
  (forall i j k v, G1 i j k v = G2 i j k v) ->
  same_phys3 (run_spec3 G1 dts u1) (run_spec3 G2 dts u2).
Proof.
  induction dts as [|dt dts IH]; intros; simpl; auto. apply IH; auto. apply step3_ext; auto.
Qed.

(** One step of the program computes the scheme. *)
Definition refines3 (inb : extents) (iv : impl) : Prop :=
  forall dt n s s', execs inb s (godunov3 m S g dt iv (cur n) (nxt n)) s' ->
    same_phys3 (field_of3 (nxt n) s')
      (step3 S g dt full (extend3 (field_of3 (cur n) s)) (field_of3 A_G s)) /\
    (forall i j k v, s' (mkloc A_G i j k v) = s (mkloc A_G i j k v)).

Lemma run_refines3 inb iv : refines3 inb iv -> forall dts n s s',
  execs inb s (steps3 iv n dts) s' ->
  same_phys3 (field_of3 (cur (n + length dts)) s')
    (run_spec3 (field_of3 A_G s) dts (field_of3 (cur n) s)) /\
  (forall i j k v, s' (mkloc A_G i j k v) = s (mkloc A_G i j k v)).
Proof.
  intros Href. induction dts as [|dt dts IH]; intros n s s' Hex; cbn [steps3] in Hex.
  - inversion Hex; subst. simpl. rewrite Nat.add_0_r. split; auto. intros i j k v _ _. reflexivity.
  - apply execs_app in Hex. destruct Hex as (s1 & H1 & H2).
    destruct (Href dt n s s1 H1) as [A B]. destruct (IH (Datatypes.S n) s1 s' H2) as [C D].
    simpl length. replace (n + Datatypes.S (length dts))%nat with (Datatypes.S n + length dts)%nat by lia.
    split.
    + intros i j k v Hp Hv. rewrite C by auto. simpl. apply run_spec3_ext; auto.
      * rewrite cur_S. exact A.
    + intros. rewrite D, B. auto.
Qed.

Hypothesis Hslope : slope_ok S.
Hypothesis Hsolver : solver_ok3 S.
Hypothesis Hnv : nbvar m = 5.

Lemma refines3_V01 {O : NumOne T} inb iv : iv = V0 \/ iv = V1 -> full = full_of iv ->
  refines3 inb iv.
Proof.
  intros Hiv Hf dt n s s' Hex.
  destruct (step3_V01 m S g dt inb Hslope Hsolver Hwide Hgw Hnv _ _ (cur_nxt n) iv s s' Hiv Hex)
    as (A & _ & _ & D).
  split; [|exact D]. intros i j k v Hp Hv. unfold field_of3 at 1. rewrite A; auto. rewrite Hf. auto.
Qed.

End Runs.

(** Over the reals the three versions compute the scheme. *)
Lemma refines3_R m (S : hset R) g inb iv :
  wide3 m -> 2 <= gw m -> nbvar m = 5 -> slope_ok S -> solver_ok3 S ->
  refines3 m S g (full_of iv) inb iv.
Proof.
  intros Hwide Hgw Hnv Hslope Hsolver. destruct iv.
  - refine (refines3_V01 m S g true Hwide Hgw Hslope Hsolver Hnv inb _ _ _); auto.
  - refine (refines3_V01 m S g false Hwide Hgw Hslope Hsolver Hnv inb _ _ _); auto.
  - intros dt n s s' Hex.
    destruct (step3_V2 m S g dt inb Hslope Hsolver Hwide Hgw Hnv _ _ (cur_nxt n) s s' Hex)
      as (W & A & B & _ & _ & D).
    split; [|exact D]. intros i j k v Hp Hv. unfold field_of3 at 1. rewrite B by auto.
    rewrite filled_extend3 in *. unfold step3. cbn [full_of].
    destruct (g_enabled g).
    + apply grav_source3_ext; auto. intros. apply any_order3_R. apply A; auto.
    + apply any_order3_R. apply A; auto.
Qed.

(** Without gravity predictor the two variants of the scheme coincide. *)
Lemma predictor_off {T} {N : Num T} g dt (G : field3 T) b q i j k :
  g_enabled g && g_hancock g = false -> predictor g dt G b q i j k = q.
Proof. intros H. unfold predictor. rewrite H, andb_false_r. reflexivity. Qed.

Lemma step3_full {T} {N : Num T} (S : hset T) g dt U G i j k v :
  g_enabled g && g_hancock g = false ->
  step3 S g dt false U G i j k v = step3 S g dt true U G i j k v.
Proof.
  intros H. 
  assert (HF : forall Q d i j k v, F3 S g dt false Q G d i j k v = F3 S g dt true Q G d i j k v).
  { intros. unfold F3, flux3, face_state3. rewrite !predictor_off by auto. reflexivity. }
  assert (HA : forall i j k v, adv3 S g dt false U G i j k v = adv3 S g dt true U G i j k v).
  { intros. unfold adv3. rewrite !HF. reflexivity. }
  unfold step3, grav_source3. rewrite !HA. reflexivity.
Qed.
