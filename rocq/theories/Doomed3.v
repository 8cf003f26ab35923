(** * Accepted settings for which the 3D kernels use uninitialised values *)
From Coq Require Import ZArith List Bool Lia ZifyBool String.
Import ListNotations.
From Verif Require Import Num Exec ExecFacts Grid GridFacts Boundaries BoundariesSpec
  BoundariesFacts BoundariesFill HydroNum Kernels KernelFacts Hydro2D Hydro2DSpec
  Hydro3D Hydro3DSpec Hydro3DFacts Hydro3DRun Doomed.
Local Open Scope Z_scope.

Section Doomed3.
Context {T : Type} {N : Num T}.

Lemma doomed_rd3 inb a i j k c :
  (forall v, In v vars3 -> inb (mkloc a i j k v) = true) -> (forall q : hs T, doomed inb (c q)) ->
  doomed inb (rd3 a i j k c).
Proof.
  intros Hb Hk. unfold rd3. simpl.
  repeat (split; [apply Hb; simpl; tauto|intros ?]). apply Hk.
Qed.

Variable m : mesh.
Variable S : hset T.
Variable g : gravp.
Variable dt : T.
Hypothesis Hwide : wide3 m.
Hypothesis Hgw : 2 <= gw m.
Hypothesis Hnv : nbvar m = 5.
Variables ain aout : arr.
Hypothesis Hb : buffers ain aout.

Let inb (iv : impl) := alloc3d m (nv3 m g iv).

Lemma npos3 : 1 <= nx m /\ 1 <= ny m /\ 1 <= nz m.
Proof. pose proof Hwide as ((_ & _ & (A & _) & _ & (B & _) & _) & (C & _) & _). auto. Qed.

Lemma prefix_runs3 iv s : exists s', execs (inb iv) s
  (make_boundaries3d m ain ++ [deep_copy3 m aout ain; map (convert_item3 m S ain) (cells3 m)]) s'.
Proof.
  apply in_foot_execs.
  assert (Hcell : forall i j k, In (i, j, k) (cells3 m) ->
    0 <= i < nx m + 2 * gw m /\ 0 <= j < ny m + 2 * gw m /\ 0 <= k < nz m + 2 * gw m).
  { intros i j k Hc. apply in_range3 in Hc. unfold isize, jsize, ksize in Hc. lia. }
  assert (Hain : nv3 m g iv ain = 5) by (destruct Hb as [[-> ->]|[-> ->]]; simpl; auto).
  assert (Haout : nv3 m g iv aout = 5) by (destruct Hb as [[-> ->]|[-> ->]]; simpl; auto).
  apply Forall_app. split.
  { pose proof Hwide as ((Hg & Hv & H1 & H2 & H3 & H4) & H5 & H6). apply fill3d_in_foot; auto.
    intros. apply alloc3_ok; unfold isize, jsize, ksize in *; lia. }
  repeat constructor.
  - apply kernel_in_bounds. intros [[i j] k] Hc. apply Hcell in Hc. unfold in_foot.
    apply foot_copy_n. intros. split; apply alloc3_ok; lia.
  - apply kernel_in_bounds. intros [[i j] k] Hc. apply Hcell in Hc. unfold in_foot, convert_item3.
    destruct (_ && _); [|exact I].
    apply foot_rd3; [intros v Hv; apply in_vars3 in Hv; apply alloc3_ok; lia|].
    intros. apply foot_wr3; [intros v Hv; apply in_vars3 in Hv; apply alloc3_ok; simpl; lia|exact I].
Qed.

Lemma gw_cell3 : In (gw m, gw m, gw m) (cells3 m) /\ inner3_le m (gw m) (gw m) (gw m) = true.
Proof.
  pose proof npos3. split.
  - apply in_range3. unfold isize, jsize, ksize. lia.
  - unfold inner3_le, isize, jsize, ksize. lia.
Qed.

Lemma unsafe_scheme3 iv s Ks1 K Ks2 p :
  scheme3 m S g dt iv aout = Ks1 ++ K :: Ks2 ->
  (forall s, exists s', execs (inb iv) s Ks1 s') ->
  In p K -> doomed (inb iv) p ->
  ~ safes (inb iv) s (godunov3 m S g dt iv ain aout).
Proof.
  intros E Hrun Hin Hd HS. unfold godunov3, godunov3_body in HS. rewrite app_assoc in HS.
  destruct (prefix_runs3 iv s) as [s1 H1]. pose proof (safes_app _ _ _ _ _ HS H1) as HS1.
  rewrite E, <- app_assoc in HS1. destruct (Hrun s1) as [s2 H2].
  pose proof (safes_app _ _ _ _ _ HS1 H2) as HS2. inversion HS2; subst.
  eapply doomed_unsafe; eauto.
Qed.

Lemma inQ3 iv i j k v : -2 <= i - gw m <= 1 -> -2 <= j - gw m <= 1 -> -2 <= k - gw m <= 1 ->
  In v vars3 -> inb iv (mkloc A_Q i j k v) = true.
Proof.
  intros Hi Hj Hk Hv. apply in_vars3 in Hv. pose proof npos3. apply alloc3_ok; simpl; lia.
Qed.

Lemma bad_slope_doomed3 iv (c : hs T -> hs T -> hs T -> hs T -> prog T) :
  ~ slope_ok S -> doomed (inb iv) (slopes_at3 S (gw m) (gw m) (gw m) c).
Proof.
  intros Hs. unfold slopes_at3.
  repeat (apply doomed_rd3; [intros; apply inQ3; auto; lia|intros]).
  unfold slopes3. unfold slope_ok in Hs.
  destruct (neqb (slope_type S) n0); [exfalso; apply Hs; reflexivity|].
  destruct (neqb (slope_type S) n1); [exfalso; apply Hs; reflexivity|].
  destruct (neqb (slope_type S) n2); [exfalso; apply Hs; reflexivity|].
  exact I.
Qed.

(** Unknown slope type: the first kernel of every version uses slopes that were never set. *)
Theorem bad_slope_unsafe3 iv s : ~ slope_ok S ->
  ~ safes (inb iv) s (godunov3 m S g dt iv ain aout).
Proof.
  intros Hs. destruct gw_cell3 as [Hin Hg]. pose proof npos3. destruct iv.
  - eapply (unsafe_scheme3 V0 s [] _ _ (fluxes_item3 m S g dt (gw m, gw m, gw m))).
    + reflexivity.
    + intros s0. exists s0. constructor.
    + apply in_map. auto.
    + unfold fluxes_item3. rewrite Hg. apply bad_slope_doomed3; auto.
  - eapply (unsafe_scheme3 V1 s [] _ _ (slopes_item3 m S (gw m, gw m, gw m))).
    + reflexivity.
    + intros s0. exists s0. constructor.
    + apply in_map. auto.
    + unfold slopes_item3. destruct (_ && _) eqn:HG; [|unfold isize, jsize, ksize in HG; lia].
      apply bad_slope_doomed3; auto.
  - eapply (unsafe_scheme3 V2 s [] _ _ (all_fluxes_item3 m S g dt aout (gw m, gw m, gw m))).
    + reflexivity.
    + intros s0. exists s0. constructor.
    + apply in_map. auto.
    + unfold all_fluxes_item3. rewrite Hg. apply bad_slope_doomed3; auto.
Qed.

Lemma doomed_slopes_at3 iv i j k c : slope_ok S ->
  -1 <= i - gw m <= 0 -> -1 <= j - gw m <= 0 -> -1 <= k - gw m <= 0 ->
  (forall q a b d, doomed (inb iv) (c q a b d)) -> doomed (inb iv) (slopes_at3 S i j k c).
Proof.
  intros Hs Hi Hj Hk Hc. unfold slopes_at3.
  repeat (apply doomed_rd3; [intros; apply inQ3; auto; lia|intros]).
  destruct (slopes3 S q q0 q1 q2 q3 q4 q5) as [[[a b] d]|] eqn:E; [apply Hc|].
  exfalso. eapply slopes3_some; eauto.
Qed.

Lemma doomed_predict3 iv i j k q c :
  -1 <= i - gw m <= 0 -> -1 <= j - gw m <= 0 -> -1 <= k - gw m <= 0 ->
  (forall q, doomed (inb iv) (c q)) -> doomed (inb iv) (predict3 g dt i j k q c).
Proof.
  intros Hi Hj Hk Hc. unfold predict3. destruct (g_enabled g && g_hancock g) eqn:E; auto.
  assert (E1 : g_enabled g = true) by lia. pose proof npos3.
  simpl. repeat split; auto; intros; repeat split; try (intros; apply Hc);
    apply alloc3_ok; simpl; rewrite ?E1; unfold IX, IY, IZ; lia.
Qed.

Lemma doomed_flux_dir3 iv q a b d c : slope_ok S -> ~ solver_ok3 S ->
  doomed (inb iv) (flux_dir3 S g dt DX (gw m) (gw m) (gw m) q a b d c).
Proof.
  intros Hs Hr. unfold flux_dir3. cbn [ox oy oz].
  apply doomed_slopes_at3; auto; try lia. intros.
  apply doomed_predict3; try lia. intros. apply doomed_predict3; try lia. intros.
  unfold riemann3. unfold solver_ok3 in Hr. destruct (solver S); try exact I; exfalso; apply Hr; split; discriminate.
Qed.

(** Solver HLL or HLLD: no flux is ever computed. *)
Theorem bad_solver_unsafe3 iv s : slope_ok S -> ~ solver_ok3 S ->
  ~ safes (inb iv) s (godunov3 m S g dt iv ain aout).
Proof.
  intros Hs Hr. destruct gw_cell3 as [Hin Hg]. pose proof npos3. destruct iv.
  - eapply (unsafe_scheme3 V0 s [] _ _ (fluxes_item3 m S g dt (gw m, gw m, gw m))).
    + reflexivity.
    + intros s0. exists s0. constructor.
    + apply in_map. auto.
    + unfold fluxes_item3. rewrite Hg. apply doomed_slopes_at3; auto; try lia.
      intros. apply doomed_flux_dir3; auto.
  - eapply (unsafe_scheme3 V1 s [map (slopes_item3 m S) (cells3 m)] _ _
      (trace_fluxes_item3 m S g dt DX A_Fx (gw m, gw m, gw m))).
    + reflexivity.
    + intros s0. apply in_foot_execs. repeat constructor.
      apply kernel_in_bounds. intros [[i j] k] Hc. unfold in_foot, slopes_item3.
      destruct (_ && _) eqn:HG; [|exact I]. unfold isize, jsize, ksize in HG.
      unfold slopes_at3.
      repeat (apply foot_rd3; [intros v Hv; apply in_vars3 in Hv; apply alloc3_ok; simpl; lia|intros]).
      apply foot_need; [apply slopes3_some; auto|]. intros [[? ?] ?].
      repeat (apply foot_wr3; [intros v Hv; apply in_vars3 in Hv; apply alloc3_ok; simpl; lia|]). exact I.
    + apply in_map. auto.
    + unfold trace_fluxes_item3. rewrite Hg. cbn [kicked_right ox oy oz].
      repeat (apply doomed_rd3; [intros v Hv; apply in_vars3 in Hv; apply alloc3_ok; simpl; lia|intros]).
      apply doomed_predict3; try lia. intros.
      repeat (apply doomed_rd3; [intros v Hv; apply in_vars3 in Hv; apply alloc3_ok; simpl; lia|intros]).
      apply doomed_predict3; try lia. intros.
      unfold riemann3. unfold solver_ok3 in Hr. destruct (solver S); try exact I; exfalso; apply Hr; split; discriminate.
  - eapply (unsafe_scheme3 V2 s [] _ _ (all_fluxes_item3 m S g dt aout (gw m, gw m, gw m))).
    + reflexivity.
    + intros s0. exists s0. constructor.
    + apply in_map. auto.
    + unfold all_fluxes_item3. rewrite Hg. apply doomed_slopes_at3; auto; try lia.
      intros. apply doomed_flux_dir3; auto.
Qed.

End Doomed3.
