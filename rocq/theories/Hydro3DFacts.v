(** * The 3D kernels compute the scheme, under every schedule *)
From Coq Require Import ZArith List Bool Lia ZifyBool.
Import ListNotations.
From Verif Require Import Num Exec ExecFacts Grid GridFacts Boundaries BoundariesSpec
  BoundariesFacts BoundariesFill BoundariesNarrow HydroNum Kernels KernelFacts
  Hydro2D Hydro2DSpec Hydro2DFacts Hydro3D Hydro3DSpec.
Local Open Scope Z_scope.

Lemma slopes3_some {T} {N : Num T} (S : hset T) (Hs : slope_ok S) q a b c d e f :
  slopes3 S q a b c d e f <> None.
Proof.
  unfold slopes3. unfold slope_ok in Hs.
  destruct (neqb (slope_type S) n0); [discriminate|].
  destruct (neqb (slope_type S) n1); [discriminate|].
  destruct (neqb (slope_type S) n2); [discriminate|]. discriminate Hs.
Qed.

Lemma riemann3_some {T} {N : Num T} (S : hset T) (Hs : solver_ok3 S) ql qr :
  riemann3 S ql qr <> None.
Proof. unfold riemann3. destruct Hs as [H1 H2]. destruct (solver S); congruence. Qed.

(** Footprint goals of 3D items. *)
Ltac foots3 := repeat
  match goal with
  | |- foot _ _ _ Done => exact I
  | |- foot _ _ _ (rd3 _ _ _ _ _) => apply foot_rd3
  | |- foot _ _ _ (wr3 _ _ _ _ _ _) => apply foot_wr3
  | |- foot _ _ _ (need (slopes3 _ _ _ _ _ _ _ _) _) =>
      apply foot_need; [apply slopes3_some; assumption|intros [[? ?] ?]]
  | |- foot _ _ _ (need (riemann3 _ _ _) _) => apply foot_need; [apply riemann3_some; assumption|]
  | |- foot _ _ _ (predict3 ?g _ _ _ _ _ _) => unfold predict3; destruct (g_enabled g && g_hancock g) eqn:?
  | |- foot _ _ _ (slopes_at3 _ _ _ _ _) => unfold slopes_at3
  | |- foot _ _ _ (flux_dir3 _ _ _ _ _ _ _ _ _ _ _ _) => unfold flux_dir3
  | |- foot _ _ _ (apply_flux _ _ _ _ _ _ _ _) => unfold apply_flux
  | |- foot _ _ _ (accum _ _ _ _ _) => apply foot_accum
  | |- foot _ _ _ (atomics _ _ _ _ _) => apply foot_atomics
  | |- foot _ _ _ (copy_n _ _ _ _) => apply foot_copy_n
  | |- foot _ _ _ (Rd _ _) => split
  | |- foot _ _ _ (Wr _ _ _) => split
  | |- forall _, foot _ _ _ _ => intro
  end.

Lemma mkloc_inj a i j k v1 v2 : mkloc a i j k v1 = mkloc a i j k v2 -> v1 = v2.
Proof. intros E; inversion E; auto. Qed.

Ltac var5 v := assert (v = 0 \/ v = 1 \/ v = 2 \/ v = 3 \/ v = 4) as [->|[->|[->|[->| ->]]]] by lia.

Section Facts.
Context {T : Type} {N : Num T}.
Variable m : mesh.
Variable S : hset T.
Variable g : gravp.
Variable dt : T.
Variable inb : extents.
Hypothesis Hslope : slope_ok S.
Hypothesis Hsolver : solver_ok3 S.

(** ** Footprints: each item writes only its own cell *)

Lemma own_convert3 a : a = A_U \/ a = A_U2 ->
  forall c, own_foot (only [A_Q]) c (convert_item3 m S a c).
Proof.
  intros Ha [[i j] k]. unfold own_foot, convert_item3. destruct (_ && _); [|exact I].
  foots3; destruct Ha as [-> | ->]; own_goal.
Qed.

Lemma own_fluxes3 : forall c, own_foot (only [A_Fx; A_Fy; A_Fz]) c (fluxes_item3 m S g dt c).
Proof.
  intros [[i j] k]. unfold own_foot, fluxes_item3. destruct (inner3_le m i j k); [|exact I].
  foots3; own_goal.
Qed.

Lemma own_update3 a : a = A_U \/ a = A_U2 ->
  forall c, own_foot (only [a]) c (update_item3 m a c).
Proof.
  intros Ha [[i j] k]. unfold own_foot, update_item3. destruct (inner3 m i j k); [|exact I].
  destruct Ha as [-> | ->]; foots3; intros; repeat split; own_goal.
Qed.

Lemma own_update_dir3 d a : a = A_U \/ a = A_U2 ->
  forall c, own_foot (only [a]) c (update_dir_item3 m d a A_Fx c).
Proof.
  intros Ha [[i j] k]. unfold own_foot, update_dir_item3. destruct (inner3 m i j k); [|exact I].
  destruct Ha as [-> | ->]; foots3; intros; repeat split; own_goal.
Qed.

Lemma own_slopes3 : forall c, own_foot (only [A_Sx; A_Sy; A_Sz]) c (slopes_item3 m S c).
Proof.
  intros [[i j] k]. unfold own_foot, slopes_item3. destruct (_ && _); [|exact I].
  foots3; own_goal.
Qed.

Lemma own_trace3 d :
  forall c, own_foot (only [A_Fx]) c (trace_fluxes_item3 m S g dt d A_Fx c).
Proof.
  intros [[i j] k]. unfold own_foot, trace_fluxes_item3. destruct (inner3_le m i j k); [|exact I].
  destruct d; cbn [kicked_right]; foots3; own_goal.
Qed.

Lemma own_gravity3 ain aout : buffers ain aout ->
  forall c, own_foot (only [aout]) c (gravity_item3 m dt ain aout c).
Proof.
  intros Hb [[i j] k]. unfold own_foot, gravity_item3. destruct (inner3 m i j k); [|exact I].
  destruct Hb as [[-> ->]|[-> ->]]; foots3; own_goal.
Qed.

Lemma own_deep_copy3 dst src : dst <> src ->
  forall c : Z * Z * Z, own_foot (T := T) (only [dst]) c
    (let '(i, j, k) := c in copy_n (Z.to_nat (nbvar m)) 0 (mkloc dst i j k) (mkloc src i j k)).
Proof.
  intros Hne [[i j] k]. apply foot_copy_n. intros v Hv. split; simpl.
  - unfold arr_eqb. destruct (arr_eq_dec src dst); [congruence|discriminate].
  - unfold arr_eqb. destruct (arr_eq_dec dst dst); [auto|congruence].
Qed.

(** ** Values *)

Notation Gf s := (fun i j k v => s (mkloc A_G i j k v)).
Notation dX d := (fst (fst d)).
Notation dY d := (snd (fst d)).
Notation dZ d := (snd d).

Lemma run_slopes_at3 i j k c s :
  run (slopes_at3 S i j k c) s =
  run (c (get3 s A_Q i j k) (dX (dqf3 S (get3 s A_Q) i j k)) (dY (dqf3 S (get3 s A_Q) i j k))
         (dZ (dqf3 S (get3 s A_Q) i j k))) s.
Proof.
  unfold slopes_at3, dqf3. rewrite !run_rd3. unfold need.
  destruct (slopes3 _ _ _ _ _ _ _ _) as [[[x y] z]|] eqn:E; [reflexivity|].
  exfalso. eapply slopes3_some; eauto.
Qed.

Lemma run_predict3 i j k q c s :
  run (predict3 g dt i j k q c) s = run (c (predictor g dt (Gf s) true q i j k)) s.
Proof. unfold predict3, predictor. cbn [andb]. destruct (g_enabled g && g_hancock g); reflexivity. Qed.

Lemma run_riemann3 ql qr (c : hs T -> prog T) s :
  run (need (riemann3 S ql qr) c) s = run (c (solve3 S ql qr)) s.
Proof.
  unfold need, solve3. destruct (riemann3 S ql qr) as [d|] eqn:E; [reflexivity|].
  exfalso. eapply riemann3_some; eauto.
Qed.

Lemma run_flux_dir3 d i j k c s :
  let Q := get3 s A_Q in
  run (flux_dir3 S g dt d i j k (Q i j k) (dX (dqf3 S Q i j k)) (dY (dqf3 S Q i j k))
        (dZ (dqf3 S Q i j k)) c) s =
  run (c (hscale (flux3 S g dt true Q (Gf s) d i j k) (dtd S dt d))) s.
Proof.
  cbv zeta. unfold flux_dir3. rewrite run_slopes_at3, !run_predict3, run_riemann3. reflexivity.
Qed.

Lemma get3_put3_FQ s a i j k q : a <> A_Q -> get3 (put3 s a i j k q) A_Q = get3 (T := T) s A_Q.
Proof. intros H. unfold get3. destruct a; try reflexivity; congruence. Qed.
Lemma put3_FG s a i j k q i' j' k' v : a <> A_G ->
  put3 (T := T) s a i j k q (mkloc A_G i' j' k' v) = s (mkloc A_G i' j' k' v).
Proof. intros H. apply put3_other. simpl. intros [E _]. congruence. Qed.

Lemma flux3_ext full Q1 Q2 G1 G2 d i j k :
  (forall i' j' k', i - 1 - ox d <= i' <= i + 1 -> j - 1 - oy d <= j' <= j + 1 ->
     k - 1 - oz d <= k' <= k + 1 -> Q1 i' j' k' = Q2 i' j' k') ->
  (forall i' j' k' v, i - ox d <= i' <= i -> j - oy d <= j' <= j -> k - oz d <= k' <= k ->
     G1 i' j' k' v = G2 i' j' k' v) ->
  flux3 S g dt full Q1 G1 d i j k = flux3 S g dt full Q2 G2 d i j k.
Proof.
  intros H HG. unfold flux3, face_state3, predictor, dqf3.
  destruct d; cbn [ox oy oz] in *; rewrite !H, !HG by lia; reflexivity.
Qed.

Lemma convert_spec3 a s s' : a = A_U \/ a = A_U2 ->
  exec inb s (map (convert_item3 m S a) (cells3 m)) s' ->
  (forall i j k, cell3 m i j k -> get3 s' A_Q i j k = fst (prim3 S (get3 s a i j k))) /\
  (forall l, la l <> A_Q -> s' l = s l).
Proof.
  intros Ha Hex. destruct (cellwise3 _ _ _ _ _ _ _ _ (own_convert3 a Ha) Hex) as [H1 H2]. split.
  - intros i j k [[Hi Hj] Hk]. apply get3_eq. intros v Hv.
    rewrite H1 by (unfold isize, jsize, ksize; lia). unfold convert_item3.
    replace (_ && _) with true by (unfold isize, jsize, ksize; lia).
    rewrite run_rd3, run_wr3. cbn [run]. apply put3_same. auto.
  - intros l Hl. apply H2. destruct l as [[] ? ? ? ?]; simpl in *; congruence.
Qed.

Definition fa (d : dir) : arr := match d with DX => A_Fx | DY => A_Fy | DZ => A_Fz end.

Lemma fluxes_spec3 s s' : 1 <= gw m ->
  exec inb s (map (fluxes_item3 m S g dt) (cells3 m)) s' ->
  (forall d i j k v, gw m <= i <= nx m + gw m -> gw m <= j <= ny m + gw m ->
     gw m <= k <= nz m + gw m -> 0 <= v < 5 ->
     s' (mkloc (fa d) i j k v) = F3 S g dt true (get3 s A_Q) (Gf s) d i j k v) /\
  (forall l, la l <> A_Fx -> la l <> A_Fy -> la l <> A_Fz -> s' l = s l).
Proof.
  intros Hg Hex. destruct (cellwise3 _ _ _ _ _ _ _ _ own_fluxes3 Hex) as [H1 H2]. split.
  - intros d i j k v Hi Hj Hk Hv.
    assert (HG : inner3_le m i j k = true) by (unfold inner3_le, isize, jsize, ksize; lia).
    rewrite !H1 by (unfold isize, jsize, ksize; lia). unfold fluxes_item3. rewrite HG.
    rewrite run_slopes_at3, run_flux_dir3, run_wr3.
    set (s1 := put3 s A_Fx _ _ _ _).
    assert (Q1 : get3 s1 A_Q = get3 s A_Q) by (apply get3_put3_FQ; congruence).
    rewrite <- Q1. rewrite run_flux_dir3, run_wr3.
    set (s2 := put3 s1 A_Fy _ _ _ _).
    assert (Q2 : get3 s2 A_Q = get3 s1 A_Q) by (apply get3_put3_FQ; congruence).
    rewrite <- Q2. rewrite run_flux_dir3, run_wr3. cbn [run].
    assert (G1 : forall i j k v, s1 (mkloc A_G i j k v) = s (mkloc A_G i j k v))
      by (intros; apply put3_FG; congruence).
    assert (G2 : forall i j k v, s2 (mkloc A_G i j k v) = s (mkloc A_G i j k v))
      by (intros; rewrite <- G1; apply put3_FG; congruence).
    destruct d; cbn [fa].
    + rewrite put3_other by (simpl; intros [E _]; discriminate). unfold s2.
      rewrite put3_other by (simpl; intros [E _]; discriminate). unfold s1.
      rewrite put3_same, hget_hscale by lia. reflexivity.
    + rewrite put3_other by (simpl; intros [E _]; discriminate). unfold s2.
      rewrite put3_same, hget_hscale by lia. unfold F3.
      rewrite (flux3_ext true (get3 s1 A_Q) (get3 s A_Q) (Gf s1) (Gf s) DY i j k);
        [reflexivity|intros; rewrite Q1; reflexivity|intros; apply G1].
    + rewrite put3_same, hget_hscale by lia. unfold F3.
      rewrite (flux3_ext true (get3 s2 A_Q) (get3 s A_Q) (Gf s2) (Gf s) DZ i j k);
        [reflexivity|intros; rewrite Q2, Q1; reflexivity|intros; apply G2].
  - intros l Hl Hl' Hl''. apply H2. destruct l as [[] ? ? ? ?]; simpl in *; congruence.
Qed.

Lemma update_spec3 a s s' : a = A_U \/ a = A_U2 ->
  exec inb s (map (update_item3 m a) (cells3 m)) s' ->
  (forall i j k v, phys3 m i j k -> 0 < gw m -> 0 <= v < 5 ->
     s' (mkloc a i j k v) =
     nsub (nadd (nsub (nadd (nsub (nadd (s (mkloc a i j k v))
       (s (mkloc A_Fx i j k v))) (s (mkloc A_Fx (i + 1) j k v)))
       (s (mkloc A_Fy i j k v))) (s (mkloc A_Fy i (j + 1) k v)))
       (s (mkloc A_Fz i j k v))) (s (mkloc A_Fz i j (k + 1) v))) /\
  (forall i j k v, cell3 m i j k -> ~ phys3 m i j k -> s' (mkloc a i j k v) = s (mkloc a i j k v)) /\
  (forall l, la l <> a -> s' l = s l).
Proof.
  intros Ha Hex. destruct (cellwise3 _ _ _ _ _ _ _ _ (own_update3 a Ha) Hex) as [H1 H2].
  assert (Hne : forall b i j k v i' j' k' v', b = A_Fx \/ b = A_Fy \/ b = A_Fz ->
     mkloc a i j k v <> mkloc b i' j' k' v').
  { intros b i j k v i' j' k' v' Hb E. inversion E. destruct Ha, Hb as [|[|]]; congruence. }
  split; [|split].
  - intros i j k v [[Hi Hj] Hk] Hg Hv. unfold physical in *.
    rewrite H1 by (unfold isize, jsize, ksize; lia). unfold update_item3.
    replace (inner3 m i j k) with true by (unfold inner3, isize, jsize, ksize; lia).
    rewrite !run_accum. cbn [run].
    rewrite !acc_val by (try apply nodup_vars3; try (apply in_vars3; lia); try apply mkloc_inj; auto).
    rewrite !acc_other by auto. reflexivity.
  - intros i j k v [[Hi Hj] Hk] Hn. rewrite H1 by (unfold isize, jsize, ksize; lia).
    unfold update_item3. replace (inner3 m i j k) with false; [reflexivity|].
    unfold phys3, phys2, physical in Hn. unfold inner3, isize, jsize, ksize. lia.
  - intros l Hl. apply H2. simpl. unfold arr_eqb. destruct (arr_eq_dec (la l) a); auto. contradiction.
Qed.

Lemma update_dir_spec3 d a s s' : a = A_U \/ a = A_U2 ->
  exec inb s (map (update_dir_item3 m d a A_Fx) (cells3 m)) s' ->
  (forall i j k v, phys3 m i j k -> 0 < gw m -> 0 <= v < 5 ->
     s' (mkloc a i j k v) =
     nsub (nadd (s (mkloc a i j k v)) (s (mkloc A_Fx i j k v)))
          (s (mkloc A_Fx (i + ox d) (j + oy d) (k + oz d) v))) /\
  (forall i j k v, cell3 m i j k -> ~ phys3 m i j k -> s' (mkloc a i j k v) = s (mkloc a i j k v)) /\
  (forall l, la l <> a -> s' l = s l).
Proof.
  intros Ha Hex. destruct (cellwise3 _ _ _ _ _ _ _ _ (own_update_dir3 d a Ha) Hex) as [H1 H2].
  assert (Hne : forall i j k v i' j' k' v', mkloc a i j k v <> mkloc A_Fx i' j' k' v').
  { intros i j k v i' j' k' v' E. inversion E. destruct Ha; congruence. }
  split; [|split].
  - intros i j k v [[Hi Hj] Hk] Hg Hv. unfold physical in *.
    rewrite H1 by (unfold isize, jsize, ksize; lia). unfold update_dir_item3.
    replace (inner3 m i j k) with true by (unfold inner3, isize, jsize, ksize; lia).
    rewrite !run_accum. cbn [run].
    rewrite !acc_val by (try apply nodup_vars3; try (apply in_vars3; lia); try apply mkloc_inj; auto).
    rewrite !acc_other by auto. reflexivity.
  - intros i j k v [[Hi Hj] Hk] Hn. rewrite H1 by (unfold isize, jsize, ksize; lia).
    unfold update_dir_item3. replace (inner3 m i j k) with false; [reflexivity|].
    unfold phys3, phys2, physical in Hn. unfold inner3, isize, jsize, ksize. lia.
  - intros l Hl. apply H2. simpl. unfold arr_eqb. destruct (arr_eq_dec (la l) a); auto. contradiction.
Qed.

(** Cells whose slopes are stored. *)
Definition slope_cell (i j k : Z) : Prop :=
  gw m - 1 <= i <= nx m + gw m /\ gw m - 1 <= j <= ny m + gw m /\ gw m - 1 <= k <= nz m + gw m.

Definition slopes_stored (s : store T) : Prop :=
  forall i j k, slope_cell i j k ->
    get3 s A_Sx i j k = dX (dqf3 S (get3 s A_Q) i j k) /\
    get3 s A_Sy i j k = dY (dqf3 S (get3 s A_Q) i j k) /\
    get3 s A_Sz i j k = dZ (dqf3 S (get3 s A_Q) i j k).

Lemma dqf3_ext Q1 Q2 i j k :
  (forall i' j' k', i - 1 <= i' <= i + 1 -> j - 1 <= j' <= j + 1 -> k - 1 <= k' <= k + 1 ->
     Q1 i' j' k' = Q2 i' j' k') ->
  dqf3 S Q1 i j k = dqf3 S Q2 i j k.
Proof. intros H. unfold dqf3. rewrite !H by lia. reflexivity. Qed.

Lemma slopes_spec3 s s' : 1 <= gw m ->
  exec inb s (map (slopes_item3 m S) (cells3 m)) s' ->
  slopes_stored s' /\
  (forall l, la l <> A_Sx -> la l <> A_Sy -> la l <> A_Sz -> s' l = s l).
Proof.
  intros Hg Hex. destruct (cellwise3 _ _ _ _ _ _ _ _ own_slopes3 Hex) as [H1 H2].
  assert (Hfr : forall l, la l <> A_Sx -> la l <> A_Sy -> la l <> A_Sz -> s' l = s l).
  { intros l ? ? ?. apply H2. destruct l as [[] ? ? ? ?]; simpl in *; congruence. }
  split; [|exact Hfr].
  intros i j k (Hi & Hj & Hk).
  assert (EQ : dqf3 S (get3 s' A_Q) i j k = dqf3 S (get3 s A_Q) i j k).
  { apply dqf3_ext. intros. apply get3_ext. intros. apply Hfr; simpl; congruence. }
  rewrite EQ.
  repeat split; apply get3_eq; intros v Hv;
    rewrite !H1 by (unfold isize, jsize, ksize; lia); unfold slopes_item3;
    (replace (_ && _) with true by (unfold isize, jsize, ksize; lia));
    rewrite run_slopes_at3, !run_wr3; cbn [run].
  - do 2 rewrite put3_other by (simpl; intros [E _]; discriminate). apply put3_same; auto.
  - rewrite put3_other by (simpl; intros [E _]; discriminate). apply put3_same; auto.
  - apply put3_same; auto.
Qed.

Lemma trace_spec3 d s s' : 1 <= gw m -> slopes_stored s ->
  exec inb s (map (trace_fluxes_item3 m S g dt d A_Fx) (cells3 m)) s' ->
  (forall i j k v, gw m <= i <= nx m + gw m -> gw m <= j <= ny m + gw m ->
     gw m <= k <= nz m + gw m -> 0 <= v < 5 ->
     s' (mkloc A_Fx i j k v) = F3 S g dt false (get3 s A_Q) (Gf s) d i j k v) /\
  (forall l, la l <> A_Fx -> s' l = s l).
Proof.
  intros Hg HS Hex. destruct (cellwise3 _ _ _ _ _ _ _ _ (own_trace3 d) Hex) as [H1 H2]. split.
  - intros i j k v Hi Hj Hk Hv.
    assert (HG : inner3_le m i j k = true) by (unfold inner3_le, isize, jsize, ksize; lia).
    rewrite !H1 by (unfold isize, jsize, ksize; lia). unfold trace_fluxes_item3. rewrite HG.
    destruct (HS i j k) as (E1 & E2 & E3); [unfold slope_cell; lia|].
    destruct (HS (i - ox d) (j - oy d) (k - oz d)) as (E4 & E5 & E6);
      [unfold slope_cell; destruct d; simpl; lia|].
    rewrite !run_rd3, E1, E2, E3.
    unfold F3, flux3. cbn [orb]. unfold face_state3 at 2.
    destruct (kicked_right d);
    [rewrite run_predict3|];
    rewrite !run_rd3, E4, E5, E6, run_predict3, run_riemann3, run_wr3; cbn [run];
    rewrite put3_same, hget_hscale by lia; reflexivity.
  - intros l Hl. apply H2. destruct l as [[] ? ? ? ?]; simpl in *; congruence.
Qed.

Lemma gravity_spec3 ain aout s s' : buffers ain aout ->
  exec inb s (map (gravity_item3 m dt ain aout) (cells3 m)) s' ->
  (forall i j k v, phys3 m i j k -> 0 < gw m -> 0 <= v < 5 ->
     s' (mkloc aout i j k v) =
     grav_source3 dt (fun i j k v => s (mkloc ain i j k v)) (Gf s)
       (fun i j k v => s (mkloc aout i j k v)) i j k v) /\
  (forall i j k v, cell3 m i j k -> ~ phys3 m i j k ->
     s' (mkloc aout i j k v) = s (mkloc aout i j k v)) /\
  (forall l, la l <> aout -> s' l = s l).
Proof.
  intros Hb Hex. destruct (cellwise3 _ _ _ _ _ _ _ _ (own_gravity3 ain aout Hb) Hex) as [H1 H2].
  split; [|split].
  - intros i j k v [[Hi Hj] Hk] Hg Hv. unfold physical in *.
    rewrite H1 by (unfold isize, jsize, ksize; lia). unfold gravity_item3.
    replace (inner3 m i j k) with true by (unfold inner3, isize, jsize, ksize; lia).
    cbn [run].
    var5 v; unfold IE, IU, IV, IW, ID;
    repeat (first [rewrite upd_same | rewrite upd_other by (cbv; congruence)]); reflexivity.
  - intros i j k v [[Hi Hj] Hk] Hn. rewrite H1 by (unfold isize, jsize, ksize; lia).
    unfold gravity_item3. replace (inner3 m i j k) with false; [reflexivity|].
    unfold phys3, phys2, physical in Hn. unfold inner3, isize, jsize, ksize. lia.
  - intros l Hl. apply H2. simpl. unfold arr_eqb. destruct (arr_eq_dec (la l) aout); auto. contradiction.
Qed.

Lemma deep_copy_spec3 dst src s s' : dst <> src -> 0 <= nbvar m ->
  exec (T := T) inb s (deep_copy3 m dst src) s' ->
  (forall i j k v, cell3 m i j k -> 0 <= v < nbvar m -> s' (mkloc dst i j k v) = s (mkloc src i j k v)) /\
  (forall l, la l <> dst -> s' l = s l).
Proof.
  intros Hne Hn Hex. unfold deep_copy3 in Hex.
  destruct (cellwise3 _ _ _ _ _ _ _ _ (own_deep_copy3 dst src Hne) Hex) as [H1 H2]. split.
  - intros i j k v [[Hi Hj] Hk] Hv. rewrite H1 by (unfold isize, jsize, ksize; lia).
    apply (run_copy_n (mkloc dst i j k) (mkloc src i j k)).
    + intros v1 v2. apply mkloc_inj.
    + intros v1 v2 E. inversion E. contradiction.
    + lia.
  - intros l Hl. apply H2. simpl. unfold arr_eqb. destruct (arr_eq_dec (la l) dst); auto. contradiction.
Qed.

End Facts.
