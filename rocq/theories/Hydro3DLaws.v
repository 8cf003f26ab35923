(** * Conservation, walls, uniform states and translations of the 3D scheme *)
From Coq Require Import ZArith List Bool Lia ZifyBool Reals Lra.
Import ListNotations.
From Verif Require Import Num Exec ExecFacts Grid GridFacts Boundaries BoundariesSpec
  BoundariesNarrow HydroNum Kernels KernelFacts Hydro2D Hydro2DSpec Hydro2DFacts Hydro2DStep Hydro2DRun
  Sums EulerSpec HydroPhysics HydroRiemann Hydro2DLaws
  Hydro3D Hydro3DSpec Hydro3DFacts Hydro3DStep Hydro3DRun.
Local Open Scope Z_scope.

(** Number of physical cells along a direction. *)
Definition nd (m : mesh) (d : dir) : Z := match d with DX => nx m | DY => ny m | DZ => nz m end.

(** Sum over the physical cells. *)
Definition total3 (m : mesh) (u : field3 R) (v : Z) : R :=
  sumz (gw m) (nx m) (fun i => sumz (gw m) (ny m) (fun j => sumz (gw m) (nz m) (fun k => u i j k v))).

Lemma total3_ext m u1 u2 v : 0 <= v < 5 -> same_phys3 m u1 u2 -> total3 m u1 v = total3 m u2 v.
Proof.
  intros Hv H. unfold total3. apply sumz_ext. intros i Hi. apply sumz_ext. intros j Hj.
  apply sumz_ext. intros k Hk. apply H; auto. unfold phys3, phys2, physical. lia.
Qed.

Lemma mirrored_id lo hi n g x : physical n g x -> mirrored lo hi n g x = false.
Proof.
  unfold physical, mirrored. intros H. destruct (x <? g) eqn:E1; [lia|].
  destruct (n + g <=? x) eqn:E2; [lia|]. reflexivity.
Qed.

(** The extension equals the field on physical cells. *)
Lemma extend3_phys {T} {N : Num T} m u i j k v : phys3 m i j k -> extend3 m u i j k v = u i j k v.
Proof.
  intros [[Hi Hj] Hk]. unfold extend3, image_x, image_y, image_z, mirrored_x, mirrored_y, mirrored_z.
  rewrite !mirrored_id, !image_id by auto. reflexivity.
Qed.

Section Balance.
Variable m : mesh.
Variable S : hset R.
Variable g : gravp.
Variable full : bool.
Hypothesis Hx : 0 <= nx m.
Hypothesis Hy : 0 <= ny m.
Hypothesis Hz : 0 <= nz m.

(** Discrete Gauss theorem: without gravity source the total changes by the
    fluxes through the six sides. *)
Lemma balance3 dt u G v :
  g_enabled g = false ->
  let F := F3 S g dt full (Qf3 S (extend3 m u)) G in
  total3 m (step3 S g dt full (extend3 m u) G) v =
  (total3 m u v +
   (sumz (gw m) (ny m) (fun j => sumz (gw m) (nz m) (fun k => F DX (gw m) j k v - F DX (gw m + nx m)%Z j k v)) +
   (sumz (gw m) (nx m) (fun i => sumz (gw m) (nz m) (fun k => F DY i (gw m) k v - F DY i (gw m + ny m)%Z k v)) +
    sumz (gw m) (nx m) (fun i => sumz (gw m) (ny m) (fun j => F DZ i j (gw m) v - F DZ i j (gw m + nz m)%Z v)))))%R.
Proof.
  intros Hg F. unfold total3.
  set (U := extend3 m u) in *.
  rewrite (sumz_ext (gw m) (nx m)
    (fun i => sumz (gw m) (ny m) (fun j => sumz (gw m) (nz m) (fun k => step3 S g dt full U G i j k v)))
    (fun i => (sumz (gw m) (ny m) (fun j => sumz (gw m) (nz m) (fun k => u i j k v)) +
      (sumz (gw m) (ny m) (fun j => sumz (gw m) (nz m) (fun k => F DX i j k v - F DX (i + 1)%Z j k v)) +
      (sumz (gw m) (nz m) (fun k => F DY i (gw m) k v - F DY i (gw m + ny m)%Z k v) +
       sumz (gw m) (ny m) (fun j => F DZ i j (gw m) v - F DZ i j (gw m + nz m)%Z v))))%R)).
  - rewrite !sumz_add. f_equal. f_equal.
    rewrite sumz_swap. apply sumz_ext. intros j _. rewrite sumz_swap. apply sumz_ext. intros k _.
    apply (sumz_tele (gw m) (nx m) (fun i => F DX i j k v)). auto.
  - intros i Hi.
    rewrite (sumz_ext (gw m) (nz m) (fun k => (F DY i (gw m) k v - F DY i (gw m + ny m)%Z k v)%R)
      (fun k => sumz (gw m) (ny m) (fun j => (F DY i j k v - F DY i (j + 1)%Z k v)%R))).
    2:{ intros k _. symmetry. apply (sumz_tele (gw m) (ny m) (fun j => F DY i j k v)); auto. }
    rewrite (sumz_swap (gw m) (nz m)). rewrite <- !sumz_add. apply sumz_ext. intros j Hj.
    rewrite <- (sumz_tele (gw m) (nz m) (fun k => F DZ i j k v)) by auto.
    rewrite <- !sumz_add. apply sumz_ext. intros k Hk. unfold step3, adv3. rewrite Hg.
    change (F3 S g dt full (Qf3 S U) G) with F. Rn.
    unfold U at 1. rewrite extend3_phys by (unfold phys3, phys2, physical; lia). ring.
Qed.
End Balance.

(** ** Periodic faces *)
Section Periodic.
Context {T : Type} {N : Num T}.
Variable m : mesh.
Variable S : hset T.
Variable g : gravp.
Variable full : bool.

Definition periodic3 (d : dir) : Prop :=
  kind_of (bc m (flo d)) = Periodic /\ kind_of (bc m (fhi d)) = Periodic.

Hypothesis Hwide : wide3 m.
Hypothesis Hgw : 2 <= gw m.

Lemma nd_pos d : 1 <= nd m d.
Proof.
  pose proof Hwide as ((_ & _ & (A & _) & _ & (B & _) & _) & (C & _) & _). destruct d; auto.
Qed.

Lemma periodic3_wide d : periodic3 d -> gw m <= nd m d.
Proof.
  intros [P1 P2]. pose proof Hwide as ((_ & _ & (_ & A) & _ & (_ & B) & _) & (_ & C) & _).
  destruct d; cbn [flo fhi nd] in *.
  - destruct A; [congruence|auto].
  - destruct B; [congruence|auto].
  - destruct C; [congruence|auto].
Qed.

Lemma image_period n g0 i : g0 <= n -> 0 <= i -> i < 2 * g0 ->
  image Periodic Periodic n g0 (i + n) = image Periodic Periodic n g0 i.
Proof.
  intros H1 H2 H3. unfold image.
  destruct (i <? g0) eqn:E1; destruct (i + n <? g0) eqn:E3; try lia;
  destruct (n + g0 <=? i + n) eqn:E4; try lia.
  destruct (n + g0 <=? i) eqn:E2; lia.
Qed.
Lemma mirrored_period n g0 i : mirrored Periodic Periodic n g0 i = false.
Proof. unfold mirrored. destruct (i <? g0), (n + g0 <=? i); reflexivity. Qed.

Definition along (d : dir) (i j k : Z) : Z := match d with DX => i | DY => j | DZ => k end.

(** The extended field has the period of the domain, as far as the array goes. *)
Lemma extend3_period d u i j k v : periodic3 d -> 0 <= along d i j k < 2 * gw m ->
  extend3 m u (i + ox d * nd m d) (j + oy d * nd m d) (k + oz d * nd m d) v = extend3 m u i j k v.
Proof.
  intros HP Hi. pose proof (periodic3_wide d HP) as W. destruct HP as [P1 P2].
  unfold extend3, image_x, image_y, image_z, mirrored_x, mirrored_y, mirrored_z.
  destruct d; cbn [ox oy oz nd along flo fhi] in *; rewrite P1, P2;
    rewrite ?Z.mul_0_l, ?Z.add_0_r, ?Z.mul_1_l, !mirrored_period, image_period by lia; reflexivity.
Qed.

End Periodic.

(** Translating the primitive field translates the fluxes. *)
Section Shift.
Context {T : Type} {N : Num T}.
Variable S : hset T.
Variable g : gravp.
Variable dt : T.
Variable full : bool.

Lemma face3_shift Q G a b c e i j k f :
  face_state3 S g dt (fun i j k => Q (i + a) (j + b) (k + c)) (fun i j k => G (i + a) (j + b) (k + c)) e i j k f =
  face_state3 S g dt Q G e (i + a) (j + b) (k + c) f.
Proof.
  unfold face_state3, dqf3, predictor.
  replace (i + 1 + a) with (i + a + 1) by lia. replace (i - 1 + a) with (i + a - 1) by lia.
  replace (j + 1 + b) with (j + b + 1) by lia. replace (j - 1 + b) with (j + b - 1) by lia.
  replace (k + 1 + c) with (k + c + 1) by lia. replace (k - 1 + c) with (k + c - 1) by lia.
  reflexivity.
Qed.

Lemma F3_shift Q G a b c d i j k v :
  F3 S g dt full (fun i j k => Q (i + a) (j + b) (k + c)) (fun i j k => G (i + a) (j + b) (k + c)) d i j k v =
  F3 S g dt full Q G d (i + a) (j + b) (k + c) v.
Proof.
  unfold F3, flux3. rewrite !face3_shift.
  replace (i - ox d + a) with (i + a - ox d) by lia.
  replace (j - oy d + b) with (j + b - oy d) by lia.
  replace (k - oz d + c) with (k + c - oz d) by lia. reflexivity.
Qed.

Lemma step3_shift U G a b c i j k v :
  step3 S g dt full (fun i j k => U (i + a) (j + b) (k + c)) (fun i j k => G (i + a) (j + b) (k + c)) i j k v =
  step3 S g dt full U G (i + a) (j + b) (k + c) v.
Proof.
  assert (A : forall v, adv3 S g dt full (fun i j k => U (i + a) (j + b) (k + c)) (fun i j k => G (i + a) (j + b) (k + c)) i j k v
                        = adv3 S g dt full U G (i + a) (j + b) (k + c) v).
  { intros w. unfold adv3.
    change (Qf3 S (fun i0 j0 k0 => U (i0 + a) (j0 + b) (k0 + c))) with (fun i0 j0 k0 => Qf3 S U (i0 + a) (j0 + b) (k0 + c)).
    rewrite !F3_shift.
    replace (i + 1 + a) with (i + a + 1) by lia. replace (j + 1 + b) with (j + b + 1) by lia.
    replace (k + 1 + c) with (k + c + 1) by lia. reflexivity. }
  unfold step3. destruct (g_enabled g); auto. unfold grav_source3. rewrite !A. reflexivity.
Qed.

(** Without gravity the acceleration field is irrelevant. *)
Lemma F3_no_gravity Q G G' d i j k v : (g_enabled g && g_hancock g)%bool = false ->
  F3 S g dt full Q G d i j k v = F3 S g dt full Q G' d i j k v.
Proof. intros Hg. unfold F3, flux3, face_state3. rewrite !predictor_off by auto. reflexivity. Qed.
End Shift.

(** Periodic sides: what leaves on one side enters on the other. *)
Lemma flux_periodic3 {T} {N : Num T} m S g full dt u G d i j k v :
  wide3 m -> 2 <= gw m -> periodic3 m d -> g_enabled g = false ->
  along d i j k = gw m ->
  let Q := Qf3 S (extend3 m u) in
  F3 S g dt full Q G d (i + ox d * nd m d) (j + oy d * nd m d) (k + oz d * nd m d) v = F3 S g dt full Q G d i j k v.
Proof.
  intros Hw Hgw HP Hg Ha Q. pose proof (periodic3_wide m Hw d HP) as W.
  rewrite <- F3_shift. rewrite (F3_no_gravity S g dt full _ _ G) by (rewrite Hg; reflexivity).
  unfold F3. f_equal. f_equal. apply flux3_ext; auto.
  intros i' j' k' Hi Hj Hk. unfold Q, Qf3, cell_state3.
  assert (Hr : 0 <= along d i' j' k' < 2 * gw m) by (destruct d; cbn [along ox oy oz] in *; lia).
  rewrite !(extend3_period m Hw d) by auto. reflexivity.
Qed.

(** ** Reflecting faces *)
Section Wall.
Variable S : hset R.
Hypothesis HS : sane S.
Hypothesis Hslope : slope_ok S.
Hypothesis Hsolver : solver_ok3 S.
Local Open Scope R_scope.

(** Mirror image of a state in a wall normal to [d]. *)
Definition mird (d : dir) (q : hs R) : hs R :=
  match d with
  | DX => mkhs (hd q) (hp q) (- hu q) (hv q) (hw q)
  | DY => mkhs (hd q) (hp q) (hu q) (- hv q) (hw q)
  | DZ => mkhs (hd q) (hp q) (hu q) (hv q) (- hw q)
  end.
Definition hneg (q : hs R) : hs R := mkhs (- hd q) (- hp q) (- hu q) (- hv q) (- hw q).

(** Slopes along [e] seen in the mirror. *)
Definition mirs (d e : dir) (dq : hs R) : hs R :=
  match d, e with DX, DX | DY, DY | DZ, DZ => hneg (mird d dq) | _, _ => mird d dq end.

Lemma mird_swapd d q : swapd d (mird d q) = mirror (swapd d q).
Proof. destruct d; reflexivity. Qed.
Lemma swapd_swapd d (q : hs R) : swapd d (swapd d q) = q.
Proof. destruct d, q; reflexivity. Qed.
Lemma mird_mird d q : mird d (mird d q) = q.
Proof. destruct d, q; cbn; apply hs_eq; cbn; ring. Qed.

Lemma slope_pos : 0 <= slope_type S. Proof. apply slope_type_nonneg. auto. Qed.

Lemma slope3_along d q qp qm : slope3 S (mird d q) (mird d qp) (mird d qm) = mird d (slope3 S q qp qm).
Proof.
  pose proof slope_pos. destruct d; unfold slope3, mird; apply hs_eq; cbn [hd hp hu hv hw]; auto;
  apply slope_neg; auto.
Qed.
Lemma slope3_across d q0 q1 :
  slope3 S (mird d q0) q0 (mird d q1) = hneg (mird d (slope3 S q0 q1 (mird d q0))).
Proof.
  pose proof slope_pos as H0.
  rewrite <- (mird_mird d q0) at 2. rewrite slope3_along.
  unfold hneg. destruct d; unfold slope3, mird; apply hs_eq; cbn [hd hp hu hv hw];
    rewrite ?Ropp_involutive; try (apply slope_odd; auto); rewrite slope_odd by auto; apply Ropp_involutive.
Qed.

Lemma trace3_mirror d q dX dY dZ a b c :
  trace3 S (mird d q) (mirs d DX dX) (mirs d DY dY) (mirs d DZ dZ) a b c (fhi d) =
  mird d (trace3 S q dX dY dZ a b c (flo d)).
Proof.
  destruct d; cbn [mirs fhi flo]; unfold trace3, mird, hneg; cbv zeta; cbn [hd hp hu hv hw]; Rn;
  apply hs_eq; cbn [hd hp hu hv hw]; unfold Rdiv; try ring; f_equal; ring.
Qed.

Lemma hzero_mir d e : mirs d e hzero = hzero.
Proof. destruct d, e; cbn; unfold hneg, hzero; cbn; Rn; apply hs_eq; cbn; ring. Qed.

Section Field.
Variable g : gravp.
Hypothesis Hg : (g_enabled g && g_hancock g)%bool = false.
Variable dt : R.
Variable full : bool.
Variable Q : Z -> Z -> Z -> hs R.
Variable G : field3 R.

(** The primitive field is mirror symmetric about the low face of (i,j,k) along
    [d], in the cells that matter. *)
Definition wall3 (d : dir) (i j k : Z) : Prop :=
  forall n i' j' k', (0 <= n <= 1)%Z ->
  (i' = i \/ ox d = 0 /\ i - 1 <= i' <= i + 1)%Z ->
  (j' = j \/ oy d = 0 /\ j - 1 <= j' <= j + 1)%Z ->
  (k' = k \/ oz d = 0 /\ k - 1 <= k' <= k + 1)%Z ->
  Q (i' - (1 + n) * ox d)%Z (j' - (1 + n) * oy d)%Z (k' - (1 + n) * oz d)%Z =
  mird d (Q (i' + n * ox d)%Z (j' + n * oy d)%Z (k' + n * oz d)%Z).

Ltac zz := repeat match goal with |- Q _ _ _ = Q _ _ _ => f_equal; lia end.

Lemma dqf3_wall d i j k : wall3 d i j k ->
  dqf3 S Q (i - ox d) (j - oy d) (k - oz d) =
  (mirs d DX (fst (fst (dqf3 S Q i j k))), mirs d DY (snd (fst (dqf3 S Q i j k))), mirs d DZ (snd (dqf3 S Q i j k))).
Proof.
  intros HW.
  assert (E0 : forall i' j' k', (i' = i \/ ox d = 0 /\ i - 1 <= i' <= i + 1)%Z ->
    (j' = j \/ oy d = 0 /\ j - 1 <= j' <= j + 1)%Z -> (k' = k \/ oz d = 0 /\ k - 1 <= k' <= k + 1)%Z ->
    Q (i' - ox d)%Z (j' - oy d)%Z (k' - oz d)%Z = mird d (Q i' j' k')).
  { intros i' j' k' Hi Hj Hk. pose proof (HW 0%Z i' j' k' ltac:(lia) Hi Hj Hk) as E.
    change (1 + 0)%Z with 1%Z in E. rewrite !Z.mul_1_l, !Z.mul_0_l, !Z.add_0_r in E. exact E. }
  assert (E1 : Q (i - 2 * ox d)%Z (j - 2 * oy d)%Z (k - 2 * oz d)%Z = mird d (Q (i + ox d)%Z (j + oy d)%Z (k + oz d)%Z)).
  { pose proof (HW 1%Z i j k ltac:(lia) ltac:(lia) ltac:(lia) ltac:(lia)) as E.
    change (1 + 1)%Z with 2%Z in E. rewrite !Z.mul_1_l in E. exact E. }
  unfold dqf3, slopes3.
  destruct (neqb (slope_type S) n0); [cbn [fst snd]; rewrite !hzero_mir; reflexivity|].
  destruct (neqb (slope_type S) n1 || neqb (slope_type S) n2);
    [|cbn [fst snd]; rewrite !hzero_mir; reflexivity].
  cbn [fst snd]. destruct d; cbn [ox oy oz mirs] in *;
  rewrite ?Z.sub_0_r, ?Z.add_0_r, ?Z.mul_0_r, ?Z.mul_1_r in *.
  - assert (A : forall j' k', (j - 1 <= j' <= j + 1)%Z -> (k - 1 <= k' <= k + 1)%Z -> Q (i - 1)%Z j' k' = mird DX (Q i j' k')).
    { intros. specialize (E0 i j' k'). rewrite ?Z.sub_0_r in E0. apply E0; lia. }
    replace (i - 1 + 1)%Z with i by lia. replace (i - 1 - 1)%Z with (i - 2)%Z by lia.
    rewrite !A, !slope3_along by lia. rewrite ?Z.sub_0_r, ?Z.add_0_r in E1. rewrite E1, slope3_across. reflexivity.
  - assert (A : forall i' k', (i - 1 <= i' <= i + 1)%Z -> (k - 1 <= k' <= k + 1)%Z -> Q i' (j - 1)%Z k' = mird DY (Q i' j k')).
    { intros. specialize (E0 i' j k'). rewrite ?Z.sub_0_r in E0. apply E0; lia. }
    replace (j - 1 + 1)%Z with j by lia. replace (j - 1 - 1)%Z with (j - 2)%Z by lia.
    rewrite !A, !slope3_along by lia. rewrite ?Z.sub_0_r, ?Z.add_0_r in E1. rewrite E1, slope3_across. reflexivity.
  - assert (A : forall i' j', (i - 1 <= i' <= i + 1)%Z -> (j - 1 <= j' <= j + 1)%Z -> Q i' j' (k - 1)%Z = mird DZ (Q i' j' k)).
    { intros. specialize (E0 i' j' k). rewrite ?Z.sub_0_r in E0. apply E0; lia. }
    replace (k - 1 + 1)%Z with k by lia. replace (k - 1 - 1)%Z with (k - 2)%Z by lia.
    rewrite !A, !slope3_along by lia. rewrite ?Z.sub_0_r, ?Z.add_0_r in E1. rewrite E1, slope3_across. reflexivity.
Qed.

Lemma face3_wall d i j k b b' : wall3 d i j k ->
  face_state3 S g dt Q G b (i - ox d) (j - oy d) (k - oz d) (fhi d) = mird d (face_state3 S g dt Q G b' i j k (flo d)).
Proof.
  intros HW. unfold face_state3. rewrite !predictor_off by auto. rewrite (dqf3_wall d i j k HW). cbn [fst snd].
  assert (E : Q (i - ox d)%Z (j - oy d)%Z (k - oz d)%Z = mird d (Q i j k)).
  { pose proof (HW 0%Z i j k ltac:(lia) ltac:(lia) ltac:(lia) ltac:(lia)) as E.
    change (1 + 0)%Z with 1%Z in E. rewrite !Z.mul_1_l, !Z.mul_0_l, !Z.add_0_r in E. exact E. }
  rewrite E. apply trace3_mirror.
Qed.

Lemma solve3_wall q : tame S q (hu q) -> no_flow (solve3 S q (mirror q)).
Proof.
  intros HT. unfold solve3, riemann3. unfold tame in HT. destruct Hsolver as [H1 H2].
  destruct (solver S) eqn:E; try contradiction.
  - apply approx_wall; auto.
  - apply (wall_from_mirror (riemann_llf S true)). intros; apply llf_mirror; auto.
  - apply (wall_from_mirror (riemann_hllc S true)). intros; apply hllc_mirror; auto.
Qed.

(** Velocity component along [d]. *)
Definition vn (d : dir) (q : hs R) : R := match d with DX => hu q | DY => hv q | DZ => hw q end.
Definition IVd (d : dir) : Z := match d with DX => IU | DY => IV | DZ => IW end.

Lemma tame_vn d q un : tame S (swapd d q) un <-> tame S q un.
Proof. destruct d; unfold tame; cbn [swapd swap_uv swap_uw hd hp]; tauto. Qed.

Lemma F3_wall d i j k v :
  wall3 d i j k -> tame S (face_state3 S g dt Q G true i j k (flo d)) (- vn d (face_state3 S g dt Q G true i j k (flo d))) ->
  (0 <= v < 5)%Z -> v <> IVd d -> F3 S g dt full Q G d i j k v = 0.
Proof.
  intros HW HT Hv Hne. unfold F3, flux3.
  assert (EB : face_state3 S g dt Q G (full || kicked_right d) i j k (flo d) = face_state3 S g dt Q G true i j k (flo d)).
  { unfold face_state3. rewrite !predictor_off by auto. reflexivity. }
  rewrite EB, (face3_wall d i j k true true HW).
  set (q := face_state3 S g dt Q G true i j k (flo d)) in *. rewrite mird_swapd.
  assert (HF : no_flow (solve3 S (mirror (swapd d q)) (mirror (mirror (swapd d q))))).
  { apply solve3_wall. unfold tame in *. intros E. specialize (HT E).
    destruct d; cbn [swapd swap_uv swap_uw mirror hd hp hu vn] in *; exact HT. }
  rewrite mirror_mirror in HF. destruct HF as (F1 & F2 & F3 & F4).
  set (f := solve3 S (mirror (swapd d q)) (swapd d q)) in *.
  assert (E : hget (swapd d f) v = 0).
  { assert (v = 0 \/ v = 1 \/ v = 2 \/ v = 3 \/ v = 4)%Z as [->|[->|[->|[->| ->]]]] by lia;
    destruct d; unfold IVd, IU, IV, IW in Hne; try congruence; assumption. }
  rewrite E. Rn. ring.
Qed.

Lemma wall3_inner d i j k : wall3 d i j k ->
  let q := face_state3 S g dt Q G true (i - ox d) (j - oy d) (k - oz d) (fhi d) in
  tame S q (vn d q) ->
  tame S (face_state3 S g dt Q G true i j k (flo d)) (- vn d (face_state3 S g dt Q G true i j k (flo d))).
Proof.
  intros HW q HT. unfold q in HT. rewrite (face3_wall d i j k true true HW) in HT.
  destruct d; exact HT.
Qed.

End Field.
End Wall.

(** ** The ghost-filled field is mirror symmetric about a reflecting face *)
Section MirrorField.
Variable m : mesh.
Variable S : hset R.
Hypothesis Hwide : wide3 m.
Hypothesis Hgw : 2 <= gw m.
Local Open Scope R_scope.

Lemma prim3_mirror d u : fst (prim3 S (mird d u)) = mird d (fst (prim3 S u)).
Proof.
  destruct d; unfold prim3, mird; cbv zeta; cbn [fst hd hp hu hv hw]; Rn;
  apply hs_eq; cbn [hd hp hu hv hw]; auto; try (f_equal; unfold Rdiv; ring); unfold Rdiv; ring.
Qed.

Lemma odd_x3 mhd v : (0 <= v < 5)%Z -> odd_x mhd v = (v =? 2)%Z.
Proof. intros H. unfold odd_x. destruct mhd, (v =? 2)%Z; simpl; auto; lia. Qed.
Lemma odd_y3 mhd v : (0 <= v < 5)%Z -> odd_y mhd v = (v =? 3)%Z.
Proof. intros H. unfold odd_y. destruct mhd, (v =? 3)%Z; simpl; auto; lia. Qed.
Lemma odd_z3 mhd v : (0 <= v < 5)%Z -> odd_z mhd v = (v =? 4)%Z.
Proof. intros H. unfold odd_z. destruct mhd, (v =? 4)%Z; simpl; auto; lia. Qed.

(** Along one axis: cells at equal distance from a wall have the same image and
    exactly one of them is mirrored. *)
Lemma image_wall_lo hi n g0 a : (1 <= n)%Z -> (g0 <= n)%Z -> (0 <= a < g0)%Z ->
  image Reflecting hi n g0 (g0 - 1 - a) = image Reflecting hi n g0 (g0 + a) /\
  mirrored Reflecting hi n g0 (g0 - 1 - a) = true /\ mirrored Reflecting hi n g0 (g0 + a) = false.
Proof.
  intros. unfold image, mirrored.
  destruct (g0 - 1 - a <? g0)%Z eqn:E1; [|lia]. destruct (g0 + a <? g0)%Z eqn:E2; [lia|].
  destruct (n + g0 <=? g0 + a)%Z eqn:E3; [lia|]. repeat split. lia.
Qed.
Lemma image_wall_hi lo n g0 a : (1 <= n)%Z -> (g0 <= n)%Z -> (0 <= a < g0)%Z ->
  image lo Reflecting n g0 (g0 + n - 1 - a) = image lo Reflecting n g0 (g0 + n + a) /\
  mirrored lo Reflecting n g0 (g0 + n - 1 - a) = false /\ mirrored lo Reflecting n g0 (g0 + n + a) = true.
Proof.
  intros. unfold image, mirrored.
  destruct (g0 + n - 1 - a <? g0)%Z eqn:E1; [lia|]. destruct (g0 + n + a <? g0)%Z eqn:E2; [lia|].
  destruct (n + g0 <=? g0 + n - 1 - a)%Z eqn:E3; [lia|]. destruct (n + g0 <=? g0 + n + a)%Z eqn:E4; [|lia].
  repeat split. lia.
Qed.

Ltac split_flip3 :=
  rewrite ?odd_x3, ?odd_y3, ?odd_z3 by (unfold ID, IP, IU, IV, IW; lia);
  unfold flip_if, ID, IP, IU, IV, IW; cbn [Z.eqb Pos.eqb]; rewrite ?andb_false_r, ?andb_true_r; cbn [andb];
  repeat match goal with |- context [if ?b then _ else _] => destruct b end; rewrite ?negate_R; try reflexivity; ring.

(** Position of the low (or one past the high) physical cell. *)
Definition edge (hi : bool) (d : dir) : Z := (if hi then gw m + nd m d else gw m)%Z.
Definition wface (hi : bool) (d : dir) : face := if hi then fhi d else flo d.

Lemma wface_wide hi d : kind_of (bc m (wface hi d)) = Reflecting -> (1 <= nd m d /\ gw m <= nd m d)%Z.
Proof.
  pose proof Hwide as ((_ & _ & (A1 & A2) & (B1 & B2) & (C1 & C2) & (D1 & D2)) & (E1 & E2) & (F1 & F2)).
  intros HK. destruct hi, d; cbn [wface fhi flo nd] in *; split; auto;
  match goal with H : _ \/ _ |- _ => destruct H; [congruence|assumption] end.
Qed.

Lemma wall3_field hi d u i j k : kind_of (bc m (wface hi d)) = Reflecting -> along d i j k = edge hi d ->
  wall3 (Qf3 S (extend3 m u)) d i j k.
Proof.
  intros HK Ha n i' j' k' Hn Hi Hj Hk. unfold Qf3. rewrite <- prim3_mirror. do 2 f_equal.
  destruct (wface_wide hi d HK) as [W1 W2].
  unfold cell_state3, mird, extend3, image_x, image_y, image_z, mirrored_x, mirrored_y, mirrored_z.
  destruct d; cbn [ox oy oz along nd] in *;
  rewrite ?Z.mul_0_r, ?Z.mul_1_r, ?Z.sub_0_r, ?Z.add_0_r.
  - destruct Hi as [->|Hi]; [|lia]. unfold edge in Ha. cbn [nd] in Ha. subst i. destruct hi; cbn [wface fhi flo] in HK; rewrite HK.
    + destruct (image_wall_hi (kind_of (bc m XMIN)) (nx m) (gw m) n ltac:(lia) ltac:(lia) ltac:(lia)) as (A & B & C).
      replace (gw m + nx m - (1 + n))%Z with (gw m + nx m - 1 - n)%Z by lia. rewrite A, B, C.
      apply hs_eq; cbn [hd hp hu hv hw]; split_flip3.
    + destruct (image_wall_lo (kind_of (bc m XMAX)) (nx m) (gw m) n ltac:(lia) ltac:(lia) ltac:(lia)) as (A & B & C).
      replace (gw m - (1 + n))%Z with (gw m - 1 - n)%Z by lia. rewrite A, B, C.
      apply hs_eq; cbn [hd hp hu hv hw]; split_flip3.
  - destruct Hj as [->|Hj]; [|lia]. unfold edge in Ha. cbn [nd] in Ha. subst j. destruct hi; cbn [wface fhi flo] in HK; rewrite HK.
    + destruct (image_wall_hi (kind_of (bc m YMIN)) (ny m) (gw m) n ltac:(lia) ltac:(lia) ltac:(lia)) as (A & B & C).
      replace (gw m + ny m - (1 + n))%Z with (gw m + ny m - 1 - n)%Z by lia. rewrite A, B, C.
      apply hs_eq; cbn [hd hp hu hv hw]; split_flip3.
    + destruct (image_wall_lo (kind_of (bc m YMAX)) (ny m) (gw m) n ltac:(lia) ltac:(lia) ltac:(lia)) as (A & B & C).
      replace (gw m - (1 + n))%Z with (gw m - 1 - n)%Z by lia. rewrite A, B, C.
      apply hs_eq; cbn [hd hp hu hv hw]; split_flip3.
  - destruct Hk as [->|Hk]; [|lia]. unfold edge in Ha. cbn [nd] in Ha. subst k. destruct hi; cbn [wface fhi flo] in HK; rewrite HK.
    + destruct (image_wall_hi (kind_of (bc m ZMIN)) (nz m) (gw m) n ltac:(lia) ltac:(lia) ltac:(lia)) as (A & B & C).
      replace (gw m + nz m - (1 + n))%Z with (gw m + nz m - 1 - n)%Z by lia. rewrite A, B, C.
      apply hs_eq; cbn [hd hp hu hv hw]; split_flip3.
    + destruct (image_wall_lo (kind_of (bc m ZMAX)) (nz m) (gw m) n ltac:(lia) ltac:(lia) ltac:(lia)) as (A & B & C).
      replace (gw m - (1 + n))%Z with (gw m - 1 - n)%Z by lia. rewrite A, B, C.
      apply hs_eq; cbn [hd hp hu hv hw]; split_flip3.
Qed.

End MirrorField.

(** ** Totals *)
Section Conserve.
Variable m : mesh.
Variable S : hset R.
Variable g : gravp.
Variable full : bool.
Hypothesis Hwide : wide3 m.
Hypothesis Hgw : 2 <= gw m.
Hypothesis Hg : g_enabled g = false.

Definition closed3 (d : dir) : Prop :=
  periodic3 m d \/ (kind_of (bc m (flo d)) = Reflecting /\ kind_of (bc m (fhi d)) = Reflecting).

(** The flow onto every wall is tame (no condition unless the two-shock solver is used). *)
Definition calm3 (dt : R) (u G : field3 R) : Prop :=
  let fs := face_state3 S g dt (Qf3 S (extend3 m u)) G true in
  forall d i j k, phys3 m i j k ->
    (along d i j k = gw m -> tame S (fs i j k (flo d)) (- vn d (fs i j k (flo d)))%R) /\
    (along d i j k = gw m + nd m d - 1 -> tame S (fs i j k (fhi d)) (vn d (fs i j k (fhi d)))).

Fixpoint calm_run3 (G : field3 R) (dts : list R) (u : field3 R) : Prop :=
  match dts with
  | [] => True
  | dt :: dts' => calm3 dt u G /\ calm_run3 G dts' (step3 S g dt full (extend3 m u) G)
  end.

Lemma calm3_no_approx dt u G : solver S <> R_APPROX -> calm3 dt u G.
Proof. intros Hn. unfold calm3. cbv zeta. intros d i j k _. unfold tame. split; intros; contradiction. Qed.
Lemma calm_run3_no_approx G dts : forall u, solver S <> R_APPROX -> calm_run3 G dts u.
Proof. induction dts; intros; simpl; auto using calm3_no_approx. Qed.

Hypothesis HS : sane S.
Hypothesis Hslope : slope_ok S.
Hypothesis Hsolver : solver_ok3 S.

Lemma Hg3 : (g_enabled g && g_hancock g)%bool = false. Proof. rewrite Hg. reflexivity. Qed.

(** A face cell of the domain along [d]: its other coordinates are physical. *)
Definition on_side (hi : bool) (d : dir) (i j k : Z) : Prop :=
  along d i j k = edge m hi d /\
  (d = DX \/ physical (nx m) (gw m) i) /\ (d = DY \/ physical (ny m) (gw m) j) /\ (d = DZ \/ physical (nz m) (gw m) k).

(** Fluxes of mass, energy and transverse momentum through the walls vanish. *)
Lemma wall_flux3 dt u G hi d i j k v : calm3 dt u G -> kind_of (bc m (wface hi d)) = Reflecting ->
  on_side hi d i j k -> 0 <= v < 5 -> v <> IVd d ->
  F3 S g dt full (Qf3 S (extend3 m u)) G d i j k v = 0%R.
Proof.
  intros HC HK (Ha & H1 & H2 & H3) Hv Hne. pose proof Hg3 as Hgg. pose proof (nd_pos m Hwide d) as Hd.
  pose proof (wall3_field m S Hwide Hgw hi d u i j k HK Ha) as HW.
  apply F3_wall; auto. unfold edge in Ha. destruct hi.
  - apply wall3_inner; auto. cbv zeta.
    assert (Hp : phys3 m (i - ox d) (j - oy d) (k - oz d)).
    { destruct d; cbn [ox oy oz along nd] in *; unfold phys3, phys2, physical in *;
      destruct H1 as [H1|H1], H2 as [H2|H2], H3 as [H3|H3]; try discriminate; lia. }
    destruct (HC d _ _ _ Hp) as [_ C]. apply C. destruct d; cbn [ox oy oz along nd] in *; lia.
  - assert (Hp : phys3 m i j k).
    { destruct d; cbn [ox oy oz along nd] in *; unfold phys3, phys2, physical in *;
      destruct H1 as [H1|H1], H2 as [H2|H2], H3 as [H3|H3]; try discriminate; lia. }
    destruct (HC d _ _ _ Hp) as [C _]. apply C. auto.
Qed.

(** Net flux through the two ends of a line of cells. *)
Lemma ends3 dt u G d i j k v : closed3 d -> (periodic3 m d \/ calm3 dt u G /\ v <> IVd d) -> 0 <= v < 5 ->
  on_side false d i j k ->
  (F3 S g dt full (Qf3 S (extend3 m u)) G d i j k v -
   F3 S g dt full (Qf3 S (extend3 m u)) G d (i + ox d * nd m d) (j + oy d * nd m d) (k + oz d * nd m d) v = 0)%R.
Proof.
  intros HC Hcalm Hv HO.
  assert (HP : periodic3 m d \/ ~ periodic3 m d /\ calm3 dt u G /\ v <> IVd d /\
     kind_of (bc m (flo d)) = Reflecting /\ kind_of (bc m (fhi d)) = Reflecting).
  { destruct HC as [HC|[HC1 HC2]]; auto. right.
    destruct Hcalm as [[P _]|[? ?]]; [congruence|].
    split; [intros [P _]; congruence|]. auto. }
  destruct HP as [HP|(_ & Hc & Hne & K1 & K2)].
  - rewrite (flux_periodic3 m S g full dt u G d i j k v) by (auto; apply HO). lra.
  - rewrite (wall_flux3 dt u G false d i j k v), (wall_flux3 dt u G true d) by
      (auto; destruct HO as (A & B & C & D); unfold on_side, edge in *;
       destruct d; cbn [along ox oy oz nd] in *; repeat split; rewrite ?Z.mul_0_l, ?Z.add_0_r, ?Z.mul_1_l; auto; lia).
    lra.
Qed.

Lemma conserve3 dt u G v : (forall d, closed3 d) ->
  ((forall d, periodic3 m d) \/ calm3 dt u G /\ (v = ID \/ v = IP)) -> 0 <= v < 5 ->
  total3 m (step3 S g dt full (extend3 m u) G) v = total3 m u v.
Proof.
  intros HC HP Hv. pose proof (nd_pos m Hwide DX) as X. pose proof (nd_pos m Hwide DY) as Y.
  pose proof (nd_pos m Hwide DZ) as Z. cbn [nd] in *.
  assert (HE : forall d, periodic3 m d \/ calm3 dt u G /\ v <> IVd d).
  { intros d. destruct HP as [HP|[HP [-> | ->]]]; auto; right; (split; [auto|]); destruct d; discriminate. }
  rewrite balance3 by (auto; lia). cbv zeta.
  rewrite (sumz_zero (gw m) (ny m)), (sumz_zero (gw m) (nx m)), (sumz_zero (gw m) (nx m)); [lra| | |].
  - intros i Hi. apply sumz_zero. intros j Hj.
    pose proof (ends3 dt u G DZ i j (gw m) v (HC DZ) (HE DZ) Hv) as E.
    cbn [ox oy oz nd] in E. rewrite !Z.mul_0_l, !Z.add_0_r, Z.mul_1_l in E. apply E.
    unfold on_side, physical; cbn; repeat split; auto; right; lia.
  - intros i Hi. apply sumz_zero. intros k Hk.
    pose proof (ends3 dt u G DY i (gw m) k v (HC DY) (HE DY) Hv) as E.
    cbn [ox oy oz nd] in E. rewrite !Z.mul_0_l, !Z.add_0_r, Z.mul_1_l in E. apply E.
    unfold on_side, physical; cbn; repeat split; auto; right; lia.
  - intros j Hj. apply sumz_zero. intros k Hk.
    pose proof (ends3 dt u G DX (gw m) j k v (HC DX) (HE DX) Hv) as E.
    cbn [ox oy oz nd] in E. rewrite !Z.mul_0_l, !Z.add_0_r, Z.mul_1_l in E. apply E.
    unfold on_side, physical; cbn; repeat split; auto; right; lia.
Qed.

Lemma conserve_run3 dts : forall u G v, (forall d, closed3 d) ->
  ((forall d, periodic3 m d) \/ calm_run3 G dts u /\ (v = ID \/ v = IP)) -> 0 <= v < 5 ->
  total3 m (run_spec3 m S g full G dts u) v = total3 m u v.
Proof.
  induction dts as [|dt dts IH]; intros u G v HC HP Hv; cbn [run_spec3]; auto.
  rewrite IH; auto.
  - apply conserve3; auto. destruct HP as [HP|[[HP _] HV]]; auto.
  - destruct HP as [HP|[[_ HP] HV]]; auto.
Qed.

End Conserve.

(** Periodic boxes conserve every variable, whatever the gas parameters. *)
Lemma conserve_periodic3 m (S : hset R) g full : wide3 m -> 2 <= gw m -> g_enabled g = false ->
  (forall d, periodic3 m d) -> forall dts u G v,
  total3 m (run_spec3 m S g full G dts u) v = total3 m u v.
Proof.
  intros Hw Hgw Hg HP dts. induction dts as [|dt dts IH]; intros u G v; cbn [run_spec3]; auto.
  rewrite IH. pose proof (nd_pos m Hw DX) as X. pose proof (nd_pos m Hw DY) as Y.
  pose proof (nd_pos m Hw DZ) as Z. cbn [nd] in *.
  rewrite balance3 by (auto; lia). cbv zeta.
  assert (E : forall d i j k, along d i j k = gw m ->
    (F3 S g dt full (Qf3 S (extend3 m u)) G d i j k v -
     F3 S g dt full (Qf3 S (extend3 m u)) G d (i + ox d * nd m d) (j + oy d * nd m d) (k + oz d * nd m d) v = 0)%R).
  { intros d i j k Ha. rewrite (flux_periodic3 m S g full dt u G d i j k v) by auto. lra. }
  rewrite (sumz_zero (gw m) (ny m)), (sumz_zero (gw m) (nx m)), (sumz_zero (gw m) (nx m)); [lra| | |];
  intros a Ha; apply sumz_zero; intros b Hb.
  - specialize (E DZ a b (gw m) eq_refl). cbn [ox oy oz nd] in E.
    rewrite !Z.mul_0_l, !Z.add_0_r, Z.mul_1_l in E. exact E.
  - specialize (E DY a (gw m) b eq_refl). cbn [ox oy oz nd] in E.
    rewrite !Z.mul_0_l, !Z.add_0_r, Z.mul_1_l in E. exact E.
  - specialize (E DX (gw m) a b eq_refl). cbn [ox oy oz nd] in E.
    rewrite !Z.mul_0_l, !Z.add_0_r, Z.mul_1_l in E. exact E.
Qed.

(** ** Uniform states *)
Section Uniform.
Variable m : mesh.
Variable S : hset R.
Variable g : gravp.
Variable full : bool.
Hypothesis Hwide : wide3 m.
Hypothesis Hgw : 2 <= gw m.
Hypothesis Hg : g_enabled g = false.
(** No reflecting face. *)
Hypothesis Hopen : forall f, kind_of (bc m f) <> Reflecting.

Definition uniform3 (c : Z -> R) (u : field3 R) : Prop :=
  forall i j k v, phys3 m i j k -> 0 <= v < 5 -> u i j k v = c v.

Lemma open_mirrored lo hi n g0 i : lo <> Reflecting -> hi <> Reflecting -> mirrored lo hi n g0 i = false.
Proof. intros H1 H2. unfold mirrored. destruct (i <? g0), (n + g0 <=? i), lo, hi; congruence. Qed.

Lemma extend_uniform3 c u i j k v : uniform3 c u -> cell3 m i j k -> 0 <= v < 5 -> extend3 m u i j k v = c v.
Proof.
  intros HU Hc Hv. unfold extend3, mirrored_x, mirrored_y, mirrored_z. rewrite !open_mirrored by auto. simpl.
  apply HU; auto. apply images_phys3; auto.
Qed.

Lemma step_uniform3 dt c u G : uniform3 c u -> uniform3 c (step3 S g dt full (extend3 m u) G).
Proof.
  intros HU i j k v Hp Hv.
  rewrite (step3_stencil S g full dt (extend3 m u) (fun _ _ _ v => c v) G G); auto.
  - assert (Ef : forall d i j k i' j' k', F3 S g dt full (Qf3 S (fun _ _ _ v => c v)) G d i j k v =
                                     F3 S g dt full (Qf3 S (fun _ _ _ v => c v)) G d i' j' k' v).
    { intros. unfold F3, flux3, face_state3. rewrite !predictor_off by (rewrite Hg; reflexivity). reflexivity. }
    unfold step3, adv3. rewrite Hg. Rn.
    rewrite (Ef DX (i + 1) j k i j k), (Ef DY i (j + 1) k i j k), (Ef DZ i j (k + 1) i j k). ring.
  - intros. apply extend_uniform3; auto. destruct Hp as [[Hp1 Hp2] Hp3]. unfold cell3, cell2, physical in *. lia.
Qed.

Lemma run_uniform3 dts : forall c u G, uniform3 c u -> uniform3 c (run_spec3 m S g full G dts u).
Proof. induction dts as [|dt dts IH]; intros; cbn [run_spec3]; auto. apply IH. apply step_uniform3; auto. Qed.
End Uniform.

(** ** Translations of a periodic box *)
Section Translate.
Context {T : Type} {N : Num T}.
Variable m : mesh.
Variable S : hset T.
Variable g : gravp.
Variable full : bool.
Hypothesis Hwide : wide3 m.
Hypothesis Hgw : 2 <= gw m.
Hypothesis Hper : forall d, periodic3 m d.

(** Position modulo the period. *)
Definition wrap (d : dir) (i : Z) : Z := gw m + (i - gw m) mod (nd m d).

(** Cyclic shift by (a, b, c) cells. *)
Definition shift3 (a b c : Z) (u : field3 T) : field3 T :=
  fun i j k v => u (wrap DX (i + a)) (wrap DY (j + b)) (wrap DZ (k + c)) v.
Definition per3 (u : field3 T) : field3 T := fun i j k v => u (wrap DX i) (wrap DY j) (wrap DZ k) v.

Lemma wrap_phys d i : physical (nd m d) (gw m) (wrap d i).
Proof.
  pose proof (nd_pos m Hwide d). unfold physical, wrap.
  pose proof (Z.mod_pos_bound (i - gw m) (nd m d) ltac:(lia)). lia.
Qed.
Lemma wrap_phys3 i j k : phys3 m (wrap DX i) (wrap DY j) (wrap DZ k).
Proof. split; [split|]; [apply (wrap_phys DX)|apply (wrap_phys DY)|apply (wrap_phys DZ)]. Qed.
Lemma wrap_add d i a : wrap d (wrap d i + a) = wrap d (i + a).
Proof.
  pose proof (nd_pos m Hwide d). unfold wrap. f_equal.
  replace (gw m + (i - gw m) mod nd m d + a - gw m) with ((i - gw m) mod nd m d + a) by lia.
  rewrite Zplus_mod_idemp_l. f_equal. lia.
Qed.

Lemma image_wrap n i : 1 <= n -> gw m <= n -> 0 <= i < n + 2 * gw m ->
  image Periodic Periodic n (gw m) i = gw m + (i - gw m) mod n.
Proof.
  intros H1 H2 Hi. unfold image. destruct (i <? gw m) eqn:E1.
  - rewrite <- (Z_mod_plus (i - gw m) 1 n) by lia. rewrite Z.mod_small; lia.
  - destruct (n + gw m <=? i) eqn:E2.
    + rewrite <- (Z_mod_plus (i - gw m) (-1) n) by lia. rewrite Z.mod_small; lia.
    + rewrite Z.mod_small; lia.
Qed.

Lemma extend_per3 u i j k v : cell3 m i j k -> extend3 m u i j k v = per3 u i j k v.
Proof.
  intros [[Hi Hj] Hk].
  destruct (Hper DX) as [X1 X2]. destruct (Hper DY) as [Y1 Y2]. destruct (Hper DZ) as [Z1 Z2].
  pose proof (nd_pos m Hwide DX). pose proof (nd_pos m Hwide DY). pose proof (nd_pos m Hwide DZ).
  pose proof (periodic3_wide m Hwide DX (Hper DX)). pose proof (periodic3_wide m Hwide DY (Hper DY)).
  pose proof (periodic3_wide m Hwide DZ (Hper DZ)). cbn [flo fhi nd] in *.
  unfold extend3, per3, wrap, image_x, image_y, image_z, mirrored_x, mirrored_y, mirrored_z.
  rewrite X1, X2, Y1, Y2, Z1, Z2, !mirrored_period, !image_wrap by auto. reflexivity.
Qed.

Lemma per_shift3 a b c u i j k v : per3 (shift3 a b c u) i j k v = per3 u (i + a) (j + b) (k + c) v.
Proof. unfold per3, shift3. rewrite !wrap_add. reflexivity. Qed.

(** The acceleration field is periodic, ghost cells included. *)
Definition periodic_G3 (G : field3 T) : Prop := forall i j k v, cell3 m i j k -> G i j k v = per3 G i j k v.

Lemma step_per3 dt u G i j k v : periodic_G3 G -> phys3 m i j k -> 0 <= v < 5 ->
  step3 S g dt full (extend3 m u) G i j k v = step3 S g dt full (per3 u) (per3 G) i j k v.
Proof.
  intros HG [[Hi Hj] Hk] Hv. unfold physical in *. apply step3_stencil; auto.
  - intros. apply extend_per3. unfold cell3, cell2. lia.
  - intros. apply HG. unfold cell3, cell2. lia.
Qed.

Lemma step_per_wrap3 dt u G i j k v : 0 <= v < 5 ->
  step3 S g dt full (per3 u) (per3 G) i j k v =
  step3 S g dt full (per3 u) (per3 G) (wrap DX i) (wrap DY j) (wrap DZ k) v.
Proof.
  intros Hv. replace (wrap DX i) with (i + (wrap DX i - i)) at 1 by lia.
  replace (wrap DY j) with (j + (wrap DY j - j)) at 1 by lia.
  replace (wrap DZ k) with (k + (wrap DZ k - k)) at 1 by lia.
  rewrite <- step3_shift.
  assert (E : forall d i i', wrap d (i' + (wrap d i - i)) = wrap d i').
  { intros d i0 i'. replace (i' + (wrap d i0 - i0)) with (wrap d i0 + (i' - i0)) by lia. rewrite wrap_add. f_equal. lia. }
  apply step3_stencil; auto; intros; unfold per3; rewrite !E; reflexivity.
Qed.

(** Shifting and stepping commute. *)
Lemma step_translate3 dt u G a b c : periodic_G3 G ->
  same_phys3 m (step3 S g dt full (extend3 m (shift3 a b c u)) (shift3 a b c G))
              (shift3 a b c (step3 S g dt full (extend3 m u) G)).
Proof.
  intros HG i j k v Hp Hv.
  rewrite step_per3; auto.
  - unfold shift3 at 3. rewrite step_per3; auto using wrap_phys3.
    rewrite <- step_per_wrap3 by auto. rewrite <- step3_shift.
    apply step3_stencil; auto; intros; apply per_shift3.
  - intros i' j' k' v' Hc. rewrite per_shift3. reflexivity.
Qed.

Lemma shift_ext3 a b c u1 u2 : same_phys3 m u1 u2 -> same_phys3 m (shift3 a b c u1) (shift3 a b c u2).
Proof. intros H i j k v Hp Hv. apply H; auto using wrap_phys3. Qed.

Lemma run_translate3 dts : forall u G a b c, periodic_G3 G ->
  same_phys3 m (run_spec3 m S g full (shift3 a b c G) dts (shift3 a b c u))
    (shift3 a b c (run_spec3 m S g full G dts u)).
Proof.
  induction dts as [|dt dts IH]; intros u G a b c HG; cbn [run_spec3].
  - intros i j k v _ _. reflexivity.
  - intros i j k v Hp Hv. rewrite <- IH by auto.
    apply run_spec3_ext; auto. apply step_translate3; auto.
Qed.
End Translate.
