(** * Mirror images of the 2D scheme *)
From Coq Require Import ZArith List Bool Lia ZifyBool Reals Lra.
Import ListNotations.
From Verif Require Import Num Exec ExecFacts Grid GridFacts Boundaries BoundariesSpec
  HydroNum Kernels KernelFacts Hydro2D Hydro2DSpec Hydro2DFacts Hydro2DStep Hydro2DRun
  Sums EulerSpec HydroPhysics HydroRiemann Hydro2DLaws.
Local Open Scope R_scope.

(** The mirror image about the middle of the domain, along x: cell i becomes cell
    nx + 2 * gw - 1 - i and the momentum along x changes sign. *)
Definition opposite (m : mesh) (i : Z) : Z := (nx m + 2 * gw m - 1 - i)%Z.
Definition odd_if (b : bool) (x : R) : R := if b then - x else x.
Definition reflect_x (m : mesh) (u : field2 R) : field2 R := fun i j v => odd_if (v =? IU)%Z (u (opposite m i) j v).
(** The acceleration: its first component changes sign. *)
Definition reflect_gx (m : mesh) (G : field2 R) : field2 R := fun i j v => odd_if (v =? IX)%Z (G (opposite m i) j v).
(** The boundary conditions of the two sides are exchanged. *)
Definition reflect_mesh (m : mesh) : mesh :=
  mkmesh (nx m) (ny m) (nz m) (gw m) (nbvar m) (p_mhd m)
    (fun f => bc m match f with XMIN => XMAX | XMAX => XMIN | f => f end).

(** ** Riemann solvers: the tangential velocity *)
Section Tangent.
Variable S : hset R.

Lemma llf_tangent ql qr : riemann_llf S false (mirror_y ql) (mirror_y qr) = mirror_y (riemann_llf S false ql qr).
Proof.
  unfold riemann_llf, map4, cons_of, side_flux_llf, mirror_y. cbv zeta. cbn [hd hp hu hv hw]. Rn.
  apply hs_eq; cbn [hd hp hu hv hw]; unfold Rdiv; try ring; auto.
Qed.

Lemma hll_tangent ql qr : riemann_hll S false (mirror_y ql) (mirror_y qr) = mirror_y (riemann_hll S false ql qr).
Proof.
  unfold riemann_hll, map4, cons_of, side_flux_hll, mirror_y. cbv zeta. cbn [hd hp hu hv hw]. Rn.
  apply hs_eq; cbn [hd hp hu hv hw]; unfold Rdiv; try ring; auto.
Qed.

Lemma hllc_tangent ql qr : riemann_hllc S false (mirror_y ql) (mirror_y qr) = mirror_y (riemann_hllc S false ql qr).
Proof.
  unfold riemann_hllc, mirror_y. cbv zeta. cbn [hd hp hu hv hw].
  replace (nhalf * nmax (hd ql) (smallr S) * - hv ql * - hv ql)%R with (nhalf * nmax (hd ql) (smallr S) * hv ql * hv ql)%R by ring.
  replace (nhalf * nmax (hd qr) (smallr S) * - hv qr * - hv qr)%R with (nhalf * nmax (hd qr) (smallr S) * hv qr * hv qr)%R by ring.
  cbn [nmul Rnum].
  repeat match goal with |- context [(nhalf * ?a * - ?b * - ?b)%R] => replace (nhalf * a * - b * - b)%R with (nhalf * a * b * b)%R by ring end.
  match goal with |- match ?X with _ => _ end = _ => destruct X as [[[ro uo] pt] et] end.
  apply hs_eq; cbn [hd hp hu hv hw]; auto.
  destruct (nltb _ _); Rn; ring.
Qed.

Lemma approx_tangent ql qr : riemann_approx S false (mirror_y ql) (mirror_y qr) = mirror_y (riemann_approx S false ql qr).
Proof.
  unfold riemann_approx, approx_state, mirror_y. cbv zeta. cbn [hd hp hu hv hw].
  match goal with |- cmpflx _ _ (match ?X with _ => _ end) = _ => destruct X as [[d p] u] end.
  unfold cmpflx. cbv zeta. cbn [hd hp hu hv hw].
  apply hs_eq; cbn [hd hp hu hv hw]; auto; destruct (nltb _ _); Rn; unfold Rdiv; ring.
Qed.

Lemma solve_tangent ql qr : solve S (mirror_y ql) (mirror_y qr) = mirror_y (solve S ql qr).
Proof.
  unfold solve, riemann2. destruct (solver S);
    [apply approx_tangent|apply llf_tangent|apply hll_tangent|apply hllc_tangent|].
  unfold mirror_y, hzero. Rn. apply hs_eq; cbn [hd hp hu hv hw]; auto. ring.
Qed.

Lemma solve_mirror ql qr : sane S -> solver S <> R_APPROX ->
  solve S (mirror qr) (mirror ql) = mirror_flux (solve S ql qr).
Proof.
  intros HS HA. unfold solve, riemann2. destruct (solver S); try congruence.
  - apply llf_mirror; auto.
  - apply hll_mirror; auto.
  - apply hllc_mirror; auto.
  - unfold mirror_flux, hzero. Rn. apply hs_eq; cbn [hd hp hu hv hw]; ring.
Qed.
End Tangent.

Section Reflect.
Variable m : mesh.
Variable S : hset R.
Variable g : gravp.
Hypothesis HS : sane S.
Hypothesis Hslope : slope_ok S.
Hypothesis HA : solver S <> R_APPROX.

Lemma slope2_reverse q qp qm : slope2 S (mirror q) (mirror qm) (mirror qp) = slope_mirror (slope2 S q qp qm).
Proof.
  pose proof (slope_type_nonneg S Hslope) as H0.
  unfold slope2, slope_mirror, mirror, mk2. apply hs_eq; cbn [hd hp hu hv hw];
    try (apply slope_odd; auto); [|Rn; ring].
  rewrite slope_neg, slope_odd by auto. ring.
Qed.

Lemma dqf_reflect Q i j :
  dqf S (fun i j => mirror (Q (opposite m i) j)) i j =
  (slope_mirror (fst (dqf S Q (opposite m i) j)), mirror (snd (dqf S Q (opposite m i) j))).
Proof.
  unfold dqf.
  replace (opposite m (i + 1)) with (opposite m i - 1)%Z by (unfold opposite; lia).
  replace (opposite m (i - 1)) with (opposite m i + 1)%Z by (unfold opposite; lia).
  unfold slopes2. destruct (neqb (slope_type S) n0).
  { unfold slope_mirror, mirror, hzero. cbn [fst snd hd hp hu hv hw]. Rn. f_equal; apply hs_eq; cbn [hd hp hu hv hw]; ring. }
  destruct (neqb (slope_type S) n1 || neqb (slope_type S) n2).
  - cbn [fst snd]. f_equal; [apply slope2_reverse | apply slope2_along; auto].
  - unfold slope_mirror, mirror, hzero. cbn [fst snd hd hp hu hv hw]. Rn. f_equal; apply hs_eq; cbn [hd hp hu hv hw]; ring.
Qed.

Definition other_x (f : face) : face := match f with XMIN => XMAX | XMAX => XMIN | f => f end.

Lemma trace2_reflect q dX dY a b f : (f = XMIN \/ f = XMAX \/ f = YMIN \/ f = YMAX) ->
  trace2 S (mirror q) (slope_mirror dX) (mirror dY) a b f = mirror (trace2 S q dX dY a b (other_x f)).
Proof.
  intros [->|[->|[->| ->]]]; unfold other_x, trace2, slope_mirror, mirror, mk2; cbv zeta; cbn [hd hp hu hv hw]; Rn;
  apply hs_eq; cbn [hd hp hu hv hw]; unfold Rdiv; try ring; f_equal; ring.
Qed.

Lemma face_state_reflect dt Q G i j f : (f = XMIN \/ f = XMAX \/ f = YMIN \/ f = YMAX) ->
  face_state S g dt (fun i j => mirror (Q (opposite m i) j)) (reflect_gx m G) i j f =
  mirror (face_state S g dt Q G (opposite m i) j (other_x f)).
Proof.
  intros Hf. unfold face_state. rewrite dqf_reflect. cbn [fst snd]. rewrite trace2_reflect by auto.
  destruct (g_enabled g && g_hancock g)%bool; [|reflexivity].
  unfold kick2, mirror, reflect_gx, odd_if, mk2, IX, IY. cbn [hd hp hu hv hw Z.eqb Pos.eqb]. Rn.
  apply hs_eq; cbn [hd hp hu hv hw]; cbv beta iota delta [Z.eqb Pos.eqb]; ring.
Qed.

Lemma FX_reflect dt Q G i j v : (0 <= v < 4)%Z ->
  FX S g dt (fun i j => mirror (Q (opposite m i) j)) (reflect_gx m G) i j v =
  odd_if (negb (v =? IU)%Z) (FX S g dt Q G (opposite m i + 1) j v).
Proof.
  intros Hv. unfold FX. rewrite !face_state_reflect by auto. cbn [other_x].
  rewrite solve_mirror by auto.
  replace (opposite m (i - 1)) with (opposite m i + 1)%Z by (unfold opposite; lia).
  replace (opposite m i + 1 - 1)%Z with (opposite m i) by lia.
  assert (v = 0 \/ v = 1 \/ v = 2 \/ v = 3)%Z as [->|[->|[->| ->]]] by lia;
  unfold odd_if, IU, hget, mirror_flux; cbv beta iota delta [Z.eqb Pos.eqb negb hd hp hu hv hw ID IP IU IV IE]; Rn; ring.
Qed.

Lemma FY_reflect dt Q G i j v : (0 <= v < 4)%Z ->
  FY S g dt (fun i j => mirror (Q (opposite m i) j)) (reflect_gx m G) i j v =
  odd_if (v =? IU)%Z (FY S g dt Q G (opposite m i) j v).
Proof.
  intros Hv. unfold FY. rewrite !face_state_reflect by auto. cbn [other_x].
  assert (E : forall q, swap_uv (mirror q) = mirror_y (swap_uv q)) by (intros []; reflexivity).
  rewrite !E, solve_tangent.
  assert (v = 0 \/ v = 1 \/ v = 2 \/ v = 3)%Z as [->|[->|[->| ->]]] by lia;
  unfold odd_if, IU, hget, mirror_y, swap_uv; cbv beta iota delta [Z.eqb Pos.eqb negb hd hp hu hv hw ID IP IU IV IE]; Rn; ring.
Qed.

Lemma Qf_reflect U i j : Qf S (reflect_x m U) i j = mirror (Qf S U (opposite m i) j).
Proof. unfold Qf. rewrite <- prim2_mirror. reflexivity. Qed.

Lemma adv_reflect dt U G i j v : (0 <= v < 4)%Z ->
  adv2 S g dt (reflect_x m U) (reflect_gx m G) i j v = odd_if (v =? IU)%Z (adv2 S g dt U G (opposite m i) j v).
Proof.
  intros Hv. unfold adv2.
  assert (EX : forall i, FX S g dt (Qf S (reflect_x m U)) (reflect_gx m G) i j v =
    odd_if (negb (v =? IU)%Z) (FX S g dt (Qf S U) G (opposite m i + 1) j v)).
  { intros i'. rewrite <- FX_reflect by auto. apply FX_ext; auto. intros. apply Qf_reflect. }
  assert (EY : forall j, FY S g dt (Qf S (reflect_x m U)) (reflect_gx m G) i j v =
    odd_if (v =? IU)%Z (FY S g dt (Qf S U) G (opposite m i) j v)).
  { intros j'. rewrite <- FY_reflect by auto. apply FY_ext; auto. intros. apply Qf_reflect. }
  rewrite !EX, !EY.
  replace (opposite m (i + 1) + 1)%Z with (opposite m i) by (unfold opposite; lia).
  unfold reflect_x at 1. unfold odd_if. destruct (v =? IU)%Z; cbn [negb]; Rn; ring.
Qed.

Lemma step_reflect dt U G i j v : (0 <= v < 4)%Z ->
  step2 S g dt (reflect_x m U) (reflect_gx m G) i j v = reflect_x m (step2 S g dt U G) i j v.
Proof.
  intros Hv. unfold reflect_x at 2. unfold step2. destruct (g_enabled g).
  - unfold grav_source. rewrite !adv_reflect by (auto; unfold ID, IU, IV, IE; lia).
    assert (v = 0 \/ v = 1 \/ v = 2 \/ v = 3)%Z as [->|[->|[->| ->]]] by lia;
    unfold odd_if, reflect_x, reflect_gx, odd_if, ID, IU, IV, IE, IX, IY; cbv beta iota delta [Z.eqb Pos.eqb odd_if]; Rn; unfold Rdiv; ring.
  - apply adv_reflect. auto.
Qed.

(** ** Ghost cells *)
Lemma image_reflect lo hi n w i : (1 <= n)%Z -> (0 <= w)%Z ->
  image hi lo n w i = (n + 2 * w - 1 - image lo hi n w (n + 2 * w - 1 - i))%Z /\
  mirrored hi lo n w i = mirrored lo hi n w (n + 2 * w - 1 - i).
Proof.
  intros Hn Hg. unfold image, mirrored.
  destruct (i <? w)%Z eqn:E1, (n + w <=? i)%Z eqn:E2, (n + 2 * w - 1 - i <? w)%Z eqn:E3, (n + w <=? n + 2 * w - 1 - i)%Z eqn:E4;
  try lia; destruct lo, hi; split; try reflexivity; lia.
Qed.

Lemma extend_reflect u i j v : wide2 m -> (0 <= v < 4)%Z ->
  extend (reflect_mesh m) (reflect_x m u) i j v = reflect_x m (extend m u) i j v.
Proof.
  intros (Hg & _ & (Hn & _) & _) Hv.
  destruct (image_reflect (kind_of (bc m XMIN)) (kind_of (bc m XMAX)) (nx m) (gw m) i Hn ltac:(lia)) as [A B].
  unfold reflect_x, extend.
  change (image_x (reflect_mesh m) i) with (image (kind_of (bc m XMAX)) (kind_of (bc m XMIN)) (nx m) (gw m) i).
  change (mirrored_x (reflect_mesh m) i) with (mirrored (kind_of (bc m XMAX)) (kind_of (bc m XMIN)) (nx m) (gw m) i).
  change (image_y (reflect_mesh m) j) with (image_y m j). change (mirrored_y (reflect_mesh m) j) with (mirrored_y m j).
  change (p_mhd (reflect_mesh m)) with (p_mhd m).
  rewrite A, B. fold (opposite m i).
  change (image (kind_of (bc m XMIN)) (kind_of (bc m XMAX)) (nx m) (gw m) (opposite m i)) with (image_x m (opposite m i)).
  change (mirrored (kind_of (bc m XMIN)) (kind_of (bc m XMAX)) (nx m) (gw m) (opposite m i)) with (mirrored_x m (opposite m i)).
  replace (opposite m (nx m + 2 * gw m - 1 - image_x m (opposite m i))) with (image_x m (opposite m i)) by (unfold opposite; lia).
  unfold flip_if, odd_if. destruct (v =? IU)%Z, (mirrored_x m (opposite m i) && _)%bool, (mirrored_y m j && _)%bool; rewrite ?negate_R; ring.
Qed.

Lemma wide2_reflect : wide2 m -> wide2 (reflect_mesh m).
Proof. intros (H1 & H2 & H3 & H4 & H5 & H6). repeat split; try apply H3; try apply H4; try apply H5; try apply H6; auto. Qed.

Lemma run_reflect dts : forall u G, wide2 m -> (2 <= gw m)%Z ->
  same_phys (reflect_mesh m) (run_spec (reflect_mesh m) S g (reflect_gx m G) dts (reflect_x m u))
                             (reflect_x m (run_spec m S g G dts u)).
Proof.
  induction dts as [|dt dts IH]; intros u G Hw Hgw; cbn [run_spec].
  - intros i j v _ _. reflexivity.
  - intros i j v Hp Hv. rewrite <- IH by auto.
    apply run_spec_ext; auto using wide2_reflect.
    intros i' j' v' Hp' Hv'. rewrite <- step_reflect by auto.
    apply step2_stencil; auto. intros. apply extend_reflect; auto.
Qed.
End Reflect.
