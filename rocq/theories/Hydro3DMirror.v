(** * Mirror images of the 3D scheme, along any axis *)
From Coq Require Import ZArith List Bool Lia ZifyBool Reals Lra.
Import ListNotations.
From Verif Require Import Num Exec ExecFacts Grid GridFacts Boundaries BoundariesSpec
  HydroNum Kernels KernelFacts Hydro2D Hydro2DSpec Hydro2DFacts Hydro2DStep Hydro2DRun
  Sums EulerSpec HydroPhysics HydroRiemann Hydro2DLaws Hydro2DMirror
  Hydro3D Hydro3DSpec Hydro3DFacts Hydro3DStep Hydro3DRun Hydro3DLaws Hydro3DAxes.
Local Open Scope R_scope.

(** Position seen in the mirror normal to [d] through the middle of the domain. *)
Definition oppd (m : mesh) (d : dir) (x : Z) : Z := (nd m d + 2 * gw m - 1 - x)%Z.
Definition rpos {A} (m : mesh) (d : dir) (f : Z -> Z -> Z -> A) (i j k : Z) : A :=
  match d with DX => f (oppd m DX i) j k | DY => f i (oppd m DY j) k | DZ => f i j (oppd m DZ k) end.
(** The momentum along [d] changes sign, and the acceleration along [d]. *)
Definition reflect3 (m : mesh) (d : dir) (u : field3 R) : field3 R :=
  fun i j k v => odd_if (v =? IVd d)%Z (rpos m d (fun i j k => u i j k v) i j k).
Definition IGd (d : dir) : Z := match d with DX => IX | DY => IY | DZ => IZ end.
Definition reflect_g3 (m : mesh) (d : dir) (G : field3 R) : field3 R :=
  fun i j k v => odd_if (v =? IGd d)%Z (rpos m d (fun i j k => G i j k v) i j k).
(** The boundary conditions at the two ends of the axis are exchanged. *)
Definition other (d : dir) (f : face) : face :=
  match d, f with
  | DX, XMIN => XMAX | DX, XMAX => XMIN | DY, YMIN => YMAX | DY, YMAX => YMIN
  | DZ, ZMIN => ZMAX | DZ, ZMAX => ZMIN | _, f => f end.
Definition reflect_mesh3 (m : mesh) (d : dir) : mesh :=
  mkmesh (nx m) (ny m) (nz m) (gw m) (nbvar m) (p_mhd m) (fun f => bc m (other d f)).

(** ** Riemann solvers *)
Definition mirror_z (q : hs R) : hs R := mkhs (hd q) (hp q) (hu q) (hv q) (- hw q).

Section Tangent3.
Variable S : hset R.

Lemma llf_tangent3 ql qr : riemann_llf S true (mirror_y ql) (mirror_y qr) = mirror_y (riemann_llf S true ql qr).
Proof.
  unfold riemann_llf, map4, cons_of, side_flux_llf, mirror_y. cbv zeta. cbn [hd hp hu hv hw]. Rn.
  apply hs_eq; cbn [hd hp hu hv hw]; unfold Rdiv; try ring; auto.
Qed.
Lemma hllc_tangent3 ql qr : riemann_hllc S true (mirror_y ql) (mirror_y qr) = mirror_y (riemann_hllc S true ql qr).
Proof.
  unfold riemann_hllc, mirror_y. cbv zeta. cbn [hd hp hu hv hw].
  cbn [nmul Rnum].
  repeat match goal with |- context [(nhalf * ?a * - ?b * - ?b)%R] => replace (nhalf * a * - b * - b)%R with (nhalf * a * b * b)%R by ring end.
  match goal with |- match ?X with _ => _ end = _ => destruct X as [[[ro uo] pt] et] end.
  apply hs_eq; cbn [hd hp hu hv hw]; auto.
  destruct (nltb _ _); Rn; ring.
Qed.
Lemma approx_tangent3 ql qr : riemann_approx S true (mirror_y ql) (mirror_y qr) = mirror_y (riemann_approx S true ql qr).
Proof.
  unfold riemann_approx, approx_state, mirror_y. cbv zeta. cbn [hd hp hu hv hw].
  match goal with |- cmpflx _ _ (match ?X with _ => _ end) = _ => destruct X as [[d p] u] end.
  unfold cmpflx. cbv zeta. cbn [hd hp hu hv hw].
  apply hs_eq; cbn [hd hp hu hv hw]; auto; destruct (nltb _ _); Rn; unfold Rdiv; ring.
Qed.

Lemma solve3_tangent ql qr : solve3 S (mirror_y ql) (mirror_y qr) = mirror_y (solve3 S ql qr).
Proof.
  unfold solve3, riemann3. destruct (solver S);
    [apply approx_tangent3|apply llf_tangent3| |apply hllc_tangent3|];
  unfold mirror_y, hzero; Rn; apply hs_eq; cbn [hd hp hu hv hw]; auto; ring.
Qed.
Lemma solve3_tangent_z ql qr : solve3 S (mirror_z ql) (mirror_z qr) = mirror_z (solve3 S ql qr).
Proof.
  assert (E : forall q, mirror_z q = swap_vw (mirror_y (swap_vw q))) by (intros []; reflexivity).
  rewrite !E, solve3_vw, solve3_tangent, solve3_vw. reflexivity.
Qed.

Lemma solve3_mirror ql qr : sane S -> solver S <> R_APPROX ->
  solve3 S (mirror qr) (mirror ql) = mirror_flux (solve3 S ql qr).
Proof.
  intros HS HA. unfold solve3, riemann3. destruct (solver S); try congruence.
  - apply llf_mirror; auto.
  - unfold mirror_flux, hzero. Rn. apply hs_eq; cbn [hd hp hu hv hw]; ring.
  - apply hllc_mirror; auto.
  - unfold mirror_flux, hzero. Rn. apply hs_eq; cbn [hd hp hu hv hw]; ring.
Qed.
End Tangent3.

Section Reflect3.
Variable m : mesh.
Variable d : dir.
Variable S : hset R.
Variable g : gravp.
Variable full : bool.
Hypothesis HS : sane S.
Hypothesis Hslope : slope_ok S.
Hypothesis HA : solver S <> R_APPROX.
(** In version 1 the gravity predictor is left out on one side of the Z faces. *)
Hypothesis Hfull : full_ok g full \/ d <> DZ.

Lemma slope3_reverse q qp qm : slope3 S (mird d q) (mird d qm) (mird d qp) = hneg (mird d (slope3 S q qp qm)).
Proof.
  pose proof (slope_type_nonneg S Hslope) as H0. rewrite slope3_along by auto.
  unfold hneg. destruct d; unfold slope3, mird; apply hs_eq; cbn [hd hp hu hv hw];
    rewrite ?Ropp_involutive; try (apply slope_odd; auto); rewrite slope_odd by auto; ring.
Qed.

Definition rQ (Q : Z -> Z -> Z -> hs R) : Z -> Z -> Z -> hs R := fun i j k => mird d (rpos m d Q i j k).

Definition mir3 (x : hs R * hs R * hs R) : hs R * hs R * hs R :=
  (mirs d DX (fst (fst x)), mirs d DY (snd (fst x)), mirs d DZ (snd x)).

Lemma oppd_next e i : oppd m e (i + 1) = (oppd m e i - 1)%Z. Proof. unfold oppd. lia. Qed.
Lemma oppd_prev e i : oppd m e (i - 1) = (oppd m e i + 1)%Z. Proof. unfold oppd. lia. Qed.

Lemma dqf3_reflect Q i j k : dqf3 S (rQ Q) i j k = mir3 (rpos m d (dqf3 S Q) i j k).
Proof.
  unfold dqf3, slopes3, rQ, mir3.
  destruct (neqb (slope_type S) n0); [destruct d; cbn [rpos fst snd]; rewrite !hzero_mir; reflexivity|].
  destruct (neqb (slope_type S) n1 || neqb (slope_type S) n2);
    [|destruct d; cbn [rpos fst snd]; rewrite !hzero_mir; reflexivity].
  pose proof slope3_reverse as HR. destruct d; cbn [rpos fst snd mirs];
  rewrite ?oppd_next, ?oppd_prev; apply f_equal2; try apply f_equal2;
  first [apply slope3_along; auto | apply HR].
Qed.

Lemma trace3_reflect q dX dY dZ a b c f :
  trace3 S (mird d q) (mirs d DX dX) (mirs d DY dY) (mirs d DZ dZ) a b c f =
  mird d (trace3 S q dX dY dZ a b c (other d f)).
Proof.
  destruct d, f; cbn [mirs other]; unfold trace3, mird, hneg; cbv zeta; cbn [hd hp hu hv hw]; Rn;
  apply hs_eq; cbn [hd hp hu hv hw]; unfold Rdiv; try ring; f_equal; ring.
Qed.

Lemma face3_reflect dt Q G b i j k f :
  face_state3 S g dt (rQ Q) (reflect_g3 m d G) b i j k f =
  mird d (rpos m d (fun i j k => face_state3 S g dt Q G b i j k (other d f)) i j k).
Proof.
  unfold face_state3. rewrite dqf3_reflect. unfold mir3, rQ. cbn [fst snd]. rewrite trace3_reflect.
  unfold predictor. destruct (b && (g_enabled g && g_hancock g))%bool; [|destruct d; reflexivity].
  unfold kick3, reflect_g3, odd_if, IGd, IX, IY, IZ. destruct d; cbn [rpos mird hd hp hu hv hw]; Rn;
  cbv beta iota delta [Z.eqb Pos.eqb]; apply hs_eq; cbn [hd hp hu hv hw]; ring.
Qed.

(** Sign of the flux of variable [v] through the faces normal to [e]. *)
Definition deq (e e' : dir) : bool := match e, e' with DX, DX | DY, DY | DZ, DZ => true | _, _ => false end.
Definition fsign (e : dir) (v : Z) (x : R) : R :=
  if deq d e then odd_if (negb (v =? IVd d)%Z) x else odd_if (v =? IVd d)%Z x.

(** Face whose image is the low face of (i,j,k) along [e]. *)
Definition rface {A} (e : dir) (f : Z -> Z -> Z -> A) (i j k : Z) : A :=
  if deq d e then rpos m d (fun i j k => f (i + ox d)%Z (j + oy d)%Z (k + oz d)%Z) i j k else rpos m d f i j k.

Lemma F3_reflect dt Q G e i j k v : (0 <= v < 5)%Z ->
  F3 S g dt full (rQ Q) (reflect_g3 m d G) e i j k v =
  fsign e v (rface e (fun i j k => F3 S g dt full Q G e i j k v) i j k).
Proof.
  intros Hv. unfold F3, flux3. rewrite !face3_reflect.
  assert (HF : forall q i' j' k' f, d = DZ ->
    face_state3 S g dt q G (full || kicked_right DZ) i' j' k' f = face_state3 S g dt q G true i' j' k' f).
  { intros q i' j' k' f ->. destruct Hfull as [[-> | Hp]|Hp]; [reflexivity| |congruence].
    unfold face_state3. rewrite !predictor_off by auto. reflexivity. }
  unfold fsign, rface.
  destruct d, e; cbn [deq rpos other fhi flo ox oy oz swapd kicked_right];
  rewrite ?orb_true_r, ?Z.sub_0_r, ?Z.add_0_r, ?oppd_prev, ?Z.add_simpl_r, ?HF by reflexivity.
  all: try match goal with
    | |- context [solve3 S (mird DX ?a) (mird DX ?b)] =>
        change (mird DX a) with (mirror a); change (mird DX b) with (mirror b); rewrite (solve3_mirror S b a HS HA)
    | |- context [solve3 S (swap_uv (mird DY ?a)) (swap_uv (mird DY ?b))] =>
        change (swap_uv (mird DY a)) with (mirror (swap_uv a)); change (swap_uv (mird DY b)) with (mirror (swap_uv b));
        rewrite (solve3_mirror S (swap_uv b) (swap_uv a) HS HA)
    | |- context [solve3 S (swap_uw (mird DZ ?a)) (swap_uw (mird DZ ?b))] =>
        change (swap_uw (mird DZ a)) with (mirror (swap_uw a)); change (swap_uw (mird DZ b)) with (mirror (swap_uw b));
        rewrite (solve3_mirror S (swap_uw b) (swap_uw a) HS HA)
    | |- context [solve3 S (swap_uv (mird DX ?a)) (swap_uv (mird DX ?b))] =>
        change (swap_uv (mird DX a)) with (mirror_y (swap_uv a)); change (swap_uv (mird DX b)) with (mirror_y (swap_uv b)); rewrite solve3_tangent
    | |- context [solve3 S (swap_uw (mird DX ?a)) (swap_uw (mird DX ?b))] =>
        change (swap_uw (mird DX a)) with (mirror_z (swap_uw a)); change (swap_uw (mird DX b)) with (mirror_z (swap_uw b)); rewrite solve3_tangent_z
    | |- context [solve3 S (mird DY ?a) (mird DY ?b)] =>
        change (mird DY a) with (mirror_y a); change (mird DY b) with (mirror_y b); rewrite solve3_tangent
    | |- context [solve3 S (swap_uw (mird DY ?a)) (swap_uw (mird DY ?b))] =>
        change (swap_uw (mird DY a)) with (mirror_y (swap_uw a)); change (swap_uw (mird DY b)) with (mirror_y (swap_uw b)); rewrite solve3_tangent
    | |- context [solve3 S (mird DZ ?a) (mird DZ ?b)] =>
        change (mird DZ a) with (mirror_z a); change (mird DZ b) with (mirror_z b); rewrite solve3_tangent_z
    | |- context [solve3 S (swap_uv (mird DZ ?a)) (swap_uv (mird DZ ?b))] =>
        change (swap_uv (mird DZ a)) with (mirror_z (swap_uv a)); change (swap_uv (mird DZ b)) with (mirror_z (swap_uv b)); rewrite solve3_tangent_z
    end.
  all: match goal with |- context [solve3 S ?a ?b] => generalize (solve3 S a b) end; intros x.
  all: assert (v = 0 \/ v = 1 \/ v = 2 \/ v = 3 \/ v = 4)%Z as [->|[->|[->|[->| ->]]]] by lia;
    unfold odd_if, IVd, hget, mirror_flux, mirror_y, mirror_z, swap_uv, swap_uw;
    cbv beta iota delta [Z.eqb Pos.eqb negb hd hp hu hv hw ID IP IU IV IW IE]; Rn; ring.
Qed.

Lemma Qf3_reflect U i j k : Qf3 S (reflect3 m d U) i j k = rQ (Qf3 S U) i j k.
Proof. unfold rQ. destruct d; cbn [rpos]; unfold Qf3; rewrite <- prim3_mirror; reflexivity. Qed.

Lemma adv3_reflect dt U G i j k v : (0 <= v < 5)%Z ->
  adv3 S g dt full (reflect3 m d U) (reflect_g3 m d G) i j k v =
  odd_if (v =? IVd d)%Z (rpos m d (fun i j k => adv3 S g dt full U G i j k v) i j k).
Proof.
  intros Hv. unfold adv3.
  assert (E : forall e i j k, F3 S g dt full (Qf3 S (reflect3 m d U)) (reflect_g3 m d G) e i j k v =
    fsign e v (rface e (fun i j k => F3 S g dt full (Qf3 S U) G e i j k v) i j k)).
  { intros. rewrite (F3_ext' _ g dt full _ (rQ (Qf3 S U))) by (intros; apply Qf3_reflect). apply F3_reflect; auto. }
  rewrite !E. unfold reflect3 at 1, fsign, rface. clear E.
  destruct d; cbn [deq rpos ox oy oz]; rewrite ?Z.add_0_r, ?oppd_next, ?Z.sub_add;
  unfold odd_if; destruct (v =? _)%Z; cbn [negb]; Rn; ring.
Qed.

Lemma step3_reflect dt U G i j k v : (0 <= v < 5)%Z ->
  step3 S g dt full (reflect3 m d U) (reflect_g3 m d G) i j k v = reflect3 m d (step3 S g dt full U G) i j k v.
Proof.
  intros Hv. unfold reflect3 at 2. unfold step3. destruct (g_enabled g).
  - unfold grav_source3. rewrite !adv3_reflect by (auto; unfold ID, IU, IV, IW, IE; lia).
    assert (v = 0 \/ v = 1 \/ v = 2 \/ v = 3 \/ v = 4)%Z as [->|[->|[->|[->| ->]]]] by lia;
    destruct d; cbn [rpos]; unfold odd_if, reflect3, reflect_g3, odd_if, IGd, IVd, ID, IU, IV, IW, IE, IX, IY, IZ;
    cbn [rpos]; cbv beta iota zeta delta [Z.eqb Pos.eqb]; Rn; auto; unfold Rdiv; ring.
  - rewrite adv3_reflect by auto. reflexivity.
Qed.
End Reflect3.

Lemma reflect3_wide m d : wide3 m -> wide3 (reflect_mesh3 m d).
Proof. intros ((H1 & H2 & H3 & H4 & H5 & H6) & H7 & H8). destruct d; unfold wide3, wide2, reflect_mesh3; cbn; tauto. Qed.

Lemma extend3_reflect m d u i j k v : wide3 m -> (0 <= v < 5)%Z ->
  extend3 (reflect_mesh3 m d) (reflect3 m d u) i j k v = reflect3 m d (extend3 m u) i j k v.
Proof.
  intros ((Hg & _ & (Hx & _) & _ & (Hy & _) & _) & (Hz & _) & _) Hv.
  unfold reflect3, extend3. rewrite !odd_x3, !odd_y3, !odd_z3 by auto.
  destruct d; cbn [rpos IVd].
  - destruct (image_reflect (kind_of (bc m XMIN)) (kind_of (bc m XMAX)) (nx m) (gw m) i Hx ltac:(lia)) as [A B].
    change (image_x (reflect_mesh3 m DX) i) with (image (kind_of (bc m XMAX)) (kind_of (bc m XMIN)) (nx m) (gw m) i).
    change (mirrored_x (reflect_mesh3 m DX) i) with (mirrored (kind_of (bc m XMAX)) (kind_of (bc m XMIN)) (nx m) (gw m) i).
    change (image_y (reflect_mesh3 m DX) j) with (image_y m j). change (mirrored_y (reflect_mesh3 m DX) j) with (mirrored_y m j).
    change (image_z (reflect_mesh3 m DX) k) with (image_z m k). change (mirrored_z (reflect_mesh3 m DX) k) with (mirrored_z m k).
    rewrite A, B. change (nx m + 2 * gw m - 1 - i)%Z with (oppd m DX i).
    change (image (kind_of (bc m XMIN)) (kind_of (bc m XMAX)) (nx m) (gw m) (oppd m DX i)) with (image_x m (oppd m DX i)).
    change (mirrored (kind_of (bc m XMIN)) (kind_of (bc m XMAX)) (nx m) (gw m) (oppd m DX i)) with (mirrored_x m (oppd m DX i)).
    replace (oppd m DX (nx m + 2 * gw m - 1 - image_x m (oppd m DX i))) with (image_x m (oppd m DX i)) by (unfold oppd; cbn [nd]; lia).
    unfold flip_if, odd_if. destruct (v =? IU)%Z, (mirrored_x m _ && _)%bool, (mirrored_y m _ && _)%bool, (mirrored_z m _ && _)%bool; rewrite ?negate_R; ring.
  - destruct (image_reflect (kind_of (bc m YMIN)) (kind_of (bc m YMAX)) (ny m) (gw m) j Hy ltac:(lia)) as [A B].
    change (image_y (reflect_mesh3 m DY) j) with (image (kind_of (bc m YMAX)) (kind_of (bc m YMIN)) (ny m) (gw m) j).
    change (mirrored_y (reflect_mesh3 m DY) j) with (mirrored (kind_of (bc m YMAX)) (kind_of (bc m YMIN)) (ny m) (gw m) j).
    change (image_x (reflect_mesh3 m DY) i) with (image_x m i). change (mirrored_x (reflect_mesh3 m DY) i) with (mirrored_x m i).
    change (image_z (reflect_mesh3 m DY) k) with (image_z m k). change (mirrored_z (reflect_mesh3 m DY) k) with (mirrored_z m k).
    rewrite A, B. change (ny m + 2 * gw m - 1 - j)%Z with (oppd m DY j).
    change (image (kind_of (bc m YMIN)) (kind_of (bc m YMAX)) (ny m) (gw m) (oppd m DY j)) with (image_y m (oppd m DY j)).
    change (mirrored (kind_of (bc m YMIN)) (kind_of (bc m YMAX)) (ny m) (gw m) (oppd m DY j)) with (mirrored_y m (oppd m DY j)).
    replace (oppd m DY (ny m + 2 * gw m - 1 - image_y m (oppd m DY j))) with (image_y m (oppd m DY j)) by (unfold oppd; cbn [nd]; lia).
    unfold flip_if, odd_if. destruct (v =? IV)%Z, (mirrored_x m _ && _)%bool, (mirrored_y m _ && _)%bool, (mirrored_z m _ && _)%bool; rewrite ?negate_R; ring.
  - destruct (image_reflect (kind_of (bc m ZMIN)) (kind_of (bc m ZMAX)) (nz m) (gw m) k Hz ltac:(lia)) as [A B].
    change (image_z (reflect_mesh3 m DZ) k) with (image (kind_of (bc m ZMAX)) (kind_of (bc m ZMIN)) (nz m) (gw m) k).
    change (mirrored_z (reflect_mesh3 m DZ) k) with (mirrored (kind_of (bc m ZMAX)) (kind_of (bc m ZMIN)) (nz m) (gw m) k).
    change (image_x (reflect_mesh3 m DZ) i) with (image_x m i). change (mirrored_x (reflect_mesh3 m DZ) i) with (mirrored_x m i).
    change (image_y (reflect_mesh3 m DZ) j) with (image_y m j). change (mirrored_y (reflect_mesh3 m DZ) j) with (mirrored_y m j).
    rewrite A, B. change (nz m + 2 * gw m - 1 - k)%Z with (oppd m DZ k).
    change (image (kind_of (bc m ZMIN)) (kind_of (bc m ZMAX)) (nz m) (gw m) (oppd m DZ k)) with (image_z m (oppd m DZ k)).
    change (mirrored (kind_of (bc m ZMIN)) (kind_of (bc m ZMAX)) (nz m) (gw m) (oppd m DZ k)) with (mirrored_z m (oppd m DZ k)).
    replace (oppd m DZ (nz m + 2 * gw m - 1 - image_z m (oppd m DZ k))) with (image_z m (oppd m DZ k)) by (unfold oppd; cbn [nd]; lia).
    unfold flip_if, odd_if. destruct (v =? IW)%Z, (mirrored_x m _ && _)%bool, (mirrored_y m _ && _)%bool, (mirrored_z m _ && _)%bool; rewrite ?negate_R; ring.
Qed.
