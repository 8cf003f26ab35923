(** * The 3D scheme treats the three axes alike *)
From Coq Require Import ZArith List Bool Lia ZifyBool Reals Lra.
Import ListNotations.
From Verif Require Import Num Exec ExecFacts Grid GridFacts Boundaries BoundariesSpec
  BoundariesNarrow HydroNum Kernels KernelFacts Hydro2D Hydro2DSpec Hydro2DFacts Hydro2DStep Hydro2DRun
  Sums EulerSpec HydroPhysics HydroRiemann Hydro2DLaws
  Hydro3D Hydro3DSpec Hydro3DFacts Hydro3DStep Hydro3DRun Hydro3DLaws.

(** Exchange of two axes; these two exchanges generate all permutations. *)
Inductive exch := EXY | EYZ.

Definition xd (e : exch) (d : dir) : dir :=
  match e, d with EXY, DX => DY | EXY, DY => DX | EYZ, DY => DZ | EYZ, DZ => DY | _, d => d end.
Definition xv (e : exch) (v : Z) : Z :=
  match e with
  | EXY => if (v =? IU)%Z then IV else if (v =? IV)%Z then IU else v
  | EYZ => if (v =? IV)%Z then IW else if (v =? IW)%Z then IV else v end.
Definition xface (e : exch) (f : face) : face :=
  match e, f with
  | EXY, XMIN => YMIN | EXY, XMAX => YMAX | EXY, YMIN => XMIN | EXY, YMAX => XMAX
  | EYZ, YMIN => ZMIN | EYZ, YMAX => ZMAX | EYZ, ZMIN => YMIN | EYZ, ZMAX => YMAX
  | _, f => f end.

(** Exchange the arguments of a function of the position. *)
Definition xpos {A} (e : exch) (f : Z -> Z -> Z -> A) (i j k : Z) : A :=
  match e with EXY => f j i k | EYZ => f i k j end.

(** The state with exchanged axes. *)
Definition xfield (e : exch) (u : field3 R) : field3 R := fun i j k v => xpos e (fun i j k => u i j k (xv e v)) i j k.

(** Acceleration with exchanged axes. *)
Definition xcomp (e : exch) (v : Z) : Z :=
  match e with
  | EXY => if (v =? IX)%Z then IY else if (v =? IY)%Z then IX else v
  | EYZ => if (v =? IY)%Z then IZ else if (v =? IZ)%Z then IY else v end.
Definition xgrav (e : exch) (G : field3 R) : field3 R := fun i j k v => xpos e (fun i j k => G i j k (xcomp e v)) i j k.

Definition xset (e : exch) (S : hset R) : hset R :=
  match e with
  | EXY => mkhset (gamma0 S) (gamma6 S) (smallr S) (smallc S) (smallp S) (smallpp S) (slope_type S) (cfl S)
             (solver S) (dy S) (dx S) (dz S)
  | EYZ => mkhset (gamma0 S) (gamma6 S) (smallr S) (smallc S) (smallp S) (smallpp S) (slope_type S) (cfl S)
             (solver S) (dx S) (dz S) (dy S) end.

Definition xmesh (e : exch) (m : mesh) : mesh :=
  match e with
  | EXY => mkmesh (ny m) (nx m) (nz m) (gw m) (nbvar m) (p_mhd m) (fun f => bc m (xface EXY f))
  | EYZ => mkmesh (nx m) (nz m) (ny m) (gw m) (nbvar m) (p_mhd m) (fun f => bc m (xface EYZ f)) end.

Local Open Scope R_scope.

Definition swap_vw (q : hs R) : hs R := mkhs (hd q) (hp q) (hu q) (hw q) (hv q).
Definition xhs (e : exch) (q : hs R) : hs R := match e with EXY => swap_uv q | EYZ => swap_vw q end.

Lemma xhs_xhs e q : xhs e (xhs e q) = q.
Proof. destruct e, q; reflexivity. Qed.
Lemma swap_vw2 q : swap_vw (swap_vw q) = q.
Proof. destruct q; reflexivity. Qed.

(** ** The Riemann solvers treat the transverse velocities alike *)
Lemma cons_vw S q : cons_of S true (swap_vw q) = swap_vw (cons_of S true q).
Proof. unfold cons_of, swap_vw. cbv zeta. cbn [hd hp hu hv hw]. Rn. apply hs_eq; cbn [hd hp hu hv hw]; auto; ring. Qed.

Lemma llf_vw S ql qr : riemann_llf S true (swap_vw ql) (swap_vw qr) = swap_vw (riemann_llf S true ql qr).
Proof. unfold riemann_llf. rewrite !cons_vw. reflexivity. Qed.

Lemma hllc_vw S ql qr : riemann_hllc S true (swap_vw ql) (swap_vw qr) = swap_vw (riemann_hllc S true ql qr).
Proof.
  rewrite !hllc_unfold.
  assert (E : forall q r p, hllc_total S true (swap_vw q) r p = hllc_total S true q r p).
  { intros. unfold hllc_total, swap_vw. cbn [hu hv hw]. ring. }
  rewrite !E. unfold hllc_c, swap_vw at 1 2 3 4 5 6 7 8 9 10 11 12. cbn [hd hp hu hv hw].
  destruct (hllc_sel _ _ _ _ _ _ _ _ _ _) as [[[? ?] ?] ?]. reflexivity.
Qed.

Lemma approx_vw S ql qr : riemann_approx S true (swap_vw ql) (swap_vw qr) = swap_vw (riemann_approx S true ql qr).
Proof.
  unfold riemann_approx.
  assert (E : approx_state S true (swap_vw ql) (swap_vw qr) = swap_vw (approx_state S true ql qr)).
  { unfold approx_state. cbv zeta. unfold swap_vw. cbn [hd hp hu hv hw].
    repeat match goal with |- context [nltb n0 ?x] => destruct (nltb n0 x) end;
    match goal with |- context [approx_sample S ?a ?b ?c ?d ?e ?f ?g] => destruct (approx_sample S a b c d e f g) as [[? ?] ?] end;
    reflexivity. }
  rewrite E. generalize (approx_state S true ql qr). intros q.
  unfold cmpflx, swap_vw. cbv zeta. cbn [hd hp hu hv hw]. Rn. apply hs_eq; cbn [hd hp hu hv hw]; auto; ring.
Qed.

Lemma solve3_vw S ql qr : solve3 S (swap_vw ql) (swap_vw qr) = swap_vw (solve3 S ql qr).
Proof.
  unfold solve3, riemann3. destruct (solver S); auto using approx_vw, llf_vw, hllc_vw.
Qed.

(** Settings that differ only in the cell sizes. *)
Lemma solve3_same S1 S2 ql qr : same_gas S1 S2 -> solve3 S1 ql qr = solve3 S2 ql qr.
Proof.
  intros HE. unfold solve3, riemann3. rewrite (approx_same S1 S2) by auto.
  destruct HE as (E1 & E2 & E3 & E4 & E5 & E6 & _ & E8). rewrite E8.
  destruct (solver S2); try reflexivity.
  - unfold riemann_llf, cons_of. rewrite E1, E3, E5. reflexivity.
  - unfold riemann_hllc. rewrite E1, E3, E4, E5. reflexivity.
Qed.
Lemma xset_gas e S : same_gas (xset e S) S.
Proof. destruct e; repeat split. Qed.

(** Position of the normal velocity. *)
Definition tau (e : exch) (d : dir) (q : hs R) : hs R :=
  match e, d with EXY, DZ => swap_vw q | EYZ, _ => swap_vw q | _, _ => q end.
Lemma swapd_x e d q : swapd d (xhs e q) = tau e d (swapd (xd e d) q).
Proof. destruct e, d, q; reflexivity. Qed.
Lemma swapd_tau e d q : swapd d (tau e d q) = xhs e (swapd (xd e d) q).
Proof. destruct e, d, q; reflexivity. Qed.
Lemma solve3_tau S e d ql qr : solve3 S (tau e d ql) (tau e d qr) = tau e d (solve3 S ql qr).
Proof. destruct e, d; cbn [tau]; auto using solve3_vw. Qed.


(** ** Slopes, face states, fluxes *)
Definition xQ (e : exch) (Q : Z -> Z -> Z -> hs R) : Z -> Z -> Z -> hs R := fun i j k => xhs e (xpos e Q i j k).

Definition xslopes (e : exch) (x : hs R * hs R * hs R) : hs R * hs R * hs R :=
  let '(dX, dY, dZ) := x in
  match e with EXY => (xhs e dY, xhs e dX, xhs e dZ) | EYZ => (xhs e dX, xhs e dZ, xhs e dY) end.

Lemma dqf3_x S e Q i j k : dqf3 (xset e S) (xQ e Q) i j k = xslopes e (xpos e (dqf3 S Q) i j k).
Proof.
  destruct e; unfold dqf3, xQ, slopes3; cbn [xpos xset slope_type xhs];
  (destruct (neqb (slope_type S) n0); [reflexivity|]);
  destruct (neqb (slope_type S) n1 || neqb (slope_type S) n2); reflexivity.
Qed.

Lemma trace3_x S e q dX dY dZ a b c f :
  let '(dX', dY', dZ') := xslopes e (dX, dY, dZ) in
  trace3 (xset e S) (xhs e q) dX' dY' dZ' (match e with EXY => b | EYZ => a end)
    (match e with EXY => a | EYZ => c end) (match e with EXY => c | EYZ => b end) f
  = xhs e (trace3 S q dX dY dZ a b c (xface e f)).
Proof.
  destruct e, f; cbn [xslopes xface xhs]; unfold trace3, swap_uv, swap_vw; cbv zeta;
  cbn [hd hp hu hv hw gamma0 smallr xset]; Rn;
  apply hs_eq; cbn [hd hp hu hv hw]; unfold Rdiv; try ring; f_equal; ring.
Qed.

Lemma face3_x S g dt e Q G b i j k f :
  face_state3 (xset e S) g dt (xQ e Q) (xgrav e G) b i j k f =
  xhs e (xpos e (fun i j k => face_state3 S g dt Q G b i j k (xface e f)) i j k).
Proof.
  unfold face_state3. rewrite dqf3_x.
  pose proof (fun a b c => trace3_x S e (xpos e Q i j k) (fst (fst (xpos e (dqf3 S Q) i j k)))
    (snd (fst (xpos e (dqf3 S Q) i j k))) (snd (xpos e (dqf3 S Q) i j k)) a b c f) as HT.
  specialize (HT (ndiv dt (dx S)) (ndiv dt (dy S)) (ndiv dt (dz S))).
  destruct (xpos e (dqf3 S Q) i j k) as [[dX dY] dZ] eqn:ED. cbn [fst snd] in HT.
  destruct e; cbn [xslopes fst snd xpos] in *; rewrite ED; cbn [fst snd];
  unfold predictor; cbn [xset dx dy dz] in *; unfold xQ; cbn [xpos];
  rewrite HT; destruct (b && (g_enabled g && g_hancock g))%bool; reflexivity.
Qed.

Definition full_ok (g : gravp) (full : bool) : Prop := full = true \/ (g_enabled g && g_hancock g)%bool = false.

Lemma F3_x S g dt full e Q G d i j k v : full_ok g full -> (0 <= v < 5)%Z ->
  F3 (xset e S) g dt full (xQ e Q) (xgrav e G) d i j k v =
  xpos e (fun i j k => F3 S g dt full Q G (xd e d) i j k (xv e v)) i j k.
Proof.
  intros Hf Hv. unfold F3, flux3.
  assert (EB : forall S Q G b b' i j k f, b = true \/ (g_enabled g && g_hancock g)%bool = false -> b' = true \/ (g_enabled g && g_hancock g)%bool = false ->
     face_state3 S g dt Q G b i j k f = face_state3 S g dt Q G b' i j k f).
  { intros S' Q' G' b b' i' j' k' f H1 H2. destruct H1 as [->|H1], H2 as [->|H2]; auto;
    unfold face_state3; rewrite ?predictor_off by auto; auto. }
  assert (Hb : forall d, (full || kicked_right d)%bool = true \/ (g_enabled g && g_hancock g)%bool = false).
  { intros d'. destruct Hf as [->|Hf]; auto. }
  rewrite (EB _ _ _ (full || kicked_right d)%bool true) by auto.
  rewrite !face3_x, !swapd_x, (solve3_same (xset e S) S) by apply xset_gas.
  rewrite solve3_tau, swapd_tau.
  assert (ED : forall f, hget (xhs e f) v = hget f (xv e v)).
  { intros f. assert (v = 0 \/ v = 1 \/ v = 2 \/ v = 3 \/ v = 4)%Z as [->|[->|[->|[->| ->]]]] by lia; destruct e; reflexivity. }
  rewrite ED.
  assert (Et : dtd (xset e S) dt d = dtd S dt (xd e d)) by (destruct e, d; reflexivity). rewrite Et.
  destruct e, d; cbn [xpos xd flo fhi xface ox oy oz]; 
  rewrite ?(EB S Q G (full || kicked_right DX)%bool true), ?(EB S Q G (full || kicked_right DY)%bool true),
    ?(EB S Q G (full || kicked_right DZ)%bool true) by auto; reflexivity.
Qed.

Lemma prim3_x S e u : fst (prim3 S (xhs e u)) = xhs e (fst (prim3 S u)).
Proof.
  destruct e; unfold prim3, xhs, swap_uv, swap_vw; cbv zeta; cbn [fst hd hp hu hv hw]; Rn;
  apply hs_eq; cbn [hd hp hu hv hw]; auto; f_equal; ring.
Qed.

Lemma Qf3_x S e U i j k : Qf3 (xset e S) (xfield e U) i j k = xQ e (Qf3 S U) i j k.
Proof.
  unfold xQ. destruct e; cbn [xpos]; unfold Qf3; rewrite <- prim3_x; reflexivity.
Qed.

Lemma F3_ext' S g dt full Q Q' G d i j k v : (forall i j k, Q i j k = Q' i j k) ->
  F3 S g dt full Q G d i j k v = F3 S g dt full Q' G d i j k v.
Proof. intros H. unfold F3. rewrite (flux3_ext S g dt full Q Q' G G); auto. Qed.

Lemma adv3_x S g dt full e U G i j k v : full_ok g full -> (0 <= v < 5)%Z ->
  adv3 (xset e S) g dt full (xfield e U) (xgrav e G) i j k v =
  xpos e (fun i j k => adv3 S g dt full U G i j k (xv e v)) i j k.
Proof.
  intros Hf Hv. unfold adv3.
  assert (E : forall d i j k, F3 (xset e S) g dt full (Qf3 (xset e S) (xfield e U)) (xgrav e G) d i j k v =
    xpos e (fun i j k => F3 S g dt full (Qf3 S U) G (xd e d) i j k (xv e v)) i j k).
  { intros. rewrite (F3_ext' _ g dt full _ (xQ e (Qf3 S U))) by (intros; apply Qf3_x). apply F3_x; auto. }
  rewrite !E. unfold xfield at 1. destruct e; cbn [xpos xd]; Rn; ring.
Qed.

Lemma step3_x S g dt full e U G i j k v : full_ok g full -> (0 <= v < 5)%Z ->
  step3 (xset e S) g dt full (xfield e U) (xgrav e G) i j k v = xfield e (step3 S g dt full U G) i j k v.
Proof.
  intros Hf Hv. unfold xfield at 2, step3. destruct (g_enabled g).
  - unfold grav_source3. rewrite !adv3_x by (auto; unfold ID, IU, IV, IW, IE; lia).
    assert (v = 0 \/ v = 1 \/ v = 2 \/ v = 3 \/ v = 4)%Z as [->|[->|[->|[->| ->]]]] by lia;
    destruct e; cbn [xpos]; cbv beta iota zeta delta [Z.eqb Pos.eqb xv xcomp xgrav xfield xpos IX IY IZ IU IV IW ID IE]; Rn;
    auto; unfold Rdiv; ring.
  - apply adv3_x; auto.
Qed.

(** ** Ghost cells and runs *)
Lemma xv_range e v : (0 <= v < 5)%Z -> (0 <= xv e v < 5)%Z.
Proof. intros. destruct e; unfold xv, IU, IV, IW; destruct (v =? 2)%Z, (v =? 3)%Z, (v =? 4)%Z; lia. Qed.

Lemma extend3_x e m u i j k v : (0 <= v < 5)%Z ->
  extend3 (xmesh e m) (xfield e u) i j k v = xfield e (extend3 m u) i j k v.
Proof.
  intros Hv. unfold xfield at 2. unfold extend3.
  destruct e; cbn [xpos].
  - change (image_x (xmesh EXY m) i) with (image_y m i). change (image_y (xmesh EXY m) j) with (image_x m j).
    change (image_z (xmesh EXY m) k) with (image_z m k).
    change (mirrored_x (xmesh EXY m) i) with (mirrored_y m i). change (mirrored_y (xmesh EXY m) j) with (mirrored_x m j).
    change (mirrored_z (xmesh EXY m) k) with (mirrored_z m k).
    rewrite !odd_x3, !odd_y3, !odd_z3 by (auto using (xv_range EXY)).
    assert (v = 0 \/ v = 1 \/ v = 2 \/ v = 3 \/ v = 4)%Z as [->|[->|[->|[->| ->]]]] by lia;
    cbv beta iota delta [xv IU IV Z.eqb Pos.eqb flip_if xfield xpos];
    rewrite ?andb_false_r, ?andb_true_r; reflexivity.
  - change (image_x (xmesh EYZ m) i) with (image_x m i). change (image_y (xmesh EYZ m) j) with (image_z m j).
    change (image_z (xmesh EYZ m) k) with (image_y m k).
    change (mirrored_x (xmesh EYZ m) i) with (mirrored_x m i). change (mirrored_y (xmesh EYZ m) j) with (mirrored_z m j).
    change (mirrored_z (xmesh EYZ m) k) with (mirrored_y m k).
    rewrite !odd_x3, !odd_y3, !odd_z3 by (auto using (xv_range EYZ)).
    assert (v = 0 \/ v = 1 \/ v = 2 \/ v = 3 \/ v = 4)%Z as [->|[->|[->|[->| ->]]]] by lia;
    cbv beta iota delta [xv IV IW Z.eqb Pos.eqb flip_if xfield xpos];
    rewrite ?andb_false_r, ?andb_true_r; reflexivity.
Qed.

Lemma xmesh_wide e m : wide3 m -> wide3 (xmesh e m).
Proof. intros ((H1 & H2 & H3 & H4 & H5 & H6) & H7 & H8). destruct e; unfold wide3, wide2; cbn; tauto. Qed.

Lemma xmesh_gw e m : gw (xmesh e m) = gw m. Proof. destruct e; reflexivity. Qed.
Lemma xmesh_nbvar e m : nbvar (xmesh e m) = nbvar m. Proof. destruct e; reflexivity. Qed.
Lemma xset_slope e S : slope_ok (xset e S) <-> slope_ok S. Proof. destruct e; reflexivity. Qed.
Lemma xset_solver e S : solver_ok3 (xset e S) <-> solver_ok3 S. Proof. destruct e; reflexivity. Qed.
Lemma xmesh_phys e m i j k : phys3 (xmesh e m) i j k <-> xpos e (phys3 m) i j k.
Proof. destruct e; unfold phys3, phys2; cbn; tauto. Qed.

Lemma run_x e m S g full dts : full_ok g full -> forall u G, wide3 m -> (2 <= gw m)%Z ->
  same_phys3 (xmesh e m) (run_spec3 (xmesh e m) (xset e S) g full (xgrav e G) dts (xfield e u))
                          (xfield e (run_spec3 m S g full G dts u)).
Proof.
  intros Hf. induction dts as [|dt dts IH]; intros u G Hw Hgw; cbn [run_spec3].
  - intros i j k v _ _. reflexivity.
  - intros i j k v Hp Hv. rewrite <- IH by auto.
    apply run_spec3_ext; auto using xmesh_wide. { rewrite xmesh_gw. auto. }
    intros i' j' k' v' Hp' Hv'. rewrite <- step3_x by auto.
    apply step3_stencil; auto. intros. apply extend3_x; auto.
Qed.
