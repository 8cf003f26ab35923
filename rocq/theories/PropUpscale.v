(** * C34: restart on a mesh twice finer *)
From Coq Require Import String ZArith List Bool Lia ZifyBool Reals Lra Ascii.
Import ListNotations.
From Verif Require Import Num Exec ExecFacts Grid GridFacts Boundaries BoundariesSpec
  BoundariesFacts BoundariesFill BoundariesNarrow HydroNum Kernels KernelFacts Atomics
  Hydro2D Hydro2DSpec Hydro2DFacts Hydro2DStep Determ Hydro2DRun EulerSpec HydroPhysics
  HydroRiemann PropPhysics Sums Hydro2DLaws Binary64 Doomed PropHydro2D
  Hydro3D Hydro3DSpec Hydro3DFacts Hydro3DStep Hydro3DRun Hydro3DLaws Hydro3DAxes Doomed3 PropHydro3D
  TimeStep TimeStepFacts Driver DriverFacts HydroMachine PropDriver
  MhdNum Mhd2D Mhd2DSpec MhdFacts Mhd2DFacts Mhd2DStep Mhd2DV2 Mhd2DAgree Mhd2DRun
  MhdSpec MhdPhysics Mhd2DLaws Mhd2DDoomed PropMhd2D MhdMachine PropMhdDriver
  Config Vtk Hdf5 Hdf5Facts RestartFacts PropRestart.
Local Open Scope Z_scope.
Local Notation length := List.length.
Ltac Zify.zify_post_hook ::= Z.div_mod_to_equations.

(** ** Specification *)

(** [m] has twice the cells of [mc] along each axis, the same ghosts and variables. *)
Definition twice (three : bool) (mc m : mesh) : Prop :=
  nx m = 2 * nx mc /\ ny m = 2 * ny mc /\ (three = true -> nz m = 2 * nz mc) /\ gw m = gw mc /\ nbvar m = nbvar mc.

(** Coarse cell that contains the fine cell [i], along an axis with [g] ghosts. *)
Definition parent (g i : Z) : Z := g + (i - g) / 2.

(** Axis of a variable: the component of the magnetic field normal to a face. *)
Definition face_axis (three : bool) (v : Z) : option Z :=
  if v =? IA then Some 0 else if v =? IB then Some 1 else if three && (v =? IC) then Some 2 else None.

(** Value in the fine cell: that of the parent; for a component centred on a face
    that cuts the parent in two, the mean of the two faces of the parent. *)
Definition upscaled {T} {N : Num T} (three : bool) (g : Z) (U : Z -> Z -> Z -> Z -> T) (i j k v : Z) : T :=
  let p := parent g i in let q := parent g j in let r := if three then parent g k else k in
  let halfway (x y : T) := ndiv (nadd x y) (nZ 2) in
  match face_axis three v with
  | Some 0 => if Z.odd (i - g) then halfway (U p q r v) (U (p + 1) q r v) else U p q r v
  | Some 1 => if Z.odd (j - g) then halfway (U p q r v) (U p (q + 1) r v) else U p q r v
  | Some _ => if Z.odd (k - g) then halfway (U p q r v) (U p q (r + 1) v) else U p q r v
  | None => U p q r v
  end.

Definition phys_cell (three : bool) (m : mesh) (i j k : Z) : Prop :=
  gw m <= i < nx m + gw m /\ gw m <= j < ny m + gw m /\ if three then gw m <= k < nz m + gw m else k = 0.
Definition any_cell (three : bool) (m : mesh) (i j k : Z) : Prop :=
  0 <= i < isize m /\ 0 <= j < jsize m /\ 0 <= k < (if three then ksize m else 1).

(** ** Reads stay inside the coarse buffer *)

(** Coordinates of an element of a buffer of sizes [d1], [d2], [d3]. *)
Definition inside (d1 d2 d3 a : Z) : Prop :=
  exists i j k, a = i + d1 * j + d1 * d2 * k /\ 0 <= i < d1 /\ 0 <= j < d2 /\ 0 <= k < d3.

Theorem C34_reads_inside :
  forall cf m i j k v,
  h5_mesh m -> 2 <= gw m -> any_cell (h_three cf) m i j k ->
  let d1 := nx m / 2 + 2 * gw m in let d2 := ny m / 2 + 2 * gw m in
  let d3 := if h_three cf then nz m / 2 + 2 * gw m else 1 in
  Forall (inside d1 d2 d3) (half_reads cf m v i j k) /\
  (h_half cf = true -> load_dims cf m = (d3, d2, d1)) /\
  d1 * d2 * d3 <= isize m * jsize m * ks cf m.
Proof.
  intros cf m i j k v (Hx & Hy & Hz & _) Hg (Hi & Hj & Hk) d1 d2 d3.
  unfold isize, jsize, ksize in *.
  assert (B1 : 0 <= (i + gw m) / 2 /\ (i + gw m) / 2 + (i + gw m - 2 * ((i + gw m) / 2)) < d1) by (unfold d1; lia).
  assert (B2 : 0 <= (j + gw m) / 2 /\ (j + gw m) / 2 + (j + gw m - 2 * ((j + gw m) / 2)) < d2) by (unfold d2; lia).
  assert (B3 : 0 <= (k + gz cf m) / 2 /\ (k + gz cf m) / 2 + (if h_three cf then k + gz cf m - 2 * ((k + gz cf m) / 2) else 0) < d3).
  { unfold d3, gz in *. destruct (h_three cf); lia. }
  assert (P1 : 0 <= i + gw m - 2 * ((i + gw m) / 2)) by lia.
  assert (P2 : 0 <= j + gw m - 2 * ((j + gw m) / 2)) by lia.
  assert (P3 : 0 <= (if h_three cf then k + gz cf m - 2 * ((k + gz cf m) / 2) else 0)) by (destruct (h_three cf); lia).
  split; [|split].
  - unfold half_reads. fold d1 d2. clearbody d1 d2 d3.
    set (a := (i + gw m) / 2) in *. set (b := (j + gw m) / 2) in *. set (c := (k + gz cf m) / 2) in *.
    assert (H0 : inside d1 d2 d3 (a + d1 * b + d1 * d2 * c)).
    { exists a, b, c. repeat split; lia. }
    destruct (v =? IA); [|destruct (v =? IB); [|destruct (h_three cf && (v =? IC)) eqn:E]].
    + destruct (_ =? 0) eqn:E; repeat constructor; auto. exists (a + 1), b, c. repeat split; lia.
    + destruct (_ =? 0) eqn:E; repeat constructor; auto. exists a, (b + 1), c. repeat split; lia.
    + apply andb_prop in E. destruct E as [E _]. rewrite E in *.
      destruct (_ =? 0) eqn:E'; repeat constructor; auto. exists a, b, (c + 1). repeat split; lia.
    + repeat constructor; auto.
  - intros Hh. unfold load_dims, nx_rg, ny_rg, nz_rg, nx_r, ny_r, nz_r, gz, d1, d2, d3. rewrite Hh. destruct (h_three cf); reflexivity.
  - unfold ks, ksize.
    apply Z.mul_le_mono_nonneg; [unfold d1, d2; nia|apply Z.mul_le_mono_nonneg; unfold d1, d2; lia| |];
      unfold d3; destruct (h_three cf); lia.
Qed.
Print Assumptions C34_reads_inside.

(** ** Values *)
Section Values.
Context {T : Type} {N : Num T}.

Lemma load_half cf cf2 mc m (U : Z -> Z -> Z -> Z -> T) n t :
  same_kind cf cf2 -> h_half cf2 = true -> h5_mesh mc -> h5_mesh m -> twice (h_three cf) mc m -> nbvar mc = all_vars cf ->
  exists h, h5_load cf2 m (h5_save cf mc U n t) = Some h /\
    forall v, 0 <= v < all_vars cf -> exists dv : flat,
      (forall a b c, on_file cf mc a b c ->
         dv (a + (nx m / 2 + 2 * gw m) * b + (nx m / 2 + 2 * gw m) * (ny m / 2 + 2 * gw m) * c) = Some (U a b c v)) /\
      (forall a b c, 0 <= a < isize mc -> 0 <= b < jsize mc -> 0 <= c < (if h_three cf then ksize mc else 1) -> ~ on_file cf mc a b c ->
         dv (a + (nx m / 2 + 2 * gw m) * b + (nx m / 2 + 2 * gw m) * (ny m / 2 + 2 * gw m) * c) = None) /\
      forall i j k, any_cell (h_three cf) m i j k -> h (addr cf2 m i j k v) = mean (map dv (half_reads cf2 m v i j k)).
Proof.
  intros K Hh Hmc Hm (W1 & W2 & W3 & W4 & W5) Hn. destruct (save_sets cf cf2 mc U n t K Hmc Hn) as (sets & HS).
  destruct K as (K1 & K2 & K3).
  assert (E1 : nx m / 2 = nx mc) by lia. assert (E2 : ny m / 2 = ny mc) by lia.
  assert (E3 : h_three cf = true -> nz m / 2 = nz mc) by (intros E; specialize (W3 E); lia).
  assert (EC : load_count cf2 m = save_count cf mc).
  { unfold load_count, save_count, nz_rg, ny_rg, nx_rg, nz_r, ny_r, nx_r, gz. rewrite Hh, <- K3, <- K1, E1, E2, W4.
    destruct (h_ghost cf), (h_three cf); rewrite ?E3 by reflexivity; reflexivity. }
  assert (EV : all_vars cf2 = all_vars cf) by (unfold all_vars; rewrite K1, K2; reflexivity).
  destruct (load_at cf2 m Hm (h5_save cf mc U n t) sets) as (h & A & B).
  { intros v Hv. apply fields_all in Hv. lia. }
  { intros v Hv. destruct (HS v Hv) as (C & D & _). rewrite EC. auto. }
  exists h. split; [exact A|]. intros v Hv.
  destruct (B v) as (dv & (C1 & C2) & D); [apply fields_all; lia|].
  destruct (HS v) as (_ & _ & F); [apply fields_all; lia|].
  exists dv.
  assert (ES : forall k0 j0 i0, slot cf2 m k0 j0 i0 =
     (i0 + start1 cf mc) + (nx mc + 2 * gw mc) * ((j0 + start2 cf mc) + (ny mc + 2 * gw mc) * (k0 + start3 cf mc))).
  { intros k0 j0 i0. unfold slot, lstart3, lstart2, lstart1, start3, start2, start1, load_start, save_start, nx_rg, ny_rg, nx_r, ny_r, gz.
    rewrite Hh, E1, E2, <- K3, <- K1, W4. destruct (h_ghost cf), (h_three cf); cbn [fst snd]; ring. }
  split; [|split].
  - intros a b c Hc. rewrite E1, E2.
    set (k0 := c - start3 cf mc). set (j0 := b - start2 cf mc). set (i0 := a - start1 cf mc).
    assert (Hcnt : in_count (save_count cf mc) k0 j0 i0).
    { unfold k0, j0, i0, on_file, in_count, in3, save_count, start3, start2, start1, save_start, gz, isize, jsize, ksize in *.
      destruct (h_ghost cf), (h_three cf); cbn [fst snd]; lia. }
    replace (a + (nx mc + 2 * gw m) * b + (nx mc + 2 * gw m) * (ny mc + 2 * gw m) * c) with (slot cf2 m k0 j0 i0).
    + rewrite C1 by (rewrite EC; exact Hcnt). rewrite F by exact Hcnt. unfold k0, j0, i0. do 2 f_equal; lia.
    + rewrite ES. unfold k0, j0, i0. rewrite W4. ring.
  - intros a b c Ha Hb Hc Hno. apply C2. rewrite EC, E1, E2, W4. intros k0 j0 i0 Hcnt Eq. apply Hno.
    rewrite ES in Eq. pose proof (count_inside cf mc Hmc k0 j0 i0 Hcnt) as Hin.
    assert (Hin2 : in3 (ks cf mc) (jsize mc) (isize mc) (k0 + start3 cf mc) (j0 + start2 cf mc) (i0 + start1 cf mc)).
    { destruct Hin as (? & ? & ?). unfold in3. repeat split; lia. }
    assert (Habc : in3 (ks cf mc) (jsize mc) (isize mc) c b a) by (unfold in3, ks; auto).
    destruct (rank_inj _ _ _ _ _ _ _ _ _ Habc Hin2) as (F1 & F2 & F3); [unfold isize, jsize; lia|].
    unfold on_file, in_count, in3, save_count, start3, start2, start1, save_start, gz, isize, jsize, ksize in *.
    destruct (h_ghost cf), (h_three cf); cbn [fst snd] in *; lia.
  - intros i j k (Hi & Hj & Hk). rewrite D; [unfold cell_value; rewrite Hh; reflexivity|].
    unfold in_all, in3, ks. rewrite <- K1. auto.
Qed.

Lemma half_parent g i : (i + g) / 2 = parent g i.
Proof. unfold parent. lia. Qed.
Lemma half_odd g i : (i + g - 2 * ((i + g) / 2) =? 0) = negb (Z.odd (i - g)).
Proof.
  replace (i - g) with (i + g + 2 * (- g)) by lia. rewrite Z.odd_add_mul_2.
  pose proof (Zmod_odd (i + g)) as H. destruct (Z.odd (i + g)); cbn [negb]; lia.
Qed.

(** Cells whose value only depends on elements present in the file. *)
Definition determined (cf : h5conf) (mc m : mesh) (v i j k : Z) : Prop :=
  let p := parent (gw m) i in let q := parent (gw m) j in let r := if h_three cf then parent (gw m) k else k in
  on_file cf mc p q r /\
  match face_axis (h_three cf) v with
  | Some 0 => Z.odd (i - gw m) = true -> on_file cf mc (p + 1) q r
  | Some 1 => Z.odd (j - gw m) = true -> on_file cf mc p (q + 1) r
  | Some _ => Z.odd (k - gw m) = true -> on_file cf mc p q (r + 1)
  | None => True
  end.

Lemma load_upscaled cf cf2 mc m (U : Z -> Z -> Z -> Z -> T) n t :
  same_kind cf cf2 -> h_half cf2 = true -> h5_mesh mc -> h5_mesh m -> twice (h_three cf) mc m -> nbvar mc = all_vars cf ->
  exists h, h5_load cf2 m (h5_save cf mc U n t) = Some h /\
    forall i j k v, any_cell (h_three cf) m i j k -> 0 <= v < all_vars cf -> determined cf mc m v i j k ->
      h (addr cf2 m i j k v) = Some (upscaled (h_three cf) (gw m) U i j k v).
Proof.
  intros K Hh Hmc Hm Hw Hn. destruct (load_half cf cf2 mc m U n t K Hh Hmc Hm Hw Hn) as (h & A & B).
  exists h. split; [exact A|]. intros i j k v Hc Hv (D1 & D2). destruct (B v Hv) as (dv & C & _ & D). rewrite D by exact Hc.
  destruct K as (K1 & _). unfold half_reads, gz. rewrite !half_odd, !half_parent, <- K1.
  assert (ER : (if h_three cf then parent (gw m) k else k) = parent (if h_three cf then gw m else 0) k).
  { destruct Hc as (_ & _ & Hk). unfold parent. destruct (h_three cf); lia. }
  unfold upscaled, face_axis in *. cbv zeta in D1, D2 |- *. rewrite ER in *.
  destruct (v =? IA); [|destruct (v =? IB); [|destruct (h_three cf && (v =? IC)) eqn:E]].
  - destruct (Z.odd (i - gw m)); cbn [negb map]; rewrite !C; auto.
  - destruct (Z.odd (j - gw m)); cbn [negb map]; rewrite !C; auto.
  - apply andb_prop in E. destruct E as [E _]. rewrite E in *.
    destruct (Z.odd (k - gw m)); cbn [negb map]; rewrite !C; auto.
  - cbn [map]. rewrite C by auto. reflexivity.
Qed.
End Values.

(** With the ghosts in the file: every cell of the fine mesh, ghosts included. *)
Theorem C34_values :
  forall (T : Type) (N : Num T) cf cf2 mc m (U : Z -> Z -> Z -> Z -> T) n t a (s : store T),
  same_kind cf cf2 -> h_half cf2 = true -> h_ghost cf = true ->
  h5_mesh mc -> h5_mesh m -> 2 <= gw m -> twice (h_three cf) mc m -> nbvar mc = all_vars cf ->
  let f := h5_save cf mc U n t in
  (exists s', loaded cf2 m f a s s') /\
  forall s', loaded cf2 m f a s s' ->
    forall i j k v, any_cell (h_three cf) m i j k -> 0 <= v < all_vars cf ->
      s' (mkloc a i j k v) = upscaled (h_three cf) (gw m) U i j k v.
Proof.
  intros T N cf cf2 mc m U n t a s K Hh Hgh Hmc Hm Hg Hw Hn. cbn zeta.
  destruct (load_upscaled cf cf2 mc m U n t K Hh Hmc Hm Hw Hn) as (h & A & B). split.
  - exists (fun l => if arr_eq_dec (la l) a then match h (addr cf2 m (li l) (lj l) (lk l) (lv l)) with Some x => x | None => s l end else s l).
    exists h. split; [exact A|]. split.
    + intros i j k v _ _ _ _ x Hx. cbn [la li lj lk lv]. destruct (arr_eq_dec a a); [|congruence]. rewrite Hx. reflexivity.
    + intros l Hl. destruct (arr_eq_dec (la l) a); congruence.
  - intros s' (h' & A' & B' & C') i j k v Hc Hv. rewrite A in A'. injection A' as <-.
    assert (HD : determined cf mc m v i j k).
    { destruct Hw as (W1 & W2 & W3 & W4 & W5). destruct Hc as (Hi & Hj & Hk).
      unfold determined, on_file, parent, isize, jsize, ksize in *. rewrite Hgh.
      assert (OI : Z.odd (i - gw m) = true -> (i - gw m) mod 2 = 1) by (intros O; rewrite Zmod_odd, O; reflexivity).
      assert (OJ : Z.odd (j - gw m) = true -> (j - gw m) mod 2 = 1) by (intros O; rewrite Zmod_odd, O; reflexivity).
      assert (OK : Z.odd (k - gw m) = true -> (k - gw m) mod 2 = 1) by (intros O; rewrite Zmod_odd, O; reflexivity).
      destruct (h_three cf) eqn:E3; [specialize (W3 eq_refl)|].
      - split; [lia|]. unfold face_axis. destruct (v =? IA); [intros O; specialize (OI O); lia|].
        destruct (v =? IB); [intros O; specialize (OJ O); lia|]. cbn [andb].
        destruct (v =? IC); [intros O; specialize (OK O); lia|exact I].
      - split; [lia|]. unfold face_axis. destruct (v =? IA); [intros O; specialize (OI O); lia|].
        destruct (v =? IB); [intros O; specialize (OJ O); lia|]. cbn [andb]. exact I. }
    apply B'; [| | | |apply B; auto]; destruct Hc as (Hi & Hj & Hk), K as (K1 & _), Hw as (_ & _ & _ & _ & W5);
      unfold ks; rewrite <- ?K1; auto; lia.
Qed.
Print Assumptions C34_values.

(** Without them: the cell-centred variables of the physical cells. *)
Theorem C34_cell_values :
  forall (T : Type) (N : Num T) cf cf2 mc m (U : Z -> Z -> Z -> Z -> T) n t a (s : store T),
  same_kind cf cf2 -> h_half cf2 = true ->
  h5_mesh mc -> h5_mesh m -> twice (h_three cf) mc m -> nbvar mc = all_vars cf ->
  let f := h5_save cf mc U n t in
  (exists s', loaded cf2 m f a s s') /\
  forall s', loaded cf2 m f a s s' ->
    forall i j k v, phys_cell (h_three cf) m i j k -> 0 <= v < all_vars cf -> face_axis (h_three cf) v = None ->
      s' (mkloc a i j k v) =
      U (parent (gw m) i) (parent (gw m) j) (if h_three cf then parent (gw m) k else 0) v.
Proof.
  intros T N cf cf2 mc m U n t a s K Hh Hmc Hm Hw Hn. cbn zeta.
  destruct (load_upscaled cf cf2 mc m U n t K Hh Hmc Hm Hw Hn) as (h & A & B). split.
  - exists (fun l => if arr_eq_dec (la l) a then match h (addr cf2 m (li l) (lj l) (lk l) (lv l)) with Some x => x | None => s l end else s l).
    exists h. split; [exact A|]. split.
    + intros i j k v _ _ _ _ x Hx. cbn [la li lj lk lv]. destruct (arr_eq_dec a a); [|congruence]. rewrite Hx. reflexivity.
    + intros l Hl. destruct (arr_eq_dec (la l) a); congruence.
  - intros s' (h' & A' & B' & C') i j k v (Hi & Hj & Hk) Hv Ha. rewrite A in A'. injection A' as <-.
    destruct Hw as (W1 & W2 & W3 & W4 & W5). destruct Hm as (? & ? & ? & ?).
    assert (Hc : any_cell (h_three cf) m i j k).
    { unfold any_cell, isize, jsize, ksize. destruct (h_three cf); lia. }
    assert (HD : determined cf mc m v i j k).
    { unfold determined. rewrite Ha. split; [|exact I].
      unfold on_file, parent, isize, jsize, ksize in *. destruct (h_ghost cf), (h_three cf); try specialize (W3 eq_refl); lia. }
    specialize (B i j k v Hc Hv HD). unfold upscaled in B. rewrite Ha in B.
    replace (if h_three cf then parent (gw m) k else 0) with (if h_three cf then parent (gw m) k else k) by (destruct (h_three cf); lia).
    destruct Hc as (Hi' & Hj' & Hk'), K as (K1 & _).
    apply B'; [| | | |exact B]; unfold ks; rewrite <- ?K1; auto; lia.
Qed.
Print Assumptions C34_cell_values.

(** ** Totals *)

(** Volume integral over the physical cells, cells of sizes [hx], [hy], [hz]. *)
Definition integral (three : bool) (m : mesh) (hx hy hz : R) (u : Z -> Z -> Z -> R) : R :=
  (hx * hy * hz *
   sumz (gw m) (nx m) (fun i => sumz (gw m) (ny m) (fun j =>
     if three then sumz (gw m) (nz m) (fun k => u i j k) else u i j 0%Z)))%R.

Lemma sumn_parent n : forall g a f, sumn (g + 2 * a) (2 * n) (fun i => f (parent g i)) = (2 * sumn (g + a) n f)%R.
Proof.
  induction n as [|n IH]; intros g a f; [simpl; lra|].
  replace (2 * Datatypes.S n)%nat with (Datatypes.S (Datatypes.S (2 * n))) by lia. cbn [sumn].
  replace (g + 2 * a + 1 + 1) with (g + 2 * (a + 1)) by lia. rewrite IH.
  replace (parent g (g + 2 * a)) with (g + a) by (unfold parent; lia).
  replace (parent g (g + 2 * a + 1)) with (g + a) by (unfold parent; lia).
  replace (g + (a + 1)) with (g + a + 1) by lia. lra.
Qed.
Lemma sumz_parent g n f : 0 <= n -> sumz g (2 * n) (fun i => f (parent g i)) = (2 * sumz g n f)%R.
Proof.
  intros Hn. unfold sumz. replace (Z.to_nat (2 * n)) with (2 * Z.to_nat n)%nat by lia.
  pose proof (sumn_parent (Z.to_nat n) g 0 f) as H. rewrite !Z.add_0_r in H. exact H.
Qed.

(** The integrals of density, energy, momenta (and of the component of the
    magnetic field along z in 2D) are those of the coarse state. *)
Theorem C34_totals :
  forall cf cf2 mc m (U : Z -> Z -> Z -> Z -> R) n t a (s s' : store R) v hx hy hz,
  same_kind cf cf2 -> h_half cf2 = true ->
  h5_mesh mc -> h5_mesh m -> twice (h_three cf) mc m -> nbvar mc = all_vars cf ->
  loaded cf2 m (h5_save cf mc U n t) a s s' ->
  0 <= v < all_vars cf -> face_axis (h_three cf) v = None ->
  integral (h_three cf) m (hx / 2) (hy / 2) (if h_three cf then hz / 2 else hz) (fun i j k => s' (mkloc a i j k v)) =
  integral (h_three cf) mc hx hy hz (fun i j k => U i j k v).
Proof.
  intros cf cf2 mc m U n t a s s' v hx hy hz K Hh Hmc Hm Hw Hn HL Hv Ha.
  destruct (C34_cell_values R Rnum cf cf2 mc m U n t a s K Hh Hmc Hm Hw Hn) as [_ HV]. specialize (HV s' HL).
  destruct Hw as (W1 & W2 & W3 & W4 & W5). destruct Hmc as (Px & Py & Pz & _). unfold integral. rewrite W4.
  assert (HV' : forall i j k, phys_cell (h_three cf) m i j k -> s' (mkloc a i j k v) =
     U (parent (gw mc) i) (parent (gw mc) j) (if h_three cf then parent (gw mc) k else 0) v).
  { intros i j k Hp. rewrite (HV i j k v Hp Hv Ha), W4. reflexivity. }
  destruct (h_three cf) eqn:E3.
  - specialize (W3 eq_refl).
    assert (E : sumz (gw mc) (nx m) (fun i => sumz (gw mc) (ny m) (fun j => sumz (gw mc) (nz m) (fun k => s' (mkloc a i j k v)))) =
      (2 * sumz (gw mc) (nx mc) (fun i => 2 * sumz (gw mc) (ny mc) (fun j => 2 * sumz (gw mc) (nz mc) (fun k => U i j k v))))%R).
    { rewrite W1. rewrite <- sumz_parent by lia. apply sumz_ext. intros i Hi. rewrite W2, <- sumz_parent by lia. apply sumz_ext.
      intros j Hj. rewrite W3, <- sumz_parent by lia. apply sumz_ext. intros k Hk. apply HV'. unfold phys_cell. lia. }
    rewrite E, sumz_scal. rewrite (sumz_ext _ _ (fun i => sumz (gw mc) (ny mc) (fun j => (2 * sumz (gw mc) (nz mc) (fun k => U i j k v))%R))
      (fun i => (2 * sumz (gw mc) (ny mc) (fun j => sumz (gw mc) (nz mc) (fun k => U i j k v)))%R)) by (intros; apply sumz_scal).
    rewrite sumz_scal. field.
  - assert (E : sumz (gw mc) (nx m) (fun i => sumz (gw mc) (ny m) (fun j => s' (mkloc a i j 0 v))) =
      (2 * sumz (gw mc) (nx mc) (fun i => 2 * sumz (gw mc) (ny mc) (fun j => U i j 0%Z v)))%R).
    { rewrite W1. rewrite <- sumz_parent by lia. apply sumz_ext. intros i Hi. rewrite W2, <- sumz_parent by lia. apply sumz_ext.
      intros j Hj. apply HV'. unfold phys_cell. lia. }
    rewrite E, sumz_scal. field.
Qed.
Print Assumptions C34_totals.

(** ** Divergence *)

(** Divergence of the face-centred field in a cell of sizes [hx], [hy], [hz]. *)
Definition divergence (three : bool) (hx hy hz : R) (u : Z -> Z -> Z -> Z -> R) (i j k : Z) : R :=
  ((u (i + 1)%Z j k IA - u i j k IA) / hx + (u i (j + 1)%Z k IB - u i j k IB) / hy +
   (if three then (u i j (k + 1)%Z IC - u i j k IC) / hz else 0))%R.

Lemma half_jump g i (f : Z -> R) : let p := parent g i in
  let h x := (if Z.odd (x - g)%Z then (f (parent g x) + f (parent g x + 1)%Z) / 2 else f (parent g x))%R in
  (h (i + 1)%Z - h i = (f (p + 1)%Z - f p) / 2)%R.
Proof.
  cbv beta zeta. replace (i + 1 - g) with (i - g + 1) by lia. rewrite (Z.odd_add (i - g) 1). pose proof (Zmod_odd (i - g)) as H.
  change (Z.odd 1) with true. rewrite xorb_true_r. destruct (Z.odd (i - g)) eqn:E; cbn [negb].
  - replace (parent g (i + 1)) with (parent g i + 1) by (unfold parent; lia). field.
  - replace (parent g (i + 1)) with (parent g i) by (unfold parent; lia). field.
Qed.

Lemma upscaled_divergence three g hx hy hz U i j k : (hx <> 0)%R -> (hy <> 0)%R -> (hz <> 0)%R ->
  divergence three (hx / 2) (hy / 2) (hz / 2) (upscaled three g U) i j k =
  divergence three hx hy hz U (parent g i) (parent g j) (if three then parent g k else k).
Proof.
  intros Hx Hy Hz. unfold divergence, upscaled, face_axis. rewrite !Z.eqb_refl.
  change (IB =? IA) with false. change (IC =? IA) with false. change (IC =? IB) with false. cbv iota. cbv zeta.
  Rn. set (r := if three then parent g k else k).
  pose proof (half_jump g i (fun x => U x (parent g j) r IA)) as JX.
  pose proof (half_jump g j (fun y => U (parent g i) y r IB)) as JY. cbv zeta beta in JX, JY. rewrite JX, JY.
  destruct three; cbn [andb].
  - unfold r in *. pose proof (half_jump g k (fun z => U (parent g i) (parent g j) z IC)) as JZ. cbv zeta beta in JZ. rewrite JZ. field. auto.
  - field. auto.
Qed.

(** In the array left by the reader every fine cell, ghosts included, has the
    divergence of its coarse parent (the last layer has no face beyond it). *)
Theorem C34_divergence :
  forall cf cf2 mc m (U : Z -> Z -> Z -> Z -> R) n t a (s s' : store R) hx hy hz i j k,
  same_kind cf cf2 -> h_half cf2 = true -> h_ghost cf = true -> h_mhd cf = true ->
  h5_mesh mc -> h5_mesh m -> 2 <= gw m -> twice (h_three cf) mc m -> nbvar mc = 8 ->
  loaded cf2 m (h5_save cf mc U n t) a s s' ->
  (hx <> 0)%R -> (hy <> 0)%R -> (hz <> 0)%R ->
  any_cell (h_three cf) m i j k -> i < isize m - 1 -> j < jsize m - 1 -> (h_three cf = true -> k < ksize m - 1) ->
  divergence (h_three cf) (hx / 2) (hy / 2) (hz / 2) (fun i j k v => s' (mkloc a i j k v)) i j k =
  divergence (h_three cf) hx hy hz U (parent (gw m) i) (parent (gw m) j) (if h_three cf then parent (gw m) k else 0).
Proof.
  intros cf cf2 mc m U n t a s s' hx hy hz i j k K Hh Hgh Hmh Hmc Hm Hg Hw Hn HL Hx Hy Hz Hc Li Lj Lk.
  assert (EV : all_vars cf = 8) by (unfold all_vars; rewrite Hmh; reflexivity).
  destruct (C34_values R Rnum cf cf2 mc m U n t a s K Hh Hgh Hmc Hm Hg Hw ltac:(lia)) as [_ HV]. specialize (HV s' HL).
  replace (if h_three cf then parent (gw m) k else 0) with (if h_three cf then parent (gw m) k else k)
    by (destruct Hc as (_ & _ & Hk); destruct (h_three cf); lia).
  rewrite <- (upscaled_divergence (h_three cf) (gw m) hx hy hz U i j k) by auto.
  destruct Hc as (Hi & Hj & Hk). unfold divergence.
  rewrite !HV by (unfold any_cell, IA, IB in *; lia).
  destruct (h_three cf) eqn:E3; [|reflexivity].
  specialize (Lk eq_refl). rewrite !HV by (unfold any_cell, IC in *; lia). reflexivity.
Qed.
Print Assumptions C34_divergence.

(** ** The divergence once the run has started (2D, periodic box)

    The solver refills the ghosts.  When the ghost faces that close the coarse box
    are up to date in the file, every physical cell keeps the divergence of its
    parent; what is left otherwise is their difference with the first face. *)
Section Started.
Variables (cf cf2 : h5conf) (mc m : mesh) (Sc S : hset R) (U : Z -> Z -> Z -> Z -> R) (n : Z) (t : R) (s s' : store R).
Hypothesis K : same_kind cf cf2.
Hypothesis Hh : h_half cf2 = true.
Hypothesis Hgh : h_ghost cf = true.
Hypothesis Hmh : h_mhd cf = true.
Hypothesis H2 : h_three cf = false.
Hypothesis Hmc : h5_mesh mc.
Hypothesis Hm : h5_mesh m.
Hypothesis Hg : 2 <= gw m.
Hypothesis Hw : twice false mc m.
Hypothesis Hn : nbvar mc = 8.
Hypothesis HL : loaded cf2 m (h5_save cf mc U n t) A_U s s'.
Hypothesis Hper : periodic_x m /\ periodic_y m /\ periodic_x mc /\ periodic_y mc.
Hypothesis Hstep : dx S = (dx Sc / 2)%R /\ dy S = (dy Sc / 2)%R /\ (dx Sc <> 0)%R /\ (dy Sc <> 0)%R.

Lemma started_values i j v : cell2 m i j -> 0 <= v < 8 -> field_of A_U s' i j v = upscaled false (gw m) U i j 0 v.
Proof.
  intros Hc Hv. assert (EV : all_vars cf = 8) by (unfold all_vars; rewrite Hmh; reflexivity).
  assert (Hw' : twice (h_three cf) mc m) by (rewrite H2; exact Hw).
  destruct (C34_values R Rnum cf cf2 mc m U n t A_U s K Hh Hgh Hmc Hm Hg Hw' ltac:(lia)) as [_ HV]. specialize (HV s' HL).
  unfold field_of, L2. rewrite HV; [rewrite H2; reflexivity| |lia].
  unfold any_cell. rewrite H2. destruct Hc as [Hi Hj]. repeat split; try apply Hi; try apply Hj; lia.
Qed.

Lemma periodic_right (mm : mesh) (u : field2 R) i j v : periodic_x mm -> 0 < nx mm -> physical (ny mm) (gw mm) j ->
  i = nx mm + gw mm -> extend mm u i j v = u (gw mm) j v.
Proof.
  intros (P1 & P2) Hx Hj ->. unfold physical in Hj. unfold extend, image_x, image_y, mirrored_x, mirrored_y, image, mirrored.
  rewrite P1, P2. destruct (j <? gw mm) eqn:E1; [lia|]. destruct (ny mm + gw mm <=? j) eqn:E2; [lia|].
  destruct (nx mm + gw mm <? gw mm) eqn:E3; [lia|]. destruct (nx mm + gw mm <=? nx mm + gw mm) eqn:E4; [|lia]. cbn [andb flip_if].
  replace (nx mm + gw mm - nx mm) with (gw mm) by lia. reflexivity.
Qed.
Lemma periodic_above (mm : mesh) (u : field2 R) i j v : periodic_y mm -> 0 < ny mm -> physical (nx mm) (gw mm) i ->
  j = ny mm + gw mm -> extend mm u i j v = u i (gw mm) v.
Proof.
  intros (P1 & P2) Hx Hj ->. unfold physical in Hj. unfold extend, image_x, image_y, mirrored_x, mirrored_y, image, mirrored.
  rewrite P1, P2. destruct (i <? gw mm) eqn:E1; [lia|]. destruct (nx mm + gw mm <=? i) eqn:E2; [lia|].
  destruct (ny mm + gw mm <? gw mm) eqn:E3; [lia|]. destruct (ny mm + gw mm <=? ny mm + gw mm) eqn:E4; [|lia]. cbn [andb flip_if].
  replace (ny mm + gw mm - ny mm) with (gw mm) by lia. reflexivity.
Qed.

Let uc : field2 R := fun i j v => U i j 0 v.

(** Divergence of a fine cell: that of its parent, plus the gaps of the closing faces. *)
Lemma started_divergence i j : phys2 m i j ->
  divB S (extend m (field_of A_U s')) i j =
  (divB Sc (extend mc uc) (parent (gw m) i) (parent (gw m) j) +
   (if i =? nx m + gw m - 1 then (uc (gw m) (parent (gw m) j) IA - uc (nx mc + gw m)%Z (parent (gw m) j) IA) / dx Sc else
    if i =? nx m + gw m - 2 then (uc (nx mc + gw m)%Z (parent (gw m) j) IA - uc (gw m) (parent (gw m) j) IA) / dx Sc else 0) +
   (if j =? ny m + gw m - 1 then (uc (parent (gw m) i) (gw m) IB - uc (parent (gw m) i) (ny mc + gw m)%Z IB) / dy Sc else
    if j =? ny m + gw m - 2 then (uc (parent (gw m) i) (ny mc + gw m)%Z IB - uc (parent (gw m) i) (gw m) IB) / dy Sc else 0))%R.
Proof.
  intros Hp. pose proof Hp as [Hi Hj]. destruct Hper as (Q1 & Q2 & Q3 & Q4). destruct Hw as (W1 & W2 & _ & W4 & _). destruct Hstep as (Sx & Sy & Zx & Zy).
  unfold physical in *. pose proof Hmc as (Px & Py & _).
  set (p := parent (gw m) i). set (q := parent (gw m) j).
  assert (Bp : gw mc <= p < nx mc + gw mc) by (unfold p, parent; lia). assert (Bq : gw mc <= q < ny mc + gw mc) by (unfold q, parent; lia).
  unfold divB. rewrite Sx, Sy. rewrite !(extend_phys m _ i j), !(extend_phys mc _ p q) by (unfold phys2, physical; lia).
  rewrite !started_values by (unfold cell2, isize, jsize, IA, IB; lia).
  assert (AX : extend m (field_of A_U s') (i + 1) j IA = if i =? nx m + gw m - 1 then uc (gw m) q IA else upscaled false (gw m) U (i + 1) j 0 IA).
  { destruct (i =? nx m + gw m - 1) eqn:E.
    - rewrite periodic_right by (auto; unfold physical; lia). rewrite started_values by (unfold cell2, isize, jsize, IA; lia).
      unfold upscaled, face_axis. cbn [Z.eqb IA Pos.eqb]. rewrite Z.sub_diag. cbn [Z.odd]. unfold uc, parent, q. rewrite Z.sub_diag. change (0 / 2) with 0.
      rewrite Z.add_0_r. reflexivity.
    - rewrite extend_phys by (unfold phys2, physical; lia). apply started_values; unfold cell2, isize, jsize, IA; lia. }
  assert (AY : extend m (field_of A_U s') i (j + 1) IB = if j =? ny m + gw m - 1 then uc p (gw m) IB else upscaled false (gw m) U i (j + 1) 0 IB).
  { destruct (j =? ny m + gw m - 1) eqn:E.
    - rewrite periodic_above by (auto; unfold physical; lia). rewrite started_values by (unfold cell2, isize, jsize, IB; lia).
      unfold upscaled, face_axis. cbn [Z.eqb IA IB Pos.eqb]. rewrite Z.sub_diag. cbn [Z.odd]. unfold uc, parent, p. rewrite Z.sub_diag. change (0 / 2) with 0.
      rewrite Z.add_0_r. reflexivity.
    - rewrite extend_phys by (unfold phys2, physical; lia). apply started_values; unfold cell2, isize, jsize, IB; lia. }
  assert (CX : extend mc uc (p + 1) q IA = if (i =? nx m + gw m - 1) || (i =? nx m + gw m - 2) then uc (gw m) q IA else uc (p + 1) q IA).
  { destruct ((i =? nx m + gw m - 1) || (i =? nx m + gw m - 2)) eqn:E.
    - rewrite periodic_right; [rewrite W4; reflexivity|auto|lia|unfold physical; lia|unfold p, parent; lia].
    - apply extend_phys. unfold phys2, physical, p, parent. lia. }
  assert (CY : extend mc uc p (q + 1) IB = if (j =? ny m + gw m - 1) || (j =? ny m + gw m - 2) then uc p (gw m) IB else uc p (q + 1) IB).
  { destruct ((j =? ny m + gw m - 1) || (j =? ny m + gw m - 2)) eqn:E.
    - rewrite periodic_above; [rewrite W4; reflexivity|auto|lia|unfold physical; lia|unfold q, parent; lia].
    - apply extend_phys. unfold phys2, physical, q, parent. lia. }
  rewrite AX, AY, CX, CY.
  pose proof (half_jump (gw m) i (fun x => U x q 0%Z IA)) as JX. pose proof (half_jump (gw m) j (fun y => U p y 0%Z IB)) as JY.
  cbv zeta beta in JX, JY.
  assert (UX : forall x, upscaled false (gw m) U x j 0 IA = (if Z.odd (x - gw m)%Z then (U (parent (gw m) x) q 0%Z IA + U (parent (gw m) x + 1)%Z q 0%Z IA) / 2 else U (parent (gw m) x) q 0%Z IA)%R) by reflexivity.
  assert (UY : forall y, upscaled false (gw m) U i y 0 IB = (if Z.odd (y - gw m)%Z then (U p (parent (gw m) y) 0%Z IB + U p (parent (gw m) y + 1)%Z 0%Z IB) / 2 else U p (parent (gw m) y) 0%Z IB)%R) by reflexivity.
  rewrite <- (UX (i + 1)), <- (UX i) in JX. rewrite <- (UY (j + 1)), <- (UY j) in JY. fold p in JX. fold q in JY.
  assert (EX : ((if i =? nx m + gw m - 1 then uc (gw m) q IA else upscaled false (gw m) U (i + 1) j 0 IA) - upscaled false (gw m) U i j 0 IA =
     ((if (i =? nx m + gw m - 1) || (i =? nx m + gw m - 2) then uc (gw m) q IA else uc (p + 1)%Z q IA) - uc p q IA) / 2 +
     (if i =? nx m + gw m - 1 then (uc (gw m) q IA - uc (nx mc + gw m)%Z q IA) / 2 else
      if i =? nx m + gw m - 2 then (uc (nx mc + gw m)%Z q IA - uc (gw m) q IA) / 2 else 0))%R).
  { unfold uc in *. destruct (i =? nx m + gw m - 1) eqn:E1.
    - cbn [orb]. pose proof (Zmod_odd (i - gw m)) as HO. rewrite UX. replace (Z.odd (i - gw m)) with true by (destruct (Z.odd _); [reflexivity|lia]).
      fold p. replace (p + 1) with (nx mc + gw m) by (unfold p, parent; lia). field.
    - cbn [orb]. rewrite JX. destruct (i =? nx m + gw m - 2) eqn:E2.
      + replace (p + 1) with (nx mc + gw m) by (unfold p, parent; lia). field.
      + field. }
  assert (EY : ((if j =? ny m + gw m - 1 then uc p (gw m) IB else upscaled false (gw m) U i (j + 1) 0 IB) - upscaled false (gw m) U i j 0 IB =
     ((if (j =? ny m + gw m - 1) || (j =? ny m + gw m - 2) then uc p (gw m) IB else uc p (q + 1)%Z IB) - uc p q IB) / 2 +
     (if j =? ny m + gw m - 1 then (uc p (gw m) IB - uc p (ny mc + gw m)%Z IB) / 2 else
      if j =? ny m + gw m - 2 then (uc p (ny mc + gw m)%Z IB - uc p (gw m) IB) / 2 else 0))%R).
  { unfold uc in *. destruct (j =? ny m + gw m - 1) eqn:E1.
    - cbn [orb]. pose proof (Zmod_odd (j - gw m)) as HO. rewrite UY. replace (Z.odd (j - gw m)) with true by (destruct (Z.odd _); [reflexivity|lia]).
      fold q. replace (q + 1) with (ny mc + gw m) by (unfold q, parent; lia). field.
    - cbn [orb]. rewrite JY. destruct (j =? ny m + gw m - 2) eqn:E2.
      + replace (q + 1) with (ny mc + gw m) by (unfold q, parent; lia). field.
      + field. }
  rewrite EX, EY. clear - Zx Zy.
  destruct (i =? nx m + gw m - 1), (i =? nx m + gw m - 2), (j =? ny m + gw m - 1), (j =? ny m + gw m - 2); cbn [orb]; field; auto.
Qed.
End Started.

Theorem C34_divergence_started :
  forall cf cf2 mc m (Sc S : hset R) (U : Z -> Z -> Z -> Z -> R) n t (s s' : store R) i j,
  same_kind cf cf2 -> h_half cf2 = true -> h_ghost cf = true -> h_mhd cf = true -> h_three cf = false ->
  h5_mesh mc -> h5_mesh m -> 2 <= gw m -> twice false mc m -> nbvar mc = 8 ->
  periodic_x m -> periodic_y m -> periodic_x mc -> periodic_y mc ->
  dx S = (dx Sc / 2)%R -> dy S = (dy Sc / 2)%R -> (dx Sc <> 0)%R -> (dy Sc <> 0)%R ->
  loaded cf2 m (h5_save cf mc U n t) A_U s s' ->
  (forall j, U (nx mc + gw m) j 0 IA = U (gw m) j 0 IA) -> (forall i, U i (ny mc + gw m) 0 IB = U i (gw m) 0 IB) ->
  phys2 m i j ->
  divB S (extend m (field_of A_U s')) i j =
  divB Sc (extend mc (fun i j v => U i j 0 v)) (parent (gw m) i) (parent (gw m) j).
Proof.
  intros cf cf2 mc m Sc S U n t s s' i j K Hh Hgh Hmh H2 Hmc Hm Hg Hw Hn P1 P2 P3 P4 Sx Sy Zx Zy HL FA FB Hp.
  rewrite (started_divergence cf cf2 mc m Sc S U n t s s' K Hh Hgh Hmh H2 Hmc Hm Hg Hw Hn HL); auto 6.
  rewrite FA, FB. repeat match goal with |- context [if ?b then _ else _] => destruct b end; field; auto.
Qed.
Print Assumptions C34_divergence_started.

(** The ghosts in the files of implementation 0 are those of the previous step:
    after a restart from them the divergence of the two last columns (and rows)
    is that of their parent plus or minus the change of the first face during
    that step. *)
Theorem C34_stale_ghosts_refuted :
  forall cf cf2 mc m (Sc S : hset R) inb k dt (c c' : store R) n t (s s' : store R) i j,
  same_kind cf cf2 -> h_half cf2 = true -> h_ghost cf = true -> h_mhd cf = true -> h_three cf = false ->
  mready2 mc Sc -> h5_mesh mc -> h5_mesh m -> twice false mc m ->
  periodic_x m -> periodic_y m -> periodic_x mc -> periodic_y mc ->
  dx S = (dx Sc / 2)%R -> dy S = (dy Sc / 2)%R -> (dx Sc <> 0)%R -> (dy Sc <> 0)%R ->
  execs inb c (mgodunov2 mc Sc dt V0 (in_array k) (out_array k)) c' ->
  loaded cf2 m (h5_save cf mc (fun i j _ v => c' (L2 (out_array k) i j v)) n t) A_U s s' ->
  i = nx m + gw m - 1 -> gw m <= j < ny m + gw m - 2 ->
  let u' := field_of (out_array k) c' in let q := parent (gw m) j in
  divB S (extend m (field_of A_U s')) i j =
  (divB Sc (extend mc u') (parent (gw m) i) q + (u' (gw m) q IA - c (L2 (in_array k) (gw m) q IA)) / dx Sc)%R.
Proof.
  intros cf cf2 mc m Sc S inb k dt c c' n t s s' i j K Hh Hgh Hmh H2 HR Hmc Hm Hw P1 P2 P3 P4 Sx Sy Zx Zy HX HL Ei Hj u' q.
  pose proof HR as (Hwd & Hg & Hn & Hs & Hr). pose proof Hw as (W1 & W2 & _ & W4 & _).
  apply execs_app in HX. destruct HX as (c1 & X1 & X2).
  pose proof (mprefix_ready mc Sc inb Hwd Hn _ _ (io_buffers k) c c1 X1) as HP.
  destruct (mscheme_V0 mc Sc dt inb Hs Hr Hg _ _ (io_buffers k) _ c1 c' HP X2) as (A & B).
  assert (Hx0 : 0 < nx mc) by (destruct Hwd as (_ & _ & (? & _) & _); lia).
  rewrite (started_divergence cf cf2 mc m Sc S (fun i j _ v => c' (L2 (out_array k) i j v)) n t s s' K Hh Hgh Hmh H2 Hmc Hm ltac:(lia) Hw Hn HL);
    auto 6; [|unfold phys2, physical; lia].
  fold u'. fold q. replace (i =? nx m + gw m - 1) with true by lia. replace (j =? ny m + gw m - 1) with false by lia.
  replace (j =? ny m + gw m - 2) with false by lia.
  change (fun i0 j0 v : Z => c' (L2 (out_array k) i0 j0 v)) with u'.
  assert (Hq : physical (ny mc) (gw mc) q) by (unfold physical, q, parent; lia).
  rewrite (B (nx mc + gw m) q IA); [|unfold cell2, isize, jsize, physical in *; lia|unfold phys2, physical; lia|unfold IA; lia].
  rewrite periodic_right by (auto; lia). rewrite W4.
  unfold u', field_of, L2. field. auto.
Qed.
Print Assumptions C34_stale_ghosts_refuted.

(** Without the ghosts in the file the last face of each row that cuts a coarse
    cell is read from memory that was never written: the value is arbitrary. *)
Theorem C34_no_ghosts_refuted :
  forall (T : Type) (N : Num T) cf cf2 mc m (U : Z -> Z -> Z -> Z -> T) n t a (s : store T) i j k x,
  same_kind cf cf2 -> h_half cf2 = true -> h_ghost cf = false -> h_mhd cf = true ->
  h5_mesh mc -> h5_mesh m -> 2 <= gw m -> 0 < nx mc -> twice (h_three cf) mc m -> nbvar mc = 8 ->
  i = nx m + gw m - 1 -> phys_cell (h_three cf) m i j k ->
  exists s', loaded cf2 m (h5_save cf mc U n t) a s s' /\ s' (mkloc a i j k IA) = x.
Proof.
  intros T N cf cf2 mc m U n t a s i j k x K Hh Hgh Hmh Hmc Hm Hg Hnx Hw Hn Ei Hp.
  assert (EV : all_vars cf = 8) by (unfold all_vars; rewrite Hmh; reflexivity).
  destruct (load_half cf cf2 mc m U n t K Hh Hmc Hm Hw ltac:(lia)) as (h & A & B).
  destruct (B IA ltac:(unfold IA; lia)) as (dv & C & D & F).
  assert (Hc : any_cell (h_three cf) m i j k).
  { destruct Hm as (? & ? & ? & ?). destruct Hp as (? & ? & Hk). unfold any_cell, isize, jsize, ksize. destruct (h_three cf); lia. }
  assert (E : h (addr cf2 m i j k IA) = None).
  { rewrite F by exact Hc. unfold half_reads. rewrite Z.eqb_refl, half_odd, !half_parent.
    destruct Hw as (W1 & W2 & W3 & W4 & W5). pose proof Hp as (Hi & Hj & Hk).
    pose proof (Zmod_odd (i - gw m)) as HO. replace (Z.odd (i - gw m)) with true by (destruct (Z.odd _); [reflexivity|lia]).
    cbn [negb map].
    assert (Ed : dv (parent (gw m) i + 1 + (nx m / 2 + 2 * gw m) * parent (gw m) j +
       (nx m / 2 + 2 * gw m) * (ny m / 2 + 2 * gw m) * parent (gz cf2 m) k) = None).
    { destruct K as (K1 & _). apply D.
      - unfold parent, isize. lia.
      - unfold parent, jsize. destruct Hmc as (? & ? & ? & ?). lia.
      - unfold parent, gz, ksize. rewrite <- K1. destruct Hmc as (? & ? & ? & ?). destruct (h_three cf); [specialize (W3 eq_refl)|]; lia.
      - unfold on_file. rewrite Hgh. unfold parent. lia. }
    rewrite Ed. match goal with |- mean [?o; None] = None => destruct o; reflexivity end. }
  exists (fun l => if arr_eq_dec (la l) a then match h (addr cf2 m (li l) (lj l) (lk l) (lv l)) with Some y => y | None => x end else s l).
  split.
  - exists h. split; [exact A|]. split.
    + intros i' j' k' v _ _ _ _ y Hy. cbn [la li lj lk lv]. destruct (arr_eq_dec a a); [|congruence]. rewrite Hy. reflexivity.
    + intros l Hl. destruct (arr_eq_dec (la l) a); congruence.
  - cbn [la li lj lk lv]. destruct (arr_eq_dec a a); [|congruence]. rewrite E. reflexivity.
Qed.
Print Assumptions C34_no_ghosts_refuted.

(** Density, momenta and energy are copied but the magnetic field at the centre of
    a fine cell is not that of its parent: pressures differ.  Coarse cell with
    rho = 1, at rest, E = 17/4, Bx = 0 and 4 on its faces: magnetic energy 2,
    gamma = 5/3, pressure 3/2; in its left half Bx = 0 and 2, pressure 5/2. *)
Theorem C34_pressure_refuted :
  exists (S : hset R) (U : Z -> Z -> Z -> Z -> R) i j,
  let uc := fun i j v => U i j 0 v in let uf := fun i j v => upscaled false 3 U i j 0 v in
  (0 < smallr S)%R /\ (0 < smallp S)%R /\ (mp (mQ S uf i j) - mp (mQ S uc (parent 3 i) (parent 3 j)) = 1)%R.
Proof.
  set (S := derive (5 / 3)%R (1 / 10000000000)%R (1 / 100000)%R 1%R (1 / 2)%R R_HLLD 1%R 1%R 1%R).
  set (U := fun i (_ _ : Z) v => (if v =? ID then 1 else if v =? IP then 17 / 4 else if v =? IA then (if (i =? 4)%Z then 4 else 0) else 0)%R).
  exists S, U, 3, 3. cbv zeta.
  assert (Hp : (0 < smallp S < 1 / 1000)%R) by (unfold S, derive, smallp; Rn; lra).
  assert (Hr : (0 < smallr S < 1 / 1000)%R) by (unfold S, derive, smallr; Rn; lra).
  split; [lra|]. split; [lra|].
  assert (EF : mQ S (fun i j v => upscaled false 3 U i j 0 v) 3 3 =
     prim_mhd S (mkms 1 (17 / 4) 0 0 0 0 0 0)%R ((0 + 4) / 2)%R ((0 + 0) / 2)%R 0%R) by reflexivity.
  assert (EC : mQ S (fun i j v => U i j 0 v) (parent 3 3) (parent 3 3) =
     prim_mhd S (mkms 1 (17 / 4) 0 0 0 0 0 0)%R 4%R 0%R 0%R) by reflexivity.
  rewrite EF, EC. unfold prim_mhd. cbn [mp md mu mv mw ma mb mc]. unfold nhalf, n1, n2. Rn.
  change (gamma0 S) with (5 / 3)%R. rewrite (Rmax_left 1 (smallr S)) by lra.
  rewrite !Rmax_left by lra. lra.
Qed.
Print Assumptions C34_pressure_refuted.

(** ** Cases meeting the hypotheses *)
Definition ex_coarse : mesh := mkmesh 2 2 1 3 8 true (fun _ => 3).
Definition ex_fine : mesh := mkmesh 4 4 2 3 8 true (fun _ => 3).
Definition ex_h5_save : h5conf := mkh5conf false true true false LayoutLeft.
Definition ex_h5_up : h5conf := mkh5conf false true true true LayoutRight.

Example C34_case :
  same_kind ex_h5_save ex_h5_up /\ h_half ex_h5_up = true /\ h5_mesh ex_coarse /\ h5_mesh ex_fine /\
  twice false ex_coarse ex_fine /\ nbvar ex_coarse = all_vars ex_h5_save /\
  periodic_x ex_fine /\ periodic_y ex_fine /\ periodic_x ex_coarse /\ periodic_y ex_coarse /\
  any_cell false ex_fine 6 5 0 /\ half_reads ex_h5_up ex_fine IA 6 5 0 = [36; 37] /\
  upscaled false 3 (fun i j _ v => IZR (i * i)) 4 3 0 IA = (25 / 2)%R.
Proof.
  repeat apply conj; try reflexivity; try (cbn; lia); try (unfold h5_mesh; cbn; lia); try (intros; discriminate).
  change (ndiv (nadd (IZR 9) (IZR 16)) (nZ 2) = (25 / 2)%R). Rn. lra.
Qed.
