(** * 2D MHD: magnetic divergence, conservation, uniform states, translations *)
From Coq Require Import ZArith List Bool Lia ZifyBool Reals Lra.
Import ListNotations.
From Verif Require Import Num Exec ExecFacts Grid GridFacts Boundaries BoundariesSpec
  HydroNum Kernels KernelFacts Hydro2D Hydro2DSpec Hydro2DFacts Hydro2DStep Hydro2DRun
  Sums HydroPhysics Hydro2DLaws MhdNum Mhd2D Mhd2DSpec MhdFacts Mhd2DFacts Mhd2DStep Mhd2DRun.
Local Open Scope Z_scope.

(** Discrete divergence of the face-centred field: IA lives on the lower x face of
    the cell, IB on its lower y face. *)
Definition divB (S : hset R) (u : field2 R) (i j : Z) : R :=
  ((u (i + 1)%Z j IA - u i j IA) / dx S + (u i (j + 1)%Z IB - u i j IB) / dy S)%R.

(** A field updated by Faraday's law with some electromotive force. *)
Definition faraday (S : hset R) (dt : R) (emf : Z -> Z -> R) (u u' : field2 R) (i j : Z) : Prop :=
  u' i j IA = (u i j IA + (emf i (j + 1)%Z - emf i j) * (dt / dy S))%R /\
  u' i j IB = (u i j IB - (emf (i + 1)%Z j - emf i j) * (dt / dx S))%R.

(** Whatever the electromotive force, the divergence of a cell is unchanged when the
    lower faces of the cell and of its right and upper neighbours are updated. *)
Lemma faraday_divB S dt emf u u' i j :
  faraday S dt emf u u' i j -> faraday S dt emf u u' (i + 1) j -> faraday S dt emf u u' i (j + 1) ->
  divB S u' i j = divB S u i j.
Proof.
  intros (A0 & B0) (A1 & _) (_ & B1). unfold divB. rewrite A0, A1, B0, B1. unfold Rdiv. ring.
Qed.

Section Periodic.
Context {T : Type} {N : Num T}.
Variable m : mesh.
Variable S : hset T.
Variable dt : T.
Hypothesis Hwide : wide2 m.
Hypothesis Hgw : 3 <= gw m.

(** On a periodic axis the quantities at the two ends coincide. *)
Lemma mQ_period_x u i j : periodic_x m -> 0 <= i -> i + 1 < 2 * gw m ->
  mQ S (extend m u) (i + nx m) j = mQ S (extend m u) i j.
Proof.
  intros HP Hi Hi'. apply mQ_ext. intros.
  replace (i + nx m + di) with (i + di + nx m) by lia. apply extend_period_x; auto; lia.
Qed.
Lemma mQ_period_y u i j : periodic_y m -> 0 <= j -> j + 1 < 2 * gw m ->
  mQ S (extend m u) i (j + ny m) = mQ S (extend m u) i j.
Proof.
  intros HP Hi Hi'. apply mQ_ext. intros.
  replace (j + ny m + dj) with (j + dj + ny m) by lia. apply extend_period_y; auto; lia.
Qed.

Let Q u := mQ S (extend m u).

Lemma mFX_periodic u j : periodic_x m ->
  mFX S dt (Q u) (extend m u) (gw m + nx m) j = mFX S dt (Q u) (extend m u) (gw m) j.
Proof.
  intros HP. apply mFX_ext; intros; replace (gw m + nx m + di) with (gw m + di + nx m) by lia.
  - apply mQ_period_x; auto; lia.
  - apply extend_period_x; auto; lia.
Qed.
Lemma mFY_periodic u i : periodic_y m ->
  mFY S dt (Q u) (extend m u) i (gw m + ny m) = mFY S dt (Q u) (extend m u) i (gw m).
Proof.
  intros HP. apply mFY_ext; intros; replace (gw m + ny m + dj) with (gw m + dj + ny m) by lia.
  - apply mQ_period_y; auto; lia.
  - apply extend_period_y; auto; lia.
Qed.
Lemma mE_periodic_x u j : periodic_x m ->
  mE S dt (Q u) (extend m u) (gw m + nx m) j = mE S dt (Q u) (extend m u) (gw m) j.
Proof.
  intros HP. apply mE_ext; intros; replace (gw m + nx m + di) with (gw m + di + nx m) by lia.
  - apply mQ_period_x; auto; lia.
  - apply extend_period_x; auto; lia.
Qed.
Lemma mE_periodic_y u i : periodic_y m ->
  mE S dt (Q u) (extend m u) i (gw m + ny m) = mE S dt (Q u) (extend m u) i (gw m).
Proof.
  intros HP. apply mE_ext; intros; replace (gw m + ny m + dj) with (gw m + dj + ny m) by lia.
  - apply mQ_period_y; auto; lia.
  - apply extend_period_y; auto; lia.
Qed.
End Periodic.

Section Div.
Variable m : mesh.
Variable S : hset R.
Hypothesis Hwide : wide2 m.
Hypothesis Hgw : 3 <= gw m.

(** The neighbour above is physical, or the axis wraps around. *)
Definition has_right (i : Z) : Prop := physical (nx m) (gw m) (i + 1) \/ periodic_x m.
Definition has_above (j : Z) : Prop := physical (ny m) (gw m) (j + 1) \/ periodic_y m.

Section Step.
Variable dt : R.
Variable u : field2 R.
Let U := extend m u.
Let E := mE S dt (mQ S U) U.
Let u' := mstep2 S dt U.

Lemma mstep_faraday_phys i j : phys2 m i j -> faraday S dt E U (extend m u') i j.
Proof. intros Hp. unfold faraday. rewrite !(extend_phys m u') by auto. split; reflexivity. Qed.

(** On the ghost face closing a periodic axis the law holds too. *)
Lemma mstep_faraday_right j : periodic_x m -> physical (ny m) (gw m) j ->
  extend m u' (gw m + nx m)%Z j IA = (U (gw m + nx m)%Z j IA +
    (E (gw m + nx m)%Z (j + 1)%Z - E (gw m + nx m)%Z j) * (dt / dy S))%R.
Proof.
  intros HP Hj. destruct (periodic_x_wide m Hwide ltac:(lia) HP).
  assert (EP : forall k, E (gw m + nx m) k = E (gw m) k) by (intros; apply mE_periodic_x; auto).
  rewrite !EP. unfold U at 1. rewrite !extend_period_x by (auto; lia).
  destruct (mstep_faraday_phys (gw m) j) as [A _]; [unfold phys2, physical in *; lia|]. exact A.
Qed.
Lemma mstep_faraday_above i : periodic_y m -> physical (nx m) (gw m) i ->
  extend m u' i (gw m + ny m)%Z IB = (U i (gw m + ny m)%Z IB -
    (E (i + 1)%Z (gw m + ny m)%Z - E i (gw m + ny m)%Z) * (dt / dx S))%R.
Proof.
  intros HP Hj. destruct (periodic_y_wide m Hwide ltac:(lia) HP).
  assert (EP : forall k, E k (gw m + ny m) = E k (gw m)) by (intros; apply mE_periodic_y; auto).
  rewrite !EP. unfold U at 1. rewrite !extend_period_y by (auto; lia).
  destruct (mstep_faraday_phys i (gw m)) as [_ A]; [unfold phys2, physical in *; lia|]. exact A.
Qed.

Lemma mstep_divB i j : phys2 m i j -> has_right i -> has_above j ->
  divB S (extend m u') i j = divB S U i j.
Proof.
  intros [Hi Hj] HR HA. unfold divB.
  destruct (mstep_faraday_phys i j (conj Hi Hj)) as [A0 B0]. rewrite A0, B0.
  assert (A1 : extend m u' (i + 1) j IA = (U (i + 1)%Z j IA + (E (i + 1)%Z (j + 1)%Z - E (i + 1)%Z j) * (dt / dy S))%R).
  { unfold has_right, has_above, physical in *. destruct (Z.eq_dec (i + 1) (gw m + nx m)) as [Heq|Hne]; [rewrite Heq|].
    - apply mstep_faraday_right; [destruct HR; [lia|auto]|unfold physical; lia].
    - apply mstep_faraday_phys. unfold phys2, physical. lia. }
  assert (B1 : extend m u' i (j + 1) IB = (U i (j + 1)%Z IB - (E (i + 1)%Z (j + 1)%Z - E i (j + 1)%Z) * (dt / dx S))%R).
  { unfold has_right, has_above, physical in *. destruct (Z.eq_dec (j + 1) (gw m + ny m)) as [Heq|Hne]; [rewrite Heq|].
    - apply mstep_faraday_above; [destruct HA; [lia|auto]|unfold physical; lia].
    - apply mstep_faraday_phys. unfold phys2, physical. lia. }
  rewrite A1, B1. unfold Rdiv. ring.
Qed.
End Step.

Lemma divB_ext u1 u2 i j : msame m u1 u2 -> phys2 m i j ->
  divB S (extend m u1) i j = divB S (extend m u2) i j.
Proof.
  intros He [Hi Hj]. unfold physical in *. unfold divB.
  rewrite !(mextend_ext m Hwide u1 u2) by (auto; unfold cell2, IA, IB; lia). reflexivity.
Qed.

Lemma mrun_divB dts : forall u i j, phys2 m i j -> has_right i -> has_above j ->
  divB S (extend m (mrun_spec m S dts u)) i j = divB S (extend m u) i j.
Proof.
  induction dts as [|dt dts IH]; intros u i j Hp HR HA; cbn [mrun_spec]; auto.
  rewrite IH by auto. apply mstep_divB; auto.
Qed.

(** ** Totals on a periodic domain *)
Lemma mtotal_ext u1 u2 v : 0 <= v < 8 -> msame m u1 u2 -> total2 m u1 v = total2 m u2 v.
Proof.
  intros Hv H. unfold total2. apply sumz_ext. intros i Hi. apply sumz_ext. intros j Hj.
  apply H; auto. unfold phys2, physical. lia.
Qed.

Lemma mconserve_periodic dt u v : periodic_x m -> periodic_y m ->
  total2 m (mstep2 S dt (extend m u)) v = total2 m u v.
Proof.
  intros PX PY. destruct (periodic_x_wide m Hwide ltac:(lia) PX). destruct (periodic_y_wide m Hwide ltac:(lia) PY).
  set (U := extend m u). set (FX := mFX S dt (mQ S U) U). set (FY := mFY S dt (mQ S U) U). set (E := mE S dt (mQ S U) U).
  (* every variable changes by a difference in x plus a difference in y *)
  assert (HG : exists gx gy : Z -> Z -> R,
    (forall j, gx (gw m + nx m) j = gx (gw m) j) /\ (forall i, gy i (gw m + ny m) = gy i (gw m)) /\
    forall i j, phys2 m i j -> mstep2 S dt U i j v =
      (u i j v + ((gx i j - gx (i + 1)%Z j) + (gy i j - gy i (j + 1)%Z)))%R).
  { destruct (v =? IA) eqn:EA; [|destruct (v =? IB) eqn:EB].
    - exists (fun _ _ => 0%R), (fun i j => (- E i j * (dt / dy S))%R).
      split; [reflexivity|]. split.
      + intros i. unfold E, U. rewrite mE_periodic_y by auto. reflexivity.
      + intros i j Hp. unfold mstep2, mbalance. rewrite EA. fold E. unfold U. rewrite extend_phys by auto.
        replace v with IA by lia. Rn. ring.
    - exists (fun i j => (E i j * (dt / dx S))%R), (fun _ _ => 0%R).
      split; [|split; [reflexivity|]].
      + intros j. unfold E, U. rewrite mE_periodic_x by auto. reflexivity.
      + intros i j Hp. unfold mstep2, mbalance. rewrite EA, EB. fold E. unfold U. rewrite extend_phys by auto.
        replace v with IB by lia. Rn. ring.
    - exists (fun i j => (mget (FX i j) v * (dt / dx S))%R), (fun i j => (mget (FY i j) v * (dt / dy S))%R).
      split; [|split].
      + intros j. unfold FX, U. rewrite mFX_periodic by auto. reflexivity.
      + intros i. unfold FY, U. rewrite mFY_periodic by auto. reflexivity.
      + intros i j Hp. unfold mstep2, mbalance. rewrite EA, EB. fold FX FY. unfold U. rewrite extend_phys by auto.
        Rn. ring. }
  destruct HG as (gx & gy & PGX & PGY & HG). unfold total2.
  rewrite (sumz_ext (gw m) (nx m) (fun i => sumz (gw m) (ny m) (fun j => mstep2 S dt U i j v))
    (fun i => (sumz (gw m) (ny m) (fun j => u i j v) +
      (sumz (gw m) (ny m) (fun j => gx i j - gx (i + 1)%Z j) + (gy i (gw m) - gy i (gw m + ny m)%Z)))%R)).
  - rewrite !sumz_add.
    rewrite (sumz_zero (gw m) (nx m) (fun i => (gy i (gw m) - gy i (gw m + ny m)%Z)%R))
      by (intros; rewrite PGY; lra).
    rewrite (sumz_swap (gw m) (nx m) (gw m) (ny m) (fun i j => (gx i j - gx (i + 1)%Z j)%R)).
    match goal with |- (_ + (?x + _))%R = _ => enough (x = 0%R) by lra end. apply sumz_zero.
    intros j Hj. rewrite (sumz_tele (gw m) (nx m) (fun i => gx i j)) by lia. rewrite PGX. lra.
  - intros i Hi. rewrite <- (sumz_tele (gw m) (ny m) (fun j => gy i j)) by lia.
    rewrite <- !sumz_add. apply sumz_ext. intros j Hj. apply HG. unfold phys2, physical. lia.
Qed.

Lemma mconserve_periodic_run dts : forall u v, periodic_x m -> periodic_y m ->
  total2 m (mrun_spec m S dts u) v = total2 m u v.
Proof.
  induction dts as [|dt dts IH]; intros u v PX PY; cbn [mrun_spec]; auto.
  rewrite IH by auto. apply mconserve_periodic; auto.
Qed.

(** ** Uniform states *)
Definition muniform (c : Z -> R) (u : field2 R) : Prop :=
  forall i j v, phys2 m i j -> 0 <= v < 8 -> u i j v = c v.
Hypothesis Hopen : forall f, kind_of (bc m f) <> Reflecting.

Lemma mextend_uniform c u i j v : muniform c u -> cell2 m i j -> 0 <= v < 8 -> extend m u i j v = c v.
Proof.
  intros HU Hc Hv. unfold extend.
  assert (F1 : mirrored_x m i = false).
  { pose proof (Hopen XMIN). pose proof (Hopen XMAX). unfold mirrored_x, mirrored.
    destruct (i <? gw m), (nx m + gw m <=? i), (kind_of (bc m XMIN)), (kind_of (bc m XMAX)); congruence. }
  assert (F2 : mirrored_y m j = false).
  { pose proof (Hopen YMIN). pose proof (Hopen YMAX). unfold mirrored_y, mirrored.
    destruct (j <? gw m), (ny m + gw m <=? j), (kind_of (bc m YMIN)), (kind_of (bc m YMAX)); congruence. }
  rewrite F1, F2. simpl. apply HU; auto. apply image_phys2; auto.
Qed.

Lemma mstep_uniform dt c u : muniform c u -> muniform c (mstep2 S dt (extend m u)).
Proof.
  intros HU i j v Hp Hv.
  rewrite (mstep2_stencil S dt (extend m u) (fun _ _ v => c v)); auto.
  - set (U := fun _ _ v => c v). unfold mstep2, mbalance.
    assert (HX : forall i j, mFX S dt (mQ S U) U i j = mFX S dt (mQ S U) U 0 0) by (intros; apply mFX_ext; reflexivity).
    assert (HY : forall i j, mFY S dt (mQ S U) U i j = mFY S dt (mQ S U) U 0 0) by (intros; apply mFY_ext; reflexivity).
    assert (HE : forall i j, mE S dt (mQ S U) U i j = mE S dt (mQ S U) U 0 0) by (intros; apply mE_ext; reflexivity).
    rewrite !(HX (i + 1) j), !(HX i j), !(HY i (j + 1)), !(HY i j), !(HE i (j + 1)), !(HE (i + 1) j), !(HE i j).
    generalize (mFX S dt (mQ S U) U 0 0), (mFY S dt (mQ S U) U 0 0), (mE S dt (mQ S U) U 0 0).
    clear HX HY HE. intros fx fy e. unfold U. clear U.
    destruct (v =? IA) eqn:EA; [|destruct (v =? IB) eqn:EB];
    [replace v with IA by lia|replace v with IB by lia|]; Rn; ring.
  - intros. apply mextend_uniform; auto. destruct Hp as [Hp1 Hp2]. unfold cell2, physical in *. lia.
Qed.

Lemma mrun_uniform dts : forall c u, muniform c u -> muniform c (mrun_spec m S dts u).
Proof. induction dts as [|dt dts IH]; intros; cbn [mrun_spec]; auto. apply IH. apply mstep_uniform; auto. Qed.
End Div.

(** ** Translations of a periodic box *)
Section Translate.
Context {T : Type} {N : Num T}.
Variable m : mesh.
Variable S : hset T.
Hypothesis Hwide : wide2 m.
Hypothesis Hgw : 3 <= gw m.
Hypothesis PX : periodic_x m.
Hypothesis PY : periodic_y m.

Lemma Hg2 : 2 <= gw m. Proof. lia. Qed.

Lemma mstep2_move dt U1 U2 i1 j1 i2 j2 v :
  (forall a b v, -2 <= a <= 3 -> -2 <= b <= 3 -> 0 <= v < 8 -> U1 (i1 + a) (j1 + b) v = U2 (i2 + a) (j2 + b) v) ->
  0 <= v < 8 -> mstep2 S dt U1 i1 j1 v = mstep2 S dt U2 i2 j2 v.
Proof.
  intros HU Hv. 
  assert (HQ : forall a b, -2 <= a <= 2 -> -2 <= b <= 2 -> mQ S U1 (i1 + a) (j1 + b) = mQ S U2 (i2 + a) (j2 + b)).
  { intros. apply mQ_ext. intros. rewrite <- !Z.add_assoc. apply HU; lia. }
  assert (H0 : forall v, 0 <= v < 8 -> U1 i1 j1 v = U2 i2 j2 v).
  { intros w Hw. specialize (HU 0 0 w). rewrite !Z.add_0_r in HU. apply HU; lia. }
  unfold mstep2, mbalance.
  assert (HX : forall a, 0 <= a <= 1 -> mFX S dt (mQ S U1) U1 (i1 + a) j1 = mFX S dt (mQ S U2) U2 (i2 + a) j2).
  { intros. apply mFX_ext; intros; rewrite <- !(Z.add_assoc _ a di); [apply HQ|apply HU]; lia. }
  assert (HY : forall a, 0 <= a <= 1 -> mFY S dt (mQ S U1) U1 i1 (j1 + a) = mFY S dt (mQ S U2) U2 i2 (j2 + a)).
  { intros. apply mFY_ext; intros; rewrite <- !(Z.add_assoc _ a dj); [apply HQ|apply HU]; lia. }
  assert (HE : forall a b, 0 <= a <= 1 -> 0 <= b <= 1 ->
     mE S dt (mQ S U1) U1 (i1 + a) (j1 + b) = mE S dt (mQ S U2) U2 (i2 + a) (j2 + b)).
  { intros. apply mE_ext; intros; rewrite <- !(Z.add_assoc _ a di), <- !(Z.add_assoc _ b dj); [apply HQ|apply HU]; lia. }
  pose proof (HX 0 ltac:(lia)) as X0. pose proof (HX 1 ltac:(lia)) as X1.
  pose proof (HY 0 ltac:(lia)) as Y0. pose proof (HY 1 ltac:(lia)) as Y1.
  pose proof (HE 0 0 ltac:(lia) ltac:(lia)) as E0. pose proof (HE 1 0 ltac:(lia) ltac:(lia)) as E1.
  pose proof (HE 0 1 ltac:(lia) ltac:(lia)) as E2.
  rewrite ?Z.add_0_r in X0. rewrite ?Z.add_0_r in Y0. rewrite ?Z.add_0_r in E0.
  rewrite ?Z.add_0_r in E1. rewrite ?Z.add_0_r in E2.
  rewrite X0, X1, Y0, Y1, E0, E1, E2. rewrite !H0 by (unfold IA, IB; lia). reflexivity.
Qed.

Lemma mstep_per dt u i j v : phys2 m i j -> 0 <= v < 8 ->
  mstep2 S dt (extend m u) i j v = mstep2 S dt (per m u) i j v.
Proof.
  intros [Hi Hj] Hv. unfold physical in *. apply mstep2_stencil; auto.
  intros. apply extend_per; auto using Hg2. unfold cell2. lia.
Qed.

Lemma mstep_per_wrap dt u i j v : 0 <= v < 8 ->
  mstep2 S dt (per m u) i j v = mstep2 S dt (per m u) (wrap_x m i) (wrap_y m j) v.
Proof.
  intros Hv. apply mstep2_move; auto. intros. unfold per.
  rewrite wrap_x_add, wrap_y_add by auto using Hg2. reflexivity.
Qed.

Lemma mstep_translate dt (u : field2 T) a b :
  msame m (mstep2 S dt (extend m (shift2 m a b u))) (shift2 m a b (mstep2 S dt (extend m u))).
Proof.
  intros i j v Hp Hv. rewrite (mstep_per dt (shift2 m a b u)) by assumption.
  unfold shift2 at 2. rewrite mstep_per; [|split|exact Hv].
  - rewrite <- mstep_per_wrap by auto. apply mstep2_move; [|exact Hv]. intros.
    rewrite per_shift by auto using Hg2. f_equal; lia.
  - apply wrap_x_phys; auto using Hg2.
  - apply wrap_y_phys; auto using Hg2.
Qed.

Lemma mshift_ext a b (u1 u2 : field2 T) : msame m u1 u2 -> msame m (shift2 m a b u1) (shift2 m a b u2).
Proof. intros H i j v Hp Hv. apply H; auto. split; [apply wrap_x_phys | apply wrap_y_phys]; auto using Hg2. Qed.

Lemma mrun_translate dts : forall (u : field2 T) a b,
  msame m (mrun_spec m S dts (shift2 m a b u)) (shift2 m a b (mrun_spec m S dts u)).
Proof.
  induction dts as [|dt dts IH]; intros u a b; cbn [mrun_spec].
  - intros i j v _ _. reflexivity.
  - intros i j v Hp Hv. rewrite <- IH by auto.
    apply mrun_spec_ext; auto. apply mstep_translate; auto.
Qed.
End Translate.
