(** * 3D MHD settings for which a flux or slope is never computed *)
From Coq Require Import ZArith List Bool Lia ZifyBool.
Import ListNotations.
From Verif Require Import Num Exec ExecFacts Grid GridFacts Boundaries BoundariesSpec
  BoundariesFacts BoundariesFill HydroNum Kernels KernelFacts Hydro2D Hydro2DSpec
  Hydro2DFacts Hydro2DRun Hydro3D Hydro3DFacts Hydro3DRun Doomed
  MhdNum Mhd2D Mhd2DSpec Mhd2DFacts Mhd2DDoomed Mhd3DNum Mhd3D Mhd3DRun.
Local Open Scope Z_scope.

Section Doom.
Context {T : Type} {N : Num T}.
Variable m : mesh.
Variable S : hset T.
Variable dt : T.
Hypothesis Hwide : wide3 m.
Hypothesis Hgw : 3 <= gw m.
Hypothesis Hnv : nbvar m = 8.
Variables ain aout : arr.
Hypothesis Hb : buffers ain aout.

Let inb (iv : impl) := alloc3d m (mnv3 m iv).

Lemma n3 : 1 <= nx m /\ 1 <= ny m /\ 1 <= nz m.
Proof. pose proof Hwide as ((_ & _ & (A & _) & _ & (B & _) & _) & (C & _) & _). auto. Qed.

(** A step with an inevitably failing item after kernels that complete. *)
Lemma unsafe_mscheme3 iv s Ks1 K Ks2 p :
  mscheme3 m S dt iv ain aout = Ks1 ++ K :: Ks2 ->
  Forall (Forall (in_foot (inb iv))) Ks1 ->
  In p K -> doomed (inb iv) p ->
  ~ safes (inb iv) s (mgodunov3 m S dt iv ain aout).
Proof.
  intros E Hrun Hin Hd HS. unfold mgodunov3 in HS.
  destruct (in_foot_execs _ _ s (mprefix3_in_foot m S Hwide Hnv ain aout Hb iv)) as [s1 H1].
  pose proof (safes_app _ _ _ _ _ HS H1) as HS1. rewrite E in HS1.
  destruct (in_foot_execs _ _ s1 Hrun) as [s2 H2].
  pose proof (safes_app _ _ _ _ _ HS1 H2) as HS2. inversion HS2; subst.
  eapply doomed_unsafe; eauto.
Qed.

Lemma at_gw3 : In (gw m, gw m, gw m) (cells3 m) /\ upto_face3 m (gw m) (gw m) (gw m) = true.
Proof.
  pose proof n3. split.
  - apply in_range3. unfold isize, jsize, ksize. lia.
  - unfold upto_face3, isize, jsize, ksize. lia.
Qed.

Ltac inside := intros; unfold lo3, hi3; apply alloc3_ok; cbn [mnv3 ox oy oz parr bcomp icomp sarr3];
  unfold IA, IB, IC, IX, IY, IZ; pose proof n3; lia.

(** slope_type other than 1 and 2, in particular 0 (first order), leaves the slopes
    of version 2 undefined. *)
Theorem no_slope_unsafe3 s : ~ mslope_ok S ->
  ~ safes (inb V2) s (mgodunov3 m S dt V2 ain aout).
Proof.
  intros Hs. destruct at_gw3 as (Hin & Hg).
  assert (HF : (neqb (slope_type S) n1 || neqb (slope_type S) n2) = false)
    by (unfold mslope_ok in Hs; destruct (_ || _); [exfalso; apply Hs; reflexivity|reflexivity]).
  apply (unsafe_mscheme3 V2 s [] _ [_; _; _; _; _; _; _; _; _] (mslopes_item3 m S ain (gw m, gw m, gw m)) eq_refl); auto.
  - apply in_map. auto.
  - unfold mslopes_item3.
    replace (_ && _ && _ && _ && _ && _) with true by (unfold isize, jsize, ksize; pose proof n3; lia).
    apply doomed_rdm; [inside|intros]. unfold mslope_dir3.
    repeat (apply doomed_rdm; [inside|intros]). unfold mslope_dir. rewrite HF. exact Logic.I.
Qed.

(** riemann=approx (the default) and riemann=hllc compute no MHD flux. *)
Theorem no_flux_unsafe3 iv s : solver S = R_APPROX \/ solver S = R_HLLC ->
  ~ safes (inb iv) s (mgodunov3 m S dt iv ain aout).
Proof.
  intros Hr. destruct at_gw3 as (Hin & Hg).
  assert (HN : forall ql qr, riemann_mhd S ql qr = None) by (intros; unfold riemann_mhd; destruct Hr as [-> | ->]; reflexivity).
  assert (Hain : mnv3 m iv ain = 8) by (destruct Hb as [[-> ->]|[-> ->]]; simpl; auto).
  assert (HD : forall k, iv <> V2 -> doomed (inb iv) (mflux_dir3 S DX (gw m) (gw m) (gw m) k)).
  { intros k Hiv. unfold mflux_dir3. destruct iv; try congruence;
    (apply doomed_rdm; [inside|intros]; apply doomed_rdm; [inside|intros]; rewrite HN; exact Logic.I). }
  destruct iv.
  - apply (unsafe_mscheme3 V0 s [_; _; _] _ [_; _; _] (mfluxes_item3 m S (gw m, gw m, gw m)) eq_refl).
    + repeat (apply Forall_cons || apply Forall_nil).
      * apply melec3_in_foot with (aout := aout); auto.
      * apply mmag3_in_foot with (aout := aout); auto; discriminate.
      * apply mtrace3_in_foot with (aout := aout); auto; discriminate.
    + apply in_map. auto.
    + unfold mfluxes_item3. rewrite Hg. apply HD. discriminate.
  - apply (unsafe_mscheme3 V1 s [_; _; _] _ [_] (mfluxes_update_item3 m S dt aout (gw m, gw m, gw m)) eq_refl).
    + repeat (apply Forall_cons || apply Forall_nil).
      * apply melec3_in_foot with (aout := aout); auto.
      * apply mmag3_in_foot with (aout := aout); auto; discriminate.
      * apply mtrace3_in_foot with (aout := aout); auto; discriminate.
    + apply in_map. auto.
    + unfold mfluxes_update_item3. rewrite Hg. apply HD. discriminate.
  - destruct (neqb (slope_type S) n1 || neqb (slope_type S) n2) eqn:Hs.
    2:{ apply no_slope_unsafe3. unfold mslope_ok. rewrite Hs. discriminate. }
    apply (unsafe_mscheme3 V2 s [_; _; _; _] _ [_; _; _; _; _] (mflux_dir_item3 m S dt DX ain aout (gw m, gw m, gw m)) eq_refl).
    + repeat (apply Forall_cons || apply Forall_nil).
      * apply mslopes3_in_foot with (aout := aout); auto.
      * apply mhalf3_in_foot with (aout := aout); auto.
      * apply melec3_in_foot with (aout := aout); auto.
      * apply msface3_in_foot with (ain := ain) (aout := aout); auto.
    + apply in_map. auto.
    + unfold mflux_dir_item3. rewrite Hg. cbv zeta. apply doomed_rdm; [inside|intros]. apply doomed_rdm; [inside|intros].
      cbn [doomed]. split; [inside|intros]. split; [inside|intros].
      apply doomed_rdm; [inside|intros]. apply doomed_rdm; [inside|intros]. rewrite HN. exact Logic.I.
Qed.
End Doom.
