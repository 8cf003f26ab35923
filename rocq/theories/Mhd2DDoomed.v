(** * 2D MHD settings for which a flux or slope is never computed *)
From Coq Require Import ZArith List Bool Lia ZifyBool.
Import ListNotations.
From Verif Require Import Num Exec ExecFacts Grid GridFacts Boundaries BoundariesSpec
  BoundariesFacts BoundariesFill HydroNum Kernels KernelFacts Hydro2D Hydro2DSpec
  Hydro2DFacts Hydro2DRun Doomed MhdNum Mhd2D Mhd2DSpec Mhd2DFacts Mhd2DRun.
Local Open Scope Z_scope.

Section Doom.
Context {T : Type} {N : Num T}.

Lemma doomed_rdm inb (L : Z -> loc) (k : ms T -> prog T) :
  (forall v, 0 <= v < 8 -> inb (L v) = true) -> (forall q, doomed inb (k q)) -> doomed inb (rdm L k).
Proof.
  intros Hb Hk. unfold rdm. simpl.
  repeat (split; [apply Hb; unfold ID, IP, IU, IV, IW, IA, IB, IC; lia|intros ?]). apply Hk.
Qed.

Lemma doomed_rdb inb (L : Z -> loc) (k : bf T -> prog T) :
  (forall v, 0 <= v < 8 -> inb (L v) = true) -> (forall q, doomed inb (k q)) -> doomed inb (rdb L k).
Proof.
  intros Hb Hk. unfold rdb. simpl.
  repeat (split; [apply Hb; unfold ID, IP, IU, IV, IW, IA, IB, IC; lia|intros ?]). apply Hk.
Qed.

Lemma doomed_rds {X V} inb (rd : X -> (V -> prog T) -> prog T) l :
  (forall c k, In c l -> (forall x, doomed inb (k x)) -> doomed inb (rd c k)) ->
  forall k, (forall xs, doomed inb (k xs)) -> doomed inb (rds rd l k).
Proof.
  induction l as [|c cs IH]; intros Hrd k Hk; cbn [rds]; [apply Hk|].
  apply Hrd; [left; reflexivity|]. intros x. apply IH; [|intros; apply Hk].
  intros. apply Hrd; [right; assumption|assumption].
Qed.

Variable m : mesh.
Variable S : hset T.
Variable dt : T.
Hypothesis Hwide : wide2 m.
Hypothesis Hgw : 3 <= gw m.
Hypothesis Hnv : nbvar m = 8.
Variables ain aout : arr.
Hypothesis Hb : buffers ain aout.

Let inb (iv : impl) := alloc2d m (mnv2 m iv).

Lemma mnx1 : 1 <= nx m. Proof. pose proof Hwide as (_ & _ & (A & _) & _). exact A. Qed.
Lemma mny1 : 1 <= ny m. Proof. pose proof Hwide as (_ & _ & _ & _ & (A & _) & _). exact A. Qed.

(** A step with an inevitably failing item after kernels that complete. *)
Lemma unsafe_mscheme iv s Ks1 K Ks2 p :
  mscheme2 m S dt iv ain aout = Ks1 ++ K :: Ks2 ->
  Forall (Forall (in_foot (inb iv))) Ks1 ->
  In p K -> doomed (inb iv) p ->
  ~ safes (inb iv) s (mgodunov2 m S dt iv ain aout).
Proof.
  intros E Hrun Hin Hd HS. unfold mgodunov2 in HS.
  destruct (in_foot_execs _ _ s (mprefix_in_foot m S Hwide Hnv ain aout Hb iv)) as [s1 H1].
  pose proof (safes_app _ _ _ _ _ HS H1) as HS1. rewrite E in HS1.
  destruct (in_foot_execs _ _ s1 Hrun) as [s2 H2].
  pose proof (safes_app _ _ _ _ _ HS1 H2) as HS2. inversion HS2; subst.
  eapply doomed_unsafe; eauto.
Qed.

Lemma at_gw : In (gw m, gw m) (cells2 m) /\ upto_face2 m (gw m) (gw m) = true /\ trace_range2 m (gw m) (gw m) = true.
Proof.
  pose proof mnx1. pose proof mny1. repeat split.
  - apply in_range2. unfold isize, jsize. lia.
  - unfold upto_face2, isize, jsize. lia.
  - unfold trace_range2, isize, jsize. lia.
Qed.

Ltac inside := intros; apply alloc2_ok; cbn [mnv2]; unfold IA, IB, IX, IY; pose proof mnx1; pose proof mny1; lia.

(** riemann=approx (the default) and riemann=hllc compute no MHD flux. *)
Theorem no_flux_unsafe iv s : mslope_ok S -> solver S = R_APPROX \/ solver S = R_HLLC ->
  ~ safes (inb iv) s (mgodunov2 m S dt iv ain aout).
Proof.
  intros Hs Hr. destruct at_gw as (Hin & Hg & _).
  assert (HN : forall ql qr, riemann_mhd S ql qr = None) by (intros; unfold riemann_mhd; destruct Hr as [-> | ->]; reflexivity).
  assert (Hain : mnv2 m iv ain = 8) by (destruct Hb as [[-> ->]|[-> ->]]; simpl; auto).
  destruct iv.
  - apply (unsafe_mscheme V0 s [_] _ [_; _; _] (mfluxes_item2 m S (gw m, gw m)) eq_refl).
    + constructor; [|constructor]. apply (mtrace_in_foot m S dt) with (aout := aout); auto. discriminate.
    + apply in_map. auto.
    + unfold mfluxes_item2. rewrite Hg. repeat (apply doomed_rdm; [inside|intros]). rewrite HN. exact Logic.I.
  - apply (unsafe_mscheme V1 s [_] _ [_] (mfluxes_update_item2 m S dt aout (gw m, gw m)) eq_refl).
    + constructor; [|constructor]. apply (mtrace_in_foot m S dt) with (aout := aout); auto. discriminate.
    + apply in_map. auto.
    + unfold mfluxes_update_item2. rewrite Hg. repeat (apply doomed_rdm; [inside|intros]). rewrite HN. exact Logic.I.
  - apply (unsafe_mscheme V2 s [_; _; _; _] _ [_; _] (mflux_dir_item2 m S dt true ain aout (gw m, gw m)) eq_refl).
    + constructor; [apply mslopes_in_foot with (aout := aout); auto|]. apply mhalf_in_foot with (aout := aout); auto.
    + apply in_map. auto.
    + unfold mflux_dir_item2. rewrite Hg. cbv zeta. apply doomed_rdm; [inside|intros]. apply doomed_rdm; [inside|intros].
      cbn [doomed]. split; [inside|intros]. split; [inside|intros].
      apply doomed_rdm; [inside|intros]. apply doomed_rdm; [inside|intros]. rewrite HN. exact Logic.I.
Qed.

(** slope_type other than 1 and 2, in particular 0 (first order), leaves the slopes undefined. *)
Theorem no_slope_unsafe iv s : ~ mslope_ok S ->
  ~ safes (inb iv) s (mgodunov2 m S dt iv ain aout).
Proof.
  intros Hs. destruct at_gw as (Hin & Hg & Ht).
  assert (Hain : mnv2 m iv ain = 8) by (destruct Hb as [[-> ->]|[-> ->]]; simpl; auto).
  assert (HF : (neqb (slope_type S) n1 || neqb (slope_type S) n2) = false)
    by (unfold mslope_ok in Hs; destruct (_ || _); [exfalso; apply Hs; reflexivity|reflexivity]).
  assert (HT : iv <> V2 -> doomed (inb iv) (mtrace_item2 m S dt ain (gw m, gw m))).
  { intros Hiv. unfold mtrace_item2. rewrite Ht.
    apply doomed_rds; [|intros qs; apply doomed_rds; [|intros bs]].
    - intros c k Hc Hk. apply doomed_rdm; auto.
      simpl in Hc. repeat (destruct Hc as [<-|Hc]); try contradiction Hc; cbn [fst snd]; inside.
    - intros c k Hc Hk. apply doomed_rdb; auto.
      simpl in Hc. repeat (destruct Hc as [<-|Hc]); try contradiction Hc; cbn [fst snd]; inside.
    - unfold trace_mhd2, mslopes2. rewrite HF. exact Logic.I. }
  destruct iv.
  - apply (unsafe_mscheme V0 s [] _ [_; _; _; _] (mtrace_item2 m S dt ain (gw m, gw m)) eq_refl); auto.
    + apply in_map. auto.
    + apply HT. discriminate.
  - apply (unsafe_mscheme V1 s [] _ [_; _] (mtrace_item2 m S dt ain (gw m, gw m)) eq_refl); auto.
    + apply in_map. auto.
    + apply HT. discriminate.
  - apply (unsafe_mscheme V2 s [] _ [_; _; _; _; _; _] (mslopes_item2 m S ain (gw m, gw m)) eq_refl); auto.
    + apply in_map. auto.
    + unfold mslopes_item2.
      replace (_ && _ && _ && _) with true by (unfold isize, jsize; pose proof mnx1; pose proof mny1; lia).
      repeat (apply doomed_rdm; [inside|intros]). unfold mslope_dir. rewrite HF. exact Logic.I.
Qed.
End Doom.
