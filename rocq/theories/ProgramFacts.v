(** * Lemmas on the whole program: the runs of the ideal solvers are determined *)
From Coq Require Import Ascii String ZArith List Bool Lia ZifyBool.
Import ListNotations.
From Verif Require Import Init PropInit.
From Verif Require Import Num Exec ExecFacts Grid GridFacts Boundaries BoundariesSpec
  BoundariesFacts BoundariesFill BoundariesNarrow HydroNum Kernels KernelFacts Determ
  Hydro2D Hydro2DSpec Hydro2DFacts Hydro2DStep Hydro2DRun PropHydro2D
  Hydro3D Hydro3DSpec Hydro3DFacts Hydro3DStep Hydro3DRun PropHydro3D
  TimeStep TimeStepFacts Driver DriverFacts HydroMachine PropDriver
  MhdNum MhdFacts Mhd2D Mhd2DSpec Mhd2DStep Mhd2DRun PropMhd2D MhdMachine PropMhdDriver
  Mhd3DNum Mhd3D Mhd3DSpec Mhd3DFacts Mhd3DStep Mhd3DV2 Mhd3DRun PropMhd3D Mhd3DMachine PropMhd3DDriver
  Binary64 Binary64Valid SignFacts Config Params ProblemParams Vtk VtkFacts Program.
Local Open Scope Z_scope.
Local Notation length := List.length.

(** ** The time step is unique *)
Section Dt.
Variable m : mesh.
Variable S : hset v64.
Hypothesis Hx : clear (dx S).
Hypothesis Hy : clear (dy S).

Lemma dt_local2_V g U G d d' :
  dt_local2 (H := Vnum) m S g U G d -> dt_local2 (H := Vnum) m S g U G d' -> d = d'.
Proof.
  intros (v & HR & ->) (w & HR' & ->). f_equal. destruct (g_enabled g).
  - refine (red_V_unique (fun c => inner2 m (fst c) (snd c)) (fun c => gravity_speeds2 (H := Vnum) S U G (fst c) (snd c)) _ _ _ _ _ _ HR HR').
    + intros [i j] a. reflexivity.
    + intros [i j] _ _. apply clear_gravity_speeds2; auto.
  - refine (red_V_unique (fun c => inner2 m (fst c) (snd c)) (fun c => speeds2 (H := Vnum) S U (fst c) (snd c)) _ _ _ _ _ _ HR HR').
    + intros [i j] a. reflexivity.
    + intros [i j] _ _. apply clear_speeds2; auto.
Qed.

Lemma mdt_local2_V Q d d' : mdt_local2 (H := Vnum) m S Q d -> mdt_local2 (H := Vnum) m S Q d' -> d = d'.
Proof.
  intros (v & HR & ->) (w & HR' & ->). f_equal.
  refine (red_V_unique (fun c => inner2 m (fst c) (snd c)) (fun c => mspeeds2 (H := Vnum) S Q (fst c) (snd c)) _ _ _ _ _ _ HR HR').
  - intros [i j] a. reflexivity.
  - intros [i j] _ _. apply clear_mspeeds2; auto.
Qed.

Hypothesis Hz : clear (dz S).

Lemma dt_local3_V g U G d d' :
  dt_local3 (H := Vnum) m S g U G d -> dt_local3 (H := Vnum) m S g U G d' -> d = d'.
Proof.
  intros (v & HR & ->) (w & HR' & ->). f_equal. destruct (g_enabled g).
  - refine (red_V_unique (fun c => inner3 m (fst (fst c)) (snd (fst c)) (snd c)) (fun c => gravity_speeds3 (H := Vnum) S U G (fst (fst c)) (snd (fst c)) (snd c)) _ _ _ _ _ _ HR HR').
    + intros [[i j] k] a. reflexivity.
    + intros [[i j] k] _ _. apply clear_gravity_speeds3; auto.
  - refine (red_V_unique (fun c => inner3 m (fst (fst c)) (snd (fst c)) (snd c)) (fun c => speeds3 (H := Vnum) S U (fst (fst c)) (snd (fst c)) (snd c)) _ _ _ _ _ _ HR HR').
    + intros [[i j] k] a. reflexivity.
    + intros [[i j] k] _ _. apply clear_speeds3; auto.
Qed.

Lemma mdt_local3_V Q d d' : mdt_local3 (H := Vnum) m S Q d -> mdt_local3 (H := Vnum) m S Q d' -> d = d'.
Proof.
  intros (v & HR & ->) (w & HR' & ->). f_equal.
  refine (red_V_unique (fun c => inner3 m (fst (fst c)) (snd (fst c)) (snd c)) (fun c => mspeeds3 (H := Vnum) S Q (fst (fst c)) (snd (fst c)) (snd c)) _ _ _ _ _ _ HR HR').
  - intros [[i j] k] a. reflexivity.
  - intros [[i j] k] _ _. apply clear_mspeeds3; auto.
Qed.
End Dt.

(** ** Runs of the solvers with one state are determined *)
Section Ideal.
Variable m : mesh.
Variable S : hset v64.
Variable c : config (T := v64).
Hypothesis Hx : clear (dx S).
Hypothesis Hy : clear (dy S).

Definition always {A} (R : A -> A -> Prop) (_ : nat) : A -> A -> Prop := R.

Lemma ideal2_det g G G' s tr s' z ztr z' : wide2 m -> 2 <= gw m ->
  (forall i j v, G i j v = G' i j v) ->
  same_sol (always (same_phys m)) (same_phys m) s z ->
  main (H := Vnum) (ideal2 (H := Vnum) m S g G) c s tr s' -> main (H := Vnum) (ideal2 (H := Vnum) m S g G') c z ztr z' ->
  same_sol (always (same_phys m)) (same_phys m) s' z'.
Proof.
  intros Hw Hg HG HS H1 H2.
  refine (proj2 (both_main (ideal2 (H := Vnum) m S g G) c (ideal2 (H := Vnum) m S g G') (always (same_phys m)) (always (same_phys m))
    (same_phys m) _ _ _ _ _ _ _ _ _ _ HS H1 H2)).
  - intros n a a' b b' R -> ->. exact R.
  - intros n a b d d2 R D1 D2. cbn [local_dt ideal2] in *.
    apply (dt_local2_ext m S g a b G G' d R HG) in D1. eapply dt_local2_V; eauto.
  - intros dt n a a' b b' R -> ->. apply step_ext; auto.
  - intros n a b R. exact R.
Qed.

Lemma mideal2_det s tr s' z ztr z' : wide2 m -> 3 <= gw m ->
  same_sol (always (msame m)) (msame m) s z ->
  main (H := Vnum) (mideal2 (H := Vnum) m S) c s tr s' -> main (H := Vnum) (mideal2 (H := Vnum) m S) c z ztr z' ->
  same_sol (always (msame m)) (msame m) s' z'.
Proof.
  intros Hw Hg HS H1 H2.
  refine (proj2 (both_main (mideal2 (H := Vnum) m S) c (mideal2 (H := Vnum) m S) (always (msame m)) (always (msame m))
    (msame m) _ _ _ _ _ _ _ _ _ _ HS H1 H2)).
  - intros n a a' b b' R -> ->. exact R.
  - intros n a b d d2 R D1 D2. cbn [local_dt mideal2] in *.
    refine (mdt_local2_V m S Hx Hy _ _ _ _ D2). revert D1. apply (mdt_local2_ext (N := Vnum)).
    intros i j Hp. unfold mQ, mstate.
    rewrite !(mextend_ext m Hw a b) by (auto; unfold ID, IP, IU, IV, IW, IA, IB, IC; try lia; destruct Hp; unfold cell2, physical, isize, jsize in *; lia).
    reflexivity.
  - intros dt n a a' b b' R -> ->. apply mstep_ext; auto.
  - intros n a b R. exact R.
Qed.

Hypothesis Hz : clear (dz S).

Lemma ideal3_det g full G G' s tr s' z ztr z' : wide3 m -> 2 <= gw m ->
  (forall i j k v, G i j k v = G' i j k v) ->
  same_sol (always (same_phys3 m)) (same_phys3 m) s z ->
  main (H := Vnum) (ideal3 (H := Vnum) m S g full G) c s tr s' -> main (H := Vnum) (ideal3 (H := Vnum) m S g full G') c z ztr z' ->
  same_sol (always (same_phys3 m)) (same_phys3 m) s' z'.
Proof.
  intros Hw Hg HG HS H1 H2.
  refine (proj2 (both_main (ideal3 (H := Vnum) m S g full G) c (ideal3 (H := Vnum) m S g full G') (always (same_phys3 m)) (always (same_phys3 m))
    (same_phys3 m) _ _ _ _ _ _ _ _ _ _ HS H1 H2)).
  - intros n a a' b b' R -> ->. exact R.
  - intros n a b d d2 R D1 D2. cbn [local_dt ideal3] in *.
    apply (dt_local3_ext m S g a b G G' d R HG) in D1. eapply dt_local3_V; eauto.
  - intros dt n a a' b b' R -> ->. apply step3_ext; auto.
  - intros n a b R. exact R.
Qed.

Lemma mideal3_det iv s tr s' z ztr z' : wide3 m -> 3 <= gw m ->
  same_sol (always (msame3 m)) (msame3 m) s z ->
  main (H := Vnum) (mideal3 (H := Vnum) m S iv) c s tr s' -> main (H := Vnum) (mideal3 (H := Vnum) m S iv) c z ztr z' ->
  same_sol (always (msame3 m)) (msame3 m) s' z'.
Proof.
  intros Hw Hg HS H1 H2.
  refine (proj2 (both_main (mideal3 (H := Vnum) m S iv) c (mideal3 (H := Vnum) m S iv) (always (msame3 m)) (always (msame3 m))
    (msame3 m) _ _ _ _ _ _ _ _ _ _ HS H1 H2)).
  - intros n a a' b b' R -> ->. exact R.
  - intros n a b d d2 R D1 D2. cbn [local_dt mideal3] in *.
    refine (mdt_local3_V m S Hx Hy Hz _ _ _ _ D2). revert D1. apply (mdt_local3_ext (N := Vnum)).
    intros i j k Hp. unfold mQ3, mstate3.
    rewrite !(mextend3_ext m Hw a b) by (auto; unfold ID, IP, IU, IV, IW, IA, IB, IC; try lia; destruct Hp as [[? ?] ?]; unfold cell3, cell2, physical, isize, jsize, ksize in *; lia).
    reflexivity.
  - intros dt n a a' b b' R -> ->. apply mstepv3_same; auto.
  - intros n a b R. exact R.
Qed.
End Ideal.

(** ** The time step of the constructor is not used *)
Section FirstDt.
Context {T M D : Type} {N : Num T}.
Variable P : machine T M D.
Variable c : config (T := T).

Definition with_dt (d : T) (s : sol (T := T) (M := M) (D := D)) := mksol (s_t s) d (s_it s) (s_saved s) (s_files s) (s_mem s).

Lemma with_dt_save d s : save P (with_dt d s) = with_dt d (save P s).
Proof. reflexivity. Qed.

Lemma with_dt_maybe d s : maybe_save P c (with_dt d s) = with_dt d (maybe_save P c s).
Proof.
  unfold maybe_save. change (should_save c (with_dt d s)) with (should_save c s).
  destruct (enable_output c && should_save c s); reflexivity.
Qed.

Lemma with_dt_next d s s' : next P c s s' -> next P c (with_dt d s) s'.
Proof.
  unfold next. rewrite with_dt_maybe. destruct (maybe_save P c s). exact (fun H => H).
Qed.

Lemma with_dt_loop d s tr s' : loop P c s tr s' ->
  exists ztr z', loop P c (with_dt d s) ztr z' /\ s_files z' = s_files s' /\ with_dt d z' = with_dt d s'.
Proof.
  intros HL. inversion HL; subst.
  - exists [with_dt d s'], (with_dt d s'). split; [constructor; assumption|]. split; reflexivity.
  - exists (with_dt d s :: tr0), s'. split; [|split; reflexivity].
    apply loop_step with (s1 := s1); [assumption| |assumption]. apply with_dt_next. assumption.
Qed.

Lemma with_dt_main d s tr s' : main P c s tr s' ->
  exists ztr z', main P c (with_dt d s) ztr z' /\ s_files z' = s_files s'.
Proof.
  intros (s1 & HL & ->). destruct (with_dt_loop d _ _ _ HL) as (ztr & z & HZ & EF & EW).
  exists ztr, (main_save P c z). split.
  - exists z. split; [|reflexivity]. unfold main_save in *. destruct (c_nOutput c =? 0); exact HZ.
  - unfold main_save. destruct (c_nOutput c =? 0); [exact EF|].
    destruct z, s1; unfold with_dt in EW; cbn in *. inversion EW; subst. reflexivity.
Qed.
End FirstDt.

(** ** The image of a state depends on its physical cells only *)
Section Image.
Context {T : Type} (rf : rformat T).

Lemma collect_ext {A} (f g : A -> option text) l : (forall x, In x l -> f x = g x) -> collect f l = collect g l.
Proof.
  induction l as [|a l IH]; intros H; [reflexivity|]. cbn [collect]. rewrite H by (left; reflexivity).
  rewrite IH by (intros; apply H; right; assumption). reflexivity.
Qed.

Lemma in_range v n : In v (range n) -> 0 <= v < n.
Proof. unfold range. rewrite in_map_iff. intros (k & <- & Hk). apply in_seq in Hk. lia. Qed.

Lemma in_upto i lo hi : In i (upto lo hi) -> lo <= i <= hi.
Proof. unfold upto. rewrite in_map_iff. intros (k & <- & Hk). apply in_range in Hk. lia. Qed.

Lemma content_ext ascii head offset hv hv' li li' nv :
  (forall v, 0 <= v < nv -> hv v = hv' v) -> (forall v, 0 <= v < nv -> li v = li' v) ->
  content rf ascii head offset hv li nv = content rf ascii head offset hv' li' nv.
Proof.
  intros H1 H2. unfold content. destruct ascii.
  - unfold plain. rewrite (collect_ext (listing rf li) (listing rf li')); [reflexivity|].
    intros v Hv. apply in_range in Hv. unfold listing. rewrite H2 by assumption. reflexivity.
  - unfold binary. rewrite (flat_map_ext_in hv hv'); [reflexivity|]. intros v Hv. apply in_range in Hv. auto.
Qed.

Lemma save_VTK_2D_ext m ge o U U' nv step debug :
  (forall i j v, phys2 m i j -> 0 <= v < nv -> U i j v = U' i j v) ->
  save_VTK_2D rf m ge o U nv step debug = save_VTK_2D rf m ge o U' nv step debug.
Proof.
  intros HU. unfold save_VTK_2D. f_equal. apply content_ext; intros v Hv.
  - unfold heavy2. f_equal. apply flat_map_ext_in. intros j Hj. apply flat_map_ext_in. intros i Hi.
    apply in_upto in Hi, Hj. rewrite HU; auto. unfold phys2, physical, imin, imax, jmin, jmax in *. lia.
  - unfold listed2. apply flat_map_ext_in. intros x _. cbv zeta.
    destruct ((jmin m + gw m <=? x / isize m) && (x / isize m <=? jmax m - gw m) &&
      (imin m + gw m <=? x - x / isize m * isize m) && (x - x / isize m * isize m <=? imax m - gw m)) eqn:E; [|reflexivity].
    rewrite HU; auto. unfold phys2, physical, imin, imax, jmin, jmax in *. lia.
Qed.

Lemma save_VTK_3D_ext m ge o U U' nv step debug :
  (forall i j k v, phys3 m i j k -> 0 <= v < nv -> U i j k v = U' i j k v) ->
  save_VTK_3D rf m ge o U nv step debug = save_VTK_3D rf m ge o U' nv step debug.
Proof.
  intros HU. unfold save_VTK_3D. f_equal. apply content_ext; intros v Hv.
  - unfold heavy3. f_equal. apply flat_map_ext_in. intros k Hk. apply flat_map_ext_in. intros j Hj.
    apply flat_map_ext_in. intros i Hi.
    apply in_upto in Hi, Hj, Hk. rewrite HU; auto. unfold phys3, phys2, physical, imin, imax, jmin, jmax, kmin, kmax in *. lia.
  - unfold listed3. apply flat_map_ext_in. intros x _. cbv zeta.
    match goal with |- (if ?b then _ else _) = _ => destruct b eqn:E; [|reflexivity] end.
    rewrite HU; auto. unfold phys3, phys2, physical, imin, imax, jmin, jmax, kmin, kmax in *. lia.
Qed.
End Image.
