(** * C57: the parameter file determines the files written *)
From Coq Require Import Ascii String ZArith List Bool Lia ZifyBool Floats.SpecFloat.
Import ListNotations.
From Verif Require Import Init PropInit.
From Verif Require Import ConfigSpec ConfigFacts PropConfig.
From Verif Require Import Num Exec ExecFacts Grid GridFacts Boundaries BoundariesSpec
  BoundariesFacts BoundariesFill BoundariesNarrow HydroNum Kernels KernelFacts Determ
  Hydro2D Hydro2DSpec Hydro2DFacts Hydro2DStep Hydro2DRun
  Hydro3D Hydro3DSpec Hydro3DFacts Hydro3DStep Hydro3DRun
  TimeStep TimeStepFacts Driver DriverFacts HydroMachine
  MhdNum MhdFacts Mhd2D Mhd2DSpec Mhd2DStep Mhd2DRun PropMhd2D MhdMachine PropMhdDriver
  Mhd3DNum Mhd3D Mhd3DSpec Mhd3DFacts Mhd3DStep Mhd3DV2 Mhd3DRun PropMhd3D Mhd3DMachine PropMhd3DDriver
  PropHydro2D PropHydro3D PropDriver
  Binary64 Binary64Valid SignFacts Config ConfigSpec Params ProblemParams PropConfig PropParams Vtk VtkSpec VtkFacts Program ProgramFacts.
Local Open Scope Z_scope.
Local Notation length := List.length.

(** ** C16 in double arithmetic

    With cell sizes without minus sign ([clear]: positive, +0, +infinity or a NaN of Binary64Valid.v) the
    time step does not depend on the order of the reduction, whatever the state: NaN and
    infinities included. *)
Theorem C16_order_independent_double :
  forall m (S : hset v64), clear (dx S) -> clear (dy S) ->
  (forall g U G d d', dt_local2 (H := Vnum) m S g U G d -> dt_local2 (H := Vnum) m S g U G d' -> d = d') /\
  (forall Q d d', mdt_local2 (H := Vnum) m S Q d -> mdt_local2 (H := Vnum) m S Q d' -> d = d') /\
  (clear (dz S) ->
   (forall g U G d d', dt_local3 (H := Vnum) m S g U G d -> dt_local3 (H := Vnum) m S g U G d' -> d = d') /\
   (forall Q d d', mdt_local3 (H := Vnum) m S Q d -> mdt_local3 (H := Vnum) m S Q d' -> d = d')).
Proof.
  intros m S Hx Hy. split; [|split].
  - intros. eapply dt_local2_V; eauto.
  - intros. eapply mdt_local2_V; eauto.
  - intros Hz. split; intros; [eapply dt_local3_V|eapply mdt_local3_V]; eauto.
Qed.
Print Assumptions C16_order_independent_double.

(** ** The files are the images of the states of the numerical scheme

    Whatever the schedule of the kernels and the shape of the reductions, the files are the
    images of the states of a run of the scheme with one state and no ghost cells
    ([ideal2], ...: HydroMachine.v, MhdMachine.v), started from the initial condition. *)

Lemma started {T M D} (t d : T) (mem : M) : start (D := D) t 0 mem (mksol t d 0 0 [] mem).
Proof. repeat split. Qed.

Theorem C57_files_are_the_scheme_hydro2d :
  forall (T : Type) (N : Num T) (O : NumOne T) (cv : b32 -> T) E c out,
  main_creates c = Some (HydroMuscl TWO_D) -> PropHydro2D.ready2 (the_mesh c) (the_settings cv c) -> the_version c = V0 \/ the_version c = V1 ->
  program_writes cv E c out ->
  exists s0 ztr z,
    execs (alloc2d (the_mesh c) (nv2 (the_mesh c) (the_gravity c) (the_version c))) (blank_memory (H := N))
      (init_hydro2 (e_lib E) (the_mesh c) (the_settings cv c) (the_box cv c) (e_rnd E) (the_params cv E c) (the_problem c)) s0 /\
    main (ideal2 (the_mesh c) (the_settings cv c) (the_gravity c) (field_of A_G s0)) (the_config cv c) (mksol (the_time cv c) n0 0 0 [] (field_of A_U s0)) ztr z /\
    out = if vtk_enabled c then map (image2 cv E c) (s_files z) else [].
Proof.
  intros T N O cv E c out Hc HR Hv [_ HW]. rewrite Hc in HW.
  destruct HW as (s' & (s0 & s1 & s & tr & HI & HB & (d & Hd & ->) & HM) & ->).

  destruct (C13_two_buffers_act_as_one_state_2d T N O (the_mesh c) (the_settings cv c) (the_gravity c) _ (the_version c) (the_config cv c) (the_time cv c) 0 s0 s1 _ tr s' HR Hv HB (started _ _ _) HM)
    as (ztr & z & HZ & _ & HS).
  destruct (with_dt_main (ideal2 (the_mesh c) (the_settings cv c) (the_gravity c) (field_of A_G s0)) (the_config cv c) n0 _ ztr z HZ) as (ztr' & z' & HZ' & EF).
  exists s0, ztr', z'. split; [exact HI|]. split; [exact HZ'|].
  destruct (vtk_enabled c); [|reflexivity]. rewrite EF. clear EF.
  destruct HS as (_ & _ & _ & _ & HF & _). induction HF as [|f g l l' (E1 & _ & E2) _ IH]; [reflexivity|].
  cbn [map]. rewrite IH. f_equal. unfold image2. rewrite E1. apply save_VTK_2D_ext.
  destruct HR as (_ & _ & Hn & _). rewrite Hn. exact E2.
Qed.
Print Assumptions C57_files_are_the_scheme_hydro2d.

Theorem C57_files_are_the_scheme_hydro3d :
  forall (T : Type) (N : Num T) (O : NumOne T) (cv : b32 -> T) E c out,
  main_creates c = Some (HydroMuscl THREE_D) -> PropHydro3D.ready3 (the_mesh c) (the_settings cv c) -> the_version c = V0 \/ the_version c = V1 ->
  program_writes cv E c out ->
  exists s0 ztr z,
    execs (alloc3d (the_mesh c) (nv3 (the_mesh c) (the_gravity c) (the_version c))) (blank_memory (H := N))
      (init_hydro3 (e_lib E) (the_mesh c) (the_settings cv c) (the_box cv c) (e_rnd E) (the_params cv E c) (the_problem c)) s0 /\
    main (ideal3 (the_mesh c) (the_settings cv c) (the_gravity c) (full_of (the_version c)) (field_of3 A_G s0)) (the_config cv c) (mksol (the_time cv c) n0 0 0 [] (field_of3 A_U s0)) ztr z /\
    out = if vtk_enabled c then map (image3 cv E c) (s_files z) else [].
Proof.
  intros T N O cv E c out Hc HR Hv [_ HW]. rewrite Hc in HW.
  destruct HW as (s' & (s0 & s1 & s & tr & HI & HB & (d & Hd & ->) & HM) & ->).

  destruct (C13_two_buffers_act_as_one_state_3d T N O (the_mesh c) (the_settings cv c) (the_gravity c) _ (the_version c) (the_config cv c) (the_time cv c) 0 s0 s1 _ tr s' HR Hv HB (started _ _ _) HM)
    as (ztr & z & HZ & _ & HS).
  destruct (with_dt_main (ideal3 (the_mesh c) (the_settings cv c) (the_gravity c) (full_of (the_version c)) (field_of3 A_G s0)) (the_config cv c) n0 _ ztr z HZ) as (ztr' & z' & HZ' & EF).
  exists s0, ztr', z'. split; [exact HI|]. split; [exact HZ'|].
  destruct (vtk_enabled c); [|reflexivity]. rewrite EF. clear EF.
  destruct HS as (_ & _ & _ & _ & HF & _). induction HF as [|f g l l' (E1 & _ & E2) _ IH]; [reflexivity|].
  cbn [map]. rewrite IH. f_equal. unfold image3. rewrite E1. apply save_VTK_3D_ext.
  destruct HR as (_ & _ & Hn & _). rewrite Hn. exact E2.
Qed.
Print Assumptions C57_files_are_the_scheme_hydro3d.

Theorem C57_files_are_the_scheme_mhd2d :
  forall (T : Type) (N : Num T) (O : NumOne T) (cv : b32 -> T) E c out,
  main_creates c = Some (MHDMuscl TWO_D) -> mready2 (the_mesh c) (the_settings cv c) -> the_version c = V0 ->
  program_writes cv E c out ->
  exists s0 ztr z,
    execs (alloc2d (the_mesh c) (init_nv2 (mnv2 (the_mesh c) (the_version c)))) (blank_memory (H := N))
      (init_mhd2 (e_lib E) (the_mesh c) (the_settings cv c) (the_box cv c) (e_rnd E) (the_params cv E c) (the_problem c)) s0 /\
    main (mideal2 (the_mesh c) (the_settings cv c)) (the_config cv c) (mksol (the_time cv c) n0 0 0 [] (field_of A_U s0)) ztr z /\
    out = if vtk_enabled c then map (image2 cv E c) (s_files z) else [].
Proof.
  intros T N O cv E c out Hc HR Hv [_ HW]. rewrite Hc in HW.
  destruct HW as (s' & (s0 & s1 & s & tr & HI & HB & (d & Hd & ->) & HM) & ->).
  cbv zeta in *. rewrite Hv in HM, HB.
  destruct (C13_mhd_two_buffers_act_as_one_state T N O (the_mesh c) (the_settings cv c) _ (the_config cv c) (the_time cv c) 0 s0 s1 _ tr s' HR HB (started _ _ _) HM)
    as (ztr & z & HZ & _ & HS).
  destruct (with_dt_main (mideal2 (the_mesh c) (the_settings cv c)) (the_config cv c) n0 _ ztr z HZ) as (ztr' & z' & HZ' & EF).
  exists s0, ztr', z'. split; [exact HI|]. split; [exact HZ'|].
  destruct (vtk_enabled c); [|reflexivity]. rewrite EF. clear EF.
  destruct HS as (_ & _ & _ & _ & HF & _). induction HF as [|f g l l' (E1 & _ & E2) _ IH]; [reflexivity|].
  cbn [map]. rewrite IH. f_equal. unfold image2. rewrite E1. apply save_VTK_2D_ext.
  destruct HR as (_ & _ & Hn & _). rewrite Hn. exact E2.
Qed.
Print Assumptions C57_files_are_the_scheme_mhd2d.

Theorem C57_files_are_the_scheme_mhd3d :
  forall (T : Type) (N : Num T) (O : NumOne T) (cv : b32 -> T) E c out,
  main_creates c = Some (MHDMuscl THREE_D) -> mready3 V0 (the_mesh c) (the_settings cv c) -> the_version c = V0 ->
  program_writes cv E c out ->
  exists s0 ztr z,
    execs (alloc3d (the_mesh c) (init_nv3 (mnv3 (the_mesh c) (the_version c)))) (blank_memory (H := N))
      (init_mhd3 (e_lib E) (the_mesh c) (the_settings cv c) (the_box cv c) (e_rnd E) (the_params cv E c) (the_problem c)) s0 /\
    main (mideal3 (the_mesh c) (the_settings cv c) V0) (the_config cv c) (mksol (the_time cv c) n0 0 0 [] (field_of3 A_U s0)) ztr z /\
    out = if vtk_enabled c then map (image3 cv E c) (s_files z) else [].
Proof.
  intros T N O cv E c out Hc HR Hv [_ HW]. rewrite Hc in HW.
  destruct HW as (s' & (s0 & s1 & s & tr & HI & HB & (d & Hd & ->) & HM) & ->).
  cbv zeta in *. rewrite Hv in HM, HB.
  destruct (C13_mhd3d_two_buffers_act_as_one_state T N O (the_mesh c) (the_settings cv c) _ (the_config cv c) (the_time cv c) 0 s0 s1 _ tr s' HR HB (started _ _ _) HM)
    as (ztr & z & HZ & _ & HS).
  destruct (with_dt_main (mideal3 (the_mesh c) (the_settings cv c) V0) (the_config cv c) n0 _ ztr z HZ) as (ztr' & z' & HZ' & EF).
  exists s0, ztr', z'. split; [exact HI|]. split; [exact HZ'|].
  destruct (vtk_enabled c); [|reflexivity]. rewrite EF. clear EF.
  destruct HS as (_ & _ & _ & _ & HF & _). induction HF as [|f g l l' (E1 & _ & E2) _ IH]; [reflexivity|].
  cbn [map]. rewrite IH. f_equal. unfold image3. rewrite E1. apply save_VTK_3D_ext.
  destruct HR as (_ & _ & Hn & _). rewrite Hn. exact E2.
Qed.
Print Assumptions C57_files_are_the_scheme_mhd3d.

(** ** One output *)

(** A [float] read from the file, as a [double]. *)
Definition dbl (x : b32) : v64 := of_sf (widen x).

(** The limits of the domain are in order. *)
Definition in_order (c : cmap) (lo hi : string) : Prop :=
  nltb (Num := Vnum) (dbl (get_float c (lit "mesh") (lit lo) (dflt 0 1))) (dbl (get_float c (lit "mesh") (lit hi) (dflt 1 1))) = true.
Definition slope_among (c : cmap) (l : list Z) : Prop :=
  exists n, In n l /\ get_float c (lit "hydro") (lit "slope_type") (dflt 1 1) = dflt n 1.

(** What the theorems ask of the parameters: a mesh wide enough for its boundary
    conditions, a slope limiter and a Riemann solver that exist for the solver, a domain
    that is not empty.  Versions: see C11 and C28 for the others. *)
Definition usable (c : cmap) : Prop :=
  let m := mesh_setting c in
  match main_creates c with
  | Some (HydroMuscl TWO_D) =>
      wide2 m /\ slope_among c [0; 1; 2] /\ riemann_setting c <> R_HLLD /\ version_setting c <> 2 /\
      in_order c "xmin" "xmax" /\ in_order c "ymin" "ymax"
  | Some (HydroMuscl THREE_D) =>
      wide3 m /\ slope_among c [0; 1; 2] /\ riemann_setting c <> R_HLLD /\ riemann_setting c <> R_HLL /\ version_setting c <> 2 /\
      in_order c "xmin" "xmax" /\ in_order c "ymin" "ymax" /\ in_order c "zmin" "zmax"
  | Some (MHDMuscl TWO_D) =>
      wide2 m /\ slope_among c [1; 2] /\ In (riemann_setting c) [R_HLLD; R_HLL; R_LLF] /\ version_setting c = 0 /\
      in_order c "xmin" "xmax" /\ in_order c "ymin" "ymax"
  | Some (MHDMuscl THREE_D) =>
      wide3 m /\ In (riemann_setting c) [R_HLLD; R_HLL; R_LLF] /\ version_setting c = 0 /\
      in_order c "xmin" "xmax" /\ in_order c "ymin" "ymax" /\ in_order c "zmin" "zmax"
  | None => False
  end.

(** What the program takes from outside the file, and when it matters. *)
Definition same_outside {T} (c : cmap) (E E' : outside T) : Prop :=
  e_lib E = e_lib E' /\ e_fmt E = e_fmt E' /\
  (the_problem c = "kelvin_helmholtz"%string -> e_rnd E = e_rnd E' /\ e_mem E = e_mem E') /\
  (the_problem c = "blast"%string -> p_mhd (mesh_setting c) = true -> e_mem E = e_mem E').


(** *** The initial condition *)
Section Outside.
Context {T : Type} {N : Num T}.
Variable cv : b32 -> T.
Variable c : cmap.
Variables E E' : outside T.
Hypothesis HE : same_outside c E E'.

Lemma init_hydro2_outside :
  init_hydro2 (e_lib E) (the_mesh c) (the_settings cv c) (the_box cv c) (e_rnd E) (the_params cv E c) (the_problem c) =
  init_hydro2 (e_lib E') (the_mesh c) (the_settings cv c) (the_box cv c) (e_rnd E') (the_params cv E' c) (the_problem c).
Proof.
  revert HE. destruct E as [L r M f], E' as [L' r' M' f']. intros (HL & _ & HK & _). cbn [e_lib e_rnd e_mem e_fmt] in *.
  subst L'. unfold the_params. cbn [e_mem]. unfold init_hydro2, problem_hydro2. generalize dependent (the_problem c). intros name HK.
  repeat match goal with |- context [String.eqb name ?s] =>
    let X := fresh in destruct (String.eqb name s) eqn:X; [apply String.eqb_eq in X|] end;
  try (destruct (HK ltac:(assumption)) as [-> ->]); reflexivity.
Qed.

Lemma init_hydro3_outside :
  init_hydro3 (e_lib E) (the_mesh c) (the_settings cv c) (the_box cv c) (e_rnd E) (the_params cv E c) (the_problem c) =
  init_hydro3 (e_lib E') (the_mesh c) (the_settings cv c) (the_box cv c) (e_rnd E') (the_params cv E' c) (the_problem c).
Proof.
  revert HE. destruct E as [L r M f], E' as [L' r' M' f']. intros (HL & _ & HK & _). cbn [e_lib e_rnd e_mem e_fmt] in *.
  subst L'. unfold the_params. cbn [e_mem]. unfold init_hydro3, problem_hydro3. generalize dependent (the_problem c). intros name HK.
  repeat match goal with |- context [String.eqb name ?s] =>
    let X := fresh in destruct (String.eqb name s) eqn:X; [apply String.eqb_eq in X|] end;
  try (destruct (HK ltac:(assumption)) as [-> ->]); reflexivity.
Qed.

Lemma init_mhd2_outside : p_mhd (mesh_setting c) = true ->
  init_mhd2 (e_lib E) (the_mesh c) (the_settings cv c) (the_box cv c) (e_rnd E) (the_params cv E c) (the_problem c) =
  init_mhd2 (e_lib E') (the_mesh c) (the_settings cv c) (the_box cv c) (e_rnd E') (the_params cv E' c) (the_problem c).
Proof.
  intros Hm. revert HE. destruct E as [L r M f], E' as [L' r' M' f']. intros (HL & _ & HK & HB). cbn [e_lib e_rnd e_mem e_fmt] in *.
  subst L'. unfold the_params. cbn [e_mem]. unfold init_mhd2, problem_mhd. generalize dependent (the_problem c). intros name HK HB.
  repeat match goal with |- context [String.eqb name ?s] =>
    let X := fresh in destruct (String.eqb name s) eqn:X; [apply String.eqb_eq in X|] end;
  try (destruct (HK ltac:(assumption)) as [-> ->]); try rewrite (HB ltac:(assumption) Hm); reflexivity.
Qed.

Lemma init_mhd3_outside : p_mhd (mesh_setting c) = true ->
  init_mhd3 (e_lib E) (the_mesh c) (the_settings cv c) (the_box cv c) (e_rnd E) (the_params cv E c) (the_problem c) =
  init_mhd3 (e_lib E') (the_mesh c) (the_settings cv c) (the_box cv c) (e_rnd E') (the_params cv E' c) (the_problem c).
Proof.
  intros Hm. revert HE. destruct E as [L r M f], E' as [L' r' M' f']. intros (HL & _ & HK & HB). cbn [e_lib e_rnd e_mem e_fmt] in *.
  subst L'. unfold the_params. cbn [e_mem]. unfold init_mhd3, problem_mhd. generalize dependent (the_problem c). intros name HK HB.
  repeat match goal with |- context [String.eqb name ?s] =>
    let X := fresh in destruct (String.eqb name s) eqn:X; [apply String.eqb_eq in X|] end;
  try (destruct (HK ltac:(assumption)) as [-> ->]); try rewrite (HB ltac:(assumption) Hm); reflexivity.
Qed.
End Outside.

(** *** The conditions on the file *)
Lemma real_eqb n : In n [0; 1; 2] -> neqb (H := Vnum) (dbl (dflt n 1)) (nZ (Num := Vnum) n) = true.
Proof.
  intros Hn. unfold neqb. cbn [nleb Vnum]. unfold dbl. destruct Vnum_Fnum as [-> _].
  rewrite sf_of_sf; cbn [In] in Hn; repeat (destruct Hn as [<- | Hn]; [vm_compute; reflexivity|]); destruct Hn.
Qed.

Lemma slope_settings c l : slope_among c l -> incl l [0; 1; 2] ->
  exists n, In n l /\ neqb (H := Vnum) (slope_type (the_settings (H := Vnum) dbl c)) (nZ (Num := Vnum) n) = true.
Proof.
  intros (n & Hn & E) Hl. exists n. split; [exact Hn|]. cbn [slope_type the_settings derive]. unfold real, flt.
  rewrite E. apply real_eqb. auto.
Qed.

Lemma slope_ok_settings c : slope_among c [0; 1; 2] -> slope_ok (H := Vnum) (the_settings (H := Vnum) dbl c).
Proof.
  intros HS. destruct (slope_settings c _ HS) as (n & Hn & E); [intros x Hx; exact Hx|].
  unfold slope_ok. cbn [In] in Hn. destruct Hn as [<-|[<-|[<-|[]]]]; unfold n0, n1, n2; rewrite E, ?orb_true_r; reflexivity.
Qed.

Lemma mslope_ok_settings c : slope_among c [1; 2] -> mslope_ok (H := Vnum) (the_settings (H := Vnum) dbl c).
Proof.
  intros HS. destruct (slope_settings c _ HS) as (n & Hn & E); [intros x Hx; right; exact Hx|].
  unfold mslope_ok. cbn [In] in Hn. destruct Hn as [<-|[<-|[]]]; unfold n1, n2; rewrite E, ?orb_true_r; reflexivity.
Qed.

Lemma version01 c : version_setting c <> 2 -> the_version c = V0 \/ the_version c = V1.
Proof.
  intros Hv. unfold the_version. destruct (version_setting c =? 0) eqn:E0; [left; reflexivity|].
  destruct (version_setting c =? 1) eqn:E1; [right; reflexivity|]. exfalso. revert Hv E0 E1. unfold version_setting.
  set (v := float_to_int _). clearbody v. cbv zeta.
  destruct (v =? 0) eqn:A, (v =? 1) eqn:B, (v =? 2) eqn:C; cbn [negb andb]; try congruence; lia.
Qed.

Lemma clear_dx c : in_order c "xmin" "xmax" -> 1 <= nx (mesh_setting c) -> clear (dx (the_settings (H := Vnum) dbl c)).
Proof. intros HO Hn. apply clear_size; [exact HO|]. unfold the_mesh. lia. Qed.
Lemma clear_dy c : in_order c "ymin" "ymax" -> 1 <= ny (mesh_setting c) -> clear (dy (the_settings (H := Vnum) dbl c)).
Proof. intros HO Hn. apply clear_size; [exact HO|]. unfold the_mesh. lia. Qed.
Lemma clear_dz c : in_order c "zmin" "zmax" -> 1 <= nz (mesh_setting c) -> clear (dz (the_settings (H := Vnum) dbl c)).
Proof. intros HO Hn. apply clear_size; [exact HO|]. unfold the_mesh. lia. Qed.

(** What the proofs need for each solver. *)
Definition runnable (c : cmap) (p : program) : Prop :=
  let m := the_mesh c in let S := the_settings (H := Vnum) dbl c in
  clear (dx S) /\ clear (dy S) /\
  match p with
  | HydroMuscl TWO_D => PropHydro2D.ready2 (N := Vnum) m S /\ (the_version c = V0 \/ the_version c = V1)
  | HydroMuscl THREE_D => clear (dz S) /\ PropHydro3D.ready3 (N := Vnum) m S /\ (the_version c = V0 \/ the_version c = V1)
  | MHDMuscl TWO_D => mready2 (N := Vnum) m S /\ the_version c = V0
  | MHDMuscl THREE_D => clear (dz S) /\ mready3 (N := Vnum) V0 m S /\ the_version c = V0
  end.

Lemma usable_runnable c p : main_creates c = Some p -> usable c -> runnable c p.
Proof.
  intros Hc HU. destruct (C40_main c) as [_ HN]. specialize (HN p Hc). unfold usable in HU. rewrite Hc in HU.
  unfold runnable, the_mesh.
  destruct p as [[]|[]]; cbn [needs] in HN; injection HN as _ Hnv Hg Hm.
  - destruct HU as (Hw & Hs & Hr & Hv & Hx & Hy). pose proof Hw as (_ & _ & (Kx & _) & _ & (Ky & _) & _).
    split; [apply clear_dx; auto|]. split; [apply clear_dy; auto|]. split; [|apply version01; exact Hv].
    repeat (split; [first [exact Hw|lia|apply slope_ok_settings; exact Hs]|]). exact Hr.
  - destruct HU as (Hw & Hs & Hr & Hr2 & Hv & Hx & Hy & Hz). pose proof Hw as ((_ & _ & (Kx & _) & _ & (Ky & _) & _) & (Kz & _) & _).
    split; [apply clear_dx; auto|]. split; [apply clear_dy; auto|]. split; [apply clear_dz; auto|]. split; [|apply version01; exact Hv].
    repeat (split; [first [exact Hw|lia|apply slope_ok_settings; exact Hs]|]). split; [exact Hr|exact Hr2].
  - destruct HU as (Hw & Hs & Hr & Hv & Hx & Hy). pose proof Hw as (_ & _ & (Kx & _) & _ & (Ky & _) & _).
    split; [apply clear_dx; auto|]. split; [apply clear_dy; auto|]. split; [|unfold the_version; rewrite Hv; reflexivity].
    repeat (split; [first [exact Hw|lia|apply mslope_ok_settings; exact Hs]|]).
    unfold msolver_ok. cbn [solver the_settings derive]. cbn [In] in Hr. intuition.
  - destruct HU as (Hw & Hr & Hv & Hx & Hy & Hz). pose proof Hw as ((_ & _ & (Kx & _) & _ & (Ky & _) & _) & (Kz & _) & _).
    split; [apply clear_dx; auto|]. split; [apply clear_dy; auto|]. split; [apply clear_dz; auto|].
    split; [|unfold the_version; rewrite Hv; reflexivity].
    repeat (split; [first [exact Hw|lia]|]). split; [|discriminate].
    unfold msolver_ok. cbn [solver the_settings derive]. cbn [In] in Hr. intuition.
Qed.

(** *** Determinism *)
Lemma images_eq {D} (DR : D -> D -> Prop) (im im' : file (T := v64) (D := D) -> text * option text) l l' :
  Forall2 (same_file DR) l l' -> (forall f g, same_file DR f g -> im f = im' g) -> map im l = map im' l'.
Proof. intros HF H. induction HF; [reflexivity|]. cbn [map]. f_equal; auto. Qed.
Lemma fresh_same {D} (R : D -> D -> Prop) (t : v64) u u' : R u u' ->
  same_sol (always R) R (mksol t (n0 (H := Vnum)) 0 0 [] u) (mksol t (n0 (H := Vnum)) 0 0 [] u').
Proof. intros H. repeat (split; [first [reflexivity|constructor]|]). exact H. Qed.

(** Two runs of the program on the same file write the same files, byte for byte, in double
    arithmetic, whatever the schedules of the two runs, even if they differ in the contents
    of uninitialised memory and in the random numbers (where the problem does not use them). *)
Theorem C57_file_determines_output :
  forall E E' c out out', usable c -> same_outside c E E' ->
  program_writes (H := Vnum) dbl E c out -> program_writes (H := Vnum) dbl E' c out' -> out = out'.
Proof.
  intros E E' c out out' HU HE HW HW'. pose proof HE as (HL & HF & _).
  destruct (main_creates c) as [p|] eqn:Hc; [|unfold usable in HU; rewrite Hc in HU; destruct HU].
  pose proof (usable_runnable c p Hc HU) as HR. destruct (C40_main c) as [_ HN]. specialize (HN p Hc).
  unfold runnable in HR. cbv zeta in HR. destruct HR as (Hx & Hy & HR).
  destruct p as [[]|[]]; cbn [needs] in HN; injection HN as _ Hnv Hg Hm.
  - destruct HR as [HR Hv].
    destruct (C57_files_are_the_scheme_hydro2d _ Vnum Vnum_one dbl E c out Hc HR Hv HW) as (s0 & ztr & z & HI & HZ & ->).
    destruct (C57_files_are_the_scheme_hydro2d _ Vnum Vnum_one dbl E' c out' Hc HR Hv HW') as (s0' & ztr' & z' & HI' & HZ' & ->).
    rewrite <- (init_hydro2_outside dbl c E E' HE) in HI'.
    pose proof (det_hydro2 _ _ _ _ _ _ _ _ _ _ _ _ (fun l => eq_refl) HI HI') as HS.
    destruct HR as (Hw & Hgw & Hn & _).
    destruct (ideal2_det (the_mesh c) (the_settings (H := Vnum) dbl c) (the_config dbl c) Hx Hy (the_gravity c) (field_of A_G s0) (field_of A_G s0')
      _ ztr z _ ztr' z' Hw Hgw ltac:(intros; apply HS) (fresh_same (same_phys (the_mesh c)) (the_time dbl c) (field_of A_U s0) (field_of A_U s0') ltac:(intros i j v _ _; apply HS)) HZ HZ')
      as (_ & _ & _ & _ & HFS & _).
    destruct (vtk_enabled c); [|reflexivity]. apply (images_eq _ _ _ _ _ HFS). intros f g (E1 & _ & E2).
    unfold image2. rewrite HF, E1. apply save_VTK_2D_ext. rewrite Hn. exact E2.
  - destruct HR as (Hz & HR & Hv).
    destruct (C57_files_are_the_scheme_hydro3d _ Vnum Vnum_one dbl E c out Hc HR Hv HW) as (s0 & ztr & z & HI & HZ & ->).
    destruct (C57_files_are_the_scheme_hydro3d _ Vnum Vnum_one dbl E' c out' Hc HR Hv HW') as (s0' & ztr' & z' & HI' & HZ' & ->).
    rewrite <- (init_hydro3_outside dbl c E E' HE) in HI'.
    pose proof (det_hydro3 _ _ _ _ _ _ _ _ _ _ _ _ (fun l => eq_refl) HI HI') as HS.
    destruct HR as (Hw & Hgw & Hn & _).
    destruct (ideal3_det (the_mesh c) (the_settings (H := Vnum) dbl c) (the_config dbl c) Hx Hy Hz (the_gravity c) (full_of (the_version c)) (field_of3 A_G s0) (field_of3 A_G s0')
      _ ztr z _ ztr' z' Hw Hgw ltac:(intros; apply HS) (fresh_same (same_phys3 (the_mesh c)) (the_time dbl c) (field_of3 A_U s0) (field_of3 A_U s0') ltac:(intros i j k v _ _; apply HS)) HZ HZ')
      as (_ & _ & _ & _ & HFS & _).
    destruct (vtk_enabled c); [|reflexivity]. apply (images_eq _ _ _ _ _ HFS). intros f g (E1 & _ & E2).
    unfold image3. rewrite HF, E1. apply save_VTK_3D_ext. rewrite Hn. exact E2.
  - destruct HR as [HR Hv].
    destruct (C57_files_are_the_scheme_mhd2d _ Vnum Vnum_one dbl E c out Hc HR Hv HW) as (s0 & ztr & z & HI & HZ & ->).
    destruct (C57_files_are_the_scheme_mhd2d _ Vnum Vnum_one dbl E' c out' Hc HR Hv HW') as (s0' & ztr' & z' & HI' & HZ' & ->).
    rewrite <- (init_mhd2_outside dbl c E E' HE Hm) in HI'.
    pose proof (det_mhd2 _ _ _ _ _ _ _ _ _ _ _ _ (fun l => eq_refl) HI HI') as HS.
    destruct HR as (Hw & Hgw & Hn & _).
    destruct (mideal2_det (the_mesh c) (the_settings (H := Vnum) dbl c) (the_config dbl c) Hx Hy
      _ ztr z _ ztr' z' Hw Hgw (fresh_same (msame (the_mesh c)) (the_time dbl c) (field_of A_U s0) (field_of A_U s0') ltac:(intros i j v _ _; apply HS)) HZ HZ')
      as (_ & _ & _ & _ & HFS & _).
    destruct (vtk_enabled c); [|reflexivity]. apply (images_eq _ _ _ _ _ HFS). intros f g (E1 & _ & E2).
    unfold image2. rewrite HF, E1. apply save_VTK_2D_ext. rewrite Hn. exact E2.
  - destruct HR as (Hz & HR & Hv).
    destruct (C57_files_are_the_scheme_mhd3d _ Vnum Vnum_one dbl E c out Hc HR Hv HW) as (s0 & ztr & z & HI & HZ & ->).
    destruct (C57_files_are_the_scheme_mhd3d _ Vnum Vnum_one dbl E' c out' Hc HR Hv HW') as (s0' & ztr' & z' & HI' & HZ' & ->).
    rewrite <- (init_mhd3_outside dbl c E E' HE Hm) in HI'.
    pose proof (det_mhd3 _ _ _ _ _ _ _ _ _ _ _ _ (fun l => eq_refl) HI HI') as HS.
    destruct HR as (Hw & Hgw & Hn & _).
    destruct (mideal3_det (the_mesh c) (the_settings (H := Vnum) dbl c) (the_config dbl c) Hx Hy Hz V0
      _ ztr z _ ztr' z' Hw Hgw (fresh_same (msame3 (the_mesh c)) (the_time dbl c) (field_of3 A_U s0) (field_of3 A_U s0') ltac:(intros i j k v _ _; apply HS)) HZ HZ')
      as (_ & _ & _ & _ & HFS & _).
    destruct (vtk_enabled c); [|reflexivity]. apply (images_eq _ _ _ _ _ HFS). intros f g (E1 & _ & E2).
    unfold image3. rewrite HF, E1. apply save_VTK_3D_ext. rewrite Hn. exact E2.
Qed.
Print Assumptions C57_file_determines_output.

(** *** Existence, and no access outside the arrays *)

(** What the theorem asks besides: messages are possible (nlog is a divisor), no restart, a
    gravity field for the problem that stores one, a direction for the Brio-Wu tube. *)
Definition complete (c : cmap) : Prop :=
  int_setting c "run" "nlog" 10 <> 0 /\ flag c "run" "restart_enabled" false = false /\
  (the_problem c = "rayleigh_taylor"%string -> flag c "gravity" "enabled" false = true) /\
  (the_problem c = "brio-wu"%string -> 0 <= int_setting c "brio-wu" "direction" 0 < 3).

(** As [usable], for every version of the scheme and any limits of the domain. *)
Definition acceptable (c : cmap) : Prop :=
  let m := mesh_setting c in
  match main_creates c with
  | Some (HydroMuscl TWO_D) => wide2 m /\ slope_among c [0; 1; 2] /\ riemann_setting c <> R_HLLD
  | Some (HydroMuscl THREE_D) =>
      wide3 m /\ slope_among c [0; 1; 2] /\ riemann_setting c <> R_HLLD /\ riemann_setting c <> R_HLL
  | Some (MHDMuscl TWO_D) => wide2 m /\ slope_among c [1; 2] /\ In (riemann_setting c) [R_HLLD; R_HLL; R_LLF]
  | Some (MHDMuscl THREE_D) =>
      wide3 m /\ In (riemann_setting c) [R_HLLD; R_HLL; R_LLF] /\ (version_setting c = 2 -> slope_among c [1; 2])
  | None => False
  end.

Lemma usable_acceptable c : usable c -> acceptable c.
Proof.
  unfold usable, acceptable. cbv zeta. destruct (main_creates c) as [[[]|[]]|]; auto; intros HU; decompose [and] HU;
  repeat split; auto; try apply H; try congruence.
Qed.

Lemma version2 c : the_version c = V2 -> version_setting c = 2.
Proof.
  intros Hv. destruct (Z.eq_dec (version_setting c) 2) as [E|E]; [exact E|].
  destruct (version01 c E); congruence.
Qed.

Lemma acceptable_ready c p : main_creates c = Some p -> acceptable c ->
  let m := the_mesh c in let S := the_settings (H := Vnum) dbl c in
  match p with
  | HydroMuscl TWO_D => PropHydro2D.ready2 (N := Vnum) m S
  | HydroMuscl THREE_D => PropHydro3D.ready3 (N := Vnum) m S
  | MHDMuscl TWO_D => mready2 (N := Vnum) m S
  | MHDMuscl THREE_D => mready3 (N := Vnum) (the_version c) m S
  end.
Proof.
  intros Hc HU. destruct (C40_main c) as [_ HN]. specialize (HN p Hc). unfold acceptable in HU. rewrite Hc in HU.
  unfold the_mesh. destruct p as [[]|[]]; cbn [needs] in HN; injection HN as _ Hnv Hg Hm; cbv zeta.
  - destruct HU as (Hw & Hs & Hr).
    repeat (split; [first [exact Hw|lia|apply slope_ok_settings; exact Hs]|]). exact Hr.
  - destruct HU as (Hw & Hs & Hr & Hr2).
    repeat (split; [first [exact Hw|lia|apply slope_ok_settings; exact Hs]|]). split; [exact Hr|exact Hr2].
  - destruct HU as (Hw & Hs & Hr).
    repeat (split; [first [exact Hw|lia|apply mslope_ok_settings; exact Hs]|]).
    unfold msolver_ok. cbn [solver the_settings derive]. cbn [In] in Hr. intuition.
  - destruct HU as (Hw & Hr & Hv).
    repeat (split; [first [exact Hw|lia]|]). split.
    + unfold msolver_ok. cbn [solver the_settings derive]. cbn [In] in Hr. intuition.
    + intros E. apply mslope_ok_settings, Hv, version2, E.
Qed.

Lemma built2_in_foot {T} {N : Num T} m (S : hset T) g iv : PropHydro2D.ready2 m S ->
  Forall (Forall (in_foot (alloc2d m (nv2 m g iv)))) (make_boundaries2d m A_U ++ [deep_copy2 m A_U2 A_U]).
Proof.
  intros (Hw & Hg & Hn & Hs & Hr).
  pose proof (godunov2_in_foot m S g n0 Hs Hr Hw Hg Hn A_U A_U2 (cur_nxt 0) iv Hs) as HF.
  unfold godunov2 in HF. apply Forall_app in HF. destruct HF as [H1 H2]. apply Forall_app. split; [exact H1|].
  constructor; [|constructor]. inversion H2; subst. assumption.
Qed.
Lemma built3_in_foot {T} {N : Num T} m (S : hset T) g iv : PropHydro3D.ready3 m S ->
  Forall (Forall (in_foot (alloc3d m (nv3 m g iv)))) (make_boundaries3d m A_U ++ [deep_copy3 m A_U2 A_U]).
Proof.
  intros (Hw & Hg & Hn & Hs & Hr).
  pose proof (godunov3_in_foot m S g n0 Hs Hr Hw Hg Hn A_U A_U2 (cur_nxt 0) iv) as HF.
  unfold godunov3 in HF. apply Forall_app in HF. destruct HF as [H1 H2]. apply Forall_app. split; [exact H1|].
  constructor; [|constructor]. inversion H2; subst. assumption.
Qed.

Lemma rti2 name : problem_hydro2 name = RayleighTaylor -> name = "rayleigh_taylor"%string.
Proof.
  unfold problem_hydro2. repeat match goal with |- context [String.eqb name ?s] =>
    let X := fresh in destruct (String.eqb name s) eqn:X; [apply String.eqb_eq in X|] end; try discriminate. auto.
Qed.
Lemma rti3 name : problem_hydro3 name = RayleighTaylor -> name = "rayleigh_taylor"%string.
Proof.
  unfold problem_hydro3. repeat match goal with |- context [String.eqb name ?s] =>
    let X := fresh in destruct (String.eqb name s) eqn:X; [apply String.eqb_eq in X|] end; try discriminate. auto.
Qed.
Lemma tube name : problem_mhd name = BrioWu -> name = "brio-wu"%string.
Proof.
  unfold problem_mhd. repeat match goal with |- context [String.eqb name ?s] =>
    let X := fresh in destruct (String.eqb name s) eqn:X; [apply String.eqb_eq in X|] end; try discriminate; auto.
Qed.

(** What the program executes: initialisation, boundaries and copies of the constructor, and
    one step at iteration [n] with any time step, from any contents of the arrays. *)
Definition all_safe {T} {N : Num T} (cv : b32 -> T) E c (p : program) : Prop :=
  let m := the_mesh c in let S := the_settings cv c in let g := the_gravity c in let iv := the_version c in
  match p with
  | HydroMuscl TWO_D =>
      let inb := alloc2d m (nv2 m g iv) in
      safes inb blank_memory (init_hydro2 (e_lib E) m S (the_box cv c) (e_rnd E) (the_params cv E c) (the_problem c)) /\
      (forall s, safes inb s (make_boundaries2d m A_U ++ [deep_copy2 m A_U2 A_U])) /\
      (forall n dt s, safes inb s (godunov2 m S g dt iv (in_array n) (out_array n)))
  | HydroMuscl THREE_D =>
      let inb := alloc3d m (nv3 m g iv) in
      safes inb blank_memory (init_hydro3 (e_lib E) m S (the_box cv c) (e_rnd E) (the_params cv E c) (the_problem c)) /\
      (forall s, safes inb s (make_boundaries3d m A_U ++ [deep_copy3 m A_U2 A_U])) /\
      (forall n dt s, safes inb s (godunov3 m S g dt iv (in_array n) (out_array n)))
  | MHDMuscl TWO_D =>
      let inb := alloc2d m (mnv2 m iv) in
      safes (alloc2d m (init_nv2 (mnv2 m iv))) blank_memory
        (init_mhd2 (e_lib E) m S (the_box cv c) (e_rnd E) (the_params cv E c) (the_problem c)) /\
      (forall n s, safes inb s (mprefix2 m S (in_array n) (out_array n))) /\
      (forall n dt s, safes inb s (mgodunov2 m S dt iv (in_array n) (out_array n)))
  | MHDMuscl THREE_D =>
      let inb := alloc3d m (mnv3 m iv) in
      safes (alloc3d m (init_nv3 (mnv3 m iv))) blank_memory
        (init_mhd3 (e_lib E) m S (the_box cv c) (e_rnd E) (the_params cv E c) (the_problem c)) /\
      (forall n s, safes inb s (mprefix3 m S (in_array n) (out_array n))) /\
      (forall n dt s, safes inb s (mgodunov3 m S dt iv (in_array n) (out_array n)))
  end.

(** Every access is inside the arrays and the program ends with its files written, for every
    version of the scheme. *)
Theorem C57_completes :
  forall E c p, main_creates c = Some p -> acceptable c -> complete c ->
  all_safe (N := Vnum) dbl E c p /\ exists out, program_writes (H := Vnum) dbl E c out.
Proof.
  intros E c p Hc HU (Hl & Hf & Hrt & Hbw).
  pose proof (acceptable_ready c p Hc HU) as HR. cbv zeta in HR. destruct (C40_main c) as [_ HN]. specialize (HN p Hc).
  unfold program_writes, all_safe. rewrite Hc. cbv zeta.
  destruct p as [[]|[]]; cbn [needs] in HN; injection HN as _ Hnv Hg Hm.
  - pose proof HR as (Hw & Hgw & Hn & Hs & Hr).
    destruct (C51_hydro_in_bounds _ Vnum (e_lib E) (the_mesh c) (the_settings (H := Vnum) dbl c) (the_box dbl c) (e_rnd E) (the_params (H := Vnum) dbl E c)
      (the_gravity c) (the_version c) (the_problem c) (blank_memory (H := Vnum))) as [HI _].
    destruct (HI Hn) as [HS [s0 H0]]; [intros; apply Hrt, rti2; assumption|].
    pose proof (built2_in_foot (N := Vnum) (the_mesh c) _ (the_gravity c) (the_version c) HR) as HB.
    split.
    + split; [exact HS|]. split; [intros; apply in_foot_safes; exact HB|].
      intros n dt s. apply in_foot_safes. apply godunov2_in_foot; auto. apply cur_nxt.
    + destruct (in_foot_execs _ _ s0 HB) as [s1 H1].
      destruct (dt_local2_exists (N := Vnum) (the_mesh c) (the_settings (H := Vnum) dbl c) (the_gravity c) (field_of (dt_array 0) s1) (field_of A_G s1)) as [d Hd].
      destruct (C14_runs_complete_2d _ Vnum (the_mesh c) (the_settings (H := Vnum) dbl c) (the_gravity c) (the_version c) (the_config dbl c)
        (mksol (the_time dbl c) (clamp (H := Vnum) (the_config dbl c) (the_time dbl c) d) 0 0 [] s1) HR Hl) as (tr & s' & HM).
      eexists. split; [exact Hf|]. exists s'. split; [|reflexivity].
      exists s0, s1. eexists. exists tr. split; [exact H0|]. split; [exact H1|]. split; [|exact HM].
      exists d. split; [exact Hd|reflexivity].
  - pose proof HR as (Hw & Hgw & Hn & Hs & Hr).
    destruct (C51_hydro_in_bounds _ Vnum (e_lib E) (the_mesh c) (the_settings (H := Vnum) dbl c) (the_box dbl c) (e_rnd E) (the_params (H := Vnum) dbl E c)
      (the_gravity c) (the_version c) (the_problem c) (blank_memory (H := Vnum))) as [_ HI].
    destruct (HI Hn) as [HS [s0 H0]]; [intros; apply Hrt, rti3; assumption|].
    pose proof (built3_in_foot (N := Vnum) (the_mesh c) _ (the_gravity c) (the_version c) HR) as HB.
    split.
    + split; [exact HS|]. split; [intros; apply in_foot_safes; exact HB|].
      intros n dt s. apply in_foot_safes. apply godunov3_in_foot; auto. apply cur_nxt.
    + destruct (in_foot_execs _ _ s0 HB) as [s1 H1].
      destruct (dt_local3_exists (N := Vnum) (the_mesh c) (the_settings (H := Vnum) dbl c) (the_gravity c) (field_of3 (dt_array 0) s1) (field_of3 A_G s1)) as [d Hd].
      destruct (C14_runs_complete_3d _ Vnum (the_mesh c) (the_settings (H := Vnum) dbl c) (the_gravity c) (the_version c) (the_config dbl c)
        (mksol (the_time dbl c) (clamp (H := Vnum) (the_config dbl c) (the_time dbl c) d) 0 0 [] s1) HR Hl) as (tr & s' & HM).
      eexists. split; [exact Hf|]. exists s'. split; [|reflexivity].
      exists s0, s1. eexists. exists tr. split; [exact H0|]. split; [exact H1|]. split; [|exact HM].
      exists d. split; [exact Hd|reflexivity].
  - pose proof HR as (Hw & Hgw & Hn & Hs & Hr).
    destruct (C51_mhd_in_bounds _ Vnum (e_lib E) (the_mesh c) (the_settings (H := Vnum) dbl c) (the_box dbl c) (e_rnd E) (the_params (H := Vnum) dbl E c)
      (the_version c) (the_problem c) (blank_memory (H := Vnum)) Hn ltac:(lia)) as [[HS [s0 H0]] _]; [intros; apply Hbw, tube; assumption|].
    assert (HB : forall n, Forall (Forall (in_foot (alloc2d (the_mesh c) (mnv2 (the_mesh c) (the_version c)))))
      (mprefix2 (H := Vnum) (the_mesh c) (the_settings (H := Vnum) dbl c) (in_array n) (out_array n))).
    { intros n. apply mprefix_in_foot; auto. apply cur_nxt. }
    split.
    + split; [exact HS|]. split; [intros; apply in_foot_safes, HB|].
      intros n dt s. apply in_foot_safes. apply mgodunov2_in_foot; auto. apply cur_nxt.
    + destruct (in_foot_execs _ _ s0 (HB O)) as [s1 H1].
      set (d := ndiv (Num := Vnum) (cfl (the_settings (H := Vnum) dbl c)) (fold_left (fun a i => mdt_item2 (H := Vnum) (the_mesh c) (the_settings (H := Vnum) dbl c)
        (fun i j => getm s1 (L2 A_Q i j)) i a) (cells2 (the_mesh c)) (max_init (H := Vnum)))).
      destruct (C14_mhd_runs_complete _ Vnum (the_mesh c) (the_settings (H := Vnum) dbl c) (the_version c) (the_config dbl c)
        (mksol (the_time dbl c) (clamp (H := Vnum) (the_config dbl c) (the_time dbl c) d) 0 0 [] s1) HR Hl) as (tr & s' & HM).
      eexists. split; [exact Hf|]. exists s'. split; [|reflexivity].
      exists s0, s1. eexists. exists tr. split; [exact H0|]. split; [exact H1|]. split; [|exact HM].
      exists d. split; [|reflexivity]. eexists. split; [apply red_chunk|reflexivity].
  - pose proof HR as (Hw & Hgw & Hn & Hr & Hs).
    destruct (C51_mhd_in_bounds _ Vnum (e_lib E) (the_mesh c) (the_settings (H := Vnum) dbl c) (the_box dbl c) (e_rnd E) (the_params (H := Vnum) dbl E c)
      (the_version c) (the_problem c) (blank_memory (H := Vnum)) Hn ltac:(lia)) as [_ [HS [s0 H0]]]; [intros; apply Hbw, tube; assumption|].
    assert (HB : forall n, Forall (Forall (in_foot (alloc3d (the_mesh c) (mnv3 (the_mesh c) (the_version c)))))
      (mprefix3 (H := Vnum) (the_mesh c) (the_settings (H := Vnum) dbl c) (in_array n) (out_array n))).
    { intros n. apply mprefix3_in_foot; auto. apply cur_nxt. }
    split.
    + split; [exact HS|]. split; [intros; apply in_foot_safes, HB|].
      intros n dt s. apply in_foot_safes. apply mgodunov3_in_foot; auto; apply cur_nxt.
    + destruct (in_foot_execs _ _ s0 (HB O)) as [s1 H1].
      set (d := ndiv (Num := Vnum) (cfl (the_settings (H := Vnum) dbl c)) (fold_left (fun a i => mdt_item3 (H := Vnum) (the_mesh c) (the_settings (H := Vnum) dbl c)
        (fun i j k => getm s1 (mkloc A_Q i j k)) i a) (cells3 (the_mesh c)) (max_init (H := Vnum)))).
      destruct (C14_mhd3d_runs_complete _ Vnum (the_mesh c) (the_settings (H := Vnum) dbl c) (the_version c) (the_config dbl c)
        (mksol (the_time dbl c) (clamp (H := Vnum) (the_config dbl c) (the_time dbl c) d) 0 0 [] s1) HR Hl) as (tr & s' & HM).
      eexists. split; [exact Hf|]. exists s'. split; [|reflexivity].
      exists s0, s1. eexists. exists tr. split; [exact H0|]. split; [exact H1|]. split; [|exact HM].
      exists d. split; [|reflexivity]. eexists. split; [apply red_chunk|reflexivity].
Qed.
Print Assumptions C57_completes.

Theorem C57_one_output :
  forall E c p, main_creates c = Some p -> usable c -> complete c ->
  all_safe (N := Vnum) dbl E c p /\
  exists out, program_writes (H := Vnum) dbl E c out /\ forall out', program_writes (H := Vnum) dbl E c out' -> out' = out.
Proof.
  intros E c p Hc HU HC. destruct (C57_completes E c p Hc (usable_acceptable c HU) HC) as [H0 [out HW]].
  split; [exact H0|]. exists out. split; [exact HW|]. intros out' HW'.
  eapply C57_file_determines_output; eauto. repeat split; auto.
Qed.
Print Assumptions C57_one_output.

(** ** Each setting of the run comes from its own key *)
Section RunParams.
Context {T : Type} {N : Num T}.
Inductive setting :=
| SReal (s n : string) (default : string) (value : T)
| SInt (s n : string) (default : Z) (value : Z)
| SFlag (s n : string) (default : bool) (value : bool).

Definition run_params (cv : b32 -> T) (c : cmap) : list setting :=
  let S := the_settings cv c in let m := the_mesh c in let k := the_config cv c in
  [ SReal "hydro" "gamma0" "1.4" (gamma0 S); SReal "hydro" "smallr" "1e-10" (smallr S);
    SReal "hydro" "smallc" "1e-10" (smallc S); SReal "hydro" "slope_type" "1" (slope_type S);
    SReal "hydro" "cfl" "0.5" (cfl S);
    SReal "mesh" "xmin" "0" (xmin (the_box cv c)); SReal "mesh" "xmax" "1" (xmax (the_box cv c));
    SReal "mesh" "ymin" "0" (ymin (the_box cv c)); SReal "mesh" "ymax" "1" (ymax (the_box cv c));
    SReal "mesh" "zmin" "0" (zmin (the_box cv c)); SReal "mesh" "zmax" "1" (zmax (the_box cv c));
    SReal "mesh" "xmin" "0" (g_xmin (the_geom cv c)); SReal "mesh" "ymin" "0" (g_ymin (the_geom cv c));
    SReal "mesh" "zmin" "0" (g_zmin (the_geom cv c));
    SInt "mesh" "nx" 1 (nx m); SInt "mesh" "ny" 1 (ny m); SInt "mesh" "nz" 1 (nz m);
    SInt "mesh" "boundary_type_xmin" 1 (bc m XMIN); SInt "mesh" "boundary_type_xmax" 1 (bc m XMAX);
    SInt "mesh" "boundary_type_ymin" 1 (bc m YMIN); SInt "mesh" "boundary_type_ymax" 1 (bc m YMAX);
    SInt "mesh" "boundary_type_zmin" 1 (bc m ZMIN); SInt "mesh" "boundary_type_zmax" 1 (bc m ZMAX);
    SReal "run" "tCurrent" "0" (the_time cv c); SReal "run" "tEnd" "0" (c_tEnd k);
    SInt "run" "nstepmax" 1000 (c_nStepmax k); SInt "run" "noutput" 100 (c_nOutput k); SInt "run" "nlog" 10 (c_nlog k);
    SFlag "gravity" "enabled" false (g_enabled (the_gravity c));
    SFlag "gravity" "hancock_predictor_enabled" false (g_hancock (the_gravity c));
    SFlag "output" "vtk_enabled" true (vtk_enabled c); SFlag "run" "restart_enabled" false (is_restart c) ].

Definition obeyed (cv : b32 -> T) (out : list (chars * chars * chars)) (e : setting) : Prop :=
  match e with
  | SReal s n dflt v => forall d x, as_real (lit dflt) = Some d -> gives as_real s n d out x -> v = cv x
  | SInt s n d v => forall x, gives as_int s n d out x -> v = x
  | SFlag s n d v => forall x, gives as_bool s n d out x -> v = x
  end.
End RunParams.

(** Also: the cells divide the domain evenly, and the derived constants. *)
Theorem C57_run_settings :
  forall (T : Type) (N : Num T) (cv : b32 -> T) out c, settings_of out c ->
  (forall e, In e (run_params cv c) -> obeyed cv out e) /\
  (let S := the_settings cv c in let B := the_box cv c in let m := the_mesh c in
   dx S = ndiv (nsub (xmax B) (xmin B)) (nZ (nx m)) /\ dy S = ndiv (nsub (ymax B) (ymin B)) (nZ (ny m)) /\
   dz S = ndiv (nsub (zmax B) (zmin B)) (nZ (nz m)) /\
   smallp S = ndiv (nmul (smallc S) (smallc S)) (gamma0 S) /\ smallpp S = nmul (smallr S) (smallp S) /\
   gamma6 S = ndiv (nadd (gamma0 S) n1) (nmul n2 (gamma0 S)) /\
   g_dx (the_geom cv c) = dx S /\ g_dy (the_geom cv c) = dy S /\ g_dz (the_geom cv c) = dz S /\
   pos_i B = 0 /\ pos_j B = 0 /\ pos_k B = 0).
Proof.
  intros T N cv out c Hc. split.
  - intros e. unfold run_params. cbv zeta. cbn [In]. intros He.
    assert (HM : nx (the_mesh c) = int_setting c "mesh" "nx" 1 /\ ny (the_mesh c) = int_setting c "mesh" "ny" 1 /\
      nz (the_mesh c) = int_setting c "mesh" "nz" 1 /\ bc (the_mesh c) = boundary_setting c).
    { unfold the_mesh, mesh_setting. destruct (layout _) as [[? ?] ?]. repeat split. }
    destruct HM as (M1 & M2 & M3 & M4). rewrite M1, M2, M3, M4 in He.
    repeat (destruct He as [<- | He]); try destruct He;
    cbv beta iota delta [obeyed the_settings derive gamma0 smallr smallc slope_type cfl the_box xmin xmax ymin ymax zmin zmax
      the_geom g_xmin g_ymin g_zmin the_time the_config c_tEnd c_nStepmax c_nOutput c_nlog the_gravity g_enabled g_hancock
      vtk_enabled is_restart bound_lo bound_hi boundary_setting flag].
    all: first
     [ eapply real_entry; [ exact Hc | dotless_ | vm_compute; reflexivity ]
     | intros x Hx; eapply int_gives; [ dotless_ | exact Hc | reflexivity | exact Hx ]
     | intros x Hx; eapply bool_gives; [ dotless_ | exact Hc | exact Hx ] ].
  - cbv zeta. repeat split; cbn [dx dy dz the_settings derive the_box xmax xmin ymax ymin zmax zmin]; unfold cell_size; rewrite Z.mul_1_r; reflexivity.
Qed.
Print Assumptions C57_run_settings.

(** The solver, the Riemann solver and the version are looked up by name. *)
Theorem C57_names :
  forall c v w, get_string c (lit "hydro") (lit "problem") (lit "unknown") = lit v ->
  get_string c (lit "hydro") (lit "riemann") (lit "approx") = lit w ->
  the_problem c = v /\
  (In w ["approx"; "hll"; "hllc"; "hlld"; "llf"]%string ->
   forall (T : Type) (N : Num T) (cv : b32 -> T), exists k,
     nth_error [R_APPROX; R_HLL; R_HLLC; R_HLLD; R_LLF] k = Some (solver (the_settings cv c)) /\
     nth_error ["approx"; "hll"; "hllc"; "hlld"; "llf"]%string k = Some w).
Proof.
  intros c v w Hv Hw. split.
  - unfold the_problem. rewrite Hv. unfold lit. apply string_of_list_ascii_of_string.
  - intros Hin T N cv. cbn [solver the_settings derive]. unfold riemann_setting. rewrite Hw. unfold lit. rewrite string_of_list_ascii_of_string.
    cbn [In] in Hin. destruct Hin as [<-|[<-|[<-|[<-|[<-|[]]]]]];
    [exists 0%nat|exists 1%nat|exists 2%nat|exists 3%nat|exists 4%nat]; split; reflexivity.
Qed.
Print Assumptions C57_names.

(** The header of the image files: origin and size of the cells as read from the file. *)
Theorem C57_image_header :
  forall (T : Type) (N : Num T) (cv : b32 -> T) E c,
  let r := rshow (e_fmt E) in let B := the_box cv c in let S := the_settings cv c in
  (forall f t, snd (image2 cv E c f) = Some t ->
     occurs t (lit " Origin=""" ++ (r (xmin B) ++ sp ++ r (ymin B) ++ sp ++ lit "0") ++
               lit """ Spacing=""" ++ (r (dx S) ++ sp ++ r (dy S) ++ sp ++ r (rzero (e_fmt E))) ++ lit """")) /\
  (forall f t, snd (image3 cv E c f) = Some t ->
     occurs t (lit " Origin=""" ++ (r (xmin B) ++ sp ++ r (ymin B) ++ sp ++ r (zmin B)) ++
               lit """ Spacing=""" ++ (r (dx S) ++ sp ++ r (dy S) ++ sp ++ r (dz S)) ++ lit """")).
Proof.
  assert (X : forall x0 x1 y0 y1 z0 z1 o s t, occurs (extents x0 x1 y0 y1 z0 z1 o s t)
    (lit " Origin=""" ++ o ++ lit """ Spacing=""" ++ s ++ lit """")).
  { intros. unfold extents. do 2 apply occurs_app_r. change (lit """ Origin=""") with (lit """" ++ lit " Origin=""").
    rewrite <- app_assoc. apply occurs_app_r. change (lit """>") with (lit """" ++ lit ">").
    exists 0. exists []. eexists. split; [|reflexivity]. cbn [app]. rewrite <- !app_assoc. reflexivity. }
  intros T N cv E c r B S. split; intros f t; unfold image2, image3, save_VTK_2D, save_VTK_3D, content; cbn [snd].
  - destruct (if o_ascii _ then _ else _) as [b|]; [|discriminate]. intros [= <-].
    apply occurs_app_l. apply occurs_app_r. apply X.
  - destruct (if o_ascii _ then _ else _) as [b|]; [|discriminate]. intros [= <-].
    apply occurs_app_l. apply occurs_app_r. apply X.
Qed.
Print Assumptions C57_image_header.

(** ** What else the file contains does not matter *)
Definition used_keys : list (string * string) :=
  [ ("run", "solver_name"); ("run", "tEnd"); ("run", "tCurrent"); ("run", "nstepmax"); ("run", "noutput"); ("run", "nlog");
    ("run", "restart_enabled");
    ("mesh", "nx"); ("mesh", "ny"); ("mesh", "nz"); ("mesh", "xmin"); ("mesh", "xmax"); ("mesh", "ymin"); ("mesh", "ymax");
    ("mesh", "zmin"); ("mesh", "zmax"); ("mesh", "boundary_type_xmin"); ("mesh", "boundary_type_xmax");
    ("mesh", "boundary_type_ymin"); ("mesh", "boundary_type_ymax"); ("mesh", "boundary_type_zmin"); ("mesh", "boundary_type_zmax");
    ("hydro", "gamma0"); ("hydro", "smallr"); ("hydro", "smallc"); ("hydro", "slope_type"); ("hydro", "cfl");
    ("hydro", "riemann"); ("hydro", "problem"); ("OTHER", "implementationVersion");
    ("gravity", "enabled"); ("gravity", "hancock_predictor_enabled");
    ("output", "vtk_enabled"); ("output", "outputDir"); ("output", "outputPrefix"); ("output", "outputVtkAscii");
    ("implode", "density_outer"); ("implode", "pressure_outer"); ("implode", "vx_outer"); ("implode", "vy_outer"); ("implode", "vz_outer");
    ("implode", "Bx_outer"); ("implode", "By_outer"); ("implode", "Bz_outer");
    ("implode", "density_inner"); ("implode", "pressure_inner"); ("implode", "vx_inner"); ("implode", "vy_inner"); ("implode", "vz_inner");
    ("implode", "Bx_inner"); ("implode", "By_inner"); ("implode", "Bz_inner"); ("implode", "shape_region");
    ("blast", "radius"); ("blast", "center_x"); ("blast", "center_y"); ("blast", "center_z"); ("blast", "density_in");
    ("blast", "density_out"); ("blast", "pressure_in"); ("blast", "pressure_out"); ("blast", "bx_in"); ("blast", "bx_out");
    ("blast", "bz_in"); ("blast", "bz_out");
    ("KH", "d_in"); ("KH", "d_out"); ("KH", "pressure"); ("KH", "perturbation_sine"); ("KH", "perturbation_sine_robertson");
    ("KH", "perturbation_rand"); ("KH", "vflow_in"); ("KH", "vflow_out"); ("KH", "amplitude"); ("KH", "mode"); ("KH", "w0"); ("KH", "delta");
    ("Gresho", "rho0"); ("Gresho", "Ma");
    ("riemann2d", "config_number"); ("riemann2d", "x"); ("riemann2d", "y"); ("riemann2d", "z");
    ("isentropic_vortex", "density_ambient"); ("isentropic_vortex", "temperature_ambient"); ("isentropic_vortex", "vx_ambient");
    ("isentropic_vortex", "vy_ambient"); ("isentropic_vortex", "center_x"); ("isentropic_vortex", "center_y"); ("isentropic_vortex", "strength");
    ("rayleigh_taylor", "amplitude"); ("rayleigh_taylor", "d0"); ("rayleigh_taylor", "d1"); ("rayleigh_taylor", "gx");
    ("rayleigh_taylor", "gy"); ("rayleigh_taylor", "gz");
    ("brio-wu", "rhoL"); ("brio-wu", "pL"); ("brio-wu", "uL"); ("brio-wu", "ByL"); ("brio-wu", "rhoR"); ("brio-wu", "pR");
    ("brio-wu", "uR"); ("brio-wu", "ByR"); ("brio-wu", "Bx"); ("brio-wu", "direction"); ("brio-wu", "xd");
    ("OrszagTang", "kt"); ("OrszagTang", "vortex_dir");
    ("rotor", "r0"); ("rotor", "r1"); ("rotor", "u0"); ("rotor", "p0"); ("rotor", "b0");
    ("FieldLoop", "radius"); ("FieldLoop", "density_in"); ("FieldLoop", "amplitude"); ("FieldLoop", "vflow") ]%string.

Definition among (s n : string) : bool :=
  existsb (fun k => (String.eqb (fst k) s && String.eqb (snd k) n)%bool) used_keys.

Lemma among_in s n : among s n = true -> In (s, n) used_keys.
Proof.
  unfold among. rewrite existsb_exists. intros ((a & b) & Hin & He). cbn in He.
  apply andb_prop in He. destruct He as [H1 H2]. apply String.eqb_eq in H1, H2. subst. exact Hin.
Qed.

Lemma used_dotless s n : In (s, n) used_keys -> dotless (lit s).
Proof.
  intros Hin. assert (A : forallb (fun k => negb (existsb (Ascii.eqb ".") (lit (fst k)))) used_keys = true) by (vm_compute; reflexivity).
  rewrite forallb_forall in A. specialize (A _ Hin). cbn [fst] in A.
  intros Hd. apply Bool.negb_true_iff in A. enough (existsb (Ascii.eqb ".") (lit s) = true) by congruence.
  apply existsb_exists. exists "."%char. split; [exact Hd|apply Ascii.eqb_refl].
Qed.

Section Agree.
Variables (out out' : list (chars * chars * chars)) (c c' : cmap).
Hypothesis Hc : settings_of out c.
Hypothesis Hc' : settings_of out' c'.
Hypothesis Hk : forall s n, In (s, n) used_keys -> same_setting out out' (lit s, lit n).

Lemma ag_string s n d : among s n = true -> get_string c (lit s) (lit n) d = get_string c' (lit s) (lit n) d.
Proof.
  intros Hin%among_in. assert (Hd := used_dotless _ _ Hin). assert (S := Hk _ _ Hin).
  destruct Hc as (t & ls & err & Ht & Hc0 & Hl & Hm & Ho). destruct Hc' as (t' & ls' & err' & Ht' & Hc0' & Hl' & Hm' & Ho').
  destruct (C30_last_definition_wins t c ls out err (lit s) (lit n) d Ht Hc0 Hl Hm Hd Ho) as [K1 K2].
  destruct (C30_last_definition_wins t' c' ls' out' err' (lit s) (lit n) d Ht' Hc0' Hl' Hm' Hd Ho') as [K1' K2'].
  destruct (latest_or_unset (lit s) (lit n) out) as [(v & Hv)|U].
  - rewrite (K1 v Hv). symmetry. apply K1'. apply S. exact Hv.
  - rewrite (K2 U). symmetry. apply K2'. destruct (latest_or_unset (lit s) (lit n) out') as [(v & Hv)|U']; [|exact U'].
    exfalso. apply S in Hv. exact (unset_latest _ _ _ _ U Hv).
Qed.
Lemma ag_float s n d : among s n = true -> get_float c (lit s) (lit n) d = get_float c' (lit s) (lit n) d.
Proof.
  intros Hin%among_in. assert (Hd := used_dotless _ _ Hin). assert (S := Hk _ _ Hin).
  destruct (gives_some as_real s n d out) as (x & Hx). rewrite (real_gives out c s n d x Hd Hc Hx). symmetry.
  apply (real_gives out'); auto. exact (same_gives _ _ _ _ _ _ _ S Hx).
Qed.
Lemma ag_bool s n d : among s n = true -> get_bool c (lit s) (lit n) d = get_bool c' (lit s) (lit n) d.
Proof.
  intros Hin%among_in. assert (Hd := used_dotless _ _ Hin). assert (S := Hk _ _ Hin).
  destruct (gives_some as_bool s n d out) as (x & Hx). rewrite (bool_gives out c s n d x Hd Hc Hx). symmetry.
  apply (bool_gives out'); auto. exact (same_gives _ _ _ _ _ _ _ S Hx).
Qed.
Lemma ag_int s n d : among s n = true -> to_int d = d -> int_setting c s n d = int_setting c' s n d.
Proof.
  intros Hin%among_in Ei. assert (Hd := used_dotless _ _ Hin). assert (S := Hk _ _ Hin).
  destruct (gives_some as_int s n d out) as (x & Hx). rewrite (int_gives out c s n d x Hd Hc Ei Hx). symmetry.
  apply (int_gives out'); auto. exact (same_gives _ _ _ _ _ _ _ S Hx).
Qed.

Ltac ag := repeat match goal with
  | |- context [get_float c (lit ?s) (lit ?n) ?d] => rewrite (ag_float s n d eq_refl)
  | |- context [get_bool c (lit ?s) (lit ?n) ?d] => rewrite (ag_bool s n d eq_refl)
  | |- context [int_setting c ?s ?n ?d] => rewrite (ag_int s n d eq_refl eq_refl)
  | |- context [get_string c (lit ?s) (lit ?n) ?d] => rewrite (ag_string s n d eq_refl)
  end.

Context {T : Type} {N : Num T}.
Variables (cv : b32 -> T) (E : outside T).

Lemma ag_mesh : the_mesh c = the_mesh c'.
Proof. unfold the_mesh, mesh_setting, solver_name, boundary_setting. ag. reflexivity. Qed.
Lemma ag_box : the_box cv c = the_box cv c'.
Proof. unfold the_box, bound_lo, bound_hi, real, flt. ag. reflexivity. Qed.
Lemma ag_settings : the_settings cv c = the_settings cv c'.
Proof. unfold the_settings, riemann_setting, bound_lo, bound_hi, real, flt. rewrite ag_mesh. ag. reflexivity. Qed.
Lemma ag_params : the_params cv E c = the_params cv E c'.
Proof.
  assert (E2 : main_creates c = main_creates c') by (unfold main_creates, solver_name; ag; reflexivity).
  unfold the_params, three_d, read_problems. rewrite E2. f_equal;
  unfold read_implode, read_blast, read_kh, read_gresho, read_quad, read_vortex, read_rti,
      read_briowu, read_ot, read_rotor, read_loop, flag, lower, upper, real, flt; cbv zeta; ag; reflexivity.
Qed.

Lemma ag_program o : program_writes cv E c o <-> program_writes cv E c' o.
Proof.
  assert (E1 : is_restart c = is_restart c') by (unfold is_restart, flag; ag; reflexivity).
  assert (E2 : main_creates c = main_creates c') by (unfold main_creates, solver_name; ag; reflexivity).
  assert (E3 : the_version c = the_version c') by (unfold the_version, version_setting; ag; reflexivity).
  assert (E4 : the_gravity c = the_gravity c') by (unfold the_gravity, flag; ag; reflexivity).
  assert (E5 : the_config cv c = the_config cv c') by (unfold the_config, real, flt; ag; reflexivity).
  assert (E6 : the_time cv c = the_time cv c') by (unfold the_time, real, flt; ag; reflexivity).
  assert (E7 : the_problem c = the_problem c') by (unfold the_problem; ag; reflexivity).
  assert (E8 : vtk_enabled c = vtk_enabled c') by (unfold vtk_enabled, flag; ag; reflexivity).
  assert (E9 : read_outconf c = read_outconf c') by (unfold read_outconf; ag; reflexivity).
  unfold program_writes, runs_hydro2, runs_hydro3, runs_mhd2, runs_mhd3, image2, image3, constructed, the_geom.
  rewrite E1, E2, E3, E4, E5, E6, E7, E8, E9, ag_mesh, ag_box, ag_settings, ag_params. reflexivity.
Qed.
End Agree.

Theorem C57_other_keys_do_not_matter :
  forall (T : Type) (N : Num T) (cv : b32 -> T) (E : outside T) out out' c c',
  settings_of out c -> settings_of out' c' ->
  (forall s n, In (s, n) used_keys -> same_setting out out' (lit s, lit n)) ->
  forall o, program_writes cv E c o <-> program_writes cv E c' o.
Proof. intros T N cv E out out' c c' Hc Hc' Hk. exact (ag_program out out' c c' Hc Hc' Hk cv E). Qed.
Print Assumptions C57_other_keys_do_not_matter.

(** In particular the settings of the iterative Riemann solver: the code always does 10 iterations. *)
Example C57_unused_keys :
  Forall (fun k => among (fst k) (snd k) = false)
    [("hydro", "niter_riemann"); ("hydro", "iorder"); ("mpi", "mx"); ("blast", "by_in"); ("blast", "by_out"); ("gravity", "g_x")]%string.
Proof. repeat constructor. Qed.

(** Two files that differ in the order of the scheme and the number of iterations. *)
Definition ex_plain : chars := lit "[run]" ++ nl ++ lit "solver_name=Hydro_Muscl_2D" ++ nl.
Definition ex_order : chars := ex_plain ++ lit "[hydro]" ++ nl ++ lit "iorder=1" ++ nl ++ lit "niter_riemann=50" ++ nl.

Lemma reads_plain p n v :
  forallb (fun x => negb (isspace x)) n = true -> forallb (fun x => negb (isspace x)) v = true ->
  forallb (fun x => negb (Ascii.eqb "=" x)) n = true -> n <> [] ->
  (forall x t, n = x :: t -> ~ opening x /\ x <> "["%char) -> reads p (n ++ "="%char :: v) (Setting n v).
Proof.
  intros H1 H2 H3 H4 H5.
  replace (n ++ "="%char :: v) with ([] ++ n ++ [] ++ "="%char :: [] ++ v ++ []) by (cbn; rewrite app_nil_r; reflexivity).
  apply (reads_setting p [] n [] [] v []).
  - split; [ constructor | reflexivity ].
  - apply solid_trimmed; exact H1.
  - constructor.
  - apply not_in_eqb; exact H3.
  - apply solid_uncommented; exact H1.
  - exact H5.
  - intros; contradiction.
  - constructor.
  - apply solid_trimmed; exact H2.
  - apply solid_uncommented; exact H2.
  - left; constructor.
Qed.
Lemma plain_start c n : Ascii.eqb ";" c = false -> Ascii.eqb "#" c = false -> Ascii.eqb "[" c = false ->
  forall x t, c :: n = x :: t -> ~ opening x /\ x <> "["%char.
Proof. intros E1 E2 E3 x t E; injection E as <- _. apply Ascii.eqb_neq in E1, E2, E3. unfold opening. split; [ intros [-> | ->] |]; congruence. Qed.

Ltac line_setting n v := eapply means_setting; [ apply (reads_plain _ (lit n) (lit v)); try reflexivity; try discriminate; apply plain_start; reflexivity |].
Ltac line_section n := eapply (means_section _ _ _ _ _ _ _ (lit n));
  [ apply (reads_section _ [] (lit n) []); [ split; [ constructor | first [ discriminate | intros _; reflexivity ] ] | apply not_in_eqb; reflexivity | apply solid_uncommented; reflexivity ] |].

Lemma settings_lines t ls out : no_nul t -> lines_of t ls -> means 1 [] [] ls out None -> sections_dotless out ->
  Forall (fun l => (List.length l <= 199)%nat) ls -> settings_of out (serial_parameters (Some t)).
Proof.
  intros Ht L M D Hs. exists t, ls, None. split; [ exact Ht |]. split; [| auto ].
  apply obtains_serial. intros t' ls' Et Hl. injection Et as <-.
  rewrite <- (buffer_lines_spec t ls' Hl), (buffer_lines_spec t _ L). exact Hs.
Qed.

Example C57_other_keys_case : exists out out',
  settings_of out (serial_parameters (Some ex_plain)) /\ settings_of out' (serial_parameters (Some ex_order)) /\
  out <> out' /\ (forall s n, In (s, n) used_keys -> same_setting out out' (lit s, lit n)) /\
  main_creates (serial_parameters (Some ex_order)) = Some (HydroMuscl TWO_D).
Proof.
  exists [(lit "run", lit "solver_name", lit "Hydro_Muscl_2D")].
  exists [(lit "run", lit "solver_name", lit "Hydro_Muscl_2D"); (lit "hydro", lit "iorder", lit "1"); (lit "hydro", lit "niter_riemann", lit "50")].
  split; [| split; [| split; [ discriminate | split; [| vm_compute; reflexivity ]]]].
  - apply (settings_lines _ [lit "[run]"; lit "solver_name=Hydro_Muscl_2D"]).
    + apply not_in_eqb; reflexivity.
    + split; [| left; reflexivity ]. repeat constructor; apply not_in_eqb; reflexivity.
    + line_section "run"%string. line_setting "solver_name"%string "Hydro_Muscl_2D"%string. apply means_end.
    + repeat constructor; apply not_in_eqb; reflexivity.
    + repeat constructor.
  - apply (settings_lines _ [lit "[run]"; lit "solver_name=Hydro_Muscl_2D"; lit "[hydro]"; lit "iorder=1"; lit "niter_riemann=50"]).
    + apply not_in_eqb; reflexivity.
    + split; [| left; reflexivity ]. repeat constructor; apply not_in_eqb; reflexivity.
    + line_section "run"%string. line_setting "solver_name"%string "Hydro_Muscl_2D"%string.
      line_section "hydro"%string. line_setting "iorder"%string "1"%string. line_setting "niter_riemann"%string "50"%string. apply means_end.
    + repeat constructor; apply not_in_eqb; reflexivity.
    + repeat constructor.
  - intros s n Hin.
    assert (N : forall a b, text_eqb (make_key a b) (make_key (lit s) (lit n)) = false -> ~ (same a (lit s) /\ same b (lit n))).
    { intros a b E [H1 H2]. rewrite (make_key_congr _ _ _ _ H1 H2) in E.
      assert (X : text_eqb (make_key (lit s) (lit n)) (make_key (lit s) (lit n)) = true) by (apply text_eqb_eq; reflexivity). congruence. }
    assert (A : forallb (fun k => negb (text_eqb (make_key (lit "hydro") (lit "iorder")) (make_key (lit (fst k)) (lit (snd k)))) &&
       negb (text_eqb (make_key (lit "hydro") (lit "niter_riemann")) (make_key (lit (fst k)) (lit (snd k)))))%bool used_keys = true) by (vm_compute; reflexivity).
    rewrite forallb_forall in A. specialize (A _ Hin). cbn [fst snd] in A. apply andb_prop in A. destruct A as [A1 A2].
    apply negb_true_iff, N in A1. apply negb_true_iff, N in A2.
    intros v. cbn [fst snd]. split.
    + intros (b & sec & nm & a & E & H1 & H2 & H3).
      destruct b as [|x b]; [| destruct b; discriminate E ]. injection E as <- <- <- <-.
      eexists [], _, _, _. split; [ reflexivity |]. split; [ exact H1 |]. split; [ exact H2 |]. repeat constructor; assumption.
    + intros (b & sec & nm & a & E & H1 & H2 & H3).
      destruct b as [|x b]; [ injection E as <- <- <- <-; eexists [], _, _, []; repeat split; auto |].
      exfalso. destruct b as [|y b]; [ injection E as _ <- <- <- _; apply A1; auto |].
      destruct b as [|z b]; [ injection E as _ _ <- <- <- _; apply A2; auto | destruct b; discriminate E ].
Qed.
