(** * The whole serial program, from the text of the parameter file to the files written

    Models /repo/src/main.cpp:63-153 without MPI, HDF5 and PNETCDF: the parameters
    (shared/HydroParams.cpp:36-186, 325-352, SolverBase.cpp:22-45, GravityParams.h),
    the constructors of the solvers (muscl/SolverHydroMuscl.h:163-300,
    SolverMHDMuscl.h:210-400), the main loop and the image files (utils/io/IO_ReadWrite.cpp:25-92).
    The pieces are those of Config.v, Params.v, ProblemParams.v, Init.v, Driver.v,
    HydroMachine.v, MhdMachine.v, Mhd3DMachine.v and Vtk.v.  Not modelled: messages,
    timers, restart (Restart.v), and the limits of memory. *)
From Coq Require Import Ascii String ZArith List Bool.
Import ListNotations.
From Verif Require Import Num Exec Grid Boundaries BoundariesSpec HydroNum Kernels Hydro2D Hydro2DSpec Hydro3D Hydro3DSpec
  Hydro2DRun Hydro3DRun Driver HydroMachine MhdMachine Mhd3DMachine Mhd2D Mhd3D Config Params Binary64 ProblemParams Init RiemannConfig Vtk.
Local Open Scope Z_scope.

(** What the program takes from outside the parameter file: the mathematical library,
    the random numbers of each cell, the contents of memory never assigned, and the output
    of numbers. *)
Record outside (T : Type) := mkoutside {
  e_lib : mlib T;
  e_rnd : nat -> Z -> Z -> Z -> T;
  e_mem : memory T;
  e_fmt : rformat T
}.
Arguments e_lib {T}. Arguments e_rnd {T}. Arguments e_mem {T}. Arguments e_fmt {T}.

Section Program.
Context {T : Type} `{Num T} (cv : b32 -> T) (E : outside T) (c : cmap).

(** HydroParams.cpp:44-46, 59-64 *)
Definition bound_lo (k : string) : T := real cv c "mesh" k (dflt 0 1).
Definition bound_hi (k : string) : T := real cv c "mesh" k (dflt 1 1).
Definition the_mesh : mesh := mesh_setting c.
Definition the_box : box T :=
  mkbox T (bound_lo "xmin") (bound_hi "xmax") (bound_lo "ymin") (bound_hi "ymax") (bound_lo "zmin") (bound_hi "zmax") 0 0 0.

(** HydroParams.cpp:122-148, 158-163, 343-345; HydroParams.h [HydroSettings] *)
Definition the_settings : hset T :=
  derive (real cv c "hydro" "gamma0" (dflt 14 10))
         (real cv c "hydro" "smallr" (dflt 1 (10 ^ 10)))
         (real cv c "hydro" "smallc" (dflt 1 (10 ^ 10)))
         (real cv c "hydro" "slope_type" (dflt 1 1))
         (real cv c "hydro" "cfl" (dflt 5 10))
         (riemann_setting c)
         (cell_size (bound_lo "xmin") (bound_hi "xmax") (nx the_mesh) 1)
         (cell_size (bound_lo "ymin") (bound_hi "ymax") (ny the_mesh) 1)
         (cell_size (bound_lo "zmin") (bound_hi "zmax") (nz the_mesh) 1).

(** HydroParams.cpp:150-156 *)
Definition the_version : impl :=
  if version_setting c =? 0 then V0 else if version_setting c =? 1 then V1 else V2.

(** GravityParams.h:33-34 *)
Definition the_gravity : gravp :=
  mkgravp (flag c "gravity" "enabled" false) (flag c "gravity" "hancock_predictor_enabled" false).

(** HydroParams.cpp:38-43, SolverBase.cpp:28-32 *)
Definition the_config : config :=
  mkconfig (real cv c "run" "tEnd" (dflt 0 1)) (int_setting c "run" "nstepmax" 1000)
           (int_setting c "run" "noutput" 100) (int_setting c "run" "nlog" 10).
Definition the_time : T := real cv c "run" "tCurrent" (dflt 0 1).

(** SolverBase.cpp:36; SolverHydroMuscl.cpp:84, SolverMHDMuscl.h:649 *)
Definition the_problem : string := string_of_list_ascii (get_string c (lit "hydro") (lit "problem") (lit "unknown")).
(** SolverHydroMuscl.cpp:84, 153, SolverMHDMuscl.h:649 (the integer of SolverBase.cpp:26 is never used) *)
Definition is_restart : bool := flag c "run" "restart_enabled" false.

(** initRiemannConfig2d.h:96-109: the table is that of the solver's dimension. *)
Definition three_d : bool :=
  match main_creates c with Some (HydroMuscl THREE_D) | Some (MHDMuscl THREE_D) => true | _ => false end.
Definition the_params : problems T := read_problems cv (e_mem E) c (riemann_config three_d).

(** SolverBase.cpp:22-45, 125-154; SolverHydroMuscl.h:286, SolverMHDMuscl.h:397: the
    solver left by the constructor, which computes a first time step. *)
Definition constructed {D} (P : machine T (store T) D) (mem : store T) (s : sol (T := T) (M := store T) (D := D)) : Prop :=
  exists d, local_dt P 0 mem d /\ s = mksol the_time (clamp the_config the_time d) 0 0 [] mem.

(** Kokkos zero-fills a new View. *)
Definition blank_memory : store T := fun _ => n0.

(** SolverHydroMuscl.h:184-285 (allocation, init, boundaries, copy), main.cpp:117-138.
    [s'] is the state of the solver at the end. *)
Definition runs_hydro2 (s' : sol (T := T) (M := store T) (D := field2 T)) : Prop :=
  let inb := alloc2d the_mesh (nv2 the_mesh the_gravity the_version) in
  exists s0 s1 s tr,
    execs inb blank_memory (init_hydro2 (e_lib E) the_mesh the_settings the_box (e_rnd E) the_params the_problem) s0 /\
    built2 the_mesh inb s0 s1 /\ constructed (hydro2 the_mesh the_settings the_gravity inb the_version) s1 s /\
    main (hydro2 the_mesh the_settings the_gravity inb the_version) the_config s tr s'.

Definition runs_hydro3 (s' : sol (T := T) (M := store T) (D := field3 T)) : Prop :=
  let inb := alloc3d the_mesh (nv3 the_mesh the_gravity the_version) in
  exists s0 s1 s tr,
    execs inb blank_memory (init_hydro3 (e_lib E) the_mesh the_settings the_box (e_rnd E) the_params the_problem) s0 /\
    built3 the_mesh inb s0 s1 /\ constructed (hydro3 the_mesh the_settings the_gravity inb the_version) s1 s /\
    main (hydro3 the_mesh the_settings the_gravity inb the_version) the_config s tr s'.

(** SolverMHDMuscl.h:225-397; the vector potential of the field loop is a temporary. *)
Definition runs_mhd2 (s' : sol (T := T) (M := store T) (D := field2 T)) : Prop :=
  let inb := alloc2d the_mesh (mnv2 the_mesh the_version) in
  exists s0 s1 s tr,
    execs (alloc2d the_mesh (init_nv2 (mnv2 the_mesh the_version))) blank_memory
      (init_mhd2 (e_lib E) the_mesh the_settings the_box (e_rnd E) the_params the_problem) s0 /\
    mbuilt2 the_mesh the_settings inb s0 s1 /\ constructed (mhd2 the_mesh the_settings inb the_version) s1 s /\
    main (mhd2 the_mesh the_settings inb the_version) the_config s tr s'.

Definition runs_mhd3 (s' : sol (T := T) (M := store T) (D := field3 T)) : Prop :=
  let inb := alloc3d the_mesh (mnv3 the_mesh the_version) in
  exists s0 s1 s tr,
    execs (alloc3d the_mesh (init_nv3 (mnv3 the_mesh the_version))) blank_memory
      (init_mhd3 (e_lib E) the_mesh the_settings the_box (e_rnd E) the_params the_problem) s0 /\
    mbuilt3 the_mesh the_settings inb s0 s1 /\ constructed (mhd3 the_mesh the_settings inb the_version) s1 s /\
    main (mhd3 the_mesh the_settings inb the_version) the_config s tr s'.

(** IO_ReadWrite.cpp:36, 75-92: the files handed to the file system, oldest first (a later
    file of the same name replaces the earlier one). *)
Definition the_geom : rgeom T :=
  mkrgeom T (dx the_settings) (dy the_settings) (dz the_settings) (xmin the_box) (ymin the_box) (zmin the_box).
Definition vtk_enabled : bool := flag c "output" "vtk_enabled" true.
Definition image2 (f : file (T := T) (D := field2 T)) : text * option text :=
  save_VTK_2D (e_fmt E) the_mesh the_geom (read_outconf c) (f_data f) (nbvar the_mesh) (f_number f) [].
Definition image3 (f : file (T := T) (D := field3 T)) : text * option text :=
  save_VTK_3D (e_fmt E) the_mesh the_geom (read_outconf c) (f_data f) (nbvar the_mesh) (f_number f) [].

(** The files of a run that is not a restart; nothing when the solver is unknown (std::abort). *)
Definition program_writes (out : list (text * option text)) : Prop :=
  is_restart = false /\
  match main_creates c with
  | Some (HydroMuscl TWO_D) => exists s', runs_hydro2 s' /\ out = if vtk_enabled then map image2 (s_files s') else []
  | Some (HydroMuscl THREE_D) => exists s', runs_hydro3 s' /\ out = if vtk_enabled then map image3 (s_files s') else []
  | Some (MHDMuscl TWO_D) => exists s', runs_mhd2 s' /\ out = if vtk_enabled then map image2 (s_files s') else []
  | Some (MHDMuscl THREE_D) => exists s', runs_mhd3 s' /\ out = if vtk_enabled then map image3 (s_files s') else []
  | None => False
  end.
End Program.

(** main.cpp:73-74: the program run on a parameter file with this text. *)
Definition euler_kokkos {T} `{Num T} (cv : b32 -> T) (E : outside T) (file : text) (out : list (text * option text)) : Prop :=
  program_writes cv E (serial_parameters (Some file)) out.
