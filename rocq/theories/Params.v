(** * Parameters, choice of the solver and mesh geometry

    Models /repo/src/shared/HydroParams.cpp, SolverFactory.h/.cpp, the beginning of
    /repo/src/main.cpp and the coordinates used by the initial conditions. *)
From Coq Require Import Ascii String ZArith List Bool.
From Coq Require Import Floats.SpecFloat.
From Verif Require Import Num Exec Grid HydroNum Doomed Config.
Import ListNotations.
Local Open Scope Z_scope.

(** long to int (modulo 2^32, as gcc and clang do) *)
Definition to_int (n : Z) : Z := (n + 2 ^ 31) mod 2 ^ 32 - 2 ^ 31.
(** float to int: towards zero; out of range and NaN: the x86 result INT_MIN. *)
Definition float_to_int (x : b32) : Z :=
  let trunc s (n : Z) := let v := if s : bool then - n else n in
    if (- 2 ^ 31 <=? v) && (v <? 2 ^ 31) then v else - 2 ^ 31 in
  match x with
  | S754_zero _ => 0
  | S754_finite s m e => if 0 <=? e then trunc s (Zpos m * 2 ^ e) else trunc s (Zpos m / 2 ^ (- e))
  | _ => - 2 ^ 31
  end.

(** HydroParams.cpp:15-33 [get_dim] *)
Inductive dimension := TWO_D | THREE_D.
Definition solver_name (c : cmap) (default : string) : string :=
  string_of_list_ascii (get_string c (lit "run") (lit "solver_name") (lit default)).
Definition get_dim (c : cmap) : dimension :=
  let name := solver_name c "unknown" in
  if (String.eqb name "Hydro_Muscl_2D" || String.eqb name "MHD_Muscl_2D")%bool then TWO_D
  else if (String.eqb name "Hydro_Muscl_3D" || String.eqb name "MHD_Muscl_3D")%bool then THREE_D
  else TWO_D.

(** HydroParams.cpp:47-48, 94-120: number of variables, ghost width, mhdEnabled *)
Definition layout (name : string) : Z * Z * bool :=
  if String.eqb name "Hydro_Muscl_2D" then (4, 2, false)
  else if String.eqb name "Hydro_Muscl_3D" then (5, 2, false)
  else if String.eqb name "MHD_Muscl_2D" then (8, 3, true)
  else if String.eqb name "MHD_Muscl_3D" then (8, 3, true)
  else (4, 2, false).

Definition int_setting (c : cmap) (section name : string) (default : Z) : Z :=
  to_int (get_integer c (lit section) (lit name) default).

(** HydroParams.cpp:68-79 *)
Definition boundary_setting (c : cmap) (f : face) : Z :=
  match f with
  | XMIN => int_setting c "mesh" "boundary_type_xmin" BC_DIRICHLET
  | XMAX => int_setting c "mesh" "boundary_type_xmax" BC_DIRICHLET
  | YMIN => int_setting c "mesh" "boundary_type_ymin" BC_DIRICHLET
  | YMAX => int_setting c "mesh" "boundary_type_ymax" BC_DIRICHLET
  | ZMIN => int_setting c "mesh" "boundary_type_zmin" BC_DIRICHLET
  | ZMAX => int_setting c "mesh" "boundary_type_zmax" BC_DIRICHLET
  end.

(** HydroParams.cpp:44-46, 94-120: the mesh of a configuration (serial build) *)
Definition mesh_setting (c : cmap) : mesh :=
  let '(nv, g, mhd) := layout (solver_name c "unknown") in
  mkmesh (int_setting c "mesh" "nx" 1) (int_setting c "mesh" "ny" 1) (int_setting c "mesh" "nz" 1)
         g nv mhd (boundary_setting c).

(** HydroParams.cpp:122-156 *)
Definition riemann_setting (c : cmap) : rsolver :=
  parse_riemann (string_of_list_ascii (get_string c (lit "hydro") (lit "riemann") (lit "approx"))).
Definition version_setting (c : cmap) : Z :=
  let v := float_to_int (get_float c (lit "OTHER") (lit "implementationVersion") (S754_zero false)) in
  if (negb (v =? 0) && negb (v =? 1) && negb (v =? 2))%bool then 0 else v.

(** ** SolverFactory *)
Inductive program := HydroMuscl (d : dimension) | MHDMuscl (d : dimension).

(** std::map::operator[] and find *)
Definition create_map := list (string * program).
Definition registerSolver (key : string) (f : program) (m : create_map) : create_map :=
  (key, f) :: filter (fun kv => negb (String.eqb (fst kv) key)) m.
(** SolverFactory.cpp:12-24 *)
Definition factory : create_map :=
  registerSolver "MHD_Muscl_3D" (MHDMuscl THREE_D)
  (registerSolver "MHD_Muscl_2D" (MHDMuscl TWO_D)
  (registerSolver "Hydro_Muscl_3D" (HydroMuscl THREE_D)
  (registerSolver "Hydro_Muscl_2D" (HydroMuscl TWO_D) []))).
(** SolverFactory.h:82-116 [create]; [None]: std::abort *)
Definition create (name : string) : option program :=
  option_map snd (find (fun kv => String.eqb (fst kv) name) factory).

(** main.cpp:109-115: the parameters, then the solver *)
Definition main_creates (c : cmap) : option program := create (solver_name c "Unknown").

(** ** Geometry *)
Section Geometry.
Context {T : Type} `{Num T}.

(** HydroParams.cpp:304-308 (m processes along the axis) and, with m = 1,
    HydroParams.cpp:343-345. *)
Definition cell_size (lo hi : T) (n m : Z) : T := ndiv (nsub hi lo) (nZ (n * m)).

(** Coordinate of the centre of cell [i] of the process at position [r] of [n] cells
    and [g] ghost layers, as in HydroInitFunctors2D.h:79-80, HydroInitFunctors3D.h,
    MHDInitFunctors2D.h, MHDInitFunctors3D.h: xmin + dx/2 + (i + nx*i_mpi - ghostWidth)*dx. *)
Definition centre (lo d : T) (n r g i : Z) : T :=
  nadd (nadd lo (ndiv d n2)) (nmul (nZ (i + n * r - g)) d).
End Geometry.
