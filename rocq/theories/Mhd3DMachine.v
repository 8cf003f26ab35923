(** * The 3D MHD solver as a machine of the main loop

    Models SolverMHDMuscl.h:385-397 (end of the constructor), 718-738
    (compute_dt_local), 743-801 (next_iteration_impl, godunov_unsplit), 891-903
    (save_solution_impl), SolverMHDMuscl.cpp:463-566 (godunov_unsplit_impl, which
    computes the time step after the primitive variables) and the CFL functor
    (MHDRunFunctors3D.h:16-84).  [next_iteration_impl] is otherwise that of the
    hydro solver, see Driver.v. *)
From Coq Require Import ZArith List Bool.
Import ListNotations.
From Verif Require Import Num Exec Grid Boundaries BoundariesSpec HydroNum Kernels Hydro2D Hydro2DSpec
  Hydro2DRun Hydro3D Hydro3DSpec Hydro3DRun TimeStep Driver HydroMachine MhdNum MhdFacts Mhd3DNum Mhd3D Mhd3DSpec
  Mhd3DRun.
Local Open Scope Z_scope.

Section TimeStep.
Context {T : Type} `{Num T}.
Variable m : mesh.
Variable S : hset T.

(** ComputeDtFunctor3D_MHD::operator(), MHDRunFunctors3D.h:41-80; [Q] is the
    contents of the array of primitive variables. *)
Definition mspeeds3 (Q : Z -> Z -> Z -> ms T) (i j k : Z) : T :=
  let qLoc := Q i j k in
  let vx := info_x S qLoc in
  let vy := info_y S qLoc in
  let vz := info_z S qLoc in
  nadd (nadd (ndiv vx (dx S)) (ndiv vy (dy S))) (ndiv vz (dz S)).

Definition mdt_item3 (Q : Z -> Z -> Z -> ms T) (c : Z * Z * Z) (acc : T) : T :=
  let '(i, j, k) := c in
  if inner3 m i j k then nmax acc (mspeeds3 Q i j k) else acc.

(** compute_dt_local, SolverMHDMuscl.h:718-738 *)
Definition mdt_local3 (Q : Z -> Z -> Z -> ms T) (d : T) : Prop :=
  exists invDt, reduction (mdt_item3 Q) max_join max_init (cells3 m) invDt /\ d = ndiv (cfl S) invDt.
End TimeStep.

Section Machine.
Context {T : Type} `{Num T}.
Variable m : mesh.
Variable S : hset T.
Variable inb : extents.
Variable iv : impl.

(** SolverMHDMuscl.h:387-394: fill the ghosts of U, copy U to U2, compute Q.  (The
    time step computed next, line 397, is recomputed before it is used.) *)
Definition mbuilt3 (s0 s : store T) : Prop :=
  execs inb s0 (make_boundaries3d m A_U ++ [deep_copy3 m A_U2 A_U; map (mconvert_item3 m S A_U) (cells3 m)]) s.

(** SolverMHDMuscl.h:789-801 and 891-903: [in_array], [out_array] and [saved_array]
    are those of the hydro solver. *)
Definition mhd3 : machine T (store T) (field3 T) := mkmachine
  (fun n s s' => execs inb s (mprefix3 m S (in_array n) (out_array n)) s')
  (fun _ s d => mdt_local3 m S (fun i j k => getm s (mkloc A_Q i j k)) d)
  (fun dt n s s' => execs inb s (mscheme3 m S dt iv (in_array n) (out_array n)) s')
  (fun n s => field_of3 (saved_array n) s).
End Machine.

(** ** Specification: one state, no buffers, no ghosts, no array of primitive variables

    Versions 0 and 1 share one step function, version 2 has its own (see
    [C28_mhd3d_version_2_refuted]). *)
Definition mideal3 {T} `{Num T} (m : mesh) (S : hset T) (iv : impl) : machine T (field3 T) (field3 T) := mkmachine
  (fun _ u u' => u' = u)
  (fun _ u d => mdt_local3 m S (mQ3 S (extend3 m u)) d)
  (fun dt _ u u' => u' = mstepv3 iv S dt (extend3 m u))
  (fun _ u => u).
