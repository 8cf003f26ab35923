(** * The 2D MHD solver as a machine of the main loop

    Models SolverMHDMuscl.h:385-397 (end of the constructor), 718-738
    (compute_dt_local), 743-801 (next_iteration_impl, godunov_unsplit), 891-903
    (save_solution_impl), SolverMHDMuscl.cpp:369-454 (godunov_unsplit_impl, which
    computes the time step after the primitive variables) and the CFL functor
    (MHDRunFunctors2D.h:16-80).  [next_iteration_impl] is otherwise that of the
    hydro solver, see Driver.v. *)
From Coq Require Import ZArith List Bool.
Import ListNotations.
From Verif Require Import Num Exec Grid Boundaries BoundariesSpec HydroNum Kernels Hydro2D Hydro2DSpec
  Hydro2DRun TimeStep Driver HydroMachine MhdNum Mhd2D Mhd2DSpec MhdFacts.
Local Open Scope Z_scope.

Section TimeStep.
Context {T : Type} `{Num T}.
Variable m : mesh.
Variable S : hset T.

(** ComputeDtFunctor2D_MHD::operator(), MHDRunFunctors2D.h:38-76; [Q] is the
    contents of the array of primitive variables. *)
Definition mspeeds2 (Q : Z -> Z -> ms T) (i j : Z) : T :=
  let qLoc := Q i j in
  let vx := info_x S qLoc in
  let vy := info_y S qLoc in
  nadd (ndiv vx (dx S)) (ndiv vy (dy S)).

Definition mdt_item2 (Q : Z -> Z -> ms T) (c : Z * Z) (acc : T) : T :=
  let (i, j) := c in
  if inner2 m i j then nmax acc (mspeeds2 Q i j) else acc.

(** compute_dt_local, SolverMHDMuscl.h:718-738 *)
Definition mdt_local2 (Q : Z -> Z -> ms T) (d : T) : Prop :=
  exists invDt, reduction (mdt_item2 Q) max_join max_init (cells2 m) invDt /\ d = ndiv (cfl S) invDt.
End TimeStep.

Section Machine.
Context {T : Type} `{Num T}.
Variable m : mesh.
Variable S : hset T.
Variable inb : extents.
Variable iv : impl.

(** SolverMHDMuscl.h:387-394: fill the ghosts of U, copy U to U2, compute Q.  (The
    time step computed next, line 397, is recomputed before it is used.) *)
Definition mbuilt2 (s0 s : store T) : Prop :=
  execs inb s0 (make_boundaries2d m A_U ++ [deep_copy2 m A_U2 A_U; map (mconvert_item2 m S A_U) (cells2 m)]) s.

(** SolverMHDMuscl.h:789-801 and 891-903: [in_array], [out_array] and [saved_array]
    are those of the hydro solver. *)
Definition mhd2 : machine T (store T) (field2 T) := mkmachine
  (fun n s s' => execs inb s (mprefix2 m S (in_array n) (out_array n)) s')
  (fun _ s d => mdt_local2 m S (fun i j => getm s (L2 A_Q i j)) d)
  (fun dt n s s' => execs inb s (mscheme2 m S dt iv (in_array n) (out_array n)) s')
  (fun n s => field_of (saved_array n) s).
End Machine.

(** ** Specification: one state, no buffers, no ghosts, no array of primitive variables *)
Definition mideal2 {T} `{Num T} (m : mesh) (S : hset T) : machine T (field2 T) (field2 T) := mkmachine
  (fun _ u u' => u' = u)
  (fun _ u d => mdt_local2 m S (mQ S (extend m u)) d)
  (fun dt _ u u' => u' = mstep2 S dt (extend m u))
  (fun _ u => u).
