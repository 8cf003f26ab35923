(** * The hydrodynamics solvers distributed over MPI processes

    Every process runs the program of Hydro2D.v/Hydro3D.v on its own block, with
    [make_boundaries] replaced by the halo exchange of Halo.v
    (SolverHydroMuscl.cpp:20-61 under USE_MPI), and the time step is reduced over
    the processes (SolverBase.cpp:125-154).

    The iteration counter and time are the same on all processes: they only
    depend on the common time step.  Simplification: one iteration is one run of
    the message-passing machine; processes do not run ahead into the next
    iteration, from which [MPI_Allreduce] separates them. *)
From Coq Require Import ZArith List Bool.
Import ListNotations.
From Verif Require Import Num Exec Grid Boundaries HydroNum Kernels Hydro2D Hydro2DSpec
  Hydro3D Hydro3DSpec Hydro2DRun Hydro3DRun TimeStep Driver HydroMachine MpiRun Halo.
Local Open Scope Z_scope.

Section HydroMpi.
Context {T : Type} `{Num T}.
Variable lay : layout.
Variable m : mesh.        (* block of one process *)
Variable gp : pgrid.
Variable S : hset T.
Variable g : gravp.
Variable inb : extents.
Variable iv : impl.

Definition ranks : list nat := seq 0 (Z.to_nat (nprocs gp)).

(** A complete run of all processes, for some buffering policy of the library. *)
Definition spmd (P : nat -> list (action T)) (M M' : nat -> store T) : Prop :=
  exists eager c w, msteps inb (Z.to_nat (nprocs gp)) P eager c (MpiRun.start M) w /\
    MpiRun.finished (Z.to_nat (nprocs gp)) P w /\ M' = mem w.

(** SolverHydroMuscl.cpp:213-297 and 300-390 with USE_MPI. *)
Definition godunov2_mpi (dt : T) (ain aout : arr) (r : nat) : list (action T) :=
  make_boundaries_mpi2 lay m gp ain r ++ map Compute (godunov2_body m S g dt iv ain aout).
Definition godunov3_mpi (dt : T) (ain aout : arr) (r : nat) : list (action T) :=
  make_boundaries_mpi3 lay m gp ain r ++ map Compute (godunov3_body m S g dt iv ain aout).

(** SolverHydroMuscl.h:277-285 *)
Definition built2_mpi : (nat -> store T) -> (nat -> store T) -> Prop :=
  spmd (fun r => make_boundaries_mpi2 lay m gp A_U r ++ map Compute [deep_copy2 m A_U2 A_U]).
Definition built3_mpi : (nat -> store T) -> (nat -> store T) -> Prop :=
  spmd (fun r => make_boundaries_mpi3 lay m gp A_U r ++ map Compute [deep_copy3 m A_U2 A_U]).

(** SolverBase.cpp:125-154: local time steps, then MPI_Allreduce with MIN. *)
Definition dt_all (local : nat -> T -> Prop) (d : T) : Prop :=
  exists ds, Forall2 local ranks ds /\ allreduce_min ds d.

Definition hydro2_mpi : machine T (nat -> store T) (nat -> field2 T) := mkmachine
  (fun _ M M' => M' = M)
  (fun n M d => dt_all (fun r => dt_local2 m S g (field_of (dt_array n) (M r)) (field_of A_G (M r))) d)
  (fun dt n M M' => spmd (godunov2_mpi dt (in_array n) (out_array n)) M M')
  (fun n M r => field_of (saved_array n) (M r)).

Definition hydro3_mpi : machine T (nat -> store T) (nat -> field3 T) := mkmachine
  (fun _ M M' => M' = M)
  (fun n M d => dt_all (fun r => dt_local3 m S g (field_of3 (dt_array n) (M r)) (field_of3 A_G (M r))) d)
  (fun dt n M M' => spmd (godunov3_mpi dt (in_array n) (out_array n)) M M')
  (fun n M r => field_of3 (saved_array n) (M r)).

End HydroMpi.
