(** * The MHD solvers distributed over MPI processes

    Every process runs the program of Mhd2D.v/Mhd3D.v on its own block, with
    [make_boundaries] replaced by the halo exchange of Halo.v
    (SolverMHDMuscl.cpp:20-60 under USE_MPI), and the time step, computed after the
    primitive variables (SolverMHDMuscl.cpp:388-391, 481-484), is reduced over the
    processes (SolverBase.cpp:125-154).

    Simplification, as in HydroMpi.v: the collective reduction separates the two
    parts of a step, and the steps; processes do not run ahead across it. *)
From Coq Require Import ZArith List Bool.
Import ListNotations.
From Verif Require Import Num Exec Grid Boundaries HydroNum Kernels Hydro2D Hydro2DSpec
  Hydro3D Hydro3DSpec Hydro2DRun Hydro3DRun TimeStep Driver HydroMachine MpiRun Halo HydroMpi
  MhdNum MhdFacts Mhd2D MhdMachine Mhd3DNum Mhd3D Mhd3DMachine.
Local Open Scope Z_scope.

Section MhdMpi.
Context {T : Type} `{Num T}.
Variable lay : layout.
Variable m : mesh.        (* block of one process *)
Variable gp : pgrid.
Variable S : hset T.
Variable inb : extents.
Variable iv : impl.

(** First part of a step, up to the primitive variables: SolverMHDMuscl.cpp:373-386
    and 466-479 with USE_MPI; also SolverMHDMuscl.h:387-394, in the constructor. *)
Definition mprefix2_mpi (ain aout : arr) (r : nat) : list (action T) :=
  make_boundaries_mpi2 lay m gp ain r ++
  map Compute [deep_copy2 m aout ain; map (mconvert_item2 m S ain) (cells2 m)].
Definition mprefix3_mpi (ain aout : arr) (r : nat) : list (action T) :=
  make_boundaries_mpi3 lay m gp ain r ++
  map Compute [deep_copy3 m aout ain; map (mconvert_item3 m S ain) (cells3 m)].

(** Second part: SolverMHDMuscl.cpp:393-454 and 486-565.  No communication. *)
Definition mscheme2_mpi (dt : T) (ain aout : arr) (r : nat) : list (action T) :=
  map Compute (mscheme2 m S dt iv ain aout).
Definition mscheme3_mpi (dt : T) (ain aout : arr) (r : nat) : list (action T) :=
  map Compute (mscheme3 m S dt iv ain aout).

(** SolverMHDMuscl.h:387-394 *)
Definition mbuilt2_mpi : (nat -> store T) -> (nat -> store T) -> Prop := spmd gp inb (mprefix2_mpi A_U A_U2).
Definition mbuilt3_mpi : (nat -> store T) -> (nat -> store T) -> Prop := spmd gp inb (mprefix3_mpi A_U A_U2).

(** SolverMHDMuscl.h:789-801 and 891-903 *)
Definition mhd2_mpi : machine T (nat -> store T) (nat -> field2 T) := mkmachine
  (fun n M M' => spmd gp inb (mprefix2_mpi (in_array n) (out_array n)) M M')
  (fun _ M d => dt_all gp (fun r => mdt_local2 m S (fun i j => getm (M r) (L2 A_Q i j))) d)
  (fun dt n M M' => spmd gp inb (mscheme2_mpi dt (in_array n) (out_array n)) M M')
  (fun n M r => field_of (saved_array n) (M r)).

Definition mhd3_mpi : machine T (nat -> store T) (nat -> field3 T) := mkmachine
  (fun n M M' => spmd gp inb (mprefix3_mpi (in_array n) (out_array n)) M M')
  (fun _ M d => dt_all gp (fun r => mdt_local3 m S (fun i j k => getm (M r) (mkloc A_Q i j k))) d)
  (fun dt n M M' => spmd gp inb (mscheme3_mpi dt (in_array n) (out_array n)) M M')
  (fun n M r => field_of3 (saved_array n) (M r)).

End MhdMpi.
