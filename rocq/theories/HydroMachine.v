(** * The hydrodynamics solvers as machines of the main loop

    Models SolverHydroMuscl.h:277-285 (end of the constructor), 589-631
    (compute_dt_local), 686-700 (godunov_unsplit) and 749-762
    (save_solution_impl).  The memory is the store of all arrays. *)
From Coq Require Import ZArith List Bool.
Import ListNotations.
From Verif Require Import Num Exec Grid Boundaries BoundariesSpec HydroNum Kernels Hydro2D Hydro2DSpec
  Hydro3D Hydro3DSpec Hydro2DRun Hydro3DRun TimeStep Driver.
Local Open Scope Z_scope.

(** SolverHydroMuscl.h:598-602: array read by compute_dt_local. *)
Definition dt_array (n : nat) : arr := if Nat.even n then A_U else A_U2.
(** SolverHydroMuscl.h:690-698: arrays integrated from and to. *)
Definition in_array (n : nat) : arr := if Nat.even n then A_U else A_U2.
Definition out_array (n : nat) : arr := if Nat.even n then A_U2 else A_U.
(** SolverHydroMuscl.h:753-757: array handed to the writer. *)
Definition saved_array (n : nat) : arr := if Nat.even n then A_U else A_U2.

Section Machine.
Context {T : Type} `{Num T}.
Variable m : mesh.
Variable S : hset T.
Variable g : gravp.
Variable inb : extents.
Variable iv : impl.

(** SolverHydroMuscl.h:277-285: fill the ghosts of U, copy U to U2. *)
Definition built2 (s0 s : store T) : Prop :=
  execs inb s0 (make_boundaries2d m A_U ++ [deep_copy2 m A_U2 A_U]) s.
Definition built3 (s0 s : store T) : Prop :=
  execs inb s0 (make_boundaries3d m A_U ++ [deep_copy3 m A_U2 A_U]) s.

Definition hydro2 : machine T (store T) (field2 T) := mkmachine
  (fun _ s s' => s' = s)
  (fun n s d => dt_local2 m S g (field_of (dt_array n) s) (field_of A_G s) d)
  (fun dt n s s' => execs inb s (godunov2 m S g dt iv (in_array n) (out_array n)) s')
  (fun n s => field_of (saved_array n) s).

Definition hydro3 : machine T (store T) (field3 T) := mkmachine
  (fun _ s s' => s' = s)
  (fun n s d => dt_local3 m S g (field_of3 (dt_array n) s) (field_of3 A_G s) d)
  (fun dt n s s' => execs inb s (godunov3 m S g dt iv (in_array n) (out_array n)) s')
  (fun n s => field_of3 (saved_array n) s).

End Machine.

(** ** Specification: one state, no buffers

    The memory is the state itself: the time step is computed from it, the
    scheme is applied to it and it is what is written. *)
Section Ideal.
Context {T : Type} `{Num T}.
Variable m : mesh.
Variable S : hset T.
Variable g : gravp.

Definition ideal2 (G : field2 T) : machine T (field2 T) (field2 T) := mkmachine
  (fun _ u u' => u' = u)
  (fun _ u d => dt_local2 m S g u G d)
  (fun dt _ u u' => u' = step2 S g dt (extend m u) G)
  (fun _ u => u).

Definition ideal3 (full : bool) (G : field3 T) : machine T (field3 T) (field3 T) := mkmachine
  (fun _ u u' => u' = u)
  (fun _ u d => dt_local3 m S g u G d)
  (fun dt _ u u' => u' = step3 S g dt full (extend3 m u) G)
  (fun _ u => u).
End Ideal.
