(** * Size of the time step

    Models the CFL functors (/repo/src/muscl/HydroRunFunctors2D.h:18-179,
    HydroRunFunctors3D.h:16-195), [Kokkos::parallel_reduce] with a
    [Kokkos::Max] reducer, [MPI_Allreduce<MIN>] and
    [SolverHydroMuscl::compute_dt_local] (SolverHydroMuscl.h:589-631). *)
From Coq Require Import ZArith List Bool Permutation.
Import ListNotations.
From Verif Require Import Num Exec Grid Boundaries HydroNum Kernels Hydro2D Hydro2DSpec Hydro3D Hydro3DSpec.
Local Open Scope Z_scope.

(** A parallel reduction: the items are distributed over chunks in any way and
    any order; each chunk starts from the identity and applies the functor to
    its items one after the other; partial results are joined in any order and
    shape.  The result overwrites the variable given to the reducer. *)
Inductive reduction {I T} (f : I -> T -> T) (join : T -> T -> T) (init : T) : list I -> T -> Prop :=
| red_chunk l : reduction f join init l (fold_left (fun a i => f i a) l init)
| red_join l1 l2 a b : reduction f join init l1 a -> reduction f join init l2 b ->
    reduction f join init (l1 ++ l2) (join a b)
| red_perm l l' a : Permutation l l' -> reduction f join init l a -> reduction f join init l' a.

Section TimeStep.
Context {T : Type} `{Num T}.

(** Kokkos::Max: [join] is [if (dest < src) dest = src], the identity is
    [reduction_identity<double>::max() = -DBL_MAX]. *)
Definition max_join (a b : T) : T := if nltb a b then b else a.
Definition max_init : T := nZ (- (2 ^ 1024 - 2 ^ 971)).

Variable m : mesh.
Variable S : hset T.

(** ComputeDtFunctor2D::operator(), HydroRunFunctors2D.h:48-77; [U] is the
    contents of the array handed to the functor. *)
Definition speeds2 (U : field2 T) (i j : Z) : T :=
  let '(q, c) := prim2 S (cell_state U i j) in
  let vx := nadd c (nabs (hu q)) in
  let vy := nadd c (nabs (hv q)) in
  nadd (ndiv vx (dx S)) (ndiv vy (dy S)).

Definition dt_item2 (U : field2 T) (c : Z * Z) (acc : T) : T :=
  let (i, j) := c in
  if inner2 m i j then nmax acc (speeds2 U i j) else acc.

(** ComputeDtGravityFunctor2D::operator(), HydroRunFunctors2D.h:123-172.
    The literal 1e-4. *)
Definition tiny_k : T := ndiv n1 (nZ 10000).

Definition corrected (velocity gsum h : T) : T :=
  let k := nmul gsum (ndiv (nmul (cfl S) h) (nmul velocity velocity)) in
  let k := nmax k tiny_k in
  ndiv (nmul velocity (ndiv k (nsub (nsqrt (nadd n1 (nmul n2 k))) n1))) h.

Definition gravity_speeds2 (U G : field2 T) (i j : Z) : T :=
  let h := nmin (dx S) (dy S) in
  let '(q, c) := prim2 S (cell_state U i j) in
  let velocity := nadd (nadd n0 (nadd c (nabs (hu q)))) (nadd c (nabs (hv q))) in
  corrected velocity (nadd (nabs (G i j IX)) (nabs (G i j IY))) h.

Definition dt_gravity_item2 (U G : field2 T) (c : Z * Z) (acc : T) : T :=
  let (i, j) := c in
  if inner2 m i j then nmax acc (gravity_speeds2 U G i j) else acc.

(** ComputeDtFunctor3D, HydroRunFunctors3D.h:46-83 *)
Definition speeds3 (U : field3 T) (i j k : Z) : T :=
  let '(q, c) := prim3 S (cell_state3 U i j k) in
  let vx := nadd c (nabs (hu q)) in
  let vy := nadd c (nabs (hv q)) in
  let vz := nadd c (nabs (hw q)) in
  nadd (nadd (ndiv vx (dx S)) (ndiv vy (dy S))) (ndiv vz (dz S)).

Definition dt_item3 (U : field3 T) (c : Z * Z * Z) (acc : T) : T :=
  let '(i, j, k) := c in
  if inner3 m i j k then nmax acc (speeds3 U i j k) else acc.

(** ComputeDtGravityFunctor3D, HydroRunFunctors3D.h:132-188 *)
Definition gravity_speeds3 (U G : field3 T) (i j k : Z) : T :=
  let h := nmin (nmin (dx S) (dy S)) (dz S) in
  let '(q, c) := prim3 S (cell_state3 U i j k) in
  let velocity := nadd (nadd (nadd n0 (nadd c (nabs (hu q)))) (nadd c (nabs (hv q)))) (nadd c (nabs (hw q))) in
  corrected velocity (nadd (nadd (nabs (G i j k IX)) (nabs (G i j k IY))) (nabs (G i j k IZ))) h.

Definition dt_gravity_item3 (U G : field3 T) (c : Z * Z * Z) (acc : T) : T :=
  let '(i, j, k) := c in
  if inner3 m i j k then nmax acc (gravity_speeds3 U G i j k) else acc.

Variable g : gravp.

(** compute_dt_local, SolverHydroMuscl.h:589-631, on the array with contents [U]. *)
Definition dt_local2 (U G : field2 T) (d : T) : Prop :=
  exists invDt,
  reduction (if g_enabled g then dt_gravity_item2 U G else dt_item2 U) max_join max_init (cells2 m) invDt /\
  d = ndiv (cfl S) invDt.

Definition dt_local3 (U G : field3 T) (d : T) : Prop :=
  exists invDt,
  reduction (if g_enabled g then dt_gravity_item3 U G else dt_item3 U) max_join max_init (cells3 m) invDt /\
  d = ndiv (cfl S) invDt.

End TimeStep.

(** MPI_Allreduce<MpiComm::MIN> over the local time steps of the processes
    (SolverBase.cpp:125-143): combined in any order and shape; each process
    contributes one value. *)
Definition min_join {T} `{Num T} (a b : T) : T := if nltb b a then b else a.

Inductive allreduce_min {T} `{Num T} : list T -> T -> Prop :=
| min_one d : allreduce_min [d] d
| min_more l1 l2 a b : allreduce_min l1 a -> allreduce_min l2 b -> allreduce_min (l1 ++ l2) (min_join a b)
| min_perm l l' a : Permutation l l' -> allreduce_min l a -> allreduce_min l' a.
