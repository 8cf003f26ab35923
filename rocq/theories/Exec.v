(** * Execution model of Kokkos kernels

    Models the semantics of [Kokkos::parallel_for] as used by every kernel of
    the solver (e.g. /repo/src/muscl/HydroRunFunctors2D.h:40-46,
    /repo/src/shared/SolverBase.cpp:314-380): a finite set of work items, each
    running the body of the functor, in any order and with any interleaving of
    their memory accesses.

    A work item is a [prog], a tree of single memory operations.  A kernel is a
    list of programs.  One step of the pool is one memory operation of one
    program; the scheduler is arbitrary.  Accesses outside the array extents
    and uses of uninitialised values ([Crash]) are faults. *)
From Coq Require Import ZArith List Bool Lia.
Import ListNotations.
From Verif Require Import Num.

(** Faces of the box. /repo/src/shared/enums.h ([enum BoundaryLocation], [enum FaceIdType]). *)
Inductive face : Set := XMIN | XMAX | YMIN | YMAX | ZMIN | ZMAX.

Definition face_eq_dec (a b : face) : {a = b} + {a <> b}.
Proof. decide equality. Defined.

(** The arrays (Kokkos views) of the solvers.
    SolverHydroMuscl.h:95-130 (U, U2, Q, Fluxes_x/y/z, Slopes_x/y/z) and
    SolverMHDMuscl.h:90-175 (trace, EMF, electric field, face sources);
    MHDInitFunctors2D.h:833, MHDInitFunctors3D.h:927 (A_Pot, vector potential);
    SolverBase.h:233-255 (borderBufSend_*, borderBufRecv_*, one per face). *)
Inductive arr : Set :=
| A_U | A_U2 | A_Q | A_Q2
| A_Fx | A_Fy | A_Fz
| A_Sx | A_Sy | A_Sz
| A_Qmx | A_Qmy | A_Qmz | A_Qpx | A_Qpy | A_Qpz
| A_RT | A_RB | A_LT | A_LB
| A_RT2 | A_RB2 | A_LT2 | A_LB2
| A_RT3 | A_RB3 | A_LT3 | A_LB3
| A_G | A_Pot | A_Emf | A_Elec | A_SFace | A_DA | A_DB | A_DC
| A_BufSend (f : face) | A_BufRecv (f : face).

Definition arr_eq_dec (a b : arr) : {a = b} + {a <> b}.
Proof. decide equality; apply face_eq_dec. Defined.

(** A memory location: array, cell, variable.  2D arrays use [lk = 0]. *)
Record loc : Set := mkloc { la : arr; li : Z; lj : Z; lk : Z; lv : Z }.

Definition loc_eq_dec (a b : loc) : {a = b} + {a <> b}.
Proof.
  destruct a as [a1 i1 j1 k1 v1], b as [a2 i2 j2 k2 v2].
  destruct (arr_eq_dec a1 a2); [|right; congruence].
  destruct (Z.eq_dec i1 i2); [|right; congruence].
  destruct (Z.eq_dec j1 j2); [|right; congruence].
  destruct (Z.eq_dec k1 k2); [|right; congruence].
  destruct (Z.eq_dec v1 v2); [|right; congruence].
  left; congruence.
Defined.

Section Exec.
Context {T : Type}.

(** Contents of all arrays. *)
Definition store := loc -> T.

Definition upd (s : store) (l : loc) (x : T) : store :=
  fun l' => if loc_eq_dec l l' then x else s l'.

(** Body of one work item. [Upd l f] is an indivisible read-modify-write
    ([Kokkos::atomic_add], [Kokkos::atomic_sub]). *)
Inductive prog : Type :=
| Done  : prog
| Crash : prog
| Rd    : loc -> (T -> prog) -> prog
| Wr    : loc -> T -> prog -> prog
| Upd   : loc -> (T -> T) -> prog -> prog.

(** Extents: which locations exist. *)
Definition extents := loc -> bool.

(** One memory operation of one work item. *)
Definition tstep (inb : extents) (p : prog) (s : store) : option (prog * store) :=
  match p with
  | Done | Crash => None
  | Rd l k => if inb l then Some (k (s l), s) else None
  | Wr l x k => if inb l then Some (k, upd s l x) else None
  | Upd l f k => if inb l then Some (k, upd s l (f (s l))) else None
  end.

(** The next operation of the work item is a fault. *)
Definition faulting (inb : extents) (p : prog) : Prop :=
  match p with
  | Done => False
  | Crash => True
  | Rd l _ | Wr l _ _ | Upd l _ _ => inb l = false
  end.

(** One step of a pool of work items. *)
Inductive pstep (inb : extents) : store * list prog -> store * list prog -> Prop :=
| pstep_intro : forall P1 p P2 s p' s',
    tstep inb p s = Some (p', s') ->
    pstep inb (s, P1 ++ p :: P2) (s', P1 ++ p' :: P2).

Inductive psteps (inb : extents) : store * list prog -> store * list prog -> Prop :=
| psteps_refl : forall c, psteps inb c c
| psteps_step : forall c1 c2 c3, pstep inb c1 c2 -> psteps inb c2 c3 -> psteps inb c1 c3.

Definition all_done (P : list prog) : Prop := forall p, In p P -> p = Done.

(** [exec inb s K s']: some schedule runs kernel [K] from [s] to completion in [s']. *)
Definition exec (inb : extents) (s : store) (K : list prog) (s' : store) : Prop :=
  exists P', psteps inb (s, K) (s', P') /\ all_done P'.

(** [safe inb s K]: no schedule reaches a fault. *)
Definition safe (inb : extents) (s : store) (K : list prog) : Prop :=
  forall s' P' p, psteps inb (s, K) (s', P') -> In p P' -> ~ faulting inb p.

(** A sequence of kernels, each completed before the next one starts (kernels
    launched on one Kokkos execution space run in order). *)
Inductive execs (inb : extents) : store -> list (list prog) -> store -> Prop :=
| execs_nil : forall s, execs inb s [] s
| execs_cons : forall s K s1 Ks s2,
    exec inb s K s1 -> execs inb s1 Ks s2 -> execs inb s (K :: Ks) s2.

(** No schedule of the sequence reaches a fault. *)
Inductive safes (inb : extents) : store -> list (list prog) -> Prop :=
| safes_nil : forall s, safes inb s []
| safes_cons : forall s K Ks,
    safe inb s K -> (forall s1, exec inb s K s1 -> safes inb s1 Ks) ->
    safes inb s (K :: Ks).

(** Running one work item alone (bounds not checked here). *)
Fixpoint run (p : prog) (s : store) : store :=
  match p with
  | Done | Crash => s
  | Rd l k => run (k (s l)) s
  | Wr l x k => run k (upd s l x)
  | Upd l f k => run k (upd s l (f (s l)))
  end.

(** Footprint of a work item: every read is in [R], every plain write in [W],
    every atomic update in [A], and it never crashes, whatever values it reads. *)
Fixpoint foot (R W A : loc -> Prop) (p : prog) : Prop :=
  match p with
  | Done => True
  | Crash => False
  | Rd l k => R l /\ forall v, foot R W A (k v)
  | Wr l x k => W l /\ foot R W A k
  | Upd l f k => A l /\ foot R W A k
  end.

End Exec.

Arguments store : clear implicits.
Arguments prog : clear implicits.
