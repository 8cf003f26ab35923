(** * Start and end of MPI and Kokkos

    Models /repo/src/utils/mpi/GlobalMpiSession.cpp, ParallelEnv.cpp and the constructors
    and deleter of MpiComm and MpiCommCart, in a build with MPI.  [MPI_Cart_create] is
    assumed to succeed and to include the calling process. *)
From Coq Require Import List Bool Arith.
Import ListNotations.

(** The libraries, seen by one process.  [living]: communicators created and not freed. *)
Record lib := mklib {
  mpi_on : bool;        (* MPI_Init was called *)
  mpi_off : bool;       (* MPI_Finalize was called *)
  kokkos : nat;         (* 0: not initialised, 1: initialised, 2: finalised *)
  living : list nat;
  made : nat            (* number of communicators created so far *)
}.
Inductive comm := World | Made (c : nat).

(** What the MPI standard and Kokkos allow; [None] is an erroneous call. *)
Definition running (l : lib) : bool := mpi_on l && negb (mpi_off l).
Definition usable (l : lib) (c : comm) : bool :=
  running l && match c with World => true | Made n => existsb (Nat.eqb n) (living l) end.
Definition mpi_init (l : lib) : option lib :=
  if mpi_on l then None else Some (mklib true (mpi_off l) (kokkos l) (living l) (made l)).
Definition mpi_finalize (l : lib) : option lib :=
  if running l then Some (mklib true true (kokkos l) (living l) (made l)) else None.
Definition comm_create (parent : comm) (l : lib) : option (comm * lib) :=
  if usable l parent
  then Some (Made (made l), mklib (mpi_on l) (mpi_off l) (kokkos l) (made l :: living l) (S (made l))) else None.
Definition comm_release (n : nat) (l : lib) : option lib :=
  if usable l (Made n)
  then Some (mklib (mpi_on l) (mpi_off l) (kokkos l) (filter (fun x => negb (Nat.eqb n x)) (living l)) (made l)) else None.
Definition comm_use (c : comm) (l : lib) : option lib := if usable l c then Some l else None.
Definition kokkos_initialize (l : lib) : option lib :=
  match kokkos l with 0 => Some (mklib (mpi_on l) (mpi_off l) 1 (living l) (made l)) | _ => None end.
Definition kokkos_finalize (l : lib) : option lib :=
  match kokkos l with 1 => Some (mklib (mpi_on l) (mpi_off l) 2 (living l) (made l)) | _ => None end.

Definition bind {A B} (x : option A) (f : A -> option B) : option B := match x with Some a => f a | None => None end.
Notation "'do' p <- a ; b" := (bind a (fun p => b)) (at level 100, p pattern, a at level 99, b at level 100, right associativity).

(** GlobalMpiSession.cpp:16-26; the result is [i_initialized]. [MPI_Initialized] stays
    true after [MPI_Finalize]. *)
Definition session_make (l : lib) : option (bool * lib) :=
  if mpi_on l then Some (false, l) else do l1 <- mpi_init l; Some (true, l1).
(** GlobalMpiSession.cpp:30-42 *)
Definition session_end (i_initialized : bool) (l : lib) : option lib :=
  if i_initialized && negb (mpi_off l) then mpi_finalize l else Some l.

(** MpiComm.h:354-366, MpiComm.cpp:12-40, MpiCommCart.cpp: a communicator and whether it
    is freed with its object. *)
Definition drop_comm (c : comm * bool) (l : lib) : option lib :=
  match c with
  | (Made n, true) => if mpi_off l then Some l else comm_release n l
  | _ => Some l
  end.

(** ParallelEnv.h:38-39 *)
Record env := mkenv { e_session : bool; e_comm : comm * bool }.

(** ParallelEnv.cpp:14-50, with [print_kokkos_config] asking for the rank; [first]: the
    environment variable EULER_KOKKOS_INIT_KOKKOS_BEFORE_MPI is set. *)
Definition env_make (first : bool) (l : lib) : option (env * lib) :=
  do l1 <- (if first then kokkos_initialize l else Some l);
  do (i, l2) <- session_make l1;
  do l3 <- (if first then Some l2 else kokkos_initialize l2);
  do l4 <- comm_use World l3;
  Some (mkenv i (World, false), l4).

(** ParallelEnv.cpp:54-68: used as a library with the communicator of the caller. *)
Definition env_make_from (c : comm) (l : lib) : option (env * lib) :=
  do (i, l1) <- session_make l;
  do (d, l2) <- comm_create c l1;
  do l3 <- kokkos_initialize l2;
  do l4 <- comm_use d l3;
  Some (mkenv i (d, true), l4).

(** What is done with the object: ParallelEnv.cpp:85-99 (the new object is made before
    [reset] deletes the old one; MpiCommCart.cpp always starts from MPI_COMM_WORLD), or any
    MPI call with its communicator. *)
Inductive use := Topology | Talk.
Definition env_use (u : use) (e : env) (l : lib) : option (env * lib) :=
  match u with
  | Topology =>
      do (c, l1) <- comm_create World l;
      do l2 <- comm_use c l1;
      do l3 <- drop_comm (e_comm e) l2;
      Some (mkenv (e_session e) (c, true), l3)
  | Talk => do l1 <- comm_use (fst (e_comm e)) l; Some (e, l1)
  end.
Fixpoint env_uses (us : list use) (e : env) (l : lib) : option (env * lib) :=
  match us with
  | [] => Some (e, l)
  | u :: us' => do (e1, l1) <- env_use u e l; env_uses us' e1 l1
  end.

(** ParallelEnv.cpp:73-79: the body, then the members, last one first. *)
Definition env_end (e : env) (l : lib) : option lib :=
  do l1 <- kokkos_finalize l;
  do l2 <- drop_comm (e_comm e) l1;
  session_end (e_session e) l2.

(** A standalone program (main.cpp:61-154) and one call as a library *)
Definition standalone (first : bool) (us : list use) (l : lib) : option lib :=
  do (e, l1) <- env_make first l; do (e2, l2) <- env_uses us e l1; env_end e2 l2.
Definition as_library (c : comm) (us : list use) (l : lib) : option lib :=
  do (e, l1) <- env_make_from c l; do (e2, l2) <- env_uses us e l1; env_end e2 l2.

(** Sessions inside sessions *)
Fixpoint nested (depth : nat) (l : lib) : option lib :=
  match depth with
  | 0 => comm_use World l
  | S d => do (i, l1) <- session_make l; do l2 <- nested d l1; do l3 <- comm_use World l2; session_end i l3
  end.
