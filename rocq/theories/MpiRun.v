(** * Execution model of the distributed program

    [np] MPI processes, each with its own memory, run a list of actions.
    Kernels touch the memory of their own process only, so that a kernel
    (with any internal schedule) is one step of its process; the steps of the
    processes interleave in any order.

    Messages: for each (source, destination, tag) a first-in first-out channel
    (MPI 3.1 section 3.5, messages are non-overtaking).  A call of
    [MPI_Sendrecv] (/repo/src/utils/mpi/MpiComm.h:485-508) first posts its
    message, then receives the oldest message of its source and tag, and returns
    once it has received and its own message has either been buffered by the
    library or been received.  [eager p n] tells whether the library buffers
    the message sent by the [n]-th action of process [p]; it is arbitrary (MPI
    promises nothing).  The contents of a buffer are sent whole: both ends have
    views with the same extents and layout.

    [MPI_Barrier] (MpiComm.h): nobody leaves before everybody has entered. *)
From Coq Require Import ZArith List Bool Arith.
Import ListNotations.
From Verif Require Import Num Exec.

Section MpiRun.
Context {T : Type}.

Inductive action : Type :=
| Compute (K : list (prog T))
| Sendrecv (sbuf : arr) (dest : nat) (stag : Z) (rbuf : arr) (source : nat) (rtag : Z)
| Barrier.

(** Contents of one buffer. *)
Definition payload := Z -> Z -> Z -> Z -> T.

Definition content (s : store T) (b : arr) : payload := fun i j k v => s (mkloc b i j k v).

Definition received (s : store T) (b : arr) (d : payload) : store T := fun l =>
  if arr_eq_dec (la l) b then d (li l) (lj l) (lk l) (lv l) else s l.

(** Where a process is inside [MPI_Sendrecv]. *)
Inductive status := Idle | Posted | Received.

Record world := mkworld {
  mem : nat -> store T;
  pc : nat -> nat;
  st : nat -> status;
  net : nat -> nat -> Z -> list payload
}.

Definition set {A : Type} (f : nat -> A) (p : nat) (x : A) : nat -> A :=
  fun q => if p =? q then x else f q.

Definition set_net (n : nat -> nat -> Z -> list payload) (a b : nat) (t : Z) (x : list payload) :=
  fun a' b' t' => if (a =? a') && (b =? b') && (t =? t')%Z then x else n a' b' t'.

Variable inb : extents.
Variable np : nat.
Variable P : nat -> list action.

Inductive mstep (eager : nat -> nat -> bool) : world -> world -> Prop :=
| m_compute : forall w p K s',
    p < np -> nth_error (P p) (pc w p) = Some (Compute K) -> st w p = Idle ->
    exec inb (mem w p) K s' ->
    mstep eager w (mkworld (set (mem w) p s') (set (pc w) p (S (pc w p))) (st w) (net w))
| m_post : forall w p sb d tg rb src rt,
    p < np -> nth_error (P p) (pc w p) = Some (Sendrecv sb d tg rb src rt) -> st w p = Idle ->
    mstep eager w (mkworld (mem w) (pc w) (set (st w) p Posted)
      (set_net (net w) p d tg (net w p d tg ++ [content (mem w p) sb])))
| m_recv : forall w p sb d tg rb src rt x rest,
    p < np -> nth_error (P p) (pc w p) = Some (Sendrecv sb d tg rb src rt) -> st w p = Posted ->
    net w src p rt = x :: rest ->
    mstep eager w (mkworld (set (mem w) p (received (mem w p) rb x)) (pc w) (set (st w) p Received)
      (set_net (net w) src p rt rest))
| m_return : forall w p sb d tg rb src rt,
    p < np -> nth_error (P p) (pc w p) = Some (Sendrecv sb d tg rb src rt) -> st w p = Received ->
    eager p (pc w p) = true \/ net w p d tg = [] ->
    mstep eager w (mkworld (mem w) (set (pc w) p (S (pc w p))) (set (st w) p Idle) (net w))
| m_barrier : forall w,
    0 < np ->
    (forall p, p < np -> nth_error (P p) (pc w p) = Some Barrier /\ st w p = Idle) ->
    mstep eager w (mkworld (mem w) (fun p => S (pc w p)) (st w) (net w)).

Inductive msteps (eager : nat -> nat -> bool) : nat -> world -> world -> Prop :=
| msteps_0 : forall w, msteps eager 0 w w
| msteps_S : forall n w1 w2 w3, msteps eager n w1 w2 -> mstep eager w2 w3 -> msteps eager (S n) w1 w3.

(** Every process is about to run its first action; no message is in flight. *)
Definition start (M : nat -> store T) : world :=
  mkworld M (fun _ => 0) (fun _ => Idle) (fun _ _ _ => []).

Definition finished (w : world) : Prop :=
  forall p, p < np -> pc w p = length (P p).

(** Some process is about to run a kernel that can fault. *)
Definition may_fault (w : world) : Prop :=
  exists p K, p < np /\ nth_error (P p) (pc w p) = Some (Compute K) /\ st w p = Idle /\
    ~ safe inb (mem w p) K.

End MpiRun.

Arguments action : clear implicits.
Arguments world : clear implicits.
