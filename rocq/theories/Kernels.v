(** * Kernel building blocks shared by the 2D and 3D solvers *)
From Coq Require Import ZArith List Bool.
Import ListNotations.
From Verif Require Import Num Exec Grid HydroNum.
Local Open Scope Z_scope.

Section Kernels.
Context {T : Type} `{Num T}.

(** Use of a value that the program may have left uninitialised. *)
Definition need {A : Type} (o : option A) (k : A -> prog T) : prog T :=
  match o with Some x => k x | None => Crash end.

Definition L2 (a : arr) (i j v : Z) : loc := mkloc a i j 0 v.

(** Load/store of a [HydroState2d] from/to cell (i,j) of an array
    ([q[ID] = Q(i,j,ID); q[IP] = ...], as in HydroRunFunctors2D.h:226-242). *)
Definition rd2 (a : arr) (i j : Z) (k : hs T -> prog T) : prog T :=
  Rd (L2 a i j ID) (fun d => Rd (L2 a i j IP) (fun p =>
  Rd (L2 a i j IU) (fun u => Rd (L2 a i j IV) (fun v => k (mk2 d p u v))))).

Definition wr2 (a : arr) (i j : Z) (q : hs T) (k : prog T) : prog T :=
  Wr (L2 a i j ID) (hd q) (Wr (L2 a i j IP) (hp q)
  (Wr (L2 a i j IU) (hu q) (Wr (L2 a i j IV) (hv q) k))).

(** The same for [HydroState3d] and cell (i,j,k). *)
Definition rd3 (a : arr) (i j k : Z) (c : hs T -> prog T) : prog T :=
  Rd (mkloc a i j k ID) (fun d => Rd (mkloc a i j k IP) (fun p =>
  Rd (mkloc a i j k IU) (fun u => Rd (mkloc a i j k IV) (fun v =>
  Rd (mkloc a i j k IW) (fun w => c (mkhs d p u v w)))))).

Definition wr3 (a : arr) (i j k : Z) (q : hs T) (c : prog T) : prog T :=
  Wr (mkloc a i j k ID) (hd q) (Wr (mkloc a i j k IP) (hp q)
  (Wr (mkloc a i j k IU) (hu q) (Wr (mkloc a i j k IV) (hv q)
  (Wr (mkloc a i j k IW) (hw q) c)))).

(** [dst(v) op= src(v)] for each variable of a list, in order
    (plain read-modify-write, as in HydroRunFunctors2D.h:813-836). *)
Fixpoint accum (op : T -> T -> T) (vars : list Z) (dst src : Z -> loc) (k : prog T) : prog T :=
  match vars with
  | [] => k
  | v :: vs => Rd (dst v) (fun x => Rd (src v) (fun f => Wr (dst v) (op x f)
                 (accum op vs dst src k)))
  end.

(** [Kokkos::atomic_add(&dst(v), val(v))] for each variable of a list, in order
    (as in HydroRunFunctors2D.h:1424-1440); likewise atomic_sub. *)
Fixpoint atomics (op : T -> T -> T) (vars : list Z) (dst : Z -> loc) (val : hs T) (k : prog T)
  : prog T :=
  match vars with
  | [] => k
  | v :: vs => Upd (dst v) (fun x => op x (hget val v)) (atomics op vs dst val k)
  end.

Definition vars2 : list Z := [ID; IP; IU; IV].
Definition vars3 : list Z := [ID; IP; IU; IV; IW].

(** Multiplication of a flux by dt/dx: [flux[v] * dtdx]. *)
Definition hscale (q : hs T) (c : T) : hs T :=
  mkhs (nmul (hd q) c) (nmul (hp q) c) (nmul (hu q) c) (nmul (hv q) c) (nmul (hw q) c).

(** [Kokkos::deep_copy(dst, src)]: cell by cell, each variable. *)
Fixpoint copy_n (n : nat) (v : Z) (dst src : Z -> loc) : prog T :=
  match n with
  | O => Done
  | Datatypes.S n' => Rd (src v) (fun x => Wr (dst v) x (copy_n n' (v + 1) dst src))
  end.

Definition deep_copy2 (m : mesh) (dst src : arr) : list (prog T) :=
  map (fun c : Z * Z => let (i, j) := c in
         copy_n (Z.to_nat (nbvar m)) 0 (L2 dst i j) (L2 src i j))
      (range2 (isize m) (jsize m)).

Definition deep_copy3 (m : mesh) (dst src : arr) : list (prog T) :=
  map (fun c : Z * Z * Z => let '(i, j, k) := c in
         copy_n (Z.to_nat (nbvar m)) 0 (mkloc dst i j k) (mkloc src i j k))
      (range3 (isize m) (jsize m) (ksize m)).

(** shared/HydroParams.h ([GravityParams]): enabled, hancock_predictor_enabled. *)
Record gravp := mkgravp { g_enabled : bool; g_hancock : bool }.

(** params.implementationVersion (0, 1 or 2). *)
Inductive impl := V0 | V1 | V2.

End Kernels.

(** Gravity-field components IX, IY, IZ (shared/enums.h). *)
Definition IX : Z := 0.
Definition IY : Z := 1.
Definition IZ : Z := 2.
