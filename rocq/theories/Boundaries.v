(** * Ghost-cell filling (physical boundary conditions)

    Models /repo/src/shared/BoundariesFunctors.h (the four functor families)
    and [SolverBase::make_boundary], [SolverBase::make_boundaries_serial]
    (/repo/src/shared/SolverBase.cpp:314-512). *)
From Coq Require Import ZArith List Bool.
Import ListNotations.
From Verif Require Import Num Exec Grid.
Local Open Scope Z_scope.

Section Boundaries.
Context {T : Type} `{Num T}.

(** Source index along the normal axis for the low face: Dirichlet mirrors,
    Neumann copies the first physical cell, anything else wraps around.
    BoundariesFunctors.h:74-87 (XMIN), 153-166 (YMIN), and the same text at
    291-304, 372-387, 455-468 (3D), 592-607, 675-690 (2D MHD), 814-829,
    898-913, 982-997 (3D MHD). *)
Definition src_lo (bt n g i : Z) : Z :=
  if bt =? BC_DIRICHLET then 2 * g - 1 - i
  else if bt =? BC_NEUMANN then g
  else n + i.

(** Source index for the high face.  BoundariesFunctors.h:114-127 (XMAX),
    192-205 (YMAX), 334-347, 416-429, 498-511, 634-649, 717-732, 858-873,
    942-957, 1026-1041. *)
Definition src_hi (bt n g i : Z) : Z :=
  if bt =? BC_DIRICHLET then 2 * n + 2 * g - 1 - i
  else if bt =? BC_NEUMANN then n + g - 1
  else i - n.

(** Variables changing sign at a reflecting face: normal momentum, and in the
    MHD functors also the normal magnetic field.  BoundariesFunctors.h:77-78,
    156-157, 458-459 (hydro), 595-598, 678-681, 985-988 (MHD). *)
Definition normal_var (mhd : bool) (f : face) (v : Z) : bool :=
  match f with
  | XMIN | XMAX => (v =? IU) || (mhd && (v =? IA))
  | YMIN | YMAX => (v =? IV) || (mhd && (v =? IB))
  | ZMIN | ZMAX => (v =? IW) || (mhd && (v =? IC))
  end.

(** [real_t sign = 1.0; if (boundary_type == BC_DIRICHLET) if (iVar == ..) sign = -1.0;] *)
Definition bc_sign (mhd : bool) (f : face) (bt v : Z) : T :=
  if (bt =? BC_DIRICHLET) && normal_var mhd f v then nopp (nZ 1) else nZ 1.

(** The loop [for (iVar = v; iVar < v+n; iVar++) Udata(dst,iVar) = Udata(src,iVar) * sign],
    e.g. BoundariesFunctors.h:69-90. *)
Fixpoint copy_vars (n : nat) (v : Z) (dst src : Z -> loc) (sgn : Z -> T) : prog T :=
  match n with
  | O => Done
  | S n' => Rd (src v) (fun x => Wr (dst v) (nmul x (sgn v)) (copy_vars n' (v + 1) dst src sgn))
  end.

Definition copy_cell (m : mesh) (a : arr) (f : face) (i j k i0 j0 k0 : Z) : prog T :=
  copy_vars (Z.to_nat (nbvar m)) 0 (mkloc a i j k) (mkloc a i0 j0 k0)
    (bc_sign (p_mhd m) f (bc m f)).

(** Body of [MakeBoundariesFunctor2D<faceId>::operator()(index)] and of its MHD
    twin.  BoundariesFunctors.h:36-214 and 553-740.  C++ [/] on non-negative
    ints is [Z.div]; int overflow of [index] is not modelled.  2D arrays have
    k = 0.  In 2D the functors for the z faces do not exist. *)
Definition boundary2d_item (m : mesh) (a : arr) (f : face) (index : Z) : prog T :=
  let g := gw m in
  match f with
  | XMIN =>
      let j := index / g in
      let i := index - j * g in
      if between (jmin m) j (jmax m) && (0 <=? i) && (i <? g)
      then copy_cell m a f i j 0 (src_lo (bc m f) (nx m) g i) j 0 else Done
  | XMAX =>
      let j := index / g in
      let i := index - j * g + (nx m + g) in
      if between (jmin m) j (jmax m) && between (nx m + g) i (nx m + 2 * g - 1)
      then copy_cell m a f i j 0 (src_hi (bc m f) (nx m) g i) j 0 else Done
  | YMIN =>
      let i := index / g in
      let j := index - i * g in
      if between (imin m) i (imax m) && (0 <=? j) && (j <? g)
      then copy_cell m a f i j 0 i (src_lo (bc m f) (ny m) g j) 0 else Done
  | YMAX =>
      let i := index / g in
      let j := index - i * g + (ny m + g) in
      if between (imin m) i (imax m) && between (ny m + g) j (ny m + 2 * g - 1)
      then copy_cell m a f i j 0 i (src_hi (bc m f) (ny m) g j) 0 else Done
  | ZMIN | ZMAX => Done
  end.

(** Body of [MakeBoundariesFunctor3D<faceId>::operator()(index)] and of its MHD
    twin.  BoundariesFunctors.h:245-520 and 768-1050. *)
Definition boundary3d_item (m : mesh) (a : arr) (f : face) (index : Z) : prog T :=
  let g := gw m in
  match f with
  | XMIN =>
      let k := index / (g * jsize m) in
      let j := (index - k * g * jsize m) / g in
      let i := index - j * g - k * g * jsize m in
      if between (kmin m) k (kmax m) && between (jmin m) j (jmax m) && (0 <=? i) && (i <? g)
      then copy_cell m a f i j k (src_lo (bc m f) (nx m) g i) j k else Done
  | XMAX =>
      let k := index / (g * jsize m) in
      let j := (index - k * g * jsize m) / g in
      let i := index - j * g - k * g * jsize m + (nx m + g) in
      if between (kmin m) k (kmax m) && between (jmin m) j (jmax m) &&
         between (nx m + g) i (nx m + 2 * g - 1)
      then copy_cell m a f i j k (src_hi (bc m f) (nx m) g i) j k else Done
  | YMIN =>
      let k := index / (isize m * g) in
      let j := (index - k * isize m * g) / isize m in
      let i := index - j * isize m - k * isize m * g in
      if between (kmin m) k (kmax m) && (0 <=? j) && (j <? g) && between (imin m) i (imax m)
      then copy_cell m a f i j k i (src_lo (bc m f) (ny m) g j) k else Done
  | YMAX =>
      let k := index / (isize m * g) in
      let j0 := (index - k * isize m * g) / isize m in
      let i := index - j0 * isize m - k * isize m * g in
      let j := j0 + (ny m + g) in
      if between (kmin m) k (kmax m) && between (ny m + g) j (ny m + 2 * g - 1) &&
         between (imin m) i (imax m)
      then copy_cell m a f i j k i (src_hi (bc m f) (ny m) g j) k else Done
  | ZMIN =>
      let k := index / (isize m * jsize m) in
      let j := (index - k * isize m * jsize m) / isize m in
      let i := index - j * isize m - k * isize m * jsize m in
      if (0 <=? k) && (k <? g) && between (jmin m) j (jmax m) && between (imin m) i (imax m)
      then copy_cell m a f i j k i j (src_lo (bc m f) (nz m) g k) else Done
  | ZMAX =>
      let k0 := index / (isize m * jsize m) in
      let j := (index - k0 * isize m * jsize m) / isize m in
      let i := index - j * isize m - k0 * isize m * jsize m in
      let k := k0 + (nz m + g) in
      if between (nz m + g) k (nz m + 2 * g - 1) && between (jmin m) j (jmax m) &&
         between (imin m) i (imax m)
      then copy_cell m a f i j k i j (src_hi (bc m f) (nz m) g k) else Done
  end.

(** [SolverBase::make_boundary] (2D): SolverBase.cpp:314-380. *)
Definition make_boundary2d (m : mesh) (a : arr) (f : face) : list (prog T) :=
  let nbIter := gw m * Z.max (isize m) (jsize m) in
  map (boundary2d_item m a f) (range nbIter).

(** [SolverBase::make_boundary] (3D): SolverBase.cpp:385-484. *)
Definition make_boundary3d (m : mesh) (a : arr) (f : face) : list (prog T) :=
  let max_size := Z.max (Z.max (isize m) (jsize m)) (ksize m) in
  let nbIter := gw m * max_size * max_size in
  map (boundary3d_item m a f) (range nbIter).

(** [SolverBase::make_boundaries_serial]: SolverBase.cpp:489-497 and 501-512. *)
Definition make_boundaries2d (m : mesh) (a : arr) : list (list (prog T)) :=
  map (make_boundary2d m a) [XMIN; XMAX; YMIN; YMAX].

Definition make_boundaries3d (m : mesh) (a : arr) : list (list (prog T)) :=
  map (make_boundary3d m a) [XMIN; XMAX; YMIN; YMAX; ZMIN; ZMAX].

End Boundaries.
