(** * Process grid and halo exchange

    Models /repo/src/utils/mpi/MpiCommCart.h, the topology part of
    [HydroParams::setup_mpi] (/repo/src/shared/HydroParams.cpp:184-320),
    /repo/src/shared/mpiBorderUtils.h and [SolverBase::make_boundaries_mpi]
    (/repo/src/shared/SolverBase.cpp:518-954). *)
From Coq Require Import ZArith List Bool.
Import ListNotations.
From Verif Require Import Num Exec Grid Boundaries HydroNum Kernels MpiRun.
Local Open Scope Z_scope.

(** Numbers of processes along each axis ([mpi] section of the parameter file);
    a 2D topology is the case mz = 1. *)
Record pgrid := mkpgrid { mx : Z; my : Z; mz : Z }.

Definition nprocs (g : pgrid) : Z := mx g * my g * mz g.

(** [MPI_Cart_coords] and [MPI_Cart_rank]: processes are numbered in row-major
    order (MPI 3.1, section 7.5.1); a coordinate outside the grid is brought back
    by periodicity, the communicators being created with PERIODIC_TRUE
    (main.cpp:60-90, MpiCommCart.cpp:14-60). *)
Definition cart_coords (g : pgrid) (r : Z) : Z * Z * Z :=
  (r / (my g * mz g), (r / mz g) mod my g, r mod mz g).

Definition cart_rank (g : pgrid) (c : Z * Z * Z) : Z :=
  let '(x, y, z) := c in
  ((x mod mx g) * my g + y mod my g) * mz g + z mod mz g.

(** [MpiCommCart::getNeighborRank]: MpiCommCart.h:113-180. *)
Definition neighbor_rank (g : pgrid) (r : Z) (f : face) : Z :=
  let '(x, y, z) := cart_coords g r in
  cart_rank g
    (match f with
     | XMIN => (x - 1, y, z) | XMAX => (x + 1, y, z)
     | YMIN => (x, y - 1, z) | YMAX => (x, y + 1, z)
     | ZMIN => (x, y, z - 1) | ZMAX => (x, y, z + 1)
     end).

(** [neighborsBC]: HydroParams.cpp:234-303.  [user] is boundary_type_xmin, ...;
    [two] is dimType == TWO_D. *)
Definition neighbors_bc (two : bool) (g : pgrid) (user : face -> Z) (r : Z) (f : face) : Z :=
  let '(x, y, z) := cart_coords g r in
  match f with
  | XMIN => if x =? 0 then user XMIN else BC_COPY
  | XMAX => if x =? mx g - 1 then user XMAX else BC_COPY
  | YMIN => if y =? 0 then user YMIN else BC_COPY
  | YMAX => if y =? my g - 1 then user YMAX else BC_COPY
  | ZMIN => if two then BC_UNDEFINED else if z =? 0 then user ZMIN else BC_COPY
  | ZMAX => if two then BC_UNDEFINED else if z =? mz g - 1 then user ZMAX else BC_COPY
  end.

Section Halo.
Context {T : Type} `{Num T}.

(** [CopyDataArray_To_BorderBuf<f, TWO_D>::operator()(index)]: mpiBorderUtils.h:207-254.
    The offset is ghostWidth on the low sides, extent - 2*ghostWidth on the high sides. *)
Definition pack2d_item (lay : layout) (m : mesh) (a : arr) (f : face) (index : Z) : prog T :=
  let g := gw m in
  let b := A_BufSend f in
  let copy := copy_n (Z.to_nat (nbvar m)) 0 in
  match f with
  | XMIN => let (i, j) := index2coord2 lay index g (jsize m) in
            copy (mkloc b i j 0) (mkloc a (g + i) j 0)
  | XMAX => let (i, j) := index2coord2 lay index g (jsize m) in
            copy (mkloc b i j 0) (mkloc a (isize m - 2 * g + i) j 0)
  | YMIN => let (i, j) := index2coord2 lay index (isize m) g in
            copy (mkloc b i j 0) (mkloc a i (g + j) 0)
  | YMAX => let (i, j) := index2coord2 lay index (isize m) g in
            copy (mkloc b i j 0) (mkloc a i (jsize m - 2 * g + j) 0)
  | ZMIN | ZMAX => Done
  end.

(** [CopyBorderBuf_To_DataArray<f, TWO_D>::operator()(index)]: mpiBorderUtils.h:61-101. *)
Definition unpack2d_item (lay : layout) (m : mesh) (a : arr) (f : face) (index : Z) : prog T :=
  let g := gw m in
  let b := A_BufRecv f in
  let copy := copy_n (Z.to_nat (nbvar m)) 0 in
  match f with
  | XMIN => let (i, j) := index2coord2 lay index g (jsize m) in
            copy (mkloc a (0 + i) j 0) (mkloc b i j 0)
  | XMAX => let (i, j) := index2coord2 lay index g (jsize m) in
            copy (mkloc a (isize m - g + i) j 0) (mkloc b i j 0)
  | YMIN => let (i, j) := index2coord2 lay index (isize m) g in
            copy (mkloc a i (0 + j) 0) (mkloc b i j 0)
  | YMAX => let (i, j) := index2coord2 lay index (isize m) g in
            copy (mkloc a i (jsize m - g + j) 0) (mkloc b i j 0)
  | ZMIN | ZMAX => Done
  end.

(** The same in 3D: mpiBorderUtils.h:256-324 and 103-157. *)
Definition pack3d_item (lay : layout) (m : mesh) (a : arr) (f : face) (index : Z) : prog T :=
  let g := gw m in
  let b := A_BufSend f in
  let copy := copy_n (Z.to_nat (nbvar m)) 0 in
  match f with
  | XMIN => let '(i, j, k) := index2coord3 lay index g (jsize m) (ksize m) in
            copy (mkloc b i j k) (mkloc a (g + i) j k)
  | XMAX => let '(i, j, k) := index2coord3 lay index g (jsize m) (ksize m) in
            copy (mkloc b i j k) (mkloc a (isize m - 2 * g + i) j k)
  | YMIN => let '(i, j, k) := index2coord3 lay index (isize m) g (ksize m) in
            copy (mkloc b i j k) (mkloc a i (g + j) k)
  | YMAX => let '(i, j, k) := index2coord3 lay index (isize m) g (ksize m) in
            copy (mkloc b i j k) (mkloc a i (jsize m - 2 * g + j) k)
  | ZMIN => let '(i, j, k) := index2coord3 lay index (isize m) (jsize m) g in
            copy (mkloc b i j k) (mkloc a i j (g + k))
  | ZMAX => let '(i, j, k) := index2coord3 lay index (isize m) (jsize m) g in
            copy (mkloc b i j k) (mkloc a i j (ksize m - 2 * g + k))
  end.

Definition unpack3d_item (lay : layout) (m : mesh) (a : arr) (f : face) (index : Z) : prog T :=
  let g := gw m in
  let b := A_BufRecv f in
  let copy := copy_n (Z.to_nat (nbvar m)) 0 in
  match f with
  | XMIN => let '(i, j, k) := index2coord3 lay index g (jsize m) (ksize m) in
            copy (mkloc a (0 + i) j k) (mkloc b i j k)
  | XMAX => let '(i, j, k) := index2coord3 lay index g (jsize m) (ksize m) in
            copy (mkloc a (isize m - g + i) j k) (mkloc b i j k)
  | YMIN => let '(i, j, k) := index2coord3 lay index (isize m) g (ksize m) in
            copy (mkloc a i (0 + j) k) (mkloc b i j k)
  | YMAX => let '(i, j, k) := index2coord3 lay index (isize m) g (ksize m) in
            copy (mkloc a i (jsize m - g + j) k) (mkloc b i j k)
  | ZMIN => let '(i, j, k) := index2coord3 lay index (isize m) (jsize m) g in
            copy (mkloc a i j (0 + k)) (mkloc b i j k)
  | ZMAX => let '(i, j, k) := index2coord3 lay index (isize m) (jsize m) g in
            copy (mkloc a i j (ksize m - g + k)) (mkloc b i j k)
  end.

(** Number of work items: SolverBase.cpp:669-739 and 853-954. *)
Definition border_iter2 (m : mesh) (f : face) : Z :=
  match f with
  | XMIN | XMAX => gw m * jsize m
  | YMIN | YMAX => isize m * gw m
  | ZMIN | ZMAX => 0
  end.
Definition border_iter3 (m : mesh) (f : face) : Z :=
  match f with
  | XMIN | XMAX => gw m * jsize m * ksize m
  | YMIN | YMAX => isize m * gw m * ksize m
  | ZMIN | ZMAX => isize m * jsize m * gw m
  end.

Definition pack2d lay m a f : list (prog T) := map (pack2d_item lay m a f) (range (border_iter2 m f)).
Definition pack3d lay m a f : list (prog T) := map (pack3d_item lay m a f) (range (border_iter3 m f)).
Definition unpack2d lay m a f : list (prog T) :=
  map (unpack2d_item lay m a f) (range (border_iter2 m f)).
Definition unpack3d lay m a f : list (prog T) :=
  map (unpack3d_item lay m a f) (range (border_iter3 m f)).

Variable lay : layout.
Variable m : mesh.   (* local mesh; [bc m] are the user's boundary types *)
Variable g : pgrid.
Variable a : arr.

Definition rank_of (r : nat) (f : face) : nat := Z.to_nat (neighbor_rank g (Z.of_nat r) f).

(** [SolverBase::transfer_boundaries_2d/_3d(dir)]: SolverBase.cpp:744-848; [lo], [hi] are the
    two faces of the direction, [tag] is 111, 211 or 311. *)
Definition transfer (r : nat) (lo hi : face) (tag : Z) : list (action T) :=
  [ Sendrecv (A_BufSend lo) (rank_of r lo) tag (A_BufRecv hi) (rank_of r hi) tag;
    Sendrecv (A_BufSend hi) (rank_of r hi) tag (A_BufRecv lo) (rank_of r lo) tag ].

(** One direction of [make_boundaries_mpi]: copy_boundaries, transfer_boundaries, then for
    each side either copy_boundaries_back or make_boundary, and a barrier.
    SolverBase.cpp:518-579 (2D), 583-664 (3D). *)
Definition fill_side2 (r : nat) (f : face) : list (prog T) :=
  let t := neighbors_bc true g (bc m) (Z.of_nat r) f in
  if (t =? BC_COPY) || (t =? BC_PERIODIC) then unpack2d lay m a f else make_boundary2d m a f.
Definition fill_side3 (r : nat) (f : face) : list (prog T) :=
  let t := neighbors_bc false g (bc m) (Z.of_nat r) f in
  if (t =? BC_COPY) || (t =? BC_PERIODIC) then unpack3d lay m a f else make_boundary3d m a f.

Definition halo_dir2 (r : nat) (lo hi : face) (tag : Z) : list (action T) :=
  [Compute (pack2d lay m a lo); Compute (pack2d lay m a hi)] ++
  transfer r lo hi tag ++
  [Compute (fill_side2 r lo); Compute (fill_side2 r hi); Barrier].
Definition halo_dir3 (r : nat) (lo hi : face) (tag : Z) : list (action T) :=
  [Compute (pack3d lay m a lo); Compute (pack3d lay m a hi)] ++
  transfer r lo hi tag ++
  [Compute (fill_side3 r lo); Compute (fill_side3 r hi); Barrier].

(** [SolverBase::make_boundaries_mpi] on process [r]. *)
Definition make_boundaries_mpi2 (r : nat) : list (action T) :=
  halo_dir2 r XMIN XMAX 111 ++ halo_dir2 r YMIN YMAX 211.
Definition make_boundaries_mpi3 (r : nat) : list (action T) :=
  halo_dir3 r XMIN XMAX 111 ++ halo_dir3 r YMIN YMAX 211 ++ halo_dir3 r ZMIN ZMAX 311.

End Halo.

(** Extents of the border buffers: SolverBase.cpp:78-108; the other arrays as in the
    serial solver. *)
Definition buf_ext (m : mesh) (f : face) : Z * Z * Z :=
  match f with
  | XMIN | XMAX => (gw m, jsize m, ksize m)
  | YMIN | YMAX => (isize m, gw m, ksize m)
  | ZMIN | ZMAX => (isize m, jsize m, gw m)
  end.

Definition mpi_alloc2d (m : mesh) (nv : arr -> Z) : extents := fun l =>
  match la l with
  | A_BufSend f | A_BufRecv f =>
      let '(e1, e2, _) := buf_ext m f in
      match f with ZMIN | ZMAX => false | _ => true end &&
      (0 <=? li l) && (li l <? e1) && (0 <=? lj l) && (lj l <? e2) && (lk l =? 0) &&
      (0 <=? lv l) && (lv l <? nbvar m)
  | _ => alloc2d m nv l
  end.

Definition mpi_alloc3d (m : mesh) (nv : arr -> Z) : extents := fun l =>
  match la l with
  | A_BufSend f | A_BufRecv f =>
      let '(e1, e2, e3) := buf_ext m f in
      (0 <=? li l) && (li l <? e1) && (0 <=? lj l) && (lj l <? e2) &&
      (0 <=? lk l) && (lk l <? e3) && (0 <=? lv l) && (lv l <? nbvar m)
  | _ => alloc3d m nv l
  end.
