(** * Mesh parameters and index arithmetic *)
From Coq Require Import ZArith List Bool Lia.
Import ListNotations.
From Verif Require Import Num Exec.
Local Open Scope Z_scope.

(** Variable indices.  /repo/src/shared/enums.h:37-60 ([enum VarIndex]). *)
Definition ID : Z := 0.
Definition IP : Z := 1.
Definition IE : Z := 1.
Definition IU : Z := 2.
Definition IV : Z := 3.
Definition IW : Z := 4.
Definition IA : Z := 5.
Definition IB : Z := 6.
Definition IC : Z := 7.

(** Boundary-type codes.  /repo/src/shared/enums.h ([enum BoundaryConditionType]). *)
Definition BC_UNDEFINED : Z := 0.
Definition BC_DIRICHLET : Z := 1.  (* reflecting *)
Definition BC_NEUMANN   : Z := 2.  (* absorbing *)
Definition BC_PERIODIC  : Z := 3.
Definition BC_COPY      : Z := 4.  (* interior face in a distributed run *)

(** Mesh part of [HydroParams] (/repo/src/shared/HydroParams.h:60-150): sizes,
    ghost width, number of variables and the boundary types of the six faces.
    [p_mhd] tells which family of boundary functors is used. *)
Record mesh := mkmesh {
  nx : Z; ny : Z; nz : Z;
  gw : Z;
  nbvar : Z;
  p_mhd : bool;
  bc : face -> Z
}.

(** HydroParams.cpp:254-300 ([HydroParams::init]): imin = 0, imax = nx-1+2*ghostWidth,
    isize = imax-imin+1 and the same for j and k. *)
Definition isize (m : mesh) : Z := nx m + 2 * gw m.
Definition jsize (m : mesh) : Z := ny m + 2 * gw m.
Definition ksize (m : mesh) : Z := nz m + 2 * gw m.
Definition imin (m : mesh) : Z := 0.
Definition jmin (m : mesh) : Z := 0.
Definition kmin (m : mesh) : Z := 0.
Definition imax (m : mesh) : Z := nx m - 1 + 2 * gw m.
Definition jmax (m : mesh) : Z := ny m - 1 + 2 * gw m.
Definition kmax (m : mesh) : Z := nz m - 1 + 2 * gw m.

(** The indices 0 .. n-1 of [Kokkos::RangePolicy<>(0, n)]. *)
Definition range (n : Z) : list Z := map Z.of_nat (seq 0 (Z.to_nat n)).

(** Cells of [Kokkos::MDRangePolicy] over [0,n1) x [0,n2) (and x [0,n3)). *)
Definition range2 (n1 n2 : Z) : list (Z * Z) := list_prod (range n1) (range n2).
Definition range3 (n1 n2 n3 : Z) : list (Z * Z * Z) := list_prod (range2 n1 n2) (range n3).

Definition between (a x b : Z) : bool := (a <=? x) && (x <=? b).

(** [layout]: right (host) or left (CUDA) memory layout.
    /repo/src/shared/kokkos_shared.h:58-120. *)
Inductive layout := LayoutRight | LayoutLeft.

(** kokkos_shared.h:60-73 *)
Definition index2coord2 (lay : layout) (index Nx Ny : Z) : Z * Z :=
  match lay with
  | LayoutLeft => let j := index / Nx in (index - j * Nx, j)
  | LayoutRight => let i := index / Ny in (i, index - i * Ny)
  end.

(** kokkos_shared.h:75-86 *)
Definition coord2index2 (lay : layout) (i j Nx Ny : Z) : Z :=
  match lay with
  | LayoutLeft => i + Nx * j
  | LayoutRight => j + Ny * i
  end.

(** kokkos_shared.h:90-106 *)
Definition index2coord3 (lay : layout) (index Nx Ny Nz : Z) : Z * Z * Z :=
  match lay with
  | LayoutLeft =>
      let NxNy := Nx * Ny in
      let k := index / NxNy in
      let j := (index - k * NxNy) / Nx in
      (index - j * Nx - k * NxNy, j, k)
  | LayoutRight =>
      let NyNz := Ny * Nz in
      let i := index / NyNz in
      let j := (index - i * NyNz) / Nz in
      (i, j, index - j * Nz - i * NyNz)
  end.

(** kokkos_shared.h:108-120 *)
Definition coord2index3 (lay : layout) (i j k Nx Ny Nz : Z) : Z :=
  match lay with
  | LayoutLeft => i + Nx * j + Nx * Ny * k
  | LayoutRight => k + Nz * j + Nz * Ny * i
  end.

(** Extents of the allocated views.  [DataArray2d(name, isize, jsize, nbvar)] and
    [DataArray3d(name, isize, jsize, ksize, nbvar)] (SolverHydroMuscl.h:190-260,
    SolverMHDMuscl.h:230-330); [nv a] is the number of variables of array [a]. *)
Definition alloc2d (m : mesh) (nv : arr -> Z) : extents := fun l =>
  (0 <=? li l) && (li l <? isize m) && (0 <=? lj l) && (lj l <? jsize m) && (lk l =? 0) &&
  (0 <=? lv l) && (lv l <? nv (la l)).

Definition alloc3d (m : mesh) (nv : arr -> Z) : extents := fun l =>
  (0 <=? li l) && (li l <? isize m) && (0 <=? lj l) && (lj l <? jsize m) &&
  (0 <=? lk l) && (lk l <? ksize m) && (0 <=? lv l) && (lv l <? nv (la l)).
