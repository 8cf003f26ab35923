(** * C01-C04, C35: ghost filling and index arithmetic *)
From Coq Require Import ZArith List Bool Lia ZifyBool.
Import ListNotations.
From Verif Require Import Num Exec ExecFacts Grid GridFacts Boundaries BoundariesSpec
  BoundariesFacts BoundariesFill BoundariesNarrow.
Local Open Scope Z_scope.

(** ** C03: every cell of the array holds the value of its image, whatever the schedule. *)
Theorem C03_fill_2d :
  forall (T : Type) (N : Num T) (O : NumOne T) (m : mesh) (a : arr) (inb : extents) (s s' : store T),
  wide2 m ->
  execs inb s (make_boundaries2d m a) s' ->
  (forall i j v, cell2 m i j -> 0 <= v < nbvar m ->
     s' (mkloc a i j 0 v) = filled2 m a s i j v) /\
  (forall i j v, phys2 m i j -> s' (mkloc a i j 0 v) = s (mkloc a i j 0 v)) /\
  (forall l, la l <> a -> s' l = s l).
Proof. exact @fill2d_spec. Qed.
Print Assumptions C03_fill_2d.

Theorem C03_fill_3d :
  forall (T : Type) (N : Num T) (O : NumOne T) (m : mesh) (a : arr) (inb : extents) (s s' : store T),
  wide3 m ->
  execs inb s (make_boundaries3d m a) s' ->
  (forall i j k v, cell3 m i j k -> 0 <= v < nbvar m ->
     s' (mkloc a i j k v) = filled3 m a s i j k v) /\
  (forall i j k v, phys3 m i j k -> s' (mkloc a i j k v) = s (mkloc a i j k v)) /\
  (forall l, la l <> a -> s' l = s l).
Proof. exact @fill3d_spec. Qed.
Print Assumptions C03_fill_3d.

(** Without enough cells the claim fails: with one cell between periodic faces
    and two ghost layers, two schedules give different ghost values. *)
Theorem C03_narrow_mesh_refuted :
  exists (m : mesh) (s s1 s2 : store Z) (l : loc),
    nx m = 2 /\ ny m = 1 /\ gw m = 2 /\ (forall f, kind_of (bc m f) = Periodic) /\
    exec (alloc2d m (fun _ => nbvar m)) s (make_boundary2d (H := Znum) m A_U YMIN) s1 /\
    exec (alloc2d m (fun _ => nbvar m)) s (make_boundary2d (H := Znum) m A_U YMIN) s2 /\
    s1 l <> s2 l.
Proof. exact narrow_race. Qed.
Print Assumptions C03_narrow_mesh_refuted.

(** ** C04 *)
Theorem C04_depends_on_physical_cells_2d :
  forall (T : Type) (N : Num T) (O : NumOne T) (m : mesh) (a : arr) (inb : extents)
    (s1 s1' s2 s2' : store T),
  wide2 m ->
  (forall i j v, phys2 m i j -> 0 <= v < nbvar m -> s1 (mkloc a i j 0 v) = s2 (mkloc a i j 0 v)) ->
  execs inb s1 (make_boundaries2d m a) s1' ->
  execs inb s2 (make_boundaries2d m a) s2' ->
  forall i j v, cell2 m i j -> 0 <= v < nbvar m -> s1' (mkloc a i j 0 v) = s2' (mkloc a i j 0 v).
Proof. exact @fill2d_phys. Qed.
Print Assumptions C04_depends_on_physical_cells_2d.

Theorem C04_idempotent_2d :
  forall (T : Type) (N : Num T) (O : NumOne T) (m : mesh) (a : arr) (inb : extents)
    (s s' s'' : store T),
  wide2 m ->
  execs inb s (make_boundaries2d m a) s' ->
  execs inb s' (make_boundaries2d m a) s'' ->
  forall i j v, cell2 m i j -> 0 <= v < nbvar m -> s'' (mkloc a i j 0 v) = s' (mkloc a i j 0 v).
Proof. exact @fill2d_idem. Qed.
Print Assumptions C04_idempotent_2d.

Theorem C04_depends_on_physical_cells_3d :
  forall (T : Type) (N : Num T) (O : NumOne T) (m : mesh) (a : arr) (inb : extents)
    (s1 s1' s2 s2' : store T),
  wide3 m ->
  (forall i j k v, phys3 m i j k -> 0 <= v < nbvar m ->
     s1 (mkloc a i j k v) = s2 (mkloc a i j k v)) ->
  execs inb s1 (make_boundaries3d m a) s1' ->
  execs inb s2 (make_boundaries3d m a) s2' ->
  forall i j k v, cell3 m i j k -> 0 <= v < nbvar m ->
    s1' (mkloc a i j k v) = s2' (mkloc a i j k v).
Proof. exact @fill3d_phys. Qed.
Print Assumptions C04_depends_on_physical_cells_3d.

Theorem C04_idempotent_3d :
  forall (T : Type) (N : Num T) (O : NumOne T) (m : mesh) (a : arr) (inb : extents)
    (s s' s'' : store T),
  wide3 m ->
  execs inb s (make_boundaries3d m a) s' ->
  execs inb s' (make_boundaries3d m a) s'' ->
  forall i j k v, cell3 m i j k -> 0 <= v < nbvar m ->
    s'' (mkloc a i j k v) = s' (mkloc a i j k v).
Proof. exact @fill3d_idem. Qed.
Print Assumptions C04_idempotent_3d.

(** ** C02 (ghost filling): no access outside the view, in any schedule, and it runs. *)
Theorem C02_fill_in_bounds_2d :
  forall (T : Type) (N : Num T) (m : mesh) (a : arr) (s : store T),
  wide2 m ->
  safes (alloc2d m (fun _ => nbvar m)) s (make_boundaries2d m a) /\
  exists s', execs (alloc2d m (fun _ => nbvar m)) s (make_boundaries2d m a) s'.
Proof. exact fill2d_safe. Qed.
Print Assumptions C02_fill_in_bounds_2d.

Theorem C02_fill_in_bounds_3d :
  forall (T : Type) (N : Num T) (m : mesh) (a : arr) (s : store T),
  wide3 m ->
  safes (alloc3d m (fun _ => nbvar m)) s (make_boundaries3d m a) /\
  exists s', execs (alloc3d m (fun _ => nbvar m)) s (make_boundaries3d m a) s'.
Proof. exact fill3d_safe. Qed.
Print Assumptions C02_fill_in_bounds_3d.

(** The mesh hypotheses are met by an ordinary mesh with mixed boundary types. *)
Definition example_mesh : mesh :=
  mkmesh 4 3 5 2 5 false
    (fun f => match f with XMIN | XMAX => 3 | YMIN => 1 | YMAX => 2 | ZMIN => 2 | ZMAX => 1 end).
Example example_mesh_wide : wide3 example_mesh.
Proof. unfold wide3, wide2, enough; simpl. repeat split; try lia; auto; right; lia. Qed.
(** Lower-left corner: periodic in x, mirrored (with flipped v-momentum) in y. *)
Example example_corner (s : store Z) :
  filled2 (H := Znum) example_mesh A_U s 1 0 IV = - s (mkloc A_U 5 3 0 IV).
Proof. transitivity (s (mkloc A_U 5 3 0 IV) * -1); [reflexivity|lia]. Qed.

(** ** C35 *)
Theorem C35_index_roundtrip_2d :
  forall lay Nx Ny, 0 < Nx -> 0 < Ny ->
  (forall i j, 0 <= i < Nx -> 0 <= j < Ny ->
     0 <= coord2index2 lay i j Nx Ny < Nx * Ny /\
     index2coord2 lay (coord2index2 lay i j Nx Ny) Nx Ny = (i, j)) /\
  (forall index, 0 <= index < Nx * Ny ->
     exists i j, index2coord2 lay index Nx Ny = (i, j) /\
       0 <= i < Nx /\ 0 <= j < Ny /\ coord2index2 lay i j Nx Ny = index).
Proof. exact index_roundtrip_2. Qed.
Print Assumptions C35_index_roundtrip_2d.

Theorem C35_index_roundtrip_3d :
  forall lay Nx Ny Nz, 0 < Nx -> 0 < Ny -> 0 < Nz ->
  (forall i j k, 0 <= i < Nx -> 0 <= j < Ny -> 0 <= k < Nz ->
     0 <= coord2index3 lay i j k Nx Ny Nz < Nx * Ny * Nz /\
     index2coord3 lay (coord2index3 lay i j k Nx Ny Nz) Nx Ny Nz = (i, j, k)) /\
  (forall index, 0 <= index < Nx * Ny * Nz ->
     exists i j k, index2coord3 lay index Nx Ny Nz = (i, j, k) /\
       0 <= i < Nx /\ 0 <= j < Ny /\ 0 <= k < Nz /\ coord2index3 lay i j k Nx Ny Nz = index).
Proof. exact index_roundtrip_3. Qed.
Print Assumptions C35_index_roundtrip_3d.
