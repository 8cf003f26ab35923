(** * Checkpoint files written and read by several processes

    Models utils/io/IO_HDF5.h:530-1502 ([Save_HDF5_mpi]) and 2165-2782
    ([Load_HDF5_mpi]).  As in Hdf5.v one definition covers 2D (one layer, no
    ghosts along z, [mz] = 1) and 3D.

    What is assumed of parallel HDF5: a collective [H5Dwrite] stores the selected box of
    every process at its selected box of the file; an element that several
    processes write receives the value of one of them (which one is not
    determined); [H5Dread] copies the selected box of the file, if the extents announced
    for the file are those of the dataset (otherwise its effect is not modelled).
    Elements that nobody writes hold any value.  Chunking, attributes that are not
    read back, timers and messages are not modelled. *)
From Coq Require Import ZArith List Bool.
Import ListNotations.
From Verif Require Import Num Exec Grid Hdf5 Halo.
Local Notation length := List.length.
Local Open Scope Z_scope.

Section Hdf5Mpi.
Context {T : Type} `{Num T}.
Variable cf : h5conf.
Variables allg rea : bool.   (* output/allghostIncluded, output/reassembleInFile *)
Variable m : mesh.           (* block of one process *)
Variable gp : pgrid.

Definition triple (a b c : Z) : Z * Z * Z := (if h_three cf then a else 0, b, c).

(** ghostIncluded or allghostIncluded *)
Definition conf : h5conf := mkh5conf (h_three cf) (h_mhd cf) (h_ghost cf || allg) (h_half cf) (h_lay cf).

(** dims_chunk of the writer, IO_HDF5.h:800-970; box of memory, 976-1023: those of
    Hdf5.v ([save_count conf], [save_start conf]). *)
Definition chunk : Z * Z * Z := save_count conf m.

(** dims_file of the writer, IO_HDF5.h:800-970 *)
Definition file_dims : Z * Z * Z :=
  let '(c3, c2, c1) := chunk in
  if negb rea then
    if h_three cf then (c3 * (mx gp * my gp * mz gp), c2, c1) else (1, c2 * (mx gp * my gp), c1)
  else if allg then (if h_three cf then mz gp * c3 else 1, my gp * c2, mx gp * c1)
  else if h_ghost cf then
    (if h_three cf then nz m * mz gp + 2 * gw m else 1, ny m * my gp + 2 * gw m, nx m * mx gp + 2 * gw m)
  else (if h_three cf then nz m * mz gp else 1, ny m * my gp, nx m * mx gp).

(** Corner of the box of the file of process [r], IO_HDF5.h:1034-1161 *)
Definition file_start (r : nat) : Z * Z * Z :=
  let '(x, y, z) := cart_coords gp (Z.of_nat r) in
  let '(c3, c2, c1) := chunk in
  if negb rea then
    if h_three cf then (Z.of_nat r * c3, 0, 0) else (0, Z.of_nat r * c2, 0)
  else if allg then triple (z * c3) (y * c2) (x * c1)
  else if h_ghost cf then triple (z * nz m) (y * ny m) (x * nx m)
  else triple (z * c3) (y * c2) (x * c1).

Definition box (start count : Z * Z * Z) (k j i : Z) : Prop :=
  let '(s3, s2, s1) := start in let '(c3, c2, c1) := count in
  s3 <= k < s3 + c3 /\ s2 <= j < s2 + c2 /\ s1 <= i < s1 + c1.

(** Collective H5Dwrite: [data r] is the buffer of process [r], of sizes [dims]; box of
    corner [start] and sizes [count] in memory, of corner [fstart r] in the file. *)
Definition h5_pwrite (P : nat) (dims start count fdims : Z * Z * Z) (fstart : nat -> Z * Z * Z)
    (data : nat -> flat (T := T)) (ds : dataset (T := T)) : Prop :=
  d_dims ds = fdims /\
  forall k j i, box (0, 0, 0) fdims k j i ->
    (exists r, (r < P)%nat /\ box (fstart r) count k j i /\
       d_at ds k j i =
       let '(d3, d2, d1) := dims in let '(s3, s2, s1) := start in let '(f3, f2, f1) := fstart r in
       data r ((s1 + (i - f1)) + d1 * ((s2 + (j - f2)) + d2 * (s3 + (k - f3))))) \/
    (forall r, (r < P)%nat -> ~ box (fstart r) count k j i).

(** copy_buffer (IO_HDF5.h:558-619) and write_field (623-655) for each field,
    1198-1298; [data r], the buffer of process [r], is shared by the fields. *)
Fixpoint written (U : nat -> Z -> Z -> Z -> Z -> T) (vs : list Z) (data : nat -> flat) (sets : list (Z * dataset)) : Prop :=
  match vs, sets with
  | [], [] => True
  | v :: vs, (w, ds) :: sets =>
      let data := fun r => save_buffer conf m (to_host conf m (U r)) v (data r) in
      w = v /\
      h5_pwrite (Z.to_nat (nprocs gp)) (ks conf m, jsize m, isize m) (save_start conf m) chunk file_dims file_start data ds /\
      written U vs data sets
  | _, _ => False
  end.

(** save, IO_HDF5.h:670-1490: [U r] is the array of process [r]; iStep and totalTime are
    the same on all processes. *)
Definition saved_mpi (U : nat -> Z -> Z -> Z -> Z -> T) (iStep : Z) (totalTime : T) (f : h5file) : Prop :=
  h_step f = iStep /\ h_time f = totalTime /\ written U (h5_fields cf) (fun _ => blank) (h_sets f).

(** ** Reading *)

(** dims_file of the reader, IO_HDF5.h:2354-2453; it does not look at reassembleInFile.
    dims_memory, dims_chunk and the box of memory (2354-2507) are [load_dims],
    [load_count] and [load_start] of Hdf5.v. *)
Definition read_dims : Z * Z * Z :=
  if allg then (if h_three cf then mz gp * nz_rg conf m else 1, my gp * ny_rg conf m, mx gp * nx_rg conf m)
  else if h_ghost cf then
    (if h_three cf then nz_r conf m * mz gp + 2 * gw m else 1, ny_r conf m * my gp + 2 * gw m, nx_r conf m * mx gp + 2 * gw m)
  else (if h_three cf then nz_r conf m * mz gp else 1, ny_r conf m * my gp, nx_r conf m * mx gp).

(** IO_HDF5.h:2514-2603 *)
Definition read_start (r : nat) : Z * Z * Z :=
  let '(x, y, z) := cart_coords gp (Z.of_nat r) in
  let '(c3, c2, c1) := load_count conf m in
  if allg then triple (z * c3) (y * c2) (x * c1)
  else if h_ghost cf then triple (z * nz_r conf m) (y * ny_r conf m) (x * nx_r conf m)
  else triple (z * c3) (y * c2) (x * c1).

(** H5Dread of a box of the file into a box of memory *)
Definition h5_pread (ds : dataset (T := T)) (fdims fstart dims start count : Z * Z * Z) (data : flat) : option flat :=
  let '(d3, d2, d1) := dims in let '(s3, s2, s1) := start in let '(c3, c2, c1) := count in
  let '(f3, f2, f1) := fstart in let '(e3, e2, e1) := d_dims ds in let '(g3, g2, g1) := fdims in
  if (e3 =? g3) && (e2 =? g2) && (e1 =? g1)
  then Some (nested c3 c2 c1 (fun k j i data =>
               upd data ((s1 + i) + d1 * ((s2 + j) + d2 * (s3 + k))) (d_at ds (f3 + k) (f2 + j) (f1 + i))) data)
  else None.

(** read_field, IO_HDF5.h:2215-2243, for each field, 2671-2699 *)
Fixpoint read_fields_mpi (f : h5file (T := T)) (r : nat) (vs : list Z) (data h : flat) : option flat :=
  match vs with
  | [] => Some h
  | v :: vs =>
      match find_set f v with
      | Some ds =>
          match h5_pread ds read_dims (read_start r) (load_dims conf m) (load_start conf m) (load_count conf m) data with
          | Some data => read_fields_mpi f r vs data (load_buffer conf m data v h)
          | None => None
          end
      | None => None
      end
  end.

(** load, IO_HDF5.h:2252-2779: host array of process [r] *)
Definition h5_load_mpi (f : h5file (T := T)) (r : nat) : option flat := read_fields_mpi f r (h5_fields cf) blank blank.

(** Array [a] of process [r] after [load]; uninitialised elements have any value. *)
Definition loaded_mpi (f : h5file (T := T)) (r : nat) (a : arr) (s s' : store T) : Prop :=
  exists h, h5_load_mpi f r = Some h /\
    (forall i j k v, 0 <= i < isize m -> 0 <= j < jsize m -> 0 <= k < ks conf m -> 0 <= v < nbvar m ->
       forall x, h (addr conf m i j k v) = Some x -> s' (mkloc a i j k v) = x) /\
    (forall l, la l <> a -> s' l = s l).

End Hdf5Mpi.
