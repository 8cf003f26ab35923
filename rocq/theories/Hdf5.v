(** * Checkpoint files: writing, reading, reading at half resolution

    Models utils/io/IO_HDF5.h:107-508 ([Save_HDF5]: copy_buffer, write_field, save)
    and 1575-2132 ([Load_HDF5]: copy_buffer, read_field, load), the choice made by
    utils/io/IO_ReadWrite.cpp:199-289 ([load_data_impl]) and
    muscl/SolverHydroMuscl.h:510-580, muscl/SolverMHDMuscl.h:609-639 ([init_restart]).

    One definition covers the 2D and the 3D member functions, which differ only
    by the loop over k: in 2D there is one layer k = 0 without ghosts.  What is
    assumed of HDF5 (files hold what was written; [H5Dwrite] and [H5Dread] move the
    selected box, row by row) is in [h5_write] and [h5_read].  The attributes
    that are never read back (nx, ny, nz, ghost zone included, creation date),
    compression and the distributed reader and writer are not modelled. *)
From Coq Require Import ZArith List Bool Ascii String.
Import ListNotations.
From Verif Require Import Num Exec Grid Vtk Config.
Local Notation length := List.length.
Local Open Scope Z_scope.

(** Settings used by the reader and the writer: dimension (template parameter
    [d]), params.mhdEnabled, output/ghostIncluded, run/restart_upscale, memory
    layout of the arrays. *)
Record h5conf := mkh5conf { h_three : bool; h_mhd : bool; h_ghost : bool; h_half : bool; h_lay : layout }.

Section Hdf5.
Context {T : Type} `{Num T}.

(** Memory of a flat array; [None]: never written. *)
Definition flat := Z -> option T.
Definition upd (f : flat) (a : Z) (x : option T) : flat := fun b => if b =? a then x else f b.
Definition blank : flat := fun _ => None.

(** Three nested loops with bounds [n3], [n2], [n1], outermost first. *)
Definition nested (n3 n2 n1 : Z) (body : Z -> Z -> Z -> flat -> flat) (f : flat) : flat :=
  fold_left (fun f p => match p with (k, j, i) => body k j i f end) (range3 n3 n2 n1) f.

Section Shape.
Variable cf : h5conf.
Variable m : mesh.

(** params.ksize; 1 in 2D *)
Definition ks : Z := if h_three cf then ksize m else 1.
(** ghost width along z; none in 2D *)
Definition gz : Z := if h_three cf then gw m else 0.

(** Position of Uhost(i,j,k,v) in the memory of the array, Kokkos LayoutLeft and
    LayoutRight without padding. *)
Definition addr (i j k v : Z) : Z :=
  match h_lay cf with
  | LayoutLeft => i + isize m * j + isize m * jsize m * k + isize m * jsize m * ks * v
  | LayoutRight => ((i * jsize m + j) * ks + k) * nbvar m + v
  end.

(** Kokkos::deep_copy(Uhost, Udata) *)
Definition to_host (U : Z -> Z -> Z -> Z -> T) : flat :=
  fold_left (fun h v => nested ks (jsize m) (isize m)
               (fun k j i h => upd h (addr i j k v) (Some (U i j k v))) h) (range (nbvar m)) blank.

(** The fields of a file, IO_HDF5.h:386-417 and 2048-2073. *)
Definition h5_fields : list Z :=
  [ID; IE; IU; IV] ++ (if h_three cf && negb (h_mhd cf) then [IW] else []) ++
  (if h_mhd cf then [IW; IA; IB; IC] else []).

(** ** Writing *)

(** Save_HDF5::copy_buffer, IO_HDF5.h:107-165.  In the LayoutLeft case [data]
    becomes a pointer into Uhost. *)
Definition save_buffer (h : flat) (v : Z) (data : flat) : flat :=
  match h_lay cf with
  | LayoutRight => nested ks (jsize m) (isize m)
      (fun k j i data => upd data (i + isize m * j + isize m * jsize m * k) (h (addr i j k v))) data
  | LayoutLeft => fun a => h (isize m * jsize m * ks * v + a)
  end.

(** A dataset: extents (slowest first) and elements. *)
Record dataset := mkdataset { d_dims : Z * Z * Z; d_at : Z -> Z -> Z -> option T }.

(** H5Dwrite of the box of memory with corner [start] and sizes [count] out of an
    array of sizes [dims]; the dataset has the sizes [count]. *)
Definition h5_write (dims start count : Z * Z * Z) (data : flat) : dataset :=
  let '(d3, d2, d1) := dims in let '(s3, s2, s1) := start in
  mkdataset count (fun k j i => data ((s1 + i) + d1 * ((s2 + j) + d2 * (s3 + k)))).

(** H5Dread of a dataset into the same kind of box.  The extents given for the
    file must be those of the dataset; otherwise the effect is not modelled. *)
Definition h5_read (ds : dataset) (dims start count : Z * Z * Z) (data : flat) : option flat :=
  let '(d3, d2, d1) := dims in let '(s3, s2, s1) := start in let '(c3, c2, c1) := count in
  let '(e3, e2, e1) := d_dims ds in
  if (e3 =? c3) && (e2 =? c2) && (e1 =? c1)
  then Some (nested c3 c2 c1 (fun k j i data =>
               upd data ((s1 + i) + d1 * ((s2 + j) + d2 * (s3 + k))) (d_at ds k j i)) data)
  else None.

(** A file: one dataset per variable, the attributes "time step" and "total time". *)
Record h5file := mkh5file { h_sets : list (Z * dataset); h_step : Z; h_time : T }.

(** save, IO_HDF5.h:253-339: sizes on disk and hyperslab *)
Definition save_count : Z * Z * Z :=
  if h_ghost cf then (if h_three cf then nz m + 2 * gw m else 1, ny m + 2 * gw m, nx m + 2 * gw m)
  else (if h_three cf then nz m else 1, ny m, nx m).
Definition save_start : Z * Z * Z := if h_ghost cf then (0, 0, 0) else (gz, gw m, gw m).

(** write_field, IO_HDF5.h:168-197, for each field; [data] is shared. *)
Fixpoint write_fields (h : flat) (vs : list Z) (data : flat) : list (Z * dataset) :=
  match vs with
  | [] => []
  | v :: vs => let data := save_buffer h v data in
      (v, h5_write (ks, jsize m, isize m) save_start save_count data) :: write_fields h vs data
  end.

(** save, IO_HDF5.h:212-508 *)
Definition h5_save (U : Z -> Z -> Z -> Z -> T) (iStep : Z) (totalTime : T) : h5file :=
  mkh5file (write_fields (to_host U) h5_fields blank) iStep totalTime.

(** IO_HDF5.h:244-251 *)
Definition h5_name (outputDir outputPrefix : list ascii) (iStep : Z) : list ascii :=
  outputDir ++ lit "/" ++ outputPrefix ++ lit "_" ++ padded 7 iStep ++ lit ".h5".

(** ** Reading *)

(** Sizes read, IO_HDF5.h:1893-1920; in 2D one layer. *)
Definition nx_r : Z := if h_half cf then nx m / 2 else nx m.
Definition ny_r : Z := if h_half cf then ny m / 2 else ny m.
Definition nz_r : Z := if h_three cf then (if h_half cf then nz m / 2 else nz m) else 1.
Definition nx_rg : Z := nx_r + 2 * gw m.
Definition ny_rg : Z := ny_r + 2 * gw m.
Definition nz_rg : Z := nz_r + 2 * gz.

(** IO_HDF5.h:1933-2018 *)
Definition load_dims : Z * Z * Z := (nz_rg, ny_rg, nx_rg).
Definition load_count : Z * Z * Z := if h_ghost cf then (nz_rg, ny_rg, nx_rg) else (nz_r, ny_r, nx_r).
Definition load_start : Z * Z * Z := if h_ghost cf then (0, 0, 0) else (gz, gw m, gw m).

(** Elements of [data] read for Uhost(i,j,k,v) in the half resolution case,
    IO_HDF5.h:1602-1640 and 1695-1757: one is copied, two are averaged. *)
Definition half_reads (v i j k : Z) : list Z :=
  let iL := nx m / 2 + 2 * gw m in
  let jL := ny m / 2 + 2 * gw m in
  let iLow := (i + gw m) / 2 in
  let jLow := (j + gw m) / 2 in
  let kLow := (k + gz) / 2 in
  let here := iLow + iL * jLow + iL * jL * kLow in
  if v =? IA then
    if i + gw m - 2 * iLow =? 0 then [here] else [here; iLow + 1 + iL * jLow + iL * jL * kLow]
  else if v =? IB then
    if j + gw m - 2 * jLow =? 0 then [here] else [here; iLow + iL * (jLow + 1) + iL * jL * kLow]
  else if h_three cf && (v =? IC) then
    if k + gz - 2 * kLow =? 0 then [here] else [here; iLow + iL * jLow + iL * jL * (kLow + 1)]
  else [here].

Definition mean (l : list (option T)) : option T :=
  match l with
  | [Some x] => Some x
  | [Some x; Some y] => Some (ndiv (nadd x y) (nZ 2))
  | _ => None
  end.

(** Load_HDF5::copy_buffer, IO_HDF5.h:1584-1790; the memcpy is a loop over the
    elements. *)
Definition load_buffer (data : flat) (v : Z) (h : flat) : flat :=
  if h_half cf then
    nested ks (jsize m) (isize m)
      (fun k j i h => upd h (addr i j k v) (mean (map data (half_reads v i j k)))) h
  else match h_lay cf with
  | LayoutRight => nested ks (jsize m) (isize m)
      (fun k j i h => upd h (addr i j k v) (data (i + isize m * j + isize m * jsize m * k))) h
  | LayoutLeft => fold_left (fun h a => upd h (isize m * jsize m * ks * v + a) (data a))
      (range (isize m * jsize m * ks)) h
  end.

Definition find_set (f : h5file) (v : Z) : option dataset :=
  option_map snd (find (fun p => fst p =? v) (h_sets f)).

(** read_field, IO_HDF5.h:1811-1846, for each field; [data] is shared. *)
Fixpoint read_fields (f : h5file) (vs : list Z) (data h : flat) : option flat :=
  match vs with
  | [] => Some h
  | v :: vs =>
      match find_set f v with
      | Some ds =>
          match h5_read ds load_dims load_start load_count data with
          | Some data => read_fields f vs data (load_buffer data v h)
          | None => None
          end
      | None => None
      end
  end.

(** Contents of the host array after [load], IO_HDF5.h:1856-2130. *)
Definition h5_load (f : h5file) : option flat := read_fields f h5_fields blank blank.

(** [load] leaves in array [a] of the store what was read; elements that were
    never written (uninitialised memory) have any value. *)
Definition loaded (f : h5file) (a : arr) (s s' : store T) : Prop :=
  exists h, h5_load f = Some h /\
    (forall i j k v, 0 <= i < isize m -> 0 <= j < jsize m -> 0 <= k < ks -> 0 <= v < nbvar m ->
       forall x, h (addr i j k v) = Some x -> s' (mkloc a i j k v) = x) /\
    (forall l, la l <> a -> s' l = s l).

End Shape.

(** ** Restart *)

Fixpoint eqchars (a b : list ascii) : bool :=
  match a, b with
  | [], [] => true
  | x :: a, y :: b => Ascii.eqb x y && eqchars a b
  | _, _ => false
  end.

(** IO_ReadWrite.cpp:213-220: the name ends with ".h5" *)
Definition is_hdf5 (name : list ascii) : bool :=
  (3 <=? Z.of_nat (length name)) && eqchars (skipn (length name - 3) name) (lit ".h5").

(** load_data_impl, IO_ReadWrite.cpp:199-289: [disk] is the file system; result is
    the output counter and time left in the variables of the caller. *)
Definition load_data (cf : h5conf) (m : mesh) (hdf5_enabled : bool) (name : list ascii)
    (disk : list ascii -> option h5file) (iStep : Z) (time : T) (s : store T)
    (iStep' : Z) (time' : T) (s' : store T) : Prop :=
  if hdf5_enabled && is_hdf5 name then
    exists f, disk name = Some f /\ loaded cf m f A_U s s' /\ iStep' = h_step f /\ time' = h_time f
  else iStep' = iStep /\ time' = time /\ s' = s.

(** init_restart, SolverHydroMuscl.h:510-580, SolverMHDMuscl.h:609-639 *)
Definition init_restart (cf : h5conf) (m : mesh) (hdf5_enabled reset : bool) (name : list ascii)
    (disk : list ascii -> option h5file) (saved : Z) (t : T) (s : store T)
    (saved' : Z) (t' : T) (s' : store T) : Prop :=
  exists t1, load_data cf m hdf5_enabled name disk saved t s saved' t1 s' /\
    t' = if reset then nZ 0 else t1.

(** SolverHydroMuscl.h:190-272: Kokkos fills new arrays with zeros.  (The
    gravity field is among them; only the initial condition rayleigh_taylor,
    HydroInitFunctors2D.h:769-771, writes it, SolverHydroMuscl.cpp:77-205.) *)
Definition zeros : store T := fun _ => nZ 0.

End Hdf5.
