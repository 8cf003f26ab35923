(** * The image files: /repo/src/utils/io/IO_VTK.cpp

    A file is the list of its characters.  Values of type [real_t] appear in it in
    two ways, both given by a [rformat]: as they lie in memory
    ([write((char * )&tmp, sizeof(real_t))]) and as [operator<<] prints them.
    The sizes computed by the code are kept as machine integers: [int] products
    wrap at 32 bits (that is undefined behaviour in C++; wrapping is what the usual
    compilers do), [uint64_t] ones at 64. *)
From Coq Require Import Ascii String ZArith List Bool Lia.
Import ListNotations.
From Verif Require Import Grid Config Halo.
Local Open Scope Z_scope.

Definition nl : text := [ascii_of_nat 10].
Definition sp : text := lit " ".

(** [for (int i = lo; i <= hi; i++)] *)
Definition upto (lo hi : Z) : list Z := map (fun i => lo + i) (range (hi - lo + 1)).

(** Machine integers *)
Definition i32 (x : Z) : Z := (x + 2 ^ 31) mod 2 ^ 32 - 2 ^ 31.
Definition u64 (x : Z) : Z := x mod 2 ^ 64.

(** [os.width(w); os.fill('0'); os << n] (IO_VTK.cpp:74-77) *)
Definition padded (w : Z) (n : Z) : text :=
  let s := show_long n in repeat "0"%char (Z.to_nat (w - Z.of_nat (List.length s))) ++ s.

(** IO_VTK.cpp:15-20 [isBigEndian] is [big].  The eight bytes of a [uint64_t] *)
Definition byte (n : Z) : ascii := ascii_of_nat (Z.to_nat (n mod 256)).
Definition u64_bytes (big : bool) (n : Z) : text :=
  let l := map (fun k => byte (n / 256 ^ k)) (range 8) in if big then rev l else l.

Record rformat (T : Type) := mkrformat {
  big : bool;            (* byte order of the machine *)
  rsize : Z;             (* sizeof(real_t) *)
  rbytes : T -> text;    (* the bytes of a value *)
  rshow : T -> text;     (* [operator<<] *)
  rzero : T              (* ZERO_F, 0.0 *)
}.
Arguments big {T}. Arguments rsize {T}. Arguments rbytes {T}. Arguments rshow {T}. Arguments rzero {T}.

(** What the functions take from [HydroParams] besides the mesh, and from
    [ConfigMap]: lines 37-41, 60-63 *)
Record rgeom (T : Type) := mkrgeom {
  g_dx : T; g_dy : T; g_dz : T; g_xmin : T; g_ymin : T; g_zmin : T }.
Arguments g_dx {T}. Arguments g_dy {T}. Arguments g_dz {T}.
Arguments g_xmin {T}. Arguments g_ymin {T}. Arguments g_zmin {T}.

Record outconf := mkoutconf { o_dir : text; o_prefix : text; o_ascii : bool }.
(** lines 60-63 *)
Definition read_outconf (c : cmap) : outconf :=
  mkoutconf (get_string c (lit "output") (lit "outputDir") (lit "./"))
            (get_string c (lit "output") (lit "outputPrefix") (lit "output"))
            (get_bool c (lit "output") (lit "outputVtkAscii") false).

(** SolverBase.cpp:60-67 [m_variables_names]; [at] on any other index throws *)
Definition variables_names (v : Z) : option text :=
  if v =? ID then Some (lit "rho") else if v =? IP then Some (lit "energy")
  else if v =? IU then Some (lit "rho_vx") else if v =? IV then Some (lit "rho_vy")
  else if v =? IW then Some (lit "rho_vz") else if v =? IA then Some (lit "bx")
  else if v =? IB then Some (lit "by") else if v =? IC then Some (lit "bz") else None.

(** A loop that writes text and may throw *)
Fixpoint collect {A : Type} (f : A -> option text) (l : list A) : option text :=
  match l with
  | [] => Some []
  | a :: l => match f a with
              | None => None
              | Some t => match collect f l with None => None | Some u => Some (t ++ u) end
              end
  end.

Section Writer.
Context {T : Type} (rf : rformat T).

(** lines 464-467, 541-544, 581-588: the type attribute *)
Definition real_type : text := if rsize rf =? 8 then lit "Float64" else lit "Float32".

(** lines 93-105 (2D), 291-303 (3D, version 0.1), 506-518, 730-742 *)
Definition prologue (ascii : bool) (version : text) : text :=
  (if ascii then lit "<?xml version=""1.0""?>" ++ nl else []) ++
  lit "<VTKFile type=""ImageData"" version=""" ++ version ++ lit """ byte_order=""" ++
  lit (if big rf then "BigEndian" else "LittleEndian") ++ lit """ header_type=""UInt64"">" ++ nl.

Definition six (x0 x1 y0 y1 z0 z1 : Z) : text :=
  show_long x0 ++ sp ++ show_long x1 ++ sp ++ show_long y0 ++ sp ++ show_long y1 ++ sp ++
  show_long z0 ++ sp ++ show_long z1.
Definition three (a b c : T) : text := rshow rf a ++ sp ++ rshow rf b ++ sp ++ rshow rf c.

(** lines 109-116, 307-314 ([tail] is a blank there), 522-530, 746-754 ([tail] empty) *)
Definition extents (x0 x1 y0 y1 z0 z1 : Z) (origin spacing tail : text) : text :=
  lit "  <ImageData WholeExtent=""" ++ six x0 x1 y0 y1 z0 z1 ++ lit """ Origin=""" ++ origin ++
  lit """ Spacing=""" ++ spacing ++ lit """>" ++ nl ++
  lit "  <Piece Extent=""" ++ six x0 x1 y0 y1 z0 z1 ++ tail ++ lit """>" ++ nl ++
  lit "    <PointData>" ++ nl ++ lit "    </PointData>" ++ nl.

(** ** Binary data *)

(** [iVar * nx * ny * sizeof(real_t) + iVar * sizeof(uint64_t)], line 174 *)
Definition offset2 (m : mesh) (v : Z) : Z :=
  u64 (u64 (i32 (i32 (v * nx m) * ny m) * rsize rf) + u64 (v * 8)).
(** line 373 *)
Definition offset3 (m : mesh) (v : Z) : Z :=
  u64 (u64 (i32 (i32 (i32 (v * nx m) * ny m) * nz m) * rsize rf) + u64 (v * 8)).
(** [nbOfWords], lines 187 and 388 *)
Definition words2 (m : mesh) : Z := u64 (i32 (nx m * ny m) * rsize rf).
Definition words3 (m : mesh) : Z := u64 (i32 (i32 (nx m * ny m) * nz m) * rsize rf).

(** lines 163-175, 362-375, 579-591, 804-817 *)
Definition declare (offset : Z -> Z) (v : Z) : option text :=
  match variables_names v with
  | None => None
  | Some name => Some (lit "     <DataArray type=""" ++ real_type ++ lit """ Name=""" ++ name ++
                       lit """ format=""appended"" offset=""" ++ show_long (offset v) ++ lit """ />" ++ nl)
  end.

(** lines 188-197, 604-613 *)
Definition heavy2 (m : mesh) (U : Z -> Z -> Z -> T) (v : Z) : text :=
  u64_bytes (big rf) (words2 m) ++
  flat_map (fun j => flat_map (fun i => rbytes rf (U i j v)) (upto (imin m + gw m) (imax m - gw m)))
           (upto (jmin m + gw m) (jmax m - gw m)).
(** lines 389-399, 830-844 *)
Definition heavy3 (m : mesh) (U : Z -> Z -> Z -> Z -> T) (v : Z) : text :=
  u64_bytes (big rf) (words3 m) ++
  flat_map (fun k => flat_map (fun j => flat_map (fun i => rbytes rf (U i j k v))
             (upto (imin m + gw m) (imax m - gw m)))
             (upto (jmin m + gw m) (jmax m - gw m)))
           (upto (kmin m + gw m) (kmax m - gw m)).

(** lines 161-201, 360-403, 577-617, 802-848 *)
Definition binary (offset : Z -> Z) (heavy : Z -> text) (nv : Z) : option text :=
  match collect (declare offset) (range nv) with
  | None => None
  | Some d =>
    Some (lit "    <CellData>" ++ nl ++ d ++ lit "    </CellData>" ++ nl ++ lit "  </Piece>" ++ nl ++
          lit "  </ImageData>" ++ nl ++ lit "  <AppendedData encoding=""raw"">" ++ nl ++ lit "_" ++
          flat_map heavy (range nv) ++ lit "  </AppendedData>" ++ nl ++ lit "</VTKFile>" ++ nl)
  end.

(** ** Text data *)

(** lines 133-147 ([nbCells] an [int], 53) and 547-561 (there [isize], [jsize] and
    [nbCells] are [uint64_t], 440-442) *)
Definition listed2 (nbcells : Z) (m : mesh) (U : Z -> Z -> Z -> T) (v : Z) : text :=
  flat_map (fun index =>
    let j := index / isize m in
    let i := index - j * isize m in
    if (jmin m + gw m <=? j) && (j <=? jmax m - gw m) && (imin m + gw m <=? i) && (i <=? imax m - gw m)
    then rshow rf (U i j v) ++ sp else [])
    (range nbcells).
(** lines 331-346, 771-786; [ijsize] and [nbCells], lines 247-248, are [int] products *)
Definition listed3 (m : mesh) (U : Z -> Z -> Z -> Z -> T) (v : Z) : text :=
  let ijsize := u64 (i32 (isize m * jsize m)) in
  let nbcells := u64 (i32 (i32 (isize m * jsize m) * ksize m)) in
  flat_map (fun index =>
    let k := index / ijsize in
    let j := (index - k * ijsize) / isize m in
    let i := index - j * isize m - k * ijsize in
    if (kmin m + gw m <=? k) && (k <=? kmax m - gw m) && (jmin m + gw m <=? j) && (j <=? jmax m - gw m)
       && (imin m + gw m <=? i) && (i <=? imax m - gw m)
    then rshow rf (U i j k v) ++ sp else [])
    (range nbcells).

(** lines 124-156, 322-355, 538-572, 762-797 *)
Definition listing (listed : Z -> text) (v : Z) : option text :=
  match variables_names v with
  | None => None
  | Some name => Some (lit "    <DataArray type=""" ++ real_type ++ lit """ Name=""" ++ name ++
                       lit """ format=""ascii"" >" ++ nl ++ listed v ++ nl ++ lit "    </DataArray>" ++ nl)
  end.
Definition plain (listed : Z -> text) (nv : Z) : option text :=
  match collect (listing listed) (range nv) with
  | None => None
  | Some d => Some (lit "    <CellData>" ++ nl ++ d ++ lit "    </CellData>" ++ nl ++ lit "  </Piece>" ++ nl ++
                    lit "  </ImageData>" ++ nl ++ lit "</VTKFile>" ++ nl)
  end.

(** ** The four writers: name and content of the file, [None] when [at] throws *)

(** lines 79-84, 277-282 *)
Definition file_name (o : outconf) (debug : text) (step : Z) : text :=
  if (List.length debug =? 0)%nat
  then o_dir o ++ lit "/" ++ o_prefix o ++ lit "_" ++ padded 7 step ++ lit ".vti"
  else o_dir o ++ lit "/" ++ o_prefix o ++ lit "_" ++ debug ++ lit "_" ++ padded 7 step ++ lit ".vti".

Definition content (ascii : bool) (head : text) (offset : Z -> Z) (heavy listed : Z -> text) (nv : Z) : option text :=
  match (if ascii then plain listed nv else binary offset heavy nv) with
  | None => None
  | Some b => Some (head ++ b)
  end.

(** IO_VTK.cpp:25-208 [save_VTK_2D] *)
Definition save_VTK_2D (m : mesh) (ge : rgeom T) (o : outconf) (U : Z -> Z -> Z -> T) (nv step : Z) (debug : text) :=
  (file_name o debug step,
   content (o_ascii o)
     (prologue (o_ascii o) (lit "1.0") ++
      extents 0 (nx m) 0 (ny m) 0 0
        (rshow rf (g_xmin ge) ++ sp ++ rshow rf (g_ymin ge) ++ sp ++ show_long 0)
        (three (g_dx ge) (g_dy ge) (rzero rf)) sp)
     (offset2 m) (heavy2 m U) (listed2 (i32 (isize m * jsize m)) m U) nv).

(** IO_VTK.cpp:213-409 [save_VTK_3D] *)
Definition save_VTK_3D (m : mesh) (ge : rgeom T) (o : outconf) (U : Z -> Z -> Z -> Z -> T) (nv step : Z) (debug : text) :=
  (file_name o debug step,
   content (o_ascii o)
     (prologue (o_ascii o) (lit "0.1") ++
      extents 0 (nx m) 0 (ny m) 0 (nz m)
        (three (g_xmin ge) (g_ymin ge) (g_zmin ge)) (three (g_dx ge) (g_dy ge) (g_dz ge)) sp)
     (offset3 m) (heavy3 m U) (listed3 m U) nv).

(** lines 482-492, 706-716 *)
Definition piece_name (o : outconf) (step rank : Z) : text :=
  o_prefix o ++ lit "_time" ++ padded 7 step ++ lit "_mpi" ++ padded 5 rank ++ lit ".vti".
Definition piece_file (o : outconf) (debug : text) (step rank : Z) : text :=
  if (List.length debug =? 0)%nat
  then o_dir o ++ lit "/" ++ o_prefix o ++ lit "_time" ++ padded 7 step ++ lit "_mpi" ++ padded 5 rank ++ lit ".vti"
  else o_dir o ++ lit "/" ++ o_prefix o ++ lit "_" ++ debug ++ lit "_time" ++ padded 7 step ++ lit "_mpi" ++
       padded 5 rank ++ lit ".vti".
Definition header_file (o : outconf) (step : Z) : text :=
  o_dir o ++ lit "/" ++ o_prefix o ++ lit "_time" ++ padded 7 step ++ lit ".pvti".

(** IO_VTK.cpp:416-623 [save_VTK_2D_mpi]; [myMpiPos] are the coordinates of the
    process (HydroParams.cpp:228-235) *)
Definition save_VTK_2D_mpi (m : mesh) (g : pgrid) (rank : Z) (ge : rgeom T) (o : outconf)
    (U : Z -> Z -> Z -> T) (nv step : Z) (debug : text) :=
  let '(px, py, _) := cart_coords g rank in
  let xmin := i32 (px * nx m) in
  let xmax := i32 (i32 (px * nx m) + nx m) in
  let ymin := i32 (py * ny m) in
  let ymax := i32 (i32 (py * ny m) + ny m) in
  (piece_file o debug step rank,
   content (o_ascii o)
     (prologue (o_ascii o) (lit "1.0") ++
      extents xmin xmax ymin ymax 0 0
        (three (g_xmin ge) (g_ymin ge) (rzero rf)) (three (g_dx ge) (g_dy ge) (rzero rf)) [])
     (offset2 m) (heavy2 m U) (listed2 (u64 (isize m * jsize m)) m U) nv).

(** IO_VTK.cpp:632-854 [save_VTK_3D_mpi] *)
Definition save_VTK_3D_mpi (m : mesh) (g : pgrid) (rank : Z) (ge : rgeom T) (o : outconf)
    (U : Z -> Z -> Z -> Z -> T) (nv step : Z) (debug : text) :=
  let '(px, py, pz) := cart_coords g rank in
  let xmin := i32 (px * nx m) in
  let xmax := i32 (i32 (px * nx m) + nx m) in
  let ymin := i32 (py * ny m) in
  let ymax := i32 (i32 (py * ny m) + ny m) in
  let zmin := i32 (pz * nz m) in
  let zmax := i32 (i32 (pz * nz m) + nz m) in
  (piece_file o debug step rank,
   content (o_ascii o)
     (prologue (o_ascii o) (lit "1.0") ++
      extents xmin xmax ymin ymax zmin zmax
        (three (g_xmin ge) (g_ymin ge) (g_zmin ge)) (three (g_dx ge) (g_dy ge) (g_dz ge)) [])
     (offset3 m) (heavy3 m U) (listed3 m U) nv).

(** ** IO_VTK.cpp:861-1011 [write_pvti_header], written by rank 0 (499-503, 723-727) *)

(** lines 957-964, 984-997: the two ends along one direction *)
Definition two_ends (c n : Z) : text :=
  if c =? 0 then show_long 0 ++ sp ++ show_long n ++ sp
  else show_long (i32 (c * n)) ++ sp ++ show_long (i32 (i32 (c * n) + n)) ++ sp.

(** lines 942-967 *)
Definition piece_line2 (m : mesh) (g : pgrid) (o : outconf) (step r : Z) : text :=
  let '(cx, cy, _) := cart_coords g r in
  lit "    <Piece Extent=""" ++ two_ends cx (nx m) ++ two_ends cy (ny m) ++
  show_long 0 ++ sp ++ show_long 1 ++ lit """ Source=""" ++ piece_name o step r ++ lit """/>" ++ nl.
(** lines 971-1001 *)
Definition piece_line3 (m : mesh) (g : pgrid) (o : outconf) (step r : Z) : text :=
  let '(cx, cy, cz) := cart_coords g r in
  lit " <Piece Extent=""" ++ two_ends cx (nx m) ++ two_ends cy (ny m) ++ two_ends cz (nz m) ++
  lit """ Source=""" ++ piece_name o step r ++ lit """/>" ++ nl.

(** lines 926-934 *)
Definition pdeclare (v : Z) : option text :=
  match variables_names v with
  | None => None
  | Some name => Some (lit "      <PDataArray type=""" ++ real_type ++ lit """ Name=""" ++ name ++ lit """/>" ++ nl)
  end.

Definition write_pvti_header (two : bool) (m : mesh) (g : pgrid) (ge : rgeom T) (o : outconf) (nv step : Z) :
    text * option text :=
  (* 894-905 *)
  let z := if two then 0 else nz m in
  let q := if two then 0 else mz g in
  let dz := if two then rzero rf else g_dz ge in
  (header_file o step,
   match collect pdeclare (range nv) with
   | None => None
   | Some d =>
     Some (lit "<?xml version=""1.0""?>" ++ nl ++
           lit "<VTKFile type=""PImageData"" version=""1.0"" byte_order=""" ++
           lit (if big rf then "BigEndian" else "LittleEndian") ++ lit """ header_type=""UInt64"">" ++ nl ++
           lit "  <PImageData WholeExtent=""" ++
           six 0 (i32 (mx g * nx m)) 0 (i32 (my g * ny m)) 0 (i32 (q * z)) ++
           lit """ GhostLevel=""0"" Origin=""" ++ three (g_xmin ge) (g_ymin ge) (g_zmin ge) ++
           lit """ Spacing=""" ++ three (g_dx ge) (g_dy ge) dz ++ lit """>" ++ nl ++
           lit "    <PCellData Scalars=""Scalars_"">" ++ nl ++ d ++ lit "    </PCellData>" ++ nl ++
           flat_map (if two then piece_line2 m g o step else piece_line3 m g o step) (range (nprocs g)) ++
           lit "</PImageData>" ++ nl ++ lit "</VTKFile>" ++ nl)
   end).

End Writer.
