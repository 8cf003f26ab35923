(** * The index of the checkpoint files: utils/io/IO_HDF5.cpp:16-378

    [writeXdmfForHdf5Wrapper] writes a text file that lists the HDF5 files of a
    run.  main.cpp:141-148 calls it at the end with totalNumberOfSteps =
    m_times_saved - 1 and singleStep = false; every process of a distributed run
    writes the same text to the same file.  Sizes are kept as integers (no wrap
    at 32 bits). *)
From Coq Require Import Ascii String ZArith List Bool.
Import ListNotations.
From Verif Require Import Grid Config Halo Vtk Hdf5.
Local Open Scope Z_scope.

(** [xdmfFile << t << std::endl] *)
Definition line (t : text) : text := t ++ nl.

Section Xdmf.
Variables three mhd : bool.     (* params.dimType == THREE_D, params.mhdEnabled *)

(** Sizes (nzg, nyg, nxg), IO_HDF5.cpp:42-62 (without MPI) *)
Definition x_sizes (ghost : bool) (m : mesh) : Z * Z * Z :=
  if ghost then (nz m + 2 * gw m, ny m + 2 * gw m, nx m + 2 * gw m) else (nz m, ny m, nx m).

(** IO_HDF5.cpp:42-112 (with MPI): [m] is the block of one process.  In 2D nzg is
    left as it was by the assignments before line 83. *)
Definition x_sizes_mpi (ghost allg rea : bool) (m : mesh) (gp : pgrid) : Z * Z * Z :=
  let g2 := 2 * gw m in
  let '(z0, y0, x0) := (mz gp * nz m, my gp * ny m, mx gp * nx m) in
  let '(z1, y1, x1) := if ghost then (z0 + g2, y0 + g2, x0 + g2) else (z0, y0, x0) in
  let '(z2, y2, x2) := if allg then (mz gp * (nz m + g2), my gp * (ny m + g2), mx gp * (nx m + g2))
                       else (z1, y1, x1) in
  if rea then (z2, y2, x2)
  else if negb three then
    if allg || ghost then (z2, (ny m + g2) * mx gp * my gp, nx m + g2)
    else (z2, ny m * mx gp * my gp, nx m)
  else
    if allg || ghost then ((nz m + g2) * mx gp * my gp * mz gp, ny m + g2, nx m + g2)
    else (nz m * mx gp * my gp * mz gp, ny m, nx m).

Variable sizes : Z * Z * Z.
Variable dtype : text.          (* IO_HDF5.cpp:115-119: "Float" or "Double" *)
Variable prefix : text.         (* output/outputPrefix *)

(** Sizes in the text, slowest first, IO_HDF5.cpp:180-185, 232-236 *)
Definition x_dims : text :=
  let '(nzg, nyg, nxg) := sizes in
  if three then show_long nzg ++ sp ++ show_long nyg ++ sp ++ show_long nxg
  else show_long nyg ++ sp ++ show_long nxg.

(** One field, IO_HDF5.cpp:226-240 and its seven copies (242-363) *)
Definition x_attribute (hdf5Filename : text) (v : Z) : option text :=
  match variables_names v with
  | None => None
  | Some name => Some (
      line (lit "      <Attribute Center=""Cell"" Name=""" ++ name ++ lit """>") ++
      line (lit "        <DataStructure") ++
      line (lit "           DataType=""" ++ dtype ++ lit """") ++
      line (lit "           Dimensions=""" ++ x_dims ++ lit """") ++
      line (lit "           Format=""HDF"">") ++
      line (lit "           " ++ hdf5Filename ++ lit ":/" ++ name) ++
      line (lit "        </DataStructure>") ++
      line (lit "      </Attribute>"))
  end.

(** IO_HDF5.cpp:226-363 *)
Definition x_fields : list Z :=
  [ID; IE; IU; IV] ++ (if three && negb mhd then [IW] else []) ++ (if mhd then [IW; IA; IB; IC] else []).

(** IO_HDF5.cpp:188-224 *)
Definition x_geometry : text :=
  let n := if three then lit "3" else lit "2" in
  line (lit "    <Geometry Type=""" ++ (if three then lit "ORIGIN_DXDYDZ" else lit "ORIGIN_DXDY") ++ lit """>") ++
  line (lit "    <DataStructure") ++
  line (lit "       Name=""Origin""") ++
  line (lit "       DataType=""" ++ dtype ++ lit """") ++
  line (lit "       Dimensions=""" ++ n ++ lit """") ++
  line (lit "       Format=""XML"">") ++
  line (if three then lit "       0 0 0" else lit "       0 0") ++
  line (lit "    </DataStructure>") ++
  line (lit "    <DataStructure") ++
  line (lit "       Name=""Spacing""") ++
  line (lit "       DataType=""" ++ dtype ++ lit """") ++
  line (lit "       Dimensions=""" ++ n ++ lit """") ++
  line (lit "       Format=""XML"">") ++
  line (if three then lit "       1 1 1" else lit "       1 1") ++
  line (lit "    </DataStructure>") ++
  line (lit "    </Geometry>").

(** Body of the loop, IO_HDF5.cpp:162-368 *)
Definition x_grid (iStep : Z) : option text :=
  let baseName := prefix ++ lit "_" ++ padded 7 iStep in
  let hdf5Filename := prefix ++ lit "_" ++ padded 7 iStep ++ lit ".h5" in
  match collect (x_attribute hdf5Filename) x_fields with
  | None => None
  | Some fields => Some (
      line (lit "    <Grid Name=""" ++ baseName ++ lit """ GridType=""Uniform"">") ++
      line (lit "    <Time Value=""" ++ show_long iStep ++ lit """ />") ++
      line (lit "      <Topology TopologyType=""" ++ (if three then lit "3DCoRectMesh" else lit "2DCoRectMesh") ++
            lit """ NumberOfElements=""" ++ x_dims ++ lit """/>") ++
      x_geometry ++ fields ++ line (lit "   </Grid>"))
  end.

(** The bounds of the loop, IO_HDF5.cpp:149-160 *)
Definition x_first (total : Z) (singleStep : bool) : Z := if singleStep then total else 0.
Definition x_last (total : Z) (singleStep : bool) : Z := if singleStep then total + 1 else total.

(** Name of the file, IO_HDF5.cpp:124-136 *)
Definition x_name (total : Z) (singleStep : bool) : text :=
  if singleStep then prefix ++ lit "_" ++ padded 7 total ++ lit ".xmf" else prefix ++ lit ".xmf".

(** Contents of the file, IO_HDF5.cpp:138-376; [None]: [at] throws *)
Definition xdmf (total : Z) (singleStep : bool) : option text :=
  match collect x_grid (upto (x_first total singleStep) (x_last total singleStep)) with
  | None => None
  | Some grids => Some (
      line (lit "<?xml version=""1.0"" ?>") ++
      line (lit "<!DOCTYPE Xdmf SYSTEM ""Xdmf.dtd"" []>") ++
      line (lit "<Xdmf xmlns:xi=""http://www.w3.org/2003/XInclude"" Version=""2.2"">") ++
      line (lit "  <Domain>") ++
      line (lit "    <Grid Name=""TimeSeries"" GridType=""Collection"" CollectionType=""Temporal"">") ++
      grids ++
      line (lit "   </Grid>") ++ line (lit " </Domain>") ++ line (lit "</Xdmf>"))
  end.

End Xdmf.
