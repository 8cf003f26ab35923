(** * What a reader of the image files expects *)
From Coq Require Import Ascii String ZArith List Bool.
Import ListNotations.
From Verif Require Import ConfigSpec.
Local Open Scope Z_scope.

(** [s] lies in [t] at this position; [s] lies somewhere in [t]. *)
Definition lies {A : Type} (t : list A) (pos : Z) (s : list A) : Prop :=
  exists a b, t = a ++ s ++ b /\ Z.of_nat (List.length a) = pos.
Definition occurs {A : Type} (t s : list A) : Prop := exists pos, lies t pos s.

(** A number in decimal. *)
Definition shows (t : chars) (n : Z) : Prop := t <> [] /\ Forall decimal t /\ dvalue t = n.

(** An eight-byte count, least or most significant byte first. *)
Definition lsb_value (t : chars) : Z := fold_right (fun c acc => Z.of_nat (nat_of_ascii c) + 256 * acc) 0 t.
Definition counts (big : bool) (t : chars) (n : Z) : Prop :=
  List.length t = 8%nat /\ lsb_value (if big then rev t else t) = n.

(** The block of one variable in the appended data: a count of bytes and then the
    cells, x varying fastest, each as its [size] bytes. *)
Definition image_block {T : Type} (big : bool) (size : Z) (bytes : T -> chars) (data : chars) (off : Z)
    (nx ny nz : Z) (cell : Z -> Z -> Z -> T) : Prop :=
  (exists w, lies data off w /\ counts big w (nx * ny * nz * size)) /\
  forall i j k, 0 <= i < nx -> 0 <= j < ny -> 0 <= k < nz ->
    lies data (off + 8 + size * (i + nx * (j + ny * k))) (bytes (cell i j k)).

(** The values of one variable in text form, x varying fastest. *)
Definition image_listing {T : Type} (show : T -> chars) (t : chars) (nx ny nz : Z) (cell : Z -> Z -> Z -> T) : Prop :=
  exists tokens, t = flat_map (fun s => s ++ [" "%char]) tokens /\
    Z.of_nat (List.length tokens) = nx * ny * nz /\
    forall i j k, 0 <= i < nx -> 0 <= j < ny -> 0 <= k < nz ->
      lies tokens (i + nx * (j + ny * k)) [show (cell i j k)].

(** Names of the eight variables, in order. *)
Definition var_names : list chars :=
  map list_ascii_of_string
    ["rho"; "energy"; "rho_vx"; "rho_vy"; "rho_vz"; "bx"; "by"; "bz"]%string.

Definition q (s : string) : chars := list_ascii_of_string s.

(** The line that declares a variable, whose data start [off] bytes after the mark. *)
Definition appended_line (name : chars) (off : Z) (line : chars) : Prop :=
  exists ty num, line = q "     <DataArray type=""" ++ ty ++ q """ Name=""" ++ name ++
    q """ format=""appended"" offset=""" ++ num ++ q """ />" ++ [eol] /\ shows num off.

(** Six bounds of a box of cells. *)
Definition box_text (t : chars) (b : Z * Z * Z * Z * Z * Z) : Prop :=
  let '(x0, x1, y0, y1, z0, z1) := b in
  exists a0 a1 a2 a3 a4 a5, t = a0 ++ q " " ++ a1 ++ q " " ++ a2 ++ q " " ++ a3 ++ q " " ++ a4 ++ q " " ++ a5 /\
    shows a0 x0 /\ shows a1 x1 /\ shows a2 y0 /\ shows a3 y1 /\ shows a4 z0 /\ shows a5 z1.

(** An image file with raw data: the extent, one declaration per variable, the mark
    [_] and the data. *)
Definition raw_image {T : Type} (big : bool) (size : Z) (bytes : T -> chars) (file : chars) (nv : Z)
    (b : Z * Z * Z * Z * Z * Z) (nx ny nz : Z) (cell : Z -> Z -> Z -> Z -> T) : Prop :=
  exists before lines after data ext,
    file = before ++ concat lines ++ after ++ q "  <AppendedData encoding=""raw"">" ++ [eol] ++ q "_" ++ data ++
           q "  </AppendedData>" ++ [eol] ++ q "</VTKFile>" ++ [eol] /\
    occurs before (q "byte_order=""" ++ q (if big then "BigEndian" else "LittleEndian") ++ q """") /\
    occurs before (q "<ImageData WholeExtent=""" ++ ext ++ q """") /\ box_text ext b /\
    Z.of_nat (List.length lines) = nv /\
    Z.of_nat (List.length data) = nv * (8 + nx * ny * nz * size) /\
    forall v, 0 <= v < nv -> exists name line off,
      nth_error var_names (Z.to_nat v) = Some name /\ nth_error lines (Z.to_nat v) = Some line /\
      appended_line name off line /\
      image_block big size bytes data off nx ny nz (fun i j k => cell i j k v).

(** An image file with the data in text form. *)
Definition text_image {T : Type} (show : T -> chars) (file : chars) (nv : Z)
    (b : Z * Z * Z * Z * Z * Z) (nx ny nz : Z) (cell : Z -> Z -> Z -> Z -> T) : Prop :=
  exists before arrays ext,
    file = before ++ concat arrays ++ q "    </CellData>" ++ [eol] ++ q "  </Piece>" ++ [eol] ++
           q "  </ImageData>" ++ [eol] ++ q "</VTKFile>" ++ [eol] /\
    occurs before (q "<ImageData WholeExtent=""" ++ ext ++ q """") /\ box_text ext b /\
    Z.of_nat (List.length arrays) = nv /\
    forall v, 0 <= v < nv -> exists name ty vals,
      nth_error var_names (Z.to_nat v) = Some name /\
      nth_error arrays (Z.to_nat v) = Some (q "    <DataArray type=""" ++ ty ++ q """ Name=""" ++ name ++
        q """ format=""ascii"" >" ++ [eol] ++ vals ++ [eol] ++ q "    </DataArray>" ++ [eol]) /\
      image_listing show vals nx ny nz (fun i j k => cell i j k v).
