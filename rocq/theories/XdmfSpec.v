(** * A reader of the index of checkpoint files

    The index is read line by line.  A uniform grid has a name, the sizes of its
    topology and a list of attributes; an attribute has a name, sizes and a
    reference file:/dataset. *)
From Coq Require Import Ascii String ZArith List Bool.
Import ListNotations.
From Verif Require Import ConfigSpec VtkSpec.
Local Open Scope Z_scope.

Definition quote : ascii := """"%char.
Definition space : ascii := " "%char.
Definition colon : ascii := ":"%char.
Definition slash : ascii := "/"%char.

(** The lines of a text, each ended by [eol]. *)
Fixpoint split_lines (cur : chars) (t : chars) : list chars :=
  match t with
  | [] => match cur with [] => [] | _ => [rev cur] end
  | c :: t => if Ascii.eqb c eol then rev cur :: split_lines [] t else split_lines (c :: cur) t
  end.

(** What follows [p]. *)
Fixpoint after (p t : chars) : option chars :=
  match p, t with
  | [], _ => Some t
  | a :: p, b :: t => if Ascii.eqb a b then after p t else None
  | _, _ => None
  end.

(** Text before the first [c], and after it. *)
Fixpoint cut (c : ascii) (t : chars) : option (chars * chars) :=
  match t with
  | [] => None
  | b :: t => if Ascii.eqb b c then Some ([], t)
              else match cut c t with Some (x, y) => Some (b :: x, y) | None => None end
  end.

(** Words separated by single spaces. *)
Fixpoint words (cur : chars) (t : chars) : list chars :=
  match t with
  | [] => [rev cur]
  | c :: t => if Ascii.eqb c space then rev cur :: words [] t else words (c :: cur) t
  end.
Definition numbers (t : chars) : list Z := map dvalue (words [] t).

Record attribute := mkattribute { a_name : chars; a_sizes : list Z; a_file : chars; a_set : chars }.
Record grid := mkgrid { g_name : chars; g_topology : list Z; g_attributes : list attribute }.

(** State of the reader: finished grids, the grid being read, name
    and sizes of the attribute being read, whether a reference comes next. *)
Record reading := mkreading {
  r_done : list grid; r_name : chars; r_topology : list Z; r_attributes : list attribute;
  r_open : bool; r_attr : chars; r_sizes : list Z; r_ref : bool }.

Definition begin : reading := mkreading [] [] [] [] false [] [] false.

(** Value of an XML attribute: the text up to the closing quote. *)
Definition value (p t : chars) : option chars :=
  match after p t with None => None | Some u => match cut quote u with Some (x, _) => Some x | None => None end end.

Definition see (r : reading) (l : chars) : reading :=
  if r_ref r then
    match after (q "           ") l with
    | Some u => match cut colon u with
        | Some (f, d) => mkreading (r_done r) (r_name r) (r_topology r)
            (r_attributes r ++ [mkattribute (r_attr r) (r_sizes r) f (match d with c :: d => d | [] => [] end)])
            (r_open r) (r_attr r) (r_sizes r) false
        | None => r end
    | None => r end
  else match value (q "    <Grid Name=""") l with
  | Some n =>
      match after (q "    <Grid Name=""" ++ n ++ q """ GridType=""Uniform"">") l with
      | Some _ => mkreading (r_done r) n [] [] true [] [] false
      | None => r end
  | None => match value (q "      <Topology TopologyType=""2DCoRectMesh"" NumberOfElements=""") l with
  | Some s => mkreading (r_done r) (r_name r) (numbers s) (r_attributes r) (r_open r) (r_attr r) (r_sizes r) false
  | None => match value (q "      <Topology TopologyType=""3DCoRectMesh"" NumberOfElements=""") l with
  | Some s => mkreading (r_done r) (r_name r) (numbers s) (r_attributes r) (r_open r) (r_attr r) (r_sizes r) false
  | None => match value (q "      <Attribute Center=""Cell"" Name=""") l with
  | Some n => mkreading (r_done r) (r_name r) (r_topology r) (r_attributes r) (r_open r) n [] false
  | None => match value (q "           Dimensions=""") l with
  | Some s => mkreading (r_done r) (r_name r) (r_topology r) (r_attributes r) (r_open r) (r_attr r) (numbers s) false
  | None => match after (q "           Format=""HDF"">") l with
  | Some _ => mkreading (r_done r) (r_name r) (r_topology r) (r_attributes r) (r_open r) (r_attr r) (r_sizes r) true
  | None => match after (q "   </Grid>") l with
  | Some _ => if r_open r then mkreading (r_done r ++ [mkgrid (r_name r) (r_topology r) (r_attributes r)]) [] [] [] false [] [] false else r
  | None => r
  end end end end end end end.

Definition read_index (t : chars) : list grid := r_done (fold_left see (split_lines [] t) begin).

(** Path: its components, without the empty ones and the dots. *)
Fixpoint pieces (cur : chars) (t : chars) : list chars :=
  match t with
  | [] => [rev cur]
  | c :: t => if Ascii.eqb c slash then rev cur :: pieces [] t else pieces (c :: cur) t
  end.
Definition is_dot (c : chars) : bool := match c with [] => true | [c] => Ascii.eqb c "."%char | _ => false end.
Definition path (t : chars) : list chars := filter (fun c => negb (is_dot c)) (pieces [] t).

(** The k-th field of the code is the dataset of that name. *)
Definition field_name (v : Z) : chars := nth (Z.to_nat v) var_names [].

(** XDMF: the sizes of a CoRectMesh topology count nodes; a value centred on cells
    is given for each cell between them. *)
Definition cells (topology : list Z) : list Z := map (fun n => n - 1) topology.
