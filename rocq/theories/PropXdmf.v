(** * C60: the index of the checkpoint files *)
From Coq Require Import Ascii String ZArith List Bool Lia Reals.
Import ListNotations.
From Verif Require Import Num Exec Grid Config ConfigSpec Halo Vtk VtkSpec VtkFacts PropVtk Driver PropDriver
  HydroNum Kernels Hydro2D Hydro2DFacts HydroMachine PropPhysics Hydro2DLaws PropHydro2D PropDriver Hdf5 Hdf5Mpi PropHdf5Mpi Xdmf XdmfSpec.
Local Notation length := List.length.
Local Open Scope Z_scope.

(** ** Reading lines *)

Definition free (c : ascii) (t : chars) : Prop := ~ In c t.

Lemma free_app c a b : free c (a ++ b) <-> free c a /\ free c b.
Proof. unfold free. rewrite in_app_iff. tauto. Qed.

Lemma lines_line a t : free eol a -> split_lines [] (line a ++ t) = a :: split_lines [] t.
Proof.
  intros Ha. unfold line, nl. rewrite <- app_assoc. cbn [app].
  assert (G : forall cur, split_lines cur (a ++ ascii_of_nat 10 :: t) = (rev cur ++ a) :: split_lines [] t).
  { induction a as [|c a IH]; intros cur; cbn [app split_lines].
    - rewrite app_nil_r. reflexivity.
    - destruct (Ascii.eqb_spec c eol) as [->|Hn]; [exfalso; apply Ha; left; reflexivity|].
      rewrite IH by (intros Hi; apply Ha; right; exact Hi). cbn [rev]. rewrite <- app_assoc. reflexivity. }
  apply (G []).
Qed.

Definition reads (r : reading) (t : chars) : reading := fold_left see (split_lines [] t) r.

Lemma reads_line r a t : free eol a -> reads r (line a ++ t) = reads (see r a) t.
Proof. intros Ha. unfold reads. rewrite lines_line by exact Ha. reflexivity. Qed.

Lemma after_app p t : after p (p ++ t) = Some t.
Proof. induction p as [|c p IH]; cbn [app after]; auto. rewrite Ascii.eqb_refl. exact IH. Qed.

Lemma cut_app c x y : free c x -> cut c (x ++ c :: y) = Some (x, y).
Proof.
  induction x as [|b x IH]; intros Hf; cbn [app cut].
  - rewrite Ascii.eqb_refl. reflexivity.
  - destruct (Ascii.eqb_spec b c) as [->|Hn]; [exfalso; apply Hf; left; reflexivity|].
    rewrite IH by (intros Hi; apply Hf; right; exact Hi). reflexivity.
Qed.

Lemma words_app x y : free space x -> words [] (x ++ space :: y) = x :: words [] y.
Proof.
  intros Hx. assert (G : forall cur, words cur (x ++ space :: y) = (rev cur ++ x) :: words [] y).
  { induction x as [|c x IH]; intros cur; cbn [app words].
    - rewrite Ascii.eqb_refl, app_nil_r. reflexivity.
    - destruct (Ascii.eqb_spec c space) as [->|Hn]; [exfalso; apply Hx; left; reflexivity|].
      rewrite IH by (intros Hi; apply Hx; right; exact Hi). cbn [rev]. rewrite <- app_assoc. reflexivity. }
  apply (G []).
Qed.

Lemma words_one x : free space x -> words [] x = [x].
Proof.
  intros Hx. assert (G : forall cur, words cur x = [rev cur ++ x]).
  { induction x as [|c x IH]; intros cur; cbn [words].
    - rewrite app_nil_r. reflexivity.
    - destruct (Ascii.eqb_spec c space) as [->|Hn]; [exfalso; apply Hx; left; reflexivity|].
      rewrite IH by (intros Hi; apply Hx; right; exact Hi). cbn [rev]. rewrite <- app_assoc. reflexivity. }
  apply (G []).
Qed.

(** ** Numbers *)

Lemma decimal_free c t : Forall decimal t -> ~ decimal c -> free c t.
Proof. intros Ht Hc Hi. rewrite Forall_forall in Ht. exact (Hc (Ht c Hi)). Qed.

Definition int_range (n : Z) : Prop := 0 <= n < 2 ^ 31.

Lemma show_clean n : int_range n ->
  dvalue (show_long n) = n /\ forall c, ~ decimal c -> free c (show_long n).
Proof.
  unfold int_range. intros Hn. destruct (show_shows n ltac:(lia)) as (_ & Hd & Hv). split; auto.
  intros c Hc. apply decimal_free; auto.
Qed.

Ltac nodec := unfold decimal; cbn; lia.

Definition size_list (three : bool) (s : Z * Z * Z) : list Z :=
  let '(a, b, c) := s in if three then [a; b; c] else [b; c].

Definition int_sizes (s : Z * Z * Z) : Prop := let '(a, b, c) := s in int_range a /\ int_range b /\ int_range c.

Lemma numbers_dims three s : int_sizes s -> numbers (x_dims three s) = size_list three s.
Proof.
  destruct s as [[a b] c]. intros (Ha & Hb & Hc). unfold numbers, x_dims, size_list, sp.
  destruct (show_clean a Ha) as [Va Fa]. destruct (show_clean b Hb) as [Vb Fb]. destruct (show_clean c Hc) as [Vc Fc].
  assert (Hs : ~ decimal space) by nodec.
  change (lit " ") with [space]. cbn [app].
  destruct three.
  - rewrite words_app, words_app, words_one by auto. cbn [map]. rewrite Va, Vb, Vc. reflexivity.
  - rewrite words_app, words_one by auto. cbn [map]. rewrite Vb, Vc. reflexivity.
Qed.

Lemma dims_free three s c : int_sizes s -> ~ decimal c -> c <> space -> free c (x_dims three s).
Proof.
  destruct s as [[a b] d]. intros (Ha & Hb & Hd) Hc Hs. unfold x_dims, sp. change (lit " ") with [space].
  destruct (show_clean a Ha) as [_ Fa]. destruct (show_clean b Hb) as [_ Fb]. destruct (show_clean d Hd) as [_ Fd].
  assert (free c [space]) by (intros [E|[]]; congruence).
  destruct three; rewrite !free_app; auto 8.
Qed.

Lemma padded_free w n c : int_range n -> ~ decimal c -> free c (padded w n).
Proof. unfold int_range. intros Hn Hc. apply decimal_free; auto. apply padded_value. lia. Qed.

(** ** The lines of the index *)

(** A name that can be quoted: no end of line, quote or colon. *)
Definition plain_name (t : chars) : Prop := free eol t /\ free quote t /\ free colon t.

Lemma value_of p x y : free quote x -> value p (p ++ x ++ quote :: y) = Some x.
Proof. intros Hx. unfold value. rewrite after_app, cut_app by exact Hx. reflexivity. Qed.

Definition open_at (ds : list grid) n tp at_ an as_ : reading := mkreading ds n tp at_ true an as_ false.

Lemma see_grid ds n tp at_ o an as_ x : free quote x ->
  see (mkreading ds n tp at_ o an as_ false) (lit "    <Grid Name=""" ++ x ++ lit """ GridType=""Uniform"">") =
  open_at ds x [] [] [] [].
Proof.
  intros Hx. pose proof (value_of (q "    <Grid Name=""") x (q " GridType=""Uniform"">") Hx) as V.
  pose proof (after_app (q "    <Grid Name=""" ++ x ++ q """ GridType=""Uniform"">") []) as W. rewrite app_nil_r in W.
  unfold see. cbn [r_ref r_done].
  change (lit "    <Grid Name=""" ++ x ++ lit """ GridType=""Uniform"">")
    with (q "    <Grid Name=""" ++ x ++ quote :: q " GridType=""Uniform"">").
  rewrite V. change (quote :: q " GridType=""Uniform"">") with (q """ GridType=""Uniform"">").
  rewrite W. reflexivity.
Qed.

Lemma see_topology ds n tp at_ an as_ (three : bool) x : free quote x ->
  see (open_at ds n tp at_ an as_)
    (lit "      <Topology TopologyType=""" ++ (if three then lit "3DCoRectMesh" else lit "2DCoRectMesh") ++
     lit """ NumberOfElements=""" ++ x ++ lit """/>") = open_at ds n (numbers x) at_ an as_.
Proof.
  intros Hx. destruct three.
  - pose proof (value_of (q "      <Topology TopologyType=""3DCoRectMesh"" NumberOfElements=""") x (q "/>") Hx) as V.
    unfold see, open_at. cbn [r_ref r_done r_name r_topology r_attributes r_open r_attr r_sizes].
    change (lit "      <Topology TopologyType=""" ++ lit "3DCoRectMesh" ++ lit """ NumberOfElements=""" ++ x ++ lit """/>")
      with (q "      <Topology TopologyType=""3DCoRectMesh"" NumberOfElements=""" ++ x ++ quote :: q "/>").
    rewrite V. reflexivity.
  - pose proof (value_of (q "      <Topology TopologyType=""2DCoRectMesh"" NumberOfElements=""") x (q "/>") Hx) as V.
    unfold see, open_at. cbn [r_ref r_done r_name r_topology r_attributes r_open r_attr r_sizes].
    change (lit "      <Topology TopologyType=""" ++ lit "2DCoRectMesh" ++ lit """ NumberOfElements=""" ++ x ++ lit """/>")
      with (q "      <Topology TopologyType=""2DCoRectMesh"" NumberOfElements=""" ++ x ++ quote :: q "/>").
    rewrite V. reflexivity.
Qed.

Lemma see_attribute ds n tp at_ an as_ x : free quote x ->
  see (open_at ds n tp at_ an as_) (lit "      <Attribute Center=""Cell"" Name=""" ++ x ++ lit """>") =
  open_at ds n tp at_ x [].
Proof.
  intros Hx. pose proof (value_of (q "      <Attribute Center=""Cell"" Name=""") x (q ">") Hx) as V.
  unfold see, open_at. cbn [r_ref r_done r_name r_topology r_attributes r_open r_attr r_sizes].
  change (lit "      <Attribute Center=""Cell"" Name=""" ++ x ++ lit """>")
    with (q "      <Attribute Center=""Cell"" Name=""" ++ x ++ quote :: q ">").
  rewrite V. reflexivity.
Qed.

Lemma see_dims ds n tp at_ an as_ x : free quote x ->
  see (open_at ds n tp at_ an as_) (lit "           Dimensions=""" ++ x ++ lit """") = open_at ds n tp at_ an (numbers x).
Proof.
  intros Hx. pose proof (value_of (q "           Dimensions=""") x [] Hx) as V.
  unfold see, open_at. cbn [r_ref r_done r_name r_topology r_attributes r_open r_attr r_sizes].
  change (lit "           Dimensions=""" ++ x ++ lit """") with (q "           Dimensions=""" ++ x ++ quote :: []).
  rewrite V. reflexivity.
Qed.

Lemma see_ref ds n tp at_ an as_ f d : free colon f ->
  see (mkreading ds n tp at_ true an as_ true) (lit "           " ++ f ++ lit ":/" ++ d) =
  open_at ds n tp (at_ ++ [mkattribute an as_ f d]) an as_.
Proof.
  intros Hf. unfold see, open_at. cbn [r_ref r_done r_name r_topology r_attributes r_open r_attr r_sizes].
  change (lit "           " ++ f ++ lit ":/" ++ d) with (q "           " ++ (f ++ colon :: slash :: d)).
  rewrite after_app, cut_app by exact Hf. reflexivity.
Qed.

(** ** One grid *)

Lemma some_eq {A} (a b : A) : Some a = Some b -> b = a.
Proof. congruence. Qed.

Section Index.
Variables three mhd : bool.
Variable sizes : Z * Z * Z.
Variables dtype prefix : text.
Hypothesis Hsizes : int_sizes sizes.
Hypothesis Hdtype : free eol dtype.
Hypothesis Hprefix : plain_name prefix.

Lemma known_name v name : variables_names v = Some name -> plain_name name /\ name = field_name v.
Proof.
  unfold variables_names. intros E.
  repeat match type of E with
  | (if ?v =? ?c then _ else _) = _ => destruct (Z.eqb_spec v c) as [->|_] in E
  end; inversion E; subst; clear E;
  (split; [unfold plain_name, free; cbn; intuition discriminate|reflexivity]).
Qed.

Lemma lit_free (c : ascii) (t : text) : forallb (fun x => negb (Ascii.eqb x c)) t = true -> free c t.
Proof.
  intros H Hi. rewrite forallb_forall in H. specialize (H c Hi). rewrite Ascii.eqb_refl in H. discriminate.
Qed.

Ltac clean := rewrite ?free_app; repeat split; auto; try (apply lit_free; reflexivity).

Lemma read_attribute ds n tp at_ an as_ file v t rest : free eol file -> free colon file ->
  x_attribute three sizes dtype file v = Some t ->
  exists name, variables_names v = Some name /\
  reads (open_at ds n tp at_ an as_) (t ++ rest) =
  reads (open_at ds n tp (at_ ++ [mkattribute name (size_list three sizes) file name]) name (size_list three sizes)) rest.
Proof.
  intros Hf1 Hf2. unfold x_attribute. destruct (variables_names v) as [name|] eqn:En; [|discriminate].
  intros E. apply some_eq in E; subst t. exists name. split; auto.
  destruct (known_name v name En) as ((N1 & N2 & N3) & _).
  assert (De : free eol (x_dims three sizes)) by (apply dims_free; auto; [nodec|discriminate]).
  assert (Dq : free quote (x_dims three sizes)) by (apply dims_free; auto; [nodec|discriminate]).
  rewrite <- !app_assoc.
  rewrite reads_line by clean. rewrite see_attribute by exact N2.
  rewrite reads_line by clean.
  change (see (open_at ds n tp at_ name []) (lit "        <DataStructure")) with (open_at ds n tp at_ name []).
  rewrite reads_line by clean.
  change (see (open_at ds n tp at_ name []) (lit "           DataType=""" ++ dtype ++ lit """")) with (open_at ds n tp at_ name []).
  rewrite reads_line by clean. rewrite see_dims by exact Dq. rewrite numbers_dims by exact Hsizes.
  set (sl := size_list three sizes).
  rewrite reads_line by clean.
  change (see (open_at ds n tp at_ name sl) (lit "           Format=""HDF"">")) with (mkreading ds n tp at_ true name sl true).
  rewrite reads_line by clean. rewrite see_ref by exact Hf2.
  set (at' := at_ ++ [mkattribute name sl file name]).
  rewrite reads_line by clean.
  change (see (open_at ds n tp at' name sl) (lit "        </DataStructure>")) with (open_at ds n tp at' name sl).
  rewrite reads_line by clean. reflexivity.
Qed.

(** The attributes expected for the fields [vs] of a file. *)
Definition expected_attributes (vs : list Z) (file : chars) : list attribute :=
  map (fun v => mkattribute (field_name v) (size_list three sizes) file (field_name v)) vs.

Lemma read_attributes file rest : free eol file -> free colon file ->
  forall vs t ds n tp at_ an as_, collect (x_attribute three sizes dtype file) vs = Some t ->
  exists an' as', reads (open_at ds n tp at_ an as_) (t ++ rest) =
    reads (open_at ds n tp (at_ ++ expected_attributes vs file) an' as') rest.
Proof.
  intros Hf1 Hf2 vs. induction vs as [|v vs IH]; intros t ds n tp at_ an as_ E; cbn [collect] in E.
  - apply some_eq in E; subst t. exists an, as_. cbn [app expected_attributes map]. rewrite app_nil_r. reflexivity.
  - destruct (x_attribute three sizes dtype file v) as [a|] eqn:Ea; [|discriminate].
    destruct (collect (x_attribute three sizes dtype file) vs) as [b|] eqn:Eb; [|discriminate].
    apply some_eq in E; subst t. rewrite <- app_assoc.
    destruct (read_attribute ds n tp at_ an as_ file v a (b ++ rest) Hf1 Hf2 Ea) as (name & En & R). rewrite R.
    destruct (known_name v name En) as (_ & Hn).
    destruct (IH b ds n tp (at_ ++ [mkattribute name (size_list three sizes) file name]) name (size_list three sizes) eq_refl)
      as (an' & as' & R'). rewrite R'. exists an', as'. cbn [expected_attributes map]. rewrite <- Hn, <- app_assoc. reflexivity.
Qed.

Lemma read_geometry ds n tp at_ an as_ rest :
  reads (open_at ds n tp at_ an as_) (x_geometry three dtype ++ rest) = reads (open_at ds n tp at_ an as_) rest.
Proof.
  unfold x_geometry. cbv zeta.
  rewrite <- !app_assoc.
  repeat (rewrite reads_line by (destruct three; clean);
    match goal with |- context [reads (see (open_at ?a ?b ?c ?d ?e ?f) ?l) _] =>
      replace (see (open_at a b c d e f) l) with (open_at a b c d e f) by (destruct three; reflexivity) end).
  reflexivity.
Qed.

Definition expected_grid (i : Z) : grid :=
  mkgrid (prefix ++ q "_" ++ padded 7 i) (size_list three sizes)
    (expected_attributes (x_fields three mhd) (prefix ++ q "_" ++ padded 7 i ++ q ".h5")).

Lemma read_grid ds i t rest : int_range i -> x_grid three mhd sizes dtype prefix i = Some t ->
  reads (mkreading ds [] [] [] false [] [] false) (t ++ rest) =
  reads (mkreading (ds ++ [expected_grid i]) [] [] [] false [] [] false) rest.
Proof.
  intros Hi. unfold x_grid. cbv zeta. destruct Hprefix as (P1 & P2 & P3).
  set (base := prefix ++ lit "_" ++ padded 7 i). set (file := prefix ++ lit "_" ++ padded 7 i ++ lit ".h5").
  assert (Pe : free eol (padded 7 i)) by (apply padded_free; auto; nodec).
  assert (Pq : free quote (padded 7 i)) by (apply padded_free; auto; nodec).
  assert (Pc : free colon (padded 7 i)) by (apply padded_free; auto; nodec).
  assert (Be : free eol base) by (unfold base; clean).
  assert (Bq : free quote base) by (unfold base; clean).
  assert (Fe : free eol file) by (unfold file; clean).
  assert (Fc : free colon file) by (unfold file; clean).
  assert (De : free eol (x_dims three sizes)) by (apply dims_free; auto; [nodec|discriminate]).
  assert (Dq : free quote (x_dims three sizes)) by (apply dims_free; auto; [nodec|discriminate]).
  assert (Ie : free eol (show_long i)) by (apply (show_clean i Hi); nodec).
  destruct (collect _ _) as [fields|] eqn:Ef; [|discriminate]. intros E. apply some_eq in E; subst t.
  rewrite <- !app_assoc.
  rewrite reads_line by clean. rewrite see_grid by exact Bq.
  rewrite reads_line by clean.
  change (see (open_at ds base [] [] [] []) (lit "    <Time Value=""" ++ show_long i ++ lit """ />")) with (open_at ds base [] [] [] []).
  rewrite reads_line by (destruct three; clean). rewrite see_topology by exact Dq. rewrite numbers_dims by exact Hsizes.
  rewrite read_geometry.
  destruct (read_attributes file (line (lit "   </Grid>") ++ rest) Fe Fc _ _ ds base (size_list three sizes) [] [] [] Ef)
    as (an & as_ & R). rewrite R.
  rewrite reads_line by clean. reflexivity.
Qed.

Lemma read_grids rest : forall l t ds, Forall int_range l -> collect (x_grid three mhd sizes dtype prefix) l = Some t ->
  reads (mkreading ds [] [] [] false [] [] false) (t ++ rest) =
  reads (mkreading (ds ++ map expected_grid l) [] [] [] false [] [] false) rest.
Proof.
  induction l as [|i l IH]; intros t ds Hl E; cbn [collect] in E.
  - apply some_eq in E; subst t. cbn [map app]. rewrite app_nil_r. reflexivity.
  - inversion Hl as [|? ? H1 H2]; subst.
    destruct (x_grid three mhd sizes dtype prefix i) as [a|] eqn:Ea; [|discriminate].
    destruct (collect (x_grid three mhd sizes dtype prefix) l) as [b|] eqn:Eb; [|discriminate].
    apply some_eq in E; subst t. rewrite <- app_assoc. rewrite (read_grid ds i a (b ++ rest) H1 Ea).
    rewrite (IH b _ H2 eq_refl). cbn [map]. rewrite <- app_assoc. reflexivity.
Qed.

(** ** The whole index *)

Lemma collect_some {A} (f : A -> option text) l : (forall a, In a l -> f a <> None) -> collect f l <> None.
Proof.
  induction l as [|a l IH]; intros H; cbn [collect]; [discriminate|].
  destruct (f a) eqn:E; [|exfalso; apply (H a); [left; reflexivity|exact E]].
  destruct (collect f l) eqn:E2; [discriminate|]. exfalso. apply IH; auto. intros b Hb. apply H. right. exact Hb.
Qed.

Lemma xdmf_defined total single : xdmf three mhd sizes dtype prefix total single <> None.
Proof.
  unfold xdmf. destruct (collect _ _) eqn:E; [discriminate|]. exfalso. revert E. apply collect_some.
  intros i _. unfold x_grid. cbv zeta. destruct (collect _ _) eqn:E; [discriminate|]. exfalso. revert E. apply collect_some.
  intros v Hv. unfold x_attribute.
  assert (variables_names v <> None).
  { unfold x_fields in Hv. destruct three, mhd; cbn in Hv; intuition subst; discriminate. }
  destruct (variables_names v); [discriminate|contradiction].
Qed.

Lemma read_xdmf total single t : Forall int_range (upto (x_first total single) (x_last total single)) ->
  xdmf three mhd sizes dtype prefix total single = Some t ->
  read_index t = map expected_grid (upto (x_first total single) (x_last total single)).
Proof.
  intros Hl. unfold xdmf. destruct (collect _ _) as [g|] eqn:E; [|discriminate]. intros E1. apply some_eq in E1; subst t.
  unfold read_index. change (r_done (reads begin (line (lit "<?xml version=""1.0"" ?>") ++
      line (lit "<!DOCTYPE Xdmf SYSTEM ""Xdmf.dtd"" []>") ++
      line (lit "<Xdmf xmlns:xi=""http://www.w3.org/2003/XInclude"" Version=""2.2"">") ++
      line (lit "  <Domain>") ++
      line (lit "    <Grid Name=""TimeSeries"" GridType=""Collection"" CollectionType=""Temporal"">") ++
      g ++
      line (lit "   </Grid>") ++ line (lit " </Domain>") ++ line (lit "</Xdmf>"))) =
      map expected_grid (upto (x_first total single) (x_last total single))).
  do 5 (rewrite reads_line by clean;
    match goal with |- context [reads (see begin ?l) _] => change (see begin l) with begin end).
  unfold begin. rewrite (read_grids _ _ _ [] Hl E). cbn [app].
  set (G := map expected_grid _). rewrite reads_line by clean. rewrite reads_line by clean.
  rewrite <- (app_nil_r (line (lit "</Xdmf>"))). rewrite reads_line by clean. reflexivity.
Qed.

End Index.

(** ** C60 *)

(** A dataset of sizes [dims] (slowest first) has two or three of them. *)
Definition shape (three : bool) (dims : Z * Z * Z) : list Z := size_list three dims.

(** Grid [g] describes the file number [n] with the datasets [sets]: one attribute per
    dataset, in the same order, with its name and sizes; with the directory in
    front, its reference is the name under which the file was written. *)
Definition describes {T} (three : bool) (dir prefix : chars) (n : Z) (sets : list (Z * dataset (T := T))) (g : grid) : Prop :=
  Forall2 (fun a p =>
      a_name a = field_name (fst p) /\ a_set a = field_name (fst p) /\
      a_sizes a = shape three (d_dims (snd p)) /\
      dir ++ q "/" ++ a_file a = h5_name dir prefix n)
    (g_attributes g) sets.

Lemma upto_seq n : upto 0 n = map Z.of_nat (seq 0 (Z.to_nat (n + 1))).
Proof. unfold upto, range. rewrite map_map, Z.sub_0_r. reflexivity. Qed.

Lemma upto_nth n k : (k < Z.to_nat (n + 1))%nat -> nth_error (upto 0 n) k = Some (Z.of_nat k).
Proof.
  intros Hk. rewrite upto_seq, nth_error_map.
  rewrite nth_error_nth' with (d := O) by (rewrite seq_length; exact Hk).
  rewrite seq_nth by exact Hk. reflexivity.
Qed.

Lemma upto_length n : length (upto 0 n) = Z.to_nat (n + 1).
Proof. rewrite upto_seq, map_length, seq_length. reflexivity. Qed.

Lemma upto_range n : n < 2 ^ 31 -> Forall int_range (upto 0 n).
Proof.
  intros Hn. apply Forall_forall. intros x Hx. rewrite upto_seq in Hx. apply in_map_iff in Hx.
  destruct Hx as (k & <- & Hk). apply in_seq in Hk. unfold int_range. lia.
Qed.

Lemma main_counts {T} {NT : Num T} {M D} (P : machine T M D) c t0 k0 mem s tr s' :
  start t0 k0 mem s -> main P c s tr s' ->
  s_saved s' = k0 + Z.of_nat (length (s_files s')) /\ forall f, In f (s_files s') -> k0 <= f_number f < s_saved s'.
Proof.
  set (I := fun x : sol (T := T) (M := M) (D := D) => s_saved x = k0 + Z.of_nat (length (s_files x)) /\
     forall f, In f (s_files x) -> k0 <= f_number f < s_saved x).
  assert (Hsave : forall x, I x -> I (save P x)).
  { intros x (A & B). unfold I, save. cbn [s_saved s_files]. rewrite app_length. cbn [length]. split; [lia|].
    intros f Hf. apply in_app_iff in Hf. destruct Hf as [Hf|[<-|[]]]; [specialize (B f Hf); lia|cbn [f_number]; lia]. }
  assert (Hmain : forall x, I x -> I (main_save P c x)).
  { intros x Hx. unfold main_save. destruct (c_nOutput c =? 0); auto. }
  assert (Hloop : forall a tr' b, loop P c a tr' b -> I a -> I b).
  { intros a tr' b HL. induction HL as [|a a1 tr' b _ HN _ IH]; auto. intros Ha. apply IH. clear IH.
    destruct HN as (_ & m1 & d & m2 & _ & _ & _ & ->).
    assert (HI : I (maybe_save P c a)) by (unfold maybe_save; destruct (_ && _)%bool; auto).
    exact HI. }
  intros (E1 & E2 & E3 & E4 & E5) (s1 & HL & ->). change (I (main_save P c s1)). apply Hmain.
  apply (Hloop _ _ _ HL). apply Hmain. unfold I. rewrite E3, E4. cbn. split; [lia|tauto].
Qed.

(** What the index of [total + 1] files says, as an independent list. *)
Lemma index_grids three mhd sizes dtype prefix total :
  int_sizes sizes -> free eol dtype -> plain_name prefix -> total < 2 ^ 31 ->
  exists t, xdmf three mhd sizes dtype prefix total false = Some t /\
    read_index t = map (expected_grid three mhd sizes prefix) (upto 0 total).
Proof.
  intros Hs Hd Hp Ht. destruct (xdmf three mhd sizes dtype prefix total false) as [t|] eqn:E.
  - exists t. split; auto. apply (read_xdmf three mhd sizes dtype prefix Hs Hd Hp total false t); auto.
    apply upto_range. exact Ht.
  - exfalso. exact (xdmf_defined _ _ _ _ _ _ _ E).
Qed.

Lemma attributes_describe {T} three sizes dir prefix n vs (sets : list (Z * dataset (T := T))) :
  map fst sets = vs -> Forall (fun p => size_list three (d_dims (snd p)) = size_list three sizes) sets ->
  Forall2 (fun a p =>
      a_name a = field_name (fst p) /\ a_set a = field_name (fst p) /\
      a_sizes a = shape three (d_dims (snd p)) /\
      dir ++ q "/" ++ a_file a = h5_name dir prefix n)
    (expected_attributes three sizes vs (prefix ++ q "_" ++ padded 7 n ++ q ".h5")) sets.
Proof.
  intros <- Hd. unfold expected_attributes. rewrite map_map. induction sets as [|p sets IH]; cbn [map]; constructor.
  - cbn [a_name a_set a_sizes a_file]. inversion Hd; subst. unfold shape. repeat split; auto.
  - apply IH. inversion Hd; auto.
Qed.

Section Serial.
Context {T : Type} {NT : Num T}.

Lemma sets_serial cf m (h : flat (T := T)) vs data :
  map fst (write_fields cf m h vs data) = vs /\
  Forall (fun p => d_dims (snd p) = save_count cf m) (write_fields cf m h vs data).
Proof.
  revert data. induction vs as [|v vs IH]; intros data; cbn [write_fields map]; [auto|].
  destruct (IH (save_buffer cf m h v data)) as (A & B). cbv zeta. split; cbn [map fst].
  - f_equal. exact A.
  - constructor; auto. cbn [snd]. unfold h5_write. destruct (save_start cf m) as [[? ?] ?]. reflexivity.
Qed.

Lemma describe_serial cf m (U : Z -> Z -> Z -> Z -> T) it t dir prefix n :
  describes (h_three cf) dir prefix n (h_sets (h5_save cf m U it t))
    (expected_grid (h_three cf) (h_mhd cf) (x_sizes (h_ghost cf) m) prefix n).
Proof.
  unfold describes, expected_grid. cbn [g_attributes h5_save h_sets].
  destruct (sets_serial cf m (to_host cf m U) (h5_fields cf) blank) as (A & B).
  apply attributes_describe; [exact A|]. eapply Forall_impl; [|exact B]. cbn beta. intros p ->.
  unfold save_count, x_sizes, size_list. destruct (h_ghost cf), (h_three cf); reflexivity.
Qed.
End Serial.

(** The index written at the end of a run lists all the files written so far: grid
    number n describes file number n, those of the runs it continues (numbers below
    [k0]) included. *)
Theorem C60_index :
  forall (T : Type) (NT : Num T) (M D : Type) (P : machine T M D) c t0 k0 mem s tr s'
    (view : D -> Z -> Z -> Z -> Z -> T) (cf : h5conf) (m : mesh) (dtype dir prefix : chars),
  start t0 k0 mem s -> main P c s tr s' -> 0 <= k0 -> s_saved s' <= 2 ^ 31 ->
  int_sizes (x_sizes (h_ghost cf) m) -> free eol dtype -> plain_name prefix ->
  exists t, xdmf (h_three cf) (h_mhd cf) (x_sizes (h_ghost cf) m) dtype prefix (s_saved s' - 1) false = Some t /\
    length (read_index t) = Z.to_nat (k0 + Z.of_nat (length (s_files s'))) /\
    (forall n it (tm : T) U, 0 <= n < k0 -> exists g, nth_error (read_index t) (Z.to_nat n) = Some g /\
       describes (h_three cf) dir prefix n (h_sets (h5_save cf m U it tm)) g) /\
    (forall f it, In f (s_files s') -> exists g, nth_error (read_index t) (Z.to_nat (f_number f)) = Some g /\
       describes (h_three cf) dir prefix (f_number f) (h_sets (h5_save cf m (view (f_data f)) it (f_time f))) g).
Proof.
  intros T NT M D P c t0 k0 mem s tr s' view cf m dtype dir prefix HS HM Hk Hn Hs Hd Hp.
  destruct (index_grids (h_three cf) (h_mhd cf) (x_sizes (h_ghost cf) m) dtype prefix (s_saved s' - 1) Hs Hd Hp ltac:(lia))
    as (t & E & R).
  exists t. split; [exact E|].
  assert (HC : s_saved s' = k0 + Z.of_nat (length (s_files s')) /\
    forall f, In f (s_files s') -> k0 <= f_number f < s_saved s').
  { destruct (main_counts P c t0 k0 mem s tr s' HS HM) as (A & B). split; auto. }
  destruct HC as (HC & HF).
  assert (G : forall n, 0 <= n < s_saved s' -> nth_error (read_index t) (Z.to_nat n) =
     Some (expected_grid (h_three cf) (h_mhd cf) (x_sizes (h_ghost cf) m) prefix n)).
  { intros n Hn'. rewrite R, nth_error_map, upto_nth by lia. cbn [option_map]. rewrite Z2Nat.id by lia. reflexivity. }
  split; [|split].
  - rewrite R, map_length, upto_length. f_equal. lia.
  - intros n it tm U Hn'. eexists. split; [apply G; lia|]. apply describe_serial.
  - intros f it Hf. specialize (HF f Hf). eexists. split; [apply G; lia|]. apply describe_serial.
Qed.
Print Assumptions C60_index.

(** The same for a file shared by several processes, with and without ghosts,
    reassembled or not: grid number n describes file number n. *)
Theorem C60_index_mpi :
  forall (T : Type) (NT : Num T) (cf : h5conf) (allg rea : bool) (m : mesh) (gp : pgrid) (dtype dir prefix : chars) total
    (fs : Z -> h5file (T := T)),
  0 <= total < 2 ^ 31 ->
  int_sizes (x_sizes_mpi (h_three cf) (h_ghost cf) allg rea m gp) -> free eol dtype -> plain_name prefix ->
  (forall n, 0 <= n <= total -> exists U it (tm : T), saved_mpi cf allg rea m gp U it tm (fs n)) ->
  exists t, xdmf (h_three cf) (h_mhd cf) (x_sizes_mpi (h_three cf) (h_ghost cf) allg rea m gp) dtype prefix total false = Some t /\
    length (read_index t) = Z.to_nat (total + 1) /\
    forall n, 0 <= n <= total -> exists g, nth_error (read_index t) (Z.to_nat n) = Some g /\
      describes (h_three cf) dir prefix n (h_sets (fs n)) g.
Proof.
  intros T NT cf allg rea m gp dtype dir prefix total fs Ht Hs Hd Hp Hf.
  set (sizes := x_sizes_mpi (h_three cf) (h_ghost cf) allg rea m gp) in *.
  destruct (index_grids (h_three cf) (h_mhd cf) sizes dtype prefix total Hs Hd Hp ltac:(lia)) as (t & E & R).
  exists t. split; [exact E|]. split; [rewrite R, map_length, upto_length; reflexivity|].
  intros n Hn. exists (expected_grid (h_three cf) (h_mhd cf) sizes prefix n). split.
  { rewrite R, nth_error_map, upto_nth by lia. cbn [option_map]. rewrite Z2Nat.id by lia. reflexivity. }
  destruct (Hf n Hn) as (U & it & tm & (_ & _ & W)).
  unfold describes, expected_grid. cbn [g_attributes].
  assert (ES : size_list (h_three cf) (file_dims cf allg rea m gp) = size_list (h_three cf) sizes).
  { unfold sizes, x_sizes_mpi, file_dims, chunk, save_count, conf, size_list. cbn [h_three h_ghost].
    destruct (h_three cf), rea, allg, (h_ghost cf); cbn [negb orb];
      repeat match goal with |- _ :: _ = _ :: _ => f_equal end; lia. }
  assert (A : map fst (h_sets (fs n)) = h5_fields cf /\
     Forall (fun p => d_dims (snd p) = file_dims cf allg rea m gp) (h_sets (fs n))).
  { revert W. generalize (fun _ : nat => blank (T := T)) as data. generalize (h5_fields cf) as vs. generalize (h_sets (fs n)) as sets.
    induction sets as [|[w ds] sets IH]; intros [|v vs] data W; cbn [written] in W; try contradiction; cbn [map]; auto.
    destruct W as (-> & (D & _) & W). destruct (IH _ _ W) as (A & B). split; [cbn [fst]; f_equal; exact A|].
    constructor; auto. }
  destruct A as (A & B). apply attributes_describe; [exact A|].
  eapply Forall_impl; [|exact B]. cbn beta. intros p ->. exact ES.
Qed.
Print Assumptions C60_index_mpi.

(** ** Where a reference leads *)

Lemma pieces_app a b cur : pieces cur (a ++ slash :: b) = pieces cur a ++ pieces [] b.
Proof.
  revert cur. induction a as [|c a IH]; intros cur; cbn [app pieces].
  - reflexivity.
  - destruct (Ascii.eqb c slash); [|apply IH]. rewrite IH. reflexivity.
Qed.

Lemma path_join a b : path (a ++ q "/" ++ b) = path a ++ path b.
Proof. unfold path. change (q "/" ++ b) with (slash :: b). rewrite pieces_app. apply filter_app. Qed.

(** The index is written to the current directory ([x_name]: the prefix alone).
    Followed from there, its references reach the files exactly when the output
    directory is the current one (the default, "./"). *)
Theorem C60_default_dir :
  forall (T : Type) (three : bool) (dir prefix : chars) n (sets : list (Z * dataset (T := T))) g a,
  describes three dir prefix n sets g -> In a (g_attributes g) ->
  (path (a_file a) = path (h5_name dir prefix n) <-> path dir = []).
Proof.
  intros T three dir prefix n sets g a HD Ha.
  assert (E : dir ++ q "/" ++ a_file a = h5_name dir prefix n).
  { unfold describes in HD. induction HD as [|x y l l' (_ & _ & _ & Hx) _ IH]; [destruct Ha|destruct Ha as [<-|Ha]; auto]. }
  rewrite <- E, path_join. split.
  - intros H. assert (L : length (path (a_file a)) = length (path dir ++ path (a_file a))) by congruence.
    rewrite app_length in L. destruct (path dir); [reflexivity|cbn [length] in L; lia].
  - intros ->. reflexivity.
Qed.
Print Assumptions C60_default_dir.

Example C60_default_is_here : path (lit "./") = [].
Proof. reflexivity. Qed.

(** ** Claims that fail *)

(** With another output directory the index leads nowhere. *)
Theorem C60_directory_refuted :
  exists (dir prefix : chars) t g a, plain_name prefix /\
    xdmf false false (x_sizes false (mkmesh 2 2 1 2 4 false (fun _ => 1))) (lit "Double") prefix 0 false = Some t /\
    In g (read_index t) /\ In a (g_attributes g) /\
    path (x_name prefix 0 false) = [x_name prefix 0 false] /\
    path (a_file a) <> path (h5_name dir prefix 0).
Proof.
  set (sizes := x_sizes false _).
  assert (Hp : plain_name (lit "run")) by (unfold plain_name; repeat split; apply lit_free; reflexivity).
  destruct (index_grids false false sizes (lit "Double") (lit "run") 0) as (t & E & R);
    [unfold sizes, int_sizes, x_sizes, int_range; cbn; lia|apply lit_free; reflexivity|exact Hp|reflexivity|].
  set (file := lit "run_0000000.h5").
  exists (lit "out"), (lit "run"), t, (expected_grid false false sizes (lit "run") 0),
    (mkattribute (field_name ID) (size_list false sizes) file (field_name ID)).
  split; [exact Hp|]. split; [exact E|]. split; [rewrite R; left; reflexivity|]. split; [left; reflexivity|].
  split; [reflexivity|]. vm_compute. discriminate.
Qed.
Print Assumptions C60_directory_refuted.

(** The topology announces as many nodes as there are values, so in no index do the
    values match the cells. *)
Theorem C60_cells_refuted :
  forall three mhd sizes dtype prefix total t g a,
  int_sizes sizes -> free eol dtype -> plain_name prefix -> total < 2 ^ 31 ->
  xdmf three mhd sizes dtype prefix total false = Some t -> In g (read_index t) -> In a (g_attributes g) ->
  a_sizes a = g_topology g /\ a_sizes a <> cells (g_topology g).
Proof.
  intros three mhd sizes dtype prefix total t g a Hs Hd Hp Ht E Hg Ha.
  destruct (index_grids three mhd sizes dtype prefix total Hs Hd Hp Ht) as (t' & E' & R).
  assert (t' = t) by congruence. subst t'. rewrite R in Hg. apply in_map_iff in Hg. destruct Hg as (n & <- & _).
  unfold expected_grid in *. cbn [g_attributes g_topology] in *. unfold expected_attributes in Ha.
  apply in_map_iff in Ha. destruct Ha as (v & <- & _). cbn [a_sizes]. split; auto.
  destruct sizes as [[x y] z]. unfold size_list, cells. destruct three; cbn [map]; intros H; injection H; lia.
Qed.
Print Assumptions C60_cells_refuted.

(** With singleStep the index lists two steps; the second is that of no file yet. *)
Theorem C60_single_step_refuted :
  forall three mhd sizes dtype prefix total t,
  int_sizes sizes -> free eol dtype -> plain_name prefix -> 0 <= total < 2 ^ 31 - 1 ->
  xdmf three mhd sizes dtype prefix total true = Some t ->
  map g_name (read_index t) = [prefix ++ q "_" ++ padded 7 total; prefix ++ q "_" ++ padded 7 (total + 1)].
Proof.
  intros three mhd sizes dtype prefix total t Hs Hd Hp Ht E.
  assert (U : upto (x_first total true) (x_last total true) = [total; total + 1]).
  { unfold upto, x_first, x_last. replace (total + 1 - total + 1) with 2 by lia.
    change (range 2) with [0; 1]. cbn [map]. rewrite Z.add_0_r. reflexivity. }
  rewrite (read_xdmf three mhd sizes dtype prefix Hs Hd Hp total true t); [rewrite U; reflexivity| |exact E].
  rewrite U. unfold int_range. repeat constructor; lia.
Qed.
Print Assumptions C60_single_step_refuted.

(** ** Concrete cases *)

(** A run on a mesh of 3 x 2 cells that writes two files. *)
Example C60_case : exists t,
  xdmf false true (x_sizes true (mkmesh 3 2 1 2 8 true (fun _ => 1))) (lit "Double") (lit "run") 1 false = Some t /\
  map g_name (read_index t) = [lit "run_0000000"; lit "run_0000001"] /\
  map a_file (flat_map g_attributes (read_index t)) =
    repeat (lit "run_0000000.h5") 8 ++ repeat (lit "run_0000001.h5") 8 /\
  map a_sizes (flat_map g_attributes (read_index t)) = repeat [6; 7] 16.
Proof.
  eexists. split; [vm_compute; reflexivity|]. vm_compute. auto.
Qed.

Lemma loop_saved {T} {NT : Num T} {M D} (P : machine T M D) c a tr b : loop P c a tr b ->
  s_saved b <= s_saved a + Z.of_nat (length tr) /\
  (Z.of_nat (s_it a) + Z.of_nat (length tr) <= Z.max (Z.of_nat (s_it a)) (c_nStepmax c) + 1).
Proof.
  intros HL. induction HL as [s|s s1 tr s' Hf HN HL (A & B)]; cbn [length]; [lia|].
  assert (C : s_saved s1 <= s_saved s + 1 /\ s_it s1 = S (s_it s)).
  { destruct HN as (_ & m1 & d & m2 & _ & _ & _ & ->). cbn [s_saved s_it]. unfold maybe_save.
    destruct (_ && _)%bool; unfold save; cbn [s_saved s_it]; lia. }
  unfold finished in Hf. apply orb_false_iff in Hf. destruct Hf as [_ Hf]. lia.
Qed.

(** The run of [C13_case_2d] has an index with at least two grids. *)
Example C60_run_case : forall iv (s0 : store R), exists mem s tr s' t,
  let inb := alloc2d ex_mesh2 (nv2 ex_mesh2 no_gravity iv) in
  start 0%R 0 mem s /\ main (hydro2 ex_mesh2 (ex_set R_HLLC 1) no_gravity inb iv) ex_config s tr s' /\
  s_saved s' <= 2 ^ 31 /\
  xdmf false false (x_sizes false ex_mesh2) (lit "Double") (lit "run") (s_saved s' - 1) false = Some t /\
  (2 <= length (read_index t))%nat.
Proof.
  intros iv s0. destruct (C13_case_2d iv s0) as (mem & s & tr & s' & _ & _ & _ & HS & HM & _).
  assert (HB : s_saved s' <= 2 ^ 31 /\ 2 <= s_saved s').
  { destruct HM as (s1 & HL & ->). pose proof (loop_saved _ _ _ _ _ HL) as (A & B).
    assert (A2 : s_saved (main_save (hydro2 ex_mesh2 (ex_set R_HLLC 1) no_gravity (alloc2d ex_mesh2 (nv2 ex_mesh2 no_gravity iv)) iv) ex_config s) <= s_saved s1).
    { clear -HL. induction HL as [|x x1 tr y _ HN _ IH]; [lia|].
      destruct HN as (_ & m1 & d & m2 & _ & _ & _ & ->). cbn [s_saved] in IH. unfold maybe_save in IH.
      destruct (_ && _)%bool; unfold save in IH; cbn [s_saved] in IH; lia. }
    destruct HS as (_ & E2 & E3 & _). unfold main_save, ex_config in *. cbn [c_nOutput c_nStepmax] in *.
    change (2 =? 0) with false in *. cbv iota in *.
    unfold save in *. cbn [s_saved s_it] in *. rewrite E2, E3 in *. lia. }
  destruct (C60_index R Rnum _ _ _ ex_config 0%R 0 mem s tr s' (fun D i j _ v => D i j v)
     (mkh5conf false false false false LayoutLeft) ex_mesh2 (lit "Double") (lit "out") (lit "run") HS HM) as (t & E & L & _);
    [lia|lia|unfold int_sizes, x_sizes, int_range; cbn; lia|apply lit_free; reflexivity
    |unfold plain_name; repeat split; apply lit_free; reflexivity|].
  exists mem, s, tr, s', t. split; [exact HS|]. split; [exact HM|]. split; [lia|]. split; [exact E|].
  destruct (main_counts _ _ _ _ _ _ _ _ HS HM) as (C & _). rewrite L. lia.
Qed.

(** Five files shared by the 2 x 2 processes of [shared_example]. *)
Example C60_mpi_case : exists f t g,
  saved_mpi ex_conf false true ex_mesh ex_grid ex_part 7 1%R f /\
  xdmf false false (x_sizes_mpi false false false true ex_mesh ex_grid) (lit "Double") (lit "run") 4 false = Some t /\
  nth_error (read_index t) 3 = Some g /\ describes false (lit "out") (lit "run") 3 (h_sets f) g /\
  length (g_attributes g) = 4%nat.
Proof.
  destruct shared_example as (_ & f & HF & _).
  destruct (C60_index_mpi R Rnum ex_conf false true ex_mesh ex_grid (lit "Double") (lit "out") (lit "run") 4 (fun _ => f))
    as (t & E & _ & G);
    [lia|unfold int_sizes, x_sizes_mpi, int_range; cbn; lia|apply lit_free; reflexivity
    |unfold plain_name; repeat split; apply lit_free; reflexivity|intros; exists ex_part, 7, 1%R; exact HF|].
  destruct (G 3 ltac:(lia)) as (g & Eg & Hg). exists f, t, g. split; [exact HF|]. split; [exact E|]. split; [exact Eg|].
  split; [exact Hg|].
  assert (L : length (g_attributes g) = length (h_sets f)) by (unfold describes in Hg; clear -Hg; induction Hg; cbn; congruence).
  rewrite L. destruct HF as (_ & _ & W).
  destruct (h_sets f) as [|[? ?] [|[? ?] [|[? ?] [|[? ?] [|[? ?] ?]]]]]; cbn in W; tauto.
Qed.
