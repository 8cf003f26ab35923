(** * C49 in 3D: each edge takes the electric field of the cell upstream of it *)
From Coq Require Import ZArith List Bool Reals Lra Psatz.
Import ListNotations.
From Verif Require Import Num Exec Grid HydroNum Hydro3D EulerSpec HydroPhysics MhdNum MhdSpec MhdPhysics MhdFanSpec
  MhdSymSpec MhdSym Mhd3DNum Mhd3DSpec PropMhdScheme.
Local Open Scope R_scope.

(** The two axes across an edge, velocity and field along an axis, fast speed along it. *)
Definition first_axis (e : dir) : dir := match e with DX => DY | _ => DX end.
Definition second_axis (e : dir) : dir := match e with DZ => DY | _ => DZ end.
Definition vel_along (d : dir) (q : ms R) : R := match d with DX => mu q | DY => mv q | DZ => mw q end.
Definition field_along (d : dir) (q : ms R) : R := match d with DX => ma q | DY => mb q | DZ => mc q end.
Definition fast_along (S : hset R) (d : dir) (q : ms R) (c : R) : Prop :=
  0 < c /\ magnetosonic S q (field_along d q) (c * c) = 0 /\
  forall x, c * c < x -> 0 < magnetosonic S q (field_along d q) x.
Definition emf_axis (e : dir) : emfdir := match e with DX => EMFX | DY => EMFY | DZ => EMFZ end.
Definition set_field (d : dir) (b : R) (q : ms R) : ms R :=
  match d with
  | DX => mkms (md q) (mp q) (mu q) (mv q) (mw q) b (mb q) (mc q)
  | DY => mkms (md q) (mp q) (mu q) (mv q) (mw q) (ma q) b (mc q)
  | DZ => mkms (md q) (mp q) (mu q) (mv q) (mw q) (ma q) (mb q) b
  end.

(** The four cells around the lower edge of (i,j,k): [f] and [s] say whether the cell is the
    upper one along the first and the second axis. Each contributes its state at the corner
    that touches the edge; the field components across the edge are the means of the two
    cells sharing the face. *)
Definition touching (f s : bool) : corner :=
  match f, s with false, false => RT | false, true => RB | true, false => LT | true, true => LB end.
Definition cell_of (tr : part -> Z -> Z -> Z -> ms R) (e : dir) (i j k : Z) (f s : bool) : ms R :=
  let a := if f then 0%Z else 1%Z in let b := if s then 0%Z else 1%Z in
  let p := Pe e (touching f s) in
  match e with
  | DX => tr p i (j - a) (k - b)
  | DY => tr p (i - a) j (k - b)
  | DZ => tr p (i - a) (j - b) k
  end%Z.
Definition edge_state (tr : part -> Z -> Z -> Z -> ms R) (e : dir) (i j k : Z) (f s : bool) : ms R :=
  let q := cell_of tr e i j k in
  let F := first_axis e in let G := second_axis e in
  set_field F ((field_along F (q false s) + field_along F (q true s)) / 2)
  (set_field G ((field_along G (q f false) + field_along G (q f true)) / 2) (q f s)).

Lemma upwind_turned (S : hset R) d (rt rb lt lb : ms R) (P : bool -> bool -> ms R) (xup yup : bool) : mhd_sane S ->
  mhd_adm rt -> mhd_adm rb -> mhd_adm lt -> mhd_adm lb ->
  edge_states (turned d rt) (turned d rb) (turned d lt) (turned d lb) =
    (turned d (P false false), turned d (P true false), turned d (P false true), turned d (P true true)) ->
  (forall f s f' s' c, fast_speed S (turned d (P f s)) c ->
     c < if xup then mu (turned d (P f' s')) else - mu (turned d (P f' s'))) ->
  (forall f s f' s' c, fast_speed S (sw (turned d (P f s))) c ->
     c < if yup then mv (turned d (P f' s')) else - mv (turned d (P f' s'))) ->
  compute_emf S d rt rb lt lb = ideal_emf d (P (negb xup) (negb yup)).
Proof.
  intros HS A1 A2 A3 A4 E HX HY. rewrite C49_edge_axes.
  assert (AT : forall q, mhd_adm q -> mhd_adm (turned d q)) by (intros q []; destruct d; split; assumption).
  pose proof (C49_edge_upwind S _ _ _ _ xup yup HS (AT _ A1) (AT _ A2) (AT _ A3) (AT _ A4)) as U.
  rewrite E in U. cbv beta iota zeta in U.
  assert (X : forall x, In x [turned d (P false false); turned d (P true false); turned d (P false true); turned d (P true true)] ->
    exists f s, x = turned d (P f s)) by (intros x [<- | [<- | [<- | [<- | []]]]]; eauto).
  rewrite U; clear U.
  - destruct d, xup, yup; unfold ideal_emf, turned; cbn; ring.
  - intros q q' c Hq Hq' Hc. destruct (X _ Hq) as (f & s & ->). destruct (X _ Hq') as (f' & s' & ->).
    apply (HX f s); assumption.
  - intros q q' c Hq Hq' Hc. destruct (X _ Hq) as (f & s & ->). destruct (X _ Hq') as (f' & s' & ->).
    apply (HY f s); assumption.
Qed.

Lemma fast_along_first S d q q' c : md q = md q' -> mp q = mp q' -> field_along d q = ma q' -> b_sq q = b_sq q' ->
  fast_speed S q' c -> fast_along S d q c.
Proof.
  intros H1 H2 H3 H4. unfold fast_speed, fast_along, magnetosonic, sound_sq. rewrite H1, H2, H3, H4. auto.
Qed.

Theorem C49_edge_upwind3d :
  forall (S : hset R) (tr : part -> Z -> Z -> Z -> ms R) e i j k (fup sup : bool), mhd_sane S ->
  (forall f s, mhd_adm (cell_of tr e i j k f s)) ->
  let q := edge_state tr e i j k in
  let faster d (up : bool) := forall f s f' s' c, fast_along S d (q f s) c ->
    c < if up then vel_along d (q f' s') else - vel_along d (q f' s') in
  faster (first_axis e) fup -> faster (second_axis e) sup ->
  mE3 S tr e i j k = ideal_emf (emf_axis e) (q (negb fup) (negb sup)).
Proof.
  intros S tr e i j k fup sup HS Ha q faster HF HG.
  set (rt := cell_of tr e i j k false false). set (rb := cell_of tr e i j k false true).
  set (lt := cell_of tr e i j k true false). set (lb := cell_of tr e i j k true true).
  assert (E3 : mE3 S tr e i j k = emf3 S e rt rb lt lb).
  { subst rt rb lt lb. unfold mE3, cell_of, touching. destruct e; rewrite ?Z.sub_0_r; reflexivity. }
  rewrite E3. unfold emf3.
  assert (A1 : mhd_adm rt) by apply Ha. assert (A2 : mhd_adm rb) by apply Ha.
  assert (A3 : mhd_adm lt) by apply Ha. assert (A4 : mhd_adm lb) by apply Ha.
  assert (Q : forall f s, q f s = edge_state tr e i j k f s) by reflexivity. clearbody q.
  assert (FA : forall d f s q' c, md (q f s) = md q' -> mp (q f s) = mp q' -> field_along d (q f s) = ma q' ->
    b_sq (q f s) = b_sq q' -> fast_speed S q' c -> fast_along S d (q f s) c)
    by (intros; eapply fast_along_first; eauto).
  destruct e; cbn [emf_axis first_axis second_axis] in *.
  - apply upwind_turned; try assumption.
    + rewrite !Q. reflexivity.
    + intros f s f' s' c Hc. apply (HF f s). eapply FA; [..|exact Hc]; try reflexivity. unfold b_sq, turned; cbn; ring.
    + intros f s f' s' c Hc. apply (HG f s). eapply FA; [..|exact Hc]; try reflexivity. unfold b_sq, turned, sw; cbn; ring.
  - apply (upwind_turned S EMFY rt lt rb lb (fun x y => q y x) sup fup); try assumption.
    + rewrite !Q. reflexivity.
    + intros s f s' f' c Hc. apply (HG f s). eapply FA; [..|exact Hc]; try reflexivity. unfold b_sq, turned; cbn; ring.
    + intros s f s' f' c Hc. apply (HF f s). eapply FA; [..|exact Hc]; try reflexivity. unfold b_sq, turned, sw; cbn; ring.
  - apply upwind_turned; try assumption.
    + rewrite !Q. reflexivity.
    + intros f s f' s' c Hc. apply (HG f s). eapply FA; [..|exact Hc]; try reflexivity. unfold b_sq, turned, sw; cbn; ring.
Qed.
Print Assumptions C49_edge_upwind3d.

(** Two gases meeting in the plane between two layers of cells, both much faster than
    their waves along every axis: the edge takes the field of the lower cells. *)
Definition ex_upwind (p : part) (i j k : Z) : ms R :=
  if Z.even i then mkms 1 1 9 9 9 1 1 1 else mkms 2 1 8 9 9 1 1 1.
Local Ltac ev := unfold edge_state, cell_of, ex_upwind; change (Z.even (0 - 0)) with true;
  change (Z.even (0 - 1)) with false; change (Z.even 0) with true.
Example C49_upwind3d_case :
  let S := fan_set 2 in
  mhd_sane S /\ (forall e f s, mhd_adm (cell_of ex_upwind e 0 0 0 f s)) /\
  (forall e d f s f' s' c, fast_along S d (edge_state ex_upwind e 0 0 0 f s) c ->
     c < vel_along d (edge_state ex_upwind e 0 0 0 f' s')) /\
  mE3 S ex_upwind DZ 0 0 0 = -1 /\ mE3 S ex_upwind DY 0 0 0 = 1 /\ mE3 S ex_upwind DX 0 0 0 = 0.
Proof.
  intros S. assert (HS : mhd_sane S) by (apply fan_set_sane; lra).
  assert (C : forall e f s, cell_of ex_upwind e 0 0 0 f s = mkms 1 1 9 9 9 1 1 1 \/
                            cell_of ex_upwind e 0 0 0 f s = mkms 2 1 8 9 9 1 1 1)
    by (intros [] [] []; cbn; auto).
  assert (A : forall e f s, mhd_adm (cell_of ex_upwind e 0 0 0 f s)).
  { intros e f s. destruct (C e f s) as [-> | ->]; unfold mhd_adm; cbn; lra. }
  assert (Q : forall e f s, edge_state ex_upwind e 0 0 0 f s = cell_of ex_upwind e 0 0 0 f s).
  { intros [] [] []; ev; cbn; replace ((1 + 1) / 2) with 1 by lra; reflexivity. }
  assert (F : forall e d f s f' s' c, fast_along S d (edge_state ex_upwind e 0 0 0 f s) c ->
     c < vel_along d (edge_state ex_upwind e 0 0 0 f' s')).
  { intros e d f s f' s' c (C1 & C2 & _). rewrite Q in *.
    assert (V : 8 <= vel_along d (cell_of ex_upwind e 0 0 0 f' s'))
      by (destruct (C e f' s') as [-> | ->], d; cbn; lra).
    enough (c < 8) by lra. destruct (Rlt_dec c 8) as [|G]; auto. exfalso. revert C2. unfold magnetosonic, sound_sq, b_sq.
    assert (G2 : 64 <= c * c) by nra. generalize dependent (c * c). intros x G2 C2.
    destruct (C e f s) as [H | H]; rewrite H in C2; destruct d; cbn in C2; nra. }
  split; [exact HS|]. split; [exact A|]. split; [exact F|].
  split; [|split]; rewrite (C49_edge_upwind3d S ex_upwind _ 0 0 0 true true HS (A _) (F _ _) (F _ _));
    rewrite Q; ev; cbn; change (Z.even (0 - 1)) with false; cbn; lra.
Qed.
