(** * The ghost cells of the double Mach reflection under every schedule *)
From Coq Require Import ZArith List Bool Lia ZifyBool.
Import ListNotations.
From Verif Require Import Num Exec ExecFacts Grid GridFacts BoundariesSpec BoundariesFacts BoundariesFill Wedge.
Local Open Scope Z_scope.

Section Facts.
Context {T : Type} `{HN : Num T}.
Variable m : mesh.
Variables dx dy xmin ymin : T.
Variable w : wedge T.
Variable a : arr.
Variable inb : extents.
Hypothesis gw_pos : 0 < gw m.
Hypothesis nx_pos : 1 <= nx m.
Hypothesis ny_wide : gw m <= ny m.
Hypothesis four : nbvar m = 4.

(** Variable [v] of the incoming gas. *)
Definition incoming (v : Z) : T :=
  if v =? 0 then rho1 w else if v =? 1 then e_tot1 w else if v =? 2 then rho_u1 w else rho_v1 w.

Lemma move_vars_foot n : forall v (dst src : Z -> loc) f,
  foot (fun l => exists x, v <= x < v + Z.of_nat n /\ l = src x)
       (fun l => exists x, v <= x < v + Z.of_nat n /\ l = dst x)
       nowhere (move_vars n v dst src f : prog T).
Proof.
  induction n as [|n IH]; intros v dst src f; simpl; auto.
  split; [exists v; split; [lia|auto]|]. intros x.
  split; [exists v; split; [lia|auto]|].
  eapply foot_mono; [| | |apply IH]; simpl; auto.
  - intros l (y & Hy & E). exists y. split; auto. lia.
  - intros l (y & Hy & E). exists y. split; auto. lia.
Qed.

Lemma move_vars_run n : forall v (dst src : Z -> loc) f (s : store T) x,
  (forall y z, src y <> dst z) -> (forall y z, dst y = dst z -> y = z) ->
  v <= x < v + Z.of_nat n ->
  run (move_vars n v dst src f) s (dst x) = f x (s (src x)).
Proof.
  induction n as [|n IH]; intros v dst src f s x Hd Hi Hx; [lia|].
  simpl. destruct (Z.eq_dec v x) as [->|Hne].
  - rewrite (run_frame _ _ _ _ _ _ (move_vars_foot n (x + 1) dst src f)).
    + apply upd_same.
    + intros (y & Hy & E). apply Hi in E. lia.
    + auto.
  - rewrite IH; auto; [|lia]. rewrite upd_other; auto.
Qed.

(** What a face does to one of its ghost cells: incoming gas, or a function of
    another cell. *)
Definition what (f : face) (c : cell) : option (cell * (Z -> T -> T)) :=
  let '(i, j, _) := c in
  let g := gw m in
  match f with
  | XMIN => None
  | XMAX => Some ((nx m + g - 1, j, 0), fun _ x => x)
  | YMIN => if nltb (x_of m dx xmin i) (x_f w) then None
            else Some ((i, 2 * g - 1 - j, 0), fun v x => nmul x (wall_sign v))
  | _ => if nltb (x_of m dx xmin i) (nadd (nadd (x_f w) (ndiv (y_of m dy ymin j) (slope_f w))) (delta_x w))
         then None else Some ((i, ny m + g - 1, 0), fun _ x => x)
  end.

Definition cell_prog (f : face) (c : cell) : prog T :=
  match what f c with
  | None => let '(i, j, _) := c in inflow_cell w a i j
  | Some (c0, h) => move_vars 4 0 (at_ a c) (at_ a c0) h
  end.

Definition plain (f : face) : Prop := match f with ZMIN | ZMAX => False | _ => True end.

Lemma item_eq f x : plain f -> wedge_item m dx dy xmin ymin w a f x =
  match fdec2 m f x with Some c => cell_prog f c | None => Done end.
Proof.
  intros Hf. unfold cell_prog. destruct f; try contradiction; cbn [wedge_item fdec2]; cbv zeta;
  match goal with |- context [if ?b then _ else _] => destruct b end; try reflexivity; cbn [what];
  try (match goal with |- context [if ?b then _ else _] => destruct b end);
  unfold outflow_cell, wall_cell; rewrite ?four; reflexivity.
Qed.

Definition wk_R (f : face) (x : Z) (l : loc) : Prop :=
  exists c c0 h v, fdec2 m f x = Some c /\ what f c = Some (c0, h) /\ 0 <= v < 4 /\ l = at_ a c0 v.
Definition wk_W (f : face) (x : Z) (l : loc) : Prop :=
  exists c v, fdec2 m f x = Some c /\ 0 <= v < 4 /\ l = at_ a c v.

Lemma flat f x c : fdec2 m f x = Some c -> exists i j, c = (i, j, 0).
Proof.
  destruct f; cbn [fdec2]; cbv zeta;
  try (match goal with |- context [if ?b then _ else _] => destruct b end);
  intros E; inversion E; eauto.
Qed.

Lemma item_foot f x : plain f -> foot (wk_R f x) (wk_W f x) nowhere (wedge_item m dx dy xmin ymin w a f x).
Proof.
  intros Hf. rewrite item_eq by exact Hf. unfold wk_R, wk_W.
  destruct (fdec2 m f x) as [c|] eqn:E; [|exact I].
  destruct (flat f x c E) as (i & j & ->). unfold cell_prog.
  destruct (what f (i, j, 0)) as [[c0 h]|] eqn:Ew.
  - eapply foot_mono; [| | |apply move_vars_foot]; auto.
    + intros l (v & Hv & ->). exists (i, j, 0), c0, h, v. auto.
    + intros l (v & Hv & ->). exists (i, j, 0), v. auto.
  - cbn. repeat split; exists (i, j, 0); eexists; (split; [reflexivity|]); (split; [|reflexivity]); cbv; split; congruence.
Qed.

Lemma what_src f c c0 h : plain f -> slab true m f c -> what f c = Some (c0, h) ->
  in_array true m c0 /\ physical (ncells m (face_axis f)) (gw m) (coord (face_axis f) c0) /\
  ~ slab true m f c0.
Proof.
  destruct c as [[i j] k]. intros Hf [Ha Hs] E.
  destruct f; try contradiction; cbn in E, Hs, Ha |- *;
  try (match type of E with context [if ?b then _ else _] => destruct b end);
  inversion E; subst; unfold slab; cbn; umesh; repeat split; lia.
Qed.

Lemma wedge_face f s s' : plain f ->
  exec inb s (make_wedge m dx dy xmin ymin w a f) s' ->
  (forall c v, slab true m f c -> 0 <= v < 4 ->
     s' (at_ a c v) = match what f c with None => incoming v | Some (c0, h) => h v (s (at_ a c0 v)) end) /\
  (forall l, ~ (la l = a /\ slab true m f (cell_of l) /\ 0 <= lv l < 4) -> s' l = s l).
Proof.
  intros Hf Hex. unfold make_wedge in Hex.
  assert (Hdec : forall c, slab true m f c <-> exists x, In x (range (nbIter true m)) /\ fdec2 m f x = Some c).
  { intros c. split.
    - apply fdec2_complete; try lia; destruct f; try contradiction; discriminate.
    - intros (x & Hx & E). apply in_range in Hx. apply fdec2_spec in E; try lia. tauto. }
  assert (Hinj : forall x y c, In x (range (nbIter true m)) -> In y (range (nbIter true m)) ->
            fdec2 m f x = Some c -> fdec2 m f y = Some c -> x = y).
  { intros x y c Hx Hy E1 E2. apply in_range in Hx, Hy. apply fdec2_spec in E1; [|lia..].
    apply fdec2_spec in E2; [|lia..]. destruct E1 as [_ ->], E2 as [_ ->]. reflexivity. }
  change (gw m * Z.max (isize m) (jsize m)) with (nbIter true m) in Hex.
  apply (parallel_for_spec (wedge_item m dx dy xmin ymin w a f) (range (nbIter true m))
           (wk_R f) (wk_W f) inb (nodup_range _)) in Hex.
  - destruct Hex as [H1 H2]. split.
    + intros c v Hc Hv. apply Hdec in Hc as Hc'. destruct Hc' as (x & Hx & Hd).
      rewrite (H1 x _ Hx) by (exists c, v; auto).
      rewrite item_eq by exact Hf. rewrite Hd. unfold cell_prog.
      destruct (what f c) as [[c0 h]|] eqn:Ew.
      * apply move_vars_run; try lia.
        -- intros y z E. apply at_inj in E. destruct E as (_ & E & _).
           apply (what_src f c c0 h Hf Hc Ew). rewrite E. exact Hc.
        -- intros y z E. apply at_inj in E. tauto.
      * destruct (flat f x c Hd) as (i & j & ->). unfold inflow_cell, incoming. cbn [run at_].
        assert (Ev : v = 0 \/ v = 1 \/ v = 2 \/ v = 3) by lia.
        assert (Ul : forall (s1 : store T) u v' x', u <> v' -> upd s1 (mkloc a i j 0 u) x' (mkloc a i j 0 v') = s1 (mkloc a i j 0 v')).
        { intros. apply upd_other. congruence. }
        destruct Ev as [->|[->|[->| ->]]]; change ID with 0; change IP with 1; change IU with 2; change IV with 3;
        rewrite ?Ul by discriminate; rewrite upd_same; reflexivity.
    + intros l Hl. apply H2. intros x Hx (c & v & Hc & Hv & ->). apply Hl.
      destruct c as [[i j] k]. cbn. unfold cell_of. cbn. repeat split; try lia;
      apply (Hdec (i, j, k)); eauto.
  - intros x _. apply item_foot; exact Hf.
  - intros x y l Hx Hy Hne (c & v & Hc & Hv & ->). split.
    + intros (c' & v' & Hc' & Hv' & E). apply at_inj in E. destruct E as (_ & -> & _).
      apply Hne. eapply Hinj; eauto.
    + intros (c' & c0 & h & v' & Hc' & Hw & Hv' & E). apply at_inj in E. destruct E as (_ & -> & _).
      apply (what_src f c' c0 h Hf); [apply Hdec; eauto | exact Hw | apply Hdec; eauto].
Qed.

Lemma wedge_in_foot f : plain f ->
  (forall c v, in_array true m c -> 0 <= v < 4 -> inb (at_ a c v) = true) ->
  Forall (in_foot inb) (make_wedge m dx dy xmin ymin w a f).
Proof.
  intros Hf Hb. apply Forall_forall. intros p Hp. apply in_map_iff in Hp.
  destruct Hp as (x & <- & Hx). apply in_range in Hx. unfold in_foot.
  eapply foot_mono; [| | |apply item_foot; exact Hf].
  - intros l (c & c0 & h & v & Hc & Hw & Hv & ->). apply Hb; auto.
    apply fdec2_spec in Hc; try lia. eapply what_src; eauto. tauto.
  - intros l (c & v & Hc & Hv & ->). apply Hb; auto. apply fdec2_spec in Hc; try lia. apply Hc.
  - intros l [].
Qed.

Lemma wedges_in_foot :
  (forall c v, in_array true m c -> 0 <= v < 4 -> inb (at_ a c v) = true) ->
  Forall (Forall (in_foot inb)) (make_wedges m dx dy xmin ymin w a).
Proof. intros Hb. repeat constructor; apply wedge_in_foot; simpl; auto. Qed.

(** All four faces. *)
Lemma wedges (s s' : store T) :
  execs inb s (make_wedges m dx dy xmin ymin w a) s' ->
  let g := gw m in
  (** after the faces along x *)
  let column i j v := if i <? g then incoming v else if nx m + g <=? i then s (mkloc a (nx m + g - 1) j 0 v)
                      else s (mkloc a i j 0 v) in
  (forall i j v, 0 <= i < isize m -> 0 <= j < jsize m -> 0 <= v < 4 ->
     s' (mkloc a i j 0 v) =
     if j <? g then
       if nltb (x_of m dx xmin i) (x_f w) then incoming v
       else nmul (column i (2 * g - 1 - j) v) (wall_sign v)
     else if ny m + g <=? j then
       if nltb (x_of m dx xmin i) (nadd (nadd (x_f w) (ndiv (y_of m dy ymin j) (slope_f w))) (delta_x w))
       then incoming v else column i (ny m + g - 1) v
     else column i j v) /\
  (forall l, ~ (la l = a /\ 0 <= li l < isize m /\ 0 <= lj l < jsize m /\ lk l = 0 /\ 0 <= lv l < 4) ->
     s' l = s l).
Proof.
  intros Hex g column. unfold make_wedges in Hex. cbn [map] in Hex.
  inversion Hex as [|? ? s1 ? ? H1 Hx1]; subst. inversion Hx1 as [|? ? s2 ? ? H2 Hx2]; subst.
  inversion Hx2 as [|? ? s3 ? ? H3 Hx3]; subst. inversion Hx3 as [|? ? s4 ? ? H4 Hx4]; subst.
  inversion Hx4; subst. clear Hex Hx1 Hx2 Hx3 Hx4.
  apply wedge_face in H1; [|exact I]. apply wedge_face in H2; [|exact I].
  apply wedge_face in H3; [|exact I]. apply wedge_face in H4; [|exact I].
  destruct H1 as [A1 B1], H2 as [A2 B2], H3 as [A3 B3], H4 as [A4 B4].
  assert (Col : forall i j v, 0 <= i < isize m -> 0 <= j < jsize m -> 0 <= v < 4 ->
            s2 (mkloc a i j 0 v) = column i j v).
  { intros i j v Hi Hj Hv. unfold column.
    destruct (i <? g) eqn:E1.
    - rewrite B2.
      + change (mkloc a i j 0 v) with (at_ a (i, j, 0) v). rewrite A1; [reflexivity| |exact Hv].
        unfold slab, g in *; cbn; umesh; repeat split; lia.
      + unfold slab, cell_of, g in *; cbn; umesh. lia.
    - destruct (nx m + g <=? i) eqn:E2.
      + change (mkloc a i j 0 v) with (at_ a (i, j, 0) v). rewrite A2; [|unfold slab, g in *; cbn; umesh; repeat split; lia|exact Hv].
        cbn [what at_]. apply B1. unfold slab, cell_of, g in *; cbn; umesh. lia.
      + rewrite B2, B1; [reflexivity| |]; unfold slab, cell_of, g in *; cbn; umesh; lia. }
  split.
  - intros i j v Hi Hj Hv.
    destruct (j <? g) eqn:E1.
    + rewrite B4 by (unfold slab, cell_of, g in *; cbn; umesh; lia).
      change (mkloc a i j 0 v) with (at_ a (i, j, 0) v).
      rewrite A3; [|unfold slab, g in *; cbn; umesh; repeat split; lia|exact Hv].
      cbn [what]. destruct (nltb _ (x_f w)); [reflexivity|]. cbn [at_]. f_equal.
      apply Col; unfold g in *; umesh; lia.
    + destruct (ny m + g <=? j) eqn:E2.
      * change (mkloc a i j 0 v) with (at_ a (i, j, 0) v).
        rewrite A4; [|unfold slab, g in *; cbn; umesh; repeat split; lia|exact Hv].
        cbn [what]. destruct (nltb _ _); [reflexivity|]. cbn [at_].
        rewrite B3 by (unfold slab, cell_of, g in *; cbn; umesh; lia).
        apply Col; unfold g in *; umesh; lia.
      * rewrite B4, B3; [apply Col; lia| |]; unfold slab, cell_of, g in *; cbn; umesh; lia.
  - intros l Hl. rewrite B4, B3, B2, B1; [reflexivity| | | |];
    intros (E1 & [E2 _] & E3); apply Hl; cbn in E2; tauto.
Qed.

End Facts.
