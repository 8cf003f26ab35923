(** * Ghost filling computes the specified images (all faces, any schedule) *)
From Coq Require Import ZArith List Bool Lia ZifyBool.
Import ListNotations.
From Verif Require Import Num Exec ExecFacts Grid GridFacts Boundaries BoundariesSpec BoundariesFacts.
Local Open Scope Z_scope.

Lemma image_range lo hi n g x : 0 < g -> enough lo n g -> enough hi n g ->
  0 <= x < n + 2 * g -> physical n g (image lo hi n g x).
Proof.
  intros Hg [Hn Hlo] [_ Hhi] Hx. unfold image. umesh.
  destruct (x <? g) eqn:E1; [destruct lo; destruct Hlo; try discriminate; lia|].
  destruct (n + g <=? x) eqn:E2; [destruct hi; destruct Hhi; try discriminate; lia|]. lia.
Qed.

Section Fill.
Context {T : Type} `{HN : Num T}.
Variable two : bool.
Variable m : mesh.
Variable a : arr.
Variable inb : extents.
Hypothesis gw_pos : 0 < gw m.
Hypothesis nx_pos : 1 <= nx m.
Hypothesis ny_pos : 1 <= ny m.
Hypothesis nz_pos : two = false -> 1 <= nz m.
Hypothesis nbvar_pos : 0 <= nbvar m.

Definition bnd_kernel (f : face) : list (prog T) :=
  if two then make_boundary2d m a f else make_boundary3d m a f.

(** z faces exist in 3D only *)
Definition face_ok (f : face) : Prop :=
  match f with ZMIN | ZMAX => two = false | _ => True end.

Definition fkind (f : face) : kind := kind_of (bc m f).
Definition nf (f : face) : Z := ncells m (face_axis f).

Lemma item2_eq f x : boundary2d_item m a f x =
  copy_body a (fdec2 m f) (fimg m f) (Z.to_nat (nbvar m)) (bc_sign (p_mhd m) f (bc m f)) x.
Proof.
  unfold copy_body. destruct f; cbn [boundary2d_item fdec2]; cbv zeta;
  try reflexivity;
  match goal with |- context [if ?b then _ else _] => destruct b end; reflexivity.
Qed.

Lemma item3_eq f x : boundary3d_item m a f x =
  copy_body a (fdec3 m f) (fimg m f) (Z.to_nat (nbvar m)) (bc_sign (p_mhd m) f (bc m f)) x.
Proof.
  unfold copy_body. destruct f; cbn [boundary3d_item fdec3]; cbv zeta;
  match goal with |- context [if ?b then _ else _] => destruct b end; reflexivity.
Qed.

Lemma kernel_eq f : bnd_kernel f =
  map (copy_body a (fdec two m f) (fimg m f) (Z.to_nat (nbvar m)) (bc_sign (p_mhd m) f (bc m f)))
      (range (nbIter two m)).
Proof.
  unfold bnd_kernel, fdec. destruct two.
  - apply map_ext. intros. apply item2_eq.
  - apply map_ext. intros. apply item3_eq.
Qed.

Lemma fdec_D f c : face_ok f ->
  slab two m f c <-> exists x, In x (range (nbIter two m)) /\ fdec two m f x = Some c.
Proof.
  intros Hf. unfold fdec. split.
  - destruct two eqn:E; intros Hs.
    + apply fdec2_complete; try lia; auto; intros ->; simpl in Hf; rewrite E in Hf; discriminate.
    + apply fdec3_complete; auto; lia.
  - intros (x & Hx & Hd). apply in_range in Hx. destruct two eqn:E.
    + apply fdec2_spec in Hd; try tauto; lia.
    + specialize (nz_pos eq_refl). apply fdec3_spec in Hd; try tauto; lia.
Qed.

Lemma fdec_inj' f x y c : In x (range (nbIter two m)) -> In y (range (nbIter two m)) ->
  fdec two m f x = Some c -> fdec two m f y = Some c -> x = y.
Proof.
  rewrite !in_range. intros Hx Hy. destruct two eqn:E.
  - intros E1 E2. apply fdec2_spec in E1; [|lia..]. apply fdec2_spec in E2; [|lia..].
    destruct E1 as [_ ->], E2 as [_ ->]. reflexivity.
  - specialize (nz_pos eq_refl). apply (fdec_inj false); lia.
Qed.

(** image cells *)
Lemma fimg_phys f c : face_ok f -> enough (fkind f) (nf f) (gw m) -> slab two m f c ->
  physical (nf f) (gw m) (coord (face_axis f) (fimg m f c)) /\
  in_array two m (fimg m f c).
Proof.
  intros Hf [Hn He] [Ha Hs]. unfold fimg, fkind, kind_of, nf in *.
  unfold src_lo, src_hi, BC_DIRICHLET, BC_NEUMANN.
  destruct c as [[i j] k].
  destruct f; simpl in *; umesh;
  repeat match goal with |- context [if ?b =? ?n then _ else _] => destruct (b =? n) end;
  destruct two; simpl in *; try discriminate; (destruct He as [He|He]; [try discriminate|]); lia.
Qed.

Lemma fimg_no_overlap f c : face_ok f -> enough (fkind f) (nf f) (gw m) ->
  slab two m f c -> ~ slab two m f (fimg m f c).
Proof.
  intros Hf He Hs [_ Hc]. destruct (fimg_phys f c Hf He Hs) as [Hp _].
  unfold nf in *. destruct (is_lo f); umesh; lia.
Qed.

Lemma face_exec f s s' :
  face_ok f -> enough (fkind f) (nf f) (gw m) ->
  exec inb s (bnd_kernel f) s' ->
  (forall c v, slab two m f c -> 0 <= v < nbvar m ->
     s' (at_ a c v) = nmul (s (at_ a (fimg m f c) v)) (bc_sign (p_mhd m) f (bc m f) v)) /\
  (forall l, ~ (la l = a /\ slab two m f (cell_of l) /\ 0 <= lv l < nbvar m) -> s' l = s l).
Proof.
  intros Hf He Hex. rewrite kernel_eq in Hex.
  apply (copy_kernel_exec a (range (nbIter two m)) (fdec two m f) (fimg m f)
    (Z.to_nat (nbvar m)) _ (slab two m f) inb (nodup_range _)) in Hex.
  - rewrite Z2Nat.id in Hex by lia. exact Hex.
  - intros c. apply fdec_D; auto.
  - intros x y c. apply fdec_inj'.
  - intros c. apply fimg_no_overlap; auto.
Qed.

Lemma face_in_foot f :
  face_ok f -> enough (fkind f) (nf f) (gw m) ->
  (forall c v, in_array two m c -> 0 <= v < nbvar m -> inb (at_ a c v) = true) ->
  Forall (in_foot inb) (bnd_kernel f).
Proof.
  intros Hf He Hb. rewrite kernel_eq.
  apply (copy_kernel_foot a _ _ _ _ _ (slab two m f) inb).
  - intros c. apply fdec_D; auto.
  - intros c v Hc Hv. split; apply Hb; try lia.
    + apply Hc.
    + apply fimg_phys; auto.
Qed.

Context `{HO : !NumOne T}.

(** The value of a variable crossing an axis. *)
Definition axis_val (ax : axis) (s : store T) (c : cell) (v : Z) : T :=
  let lo := fkind (lo_face ax) in
  let hi := fkind (hi_face ax) in
  let n := ncells m ax in
  flip_if (mirrored lo hi n (gw m) (coord ax c) && normal_var (p_mhd m) (lo_face ax) v)
    (s (at_ a (setc ax c (image lo hi n (gw m) (coord ax c))) v)).

Definition axis_ok (ax : axis) : Prop :=
  face_ok (lo_face ax) /\
  enough (fkind (lo_face ax)) (ncells m ax) (gw m) /\
  enough (fkind (hi_face ax)) (ncells m ax) (gw m).

Lemma sign_mul (f : face) x v :
  nmul x (bc_sign (p_mhd m) f (bc m f) v) =
  flip_if (match fkind f with Reflecting => true | _ => false end && normal_var (p_mhd m) f v) x.
Proof.
  unfold bc_sign, fkind, kind_of, flip_if, negate, BC_DIRICHLET.
  destruct (bc m f =? 1); simpl.
  - destruct (normal_var _ _ _); [reflexivity|apply nmul_1_r].
  - destruct (bc m f =? 2); simpl; apply nmul_1_r.
Qed.

Lemma setc_coord ax c : setc ax c (coord ax c) = c.
Proof. destruct c as [[i j] k], ax; reflexivity. Qed.

Lemma in_array_coord ax c : axis_ok ax -> in_array two m c ->
  0 <= coord ax c < ncells m ax + 2 * gw m.
Proof.
  destruct c as [[i j] k]. intros (Hf & _) Hc.
  destruct ax; simpl in *; umesh; lia.
Qed.

Lemma axis_pass ax s s' :
  axis_ok ax ->
  execs inb s [bnd_kernel (lo_face ax); bnd_kernel (hi_face ax)] s' ->
  (forall c v, in_array two m c -> 0 <= v < nbvar m -> s' (at_ a c v) = axis_val ax s c v) /\
  (forall l, ~ (la l = a /\ in_array two m (cell_of l) /\ 0 <= lv l < nbvar m) -> s' l = s l).
Proof.
  intros Hok Hex. pose proof Hok as (Hf & Hlo & Hhi).
  assert (Hf' : face_ok (hi_face ax)) by (destruct ax; auto).
  inversion Hex as [|? ? s1 ? ? H1 H2]; subst. inversion H2 as [|? ? s2 ? ? H3 H4]; subst.
  inversion H4; subst. clear Hex H2 H4.
  assert (Enf1 : nf (lo_face ax) = ncells m ax) by (destruct ax; auto).
  assert (Enf2 : nf (hi_face ax) = ncells m ax) by (destruct ax; auto).
  assert (Eax1 : face_axis (lo_face ax) = ax) by (destruct ax; auto).
  assert (Eax2 : face_axis (hi_face ax) = ax) by (destruct ax; auto).
  assert (El1 : is_lo (lo_face ax) = true) by (destruct ax; auto).
  assert (El2 : is_lo (hi_face ax) = false) by (destruct ax; auto).
  assert (Env : forall v, normal_var (p_mhd m) (hi_face ax) v = normal_var (p_mhd m) (lo_face ax) v)
    by (destruct ax; auto).
  rewrite <- Enf1 in Hlo. rewrite <- Enf2 in Hhi.
  apply face_exec in H1; auto. apply face_exec in H3; auto.
  destruct H1 as [A1 B1], H3 as [A2 B2].
  split.
  - intros c v Hc Hv.
    pose proof (in_array_coord ax c Hok Hc) as Hr.
    assert (Hlv : forall b c' v', la (at_ b c' v') = b /\ cell_of (at_ b c' v') = c' /\ lv (at_ b c' v') = v')
      by (intros b [[i j] k] v'; auto).
    unfold axis_val, image, mirrored.
    destruct (coord ax c <? gw m) eqn:L1.
    + (* low ghost *)
      assert (Hs1 : slab two m (lo_face ax) c).
      { split; auto. rewrite Eax1, El1. umesh. lia. }
      rewrite B2.
      * rewrite A1 by auto. rewrite sign_mul. f_equal.
        unfold fimg. rewrite Eax1, El1. unfold src_lo, fkind, kind_of, BC_DIRICHLET, BC_NEUMANN.
        destruct (bc m (lo_face ax) =? 1); auto.
        destruct (bc m (lo_face ax) =? 2); auto.
        rewrite Z.add_comm. reflexivity.
      * destruct (Hlv a c v) as (_ & -> & _). intros (_ & [_ Hx] & _).
        rewrite Eax2, El2 in Hx. umesh. destruct Hlo as [? _]. rewrite Enf1 in *. lia.
    + destruct (ncells m ax + gw m <=? coord ax c) eqn:L2.
      * (* high ghost *)
        assert (Hs2 : slab two m (hi_face ax) c).
        { split; auto. rewrite Eax2, El2. umesh. lia. }
        rewrite A2 by auto. rewrite sign_mul, Env. f_equal.
        destruct (fimg_phys (hi_face ax) c Hf' Hhi Hs2) as [Hp1 Hp2].
        rewrite B1.
        -- unfold fimg. rewrite Eax2, El2. unfold src_hi, fkind, kind_of, BC_DIRICHLET, BC_NEUMANN.
           destruct (bc m (hi_face ax) =? 1).
           ++ do 3 f_equal. ring.
           ++ destruct (bc m (hi_face ax) =? 2); auto.
        -- destruct (Hlv a (fimg m (hi_face ax) c) v) as (_ & -> & _). intros (_ & [_ Hx] & _).
           rewrite Eax1, El1 in Hx. rewrite Eax2, Enf2 in Hp1. umesh. lia.
      * simpl. rewrite setc_coord. rewrite B2, B1; auto.
        -- destruct (Hlv a c v) as (_ & -> & _). intros (_ & [_ Hx] & _).
           rewrite Eax1, El1 in Hx. umesh. lia.
        -- destruct (Hlv a c v) as (_ & -> & _). intros (_ & [_ Hx] & _).
           rewrite Eax2, El2 in Hx. umesh. lia.
  - intros l Hl. rewrite B2, B1; auto; intros (E1 & [E2 _] & E3); apply Hl; auto.
Qed.

(** ** All passes *)

Definition lo_kind ax := fkind (lo_face ax).
Definition hi_kind ax := fkind (hi_face ax).
Definition img ax x := image (lo_kind ax) (hi_kind ax) (ncells m ax) (gw m) x.
Definition mir ax x := mirrored (lo_kind ax) (hi_kind ax) (ncells m ax) (gw m) x.


End Fill.

Section Main.
Context {T : Type} `{HN : Num T} `{HO : !NumOne T}.
Variable m : mesh.
Variable a : arr.
Variable inb : extents.
Hypothesis gw_pos : 0 < gw m.
Hypothesis nbvar_pos : 0 <= nbvar m.
Notation en f n := (enough (kind_of (bc m f)) n (gw m)).
Hypothesis en_x0 : en XMIN (nx m).
Hypothesis en_x1 : en XMAX (nx m).
Hypothesis en_y0 : en YMIN (ny m).
Hypothesis en_y1 : en YMAX (ny m).

Lemma fill2d (s s' : store T) :
  execs inb s (make_boundaries2d m a) s' ->
  (forall i j v, 0 <= i < isize m -> 0 <= j < jsize m -> 0 <= v < nbvar m ->
     s' (mkloc a i j 0 v) =
     flip_if (mir m AY j && normal_var (p_mhd m) YMIN v)
       (flip_if (mir m AX i && normal_var (p_mhd m) XMIN v)
          (s (mkloc a (img m AX i) (img m AY j) 0 v)))) /\
  (forall l, ~ (la l = a /\ 0 <= li l < isize m /\ 0 <= lj l < jsize m /\ lk l = 0
                /\ 0 <= lv l < nbvar m) -> s' l = s l).
Proof.
  assert (P1 : 1 <= nx m) by (destruct en_x0; auto).
  assert (P2 : 1 <= ny m) by (destruct en_y0; auto).
  assert (P3 : true = false -> 1 <= nz m) by discriminate.
  intros Hex. change (make_boundaries2d m a) with
    ([bnd_kernel true m a (lo_face AX); bnd_kernel true m a (hi_face AX)] ++
     [bnd_kernel (T:=T) true m a (lo_face AY); bnd_kernel true m a (hi_face AY)]) in Hex.
  apply execs_app in Hex. destruct Hex as (s1 & H1 & H2).
  apply axis_pass in H1; auto; [|repeat split; simpl; auto; apply en_x0 || apply en_x1].
  apply axis_pass in H2; auto; [|repeat split; simpl; auto; apply en_y0 || apply en_y1].
  destruct H1 as [A1 B1], H2 as [A2 B2]. split.
  - intros i j v Hi Hj Hv.
    assert (Hy : physical (ny m) (gw m) (img m AY j)).
    { apply image_range; auto. }
    change (mkloc a i j 0 v) with (at_ a (i, j, 0) v). rewrite A2; auto.
    + unfold axis_val. cbn [coord setc]. fold (mir m AY j). f_equal.
      change (image (fkind m (lo_face AY)) (fkind m (hi_face AY)) (ncells m AY) (gw m) j)
        with (img m AY j).
      rewrite A1; auto. unfold in_array. repeat split; auto; umesh; lia.
    + unfold in_array. auto.
  - intros l Hl. rewrite B2, B1; auto; intros (E1 & E2 & E3); apply Hl;
    destruct l; simpl in *; repeat split; tauto || lia.
Qed.

Lemma fill2d_in_foot :
  (forall i j v, 0 <= i < isize m -> 0 <= j < jsize m -> 0 <= v < nbvar m ->
      inb (mkloc a i j 0 v) = true) ->
  Forall (Forall (in_foot inb)) (make_boundaries2d (T:=T) m a).
Proof.
  assert (P1 : 1 <= nx m) by (destruct en_x0; auto).
  assert (P2 : 1 <= ny m) by (destruct en_y0; auto).
  assert (P3 : true = false -> 1 <= nz m) by discriminate.
  intros Hb.
  assert (Hb' : forall c v, in_array true m c -> 0 <= v < nbvar m -> inb (at_ a c v) = true).
  { intros [[i j] k] v (H1 & H2 & ->) Hv. apply Hb; auto. }
  repeat constructor; apply (face_in_foot true m a inb); simpl; auto.
Qed.

Hypothesis en_z0 : en ZMIN (nz m).
Hypothesis en_z1 : en ZMAX (nz m).

Lemma fill3d (s s' : store T) :
  execs inb s (make_boundaries3d m a) s' ->
  (forall i j k v, 0 <= i < isize m -> 0 <= j < jsize m -> 0 <= k < ksize m -> 0 <= v < nbvar m ->
     s' (mkloc a i j k v) =
     flip_if (mir m AZ k && normal_var (p_mhd m) ZMIN v)
      (flip_if (mir m AY j && normal_var (p_mhd m) YMIN v)
       (flip_if (mir m AX i && normal_var (p_mhd m) XMIN v)
          (s (mkloc a (img m AX i) (img m AY j) (img m AZ k) v))))) /\
  (forall l, ~ (la l = a /\ 0 <= li l < isize m /\ 0 <= lj l < jsize m /\ 0 <= lk l < ksize m
                /\ 0 <= lv l < nbvar m) -> s' l = s l).
Proof.
  assert (P1 : 1 <= nx m) by (destruct en_x0; auto).
  assert (P2 : 1 <= ny m) by (destruct en_y0; auto).
  assert (P3 : false = false -> 1 <= nz m) by (destruct en_z0; auto).
  intros Hex. change (make_boundaries3d m a) with
    ([bnd_kernel false m a (lo_face AX); bnd_kernel false m a (hi_face AX)] ++
     ([bnd_kernel (T:=T) false m a (lo_face AY); bnd_kernel false m a (hi_face AY)] ++
      [bnd_kernel (T:=T) false m a (lo_face AZ); bnd_kernel false m a (hi_face AZ)])) in Hex.
  apply execs_app in Hex. destruct Hex as (s1 & H1 & Hex).
  apply execs_app in Hex. destruct Hex as (s2 & H2 & H3).
  apply axis_pass in H1; auto; [|repeat split; simpl; auto; apply en_x0 || apply en_x1].
  apply axis_pass in H2; auto; [|repeat split; simpl; auto; apply en_y0 || apply en_y1].
  apply axis_pass in H3; auto; [|repeat split; simpl; auto; apply en_z0 || apply en_z1].
  destruct H1 as [A1 B1], H2 as [A2 B2], H3 as [A3 B3]. split.
  - intros i j k v Hi Hj Hk Hv.
    assert (Hy : physical (ny m) (gw m) (img m AY j)) by (apply image_range; auto).
    assert (Hz : physical (nz m) (gw m) (img m AZ k)) by (apply image_range; auto).
    change (mkloc a i j k v) with (at_ a (i, j, k) v).
    rewrite A3; auto; [|unfold in_array; auto].
    unfold axis_val. cbn [coord setc]. fold (mir m AZ k). f_equal.
    change (image (fkind m (lo_face AZ)) (fkind m (hi_face AZ)) (ncells m AZ) (gw m) k)
        with (img m AZ k).
    rewrite A2; auto; [|unfold in_array; repeat split; auto; umesh; lia].
    unfold axis_val. cbn [coord setc]. fold (mir m AY j). f_equal.
    change (image (fkind m (lo_face AY)) (fkind m (hi_face AY)) (ncells m AY) (gw m) j)
        with (img m AY j).
    rewrite A1; auto. unfold in_array; repeat split; auto; umesh; lia.
  - intros l Hl. rewrite B3, B2, B1; auto; intros (E1 & E2 & E3); apply Hl;
    destruct l; simpl in *; repeat split; tauto || lia.
Qed.

Lemma fill3d_in_foot :
  (forall i j k v, 0 <= i < isize m -> 0 <= j < jsize m -> 0 <= k < ksize m ->
      0 <= v < nbvar m -> inb (mkloc a i j k v) = true) ->
  Forall (Forall (in_foot inb)) (make_boundaries3d (T:=T) m a).
Proof.
  assert (P1 : 1 <= nx m) by (destruct en_x0; auto).
  assert (P2 : 1 <= ny m) by (destruct en_y0; auto).
  assert (P3 : false = false -> 1 <= nz m) by (destruct en_z0; auto).
  intros Hb.
  assert (Hb' : forall c v, in_array false m c -> 0 <= v < nbvar m -> inb (at_ a c v) = true).
  { intros [[i j] k] v (H1 & H2 & H3) Hv. apply Hb; auto. }
  repeat constructor; apply (face_in_foot false m a inb); simpl; auto.
Qed.

End Main.
