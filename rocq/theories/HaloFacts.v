(** * The halo exchange fills the ghosts of every process from the global mesh *)
From Coq Require Import ZArith List Bool Lia ZifyBool.
Import ListNotations.
From Verif Require Import Num Exec ExecFacts Grid GridFacts Boundaries BoundariesSpec BoundariesFacts
  BoundariesFill HydroNum Kernels KernelFacts MpiRun MpiFacts Halo.
Local Open Scope Z_scope.

(** ** Topology *)
Definition mdim (g : pgrid) (ax : axis) : Z := match ax with AX => mx g | AY => my g | AZ => mz g end.
Definition pgrid_ok (g : pgrid) : Prop := 1 <= mx g /\ 1 <= my g /\ 1 <= mz g.

Definition inside (g : pgrid) (c : cell) : Prop := forall ax, 0 <= coord ax c < mdim g ax.

Definition step_of (f : face) : Z := if is_lo f then -1 else 1.
Definition wrap (g : pgrid) (c : cell) : cell :=
  let '(x, y, z) := c in (x mod mx g, y mod my g, z mod mz g).

Section Topo.
Variable g : pgrid.
Hypothesis gok : pgrid_ok g.

Lemma coords_inside r : 0 <= r < nprocs g -> inside g (cart_coords g r).
Proof.
  destruct gok as (Hx & Hy & Hz). unfold nprocs. intros Hr ax. unfold cart_coords.
  destruct ax; simpl.
  - split; [apply Z.div_pos; nia|apply Z.div_lt_upper_bound; nia].
  - apply Z.mod_pos_bound; lia.
  - apply Z.mod_pos_bound; lia.
Qed.

Lemma rank_range c : 0 <= cart_rank g c < nprocs g.
Proof.
  destruct gok as (Hx & Hy & Hz). destruct c as [[x y] z]. unfold cart_rank, nprocs.
  pose proof (Z.mod_pos_bound x (mx g) ltac:(lia)).
  pose proof (Z.mod_pos_bound y (my g) ltac:(lia)).
  pose proof (Z.mod_pos_bound z (mz g) ltac:(lia)).
  assert (0 <= (x mod mx g) * my g + y mod my g < mx g * my g) by nia.
  set (A := (x mod mx g) * my g + y mod my g) in *. nia.
Qed.

Lemma coords_rank c : cart_coords g (cart_rank g c) = wrap g c.
Proof.
  destruct gok as (Hx & Hy & Hz). destruct c as [[x y] z]. unfold cart_coords, cart_rank, wrap.
  pose proof (Z.mod_pos_bound x (mx g) ltac:(lia)) as Bx.
  pose proof (Z.mod_pos_bound y (my g) ltac:(lia)) as By.
  pose proof (Z.mod_pos_bound z (mz g) ltac:(lia)) as Bz.
  set (x' := x mod mx g) in *. set (y' := y mod my g) in *. set (z' := z mod mz g) in *.
  assert (E1 : ((x' * my g + y') * mz g + z') / mz g = x' * my g + y').
  { replace ((x' * my g + y') * mz g + z') with (z' + (x' * my g + y') * mz g) by ring.
    apply div_decode; lia. }
  assert (E2 : ((x' * my g + y') * mz g + z') / (my g * mz g) = x').
  { replace ((x' * my g + y') * mz g + z') with ((y' * mz g + z') + x' * (my g * mz g)) by ring.
    apply div_decode; nia. }
  rewrite E1, E2. f_equal; [f_equal|].
  - replace (x' * my g + y') with (y' + x' * my g) by ring.
    rewrite Z.mod_add by lia. apply Z.mod_small; lia.
  - replace ((x' * my g + y') * mz g + z') with (z' + (x' * my g + y') * mz g) by ring.
    rewrite Z.mod_add by lia. apply Z.mod_small; lia.
Qed.

Lemma rank_coords r : 0 <= r < nprocs g -> cart_rank g (cart_coords g r) = r.
Proof.
  destruct gok as (Hx & Hy & Hz). intros Hr. pose proof (coords_inside r Hr) as Hi.
  unfold cart_rank. unfold cart_coords in *.
  pose proof (Hi AX) as Bx. pose proof (Hi AY) as By. pose proof (Hi AZ) as Bz. simpl in *.
  rewrite (Z.mod_small (r / (my g * mz g))) by lia.
  rewrite (Z.mod_small ((r / mz g) mod my g)) by lia.
  rewrite (Z.mod_small (r mod mz g)) by lia.
  rewrite (Z.mul_comm (my g)), <- Z.div_div by lia.
  pose proof (Z.div_mod r (mz g) ltac:(lia)). pose proof (Z.div_mod (r / mz g) (my g) ltac:(lia)). nia.
Qed.

Lemma neighbor_eq r f : neighbor_rank g r f =
  cart_rank g (setc (face_axis f) (cart_coords g r)
    (coord (face_axis f) (cart_coords g r) + step_of f)).
Proof.
  unfold neighbor_rank. destruct (cart_coords g r) as [[x y] z]. destruct f; simpl; unfold step_of;
  simpl; reflexivity.
Qed.

Lemma coord_setc ax ax' c x : coord ax' (setc ax c x) =
  match ax, ax' with AX, AX | AY, AY | AZ, AZ => x | _, _ => coord ax' c end.
Proof. destruct c as [[i j] k], ax, ax'; reflexivity. Qed.

Lemma coord_setc_same ax c x : coord ax (setc ax c x) = x.
Proof. destruct c as [[i j] k], ax; reflexivity. Qed.

Lemma coord_setc_other ax ax' c x : ax <> ax' -> coord ax' (setc ax c x) = coord ax' c.
Proof. destruct c as [[i j] k], ax, ax'; try reflexivity; congruence. Qed.

Lemma neighbor_pos r f ax : 0 <= r < nprocs g ->
  coord ax (cart_coords g (neighbor_rank g r f)) =
  if match ax, face_axis f with AX, AX | AY, AY | AZ, AZ => true | _, _ => false end
  then (coord ax (cart_coords g r) + step_of f) mod mdim g ax
  else coord ax (cart_coords g r).
Proof.
  intros Hr. rewrite neighbor_eq, coords_rank. pose proof (coords_inside r Hr) as Hi.
  destruct (cart_coords g r) as [[x y] z].
  pose proof (Hi AX) as Bx. pose proof (Hi AY) as By. pose proof (Hi AZ) as Bz. simpl in *.
  destruct f, ax; simpl; unfold step_of; simpl; try reflexivity; apply Z.mod_small; lia.
Qed.

Lemma neighbor_range r f : 0 <= neighbor_rank g r f < nprocs g.
Proof. rewrite neighbor_eq. apply rank_range. Qed.

Definition opposite (f : face) : face :=
  match f with XMIN => XMAX | XMAX => XMIN | YMIN => YMAX | YMAX => YMIN | ZMIN => ZMAX | ZMAX => ZMIN end.

Lemma mod_back x d n : 0 < n -> 0 <= x < n -> ((x + d) mod n - d) mod n = x.
Proof.
  intros Hn Hx. rewrite Zminus_mod_idemp_l. replace (x + d - d) with x by lia. apply Z.mod_small; lia.
Qed.

(** The neighbour on one side has this process as its neighbour on the other side. *)
Lemma neighbor_sym r f : 0 <= r < nprocs g ->
  neighbor_rank g (neighbor_rank g r f) (opposite f) = r.
Proof.
  intros Hr. destruct gok as (Hx & Hy & Hz).
  set (q := neighbor_rank g r f).
  assert (Hq : 0 <= q < nprocs g) by apply neighbor_range.
  rewrite <- (rank_coords r Hr). rewrite <- (rank_coords (neighbor_rank g q (opposite f)) (neighbor_range _ _)).
  f_equal.
  assert (E : forall c c', (forall ax, coord ax c = coord ax c') -> c = c').
  { intros [[i j] k] [[i' j'] k'] Hc. pose proof (Hc AX). pose proof (Hc AY). pose proof (Hc AZ).
    simpl in *. congruence. }
  apply E. intros ax. rewrite neighbor_pos by auto. pose proof (coords_inside r Hr ax) as Hi.
  unfold q. rewrite neighbor_pos by auto.
  destruct f, ax; simpl; try reflexivity; unfold step_of; simpl;
  match goal with |- ((?x + ?d) mod ?n + ?e) mod ?n = _ =>
    replace e with (- d) by lia; rewrite Z.add_opp_r; apply mod_back; simpl in Hi; lia end.
Qed.

End Topo.

(** ** Copies between two arrays *)
Section Copy2.
Context {T : Type} `{Num T}.
Variables A B : arr.
Hypothesis AB : A <> B.
Variable idx : list Z.
Variable dec : Z -> cell.
Variable Box : cell -> Prop.
Variables dst src : cell -> cell.
Variable nb : nat.
Variable inb : extents.
Hypothesis idx_nodup : NoDup idx.
Hypothesis dec_Box : forall c, Box c <-> exists x, In x idx /\ dec x = c.
Hypothesis dec_inj : forall x y, In x idx -> In y idx -> dec x = dec y -> x = y.
Hypothesis dst_inj : forall c c', Box c -> Box c' -> dst c = dst c' -> c = c'.

Definition body2 (x : Z) : prog T := copy_n nb 0 (at_ A (dst (dec x))) (at_ B (src (dec x))).

Definition c2_R (x : Z) (l : loc) : Prop :=
  exists v, 0 <= v < Z.of_nat nb /\ l = at_ B (src (dec x)) v.
Definition c2_W (x : Z) (l : loc) : Prop :=
  exists v, 0 <= v < Z.of_nat nb /\ l = at_ A (dst (dec x)) v.

Lemma body2_foot x : foot (c2_R x) (c2_W x) nowhere (body2 x).
Proof.
  apply foot_copy_n. intros v Hv. split; exists v; split; auto; lia.
Qed.

Lemma copy2_exec s s' :
  exec inb s (map body2 idx) s' ->
  (forall c v, Box c -> 0 <= v < Z.of_nat nb -> s' (at_ A (dst c) v) = s (at_ B (src c) v)) /\
  (forall l, ~ (la l = A /\ (exists c, Box c /\ cell_of l = dst c) /\ 0 <= lv l < Z.of_nat nb) ->
     s' l = s l).
Proof.
  intros Hex.
  apply (parallel_for_spec body2 idx c2_R c2_W inb idx_nodup (fun x _ => body2_foot x)) in Hex.
  2:{ intros x y l Hx Hy Hne (v & Hv & ->). split.
      - intros (v' & Hv' & E). apply at_inj in E. destruct E as (_ & E & _).
        apply Hne. apply dec_inj; auto. apply dst_inj; auto; apply dec_Box; eauto.
      - intros (v' & Hv' & E). apply at_inj in E. destruct E as (E & _). congruence. }
  destruct Hex as [H1 H2]. split.
  - intros c v Hc Hv. apply dec_Box in Hc as Hc'. destruct Hc' as (x & Hx & <-).
    rewrite (H1 x _ Hx); [|exists v; auto]. apply run_copy_n; try lia.
    + intros u w E. apply at_inj in E. tauto.
    + intros u w E. apply at_inj in E. tauto.
  - intros l Hl. apply H2. intros x Hx (v & Hv & ->). apply Hl.
    destruct (dst (dec x)) as [[i j] k] eqn:E. simpl. unfold cell_of. simpl. repeat split; try lia.
    exists (dec x). split; [apply dec_Box; eauto|auto].
Qed.

Lemma copy2_foot :
  (forall c v, Box c -> 0 <= v < Z.of_nat nb ->
     inb (at_ A (dst c) v) = true /\ inb (at_ B (src c) v) = true) ->
  Forall (in_foot inb) (map body2 idx).
Proof.
  intros Hb. apply Forall_forall. intros p Hp. apply in_map_iff in Hp.
  destruct Hp as (x & <- & Hx). unfold in_foot.
  eapply foot_mono; [| | |apply body2_foot].
  - intros l (v & Hv & ->). apply Hb; auto. apply dec_Box. eauto.
  - intros l (v & Hv & ->). apply Hb; auto. apply dec_Box. eauto.
  - intros l [].
Qed.
End Copy2.

(** ** Pack and unpack *)
Section Pack.
Context {T : Type} `{HN : Num T}.
Variable two : bool.
Variable lay : layout.
Variable m : mesh.
Variable a : arr.
Variable inb : extents.
Hypothesis gw_pos : 0 < gw m.
Hypothesis nx_pos : 1 <= nx m.
Hypothesis ny_pos : 1 <= ny m.
Hypothesis nz_pos : two = false -> 1 <= nz m.
Hypothesis nbvar_pos : 0 <= nbvar m.
Hypothesis not_send : forall f, a <> A_BufSend f.
Hypothesis not_recv : forall f, a <> A_BufRecv f.

Definition pack (f : face) : list (prog T) := if two then pack2d lay m a f else pack3d lay m a f.
Definition unpack (f : face) : list (prog T) := if two then unpack2d lay m a f else unpack3d lay m a f.
Definition border_iter (f : face) : Z := if two then border_iter2 m f else border_iter3 m f.

Definition bdec (f : face) (x : Z) : cell :=
  let '(e1, e2, e3) := buf_ext m f in
  if two then let (i, j) := index2coord2 lay x e1 e2 in (i, j, 0)
  else index2coord3 lay x e1 e2 e3.

(** Cells of the border buffer of a face. *)
Definition bbox (f : face) (c : cell) : Prop :=
  let '(e1, e2, e3) := buf_ext m f in
  let '(i, j, k) := c in
  0 <= i < e1 /\ 0 <= j < e2 /\ (if two then k = 0 else 0 <= k < e3).

Definition ok_face (f : face) : Prop := match f with ZMIN | ZMAX => two = false | _ => True end.

Definition move (f : face) (off : Z) (c : cell) : cell :=
  setc (face_axis f) c (off + coord (face_axis f) c).

Definition send_off (f : face) : Z := if is_lo f then gw m else ncells m (face_axis f).
Definition recv_off (f : face) : Z := if is_lo f then 0 else ncells m (face_axis f) + gw m.

Lemma pack_eq f : ok_face f -> pack f =
  map (body2 (T := T) (A_BufSend f) a (bdec f) (fun c => c) (move f (send_off f)) (Z.to_nat (nbvar m)))
      (range (border_iter f)).
Proof.
  intros Hf. unfold pack, border_iter. destruct two eqn:Et.
  - unfold pack2d. apply map_ext. intros x. unfold pack2d_item, body2, bdec, buf_ext. rewrite Et.
    destruct f; simpl in Hf; try congruence; simpl;
    (destruct (index2coord2 lay x _ _) as [i j]); unfold move, send_off; simpl; try reflexivity;
    unfold isize, jsize.
    + replace (nx m + 2 * gw m - 2 * gw m) with (nx m) by lia. reflexivity.
    + replace (ny m + 2 * gw m - 2 * gw m) with (ny m) by lia. reflexivity.
  - unfold pack3d. apply map_ext. intros x. unfold pack3d_item, body2, bdec, buf_ext. rewrite Et.
    destruct f; simpl;
    (destruct (index2coord3 lay x _ _ _) as [[i j] k]); unfold move, send_off; simpl; try reflexivity;
    unfold isize, jsize, ksize.
    + replace (nx m + 2 * gw m - 2 * gw m) with (nx m) by lia. reflexivity.
    + replace (ny m + 2 * gw m - 2 * gw m) with (ny m) by lia. reflexivity.
    + replace (nz m + 2 * gw m - 2 * gw m) with (nz m) by lia. reflexivity.
Qed.

Lemma unpack_eq f : ok_face f -> unpack f =
  map (body2 (T := T) a (A_BufRecv f) (bdec f) (move f (recv_off f)) (fun c => c) (Z.to_nat (nbvar m)))
      (range (border_iter f)).
Proof.
  intros Hf. unfold unpack, border_iter. destruct two eqn:Et.
  - unfold unpack2d. apply map_ext. intros x. unfold unpack2d_item, body2, bdec, buf_ext. rewrite Et.
    destruct f; simpl in Hf; try congruence; simpl;
    (destruct (index2coord2 lay x _ _) as [i j]); unfold move, recv_off; simpl; try reflexivity;
    unfold isize, jsize.
    + replace (nx m + 2 * gw m - gw m) with (nx m + gw m) by lia. reflexivity.
    + replace (ny m + 2 * gw m - gw m) with (ny m + gw m) by lia. reflexivity.
  - unfold unpack3d. apply map_ext. intros x. unfold unpack3d_item, body2, bdec, buf_ext. rewrite Et.
    destruct f; simpl;
    (destruct (index2coord3 lay x _ _ _) as [[i j] k]); unfold move, recv_off; simpl; try reflexivity;
    unfold isize, jsize, ksize.
    + replace (nx m + 2 * gw m - gw m) with (nx m + gw m) by lia. reflexivity.
    + replace (ny m + 2 * gw m - gw m) with (ny m + gw m) by lia. reflexivity.
    + replace (nz m + 2 * gw m - gw m) with (nz m + gw m) by lia. reflexivity.
Qed.

Lemma ext_pos f e1 e2 e3 : buf_ext m f = (e1, e2, e3) -> ok_face f ->
  0 < e1 /\ 0 < e2 /\ (two = false -> 0 < e3) /\
  border_iter f = if two then e1 * e2 else e1 * e2 * e3.
Proof.
  intros E Hf. unfold border_iter, border_iter2, border_iter3.
  destruct f; simpl in *; injection E as <- <- <-; unfold isize, jsize, ksize;
  destruct two; try congruence; try (specialize (nz_pos eq_refl));
  (split; [lia|split; [lia|split; [intros; try discriminate; lia|reflexivity]]]).
Qed.

Lemma bdec_box f c : ok_face f ->
  bbox f c <-> exists x, In x (range (border_iter f)) /\ bdec f x = c.
Proof.
  intros Hf. unfold bbox, bdec. destruct (buf_ext m f) as [[e1 e2] e3] eqn:E.
  destruct (ext_pos f _ _ _ E Hf) as (H1 & H2 & H3 & Hn). rewrite Hn. destruct c as [[i j] k].
  destruct two eqn:Et.
  - split.
    + intros (Bi & Bj & ->). exists (coord2index2 lay i j e1 e2). split.
      * apply in_range. destruct lay; simpl; nia.
      * rewrite i2c_c2i_2 by lia. reflexivity.
    + intros (x & Hx & Ex). apply in_range in Hx.
      destruct (index2coord2 lay x e1 e2) as [i' j'] eqn:Ei. inversion Ex; subst.
      apply c2i_i2c_2 in Ei; try lia.
  - specialize (H3 eq_refl). split.
    + intros (Bi & Bj & Bk). exists (coord2index3 lay i j k e1 e2 e3). split.
      * apply in_range. destruct lay; simpl.
        -- assert (0 <= k + e3 * j < e2 * e3) by nia. nia.
        -- assert (0 <= i + e1 * j < e1 * e2) by nia. nia.
      * apply i2c_c2i_3; lia.
    + intros (x & Hx & Ex). apply in_range in Hx. apply c2i_i2c_3 in Ex; lia.
Qed.

Lemma bdec_inj f x y : ok_face f -> In x (range (border_iter f)) -> In y (range (border_iter f)) ->
  bdec f x = bdec f y -> x = y.
Proof.
  intros Hf. rewrite !in_range. unfold bdec. destruct (buf_ext m f) as [[e1 e2] e3] eqn:E.
  destruct (ext_pos f _ _ _ E Hf) as (H1 & H2 & H3 & Hn). rewrite Hn. destruct two eqn:Et.
  - intros Hx Hy. destruct (index2coord2 lay x e1 e2) as [i j] eqn:Ex.
    destruct (index2coord2 lay y e1 e2) as [i' j'] eqn:Ey. intros E'. inversion E'; subst.
    apply c2i_i2c_2 in Ex; try lia. apply c2i_i2c_2 in Ey; try lia.
  - specialize (H3 eq_refl). intros Hx Hy. destruct (index2coord3 lay x e1 e2 e3) as [[i j] k] eqn:Ex.
    intros Ey. symmetry in Ey. apply c2i_i2c_3 in Ex; try lia. apply c2i_i2c_3 in Ey; lia.
Qed.

Lemma move_inj f o c c' : move f o c = move f o c' -> c = c'.
Proof.
  unfold move. destruct c as [[i j] k], c' as [[i' j'] k'], f; simpl; intros E; inversion E;
  repeat match goal with H : o + _ = o + _ |- _ => apply Z.add_reg_l in H end; congruence.
Qed.

(** Packing fills the buffer with the border layer and changes nothing else. *)
Lemma pack_exec f s s' : ok_face f -> exec inb s (pack f) s' ->
  (forall c v, bbox f c -> 0 <= v < nbvar m ->
     s' (at_ (A_BufSend f) c v) = s (at_ a (move f (send_off f) c) v)) /\
  (forall l, la l <> A_BufSend f -> s' l = s l).
Proof.
  intros Hf Hex. rewrite pack_eq in Hex by auto.
  apply (copy2_exec (A_BufSend f) a (fun E => not_send f (eq_sym E)) (range (border_iter f)) (bdec f)
    (bbox f) (fun c => c) _ _ inb (nodup_range _)) in Hex.
  - rewrite Z2Nat.id in Hex by lia. destruct Hex as [E1 E2]. split; [exact E1|].
    intros l Hl. apply E2. tauto.
  - intros c. apply bdec_box; auto.
  - intros x y. apply bdec_inj; auto.
  - auto.
Qed.

(** Unpacking fills the ghost layer from the buffer and changes nothing else. *)
Lemma unpack_exec f s s' : ok_face f -> exec inb s (unpack f) s' ->
  (forall c v, bbox f c -> 0 <= v < nbvar m ->
     s' (at_ a (move f (recv_off f) c) v) = s (at_ (A_BufRecv f) c v)) /\
  (forall l, ~ (la l = a /\ slab two m f (cell_of l) /\ 0 <= lv l < nbvar m) -> s' l = s l).
Proof.
  intros Hf Hex. rewrite unpack_eq in Hex by auto.
  apply (copy2_exec a (A_BufRecv f) (not_recv f) (range (border_iter f)) (bdec f)
    (bbox f) _ (fun c => c) _ inb (nodup_range _)) in Hex.
  - rewrite Z2Nat.id in Hex by lia. destruct Hex as [E1 E2]. split; [exact E1|].
    intros l Hl. apply E2. intros (Ha & (c & Hc & Ec) & Hv). apply Hl. split; auto. split; auto.
    rewrite Ec. unfold slab, bbox, buf_ext, move, recv_off in *. destruct c as [[i j] k].
    destruct f; simpl in *; unfold in_array; umesh; try rewrite Hf in *; (destruct two; [|specialize (nz_pos eq_refl)]);
      try congruence; lia.
  - intros c. apply bdec_box; auto.
  - intros x y. apply bdec_inj; auto.
  - intros c c' _ _. apply move_inj.
Qed.

(** Every ghost cell of the slab is the image of exactly one buffer cell. *)
Lemma slab_box f c : ok_face f -> slab two m f c ->
  bbox f (move f (- recv_off f) c) /\ move f (recv_off f) (move f (- recv_off f) c) = c.
Proof.
  intros Hf [Ha Hs]. unfold bbox, buf_ext, move, recv_off, slab in *. destruct c as [[i j] k].
  destruct f; simpl in *; unfold in_array in *; umesh; (split;
  [destruct two; simpl in *; try discriminate; lia|]); repeat f_equal; lia.
Qed.

(** In bounds. *)
Lemma pack_in_foot f : ok_face f ->
  (forall c v, in_array two m c -> 0 <= v < nbvar m -> inb (at_ a c v) = true) ->
  (forall c v, bbox f c -> 0 <= v < nbvar m -> inb (at_ (A_BufSend f) c v) = true) ->
  Forall (in_foot inb) (pack f).
Proof.
  intros Hf Hb1 Hb2. rewrite pack_eq by auto.
  apply (copy2_foot _ _ _ _ (bbox f)); [intros; apply bdec_box; auto|].
  intros c v Hc Hv. rewrite Z2Nat.id in Hv by lia. split; [auto|]. apply Hb1; auto.
  unfold bbox, buf_ext, move, send_off in *. destruct c as [[i j] k].
  destruct f; simpl in *; unfold in_array; umesh; (destruct two; [|specialize (nz_pos eq_refl)]);
  try congruence; lia.
Qed.

Lemma unpack_in_foot f : ok_face f ->
  (forall c v, in_array two m c -> 0 <= v < nbvar m -> inb (at_ a c v) = true) ->
  (forall c v, bbox f c -> 0 <= v < nbvar m -> inb (at_ (A_BufRecv f) c v) = true) ->
  Forall (in_foot inb) (unpack f).
Proof.
  intros Hf Hb1 Hb2. rewrite unpack_eq by auto.
  apply (copy2_foot _ _ _ _ (bbox f)); [intros; apply bdec_box; auto|].
  intros c v Hc Hv. rewrite Z2Nat.id in Hv by lia. split; [|auto]. apply Hb1; auto.
  unfold bbox, buf_ext, move, recv_off in *. destruct c as [[i j] k].
  destruct f; simpl in *; unfold in_array; umesh; (destruct two; [|specialize (nz_pos eq_refl)]);
  try congruence; lia.
Qed.

End Pack.
