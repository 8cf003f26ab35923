(** * Corollaries of ghost filling, and the race on too narrow meshes *)
From Coq Require Import ZArith List Bool Lia ZifyBool Permutation.
Import ListNotations.
From Verif Require Import Num Exec ExecFacts Grid GridFacts Boundaries BoundariesSpec
  BoundariesFacts BoundariesFill.
Local Open Scope Z_scope.

(** Integer arithmetic, for executable examples. *)
Definition Znum : Num Z := {|
  nZ := fun z => z; nadd := Z.add; nsub := Z.sub; nmul := Z.mul; ndiv := Z.div;
  nopp := Z.opp; nsqrt := Z.sqrt; nabs := Z.abs; nmin := Z.min; nmax := Z.max;
  nltb := Z.ltb; nleb := Z.leb; nsgn := fun x => if Z.ltb x 0 then (-1) else 1 |}.

Lemma image_id lo hi n g x : physical n g x -> image lo hi n g x = x.
Proof.
  unfold image. umesh. intros.
  destruct (x <? g) eqn:E1; [lia|]. destruct (n + g <=? x) eqn:E2; [lia|auto].
Qed.
Lemma mirrored_id lo hi n g x : physical n g x -> mirrored lo hi n g x = false.
Proof.
  unfold mirrored. umesh. intros.
  destruct (x <? g) eqn:E1; [lia|]. destruct (n + g <=? x) eqn:E2; [lia|auto].
Qed.

Section C.
Context {T : Type} `{N : Num T} `{O : !NumOne T}.
Implicit Types s : store T.

Lemma fill2d_spec m a inb s s' : wide2 m ->
  execs inb s (make_boundaries2d m a) s' ->
  (forall i j v, cell2 m i j -> 0 <= v < nbvar m ->
     s' (mkloc a i j 0 v) = filled2 m a s i j v) /\
  (forall i j v, phys2 m i j -> s' (mkloc a i j 0 v) = s (mkloc a i j 0 v)) /\
  (forall l, la l <> a -> s' l = s l).
Proof.
  intros (Hg & Hv & H1 & H2 & H3 & H4) Hex.
  destruct (fill2d m a inb Hg Hv H1 H2 H3 H4 s s' Hex) as [A B].
  split; [|split].
  - intros i j v [Hi Hj] Hvv. apply A; auto.
  - intros i j v [Hi Hj]. destruct (Z_lt_dec v (nbvar m)); [destruct (Z_le_dec 0 v)|].
    + rewrite A; try (umesh; lia).
      unfold mir, img. rewrite !mirrored_id, !image_id; auto.
    + apply B. simpl. lia.
    + apply B. simpl. lia.
  - intros l Hl. apply B. tauto.
Qed.

Lemma fill3d_spec m a inb s s' : wide3 m ->
  execs inb s (make_boundaries3d m a) s' ->
  (forall i j k v, cell3 m i j k -> 0 <= v < nbvar m ->
     s' (mkloc a i j k v) = filled3 m a s i j k v) /\
  (forall i j k v, phys3 m i j k -> s' (mkloc a i j k v) = s (mkloc a i j k v)) /\
  (forall l, la l <> a -> s' l = s l).
Proof.
  intros ((Hg & Hv & H1 & H2 & H3 & H4) & H5 & H6) Hex.
  destruct (fill3d m a inb Hg Hv H1 H2 H3 H4 H5 H6 s s' Hex) as [A B].
  split; [|split].
  - intros i j k v [[Hi Hj] Hk] Hvv. apply A; auto.
  - intros i j k v [[Hi Hj] Hk]. destruct (Z_lt_dec v (nbvar m)); [destruct (Z_le_dec 0 v)|].
    + rewrite A; try (umesh; lia).
      unfold mir, img. rewrite !mirrored_id, !image_id; auto.
    + apply B. simpl. lia.
    + apply B. simpl. lia.
  - intros l Hl. apply B. tauto.
Qed.

Lemma images_phys2 m i j : wide2 m -> cell2 m i j -> phys2 m (image_x m i) (image_y m j).
Proof.
  intros (Hg & Hv & H1 & H2 & H3 & H4) [Hi Hj]. split; apply image_range; auto.
Qed.
Lemma images_phys3 m i j k : wide3 m -> cell3 m i j k ->
  phys3 m (image_x m i) (image_y m j) (image_z m k).
Proof.
  intros (W & H5 & H6) [Hij Hk]. split; [apply images_phys2; auto|].
  apply image_range; auto. apply W.
Qed.

Lemma fill2d_phys m a inb s1 s1' s2 s2' : wide2 m ->
  (forall i j v, phys2 m i j -> 0 <= v < nbvar m -> s1 (mkloc a i j 0 v) = s2 (mkloc a i j 0 v)) ->
  execs inb s1 (make_boundaries2d m a) s1' ->
  execs inb s2 (make_boundaries2d m a) s2' ->
  forall i j v, cell2 m i j -> 0 <= v < nbvar m -> s1' (mkloc a i j 0 v) = s2' (mkloc a i j 0 v).
Proof.
  intros W Hag E1 E2 i j v Hc Hv.
  apply fill2d_spec in E1; auto. apply fill2d_spec in E2; auto.
  rewrite (proj1 E1), (proj1 E2) by auto. unfold filled2.
  rewrite Hag; auto. apply images_phys2; auto.
Qed.

Lemma fill2d_idem m a inb s s' s'' : wide2 m ->
  execs inb s (make_boundaries2d m a) s' ->
  execs inb s' (make_boundaries2d m a) s'' ->
  forall i j v, cell2 m i j -> 0 <= v < nbvar m -> s'' (mkloc a i j 0 v) = s' (mkloc a i j 0 v).
Proof.
  intros W E1 E2. apply (fill2d_phys m a inb s' s'' s s'); auto.
  intros i j v Hp Hv. apply fill2d_spec in E1; auto. destruct E1 as (_ & E1 & _). auto.
Qed.

Lemma fill3d_phys m a inb s1 s1' s2 s2' : wide3 m ->
  (forall i j k v, phys3 m i j k -> 0 <= v < nbvar m ->
     s1 (mkloc a i j k v) = s2 (mkloc a i j k v)) ->
  execs inb s1 (make_boundaries3d m a) s1' ->
  execs inb s2 (make_boundaries3d m a) s2' ->
  forall i j k v, cell3 m i j k -> 0 <= v < nbvar m ->
    s1' (mkloc a i j k v) = s2' (mkloc a i j k v).
Proof.
  intros W Hag E1 E2 i j k v Hc Hv.
  apply fill3d_spec in E1; auto. apply fill3d_spec in E2; auto.
  rewrite (proj1 E1), (proj1 E2) by auto. unfold filled3.
  rewrite Hag; auto. apply images_phys3; auto.
Qed.

Lemma fill3d_idem m a inb s s' s'' : wide3 m ->
  execs inb s (make_boundaries3d m a) s' ->
  execs inb s' (make_boundaries3d m a) s'' ->
  forall i j k v, cell3 m i j k -> 0 <= v < nbvar m ->
    s'' (mkloc a i j k v) = s' (mkloc a i j k v).
Proof.
  intros W E1 E2. apply (fill3d_phys m a inb s' s'' s s'); auto.
  intros i j k v Hp Hv. apply fill3d_spec in E1; auto. destruct E1 as (_ & E1 & _). auto.
Qed.

End C.

Lemma fill2d_safe T (N : Num T) m a (s : store T) : wide2 m ->
  safes (alloc2d m (fun _ => nbvar m)) s (make_boundaries2d m a) /\
  exists s', execs (alloc2d m (fun _ => nbvar m)) s (make_boundaries2d m a) s'.
Proof.
  intros (Hg & Hv & H1 & H2 & H3 & H4).
  assert (F : Forall (Forall (in_foot (alloc2d m (fun _ => nbvar m)))) (make_boundaries2d m a)).
  { apply fill2d_in_foot; auto. intros. unfold alloc2d; simpl; lia. }
  split; [apply in_foot_safes|apply in_foot_execs]; auto.
Qed.

Lemma fill3d_safe T (N : Num T) m a (s : store T) : wide3 m ->
  safes (alloc3d m (fun _ => nbvar m)) s (make_boundaries3d m a) /\
  exists s', execs (alloc3d m (fun _ => nbvar m)) s (make_boundaries3d m a) s'.
Proof.
  intros ((Hg & Hv & H1 & H2 & H3 & H4) & H5 & H6).
  assert (F : Forall (Forall (in_foot (alloc3d m (fun _ => nbvar m)))) (make_boundaries3d m a)).
  { apply fill3d_in_foot; auto. intros. unfold alloc3d; simpl; lia. }
  split; [apply in_foot_safes|apply in_foot_execs]; auto.
Qed.

(** ** Race on a mesh with fewer physical cells than ghost layers *)

Definition narrow_mesh : mesh := mkmesh 2 1 1 2 1 false (fun _ => BC_PERIODIC).
Definition narrow_store : store Z := fun l => lj l.

Lemma narrow_race :
  exists (m : mesh) (s s1 s2 : store Z) (l : loc),
    nx m = 2 /\ ny m = 1 /\ gw m = 2 /\ (forall f, kind_of (bc m f) = Periodic) /\
    exec (alloc2d m (fun _ => nbvar m)) s (make_boundary2d (H := Znum) m A_U YMIN) s1 /\
    exec (alloc2d m (fun _ => nbvar m)) s (make_boundary2d (H := Znum) m A_U YMIN) s2 /\
    s1 l <> s2 l.
Proof.
  set (K := make_boundary2d (H := Znum) narrow_mesh A_U YMIN).
  assert (F : Forall (in_foot (alloc2d narrow_mesh (fun _ => nbvar narrow_mesh))) K).
  { apply Forall_forall. intros p Hp. unfold K, make_boundary2d in Hp.
    vm_compute in Hp.
    repeat (destruct Hp as [<-|Hp]; [cbv; auto|]). destruct Hp. }
  exists narrow_mesh, narrow_store, (run_list K narrow_store),
    (run_list (rev K) narrow_store), (mkloc A_U 0 0 0 0).
  split; [reflexivity|]. split; [reflexivity|]. split; [reflexivity|].
  split; [reflexivity|]. split; [|split].
  - apply exec_any_order; auto.
  - apply exec_any_order; auto. apply Permutation_rev.
  - vm_compute. discriminate.
Qed.

(** ** Index round trips *)
Lemma index_roundtrip_2 lay Nx Ny : 0 < Nx -> 0 < Ny ->
  (forall i j, 0 <= i < Nx -> 0 <= j < Ny ->
     0 <= coord2index2 lay i j Nx Ny < Nx * Ny /\
     index2coord2 lay (coord2index2 lay i j Nx Ny) Nx Ny = (i, j)) /\
  (forall index, 0 <= index < Nx * Ny ->
     exists i j, index2coord2 lay index Nx Ny = (i, j) /\
       0 <= i < Nx /\ 0 <= j < Ny /\ coord2index2 lay i j Nx Ny = index).
Proof.
  intros HX HY. split.
  - intros i j Hi Hj. split; [|apply i2c_c2i_2; auto]. destruct lay; simpl; nia.
  - intros index Hi. destruct (index2coord2 lay index Nx Ny) as [i j] eqn:E.
    destruct (c2i_i2c_2 lay Nx Ny index i j HX HY Hi E) as (? & ? & ?).
    exists i, j. auto.
Qed.

Lemma index_roundtrip_3 lay Nx Ny Nz : 0 < Nx -> 0 < Ny -> 0 < Nz ->
  (forall i j k, 0 <= i < Nx -> 0 <= j < Ny -> 0 <= k < Nz ->
     0 <= coord2index3 lay i j k Nx Ny Nz < Nx * Ny * Nz /\
     index2coord3 lay (coord2index3 lay i j k Nx Ny Nz) Nx Ny Nz = (i, j, k)) /\
  (forall index, 0 <= index < Nx * Ny * Nz ->
     exists i j k, index2coord3 lay index Nx Ny Nz = (i, j, k) /\
       0 <= i < Nx /\ 0 <= j < Ny /\ 0 <= k < Nz /\ coord2index3 lay i j k Nx Ny Nz = index).
Proof.
  intros HX HY HZ. split.
  - intros i j k Hi Hj Hk. split; [|apply i2c_c2i_3; auto]. destruct lay; simpl.
    + assert (0 <= k + Nz * j < Nz * Ny) by nia. nia.
    + assert (0 <= i + Nx * j < Nx * Ny) by nia. nia.
  - intros index Hi. destruct (index2coord3 lay index Nx Ny Nz) as [[i j] k] eqn:E.
    destruct (c2i_i2c_3 lay Nx Ny Nz index i j k HX HY HZ Hi E) as (? & ? & ? & ?).
    exists i, j, k. auto.
Qed.
