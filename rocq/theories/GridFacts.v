(** * Facts on ranges and index arithmetic *)
From Coq Require Import ZArith List Bool Lia ZifyBool FinFun.
Import ListNotations.
From Verif Require Import Num Exec Grid.
Local Open Scope Z_scope.

#[global] Arguments Z.mul : simpl never.
#[global] Arguments Z.add : simpl never.
#[global] Arguments Z.sub : simpl never.
#[global] Arguments Z.div : simpl never.
#[global] Arguments Z.modulo : simpl never.
#[global] Arguments Z.leb : simpl never.
#[global] Arguments Z.ltb : simpl never.
#[global] Arguments Z.eqb : simpl never.

Lemma in_range n x : In x (range n) <-> 0 <= x < n.
Proof.
  unfold range. rewrite in_map_iff. split.
  - intros (k & <- & Hk). apply in_seq in Hk. lia.
  - intros H. exists (Z.to_nat x). split; [lia|]. apply in_seq. lia.
Qed.

Lemma nodup_range n : NoDup (range n).
Proof.
  unfold range. apply Injective_map_NoDup.
  - intros a b. lia.
  - apply seq_NoDup.
Qed.

Lemma nodup_prod {A B} (l : list A) (l' : list B) :
  NoDup l -> NoDup l' -> NoDup (list_prod l l').
Proof.
  intros H H'. induction H as [|x l Hx Hl IH]; simpl.
  - constructor.
  - assert (HD : forall p, In p (map (fun y : B => (x, y)) l') -> ~ In p (list_prod l l')).
    { intros [a b] Ha Hb. apply in_map_iff in Ha. destruct Ha as (y & E & _).
      inversion E; subst. apply in_prod_iff in Hb. tauto. }
    assert (Hm : NoDup (map (fun y : B => (x, y)) l')).
    { apply Injective_map_NoDup; auto. intros u v E. inversion E; auto. }
    revert HD. induction Hm as [|z m Hz Hm IHm]; simpl; auto. intros HD. constructor.
    + rewrite in_app_iff. intros [H1|H1]; auto. apply (HD z); auto.
    + apply IHm. intros p Hp. apply HD. auto.
Qed.

Lemma in_range2 n1 n2 i j : In (i, j) (range2 n1 n2) <-> 0 <= i < n1 /\ 0 <= j < n2.
Proof. unfold range2. rewrite in_prod_iff, !in_range. tauto. Qed.

Lemma in_range3 n1 n2 n3 i j k :
  In (i, j, k) (range3 n1 n2 n3) <-> (0 <= i < n1 /\ 0 <= j < n2) /\ 0 <= k < n3.
Proof. unfold range3. rewrite in_prod_iff, in_range, in_range2. tauto. Qed.

Lemma nodup_range2 n1 n2 : NoDup (range2 n1 n2).
Proof. apply nodup_prod; apply nodup_range. Qed.

Lemma nodup_range3 n1 n2 n3 : NoDup (range3 n1 n2 n3).
Proof. apply nodup_prod; [apply nodup_range2|apply nodup_range]. Qed.

(** Mixed-radix decoding, the arithmetic behind all index computations. *)
Lemma div_decode a b n : 0 < n -> 0 <= a < n -> (a + b * n) / n = b.
Proof. intros. rewrite Z.div_add by lia. rewrite Z.div_small by lia. lia. Qed.

Lemma div_bounds x n : 0 < n -> 0 <= x - x / n * n < n.
Proof.
  intros. pose proof (Z.div_mod x n ltac:(lia)). pose proof (Z.mod_pos_bound x n ltac:(lia)). nia.
Qed.

Lemma i2c_c2i_2 lay Nx Ny i j :
  0 <= i < Nx -> 0 <= j < Ny ->
  index2coord2 lay (coord2index2 lay i j Nx Ny) Nx Ny = (i, j).
Proof.
  intros Hi Hj. destruct lay; simpl.
  - replace (j + Ny * i) with (j + i * Ny) by ring.
    rewrite div_decode by lia. f_equal; ring.
  - replace (i + Nx * j) with (i + j * Nx) by ring.
    rewrite div_decode by lia. f_equal; ring.
Qed.

Lemma c2i_i2c_2 lay Nx Ny index i j :
  0 < Nx -> 0 < Ny -> 0 <= index < Nx * Ny ->
  index2coord2 lay index Nx Ny = (i, j) ->
  coord2index2 lay i j Nx Ny = index /\ 0 <= i < Nx /\ 0 <= j < Ny.
Proof.
  intros HN HM Hidx. destruct lay; simpl; intros E; inversion E; subst.
  - pose proof (div_bounds index Ny HM).
    repeat split; try lia.
    + apply Z.div_pos; lia.
    + apply Z.div_lt_upper_bound; lia.
  - pose proof (div_bounds index Nx HN).
    repeat split; try lia.
    + apply Z.div_pos; lia.
    + apply Z.div_lt_upper_bound; lia.
Qed.

Lemma i2c_c2i_3 lay Nx Ny Nz i j k :
  0 <= i < Nx -> 0 <= j < Ny -> 0 <= k < Nz ->
  index2coord3 lay (coord2index3 lay i j k Nx Ny Nz) Nx Ny Nz = (i, j, k).
Proof.
  intros Hi Hj Hk. destruct lay; simpl.
  - assert (0 <= k + Nz * j < Ny * Nz) by nia.
    assert (E : (k + Nz * j + Nz * Ny * i) / (Ny * Nz) = i).
    { replace (k + Nz * j + Nz * Ny * i) with ((k + Nz * j) + i * (Ny * Nz)) by ring.
      apply div_decode; nia. }
    rewrite E.
    assert (E2 : (k + Nz * j + Nz * Ny * i - i * (Ny * Nz)) / Nz = j).
    { replace (k + Nz * j + Nz * Ny * i - i * (Ny * Nz)) with (k + j * Nz) by ring.
      apply div_decode; lia. }
    rewrite E2. f_equal; ring.
  - assert (0 <= i + Nx * j < Nx * Ny) by nia.
    assert (E : (i + Nx * j + Nx * Ny * k) / (Nx * Ny) = k).
    { replace (i + Nx * j + Nx * Ny * k) with ((i + Nx * j) + k * (Nx * Ny)) by ring.
      apply div_decode; nia. }
    rewrite E.
    assert (E2 : (i + Nx * j + Nx * Ny * k - k * (Nx * Ny)) / Nx = j).
    { replace (i + Nx * j + Nx * Ny * k - k * (Nx * Ny)) with (i + j * Nx) by ring.
      apply div_decode; lia. }
    rewrite E2. f_equal. f_equal; ring.
Qed.

Lemma c2i_i2c_3 lay Nx Ny Nz index i j k :
  0 < Nx -> 0 < Ny -> 0 < Nz -> 0 <= index < Nx * Ny * Nz ->
  index2coord3 lay index Nx Ny Nz = (i, j, k) ->
  coord2index3 lay i j k Nx Ny Nz = index /\ 0 <= i < Nx /\ 0 <= j < Ny /\ 0 <= k < Nz.
Proof.
  intros HX HY HZ Hidx. destruct lay; simpl; intros E; inversion E; subst; clear E.
  - pose proof (div_bounds index (Ny * Nz) ltac:(nia)) as B1.
    set (r := index - index / (Ny * Nz) * (Ny * Nz)) in *.
    pose proof (div_bounds r Nz HZ) as B2.
    assert (0 <= index / (Ny * Nz)) by (apply Z.div_pos; nia).
    assert (index / (Ny * Nz) < Nx) by (apply Z.div_lt_upper_bound; nia).
    assert (0 <= r / Nz) by (apply Z.div_pos; nia).
    assert (r / Nz < Ny) by (apply Z.div_lt_upper_bound; nia).
    repeat split; try lia; unfold r in *; nia.
  - pose proof (div_bounds index (Nx * Ny) ltac:(nia)) as B1.
    set (r := index - index / (Nx * Ny) * (Nx * Ny)) in *.
    pose proof (div_bounds r Nx HX) as B2.
    assert (0 <= index / (Nx * Ny)) by (apply Z.div_pos; nia).
    assert (index / (Nx * Ny) < Nz) by (apply Z.div_lt_upper_bound; nia).
    assert (0 <= r / Nx) by (apply Z.div_pos; nia).
    assert (r / Nx < Ny) by (apply Z.div_lt_upper_bound; nia).
    repeat split; try lia; unfold r in *; nia.
Qed.
