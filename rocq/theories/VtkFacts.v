(** * Lemmas on the image writers *)
From Coq Require Import Ascii String ZArith List Bool Lia.
Import ListNotations.
From Verif Require Import Num Grid GridFacts Config ConfigSpec ConfigNumbers Halo Vtk VtkSpec.
Local Open Scope Z_scope.

Local Notation length := List.length.
Local Notation zlen l := (Z.of_nat (List.length l)).

(** ** Positions *)
Lemma lies_trans {A} (t s r : list A) p q : lies t p s -> lies s q r -> lies t (p + q) r.
Proof.
  intros (a & b & -> & Ha) (c & d & -> & Hc); exists (a ++ c), (d ++ b); split.
  - rewrite <- !app_assoc; reflexivity.
  - rewrite app_length; lia.
Qed.

Lemma lies_app_l {A} (s t : list A) : lies (s ++ t) 0 s.
Proof. exists [], t; split; reflexivity. Qed.
Lemma lies_app_r {A} (s t : list A) : lies (s ++ t) (zlen s) t.
Proof. exists s, []; rewrite app_nil_r; split; reflexivity. Qed.
Lemma lies_mid {A} (s t u : list A) : lies (s ++ t ++ u) (zlen s) t.
Proof. exists s, u; split; reflexivity. Qed.

Lemma occurs_mid {A} (s t u : list A) : occurs (s ++ t ++ u) t.
Proof. exists (zlen s); apply lies_mid. Qed.
Lemma occurs_in {A} (t s r : list A) : occurs t s -> occurs s r -> occurs t r.
Proof. intros (p & Hp) (q & Hq); exists (p + q); eapply lies_trans; eauto. Qed.
Lemma occurs_app_r {A} (s t r : list A) : occurs t r -> occurs (s ++ t) r.
Proof. intros H; eapply occurs_in; [ exists (zlen s); apply lies_app_r | exact H ]. Qed.
Lemma occurs_app_l {A} (s t r : list A) : occurs s r -> occurs (s ++ t) r.
Proof. intros H; eapply occurs_in; [ exists 0; apply lies_app_l | exact H ]. Qed.

(** ** Ranges *)
Lemma range_length n : 0 <= n -> zlen (range n) = n.
Proof. intros H; unfold range; rewrite map_length, seq_length; lia. Qed.

Lemma range_split a b : 0 <= a -> 0 <= b -> range (a + b) = range a ++ map (fun i => a + i) (range b).
Proof.
  intros Ha Hb; unfold range; rewrite Z2Nat.inj_add by lia; rewrite seq_app, map_app; f_equal.
  rewrite map_map; cbn [Nat.add].
  replace (Z.to_nat a) with (Z.to_nat a + 0)%nat by lia.
  generalize (Z.to_nat b) as n; intros n.
  assert (E : forall n s, map Z.of_nat (seq (Z.to_nat a + s) n) = map (fun x => a + Z.of_nat x) (seq s n)).
  { clear n Hb; induction n as [|n IH]; intros s; [ reflexivity |]; cbn [seq map]; f_equal; [ lia |].
    rewrite <- IH; f_equal; f_equal; lia. }
  rewrite E; reflexivity.
Qed.

Lemma range_nth n v : 0 <= v < n -> nth_error (range n) (Z.to_nat v) = Some v.
Proof.
  intros H; unfold range; rewrite nth_error_map.
  rewrite (nth_error_nth' _ 0%nat) by (rewrite seq_length; lia).
  rewrite seq_nth by lia; cbn; f_equal; lia.
Qed.

Lemma range_at n v : 0 <= v < n -> exists b, range n = range v ++ v :: b.
Proof.
  intros H; exists (map (fun i => v + i) (map (fun i => 1 + i) (range (n - v - 1)))).
  replace n with (v + (1 + (n - v - 1))) at 1 by lia; rewrite range_split by lia.
  rewrite (range_split 1) by lia; change (range 1) with [0]; cbn [map app]; rewrite Z.add_0_r; reflexivity.
Qed.

(** Equal blocks one after the other *)
Lemma flat_map_length {A B} (f : A -> list B) L l : (forall x, In x l -> zlen (f x) = L) ->
  zlen (flat_map f l) = zlen l * L.
Proof.
  induction l as [|a l IH]; intros H; [ reflexivity |]; cbn [flat_map List.length]; rewrite app_length.
  rewrite Nat2Z.inj_add, IH by (intros x Hx; apply H; right; exact Hx).
  rewrite (H a) by (left; reflexivity); lia.
Qed.

Lemma flat_map_range_length {B} (f : Z -> list B) L n : 0 <= n -> (forall x, 0 <= x < n -> zlen (f x) = L) ->
  zlen (flat_map f (range n)) = n * L.
Proof.
  intros Hn H; rewrite (flat_map_length f L) by (intros x Hx; apply H; apply in_range; exact Hx).
  rewrite range_length by lia; reflexivity.
Qed.

Lemma lies_flat_map {B} (f : Z -> list B) L n v : (forall x, 0 <= x < n -> zlen (f x) = L) -> 0 <= v < n ->
  lies (flat_map f (range n)) (v * L) (f v).
Proof.
  intros H Hv; destruct (range_at n v Hv) as (b & ->); rewrite flat_map_app; cbn [flat_map].
  exists (flat_map f (range v)), (flat_map f b); split; [ reflexivity |].
  apply flat_map_range_length; [ lia |]; intros x Hx; apply H; lia.
Qed.

Lemma flat_map_map {A B C} (f : B -> list C) (g : A -> B) l : flat_map f (map g l) = flat_map (fun x => f (g x)) l.
Proof. induction l as [|a l IH]; [ reflexivity |]; cbn; rewrite IH; reflexivity. Qed.

Lemma flat_map_ext_in {A B} (f g : A -> list B) l : (forall x, In x l -> f x = g x) -> flat_map f l = flat_map g l.
Proof.
  induction l as [|a l IH]; intros H; [ reflexivity |]; cbn; rewrite (H a) by (left; reflexivity).
  rewrite IH by (intros x Hx; apply H; right; exact Hx); reflexivity.
Qed.

Lemma flat_map_nil {A B} (f : A -> list B) l : (forall x, In x l -> f x = []) -> flat_map f l = [].
Proof.
  induction l as [|a l IH]; intros H; [ reflexivity |]; cbn; rewrite (H a) by (left; reflexivity).
  apply IH; intros x Hx; apply H; right; exact Hx.
Qed.

Lemma flat_map_flat_map {A B C} (f : B -> list C) (g : A -> list B) l :
  flat_map f (flat_map g l) = flat_map (fun x => flat_map f (g x)) l.
Proof. induction l as [|a l IH]; [ reflexivity |]; cbn; rewrite flat_map_app, IH; reflexivity. Qed.

Lemma flat_map_upto {B} (f : Z -> list B) lo hi :
  flat_map f (upto lo hi) = flat_map (fun i => f (lo + i)) (range (hi - lo + 1)).
Proof. unfold upto; apply flat_map_map. Qed.

(** A loop over everything that tests for a window is a loop over the window *)
Lemma flat_map_window {B} (f : Z -> list B) (c : Z -> bool) lo w n : 0 <= lo -> 0 <= w -> lo + w <= n ->
  (forall i, 0 <= i < n -> c i = (lo <=? i) && (i <? lo + w)) ->
  flat_map (fun i => if c i then f i else []) (range n) = flat_map (fun i => f (lo + i)) (range w).
Proof.
  intros Hl Hw Hn Hc.
  replace n with (lo + (w + (n - lo - w))) at 1 by lia; rewrite range_split by lia.
  rewrite flat_map_app, flat_map_nil.
  2:{ intros x Hx; apply in_range in Hx; rewrite Hc by lia.
      destruct (lo <=? x) eqn:E; [ apply Z.leb_le in E; lia | reflexivity ]. }
  cbn [app]; rewrite flat_map_map, range_split by lia.
  rewrite flat_map_app, flat_map_map.
  rewrite (flat_map_nil _ (range (n - lo - w))).
  2:{ intros x Hx; apply in_range in Hx; rewrite Hc by lia.
      replace (lo + (w + x) <? lo + w) with false by (symmetry; apply Z.ltb_ge; lia).
      rewrite andb_false_r; reflexivity. }
  rewrite app_nil_r; apply flat_map_ext_in; intros x Hx; apply in_range in Hx; rewrite Hc by lia.
  replace (lo <=? lo + x) with true by (symmetry; apply Z.leb_le; lia).
  replace (lo + x <? lo + w) with true by (symmetry; apply Z.ltb_lt; lia); reflexivity.
Qed.

(** Counting through the rows *)
Lemma range_rows a b : 0 <= a -> 0 <= b -> range (a * b) = flat_map (fun j => map (fun i => j * a + i) (range a)) (range b).
Proof.
  intros Ha Hb; revert b Hb; apply natlike_ind.
  - rewrite Z.mul_0_r; reflexivity.
  - intros b Hb IH; unfold Z.succ; replace (a * (b + 1)) with (a * b + a) by lia.
    rewrite range_split by lia; rewrite (range_split b 1) by lia; rewrite flat_map_app, IH; f_equal.
    change (range 1) with [0]; cbn [map flat_map]; rewrite app_nil_r.
    apply map_ext; intros i; lia.
Qed.

(** ** Machine integers *)
Lemma i32_id x : - 2 ^ 31 <= x < 2 ^ 31 -> i32 x = x.
Proof. intros H; unfold i32; rewrite Z.mod_small; lia. Qed.
Lemma u64_id x : 0 <= x < 2 ^ 64 -> u64 x = x.
Proof. intros H; unfold u64; apply Z.mod_small; lia. Qed.
Lemma i32_range x : - 2 ^ 31 <= i32 x < 2 ^ 31.
Proof. unfold i32; assert (H := Z.mod_pos_bound (x + 2 ^ 31) (2 ^ 32) ltac:(lia)); lia. Qed.
Lemma i32_shift x : exists k, i32 x = x + k * 2 ^ 32.
Proof.
  unfold i32; exists (- ((x + 2 ^ 31) / 2 ^ 32)).
  assert (H := Z.div_mod (x + 2 ^ 31) (2 ^ 32) ltac:(lia)); lia.
Qed.
Lemma i32_cong x y k : x = y + k * 2 ^ 32 -> i32 x = i32 y.
Proof.
  intros ->; unfold i32; replace (y + k * 2 ^ 32 + 2 ^ 31) with (y + 2 ^ 31 + k * 2 ^ 32) by lia.
  rewrite Z.mod_add by lia; reflexivity.
Qed.
Lemma i32_mul x y : i32 (i32 x * y) = i32 (x * y).
Proof. destruct (i32_shift x) as (k & ->); apply (i32_cong _ _ (k * y)); lia. Qed.

(** ** Decimal *)
Lemma show_shows n : 0 <= n < 2 ^ 64 -> shows (show_long n) n.
Proof.
  intros H; unfold show_long; replace (n <? 0) with false by (symmetry; apply Z.ltb_ge; lia).
  destruct (dec_spec 20 n [] ltac:(cbn; lia) ltac:(lia)) as (d & ds & -> & Hd & Hv & _).
  rewrite app_nil_r; split; [ discriminate |]; split; assumption.
Qed.

(** ** Eight-byte counts *)
Lemma byte_code n : Z.of_nat (nat_of_ascii (byte n)) = n mod 256.
Proof.
  unfold byte; assert (H := Z.mod_pos_bound n 256 ltac:(lia)).
  rewrite nat_ascii_embedding by lia; lia.
Qed.

Lemma lsb_digits K : forall n, lsb_value (map (fun k => byte (n / 256 ^ Z.of_nat k)) (seq 0 K)) = n mod 256 ^ Z.of_nat K.
Proof.
  induction K as [|K IH]; intros n; [ cbn; rewrite Z.mod_1_r; reflexivity |].
  cbn [seq map lsb_value fold_right]; rewrite byte_code, <- seq_shift, map_map.
  replace (map (fun x => byte (n / 256 ^ Z.of_nat (S x))) (seq 0 K))
    with (map (fun k => byte (n / 256 / 256 ^ Z.of_nat k)) (seq 0 K)).
  2:{ apply map_ext; intros k; f_equal; rewrite Z.div_div by lia; f_equal; rewrite Nat2Z.inj_succ, Z.pow_succ_r by lia; reflexivity. }
  fold (lsb_value (map (fun k => byte (n / 256 / 256 ^ Z.of_nat k)) (seq 0 K))); rewrite IH.
  rewrite Nat2Z.inj_succ, Z.pow_succ_r by lia; change (Z.of_nat 0) with 0; rewrite Z.pow_0_r, Z.div_1_r.
  rewrite Z.rem_mul_r by lia; lia.
Qed.

Lemma u64_counts big n : 0 <= n < 2 ^ 64 -> counts big (u64_bytes big n) n.
Proof.
  intros H; unfold counts, u64_bytes.
  assert (E : lsb_value (map (fun k => byte (n / 256 ^ k)) (range 8)) = n).
  { unfold range; rewrite map_map, (lsb_digits (Z.to_nat 8) n); change (256 ^ Z.of_nat (Z.to_nat 8)) with (2 ^ 64).
    apply Z.mod_small; lia. }
  destruct big; [ rewrite rev_length, rev_involutive |]; split; try reflexivity; exact E.
Qed.

Lemma u64_bytes_length big n : zlen (u64_bytes big n) = 8.
Proof. unfold u64_bytes; destruct big; [ rewrite rev_length |]; reflexivity. Qed.

(** ** Loops that may throw *)
Lemma collect_some {A} (f : A -> option text) g l : (forall x, In x l -> f x = Some (g x)) ->
  collect f l = Some (concat (map g l)).
Proof.
  induction l as [|a l IH]; intros H; [ reflexivity |]; cbn [collect map concat].
  rewrite (H a) by (left; reflexivity); rewrite IH by (intros x Hx; apply H; right; exact Hx); reflexivity.
Qed.

Definition name_of (v : Z) : text := match variables_names v with Some t => t | None => [] end.
Lemma name_some v : 0 <= v < 8 -> variables_names v = Some (name_of v) /\ nth_error var_names (Z.to_nat v) = Some (name_of v).
Proof.
  intros H.
  assert (C : v = 0 \/ v = 1 \/ v = 2 \/ v = 3 \/ v = 4 \/ v = 5 \/ v = 6 \/ v = 7) by lia.
  destruct C as [-> | [-> | [-> | [-> | [-> | [-> | [-> | ->]]]]]]]; split; reflexivity.
Qed.

Lemma nth_map_range {A} (g : Z -> A) n v : 0 <= v < n -> nth_error (map g (range n)) (Z.to_nat v) = Some (g v).
Proof. intros H; rewrite nth_error_map, range_nth by exact H; reflexivity. Qed.

Lemma six_box x0 x1 y0 y1 z0 z1 :
  0 <= x0 < 2 ^ 64 -> 0 <= x1 < 2 ^ 64 -> 0 <= y0 < 2 ^ 64 -> 0 <= y1 < 2 ^ 64 -> 0 <= z0 < 2 ^ 64 -> 0 <= z1 < 2 ^ 64 ->
  box_text (six x0 x1 y0 y1 z0 z1) (x0, x1, y0, y1, z0, z1).
Proof.
  intros; exists (show_long x0), (show_long x1), (show_long y0), (show_long y1), (show_long z0), (show_long z1).
  split; [ reflexivity |]; repeat split; apply show_shows; assumption.
Qed.

(** ** One variable *)
Section One.
Context {T : Type} (rf : rformat T).
Definition real_ok : Prop := (rsize rf = 4 \/ rsize rf = 8) /\ forall x, zlen (rbytes rf x) = rsize rf.
Hypothesis rok : real_ok.

Definition row (nx : Z) (cell : Z -> T) : text := flat_map (fun i => rbytes rf (cell i)) (range nx).
Lemma row_length nx cell : 0 <= nx -> zlen (row nx cell) = nx * rsize rf.
Proof. intros H; apply flat_map_range_length; [ lia |]; intros; apply rok. Qed.

Lemma heavy2_block m U v : 0 <= gw m -> 1 <= nx m -> 1 <= ny m -> nx m * ny m < 2 ^ 31 ->
  zlen (heavy2 rf m U v) = 8 + nx m * ny m * 1 * rsize rf /\
  image_block (big rf) (rsize rf) (rbytes rf) (heavy2 rf m U v) 0 (nx m) (ny m) 1
    (fun i j k => U (i + gw m) (j + gw m) v).
Proof.
  intros Hg Hx Hy Ho; destruct rok as (Hr & Hb).
  assert (Ew : words2 rf m = nx m * ny m * 1 * rsize rf).
  { unfold words2; rewrite i32_id by lia; rewrite u64_id; [ lia |]; destruct Hr as [-> | ->]; lia. }
  assert (Eb : flat_map (fun j => flat_map (fun i => rbytes rf (U i j v)) (upto (imin m + gw m) (imax m - gw m)))
           (upto (jmin m + gw m) (jmax m - gw m)) =
     flat_map (fun j => row (nx m) (fun i => U (i + gw m) (j + gw m) v)) (range (ny m))).
  { rewrite flat_map_upto; unfold jmin, jmax, imin, imax.
    replace (ny m - 1 + 2 * gw m - gw m - (0 + gw m) + 1) with (ny m) by lia.
    apply flat_map_ext_in; intros j Hj; rewrite flat_map_upto; unfold row.
    replace (nx m - 1 + 2 * gw m - gw m - (0 + gw m) + 1) with (nx m) by lia.
    apply flat_map_ext_in; intros i Hi; f_equal; f_equal; lia. }
  unfold heavy2; rewrite Eb; split.
  - rewrite app_length, Nat2Z.inj_add, u64_bytes_length.
    rewrite (flat_map_range_length _ (nx m * rsize rf)) by (try lia; intros; apply row_length; lia); lia.
  - split.
    + exists (u64_bytes (big rf) (words2 rf m)); split; [ apply lies_app_l |].
      rewrite Ew; apply u64_counts; destruct Hr as [-> | ->]; lia.
    + intros i j k Hi Hj Hk; assert (k = 0) by lia; subst k.
      replace (0 + 8 + rsize rf * (i + nx m * (j + ny m * 0))) with (8 + (j * (nx m * rsize rf) + i * rsize rf)) by lia.
      rewrite <- (u64_bytes_length (big rf) (words2 rf m)).
      eapply lies_trans; [ apply lies_app_r |]; eapply lies_trans.
      * apply (lies_flat_map (fun j => row (nx m) (fun i => U (i + gw m) (j + gw m) v)) (nx m * rsize rf)); [| exact Hj ].
        intros; apply row_length; lia.
      * apply (lies_flat_map (fun i => rbytes rf (U (i + gw m) (j + gw m) v)) (rsize rf)); [ intros; apply Hb | exact Hi ].
Qed.

Definition slab (nx ny : Z) (cell : Z -> Z -> T) : text :=
  flat_map (fun j => row nx (fun i => cell i j)) (range ny).
Lemma slab_length nx ny cell : 0 <= nx -> 0 <= ny -> zlen (slab nx ny cell) = ny * (nx * rsize rf).
Proof. intros H K; apply flat_map_range_length; [ lia |]; intros; apply row_length; lia. Qed.

Lemma heavy3_block m U v : 0 <= gw m -> 1 <= nx m -> 1 <= ny m -> 1 <= nz m -> nx m * ny m * nz m < 2 ^ 31 ->
  zlen (heavy3 rf m U v) = 8 + nx m * ny m * nz m * rsize rf /\
  image_block (big rf) (rsize rf) (rbytes rf) (heavy3 rf m U v) 0 (nx m) (ny m) (nz m)
    (fun i j k => U (i + gw m) (j + gw m) (k + gw m) v).
Proof.
  intros Hg Hx Hy Hz Ho; destruct rok as (Hr & Hb).
  assert (Ew : words3 rf m = nx m * ny m * nz m * rsize rf).
  { unfold words3; rewrite i32_mul, i32_id by lia; rewrite u64_id; [ lia |]; destruct Hr as [-> | ->]; lia. }
  assert (Eb : flat_map (fun k => flat_map (fun j => flat_map (fun i => rbytes rf (U i j k v))
             (upto (imin m + gw m) (imax m - gw m)))
             (upto (jmin m + gw m) (jmax m - gw m)))
           (upto (kmin m + gw m) (kmax m - gw m)) =
     flat_map (fun k => slab (nx m) (ny m) (fun i j => U (i + gw m) (j + gw m) (k + gw m) v)) (range (nz m))).
  { rewrite flat_map_upto; unfold kmin, kmax, jmin, jmax, imin, imax.
    replace (nz m - 1 + 2 * gw m - gw m - (0 + gw m) + 1) with (nz m) by lia.
    apply flat_map_ext_in; intros k Hk; rewrite flat_map_upto; unfold slab.
    replace (ny m - 1 + 2 * gw m - gw m - (0 + gw m) + 1) with (ny m) by lia.
    apply flat_map_ext_in; intros j Hj; rewrite flat_map_upto; unfold row.
    replace (nx m - 1 + 2 * gw m - gw m - (0 + gw m) + 1) with (nx m) by lia.
    apply flat_map_ext_in; intros i Hi; f_equal; f_equal; lia. }
  unfold heavy3; rewrite Eb; split.
  - rewrite app_length, Nat2Z.inj_add, u64_bytes_length.
    rewrite (flat_map_range_length _ (ny m * (nx m * rsize rf))) by (try lia; intros; apply slab_length; lia); lia.
  - split.
    + exists (u64_bytes (big rf) (words3 rf m)); split; [ apply lies_app_l |].
      rewrite Ew; apply u64_counts; destruct Hr as [-> | ->]; lia.
    + intros i j k Hi Hj Hk.
      replace (0 + 8 + rsize rf * (i + nx m * (j + ny m * k)))
        with (8 + (k * (ny m * (nx m * rsize rf)) + (j * (nx m * rsize rf) + i * rsize rf))) by lia.
      rewrite <- (u64_bytes_length (big rf) (words3 rf m)).
      eapply lies_trans; [ apply lies_app_r |]; eapply lies_trans.
      * apply (lies_flat_map (fun k => slab (nx m) (ny m) (fun i j => U (i + gw m) (j + gw m) (k + gw m) v))
                 (ny m * (nx m * rsize rf))); [| exact Hk ].
        intros; apply slab_length; lia.
      * eapply lies_trans.
        -- apply (lies_flat_map (fun j => row (nx m) (fun i => U (i + gw m) (j + gw m) (k + gw m) v)) (nx m * rsize rf));
             [| exact Hj ]; intros; apply row_length; lia.
        -- apply (lies_flat_map (fun i => rbytes rf (U (i + gw m) (j + gw m) (k + gw m) v)) (rsize rf));
             [ intros; apply Hb | exact Hi ].
Qed.

Lemma block_at {A} size (bytes : A -> chars) big data t p nx ny nz cell : lies t p data ->
  image_block big size bytes data 0 nx ny nz cell -> image_block big size bytes t p nx ny nz cell.
Proof.
  intros H ((w & Hw & Hc) & Hd); split.
  - exists w; split; [ replace p with (p + 0) by lia; eapply lies_trans; eauto | exact Hc ].
  - intros i j k Hi Hj Hk; specialize (Hd i j k Hi Hj Hk).
    replace (p + 8 + size * (i + nx * (j + ny * k))) with (p + (0 + 8 + size * (i + nx * (j + ny * k)))) by lia.
    eapply lies_trans; eauto.
Qed.

(** ** The text form *)
Definition toks2 (m : mesh) (U : Z -> Z -> Z -> T) (v : Z) : list text :=
  flat_map (fun j => flat_map (fun i => [rshow rf (U (gw m + i) (gw m + j) v)]) (range (nx m))) (range (ny m)).

Lemma flat_toks {A} (f : A -> text) l : flat_map (fun s => s ++ [" "%char]) (flat_map (fun i => [f i]) l) =
  flat_map (fun i => f i ++ sp) l.
Proof. rewrite flat_map_flat_map; apply flat_map_ext_in; intros; cbn [flat_map]; rewrite app_nil_r; reflexivity. Qed.

Lemma listed2_tokens m U v : 0 <= gw m -> 1 <= nx m -> 1 <= ny m ->
  image_listing (rshow rf) (listed2 rf (isize m * jsize m) m U v) (nx m) (ny m) 1
    (fun i j k => U (i + gw m) (j + gw m) v).
Proof.
  intros Hg Hx Hy; exists (toks2 m U v); split; [| split ].
  - unfold listed2, toks2.
    rewrite range_rows by (unfold isize, jsize; lia).
    rewrite flat_map_flat_map.
    transitivity (flat_map (fun j => if (jmin m + gw m <=? j) && (j <=? jmax m - gw m) then
        flat_map (fun i => rshow rf (U (gw m + i) j v) ++ sp) (range (nx m)) else []) (range (jsize m))).
    + apply flat_map_ext_in; intros j Hj; apply in_range in Hj; rewrite flat_map_map.
      assert (D : forall i, 0 <= i < isize m -> (j * isize m + i) / isize m = j).
      { intros i Hi; rewrite Z.add_comm, Z.div_add by lia; rewrite Z.div_small by lia; lia. }
      transitivity (flat_map (fun i => if (jmin m + gw m <=? j) && (j <=? jmax m - gw m) && (imin m + gw m <=? i) &&
           (i <=? imax m - gw m) then rshow rf (U i j v) ++ sp else []) (range (isize m))).
      { apply flat_map_ext_in; intros i Hi; apply in_range in Hi; rewrite D by exact Hi; cbv zeta.
        replace (j * isize m + i - j * isize m) with i by lia; reflexivity. }
      destruct ((jmin m + gw m <=? j) && (j <=? jmax m - gw m)) eqn:C.
      * cbn [andb]. rewrite (flat_map_window (fun i => rshow rf (U i j v) ++ sp) _ (gw m) (nx m)); try (unfold isize; lia).
        -- reflexivity.
        -- intros i Hi; unfold imin, imax; f_equal.
           destruct (Z.leb_spec i (nx m - 1 + 2 * gw m - gw m)), (Z.ltb_spec i (gw m + nx m)); try reflexivity; lia.
      * apply flat_map_nil; intros i _; reflexivity.
    + rewrite (flat_map_window (fun j => flat_map (fun i => rshow rf (U (gw m + i) j v) ++ sp) (range (nx m))) _ (gw m) (ny m));
        try (unfold jsize; lia).
      * rewrite flat_map_flat_map; apply flat_map_ext_in; intros j _; rewrite flat_toks; reflexivity.
      * intros j Hj; unfold jmin, jmax; f_equal.
        destruct (Z.leb_spec j (ny m - 1 + 2 * gw m - gw m)), (Z.ltb_spec j (gw m + ny m)); try reflexivity; lia.
  - unfold toks2; rewrite (flat_map_range_length _ (nx m)); [ lia | lia |].
    intros j Hj; rewrite (flat_map_range_length _ 1); [ lia | lia | reflexivity ].
  - intros i j k Hi Hj Hk; assert (k = 0) by lia; subst k; unfold toks2.
    replace (i + nx m * (j + ny m * 0)) with (j * nx m + i * 1) by lia.
    eapply lies_trans.
    + apply (lies_flat_map (fun j => flat_map (fun i => [rshow rf (U (gw m + i) (gw m + j) v)]) (range (nx m))) (nx m)); [| exact Hj ].
      intros; rewrite (flat_map_range_length _ 1); [ lia | lia | reflexivity ].
    + cbv beta. rewrite (Z.add_comm i), (Z.add_comm j).
      apply (lies_flat_map (fun i => [rshow rf (U (gw m + i) (gw m + j) v)]) 1); [ reflexivity | exact Hi ].
Qed.

Definition toks3 (m : mesh) (U : Z -> Z -> Z -> Z -> T) (v : Z) : list text :=
  flat_map (fun k => flat_map (fun j => flat_map (fun i => [rshow rf (U (gw m + i) (gw m + j) (gw m + k) v)])
    (range (nx m))) (range (ny m))) (range (nz m)).

Lemma listed3_tokens m U v : 0 <= gw m -> 1 <= nx m -> 1 <= ny m -> 1 <= nz m ->
  isize m * jsize m * ksize m < 2 ^ 31 ->
  image_listing (rshow rf) (listed3 rf m U v) (nx m) (ny m) (nz m)
    (fun i j k => U (i + gw m) (j + gw m) (k + gw m) v).
Proof.
  intros Hg Hx Hy Hz Ho.
  assert (Hi1 : 1 <= isize m) by (unfold isize; lia).
  assert (Hj1 : 1 <= jsize m) by (unfold jsize; lia).
  assert (Hk1 : 1 <= ksize m) by (unfold ksize; lia).
  assert (P1 : 1 <= isize m * jsize m) by nia.
  assert (P2 : isize m * jsize m <= isize m * jsize m * ksize m) by nia.
  exists (toks3 m U v); split; [| split ].
  - unfold listed3, toks3; cbv zeta.
    rewrite i32_mul, !i32_id, !u64_id by lia.
    rewrite (range_rows (isize m * jsize m) (ksize m)) by lia; rewrite flat_map_flat_map.
    transitivity (flat_map (fun k => if (kmin m + gw m <=? k) && (k <=? kmax m - gw m) then
        flat_map (fun j => flat_map (fun i => rshow rf (U (gw m + i) (gw m + j) k v) ++ sp) (range (nx m))) (range (ny m))
        else []) (range (ksize m))).
    + apply flat_map_ext_in; intros k Hk; apply in_range in Hk; rewrite flat_map_map.
      rewrite (range_rows (isize m) (jsize m)) by lia; rewrite flat_map_flat_map.
      destruct ((kmin m + gw m <=? k) && (k <=? kmax m - gw m)) eqn:Ck.
      * transitivity (flat_map (fun j => if (jmin m + gw m <=? j) && (j <=? jmax m - gw m) then
          flat_map (fun i => rshow rf (U (gw m + i) j k v) ++ sp) (range (nx m)) else []) (range (jsize m))).
        -- apply flat_map_ext_in; intros j Hj; apply in_range in Hj; rewrite flat_map_map.
           transitivity (flat_map (fun i => if (jmin m + gw m <=? j) && (j <=? jmax m - gw m) && (imin m + gw m <=? i) &&
             (i <=? imax m - gw m) then rshow rf (U i j k v) ++ sp else []) (range (isize m))).
           { apply flat_map_ext_in; intros i Hi; apply in_range in Hi.
             assert (B : 0 <= j * isize m + i < isize m * jsize m) by nia.
             assert (D1 : (k * (isize m * jsize m) + (j * isize m + i)) / (isize m * jsize m) = k).
             { rewrite Z.add_comm, Z.div_add by lia; rewrite Z.div_small by lia; lia. }
             rewrite D1.
             assert (D2 : (k * (isize m * jsize m) + (j * isize m + i) - k * (isize m * jsize m)) / isize m = j).
             { replace (k * (isize m * jsize m) + (j * isize m + i) - k * (isize m * jsize m)) with (i + j * isize m) by lia.
               rewrite Z.div_add by lia; rewrite Z.div_small by lia; lia. }
             rewrite D2, Ck.
             replace (k * (isize m * jsize m) + (j * isize m + i) - j * isize m - k * (isize m * jsize m)) with i by lia.
             reflexivity. }
           destruct ((jmin m + gw m <=? j) && (j <=? jmax m - gw m)) eqn:C.
           ++ cbn [andb]. rewrite (flat_map_window (fun i => rshow rf (U i j k v) ++ sp) _ (gw m) (nx m)); try (unfold isize; lia).
              ** reflexivity.
              ** intros i Hi; unfold imin, imax; f_equal.
                 destruct (Z.leb_spec i (nx m - 1 + 2 * gw m - gw m)), (Z.ltb_spec i (gw m + nx m)); try reflexivity; lia.
           ++ apply flat_map_nil; intros i _; reflexivity.
        -- rewrite (flat_map_window (fun j => flat_map (fun i => rshow rf (U (gw m + i) j k v) ++ sp) (range (nx m))) _ (gw m) (ny m));
             try (unfold jsize; lia).
           ++ reflexivity.
           ++ intros j Hj; unfold jmin, jmax; f_equal.
              destruct (Z.leb_spec j (ny m - 1 + 2 * gw m - gw m)), (Z.ltb_spec j (gw m + ny m)); try reflexivity; lia.
      * apply flat_map_nil; intros j Hj; apply in_range in Hj; rewrite flat_map_map; apply flat_map_nil; intros i Hi; apply in_range in Hi.
        assert (B : 0 <= j * isize m + i < isize m * jsize m) by nia.
        assert (D1 : (k * (isize m * jsize m) + (j * isize m + i)) / (isize m * jsize m) = k).
        { rewrite Z.add_comm, Z.div_add by lia; rewrite Z.div_small by lia; lia. }
        rewrite D1, Ck; reflexivity.
    + rewrite (flat_map_window (fun k => flat_map (fun j => flat_map (fun i => rshow rf (U (gw m + i) (gw m + j) k v) ++ sp)
         (range (nx m))) (range (ny m))) _ (gw m) (nz m)); try (unfold ksize; lia).
      * rewrite flat_map_flat_map; apply flat_map_ext_in; intros k _.
        rewrite flat_map_flat_map; apply flat_map_ext_in; intros j _; rewrite flat_toks; reflexivity.
      * intros k Hk; unfold kmin, kmax; f_equal.
        destruct (Z.leb_spec k (nz m - 1 + 2 * gw m - gw m)), (Z.ltb_spec k (gw m + nz m)); try reflexivity; lia.
  - unfold toks3; rewrite (flat_map_range_length _ (ny m * nx m)); [ lia | lia |].
    intros k Hk; rewrite (flat_map_range_length _ (nx m)); [ lia | lia |].
    intros j Hj; rewrite (flat_map_range_length _ 1); [ lia | lia | reflexivity ].
  - intros i j k Hi Hj Hk; unfold toks3.
    replace (i + nx m * (j + ny m * k)) with (k * (ny m * nx m) + (j * nx m + i * 1)) by lia.
    eapply lies_trans.
    + apply (lies_flat_map (fun k => flat_map (fun j => flat_map (fun i => [rshow rf (U (gw m + i) (gw m + j) (gw m + k) v)])
        (range (nx m))) (range (ny m))) (ny m * nx m)); [| exact Hk ].
      intros; rewrite (flat_map_range_length _ (nx m)); [ lia | lia |].
      intros; rewrite (flat_map_range_length _ 1); [ lia | lia | reflexivity ].
    + eapply lies_trans.
      * cbv beta. apply (lies_flat_map (fun j => flat_map (fun i => [rshow rf (U (gw m + i) (gw m + j) (gw m + k) v)]) (range (nx m))) (nx m)); [| exact Hj ].
        intros; rewrite (flat_map_range_length _ 1); [ lia | lia | reflexivity ].
      * cbv beta. rewrite (Z.add_comm i), (Z.add_comm j), (Z.add_comm k).
        apply (lies_flat_map (fun i => [rshow rf (U (gw m + i) (gw m + j) (gw m + k) v)]) 1); [ reflexivity | exact Hi ].
Qed.

(** ** Offsets *)
Lemma offset2_ok m v nv : 1 <= nx m -> 1 <= ny m -> 0 <= v < nv -> (nv - 1) * (nx m * ny m) < 2 ^ 31 -> nv <= 8 ->
  offset2 rf m v = v * (8 + nx m * ny m * 1 * rsize rf).
Proof.
  intros Hx Hy Hv Ho H8; destruct rok as (Hr & _); unfold offset2; rewrite i32_mul.
  assert (B : 0 <= v * (nx m * ny m) < 2 ^ 31) by nia.
  replace (v * nx m * ny m) with (v * (nx m * ny m)) by lia; rewrite i32_id by lia.
  rewrite (u64_id (v * 8)) by lia; rewrite (u64_id (v * (nx m * ny m) * rsize rf)) by (destruct Hr as [-> | ->]; lia).
  rewrite u64_id by (destruct Hr as [-> | ->]; lia); lia.
Qed.

Lemma offset3_ok m v nv : 1 <= nx m -> 1 <= ny m -> 1 <= nz m -> 0 <= v < nv ->
  (nv - 1) * (nx m * ny m * nz m) < 2 ^ 31 -> nv <= 8 ->
  offset3 rf m v = v * (8 + nx m * ny m * nz m * rsize rf).
Proof.
  intros Hx Hy Hz Hv Ho H8; destruct rok as (Hr & _); unfold offset3; rewrite i32_mul.
  assert (P : 1 <= nx m * ny m * nz m) by nia.
  assert (B : 0 <= v * (nx m * ny m * nz m) < 2 ^ 31) by nia.
  rewrite <- Z.mul_assoc, i32_mul.
  replace (v * nx m * (ny m * nz m)) with (v * (nx m * ny m * nz m)) by lia; rewrite i32_id by lia.
  rewrite (u64_id (v * 8)) by lia; rewrite (u64_id (v * (nx m * ny m * nz m) * rsize rf)) by (destruct Hr as [-> | ->]; lia).
  rewrite u64_id by (destruct Hr as [-> | ->]; lia); lia.
Qed.

(** ** Whole files *)
Lemma prologue_order ascii ver : occurs (prologue rf ascii ver)
  (q "byte_order=""" ++ q (if big rf then "BigEndian" else "LittleEndian") ++ q """").
Proof.
  unfold prologue; apply occurs_app_r; apply occurs_app_r; apply occurs_app_r.
  change (lit """ byte_order=""") with (q """ " ++ q "byte_order=""").
  change (lit """ header_type=""UInt64"">") with (q """" ++ q " header_type=""UInt64"">").
  rewrite <- app_assoc; apply occurs_app_r.
  exists 0; exists [], (q " header_type=""UInt64"">" ++ nl); split; [| reflexivity ].
  cbn [app]; rewrite <- !app_assoc; reflexivity.
Qed.

Lemma extents_box x0 x1 y0 y1 z0 z1 o s t : occurs (extents x0 x1 y0 y1 z0 z1 o s t)
  (q "<ImageData WholeExtent=""" ++ six x0 x1 y0 y1 z0 z1 ++ q """").
Proof.
  unfold extents; change (lit "  <ImageData WholeExtent=""") with (q "  " ++ q "<ImageData WholeExtent=""").
  rewrite <- app_assoc; apply occurs_app_r.
  change (lit """ Origin=""") with (q """" ++ q " Origin=""").
  exists 0; exists []; eexists; split; [ cbn [app]; rewrite <- !app_assoc; reflexivity | reflexivity ].
Qed.

Definition line_of (offset : Z -> Z) (v : Z) : text :=
  lit "     <DataArray type=""" ++ real_type rf ++ lit """ Name=""" ++ name_of v ++
  lit """ format=""appended"" offset=""" ++ show_long (offset v) ++ lit """ />" ++ nl.

Lemma raw_content head offset heavy listed nv b nx ny nz cell :
  0 <= nv <= 8 -> 0 <= nx * ny * nz * rsize rf ->
  occurs head (q "byte_order=""" ++ q (if big rf then "BigEndian" else "LittleEndian") ++ q """") ->
  (exists e, occurs head (q "<ImageData WholeExtent=""" ++ e ++ q """") /\ box_text e b) ->
  (forall v, 0 <= v < nv -> zlen (heavy v) = 8 + nx * ny * nz * rsize rf /\
     image_block (big rf) (rsize rf) (rbytes rf) (heavy v) 0 nx ny nz (fun i j k => cell i j k v)) ->
  (forall v, 0 <= v < nv -> offset v = v * (8 + nx * ny * nz * rsize rf) /\ offset v < 2 ^ 64) ->
  exists file, content rf false head offset heavy listed nv = Some file /\
    raw_image (big rf) (rsize rf) (rbytes rf) file nv b nx ny nz cell.
Proof.
  intros Hn HP Ho (e & He & Hb) Hh Hof; unfold content, binary.
  rewrite (collect_some (declare rf offset) (line_of offset)).
  2:{ intros v Hv; apply in_range in Hv; unfold declare; rewrite (proj1 (name_some v ltac:(lia))); reflexivity. }
  eexists; split; [ reflexivity |].
  exists (head ++ lit "    <CellData>" ++ nl), (map (line_of offset) (range nv)),
    (lit "    </CellData>" ++ nl ++ lit "  </Piece>" ++ nl ++ lit "  </ImageData>" ++ nl),
    (flat_map heavy (range nv)), e; split; [| split; [| split; [| split; [| split; [| split ] ] ] ] ].
  - rewrite <- !app_assoc; reflexivity.
  - apply occurs_app_l; exact Ho.
  - apply occurs_app_l; exact He.
  - exact Hb.
  - rewrite map_length, range_length by lia; reflexivity.
  - apply flat_map_range_length; [ lia |]; intros v Hv; apply Hh; exact Hv.
  - intros v Hv; exists (name_of v), (line_of offset v), (offset v); repeat split.
    + apply name_some; lia.
    + apply nth_map_range; exact Hv.
    + exists (real_type rf), (show_long (offset v)); split; [ reflexivity |]; apply show_shows.
      destruct (Hof v Hv) as (E & L); split; [ rewrite E; apply Z.mul_nonneg_nonneg; lia | exact L ].
    + destruct (Hof v Hv) as (-> & _); destruct (Hh v Hv) as (_ & Hd).
      eapply block_at in Hd; [ apply Hd |].
      apply lies_flat_map; [| exact Hv ]; intros x Hx; apply Hh; exact Hx.
    + destruct (Hof v Hv) as (-> & _); destruct (Hh v Hv) as (_ & Hd).
      eapply block_at in Hd; [ apply Hd |].
      apply lies_flat_map; [| exact Hv ]; intros x Hx; apply Hh; exact Hx.
Qed.

Definition array_of (listed : Z -> text) (v : Z) : text :=
  lit "    <DataArray type=""" ++ real_type rf ++ lit """ Name=""" ++ name_of v ++
  lit """ format=""ascii"" >" ++ nl ++ listed v ++ nl ++ lit "    </DataArray>" ++ nl.

Lemma text_content head offset heavy listed nv b nx ny nz cell :
  0 <= nv <= 8 ->
  (exists e, occurs head (q "<ImageData WholeExtent=""" ++ e ++ q """") /\ box_text e b) ->
  (forall v, 0 <= v < nv -> image_listing (rshow rf) (listed v) nx ny nz (fun i j k => cell i j k v)) ->
  exists file, content rf true head offset heavy listed nv = Some file /\
    text_image (rshow rf) file nv b nx ny nz cell.
Proof.
  intros Hn (e & He & Hb) Hl; unfold content, plain.
  rewrite (collect_some (listing rf listed) (array_of listed)).
  2:{ intros v Hv; apply in_range in Hv; unfold listing; rewrite (proj1 (name_some v ltac:(lia))); reflexivity. }
  eexists; split; [ reflexivity |].
  exists (head ++ lit "    <CellData>" ++ nl), (map (array_of listed) (range nv)), e; split; [| split; [| split; [| split ] ] ].
  - rewrite <- !app_assoc; reflexivity.
  - apply occurs_app_l; exact He.
  - exact Hb.
  - rewrite map_length, range_length by lia; reflexivity.
  - intros v Hv; exists (name_of v), (real_type rf), (listed v); repeat split.
    + apply name_some; lia.
    + rewrite nth_map_range by exact Hv; reflexivity.
    + apply Hl; exact Hv.
Qed.

End One.
