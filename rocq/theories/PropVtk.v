(** * Image output: C32 and C46 *)
From Coq Require Import Ascii String ZArith List Bool Lia.
Import ListNotations.
From Verif Require Import Num Grid GridFacts Config ConfigSpec ConfigNumbers Exec Boundaries BoundariesSpec BoundariesFacts Halo HaloFacts Vtk VtkSpec VtkFacts.
Local Open Scope Z_scope.

Local Notation length := List.length.
Local Notation zlen l := (Z.of_nat (List.length l)).

(** ** A format for the examples: integers on eight bytes, printed in decimal *)
Definition ex_format : rformat Z := mkrformat Z false 8 (u64_bytes false) show_long 0.
Lemma ex_format_ok : real_ok ex_format.
Proof. split; [ right; reflexivity |]; intros x; apply (u64_bytes_length false x). Qed.
Definition ex_geom : rgeom Z := mkrgeom Z 1 1 1 0 0 0.
Definition ex_out (a : bool) : outconf := mkoutconf (lit ".") (lit "run") a.
Definition ex_mesh : mesh := mkmesh 3 2 2 2 5 false (fun _ => 2).

Section C32.
Context {T : Type} (rf : rformat T) (rok : real_ok rf).
Variables (m : mesh) (ge : rgeom T) (o : outconf) (nv step : Z) (debug : text).
Hypothesis Hg : 0 <= gw m.
Hypothesis Hx : 1 <= nx m.
Hypothesis Hy : 1 <= ny m.
Hypothesis Hn : 1 <= nv <= 8.

(** ** C32: the declared offset of each variable is where its block starts, and the
    block lists the physical cells, x varying fastest *)
Theorem C32_raw_2D U : o_ascii o = false -> nx m * ny m < 2 ^ 31 -> (nv - 1) * (nx m * ny m) < 2 ^ 31 ->
  exists file, snd (save_VTK_2D rf m ge o U nv step debug) = Some file /\
    raw_image (big rf) (rsize rf) (rbytes rf) file nv (0, nx m, 0, ny m, 0, 0) (nx m) (ny m) 1
      (fun i j k v => U (i + gw m) (j + gw m) v).
Proof.
  intros Ha H1 H2; unfold save_VTK_2D; cbn [snd]; rewrite Ha; apply raw_content; try lia.
  - destruct rok as ([-> | ->] & _); lia.
  - apply occurs_app_l, prologue_order.
  - eexists; split; [ apply occurs_app_r, extents_box | apply six_box; nia ].
  - intros v Hv; apply (heavy2_block rf rok m U v); assumption.
  - intros v Hv; rewrite (offset2_ok rf rok m v nv) by (try assumption; lia); split; [ reflexivity |].
    destruct rok as ([-> | ->] & _); nia.
Qed.

Theorem C32_text_2D U : o_ascii o = true -> isize m * jsize m < 2 ^ 31 ->
  exists file, snd (save_VTK_2D rf m ge o U nv step debug) = Some file /\
    text_image (rshow rf) file nv (0, nx m, 0, ny m, 0, 0) (nx m) (ny m) 1
      (fun i j k v => U (i + gw m) (j + gw m) v).
Proof.
  intros Ha H1; unfold save_VTK_2D; cbn [snd]; rewrite Ha; apply text_content; try lia.
  - eexists; split; [ apply occurs_app_r, extents_box | apply six_box; unfold isize, jsize in H1; nia ].
  - intros v Hv; rewrite i32_id by (unfold isize, jsize in *; nia); apply (listed2_tokens rf m U v); assumption.
Qed.

Hypothesis Hz : 1 <= nz m.

Theorem C32_raw_3D U : o_ascii o = false -> nx m * ny m * nz m < 2 ^ 31 -> (nv - 1) * (nx m * ny m * nz m) < 2 ^ 31 ->
  exists file, snd (save_VTK_3D rf m ge o U nv step debug) = Some file /\
    raw_image (big rf) (rsize rf) (rbytes rf) file nv (0, nx m, 0, ny m, 0, nz m) (nx m) (ny m) (nz m)
      (fun i j k v => U (i + gw m) (j + gw m) (k + gw m) v).
Proof.
  intros Ha H1 H2; unfold save_VTK_3D; cbn [snd]; rewrite Ha.
  assert (P : 1 <= nx m * ny m) by nia.
  assert (P1 : nx m <= nx m * ny m) by nia. assert (P2 : ny m <= nx m * ny m) by nia.
  assert (P3 : nx m * ny m <= nx m * ny m * nz m) by nia. assert (P4 : nz m <= nx m * ny m * nz m) by nia.
  apply raw_content; try lia.
  - destruct rok as ([-> | ->] & _); lia.
  - apply occurs_app_l, prologue_order.
  - eexists; split; [ apply occurs_app_r, extents_box | apply six_box; lia ].
  - intros v Hv; apply (heavy3_block rf rok m U v); assumption.
  - intros v Hv; rewrite (offset3_ok rf rok m v nv) by (try assumption; lia); split; [ reflexivity |].
    assert (0 <= v * (nx m * ny m * nz m) < 2 ^ 31) by nia.
    destruct rok as ([-> | ->] & _); lia.
Qed.

Theorem C32_text_3D U : o_ascii o = true -> isize m * jsize m * ksize m < 2 ^ 31 ->
  exists file, snd (save_VTK_3D rf m ge o U nv step debug) = Some file /\
    text_image (rshow rf) file nv (0, nx m, 0, ny m, 0, nz m) (nx m) (ny m) (nz m)
      (fun i j k v => U (i + gw m) (j + gw m) (k + gw m) v).
Proof.
  intros Ha H1; unfold save_VTK_3D; cbn [snd]; rewrite Ha; apply text_content; try lia.
  - eexists; split; [ apply occurs_app_r, extents_box |].
    unfold isize, jsize, ksize in H1.
    assert (P1 : nx m <= (nx m + 2 * gw m) * (ny m + 2 * gw m)) by nia.
    assert (P2 : ny m <= (nx m + 2 * gw m) * (ny m + 2 * gw m)) by nia.
    assert (P3 : (nx m + 2 * gw m) * (ny m + 2 * gw m) * 1 <= (nx m + 2 * gw m) * (ny m + 2 * gw m) * (nz m + 2 * gw m)) by
      (apply Z.mul_le_mono_nonneg_l; nia).
    assert (P4 : nz m <= (nx m + 2 * gw m) * (ny m + 2 * gw m) * (nz m + 2 * gw m)) by
      (assert (1 * nz m <= (nx m + 2 * gw m) * (ny m + 2 * gw m) * (nz m + 2 * gw m)) by
         (apply Z.mul_le_mono_nonneg; nia); lia).
    apply six_box; lia.
  - intros v Hv; apply (listed3_tokens rf m U v); assumption.
Qed.

End C32.

(** ** Where the size arithmetic overflows, the declared offset is wrong: this happens
    for every variable [v] with 2^31 <= v times the number of cells *)
Theorem C32_overflow_refuted {T : Type} (rf : rformat T) (m : mesh) (v : Z) : real_ok rf ->
  1 <= nx m -> 1 <= ny m -> 1 <= nz m -> 0 <= v ->
  (2 ^ 31 <= v * (nx m * ny m) < 2 ^ 60 -> offset2 rf m v <> v * (8 + nx m * ny m * rsize rf)) /\
  (2 ^ 31 <= v * (nx m * ny m * nz m) < 2 ^ 60 -> offset3 rf m v <> v * (8 + nx m * ny m * nz m * rsize rf)).
Proof.
  intros rok Hx Hy Hz Hv.
  assert (K : forall c, 2 ^ 31 <= v * c < 2 ^ 60 ->
     u64 (u64 (i32 (v * c) * rsize rf) + u64 (v * 8)) <> v * (8 + c * rsize rf)).
  { intros c Hc E; destruct (i32_shift (v * c)) as (k & Hk); assert (R := i32_range (v * c)).
    assert (Hk0 : k < 0) by lia.
    unfold u64 in E; rewrite <- Z.add_mod in E by lia.
    rewrite Hk in E.
    assert (Hd : ((v * c + k * 2 ^ 32) * rsize rf + v * 8 - v * (8 + c * rsize rf)) mod 2 ^ 64 = 0).
    { rewrite Zminus_mod, E, Zminus_mod_idemp_r, Z.sub_diag; reflexivity. }
    replace ((v * c + k * 2 ^ 32) * rsize rf + v * 8 - v * (8 + c * rsize rf)) with (k * 2 ^ 32 * rsize rf) in Hd by lia.
    apply Z.mod_divide in Hd; [| lia ]; destruct Hd as (q & Hq).
    assert (Hlow : - 2 ^ 60 <= k * 2 ^ 32) by lia.
    destruct rok as ([Hr | Hr] & _); rewrite Hr in Hq; lia. }
  split; intros H.
  - unfold offset2; rewrite i32_mul; replace (v * nx m * ny m) with (v * (nx m * ny m)) by lia.
    apply K; exact H.
  - unfold offset3; rewrite i32_mul, <- Z.mul_assoc, i32_mul.
    replace (v * nx m * (ny m * nz m)) with (v * (nx m * ny m * nz m)) by lia; apply K; exact H.
Qed.

(** a 1024^3 run, the third variable *)
Example C32_overflow_case :
  2 ^ 31 <= 2 * (1024 * 1024 * 1024) < 2 ^ 60 /\
  offset3 ex_format (mkmesh 1024 1024 1024 2 5 false (fun _ => 2)) 2 = 2 ^ 64 - 2 ^ 34 + 16.
Proof. split; [ lia | vm_compute; reflexivity ]. Qed.

Definition ex_field (i j k v : Z) : Z := 1000 * v + 100 * k + 10 * j + i.
Example C32_case : real_ok ex_format /\
  exists file, snd (save_VTK_3D ex_format ex_mesh ex_geom (ex_out false) ex_field 5 7 []) = Some file /\
    raw_image false 8 (u64_bytes false) file 5 (0, 3, 0, 2, 0, 2) 3 2 2
      (fun i j k v => 1000 * v + 100 * (k + 2) + 10 * (j + 2) + (i + 2)) /\
    (zlen file = 1253 /\
     fst (save_VTK_3D ex_format ex_mesh ex_geom (ex_out false) ex_field 5 7 []) = lit "./run_0000007.vti").
Proof.
  split; [ apply ex_format_ok |].
  destruct (C32_raw_3D ex_format ex_format_ok ex_mesh ex_geom (ex_out false) 5 7 [] ltac:(cbn; lia) ltac:(cbn; lia)
    ltac:(cbn; lia) ltac:(cbn; lia) ltac:(cbn; lia) ex_field eq_refl ltac:(cbn; lia) ltac:(cbn; lia)) as (f & E & R).
  exists f; split; [ exact E |]; split; [ exact R |].
  split; [| vm_compute; reflexivity ].
  vm_compute in E; injection E as <-; vm_compute; reflexivity.
Qed.

(** ** Names of the files: one per output *)
Lemma dvalue_zeros k t : dvalue (repeat "0"%char k ++ t) = dvalue t.
Proof. induction k as [|k IH]; [ reflexivity |]; cbn [repeat app]; unfold dvalue in *; cbn [fold_left]; exact IH. Qed.

Lemma padded_value w n : 0 <= n < 2 ^ 64 -> dvalue (padded w n) = n /\ Forall decimal (padded w n).
Proof.
  intros H; unfold padded; destruct (show_shows n H) as (_ & Hd & Hv); cbv zeta; rewrite dvalue_zeros; split; [ exact Hv |].
  apply Forall_app; split; [| exact Hd ]; apply Forall_forall; intros c Hc; apply repeat_spec in Hc; subst c.
  unfold decimal; cbn; lia.
Qed.

Lemma split_decimal a b c d (x y : ascii) : Forall decimal a -> Forall decimal b -> ~ decimal x -> ~ decimal y ->
  a ++ x :: c = b ++ y :: d -> a = b /\ c = d.
Proof.
  revert b; induction a as [|p a IH]; intros [|p' b] Ha Hb Hx Hy E; cbn [app] in E; injection E as E1 E2.
  - split; [ reflexivity | exact E2 ].
  - subst; inversion Hb; subst; contradiction.
  - subst; inversion Ha; subst; contradiction.
  - subst p'; inversion Ha; inversion Hb; subst.
    destruct (IH b ltac:(assumption) ltac:(assumption) Hx Hy E2) as (-> & ->); split; reflexivity.
Qed.

Theorem C32_one_file_per_output o s1 s2 : 0 <= s1 < 2 ^ 31 -> 0 <= s2 < 2 ^ 31 ->
  file_name o [] s1 = file_name o [] s2 -> s1 = s2.
Proof.
  intros H1 H2 E; unfold file_name in E; cbn [List.length Nat.eqb] in E.
  do 4 apply app_inv_head in E.
  change (lit ".vti") with ("."%char :: lit "vti") in E.
  destruct (padded_value 7 s1 ltac:(lia)) as (V1 & D1); destruct (padded_value 7 s2 ltac:(lia)) as (V2 & D2).
  apply split_decimal in E; [| assumption | assumption | unfold decimal; cbn; lia | unfold decimal; cbn; lia ].
  destruct E as (E & _); rewrite E in V1; congruence.
Qed.

(** ** C46: distributed output *)

(** [lo <= c < hi] in the three directions *)
Definition in_box (b : Z * Z * Z * Z * Z * Z) (I J K : Z) : Prop :=
  let '(x0, x1, y0, y1, z0, z1) := b in x0 <= I < x1 /\ y0 <= J < y1 /\ z0 <= K < z1.

(** The boxes of [n] pieces cover the box once. *)
Definition tile (n : Z) (boxes : Z -> Z * Z * Z * Z * Z * Z) (NX NY NZ : Z) : Prop :=
  forall I J K, 0 <= I < NX -> 0 <= J < NY -> 0 <= K < NZ ->
    exists r, 0 <= r < n /\ in_box (boxes r) I J K /\
      forall r', 0 <= r' < n -> in_box (boxes r') I J K -> r' = r.

Definition box_of (m : mesh) (g : pgrid) (r : Z) : Z * Z * Z * Z * Z * Z :=
  let '(x, y, z) := cart_coords g r in
  (x * nx m, x * nx m + nx m, y * ny m, y * ny m + ny m, z * nz m, z * nz m + nz m).

Lemma in_block c n I : 1 <= n -> (c * n <= I < c * n + n <-> c = I / n).
Proof.
  intros Hn; assert (D := Z.div_mod I n ltac:(lia)); assert (B := Z.mod_pos_bound I n ltac:(lia)).
  split.
  - intros H; apply (Z.div_unique I n c (I - n * c)); [ left; lia | lia ].
  - intros ->; lia.
Qed.

Lemma boxes_tile m g : pgrid_ok g -> 1 <= nx m -> 1 <= ny m -> 1 <= nz m ->
  tile (nprocs g) (box_of m g) (mx g * nx m) (my g * ny m) (mz g * nz m).
Proof.
  intros gok Hx Hy Hz I J K HI HJ HK.
  assert (B : forall c n N, 1 <= n -> 0 <= c < N * n -> 0 <= c / n < N).
  { intros c n N Hn Hc; split; [ apply Z.div_pos; lia | apply Z.div_lt_upper_bound; lia ]. }
  assert (B1 := B I (nx m) (mx g) Hx HI); assert (B2 := B J (ny m) (my g) Hy HJ); assert (B3 := B K (nz m) (mz g) Hz HK).
  pose (r := cart_rank g (I / nx m, J / ny m, K / nz m)).
  assert (Er : cart_coords g r = (I / nx m, J / ny m, K / nz m)).
  { unfold r; rewrite (coords_rank g gok); unfold HaloFacts.wrap.
    rewrite !Z.mod_small by assumption; reflexivity. }
  exists r; split; [ apply (rank_range g gok) |]; split.
  - unfold in_box, box_of; rewrite Er; rewrite !in_block by assumption; auto.
  - intros r' Hr' Hin; unfold in_box, box_of in Hin.
    destruct (cart_coords g r') as [[x y] z] eqn:E; rewrite !in_block in Hin by assumption.
    destruct Hin as (-> & -> & ->); rewrite <- (rank_coords g gok r' Hr'), E; reflexivity.
Qed.

(** A line of the header: the box of the piece and the file it is in *)
Definition piece_of_header (indent : string) (tail : chars) (line : chars) (b : Z * Z * Z * Z * Z * Z) (name : chars) : Prop :=
  exists ext, line = q indent ++ q "<Piece Extent=""" ++ ext ++ tail ++ q """ Source=""" ++ name ++ q """/>" ++ [eol] /\
    box_text ext b.

Lemma two_ends_eq c n : 0 <= c -> 1 <= n -> c * n + n < 2 ^ 31 ->
  two_ends c n = show_long (c * n) ++ sp ++ show_long (c * n + n) ++ sp.
Proof.
  intros Hc Hn H; unfold two_ends; destruct (Z.eqb_spec c 0) as [-> | Hc0]; [ reflexivity |].
  rewrite !(i32_id (c * n)) by nia; rewrite i32_id by nia; reflexivity.
Qed.

Section C46.
Context {T : Type} (rf : rformat T) (rok : real_ok rf).
Variables (m : mesh) (g : pgrid) (ge : rgeom T) (o : outconf) (nv step : Z).
Hypothesis gok : pgrid_ok g.
Hypothesis Hg : 0 <= gw m.
Hypothesis Hx : 1 <= nx m.
Hypothesis Hy : 1 <= ny m.
Hypothesis Hz : 1 <= nz m.
Hypothesis Hn : 1 <= nv <= 8.
Hypothesis Hraw : o_ascii o = false.
Hypothesis Sx : mx g * nx m < 2 ^ 31.
Hypothesis Sy : my g * ny m < 2 ^ 31.
Hypothesis Sz : mz g * nz m < 2 ^ 31.

Lemma coords_bounds r : 0 <= r < nprocs g -> exists x y z, cart_coords g r = (x, y, z) /\
  0 <= x < mx g /\ 0 <= y < my g /\ 0 <= z < mz g /\
  0 <= x * nx m /\ x * nx m + nx m < 2 ^ 31 /\ 0 <= y * ny m /\ y * ny m + ny m < 2 ^ 31 /\
  0 <= z * nz m /\ z * nz m + nz m < 2 ^ 31.
Proof.
  intros Hr; assert (I := coords_inside g gok r Hr); destruct (cart_coords g r) as [[x y] z].
  assert (I1 := I AX); assert (I2 := I AY); assert (I3 := I AZ); cbn [coord mdim] in I1, I2, I3.
  exists x, y, z; split; [ reflexivity |].
  assert (x * nx m + nx m <= mx g * nx m) by nia.
  assert (y * ny m + ny m <= my g * ny m) by nia.
  assert (z * nz m + nz m <= mz g * nz m) by nia.
  repeat split; try lia; apply Z.mul_nonneg_nonneg; lia.
Qed.

Definition pline (v : Z) : text :=
  lit "      <PDataArray type=""" ++ real_type rf ++ lit """ Name=""" ++ name_of v ++ lit """/>" ++ nl.
Lemma pdeclared : collect (pdeclare rf) (range nv) = Some (concat (map pline (range nv))).
Proof.
  apply collect_some; intros v Hv; apply in_range in Hv; unfold pdeclare; rewrite (proj1 (name_some v ltac:(lia))); reflexivity.
Qed.

Definition hbefore (z q : Z) (dz : T) : text :=
  lit "<?xml version=""1.0""?>" ++ nl ++
  lit "<VTKFile type=""PImageData"" version=""1.0"" byte_order=""" ++
  lit (if big rf then "BigEndian" else "LittleEndian") ++ lit """ header_type=""UInt64"">" ++ nl ++
  lit "  <PImageData WholeExtent=""" ++
  six 0 (i32 (mx g * nx m)) 0 (i32 (my g * ny m)) 0 (i32 (q * z)) ++
  lit """ GhostLevel=""0"" Origin=""" ++ three rf (g_xmin ge) (g_ymin ge) (g_zmin ge) ++
  lit """ Spacing=""" ++ three rf (g_dx ge) (g_dy ge) dz ++ lit """>" ++ nl ++
  lit "    <PCellData Scalars=""Scalars_"">" ++ nl ++ concat (map pline (range nv)) ++ lit "    </PCellData>" ++ nl.
Definition hafter : text := lit "</PImageData>" ++ nl ++ lit "</VTKFile>" ++ nl.

Lemma hbefore_extent z p dz :
  occurs (hbefore z p dz) (q "<PImageData WholeExtent=""" ++ six 0 (i32 (mx g * nx m)) 0 (i32 (my g * ny m)) 0 (i32 (p * z)) ++ q """").
Proof.
  unfold hbefore; do 6 apply occurs_app_r.
  change (lit "  <PImageData WholeExtent=""") with (q "  " ++ q "<PImageData WholeExtent=""").
  change (lit """ GhostLevel=""0"" Origin=""") with (q """" ++ q " GhostLevel=""0"" Origin=""").
  rewrite <- app_assoc; apply occurs_app_r.
  exists 0; exists []; eexists; split; [ cbn [app]; rewrite <- !app_assoc; reflexivity | reflexivity ].
Qed.

(** In a 3D run the pieces the header lists tile the whole mesh; each is in the file its
    process writes, which declares the same box and holds that process's cells. *)
Theorem C46_pieces_3D U : nx m * ny m * nz m < 2 ^ 31 -> (nv - 1) * (nx m * ny m * nz m) < 2 ^ 31 ->
  fst (write_pvti_header rf false m g ge o nv step) = o_dir o ++ q "/" ++ o_prefix o ++ q "_time" ++ padded 7 step ++ q ".pvti" /\
  exists header before lines after ext boxes names,
    snd (write_pvti_header rf false m g ge o nv step) = Some header /\
    header = before ++ concat lines ++ after /\
    occurs before (q "<PImageData WholeExtent=""" ++ ext ++ q """") /\
    box_text ext (0, mx g * nx m, 0, my g * ny m, 0, mz g * nz m) /\
    zlen lines = nprocs g /\
    tile (nprocs g) boxes (mx g * nx m) (my g * ny m) (mz g * nz m) /\
    forall r, 0 <= r < nprocs g -> exists line file,
      nth_error lines (Z.to_nat r) = Some line /\ piece_of_header " " (q " ") line (boxes r) (names r) /\
      save_VTK_3D_mpi rf m g r ge o (U r) nv step [] = (o_dir o ++ q "/" ++ names r, Some file) /\
      raw_image (big rf) (rsize rf) (rbytes rf) file nv (boxes r) (nx m) (ny m) (nz m)
        (fun i j k v => U r (i + gw m) (j + gw m) (k + gw m) v).
Proof.
  intros H1 H2; split; [ reflexivity |].
  assert (Mx : 1 <= mx g /\ 1 <= my g /\ 1 <= mz g) by exact gok.
  unfold write_pvti_header; cbn [snd]; rewrite pdeclared.
  eexists; exists (hbefore (nz m) (mz g) (g_dz ge)), (map (piece_line3 m g o step) (range (nprocs g))), hafter.
  eexists; exists (box_of m g), (piece_name o step).
  split; [ reflexivity |]; split; [| split; [| split; [| split; [| split ] ] ] ].
  - rewrite flat_map_concat_map; unfold hbefore, hafter; rewrite <- !app_assoc; reflexivity.
  - apply hbefore_extent.
  - rewrite !i32_id by nia; apply six_box; nia.
  - rewrite map_length, range_length; [ reflexivity |]; unfold nprocs; nia.
  - apply boxes_tile; assumption.
  - intros r Hr; destruct (coords_bounds r Hr) as (x & y & z & Ec & Bx & By & Bz & X0 & X1 & Y0 & Y1 & Z0 & Z1).
    assert (P : 1 <= nx m * ny m) by nia.
    assert (P3 : nx m * ny m <= nx m * ny m * nz m) by nia.
    destruct (raw_content rf
      (prologue rf false (lit "1.0") ++ extents (x * nx m) (x * nx m + nx m) (y * ny m) (y * ny m + ny m) (z * nz m) (z * nz m + nz m)
        (three rf (g_xmin ge) (g_ymin ge) (g_zmin ge)) (three rf (g_dx ge) (g_dy ge) (g_dz ge)) [])
      (offset3 rf m) (heavy3 rf m (U r)) (listed3 rf m (U r)) nv (box_of m g r) (nx m) (ny m) (nz m)
      (fun i j k v => U r (i + gw m) (j + gw m) (k + gw m) v)) as (file & Ef & Hf).
    + lia.
    + destruct rok as ([-> | ->] & _); lia.
    + apply occurs_app_l, prologue_order.
    + unfold box_of; rewrite Ec; eexists; split; [ apply occurs_app_r, extents_box | apply six_box; lia ].
    + intros v Hv; apply (heavy3_block rf rok m (U r) v); assumption.
    + intros v Hv; rewrite (offset3_ok rf rok m v nv) by (try assumption; lia); split; [ reflexivity |].
      assert (0 <= v * (nx m * ny m * nz m) < 2 ^ 31) by nia.
      destruct rok as ([-> | ->] & _); lia.
    + exists (piece_line3 m g o step r), file; split; [ apply nth_map_range; exact Hr |]; split; [| split ].
      * unfold piece_of_header, piece_line3, box_of; rewrite Ec, !two_ends_eq by lia.
        exists (six (x * nx m) (x * nx m + nx m) (y * ny m) (y * ny m + ny m) (z * nz m) (z * nz m + nz m)); split.
        -- unfold six; rewrite <- !app_assoc; reflexivity.
        -- apply six_box; lia.
      * unfold save_VTK_3D_mpi; rewrite Ec, Hraw; rewrite !(i32_id (x * nx m)), !(i32_id (y * ny m)), !(i32_id (z * nz m)) by lia.
        rewrite !i32_id by lia; rewrite Ef; f_equal.
      * exact Hf.
Qed.

(** In a 2D run likewise along x and y; but every piece of the header covers the layer
    [0, 1) along z, while the whole extent is empty along z and the file of the piece
    declares [0, 0). *)
Theorem C46_pieces_2D_refuted U : mz g = 1 -> nz m = 1 -> nx m * ny m < 2 ^ 31 -> (nv - 1) * (nx m * ny m) < 2 ^ 31 ->
  exists header before lines after ext boxes names,
    snd (write_pvti_header rf true m g ge o nv step) = Some header /\
    header = before ++ concat lines ++ after /\
    occurs before (q "<PImageData WholeExtent=""" ++ ext ++ q """") /\
    box_text ext (0, mx g * nx m, 0, my g * ny m, 0, 0) /\
    zlen lines = nprocs g /\
    tile (nprocs g) boxes (mx g * nx m) (my g * ny m) 1 /\
    forall r, 0 <= r < nprocs g -> exists line file x0 x1 y0 y1,
      boxes r = (x0, x1, y0, y1, 0, 1) /\
      nth_error lines (Z.to_nat r) = Some line /\ piece_of_header "    " [] line (boxes r) (names r) /\
      save_VTK_2D_mpi rf m g r ge o (U r) nv step [] = (o_dir o ++ q "/" ++ names r, Some file) /\
      raw_image (big rf) (rsize rf) (rbytes rf) file nv (x0, x1, y0, y1, 0, 0) (nx m) (ny m) 1
        (fun i j k v => U r (i + gw m) (j + gw m) v).
Proof.
  intros Hmz Hnz H1 H2.
  assert (Mx : 1 <= mx g /\ 1 <= my g /\ 1 <= mz g) by exact gok.
  unfold write_pvti_header; cbn [snd]; rewrite pdeclared.
  eexists; exists (hbefore 0 0 (rzero rf)), (map (piece_line2 m g o step) (range (nprocs g))), hafter.
  eexists; exists (box_of m g), (piece_name o step).
  split; [ reflexivity |]; split; [| split; [| split; [| split; [| split ] ] ] ].
  - rewrite flat_map_concat_map; unfold hbefore, hafter; rewrite <- !app_assoc; reflexivity.
  - apply hbefore_extent.
  - change (0 * 0) with 0; rewrite !i32_id by nia; apply six_box; nia.
  - rewrite map_length, range_length; [ reflexivity |]; unfold nprocs; nia.
  - assert (B := boxes_tile m g gok Hx Hy Hz); rewrite Hmz, Hnz in B; exact B.
  - intros r Hr; destruct (coords_bounds r Hr) as (x & y & z & Ec & Bx & By & Bz & X0 & X1 & Y0 & Y1 & Z0 & Z1).
    assert (P : 1 <= nx m * ny m) by nia.
    assert (z = 0) by lia; subst z.
    destruct (raw_content rf
      (prologue rf false (lit "1.0") ++ extents (x * nx m) (x * nx m + nx m) (y * ny m) (y * ny m + ny m) 0 0
        (three rf (g_xmin ge) (g_ymin ge) (rzero rf)) (three rf (g_dx ge) (g_dy ge) (rzero rf)) [])
      (offset2 rf m) (heavy2 rf m (U r)) (listed2 rf (u64 (isize m * jsize m)) m (U r)) nv
      (x * nx m, x * nx m + nx m, y * ny m, y * ny m + ny m, 0, 0) (nx m) (ny m) 1
      (fun i j k v => U r (i + gw m) (j + gw m) v)) as (file & Ef & Hf).
    + lia.
    + destruct rok as ([-> | ->] & _); lia.
    + apply occurs_app_l, prologue_order.
    + eexists; split; [ apply occurs_app_r, extents_box | apply six_box; lia ].
    + intros v Hv; apply (heavy2_block rf rok m (U r) v); assumption.
    + intros v Hv; rewrite (offset2_ok rf rok m v nv) by (try assumption; lia); split; [ reflexivity |].
      assert (0 <= v * (nx m * ny m) < 2 ^ 31) by nia.
      destruct rok as ([-> | ->] & _); lia.
    + exists (piece_line2 m g o step r), file, (x * nx m), (x * nx m + nx m), (y * ny m), (y * ny m + ny m).
      split; [ unfold box_of; rewrite Ec, Hnz; reflexivity |].
      split; [ apply nth_map_range; exact Hr |]; split; [| split ].
      * unfold piece_of_header, piece_line2, box_of; rewrite Ec, Hnz, !two_ends_eq by lia.
        exists (six (x * nx m) (x * nx m + nx m) (y * ny m) (y * ny m + ny m) 0 1); split.
        -- unfold six; rewrite <- !app_assoc; reflexivity.
        -- apply six_box; lia.
      * unfold save_VTK_2D_mpi; rewrite Ec, Hraw; rewrite !(i32_id (x * nx m)), !(i32_id (y * ny m)) by lia.
        rewrite !i32_id by lia; rewrite Ef; f_equal.
      * exact Hf.
Qed.

(** With a debug name the files are not the ones the header lists. *)
Theorem C46_debug_name_refuted debug r U : debug <> [] ->
  fst (save_VTK_3D_mpi rf m g r ge o U nv step debug) <> o_dir o ++ q "/" ++ piece_name o step r.
Proof.
  intros Hd E; unfold save_VTK_3D_mpi in E; destruct (cart_coords g r) as [[x y] z]; cbn [fst] in E.
  unfold piece_file in E; destruct debug as [|c d]; [ congruence |]; cbn [List.length Nat.eqb] in E.
  apply (f_equal (@List.length ascii)) in E; unfold piece_name in E.
  rewrite !app_length in E; change (q "/") with (lit "/") in E; cbn [List.length lit list_ascii_of_string] in E; lia.
Qed.

End C46.

(** Names of the pieces: one per output and process *)
Theorem C46_one_file_per_piece o s1 s2 r1 r2 : 0 <= s1 < 2 ^ 31 -> 0 <= s2 < 2 ^ 31 -> 0 <= r1 < 2 ^ 31 -> 0 <= r2 < 2 ^ 31 ->
  piece_file o [] s1 r1 = piece_file o [] s2 r2 -> s1 = s2 /\ r1 = r2.
Proof.
  intros H1 H2 H3 H4 E; unfold piece_file in E; cbn [List.length Nat.eqb] in E.
  do 4 apply app_inv_head in E.
  change (lit "_mpi") with ("_"%char :: lit "mpi") in E.
  change (lit ".vti") with ("."%char :: lit "vti") in E.
  destruct (padded_value 7 s1 ltac:(lia)) as (V1 & D1); destruct (padded_value 7 s2 ltac:(lia)) as (V2 & D2).
  destruct (padded_value 5 r1 ltac:(lia)) as (V3 & D3); destruct (padded_value 5 r2 ltac:(lia)) as (V4 & D4).
  cbn [app] in E.
  apply split_decimal in E; [| assumption | assumption | unfold decimal; cbn; lia | unfold decimal; cbn; lia ].
  destruct E as (E & F); apply app_inv_head in F.
  apply split_decimal in F; [| assumption | assumption | unfold decimal; cbn; lia | unfold decimal; cbn; lia ].
  destruct F as (F & _); rewrite E in V1; rewrite F in V3; split; congruence.
Qed.

Example C46_case :
  let g := mkpgrid 2 2 1 in
  pgrid_ok g /\
  tile 4 (box_of ex_mesh g) 6 4 2 /\
  snd (write_pvti_header ex_format true (mkmesh 3 2 1 2 4 false (fun _ => 2)) g ex_geom (ex_out false) 4 7) <> None.
Proof.
  cbv zeta; split; [ repeat split; cbn; lia |]; split.
  - apply (boxes_tile ex_mesh (mkpgrid 2 2 1)); cbn; try lia; repeat split; cbn; lia.
  - vm_compute; discriminate.
Qed.

Print Assumptions C32_raw_2D.
Print Assumptions C32_text_2D.
Print Assumptions C32_raw_3D.
Print Assumptions C32_text_3D.
Print Assumptions C32_overflow_refuted.
Print Assumptions C32_one_file_per_output.
Print Assumptions C46_pieces_3D.
Print Assumptions C46_pieces_2D_refuted.
Print Assumptions C46_debug_name_refuted.
Print Assumptions C46_one_file_per_piece.
