(** * Proofs about ghost filling *)
From Coq Require Import ZArith List Bool Lia ZifyBool.
Import ListNotations.
From Verif Require Import Num Exec ExecFacts Grid GridFacts Boundaries BoundariesSpec.
Local Open Scope Z_scope.

Section CopyVars.
Context {T : Type} `{Num T}.

Lemma copy_vars_foot n : forall v (dst src : Z -> loc) sgn,
  foot (fun l => exists w, v <= w < v + Z.of_nat n /\ l = src w)
       (fun l => exists w, v <= w < v + Z.of_nat n /\ l = dst w)
       nowhere (copy_vars n v dst src sgn : prog T).
Proof.
  induction n as [|n IH]; intros v dst src sgn; simpl; auto.
  split; [exists v; split; [lia|auto]|]. intros x.
  split; [exists v; split; [lia|auto]|].
  eapply foot_mono; [| | |apply IH]; simpl; auto.
  - intros l (w & Hw & E). exists w. split; auto. lia.
  - intros l (w & Hw & E). exists w. split; auto. lia.
Qed.

Lemma copy_vars_run n : forall v (dst src : Z -> loc) sgn (s : store T) w,
  (forall a b, src a <> dst b) -> (forall a b, dst a = dst b -> a = b) ->
  v <= w < v + Z.of_nat n ->
  run (copy_vars n v dst src sgn) s (dst w) = nmul (s (src w)) (sgn w).
Proof.
  induction n as [|n IH]; intros v dst src sgn s w Hd Hi Hw; [lia|].
  simpl. destruct (Z.eq_dec v w) as [->|Hne].
  - rewrite (run_frame _ _ _ _ _ _ (copy_vars_foot n (w + 1) dst src sgn)).
    + apply upd_same.
    + intros (x & Hx & E). apply Hi in E. lia.
    + auto.
  - rewrite IH; auto; [|lia]. rewrite upd_other; auto.
Qed.

End CopyVars.

(** ** Kernels made of cell copies *)

Definition cell := (Z * Z * Z)%type.
Definition at_ (a : arr) (c : cell) (v : Z) : loc :=
  let '(i, j, k) := c in mkloc a i j k v.
Definition cell_of (l : loc) : cell := (li l, lj l, lk l).

Lemma at_cell_of l : at_ (la l) (cell_of l) (lv l) = l.
Proof. destruct l; reflexivity. Qed.

Lemma at_inj a c v a' c' v' : at_ a c v = at_ a' c' v' -> a = a' /\ c = c' /\ v = v'.
Proof.
  destruct c as [[i j] k], c' as [[i' j'] k']; simpl. intros E. inversion E. auto.
Qed.

Section CopyKernel.
Context {T : Type} `{Num T}.
Variable a : arr.
Variable idx : list Z.
Variable dec : Z -> option cell.
Variable img : cell -> cell.
Variable nb : nat.
Variable sgn : Z -> T.
Variable D : cell -> Prop.
Variable inb : extents.
Hypothesis idx_nodup : NoDup idx.
Hypothesis dec_D : forall c, D c <-> exists x, In x idx /\ dec x = Some c.
Hypothesis dec_inj : forall x y c, In x idx -> In y idx ->
  dec x = Some c -> dec y = Some c -> x = y.
Hypothesis no_overlap : forall c, D c -> ~ D (img c).

Definition copy_body (x : Z) : prog T :=
  match dec x with
  | Some c => copy_vars nb 0 (at_ a c) (at_ a (img c)) sgn
  | None => Done
  end.

Definition ck_R (x : Z) (l : loc) : Prop :=
  exists c v, dec x = Some c /\ 0 <= v < Z.of_nat nb /\ l = at_ a (img c) v.
Definition ck_W (x : Z) (l : loc) : Prop :=
  exists c v, dec x = Some c /\ 0 <= v < Z.of_nat nb /\ l = at_ a c v.

Lemma copy_body_foot x : foot (ck_R x) (ck_W x) nowhere (copy_body x).
Proof.
  unfold copy_body, ck_R, ck_W. destruct (dec x) as [c|] eqn:E; simpl; auto.
  eapply foot_mono; [| | |apply copy_vars_foot]; auto.
  - intros l (w & Hw & ->). exists c, w. auto.
  - intros l (w & Hw & ->). exists c, w. auto.
Qed.

Lemma copy_kernel_norace x y l :
  In x idx -> In y idx -> x <> y -> ck_W x l -> ~ ck_W y l /\ ~ ck_R y l.
Proof.
  intros Hx Hy Hne (c & v & Hc & Hv & ->). split.
  - intros (c' & v' & Hc' & Hv' & E). apply at_inj in E. destruct E as (_ & -> & _).
    apply Hne. eapply dec_inj; eauto.
  - intros (c' & v' & Hc' & Hv' & E). apply at_inj in E. destruct E as (_ & -> & _).
    apply (no_overlap c').
    + apply dec_D. eauto.
    + apply dec_D. eauto.
Qed.

Lemma copy_kernel_exec s s' :
  exec inb s (map copy_body idx) s' ->
  (forall c v, D c -> 0 <= v < Z.of_nat nb ->
     s' (at_ a c v) = nmul (s (at_ a (img c) v)) (sgn v)) /\
  (forall l, ~ (la l = a /\ D (cell_of l) /\ 0 <= lv l < Z.of_nat nb) -> s' l = s l).
Proof.
  intros Hex.
  apply (parallel_for_spec copy_body idx ck_R ck_W inb idx_nodup
           (fun x _ => copy_body_foot x) copy_kernel_norace) in Hex.
  destruct Hex as [H1 H2]. split.
  - intros c v Hc Hv. apply dec_D in Hc as Hc'. destruct Hc' as (x & Hx & Hdx).
    rewrite (H1 x (at_ a c v) Hx).
    + unfold copy_body. rewrite Hdx. apply copy_vars_run; try lia.
      * intros u w E. apply at_inj in E. destruct E as (_ & E & _).
        apply (no_overlap c Hc). rewrite E. exact Hc.
      * intros u w E. apply at_inj in E. tauto.
    + exists c, v. auto.
  - intros l Hl. apply H2. intros x Hx (c & v & Hc & Hv & ->). apply Hl.
    destruct c as [[i j] k]. simpl. unfold cell_of. simpl. repeat split; try lia.
    apply dec_D. eauto.
Qed.

Lemma copy_kernel_foot :
  (forall c v, D c -> 0 <= v < Z.of_nat nb ->
     inb (at_ a c v) = true /\ inb (at_ a (img c) v) = true) ->
  Forall (in_foot inb) (map copy_body idx).
Proof.
  intros Hb. apply Forall_forall. intros p Hp. apply in_map_iff in Hp.
  destruct Hp as (x & <- & Hx). unfold in_foot.
  eapply foot_mono; [| | |apply copy_body_foot].
  - intros l (c & v & Hc & Hv & ->). apply Hb; auto. apply dec_D. eauto.
  - intros l (c & v & Hc & Hv & ->). apply Hb; auto. apply dec_D. eauto.
  - intros l [].
Qed.

End CopyKernel.

(** ** The faces *)

Inductive axis := AX | AY | AZ.
Definition coord (ax : axis) (c : cell) : Z :=
  let '(i, j, k) := c in match ax with AX => i | AY => j | AZ => k end.
Definition setc (ax : axis) (c : cell) (x : Z) : cell :=
  let '(i, j, k) := c in match ax with AX => (x, j, k) | AY => (i, x, k) | AZ => (i, j, x) end.
Definition face_axis (f : face) : axis :=
  match f with XMIN | XMAX => AX | YMIN | YMAX => AY | ZMIN | ZMAX => AZ end.
Definition is_lo (f : face) : bool :=
  match f with XMIN | YMIN | ZMIN => true | _ => false end.
Definition ncells (m : mesh) (ax : axis) : Z :=
  match ax with AX => nx m | AY => ny m | AZ => nz m end.
Definition lo_face (ax : axis) : face := match ax with AX => XMIN | AY => YMIN | AZ => ZMIN end.
Definition hi_face (ax : axis) : face := match ax with AX => XMAX | AY => YMAX | AZ => ZMAX end.

(** The allocated cells; a 2D array ([two = true]) has k = 0 only. *)
Definition in_array (two : bool) (m : mesh) (c : cell) : Prop :=
  let '(i, j, k) := c in
  0 <= i < isize m /\ 0 <= j < jsize m /\ (if two then k = 0 else 0 <= k < ksize m).

Definition slab (two : bool) (m : mesh) (f : face) (c : cell) : Prop :=
  in_array two m c /\
  let n := ncells m (face_axis f) in
  let x := coord (face_axis f) c in
  if is_lo f then ghost_lo (gw m) x else ghost_hi n (gw m) x.

Definition fimg (m : mesh) (f : face) (c : cell) : cell :=
  let ax := face_axis f in
  let n := ncells m ax in
  setc ax c ((if is_lo f then src_lo else src_hi) (bc m f) n (gw m) (coord ax c)).

(** decoding of the linear index *)
Definition fdec2 (m : mesh) (f : face) (index : Z) : option cell :=
  let g := gw m in
  match f with
  | XMIN =>
      let j := index / g in let i := index - j * g in
      if between (jmin m) j (jmax m) && (0 <=? i) && (i <? g) then Some (i, j, 0) else None
  | XMAX =>
      let j := index / g in let i := index - j * g + (nx m + g) in
      if between (jmin m) j (jmax m) && between (nx m + g) i (nx m + 2 * g - 1)
      then Some (i, j, 0) else None
  | YMIN =>
      let i := index / g in let j := index - i * g in
      if between (imin m) i (imax m) && (0 <=? j) && (j <? g) then Some (i, j, 0) else None
  | YMAX =>
      let i := index / g in let j := index - i * g + (ny m + g) in
      if between (imin m) i (imax m) && between (ny m + g) j (ny m + 2 * g - 1)
      then Some (i, j, 0) else None
  | ZMIN | ZMAX => None
  end.

Definition fdec3 (m : mesh) (f : face) (index : Z) : option cell :=
  let g := gw m in
  match f with
  | XMIN =>
      let k := index / (g * jsize m) in
      let j := (index - k * g * jsize m) / g in
      let i := index - j * g - k * g * jsize m in
      if between (kmin m) k (kmax m) && between (jmin m) j (jmax m) && (0 <=? i) && (i <? g)
      then Some (i, j, k) else None
  | XMAX =>
      let k := index / (g * jsize m) in
      let j := (index - k * g * jsize m) / g in
      let i := index - j * g - k * g * jsize m + (nx m + g) in
      if between (kmin m) k (kmax m) && between (jmin m) j (jmax m) &&
         between (nx m + g) i (nx m + 2 * g - 1)
      then Some (i, j, k) else None
  | YMIN =>
      let k := index / (isize m * g) in
      let j := (index - k * isize m * g) / isize m in
      let i := index - j * isize m - k * isize m * g in
      if between (kmin m) k (kmax m) && (0 <=? j) && (j <? g) && between (imin m) i (imax m)
      then Some (i, j, k) else None
  | YMAX =>
      let k := index / (isize m * g) in
      let j0 := (index - k * isize m * g) / isize m in
      let i := index - j0 * isize m - k * isize m * g in
      let j := j0 + (ny m + g) in
      if between (kmin m) k (kmax m) && between (ny m + g) j (ny m + 2 * g - 1) &&
         between (imin m) i (imax m)
      then Some (i, j, k) else None
  | ZMIN =>
      let k := index / (isize m * jsize m) in
      let j := (index - k * isize m * jsize m) / isize m in
      let i := index - j * isize m - k * isize m * jsize m in
      if (0 <=? k) && (k <? g) && between (jmin m) j (jmax m) && between (imin m) i (imax m)
      then Some (i, j, k) else None
  | ZMAX =>
      let k0 := index / (isize m * jsize m) in
      let j := (index - k0 * isize m * jsize m) / isize m in
      let i := index - j * isize m - k0 * isize m * jsize m in
      let k := k0 + (nz m + g) in
      if between (nz m + g) k (nz m + 2 * g - 1) && between (jmin m) j (jmax m) &&
         between (imin m) i (imax m)
      then Some (i, j, k) else None
  end.

Definition nbIter (two : bool) (m : mesh) : Z :=
  if two then gw m * Z.max (isize m) (jsize m)
  else let ms := Z.max (Z.max (isize m) (jsize m)) (ksize m) in gw m * ms * ms.

Definition fdec (two : bool) := if two then fdec2 else fdec3.

(** two-digit and three-digit decoding *)
Lemma decode2 n index a b :
  0 < n -> 0 <= index -> index / n = b -> index - b * n = a ->
  0 <= a < n /\ 0 <= b /\ index = a + b * n.
Proof.
  intros Hn Hi Hb Ha. subst b a.
  pose proof (div_bounds index n Hn).
  assert (0 <= index / n) by (apply Z.div_pos; lia). lia.
Qed.

Lemma decode3 n1 n2 index :
  0 < n1 -> 0 < n2 -> 0 <= index ->
  let c := index / (n1 * n2) in
  let b := (index - c * (n1 * n2)) / n1 in
  let a := index - b * n1 - c * (n1 * n2) in
  0 <= a < n1 /\ 0 <= b < n2 /\ 0 <= c /\ index = a + b * n1 + c * (n1 * n2).
Proof.
  intros H1 H2 Hi c b a.
  pose proof (div_bounds index (n1 * n2) ltac:(nia)) as B1. fold c in B1.
  pose proof (div_bounds (index - c * (n1 * n2)) n1 H1) as B2. fold b in B2.
  assert (0 <= c) by (apply Z.div_pos; nia).
  assert (0 <= b) by (apply Z.div_pos; nia).
  assert (b < n2) by (apply Z.div_lt_upper_bound; nia).
  unfold a. repeat split; lia.
Qed.

Lemma encode3 n1 n2 a b c :
  0 < n1 -> 0 < n2 -> 0 <= a < n1 -> 0 <= b < n2 ->
  (a + b * n1 + c * (n1 * n2)) / (n1 * n2) = c /\
  (a + b * n1 + c * (n1 * n2) - c * (n1 * n2)) / n1 = b.
Proof.
  intros. split.
  - apply div_decode; nia.
  - replace (a + b * n1 + c * (n1 * n2) - c * (n1 * n2)) with (a + b * n1) by ring.
    apply div_decode; lia.
Qed.

Ltac umesh := unfold isize, jsize, ksize, imin, jmin, kmin, imax, jmax, kmax, between,
  ghost_lo, ghost_hi, physical in *.

Lemma fdec2_spec m f x c : 0 < gw m -> 0 <= nx m -> 0 <= ny m -> 0 <= x ->
  fdec2 m f x = Some c ->
  slab true m f c /\
  x = match f with
      | XMIN => let '(i, j, k) := c in i + j * gw m
      | XMAX => let '(i, j, k) := c in i - (nx m + gw m) + j * gw m
      | YMIN => let '(i, j, k) := c in j + i * gw m
      | _ => let '(i, j, k) := c in j - (ny m + gw m) + i * gw m
      end.
Proof.
  intros Hg Hx Hy Hix.
  pose proof (decode2 (gw m) x _ _ Hg Hix eq_refl eq_refl) as D2.
  destruct f; simpl; try congruence;
  match goal with |- context [if ?b then _ else _] => destruct b eqn:E end; try congruence;
  intros HS; inversion HS; subst; clear HS;
  unfold slab; simpl; umesh; repeat split; lia.
Qed.

Lemma fdec3_spec m f x c : 0 < gw m -> 0 <= nx m -> 0 <= ny m -> 0 <= nz m -> 0 <= x ->
  fdec3 m f x = Some c ->
  slab false m f c /\
  x = match f with
      | XMIN => let '(i, j, k) := c in i + j * gw m + k * (gw m * jsize m)
      | XMAX => let '(i, j, k) := c in i - (nx m + gw m) + j * gw m + k * (gw m * jsize m)
      | YMIN => let '(i, j, k) := c in i + j * isize m + k * (isize m * gw m)
      | YMAX => let '(i, j, k) := c in i + (j - (ny m + gw m)) * isize m + k * (isize m * gw m)
      | ZMIN => let '(i, j, k) := c in i + j * isize m + k * (isize m * jsize m)
      | ZMAX => let '(i, j, k) := c in i + j * isize m + (k - (nz m + gw m)) * (isize m * jsize m)
      end.
Proof.
  intros Hg Hx Hy Hz Hix.
  assert (HI : 0 < isize m) by (umesh; lia).
  assert (HJ : 0 < jsize m) by (umesh; lia).
  destruct f; cbn [fdec3]; cbv zeta; rewrite <- !Z.mul_assoc;
  match goal with |- context [x / (?n1 * ?n2)] =>
    pose proof (decode3 n1 n2 x ltac:(assumption) ltac:(assumption) Hix) as D3 end;
  cbv zeta in D3;
  match type of D3 with context [x / ?N] =>
    set (kk := x / N) in * end;
  match type of D3 with context [(x - ?c0 * ?N) / ?M] =>
    set (jj := (x - c0 * N) / M) in * end;
  match goal with |- context [if ?b then _ else _] => destruct b eqn:E end; try congruence;
  intros HS; inversion HS; subst c; clear HS;
  unfold slab; simpl; umesh; repeat split; lia.
Qed.

Lemma fdec_inj two m f x y c : 0 < gw m -> 0 <= nx m -> 0 <= ny m -> 0 <= nz m ->
  0 <= x -> 0 <= y -> fdec two m f x = Some c -> fdec two m f y = Some c -> x = y.
Proof.
  intros Hg H1 H2 H3 Hx Hy E1 E2. destruct two; simpl in *.
  - apply fdec2_spec in E1; auto. apply fdec2_spec in E2; auto.
    destruct E1 as [_ ->], E2 as [_ ->]. reflexivity.
  - apply fdec3_spec in E1; auto. apply fdec3_spec in E2; auto.
    destruct E1 as [_ ->], E2 as [_ ->]. reflexivity.
Qed.

Lemma enc2_bound a b g n M :
  0 <= a < g -> 0 <= b < n -> n <= M -> 0 <= a + b * g < g * M.
Proof. intros. assert (b * g <= (M - 1) * g) by nia. nia. Qed.

Lemma fdec2_complete m f c : 0 < gw m -> 0 <= nx m -> 0 <= ny m ->
  f <> ZMIN -> f <> ZMAX ->
  slab true m f c -> exists x, In x (range (nbIter true m)) /\ fdec2 m f x = Some c.
Proof.
  intros Hg Hx Hy Hf1 Hf2 Hs. destruct c as [[i j] k].
  unfold slab in Hs; simpl in Hs; umesh.
  destruct f; simpl in Hs; try congruence.
  - exists (i + j * gw m). rewrite in_range. split.
    + eapply (enc2_bound _ _ _ (jsize m) (Z.max (isize m) (jsize m))); umesh; lia.
    + cbn [fdec2]. rewrite div_decode by lia. cbv zeta.
      replace (i + j * gw m - j * gw m) with i by ring.
      umesh. match goal with |- (if ?b then _ else _) = _ => replace b with true by lia end.
      destruct Hs as ((_ & _ & ->) & _). reflexivity.
  - exists (i - (nx m + gw m) + j * gw m). rewrite in_range. split.
    + eapply (enc2_bound _ _ _ (jsize m) (Z.max (isize m) (jsize m))); umesh; lia.
    + cbn [fdec2]. rewrite div_decode by lia. cbv zeta.
      replace (i - (nx m + gw m) + j * gw m - j * gw m + (nx m + gw m)) with i by ring.
      umesh. match goal with |- (if ?b then _ else _) = _ => replace b with true by lia end.
      destruct Hs as ((_ & _ & ->) & _). reflexivity.
  - exists (j + i * gw m). rewrite in_range. split.
    + eapply (enc2_bound _ _ _ (isize m) (Z.max (isize m) (jsize m))); umesh; lia.
    + cbn [fdec2]. rewrite div_decode by lia. cbv zeta.
      replace (j + i * gw m - i * gw m) with j by ring.
      umesh. match goal with |- (if ?b then _ else _) = _ => replace b with true by lia end.
      destruct Hs as ((_ & _ & ->) & _). reflexivity.
  - exists (j - (ny m + gw m) + i * gw m). rewrite in_range. split.
    + eapply (enc2_bound _ _ _ (isize m) (Z.max (isize m) (jsize m))); umesh; lia.
    + cbn [fdec2]. rewrite div_decode by lia. cbv zeta.
      replace (j - (ny m + gw m) + i * gw m - i * gw m + (ny m + gw m)) with j by ring.
      umesh. match goal with |- (if ?b then _ else _) = _ => replace b with true by lia end.
      destruct Hs as ((_ & _ & ->) & _). reflexivity.
Qed.

Lemma prod3_bound a b c n1 n2 M1 M2 g :
  0 <= a < n1 -> 0 <= b < n2 -> 0 <= c < M1 -> 0 < n1 -> 0 < n2 ->
  n1 * n2 * M1 <= g * M2 * M2 -> a + b * n1 + c * (n1 * n2) < g * M2 * M2.
Proof. intros. assert (a + b * n1 < n1 * n2) by nia. nia. Qed.

Lemma prodM g a b M : 0 <= g -> 0 <= a <= M -> 0 <= b <= M -> g * a * b <= g * M * M.
Proof.
  intros Hg Ha Hb. rewrite <- !Z.mul_assoc. apply Z.mul_le_mono_nonneg_l; auto.
  apply Z.mul_le_mono_nonneg; lia.
Qed.

Lemma fdec3_complete m f c : 0 < gw m -> 0 <= nx m -> 0 <= ny m -> 0 <= nz m ->
  slab false m f c -> exists x, In x (range (nbIter false m)) /\ fdec3 m f x = Some c.
Proof.
  intros Hg Hx Hy Hz Hs. destruct c as [[i j] k].
  unfold slab in Hs; simpl in Hs.
  assert (HI : 0 < isize m) by (umesh; lia).
  assert (HJ : 0 < jsize m) by (umesh; lia).
  assert (HK : 0 < ksize m) by (umesh; lia).
  set (M := Z.max (Z.max (isize m) (jsize m)) (ksize m)).
  assert (HM : isize m <= M /\ jsize m <= M /\ ksize m <= M) by (unfold M; lia).
  assert (B1 : gw m * jsize m * ksize m <= gw m * M * M) by (apply prodM; lia).
  assert (B2 : isize m * gw m * ksize m <= gw m * M * M)
    by (rewrite (Z.mul_comm (isize m)); apply prodM; lia).
  assert (B3 : isize m * jsize m * gw m <= gw m * M * M)
    by (rewrite (Z.mul_comm _ (gw m)), Z.mul_assoc; apply prodM; lia).
  assert (HN : nbIter false m = gw m * M * M) by reflexivity.
  destruct f; simpl in Hs.
  - exists (i + j * gw m + k * (gw m * jsize m)). rewrite in_range, HN.
    assert (Hi : 0 <= i < gw m) by (umesh; lia).
    assert (Hj : 0 <= j < jsize m) by (umesh; lia).
    assert (Hk : 0 <= k < ksize m) by (umesh; lia).
    split; [split; [nia|eapply prod3_bound; eauto]|].
    cbn [fdec3]; cbv zeta. rewrite <- !Z.mul_assoc.
    destruct (encode3 (gw m) (jsize m) i j k) as [E1 E2]; auto. rewrite E1, E2.
    replace (i + j * gw m + k * (gw m * jsize m) - j * gw m - k * (gw m * jsize m)) with i by ring.
    umesh. match goal with |- (if ?b then _ else _) = _ => replace b with true by lia end.
    reflexivity.
  - exists (i - (nx m + gw m) + j * gw m + k * (gw m * jsize m)). rewrite in_range, HN.
    assert (Hi : 0 <= i - (nx m + gw m) < gw m) by (umesh; lia).
    assert (Hj : 0 <= j < jsize m) by (umesh; lia).
    assert (Hk : 0 <= k < ksize m) by (umesh; lia).
    split; [split; [nia|eapply prod3_bound; eauto]|].
    cbn [fdec3]; cbv zeta. rewrite <- !Z.mul_assoc.
    destruct (encode3 (gw m) (jsize m) (i - (nx m + gw m)) j k) as [E1 E2]; auto. rewrite E1, E2.
    replace (i - (nx m + gw m) + j * gw m + k * (gw m * jsize m) - j * gw m - k * (gw m * jsize m) + (nx m + gw m)) with i by ring.
    umesh. match goal with |- (if ?b then _ else _) = _ => replace b with true by lia end.
    reflexivity.
  - exists (i + j * isize m + k * (isize m * gw m)). rewrite in_range, HN.
    assert (Hi : 0 <= i < isize m) by (umesh; lia).
    assert (Hj : 0 <= j < gw m) by (umesh; lia).
    assert (Hk : 0 <= k < ksize m) by (umesh; lia).
    split; [split; [nia|eapply prod3_bound; eauto]|].
    cbn [fdec3]; cbv zeta. rewrite <- !Z.mul_assoc.
    destruct (encode3 (isize m) (gw m) i j k) as [E1 E2]; auto. rewrite E1, E2.
    replace (i + j * isize m + k * (isize m * gw m) - j * isize m - k * (isize m * gw m)) with i by ring.
    umesh. match goal with |- (if ?b then _ else _) = _ => replace b with true by lia end.
    reflexivity.
  - exists (i + (j - (ny m + gw m)) * isize m + k * (isize m * gw m)). rewrite in_range, HN.
    assert (Hi : 0 <= i < isize m) by (umesh; lia).
    assert (Hj : 0 <= j - (ny m + gw m) < gw m) by (umesh; lia).
    assert (Hk : 0 <= k < ksize m) by (umesh; lia).
    split; [split; [nia|eapply prod3_bound; eauto]|].
    cbn [fdec3]; cbv zeta. rewrite <- !Z.mul_assoc.
    destruct (encode3 (isize m) (gw m) i (j - (ny m + gw m)) k) as [E1 E2]; auto. rewrite E1, E2.
    match goal with |- context [between (imin m) ?x (imax m)] => replace x with i by ring end.
    replace (j - (ny m + gw m) + (ny m + gw m)) with j by ring.
    umesh. match goal with |- (if ?b then _ else _) = _ => replace b with true by lia end.
    reflexivity.
  - exists (i + j * isize m + k * (isize m * jsize m)). rewrite in_range, HN.
    assert (Hi : 0 <= i < isize m) by (umesh; lia).
    assert (Hj : 0 <= j < jsize m) by (umesh; lia).
    assert (Hk : 0 <= k < gw m) by (umesh; lia).
    split; [split; [nia|eapply prod3_bound; eauto]|].
    cbn [fdec3]; cbv zeta. rewrite <- !Z.mul_assoc.
    destruct (encode3 (isize m) (jsize m) i j k) as [E1 E2]; auto. rewrite E1, E2.
    replace (i + j * isize m + k * (isize m * jsize m) - j * isize m - k * (isize m * jsize m)) with i by ring.
    umesh. match goal with |- (if ?b then _ else _) = _ => replace b with true by lia end.
    reflexivity.
  - exists (i + j * isize m + (k - (nz m + gw m)) * (isize m * jsize m)). rewrite in_range, HN.
    assert (Hi : 0 <= i < isize m) by (umesh; lia).
    assert (Hj : 0 <= j < jsize m) by (umesh; lia).
    assert (Hk : 0 <= k - (nz m + gw m) < gw m) by (umesh; lia).
    split; [split; [nia|eapply prod3_bound; eauto]|].
    cbn [fdec3]; cbv zeta. rewrite <- !Z.mul_assoc.
    destruct (encode3 (isize m) (jsize m) i j (k - (nz m + gw m))) as [E1 E2]; auto. rewrite E1, E2.
    match goal with |- context [between (imin m) ?x (imax m)] => replace x with i by ring end.
    replace (k - (nz m + gw m) + (nz m + gw m)) with k by ring.
    umesh. match goal with |- (if ?b then _ else _) = _ => replace b with true by lia end.
    reflexivity.
Qed.
