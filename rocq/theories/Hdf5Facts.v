(** * Facts about writing and reading checkpoint files *)
From Coq Require Import ZArith List Bool Lia ZifyBool.
Import ListNotations.
From Verif Require Import Num Exec Grid GridFacts Hdf5.
Local Open Scope Z_scope.

(** ** Numbers with two digits *)

Lemma digits n a b a' b' : 0 <= a < n -> 0 <= a' < n -> a + n * b = a' + n * b' -> a = a' /\ b = b'.
Proof. intros. assert (b = b') by nia. subst. lia. Qed.

Lemma digits_r n a b a' b' : 0 <= a < n -> 0 <= a' < n -> b * n + a = b' * n + a' -> a = a' /\ b = b'.
Proof. intros. apply (digits n); lia. Qed.

Section Facts.
Context {T : Type} {N : Num T}.
Implicit Types (f h data : flat (T := T)).

(** ** Loops of assignments *)

Section Fold.
Context {C : Type}.
Variable p : C -> Z.
Variable x : C -> option T.

Lemma fold_other l : forall f a, (forall c, In c l -> p c <> a) ->
  fold_left (fun f c => upd f (p c) (x c)) l f a = f a.
Proof.
  induction l as [|c l IH]; intros f a Ha; cbn [fold_left]; auto.
  rewrite IH by (intros; apply Ha; right; auto). unfold upd.
  destruct (a =? p c) eqn:E; auto. exfalso. apply (Ha c); [left; auto|lia].
Qed.

Lemma fold_assigned l : forall f c, In c l -> (forall c', In c' l -> p c' = p c -> x c' = x c) ->
  fold_left (fun f c => upd f (p c) (x c)) l f (p c) = x c.
Proof.
  induction l as [|d l IH]; intros f c Hc Hx; [destruct Hc|]. cbn [fold_left].
  destruct (in_dec Z.eq_dec (p c) (map p l)) as [Hin|Hn].
  - apply in_map_iff in Hin. destruct Hin as (c' & E & Hc'). rewrite <- E.
    rewrite IH; auto.
    + apply Hx; [right; auto|auto].
    + intros c'' H'' E''. rewrite (Hx c''), (Hx c'); auto; try (right; assumption); congruence.
  - rewrite fold_other by (intros c' Hc' E; apply Hn; apply in_map_iff; eauto).
    destruct Hc as [->|Hc]; [|exfalso; apply Hn; apply in_map; auto].
    unfold upd. rewrite Z.eqb_refl. reflexivity.
Qed.
End Fold.

Lemma fold_left_same {A B} (g g' : A -> B -> A) l : (forall a b, g a b = g' a b) ->
  forall a, fold_left g l a = fold_left g' l a.
Proof. intros E. induction l as [|b l IH]; intros a; cbn [fold_left]; auto. rewrite E. auto. Qed.

Lemma nested_fold n3 n2 n1 (p : Z -> Z -> Z -> Z) (x : Z -> Z -> Z -> option T) f :
  nested n3 n2 n1 (fun k j i f => upd f (p k j i) (x k j i)) f =
  fold_left (fun f c => upd f (p (fst (fst c)) (snd (fst c)) (snd c)) (x (fst (fst c)) (snd (fst c)) (snd c)))
    (range3 n3 n2 n1) f.
Proof. apply fold_left_same. intros a [[k j] i]. reflexivity. Qed.

Definition in3 (n3 n2 n1 k j i : Z) : Prop := 0 <= k < n3 /\ 0 <= j < n2 /\ 0 <= i < n1.

Lemma in3_range3 n3 n2 n1 k j i : In (k, j, i) (range3 n3 n2 n1) <-> in3 n3 n2 n1 k j i.
Proof. unfold in3. rewrite in_range3. tauto. Qed.

Lemma nested_other n3 n2 n1 (p : Z -> Z -> Z -> Z) (x : Z -> Z -> Z -> option T) f a :
  (forall k j i, in3 n3 n2 n1 k j i -> p k j i <> a) ->
  nested n3 n2 n1 (fun k j i f => upd f (p k j i) (x k j i)) f a = f a.
Proof.
  intros Ha. rewrite nested_fold, fold_other; auto.
  intros [[k j] i] Hc. apply in3_range3 in Hc. apply Ha. exact Hc.
Qed.

Lemma nested_assigned n3 n2 n1 (p : Z -> Z -> Z -> Z) (x : Z -> Z -> Z -> option T) f k j i :
  in3 n3 n2 n1 k j i ->
  (forall k' j' i', in3 n3 n2 n1 k' j' i' -> p k' j' i' = p k j i -> k' = k /\ j' = j /\ i' = i) ->
  nested n3 n2 n1 (fun k j i f => upd f (p k j i) (x k j i)) f (p k j i) = x k j i.
Proof.
  intros Hc Hp. rewrite nested_fold.
  apply (fold_assigned (fun c => p (fst (fst c)) (snd (fst c)) (snd c))
             (fun c => x (fst (fst c)) (snd (fst c)) (snd c)) (range3 n3 n2 n1) f (k, j, i)).
  - apply in3_range3. exact Hc.
  - intros [[k' j'] i'] H' E. apply in3_range3 in H'. cbn [fst snd] in *.
    destruct (Hp _ _ _ H' E) as (-> & -> & ->). reflexivity.
Qed.

Section Shape.
Variable cf : h5conf.
Variable m : mesh.

(** What the meshes of the program satisfy. *)
Definition h5_mesh : Prop := 0 <= nx m /\ 0 <= ny m /\ 0 <= nz m /\ 0 <= gw m.
Hypothesis Hm : h5_mesh.

Definition in_all (k j i : Z) : Prop := in3 (ks cf m) (jsize m) (isize m) k j i.

(** Rank of a cell in a buffer of sizes [d2], [d1]. *)
Lemma rank_inj d3 d2 d1 k j i k' j' i' : in3 d3 d2 d1 k j i -> in3 d3 d2 d1 k' j' i' ->
  i' + d1 * (j' + d2 * k') = i + d1 * (j + d2 * k) -> k' = k /\ j' = j /\ i' = i.
Proof.
  intros (? & ? & ?) (? & ? & ?) E. apply digits in E; [|lia|lia]. destruct E as [-> E].
  apply digits in E; [|lia|lia]. destruct E as [-> ->]. auto.
Qed.

Lemma rank_form d2 d1 k j i : i + d1 * j + d1 * d2 * k = i + d1 * (j + d2 * k).
Proof. ring. Qed.

Lemma addr_inj k j i v k' j' i' v' : in_all k j i -> in_all k' j' i' -> 0 <= v < nbvar m -> 0 <= v' < nbvar m ->
  addr cf m i' j' k' v' = addr cf m i j k v -> (k' = k /\ j' = j /\ i' = i) /\ v' = v.
Proof.
  intros (? & ? & ?) (? & ? & ?) Hv Hv'. unfold addr. destruct (h_lay cf); intros E.
  - apply digits_r in E; [|lia|lia]. destruct E as [-> E]. apply digits_r in E; [|lia|lia]. destruct E as [-> E].
    apply digits_r in E; [|lia|lia]. destruct E as [-> ->]. auto.
  - replace (i' + isize m * j' + isize m * jsize m * k' + isize m * jsize m * ks cf m * v')
      with (i' + isize m * (j' + jsize m * (k' + ks cf m * v'))) in E by ring.
    replace (i + isize m * j + isize m * jsize m * k + isize m * jsize m * ks cf m * v)
      with (i + isize m * (j + jsize m * (k + ks cf m * v))) in E by ring.
    apply digits in E; [|lia|lia]. destruct E as [-> E]. apply digits in E; [|lia|lia]. destruct E as [-> E].
    apply digits in E; [|lia|lia]. destruct E as [-> ->]. auto.
Qed.

(** ** The host array *)

Lemma to_host_fold (U : Z -> Z -> Z -> Z -> T) l : forall h, (forall v, In v l -> 0 <= v < nbvar m) ->
  forall k j i v, in_all k j i -> 0 <= v < nbvar m ->
  fold_left (fun h v => nested (ks cf m) (jsize m) (isize m)
               (fun k j i h => upd h (addr cf m i j k v) (Some (U i j k v))) h) l h (addr cf m i j k v) =
  if in_dec Z.eq_dec v l then Some (U i j k v) else h (addr cf m i j k v).
Proof.
  induction l as [|w l IH]; intros h Hl k j i v Hc Hv; cbn [fold_left]; [reflexivity|].
  rewrite IH by (auto; intros; apply Hl; right; auto).
  destruct (in_dec Z.eq_dec v l) as [Hi|Hi].
  - destruct (in_dec Z.eq_dec v (w :: l)) as [|Hn]; auto. exfalso. apply Hn. right. auto.
  - assert (Hw : 0 <= w < nbvar m) by (apply Hl; left; auto).
    destruct (in_dec Z.eq_dec v (w :: l)) as [[->|?]|Hn]; [|contradiction|].
    + apply (nested_assigned _ _ _ (fun k j i => addr cf m i j k v) (fun k j i => Some (U i j k v))); auto.
      intros k' j' i' Hc' E. apply addr_inj in E; tauto.
    + apply (nested_other _ _ _ (fun k j i => addr cf m i j k w) (fun k j i => Some (U i j k w))).
      intros k' j' i' Hc' E. apply addr_inj in E; auto. apply Hn. left. tauto.
Qed.

Lemma to_host_at (U : Z -> Z -> Z -> Z -> T) k j i v : in_all k j i -> 0 <= v < nbvar m ->
  to_host cf m U (addr cf m i j k v) = Some (U i j k v).
Proof.
  intros Hc Hv. unfold to_host. rewrite to_host_fold; auto.
  - destruct (in_dec Z.eq_dec v (range (nbvar m))) as [|Hn]; auto. exfalso. apply Hn. apply in_range. auto.
  - intros w Hw. apply in_range in Hw. auto.
Qed.

(** ** Writing *)

Lemma save_buffer_at h v data k j i : in_all k j i -> 0 <= v < nbvar m ->
  save_buffer cf m h v data (i + isize m * (j + jsize m * k)) = h (addr cf m i j k v).
Proof.
  intros Hc Hv. unfold save_buffer. destruct (h_lay cf) eqn:EL.
  - rewrite <- rank_form.
    apply (nested_assigned _ _ _ (fun k j i => i + isize m * j + isize m * jsize m * k) (fun k j i => h (addr cf m i j k v))); auto.
    intros k' j' i' Hc' E. rewrite !rank_form in E. eapply rank_inj; eauto.
  - f_equal. unfold addr. rewrite EL. ring.
Qed.

Definition start3 : Z := fst (fst (save_start cf m)).
Definition start2 : Z := snd (fst (save_start cf m)).
Definition start1 : Z := snd (save_start cf m).
Definition in_count (cnt : Z * Z * Z) (k j i : Z) : Prop := in3 (fst (fst cnt)) (snd (fst cnt)) (snd cnt) k j i.

Lemma count_inside k j i : in_count (save_count cf m) k j i -> in_all (start3 + k) (start2 + j) (start1 + i).
Proof.
  destruct Hm as (? & ? & ? & ?).
  unfold in_count, in_all, in3, save_count, start3, start2, start1, save_start, gz, ks, isize, jsize, ksize.
  destruct (h_ghost cf), (h_three cf); cbn [fst snd]; lia.
Qed.

Definition holds_field (U : Z -> Z -> Z -> Z -> T) (v : Z) (ds : dataset) : Prop :=
  d_dims ds = save_count cf m /\
  forall k j i, in_count (save_count cf m) k j i -> d_at ds k j i = Some (U (start1 + i) (start2 + j) (start3 + k) v).

Lemma write_fields_at (U : Z -> Z -> Z -> Z -> T) vs : (forall v, In v vs -> 0 <= v < nbvar m) -> forall data v, In v vs ->
  exists ds, option_map snd (find (fun p => fst p =? v) (write_fields cf m (to_host cf m U) vs data)) = Some ds /\
    holds_field U v ds.
Proof.
  induction vs as [|w vs IH]; intros Hvs data v Hv; [destruct Hv|].
  cbn [write_fields find fst]. destruct (w =? v) eqn:E.
  - assert (w = v) by lia. subst w. eexists. split; [reflexivity|].
    unfold holds_field, h5_write. cbn [snd]. destruct (save_start cf m) as [[s3 s2] s1] eqn:ES. split; [reflexivity|].
    intros k j i Hc. cbn [d_at]. apply count_inside in Hc. unfold start3, start2, start1 in *. rewrite ES in *. cbn [fst snd] in *.
    rewrite save_buffer_at by auto. apply to_host_at; auto.
  - apply IH; [intros; apply Hvs; right; auto|]. destruct Hv as [->|Hv]; [lia|auto].
Qed.

(** ** Reading *)

Definition lstart3 : Z := fst (fst (load_start cf m)).
Definition lstart2 : Z := snd (fst (load_start cf m)).
Definition lstart1 : Z := snd (load_start cf m).

(** Position in the buffer of the element (k,j,i) of a dataset. *)
Definition slot (k j i : Z) : Z :=
  (lstart1 + i) + nx_rg cf m * ((lstart2 + j) + ny_rg cf m * (lstart3 + k)).

(** The buffer holds the dataset and nothing else. *)
Definition holds_set (ds : dataset (T := T)) (data : flat) : Prop :=
  (forall k j i, in_count (load_count cf m) k j i -> data (slot k j i) = d_at ds k j i) /\
  (forall a, (forall k j i, in_count (load_count cf m) k j i -> slot k j i <> a) -> data a = None).

Lemma h5_read_at ds data : d_dims ds = load_count cf m ->
  (forall a, (forall k j i, in_count (load_count cf m) k j i -> slot k j i <> a) -> data a = None) ->
  exists data', h5_read ds (load_dims cf m) (load_start cf m) (load_count cf m) data = Some data' /\ holds_set ds data'.
Proof.
  intros Hd Hb. unfold h5_read, load_dims. rewrite Hd.
  destruct (load_start cf m) as [[s3 s2] s1] eqn:ES. destruct (load_count cf m) as [[c3 c2] c1] eqn:EC.
  rewrite !Z.eqb_refl. cbn [andb]. eexists. split; [reflexivity|].
  assert (Es : forall k j i, slot k j i = s1 + i + nx_rg cf m * (s2 + j + ny_rg cf m * (s3 + k))).
  { intros. unfold slot, lstart3, lstart2, lstart1. rewrite ES. reflexivity. }
  assert (Hin : forall k j i, in3 c3 c2 c1 k j i -> in3 (nz_rg cf m) (ny_rg cf m) (nx_rg cf m) (s3 + k) (s2 + j) (s1 + i)).
  { destruct Hm as (? & ? & ? & ?). unfold load_start, load_count, in3, nz_rg, ny_rg, nx_rg, gz, nz_r, ny_r, nx_r in *. intros k j i.
    destruct (h_ghost cf), (h_three cf), (h_half cf); inversion ES; inversion EC; subst; lia. }
  split.
  - intros k j i Hc. unfold in_count in Hc. rewrite EC in Hc. cbn [fst snd] in Hc. rewrite Es.
    apply (nested_assigned _ _ _ (fun k j i => s1 + i + nx_rg cf m * (s2 + j + ny_rg cf m * (s3 + k))) (fun k j i => d_at ds k j i)); auto.
    intros k' j' i' Hc' E. apply (rank_inj (nz_rg cf m)) in E; auto. lia.
  - intros a Ha. rewrite (nested_other _ _ _ (fun k j i => s1 + i + nx_rg cf m * (s2 + j + ny_rg cf m * (s3 + k))) (fun k j i => d_at ds k j i)).
    + apply Hb. intros k j i Hc. apply Ha. unfold in_count in *. rewrite EC in *. auto.
    + intros k j i Hc. rewrite <- Es. apply Ha. unfold in_count. rewrite EC. exact Hc.
Qed.

Definition cell_value (data : flat (T := T)) (v i j k : Z) : option T :=
  if h_half cf then mean (map data (half_reads cf m v i j k)) else data (i + isize m * (j + jsize m * k)).

Lemma load_buffer_at data v h k j i w : in_all k j i -> 0 <= v < nbvar m -> 0 <= w < nbvar m ->
  load_buffer cf m data v h (addr cf m i j k w) =
  if w =? v then cell_value data v i j k else h (addr cf m i j k w).
Proof.
  intros Hc Hv Hw. unfold load_buffer, cell_value.
  assert (K : forall x : Z -> Z -> Z -> option T,
    nested (ks cf m) (jsize m) (isize m) (fun k j i h => upd h (addr cf m i j k v) (x k j i)) h (addr cf m i j k w) =
    if w =? v then x k j i else h (addr cf m i j k w)).
  { intros x. destruct (w =? v) eqn:E.
    - assert (w = v) by lia. subst.
      apply (nested_assigned _ _ _ (fun k j i => addr cf m i j k v) x); auto.
      intros k' j' i' Hc' E'. apply addr_inj in E'; tauto.
    - apply (nested_other _ _ _ (fun k j i => addr cf m i j k v) x).
      intros k' j' i' Hc' E'. apply addr_inj in E'; auto. lia. }
  destruct (h_half cf); [apply (K (fun k j i => mean (map data (half_reads cf m v i j k))))|].
  destruct (h_lay cf) eqn:EL.
  - rewrite (K (fun k j i => data (i + isize m * j + isize m * jsize m * k))), rank_form. reflexivity.
  - destruct Hc as (? & ? & ?).
    assert (EA : addr cf m i j k w = isize m * jsize m * ks cf m * w + (i + isize m * (j + jsize m * k)))
      by (unfold addr; rewrite EL; ring).
    assert (HB : 0 <= i + isize m * (j + jsize m * k) < isize m * jsize m * ks cf m).
    { assert (0 <= j + jsize m * k < jsize m * ks cf m) by nia. nia. }
    destruct (w =? v) eqn:E.
    + assert (w = v) by lia. subst w. rewrite EA.
      apply (fold_assigned (fun a => isize m * jsize m * ks cf m * v + a) (fun a => data a)).
      * apply in_range. auto.
      * intros a Ha E'. f_equal. lia.
    + apply (fold_other (fun a => isize m * jsize m * ks cf m * v + a) (fun a => data a)).
      intros a Ha E'. apply in_range in Ha. rewrite EA in E'.
      assert (D : a + isize m * jsize m * ks cf m * v = (i + isize m * (j + jsize m * k)) + isize m * jsize m * ks cf m * w) by lia.
      apply digits in D; lia.
Qed.

Lemma read_fields_at (f : h5file (T := T)) (sets : Z -> dataset) vs : (forall v, In v vs -> 0 <= v < nbvar m) -> NoDup vs ->
  (forall v, In v vs -> find_set f v = Some (sets v) /\ d_dims (sets v) = load_count cf m) ->
  forall data h, (forall a, (forall k j i, in_count (load_count cf m) k j i -> slot k j i <> a) -> data a = None) ->
  exists h', read_fields cf m f vs data h = Some h' /\
    (forall v, In v vs -> exists dv, holds_set (sets v) dv /\
       forall k j i, in_all k j i -> h' (addr cf m i j k v) = cell_value dv v i j k) /\
    (forall v, ~ In v vs -> 0 <= v < nbvar m -> forall k j i, in_all k j i -> h' (addr cf m i j k v) = h (addr cf m i j k v)).
Proof.
  induction vs as [|v vs IH]; intros Hvs Hnd Hf data h Hb.
  - exists h. split; [reflexivity|]. split; [intros v []|auto].
  - cbn [read_fields]. destruct (Hf v) as [E1 E2]; [left; auto|]. rewrite E1.
    destruct (h5_read_at (sets v) data E2 Hb) as (data' & E3 & H3). rewrite E3.
    apply NoDup_cons_iff in Hnd. destruct Hnd as [Hn Hnd].
    destruct (IH (fun w Hw => Hvs w (or_intror Hw)) Hnd (fun w Hw => Hf w (or_intror Hw)) data'
                (load_buffer cf m data' v h) (proj2 H3)) as (h' & A & B & C).
    exists h'. split; [exact A|]. assert (Hv : 0 <= v < nbvar m) by (apply Hvs; left; auto). split.
    + intros w [<-|Hw]; [|apply B; auto]. exists data'. split; [exact H3|]. intros k j i Hc.
      rewrite C by auto. rewrite load_buffer_at by auto. rewrite Z.eqb_refl. reflexivity.
    + intros w Hw Hwr k j i Hc. rewrite C; [|intros X; apply Hw; right; auto|auto|auto].
      rewrite load_buffer_at by auto. destruct (w =? v) eqn:E; auto. exfalso. apply Hw. left. lia.
Qed.

Lemma fields_nodup : NoDup (h5_fields cf).
Proof.
  unfold h5_fields, ID, IE, IU, IV, IW, IA, IB, IC.
  destruct (h_three cf), (h_mhd cf); cbn; repeat constructor; cbn; intuition lia.
Qed.

Lemma load_at (f : h5file (T := T)) (sets : Z -> dataset) : (forall v, In v (h5_fields cf) -> 0 <= v < nbvar m) ->
  (forall v, In v (h5_fields cf) -> find_set f v = Some (sets v) /\ d_dims (sets v) = load_count cf m) ->
  exists h, h5_load cf m f = Some h /\
    (forall v, In v (h5_fields cf) -> exists dv, holds_set (sets v) dv /\
       forall k j i, in_all k j i -> h (addr cf m i j k v) = cell_value dv v i j k).
Proof.
  intros Hv Hf. destruct (read_fields_at f sets (h5_fields cf) Hv fields_nodup Hf blank blank) as (h & A & B & _).
  - intros; reflexivity.
  - exists h. split; auto.
Qed.

End Shape.
End Facts.
