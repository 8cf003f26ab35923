(** * C59: checkpoint files written and read by several processes *)
From Coq Require Import String ZArith List Bool Lia ZifyBool Reals Lra Ascii.
Import ListNotations.
From Verif Require Import Num Exec ExecFacts Grid GridFacts Boundaries BoundariesSpec
  BoundariesFacts BoundariesFill BoundariesNarrow HydroNum Kernels KernelFacts Atomics
  Hydro2D Hydro2DSpec Hydro2DFacts Hydro2DStep Determ Hydro2DRun EulerSpec HydroPhysics
  HydroRiemann PropPhysics Sums Hydro2DLaws Binary64 Doomed PropHydro2D
  Hydro3D Hydro3DSpec Hydro3DFacts Hydro3DStep Hydro3DRun Hydro3DLaws Hydro3DAxes Doomed3 PropHydro3D
  TimeStep TimeStepFacts Driver DriverFacts HydroMachine PropDriver
  Config Vtk Hdf5 Hdf5Facts RestartFacts PropRestart PropUpscale
  MpiRun MpiFacts Halo HaloFacts HaloFill HydroMpi HydroMpiFacts PropMpi
  MhdNum MhdFacts MhdSpec MhdPhysics Mhd2D Mhd2DSpec Mhd2DStep Mhd2DRun Mhd2DLaws PropMhd2D
  MhdMachine PropMhdDriver
  Mhd3DNum Mhd3D Mhd3DSpec Mhd3DFacts Mhd3DStep Mhd3DV2 Mhd3DRun Mhd3DLaws PropMhd3D Mhd3DMachine PropMhd3DDriver
  MhdMpi PropMhdMpi Binary64Valid SignFacts PropMpiDouble Hdf5Mpi.
Local Open Scope Z_scope.
Local Notation length := List.length.
#[local] Existing Instance Vnum.

(** ** Specification *)

(** A decomposition: block [m] on each process of [gp]. *)
Definition shared (cf : h5conf) (m : mesh) (gp : pgrid) : Prop :=
  pgrid_ok gp /\ 0 < nx m /\ 0 < ny m /\ 0 <= nz m /\ 0 <= gw m /\
  (if h_three cf then 0 < nz m else mz gp = 1) /\ nbvar m = all_vars cf.

(** The part of a field of the whole domain that the process at (x, y, z) holds. *)
Definition part {T} (m : mesh) (G : Z -> Z -> Z -> Z -> T) (x y z : Z) (i j k v : Z) : T :=
  G (x * nx m + i) (y * ny m + j) (z * nz m + k) v.

(** Two files with the same names, sizes, elements, step and time. *)
Definition same_set {T} (d d' : dataset (T := T)) : Prop :=
  d_dims d = d_dims d' /\
  forall k j i, in_count (d_dims d') k j i -> d_at d k j i = d_at d' k j i.
Definition same_h5 {T} (f f' : h5file (T := T)) : Prop :=
  h_step f = h_step f' /\ h_time f = h_time f' /\
  Forall2 (fun p p' => fst p = fst p' /\ same_set (snd p) (snd p')) (h_sets f) (h_sets f').

(** ** Facts about the lists of datasets *)
Section Lists.
Context {T : Type} {N : Num T}.
Implicit Types (P Q : Z -> dataset (T := T) -> Prop) (l : list (Z * dataset (T := T))).

Lemma sets_both vs P Q : forall l l', map fst l = vs -> map fst l' = vs ->
  Forall (fun p => P (fst p) (snd p)) l -> Forall (fun p => Q (fst p) (snd p)) l' ->
  (forall v d d', In v vs -> P v d -> Q v d' -> same_set d d') ->
  Forall2 (fun p p' => fst p = fst p' /\ same_set (snd p) (snd p')) l l'.
Proof.
  induction vs as [|v vs IH]; intros [|p l] [|p' l'] E E' F F' HS; try discriminate; [constructor|].
  cbn [map] in E, E'. injection E as E1 E2. injection E' as E1' E2'.
  inversion F; inversion F'; subst. constructor.
  - split; [congruence|]. apply (HS (fst p)); [left; auto|auto|congruence].
  - apply IH; auto. intros w d d' Hw. apply HS. right. auto.
Qed.

Lemma find_in vs P : forall l, map fst l = vs -> Forall (fun p => P (fst p) (snd p)) l -> forall v, In v vs ->
  exists d, option_map snd (find (fun p => fst p =? v) l) = Some d /\ P v d.
Proof.
  induction vs as [|w vs IH]; intros [|p l] E F v Hv; try discriminate; [destruct Hv|].
  cbn [map] in E. injection E as E1 E2. inversion F as [|? ? F1 F2]; subst. cbn [find].
  destruct (fst p =? v) eqn:Eq.
  - exists (snd p). split; [reflexivity|]. replace v with (fst p) by lia. auto.
  - destruct Hv as [Hv|Hv]; [lia|]. apply IH; auto.
Qed.

Lemma find_both f f' v d' : same_h5 f f' -> find_set (T := T) f' v = Some d' ->
  exists d, find_set f v = Some d /\ same_set d d'.
Proof.
  intros (_ & _ & F). unfold find_set. induction F as [|p p' l l' (E & HS) F IH]; [discriminate|]. cbn [find]. rewrite E.
  destruct (fst p' =? v); auto. cbn [option_map]. intros [= <-]. eauto.
Qed.

Lemma written_fields cf m (U : Z -> Z -> Z -> Z -> T) vs : h5_mesh m -> (forall v, In v vs -> 0 <= v < nbvar m) -> forall data,
  let l := write_fields cf m (to_host cf m U) vs data in
  map fst l = vs /\ Forall (fun p => holds_field cf m U (fst p) (snd p)) l.
Proof.
  intros Hm. induction vs as [|v vs IH]; intros Hv data; cbn zeta; cbn [write_fields map]; [auto|].
  destruct (IH (fun w Hw => Hv w (or_intror Hw)) (save_buffer cf m (to_host cf m U) v data)) as [A B].
  split; [cbn [fst]; f_equal; exact A|]. constructor; [|exact B]. cbn [fst snd].
  specialize (Hv v (or_introl eq_refl)).
  split; [unfold h5_write; destruct (save_start cf m) as [[? ?] ?]; reflexivity|].
  intros k j i Hc. pose proof (count_inside cf m Hm k j i Hc) as Hin.
  unfold h5_write, start1, start2, start3 in *. destruct (save_start cf m) as [[s3 s2] s1]. cbn [fst snd d_at] in *.
  rewrite save_buffer_at by auto. apply to_host_at; auto.
Qed.
End Lists.

(** ** What is written *)
Section Write.
Context {T : Type} {N : Num T}.
Variable cf : h5conf.
Variables allg rea : bool.
Variable m : mesh.
Variable gp : pgrid.
Hypothesis HS : shared cf m gp.

Let cf' := conf cf allg.
Let Hm : h5_mesh m.
Proof. destruct HS as (? & ? & ? & ? & ? & ?). unfold h5_mesh. lia. Qed.

(** Element (k, j, i) of the dataset of variable [v] comes from process [r]. *)
Definition comes_from (U : nat -> Z -> Z -> Z -> Z -> T) (v : Z) (ds : dataset (T := T)) (r : nat) (k j i : Z) : Prop :=
  let '(f3, f2, f1) := file_start cf allg rea m gp r in
  let '(s3, s2, s1) := save_start cf' m in
  box (file_start cf allg rea m gp r) (chunk cf allg m) k j i /\
  d_at ds k j i = Some (U r (s1 + (i - f1)) (s2 + (j - f2)) (s3 + (k - f3)) v).

Definition pholds (U : nat -> Z -> Z -> Z -> Z -> T) (v : Z) (ds : dataset (T := T)) : Prop :=
  d_dims ds = file_dims cf allg rea m gp /\
  forall k j i, in_count (d_dims ds) k j i ->
    (exists r, (r < np gp)%nat /\ comes_from U v ds r k j i) \/
    (forall r, (r < np gp)%nat -> ~ box (file_start cf allg rea m gp r) (chunk cf allg m) k j i).

Lemma pwrite_holds U v data (ds : dataset (T := T)) : 0 <= v < nbvar m ->
  h5_pwrite (Z.to_nat (nprocs gp)) (ks cf' m, jsize m, isize m) (save_start cf' m) (chunk cf allg m)
    (file_dims cf allg rea m gp) (file_start cf allg rea m gp)
    (fun r => save_buffer cf' m (to_host cf' m (U r)) v (data r)) ds -> pholds U v ds.
Proof.
  intros Hv (E & F). split; [exact E|]. intros k j i Hc.
  destruct (F k j i) as [(r & Hr & Hb & Hd)|Hno]; [| |right; exact Hno].
  { rewrite E in Hc. unfold in_count, in3 in Hc. unfold box. destruct (file_dims cf allg rea m gp) as [[? ?] ?]. cbn [fst snd] in *. lia. }
  left. exists r. split; [exact Hr|]. unfold comes_from.
  destruct (file_start cf allg rea m gp r) as [[f3 f2] f1].
  destruct (save_start cf' m) as [[s3 s2] s1] eqn:Es. split; [exact Hb|]. rewrite Hd.
  pose proof (count_inside cf' m Hm (k - f3) (j - f2) (i - f1)) as Hin. unfold start1, start2, start3 in Hin. rewrite Es in Hin. cbn [fst snd] in Hin.
  assert (Hin' : in_all cf' m (s3 + (k - f3)) (s2 + (j - f2)) (s1 + (i - f1))).
  { apply Hin. unfold in_count, in3. unfold box, chunk in Hb. fold cf' in Hb. destruct (save_count cf' m) as [[? ?] ?]. cbn [fst snd]. lia. }
  rewrite save_buffer_at by auto. apply to_host_at; auto.
Qed.

Lemma written_holds U vs : (forall v, In v vs -> 0 <= v < nbvar m) -> forall data sets,
  written cf allg rea m gp U vs data sets -> map fst sets = vs /\ Forall (fun p => pholds U (fst p) (snd p)) sets.
Proof.
  induction vs as [|v vs IH]; intros Hv data [|[w ds] sets] HW; cbn [written] in HW; try contradiction; [auto|].
  destruct HW as (-> & H1 & H2). destruct (IH (fun w Hw => Hv w (or_intror Hw)) _ _ H2) as [A B].
  split; [cbn [map fst]; f_equal; exact A|]. constructor; [|exact B]. cbn [fst snd].
  eapply pwrite_holds; [apply Hv; left; reflexivity|exact H1].
Qed.

Lemma fields_vars v : In v (h5_fields cf) -> 0 <= v < nbvar m.
Proof. intros Hv. apply fields_all in Hv. destruct HS as (_ & _ & _ & _ & _ & _ & ->). exact Hv. Qed.

(** A file exists, whatever the order in which the processes are served: [order] lists
    the processes, the first one that selects an element gives its value. *)
Definition boxb (start count : Z * Z * Z) (k j i : Z) : bool :=
  let '(s3, s2, s1) := start in let '(c3, c2, c1) := count in
  (s3 <=? k) && (k <? s3 + c3) && (s2 <=? j) && (j <? s2 + c2) && (s1 <=? i) && (i <? s1 + c1).
Lemma boxb_box start count k j i : boxb start count k j i = true <-> box start count k j i.
Proof. unfold boxb, box. destruct start as [[? ?] ?], count as [[? ?] ?]. lia. Qed.

Definition served (order : list nat) (data : nat -> flat (T := T)) : dataset (T := T) :=
  mkdataset (file_dims cf allg rea m gp) (fun k j i =>
    match find (fun r => boxb (file_start cf allg rea m gp r) (chunk cf allg m) k j i) order with
    | Some r =>
        let '(s3, s2, s1) := save_start cf' m in let '(f3, f2, f1) := file_start cf allg rea m gp r in
        data r ((s1 + (i - f1)) + isize m * ((s2 + (j - f2)) + jsize m * (s3 + (k - f3))))
    | None => None
    end).

Lemma served_written order data : (forall r, In r order <-> (r < np gp)%nat) ->
  h5_pwrite (Z.to_nat (nprocs gp)) (ks cf' m, jsize m, isize m) (save_start cf' m) (chunk cf allg m)
    (file_dims cf allg rea m gp) (file_start cf allg rea m gp) data (served order data).
Proof.
  intros Ho. split; [reflexivity|]. intros k j i _. unfold served. cbn [d_at].
  destruct (find _ order) as [r|] eqn:E.
  - apply find_some in E. destruct E as [Hr Hb]. apply boxb_box in Hb. left. exists r.
    split; [apply Ho; exact Hr|]. split; [exact Hb|]. destruct (save_start cf' m) as [[? ?] ?], (file_start cf allg rea m gp r) as [[? ?] ?]. reflexivity.
  - right. intros r Hr Hb. apply boxb_box in Hb. pose proof (find_none _ _ E r) as Hn. cbv beta in Hn. rewrite Hn in Hb; [discriminate|].
    apply Ho. exact Hr.
Qed.

Fixpoint serve (order : list nat) (U : nat -> Z -> Z -> Z -> Z -> T) (vs : list Z) (data : nat -> flat (T := T)) : list (Z * dataset (T := T)) :=
  match vs with
  | [] => []
  | v :: vs => let data := fun r => save_buffer cf' m (to_host cf' m (U r)) v (data r) in
      (v, served order data) :: serve order U vs data
  end.

Lemma serve_written order U vs : (forall r, In r order <-> (r < np gp)%nat) -> forall data,
  written cf allg rea m gp U vs data (serve order U vs data).
Proof.
  intros Ho. induction vs as [|v vs IH]; intros data; cbn [serve written]; [exact I|].
  split; [reflexivity|]. split; [|apply IH]. apply served_written. exact Ho.
Qed.

Lemma serve_file order U n t : (forall r, In r order <-> (r < np gp)%nat) ->
  saved_mpi cf allg rea m gp U n t (mkh5file (serve order U (h5_fields cf) (fun _ => blank)) n t).
Proof. intros Ho. split; [reflexivity|]. split; [reflexivity|]. apply serve_written. exact Ho. Qed.

Lemma serve_first order U vs : (forall r, In r order <-> (r < np gp)%nat) -> (forall v, In v vs -> 0 <= v < nbvar m) -> forall data r,
  hd_error order = Some r -> Forall (fun p => forall k j i,
    box (file_start cf allg rea m gp r) (chunk cf allg m) k j i -> comes_from U (fst p) (snd p) r k j i) (serve order U vs data).
Proof.
  intros Ho. induction vs as [|v vs IH]; intros Hv data r Hr; cbn [serve]; constructor; [|apply IH; auto; intros; apply Hv; right; auto].
  cbn [fst snd]. intros k j i Hb. unfold comes_from.
  destruct order as [|r0 order]; [discriminate|]. cbn [hd_error] in Hr. injection Hr as ->.
  unfold served. cbn [find d_at]. pose proof Hb as Hb'. apply boxb_box in Hb'. rewrite Hb'.
  destruct (file_start cf allg rea m gp r) as [[f3 f2] f1]. destruct (save_start cf' m) as [[s3 s2] s1] eqn:Es.
  split; [exact Hb|].
  pose proof (count_inside cf' m Hm (k - f3) (j - f2) (i - f1)) as Hin. unfold start1, start2, start3 in Hin. rewrite Es in Hin. cbn [fst snd] in Hin.
  assert (Hin' : in_all cf' m (s3 + (k - f3)) (s2 + (j - f2)) (s1 + (i - f1))).
  { apply Hin. unfold in_count, in3. unfold box, chunk in Hb. fold cf' in Hb. destruct (save_count cf' m) as [[? ?] ?]. cbn [fst snd]. lia. }
  specialize (Hv v (or_introl eq_refl)). rewrite save_buffer_at by auto. apply to_host_at; auto.
Qed.
End Write.

(** ** Written as one program would *)

Lemma conf_shared cf : conf cf false = cf.
Proof. destruct cf. unfold conf. cbn. rewrite orb_false_r. reflexivity. Qed.

Lemma gmesh_h5 cf m gp : shared cf m gp -> h5_mesh (gmesh m gp).
Proof.
  intros (gok & Hx & Hy & Hz & Hg & _). destruct gok as (Gx & Gy & Gz). unfold h5_mesh, gmesh. cbn [nx ny nz gw]. nia.
Qed.

Lemma pick n p g c k : 0 < n -> 0 < p -> 0 <= g -> c = n + g -> 0 <= k < n * p + g -> exists x, 0 <= x < p /\ x * n <= k < x * n + c.
Proof.
  intros Hn Hp Hg -> Hk. destruct (Z_lt_le_dec k (n * p)) as [Hl|Hl].
  - exists (k / n). pose proof (Z.div_mod k n ltac:(lia)) as E. pose proof (Z.mod_pos_bound k n Hn).
    assert (0 <= k / n) by (apply Z.div_pos; lia). assert (k / n < p) by (apply Z.div_lt_upper_bound; lia). nia.
  - exists (p - 1). nia.
Qed.

Lemma sits_rank gp x y z : pgrid_ok gp -> 0 <= x < mx gp -> 0 <= y < my gp -> 0 <= z < mz gp -> exists r, sits gp r x y z.
Proof.
  intros (Gx & Gy & Gz) Hx Hy Hz. exists (Z.to_nat ((x * my gp + y) * mz gp + z)). unfold sits. repeat split; try lia.
Qed.

(** The file holds what a single process would write for the whole domain, if every process
    holds its part of it (of the cells that go to the file). *)
Theorem C59_written_whole :
  forall (T : Type) (N : Num T) cf m gp (U : nat -> Z -> Z -> Z -> Z -> T) (G : Z -> Z -> Z -> Z -> T) n t,
  shared cf m gp ->
  (forall r x y z, sits gp r x y z -> forall i j k v, on_file cf m i j k -> 0 <= v < all_vars cf ->
     U r i j k v = part m G x y z i j k v) ->
  (exists f, saved_mpi cf false true m gp U n t f) /\
  forall f, saved_mpi cf false true m gp U n t f -> same_h5 f (h5_save cf (gmesh m gp) G n t).
Proof.
  intros T N cf m gp U G n t HS HU. split.
  { eexists. apply (serve_file cf false true m gp (seq 0 (np gp))). intros r. rewrite in_seq. lia. }
  intros f (E1 & E2 & HW). split; [exact E1|]. split; [exact E2|].
  destruct (written_holds cf false true m gp HS U (h5_fields cf) (fields_vars cf m gp HS) _ _ HW) as [A B].
  destruct (written_fields cf (gmesh m gp) G (h5_fields cf) (gmesh_h5 cf m gp HS) (fields_vars cf m gp HS) blank) as [A' B'].
  refine (sets_both (h5_fields cf) (pholds cf false true m gp U) (holds_field cf (gmesh m gp) G) _ _ A A' B B' _).
  intros v d d' Hv (D1 & D2) (D1' & D2').
  assert (ED : file_dims cf false true m gp = save_count cf (gmesh m gp)).
  { unfold file_dims, chunk, save_count. rewrite conf_shared. cbn [negb gmesh nx ny nz gw].
    destruct (h_ghost cf), (h_three cf); reflexivity. }
  split; [congruence|]. intros k j i Hc. rewrite D2' by (rewrite <- D1'; exact Hc).
  assert (Hc' : in_count (save_count cf (gmesh m gp)) k j i) by (rewrite <- D1'; exact Hc).
  pose proof HS as (gok & Hx & Hy & Hz & Hg & H3 & Hn). pose proof gok as (Gx & Gy & Gz).
  destruct (D2 k j i) as [(r & Hr & Hf)|Hno].
  { rewrite D1, ED, <- D1'. exact Hc. }
  - destruct (sits_exists gp r gok Hr) as (x & y & z & Hs). destruct (sits_coords gp r x y z gok Hs) as [_ Ec].
    unfold comes_from, file_start, chunk in Hf. rewrite conf_shared, Ec in Hf.
    pose proof Hs as (Sx & Sy & Sz & _).
    unfold start1, start2, start3, save_start, save_count, gz, triple, box, in_count, in3 in *. cbn [negb gmesh gw nx ny nz fst snd] in *.
    apply fields_all in Hv.
    destruct (h_ghost cf) eqn:Eg, (h_three cf) eqn:E3; cbn [fst snd] in *; destruct Hf as (Hb & ->); f_equal;
      (rewrite (HU r x y z Hs); [unfold part; f_equal; try ring; nia|unfold on_file, isize, jsize, ksize; rewrite Eg, E3; lia|exact Hv]).
  - exfalso.
    assert (EX : exists r, (r < np gp)%nat /\ box (file_start cf false true m gp r) (chunk cf false m) k j i); [|destruct EX as (r & Hr & Hb); exact (Hno r Hr Hb)].
    unfold file_start, chunk. rewrite conf_shared. unfold triple, box, save_count, in_count, in3 in *. cbn [negb gmesh gw nx ny nz fst snd] in *.
    destruct (h_ghost cf) eqn:Eg, (h_three cf) eqn:E3; cbn [fst snd] in *.
    + destruct (pick (nx m) (mx gp) (2 * gw m) (nx m + 2 * gw m) i) as (x & Px & Qx); [lia..|].
      destruct (pick (ny m) (my gp) (2 * gw m) (ny m + 2 * gw m) j) as (y & Py & Qy); [lia..|].
      destruct (pick (nz m) (mz gp) (2 * gw m) (nz m + 2 * gw m) k) as (z & Pz & Qz); [lia..|].
      destruct (sits_rank gp x y z gok Px Py Pz) as (r & Hs). destruct (sits_coords gp r x y z gok Hs) as [Hr Ec].
      exists r. rewrite Ec. split; auto.
    + destruct (pick (nx m) (mx gp) (2 * gw m) (nx m + 2 * gw m) i) as (x & Px & Qx); [lia..|].
      destruct (pick (ny m) (my gp) (2 * gw m) (ny m + 2 * gw m) j) as (y & Py & Qy); [lia..|].
      destruct (sits_rank gp x y 0 gok Px Py ltac:(lia)) as (r & Hs). destruct (sits_coords gp r x y 0 gok Hs) as [Hr Ec].
      exists r. rewrite Ec. split; auto. lia.
    + destruct (pick (nx m) (mx gp) 0 (nx m) i) as (x & Px & Qx); [lia..|].
      destruct (pick (ny m) (my gp) 0 (ny m) j) as (y & Py & Qy); [lia..|].
      destruct (pick (nz m) (mz gp) 0 (nz m) k) as (z & Pz & Qz); [lia..|].
      destruct (sits_rank gp x y z gok Px Py Pz) as (r & Hs). destruct (sits_coords gp r x y z gok Hs) as [Hr Ec].
      exists r. rewrite Ec. split; auto.
    + destruct (pick (nx m) (mx gp) 0 (nx m) i) as (x & Px & Qx); [lia..|].
      destruct (pick (ny m) (my gp) 0 (ny m) j) as (y & Py & Qy); [lia..|].
      destruct (sits_rank gp x y 0 gok Px Py ltac:(lia)) as (r & Hs). destruct (sits_coords gp r x y 0 gok Hs) as [Hr Ec].
      exists r. rewrite Ec. split; auto. lia.
Qed.
Print Assumptions C59_written_whole.

(** ** What is read *)
Section Read.
Context {T : Type} {N : Num T}.

Lemma fold_left_in {A B} (g g' : A -> B -> A) l : (forall a b, In b l -> g a b = g' a b) ->
  forall a, fold_left g l a = fold_left g' l a.
Proof.
  induction l as [|b l IH]; intros E a; cbn [fold_left]; auto. rewrite E by (left; auto).
  apply IH. intros; apply E; right; auto.
Qed.

Lemma nested_in n3 n2 n1 (p : Z -> Z -> Z -> Z) (x x' : Z -> Z -> Z -> option T) f :
  (forall k j i, in3 n3 n2 n1 k j i -> x k j i = x' k j i) ->
  nested n3 n2 n1 (fun k j i f => upd f (p k j i) (x k j i)) f =
  nested n3 n2 n1 (fun k j i f => upd f (p k j i) (x' k j i)) f.
Proof.
  intros E. rewrite !nested_fold. apply fold_left_in. intros g [[k j] i] Hin. cbn [fst snd].
  rewrite E; [reflexivity|]. apply in3_range3. exact Hin.
Qed.

(** A box of the file read by a process, as a dataset of its own. *)
Lemma read_box (ds ds' : dataset (T := T)) fdims f3 f2 f1 dims start count data :
  d_dims ds = fdims -> d_dims ds' = count ->
  (forall k j i, in_count count k j i -> d_at ds (f3 + k) (f2 + j) (f1 + i) = d_at ds' k j i) ->
  h5_pread ds fdims (f3, f2, f1) dims start count data = h5_read ds' dims start count data.
Proof.
  intros E E' F. unfold h5_pread, h5_read. rewrite E, E'. destruct dims as [[d3 d2] d1], start as [[s3 s2] s1], count as [[c3 c2] c1], fdims as [[g3 g2] g1].
  rewrite !Z.eqb_refl. cbn [andb]. f_equal. apply nested_in. intros k j i Hc. apply F. exact Hc.
Qed.

Lemma load_box cf allg m gp (f f' : h5file (T := T)) r :
  (forall v, In v (h5_fields cf) -> exists ds ds', find_set f v = Some ds /\ find_set f' v = Some ds' /\
     d_dims ds = read_dims cf allg m gp /\ d_dims ds' = load_count (conf cf allg) m /\
     forall k j i, in_count (load_count (conf cf allg) m) k j i ->
       let '(f3, f2, f1) := read_start cf allg m gp r in d_at ds (f3 + k) (f2 + j) (f1 + i) = d_at ds' k j i) ->
  h5_load_mpi cf allg m gp f r = h5_load (conf cf allg) m f'.
Proof.
  unfold h5_load_mpi, h5_load. change (h5_fields (conf cf allg)) with (h5_fields cf).
  generalize (h5_fields cf) as vs. generalize (blank (T := T)) at 2 4 as h. generalize (blank (T := T)) as data.
  intros data h vs. revert data h. induction vs as [|v vs IH]; intros data h HV; cbn [read_fields_mpi read_fields]; auto.
  destruct (HV v (or_introl eq_refl)) as (ds & ds' & -> & -> & E & E' & F).
  destruct (read_start cf allg m gp r) as [[f3 f2] f1] eqn:Es.
  rewrite (read_box ds ds' (read_dims cf allg m gp) f3 f2 f1 (load_dims (conf cf allg) m) (load_start (conf cf allg) m) (load_count (conf cf allg) m) data E E' F).
  destruct (h5_read ds' _ _ _ data); auto. apply IH. intros w Hw. apply HV. right. auto.
Qed.

(** The mesh on the disk: that of the run, or twice coarser. *)
Definition on_disk (cf : h5conf) (mb m : mesh) : Prop :=
  (if h_half cf then twice (h_three cf) mb m else mb = m).

Lemma disk_sizes cf cf2 mb m : same_kind cf cf2 -> on_disk cf2 mb m ->
  nx_r cf2 m = nx mb /\ ny_r cf2 m = ny mb /\ nz_r cf2 m = (if h_three cf then nz mb else 1) /\ gw m = gw mb /\ nbvar m = nbvar mb.
Proof.
  intros (K1 & K2 & K3) HD. unfold on_disk, nx_r, ny_r, nz_r in *. rewrite K1. destruct (h_half cf2).
  - destruct HD as (W1 & W2 & W3 & W4 & W5). split; [|split; [|split; [|auto]]].
    + rewrite W1, Z.mul_comm, Z.div_mul; lia.
    + rewrite W2, Z.mul_comm, Z.div_mul; lia.
    + destruct (h_three cf2); auto. rewrite W3, Z.mul_comm, Z.div_mul; auto. lia.
  - subst. auto.
Qed.

Lemma save_all cf m (U : Z -> Z -> Z -> Z -> T) n t v : h5_mesh m -> nbvar m = all_vars cf -> In v (h5_fields cf) ->
  exists ds, find_set (h5_save cf m U n t) v = Some ds /\ holds_field cf m U v ds.
Proof.
  intros Hm Hn Hv. destruct (written_fields cf m U (h5_fields cf) Hm) with (data := blank (T := T)) as [A B].
  { intros w Hw. apply fields_all in Hw. lia. }
  apply (find_in (h5_fields cf) (holds_field cf m U) _ A B v Hv).
Qed.

(** Each process reads what one program would read from a file of its part. *)
Lemma load_part cf cf2 mb m gp (G : Z -> Z -> Z -> Z -> T) n t f r x y z :
  same_kind cf cf2 -> on_disk cf2 mb m -> shared cf mb gp ->
  same_h5 f (h5_save cf (gmesh mb gp) G n t) -> sits gp r x y z ->
  h5_load_mpi cf2 false m gp f r = h5_load cf2 m (h5_save cf mb (part mb G x y z) n t).
Proof.
  intros K HD HS HF Hs. pose proof (disk_sizes cf cf2 mb m K HD) as (Z1 & Z2 & Z3 & Z4 & Z5).
  pose proof HS as (gok & Hx & Hy & Hz & Hg & H3 & Hn). pose proof gok as (Gx & Gy & Gz). destruct K as (K1 & K2 & K3).
  assert (Hmb : h5_mesh mb) by (unfold h5_mesh; lia).
  replace (h5_load cf2) with (h5_load (T := T) (conf cf2 false)) by (rewrite conf_shared; reflexivity).
  apply load_box. rewrite conf_shared. intros v Hv.
  assert (Hv' : In v (h5_fields cf)) by (unfold h5_fields in *; rewrite K1, K2; exact Hv).
  destruct (save_all cf (gmesh mb gp) G n t v (gmesh_h5 cf mb gp HS) Hn Hv') as (dg & A & B1 & B2).
  destruct (save_all cf mb (part mb G x y z) n t v Hmb Hn Hv') as (dp & C & D1 & D2).
  destruct (find_both f _ v dg HF A) as (d & E & F1 & F2). exists d, dp.
  assert (EC : load_count cf2 m = save_count cf mb).
  { unfold load_count, save_count, nz_rg, ny_rg, nx_rg, gz. rewrite Z1, Z2, Z3, Z4, <- K1, <- K3. destruct (h_ghost cf), (h_three cf); f_equal; lia. }
  split; [exact E|]. split; [exact C|]. split; [|split; [congruence|]].
  - rewrite F1, B1. unfold read_dims, save_count. rewrite conf_shared, Z1, Z2, Z3, Z4, <- K1, <- K3.
    cbn [gmesh nx ny nz gw]. destruct (h_ghost cf), (h_three cf); reflexivity.
  - rewrite EC. intros k j i Hc. destruct (sits_coords gp r x y z gok Hs) as [_ Ec].
    unfold read_start. rewrite conf_shared, Ec, EC. pose proof Hs as (Sx & Sy & Sz & _). rewrite D2 by exact Hc.
    assert (Hin : forall a b c, in_count (save_count cf (gmesh mb gp)) c b a ->
       d_at d c b a = Some (G (start1 cf (gmesh mb gp) + a) (start2 cf (gmesh mb gp) + b) (start3 cf (gmesh mb gp) + c) v)).
    { intros a b c Hi. rewrite F2 by (rewrite B1; exact Hi). apply B2. exact Hi. }
    clear A B1 B2 C D1 D2 E F1 F2. unfold triple. rewrite Z1, Z2, Z3, <- K1, <- K3.
    unfold save_count, in_count, in3, start1, start2, start3, save_start, gz, part in *. cbn [gmesh nx ny nz gw fst snd] in *.
    destruct (h_ghost cf) eqn:Eg, (h_three cf) eqn:E3; cbn [fst snd] in *;
      (rewrite Hin; [do 2 f_equal; try ring; nia|repeat split; try lia; nia]).
Qed.

(** All ghosts in the file: each process reads what it would read from a file of its own. *)
Lemma load_own cf cf2 mb m gp (U : nat -> Z -> Z -> Z -> Z -> T) n t f r x y z :
  same_kind cf cf2 -> on_disk cf2 mb m -> shared cf mb gp ->
  saved_mpi cf true true mb gp U n t f -> sits gp r x y z ->
  h5_load_mpi cf2 true m gp f r = h5_load (conf cf2 true) m (h5_save (conf cf true) mb (U r) n t).
Proof.
  intros K HD HS (_ & _ & HW) Hs. pose proof (disk_sizes cf cf2 mb m K HD) as (Z1 & Z2 & Z3 & Z4 & Z5).
  pose proof HS as (gok & Hx & Hy & Hz & Hg & H3 & Hn). pose proof gok as (Gx & Gy & Gz). destruct K as (K1 & K2 & K3).
  assert (Hmb : h5_mesh mb) by (unfold h5_mesh; lia).
  destruct (written_holds cf true true mb gp HS U (h5_fields cf) (fields_vars cf mb gp HS) _ _ HW) as [A B].
  apply load_box. intros v Hv.
  assert (Hv' : In v (h5_fields cf)) by (unfold h5_fields in *; rewrite K1, K2; exact Hv).
  destruct (find_in (h5_fields cf) _ _ A B v Hv') as (d & E & D1 & D2).
  destruct (save_all (conf cf true) mb (U r) n t v Hmb Hn Hv') as (dp & C & F1 & F2). exists d, dp.
  assert (EG : h_ghost (conf cf true) = true) by (unfold conf; cbn [h_ghost]; apply orb_true_r).
  assert (EG2 : h_ghost (conf cf2 true) = true) by (unfold conf; cbn [h_ghost]; apply orb_true_r).
  change (nx_r cf2 m) with (nx_r (conf cf2 true) m) in Z1. change (ny_r cf2 m) with (ny_r (conf cf2 true) m) in Z2.
  change (nz_r cf2 m) with (nz_r (conf cf2 true) m) in Z3.
  assert (EC : load_count (conf cf2 true) m = save_count (conf cf true) mb).
  { unfold load_count, save_count, nz_rg, ny_rg, nx_rg, gz. rewrite EG, EG2, Z1, Z2, Z3, Z4.
    change (h_three (conf cf2 true)) with (h_three cf2). change (h_three (conf cf true)) with (h_three cf). rewrite <- K1.
    destruct (h_three cf); f_equal; lia. }
  split; [exact E|]. split; [exact C|]. split; [|split; [congruence|]].
  - rewrite D1. unfold read_dims, file_dims, chunk, save_count. cbn [negb]. rewrite EG.
    unfold nz_rg, ny_rg, nx_rg, gz. rewrite Z1, Z2, Z3, Z4.
    change (h_three (conf cf2 true)) with (h_three cf2). change (h_three (conf cf true)) with (h_three cf). rewrite <- K1.
    destruct (h_three cf); reflexivity.
  - rewrite EC. intros k j i Hc. destruct (sits_coords gp r x y z gok Hs) as [Hr Ec].
    unfold read_start. rewrite Ec, EC. pose proof Hs as (Sx & Sy & Sz & Er). rewrite F2 by exact Hc.
    unfold triple. rewrite <- K1.
    assert (E3 : h_three (conf cf true) = h_three cf) by reflexivity.
    assert (HP : forall c b a, in_count (d_dims d) c b a ->
      (exists r', (r' < np gp)%nat /\ comes_from cf true true mb gp U v d r' c b a) \/
      (forall r', (r' < np gp)%nat -> ~ box (file_start cf true true mb gp r') (chunk cf true mb) c b a)) by exact D2.
    rewrite D1 in HP.
    assert (HF : forall r' x' y' z', sits gp r' x' y' z' -> file_start cf true true mb gp r' =
      (if h_three cf then z' * (nz mb + 2 * gw mb) else 0, y' * (ny mb + 2 * gw mb), x' * (nx mb + 2 * gw mb))).
    { intros r' x' y' z' Hs'. destruct (sits_coords gp r' x' y' z' gok Hs') as [_ Ec']. unfold file_start, chunk, save_count, triple.
      rewrite Ec', EG, E3. cbn [negb]. destruct (h_three cf); reflexivity. }
    assert (HC : chunk cf true mb = (if h_three cf then nz mb + 2 * gw mb else 1, ny mb + 2 * gw mb, nx mb + 2 * gw mb)).
    { unfold chunk, save_count. rewrite EG, E3. reflexivity. }
    assert (HDm : file_dims cf true true mb gp =
      (if h_three cf then mz gp * (nz mb + 2 * gw mb) else 1, my gp * (ny mb + 2 * gw mb), mx gp * (nx mb + 2 * gw mb))).
    { unfold file_dims. rewrite HC. cbn [negb]. destruct (h_three cf); reflexivity. }
    rewrite HDm, HC in HP. clear HDm. unfold comes_from in HP. rewrite HC in HP.
    assert (SV : save_start (conf cf true) mb = (0, 0, 0)) by (unfold save_start; rewrite EG; reflexivity).
    rewrite SV in HP. unfold start1, start2, start3. rewrite SV. cbn [fst snd]. rewrite !Z.add_0_l.
    unfold save_count in *. rewrite EG, E3 in *.
    set (c3 := nz mb + 2 * gw mb) in *. set (c2 := ny mb + 2 * gw mb) in *. set (c1 := nx mb + 2 * gw mb) in *.
    assert (P1 : 0 < c1) by lia. assert (P2 : 0 < c2) by lia. assert (P3 : 0 <= c3) by lia. clearbody c1 c2 c3.
    clear D1 D2 F1 F2 HW A B E C EC. unfold in_count, in3 in Hc. cbn [fst snd] in Hc.
    set (kk := (if h_three cf then z * c3 else 0) + k).
    destruct (HP kk (y * c2 + j) (x * c1 + i)) as [(r' & Hr' & Hf)|Hno].
    + unfold in_count, in3, kk. cbn [fst snd]. destruct (h_three cf); repeat split; try lia; nia.
    + destruct (sits_exists gp r' gok Hr') as (x' & y' & z' & Hs'). rewrite (HF _ _ _ _ Hs') in Hf. unfold box in Hf. destruct Hf as (Hb & Hd).
      pose proof Hs' as (Sx' & Sy' & Sz' & Er').
      assert (x' = x) by nia. assert (y' = y) by nia. subst x' y'.
      assert (z' = z) by (destruct (h_three cf); [unfold kk in Hb; nia|lia]). subst z'.
      assert (r' = r) by lia. subst r'. unfold kk in *.
      assert (EQ : forall a b, a = b -> d_at d a (y * c2 + j) (x * c1 + i) = d_at d b (y * c2 + j) (x * c1 + i)) by congruence.
      destruct (h_three cf) eqn:E3'; rewrite Hd; do 2 f_equal; lia.
    + exfalso. apply (Hno r Hr). rewrite (HF _ _ _ _ Hs). unfold box, kk. destruct (h_three cf); lia.
Qed.

Lemma loaded_eq cf allg m gp (f f' : h5file (T := T)) r a s s' :
  h5_load_mpi cf allg m gp f r = h5_load (conf cf allg) m f' ->
  loaded_mpi cf allg m gp f r a s s' <-> loaded (conf cf allg) m f' a s s'.
Proof. intros E. unfold loaded_mpi, loaded. rewrite E. reflexivity. Qed.
End Read.

(** ** Read as one program would *)

Lemma conf_kind cf cf2 allg : same_kind cf cf2 -> same_kind (conf cf allg) (conf cf2 allg).
Proof. intros (K1 & K2 & K3). unfold same_kind, conf. cbn. rewrite K1, K2, K3. auto. Qed.

(** From a file of the whole domain (written by one program or by any number of
    processes), every process reads its part. *)
Theorem C59_read_part :
  forall (T : Type) (N : Num T) cf cf2 m gp (G : Z -> Z -> Z -> Z -> T) n t f r x y z a (s : store T),
  same_kind cf cf2 -> h_half cf2 = false -> shared cf m gp -> sits gp r x y z ->
  same_h5 f (h5_save cf (gmesh m gp) G n t) ->
  h_step f = n /\ h_time f = t /\
  (exists s', loaded_mpi cf2 false m gp f r a s s') /\
  forall s', loaded_mpi cf2 false m gp f r a s s' ->
    (forall i j k v, on_file cf m i j k -> 0 <= v < all_vars cf -> s' (mkloc a i j k v) = part m G x y z i j k v) /\
    (forall l, la l <> a -> s' l = s l).
Proof.
  intros T N cf cf2 m gp G n t f r x y z a s K Hh HS Hs HF.
  assert (HD : on_disk cf2 m m) by (unfold on_disk; rewrite Hh; reflexivity).
  pose proof (load_part cf cf2 m m gp G n t f r x y z K HD HS HF Hs) as HL.
  assert (HM : h5_mesh m) by (destruct HS as (? & ? & ? & ? & ? & ?); unfold h5_mesh; lia).
  assert (Hn : nbvar m = all_vars cf) by apply HS.
  destruct (C33_round_trip T N cf cf2 m (part m G x y z) n t a s K Hh HM Hn) as (_ & _ & (s1 & E1) & HR).
  assert (HE : forall s', loaded_mpi cf2 false m gp f r a s s' <-> loaded cf2 m (h5_save cf m (part m G x y z) n t) a s s').
  { intros s'. rewrite (loaded_eq cf2 false m gp f (h5_save cf m (part m G x y z) n t)); rewrite conf_shared; [reflexivity|exact HL]. }
  destruct HF as (F1 & F2 & _). split; [exact F1|]. split; [exact F2|]. split.
  - exists s1. apply HE. exact E1.
  - intros s' Hl. apply HR. apply HE. exact Hl.
Qed.
Print Assumptions C59_read_part.

Lemma upscaled_part {T} {N : Num T} three g mb m (G : Z -> Z -> Z -> Z -> T) x y z i j k v :
  twice three mb m -> (three = false -> z = 0) ->
  upscaled three g (part mb G x y z) i j k v =
  upscaled three g G (x * nx m + i) (y * ny m + j) (z * nz m + k) v.
Proof.
  intros (W1 & W2 & W3 & W4 & W5) Hz.
  assert (PA : forall q n i0, parent g (q * (2 * n) + i0) = q * n + parent g i0).
  { intros q n i0. unfold parent. replace (q * (2 * n) + i0 - g) with (i0 - g + q * n * 2) by ring. rewrite Z.div_add by lia. lia. }
  assert (OD : forall q n i0, Z.odd (q * (2 * n) + i0 - g) = Z.odd (i0 - g)).
  { intros q n i0. replace (q * (2 * n) + i0 - g) with (i0 - g + 2 * (q * n)) by ring. apply Z.odd_add_mul_2. }
  unfold upscaled, part, face_axis. cbv zeta. rewrite W1, W2, !PA, !OD.
  destruct three.
  - rewrite W3 by reflexivity. rewrite !PA, !OD, !Z.add_assoc. reflexivity.
  - rewrite (Hz eq_refl), !Z.mul_0_l, !Z.add_0_l, !Z.add_assoc. reflexivity.
Qed.

(** From a file with half the cells along each axis, with ghosts: every process gets its
    part of the interpolated field, its ghosts included. *)
Theorem C59_read_half :
  forall (T : Type) (N : Num T) cf cf2 mc m gp (G : Z -> Z -> Z -> Z -> T) n t f r x y z a (s : store T),
  same_kind cf cf2 -> h_half cf2 = true -> h_ghost cf = true -> twice (h_three cf) mc m ->
  shared cf mc gp -> 0 <= nz m -> 2 <= gw m -> sits gp r x y z ->
  same_h5 f (h5_save cf (gmesh mc gp) G n t) ->
  (exists s', loaded_mpi cf2 false m gp f r a s s') /\
  forall s', loaded_mpi cf2 false m gp f r a s s' ->
    forall i j k v, any_cell (h_three cf) m i j k -> 0 <= v < all_vars cf ->
      s' (mkloc a i j k v) = part m (upscaled (h_three cf) (gw m) G) x y z i j k v.
Proof.
  intros T N cf cf2 mc m gp G n t f r x y z a s K Hh Hgh Htw HS Hz Hg Hs HF.
  assert (HD : on_disk cf2 mc m) by (unfold on_disk; rewrite Hh; destruct K as (<- & _); exact Htw).
  pose proof (load_part cf cf2 mc m gp G n t f r x y z K HD HS HF Hs) as HL.
  pose proof HS as (gok & Hx & Hy & Hzc & Hgc & H3 & Hn).
  assert (HMc : h5_mesh mc) by (unfold h5_mesh; lia).
  assert (HM : h5_mesh m) by (destruct Htw as (W1 & W2 & _); unfold h5_mesh; lia).
  destruct (C34_values T N cf cf2 mc m (part mc G x y z) n t a s K Hh Hgh HMc HM Hg Htw Hn) as ((s1 & E1) & HR).
  assert (HE : forall s', loaded_mpi cf2 false m gp f r a s s' <-> loaded cf2 m (h5_save cf mc (part mc G x y z) n t) a s s').
  { intros s'. rewrite (loaded_eq cf2 false m gp f (h5_save cf mc (part mc G x y z) n t)); rewrite conf_shared; [reflexivity|exact HL]. }
  split; [exists s1; apply HE; exact E1|]. intros s' Hl i j k v Hc Hv.
  rewrite (HR s' (proj1 (HE s') Hl) i j k v Hc Hv). unfold part at 2. apply upscaled_part; auto.
  intros E3. rewrite E3 in H3. destruct Hs as (_ & _ & Hs & _). lia.
Qed.
Print Assumptions C59_read_half.

(** With allghostIncluded every process gets back all its own cells, whatever they hold. *)
Theorem C59_all_ghosts :
  forall (T : Type) (N : Num T) cf cf2 m gp (U : nat -> Z -> Z -> Z -> Z -> T) n t f r a (s : store T),
  same_kind cf cf2 -> h_half cf2 = false -> shared cf m gp -> (r < np gp)%nat ->
  saved_mpi cf true true m gp U n t f ->
  (exists s', loaded_mpi cf2 true m gp f r a s s') /\
  forall s', loaded_mpi cf2 true m gp f r a s s' ->
    forall i j k v, any_cell (h_three cf) m i j k -> 0 <= v < all_vars cf -> s' (mkloc a i j k v) = U r i j k v.
Proof.
  intros T N cf cf2 m gp U n t f r a s K Hh HS Hr HF. pose proof HS as (gok & Hx & Hy & Hz & Hg & H3 & Hn).
  destruct (sits_exists gp r gok Hr) as (x & y & z & Hs).
  assert (HD : on_disk cf2 m m) by (unfold on_disk; rewrite Hh; reflexivity).
  pose proof (load_own cf cf2 m m gp U n t f r x y z K HD HS HF Hs) as HL.
  assert (HM : h5_mesh m) by (unfold h5_mesh; lia).
  destruct (C33_round_trip T N (conf cf true) (conf cf2 true) m (U r) n t a s (conf_kind _ _ true K) Hh HM Hn) as (_ & _ & (s1 & E1) & HR).
  split.
  - exists s1. apply (loaded_eq cf2 true m gp f _ r a s s1 HL). exact E1.
  - intros s' Hl i j k v (Hi & Hj & Hk) Hv. apply (loaded_eq cf2 true m gp f _ r a s s' HL) in Hl.
    destruct (HR s' Hl) as [A _]. apply A; auto.
    unfold on_file, conf. cbn [h_ghost h_three]. rewrite orb_true_r. auto.
Qed.
Print Assumptions C59_all_ghosts.

(** ** Restart *)

(** Files written by one decomposition are read by any other of the same domain. *)
Theorem C59_other_decomposition :
  forall (T : Type) (N : Num T) cf cf2 m m2 gp gp2 (U : nat -> Z -> Z -> Z -> Z -> T) (G : Z -> Z -> Z -> Z -> T) n t f r x y z a (s s' : store T),
  same_kind cf cf2 -> h_half cf2 = false -> shared cf m gp -> shared cf m2 gp2 ->
  nx m * mx gp = nx m2 * mx gp2 -> ny m * my gp = ny m2 * my gp2 -> nz m * mz gp = nz m2 * mz gp2 -> gw m = gw m2 ->
  (forall r x y z, sits gp r x y z -> forall i j k v, on_file cf m i j k -> 0 <= v < all_vars cf ->
     U r i j k v = part m G x y z i j k v) ->
  saved_mpi cf false true m gp U n t f -> sits gp2 r x y z -> loaded_mpi cf2 false m2 gp2 f r a s s' ->
  forall i j k v, on_file cf m2 i j k -> 0 <= v < all_vars cf -> s' (mkloc a i j k v) = part m2 G x y z i j k v.
Proof.
  intros T N cf cf2 m m2 gp gp2 U G n t f r x y z a s s' K Hh HS HS2 Ex Ey Ez Eg HU HF Hs Hl.
  destruct (C59_written_whole T N cf m gp U G n t HS HU) as [_ HW]. specialize (HW f HF).
  assert (EB : nbvar m = nbvar m2) by (destruct HS as (_ & _ & _ & _ & _ & _ & ->), HS2 as (_ & _ & _ & _ & _ & _ & ->); reflexivity).
  assert (EF : same_h5 f (h5_save cf (gmesh m2 gp2) G n t)).
  { destruct (written_fields cf (gmesh m gp) G (h5_fields cf) (gmesh_h5 cf m gp HS) (fields_vars cf m gp HS) blank) as [A B].
    destruct (written_fields cf (gmesh m2 gp2) G (h5_fields cf) (gmesh_h5 cf m2 gp2 HS2) (fields_vars cf m2 gp2 HS2) blank) as [A' B'].
    assert (EC : save_count cf (gmesh m gp) = save_count cf (gmesh m2 gp2)).
    { unfold save_count. cbn [gmesh nx ny nz gw]. rewrite Ex, Ey, Ez, Eg. reflexivity. }
    assert (ES : save_start cf (gmesh m gp) = save_start cf (gmesh m2 gp2)).
    { unfold save_start, gz. cbn [gmesh gw]. rewrite Eg. reflexivity. }
    assert (H2 : Forall2 (fun p p' => fst p = fst p' /\ same_set (snd p) (snd p')) (h_sets (h5_save cf (gmesh m gp) G n t)) (h_sets (h5_save cf (gmesh m2 gp2) G n t))).
    { refine (sets_both (h5_fields cf) (holds_field cf (gmesh m gp) G) (holds_field cf (gmesh m2 gp2) G) _ _ A A' B B' _).
      intros v d d' Hv (D1 & D2) (D1' & D2'). split; [congruence|]. intros k j i Hc. rewrite D1' in Hc.
      rewrite D2', D2 by (rewrite ?EC; exact Hc). unfold start1, start2, start3. rewrite ES. reflexivity. }
    destruct HW as (W1 & W2 & W3). split; [exact W1|]. split; [exact W2|].
    revert H2 W3. generalize (h_sets (h5_save cf (gmesh m gp) G n t)) as l. generalize (h_sets f) as l0.
    generalize (h_sets (h5_save cf (gmesh m2 gp2) G n t)) as l1. clear.
    intros l1 l0 l H2 H1. revert l1 H2. induction H1 as [|p p' l0 l (E & S1 & S2) H1 IH]; intros l1 H2; inversion H2 as [|? q ? ? (E' & S1' & S2') H2']; subst; constructor; auto.
    split; [congruence|]. split; [congruence|]. intros k j i Hc. rewrite S2 by (rewrite S1'; exact Hc). apply S2'. exact Hc. }
  destruct (C59_read_part T N cf cf2 m2 gp2 G n t f r x y z a s K Hh HS2 Hs EF) as (_ & _ & _ & HR).
  apply (HR s' Hl).
Qed.
Print Assumptions C59_other_decomposition.

(** Equal files are read alike. *)
Lemma find_same {T} {N : Num T} (f f' : h5file (T := T)) v : same_h5 f f' ->
  match find_set f v, find_set f' v with Some d, Some d' => same_set d d' | None, None => True | _, _ => False end.
Proof.
  intros (_ & _ & F). unfold find_set. induction F as [|p p' l l' (E & HS) F IH]; [exact I|]. cbn [find]. rewrite E.
  destruct (fst p' =? v); cbn [option_map]; auto.
Qed.
Lemma read_same {T} {N : Num T} (d d' : dataset (T := T)) dims start count data : same_set d d' ->
  h5_read d dims start count data = h5_read d' dims start count data.
Proof.
  intros (E & F). unfold h5_read. rewrite E. destruct dims as [[d3 d2] d1], start as [[s3 s2] s1], count as [[c3 c2] c1].
  destruct (d_dims d') as [[e3 e2] e1] eqn:Ed. destruct (_ && _) eqn:Eq; auto.
  assert (e3 = c3 /\ e2 = c2 /\ e1 = c1) as (-> & -> & ->) by lia.
  f_equal. apply nested_in. intros k j i Hc. apply F. exact Hc.
Qed.
Lemma load_same_h5 {T} {N : Num T} cf m (f f' : h5file (T := T)) : same_h5 f f' -> h5_load cf m f = h5_load cf m f'.
Proof.
  intros HF. unfold h5_load. generalize (h5_fields cf) as vs. generalize (blank (T := T)) at 2 4 as h. generalize (blank (T := T)) as data.
  intros data h vs. revert data h. induction vs as [|v vs IH]; intros data h; cbn [read_fields]; auto.
  pose proof (find_same f f' v HF) as HV. destruct (find_set f v) as [d|], (find_set f' v) as [d'|]; try contradiction; auto.
  rewrite (read_same d d') by exact HV. destruct (h5_read d' _ _ _ data); auto.
Qed.

(** All processes reading a file hold together what one program holds that reads it: the
    cells of the file and, new arrays being filled with zeros, all other arrays. *)
Definition holds_parts {T} (cf : h5conf) (m : mesh) (gp : pgrid) (M : nat -> store T) (s : store T) : Prop :=
  forall r x y z, sits gp r x y z ->
  (forall i j k v, on_file cf m i j k -> 0 <= v < all_vars cf ->
     M r (mkloc A_U i j k v) = s (mkloc A_U (x * nx m + i) (y * ny m + j) (z * nz m + k) v)) /\
  (forall a i j k v, a <> A_U ->
     M r (mkloc a i j k v) = s (mkloc a (x * nx m + i) (y * ny m + j) (z * nz m + k) v)).

Theorem C59_restart_parts :
  forall (T : Type) (N : Num T) cf cf2 m gp (G : Z -> Z -> Z -> Z -> T) n t f (M : nat -> store T) (s : store T),
  same_kind cf cf2 -> h_half cf2 = false -> shared cf m gp ->
  same_h5 f (h5_save cf (gmesh m gp) G n t) ->
  (forall r, (r < np gp)%nat -> loaded_mpi cf2 false m gp f r A_U zeros (M r)) ->
  loaded cf2 (gmesh m gp) f A_U zeros s ->
  holds_parts cf m gp M s.
Proof.
  intros T N cf cf2 m gp G n t f M s K Hh HS HF HM HL r x y z Hs. pose proof HS as (gok & Hx & Hy & Hz & Hg & H3 & Hn).
  destruct (sits_coords gp r x y z gok Hs) as [Hr _]. pose proof Hs as (Sx & Sy & Sz & _).
  destruct (C59_read_part T N cf cf2 m gp G n t f r x y z A_U zeros K Hh HS Hs HF) as (_ & _ & _ & HR).
  destruct (HR _ (HM r Hr)) as [A1 A2].
  destruct (C33_round_trip T N cf cf2 (gmesh m gp) G n t A_U zeros K Hh (gmesh_h5 cf m gp HS) Hn) as (_ & _ & _ & HR').
  assert (HL' : loaded cf2 (gmesh m gp) (h5_save cf (gmesh m gp) G n t) A_U zeros s).
  { unfold loaded in *. rewrite <- (load_same_h5 cf2 (gmesh m gp) f) by exact HF. exact HL. }
  destruct (HR' _ HL') as [B1 B2]. split.
  - intros i j k v Hp Hv. rewrite (A1 i j k v Hp Hv), B1; [reflexivity| |exact Hv].
    unfold on_file, isize, jsize, ksize in *. cbn [gmesh nx ny nz gw].
    destruct (h_ghost cf), (h_three cf); repeat split; try lia; nia.
  - intros a i j k v Ha. rewrite A2, B2 by exact Ha. reflexivity.
Qed.
Print Assumptions C59_restart_parts.

Lemma parts_share2 {T} cf m gp (M : nat -> store T) s : h_three cf = false -> h_mhd cf = false -> 0 <= gw m ->
  holds_parts cf m gp M s -> share2 m gp A_U M s.
Proof.
  intros K3 Km Hg HP r x y Hs. destruct (HP r x y 0 Hs) as [A B]. rewrite !Z.mul_0_l in A, B.
  assert (EV : all_vars cf = 4) by (unfold all_vars; rewrite K3, Km; reflexivity). split.
  - intros i j v [Hi Hj] Hv. unfold L2. apply (A i j 0 v); [|lia].
    unfold on_file. rewrite K3. unfold physical, isize, jsize in *. destruct (h_ghost cf); lia.
  - intros i j v _. unfold L2. apply (B A_G i j 0 v). discriminate.
Qed.
Lemma parts_share3 {T} cf m gp (M : nat -> store T) s : h_three cf = true -> h_mhd cf = false -> 0 <= gw m ->
  holds_parts cf m gp M s -> share3 m gp A_U M s.
Proof.
  intros K3 Km Hg HP r x y z Hs. destruct (HP r x y z Hs) as [A B].
  assert (EV : all_vars cf = 5) by (unfold all_vars; rewrite K3, Km; reflexivity). split.
  - intros i j k v [[Hi Hj] Hk] Hv. apply A; [|lia].
    unfold on_file. rewrite K3. unfold physical, isize, jsize, ksize in *. destruct (h_ghost cf); lia.
  - intros i j k v _. apply B. discriminate.
Qed.
Lemma parts_mshare2 {T} cf m gp (M : nat -> store T) s : h_three cf = false -> h_mhd cf = true -> 0 <= gw m ->
  holds_parts cf m gp M s -> mshare2 m gp A_U M s.
Proof.
  intros K3 Km Hg HP r x y Hs. destruct (HP r x y 0 Hs) as [A _]. rewrite !Z.mul_0_l in A.
  assert (EV : all_vars cf = 8) by (unfold all_vars; rewrite Km; reflexivity).
  intros i j v [Hi Hj] Hv. unfold L2. apply (A i j 0 v); [|lia].
  unfold on_file. rewrite K3. unfold physical, isize, jsize in *. destruct (h_ghost cf); lia.
Qed.
Lemma parts_mshare3 {T} cf m gp (M : nat -> store T) s : h_three cf = true -> h_mhd cf = true -> 0 <= gw m ->
  holds_parts cf m gp M s -> mshare3 m gp A_U M s.
Proof.
  intros K3 Km Hg HP r x y z Hs. destruct (HP r x y z Hs) as [A _].
  assert (EV : all_vars cf = 8) by (unfold all_vars; rewrite Km; reflexivity).
  intros i j k v [[Hi Hj] Hk] Hv. apply A; [|lia].
  unfold on_file. rewrite K3. unfold physical, isize, jsize, ksize in *. destruct (h_ghost cf); lia.
Qed.

(** A distributed program restarted from a file goes through the states of the serial
    program restarted from it, and writes the same files: double precision. *)
Definition restarts {T} {N : Num T} {M D} (f : h5file (T := T)) (mem : M) (z : sol (T := T) (M := M) (D := D)) : Prop :=
  Driver.start (h_time f) (h_step f) mem z.

Theorem C59_restart_run_2d :
  forall lay m gp (S : hset v64) g inb inb' iv iv' c cf cf2 G n t f M0 M s0 s z tr z' q qtr q',
  ready2_mpi m gp S -> 0 <= nz m -> iv = V0 \/ iv = V1 -> iv' = V0 \/ iv' = V1 ->
  positive (cfl S) -> clear (dx S) -> clear (dy S) ->
  same_kind cf cf2 -> h_half cf2 = false -> h_three cf = false -> h_mhd cf = false ->
  same_h5 f (h5_save cf (gmesh m gp) G n t) ->
  (forall r, (r < np gp)%nat -> loaded_mpi cf2 false m gp f r A_U zeros (M0 r)) ->
  loaded cf2 (gmesh m gp) f A_U zeros s0 ->
  built2_mpi lay m gp inb M0 M -> built2 (gmesh m gp) inb' s0 s ->
  restarts f M z -> restarts f s q -> s_dt z = s_dt q ->
  main (hydro2_mpi lay m gp S g inb iv) c z tr z' ->
  main (hydro2 (gmesh m gp) S g inb' iv') c q qtr q' ->
  every_step c (fun n s => numbers2 m gp (speed2 S g (field_of (in_array n) s) (field_of A_G s))) qtr ->
  Forall2 (same_run2 m gp) tr qtr /\ same_run2 m gp z' q'.
Proof.
  intros lay m gp S g inb inb' iv iv' c cf cf2 G n t f M0 M s0 s z tr z' q qtr q' HR Hz Hiv Hiv' Hc Hdx Hdy K Hh K3 Km HF HM HL HB Hb Hst Hsq Edt H1 H2 HE.
  pose proof HR as ((gok & flat & Hx & Hy & Hn) & _ & Hg & Hv & _).
  assert (HS : shared cf m gp) by (unfold shared; rewrite K3; unfold all_vars; rewrite K3, Km; repeat split; try lia; apply gok).
  assert (Et : h_time f = t) by apply HF. assert (Es : h_step f = n) by apply HF.
  unfold restarts in *. rewrite Et, Es in Hst, Hsq.
  eapply (C06_run_double_2d lay m gp S g inb inb' iv iv' c t n M0 M s0 s); eauto.
  eapply parts_share2; eauto; [lia|]. eapply (C59_restart_parts _ _ cf cf2 m gp G n t f); eauto.
Qed.
Print Assumptions C59_restart_run_2d.

Theorem C59_restart_run_3d :
  forall lay m gp (S : hset v64) g inb inb' iv c cf cf2 G n t f M0 M s0 s z tr z' q qtr q',
  ready3_mpi m gp S -> iv = V0 \/ iv = V1 ->
  positive (cfl S) -> clear (dx S) -> clear (dy S) -> clear (dz S) ->
  same_kind cf cf2 -> h_half cf2 = false -> h_three cf = true -> h_mhd cf = false ->
  same_h5 f (h5_save cf (gmesh m gp) G n t) ->
  (forall r, (r < np gp)%nat -> loaded_mpi cf2 false m gp f r A_U zeros (M0 r)) ->
  loaded cf2 (gmesh m gp) f A_U zeros s0 ->
  built3_mpi lay m gp inb M0 M -> built3 (gmesh m gp) inb' s0 s ->
  restarts f M z -> restarts f s q -> s_dt z = s_dt q ->
  main (hydro3_mpi lay m gp S g inb iv) c z tr z' ->
  main (hydro3 (gmesh m gp) S g inb' iv) c q qtr q' ->
  every_step c (fun n s => numbers3 m gp (speed3 S g (field_of3 (in_array n) s) (field_of3 A_G s))) qtr ->
  Forall2 (same_run3 m gp) tr qtr /\ same_run3 m gp z' q'.
Proof.
  intros lay m gp S g inb inb' iv c cf cf2 G n t f M0 M s0 s z tr z' q qtr q' HR Hiv Hc Hdx Hdy Hdz K Hh K3 Km HF HM HL HB Hb Hst Hsq Edt H1 H2 HE.
  pose proof HR as ((gok & Hx & Hy & Hzz & Hn) & _ & Hg & Hv & _).
  assert (HS : shared cf m gp) by (unfold shared; rewrite K3; unfold all_vars; rewrite K3, Km; repeat split; try lia; apply gok).
  assert (Et : h_time f = t) by apply HF. assert (Es : h_step f = n) by apply HF.
  unfold restarts in *. rewrite Et, Es in Hst, Hsq.
  eapply (C06_run_double_3d lay m gp S g inb inb' iv c t n M0 M s0 s); eauto.
  eapply parts_share3; eauto; [lia|]. eapply (C59_restart_parts _ _ cf cf2 m gp G n t f); eauto.
Qed.
Print Assumptions C59_restart_run_3d.

Theorem C59_mhd_restart_run_2d :
  forall lay m gp (S : hset v64) inb inb' c cf cf2 G n t f M0 M s0 s z tr z' q qtr q',
  mready2_mpi m gp S -> 0 <= nz m -> positive (cfl S) -> clear (dx S) -> clear (dy S) ->
  same_kind cf cf2 -> h_half cf2 = false -> h_three cf = false -> h_mhd cf = true ->
  same_h5 f (h5_save cf (gmesh m gp) G n t) ->
  (forall r, (r < np gp)%nat -> loaded_mpi cf2 false m gp f r A_U zeros (M0 r)) ->
  loaded cf2 (gmesh m gp) f A_U zeros s0 ->
  mbuilt2_mpi lay m gp S inb M0 M -> mbuilt2 (gmesh m gp) S inb' s0 s ->
  restarts f M z -> restarts f s q -> s_dt z = s_dt q ->
  main (mhd2_mpi lay m gp S inb V0) c z tr z' ->
  main (mhd2 (gmesh m gp) S inb' V0) c q qtr q' ->
  every_step c (fun n s => numbers2 m gp (mspeeds2 S (mQ S (extend (gmesh m gp) (field_of (in_array n) s))))) qtr ->
  Forall2 (msame_run2 m gp) tr qtr /\ msame_run2 m gp z' q'.
Proof.
  intros lay m gp S inb inb' c cf cf2 G n t f M0 M s0 s z tr z' q qtr q' HR Hz Hc Hdx Hdy K Hh K3 Km HF HM HL HB Hb Hst Hsq Edt H1 H2 HE.
  pose proof HR as ((gok & flat & Hx & Hy & Hn) & _ & Hg & Hv & _).
  assert (HS : shared cf m gp) by (unfold shared; rewrite K3; unfold all_vars; rewrite Km; repeat split; try lia; apply gok).
  assert (Et : h_time f = t) by apply HF. assert (Es : h_step f = n) by apply HF.
  unfold restarts in *. rewrite Et, Es in Hst, Hsq.
  eapply (C06_mhd_run_double_2d lay m gp S inb inb' c t n M0 M s0 s); eauto.
  eapply parts_mshare2; eauto; [lia|]. eapply (C59_restart_parts _ _ cf cf2 m gp G n t f); eauto.
Qed.
Print Assumptions C59_mhd_restart_run_2d.

Theorem C59_mhd_restart_run_3d :
  forall lay m gp (S : hset v64) inb inb' c cf cf2 G n t f M0 M s0 s z tr z' q qtr q',
  mready3_mpi V0 m gp S -> positive (cfl S) -> clear (dx S) -> clear (dy S) -> clear (dz S) ->
  same_kind cf cf2 -> h_half cf2 = false -> h_three cf = true -> h_mhd cf = true ->
  same_h5 f (h5_save cf (gmesh m gp) G n t) ->
  (forall r, (r < np gp)%nat -> loaded_mpi cf2 false m gp f r A_U zeros (M0 r)) ->
  loaded cf2 (gmesh m gp) f A_U zeros s0 ->
  mbuilt3_mpi lay m gp S inb M0 M -> mbuilt3 (gmesh m gp) S inb' s0 s ->
  restarts f M z -> restarts f s q -> s_dt z = s_dt q ->
  main (mhd3_mpi lay m gp S inb V0) c z tr z' ->
  main (mhd3 (gmesh m gp) S inb' V0) c q qtr q' ->
  every_step c (fun n s => numbers3 m gp (mspeeds3 S (mQ3 S (extend3 (gmesh m gp) (field_of3 (in_array n) s))))) qtr ->
  Forall2 (msame_run3 m gp) tr qtr /\ msame_run3 m gp z' q'.
Proof.
  intros lay m gp S inb inb' c cf cf2 G n t f M0 M s0 s z tr z' q qtr q' HR Hc Hdx Hdy Hdz K Hh K3 Km HF HM HL HB Hb Hst Hsq Edt H1 H2 HE.
  pose proof HR as ((gok & Hx & Hy & Hzz & Hn) & _ & Hg & Hv & _).
  assert (HS : shared cf m gp) by (unfold shared; rewrite K3; unfold all_vars; rewrite Km; repeat split; try lia; apply gok).
  assert (Et : h_time f = t) by apply HF. assert (Es : h_step f = n) by apply HF.
  unfold restarts in *. rewrite Et, Es in Hst, Hsq.
  eapply (C06_mhd_run_double_3d lay m gp S inb inb' c t n M0 M s0 s); eauto.
  eapply parts_mshare3; eauto; [lia|]. eapply (C59_restart_parts _ _ cf cf2 m gp G n t f); eauto.
Qed.
Print Assumptions C59_mhd_restart_run_3d.

(** The files of a distributed run (physical cells) are those of the serial run. *)
Theorem C59_run_file :
  forall (T : Type) (N : Num T) m gp,
  (forall cf (D : nat -> field2 T) d n t f, shared cf m gp -> h_three cf = false -> h_ghost cf = false ->
     (if h_mhd cf then mfile_parts2 m gp D d else file_parts2 m gp D d) ->
     saved_mpi cf false true m gp (fun r i j _ v => D r i j v) n t f ->
     same_h5 f (h5_save cf (gmesh m gp) (fun i j _ v => d i j v) n t)) /\
  (forall cf (D : nat -> field3 T) d n t f, shared cf m gp -> h_three cf = true -> h_ghost cf = false ->
     (if h_mhd cf then mfile_parts3 m gp D d else file_parts3 m gp D d) ->
     saved_mpi cf false true m gp D n t f ->
     same_h5 f (h5_save cf (gmesh m gp) d n t)).
Proof.
  intros T N m gp. split; intros cf D d n t f HS K3 Kg HP HF.
  - refine (proj2 (C59_written_whole T N cf m gp (fun r i j _ v => D r i j v) (fun i j _ v => d i j v) n t HS _) f HF).
    intros r x y z Hs i j k v Ho Hv. pose proof HS as (_ & _ & _ & _ & _ & H3 & _). rewrite K3 in H3.
    assert (z = 0) as -> by (destruct Hs as (_ & _ & Hs & _); lia). unfold part.
    unfold on_file in Ho. rewrite K3, Kg in Ho. unfold all_vars in Hv. rewrite K3 in Hv.
    destruct (h_mhd cf); apply (HP r x y Hs); auto; unfold phys2, physical; lia.
  - refine (proj2 (C59_written_whole T N cf m gp D d n t HS _) f HF).
    intros r x y z Hs i j k v Ho Hv. unfold part.
    unfold on_file in Ho. rewrite K3, Kg in Ho. unfold all_vars in Hv. rewrite K3 in Hv.
    destruct (h_mhd cf); apply (HP r x y z Hs); auto; unfold phys3, phys2, physical; lia.
Qed.
Print Assumptions C59_run_file.

(** reassembleInFile = false: the pieces of the processes one after the other, in the order
    of the ranks, along z in 3D and along y in 2D. *)
Theorem C59_pieces :
  forall (T : Type) (N : Num T) cf allg m gp (U : nat -> Z -> Z -> Z -> Z -> T) n t f r v i j k,
  shared cf m gp -> saved_mpi cf allg false m gp U n t f -> (r < np gp)%nat -> 0 <= v < all_vars cf ->
  let g := if h_ghost cf || allg then gw m else 0 in
  let p := if h_ghost cf || allg then 0 else gw m in
  let wx := nx m + 2 * g in let wy := ny m + 2 * g in let wz := if h_three cf then nz m + 2 * g else 1 in
  0 <= i < wx -> 0 <= j < wy -> 0 <= k < wz ->
  exists ds, find_set f v = Some ds /\
    d_dims ds = (if h_three cf then (wz * nprocs gp, wy, wx) else (1, wy * nprocs gp, wx)) /\
    (if h_three cf then d_at ds (Z.of_nat r * wz + k) j i else d_at ds 0 (Z.of_nat r * wy + j) i) =
    Some (U r (p + i) (p + j) (if h_three cf then p + k else 0) v).
Proof.
  intros T N cf allg m gp U n t f r v i j k HS (_ & _ & HW) Hr Hv g p wx wy wz Hi Hj Hk. pose proof HS as (gok & Hx & Hy & Hz & Hg & H3 & Hn).
  pose proof gok as (Gx & Gy & Gz).
  destruct (written_holds cf allg false m gp HS U (h5_fields cf) (fields_vars cf m gp HS) _ _ HW) as [A B].
  destruct (find_in (h5_fields cf) _ _ A B v) as (d & E & D1 & D2); [apply fields_all; exact Hv|]. exists d. split; [exact E|].
  assert (EP : nprocs gp = mx gp * my gp * mz gp) by reflexivity.
  assert (HC : chunk cf allg m = (wz, wy, wx)).
  { unfold chunk, save_count, conf, wz, wy, wx, g. cbn [h_ghost h_three]. destruct (h_ghost cf || allg), (h_three cf); f_equal; try f_equal; lia. }
  assert (HD : d_dims d = (if h_three cf then (wz * nprocs gp, wy, wx) else (1, wy * nprocs gp, wx))).
  { rewrite D1. unfold file_dims. rewrite HC, EP. cbn [negb]. destruct (h_three cf); [reflexivity|]. rewrite H3, Z.mul_1_r. reflexivity. }
  split; [exact HD|].
  assert (HF : forall q, file_start cf allg false m gp q = (if h_three cf then (Z.of_nat q * wz, 0, 0) else (0, Z.of_nat q * wy, 0))).
  { intros q. unfold file_start. destruct (cart_coords gp (Z.of_nat q)) as [[? ?] ?]. rewrite HC. cbn [negb]. destruct (h_three cf); reflexivity. }
  assert (HT : save_start (conf cf allg) m = (if h_three cf then p else 0, p, p)).
  { unfold save_start, gz, conf, p. cbn [h_ghost h_three]. destruct (h_ghost cf || allg), (h_three cf); reflexivity. }
  unfold comes_from in D2. rewrite HD in D2.
  assert (Hr' : Z.of_nat r < nprocs gp) by (unfold np in Hr; lia).
  clearbody wx wy wz g p. unfold in_count, in3, box in D2. rewrite HC in D2.
  destruct (h_three cf).
  - cbn [fst snd] in D2. destruct (D2 (Z.of_nat r * wz + k) j i) as [(q & Hq & Hf)|Hno].
    + nia.
    + rewrite HF, HT in Hf. destruct Hf as (Hb & ->). assert (q = r) as -> by nia. do 2 f_equal; lia.
    + exfalso. apply (Hno r Hr). rewrite HF. lia.
  - cbn [fst snd] in D2. destruct (D2 0 (Z.of_nat r * wy + j) i) as [(q & Hq & Hf)|Hno].
    + nia.
    + rewrite HF, HT in Hf. destruct Hf as (Hb & ->). assert (q = r) as -> by nia. do 2 f_equal; lia.
    + exfalso. apply (Hno r Hr). rewrite HF. lia.
Qed.
Print Assumptions C59_pieces.

(** ** Refuted *)

(** ghostIncluded: neighbours write the same elements.  Unless the ghosts are up to date
    the file can hold, in place of a physical cell of one process, the ghost of its
    neighbour; here the last column of the process at x = 0, whatever the processes hold. *)
Theorem C59_stale_ghosts_refuted :
  forall (T : Type) (N : Num T) cf m gp (U : nat -> Z -> Z -> Z -> Z -> T) n t r r',
  shared cf m gp -> h_ghost cf = true -> 1 <= gw m -> 2 <= mx gp ->
  sits gp r 0 0 0 -> sits gp r' 1 0 0 ->
  exists f, saved_mpi cf false true m gp U n t f /\
    forall v, 0 <= v < all_vars cf -> exists ds, find_set f v = Some ds /\
      forall j k, 0 <= j < jsize m -> 0 <= k < (if h_three cf then ksize m else 1) ->
        on_file cf m (gw m + nx m - 1) j k /\
        d_at ds k j (gw m + nx m - 1) = Some (U r' (gw m - 1) j k v).
Proof.
  intros T N cf m gp U n t r r' HS Hgh Hg Hmx Hs Hs'. pose proof HS as (gok & Hx & Hy & Hz & _ & H3 & Hn).
  destruct (sits_coords gp r' 1 0 0 gok Hs') as [Hr' Ec].
  set (order := r' :: seq 0 (np gp)).
  assert (Ho : forall q, In q order <-> (q < np gp)%nat).
  { intros q. unfold order. cbn [In]. rewrite in_seq. split; [intros [<-|E]; lia|intros; right; lia]. }
  exists (mkh5file (serve cf false true m gp order U (h5_fields cf) (fun _ => blank)) n t).
  split; [apply serve_file; exact Ho|]. intros v Hv.
  pose proof (serve_written cf false true m gp order U (h5_fields cf) Ho (fun _ => blank)) as HW.
  destruct (written_holds cf false true m gp HS U (h5_fields cf) (fields_vars cf m gp HS) _ _ HW) as [A _].
  pose proof (serve_first cf false true m gp HS order U (h5_fields cf) Ho (fields_vars cf m gp HS) (fun _ => blank) r' eq_refl) as B.
  destruct (find_in (h5_fields cf) (fun v d => forall k j i,
    box (file_start cf false true m gp r') (chunk cf false m) k j i -> comes_from cf false true m gp U v d r' k j i) _ A B v) as (ds & E & F);
    [apply fields_all; exact Hv|].
  exists ds. split; [exact E|]. intros j k Hj Hk. split.
  { unfold on_file, isize, jsize, ksize in *. rewrite Hgh. lia. }
  specialize (F k j (gw m + nx m - 1)). unfold comes_from, file_start, chunk, save_start, save_count, triple, box in F.
  rewrite Ec, conf_shared, Hgh in F. cbn [negb] in F. unfold jsize, ksize in *.
  destruct (h_three cf); destruct F as (_ & ->); try lia; do 2 f_equal; lia.
Qed.
Print Assumptions C59_stale_ghosts_refuted.

(** reassembleInFile = false with several processes along x: the reader, which always
    expects a reassembled file, announces extents that are not those of the file. *)
Theorem C59_pieces_refuted :
  forall (T : Type) (N : Num T) cf cf2 allg m gp (U : nat -> Z -> Z -> Z -> Z -> T) n t f r,
  same_kind cf cf2 -> h_half cf2 = false -> shared cf m gp -> 2 <= mx gp ->
  saved_mpi cf allg false m gp U n t f -> h5_load_mpi cf2 allg m gp f r = None.
Proof.
  intros T N cf cf2 allg m gp U n t f r (K1 & K2 & K3) Hh HS Hmx (_ & _ & HW). pose proof HS as (gok & Hx & Hy & Hz & Hg & H3 & Hn).
  destruct (written_holds cf allg false m gp HS U (h5_fields cf) (fields_vars cf m gp HS) _ _ HW) as [A B].
  unfold h5_load_mpi.
  assert (HI : exists vs, h5_fields cf2 = ID :: vs) by (unfold h5_fields; cbn [app]; eauto). destruct HI as (vs & EV). rewrite EV.
  assert (Hv : In ID (h5_fields cf)) by (unfold h5_fields; cbn [app]; left; reflexivity).
  destruct (find_in (h5_fields cf) _ _ A B ID Hv) as (d & E & D1 & _). cbn [read_fields_mpi]. unfold find_set. rewrite E.
  replace (h5_pread d _ _ _ _ _ _) with (@None (flat (T := T))); [reflexivity|]. symmetry.
  unfold h5_pread. rewrite D1. destruct (load_dims (conf cf2 allg) m) as [[? ?] ?], (load_start (conf cf2 allg) m) as [[? ?] ?],
    (load_count (conf cf2 allg) m) as [[? ?] ?], (read_start cf2 allg m gp r) as [[? ?] ?].
  unfold file_dims, chunk, save_count, read_dims, nx_rg, ny_rg, nz_rg, nx_r, ny_r, nz_r, gz, conf. cbn [negb h_half h_three h_ghost]. rewrite Hh, <- K1, <- K3.
  assert (NE : nx m =? nx m * mx gp = false) by nia. assert (NE2 : nx m + 2 * gw m =? nx m * mx gp + 2 * gw m = false) by nia.
  assert (NE3 : nx m + 2 * gw m =? mx gp * (nx m + 2 * gw m) = false) by nia.
  destruct allg, (h_ghost cf), (h_three cf); cbn [orb]; rewrite ?NE, ?NE2, ?NE3, !andb_false_r; reflexivity.
Qed.
Print Assumptions C59_pieces_refuted.

(** ** A concrete case: 2 x 2 processes with 2 x 3 cells each and one ghost *)
Definition ex_mesh : mesh := mkmesh 2 3 1 1 4 false (fun _ => 0).
Definition ex_grid : pgrid := mkpgrid 2 2 1.
Definition ex_conf : h5conf := mkh5conf false false false false LayoutLeft.
Definition ex_whole (i j k v : Z) : R := IZR (i + 10 * j + 100 * v).
Definition ex_part (r : nat) : Z -> Z -> Z -> Z -> R :=
  let '(x, y, z) := cart_coords ex_grid (Z.of_nat r) in part ex_mesh ex_whole x y z.

Example shared_example : shared ex_conf ex_mesh ex_grid /\
  exists f, saved_mpi ex_conf false true ex_mesh ex_grid ex_part 7 1%R f /\
    (exists ds, find_set f ID = Some ds /\ d_dims ds = (1, 6, 4) /\ d_at ds 0 5 3 = Some 64%R) /\
    exists s', loaded_mpi ex_conf false ex_mesh ex_grid f 3 A_U zeros s' /\ s' (L2 A_U 2 3 ID) = 64%R.
Proof.
  assert (HS : shared ex_conf ex_mesh ex_grid) by (unfold shared, pgrid_ok; cbn; lia). split; [exact HS|].
  assert (HU : forall r x y z, sits ex_grid r x y z -> forall i j k v, on_file ex_conf ex_mesh i j k -> 0 <= v < all_vars ex_conf ->
     ex_part r i j k v = part ex_mesh ex_whole x y z i j k v).
  { intros r x y z Hs i j k v _ _. unfold ex_part. destruct (sits_coords ex_grid r x y z (proj1 HS) Hs) as [_ ->]. reflexivity. }
  destruct (C59_written_whole R Rnum ex_conf ex_mesh ex_grid ex_part ex_whole 7 1%R HS HU) as [(f & HF) HW].
  exists f. split; [exact HF|]. specialize (HW f HF). split.
  - destruct (save_all ex_conf (gmesh ex_mesh ex_grid) ex_whole 7 1%R ID (gmesh_h5 _ _ _ HS) eq_refl) as (dg & A & B1 & B2); [left; reflexivity|].
    destruct (find_both f _ ID dg HW A) as (d & E & F1 & F2). exists d. split; [exact E|].
    assert (HC : in_count (1, 6, 4) 0 5 3) by (unfold in_count, in3; cbn; lia).
    split; [rewrite F1, B1; reflexivity|]. rewrite F2 by (rewrite B1; exact HC). rewrite B2 by exact HC. reflexivity.
  - assert (Hs : sits ex_grid 3 1 1 0) by (unfold sits; cbn; lia).
    destruct (C59_read_part R Rnum ex_conf ex_conf ex_mesh ex_grid ex_whole 7 1%R f 3 1 1 0 A_U zeros) as (_ & _ & (s' & HL) & HR); auto.
    { repeat split. }
    exists s'. split; [exact HL|]. destruct (HR s' HL) as [V _]. unfold L2. rewrite V; [reflexivity| |unfold all_vars; cbn; unfold ID; lia].
    unfold on_file. cbn. lia.
Qed.
