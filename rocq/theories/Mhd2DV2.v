(** * Version 2 of the 2D MHD step *)
From Coq Require Import ZArith List Bool Lia ZifyBool Permutation Reals Lra.
Import ListNotations.
From Verif Require Import Num Exec ExecFacts Grid GridFacts Boundaries BoundariesSpec
  BoundariesFacts HydroNum Kernels KernelFacts Atomics
  Hydro2D Hydro2DSpec Hydro2DFacts Hydro2DStep MhdNum Mhd2D Mhd2DSpec MhdFacts Mhd2DFacts Mhd2DStep.
Local Open Scope Z_scope.

(** ** Fluxes and EMF of version 2 as functions of the fields *)
Section Fields.
Context {T : Type} {N : Num T}.
Variable S : hset T.
Variable dt : T.
Notation dtx := (ndiv dt (dx S)).
Notation dty := (ndiv dt (dy S)).

Section QU.
Variable Q : Z -> Z -> ms T.
Variable U : field2 T.

Definition vSx (i j : Z) : ms T :=
  set_a (mslope S (Q i j) (Q (i + 1) j) (Q (i - 1) j)) (nsub (U (i + 1) j IA) (U i j IA)).
Definition vSy (i j : Z) : ms T :=
  set_b (mslope S (Q i j) (Q i (j + 1)) (Q i (j - 1))) (nsub (U i (j + 1) IB) (U i j IB)).
Definition vQ2 (i j : Z) : ms T :=
  mmap2 (fun x y => nadd x (nmul nhalf y)) (Q i j)
    (source2 S (Q i j) (vSx i j) (vSy i j) (nsub (U (i + 1) j IA) (U i j IA))
       (nsub (U i (j + 1) IB) (U i j IB)) dtx dty).
Definition vEl (i j : Z) : T :=
  elec2 (Q (i - 1) (j - 1)) (Q (i - 1) j) (Q i (j - 1)) (Q i j)
        (U i (j - 1) IA) (U i j IA) (U (i - 1) j IB) (U i j IB).
Definition vsx (i j : Z) : T := nmul (nmul (nsub (vEl i (j + 1)) (vEl i j)) nhalf) dty.
Definition vsy (i j : Z) : T := nmul (nmul (nopp (nsub (vEl (i + 1) j) (vEl i j))) nhalf) dtx.

Definition vFX (i j : Z) : ms T :=
  let a := nadd (U i j IA) (vsx i j) in
  msolve S (set_a (mface S nadd (vQ2 (i - 1) j) (vSx (i - 1) j)) a)
           (set_a (mface S nsub (vQ2 i j) (vSx i j)) a).
Definition vFY (i j : Z) : ms T :=
  let b := nadd (U i j IB) (vsy i j) in
  swap_xy (msolve S (swap_xy (set_b (mface S nadd (vQ2 i (j - 1)) (vSy i (j - 1))) b))
                    (swap_xy (set_b (mface S nsub (vQ2 i j) (vSy i j)) b))).

(** State of cell (i0,j0) at one of its corners; (ia,ja) and (ib,jb) the faces. *)
Definition vcorner (i0 j0 ia ja ib jb sx sy sa sb : Z) : ms T :=
  mfloor S (set_ab
    (mmap2 nadd (vQ2 i0 j0)
       (mmap2 (fun x y => nmul nhalf (nadd (nmul (nZ sx) x) (nmul (nZ sy) y))) (vSx i0 j0) (vSy i0 j0)))
    (nadd (nadd (U ia ja IA) (vsx ia ja))
       (nmul nhalf (nmul (nZ sa) (slope1 S (U ia ja IA) (U ia (ja + 1) IA) (U ia (ja - 1) IA)))))
    (nadd (nadd (U ib jb IB) (vsy ib jb))
       (nmul nhalf (nmul (nZ sb) (slope1 S (U ib jb IB) (U (ib + 1) jb IB) (U (ib - 1) jb IB)))))).

Definition vE (i j : Z) : T :=
  compute_emf S EMFZ
    (vcorner (i - 1) (j - 1) (i - 1 + 1) (j - 1) (i - 1) (j - 1 + 1) 1 1 1 1)
    (vcorner (i - 1) j (i - 1 + 1) j (i - 1) j 1 (-1) (-1) 1)
    (vcorner i (j - 1) i (j - 1) i (j - 1 + 1) (-1) 1 1 (-1))
    (vcorner i j i j i j (-1) (-1) (-1) (-1)).
End QU.
End Fields.

Section V2.
Context {T : Type} {N : Num T}.
Variable m : mesh.
Variable S : hset T.
Variable dt : T.
Variable inb : extents.
Hypothesis Hslope : mslope_ok S.
Hypothesis Hsolver : msolver_ok S.
Hypothesis Hgw : 3 <= gw m.
Variables ain aout : arr.
Hypothesis Hb : buffers ain aout.
Variable U : field2 T.
Notation Q := (mQ S U).
Notation ready := (ready m S ain aout U).

Lemma ready_frame s s' : ready s ->
  (forall l, la l = ain \/ la l = aout \/ la l = A_Q -> s' l = s l) -> ready s'.
Proof.
  intros (R1 & R2 & R3) Hf. split; [|split].
  - intros. rewrite Hf by (simpl; auto). auto.
  - intros. rewrite Hf by (simpl; auto). auto.
  - intros. rewrite <- R3 by auto. apply getm_ext. intros. apply Hf. simpl; auto.
Qed.

Definition slopes_done (s : store T) : Prop :=
  forall i j, 1 <= i < isize m - 2 -> 1 <= j < jsize m - 2 ->
    getm s (L2 A_Sx i j) = vSx S Q U i j /\ getm s (L2 A_Sy i j) = vSy S Q U i j.
Definition half_done (s : store T) : Prop :=
  forall i j, gw m - 2 <= i <= nx m + gw m -> gw m - 2 <= j <= ny m + gw m ->
    getm s (L2 A_Q2 i j) = vQ2 S dt Q U i j.
Definition elec_done (s : store T) : Prop :=
  forall i j, 1 <= i < isize m - 1 -> 1 <= j < jsize m - 1 -> s (L2 A_Elec i j 0) = vEl Q U i j.
Definition sface_done (s : store T) : Prop :=
  forall i j, 1 <= i < isize m - 2 -> 1 <= j < jsize m - 2 ->
    s (L2 A_SFace i j IX) = vsx S dt Q U i j /\ s (L2 A_SFace i j IY) = vsy S dt Q U i j.

Lemma not_only l Wa : existsb (arr_eqb (la l)) Wa = false -> only Wa (la l) = false.
Proof. auto. Qed.

Ltac off := simpl; intuition congruence.
Ltac other H2 := apply H2; simpl; unfold arr_eqb;
  repeat match goal with |- context [arr_eq_dec ?x ?y] => destruct (arr_eq_dec x y); [congruence|] end;
  reflexivity.

Lemma bufs_other : forall x, x <> A_U -> x <> A_U2 -> ain <> x /\ aout <> x.
Proof. intros x H1 H2. destruct Hb as [[-> ->]|[-> ->]]; split; congruence. Qed.

(** Cells used by the guards. *)
Lemma cell_of_range i j : 0 <= i < isize m -> 0 <= j < jsize m -> cell2 m i j.
Proof. unfold cell2, isize, jsize. auto. Qed.

Lemma upd_get_set_a (s : store T) a i j q x :
  getm (upd (putm s (L2 a i j) q) (L2 a i j IA) x) (L2 a i j) = set_a q x.
Proof.
  apply getm_eq. intros v Hv. destruct (Z.eq_dec v IA) as [->|Hn].
  - rewrite upd_same. reflexivity.
  - rewrite upd_other by (intros E; apply L2_inj in E; congruence). rewrite same_arr by auto.
    unfold IA in Hn. destruct (eight v Hv) as [->|[->|[->|[->|[->|[->|[->| ->]]]]]]]; try reflexivity; congruence.
Qed.
Lemma upd_get_set_b (s : store T) a i j q x :
  getm (upd (putm s (L2 a i j) q) (L2 a i j IB) x) (L2 a i j) = set_b q x.
Proof.
  apply getm_eq. intros v Hv. destruct (Z.eq_dec v IB) as [->|Hn].
  - rewrite upd_same. reflexivity.
  - rewrite upd_other by (intros E; apply L2_inj in E; congruence). rewrite same_arr by auto.
    unfold IB in Hn. destruct (eight v Hv) as [->|[->|[->|[->|[->|[->|[->| ->]]]]]]]; try reflexivity; congruence.
Qed.

Lemma getm_upd_other (s : store T) l x a i j : la l <> a -> getm (upd s l x) (L2 a i j) = getm s (L2 a i j).
Proof. intros Hl. apply getm_ext. intros. apply upd_other. intros E. apply Hl. rewrite E. reflexivity. Qed.
Lemma getm_putm_other (s : store T) b q i' j' a i j : b <> a ->
  getm (putm s (L2 b i' j') q) (L2 a i j) = getm s (L2 a i j).
Proof. intros Hl. apply getm_ext. intros. apply other_arr. simpl. congruence. Qed.

Lemma mslopes_ready s s' : ready s ->
  exec inb s (map (mslopes_item2 m S ain) (cells2 m)) s' -> ready s' /\ slopes_done s'.
Proof.
  intros HR Hex.
  destruct (cellwise2 _ _ _ _ _ _ _ (own_mslopes m S Hslope ain (buf_in ain aout Hb)) Hex) as [H1 H2].
  split.
  - apply (ready_frame s); auto. intros l Hl. apply H2. destruct Hb as [[E1 E2]|[E1 E2]]; rewrite E1, E2 in Hl;
    destruct l as [[] ? ? ? ?]; simpl in *; intuition congruence.
  - intros i j Hi Hj. pose proof HR as (R1 & R2 & R3).
    assert (EQ : forall di dj, -1 <= di <= 1 -> -1 <= dj <= 1 ->
      getm s (L2 A_Q (i + di) (j + dj)) = Q (i + di) (j + dj)).
    { intros. apply R3; unfold isize, jsize in *; lia. }
    assert (HE : forall a, getm s' (L2 a i j) = getm (run (mslopes_item2 m S ain (i, j)) s) (L2 a i j)).
    { intros a. apply getm_ext. intros v Hv. unfold L2. apply H1; lia. }
    rewrite !HE. unfold mslopes_item2. replace (_ && _) with true by (unfold isize, jsize in *; lia).
    rewrite !run_rdm. rewrite !mslope_dir_some by auto. cbn [need]. rewrite run_wrm. cbn [run].
    rewrite !run_rdm. rewrite !mslope_dir_some by auto. cbn [need]. rewrite run_wrm. cbn [run].
    destruct (bufs_other A_Sx) as [NX _]; try congruence. destruct (bufs_other A_Sy) as [NY _]; try congruence.
    assert (HU : forall i j v s0, s0 = s -> cell2 m i j -> 0 <= v < 8 -> s0 (L2 ain i j v) = U i j v)
      by (intros; subst; auto).
    split.
    + rewrite getm_upd_other, getm_putm_other by (simpl; congruence).
      rewrite upd_get_set_a. unfold vSx. rewrite !other_arr by (simpl; congruence).
      rewrite !R1 by (unfold cell2, IA, isize, jsize in *; lia).
      pose proof (EQ 0 0) as E0. pose proof (EQ 1 0) as E1. pose proof (EQ (-1) 0) as E2.
      rewrite !Z.add_0_r in E0. rewrite !Z.add_0_r in E1. rewrite !Z.add_0_r in E2.
      change (i - 1) with (i + -1). rewrite E0, E1, E2 by lia. reflexivity.
    + rewrite upd_get_set_b. unfold vSy.
      rewrite !other_arr by (simpl; congruence). rewrite !upd_other by (intros E; inversion E; congruence).
      rewrite !other_arr by (simpl; congruence).
      rewrite !R1 by (unfold cell2, IA, IB, isize, jsize in *; lia).
      rewrite !getm_upd_other, !getm_putm_other by (simpl; congruence).
      pose proof (EQ 0 0) as E0. pose proof (EQ 0 1) as E1. pose proof (EQ 0 (-1)) as E2.
      rewrite !Z.add_0_r in E0. rewrite !Z.add_0_r in E1. rewrite !Z.add_0_r in E2.
      change (j - 1) with (j + -1). rewrite E0, E1, E2 by lia. reflexivity.
Qed.

Lemma mhalf_ready s s' : ready s -> slopes_done s ->
  exec inb s (map (mhalf_item2 m S dt ain) (cells2 m)) s' -> ready s' /\ slopes_done s' /\ half_done s'.
Proof.
  intros HR HS Hex.
  destruct (cellwise2 _ _ _ _ _ _ _ (own_mhalf m S dt ain (buf_in ain aout Hb)) Hex) as [H1 H2].
  split; [|split].
  - apply (ready_frame s); auto. intros l Hl. apply H2. destruct Hb as [[E1 E2]|[E1 E2]]; rewrite E1, E2 in Hl;
    destruct l as [[] ? ? ? ?]; simpl in *; intuition congruence.
  - intros i j Hi Hj. rewrite <- (proj1 (HS i j Hi Hj)), <- (proj2 (HS i j Hi Hj)).
    split; apply getm_ext; intros; apply H2; reflexivity.
  - intros i j Hi Hj. pose proof HR as (R1 & R2 & R3).
    apply getm_eq. intros v Hv. unfold L2 at 1. rewrite H1 by (unfold isize, jsize; lia).
    unfold mhalf_item2. replace (trace_range2 m i j) with true by (unfold trace_range2, isize, jsize; lia).
    rewrite !run_rdm. cbn [run]. rewrite run_wrm. cbn [run]. change (mkloc A_Q2 i j 0 v) with (L2 A_Q2 i j v).
    rewrite same_arr by auto. unfold vQ2.
    rewrite R3 by (unfold isize, jsize; lia).
    destruct (HS i j) as [-> ->]; try (unfold isize, jsize; lia).
    rewrite !R1 by (unfold cell2, IA, IB, isize, jsize in *; lia). reflexivity.
Qed.

Lemma melec_ready s s' : ready s -> slopes_done s -> half_done s ->
  exec inb s (map (melec_item2 m ain) (cells2 m)) s' ->
  ready s' /\ slopes_done s' /\ half_done s' /\ elec_done s'.
Proof.
  intros HR HS HH Hex.
  destruct (cellwise2 _ _ _ _ _ _ _ (own_melec m ain (buf_in ain aout Hb)) Hex) as [H1 H2].
  split; [|split; [|split]].
  - apply (ready_frame s); auto. intros l Hl. apply H2. destruct Hb as [[E1 E2]|[E1 E2]]; rewrite E1, E2 in Hl;
    destruct l as [[] ? ? ? ?]; simpl in *; intuition congruence.
  - intros i j Hi Hj. rewrite <- (proj1 (HS i j Hi Hj)), <- (proj2 (HS i j Hi Hj)).
    split; apply getm_ext; intros; apply H2; reflexivity.
  - intros i j Hi Hj. rewrite <- (HH i j Hi Hj). apply getm_ext; intros; apply H2; reflexivity.
  - intros i j Hi Hj. pose proof HR as (R1 & R2 & R3).
    unfold L2 at 1. rewrite H1 by (unfold isize, jsize in *; lia).
    unfold melec_item2. replace (_ && _) with true by (unfold isize, jsize in *; lia).
    rewrite !run_rdm. cbn [run]. change (mkloc A_Elec i j 0 0) with (L2 A_Elec i j 0).
    rewrite upd_same. unfold vEl.
    rewrite !R3 by (unfold isize, jsize in *; lia).
    rewrite !R1 by (unfold cell2, IA, IB, isize, jsize in *; lia). reflexivity.
Qed.

(** Everything the last three kernels read. *)
Definition sources (s : store T) : Prop :=
  (forall i j v, cell2 m i j -> 0 <= v < 8 -> s (L2 ain i j v) = U i j v) /\
  slopes_done s /\ half_done s /\ sface_done s.

Lemma msface_ready s s' : ready s -> slopes_done s -> half_done s -> elec_done s ->
  exec inb s (map (msface_item2 m S dt) (cells2 m)) s' ->
  sources s' /\ (forall i j v, cell2 m i j -> 0 <= v < 8 -> s' (L2 aout i j v) = U i j v).
Proof.
  intros HR HS HH HE Hex.
  destruct (cellwise2 _ _ _ _ _ _ _ (own_msface m S dt) Hex) as [H1 H2].
  assert (Hr : ready s').
  { apply (ready_frame s); auto. intros l Hl. apply H2. destruct Hb as [[E1 E2]|[E1 E2]]; rewrite E1, E2 in Hl;
    destruct l as [[] ? ? ? ?]; simpl in *; intuition congruence. }
  split; [|apply Hr]. split; [apply Hr|]. split; [|split].
  - intros i j Hi Hj. rewrite <- (proj1 (HS i j Hi Hj)), <- (proj2 (HS i j Hi Hj)).
    split; apply getm_ext; intros; apply H2; reflexivity.
  - intros i j Hi Hj. rewrite <- (HH i j Hi Hj). apply getm_ext; intros; apply H2; reflexivity.
  - intros i j Hi Hj. unfold L2 at 1 2. rewrite !H1 by (unfold isize, jsize in *; lia).
    unfold msface_item2. replace (_ && _) with true by (unfold isize, jsize in *; lia).
    cbn [run]. change (mkloc A_SFace i j 0) with (L2 A_SFace i j).
    rewrite upd_same. rewrite !(upd_other _ (L2 A_SFace i j IX)) by (intros E; inversion E).
    rewrite upd_other by (intros E; inversion E). rewrite upd_same.
    rewrite !HE by (unfold isize, jsize in *; lia). split; reflexivity.
Qed.

Lemma bufs_ne2 x : x <> A_U -> x <> A_U2 -> x <> aout.
Proof. intros. apply not_eq_sym, bufs_other; auto. Qed.

Lemma sources_frame s s' : sources s -> (forall l, la l <> aout -> s' l = s l) -> sources s'.
Proof.
  intros (S1 & S2 & S3 & S4) Hf. split; [|split; [|split]].
  - intros. rewrite Hf by (simpl; apply (buf_ne ain aout Hb)). auto.
  - intros i j Hi Hj. rewrite <- (proj1 (S2 i j Hi Hj)), <- (proj2 (S2 i j Hi Hj)).
    split; apply getm_ext; intros; apply Hf; simpl; apply bufs_ne2; discriminate.
  - intros i j Hi Hj. rewrite <- (S3 i j Hi Hj). apply getm_ext; intros; apply Hf; simpl;
    apply bufs_ne2; discriminate.
  - intros i j Hi Hj. rewrite <- (proj1 (S4 i j Hi Hj)), <- (proj2 (S4 i j Hi Hj)).
    split; apply Hf; simpl; apply bufs_ne2; discriminate.
Qed.

(** The atomic kernels, in terms of the store. *)
Section Store.
Variable s : store T.
Definition wcell (op : T -> T -> T) (a : arr) (i j : Z) : ms T :=
  mface S op (getm s (L2 A_Q2 i j)) (getm s (L2 a i j)).
Definition wFX (i j : Z) : ms T :=
  let a := nadd (s (L2 ain i j IA)) (s (L2 A_SFace i j IX)) in
  msolve S (set_a (wcell nadd A_Sx (i - 1) j) a) (set_a (wcell nsub A_Sx i j) a).
Definition wFY (i j : Z) : ms T :=
  let b := nadd (s (L2 ain i j IB)) (s (L2 A_SFace i j IY)) in
  swap_xy (msolve S (swap_xy (set_b (wcell nadd A_Sy i (j - 1)) b)) (swap_xy (set_b (wcell nsub A_Sy i j) b))).
Definition wcorner (i0 j0 ia ja ib jb sx sy sa sb : Z) : ms T :=
  mfloor S (set_ab
    (mmap2 nadd (getm s (L2 A_Q2 i0 j0))
       (mmap2 (fun x y => nmul nhalf (nadd (nmul (nZ sx) x) (nmul (nZ sy) y)))
          (getm s (L2 A_Sx i0 j0)) (getm s (L2 A_Sy i0 j0))))
    (nadd (nadd (s (L2 ain ia ja IA)) (s (L2 A_SFace ia ja IX)))
       (nmul nhalf (nmul (nZ sa) (slope1 S (s (L2 ain ia ja IA)) (s (L2 ain ia (ja + 1) IA)) (s (L2 ain ia (ja - 1) IA))))))
    (nadd (nadd (s (L2 ain ib jb IB)) (s (L2 A_SFace ib jb IY)))
       (nmul nhalf (nmul (nZ sb) (slope1 S (s (L2 ain ib jb IB)) (s (L2 ain (ib + 1) jb IB)) (s (L2 ain (ib - 1) jb IB))))))).
Definition wE (i j : Z) : T :=
  compute_emf S EMFZ
    (wcorner (i - 1) (j - 1) (i - 1 + 1) (j - 1) (i - 1) (j - 1 + 1) 1 1 1 1)
    (wcorner (i - 1) j (i - 1 + 1) j (i - 1) j 1 (-1) (-1) 1)
    (wcorner i (j - 1) i (j - 1) i (j - 1 + 1) (-1) 1 1 (-1))
    (wcorner i j i j i j (-1) (-1) (-1) (-1)).

Lemma issues_flux_x :
  issues m (mflux_dir_item2 m S dt true ain aout) s
    (fun c1 c2 => mflux_x_updates m S dt aout c1 c2 (wFX c1 c2) Done).
Proof.
  intros c1 c2. unfold mflux_dir_item2. destruct (upto_face2 m c1 c2); [|reflexivity].
  rewrite !effects_rdm. cbn [effects]. rewrite !effects_rdm, effects_msolve by auto. reflexivity.
Qed.

Lemma issues_flux_y :
  issues m (mflux_dir_item2 m S dt false ain aout) s
    (fun c1 c2 => mflux_y_updates m S dt aout c1 c2 (wFY c1 c2) Done).
Proof.
  intros c1 c2. unfold mflux_dir_item2. destruct (upto_face2 m c1 c2); [|reflexivity].
  rewrite !effects_rdm. cbn [effects]. rewrite !effects_rdm, effects_msolve by auto. reflexivity.
Qed.

Lemma issues_edge_emf :
  issues m (medge_emf_item2 m S dt ain aout) s (fun c1 c2 => memf_updates S dt aout c1 c2 (wE c1 c2) Done).
Proof.
  intros c1 c2. unfold medge_emf_item2. destruct (upto_face2 m c1 c2); [|reflexivity].
  rewrite !effects_rdm. unfold medge_rec2, rd_slope_x, rd_slope_y.
  repeat (cbn [effects]; rewrite ?effects_rdm). reflexivity.
Qed.

Hypothesis Hs : sources s.

Lemma wFX_ok i j : gw m <= i <= nx m + gw m -> gw m <= j <= ny m + gw m -> wFX i j = vFX S dt Q U i j.
Proof.
  intros Hi Hj. destruct Hs as (S1 & S2 & S3 & S4). unfold wFX, vFX, wcell.
  rewrite !S3 by lia. rewrite !S1 by (unfold cell2, IA; lia).
  destruct (S2 i j) as [-> _]; try (unfold isize, jsize; lia).
  destruct (S2 (i - 1) j) as [-> _]; try (unfold isize, jsize; lia).
  destruct (S4 i j) as [-> _]; try (unfold isize, jsize; lia). reflexivity.
Qed.
Lemma wFY_ok i j : gw m <= i <= nx m + gw m -> gw m <= j <= ny m + gw m -> wFY i j = vFY S dt Q U i j.
Proof.
  intros Hi Hj. destruct Hs as (S1 & S2 & S3 & S4). unfold wFY, vFY, wcell.
  rewrite !S3 by lia. rewrite !S1 by (unfold cell2, IB; lia).
  destruct (S2 i j) as [_ ->]; try (unfold isize, jsize; lia).
  destruct (S2 i (j - 1)) as [_ ->]; try (unfold isize, jsize; lia).
  destruct (S4 i j) as [_ ->]; try (unfold isize, jsize; lia). reflexivity.
Qed.
Lemma wcorner_ok i0 j0 ia ja ib jb sx sy sa sb :
  gw m - 1 <= i0 <= nx m + gw m -> gw m - 1 <= j0 <= ny m + gw m ->
  gw m - 1 <= ia <= nx m + gw m -> gw m - 1 <= ja <= ny m + gw m ->
  gw m - 1 <= ib <= nx m + gw m -> gw m - 1 <= jb <= ny m + gw m ->
  wcorner i0 j0 ia ja ib jb sx sy sa sb = vcorner S dt Q U i0 j0 ia ja ib jb sx sy sa sb.
Proof.
  intros. destruct Hs as (S1 & S2 & S3 & S4). unfold wcorner, vcorner.
  rewrite !S3 by lia. rewrite !S1 by (unfold cell2, IA, IB; lia).
  destruct (S2 i0 j0) as [-> ->]; try (unfold isize, jsize; lia).
  destruct (S4 ia ja) as [-> _]; try (unfold isize, jsize; lia).
  destruct (S4 ib jb) as [_ ->]; try (unfold isize, jsize; lia). reflexivity.
Qed.
Lemma wE_ok i j : gw m <= i <= nx m + gw m -> gw m <= j <= ny m + gw m -> wE i j = vE S dt Q U i j.
Proof. intros. unfold wE, vE. rewrite !wcorner_ok by lia. reflexivity. Qed.
End Store.

Ltac atomic_foot2 :=
  footm2; intros; simpl; auto; try (apply bufs_ne2; discriminate); try apply (buf_ne ain aout Hb).

Lemma foot_flux_dir xdir c : atomic_only aout (mflux_dir_item2 m S dt xdir ain aout c).
Proof.
  destruct c as [i j]. unfold atomic_only, mflux_dir_item2.
  destruct (upto_face2 m i j); [|exact I]. unfold mflux_x_updates, mflux_y_updates.
  destruct xdir; cbv zeta; atomic_foot2.
Qed.

Lemma foot_edge_emf c : atomic_only aout (medge_emf_item2 m S dt ain aout c).
Proof.
  destruct c as [i j]. unfold atomic_only, medge_emf_item2.
  destruct (upto_face2 m i j); [|exact I]. unfold medge_rec2, rd_slope_x, rd_slope_y, memf_updates.
  cbv zeta. atomic_foot2.
Qed.

Lemma mscheme_V2 s s' : ready s -> execs inb s (mscheme2 m S dt V2 ain aout) s' ->
  mresult_any m S dt aout U (vFX S dt Q U) (vFY S dt Q U) (vE S dt Q U) s'.
Proof.
  intros HR Hex. cbn [mscheme2] in Hex.
  inv_execs Hex. inv_execs HT. inv_execs HT0. inv_execs HT. inv_execs HT0. inv_execs HT. inv_execs HT0. inv_execs HT.
  rename s0 into sa, s1 into sb, s2 into sc, s3 into sd, s4 into se, s5 into sf.
  destruct (mslopes_ready s sa HR HK) as (Ra & Sa).
  destruct (mhalf_ready sa sb Ra Sa HK0) as (Rb & Sb & Hbh).
  destruct (melec_ready sb sc Rb Sb Hbh HK1) as (Rc & Sc & Hc & Ec).
  destruct (msface_ready sc sd Rc Sc Hc Ec HK2) as (Sd & Ud).
  pose proof (ak_frame m inb aout _ _ _ (foot_flux_dir true) HK3) as FE.
  pose proof (ak_frame m inb aout _ _ _ (foot_flux_dir false) HK4) as FF.
  pose proof (sources_frame sd se Sd FE) as Se. pose proof (sources_frame se sf Se FF) as Sf.
  destruct (ak_flux_x m S dt inb aout ltac:(lia) _ _ _ (foot_flux_dir true) HK3 _ (issues_flux_x sd)) as (X1 & X2).
  destruct (ak_flux_y m S dt inb aout ltac:(lia) _ _ _ (foot_flux_dir false) HK4 _ (issues_flux_y se)) as (Y1 & Y2).
  destruct (ak_emf m S dt inb aout ltac:(lia) _ _ _ foot_edge_emf HK5 _ (issues_edge_emf sf)) as (E1 & E2).
  split.
  - intros i j v Hp Hv. assert (Hcl := phys_cell m ltac:(lia) i j Hp).
    assert (Hij := Hp). destruct Hij as [Hi Hj]. unfold physical in Hi, Hj.
    unfold mbalance_any.
    destruct (v =? IA) eqn:EA; [|destruct (v =? IB) eqn:EB].
    + replace v with IA in * by lia.
      destruct (E1 i j IA Hp) as (ops & HP & E); auto. exists ops.
      rewrite E. rewrite Y2, X2 by (auto; unfold six; tauto). rewrite Ud by auto. split; auto.
      rewrite Z.eqb_refl in HP. rewrite !wE_ok in HP by (auto; lia). exact HP.
    + replace v with IB in * by lia.
      destruct (E1 i j IB Hp) as (ops & HP & E); auto. exists ops.
      rewrite E. rewrite Y2, X2 by (auto; unfold six; tauto). rewrite Ud by auto. split; auto.
      cbn [Z.eqb IB IA Pos.eqb] in HP. rewrite !wE_ok in HP by (auto; lia). exact HP.
    + assert (H6 : six v) by (unfold six; lia).
      destruct (X1 i j v Hp H6) as (ox & PX & EX). destruct (Y1 i j v Hp H6) as (oy & PY & EY).
      exists (ox ++ oy). rewrite E2 by auto. rewrite EY, EX. rewrite Ud by auto.
      rewrite fold_left_app. split; auto.
      rewrite !wFX_ok in PX by (auto; lia). rewrite !wFY_ok in PY by (auto; lia).
      apply (Permutation_app PX PY).
  - intros i j v Hcl Hp Hv. rewrite E2 by auto. rewrite Y2, X2; auto; try apply Hv; try tauto.
    apply Ud; auto. apply Hv.
Qed.

End V2.
