(** * Version 2 of the 3D MHD step *)
From Coq Require Import ZArith List Bool Lia ZifyBool Permutation Reals Lra.
Import ListNotations.
From Verif Require Import Num Exec ExecFacts Grid GridFacts Boundaries BoundariesSpec
  BoundariesFacts HydroNum Kernels KernelFacts Atomics
  Hydro2D Hydro2DSpec Hydro2DFacts Hydro2DStep Hydro3D Hydro3DSpec Hydro3DFacts
  MhdNum Mhd2D Mhd2DSpec MhdFacts Mhd2DFacts Mhd2DStep
  Mhd3DNum Mhd3D Mhd3DSpec Mhd3DFacts Mhd3DStep.
Local Open Scope Z_scope.

(** ** Fluxes and EMF of version 2 as functions of the fields *)
Section Fields.
Context {T : Type} {N : Num T}.
Variable S : hset T.
Variable dt : T.
Notation dtx := (ndiv dt (dx S)).
Notation dty := (ndiv dt (dy S)).
Notation dtz := (ndiv dt (dz S)).

Section QU.
Variable Q : Z -> Z -> Z -> ms T.
Variable U : field3 T.
Variable El : dir -> Z -> Z -> Z -> T.
Variable Sl : dir -> Z -> Z -> Z -> ms T.      (* slopes *)

(** Difference of the face-centred component along [d] across the cell. *)
Definition vdB3 (d : dir) (i j k : Z) : T :=
  nsub (U (i + ox d) (j + oy d) (k + oz d) (bcomp d)) (U i j k (bcomp d)).
Definition vS3 (d : dir) (i j k : Z) : ms T :=
  setb d (mslope S (Q i j k) (Q (i + ox d) (j + oy d) (k + oz d)) (Q (i - ox d) (j - oy d) (k - oz d)))
       (vdB3 d i j k).
(** Half-step state. *)
Definition vQ23 (i j k : Z) : ms T :=
  mmap2 (fun x y => nadd x (nmul nhalf y)) (Q i j k)
    (source3 S (Q i j k) (Sl DX i j k) (Sl DY i j k) (Sl DZ i j k)
       (vdB3 DX i j k) (vdB3 DY i j k) (vdB3 DZ i j k) dtx dty dtz).
(** Half-step change of the face-centred field. *)
Definition vs3 (d : dir) (i j k : Z) : T :=
  match d with
  | DX => nsub (nmul (nmul (nsub (El DZ i (j + 1) k) (El DZ i j k)) nhalf) dty)
               (nmul (nmul (nsub (El DY i j (k + 1)) (El DY i j k)) nhalf) dtz)
  | DY => nadd (nmul (nmul (nopp (nsub (El DZ (i + 1) j k) (El DZ i j k))) nhalf) dtx)
               (nmul (nmul (nsub (El DX i j (k + 1)) (El DX i j k)) nhalf) dtz)
  | DZ => nsub (nmul (nmul (nsub (El DY (i + 1) j k) (El DY i j k)) nhalf) dtx)
               (nmul (nmul (nsub (El DX i (j + 1) k) (El DX i j k)) nhalf) dty)
  end.
End QU.

Section Faces.
Variable U : field3 T.
Variable Sl : dir -> Z -> Z -> Z -> ms T.      (* slopes *)
Variable Q2 : Z -> Z -> Z -> ms T.             (* half-step states *)
Variable sB : dir -> Z -> Z -> Z -> T.         (* half-step changes of the face-centred field *)

Definition vF3 (d : dir) (i j k : Z) : ms T :=
  let b := nadd (U i j k (bcomp d)) (sB d i j k) in
  swapm d (msolve S
    (swapm d (mface3 S nadd d (Q2 (i - ox d) (j - oy d) (k - oz d)) (Sl d (i - ox d) (j - oy d) (k - oz d)) b))
    (swapm d (mface3 S nsub d (Q2 i j k) (Sl d i j k) b))).

(** Limited slope along [d]; the value below is read on the upper side along z. *)
Definition vsl3 (d : dir) (v i j k : Z) : T :=
  slope1 S (U i j k v) (U (i + ox d) (j + oy d) (k + oz d) v) (U (i - ox d) (j - oy d) (k + oz d) v).

(** State of cell (i,j,k) at its corner [c] in the plane transverse to [e]. *)
Definition vcorner3 (e : dir) (c : corner) (i j k : Z) : ms T :=
  let d0 := tr0 e in let d1 := tr1 e in
  let i0 := i + cu0 c * ox d0 in let j0 := j + cu0 c * oy d0 in let k0 := k + cu0 c * oz d0 in
  let i1 := i + cu1 c * ox d1 in let j1 := j + cu1 c * oy d1 in let k1 := k + cu1 c * oz d1 in
  edge_rec3 S d0 d1 (Q2 i j k)
    (mmap2 (fun x y => nmul nhalf (nadd (nmul (nZ (cs0 c)) x) (nmul (nZ (cs1 c)) y)))
       (Sl d0 i j k) (Sl d1 i j k))
    (nadd (nadd (U i0 j0 k0 (bcomp d0)) (sB d0 i0 j0 k0))
       (nmul nhalf (nmul (nZ (cs1 c)) (vsl3 d1 (bcomp d0) i0 j0 k0))))
    (nadd (nadd (U i1 j1 k1 (bcomp d1)) (sB d1 i1 j1 k1))
       (nmul nhalf (nmul (nZ (cs0 c)) (vsl3 d0 (bcomp d1) i1 j1 k1)))).

Definition vE3 (e : dir) (i j k : Z) : T :=
  let at_ c := vcorner3 e c (cci e c i) (ccj e c j) (cck e c k) in
  emf3 S e (at_ RT) (at_ RB) (at_ LT) (at_ LB).
End Faces.

(** From the conservative variables. *)
Section All.
Variable U : field3 T.
Definition vSl3 : dir -> Z -> Z -> Z -> ms T := vS3 (mQ3 S U) U.
Definition vhalf3 : Z -> Z -> Z -> ms T := vQ23 (mQ3 S U) U vSl3.
Definition vsB3 : dir -> Z -> Z -> Z -> T := vs3 (mEl3 (mQ3 S U) U).
Definition vflux3 : dir -> Z -> Z -> Z -> ms T := vF3 U vSl3 vhalf3 vsB3.
Definition vemf3 : dir -> Z -> Z -> Z -> T := vE3 U vSl3 vhalf3 vsB3.
End All.

(** Locality and translation invariance. *)
Section Ext.
Variables i1 j1 k1 i2 j2 k2 : Z.
Notation agr := (agr i1 j1 k1 i2 j2 k2).
Notation agrU := (agrU i1 j1 k1 i2 j2 k2).

Ltac rng := unfold ID, IP, IU, IV, IW, IA, IB, IC; lia.
Ltac dec :=
  first [ reflexivity
        | match goal with H : agr _ _ _ _ |- _ => apply H; rng end
        | match goal with H : agrU _ _ _ _ |- _ => apply H; rng end
        | match goal with H : forall _, agr _ _ _ _ |- _ => apply H; rng end
        | match goal with H : forall _ _, agr _ _ _ _ |- _ => apply H; rng end
        | apply f_app; dec ].

Lemma agr_vdB lo hi U1 U2 d : agrU lo (hi + 1) U1 U2 -> agr lo hi (vdB3 U1 d) (vdB3 U2 d).
Proof. intros HU x y z x' y' z' Hx Hy Hz Bx By Bz. unfold vdB3. destruct d; cbn [ox oy oz bcomp]; dec. Qed.

Lemma agr_vS lo hi Q1 Q2 U1 U2 d : agr (lo - 1) (hi + 1) Q1 Q2 -> agrU lo (hi + 1) U1 U2 ->
  agr lo hi (vS3 Q1 U1 d) (vS3 Q2 U2 d).
Proof.
  intros HQ HU x y z x' y' z' Hx Hy Hz Bx By Bz. unfold vS3.
  pose proof (agr_vdB lo hi U1 U2 d HU) as HB. destruct d; cbn [ox oy oz]; dec.
Qed.

Lemma agr_vQ2 lo hi Q1 Q2 U1 U2 Sl1 Sl2 : agr lo hi Q1 Q2 -> agrU lo (hi + 1) U1 U2 ->
  (forall d, agr lo hi (Sl1 d) (Sl2 d)) -> agr lo hi (vQ23 Q1 U1 Sl1) (vQ23 Q2 U2 Sl2).
Proof.
  intros HQ HU HS x y z x' y' z' Hx Hy Hz Bx By Bz. unfold vQ23.
  pose proof (fun d => agr_vdB lo hi U1 U2 d HU) as HB. dec.
Qed.

Lemma agr_vs lo hi El1 El2 d : (forall e, agr lo (hi + 1) (El1 e) (El2 e)) ->
  agr lo hi (vs3 El1 d) (vs3 El2 d).
Proof. intros HE x y z x' y' z' Hx Hy Hz Bx By Bz. unfold vs3. destruct d; dec. Qed.

Lemma agr_vF lo hi U1 U2 Sl1 Sl2 Q21 Q22 sB1 sB2 d : agrU lo hi U1 U2 ->
  (forall d, agr (lo - 1) hi (Sl1 d) (Sl2 d)) -> agr (lo - 1) hi Q21 Q22 ->
  (forall d, agr lo hi (sB1 d) (sB2 d)) ->
  agr lo hi (vF3 U1 Sl1 Q21 sB1 d) (vF3 U2 Sl2 Q22 sB2 d).
Proof.
  intros HU HS HQ HB x y z x' y' z' Hx Hy Hz Bx By Bz. unfold vF3. cbv zeta.
  destruct d; cbn [ox oy oz bcomp]; dec.
Qed.

Lemma agr_vE lo hi U1 U2 Sl1 Sl2 Q21 Q22 sB1 sB2 e : agrU (lo - 2) (hi + 1) U1 U2 ->
  (forall d, agr (lo - 1) hi (Sl1 d) (Sl2 d)) -> agr (lo - 1) hi Q21 Q22 ->
  (forall d, agr (lo - 1) hi (sB1 d) (sB2 d)) ->
  agr lo hi (vE3 U1 Sl1 Q21 sB1 e) (vE3 U2 Sl2 Q22 sB2 e).
Proof.
  intros HU HS HQ HB x y z x' y' z' Hx Hy Hz Bx By Bz. unfold vE3, vcorner3, vsl3, cci, ccj, cck. cbv zeta.
  destruct e; cbn [ox oy oz bcomp tr0 tr1 cu0 cu1 cs0 cs1]; dec.
Qed.

(** The whole chain: [hi + 2] because the field is read on the upper faces. *)
Lemma agr_vparts lo hi U1 U2 : agrU (lo - 1) (hi + 2) U1 U2 ->
  (forall d, agr lo hi (vSl3 U1 d) (vSl3 U2 d)) /\ agr lo hi (vhalf3 U1) (vhalf3 U2) /\
  (forall d, agr lo hi (vsB3 U1 d) (vsB3 U2 d)).
Proof.
  intros HU.
  assert (HQ : agr (lo - 1) (hi + 1) (mQ3 S U1) (mQ3 S U2)).
  { apply agr_Q. eapply agrU_weak; eauto; lia. }
  assert (HS : forall d, agr lo hi (vSl3 U1 d) (vSl3 U2 d)).
  { intros d. apply agr_vS; auto. eapply agrU_weak; eauto; lia. }
  split; [auto|split].
  - apply agr_vQ2; auto; [eapply agr_weak; eauto; lia|eapply agrU_weak; eauto; lia].
  - intros d. apply agr_vs. intros e. apply agr_El; [eapply agr_weak; eauto; lia|eapply agrU_weak; eauto; lia].
Qed.

Lemma agr_vflux_at lo hi U1 U2 d : agrU (lo - 2) (hi + 2) U1 U2 -> agr lo hi (vflux3 U1 d) (vflux3 U2 d).
Proof.
  intros HU. destruct (agr_vparts (lo - 1) hi U1 U2) as (HS & HQ & HB);
    [eapply agrU_weak; [exact HU|lia|lia]|].
  unfold vflux3. apply agr_vF; [|exact HS|exact HQ|].
  - eapply agrU_weak; [exact HU|lia|lia].
  - intros d'. eapply agr_weak; [apply HB|lia|lia].
Qed.

Lemma agr_vemf_at lo hi U1 U2 e : agrU (lo - 2) (hi + 2) U1 U2 -> agr lo hi (vemf3 U1 e) (vemf3 U2 e).
Proof.
  intros HU. destruct (agr_vparts (lo - 1) hi U1 U2) as (HS & HQ & HB);
    [eapply agrU_weak; [exact HU|lia|lia]|].
  unfold vemf3. apply agr_vE; [|exact HS|exact HQ|exact HB].
  eapply agrU_weak; [exact HU|lia|lia].
Qed.

Lemma agr_vflux U1 U2 d : agrU (-2) 3 U1 U2 -> agr 0 1 (vflux3 U1 d) (vflux3 U2 d).
Proof. exact (agr_vflux_at 0 1 U1 U2 d). Qed.
Lemma agr_vemf U1 U2 e : agrU (-2) 3 U1 U2 -> agr 0 1 (vemf3 U1 e) (vemf3 U2 e).
Proof. exact (agr_vemf_at 0 1 U1 U2 e). Qed.
End Ext.
End Fields.

Section V2.
Context {T : Type} {N : Num T}.
Variable m : mesh.
Variable S : hset T.
Variable dt : T.
Variable inb : extents.
Hypothesis Hslope : mslope_ok S.
Hypothesis Hsolver : msolver_ok S.
Hypothesis Hgw : 3 <= gw m.
Variables ain aout : arr.
Hypothesis Hb : buffers ain aout.
Variable U : field3 T.
Notation Q := (mQ3 S U).
Notation Hain := (buf_in ain aout Hb).
Notation Haout := (buf_out ain aout Hb).
Notation ready3 := (ready3 m S ain aout U).
Notation elec3_done := (elec3_done m S U).

Definition slopes_done3 (s : store T) : Prop :=
  forall d i j k, 1 <= i < isize m - 2 -> 1 <= j < jsize m - 2 -> 1 <= k < ksize m - 2 ->
    gq s (sarr3 d) i j k = vSl3 S U d i j k.
Definition half_done3 (s : store T) : Prop :=
  forall i j k, gw m - 2 <= i <= nx m + gw m -> gw m - 2 <= j <= ny m + gw m ->
    gw m - 2 <= k <= nz m + gw m -> gq s A_Q2 i j k = vhalf3 S dt U i j k.
Definition sface_done3 (s : store T) : Prop :=
  forall d i j k, 1 <= i < isize m - 2 -> 1 <= j < jsize m - 2 -> 1 <= k < ksize m - 2 ->
    gu s A_SFace i j k (icomp d) = vsB3 S dt U d i j k.

(** ** Footprints *)
Ltac own3 :=
  footm3; intros; try solve [own_goal];
  simpl in *;
  repeat match goal with H : _ \/ _ |- _ => destruct H as [<-|H] end; try tauto; try solve [own_goal].

Lemma own_mslopes3 : forall c, own_foot (only [A_Sx; A_Sy; A_Sz]) c (mslopes_item3 m S ain c).
Proof.
  intros [[i j] k]. unfold own_foot, mslopes_item3. destruct (_ && _); [|exact I].
  destruct Hain as [-> | ->]; own3.
Qed.
Lemma own_mhalf3 : forall c, own_foot (only [A_Q2]) c (mhalf_item3 m S dt ain c).
Proof.
  intros [[i j] k]. unfold own_foot, mhalf_item3. destruct (trace_range3 m i j k); [|exact I].
  destruct Hain as [-> | ->]; own3.
Qed.
Lemma own_msface3 : forall c, own_foot (only [A_SFace]) c (msface_item3 m S dt c).
Proof.
  intros [[i j] k]. unfold own_foot, msface_item3. destruct (mid_range3 m i j k); [|exact I].
  own3.
Qed.

Lemma foot_flux_dir3 d c : atomic_only aout (mflux_dir_item3 m S dt d ain aout c).
Proof.
  destruct c as [[i j] k]. unfold atomic_only, mflux_dir_item3. cbv zeta.
  destruct (upto_face3 m i j k); [|exact I].
  footm3; intros; simpl; auto; destruct Hb as [[-> ->]|[-> ->]]; destruct d; discriminate.
Qed.
Lemma foot_edge_emf3 e c : atomic_only aout (medge_emf_item3 m S dt e ain aout c).
Proof.
  destruct c as [[i j] k]. unfold atomic_only, medge_emf_item3.
  destruct (upto_face3 m i j k); [|exact I].
  footm3; intros; simpl; auto; destruct Hb as [[-> ->]|[-> ->]]; destruct e; discriminate.
Qed.

(** ** Values *)
Definition sput (s : store T) (d : dir) (i j k : Z) (q : ms T) (x : T) : store T :=
  upd (putm s (mkloc (sarr3 d) i j k) q) (mkloc (sarr3 d) i j k (bcomp d)) x.

Lemma sput_other s d i j k q x l : la l <> sarr3 d -> sput s d i j k q x l = s l.
Proof.
  intros Hl. unfold sput. rewrite upd_other by (intros E; subst l; apply Hl; reflexivity).
  apply other_arr3. auto.
Qed.
Lemma sput_same s d i j k q x : gq (sput s d i j k q x) (sarr3 d) i j k = setb d q x.
Proof.
  apply getm_eq. intros v Hv. unfold sput. destruct (Z.eq_dec v (bcomp d)) as [->|Hn].
  - rewrite upd_same. destruct d; reflexivity.
  - rewrite upd_other by congruence. rewrite same_arr3 by auto.
    destruct (eight v Hv) as [->|[->|[->|[->|[->|[->|[->| ->]]]]]]]; destruct d; try reflexivity;
    exfalso; apply Hn; reflexivity.
Qed.
Lemma sput_gq s d i j k q x a i' j' k' : a <> sarr3 d -> gq (sput s d i j k q x) a i' j' k' = gq s a i' j' k'.
Proof. intros Ha. apply getm_ext. intros. apply sput_other. auto. Qed.

Lemma sarr3_not d : sarr3 d <> A_Q /\ sarr3 d <> ain /\ sarr3 d <> aout /\ sarr3 d <> A_Q2 /\
  sarr3 d <> A_Elec /\ sarr3 d <> A_SFace.
Proof. destruct Hb as [[-> ->]|[-> ->]]; destruct d; repeat split; discriminate. Qed.

Lemma run_mslope_dir3 d q i j k c s :
  run (mslope_dir3 S ain d q i j k c) s =
  run c (sput s d i j k
    (mslope S q (gq s A_Q (i + ox d) (j + oy d) (k + oz d))
       (gq s A_Q (i - ox d) (j - oy d) (k - oz d)))
    (vdB3 (gu s ain) d i j k)).
Proof.
  unfold mslope_dir3. rewrite !run_rdm. rewrite mslope_dir_some by auto. cbn [need].
  rewrite run_wrm. rewrite !run_Rd, run_Wr. unfold hi3. rewrite !other_arr3; [reflexivity|..];
  simpl; apply not_eq_sym, sarr3_not.
Qed.

Lemma mslopes_spec3 s s' : exec inb s (map (mslopes_item3 m S ain) (cells3 m)) s' ->
  (forall d i j k, 1 <= i < isize m - 1 -> 1 <= j < jsize m - 1 -> 1 <= k < ksize m - 1 ->
     gq s' (sarr3 d) i j k = vS3 S (gq s A_Q) (gu s ain) d i j k) /\
  (forall l, ~ In (la l) [A_Sx; A_Sy; A_Sz] -> s' l = s l).
Proof.
  intros Hex. destruct (cellwise3 _ _ _ _ _ _ _ _ own_mslopes3 Hex) as [H1 H2]. split.
  - intros d i j k Hi Hj Hk.
    transitivity (gq (run (mslopes_item3 m S ain (i, j, k)) s) (sarr3 d) i j k).
    { apply getm_ext. intros. apply H1; unfold isize, jsize, ksize in *; lia. }
    unfold mslopes_item3. replace (_ && _) with true by lia.
    rewrite run_rdm. change (getm s (mkloc A_Q i j k)) with (gq s A_Q i j k).
    assert (HQ : forall s d q x a b c, gq (sput s d i j k q x) A_Q a b c = gq s A_Q a b c).
    { intros s0 d0 q x a b c. apply sput_gq. apply not_eq_sym, sarr3_not. }
    assert (HB : forall s d q x d' a b c, vdB3 (gu (sput s d i j k q x) ain) d' a b c = vdB3 (gu s ain) d' a b c).
    { intros s0 d0 q x d' a b c. unfold vdB3, gu. rewrite !sput_other; auto; simpl; apply not_eq_sym, sarr3_not. }
    rewrite !run_mslope_dir3. rewrite run_Done. rewrite !HQ, !HB.
    destruct d; repeat first [rewrite sput_same | rewrite sput_gq by discriminate]; reflexivity.
  - intros l Hl. apply H2. destruct l as [[] ? ? ? ?]; first [reflexivity | exfalso; apply Hl; cbn; tauto].
Qed.

Lemma mhalf_spec3 s s' : exec inb s (map (mhalf_item3 m S dt ain) (cells3 m)) s' ->
  (forall i j k, gw m - 2 <= i <= nx m + gw m -> gw m - 2 <= j <= ny m + gw m ->
     gw m - 2 <= k <= nz m + gw m ->
     gq s' A_Q2 i j k = vQ23 S dt (gq s A_Q) (gu s ain) (fun d => gq s (sarr3 d)) i j k) /\
  (forall l, la l <> A_Q2 -> s' l = s l).
Proof.
  intros Hex. destruct (cellwise3 _ _ _ _ _ _ _ _ own_mhalf3 Hex) as [H1 H2]. split.
  - intros i j k Hi Hj Hk. apply getm_eq. intros v Hv.
    rewrite H1 by (unfold isize, jsize, ksize; lia). unfold mhalf_item3.
    replace (trace_range3 m i j k) with true by (unfold trace_range3, isize, jsize, ksize; lia).
    rewrite !run_rdm. rewrite !run_Rd. cbv zeta. rewrite run_wrm, run_Done.
    rewrite same_arr3 by auto. unfold vQ23, vdB3. cbn [ox oy oz bcomp]. rewrite !Z.add_0_r. reflexivity.
  - intros l Hl. apply H2. destruct l as [[] ? ? ? ?]; first [reflexivity | exfalso; apply Hl; reflexivity].
Qed.

Lemma msface_spec3 s s' : exec inb s (map (msface_item3 m S dt) (cells3 m)) s' ->
  (forall d i j k, 1 <= i < isize m - 1 -> 1 <= j < jsize m - 1 -> 1 <= k < ksize m - 1 ->
     gu s' A_SFace i j k (icomp d) = vs3 S dt (gE s) d i j k) /\
  (forall l, la l <> A_SFace -> s' l = s l).
Proof.
  intros Hex. destruct (cellwise3 _ _ _ _ _ _ _ _ own_msface3 Hex) as [H1 H2]. split.
  - intros d i j k Hi Hj Hk. unfold gu.
    rewrite H1 by (unfold isize, jsize, ksize in *; lia). unfold msface_item3.
    replace (mid_range3 m i j k) with true by (unfold mid_range3; lia).
    rewrite !run_Rd, run_Wr, !run_Rd, run_Wr, !run_Rd, run_Wr, run_Done.
    destruct d; cbn [icomp]; repeat first [rewrite upd_same | rewrite upd_other by discriminate]; reflexivity.
  - intros l Hl. apply H2. destruct l as [[] ? ? ? ?]; first [reflexivity | exfalso; apply Hl; reflexivity].
Qed.

(** Everything the last six kernels read. *)
Definition sources3 (s : store T) : Prop :=
  (forall i j k v, cell3 m i j k -> 0 <= v < 8 -> s (mkloc ain i j k v) = U i j k v) /\
  slopes_done3 s /\ half_done3 s /\ sface_done3 s.

Lemma sources3_frame s s' : sources3 s -> (forall l, la l <> aout -> s' l = s l) -> sources3 s'.
Proof.
  intros (S1 & S2 & S3 & S4) Hf. split; [|split; [|split]].
  - intros. rewrite Hf by (simpl; apply (buf_ne ain aout Hb)). auto.
  - intros d i j k Hi Hj Hk. rewrite <- S2 by auto. apply getm_ext. intros. apply Hf. simpl. apply sarr3_not.
  - intros i j k Hi Hj Hk. rewrite <- S3 by auto. apply getm_ext. intros. apply Hf. simpl.
    destruct Haout as [-> | ->]; discriminate.
  - intros d i j k Hi Hj Hk. rewrite <- S4 by auto. apply Hf. simpl.
    destruct Haout as [-> | ->]; discriminate.
Qed.

Lemma sources_ready3 s s1 s2 s3 s4 : ready3 s ->
  exec inb s (map (mslopes_item3 m S ain) (cells3 m)) s1 ->
  exec inb s1 (map (mhalf_item3 m S dt ain) (cells3 m)) s2 ->
  exec inb s2 (map (melec_item3 m ain) (cells3 m)) s3 ->
  exec inb s3 (map (msface_item3 m S dt) (cells3 m)) s4 ->
  sources3 s4 /\ (forall i j k v, cell3 m i j k -> 0 <= v < 8 -> s4 (mkloc aout i j k v) = U i j k v).
Proof.
  intros HR X1 X2 X3 X4.
  destruct (mslopes_spec3 _ _ X1) as (A1 & A2). destruct (mhalf_spec3 _ _ X2) as (B1 & B2).
  destruct (msface_spec3 _ _ X4) as (D1 & D2).
  assert (HR1 : ready3 s1).
  { apply (ready3_off m S ain aout Hb U s s1 [A_Sx; A_Sy; A_Sz]); auto; simpl; intuition discriminate. }
  assert (HS1 : slopes_done3 s1).
  { intros d i j k Hi Hj Hk. rewrite A1 by lia. destruct HR as (R1 & R2 & R3).
    apply (agr_at i j k i j k 0 0); [lia|]. unfold vSl3. apply agr_vS.
    - apply agr_same. intros. apply R3; lia.
    - apply agrU_same. intros. apply R1; auto. unfold cell3, cell2, isize, jsize, ksize in *. lia. }
  assert (HR2 : ready3 s2).
  { apply (ready3_off m S ain aout Hb U s1 s2 [A_Q2]); auto; simpl; try (intuition discriminate).
    intros l Hl. apply B2. intros E. apply Hl. left. auto. }
  assert (HS2 : slopes_done3 s2).
  { intros d i j k Hi Hj Hk. rewrite <- HS1 by auto. apply getm_ext. intros. apply B2. simpl. apply sarr3_not. }
  assert (HH2 : half_done3 s2).
  { intros i j k Hi Hj Hk. rewrite B1 by lia. destruct HR1 as (R1 & R2 & R3).
    apply (agr_at i j k i j k 0 0); [lia|]. unfold vhalf3. apply agr_vQ2.
    - apply agr_same. intros. apply R3; unfold isize, jsize, ksize; lia.
    - apply agrU_same. intros. apply R1; auto. unfold cell3, cell2, isize, jsize, ksize in *. lia.
    - intros d. apply agr_same. intros. apply HS1; unfold isize, jsize, ksize; lia. }
  destruct (melec_ready3 m S inb ain aout Hb U _ _ HR2 X3) as (HR3 & HE3 & C2).
  assert (HR4 : ready3 s4).
  { apply (ready3_off m S ain aout Hb U s3 s4 [A_SFace]); auto; simpl; try (intuition discriminate).
    intros l Hl. apply D2. intros E. apply Hl. left. auto. }
  destruct HR4 as (R1 & R2 & R3). split; [|exact R2]. split; [exact R1|]. split; [|split].
  - intros d i j k Hi Hj Hk. rewrite <- HS2 by auto. apply getm_ext. intros.
    rewrite D2 by (simpl; apply sarr3_not). apply C2. simpl. apply sarr3_not.
  - intros i j k Hi Hj Hk. rewrite <- HH2 by auto. apply getm_ext. intros.
    rewrite D2 by discriminate. apply C2. discriminate.
  - intros d i j k Hi Hj Hk. rewrite D1 by lia.
    apply (agr_at i j k i j k 0 0); [lia|]. unfold vsB3. apply agr_vs.
    intros e. apply agr_same. intros. apply HE3; lia.
Qed.

(** The atomic kernels, in terms of the store. *)
Definition sF (s : store T) : dir -> Z -> Z -> Z -> ms T :=
  vF3 S (gu s ain) (fun d => gq s (sarr3 d)) (gq s A_Q2) (fun d i j k => gu s A_SFace i j k (icomp d)).
Definition sE (s : store T) : dir -> Z -> Z -> Z -> T :=
  vE3 S (gu s ain) (fun d => gq s (sarr3 d)) (gq s A_Q2) (fun d i j k => gu s A_SFace i j k (icomp d)).

Lemma getbc_setb d (q : ms T) b : getbc d (setb d q b) = b.
Proof. destruct d; reflexivity. Qed.

Lemma issues_flux_dir3 d s :
  issues3 m (mflux_dir_item3 m S dt d ain aout) s
    (fun d c1 c2 c3 w => mflux_updates3 m S dt aout d c1 c2 c3 (sF s d c1 c2 c3) w) [d].
Proof.
  intros c1 c2 c3. unfold mflux_dir_item3. destruct (upto_face3 m c1 c2 c3); [|reflexivity].
  cbn [fold_right]. rewrite !effects_rdm. cbn [effects]. rewrite !effects_rdm. cbv zeta.
  rewrite effects_msolve by auto. unfold mface3 at 1. unfold mface3 at 1. unfold mface3 at 1.
  rewrite getbc_setb. reflexivity.
Qed.

Lemma effects_Rd l (c : T -> prog T) s : effects (Rd l c) s = effects (c (s l)) s.
Proof. reflexivity. Qed.

Lemma effects_medge_rec3 e c q i j k kt s : q = gq s A_Q2 i j k ->
  effects (medge_rec3 S ain e c q i j k kt) s =
  effects (kt (vcorner3 S (gu s ain) (fun d => gq s (sarr3 d)) (gq s A_Q2)
                 (fun d i j k => gu s A_SFace i j k (icomp d)) e c i j k)) s.
Proof.
  intros ->. unfold medge_rec3, rd_slope3. cbv zeta. rewrite !effects_Rd, !effects_rdm. reflexivity.
Qed.

Lemma issues_edge_emf3 e s :
  issues3 m (medge_emf_item3 m S dt e ain aout) s
    (fun e c1 c2 c3 w => memf_updates3 m S dt aout e c1 c2 c3 (sE s e c1 c2 c3) w) [e].
Proof.
  intros c1 c2 c3. unfold medge_emf_item3. destruct (upto_face3 m c1 c2 c3); [|reflexivity].
  cbn [fold_right]. rewrite !effects_rdm. unfold medge_at3.
  rewrite !effects_medge_rec3 by reflexivity. reflexivity.
Qed.

Lemma sF_ok3 s d i j k : sources3 s ->
  gw m <= i <= nx m + gw m -> gw m <= j <= ny m + gw m -> gw m <= k <= nz m + gw m ->
  sF s d i j k = vflux3 S dt U d i j k.
Proof.
  intros (S1 & S2 & S3 & S4) Hi Hj Hk. apply (agr_at i j k i j k 0 0); [lia|].
  unfold sF, vflux3. apply agr_vF.
  - apply agrU_same. intros. apply S1; auto. unfold cell3, cell2, isize, jsize, ksize in *. lia.
  - intros d'. apply agr_same. intros. apply S2; unfold isize, jsize, ksize; lia.
  - apply agr_same. intros. apply S3; lia.
  - intros d'. apply agr_same. intros. apply S4; unfold isize, jsize, ksize; lia.
Qed.

Lemma sE_ok3' s e i j k : sources3 s ->
  gw m <= i <= nx m + gw m -> gw m <= j <= ny m + gw m -> gw m <= k <= nz m + gw m ->
  sE s e i j k = vemf3 S dt U e i j k.
Proof.
  intros (S1 & S2 & S3 & S4) Hi Hj Hk. apply (agr_at i j k i j k 0 0); [lia|].
  unfold sE, vemf3. apply agr_vE.
  - apply agrU_same. intros. apply S1; auto. unfold cell3, cell2, isize, jsize, ksize in *. lia.
  - intros d'. apply agr_same. intros. apply S2; unfold isize, jsize, ksize; lia.
  - apply agr_same. intros. apply S3; lia.
  - intros d'. apply agr_same. intros. apply S4; unfold isize, jsize, ksize; lia.
Qed.

Lemma flux_dir_acc d s s' : sources3 s -> exec inb s (map (mflux_dir_item3 m S dt d ain aout) (cells3 m)) s' ->
  sources3 s' /\ accumulates m aout (fun i j k v => fctr S dt (vflux3 S dt U) i j k v d) s s'.
Proof.
  intros Hs Hex.
  pose proof (ak3_flux m S dt inb aout ltac:(lia) _ _ _ (foot_flux_dir3 d) Hex _ _ (issues_flux_dir3 d s)) as A.
  split; [apply (sources3_frame s); auto; apply A|].
  eapply accumulates_ext; [exact A|]. intros i j k v Hp Hv. cbn [map concat]. rewrite app_nil_r.
  erewrite fctr_ext; [reflexivity|exact Hp|]. intros. apply sF_ok3; auto.
Qed.

Lemma edge_emf_acc e s s' : sources3 s -> exec inb s (map (medge_emf_item3 m S dt e ain aout) (cells3 m)) s' ->
  sources3 s' /\ accumulates m aout (fun i j k v => ectr S dt (vemf3 S dt U) i j k v e) s s'.
Proof.
  intros Hs Hex.
  pose proof (ak3_emf m S dt inb aout ltac:(lia) _ _ _ (foot_edge_emf3 e) Hex _ _ (issues_edge_emf3 e s)) as A.
  split; [apply (sources3_frame s); auto; apply A|].
  eapply accumulates_ext; [exact A|]. intros i j k v Hp Hv. cbn [map concat]. rewrite app_nil_r.
  erewrite ectr_ext; [reflexivity|exact Hp|]. intros. apply sE_ok3'; auto.
Qed.

Lemma mscheme3_V2 s s' : ready3 s -> execs inb s (mscheme3 m S dt V2 ain aout) s' ->
  mresult_any3 m S dt aout U (vflux3 S dt U) (vemf3 S dt U) s'.
Proof.
  intros HR Hex. cbn [mscheme3] in Hex.
  inv_execs Hex. inv_execs HT. inv_execs HT0. inv_execs HT. inv_execs HT0. inv_execs HT. inv_execs HT0.
  inv_execs HT. inv_execs HT0. inv_execs HT. inv_execs HT0.
  destruct (sources_ready3 _ _ _ _ _ HR HK HK0 HK1 HK2) as (Sd & Ud).
  destruct (flux_dir_acc _ _ _ Sd HK3) as (Se & A1). destruct (flux_dir_acc _ _ _ Se HK4) as (Sf & A2).
  destruct (flux_dir_acc _ _ _ Sf HK5) as (Sg & A3).
  destruct (edge_emf_acc _ _ _ Sg HK6) as (Sh & A4). destruct (edge_emf_acc _ _ _ Sh HK7) as (Si & A5).
  destruct (edge_emf_acc _ _ _ Si HK8) as (Sj & A6).
  eapply (accumulated m S dt Hgw aout U _ _ _ _ [DX; DY; DZ]); [reflexivity|exact Ud|].
  eapply accumulates_ext.
  - eapply accumulates_trans; [exact A1|]. eapply accumulates_trans; [exact A2|].
    eapply accumulates_trans; [exact A3|]. eapply accumulates_trans; [exact A4|].
    eapply accumulates_trans; [exact A5|exact A6].
  - intros i j k v Hp Hv. cbn [map concat]. rewrite !app_nil_r, <- !app_assoc. reflexivity.
Qed.
End V2.
