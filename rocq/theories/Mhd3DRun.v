(** * 3D MHD: the whole step, bounds, determinism, runs of many steps *)
From Coq Require Import ZArith List Bool Lia ZifyBool Permutation Reals Lra.
Import ListNotations.
From Verif Require Import Num Exec ExecFacts Grid GridFacts Boundaries BoundariesSpec
  BoundariesFacts BoundariesFill BoundariesNarrow HydroNum Kernels KernelFacts Atomics
  Hydro2D Hydro2DSpec Hydro2DFacts Hydro2DStep Hydro2DRun Determ
  Hydro3D Hydro3DSpec Hydro3DFacts Hydro3DRun
  MhdNum Mhd2D Mhd2DSpec MhdFacts Mhd2DFacts Mhd3DNum Mhd3D Mhd3DSpec Mhd3DFacts Mhd3DStep Mhd3DV2.
Local Open Scope Z_scope.

(** ** The scheme of each version

    Versions 0 and 1 have the same fluxes and electromotive forces, version 2 its own. *)
Section Versions.
Context {T : Type} {N : Num T}.
Variable iv : impl.
Variable S : hset T.
Variable dt : T.

Definition mfl3 (U : field3 T) : dir -> Z -> Z -> Z -> ms T :=
  match iv with V2 => vflux3 S dt U | _ => mF3 S (mtrace3 S dt U) end.
Definition mem3 (U : field3 T) : dir -> Z -> Z -> Z -> T :=
  match iv with V2 => vemf3 S dt U | _ => mE3 S (mtrace3 S dt U) end.
Definition mstepv3 (U : field3 T) : field3 T := mbalance3 S dt (mfl3 U) (mem3 U) U.

Section Ext.
Variables i1 j1 k1 i2 j2 k2 : Z.
Notation agr := (agr i1 j1 k1 i2 j2 k2).
Notation agrU := (agrU i1 j1 k1 i2 j2 k2).

Lemma agr_mfl3 lo hi U1 U2 d : agrU (lo - 2) (hi + 2) U1 U2 -> agr lo hi (mfl3 U1 d) (mfl3 U2 d).
Proof.
  intros HU. unfold mfl3. destruct iv; [| |apply agr_vflux_at; exact HU];
  apply agr_F; intros p; apply agr_trace; (eapply agrU_weak; [exact HU|lia|lia]).
Qed.
Lemma agr_mem3 lo hi U1 U2 d : agrU (lo - 2) (hi + 2) U1 U2 -> agr lo hi (mem3 U1 d) (mem3 U2 d).
Proof.
  intros HU. unfold mem3. destruct iv; [| |apply agr_vemf_at; exact HU];
  apply agr_E; intros p; apply agr_trace; (eapply agrU_weak; [exact HU|lia|lia]).
Qed.
Lemma mstepv3_ext U1 U2 v : agrU (-2) 3 U1 U2 -> 0 <= v < 8 ->
  mstepv3 U1 i1 j1 k1 v = mstepv3 U2 i2 j2 k2 v.
Proof.
  intros HU Hv. unfold mstepv3. apply (agr_balance _ _ i1 j1 k1 i2 j2 k2 0 1); try lia.
  - intros d. apply agr_mfl3. exact HU.
  - intros d. apply agr_mem3. exact HU.
  - eapply agrU_weak; [exact HU|lia|lia].
Qed.
End Ext.

(** The new value of a cell is determined by the cells from two below to three above. *)
Lemma mstepv3_stencil U1 U2 i j k v :
  (forall i' j' k' v, i - 2 <= i' <= i + 3 -> j - 2 <= j' <= j + 3 -> k - 2 <= k' <= k + 3 ->
     0 <= v < 8 -> U1 i' j' k' v = U2 i' j' k' v) ->
  0 <= v < 8 -> mstepv3 U1 i j k v = mstepv3 U2 i j k v.
Proof.
  intros HU Hv. apply mstepv3_ext; auto. apply agrU_same. intros. apply HU; lia.
Qed.
End Versions.

Lemma mstepv3_V0 {T} {N : Num T} (S : hset T) dt U : mstepv3 V0 S dt U = mstep3 S dt U.
Proof. reflexivity. Qed.
Lemma mstepv3_V1 {T} {N : Num T} (S : hset T) dt U : mstepv3 V1 S dt U = mstep3 S dt U.
Proof. reflexivity. Qed.

(** Settings for which the step of version [iv] is defined: versions 0 and 1 set the
    slopes to zero for an unknown [slope_type], version 2 leaves them undefined. *)
Definition mslope_ok3 {T} {N : Num T} (iv : impl) (S : hset T) : Prop := iv = V2 -> mslope_ok S.

Section Step.
Context {T : Type} {N : Num T} {O : NumOne T}.
Variable m : mesh.
Variable S : hset T.
Variable dt : T.
Variable inb : extents.
Hypothesis Hsolver : msolver_ok S.
Hypothesis Hwide : wide3 m.
Hypothesis Hgw : 3 <= gw m.
Hypothesis Hnv : nbvar m = 8.
Variables ain aout : arr.
Hypothesis Hb : buffers ain aout.

Lemma mprefix_ready3 s s1 : execs inb s (mprefix3 m S ain aout) s1 ->
  ready3 m S ain aout (extend3 m (field_of3 ain s)) s1.
Proof.
  intros Hex. unfold mprefix3 in Hex. apply execs_app in Hex. destruct Hex as (s0 & H1 & H2).
  destruct (fill3d_spec m ain inb s s0 Hwide H1) as (F1 & F2 & F3).
  apply (mprefix_spec3 m S inb Hnv ain aout Hb _ s0); auto.
  intros i j k v Hc Hv. rewrite <- filled_extend3. apply F1; auto. lia.
Qed.

Definition mU3 (s : store T) : field3 T := extend3 m (field_of3 ain s).

Theorem mstep3_V0 s s' : execs inb s (mgodunov3 m S dt V0 ain aout) s' ->
  mresult3 m S dt aout (mU3 s) s'.
Proof.
  intros Hex. apply execs_app in Hex. destruct Hex as (s1 & H1 & H2).
  apply (mscheme3_V0 m S dt inb Hsolver Hgw ain aout Hb (mU3 s) s1); auto.
  apply mprefix_ready3; auto.
Qed.

Theorem mstep3_any iv s s' : iv = V1 \/ iv = V2 -> mslope_ok3 iv S ->
  execs inb s (mgodunov3 m S dt iv ain aout) s' ->
  mresult_any3 m S dt aout (mU3 s) (mfl3 iv S dt (mU3 s)) (mem3 iv S dt (mU3 s)) s'.
Proof.
  intros Hiv Hs Hex. apply execs_app in Hex. destruct Hex as (s1 & H1 & H2).
  pose proof (mprefix_ready3 _ _ H1) as HR. destruct Hiv as [-> | ->].
  - apply (mscheme3_V1 m S dt inb Hsolver Hgw ain aout Hb (mU3 s) s1); auto.
  - apply (mscheme3_V2 m S dt inb (Hs eq_refl) Hsolver Hgw ain aout Hb (mU3 s) s1); auto.
Qed.

(** ** Bounds *)

Lemma in_mvars3 v : In v mvars3 -> 0 <= v < 8.
Proof. unfold mvars3, ID, IP, IU, IV, IW. simpl. lia. Qed.

Lemma cell_bounds3 i j k : In (i, j, k) (cells3 m) ->
  0 <= i < nx m + 2 * gw m /\ 0 <= j < ny m + 2 * gw m /\ 0 <= k < nz m + 2 * gw m.
Proof. intros Hc. apply in_range3 in Hc. unfold isize, jsize, ksize in Hc. lia. Qed.

Ltac inside3 :=
  intros;
  repeat match goal with
  | H : In _ (if ?b then _ else _) |- _ => destruct b eqn:?; [|destruct H]
  | H : In _ mvars3 |- _ => apply in_mvars3 in H
  | H : In _ (_ :: _) |- _ => destruct H as [<- | H]
  | H : In _ [] |- _ => destruct H
  end;
  repeat split; unfold lo3, hi3, ccell, cci, ccj, cck in *; apply alloc3_ok;
  cbn [mnv3 ox oy oz cu0 cu1 tr0 tr1 bcomp icomp iemf parr sarr3 farr darr fst snd] in *;
  unfold ID, IP, IU, IV, IW, IA, IB, IC, IX, IY, IZ, below3, lower3, isize, jsize, ksize in *;
  cbn [mnv3] in *; lia.

Ltac open3 HG := match goal with
  | |- foot _ _ _ (if ?b then _ else _) => destruct b eqn:HG; [|exact Logic.I]
  end;
  unfold trace_range3, upto_face3, mid_range3, inner3, isize, jsize, ksize in HG.

Notation ok iv := (Forall (in_foot (alloc3d m (mnv3 m iv)))).

Lemma hain iv : mnv3 m iv ain = 8.
Proof. destruct Hb as [[-> ->]|[-> ->]]; simpl; auto. Qed.
Lemma haout iv : mnv3 m iv aout = 8.
Proof. destruct Hb as [[-> ->]|[-> ->]]; simpl; auto. Qed.

Ltac start iv := pose proof (hain iv); pose proof (haout iv);
  apply kernel_in_bounds; intros [[i j] k] Hc; apply cell_bounds3 in Hc; unfold in_foot.

Lemma mprefix3_in_foot iv : Forall (ok iv) (mprefix3 m S ain aout).
Proof.
  unfold mprefix3. apply Forall_app. split.
  - pose proof (hain iv). pose proof Hwide as ((Hg & Hv & H1 & H2 & H3 & H4) & H5 & H6). apply fill3d_in_foot; auto.
    intros. apply alloc3_ok; unfold isize, jsize, ksize in *; lia.
  - repeat constructor.
    + start iv. apply foot_copy_n. intros. split; apply alloc3_ok; lia.
    + start iv. unfold mconvert_item3. open3 HG. footm3; inside3.
Qed.

Lemma melec3_in_foot iv : ok iv (map (melec_item3 m ain) (cells3 m)).
Proof. start iv. unfold melec_item3. open3 HG. footm3; inside3. Qed.

Lemma mmag3_in_foot iv : iv <> V2 -> ok iv (map (mmag_item3 m S ain) (cells3 m)).
Proof.
  intros Hiv. start iv. unfold mmag_item3, bslope_locs. open3 HG.
  destruct iv; try congruence; footm3; cbn [map fst snd]; inside3.
Qed.

Lemma mtrace3_in_foot iv : iv <> V2 -> ok iv (map (mtrace_item3 m S dt ain) (cells3 m)).
Proof.
  intros Hiv. start iv. unfold mtrace_item3, bf_locs, dbf_locs, el_locs, lo3, hi3. open3 HG.
  destruct iv; try congruence; footm3;
  try (intros p v Hp Hv; destruct p as [[]|[]|[] []]); inside3.
Qed.

Lemma mfluxes3_in_foot : ok V0 (map (mfluxes_item3 m S) (cells3 m)).
Proof. start V0. unfold mfluxes_item3, lo3. open3 HG. footm3; inside3. Qed.
Lemma memf3_in_foot : ok V0 (map (memf_item3 m S) (cells3 m)).
Proof. start V0. unfold memf_item3. open3 HG. footm3; unfold ccell; inside3. Qed.
Lemma mupdate3_in_foot : ok V0 (map (mupdate_item3 m S dt aout) (cells3 m)).
Proof. start V0. unfold mupdate_item3, hi3. open3 HG. cbv zeta. footm3; inside3. Qed.
Lemma mupdate_emf3_in_foot : ok V0 (map (mupdate_emf_item3 m S dt aout) (cells3 m)).
Proof. start V0. unfold mupdate_emf_item3, hi3. open3 HG. footm3; inside3. Qed.
Lemma mfluxes_update3_in_foot : ok V1 (map (mfluxes_update_item3 m S dt aout) (cells3 m)).
Proof. start V1. unfold mfluxes_update_item3. open3 HG. footm3; unfold lo3; inside3. Qed.
Lemma memf_update3_in_foot : ok V1 (map (memf_update_item3 m S dt aout) (cells3 m)).
Proof. start V1. unfold memf_update_item3. open3 HG. footm3; unfold ccell, lo3; inside3. Qed.

Lemma mslopes3_in_foot : mslope_ok S -> ok V2 (map (mslopes_item3 m S ain) (cells3 m)).
Proof. intros Hs. start V2. unfold mslopes_item3. open3 HG. footm3; unfold lo3, hi3; inside3. Qed.
Lemma mhalf3_in_foot : ok V2 (map (mhalf_item3 m S dt ain) (cells3 m)).
Proof. start V2. unfold mhalf_item3. open3 HG. cbv zeta. footm3; inside3. Qed.
Lemma msface3_in_foot : ok V2 (map (msface_item3 m S dt) (cells3 m)).
Proof. start V2. unfold msface_item3. open3 HG. footm3; inside3. Qed.
Lemma mflux_dir3_in_foot d : ok V2 (map (mflux_dir_item3 m S dt d ain aout) (cells3 m)).
Proof.
  start V2. unfold mflux_dir_item3. open3 HG. cbv zeta.
  destruct d; footm3; unfold lo3; inside3.
Qed.
Lemma medge_emf3_in_foot e : ok V2 (map (medge_emf_item3 m S dt e ain aout) (cells3 m)).
Proof.
  start V2. unfold medge_emf_item3. open3 HG.
  destruct e; footm3; unfold ccell, cci, ccj, cck, hi3, lo3; inside3.
Qed.

Lemma mgodunov3_in_foot iv : mslope_ok3 iv S -> Forall (ok iv) (mgodunov3 m S dt iv ain aout).
Proof.
  intros Hs. unfold mgodunov3. apply Forall_app. split; [apply mprefix3_in_foot|].
  destruct iv; cbn [mscheme3]; repeat (apply Forall_cons || apply Forall_nil).
  - apply melec3_in_foot. - apply mmag3_in_foot; discriminate. - apply mtrace3_in_foot; discriminate.
  - apply mfluxes3_in_foot. - apply memf3_in_foot. - apply mupdate3_in_foot. - apply mupdate_emf3_in_foot.
  - apply melec3_in_foot. - apply mmag3_in_foot; discriminate. - apply mtrace3_in_foot; discriminate.
  - apply mfluxes_update3_in_foot. - apply memf_update3_in_foot.
  - apply mslopes3_in_foot. auto. - apply mhalf3_in_foot. - apply melec3_in_foot. - apply msface3_in_foot.
  - apply mflux_dir3_in_foot. - apply mflux_dir3_in_foot. - apply mflux_dir3_in_foot.
  - apply medge_emf3_in_foot. - apply medge_emf3_in_foot. - apply medge_emf3_in_foot.
Qed.

Theorem mgodunov3_safe iv s : mslope_ok3 iv S ->
  safes (alloc3d m (mnv3 m iv)) s (mgodunov3 m S dt iv ain aout) /\
  exists s', execs (alloc3d m (mnv3 m iv)) s (mgodunov3 m S dt iv ain aout) s'.
Proof.
  intros Hs. pose proof (mgodunov3_in_foot iv Hs).
  split; [apply in_foot_safes|apply in_foot_execs]; auto.
Qed.

Theorem mgodunov3_det : deterministic inb (mgodunov3 m S dt V0 ain aout).
Proof.
  unfold mgodunov3, mprefix3.
  pose proof (buf_in ain aout Hb) as Hai. pose proof (buf_out ain aout Hb) as Hao.
  assert (Hne : aout <> ain) by (destruct Hb as [[-> ->]|[-> ->]]; congruence).
  apply det_app; [apply det_app; [apply det_fill3d; auto|]|].
  - apply det_cons; [eapply det_cell3; apply own_deep_copy3; auto|].
    eapply det_cell3. apply own_mconvert3; auto.
  - cbn [mscheme3].
    apply det_cons; [eapply det_cell3; apply own_melec3; auto|].
    apply det_cons; [eapply det_cell3; apply own_mmag3; auto|].
    apply det_cons; [eapply det_cell3; apply own_mtrace3; auto|].
    apply det_cons; [eapply det_cell3; apply own_mfluxes3; auto|].
    apply det_cons; [eapply det_cell3; apply own_memf3; auto|].
    apply det_cons; [eapply det_cell3; apply own_mupdate3; auto|].
    eapply det_cell3; apply own_mupdate_emf3; auto.
Qed.

End Step.

(** ** Over the reals the order of the contributions does not matter *)
Lemma mbalance_any3_R (S : hset R) dt flux emf U i j k v x :
  mbalance_any3 S dt flux emf U i j k v x -> x = mbalance3 S dt flux emf U i j k v.
Proof.
  intros (ops & HP & ->). apply Permutation_sym in HP.
  assert (HA : forall l, Permutation l ops -> Forall additive l -> 
     fold_left (fun y f => f y) ops (U i j k v) = fold_left (fun y f => f y) l (U i j k v)).
  { intros l Hl Hf. symmetry. apply fold_perm_R; auto. }
  unfold mcontribs3 in HP.
  unfold mbalance3. destruct (v =? IA) eqn:EA; [|destruct (v =? IB) eqn:EB; [|destruct (v =? IC) eqn:EC]];
  rewrite (HA _ HP) by (repeat constructor; intro; unfold nadd, nsub; simpl; lra).
  - replace v with IA by lia. simpl. lra.
  - replace v with IB by lia. simpl. lra.
  - replace v with IC by lia. simpl. lra.
  - reflexivity.
Qed.

(** ** Runs *)
Section Runs.
Context {T : Type} {N : Num T}.
Variable m : mesh.
Variable S : hset T.
Variable iv : impl.

(** Consecutive calls of [next_iteration] (SolverMHDMuscl.h:743-801) with time steps
    [dts], the first one being iteration [n]. *)
Fixpoint msteps3 (n : nat) (dts : list T) : list (list (prog T)) :=
  match dts with
  | [] => []
  | dt :: dts' => mgodunov3 m S dt iv (cur n) (nxt n) ++ msteps3 (Datatypes.S n) dts'
  end.

(** The scheme iterated on a field. *)
Fixpoint mrun_spec3 (dts : list T) (u : field3 T) : field3 T :=
  match dts with
  | [] => u
  | dt :: dts' => mrun_spec3 dts' (mstepv3 iv S dt (extend3 m u))
  end.

Definition msame3 (u1 u2 : field3 T) : Prop :=
  forall i j k v, phys3 m i j k -> 0 <= v < 8 -> u1 i j k v = u2 i j k v.

Hypothesis Hwide : wide3 m.
Hypothesis Hgw : 3 <= gw m.

Lemma mextend3_ext u1 u2 i j k v : msame3 u1 u2 -> cell3 m i j k -> 0 <= v < 8 ->
  extend3 m u1 i j k v = extend3 m u2 i j k v.
Proof. intros He Hc Hv. unfold extend3. rewrite He; auto. apply images_phys3; auto. Qed.

Lemma mstepv3_same dt u1 u2 : msame3 u1 u2 ->
  msame3 (mstepv3 iv S dt (extend3 m u1)) (mstepv3 iv S dt (extend3 m u2)).
Proof.
  intros He i j k v [[Hi Hj] Hk] Hv. apply mstepv3_stencil; auto.
  intros. apply mextend3_ext; auto. unfold cell3, cell2, physical in *. lia.
Qed.

Lemma mrun_spec3_ext dts : forall u1 u2, msame3 u1 u2 -> msame3 (mrun_spec3 dts u1) (mrun_spec3 dts u2).
Proof. induction dts as [|dt dts IH]; intros; cbn [mrun_spec3]; auto. apply IH; auto. apply mstepv3_same; auto. Qed.

Definition mrefines3 (inb : extents) : Prop :=
  forall dt n s s', execs inb s (mgodunov3 m S dt iv (cur n) (nxt n)) s' ->
    msame3 (field_of3 (nxt n) s') (mstepv3 iv S dt (extend3 m (field_of3 (cur n) s))).

Lemma mrun_refines3 inb : mrefines3 inb -> forall dts n s s',
  execs inb s (msteps3 n dts) s' ->
  msame3 (field_of3 (cur (n + length dts)) s') (mrun_spec3 dts (field_of3 (cur n) s)).
Proof.
  intros Href. induction dts as [|dt dts IH]; intros n s s' Hex; cbn [msteps3] in Hex.
  - inversion Hex; subst. simpl. rewrite Nat.add_0_r. intros i j k v _ _. reflexivity.
  - apply execs_app in Hex. destruct Hex as (s1 & H1 & H2).
    pose proof (Href dt n s s1 H1) as A. pose proof (IH (Datatypes.S n) s1 s' H2) as C.
    cbn [length]. replace (n + Datatypes.S (length dts))%nat with (Datatypes.S n + length dts)%nat by lia.
    intros i j k v Hp Hv. rewrite C by auto. cbn [mrun_spec3]. apply mrun_spec3_ext; auto.
    rewrite cur_S. exact A.
Qed.
End Runs.

Lemma mrefines3_V0 {T} {N : Num T} {O : NumOne T} m (S : hset T) inb :
  wide3 m -> 3 <= gw m -> nbvar m = 8 -> msolver_ok S -> mrefines3 m S V0 inb.
Proof.
  intros Hwide Hgw Hnv Hsolver dt n s s' Hex i j k v Hp Hv.
  destruct (mstep3_V0 m S dt inb Hsolver Hwide Hgw Hnv _ _ (cur_nxt n) s s' Hex) as (A & _).
  unfold field_of3 at 1. rewrite mstepv3_V0. apply A; auto.
Qed.

Lemma mrefines3_R m (S : hset R) inb iv :
  wide3 m -> 3 <= gw m -> nbvar m = 8 -> msolver_ok S -> mslope_ok3 iv S -> mrefines3 m S iv inb.
Proof.
  intros Hwide Hgw Hnv Hsolver Hslope.
  assert (HA : iv = V1 \/ iv = V2 -> mrefines3 m S iv inb).
  { intros Hiv dt n s s' Hex i j k v Hp Hv.
    destruct (mstep3_any m S dt inb Hsolver Hwide Hgw Hnv _ _ (cur_nxt n) iv s s' Hiv Hslope Hex) as (A & _).
    unfold field_of3 at 1. apply mbalance_any3_R. apply A; auto. }
  destruct iv; [apply mrefines3_V0; auto|apply HA; auto|apply HA; auto].
Qed.
