(** * Properties of the 3D MHD solver *)
From Coq Require Import String ZArith List Bool Lia ZifyBool Permutation Reals Lra.
Import ListNotations.
From Verif Require Import Num Exec ExecFacts Grid GridFacts Boundaries BoundariesSpec
  BoundariesFacts BoundariesFill BoundariesNarrow HydroNum Kernels KernelFacts Atomics
  Hydro2D Hydro2DSpec Hydro2DFacts Hydro2DStep Determ Hydro2DRun EulerSpec HydroPhysics
  HydroRiemann PropPhysics
  Sums Hydro2DLaws Binary64 Binary64Valid Doomed PropHydro2D
  Hydro3D Hydro3DSpec Hydro3DFacts Hydro3DStep Hydro3DRun Hydro3DLaws PropHydro3D
  MhdNum Mhd2DSpec MhdFacts Mhd3DNum Mhd3D Mhd3DSpec Mhd3DFacts Mhd3DStep Mhd3DV2 Mhd3DRun
  Mhd3DLaws Mhd3DDoomed.
Local Open Scope Z_scope.

(** A mesh and settings the solver is meant for: at least three ghost layers, 8
    variables, as many physical cells as the boundary types need, an MHD Riemann
    solver and, in version 2, slope type 1 or 2. *)
Definition mready3 {T} {N : Num T} (iv : impl) (m : mesh) (S : hset T) : Prop :=
  wide3 m /\ 3 <= gw m /\ nbvar m = 8 /\ msolver_ok S /\ mslope_ok3 iv S.

(** Example configurations: 4 x 3 x 3 cells, periodic, walls in y, or open. *)
Definition ex_mhd3 : mesh := mkmesh 4 3 3 3 8 true (fun _ => 3).
Definition ex_mhd_walls3 : mesh :=
  mkmesh 4 3 3 3 8 true (fun f => match f with YMIN | YMAX => 1 | _ => 3 end).
Definition ex_mhd_open3 : mesh := mkmesh 4 3 3 3 8 true (fun _ => 2).

Example ex_mready3 : forall rs iv m, rs <> R_APPROX -> rs <> R_HLLC ->
  In m [ex_mhd3; ex_mhd_walls3; ex_mhd_open3] -> mready3 iv m (ex_set rs 1).
Proof.
  intros rs iv m Hr1 Hr2 Hm. unfold mready3.
  repeat apply conj; try (destruct Hm as [<-|[<-|[<-|[]]]]; simpl; lia); auto.
  - unfold msolver_ok, ex_set, derive. simpl. destruct rs; tauto.
  - intros _. unfold mslope_ok, neqb, ex_set, derive; simpl.
    repeat destruct (Rle_dec _ _); simpl; try lra; auto.
Qed.

(** ** C01 *)

(** Any number of steps of version 0, whose kernels all store. *)
Theorem C01_mhd3d_same_arrays_under_every_schedule :
  forall (T : Type) (N : Num T) (O : NumOne T) m (S : hset T) inb n dts s s1 s2,
  mready3 V0 m S ->
  execs inb s (msteps3 m S V0 n dts) s1 ->
  execs inb s (msteps3 m S V0 n dts) s2 ->
  forall l, s1 l = s2 l.
Proof.
  intros T N O m S inb n dts s s1 s2 (Hw & Hg & Hn & Hr & Hs).
  enough (D : forall n, deterministic inb (msteps3 m S V0 n dts)).
  { intros H1 H2. exact (D n s s s1 s2 (fun l => eq_refl) H1 H2). }
  clear n s s1 s2. induction dts as [|dt dts IH]; intros n; cbn [msteps3].
  - apply det_nil.
  - apply det_app; auto. apply mgodunov3_det; auto using cur_nxt.
Qed.
Print Assumptions C01_mhd3d_same_arrays_under_every_schedule.

(** Versions 1 and 2 up to their accumulating kernels. *)
Definition mstores3 {T} {N : Num T} (m : mesh) (S : hset T) (dt : T) (iv : impl) (ain aout : arr)
  : list (list (prog T)) :=
  mprefix3 m S ain aout ++ firstn (match iv with V0 => 7 | V1 => 3 | V2 => 4 end) (mscheme3 m S dt iv ain aout).

Theorem C01_mhd3d_store_kernels :
  forall (T : Type) (N : Num T) (O : NumOne T) m (S : hset T) dt inb iv n s s1 s2,
  mready3 iv m S ->
  execs inb s (mstores3 m S dt iv (cur n) (nxt n)) s1 ->
  execs inb s (mstores3 m S dt iv (cur n) (nxt n)) s2 ->
  forall l, s1 l = s2 l.
Proof.
  intros T N O m S dt inb iv n s s1 s2 (Hw & Hg & Hn & Hr & Hs).
  enough (D : deterministic inb (mstores3 m S dt iv (cur n) (nxt n))).
  { intros H1 H2. exact (D s s s1 s2 (fun l => eq_refl) H1 H2). }
  pose proof (cur_nxt n) as Hb.
  pose proof (buf_in _ _ Hb) as Hai. pose proof (buf_out _ _ Hb) as Hao.
  assert (Hne : nxt n <> cur n) by (destruct Hb as [[-> ->]|[-> ->]]; congruence).
  unfold mstores3, mprefix3. apply det_app; [apply det_app; [apply det_fill3d; auto|]|].
  - apply det_cons; [eapply det_cell3; apply own_deep_copy3; auto|].
    apply det_cons; [eapply det_cell3; apply own_mconvert3; auto|apply det_nil].
  - destruct iv; cbn [mscheme3 firstn].
    + apply det_cons; [eapply det_cell3; apply own_melec3; auto|].
      apply det_cons; [eapply det_cell3; apply own_mmag3; auto|].
      apply det_cons; [eapply det_cell3; apply own_mtrace3; auto|].
      apply det_cons; [eapply det_cell3; apply own_mfluxes3; auto|].
      apply det_cons; [eapply det_cell3; apply own_memf3; auto|].
      apply det_cons; [eapply det_cell3; apply own_mupdate3; auto|].
      eapply det_cell3; apply own_mupdate_emf3; auto.
    + apply det_cons; [eapply det_cell3; apply own_melec3; auto|].
      apply det_cons; [eapply det_cell3; apply own_mmag3; auto|].
      eapply det_cell3; apply own_mtrace3; auto.
    + apply det_cons; [eapply det_cell3; apply (own_mslopes3 m S (Hs eq_refl) _ _ Hb)|].
      apply det_cons; [eapply det_cell3; apply (own_mhalf3 m S dt _ _ Hb)|].
      apply det_cons; [eapply det_cell3; apply own_melec3; auto|].
      eapply det_cell3; apply own_msface3; auto.
Qed.
Print Assumptions C01_mhd3d_store_kernels.

(** ** C02 *)
Theorem C02_mhd3d_steps_in_bounds :
  forall (T : Type) (N : Num T) m (S : hset T) iv n dts s,
  mready3 iv m S ->
  safes (alloc3d m (mnv3 m iv)) s (msteps3 m S iv n dts) /\
  exists s', execs (alloc3d m (mnv3 m iv)) s (msteps3 m S iv n dts) s'.
Proof.
  intros T N m S iv n dts s (Hw & Hg & Hn & Hr & Hs).
  enough (F : forall n, Forall (Forall (in_foot (alloc3d m (mnv3 m iv)))) (msteps3 m S iv n dts)).
  { split; [apply in_foot_safes|apply in_foot_execs]; auto. }
  clear n s. induction dts as [|dt dts IH]; intros n; cbn [msteps3]; [constructor|].
  apply Forall_app. split; auto. apply mgodunov3_in_foot; auto using cur_nxt.
Qed.
Print Assumptions C02_mhd3d_steps_in_bounds.

Example C02_mhd3d_case : alloc3d ex_mhd3 (mnv3 ex_mhd3 V0) (mkloc A_LB3 9 8 8 IC) = true /\
  alloc3d ex_mhd3 (mnv3 ex_mhd3 V0) (mkloc A_LB3 9 8 9 IC) = false /\
  alloc3d ex_mhd3 (mnv3 ex_mhd3 V2) (mkloc A_LB3 3 3 3 IC) = false /\
  alloc3d ex_mhd3 (mnv3 ex_mhd3 V1) (mkloc A_Emf 3 3 3 0) = false.
Proof. repeat split. Qed.

(** ** C09 *)

(** All eight variables, face-centred field included. *)
Theorem C09_mhd3d_conservation_periodic :
  forall m (S : hset R) inb iv n dts s s' v,
  mready3 iv m S -> (forall d, periodic3 m d) ->
  execs inb s (msteps3 m S iv n dts) s' -> 0 <= v < 8 ->
  total3 m (final_field3 n dts s') v = total3 m (field_of3 (cur n) s) v.
Proof.
  intros m S inb iv n dts s s' v (Hw & Hg & Hn & Hr & Hs) HP E Hv.
  pose proof (mrun_refines3 m S iv Hw Hg inb (mrefines3_R m S inb iv Hw Hg Hn Hr Hs) _ _ _ _ E) as A.
  unfold final_field3. rewrite (mtotal3_ext m _ _ v Hv A). apply mconserve_periodic_run3; auto.
Qed.
Print Assumptions C09_mhd3d_conservation_periodic.

Example C09_mhd3d_case : forall d, periodic3 ex_mhd3 d.
Proof. intros d. unfold periodic3. cbn. auto. Qed.

(** ** C12 *)

(** Any arithmetic: in version 1 every physical cell receives each of its six fluxes,
    every face each of its four electromotive forces exactly once, in some order; *)
Theorem C12_mhd3d_each_contribution_once :
  forall (T : Type) (N : Num T) (O : NumOne T) m (S : hset T) inb dt n s s',
  mready3 V1 m S ->
  execs inb s (mgodunov3 m S dt V1 (cur n) (nxt n)) s' ->
  forall i j k v, phys3 m i j k -> 0 <= v < 8 ->
  mstep3_any_order S dt (extend3 m (field_of3 (cur n) s)) i j k v (s' (mkloc (nxt n) i j k v)).
Proof.
  intros T N O m S inb dt n s s' (Hw & Hg & Hn & Hr & Hs) E i j k v Hp Hv.
  destruct (mstep3_any m S dt inb Hr Hw Hg Hn _ _ (cur_nxt n) V1 s s' (or_introl eq_refl) Hs E) as (A & _).
  exact (A i j k v Hp Hv).
Qed.
Print Assumptions C12_mhd3d_each_contribution_once.

(** and so it does in version 2, whose fluxes and electromotive forces are other ones. *)
Theorem C12_mhd3d_each_contribution_once_v2 :
  forall (T : Type) (N : Num T) (O : NumOne T) m (S : hset T) inb dt n s s',
  mready3 V2 m S ->
  execs inb s (mgodunov3 m S dt V2 (cur n) (nxt n)) s' ->
  let U := extend3 m (field_of3 (cur n) s) in
  forall i j k v, phys3 m i j k -> 0 <= v < 8 ->
  mbalance_any3 S dt (vflux3 S dt U) (vemf3 S dt U) U i j k v (s' (mkloc (nxt n) i j k v)).
Proof.
  intros T N O m S inb dt n s s' (Hw & Hg & Hn & Hr & Hs) E U i j k v Hp Hv.
  destruct (mstep3_any m S dt inb Hr Hw Hg Hn _ _ (cur_nxt n) V2 s s' (or_intror eq_refl) Hs E) as (A & _).
  exact (A i j k v Hp Hv).
Qed.
Print Assumptions C12_mhd3d_each_contribution_once_v2.

(** ** C28: versions 0 and 1 compute the same steps *)
Theorem C28_mhd3d_versions_0_and_1_exact :
  forall m (S : hset R) inb inb' iv iv' n dts s s1 s2,
  mready3 iv m S -> mready3 iv' m S ->
  iv <> V2 -> iv' <> V2 ->
  execs inb s (msteps3 m S iv n dts) s1 ->
  execs inb' s (msteps3 m S iv' n dts) s2 ->
  msame3 m (final_field3 n dts s1) (final_field3 n dts s2).
Proof.
  intros m S inb inb' iv iv' n dts s s1 s2 (Hw & Hg & Hn & Hr & Hs) (_ & _ & _ & _ & Hs') D D' E0 E1 i j k v Hp Hv.
  pose proof (mrun_refines3 m S iv Hw Hg inb (mrefines3_R m S inb iv Hw Hg Hn Hr Hs) _ _ _ _ E0) as A.
  pose proof (mrun_refines3 m S iv' Hw Hg inb' (mrefines3_R m S inb' iv' Hw Hg Hn Hr Hs') _ _ _ _ E1) as B.
  assert (X : forall iv, iv <> V2 -> forall dts u, mrun_spec3 m S iv dts u = mrun_spec3 m S V0 dts u).
  { clear. intros iv Hiv. induction dts as [|dt dts IH]; intros u; cbn [mrun_spec3]; auto.
    destruct iv; [reflexivity| |congruence]. rewrite IH, mstepv3_V0, mstepv3_V1. reflexivity. }
  unfold final_field3. rewrite A, B by assumption. rewrite (X iv), (X iv') by assumption. reflexivity.
Qed.
Print Assumptions C28_mhd3d_versions_0_and_1_exact.

(** In particular the accumulating versions do not depend on the schedule; version 2
    included. *)
Theorem C12_mhd3d_schedule_independent_exact :
  forall m (S : hset R) inb inb' iv n dts s s1 s2,
  mready3 iv m S ->
  execs inb s (msteps3 m S iv n dts) s1 ->
  execs inb' s (msteps3 m S iv n dts) s2 ->
  msame3 m (final_field3 n dts s1) (final_field3 n dts s2).
Proof.
  intros m S inb inb' iv n dts s s1 s2 (Hw & Hg & Hn & Hr & Hs) E0 E1 i j k v Hp Hv.
  pose proof (mrun_refines3 m S iv Hw Hg inb (mrefines3_R m S inb iv Hw Hg Hn Hr Hs) _ _ _ _ E0) as A.
  pose proof (mrun_refines3 m S iv Hw Hg inb' (mrefines3_R m S inb' iv Hw Hg Hn Hr Hs) _ _ _ _ E1) as B.
  unfold final_field3. rewrite A, B by assumption. reflexivity.
Qed.
Print Assumptions C12_mhd3d_schedule_independent_exact.

(** ** C22 *)

(** The default (approx) and hllc are accepted by the 3D MHD solver too but compute
    no flux: every step of every version uses an uninitialised flux. *)
Theorem C22_mhd3d_approx_hllc_refuted :
  forall (T : Type) (N : Num T) m (S : hset T) dt iv n s,
  wide3 m -> 3 <= gw m -> nbvar m = 8 ->
  solver S = parse_riemann "approx" \/ solver S = parse_riemann "hllc" ->
  ~ safes (alloc3d m (mnv3 m iv)) s (mgodunov3 m S dt iv (cur n) (nxt n)).
Proof. intros. apply no_flux_unsafe3; auto using cur_nxt. Qed.
Print Assumptions C22_mhd3d_approx_hllc_refuted.

(** Any slope type but 1 and 2 leaves the slopes of version 2 undefined.  (Versions
    0 and 1 define them for every value: C02_mhd3d_steps_in_bounds.) *)
Theorem C22_mhd3d_slope_type_refuted :
  forall (T : Type) (N : Num T) m (S : hset T) dt n s,
  wide3 m -> 3 <= gw m -> nbvar m = 8 -> ~ mslope_ok S ->
  ~ safes (alloc3d m (mnv3 m V2)) s (mgodunov3 m S dt V2 (cur n) (nxt n)).
Proof. intros. apply no_slope_unsafe3; auto using cur_nxt. Qed.
Print Assumptions C22_mhd3d_slope_type_refuted.

Example C22_mhd3d_case : mready3 V0 ex_mhd3 (ex_set R_HLLD 0) /\ mready3 V1 ex_mhd3 (ex_set R_HLLD 0) /\
  ~ mslope_ok (ex_set R_HLLD 0).
Proof.
  assert (A : forall iv, iv <> V2 -> mready3 iv ex_mhd3 (ex_set R_HLLD 0)).
  { intros iv Hiv. unfold mready3. repeat apply conj; try (simpl; lia).
    - unfold msolver_ok; simpl; tauto.
    - intros E. congruence. }
  split; [apply A; discriminate|split; [apply A; discriminate|]].
  unfold mslope_ok, neqb, ex_set, derive; simpl.
  repeat destruct (Rle_dec _ _); simpl; try lra; discriminate.
Qed.

(** ** C23 *)
Theorem C23_mhd3d_uniform_state_fixed :
  forall m (S : hset R) inb iv n dts s s' (c : Z -> R),
  mready3 iv m S ->
  (forall f, kind_of (bc m f) <> Reflecting) ->
  (forall i j k v, phys3 m i j k -> 0 <= v < 8 -> s (mkloc (cur n) i j k v) = c v) ->
  execs inb s (msteps3 m S iv n dts) s' ->
  forall i j k v, phys3 m i j k -> 0 <= v < 8 -> s' (mkloc (cur (n + length dts)) i j k v) = c v.
Proof.
  intros m S inb iv n dts s s' c (Hw & Hg & Hn & Hr & Hs) HO HU E i j k v Hp Hv.
  pose proof (mrun_refines3 m S iv Hw Hg inb (mrefines3_R m S inb iv Hw Hg Hn Hr Hs) _ _ _ _ E) as A.
  change (field_of3 (cur (n + length dts)) s' i j k v = c v). rewrite A by assumption.
  apply (mrun_uniform3 m S); auto.
Qed.
Print Assumptions C23_mhd3d_uniform_state_fixed.

(** ** C25 *)

(** One Faraday update, whatever the array of electromotive forces holds. *)
Theorem C25_mhd3d_emf_update_keeps_divergence :
  forall m (S : hset R) dt inb n s s' i j k,
  0 < gw m ->
  exec inb s (map (mupdate_emf_item3 m S dt (nxt n)) (cells3 m)) s' ->
  phys3 m i j k -> phys3 m (i + 1) j k -> phys3 m i (j + 1) k -> phys3 m i j (k + 1) ->
  divB3 S (field_of3 (nxt n) s') i j k = divB3 S (field_of3 (nxt n) s) i j k.
Proof.
  intros m S dt inb n s s' i j k Hg E H0 H1 H2 H3.
  destruct (mupdate_emf_spec3 m S dt inb _ _ _ (buf_out _ _ (cur_nxt n)) ltac:(lia) E) as (A & _).
  assert (F : forall c i j k, phys3 m i j k ->
    faraday3 S dt (fun e i j k => s (mkloc A_Emf i j k (iemf e))) (field_of3 (nxt n) s) (field_of3 (nxt n) s') c i j k).
  { intros c a b d Hp. unfold faraday3, field_of3. destruct c;
    rewrite A by (assumption || (unfold IA, IB, IC; lia)); reflexivity. }
  apply (faraday_divB3 S dt (fun e i j k => s (mkloc A_Emf i j k (iemf e)))); intros c; apply F;
  [assumption|destruct c; cbn [ox oy oz]; rewrite !Z.add_0_r; assumption].
Qed.
Print Assumptions C25_mhd3d_emf_update_keeps_divergence.

(** Whole runs of every version under every schedule: every physical cell whose
    upper faces are updated, i.e. the neighbour owning the face is a physical cell,
    or the axis is periodic. *)
Theorem C25_mhd3d_run_keeps_divergence :
  forall m (S : hset R) inb iv n dts s s' i j k,
  mready3 iv m S ->
  execs inb s (msteps3 m S iv n dts) s' ->
  phys3 m i j k -> has_uppers m i j k ->
  divB3 S (extend3 m (final_field3 n dts s')) i j k = divB3 S (extend3 m (field_of3 (cur n) s)) i j k.
Proof.
  intros m S inb iv n dts s s' i j k (Hw & Hg & Hn & Hr & Hs) E Hp HR.
  pose proof (mrun_refines3 m S iv Hw Hg inb (mrefines3_R m S inb iv Hw Hg Hn Hr Hs) _ _ _ _ E) as A.
  unfold final_field3. rewrite (divB3_ext m S Hw Hg _ _ i j k A Hp). apply mrun_divB3; auto.
Qed.
Print Assumptions C25_mhd3d_run_keeps_divergence.

(** Periodic boundaries: every physical cell. *)
Theorem C25_mhd3d_periodic_every_cell :
  forall m (S : hset R) inb iv n dts s s',
  mready3 iv m S -> (forall d, periodic3 m d) ->
  execs inb s (msteps3 m S iv n dts) s' ->
  (forall i j k, phys3 m i j k -> divB3 S (extend3 m (field_of3 (cur n) s)) i j k = 0%R) ->
  forall i j k, phys3 m i j k -> divB3 S (extend3 m (final_field3 n dts s')) i j k = 0%R.
Proof.
  intros m S inb iv n dts s s' HR HP E H0 i j k Hp.
  rewrite (C25_mhd3d_run_keeps_divergence m S inb iv n dts s s') by (unfold has_uppers, has_upper; auto). auto.
Qed.
Print Assumptions C25_mhd3d_periodic_every_cell.

(** On the cells concerned by the first alternative the divergence only involves
    stored physical values. *)
Theorem C25_mhd3d_stored_values :
  forall m (S : hset R) inb iv n dts s s' i j k,
  mready3 iv m S ->
  execs inb s (msteps3 m S iv n dts) s' ->
  phys3 m i j k -> phys3 m (i + 1) j k -> phys3 m i (j + 1) k -> phys3 m i j (k + 1) ->
  divB3 S (final_field3 n dts s') i j k = divB3 S (field_of3 (cur n) s) i j k.
Proof.
  intros m S inb iv n dts s s' i j k HR E H0 H1 H2 H3.
  assert (X : forall u, divB3 S u i j k = divB3 S (extend3 m u) i j k)
    by (intros; unfold divB3; rewrite !extend3_phys by assumption; reflexivity).
  rewrite (X (final_field3 n dts s')), (X (field_of3 (cur n) s)).
  apply (C25_mhd3d_run_keeps_divergence m S inb iv n dts s s'); auto.
  repeat split; left; [apply H1|apply H2|apply H3].
Qed.
Print Assumptions C25_mhd3d_stored_values.

(** A field with divergence in cell (4,4,4); the upper x face of cell (6,4,4) is the
    periodic image of the lower x face of cell (3,4,4). *)
Example C25_mhd3d_case :
  divB3 (ex_set R_HLLD 1)
    (fun i j k v => if v =? IA then IZR (i * i) else if v =? IB then IZR (- j) else IZR (2 * k)) 4 4 4 <> 0%R /\
  has_uppers ex_mhd3 6 4 4 /\ ~ physical (nx ex_mhd3) (gw ex_mhd3) 7.
Proof.
  repeat split; try (right; split; reflexivity); [|unfold physical; simpl; lia].
  unfold divB3, ex_set, derive. cbn [dx dy dz].
  cbv beta iota delta [IA IB IC Z.eqb Pos.eqb Z.add Z.mul Z.opp Pos.add Pos.succ Pos.mul]. lra.
Qed.

(** ** C29 *)

(** In every cell the scheme converts, under every schedule; in 3D all three
    components are averaged properly. *)
Theorem C29_mhd3d_face_average :
  forall m (S : hset R) inb n s s' i j k,
  exec inb s (map (mconvert_item3 m S (cur n)) (cells3 m)) s' ->
  0 <= i < isize m - 1 -> 0 <= j < jsize m - 1 -> 0 <= k < ksize m - 1 ->
  s' (mkloc A_Q i j k IA) = ((s (mkloc (cur n) i j k IA) + s (mkloc (cur n) (i + 1) j k IA)) / 2)%R /\
  s' (mkloc A_Q i j k IB) = ((s (mkloc (cur n) i j k IB) + s (mkloc (cur n) i (j + 1) k IB)) / 2)%R /\
  s' (mkloc A_Q i j k IC) = ((s (mkloc (cur n) i j k IC) + s (mkloc (cur n) i j (k + 1) IC)) / 2)%R.
Proof.
  intros m S inb n s s' i j k E Hi Hj Hk.
  destruct (mconvert_spec3 m S inb (cur n) s s' (buf_in _ _ (cur_nxt n)) E) as (A & _).
  specialize (A i j k Hi Hj Hk). unfold gq in A.
  repeat split.
  - change (s' (mkloc A_Q i j k IA)) with (ma (getm s' (mkloc A_Q i j k))). rewrite A.
    unfold mQ3, prim_mhd. cbn [ma mstate3]. Rn. unfold gu, field_of3. lra.
  - change (s' (mkloc A_Q i j k IB)) with (mb (getm s' (mkloc A_Q i j k))). rewrite A.
    unfold mQ3, prim_mhd. cbn [mb mstate3]. Rn. unfold gu, field_of3. lra.
  - change (s' (mkloc A_Q i j k IC)) with (mc (getm s' (mkloc A_Q i j k))). rewrite A.
    unfold mQ3, prim_mhd. cbn [mc mstate3]. Rn. unfold gu, field_of3. lra.
Qed.
Print Assumptions C29_mhd3d_face_average.

(** ** C37 *)
Theorem C37_mhd3d_translation :
  forall (T : Type) (N : Num T) (O : NumOne T) m (S : hset T) inb inb' n dts a b c s1 s1' s2 s2',
  mready3 V0 m S -> (forall d, periodic3 m d) ->
  msame3 m (field_of3 (cur n) s2) (shift3 m a b c (field_of3 (cur n) s1)) ->
  execs inb s1 (msteps3 m S V0 n dts) s1' ->
  execs inb' s2 (msteps3 m S V0 n dts) s2' ->
  msame3 m (final_field3 n dts s2') (shift3 m a b c (final_field3 n dts s1')).
Proof.
  intros T N O m S inb inb' n dts a b c s1 s1' s2 s2' (Hw & Hg & Hn & Hr & Hs) HP HU E1 E2.
  pose proof (mrun_refines3 m S V0 Hw Hg inb (mrefines3_V0 m S inb Hw Hg Hn Hr) _ _ _ _ E1) as A.
  pose proof (mrun_refines3 m S V0 Hw Hg inb' (mrefines3_V0 m S inb' Hw Hg Hn Hr) _ _ _ _ E2) as B.
  intros i j k v Hp Hv. unfold final_field3. rewrite B by assumption.
  rewrite (mrun_spec3_ext m S V0 Hw Hg dts _ (shift3 m a b c (field_of3 (cur n) s1)) HU) by assumption.
  rewrite (mrun_translate3 m S V0 Hw Hg HP) by assumption. symmetry. apply mshift_ext3; assumption.
Qed.
Print Assumptions C37_mhd3d_translation.

Theorem C37_mhd3d_translation_exact :
  forall m (S : hset R) inb inb' iv n dts a b c s1 s1' s2 s2',
  mready3 iv m S -> (forall d, periodic3 m d) ->
  msame3 m (field_of3 (cur n) s2) (shift3 m a b c (field_of3 (cur n) s1)) ->
  execs inb s1 (msteps3 m S iv n dts) s1' ->
  execs inb' s2 (msteps3 m S iv n dts) s2' ->
  msame3 m (final_field3 n dts s2') (shift3 m a b c (final_field3 n dts s1')).
Proof.
  intros m S inb inb' iv n dts a b c s1 s1' s2 s2' (Hw & Hg & Hn & Hr & Hs) HP HU E1 E2.
  pose proof (mrun_refines3 m S iv Hw Hg inb (mrefines3_R m S inb iv Hw Hg Hn Hr Hs) _ _ _ _ E1) as A.
  pose proof (mrun_refines3 m S iv Hw Hg inb' (mrefines3_R m S inb' iv Hw Hg Hn Hr Hs) _ _ _ _ E2) as B.
  intros i j k v Hp Hv. unfold final_field3. rewrite B by assumption.
  rewrite (mrun_spec3_ext m S iv Hw Hg dts _ (shift3 m a b c (field_of3 (cur n) s1)) HU) by assumption.
  rewrite (mrun_translate3 m S iv Hw Hg HP) by assumption. symmetry. apply mshift_ext3; assumption.
Qed.
Print Assumptions C37_mhd3d_translation_exact.

(** ** C45 *)

(** One step: the new value of a physical cell is determined by the cells from two
    below to three above (ghost cells standing for their physical images). *)
Theorem C45_three_cells_per_mhd3d_step :
  forall (T : Type) (N : Num T) (O : NumOne T) m (S : hset T) dt inb n s1 s1' s2 s2' i j k v,
  mready3 V0 m S -> phys3 m i j k -> 0 <= v < 8 ->
  (forall a b c w, i - 2 <= a <= i + 3 -> j - 2 <= b <= j + 3 -> k - 2 <= c <= k + 3 -> 0 <= w < 8 ->
     s1 (mkloc (cur n) (image_x m a) (image_y m b) (image_z m c) w) =
     s2 (mkloc (cur n) (image_x m a) (image_y m b) (image_z m c) w)) ->
  execs inb s1 (mgodunov3 m S dt V0 (cur n) (nxt n)) s1' ->
  execs inb s2 (mgodunov3 m S dt V0 (cur n) (nxt n)) s2' ->
  s1' (mkloc (nxt n) i j k v) = s2' (mkloc (nxt n) i j k v).
Proof.
  intros T N O m S dt inb n s1 s1' s2 s2' i j k v (Hw & Hg & Hn & Hr & Hs) Hp Hv HU E1 E2.
  pose proof (mrefines3_V0 m S inb Hw Hg Hn Hr dt n s1 s1' E1) as A.
  pose proof (mrefines3_V0 m S inb Hw Hg Hn Hr dt n s2 s2' E2) as B.
  specialize (A i j k v Hp Hv). specialize (B i j k v Hp Hv). unfold field_of3 at 1 in A. unfold field_of3 at 1 in B.
  rewrite A, B. apply mstepv3_stencil; [|assumption].
  intros a b c w Ha Hbb Hc Hw'. unfold extend3, field_of3. rewrite HU by assumption. reflexivity.
Qed.
Print Assumptions C45_three_cells_per_mhd3d_step.

(** Three cells per step over a whole run. *)
Theorem C45_mhd3d_domain_of_dependence :
  forall (T : Type) (N : Num T) (O : NumOne T) m (S : hset T) inb dts n s1 s1' s2 s2' i j k v,
  let r := 3 * Z.of_nat (length dts) in
  mready3 V0 m S -> 0 <= v < 8 ->
  phys3 m (i - r) (j - r) (k - r) -> phys3 m (i + r) (j + r) (k + r) ->
  (forall a b c w, i - r <= a <= i + r -> j - r <= b <= j + r -> k - r <= c <= k + r -> 0 <= w < 8 ->
     s1 (mkloc (cur n) a b c w) = s2 (mkloc (cur n) a b c w)) ->
  execs inb s1 (msteps3 m S V0 n dts) s1' ->
  execs inb s2 (msteps3 m S V0 n dts) s2' ->
  final_field3 n dts s1' i j k v = final_field3 n dts s2' i j k v.
Proof.
  intros T N O m S inb dts n s1 s1' s2 s2' i j k v r (Hw & Hg & Hn & Hr & Hs) Hv P1 P2 HU E1 E2.
  pose proof (mrun_refines3 m S V0 Hw Hg inb (mrefines3_V0 m S inb Hw Hg Hn Hr) _ _ _ _ E1) as A.
  pose proof (mrun_refines3 m S V0 Hw Hg inb (mrefines3_V0 m S inb Hw Hg Hn Hr) _ _ _ _ E2) as B.
  assert (Hp : phys3 m i j k) by (unfold phys3, phys2, physical, r in *; lia).
  unfold final_field3. rewrite A, B by assumption. clear A B E1 E2.
  set (u1 := field_of3 (cur n) s1) in *. set (u2 := field_of3 (cur n) s2) in *.
  assert (HU' : forall a b c w, i - r <= a <= i + r -> j - r <= b <= j + r -> k - r <= c <= k + r ->
    0 <= w < 8 -> u1 a b c w = u2 a b c w) by (intros; apply HU; assumption).
  clearbody u1 u2. clear HU s1 s2 s1' s2'.
  assert (Gen : forall dts u1 u2 r e, r = 3 * Z.of_nat (length dts) -> 0 <= e ->
    phys3 m (i - r - e) (j - r - e) (k - r - e) -> phys3 m (i + r + e) (j + r + e) (k + r + e) ->
    (forall a b c w, i - r - e <= a <= i + r + e -> j - r - e <= b <= j + r + e -> k - r - e <= c <= k + r + e ->
       0 <= w < 8 -> u1 a b c w = u2 a b c w) ->
    forall a b c w, i - e <= a <= i + e -> j - e <= b <= j + e -> k - e <= c <= k + e -> 0 <= w < 8 ->
    mrun_spec3 m S V0 dts u1 a b c w = mrun_spec3 m S V0 dts u2 a b c w).
  { clear dts r P1 P2 HU' u1 u2.
    induction dts as [|dt dts IH]; intros u1 u2 r e Er He P1 P2 HE a b c w Ha Hb' Hc Hw'; cbn [mrun_spec3].
    - simpl in Er. apply HE; lia.
    - simpl length in Er. unfold phys3, phys2, physical in *.
      apply (IH _ _ (r - 3) e); try lia.
      intros a' b' c' w' Ha' Hb'' Hc' Hw''. apply mstepv3_stencil; [|assumption].
      intros i' j' k' v' Hi' Hj' Hk' Hv'. unfold extend3.
      assert (EX : image_x m i' = i') by (unfold image_x; apply image_id; unfold physical; lia).
      assert (EY : image_y m j' = j') by (unfold image_y; apply image_id; unfold physical; lia).
      assert (EZ : image_z m k' = k') by (unfold image_z; apply image_id; unfold physical; lia).
      rewrite EX, EY, EZ. rewrite HE by lia. reflexivity. }
  apply (Gen dts u1 u2 r 0); try reflexivity; try lia; try (rewrite !Z.sub_0_r; assumption); try (rewrite !Z.add_0_r; assumption).
  intros. apply HU'; lia.
Qed.
Print Assumptions C45_mhd3d_domain_of_dependence.

(** ** C28: version 2 computes something else

    Its slope along z of the face-centred field reads the upper neighbour for both
    sides (MHDBaseFunctor3D.h:142, k + delta_k), so that slope vanishes.
    Uniform rho = 1, E = 10, velocity 1 along z, Bx = 0, 1, 2, 1 along z on a
    periodic box: after one step of binary64 arithmetic with dt/dz = 1/8 the Bx of
    the two versions differ by more than 1/20 in cell (3,3,4), whatever the schedule. *)
Module Witness28.
Definition q (a b : Z) : v64 := ndiv (Num := Vnum) (nZ (Num := Vnum) a) (nZ (Num := Vnum) b).
Definition S : hset v64 :=
  derive (H := Vnum) (q 2 1) (q 1 10000000000) (q 1 10000000000) (q 1 1) (q 1 2) R_HLLD (q 1 1) (q 1 1) (q 1 1).
Definition m : mesh := mkmesh 3 3 4 3 8 true (fun _ => 3).
Definition dt : v64 := q 1 8.
Definition s : store v64 := fun l =>
  if lv l =? ID then q 1 1 else if lv l =? IP then q 10 1 else if lv l =? IW then q 1 1 else
  if lv l =? IA then (if lk l =? 3 then q 0 1 else if lk l =? 4 then q 1 1 else if lk l =? 5 then q 2 1 else q 1 1)
  else q 0 1.

Lemma ready iv : mready3 (N := Vnum) iv m S.
Proof.
  unfold mready3. repeat apply conj; try (simpl; lia).
  - unfold msolver_ok; simpl; tauto.
  - intros _. vm_compute. reflexivity.
Qed.

(** All orders of four contributions. *)
Fixpoint insert {A} (x : A) (l : list A) : list (list A) :=
  match l with [] => [[x]] | y :: l' => (x :: l) :: map (cons y) (insert x l') end.
Fixpoint orders {A} (l : list A) : list (list A) :=
  match l with [] => [[]] | x :: l' => flat_map (insert x) (orders l') end.

Lemma insert_middle {A} (x : A) l1 l2 : In (l1 ++ x :: l2) (insert x (l1 ++ l2)).
Proof.
  induction l1 as [|y l1 IH]; simpl.
  - destruct l2; left; reflexivity.
  - right. apply in_map. exact IH.
Qed.
Lemma orders_complete {A} (l : list A) : forall ops, Permutation ops l -> In ops (orders l).
Proof.
  induction l as [|x l IH]; intros ops H; simpl.
  - apply Permutation_sym, Permutation_nil in H. subst. auto.
  - destruct (in_split x ops) as (l1 & l2 & ->); [eapply Permutation_in; [apply Permutation_sym, H|left; reflexivity]|].
    apply in_flat_map. exists (l1 ++ l2). split; [|apply insert_middle].
    apply IH. apply Permutation_cons_inv with x. apply Permutation_trans with (l1 ++ x :: l2); [apply Permutation_middle|exact H].
Qed.

(** All orders of the contributions of the electromotive forces [e1]..[e4] around
    the x face of a cell. *)
Section Check.
Context {T : Type} {N : Num T}.
Variable S : hset T.
Variable dt : T.
Definition check (ok : T -> bool) (e1 e2 e3 e4 u : T) : bool :=
  forallb (fun ops => ok (fold_left (fun y f => f y) ops u))
    (orders [ (fun y => nsub y (nmul e1 (ndiv dt (dy S)))); (fun y => nadd y (nmul e2 (ndiv dt (dy S))));
              (fun y => nadd y (nmul e3 (ndiv dt (dz S)))); (fun y => nsub y (nmul e4 (ndiv dt (dz S)))) ]).

Lemma check_any ok flux (e : dir -> Z -> Z -> Z -> T) (W : field3 T) i j k x :
  check ok (e DZ i j k) (e DZ i (j + 1) k) (e DY i j k) (e DY i j (k + 1)) (W i j k IA) = true ->
  mbalance_any3 S dt flux e W i j k IA x -> ok x = true.
Proof.
  intros C (ops & HP & ->). unfold check in C. rewrite forallb_forall in C.
  apply C. apply orders_complete. exact HP.
Qed.

(** Every order of the contributions of version 2 is related to the value of version 0, *)
Definition related (rel : T -> T -> bool) (m : mesh) (s : store T) (i j k : Z) : bool :=
  let U := extend3 m (field_of3 A_U s) in
  let e := vemf3 S dt U in
  check (rel (mstep3 S dt U i j k IA))
    (e DZ i j k) (e DZ i (j + 1) k) (e DY i j k) (e DY i j (k + 1)) (U i j k IA).

(** hence the executions of the two versions are. *)
Lemma executions {O : NumOne T} rel m s i j k :
  mready3 V2 m S -> phys3 m i j k -> related rel m s i j k = true ->
  forall inb inb' s0 s2,
  execs inb s (mgodunov3 m S dt V0 A_U A_U2) s0 ->
  execs inb' s (mgodunov3 m S dt V2 A_U A_U2) s2 ->
  rel (s0 (mkloc A_U2 i j k IA)) (s2 (mkloc A_U2 i j k IA)) = true.
Proof.
  intros (Hw & Hg & Hn & Hr & Hs) Hp C inb inb' s0 s2 E0 E2. unfold related in C. cbv zeta in C.
  pose proof (or_introl (conj eq_refl eq_refl) : buffers A_U A_U2) as Hb.
  destruct (mstep3_V0 _ _ _ _ Hr Hw Hg Hn _ _ Hb _ _ E0) as (A & _).
  destruct (mstep3_any _ _ _ _ Hr Hw Hg Hn _ _ Hb V2 _ _ (or_intror eq_refl) Hs E2) as (B & _).
  assert (HI : 0 <= IA < 8) by (unfold IA; lia).
  rewrite (A i j k IA Hp HI). unfold mU3.
  exact (check_any _ _ _ _ _ _ _ _ C (B i j k IA Hp HI)).
Qed.
End Check.

(** [x] is larger than [y] by more than 1/20. *)
Definition above (y x : v64) : bool := nltb (Num := Vnum) (q 1 20) (nsub (Num := Vnum) x y).

Lemma checked : related (N := Vnum) S dt above m s 3 3 4 = true.
Proof. vm_compute. reflexivity. Qed.
End Witness28.

Theorem C28_mhd3d_version_2_refuted :
  exists (m : mesh) (S : hset v64) (dt : v64) (s : store v64) (i j k : Z),
  (forall iv, mready3 (N := Vnum) iv m S) /\ (forall d, periodic3 m d) /\ phys3 m i j k /\
  forall inb inb' s0 s2,
  execs inb s (mgodunov3 (H := Vnum) m S dt V0 A_U A_U2) s0 ->
  execs inb' s (mgodunov3 (H := Vnum) m S dt V2 A_U A_U2) s2 ->
  nltb (Num := Vnum) (ndiv (Num := Vnum) (nZ (Num := Vnum) 1) (nZ (Num := Vnum) 20))
    (nsub (Num := Vnum) (s2 (mkloc A_U2 i j k IA)) (s0 (mkloc A_U2 i j k IA))) = true.
Proof.
  exists Witness28.m, Witness28.S, Witness28.dt, Witness28.s, 3, 3, 4.
  split; [exact Witness28.ready|].
  split; [intros d; unfold periodic3; cbn; auto|].
  assert (Hp : phys3 Witness28.m 3 3 4) by (unfold phys3, phys2, physical; simpl; lia).
  split; [exact Hp|].
  exact (Witness28.executions (N := Vnum) (O := Vnum_one) Witness28.S Witness28.dt Witness28.above
    Witness28.m Witness28.s 3 3 4 (Witness28.ready V2) Hp Witness28.checked).
Qed.
Print Assumptions C28_mhd3d_version_2_refuted.
