(** * Properties of the 2D MHD solver *)
From Coq Require Import String ZArith List Bool Lia ZifyBool Permutation Reals Lra Floats.SpecFloat.
Import ListNotations.
From Verif Require Import Num Exec ExecFacts Grid GridFacts Boundaries BoundariesSpec
  BoundariesFacts BoundariesFill BoundariesNarrow HydroNum Kernels KernelFacts Atomics
  Hydro2D Hydro2DSpec Hydro2DFacts Hydro2DStep Determ Hydro2DRun EulerSpec HydroPhysics
  HydroRiemann PropPhysics Sums Hydro2DLaws Binary64 Doomed PropHydro2D
  MhdNum Mhd2D Mhd2DSpec MhdFacts Mhd2DFacts Mhd2DStep Mhd2DV2 Mhd2DAgree Mhd2DRun
  MhdSpec MhdPhysics Mhd2DLaws Mhd2DDoomed.
Local Open Scope Z_scope.

(** A mesh and settings the solver is meant for: at least three ghost layers, 8
    variables, as many physical cells as the boundary types need, slope type 1
    or 2 and an MHD Riemann solver. *)
Definition mready2 {T} {N : Num T} (m : mesh) (S : hset T) : Prop :=
  wide2 m /\ 3 <= gw m /\ nbvar m = 8 /\ mslope_ok S /\ msolver_ok S.

(** Example configurations: 4 x 3 cells, periodic, or walls in y. *)
Definition ex_mhd2 : mesh := mkmesh 4 3 1 3 8 true (fun _ => 3).
Definition ex_mhd_walls2 : mesh :=
  mkmesh 4 3 1 3 8 true (fun f => match f with YMIN | YMAX => 1 | _ => 3 end).
Definition ex_mhd_open2 : mesh := mkmesh 4 3 1 3 8 true (fun _ => 2).

Example ex_mready2 : forall rs m, rs <> R_APPROX -> rs <> R_HLLC ->
  In m [ex_mhd2; ex_mhd_walls2; ex_mhd_open2] -> mready2 m (ex_set rs 1).
Proof.
  intros rs m Hr1 Hr2 Hm. unfold mready2.
  repeat apply conj; try (destruct Hm as [<-|[<-|[<-|[]]]]; simpl; lia); auto.
  - unfold mslope_ok, neqb, ex_set, derive; simpl.
    repeat destruct (Rle_dec _ _); simpl; try lra; auto.
  - unfold msolver_ok, ex_set, derive. simpl. destruct rs; tauto.
Qed.

(** ** C01 *)

(** Any number of steps of version 0, whose kernels all store. *)
Theorem C01_mhd_same_arrays_under_every_schedule :
  forall (T : Type) (N : Num T) (O : NumOne T) m (S : hset T) inb n dts s s1 s2,
  mready2 m S ->
  execs inb s (msteps2 m S V0 n dts) s1 ->
  execs inb s (msteps2 m S V0 n dts) s2 ->
  forall l, s1 l = s2 l.
Proof.
  intros T N O m S inb n dts s s1 s2 (Hw & Hg & Hn & Hs & Hr).
  enough (D : forall n, deterministic inb (msteps2 m S V0 n dts)).
  { intros H1 H2. exact (D n s s s1 s2 (fun l => eq_refl) H1 H2). }
  clear n s s1 s2. induction dts as [|dt dts IH]; intros n; cbn [msteps2].
  - apply det_nil.
  - apply det_app; auto. apply mgodunov2_det; auto using cur_nxt.
Qed.
Print Assumptions C01_mhd_same_arrays_under_every_schedule.

(** Versions 1 and 2 up to their accumulating kernels: ghost cells, copy, primitive
    variables, half-step states, slopes, electric field and face sources. *)
Definition mstores2 {T} {N : Num T} (m : mesh) (S : hset T) (dt : T) (iv : impl) (ain aout : arr)
  : list (list (prog T)) :=
  mprefix2 m S ain aout ++ firstn (match iv with V0 => 5 | V1 => 1 | V2 => 4 end) (mscheme2 m S dt iv ain aout).

Theorem C01_mhd_store_kernels :
  forall (T : Type) (N : Num T) (O : NumOne T) m (S : hset T) dt inb iv n s s1 s2,
  mready2 m S ->
  execs inb s (mstores2 m S dt iv (cur n) (nxt n)) s1 ->
  execs inb s (mstores2 m S dt iv (cur n) (nxt n)) s2 ->
  forall l, s1 l = s2 l.
Proof.
  intros T N O m S dt inb iv n s s1 s2 (Hw & Hg & Hn & Hs & Hr).
  enough (D : deterministic inb (mstores2 m S dt iv (cur n) (nxt n))).
  { intros H1 H2. exact (D s s s1 s2 (fun l => eq_refl) H1 H2). }
  pose proof (cur_nxt n) as Hb.
  pose proof (buf_in _ _ Hb) as Hai. pose proof (buf_out _ _ Hb) as Hao.
  assert (Hne : nxt n <> cur n) by (destruct Hb as [[-> ->]|[-> ->]]; congruence).
  unfold mstores2, mprefix2. apply det_app; [apply det_app; [apply det_fill2d; auto|]|].
  - apply det_cons; [eapply det_cell2; apply own_deep_copy; auto|].
    apply det_cons; [eapply det_cell2; apply own_mconvert; auto|apply det_nil].
  - destruct iv; cbn [mscheme2 firstn];
    repeat first
      [ apply det_nil
      | apply det_cons;
        [ eapply det_cell2;
          first [ apply own_mtrace; auto; fail | apply own_mfluxes; auto; fail | apply own_memf; auto; fail | apply own_mupdate; auto; fail
                | apply own_mupdate_emf; auto; fail | apply own_mslopes; auto; fail | apply own_mhalf; auto; fail
                | apply own_melec; auto; fail | apply own_msface ] | ] ].
Qed.
Print Assumptions C01_mhd_store_kernels.

(** ** C02 *)
Theorem C02_mhd_steps_in_bounds :
  forall (T : Type) (N : Num T) m (S : hset T) iv n dts s,
  mready2 m S ->
  safes (alloc2d m (mnv2 m iv)) s (msteps2 m S iv n dts) /\
  exists s', execs (alloc2d m (mnv2 m iv)) s (msteps2 m S iv n dts) s'.
Proof.
  intros T N m S iv n dts s (Hw & Hg & Hn & Hs & Hr).
  enough (F : forall n, Forall (Forall (in_foot (alloc2d m (mnv2 m iv)))) (msteps2 m S iv n dts)).
  { split; [apply in_foot_safes|apply in_foot_execs]; auto. }
  clear n s. induction dts as [|dt dts IH]; intros n; cbn [msteps2]; [constructor|].
  apply Forall_app. split; auto. apply mgodunov2_in_foot; auto using cur_nxt.
Qed.
Print Assumptions C02_mhd_steps_in_bounds.

Example C02_mhd_case : alloc2d ex_mhd2 (mnv2 ex_mhd2 V2) (L2 A_SFace 9 8 IY) = true /\
  alloc2d ex_mhd2 (mnv2 ex_mhd2 V2) (L2 A_SFace 9 8 2) = false /\
  alloc2d ex_mhd2 (mnv2 ex_mhd2 V1) (L2 A_Emf 3 3 0) = false.
Proof. repeat split. Qed.

(** ** C09 *)

(** All eight variables, face-centred field included. *)
Theorem C09_mhd_conservation_periodic :
  forall m (S : hset R) inb iv n dts s s' v,
  mready2 m S -> periodic_x m -> periodic_y m ->
  execs inb s (msteps2 m S iv n dts) s' -> 0 <= v < 8 ->
  total2 m (final_field n dts s') v = total2 m (field_of (cur n) s) v.
Proof.
  intros m S inb iv n dts s s' v (Hw & Hg & Hn & Hs & Hr) PX PY E Hv.
  pose proof (mrun_refines m S Hw Hg inb iv (mrefines_R m S inb iv Hw Hg Hn Hs Hr) _ _ _ _ E) as A.
  unfold final_field. rewrite (mtotal_ext m _ _ v Hv A). apply mconserve_periodic_run; auto.
Qed.
Print Assumptions C09_mhd_conservation_periodic.

(** ** C12 *)

(** Versions 1 and 2, any arithmetic: every physical cell receives each of its
    four fluxes and each of its four electromotive forces exactly once, in some order. *)
Theorem C12_mhd_each_contribution_once :
  forall (T : Type) (N : Num T) (O : NumOne T) m (S : hset T) inb dt n s s',
  mready2 m S ->
  execs inb s (mgodunov2 m S dt V1 (cur n) (nxt n)) s' ->
  forall i j v, phys2 m i j -> 0 <= v < 8 ->
  mstep2_any_order S dt (extend m (field_of (cur n) s)) i j v (s' (L2 (nxt n) i j v)).
Proof.
  intros T N O m S inb dt n s s' (Hw & Hg & Hn & Hs & Hr) E i j v Hp Hv.
  destruct (mstep_V1 m S dt inb Hs Hr Hw Hg Hn _ _ (cur_nxt n) s s' E) as (A & _).
  apply A; auto.
Qed.
Print Assumptions C12_mhd_each_contribution_once.

Theorem C12_mhd_each_contribution_once_v2 :
  forall (T : Type) (N : Num T) (O : NumOne T) m (S : hset T) inb dt n s s',
  mready2 m S ->
  execs inb s (mgodunov2 m S dt V2 (cur n) (nxt n)) s' ->
  let U := extend m (field_of (cur n) s) in
  exists fx fy emf,
  (forall i j v, phys2 m i j -> 0 <= v < 8 -> mbalance_any S dt fx fy emf U i j v (s' (L2 (nxt n) i j v))).
Proof.
  intros T N O m S inb dt n s s' (Hw & Hg & Hn & Hs & Hr) E U.
  destruct (mstep_V2 m S dt inb Hs Hr Hw Hg Hn _ _ (cur_nxt n) s s' E) as (A & _).
  eexists _, _, _. exact A.
Qed.
Print Assumptions C12_mhd_each_contribution_once_v2.

(** ** C28: the versions compute the same steps *)
Theorem C28_all_versions_exact :
  forall m (S : hset R) inb inb' iv iv' n dts s s1 s2,
  mready2 m S ->
  execs inb s (msteps2 m S iv n dts) s1 ->
  execs inb' s (msteps2 m S iv' n dts) s2 ->
  msame m (final_field n dts s1) (final_field n dts s2).
Proof.
  intros m S inb inb' iv iv' n dts s s1 s2 (Hw & Hg & Hn & Hs & Hr) E0 E1 i j v Hp Hv.
  pose proof (mrun_refines m S Hw Hg inb iv (mrefines_R m S inb iv Hw Hg Hn Hs Hr) _ _ _ _ E0) as A.
  pose proof (mrun_refines m S Hw Hg inb' iv' (mrefines_R m S inb' iv' Hw Hg Hn Hs Hr) _ _ _ _ E1) as B.
  unfold final_field. rewrite A, B by auto. reflexivity.
Qed.
Print Assumptions C28_all_versions_exact.

(** In particular the accumulating versions do not depend on the schedule. *)
Theorem C12_mhd_schedule_independent_exact :
  forall m (S : hset R) inb iv n dts s s1 s2,
  mready2 m S ->
  execs inb s (msteps2 m S iv n dts) s1 ->
  execs inb s (msteps2 m S iv n dts) s2 ->
  msame m (final_field n dts s1) (final_field n dts s2).
Proof. intros. eapply C28_all_versions_exact; eauto. Qed.
Print Assumptions C12_mhd_schedule_independent_exact.

(** ** C22 *)

(** The default (approx) and hllc are accepted by the MHD solver but compute no
    flux: every step of every version uses an uninitialised flux. *)
Theorem C22_mhd_approx_hllc_refuted :
  forall (T : Type) (N : Num T) m (S : hset T) dt iv n s,
  wide2 m -> 3 <= gw m -> nbvar m = 8 -> mslope_ok S ->
  solver S = parse_riemann "approx" \/ solver S = parse_riemann "hllc" ->
  ~ safes (alloc2d m (mnv2 m iv)) s (mgodunov2 m S dt iv (cur n) (nxt n)).
Proof. intros. apply no_flux_unsafe; auto using cur_nxt. Qed.
Print Assumptions C22_mhd_approx_hllc_refuted.

(** Any slope type but 1 and 2, in particular 0 (first order), leaves the slopes undefined. *)
Theorem C22_mhd_slope_type_refuted :
  forall (T : Type) (N : Num T) m (S : hset T) dt iv n s,
  wide2 m -> 3 <= gw m -> nbvar m = 8 -> ~ mslope_ok S ->
  ~ safes (alloc2d m (mnv2 m iv)) s (mgodunov2 m S dt iv (cur n) (nxt n)).
Proof. intros. apply no_slope_unsafe; auto using cur_nxt. Qed.
Print Assumptions C22_mhd_slope_type_refuted.

Example C22_mhd_case : ~ mslope_ok (ex_set R_HLLD 0) /\ slope_ok (ex_set R_HLLD 0).
Proof.
  unfold mslope_ok, slope_ok, neqb, ex_set, derive; simpl.
  repeat destruct (Rle_dec _ _); simpl; try lra; split; auto; discriminate.
Qed.

(** The remaining names: hlld, hll, llf (all versions: C02_mhd_steps_in_bounds). *)
Theorem C22_mhd_defined :
  forall (T : Type) (N : Num T) (S : hset T) ql qr q qp qm name,
  solver S = parse_riemann name -> In name ["hlld"; "hll"; "llf"]%string -> mslope_ok S ->
  riemann_mhd S ql qr <> None /\ mslope_dir S q qp qm <> None.
Proof.
  intros T N S ql qr q qp qm name E Hn Hs. split.
  - unfold riemann_mhd. rewrite E. destruct Hn as [<-|[<-|[<-|[]]]]; discriminate.
  - unfold mslope_dir. unfold mslope_ok in Hs. rewrite Hs. discriminate.
Qed.
Print Assumptions C22_mhd_defined.

(** ** C23 *)
Theorem C23_mhd_uniform_state_fixed :
  forall m (S : hset R) inb iv n dts s s' (c : Z -> R),
  mready2 m S ->
  (forall f, kind_of (bc m f) <> Reflecting) ->
  (forall i j v, phys2 m i j -> 0 <= v < 8 -> s (L2 (cur n) i j v) = c v) ->
  execs inb s (msteps2 m S iv n dts) s' ->
  forall i j v, phys2 m i j -> 0 <= v < 8 -> s' (L2 (cur (n + length dts)) i j v) = c v.
Proof.
  intros m S inb iv n dts s s' c (Hw & Hg & Hn & Hs & Hr) HO HU E i j v Hp Hv.
  pose proof (mrun_refines m S Hw Hg inb iv (mrefines_R m S inb iv Hw Hg Hn Hs Hr) _ _ _ _ E) as A.
  change (final_field n dts s' i j v = c v). unfold final_field. rewrite A by auto.
  apply (mrun_uniform m S); auto.
Qed.
Print Assumptions C23_mhd_uniform_state_fixed.

(** ** C25 *)

(** One Faraday update, whatever the array of electromotive forces holds. *)
Theorem C25_emf_update_keeps_divergence :
  forall m (S : hset R) dt inb n s s' i j,
  0 < gw m ->
  exec inb s (map (mupdate_emf_item2 m S dt (nxt n)) (cells2 m)) s' ->
  phys2 m i j -> phys2 m (i + 1) j -> phys2 m i (j + 1) ->
  divB S (field_of (nxt n) s') i j = divB S (field_of (nxt n) s) i j.
Proof.
  intros m S dt inb n s s' i j Hg E H0 H1 H2.
  destruct (mupdate_emf_spec m S dt inb _ _ _ (buf_out _ _ (cur_nxt n)) Hg E) as (A & _).
  apply (faraday_divB S dt (fun i j => s (L2 A_Emf i j 0)));
  unfold faraday, field_of; match goal with |- context [s' (L2 _ ?a ?b IA)] => destruct (A a b ltac:(assumption)) as [-> ->] end;
  split; reflexivity.
Qed.
Print Assumptions C25_emf_update_keeps_divergence.

(** Whole runs of every version under every schedule: every physical cell whose
    right and upper faces are updated, i.e. the neighbour owning the face is a
    physical cell, or the axis is periodic. *)
Theorem C25_run_keeps_divergence :
  forall m (S : hset R) inb iv n dts s s' i j,
  mready2 m S ->
  execs inb s (msteps2 m S iv n dts) s' ->
  phys2 m i j -> has_right m i -> has_above m j ->
  divB S (extend m (final_field n dts s')) i j = divB S (extend m (field_of (cur n) s)) i j.
Proof.
  intros m S inb iv n dts s s' i j (Hw & Hg & Hn & Hs & Hr) E Hp HR HA.
  pose proof (mrun_refines m S Hw Hg inb iv (mrefines_R m S inb iv Hw Hg Hn Hs Hr) _ _ _ _ E) as A.
  unfold final_field. rewrite (divB_ext m S Hw Hg _ _ i j A Hp). apply mrun_divB; auto.
Qed.
Print Assumptions C25_run_keeps_divergence.

(** Periodic boundaries: every physical cell. *)
Theorem C25_periodic_every_cell :
  forall m (S : hset R) inb iv n dts s s',
  mready2 m S -> periodic_x m -> periodic_y m ->
  execs inb s (msteps2 m S iv n dts) s' ->
  (forall i j, phys2 m i j -> divB S (extend m (field_of (cur n) s)) i j = 0%R) ->
  forall i j, phys2 m i j -> divB S (extend m (final_field n dts s')) i j = 0%R.
Proof.
  intros m S inb iv n dts s s' HR PX PY E H0 i j Hp.
  rewrite (C25_run_keeps_divergence m S inb iv n dts s s') by (unfold has_right, has_above; auto). auto.
Qed.
Print Assumptions C25_periodic_every_cell.

(** On the cells concerned by the first alternative the divergence only involves
    stored physical values. *)
Theorem C25_stored_values :
  forall m (S : hset R) inb iv n dts s s' i j,
  mready2 m S ->
  execs inb s (msteps2 m S iv n dts) s' ->
  phys2 m i j -> phys2 m (i + 1) j -> phys2 m i (j + 1) ->
  divB S (final_field n dts s') i j = divB S (field_of (cur n) s) i j.
Proof.
  intros m S inb iv n dts s s' i j HR E H0 H1 H2.
  assert (X : forall u, divB S u i j = divB S (extend m u) i j)
    by (intros; unfold divB; rewrite !extend_phys by assumption; reflexivity).
  rewrite (X (final_field n dts s')), (X (field_of (cur n) s)). apply (C25_run_keeps_divergence m S inb iv n dts s s'); auto; left; [apply H1|apply H2].
Qed.
Print Assumptions C25_stored_values.

(** A field with divergence 850 in cell (4,4); the upper x face of cell (6,4) is
    the periodic image of the lower x face of cell (3,4). *)
Example C25_case :
  divB (ex_set R_HLLD 1) (fun i j v => if v =? IA then IZR (i * i) else IZR (- j)) 4 4 = 850%R /\
  has_right ex_mhd2 6 /\ ~ physical (nx ex_mhd2) (gw ex_mhd2) 7.
Proof.
  repeat split.
  - unfold divB, ex_set, derive. cbn [dx dy].
    cbv beta iota delta [IA IB Z.eqb Pos.eqb Z.add Z.mul Z.opp Pos.add Pos.succ Pos.mul]. lra.
  - right. split; reflexivity.
  - unfold physical; simpl; lia.
Qed.

(** ** C26 *)
Local Open Scope R_scope.
Theorem C26_flux_consistency :
  forall (S : hset R) q, mhd_sane S -> mhd_adm q ->
  mhd_hll S q q = ideal_flux S q /\
  mhd_llf S q q = ideal_flux S q /\
  (~ switch_on S q -> mhd_hlld S q q = ideal_flux S q).
Proof.
  intros S q HS Ha. split; [apply hll_consistent|split; [apply llf_consistent|intros; apply hlld_consistent]]; auto.
Qed.
Print Assumptions C26_flux_consistency.

Theorem C26_edge_consistency :
  forall (S : hset R) d q, mhd_sane S -> mhd_adm q ->
  compute_emf S d q q q q = ideal_emf d q.
Proof. intros. apply edge_consistent; auto. Qed.
Print Assumptions C26_edge_consistency.

(** The fast speed used by all of them is the largest magnetosonic root. *)
Theorem C26_fast_speed :
  forall (S : hset R) q, mhd_sane S -> mhd_adm q ->
  forall bn c, In (bn, c) [(ma q, fast_x S q); (mb q, fast_y S q); (mc q, fast_z S q)] ->
  0 < c /\ magnetosonic S q bn (c * c) = 0 /\ (forall x, c * c < x -> 0 < magnetosonic S q bn x).
Proof.
  intros S q HS Ha bn c H. destruct (bn_le q) as (B1 & B2 & B3).
  destruct H as [E|[E|[E|[]]]]; inversion E; subst; clear E;
  (split; [apply fast_pos; auto|split; [apply fast_root; auto|apply fast_largest; auto]]).
Qed.
Print Assumptions C26_fast_speed.

Example C26_case : let q := mkms 1 (1/4) 2 (-1) 3 (1/2) 1 (1/3) in
  mhd_adm q /\ ~ switch_on (ex_set R_HLLD 1) q /\ mhd_sane (ex_set R_HLLD 1).
Proof.
  unfold mhd_adm, switch_on, mhd_sane, ex_set, derive. cbn [md mp mu mv mw ma mb mc gamma0 smallr smallc]. Rn.
  repeat split; try lra.
Qed.

Local Close Scope R_scope.

(** In the excluded configuration (field along the axis, Alfven speed at least the
    speed of sound) HLLD divides zero by zero: in binary64, gamma = 2, rho = 1,
    p = 1/4, B = (1,0,0) at rest, every flux component but those of rho, p and
    the normal ones is NaN. *)
Definition mq (a b : Z) : b64 := ndiv (Num := Fnum) (nZ (Num := Fnum) a) (nZ (Num := Fnum) b).
Definition switch_set : hset b64 :=
  derive (H := Fnum) (mq 2 1) (mq 1 10000000000) (mq 1 10000000000) (mq 1 1) (mq 1 2) R_HLLD (mq 1 1) (mq 1 1) (mq 1 1).
Definition switch_state : ms b64 := mkms (mq 1 1) (mq 1 4) (mq 0 1) (mq 0 1) (mq 0 1) (mq 1 1) (mq 0 1) (mq 0 1).

Theorem C26_hlld_switch_on_refuted :
  exists (S : hset b64) (q : ms b64),
  (* an admissible state whose values are exact *)
  Forall (fun x : b64 => x <> S754_nan) [md q; mp q; mu q; mv q; mw q; ma q; mb q; mc q] /\
  nltb (Num := Fnum) (n0 (H := Fnum)) (md q) = true /\ nltb (Num := Fnum) (n0 (H := Fnum)) (mp q) = true /\
  mp (mhd_hlld (H := Fnum) S q q) = S754_nan /\
  mb (mhd_hlld (H := Fnum) S q q) = S754_nan.
Proof.
  exists switch_set, switch_state. repeat split; try (vm_compute; reflexivity).
  repeat constructor; vm_compute; discriminate.
Qed.
Print Assumptions C26_hlld_switch_on_refuted.

(** ** C27 *)
Local Open Scope R_scope.

(** Away from zero speeds the sums of products of flags select exactly the region
    of the documented case analysis. *)
Theorem C27_selection :
  forall SL SR SB ST e, SB <> 0 -> SL <> 0 ->
  select_emf SL SR SB ST e = documented_emf SL SR SB ST e.
Proof. exact select_documented. Qed.
Print Assumptions C27_selection.

(** For all speeds one of the nine regions is selected, a zero speed counting as positive. *)
Theorem C27_selection_all_speeds :
  forall SL SR SB ST e,
  (0 <= SB -> 0 <= SL -> select_emf SL SR SB ST e = e_LL e) /\
  (0 <= SB -> SL < 0 -> SR < 0 -> select_emf SL SR SB ST e = e_RL e) /\
  (0 <= SB -> SL < 0 -> 0 <= SR -> select_emf SL SR SB ST e = e_B e) /\
  (SB < 0 -> ST < 0 -> 0 <= SL -> select_emf SL SR SB ST e = e_LR e) /\
  (SB < 0 -> ST < 0 -> SL < 0 -> SR < 0 -> select_emf SL SR SB ST e = e_RR e) /\
  (SB < 0 -> ST < 0 -> SL < 0 -> 0 <= SR -> select_emf SL SR SB ST e = e_T e) /\
  (SB < 0 -> 0 <= ST -> 0 <= SL -> select_emf SL SR SB ST e = e_L e) /\
  (SB < 0 -> 0 <= ST -> SL < 0 -> SR < 0 -> select_emf SL SR SB ST e = e_R e) /\
  (SB < 0 -> 0 <= ST -> SL < 0 -> 0 <= SR -> select_emf SL SR SB ST e = e_C e).
Proof.
  intros. rewrite !select_spec.
  repeat match goal with |- context [Rlt_dec ?a ?b] => destruct (Rlt_dec a b) end;
  repeat split; intros; try reflexivity; lra.
Qed.
Print Assumptions C27_selection_all_speeds.

Example C27_case : documented_emf (-1) 2 (-3) 4 (mkregions 1 2 3 4 5 6 7 8 9) = 9 /\
  documented_emf (-2) (-1) 3 4 (mkregions 1 2 3 4 5 6 7 8 9) = 2.
Proof.
  unfold documented_emf. cbn [e_LL e_RL e_LR e_RR e_B e_T e_L e_R e_C].
  repeat match goal with |- context [Rlt_dec ?a ?b] => destruct (Rlt_dec a b) end; split; lra.
Qed.

(** A zero speed is treated differently from the documented case analysis. *)
Theorem C27_zero_speed_refuted :
  exists SL SR SB ST e, (SB = 0 \/ SL = 0) /\
  select_emf SL SR SB ST e <> documented_emf SL SR SB ST e.
Proof.
  exists (-1), 1, 0, 1, (mkregions 1 2 3 4 5 6 7 8 9). split; auto.
  rewrite select_spec. unfold documented_emf. cbn [e_LL e_RL e_LR e_RR e_B e_T e_L e_R e_C].
  repeat match goal with |- context [Rlt_dec ?a ?b] => destruct (Rlt_dec a b) end; lra.
Qed.
Print Assumptions C27_zero_speed_refuted.
Local Close Scope R_scope.

(** In binary64 the unselected regions are multiplied by zero, not skipped: one
    infinite value there makes the result NaN although the selected value is 1. *)
Theorem C27_binary64_leak_refuted :
  exists (SL SR SB ST : b64) (e : regions b64),
  nltb (Num := Fnum) (n0 (H := Fnum)) SB = true /\ nltb (Num := Fnum) (n0 (H := Fnum)) SL = true /\
  e_LL e = mq 1 1 /\ select_emf (H := Fnum) SL SR SB ST e = S754_nan.
Proof.
  exists (mq 1 1), (mq 2 1), (mq 1 1), (mq 2 1),
    (mkregions (mq 1 1) (mq 1 1) (mq 1 1) (mq 1 1) (mq 1 1) (mq 1 1) (mq 1 1) (mq 1 1) (mq 1 0)).
  repeat split; vm_compute; reflexivity.
Qed.
Print Assumptions C27_binary64_leak_refuted.

(** ** C29 *)

(** In every cell the scheme converts, under every schedule. *)
Theorem C29_face_average :
  forall m (S : hset R) inb n s s' i j,
  exec inb s (map (mconvert_item2 m S (cur n)) (cells2 m)) s' ->
  0 <= i < isize m - 1 -> 0 <= j < jsize m - 1 ->
  s' (L2 A_Q i j IA) = ((s (L2 (cur n) i j IA) + s (L2 (cur n) (i + 1) j IA)) / 2)%R /\
  s' (L2 A_Q i j IB) = ((s (L2 (cur n) i j IB) + s (L2 (cur n) i (j + 1) IB)) / 2)%R.
Proof.
  intros m S inb n s s' i j E Hi Hj.
  destruct (mconvert_spec m S inb (cur n) s s' (buf_in _ _ (cur_nxt n)) E) as (A & _).
  specialize (A i j Hi Hj).
  split.
  - change (s' (L2 A_Q i j IA)) with (ma (getm s' (L2 A_Q i j))). rewrite A. unfold mQ, prim_mhd. cbn [ma mstate]. Rn. lra.
  - change (s' (L2 A_Q i j IB)) with (mb (getm s' (L2 A_Q i j))). rewrite A. unfold mQ, prim_mhd. cbn [mb mstate]. Rn. lra.
Qed.
Print Assumptions C29_face_average.

(** The out-of-plane component is averaged with zero: the scheme works with half
    the stored field. *)
Theorem C29_out_of_plane_halved_refuted :
  forall m (S : hset R) inb n s s' i j,
  exec inb s (map (mconvert_item2 m S (cur n)) (cells2 m)) s' ->
  0 <= i < isize m - 1 -> 0 <= j < jsize m - 1 ->
  s' (L2 A_Q i j IC) = (s (L2 (cur n) i j IC) / 2)%R.
Proof.
  intros m S inb n s s' i j E Hi Hj.
  destruct (mconvert_spec m S inb (cur n) s s' (buf_in _ _ (cur_nxt n)) E) as (A & _).
  specialize (A i j Hi Hj).
  change (s' (L2 A_Q i j IC)) with (mc (getm s' (L2 A_Q i j))). rewrite A. unfold mQ, prim_mhd. cbn [mc mstate]. Rn. lra.
Qed.
Print Assumptions C29_out_of_plane_halved_refuted.

(** Conversion to primitive variables inverts the definition of the conserved
    ones (above the floors, uniform field) when the field of all three upper
    faces is supplied; *)
Local Open Scope R_scope.
Theorem C29_primitive_round_trip :
  forall (S : hset R) q, mhd_sane S -> smallr S <= md q -> md q * smallp S <= mp q ->
  prim_mhd S (conserved S q) (ma q) (mb q) (mc q) = q.
Proof.
  intros S q (H1 & H2 & H3) Hd Hp. unfold prim_mhd, conserved, mhd_energy, v_sq, b_sq. cbn [md mp mu mv mw ma mb mc]. Rn.
  rewrite (Rmax_left (md q)) by lra.
  match goal with |- context [Rmax ?x (md q * smallp S)] => replace x with (mp q) by (field; lra) end.
  rewrite Rmax_left by lra.
  apply ms_eq; cbn [md mp mu mv mw ma mb mc]; try reflexivity; try (field; lra); lra.
Qed.
Print Assumptions C29_primitive_round_trip.

(** as the 2D solver supplies zero for the third, it loses half of the
    out-of-plane field and turns the missing magnetic energy into pressure. *)
Theorem C29_round_trip_2d_refuted :
  forall (S : hset R) q, mhd_sane S -> smallr S <= md q -> md q * smallp S <= mp q -> mc q <> 0 ->
  let q' := prim_mhd S (conserved S q) (ma q) (mb q) n0 in
  mc q' <> mc q /\ mp q' = mp q + (gamma0 S - 1) * (3 / 8 * (mc q * mc q)).
Proof.
  intros S q (H1 & H2 & H3) Hd Hp Hc q'.
  unfold q', prim_mhd, conserved, mhd_energy, v_sq, b_sq. cbn [md mp mu mv mw ma mb mc]. Rn.
  split; [lra|].
  rewrite (Rmax_left (md q)) by lra.
  match goal with |- context [Rmax ?x (md q * smallp S)] =>
    replace x with (mp q + (gamma0 S - 1) * (3 / 8 * (mc q * mc q))) by (field; lra) end.
  apply Rmax_left. assert (0 < mc q * mc q) by nra. nra.
Qed.
Print Assumptions C29_round_trip_2d_refuted.

Example C29_case : let q := mkms 1 1 2 (-1) 3 (1/2) 1 (1/3) in let S := ex_set R_HLLD 1 in
  mhd_sane S /\ smallr S <= md q /\ md q * smallp S <= mp q /\ mc q <> 0.
Proof.
  unfold mhd_sane, ex_set, derive. cbn [md mp mu mv mw ma mb mc gamma0 smallr smallc smallp]. Rn.
  repeat split; try lra.
Qed.
Local Close Scope R_scope.

(** ** C37 *)
Theorem C37_mhd_translation :
  forall (T : Type) (N : Num T) (O : NumOne T) m (S : hset T) inb n dts a b s1 s1' s2 s2',
  mready2 m S -> periodic_x m -> periodic_y m ->
  msame m (field_of (cur n) s2) (shift2 m a b (field_of (cur n) s1)) ->
  execs inb s1 (msteps2 m S V0 n dts) s1' ->
  execs inb s2 (msteps2 m S V0 n dts) s2' ->
  msame m (final_field n dts s2') (shift2 m a b (final_field n dts s1')).
Proof.
  intros T N O m S inb n dts a b s1 s1' s2 s2' (Hw & Hg & Hn & Hs & Hr) PX PY HU E1 E2.
  pose proof (mrun_refines m S Hw Hg inb V0 (mrefines_V0 m S Hw Hg Hs Hr Hn inb) _ _ _ _ E1) as A.
  pose proof (mrun_refines m S Hw Hg inb V0 (mrefines_V0 m S Hw Hg Hs Hr Hn inb) _ _ _ _ E2) as B.
  intros i j v Hp Hv. unfold final_field. rewrite B by assumption.
  rewrite (mrun_spec_ext m S Hw Hg dts _ (shift2 m a b (field_of (cur n) s1)) HU) by assumption.
  rewrite (mrun_translate m S Hw Hg PX PY) by assumption. symmetry. apply mshift_ext; assumption.
Qed.
Print Assumptions C37_mhd_translation.

Theorem C37_mhd_translation_exact :
  forall m (S : hset R) inb inb' iv iv' n dts a b s1 s1' s2 s2',
  mready2 m S -> periodic_x m -> periodic_y m ->
  msame m (field_of (cur n) s2) (shift2 m a b (field_of (cur n) s1)) ->
  execs inb s1 (msteps2 m S iv n dts) s1' ->
  execs inb' s2 (msteps2 m S iv' n dts) s2' ->
  msame m (final_field n dts s2') (shift2 m a b (final_field n dts s1')).
Proof.
  intros m S inb inb' iv iv' n dts a b s1 s1' s2 s2' (Hw & Hg & Hn & Hs & Hr) PX PY HU E1 E2.
  pose proof (mrun_refines m S Hw Hg inb iv (mrefines_R m S inb iv Hw Hg Hn Hs Hr) _ _ _ _ E1) as A.
  pose proof (mrun_refines m S Hw Hg inb' iv' (mrefines_R m S inb' iv' Hw Hg Hn Hs Hr) _ _ _ _ E2) as B.
  intros i j v Hp Hv. unfold final_field. rewrite B by assumption.
  rewrite (mrun_spec_ext m S Hw Hg dts _ (shift2 m a b (field_of (cur n) s1)) HU) by assumption.
  rewrite (mrun_translate m S Hw Hg PX PY) by assumption. symmetry. apply mshift_ext; assumption.
Qed.
Print Assumptions C37_mhd_translation_exact.

(** ** C45 *)

(** One step: the new value of a physical cell is determined by the cells from two
    below to three above (ghost cells standing for their physical images). *)
Theorem C45_three_cells_per_mhd_step :
  forall (T : Type) (N : Num T) (O : NumOne T) m (S : hset T) dt inb n s1 s1' s2 s2' i j v,
  mready2 m S -> phys2 m i j -> 0 <= v < 8 ->
  (forall a b w, i - 2 <= a <= i + 3 -> j - 2 <= b <= j + 3 -> 0 <= w < 8 ->
     s1 (L2 (cur n) (image_x m a) (image_y m b) w) = s2 (L2 (cur n) (image_x m a) (image_y m b) w)) ->
  execs inb s1 (mgodunov2 m S dt V0 (cur n) (nxt n)) s1' ->
  execs inb s2 (mgodunov2 m S dt V0 (cur n) (nxt n)) s2' ->
  s1' (L2 (nxt n) i j v) = s2' (L2 (nxt n) i j v).
Proof.
  intros T N O m S dt inb n s1 s1' s2 s2' i j v (Hw & Hg & Hn & Hs & Hr) Hp Hv HU E1 E2.
  pose proof (mrefines_V0 m S Hw Hg Hs Hr Hn inb dt n s1 s1' E1) as A.
  pose proof (mrefines_V0 m S Hw Hg Hs Hr Hn inb dt n s2 s2' E2) as B.
  specialize (A i j v Hp Hv). specialize (B i j v Hp Hv). unfold field_of at 1 in A. unfold field_of at 1 in B.
  rewrite A, B. apply mstep2_stencil; [|assumption].
  intros a b w Ha Hbb Hw'. unfold extend, field_of. rewrite HU by assumption. reflexivity.
Qed.
Print Assumptions C45_three_cells_per_mhd_step.

(** Three cells per step over a whole run. *)
Theorem C45_mhd_domain_of_dependence :
  forall (T : Type) (N : Num T) (O : NumOne T) m (S : hset T) inb dts n s1 s1' s2 s2' i j v,
  let r := 3 * Z.of_nat (length dts) in
  mready2 m S -> 0 <= v < 8 ->
  physical (nx m) (gw m) (i - r) -> physical (nx m) (gw m) (i + r) ->
  physical (ny m) (gw m) (j - r) -> physical (ny m) (gw m) (j + r) ->
  (forall a b w, i - r <= a <= i + r -> j - r <= b <= j + r -> 0 <= w < 8 ->
     s1 (L2 (cur n) a b w) = s2 (L2 (cur n) a b w)) ->
  execs inb s1 (msteps2 m S V0 n dts) s1' ->
  execs inb s2 (msteps2 m S V0 n dts) s2' ->
  final_field n dts s1' i j v = final_field n dts s2' i j v.
Proof.
  intros T N O m S inb dts n s1 s1' s2 s2' i j v r (Hw & Hg & Hn & Hs & Hr) Hv Hi1 Hi2 Hj1 Hj2 HU E1 E2.
  pose proof (mrun_refines m S Hw Hg inb V0 (mrefines_V0 m S Hw Hg Hs Hr Hn inb) _ _ _ _ E1) as A.
  pose proof (mrun_refines m S Hw Hg inb V0 (mrefines_V0 m S Hw Hg Hs Hr Hn inb) _ _ _ _ E2) as B.
  assert (Hp : phys2 m i j) by (unfold phys2, physical, r in *; lia).
  unfold final_field. rewrite A, B by assumption. clear A B E1 E2.
  set (u1 := field_of (cur n) s1) in *. set (u2 := field_of (cur n) s2) in *.
  assert (HU' : forall a b w, i - r <= a <= i + r -> j - r <= b <= j + r -> 0 <= w < 8 -> u1 a b w = u2 a b w)
    by (intros; apply HU; assumption).
  clearbody u1 u2. clear HU s1 s2 s1' s2'.
  assert (Gen : forall dts u1 u2 r k, r = 3 * Z.of_nat (length dts) -> 0 <= k ->
    physical (nx m) (gw m) (i - r - k) -> physical (nx m) (gw m) (i + r + k) ->
    physical (ny m) (gw m) (j - r - k) -> physical (ny m) (gw m) (j + r + k) ->
    (forall a b w, i - r - k <= a <= i + r + k -> j - r - k <= b <= j + r + k -> 0 <= w < 8 -> u1 a b w = u2 a b w) ->
    forall a b w, i - k <= a <= i + k -> j - k <= b <= j + k -> 0 <= w < 8 ->
    mrun_spec m S dts u1 a b w = mrun_spec m S dts u2 a b w).
  { clear dts r Hi1 Hi2 Hj1 Hj2 HU' u1 u2.
    induction dts as [|dt dts IH]; intros u1 u2 r k Er Hk P1 P2 P3 P4 HE a b w Ha Hb' Hw'; cbn [mrun_spec].
    - simpl in Er. apply HE; lia.
    - simpl length in Er. unfold physical in *.
      apply (IH _ _ (r - 3) k); try lia.
      intros a' b' w' Ha' Hb'' Hw''. apply mstep2_stencil; [|assumption].
      intros i' j' v' Hi' Hj' Hv'. unfold extend.
      assert (EX : image_x m i' = i') by (unfold image_x; apply image_id; unfold physical; lia).
      assert (EY : image_y m j' = j') by (unfold image_y; apply image_id; unfold physical; lia).
      rewrite EX, EY. rewrite HE by lia. reflexivity. }
  apply (Gen dts u1 u2 r 0); try reflexivity; try lia; try (rewrite Z.sub_0_r; assumption); try (rewrite Z.add_0_r; assumption).
  intros. apply HU'; lia.
Qed.
Print Assumptions C45_mhd_domain_of_dependence.

(** A 13 x 13 mesh: the centre cell, two steps. *)
Example C45_case : physical 13 3 (9 - 3 * Z.of_nat 2) /\ physical 13 3 (9 + 3 * Z.of_nat 2).
Proof. unfold physical. simpl. lia. Qed.
