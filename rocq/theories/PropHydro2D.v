(** * Properties of the 2D hydrodynamics solver *)
From Coq Require Import String ZArith List Bool Lia ZifyBool Permutation Reals Lra.
Import ListNotations.
From Verif Require Import Num Exec ExecFacts Grid GridFacts Boundaries BoundariesSpec
  BoundariesFacts BoundariesFill BoundariesNarrow HydroNum Kernels KernelFacts Atomics
  Hydro2D Hydro2DSpec Hydro2DFacts Hydro2DStep Determ Hydro2DRun EulerSpec HydroPhysics
  HydroRiemann PropPhysics Sums Hydro2DLaws Binary64 Doomed.
Local Open Scope Z_scope.

(** A mesh and settings the solver is meant for: at least two ghost layers, 4
    variables, as many physical cells as the boundary types need, a documented
    slope type and a hydro Riemann solver. *)
Definition ready2 {T} {N : Num T} (m : mesh) (S : hset T) : Prop :=
  wide2 m /\ 2 <= gw m /\ nbvar m = 4 /\ slope_ok S /\ solver_ok2 S.

(** Final state of a run of [dts] steps started at iteration [n] in [s]. *)
Definition final_field {T} (n : nat) (dts : list T) (s : store T) : field2 T :=
  field_of (cur (n + length dts)) s.

(** Example configuration: 4 x 3 cells, periodic in x, walls in y, no gravity. *)
Definition ex_mesh2 : mesh :=
  mkmesh 4 3 1 2 4 false (fun f => match f with YMIN | YMAX => 1 | _ => 3 end).
Definition ex_periodic2 : mesh := mkmesh 4 3 1 2 4 false (fun _ => 3).
Definition ex_box2 : mesh := mkmesh 4 3 1 2 4 false (fun _ => 1).
Definition no_gravity : gravp := mkgravp false false.

Example ex_ready2 : forall rs m, rs <> R_HLLD -> In m [ex_mesh2; ex_periodic2; ex_box2] ->
  ready2 m (ex_set rs 1).
Proof.
  intros rs m Hr Hm. unfold ready2.
  repeat apply conj; try (destruct Hm as [<-|[<-|[<-|[]]]]; simpl; lia); auto.
  - unfold slope_ok, neqb, ex_set, derive; simpl.
    repeat destruct (Rle_dec _ _); simpl; try lra; auto.
Qed.

Example ex_closed2 : closed_x ex_box2 /\ closed_y ex_box2 /\ closed_x ex_mesh2 /\ closed_y ex_mesh2.
Proof. unfold closed_x, closed_y, periodic_x, periodic_y; cbn. tauto. Qed.

(** ** C01 *)

(** Any number of steps of versions 0 and 1: all schedules give the same arrays. *)
Theorem C01_same_arrays_under_every_schedule :
  forall (T : Type) (N : Num T) (O : NumOne T) m (S : hset T) g inb iv n dts s s1 s2,
  ready2 m S -> iv = V0 \/ iv = V1 ->
  execs inb s (steps2 m S g iv n dts) s1 ->
  execs inb s (steps2 m S g iv n dts) s2 ->
  forall l, s1 l = s2 l.
Proof.
  intros T N O m S g inb iv n dts s s1 s2 (Hw & Hg & Hn & Hs & Hr) Hiv.
  enough (D : forall n, deterministic inb (steps2 m S g iv n dts)).
  { intros H1 H2. exact (D n s s s1 s2 (fun l => eq_refl) H1 H2). }
  clear n s s1 s2. induction dts as [|dt dts IH]; intros n; cbn [steps2].
  - apply det_nil.
  - apply det_app; auto. apply godunov2_det; auto using cur_nxt.
Qed.
Print Assumptions C01_same_arrays_under_every_schedule.

(** ** C02 *)

(** No schedule of any number of steps reaches an access outside the views
    allocated by the constructor or the use of an uninitialised value; and the
    steps do complete. *)
Theorem C02_steps_in_bounds :
  forall (T : Type) (N : Num T) m (S : hset T) g iv n dts s,
  ready2 m S ->
  safes (alloc2d m (nv2 m g iv)) s (steps2 m S g iv n dts) /\
  exists s', execs (alloc2d m (nv2 m g iv)) s (steps2 m S g iv n dts) s'.
Proof.
  intros T N m S g iv n dts s (Hw & Hg & Hn & Hs & Hr).
  enough (F : forall n, Forall (Forall (in_foot (alloc2d m (nv2 m g iv)))) (steps2 m S g iv n dts)).
  { split; [apply in_foot_safes|apply in_foot_execs]; auto. }
  clear n s. induction dts as [|dt dts IH]; intros n; cbn [steps2]; [constructor|].
  apply Forall_app. split; auto. apply godunov2_in_foot; auto using cur_nxt.
Qed.
Print Assumptions C02_steps_in_bounds.

(** The bounds matter: the extents are those of the constructor, e.g. version 2
    has no flux array. *)
Example C02_case : alloc2d ex_mesh2 (nv2 ex_mesh2 no_gravity V2) (L2 A_Fx 2 2 ID) = false /\
  alloc2d ex_mesh2 (nv2 ex_mesh2 no_gravity V0) (L2 A_Fx 7 6 IV) = true /\
  alloc2d ex_mesh2 (nv2 ex_mesh2 no_gravity V0) (L2 A_Fx 8 6 IV) = false.
Proof. repeat split. Qed.

(** ** C11 *)
Theorem C11_versions_0_and_1_bit_identical :
  forall (T : Type) (N : Num T) (O : NumOne T) m (S : hset T) g inb0 inb1 n dts s s0 s1,
  ready2 m S ->
  execs inb0 s (steps2 m S g V0 n dts) s0 ->
  execs inb1 s (steps2 m S g V1 n dts) s1 ->
  same_phys m (final_field n dts s0) (final_field n dts s1).
Proof.
  intros T N O m S g inb0 inb1 n dts s s0 s1 (Hw & Hg & Hn & Hs & Hr) E0 E1 i j v Hp Hv.
  destruct (run_refines m S g Hw Hg inb0 V0 (refines_V01 m S g Hw Hg Hs Hr Hn inb0 V0 (or_introl eq_refl)) _ _ _ _ E0) as [A _].
  destruct (run_refines m S g Hw Hg inb1 V1 (refines_V01 m S g Hw Hg Hs Hr Hn inb1 V1 (or_intror eq_refl)) _ _ _ _ E1) as [B _].
  unfold final_field. rewrite A, B by auto. reflexivity.
Qed.
Print Assumptions C11_versions_0_and_1_bit_identical.

Theorem C11_all_versions_exact :
  forall m (S : hset R) g inb inb' iv iv' n dts s s1 s2,
  ready2 m S ->
  execs inb s (steps2 m S g iv n dts) s1 ->
  execs inb' s (steps2 m S g iv' n dts) s2 ->
  same_phys m (final_field n dts s1) (final_field n dts s2).
Proof.
  intros m S g inb inb' iv iv' n dts s s1 s2 (Hw & Hg & Hn & Hs & Hr) E0 E1 i j v Hp Hv.
  destruct (run_refines m S g Hw Hg inb iv (refines_R m S g inb iv Hw Hg Hn Hs Hr) _ _ _ _ E0) as [A _].
  destruct (run_refines m S g Hw Hg inb' iv' (refines_R m S g inb' iv' Hw Hg Hn Hs Hr) _ _ _ _ E1) as [B _].
  unfold final_field. rewrite A, B by auto. reflexivity.
Qed.
Print Assumptions C11_all_versions_exact.

(** ** C12 *)

(** Whatever the arithmetic and the schedule of the atomic kernel, every
    physical cell receives each of its four face fluxes exactly once, in some
    order. *)
Theorem C12_each_flux_once :
  forall (T : Type) (N : Num T) (O : NumOne T) m (S : hset T) inb dt n s s',
  ready2 m S ->
  execs inb s (godunov2 m S no_gravity dt V2 (cur n) (nxt n)) s' ->
  forall i j v, phys2 m i j -> 0 <= v < 4 ->
  adv2_any_order S no_gravity dt (filled2 m (cur n) s) (field_of A_G s) i j v (s' (L2 (nxt n) i j v)).
Proof.
  intros T N O m S inb dt n s s' (Hw & Hg & Hn & Hs & Hr) E i j v Hp Hv.
  destruct (step_V2 m S no_gravity dt inb Hs Hr Hw Hg Hn _ _ (cur_nxt n) s s' E) as (W & A & B & _).
  rewrite B by auto. apply A; auto.
Qed.
Print Assumptions C12_each_flux_once.

(** In exact arithmetic the schedule does not matter. *)
Theorem C12_schedule_independent_exact :
  forall m (S : hset R) g inb n dts s s1 s2,
  ready2 m S ->
  execs inb s (steps2 m S g V2 n dts) s1 ->
  execs inb s (steps2 m S g V2 n dts) s2 ->
  same_phys m (final_field n dts s1) (final_field n dts s2).
Proof. intros. eapply C11_all_versions_exact; eauto. Qed.
Print Assumptions C12_schedule_independent_exact.

(** In binary64 arithmetic it does: one cell, uniform flow (rho = u = 1,
    p = 2/5), HLLC, dt/dx = 2/3.  Adding the left flux first gives
    (1 + 2/3) - 2/3, subtracting the right flux first gives (1 - 2/3) + 2/3. *)
Module Witness.
Definition q (a b : Z) : b64 := ndiv (Num := Fnum) (nZ (Num := Fnum) a) (nZ (Num := Fnum) b).
Definition S : hset b64 :=
  derive (H := Fnum) (q 7 5) (q 1 10000000000) (q 1 10000000000) (q 1 1) (q 1 2) R_HLLC (q 3 1) (q 3 1) (q 3 1).
Definition m : mesh := mkmesh 1 1 1 2 4 false (fun _ => 2).
Definition dt : b64 := q 2 1.
Definition s0 : store b64 := fun l =>
  if lv l =? IP then q 3 2 else if lv l =? IV then q 0 1 else q 1 1.
Definition pre : list (list (prog b64)) :=
  make_boundaries2d (H := Fnum) m A_U ++ [deep_copy2 m A_U2 A_U; map (convert_item2 (H := Fnum) m S A_U) (cells2 m)].
Definition s1 : store b64 := fold_left (fun s K => run_list K s) pre s0.
Definition K : list (prog b64) := map (all_fluxes_item2 (H := Fnum) m S no_gravity dt A_U2) (cells2 m).

Lemma ready : ready2 (N := Fnum) m S.
Proof.
  unfold ready2. repeat apply conj; try (simpl; lia); try (left; reflexivity);
  try reflexivity; discriminate.
Qed.

Lemma seq_execs inb Ks : forall s, Forall (Forall (in_foot inb)) Ks ->
  execs inb s Ks (fold_left (fun s K => run_list K s) Ks s : store b64).
Proof.
  induction Ks as [|K Ks IH]; intros s HF; simpl; [constructor|]. inversion HF; subst.
  econstructor; [apply exec_seq; auto|apply IH; auto].
Qed.

Lemma two_orders :
  let inb := alloc2d m (nv2 m no_gravity V2) in
  execs inb s0 (godunov2 (H := Fnum) m S no_gravity dt V2 A_U A_U2) (run_list K s1) /\
  execs inb s0 (godunov2 (H := Fnum) m S no_gravity dt V2 A_U A_U2) (run_list (rev K) s1).
Proof.
  destruct ready as (Hw & Hg & Hn & Hs & Hr). intros inb.
  pose proof (godunov2_in_foot (N := Fnum) m S no_gravity dt Hs Hr Hw Hg Hn A_U A_U2
                (or_introl (conj eq_refl eq_refl)) V2 Hs) as HF.
  assert (E : godunov2 (H := Fnum) m S no_gravity dt V2 A_U A_U2 = pre ++ [K]).
  { unfold godunov2, godunov2_body, pre. cbn [g_enabled no_gravity scheme2]. rewrite app_nil_r, app_assoc. reflexivity. }
  rewrite E in *. apply Forall_app in HF. destruct HF as [HF1 HF2]. inversion HF2; subst.
  split; apply execs_app; exists s1; (split; [apply seq_execs; exact HF1|]).
  - econstructor; [|constructor]. apply exec_seq. assumption.
  - econstructor; [|constructor]. apply exec_any_order; [apply Permutation_rev|assumption].
Qed.
End Witness.

Theorem C12_schedule_dependent_binary64_refuted :
  exists (m : mesh) (S : hset b64) (dt : b64) (s s1 s2 : store b64),
  ready2 (N := Fnum) m S /\
  let Ks := godunov2 (H := Fnum) m S no_gravity dt V2 A_U A_U2 in
  let inb := alloc2d m (nv2 m no_gravity V2) in
  execs inb s Ks s1 /\ execs inb s Ks s2 /\
  exists i j, phys2 m i j /\ s1 (L2 A_U2 i j ID) <> s2 (L2 A_U2 i j ID).
Proof.
  exists Witness.m, Witness.S, Witness.dt, Witness.s0,
    (run_list Witness.K Witness.s1), (run_list (rev Witness.K) Witness.s1).
  split; [exact Witness.ready|]. destruct Witness.two_orders as [H1 H2].
  split; [exact H1|]. split; [exact H2|].
  exists 2, 2. split; [unfold phys2, physical; simpl; lia|].
  vm_compute. congruence.
Qed.
Print Assumptions C12_schedule_dependent_binary64_refuted.

(** ** C09 *)

(** Totals of density, energy and momenta over the physical cells. *)
Theorem C09_conservation_periodic :
  forall m (S : hset R) g inb iv n dts s s' v,
  ready2 m S -> periodic_x m -> periodic_y m -> g_enabled g = false ->
  execs inb s (steps2 m S g iv n dts) s' -> 0 <= v < 4 ->
  total2 m (final_field n dts s') v = total2 m (field_of (cur n) s) v.
Proof.
  intros m S g inb iv n dts s s' v (Hw & Hg & Hn & Hs & Hr) PX PY HG E Hv.
  destruct (run_refines m S g Hw Hg inb iv (refines_R m S g inb iv Hw Hg Hn Hs Hr) _ _ _ _ E) as [A _].
  unfold final_field. rewrite (total2_ext m _ _ v Hv A). apply conserve_periodic_run; auto.
Qed.
Print Assumptions C09_conservation_periodic.

Example C09_case : periodic_x ex_periodic2 /\ periodic_y ex_periodic2 /\
  total2 ex_periodic2 (fun i j _ => if (i =? 3) && (j =? 4) then 5%R else 1%R) ID = 16%R.
Proof.
  split; [|split]; [split; reflexivity|split; reflexivity|].
  unfold total2, sumz. change (Z.to_nat (nx ex_periodic2)) with 4%nat.
  change (Z.to_nat (ny ex_periodic2)) with 3%nat. cbn [sumn gw ex_periodic2].
  cbv beta iota delta [Z.eqb Z.add Pos.eqb Pos.add Pos.succ andb]. lra.
Qed.

(** ** C10 *)

(** A box whose axes are periodic or closed by two walls keeps mass and energy. *)
Theorem C10_closed_box :
  forall m (S : hset R) g inb iv n dts s s' v,
  ready2 m S -> sane S -> closed_x m -> closed_y m -> g_enabled g = false ->
  solver S <> R_APPROX ->
  execs inb s (steps2 m S g iv n dts) s' -> v = ID \/ v = IE ->
  total2 m (final_field n dts s') v = total2 m (field_of (cur n) s) v.
Proof.
  intros m S g inb iv n dts s s' v (Hw & Hg & Hn & Hs & Hr) HS PX PY HG HA E Hv.
  destruct (run_refines m S g Hw Hg inb iv (refines_R m S g inb iv Hw Hg Hn Hs Hr) _ _ _ _ E) as [A _].
  assert (Hv' : 0 <= v < 4) by (unfold ID, IE in Hv; lia).
  unfold final_field. rewrite (total2_ext m _ _ v Hv' A).
  apply conserve_closed_run; auto. apply calm_run_no_approx; auto.
Qed.
Print Assumptions C10_closed_box.

(** With the two-shock solver the same holds as long as the flow onto each wall
    has a Mach number of at most 200000 / (gamma + 1).  Missing: faster flow onto
    a wall, where the claim fails (PropTwoShock.v, [C10_any_speed_refuted]). *)
Theorem C10_closed_box_two_shock_partial :
  forall m (S : hset R) g inb iv n dts s s' v,
  ready2 m S -> sane S -> closed_x m -> closed_y m -> g_enabled g = false ->
  calm_run m S g (field_of A_G s) dts (field_of (cur n) s) ->
  execs inb s (steps2 m S g iv n dts) s' -> v = ID \/ v = IE ->
  total2 m (final_field n dts s') v = total2 m (field_of (cur n) s) v.
Proof.
  intros m S g inb iv n dts s s' v (Hw & Hg & Hn & Hs & Hr) HS PX PY HG HA E Hv.
  destruct (run_refines m S g Hw Hg inb iv (refines_R m S g inb iv Hw Hg Hn Hs Hr) _ _ _ _ E) as [A _].
  assert (Hv' : 0 <= v < 4) by (unfold ID, IE in Hv; lia).
  unfold final_field. rewrite (total2_ext m _ _ v Hv' A).
  apply conserve_closed_run; auto.
Qed.
Print Assumptions C10_closed_box_two_shock_partial.

(** The flux through a wall itself: mass and energy vanish. *)
Theorem C10_wall_flux :
  forall m (S : hset R) g dt u G,
  ready2 m S -> sane S -> g_enabled g = false -> solver S <> R_APPROX ->
  let Q := Qf S (extend m u) in
  (forall j v, physical (ny m) (gw m) j -> v = ID \/ v = IE ->
     (kind_of (bc m XMIN) = Reflecting -> FX S g dt Q G (gw m) j v = 0%R) /\
     (kind_of (bc m XMAX) = Reflecting -> FX S g dt Q G (gw m + nx m) j v = 0%R)) /\
  (forall i v, physical (nx m) (gw m) i -> v = ID \/ v = IE ->
     (kind_of (bc m YMIN) = Reflecting -> FY S g dt Q G i (gw m) v = 0%R) /\
     (kind_of (bc m YMAX) = Reflecting -> FY S g dt Q G i (gw m + ny m) v = 0%R)).
Proof.
  intros m S g dt u G (Hw & Hg & Hn & Hs & Hr) HS HG HA Q.
  destruct (wall_fluxes m S g Hw Hg HG HS Hs Hr dt u G (calm_no_approx m S g dt u G HA)) as [X Y].
  split; [intros j v Hj Hv; apply X|intros i v Hi Hv; apply Y]; auto; change IP with IE; tauto.
Qed.
Print Assumptions C10_wall_flux.

(** ** C23 *)
Theorem C23_uniform_state_fixed :
  forall m (S : hset R) g inb iv n dts s s' (c : Z -> R),
  ready2 m S -> g_enabled g = false ->
  (forall f, kind_of (bc m f) <> Reflecting) ->
  (forall i j v, phys2 m i j -> 0 <= v < 4 -> s (L2 (cur n) i j v) = c v) ->
  execs inb s (steps2 m S g iv n dts) s' ->
  forall i j v, phys2 m i j -> 0 <= v < 4 -> s' (L2 (cur (n + length dts)) i j v) = c v.
Proof.
  intros m S g inb iv n dts s s' c (Hw & Hg & Hn & Hs & Hr) HG HO HU E i j v Hp Hv.
  destruct (run_refines m S g Hw Hg inb iv (refines_R m S g inb iv Hw Hg Hn Hs Hr) _ _ _ _ E) as [A _].
  change (final_field n dts s' i j v = c v). unfold final_field. rewrite A by auto.
  apply (run_uniform m S g); auto.
Qed.
Print Assumptions C23_uniform_state_fixed.

Example C23_case : forall f, kind_of (bc ex_periodic2 f) <> Reflecting.
Proof. intros f. cbn. discriminate. Qed.

(** ** C24 *)
Local Open Scope R_scope.
Theorem C24_gravity_source :
  forall m (S : hset R) dt inb n s s',
  (0 < gw m)%Z -> 0 < smallr S ->
  exec inb s (map (gravity_item2 m S dt (cur n) (nxt n)) (cells2 m)) s' ->
  (* physical cells whose new density is not below the floor *)
  (forall i j, phys2 m i j -> smallr S <= s (L2 (nxt n) i j ID) ->
     let W v := s (L2 (nxt n) i j v) in let W' v := s' (L2 (nxt n) i j v) in
     let mean := (s (L2 (cur n) i j ID) + W ID) / 2 in
     let kin X := (X IU * X IU + X IV * X IV) / (2 * X ID) in
     W' IU = W IU + dt * mean * s (L2 A_G i j IX) /\
     W' IV = W IV + dt * mean * s (L2 A_G i j IY) /\
     W' ID = W ID /\
     W' IE - kin W' = W IE - kin W) /\
  (* nothing else changes *)
  (forall i j v, cell2 m i j -> ~ phys2 m i j -> s' (L2 (nxt n) i j v) = s (L2 (nxt n) i j v)) /\
  (forall l, la l <> nxt n -> s' l = s l).
Proof.
  intros m S dt inb n s s' Hg Hr E.
  destruct (gravity_spec m S dt inb _ _ _ _ (cur_nxt n) E) as (A & B & C).
  split; [|split; [exact B|exact C]].
  intros i j Hp Hd W W' mean kin.
  assert (HW : forall v, (0 <= v < 4)%Z -> W' v = grav_source S dt (fun i j v => s (L2 (cur n) i j v))
      (field_of A_G s) (fun i j v => s (L2 (nxt n) i j v)) i j v) by (intros; apply A; auto).
  unfold kin. rewrite !HW by (unfold ID, IU, IV, IE; lia). unfold grav_source, mean.
  assert (M : nmax (smallr S) (s (L2 (nxt n) i j ID)) = s (L2 (nxt n) i j ID)).
  { cbn. apply Rmax_right. exact Hd. }
  rewrite !M. unfold IU, IV, IE, ID in *. cbv beta iota zeta delta [Z.eqb Pos.eqb].
  unfold W, field_of. Rn. unfold ID, IX, IY, IU, IV, IE in *.
  repeat split; try lra; field; lra.
Qed.
Print Assumptions C24_gravity_source.
Local Open Scope Z_scope.

(** ** C37 *)

(** [s2] holds the state and acceleration of [s1] cyclically shifted by (a,b). *)
Theorem C37_translation :
  forall (T : Type) (N : Num T) (O : NumOne T) m (S : hset T) g inb iv n dts a b s1 s1' s2 s2',
  ready2 m S -> periodic_x m -> periodic_y m -> iv = V0 \/ iv = V1 ->
  periodic_G m (field_of A_G s1) ->
  (forall i j v, field_of A_G s2 i j v = shift2 m a b (field_of A_G s1) i j v) ->
  same_phys m (field_of (cur n) s2) (shift2 m a b (field_of (cur n) s1)) ->
  execs inb s1 (steps2 m S g iv n dts) s1' ->
  execs inb s2 (steps2 m S g iv n dts) s2' ->
  same_phys m (final_field n dts s2') (shift2 m a b (final_field n dts s1')).
Proof.
  intros T N O m S g inb iv n dts a b s1 s1' s2 s2' (Hw & Hg & Hn & Hs & Hr) PX PY Hiv HG HG2 HU E1 E2.
  destruct (run_refines m S g Hw Hg inb iv (refines_V01 m S g Hw Hg Hs Hr Hn inb iv Hiv) _ _ _ _ E1) as [A _].
  destruct (run_refines m S g Hw Hg inb iv (refines_V01 m S g Hw Hg Hs Hr Hn inb iv Hiv) _ _ _ _ E2) as [B _].
  intros i j v Hp Hv. unfold final_field. rewrite B by auto.
  rewrite (run_spec_ext m S g Hw Hg dts _ (shift2 m a b (field_of (cur n) s1)) _ (shift2 m a b (field_of A_G s1))); auto.
  rewrite run_translate by auto. symmetry. apply shift_ext; auto.
Qed.
Print Assumptions C37_translation.

(** What the shift means on the example mesh: cell (5,4) receives (3,3). *)
Example C37_case : forall (u : field2 Z) v, shift2 ex_periodic2 2 (-1) u 5 4 v = u 3 3 v.
Proof. reflexivity. Qed.

(** ** C38 *)
Theorem C38_axis_exchange :
  forall m (S : hset R) g inb inb' iv iv' n dts s1 s1' s2 s2',
  ready2 m S ->
  (forall i j v, field_of A_G s2 i j v = swap_g (field_of A_G s1) i j v) ->
  same_phys (swap_mesh m) (field_of (cur n) s2) (transpose (field_of (cur n) s1)) ->
  execs inb s1 (steps2 m S g iv n dts) s1' ->
  execs inb' s2 (steps2 (swap_mesh m) (swap_set S) g iv' n dts) s2' ->
  same_phys (swap_mesh m) (final_field n dts s2') (transpose (final_field n dts s1')).
Proof.
  intros m S g inb inb' iv iv' n dts s1 s1' s2 s2' (Hw & Hg & Hn & Hs & Hr) HG HU E1 E2.
  destruct (run_refines m S g Hw Hg inb iv (refines_R m S g inb iv Hw Hg Hn Hs Hr) _ _ _ _ E1) as [A _].
  destruct (run_refines (swap_mesh m) (swap_set S) g (wide2_swap m Hw) Hg inb' iv'
    (refines_R (swap_mesh m) (swap_set S) g inb' iv' (wide2_swap m Hw) Hg Hn Hs Hr) _ _ _ _ E2) as [B _].
  intros i j v Hp Hv. unfold final_field. rewrite B by auto.
  rewrite (run_spec_ext (swap_mesh m) (swap_set S) g (wide2_swap m Hw) Hg dts _ (transpose (field_of (cur n) s1)) _ (swap_g (field_of A_G s1))); auto.
  rewrite run_transpose by auto. unfold transpose. symmetry. apply A.
  - destruct Hp as [H1 H2]. split; [exact H2|exact H1].
  - apply swap_var_range. auto.
Qed.
Print Assumptions C38_axis_exchange.

Example C38_case : nx (swap_mesh ex_mesh2) = 3 /\ bc (swap_mesh ex_mesh2) XMIN = 1 /\
  bc (swap_mesh ex_mesh2) YMAX = 3 /\ swap_var IU = IV /\ swap_var ID = ID.
Proof. repeat split. Qed.

(** ** C39 *)

(** One step: the new value of a physical cell is determined by the cells at
    most two away (ghost cells standing for their physical images). *)
Theorem C39_two_cells_per_step :
  forall (T : Type) (N : Num T) (O : NumOne T) m (S : hset T) g dt inb iv n s1 s1' s2 s2' i j v,
  ready2 m S -> iv = V0 \/ iv = V1 -> phys2 m i j -> 0 <= v < 4 ->
  (forall a b w, i - 2 <= a <= i + 2 -> j - 2 <= b <= j + 2 -> 0 <= w < 4 ->
     s1 (L2 (cur n) (image_x m a) (image_y m b) w) = s2 (L2 (cur n) (image_x m a) (image_y m b) w)) ->
  (forall a b w, i - 1 <= a <= i + 1 -> j - 1 <= b <= j + 1 -> s1 (L2 A_G a b w) = s2 (L2 A_G a b w)) ->
  execs inb s1 (godunov2 m S g dt iv (cur n) (nxt n)) s1' ->
  execs inb s2 (godunov2 m S g dt iv (cur n) (nxt n)) s2' ->
  s1' (L2 (nxt n) i j v) = s2' (L2 (nxt n) i j v).
Proof.
  intros T N O m S g dt inb iv n s1 s1' s2 s2' i j v (Hw & Hg & Hn & Hs & Hr) Hiv Hp Hv HU HG E1 E2.
  destruct (refines_V01 m S g Hw Hg Hs Hr Hn inb iv Hiv dt n s1 s1' E1) as [A _].
  destruct (refines_V01 m S g Hw Hg Hs Hr Hn inb iv Hiv dt n s2 s2' E2) as [B _].
  specialize (A i j v Hp Hv). specialize (B i j v Hp Hv). unfold field_of at 1 in A. unfold field_of at 1 in B.
  rewrite A, B. apply step2_stencil; auto.
  intros a b w Ha Hbb Hw'. unfold extend, field_of. rewrite HU by auto. reflexivity.
Qed.
Print Assumptions C39_two_cells_per_step.

(** Two cells per step over a whole run: after [length dts] steps a cell that is
    at least twice that far from every border depends only on the cells at most
    [2 * length dts] away. *)
Theorem C39_domain_of_dependence :
  forall (T : Type) (N : Num T) (O : NumOne T) m (S : hset T) g inb iv dts n s1 s1' s2 s2' i j v,
  let r := 2 * Z.of_nat (length dts) in
  ready2 m S -> iv = V0 \/ iv = V1 -> 0 <= v < 4 ->
  physical (nx m) (gw m) (i - r) -> physical (nx m) (gw m) (i + r) ->
  physical (ny m) (gw m) (j - r) -> physical (ny m) (gw m) (j + r) ->
  (forall a b w, i - r <= a <= i + r -> j - r <= b <= j + r -> 0 <= w < 4 ->
     s1 (L2 (cur n) a b w) = s2 (L2 (cur n) a b w)) ->
  (forall a b w, s1 (L2 A_G a b w) = s2 (L2 A_G a b w)) ->
  execs inb s1 (steps2 m S g iv n dts) s1' ->
  execs inb s2 (steps2 m S g iv n dts) s2' ->
  final_field n dts s1' i j v = final_field n dts s2' i j v.
Proof.
  intros T N O m S g inb iv dts n s1 s1' s2 s2' i j v r (Hw & Hg & Hn & Hs & Hr) Hiv Hv Hi1 Hi2 Hj1 Hj2 HU HG E1 E2.
  destruct (run_refines m S g Hw Hg inb iv (refines_V01 m S g Hw Hg Hs Hr Hn inb iv Hiv) _ _ _ _ E1) as [A _].
  destruct (run_refines m S g Hw Hg inb iv (refines_V01 m S g Hw Hg Hs Hr Hn inb iv Hiv) _ _ _ _ E2) as [B _].
  assert (Hp : phys2 m i j) by (unfold phys2, physical, r in *; lia).
  unfold final_field. rewrite A, B by auto. clear A B E1 E2.
  set (u1 := field_of (cur n) s1) in *. set (u2 := field_of (cur n) s2) in *.
  set (G1 := field_of A_G s1). set (G2 := field_of A_G s2).
  assert (HG' : forall a b w, G1 a b w = G2 a b w) by (intros; apply HG).
  assert (HU' : forall a b w, i - r <= a <= i + r -> j - r <= b <= j + r -> 0 <= w < 4 -> u1 a b w = u2 a b w)
    by (intros; apply HU; auto).
  clearbody u1 u2 G1 G2. clear HU HG s1 s2 s1' s2'.
  assert (Gen : forall dts u1 u2 r k, r = 2 * Z.of_nat (length dts) -> 0 <= k ->
    physical (nx m) (gw m) (i - r - k) -> physical (nx m) (gw m) (i + r + k) ->
    physical (ny m) (gw m) (j - r - k) -> physical (ny m) (gw m) (j + r + k) ->
    (forall a b w, i - r - k <= a <= i + r + k -> j - r - k <= b <= j + r + k -> 0 <= w < 4 -> u1 a b w = u2 a b w) ->
    forall a b w, i - k <= a <= i + k -> j - k <= b <= j + k -> 0 <= w < 4 ->
    run_spec m S g G1 dts u1 a b w = run_spec m S g G2 dts u2 a b w).
  { clear dts r Hi1 Hi2 Hj1 Hj2 HU' u1 u2.
    induction dts as [|dt dts IH]; intros u1 u2 r k Er Hk P1 P2 P3 P4 HE a b w Ha Hb' Hw'; cbn [run_spec].
    - simpl in Er. apply HE; lia.
    - simpl length in Er. unfold physical in *.
      apply (IH _ _ (r - 2) k); auto; try lia.
      intros a' b' w' Ha' Hb'' Hw''. apply step2_stencil; auto.
      intros. unfold extend.
      assert (image_x m i' = i') by (unfold image_x; apply image_id; unfold physical; lia).
      assert (image_y m j' = j') by (unfold image_y; apply image_id; unfold physical; lia).
      rewrite H2, H3. rewrite HE by lia. reflexivity. }
  apply (Gen dts u1 u2 r 0); auto; try lia; try (rewrite Z.sub_0_r; auto); try (rewrite Z.add_0_r; auto).
  intros. apply HU'; lia.
Qed.
Print Assumptions C39_domain_of_dependence.

(** A 9 x 9 mesh: the centre cell, two steps. *)
Example C39_case : physical 9 2 (6 - 2 * Z.of_nat 2) /\ physical 9 2 (6 + 2 * Z.of_nat 2).
Proof. unfold physical. simpl. lia. Qed.

(** ** C22 *)

(** Accepted settings that leave no flux undefined in 2D: any solver name but
    "hlld", slope types 0, 1 and 2 (all versions: see C02_steps_in_bounds, whose
    notion of safety includes never using an undefined flux or slope). *)
Theorem C22_defined_2d :
  forall (T : Type) (N : Num T) (S : hset T) ql qr q a b c d name,
  solver S = parse_riemann name -> name <> "hlld"%string -> slope_ok S ->
  riemann2 S ql qr <> None /\ slopes2 S q a b c d <> None.
Proof.
  intros T N S ql qr q a b c d name E Hn Hs. split; [|apply slopes2_some; auto].
  unfold riemann2. rewrite E. unfold parse_riemann.
  destruct (String.eqb name "approx"), (String.eqb name "llf"), (String.eqb name "hll"),
    (String.eqb name "hllc"); try discriminate.
  destruct (String.eqb_spec name "hlld"); [contradiction|discriminate].
Qed.
Print Assumptions C22_defined_2d.

(** riemann=hlld is accepted by the hydro solver but computes no flux: every
    step uses an uninitialised flux, in every implementation version. *)
Theorem C22_hlld_refuted :
  forall (T : Type) (N : Num T) m (S : hset T) g dt iv n s,
  wide2 m -> 2 <= gw m -> nbvar m = 4 -> slope_ok S ->
  solver S = parse_riemann "hlld" ->
  ~ safes (alloc2d m (nv2 m g iv)) s (godunov2 m S g dt iv (cur n) (nxt n)).
Proof. intros. apply hlld_unsafe; auto using cur_nxt. Qed.
Print Assumptions C22_hlld_refuted.

(** A slope type other than 0, 1, 2 is accepted, but versions 0 and 2 then use
    uninitialised slopes. *)
Theorem C22_slope_type_refuted :
  forall (T : Type) (N : Num T) m (S : hset T) g dt iv n s,
  wide2 m -> 2 <= gw m -> nbvar m = 4 -> ~ slope_ok S -> iv = V0 \/ iv = V2 ->
  ~ safes (alloc2d m (nv2 m g iv)) s (godunov2 m S g dt iv (cur n) (nxt n)).
Proof. intros. apply bad_slope_unsafe; auto using cur_nxt. Qed.
Print Assumptions C22_slope_type_refuted.

(** slope_type=3 (documented in other codes as "positivity preserving") is such a type. *)
Example C22_case : ~ slope_ok (ex_set R_LLF 3).
Proof.
  unfold slope_ok, neqb, ex_set, derive; simpl.
  repeat destruct (Rle_dec _ _); simpl; try lra; discriminate.
Qed.
