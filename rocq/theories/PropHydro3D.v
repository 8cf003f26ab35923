(** * Properties of the 3D hydrodynamics solver *)
From Coq Require Import String ZArith List Bool Lia ZifyBool Permutation Reals Lra.
Import ListNotations.
From Verif Require Import Num Exec ExecFacts Grid GridFacts Boundaries BoundariesSpec
  BoundariesFacts BoundariesFill BoundariesNarrow HydroNum Kernels KernelFacts Atomics
  Hydro2D Hydro2DSpec Hydro2DFacts Hydro2DStep Determ Hydro2DRun EulerSpec HydroPhysics
  HydroRiemann PropPhysics Sums Hydro2DLaws Binary64 Doomed PropHydro2D
  Hydro3D Hydro3DSpec Hydro3DFacts Hydro3DStep Hydro3DRun Hydro3DLaws Hydro3DAxes Doomed3.
Local Open Scope Z_scope.

(** A mesh and settings the 3D solver is meant for: two ghost layers, 5
    variables, as many physical cells as the boundary types need, a documented
    slope type and a Riemann solver that 3D knows (approx, llf, hllc). *)
Definition ready3 {T} {N : Num T} (m : mesh) (S : hset T) : Prop :=
  wide3 m /\ 2 <= gw m /\ nbvar m = 5 /\ slope_ok S /\ solver_ok3 S.

(** Final state of a run of [dts] steps started at iteration [n] in [s]. *)
Definition final_field3 {T} (n : nat) (dts : list T) (s : store T) : field3 T :=
  field_of3 (cur (n + length dts)) s.

(** The gravity predictor of the Hancock step is not used. *)
Definition no_predictor (g : gravp) : Prop := g_enabled g && g_hancock g = false.

(** Example configurations: 4 x 3 x 2 cells. *)
Definition ex_mesh3 : mesh :=
  mkmesh 4 3 2 2 5 false (fun f => match f with YMIN | YMAX => 1 | ZMAX | ZMIN => 2 | _ => 3 end).
Definition ex_periodic3 : mesh := mkmesh 4 3 2 2 5 false (fun _ => 3).
Definition ex_box3 : mesh := mkmesh 4 3 2 2 5 false (fun _ => 1).

Example ex_ready3 : forall rs m, rs <> R_HLLD -> rs <> R_HLL -> In m [ex_mesh3; ex_periodic3; ex_box3] ->
  ready3 m (ex_set rs 1).
Proof.
  intros rs m Hr Hr' Hm. unfold ready3.
  repeat apply conj; try (destruct Hm as [<-|[<-|[<-|[]]]]; simpl; lia); auto.
  unfold slope_ok, neqb, ex_set, derive; simpl.
  repeat destruct (Rle_dec _ _); simpl; try lra; auto.
Qed.

Example ex_closed3 : forall d, closed3 ex_box3 d /\ periodic3 ex_periodic3 d.
Proof. intros d. unfold closed3, periodic3. cbn. tauto. Qed.

(** Executions follow the scheme. *)
Lemma run3_V01 {T} {N : Num T} {O : NumOne T} m (S : hset T) g inb iv n dts s s' :
  ready3 m S -> iv = V0 \/ iv = V1 -> execs inb s (steps3 m S g iv n dts) s' ->
  same_phys3 m (final_field3 n dts s') (run_spec3 m S g (full_of iv) (field_of3 A_G s) dts (field_of3 (cur n) s)).
Proof.
  intros (Hw & Hg & Hn & Hs & Hr) Hiv E.
  exact (proj1 (run_refines3 m S g (full_of iv) Hw Hg inb iv
    (refines3_V01 m S g (full_of iv) Hw Hg Hs Hr Hn inb iv Hiv eq_refl) dts n s s' E)).
Qed.

Lemma run3_R m (S : hset R) g inb iv n dts s s' :
  ready3 m S -> execs inb s (steps3 m S g iv n dts) s' ->
  same_phys3 m (final_field3 n dts s') (run_spec3 m S g (full_of iv) (field_of3 A_G s) dts (field_of3 (cur n) s)).
Proof.
  intros (Hw & Hg & Hn & Hs & Hr) E.
  exact (proj1 (run_refines3 m S g (full_of iv) Hw Hg inb iv
    (refines3_R m S g inb iv Hw Hg Hn Hs Hr) dts n s s' E)).
Qed.

Lemma run3_full {T} {N : Num T} m (S : hset T) g G dts : wide3 m -> 2 <= gw m -> no_predictor g ->
  forall full full' u, same_phys3 m (run_spec3 m S g full G dts u) (run_spec3 m S g full' G dts u).
Proof.
  intros Hw Hg Hp.
  assert (E : forall full full' dt U i j k v, step3 S g dt full U G i j k v = step3 S g dt full' U G i j k v).
  { intros [] [] dt U i j k v; auto; [symmetry|]; apply step3_full; auto. }
  induction dts as [|dt dts IH]; intros full full' u i j k v Hph Hv; cbn [run_spec3]; [reflexivity|].
  rewrite (IH full full') by auto. apply run_spec3_ext; auto. intros a b c w _ _. apply E.
Qed.

(** ** C01 *)
Theorem C01_3d_same_arrays_under_every_schedule :
  forall (T : Type) (N : Num T) (O : NumOne T) m (S : hset T) g inb iv n dts s s1 s2,
  ready3 m S -> iv = V0 \/ iv = V1 ->
  execs inb s (steps3 m S g iv n dts) s1 ->
  execs inb s (steps3 m S g iv n dts) s2 ->
  forall l, s1 l = s2 l.
Proof.
  intros T N O m S g inb iv n dts s s1 s2 (Hw & Hg & Hn & Hs & Hr) Hiv.
  enough (D : forall n, deterministic inb (steps3 m S g iv n dts)).
  { intros H1 H2. exact (D n s s s1 s2 (fun l => eq_refl) H1 H2). }
  clear n s s1 s2. induction dts as [|dt dts IH]; intros n; cbn [steps3].
  - apply det_nil.
  - apply det_app; auto. apply godunov3_det; auto using cur_nxt.
Qed.
Print Assumptions C01_3d_same_arrays_under_every_schedule.

(** ** C02 *)
Theorem C02_3d_steps_in_bounds :
  forall (T : Type) (N : Num T) m (S : hset T) g iv n dts s,
  ready3 m S ->
  safes (alloc3d m (nv3 m g iv)) s (steps3 m S g iv n dts) /\
  exists s', execs (alloc3d m (nv3 m g iv)) s (steps3 m S g iv n dts) s'.
Proof.
  intros T N m S g iv n dts s (Hw & Hg & Hn & Hs & Hr).
  enough (F : forall n, Forall (Forall (in_foot (alloc3d m (nv3 m g iv)))) (steps3 m S g iv n dts)).
  { split; [apply in_foot_safes|apply in_foot_execs]; auto. }
  clear n s. induction dts as [|dt dts IH]; intros n; cbn [steps3]; [constructor|].
  apply Forall_app. split; auto. apply godunov3_in_foot; auto using cur_nxt.
Qed.
Print Assumptions C02_3d_steps_in_bounds.

Example C02_3d_case : alloc3d ex_mesh3 (nv3 ex_mesh3 no_gravity V1) (mkloc A_Fz 2 2 2 ID) = false /\
  alloc3d ex_mesh3 (nv3 ex_mesh3 no_gravity V0) (mkloc A_Fz 7 6 5 IW) = true /\
  alloc3d ex_mesh3 (nv3 ex_mesh3 no_gravity V0) (mkloc A_Fz 7 6 6 IW) = false.
Proof. repeat split. Qed.

(** ** C11 *)

(** Versions 0 and 1 agree bit for bit unless the gravity predictor is on. *)
Theorem C11_3d_versions_0_and_1_bit_identical :
  forall (T : Type) (N : Num T) (O : NumOne T) m (S : hset T) g inb0 inb1 n dts s s0 s1,
  ready3 m S -> no_predictor g ->
  execs inb0 s (steps3 m S g V0 n dts) s0 ->
  execs inb1 s (steps3 m S g V1 n dts) s1 ->
  same_phys3 m (final_field3 n dts s0) (final_field3 n dts s1).
Proof.
  intros T N O m S g inb0 inb1 n dts s s0 s1 HR HP E0 E1 i j k v Hp Hv.
  rewrite (run3_V01 m S g inb0 V0 n dts s s0) by auto.
  rewrite (run3_V01 m S g inb1 V1 n dts s s1) by auto.
  destruct HR as (Hw & Hg & _). apply run3_full; auto.
Qed.
Print Assumptions C11_3d_versions_0_and_1_bit_identical.

(** In exact arithmetic: versions 0 and 2 always agree, version 1 with them when
    the gravity predictor is off. *)
Theorem C11_3d_versions_exact :
  forall m (S : hset R) g inb inb' iv iv' n dts s s1 s2,
  ready3 m S -> no_predictor g \/ (iv <> V1 /\ iv' <> V1) ->
  execs inb s (steps3 m S g iv n dts) s1 ->
  execs inb' s (steps3 m S g iv' n dts) s2 ->
  same_phys3 m (final_field3 n dts s1) (final_field3 n dts s2).
Proof.
  intros m S g inb inb' iv iv' n dts s s1 s2 HR HP E0 E1 i j k v Hp Hv.
  rewrite (run3_R m S g inb iv n dts s s1) by auto.
  rewrite (run3_R m S g inb' iv' n dts s s2) by auto.
  destruct HR as (Hw & Hg & _). destruct HP as [HP|[H1 H2]].
  - apply run3_full; auto.
  - replace (full_of iv') with (full_of iv); [reflexivity|].
    destruct iv, iv'; try congruence; reflexivity.
Qed.
Print Assumptions C11_3d_versions_exact.

(** With the gravity predictor on, version 1 computes something else: it leaves
    the right state of the Z faces unpredicted.  One cell at rest, rho = p = 1,
    acceleration 1 along z in the cell only, dt/dz = 1/2: the z momenta
    of versions 0 and 1 differ by more than 1/20. *)
Module Witness3.
Definition q := Witness.q.
Definition S : hset b64 :=
  derive (H := Fnum) (q 7 5) (q 1 10000000000) (q 1 10000000000) (q 1 1) (q 1 2) R_LLF (q 2 1) (q 2 1) (q 2 1).
Definition g : gravp := mkgravp true true.
Definition m : mesh := mkmesh 1 1 1 2 5 false (fun _ => 2).
Definition dt : b64 := q 1 1.
Definition s0 : store b64 := fun l =>
  match la l with
  | A_G => if (lv l =? IZ) && (lk l =? 2) then q 1 1 else q 0 1
  | _ => if lv l =? ID then q 1 1 else if lv l =? IE then q 5 2 else q 0 1
  end.
Definition res (iv : impl) : store b64 :=
  fold_left (fun s K => run_list K s) (godunov3 (H := Fnum) m S g dt iv A_U A_U2) s0.

Lemma ready : ready3 (N := Fnum) m S.
Proof.
  unfold ready3. repeat apply conj; try (simpl; lia); try (left; reflexivity);
  try reflexivity; discriminate.
Qed.

Lemma run iv : execs (alloc3d m (nv3 m g iv)) s0 (godunov3 (H := Fnum) m S g dt iv A_U A_U2) (res iv).
Proof.
  destruct ready as (Hw & Hg & Hn & Hs & Hr). apply Witness.seq_execs.
  apply (godunov3_in_foot (N := Fnum) m S g dt Hs Hr Hw Hg Hn A_U A_U2
                (or_introl (conj eq_refl eq_refl)) iv).
Qed.
End Witness3.

Theorem C11_3d_gravity_predictor_refuted :
  exists (m : mesh) (S : hset b64) (g : gravp) (dt : b64) (s s0 s1 : store b64) (i j k : Z),
  ready3 (N := Fnum) m S /\ phys3 m i j k /\
  execs (alloc3d m (nv3 m g V0)) s (godunov3 (H := Fnum) m S g dt V0 A_U A_U2) s0 /\
  execs (alloc3d m (nv3 m g V1)) s (godunov3 (H := Fnum) m S g dt V1 A_U A_U2) s1 /\
  nltb (Num := Fnum) (ndiv (Num := Fnum) (nZ (Num := Fnum) 1) (nZ (Num := Fnum) 20))
    (nsub (Num := Fnum) (s1 (mkloc A_U2 i j k IW)) (s0 (mkloc A_U2 i j k IW))) = true.
Proof.
  exists Witness3.m, Witness3.S, Witness3.g, Witness3.dt, Witness3.s0, (Witness3.res V0), (Witness3.res V1), 2, 2, 2.
  split; [exact Witness3.ready|]. split; [unfold phys3, phys2, physical; simpl; lia|].
  split; [apply Witness3.run|]. split; [apply Witness3.run|].
  vm_compute. reflexivity.
Qed.
Print Assumptions C11_3d_gravity_predictor_refuted.

(** ** C12 *)

(** Whatever the arithmetic and the schedule of the atomic kernel, every
    physical cell receives each of its six face fluxes exactly once, in some
    order. *)
Theorem C12_3d_each_flux_once :
  forall (T : Type) (N : Num T) (O : NumOne T) m (S : hset T) inb dt n s s',
  ready3 m S ->
  execs inb s (godunov3 m S no_gravity dt V2 (cur n) (nxt n)) s' ->
  forall i j k v, phys3 m i j k -> 0 <= v < 5 ->
  adv3_any_order S no_gravity dt true (filled3 m (cur n) s) (field_of3 A_G s) i j k v (s' (mkloc (nxt n) i j k v)).
Proof.
  intros T N O m S inb dt n s s' (Hw & Hg & Hn & Hs & Hr) E i j k v Hp Hv.
  destruct (step3_V2 m S no_gravity dt inb Hs Hr Hw Hg Hn _ _ (cur_nxt n) s s' E) as (W & A & B & _).
  rewrite B by auto. apply A; auto.
Qed.
Print Assumptions C12_3d_each_flux_once.

Theorem C12_3d_schedule_independent_exact :
  forall m (S : hset R) g inb n dts s s1 s2,
  ready3 m S ->
  execs inb s (steps3 m S g V2 n dts) s1 ->
  execs inb s (steps3 m S g V2 n dts) s2 ->
  same_phys3 m (final_field3 n dts s1) (final_field3 n dts s2).
Proof. intros. eapply C11_3d_versions_exact; eauto. right. split; discriminate. Qed.
Print Assumptions C12_3d_schedule_independent_exact.

(** ** C09 *)
Theorem C09_3d_conservation_periodic :
  forall m (S : hset R) g inb iv n dts s s' v,
  ready3 m S -> (forall d, periodic3 m d) -> g_enabled g = false ->
  execs inb s (steps3 m S g iv n dts) s' -> 0 <= v < 5 ->
  total3 m (final_field3 n dts s') v = total3 m (field_of3 (cur n) s) v.
Proof.
  intros m S g inb iv n dts s s' v HR HP HG E Hv.
  rewrite (total3_ext m _ _ v Hv (run3_R m S g inb iv n dts s s' HR E)).
  destruct HR as (Hw & Hg & Hn & Hs & Hr).
  apply conserve_periodic3; auto.
Qed.
Print Assumptions C09_3d_conservation_periodic.

(** ** C10 *)
Theorem C10_3d_closed_box :
  forall m (S : hset R) g inb iv n dts s s' v,
  ready3 m S -> sane S -> (forall d, closed3 m d) -> g_enabled g = false ->
  solver S <> R_APPROX ->
  execs inb s (steps3 m S g iv n dts) s' -> v = ID \/ v = IE ->
  total3 m (final_field3 n dts s') v = total3 m (field_of3 (cur n) s) v.
Proof.
  intros m S g inb iv n dts s s' v HR HS HP HG HA E Hv.
  assert (Hv' : 0 <= v < 5) by (unfold ID, IE in Hv; lia).
  rewrite (total3_ext m _ _ v Hv' (run3_R m S g inb iv n dts s s' HR E)).
  destruct HR as (Hw & Hg & Hn & Hs & Hr).
  apply conserve_run3; auto. right. split; [apply calm_run3_no_approx; auto|exact Hv].
Qed.
Print Assumptions C10_3d_closed_box.

(** With the two-shock solver the same holds as long as the flow onto each wall
    has a Mach number of at most 200000 / (gamma + 1).  Missing: faster flow onto
    a wall, where the claim fails (PropTwoShock.v, [C10_any_speed_refuted]). *)
Theorem C10_3d_closed_box_two_shock_partial :
  forall m (S : hset R) g inb iv n dts s s' v,
  ready3 m S -> sane S -> (forall d, closed3 m d) -> g_enabled g = false ->
  calm_run3 m S g (full_of iv) (field_of3 A_G s) dts (field_of3 (cur n) s) ->
  execs inb s (steps3 m S g iv n dts) s' -> v = ID \/ v = IE ->
  total3 m (final_field3 n dts s') v = total3 m (field_of3 (cur n) s) v.
Proof.
  intros m S g inb iv n dts s s' v HR HS HP HG HA E Hv.
  assert (Hv' : 0 <= v < 5) by (unfold ID, IE in Hv; lia).
  rewrite (total3_ext m _ _ v Hv' (run3_R m S g inb iv n dts s s' HR E)).
  destruct HR as (Hw & Hg & Hn & Hs & Hr).
  apply conserve_run3; auto.
Qed.
Print Assumptions C10_3d_closed_box_two_shock_partial.

(** The flux through a wall: mass, energy and transverse momenta vanish. *)
Theorem C10_3d_wall_flux :
  forall m (S : hset R) g dt u G full hi d i j k v,
  ready3 m S -> sane S -> g_enabled g = false -> solver S <> R_APPROX ->
  kind_of (bc m (wface hi d)) = Reflecting ->
  on_side m hi d i j k -> 0 <= v < 5 -> v <> IVd d ->
  F3 S g dt full (Qf3 S (extend3 m u)) G d i j k v = 0%R.
Proof.
  intros m S g dt u G full hi d i j k v (Hw & Hg & Hn & Hs & Hr) HS HG HA HK HO Hv Hne.
  apply (wall_flux3 m S g full Hw Hg HG HS Hs Hr dt u G hi d i j k v); auto. apply calm3_no_approx; auto.
Qed.
Print Assumptions C10_3d_wall_flux.

(** A face of the top wall of the example box. *)
Example C10_3d_case : kind_of (bc ex_box3 (wface true DZ)) = Reflecting /\ on_side ex_box3 true DZ 3 4 4.
Proof. split; [reflexivity|]. unfold on_side, physical. split; [reflexivity|].
  cbn [nx ny nz gw ex_box3]. repeat split; try (left; reflexivity); right; lia. Qed.

(** ** C23 *)
Theorem C23_3d_uniform_state_fixed :
  forall m (S : hset R) g inb iv n dts s s' (c : Z -> R),
  ready3 m S -> g_enabled g = false ->
  (forall f, kind_of (bc m f) <> Reflecting) ->
  (forall i j k v, phys3 m i j k -> 0 <= v < 5 -> s (mkloc (cur n) i j k v) = c v) ->
  execs inb s (steps3 m S g iv n dts) s' ->
  forall i j k v, phys3 m i j k -> 0 <= v < 5 -> s' (mkloc (cur (n + length dts)) i j k v) = c v.
Proof.
  intros m S g inb iv n dts s s' c HR HG HO HU E i j k v Hp Hv.
  change (final_field3 n dts s' i j k v = c v). rewrite (run3_R m S g inb iv n dts s s') by auto.
  destruct HR as (Hw & Hg & Hn & Hs & Hr).
  apply (run_uniform3 m S g); auto.
Qed.
Print Assumptions C23_3d_uniform_state_fixed.

(** ** C24 *)
Local Open Scope R_scope.
Theorem C24_3d_gravity_source :
  forall m dt inb n s s',
  (0 < gw m)%Z ->
  exec inb s (map (gravity_item3 (T := R) m dt (cur n) (nxt n)) (cells3 m)) s' ->
  (* physical cells whose new density is not zero *)
  (forall i j k, phys3 m i j k -> s (mkloc (nxt n) i j k ID) <> 0 ->
     let W v := s (mkloc (nxt n) i j k v) in let W' v := s' (mkloc (nxt n) i j k v) in
     let mean := (s (mkloc (cur n) i j k ID) + W ID) / 2 in
     let kin X := (X IU * X IU + X IV * X IV + X IW * X IW) / (2 * X ID) in
     W' IU = W IU + dt * mean * s (mkloc A_G i j k IX) /\
     W' IV = W IV + dt * mean * s (mkloc A_G i j k IY) /\
     W' IW = W IW + dt * mean * s (mkloc A_G i j k IZ) /\
     W' ID = W ID /\
     W' IE - kin W' = W IE - kin W) /\
  (* nothing else changes *)
  (forall i j k v, cell3 m i j k -> ~ phys3 m i j k -> s' (mkloc (nxt n) i j k v) = s (mkloc (nxt n) i j k v)) /\
  (forall l, la l <> nxt n -> s' l = s l).
Proof.
  intros m dt inb n s s' Hg E.
  destruct (gravity_spec3 m dt inb _ _ _ _ (cur_nxt n) E) as (A & B & C).
  split; [|split; [exact B|exact C]].
  intros i j k Hp Hd W W' mean kin.
  assert (HW : forall v, (0 <= v < 5)%Z -> W' v = grav_source3 dt (fun i j k v => s (mkloc (cur n) i j k v))
      (field_of3 A_G s) (fun i j k v => s (mkloc (nxt n) i j k v)) i j k v) by (intros; apply A; auto).
  unfold kin. rewrite !HW by (unfold ID, IU, IV, IW, IE; lia). unfold grav_source3, mean.
  unfold IU, IV, IW, IE, ID in *. cbv beta iota zeta delta [Z.eqb Pos.eqb].
  unfold W, field_of3. Rn. unfold ID, IX, IY, IZ, IU, IV, IW, IE in *.
  repeat split; try lra; field; auto.
Qed.
Print Assumptions C24_3d_gravity_source.
Local Open Scope Z_scope.

(** ** C37 *)
Theorem C37_3d_translation :
  forall (T : Type) (N : Num T) (O : NumOne T) m (S : hset T) g inb iv n dts a b c s1 s1' s2 s2',
  ready3 m S -> (forall d, periodic3 m d) -> iv = V0 \/ iv = V1 ->
  periodic_G3 m (field_of3 A_G s1) ->
  (forall i j k v, field_of3 A_G s2 i j k v = shift3 m a b c (field_of3 A_G s1) i j k v) ->
  same_phys3 m (field_of3 (cur n) s2) (shift3 m a b c (field_of3 (cur n) s1)) ->
  execs inb s1 (steps3 m S g iv n dts) s1' ->
  execs inb s2 (steps3 m S g iv n dts) s2' ->
  same_phys3 m (final_field3 n dts s2') (shift3 m a b c (final_field3 n dts s1')).
Proof.
  intros T N O m S g inb iv n dts a b c s1 s1' s2 s2' HR HP Hiv HG HG2 HU E1 E2.
  pose proof (run3_V01 m S g inb iv n dts s1 s1' HR Hiv E1) as A.
  pose proof (run3_V01 m S g inb iv n dts s2 s2' HR Hiv E2) as B.
  destruct HR as (Hw & Hg & Hn & Hs & Hr).
  intros i j k v Hp Hv. rewrite B by auto.
  rewrite (run_spec3_ext m S g (full_of iv) Hw Hg dts _ (shift3 m a b c (field_of3 (cur n) s1)) _
    (shift3 m a b c (field_of3 A_G s1))); auto.
  rewrite run_translate3 by auto. symmetry. apply shift_ext3; auto.
Qed.
Print Assumptions C37_3d_translation.

Example C37_3d_case : forall (u : field3 Z) v, shift3 ex_periodic3 2 (-1) 1 u 5 4 3 v = u 3 3 2 v.
Proof. reflexivity. Qed.

(** ** C42: exchanging two axes in 3D *)
Theorem C42_axis_exchange_3d :
  forall e m (S : hset R) g inb inb' iv iv' n dts s1 s1' s2 s2',
  ready3 m S -> no_predictor g \/ (iv <> V1 /\ iv' <> V1) ->
  (forall i j k v, field_of3 A_G s2 i j k v = xgrav e (field_of3 A_G s1) i j k v) ->
  same_phys3 (xmesh e m) (field_of3 (cur n) s2) (xfield e (field_of3 (cur n) s1)) ->
  execs inb s1 (steps3 m S g iv n dts) s1' ->
  execs inb' s2 (steps3 (xmesh e m) (xset e S) g iv' n dts) s2' ->
  same_phys3 (xmesh e m) (final_field3 n dts s2') (xfield e (final_field3 n dts s1')).
Proof.
  intros e m S g inb inb' iv iv' n dts s1 s1' s2 s2' HR HP HG HU E1 E2.
  assert (HR' : ready3 (xmesh e m) (xset e S)).
  { destruct HR as (Hw & Hg & Hn & Hs & Hr). unfold ready3. rewrite xmesh_gw, xmesh_nbvar, xset_slope, xset_solver.
    split; [apply xmesh_wide; auto|]. auto. }
  pose proof (run3_R m S g inb iv n dts s1 s1' HR E1) as A.
  pose proof (run3_R (xmesh e m) (xset e S) g inb' iv' n dts s2 s2' HR' E2) as B.
  destruct HR as (Hw & Hg & Hn & Hs & Hr). destruct HR' as (Hw' & Hg' & _).
  assert (A' : same_phys3 m (final_field3 n dts s1') (run_spec3 m S g true (field_of3 A_G s1) dts (field_of3 (cur n) s1))).
  { intros i j k v Hp Hv. rewrite A by auto. destruct HP as [HP|[H1 _]]; [apply run3_full; auto|].
    destruct iv; try reflexivity. congruence. }
  intros i j k v Hp Hv. rewrite B by auto.
  assert (B' : forall u G, run_spec3 (xmesh e m) (xset e S) g (full_of iv') G dts u i j k v =
                run_spec3 (xmesh e m) (xset e S) g true G dts u i j k v).
  { intros. destruct HP as [HP|[_ H1]]; [apply run3_full; auto|]. destruct iv'; try reflexivity. congruence. }
  rewrite B'.
  rewrite (run_spec3_ext (xmesh e m) (xset e S) g true Hw' Hg' dts _ (xfield e (field_of3 (cur n) s1)) _
    (xgrav e (field_of3 A_G s1))); auto.
  rewrite run_x by (auto; left; reflexivity).
  apply xmesh_phys in Hp. unfold xfield.
  pose proof (xv_range e v Hv). destruct e; cbn [xpos] in *; symmetry; apply A'; auto.
Qed.
Print Assumptions C42_axis_exchange_3d.

Example C42_case : nx (xmesh EXY ex_mesh3) = 3 /\ nz (xmesh EYZ ex_mesh3) = 3 /\
  bc (xmesh EYZ ex_mesh3) ZMAX = 1 /\ xv EYZ IV = IW /\ xv EXY IW = IW.
Proof. repeat split. Qed.

(** Version 1 with the gravity predictor does not treat the axes alike: it
    predicts both sides of X and Y faces but only one side of Z faces. *)
Example C42_version_1 : forall d, full_of V1 || kicked_right d = match d with DZ => false | _ => true end.
Proof. intros []; reflexivity. Qed.

(** ** C39 *)
Theorem C39_3d_two_cells_per_step :
  forall (T : Type) (N : Num T) (O : NumOne T) m (S : hset T) g dt inb iv n s1 s1' s2 s2' i j k v,
  ready3 m S -> iv = V0 \/ iv = V1 -> phys3 m i j k -> 0 <= v < 5 ->
  (forall a b c w, i - 2 <= a <= i + 2 -> j - 2 <= b <= j + 2 -> k - 2 <= c <= k + 2 -> 0 <= w < 5 ->
     s1 (mkloc (cur n) (image_x m a) (image_y m b) (image_z m c) w) =
     s2 (mkloc (cur n) (image_x m a) (image_y m b) (image_z m c) w)) ->
  (forall a b c w, i - 1 <= a <= i + 1 -> j - 1 <= b <= j + 1 -> k - 1 <= c <= k + 1 ->
     s1 (mkloc A_G a b c w) = s2 (mkloc A_G a b c w)) ->
  execs inb s1 (godunov3 m S g dt iv (cur n) (nxt n)) s1' ->
  execs inb s2 (godunov3 m S g dt iv (cur n) (nxt n)) s2' ->
  s1' (mkloc (nxt n) i j k v) = s2' (mkloc (nxt n) i j k v).
Proof.
  intros T N O m S g dt inb iv n s1 s1' s2 s2' i j k v (Hw & Hg & Hn & Hs & Hr) Hiv Hp Hv HU HG E1 E2.
  destruct (refines3_V01 m S g (full_of iv) Hw Hg Hs Hr Hn inb iv Hiv eq_refl dt n s1 s1' E1) as [A _].
  destruct (refines3_V01 m S g (full_of iv) Hw Hg Hs Hr Hn inb iv Hiv eq_refl dt n s2 s2' E2) as [B _].
  specialize (A i j k v Hp Hv). specialize (B i j k v Hp Hv). unfold field_of3 at 1 in A. unfold field_of3 at 1 in B.
  rewrite A, B. apply step3_stencil; auto.
  intros a b c w Ha Hbb Hc Hw'. unfold extend3, field_of3. rewrite HU by auto. reflexivity.
Qed.
Print Assumptions C39_3d_two_cells_per_step.

Theorem C39_3d_domain_of_dependence :
  forall (T : Type) (N : Num T) (O : NumOne T) m (S : hset T) g inb iv dts n s1 s1' s2 s2' i j k v,
  let r := 2 * Z.of_nat (length dts) in
  ready3 m S -> iv = V0 \/ iv = V1 -> 0 <= v < 5 ->
  physical (nx m) (gw m) (i - r) -> physical (nx m) (gw m) (i + r) ->
  physical (ny m) (gw m) (j - r) -> physical (ny m) (gw m) (j + r) ->
  physical (nz m) (gw m) (k - r) -> physical (nz m) (gw m) (k + r) ->
  (forall a b c w, i - r <= a <= i + r -> j - r <= b <= j + r -> k - r <= c <= k + r -> 0 <= w < 5 ->
     s1 (mkloc (cur n) a b c w) = s2 (mkloc (cur n) a b c w)) ->
  (forall a b c w, s1 (mkloc A_G a b c w) = s2 (mkloc A_G a b c w)) ->
  execs inb s1 (steps3 m S g iv n dts) s1' ->
  execs inb s2 (steps3 m S g iv n dts) s2' ->
  final_field3 n dts s1' i j k v = final_field3 n dts s2' i j k v.
Proof.
  intros T N O m S g inb iv dts n s1 s1' s2 s2' i j k v r HR Hiv Hv Hi1 Hi2 Hj1 Hj2 Hk1 Hk2 HU HG E1 E2.
  assert (Hp : phys3 m i j k) by (unfold phys3, phys2, physical, r in *; lia).
  rewrite (run3_V01 m S g inb iv n dts s1 s1') by auto. rewrite (run3_V01 m S g inb iv n dts s2 s2') by auto.
  clear E1 E2. destruct HR as (Hw & Hg & Hn & Hs & Hr).
  set (u1 := field_of3 (cur n) s1) in *. set (u2 := field_of3 (cur n) s2) in *.
  set (G1 := field_of3 A_G s1). set (G2 := field_of3 A_G s2).
  assert (HG' : forall a b c w, G1 a b c w = G2 a b c w) by (intros; apply HG).
  assert (HU' : forall a b c w, i - r <= a <= i + r -> j - r <= b <= j + r -> k - r <= c <= k + r ->
    0 <= w < 5 -> u1 a b c w = u2 a b c w)
    by (intros; apply HU; auto).
  clearbody u1 u2 G1 G2. clear HU HG s1 s2 s1' s2'.
  assert (Gen : forall dts u1 u2 r l, r = 2 * Z.of_nat (length dts) -> 0 <= l ->
    physical (nx m) (gw m) (i - r - l) -> physical (nx m) (gw m) (i + r + l) ->
    physical (ny m) (gw m) (j - r - l) -> physical (ny m) (gw m) (j + r + l) ->
    physical (nz m) (gw m) (k - r - l) -> physical (nz m) (gw m) (k + r + l) ->
    (forall a b c w, i - r - l <= a <= i + r + l -> j - r - l <= b <= j + r + l ->
       k - r - l <= c <= k + r + l -> 0 <= w < 5 -> u1 a b c w = u2 a b c w) ->
    forall a b c w, i - l <= a <= i + l -> j - l <= b <= j + l -> k - l <= c <= k + l -> 0 <= w < 5 ->
    run_spec3 m S g (full_of iv) G1 dts u1 a b c w = run_spec3 m S g (full_of iv) G2 dts u2 a b c w).
  { clear dts r Hi1 Hi2 Hj1 Hj2 Hk1 Hk2 HU' u1 u2.
    induction dts as [|dt dts IH]; intros u1 u2 r l Er Hl P1 P2 P3 P4 P5 P6 HE a b c w Ha Hb' Hc' Hw'; cbn [run_spec3].
    - simpl in Er. apply HE; lia.
    - simpl length in Er. unfold physical in *.
      apply (IH _ _ (r - 2) l); auto; try lia.
      intros a' b' c' w' Ha' Hb'' Hc'' Hw''. apply step3_stencil; auto.
      intros i' j' k' w0 Hi' Hj' Hk' Hw0. unfold extend3.
      assert (X : image_x m i' = i') by (unfold image_x; apply image_id; unfold physical; lia).
      assert (Y : image_y m j' = j') by (unfold image_y; apply image_id; unfold physical; lia).
      assert (Z : image_z m k' = k') by (unfold image_z; apply image_id; unfold physical; lia).
      rewrite X, Y, Z. rewrite HE by lia. reflexivity. }
  apply (Gen dts u1 u2 r 0); auto; try lia; try (rewrite Z.sub_0_r; auto); try (rewrite Z.add_0_r; auto).
  intros. apply HU'; lia.
Qed.
Print Assumptions C39_3d_domain_of_dependence.

(** ** C22 *)

(** Solver names that leave no flux undefined in 3D. *)
Theorem C22_defined_3d :
  forall (T : Type) (N : Num T) (S : hset T) ql qr q a b c d e f name,
  solver S = parse_riemann name -> name <> "hlld"%string -> name <> "hll"%string -> slope_ok S ->
  riemann3 S ql qr <> None /\ slopes3 S q a b c d e f <> None.
Proof.
  intros T N S ql qr q a b c d e f name E Hn Hn' Hs. split; [|apply slopes3_some; auto].
  unfold riemann3. rewrite E. unfold parse_riemann.
  destruct (String.eqb name "approx"); [discriminate|].
  destruct (String.eqb name "llf"); [discriminate|].
  destruct (String.eqb_spec name "hll"); [contradiction|].
  destruct (String.eqb name "hllc"); [discriminate|].
  destruct (String.eqb_spec name "hlld"); [contradiction|discriminate].
Qed.
Print Assumptions C22_defined_3d.

(** riemann=hll works in 2D but computes no flux in 3D; neither does hlld. *)
Theorem C22_3d_hll_hlld_refuted :
  forall (T : Type) (N : Num T) m (S : hset T) g dt iv n s name,
  wide3 m -> 2 <= gw m -> nbvar m = 5 -> slope_ok S ->
  solver S = parse_riemann name -> name = "hll"%string \/ name = "hlld"%string ->
  ~ safes (alloc3d m (nv3 m g iv)) s (godunov3 m S g dt iv (cur n) (nxt n)).
Proof.
  intros T N m S g dt iv n s name Hw Hg Hn Hs E Hnm. apply bad_solver_unsafe3; auto using cur_nxt.
  unfold solver_ok3. rewrite E. destruct Hnm as [-> | ->]; intros [H1 H2]; [apply H2|apply H1]; reflexivity.
Qed.
Print Assumptions C22_3d_hll_hlld_refuted.

(** A slope type other than 0, 1, 2: every version uses uninitialised slopes. *)
Theorem C22_3d_slope_type_refuted :
  forall (T : Type) (N : Num T) m (S : hset T) g dt iv n s,
  wide3 m -> 2 <= gw m -> nbvar m = 5 -> ~ slope_ok S ->
  ~ safes (alloc3d m (nv3 m g iv)) s (godunov3 m S g dt iv (cur n) (nxt n)).
Proof. intros. apply bad_slope_unsafe3; auto using cur_nxt. Qed.
Print Assumptions C22_3d_slope_type_refuted.
