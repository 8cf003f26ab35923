(** * Properties of the initial conditions *)
From Coq Require Import ZArith List Bool String Lia ZifyBool Reals Lra.
From Verif Require Import Num Exec ExecFacts Grid GridFacts HydroNum Kernels KernelFacts Hydro2D Hydro3D
  Mhd2D Mhd3D Mhd3DFacts BoundariesNarrow Determ HydroPhysics Params Init InitFacts.
Import ListNotations.
Local Open Scope Z_scope.

(** ** C51 *)

(** *** Names *)

(** Every name that is not the name of a problem gives implode (hydrodynamics) or
    Orszag-Tang (MHD), as the comments at the call sites say. *)
Local Open Scope string_scope.
Definition hydro_names : list (string * problem) :=
  [("implode", Implode); ("blast", Blast); ("kelvin_helmholtz", KelvinHelmholtz);
   ("gresho_vortex", Gresho); ("four_quadrant", FourQuadrant);
   ("isentropic_vortex", IsentropicVortex); ("rayleigh_taylor", RayleighTaylor)].
Definition mhd_names : list (string * problem) :=
  [("implode", Implode); ("blast", Blast); ("brio-wu", BrioWu); ("orszag_tang", OrszagTang);
   ("kelvin_helmholtz", KelvinHelmholtz); ("rotor", Rotor); ("field_loop", FieldLoop);
   ("field loop", FieldLoop)].
(** The isentropic vortex is a 2D problem. *)
Definition names (three_d mhd : bool) : list (string * problem) :=
  if mhd then mhd_names
  else if three_d then filter (fun np => negb (String.eqb (fst np) "isentropic_vortex")) hydro_names
  else hydro_names.
Local Close Scope string_scope.
Definition chosen (three_d mhd : bool) : string -> problem :=
  if mhd then problem_mhd else if three_d then problem_hydro3 else problem_hydro2.

Theorem C51_problem_of_its_name :
  forall three_d mhd name,
  (forall p, In (name, p) (names three_d mhd) -> chosen three_d mhd name = p) /\
  (~ In name (map fst (names three_d mhd)) ->
   chosen three_d mhd name = if mhd then OrszagTang else Implode).
Proof.
  intros d mhd name. split.
  - intros p Hp. destruct mhd, d; simpl in Hp;
    repeat (destruct Hp as [E|Hp]; [inversion E; reflexivity|]); destruct Hp.
  - intros Hn. destruct mhd, d; unfold chosen, problem_mhd, problem_hydro3, problem_hydro2; simpl in Hn;
    repeat match goal with |- context [String.eqb ?a ?b] =>
      destruct (String.eqb_spec a b); [exfalso; apply Hn; subst; tauto|] end; reflexivity.
Qed.
Print Assumptions C51_problem_of_its_name.

(** The vortex asked for in three dimensions silently becomes the implosion. *)
Example C51_vortex_in_3d : problem_hydro3 "isentropic_vortex" = Implode /\
  problem_hydro2 "isentropic_vortex" = IsentropicVortex.
Proof. split; reflexivity. Qed.

(** *** Bounds *)

Section Bounds.
Context {T : Type} {N : Num T}.

Definition vars_below (n : Z) (ws : list (Z * T)) : Prop := forall w, In w ws -> 0 <= fst w < n.

Lemma in_store2 m nv (f : Z -> Z -> list (Z * T)) :
  (forall i j, vars_below (nv A_U) (f i j)) ->
  Forall (in_foot (alloc2d m nv)) (map (store2 f) (c2 m)).
Proof.
  intros Hf. apply Forall_map, Forall_forall. intros [i j] Hin. apply in_range2 in Hin.
  unfold in_foot, store2. apply foot_wrl; [|exact I].
  intros w Hw. apply in_map_iff in Hw. destruct Hw as (u & <- & Hu). apply Hf in Hu.
  unfold alloc2d, L2. simpl. lia.
Qed.
Lemma in_store3 m nv (f : Z -> Z -> Z -> list (Z * T)) :
  (forall i j k, vars_below (nv A_U) (f i j k)) ->
  Forall (in_foot (alloc3d m nv)) (map (store3 f) (c3 m)).
Proof.
  intros Hf. apply Forall_map, Forall_forall. intros [[i j] k] Hin. apply in_range3 in Hin.
  unfold in_foot, store3. apply foot_wrl; [|exact I].
  intros w Hw. apply in_map_iff in Hw. destruct Hw as (u & <- & Hu). apply Hf in Hu.
  unfold alloc3d. simpl. lia.
Qed.

Ltac vars := intros ? ?; simpl in *;
  repeat match goal with H : _ \/ _ |- _ => destruct H as [<-|H]; [cbn [fst]; unfold ID, IP, IU, IV, IW, IA, IB, IC; lia|] end;
  contradiction.

Variable L : mlib T.
Variable m : mesh.
Variable S : hset T.
Variable B : box T.
Variable rnd : nat -> Z -> Z -> Z -> T.
Variable Q : problems T.

Lemma hydro_vars2 p i j : vars_below 4 (hydro_stores2 L m S B rnd Q p i j).
Proof.
  destruct p; unfold hydro_stores2, implode2, blast2, kh2, gresho2, four2, vortex2, rti2;
  repeat match goal with |- context [if ?b then _ else _] => destruct b end; cbv zeta; vars.
Qed.
Lemma hydro_vars3 p i j k : vars_below 5 (hydro_stores3 L m S B rnd Q p i j k).
Proof.
  destruct p; unfold hydro_stores3, implode3, blast3, kh3, gresho3, four3, rti3;
  repeat match goal with |- context [if ?b then _ else _] => destruct b end; cbv zeta; vars.
Qed.
Lemma mhd_vars2 p i j : (p = BrioWu -> 0 <= w_dir (p_briowu Q) < 3) ->
  vars_below 8 (mhd_stores2 L m S B rnd Q p i j).
Proof.
  intros Hd. destruct p; unfold mhd_stores2, mimplode2, briowu2, mblast2, mblast_state, mkh2, mkh_state2, rotor2, ot_vars2;
  repeat match goal with |- context [if ?b then _ else _] => destruct b end; cbv zeta; try vars.
  all: specialize (Hd eq_refl); pose proof (Z.mod_pos_bound (w_dir (p_briowu Q) + 1) 2);
  intros w Hw; cbn [In] in Hw;
  repeat (destruct Hw as [<-|Hw]; [cbn [fst]; unfold ID, IP, IU, IV, IW, IA, IB, IC; lia|]); destruct Hw.
Qed.
Lemma mhd_vars3 p i j k : (p = BrioWu -> 0 <= w_dir (p_briowu Q) < 3) ->
  vars_below 8 (mhd_stores3 L m S B rnd Q p i j k).
Proof.
  intros Hd. destruct p; unfold mhd_stores3, mimplode3, briowu3, mblast3, mblast_state, mkh3, kh3, mkh_state3, rotor3, ot_vars3;
  repeat match goal with |- context [if ?b then _ else _] => destruct b end; cbv zeta; try vars.
  all: specialize (Hd eq_refl); pose proof (Z.mod_pos_bound (w_dir (p_briowu Q) + 1) 3);
  pose proof (Z.mod_pos_bound (w_dir (p_briowu Q) + 2) 3);
  intros w Hw; cbn [In] in Hw;
  repeat (destruct Hw as [<-|Hw]; [cbn [fst]; unfold ID, IP, IU, IV, IW, IA, IB, IC; lia|]); destruct Hw.
Qed.

Lemma in_hydro2 g iv name : nbvar m = 4 ->
  (problem_hydro2 name = RayleighTaylor -> g_enabled g = true) ->
  Forall (Forall (in_foot (alloc2d m (nv2 m g iv)))) (init_hydro2 L m S B rnd Q name).
Proof.
  intros Hn Hg. unfold init_hydro2.
  assert (G : forall p, Forall (in_foot (alloc2d m (nv2 m g iv))) (map (store2 (hydro_stores2 L m S B rnd Q p)) (c2 m))).
  { intros p. apply in_store2. intros i j. cbn [nv2]. rewrite Hn. apply hydro_vars2. }
  destruct (problem_hydro2 name) eqn:Ep; constructor; auto.
  specialize (Hg eq_refl).
  apply Forall_map, Forall_forall. intros [i j] Hin. apply in_range2 in Hin.
  unfold in_foot, rti_item2. apply foot_wrl; [|exact I].
  intros w Hw. apply in_app_or in Hw. destruct Hw as [Hw|Hw].
  - apply in_map_iff in Hw. destruct Hw as (u & <- & Hu).
    pose proof (hydro_vars2 RayleighTaylor i j u Hu). unfold alloc2d, L2. simpl. lia.
  - unfold alloc2d, L2. simpl in Hw. destruct Hw as [<-|[<-|[]]]; simpl; rewrite Hg; unfold IX, IY; lia.
Qed.
Lemma in_hydro3 g iv name : nbvar m = 5 ->
  (problem_hydro3 name = RayleighTaylor -> g_enabled g = true) ->
  Forall (Forall (in_foot (alloc3d m (nv3 m g iv)))) (init_hydro3 L m S B rnd Q name).
Proof.
  intros Hn Hg. unfold init_hydro3.
  assert (G : forall p, Forall (in_foot (alloc3d m (nv3 m g iv))) (map (store3 (hydro_stores3 L m S B rnd Q p)) (c3 m))).
  { intros p. apply in_store3. intros i j k. cbn [nv3]. rewrite Hn. apply hydro_vars3. }
  destruct (problem_hydro3 name) eqn:Ep; constructor; auto.
  specialize (Hg eq_refl).
  apply Forall_map, Forall_forall. intros [[i j] k] Hin. apply in_range3 in Hin.
  unfold in_foot, rti_item3. apply foot_wrl; [|exact I].
  intros w Hw. apply in_app_or in Hw. destruct Hw as [Hw|Hw].
  - apply in_map_iff in Hw. destruct Hw as (u & <- & Hu).
    pose proof (hydro_vars3 RayleighTaylor i j k u Hu). unfold alloc3d. simpl. lia.
  - unfold alloc3d. simpl in Hw. destruct Hw as [<-|[<-|[<-|[]]]]; simpl; rewrite Hg; unfold IX, IY, IZ; lia.
Qed.

Ltac inside := unfold alloc2d, alloc3d, L2; simpl; unfold ID, IP, IU, IV, IW, IA, IB, IC; lia.

Lemma in_mhd2 iv name : nbvar m = 8 -> 1 <= gw m ->
  (problem_mhd name = BrioWu -> 0 <= w_dir (p_briowu Q) < 3) ->
  Forall (Forall (in_foot (alloc2d m (init_nv2 (mnv2 m iv))))) (init_mhd2 L m S B rnd Q name).
Proof.
  intros Hn Hg Hd. set (inb := alloc2d m _).
  assert (G : forall p, (p = BrioWu -> 0 <= w_dir (p_briowu Q) < 3) ->
    Forall (in_foot inb) (map (store2 (mhd_stores2 L m S B rnd Q p)) (c2 m))).
  { intros p Hp. apply in_store2. intros i j. cbn [init_nv2 mnv2]. rewrite Hn. apply mhd_vars2; auto. }
  subst inb. unfold init_mhd2.
  destruct (problem_mhd name) eqn:Ep; (constructor; [apply G; auto; discriminate|try (constructor; fail)]) || idtac.
  - constructor; [|constructor].
    apply Forall_map, Forall_forall. intros [i j] Hin. apply in_range2 in Hin.
    unfold in_foot, ot_energy2. destruct ((i <? isize m - 1) && (j <? jsize m - 1)) eqn:Eh; [|exact I].
    cbn [foot]. repeat (split; [inside|try intro]). exact I.
  - repeat constructor; apply Forall_map, Forall_forall; intros [i j] Hin; apply in_range2 in Hin.
    + unfold in_foot, loop_pot2. cbn [foot]. split; [inside|exact I].
    + unfold in_foot, loop_vars2. destruct (inner2 m i j) eqn:Eh; [|exact I]. unfold inner2 in Eh.
      cbn [foot]. repeat (split; [inside|intro]). cbv zeta. apply foot_wrl; [|exact I].
      intros w Hw. repeat (destruct Hw as [<-|Hw]; [inside|]). destruct Hw.
    + unfold in_foot, loop_energy2. destruct (inner2 m i j) eqn:Eh; [|exact I]. unfold inner2 in Eh.
      cbn [foot]. repeat (split; [inside|try intro]). exact I.
Qed.
Lemma in_mhd3 iv name : nbvar m = 8 -> 1 <= gw m ->
  (problem_mhd name = BrioWu -> 0 <= w_dir (p_briowu Q) < 3) ->
  Forall (Forall (in_foot (alloc3d m (init_nv3 (mnv3 m iv))))) (init_mhd3 L m S B rnd Q name).
Proof.
  intros Hn Hg Hd. set (inb := alloc3d m _).
  assert (G : forall p, (p = BrioWu -> 0 <= w_dir (p_briowu Q) < 3) ->
    Forall (in_foot inb) (map (store3 (mhd_stores3 L m S B rnd Q p)) (c3 m))).
  { intros p Hp. apply in_store3. intros i j k. cbn [init_nv3 mnv3]. rewrite Hn. apply mhd_vars3; auto. }
  subst inb. unfold init_mhd3.
  destruct (problem_mhd name) eqn:Ep; (constructor; [apply G; auto; discriminate|try (constructor; fail)]) || idtac.
  - constructor; [|constructor].
    apply Forall_map, Forall_forall. intros [[i j] k] Hin. apply in_range3 in Hin.
    unfold in_foot, ot_energy3.
    destruct ((i <? isize m - 1) && (j <? jsize m - 1) && (k <? ksize m - 1)) eqn:Eh; [|exact I].
    cbn [foot]. repeat (split; [inside|try intro]). exact I.
  - repeat constructor; apply Forall_map, Forall_forall; intros [[i j] k] Hin; apply in_range3 in Hin.
    + unfold in_foot, loop_pot3. apply foot_wrl; [|exact I].
      intros w Hw. apply in_app_or in Hw. destruct Hw as [Hw|Hw].
      * repeat (destruct Hw as [<-|Hw]; [inside|]). destruct Hw.
      * destruct (_ <? _)%num; [|destruct Hw]. destruct Hw as [<-|[]]. unfold IZ. inside.
    + unfold in_foot, loop_vars3. destruct (inner3 m i j k) eqn:Eh; [|exact I]. unfold inner3 in Eh.
      cbn [foot]. repeat (split; [inside|intro]). cbv zeta. apply foot_wrl; [|exact I].
      intros w Hw. repeat (destruct Hw as [<-|Hw]; [inside|]). destruct Hw.
    + unfold in_foot, loop_energy3. destruct (inner3 m i j k) eqn:Eh; [|exact I]. unfold inner3 in Eh.
      cbn [foot]. repeat (split; [inside|try intro]). exact I.
Qed.

(** *** Schedules *)

Lemma det_energy2 inb (body : Z * Z -> prog T) :
  (forall c, energy_foot2 c (body c)) -> deterministic inb [map body (c2 m)].
Proof.
  intros Hf s1 s2 s1' s2' He E1 E2 l. apply execs_one in E1. apply execs_one in E2.
  destruct (parallel_for_spec body (c2 m) (fun _ l => lv l <> IP)
    (fun c l => l = L2 A_U (fst c) (snd c) IP) inb (nodup_range2 _ _)) with (s := s1) (s' := s1') as [A1 F1]; auto.
  { intros c _. apply Hf. }
  { intros i j l' _ _ Hne ->. split; intros X; [|apply X; reflexivity].
    inversion X. apply Hne. destruct i, j; simpl in *; congruence. }
  destruct (parallel_for_spec body (c2 m) (fun _ l => lv l <> IP)
    (fun c l => l = L2 A_U (fst c) (snd c) IP) inb (nodup_range2 _ _)) with (s := s2) (s' := s2') as [A2 F2]; auto.
  { intros c _. apply Hf. }
  { intros i j l' _ _ Hne ->. split; intros X; [|apply X; reflexivity].
    inversion X. apply Hne. destruct i, j; simpl in *; congruence. }
  destruct (loc_eq_dec l (L2 A_U (li l) (lj l) IP)) as [El|El].
  - destruct (in_dec pair_eq_dec (li l, lj l) (c2 m)) as [Hin|Hn].
    + rewrite (A1 (li l, lj l)), (A2 (li l, lj l)) by auto. apply run_ext. auto.
    + rewrite F1, F2; auto; intros [a b] Hin Hl; rewrite Hl in Hn; simpl in Hn; auto.
  - rewrite F1, F2; auto; intros [a b] Hin Hl; apply El; rewrite Hl; reflexivity.
Qed.
Lemma det_energy3 inb (body : Z * Z * Z -> prog T) :
  (forall c, energy_foot3 c (body c)) -> deterministic inb [map body (c3 m)].
Proof.
  intros Hf s1 s2 s1' s2' He E1 E2 l. apply execs_one in E1. apply execs_one in E2.
  destruct (parallel_for_spec body (c3 m) (fun _ l => lv l <> IP)
    (fun c l => l = mkloc A_U (fst (fst c)) (snd (fst c)) (snd c) IP) inb (nodup_range3 _ _ _)) with (s := s1) (s' := s1') as [A1 F1]; auto.
  { intros c _. apply Hf. }
  { intros i j l' _ _ Hne ->. split; intros X; [|apply X; reflexivity].
    inversion X. apply Hne. destruct i as [[? ?] ?], j as [[? ?] ?]; simpl in *; congruence. }
  destruct (parallel_for_spec body (c3 m) (fun _ l => lv l <> IP)
    (fun c l => l = mkloc A_U (fst (fst c)) (snd (fst c)) (snd c) IP) inb (nodup_range3 _ _ _)) with (s := s2) (s' := s2') as [A2 F2]; auto.
  { intros c _. apply Hf. }
  { intros i j l' _ _ Hne ->. split; intros X; [|apply X; reflexivity].
    inversion X. apply Hne. destruct i as [[? ?] ?], j as [[? ?] ?]; simpl in *; congruence. }
  destruct (loc_eq_dec l (mkloc A_U (li l) (lj l) (lk l) IP)) as [El|El].
  - destruct (in_dec cell_eq_dec (li l, lj l, lk l) (c3 m)) as [Hin|Hn].
    + rewrite (A1 (li l, lj l, lk l)), (A2 (li l, lj l, lk l)) by auto. apply run_ext. auto.
    + rewrite F1, F2; auto; intros [[a b] c] Hin Hl; rewrite Hl in Hn; simpl in Hn; auto.
  - rewrite F1, F2; auto; intros [[a b] c] Hin Hl; apply El; rewrite Hl; reflexivity.
Qed.

Lemma det_hydro2 inb name : deterministic inb (init_hydro2 L m S B rnd Q name).
Proof.
  unfold init_hydro2. destruct (problem_hydro2 name);
  first [ apply det_cell2 with (Wa := only_U); apply own_store2
        | apply det_cell2 with (Wa := U_and_G); apply own_rti2 ].
Qed.
Lemma det_hydro3 inb name : deterministic inb (init_hydro3 L m S B rnd Q name).
Proof.
  unfold init_hydro3. destruct (problem_hydro3 name);
  first [ apply det_cell3 with (Wa := only_U); apply own_store3
        | apply det_cell3 with (Wa := U_and_G); apply own_rti3 ].
Qed.
Lemma det_mhd2 inb name : deterministic inb (init_mhd2 L m S B rnd Q name).
Proof.
  unfold init_mhd2. destruct (problem_mhd name);
  try (apply det_cell2 with (Wa := only_U); apply own_store2).
  - apply det_cons; [apply det_cell2 with (Wa := only_U); apply own_store2|].
    apply det_energy2, ot_energy2_foot.
  - apply det_cons; [apply det_cell2 with (Wa := only_pot); apply own_loop_pot2|].
    apply det_cons; [apply det_cell2 with (Wa := only_U); apply own_loop_vars2|].
    apply det_energy2, loop_energy2_foot.
Qed.
Lemma det_mhd3 inb name : deterministic inb (init_mhd3 L m S B rnd Q name).
Proof.
  unfold init_mhd3. destruct (problem_mhd name);
  try (apply det_cell3 with (Wa := only_U); apply own_store3).
  - apply det_cons; [apply det_cell3 with (Wa := only_U); apply own_store3|].
    apply det_energy3, ot_energy3_foot.
  - apply det_cons; [apply det_cell3 with (Wa := only_pot); apply own_loop_pot3|].
    apply det_cons; [apply det_cell3 with (Wa := only_U); apply own_loop_vars3|].
    apply det_energy3, loop_energy3_foot.
Qed.

End Bounds.

(** Hydrodynamics: no access outside the allocated arrays, and the kernels finish.  The
    gravity field must be allocated for Rayleigh-Taylor. *)
Theorem C51_hydro_in_bounds :
  forall (T : Type) (N : Num T) (L : mlib T) m S B rnd Q g iv name s,
  (nbvar m = 4 -> (problem_hydro2 name = RayleighTaylor -> g_enabled g = true) ->
   safes (alloc2d m (nv2 m g iv)) s (init_hydro2 L m S B rnd Q name) /\
   exists s', execs (alloc2d m (nv2 m g iv)) s (init_hydro2 L m S B rnd Q name) s') /\
  (nbvar m = 5 -> (problem_hydro3 name = RayleighTaylor -> g_enabled g = true) ->
   safes (alloc3d m (nv3 m g iv)) s (init_hydro3 L m S B rnd Q name) /\
   exists s', execs (alloc3d m (nv3 m g iv)) s (init_hydro3 L m S B rnd Q name) s').
Proof.
  intros. split; intros Hn Hg;
  (split; [apply in_foot_safes|apply in_foot_execs]); auto using in_hydro2, in_hydro3.
Qed.
Print Assumptions C51_hydro_in_bounds.

(** MHD, with at least one ghost layer; the direction of the Brio-Wu tube is an axis. *)
Theorem C51_mhd_in_bounds :
  forall (T : Type) (N : Num T) (L : mlib T) m S B rnd Q iv name s,
  nbvar m = 8 -> 1 <= gw m -> (problem_mhd name = BrioWu -> 0 <= w_dir (p_briowu Q) < 3) ->
  (safes (alloc2d m (init_nv2 (mnv2 m iv))) s (init_mhd2 L m S B rnd Q name) /\
   exists s', execs (alloc2d m (init_nv2 (mnv2 m iv))) s (init_mhd2 L m S B rnd Q name) s') /\
  (safes (alloc3d m (init_nv3 (mnv3 m iv))) s (init_mhd3 L m S B rnd Q name) /\
   exists s', execs (alloc3d m (init_nv3 (mnv3 m iv))) s (init_mhd3 L m S B rnd Q name) s').
Proof.
  intros. repeat split; (apply in_foot_safes || apply in_foot_execs); auto using in_mhd2, in_mhd3.
Qed.
Print Assumptions C51_mhd_in_bounds.

(** All schedules of the initialisation give the same memory. *)
Theorem C51_same_arrays_under_every_schedule :
  forall (T : Type) (N : Num T) (L : mlib T) m S B rnd Q inb name s s1 s2 Ks,
  In Ks [init_hydro2 L m S B rnd Q name; init_hydro3 L m S B rnd Q name;
         init_mhd2 L m S B rnd Q name; init_mhd3 L m S B rnd Q name] ->
  execs inb s Ks s1 -> execs inb s Ks s2 -> forall l, s1 l = s2 l.
Proof.
  intros T N L m S B rnd Q inb name s s1 s2 Ks HK E1 E2.
  destruct HK as [<-|[<-|[<-|[<-|[]]]]].
  - exact (det_hydro2 L m S B rnd Q inb name s s s1 s2 (fun l => eq_refl) E1 E2).
  - exact (det_hydro3 L m S B rnd Q inb name s s s1 s2 (fun l => eq_refl) E1 E2).
  - exact (det_mhd2 L m S B rnd Q inb name s s s1 s2 (fun l => eq_refl) E1 E2).
  - exact (det_mhd3 L m S B rnd Q inb name s s s1 s2 (fun l => eq_refl) E1 E2).
Qed.
Print Assumptions C51_same_arrays_under_every_schedule.

(** *** Every cell is assigned *)

Lemma assign_in {T} (ws : list (Z * T)) v : In v (map fst ws) ->
  forall o1 o2, assign ws v o1 = assign ws v o2.
Proof.
  induction ws as [|w ws IH]; simpl; [tauto|]. intros [E|Hin] o1 o2.
  - rewrite (proj2 (Z.eqb_eq _ _) E). reflexivity.
  - apply IH. exact Hin.
Qed.
Lemma assign_out {T} (ws : list (Z * T)) v : ~ In v (map fst ws) -> forall o, assign ws v o = o.
Proof.
  induction ws as [|w ws IH]; simpl; [tauto|]. intros Hn o.
  destruct (fst w =? v) eqn:E; [exfalso; apply Hn; left; lia|]. apply IH. tauto.
Qed.

Ltac cover := intros;
  repeat match goal with |- context [if ?b then _ else _] => destruct b end; cbv zeta;
  cbn [map fst In]; unfold ID, IP, IU, IV, IW, IA, IB, IC in *; lia.

(** The Kelvin-Helmholtz functors of the hydrodynamic solver have no branch for
    perturbation_sine alone. *)
Definition kh_on {T} (P : kh_params T) : bool := k_rand P || k_rob P.
Definition kh_on_mhd {T} (P : kh_params T) : bool := k_rand P || k_rob P || k_sine P.

(** The final contents of a variable do not depend on what memory held before: it was
    assigned.  Ghost cells included. *)
Theorem C51_hydro_every_cell_assigned :
  forall (T : Type) (N : Num T) (L : mlib T) m S B rnd Q inb name s1 s2 s1' s2',
  (problem_hydro2 name = KelvinHelmholtz -> kh_on (p_kh Q) = true) ->
  execs inb s1 (init_hydro2 L m S B rnd Q name) s1' ->
  execs inb s2 (init_hydro2 L m S B rnd Q name) s2' ->
  forall i j v, 0 <= i < isize m -> 0 <= j < jsize m -> 0 <= v < 4 ->
  s1' (L2 A_U i j v) = s2' (L2 A_U i j v).
Proof.
  intros T N L m S B rnd Q inb name s1 s2 s1' s2' Hk E1 E2 i j v Hi Hj Hv.
  apply init_hydro2_spec in E1. apply init_hydro2_spec in E2.
  rewrite (proj1 E1), (proj1 E2) by auto. apply assign_in. clear E1 E2.
  destruct (problem_hydro2 name); try (cbn [hydro_stores2]; unfold implode2, blast2, gresho2, four2, vortex2, rti2; cover).
  specialize (Hk eq_refl). unfold kh_on in Hk. cbn [hydro_stores2]. unfold kh2.
  destruct (k_rand (p_kh Q)); [cover|]. destruct (k_rob (p_kh Q)); [cover|discriminate Hk].
Qed.
Print Assumptions C51_hydro_every_cell_assigned.

Theorem C51_hydro3d_every_cell_assigned :
  forall (T : Type) (N : Num T) (L : mlib T) m S B rnd Q inb name s1 s2 s1' s2',
  (problem_hydro3 name = KelvinHelmholtz -> kh_on (p_kh Q) = true) ->
  execs inb s1 (init_hydro3 L m S B rnd Q name) s1' ->
  execs inb s2 (init_hydro3 L m S B rnd Q name) s2' ->
  forall i j k v, 0 <= i < isize m -> 0 <= j < jsize m -> 0 <= k < ksize m -> 0 <= v < 5 ->
  s1' (mkloc A_U i j k v) = s2' (mkloc A_U i j k v).
Proof.
  intros T N L m S B rnd Q inb name s1 s2 s1' s2' Hk E1 E2 i j k v Hi Hj Hk' Hv.
  apply init_hydro3_spec in E1. apply init_hydro3_spec in E2.
  rewrite (proj1 E1), (proj1 E2) by auto. apply assign_in. clear E1 E2.
  destruct (problem_hydro3 name); try (cbn [hydro_stores3]; unfold implode3, blast3, gresho3, four3, rti3; cover).
  specialize (Hk eq_refl). unfold kh_on in Hk. cbn [hydro_stores3]. unfold kh3.
  destruct (k_rand (p_kh Q)); [cover|]. destruct (k_rob (p_kh Q)); [cover|discriminate Hk].
Qed.
Print Assumptions C51_hydro3d_every_cell_assigned.

Lemma problem_mhd_range name :
  In (problem_mhd name) [Blast; Implode; BrioWu; OrszagTang; KelvinHelmholtz; Rotor; FieldLoop].
Proof.
  unfold problem_mhd.
  repeat match goal with |- context [if ?b then _ else _] => destruct b; [simpl; tauto|] end. simpl. tauto.
Qed.

(** What the MHD problems assign.  Exceptions: the z momentum of 2D Kelvin-Helmholtz, the
    energy of Orszag-Tang in the last row and column of ghosts, the ghosts of the field
    loop and its energy in the last physical row and column. *)
Definition mhd_assigned2 {T} (m : mesh) (Q : problems T) (p : problem) (i j v : Z) : Prop :=
  match p with
  | BrioWu => 0 <= w_dir (p_briowu Q) < 2
  | KelvinHelmholtz => kh_on_mhd (p_kh Q) = true /\ v <> IW
  | OrszagTang => v = IP -> i < isize m - 1 /\ j < jsize m - 1
  | FieldLoop => inner2 m i j = true /\ 1 <= gw m /\
      (v = IP -> inner2 m (i + 1) j = true /\ inner2 m i (j + 1) = true)
  | _ => True
  end.
Definition mhd_assigned3 {T} (m : mesh) (Q : problems T) (p : problem) (i j k v : Z) : Prop :=
  match p with
  | BrioWu => 0 <= w_dir (p_briowu Q) < 3
  | KelvinHelmholtz => kh_on_mhd (p_kh Q) = true /\ (k_rand (p_kh Q) = true -> v <> IA /\ v <> IB /\ v <> IC)
  | OrszagTang => 0 <= o_dir (p_ot Q) < 3 /\
      (v = IP -> i < isize m - 1 /\ j < jsize m - 1 /\ k < ksize m - 1)
  | FieldLoop => inner3 m i j k = true /\ 1 <= gw m /\
      (v = IP -> inner3 m (i + 1) j k = true /\ inner3 m i (j + 1) k = true /\ inner3 m i j (k + 1) = true)
  | _ => True
  end.

Lemma mhd_cover2 {T} {N : Num T} (L : mlib T) m S B rnd Q name i j v :
  one_kernel (problem_mhd name) -> 0 <= v < 8 -> mhd_assigned2 m Q (problem_mhd name) i j v ->
  In v (map fst (mhd_stores2 L m S B rnd Q (problem_mhd name) i j)).
Proof.
  intros [O1 O2] Hv Ha. pose proof (problem_mhd_range name) as Hr.
    destruct (problem_mhd name); try (exfalso; simpl in Hr; intuition discriminate); cbn [mhd_stores2 mhd_assigned2] in *; try congruence;
    try (unfold mimplode2, mblast2, mblast_state, rotor2, ot_vars2; cover).
    - destruct Ha as [Ha Hw]. unfold kh_on_mhd in Ha. unfold mkh2, mkh_state2.
      destruct (k_rand (p_kh Q)); [cover|]. destruct (k_rob (p_kh Q)); [cover|].
      destruct (k_sine (p_kh Q)); [cover|discriminate Ha].
    - unfold briowu2.
      assert (D : w_dir (p_briowu Q) = 0 \/ w_dir (p_briowu Q) = 1) by lia.
      destruct D as [-> | ->]; [change ((0 + 1) mod 2) with 1|change ((1 + 1) mod 2) with 0];
      (destruct (_ <=? _)%num; cbn [map fst In]; unfold ID, IP, IU, IV, IW, IA, IB, IC in *; lia).
Qed.
Lemma mhd_cover3 {T} {N : Num T} (L : mlib T) m S B rnd Q name i j k v :
  one_kernel (problem_mhd name) -> 0 <= v < 8 -> mhd_assigned3 m Q (problem_mhd name) i j k v ->
  In v (map fst (mhd_stores3 L m S B rnd Q (problem_mhd name) i j k)).
Proof.
  intros [O1 O2] Hv Ha. pose proof (problem_mhd_range name) as Hr.
    destruct (problem_mhd name); try (exfalso; simpl in Hr; intuition discriminate); cbn [mhd_stores3 mhd_assigned3] in *; try congruence;
    try (unfold mimplode3, mblast3, mblast_state, rotor3; cover).
    - destruct Ha as [Ha Hw]. unfold kh_on_mhd in Ha. unfold mkh3, kh3, mkh_state3.
      destruct (k_rand (p_kh Q)); [specialize (Hw eq_refl); cover|]. destruct (k_rob (p_kh Q)); [cover|].
      destruct (k_sine (p_kh Q)); [cover|discriminate Ha].
    - unfold briowu3.
      assert (D : w_dir (p_briowu Q) = 0 \/ w_dir (p_briowu Q) = 1 \/ w_dir (p_briowu Q) = 2) by lia.
      destruct D as [-> | [-> | ->]];
      [change ((0 + 1) mod 3) with 1; change ((0 + 2) mod 3) with 2
      |change ((1 + 1) mod 3) with 2; change ((1 + 2) mod 3) with 0
      |change ((2 + 1) mod 3) with 0; change ((2 + 2) mod 3) with 1];
      (destruct (_ <=? _)%num; cbn [map fst In]; unfold ID, IP, IU, IV, IW, IA, IB, IC in *; lia).
Qed.

Theorem C51_mhd_every_cell_assigned :
  forall (T : Type) (N : Num T) (L : mlib T) m S B rnd Q inb name s1 s2 s1' s2',
  execs inb s1 (init_mhd2 L m S B rnd Q name) s1' ->
  execs inb s2 (init_mhd2 L m S B rnd Q name) s2' ->
  forall i j v, 0 <= i < isize m -> 0 <= j < jsize m -> 0 <= v < 8 ->
  mhd_assigned2 m Q (problem_mhd name) i j v ->
  s1' (L2 A_U i j v) = s2' (L2 A_U i j v).
Proof.
  intros T N L m S B rnd Q inb name s1 s2 s1' s2' E1 E2 i j v Hi Hj Hv Ha.
  assert (One : one_kernel (problem_mhd name) -> s1' (L2 A_U i j v) = s2' (L2 A_U i j v)).
  { intros O. apply (init_mhd2_spec _ _ _ _ _ _ _ _ _ _ O) in E1.
    apply (init_mhd2_spec _ _ _ _ _ _ _ _ _ _ O) in E2.
    rewrite (proj1 E1), (proj1 E2) by auto. apply assign_in. clear E1 E2.
    apply mhd_cover2; auto. }
  destruct (problem_mhd name) eqn:Ep; try (apply One; split; discriminate); clear One.
  - apply (init_ot2_spec _ _ _ _ _ _ _ _ _ _ Ep) in E1. apply (init_ot2_spec _ _ _ _ _ _ _ _ _ _ Ep) in E2.
    destruct E1 as (A1 & P1 & _), E2 as (A2 & P2 & _).
    assert (A : forall i j v, 0 <= i < isize m -> 0 <= j < jsize m -> 0 <= v < 8 -> v <> IP ->
      s1' (L2 A_U i j v) = s2' (L2 A_U i j v)).
    { intros i' j' v' Hi' Hj' Hv' Hp. rewrite A1, A2 by auto. apply assign_in.
      cbn [mhd_stores2]. unfold ot_vars2. cover. }
    destruct (Z.eq_dec v IP) as [->|Hp]; [|apply A; auto].
    destruct (Ha eq_refl) as [Hi' Hj'].
    rewrite P1, P2 by auto. unfold ot_has2. replace (_ && _) with true by lia.
    unfold ot_e2. rewrite !A by (unfold ID, IP, IU, IV, IW, IA, IB, IC; lia). reflexivity.
  - destruct Ha as (Hin & Hg & Ha).
    apply (init_loop2_spec _ _ _ _ _ _ _ _ _ _ Ep Hg) in E1. apply (init_loop2_spec _ _ _ _ _ _ _ _ _ _ Ep Hg) in E2.
    destruct E1 as (A1 & P1 & _), E2 as (A2 & P2 & _).
    assert (A : forall i j v, inner2 m i j = true -> 0 <= v < 8 -> v <> IP ->
      s1' (L2 A_U i j v) = s2' (L2 A_U i j v)).
    { intros i' j' v' Hin' Hv' Hp. pose proof Hin' as Hc. unfold inner2 in Hc.
      rewrite A1, A2 by (auto; lia). rewrite Hin'. apply assign_in.
      unfold loop_cell2. cover. }
    destruct (Z.eq_dec v IP) as [->|Hp]; [|apply A; auto].
    destruct (Ha eq_refl) as [Hi' Hj'].
    rewrite P1, P2 by auto. rewrite Hin.
    unfold loop_e2. rewrite !A by (auto; unfold ID, IP, IU, IV, IW, IA, IB, IC; lia). reflexivity.
Qed.
Print Assumptions C51_mhd_every_cell_assigned.

Theorem C51_mhd3d_every_cell_assigned :
  forall (T : Type) (N : Num T) (L : mlib T) m S B rnd Q inb name s1 s2 s1' s2',
  execs inb s1 (init_mhd3 L m S B rnd Q name) s1' ->
  execs inb s2 (init_mhd3 L m S B rnd Q name) s2' ->
  forall i j k v, 0 <= i < isize m -> 0 <= j < jsize m -> 0 <= k < ksize m -> 0 <= v < 8 ->
  mhd_assigned3 m Q (problem_mhd name) i j k v ->
  s1' (mkloc A_U i j k v) = s2' (mkloc A_U i j k v).
Proof.
  intros T N L m S B rnd Q inb name s1 s2 s1' s2' E1 E2 i j k v Hi Hj Hk Hv Ha.
  assert (One : one_kernel (problem_mhd name) -> s1' (mkloc A_U i j k v) = s2' (mkloc A_U i j k v)).
  { intros O. apply (init_mhd3_spec _ _ _ _ _ _ _ _ _ _ O) in E1.
    apply (init_mhd3_spec _ _ _ _ _ _ _ _ _ _ O) in E2.
    rewrite (proj1 E1), (proj1 E2) by auto. apply assign_in. clear E1 E2.
    apply mhd_cover3; auto. }
  destruct (problem_mhd name) eqn:Ep; try (apply One; split; discriminate); clear One.
  - apply (init_ot3_spec _ _ _ _ _ _ _ _ _ _ Ep) in E1. apply (init_ot3_spec _ _ _ _ _ _ _ _ _ _ Ep) in E2.
    destruct E1 as (A1 & P1 & _), E2 as (A2 & P2 & _). destruct Ha as [Hd Ha].
    assert (A : forall i j k v, 0 <= i < isize m -> 0 <= j < jsize m -> 0 <= k < ksize m -> 0 <= v < 8 -> v <> IP ->
      s1' (mkloc A_U i j k v) = s2' (mkloc A_U i j k v)).
    { intros i' j' k' v' Hi' Hj' Hk' Hv' Hp. rewrite A1, A2 by auto. apply assign_in.
      cbn [mhd_stores3]. unfold ot_vars3.
      destruct (o_dir (p_ot Q) =? 2) eqn:D2; [cover|]. destruct (o_dir (p_ot Q) =? 0) eqn:D0; [cover|].
      destruct (o_dir (p_ot Q) =? 1) eqn:D1; [cover|lia]. }
    destruct (Z.eq_dec v IP) as [->|Hp]; [|apply A; auto].
    destruct (Ha eq_refl) as (Hi' & Hj' & Hk').
    rewrite P1, P2 by auto. unfold ot_has3. replace (_ && _ && _) with true by lia.
    unfold ot_e3. rewrite !A by (unfold ID, IP, IU, IV, IW, IA, IB, IC; lia). reflexivity.
  - destruct Ha as (Hin & Hg & Ha).
    apply (init_loop3_spec _ _ _ _ _ _ _ _ _ _ Ep Hg) in E1. apply (init_loop3_spec _ _ _ _ _ _ _ _ _ _ Ep Hg) in E2.
    destruct E1 as (A1 & P1 & _), E2 as (A2 & P2 & _).
    assert (A : forall i j k v, inner3 m i j k = true -> 0 <= v < 8 -> v <> IP ->
      s1' (mkloc A_U i j k v) = s2' (mkloc A_U i j k v)).
    { intros i' j' k' v' Hin' Hv' Hp. pose proof Hin' as Hc. unfold inner3 in Hc.
      rewrite A1, A2 by (auto; lia). rewrite Hin'. apply assign_in.
      unfold loop_cell3. cover. }
    destruct (Z.eq_dec v IP) as [->|Hp]; [|apply A; auto].
    destruct (Ha eq_refl) as (Hi' & Hj' & Hk').
    rewrite P1, P2 by auto. rewrite Hin.
    unfold loop_e3. rewrite !A by (auto; unfold ID, IP, IU, IV, IW, IA, IB, IC; lia). reflexivity.
Qed.
Print Assumptions C51_mhd3d_every_cell_assigned.

(** *** Nothing else changes *)

Theorem C51_only_the_state_changes :
  forall (T : Type) (N : Num T) (L : mlib T) m S B rnd Q inb name s s' l,
  la l <> A_U ->
  (execs inb s (init_hydro2 L m S B rnd Q name) s' \/ execs inb s (init_hydro3 L m S B rnd Q name) s' ->
   la l <> A_G -> s' l = s l) /\
  (execs inb s (init_mhd2 L m S B rnd Q name) s' \/ execs inb s (init_mhd3 L m S B rnd Q name) s' ->
   1 <= gw m -> la l <> A_Pot -> s' l = s l).
Proof.
  intros T N L m S B rnd Q inb name s s' l Hl. split.
  - intros [E|E] Hg.
    + apply init_hydro2_spec in E. apply (proj2 (proj2 E)); auto; congruence.
    + apply init_hydro3_spec in E. apply (proj2 (proj2 E)); auto; congruence.
  - intros [E|E] Hg Hp.
    + destruct (problem_mhd name) eqn:Ep.
      9: { apply (init_ot2_spec _ _ _ _ _ _ _ _ _ _ Ep) in E. apply E; auto. }
      10: { apply (init_loop2_spec _ _ _ _ _ _ _ _ _ _ Ep Hg) in E. apply E; auto. }
      all: apply init_mhd2_spec in E; [apply E; auto|rewrite Ep; split; discriminate].
    + destruct (problem_mhd name) eqn:Ep.
      9: { apply (init_ot3_spec _ _ _ _ _ _ _ _ _ _ Ep) in E. apply E; auto. }
      10: { apply (init_loop3_spec _ _ _ _ _ _ _ _ _ _ Ep Hg) in E. apply E; auto. }
      all: apply init_mhd3_spec in E; [apply E; auto|rewrite Ep; split; discriminate].
Qed.
Print Assumptions C51_only_the_state_changes.

(** The gravity field: the constant vector of the parameter file for Rayleigh-Taylor,
    untouched for the other problems. *)
Theorem C51_gravity_field :
  forall (T : Type) (N : Num T) (L : mlib T) m S B rnd Q inb name s s' i j k,
  0 <= i < isize m -> 0 <= j < jsize m -> 0 <= k < ksize m ->
  (execs inb s (init_hydro2 L m S B rnd Q name) s' ->
   (problem_hydro2 name = RayleighTaylor ->
    s' (L2 A_G i j IX) = r_gx (p_rti Q) /\ s' (L2 A_G i j IY) = r_gy (p_rti Q)) /\
   (problem_hydro2 name <> RayleighTaylor -> forall v, s' (L2 A_G i j v) = s (L2 A_G i j v))) /\
  (execs inb s (init_hydro3 L m S B rnd Q name) s' ->
   (problem_hydro3 name = RayleighTaylor ->
    s' (mkloc A_G i j k IX) = r_gx (p_rti Q) /\ s' (mkloc A_G i j k IY) = r_gy (p_rti Q) /\
    s' (mkloc A_G i j k IZ) = r_gz (p_rti Q)) /\
   (problem_hydro3 name <> RayleighTaylor -> forall v, s' (mkloc A_G i j k v) = s (mkloc A_G i j k v))).
Proof.
  intros T N L m S B rnd Q inb name s s' i j k Hi Hj Hk. split; intros E.
  - apply init_hydro2_spec in E. destruct E as (_ & G & F). split; intros Hp.
    + apply G; auto.
    + intros v. apply F; auto. discriminate.
  - apply init_hydro3_spec in E. destruct E as (_ & G & F). split; intros Hp.
    + apply G; auto.
    + intros v. apply F; auto. discriminate.
Qed.
Print Assumptions C51_gravity_field.

(** *** Refuted parts *)

Lemma wrl_faults {T} inb (ws : list (loc * T)) (k : prog T) :
  (exists w, In w ws /\ inb (fst w) = false) ->
  forall s P1 P2, exists s' p, psteps inb (s, P1 ++ wrl ws k :: P2) (s', P1 ++ p :: P2) /\ faulting inb p.
Proof.
  induction ws as [|w ws IH]; intros (x & Hx & Hb) s P1 P2; [destruct Hx|].
  destruct (inb (fst w)) eqn:Ew.
  - destruct Hx as [->|Hx]; [congruence|].
    destruct (IH (ex_intro _ x (conj Hx Hb)) (upd s (fst w) (snd w)) P1 P2) as (s' & p & Hs & Hf).
    exists s', p. split; [|exact Hf]. eapply psteps_step; [|exact Hs].
    destruct w as [l v]. constructor. simpl in *. rewrite Ew. reflexivity.
  - exists s, (wrl (w :: ws) k). split; [apply psteps_refl|]. destruct w. exact Ew.
Qed.
Lemma wrl_unsafe {T} inb (ws : list (loc * T)) k s K :
  In (wrl ws k) K -> (exists w, In w ws /\ inb (fst w) = false) -> ~ safe inb s K.
Proof.
  intros Hin Hw HS. apply in_split in Hin. destruct Hin as (P1 & P2 & ->).
  destruct (wrl_faults inb ws k Hw s P1 P2) as (s' & p & Hs & Hf).
  apply (HS s' (P1 ++ p :: P2) p Hs); [apply in_elt|exact Hf].
Qed.

(** Rayleigh-Taylor with gravity disabled in the parameter file writes to the gravity
    field, which is not allocated. *)
Theorem C51_rayleigh_taylor_without_gravity_refuted :
  forall (T : Type) (N : Num T) (L : mlib T) m S B rnd Q g iv name s,
  1 <= isize m -> 1 <= jsize m -> 1 <= ksize m -> g_enabled g = false ->
  (problem_hydro2 name = RayleighTaylor ->
   ~ safes (alloc2d m (nv2 m g iv)) s (init_hydro2 L m S B rnd Q name)) /\
  (problem_hydro3 name = RayleighTaylor ->
   ~ safes (alloc3d m (nv3 m g iv)) s (init_hydro3 L m S B rnd Q name)).
Proof.
  intros T N L m S B rnd Q g iv name s Hi Hj Hk Hg.
  unfold init_hydro2, init_hydro3. split; intros -> HS; inversion HS as [|? ? ? HK _]; subst; revert HK.
  - eapply wrl_unsafe.
    + apply (in_map (rti_item2 L m S B (p_rti Q)) _ (0, 0)). apply in_range2. lia.
    + eexists. split; [apply in_or_app; right; left; reflexivity|].
      unfold alloc2d, L2. simpl. rewrite Hg. unfold IX. lia.
  - eapply wrl_unsafe.
    + apply (in_map (rti_item3 L m S B (p_rti Q)) _ (0, 0, 0)). apply in_range3. lia.
    + eexists. split; [apply in_or_app; right; left; reflexivity|].
      unfold alloc3d. simpl. rewrite Hg. unfold IX. lia.
Qed.
Print Assumptions C51_rayleigh_taylor_without_gravity_refuted.

(** A Brio-Wu direction above 2 writes beyond the last variable. *)
Theorem C51_brio_wu_direction_refuted :
  forall (T : Type) (N : Num T) (L : mlib T) m S B rnd Q iv name s,
  nbvar m = 8 -> 1 <= isize m -> 1 <= jsize m -> 1 <= ksize m ->
  problem_mhd name = BrioWu -> 3 <= w_dir (p_briowu Q) ->
  ~ safes (alloc2d m (init_nv2 (mnv2 m iv))) s (init_mhd2 L m S B rnd Q name) /\
  ~ safes (alloc3d m (init_nv3 (mnv3 m iv))) s (init_mhd3 L m S B rnd Q name).
Proof.
  intros T N L m S B rnd Q iv name s Hn Hi Hj Hk Hp Hd.
  unfold init_mhd2, init_mhd3. rewrite Hp. split; intros HS; inversion HS as [|? ? ? HK _]; subst; revert HK.
  - eapply wrl_unsafe.
    + apply (in_map (store2 (mhd_stores2 L m S B rnd Q BrioWu)) _ (0, 0)). apply in_range2. lia.
    + exists (L2 A_U 0 0 (IA + w_dir (p_briowu Q)), w_Bx (p_briowu Q)). split.
      * apply in_map_iff. exists (IA + w_dir (p_briowu Q), w_Bx (p_briowu Q)). split; [reflexivity|].
        cbn [mhd_stores2]. unfold briowu2. cbv zeta. destruct (_ <=? _)%num; cbn [In]; tauto.
      * unfold alloc2d, L2. simpl. unfold IA. lia.
  - eapply wrl_unsafe.
    + apply (in_map (store3 (mhd_stores3 L m S B rnd Q BrioWu)) _ (0, 0, 0)). apply in_range3. lia.
    + exists (mkloc A_U 0 0 0 (IA + w_dir (p_briowu Q)), w_Bx (p_briowu Q)). split.
      * apply in_map_iff. exists (IA + w_dir (p_briowu Q), w_Bx (p_briowu Q)). split; [reflexivity|].
        cbn [mhd_stores3]. unfold briowu3. cbv zeta. destruct (_ <=? _)%num; cbn [In]; tauto.
      * unfold alloc3d. simpl. unfold IA. lia.
Qed.
Print Assumptions C51_brio_wu_direction_refuted.

(** Kelvin-Helmholtz with perturbation_sine only: the hydrodynamic solver starts from
    memory as it was allocated (zero density). *)
Theorem C51_kelvin_helmholtz_sine_refuted :
  forall (T : Type) (N : Num T) (L : mlib T) m S B rnd Q inb name s s',
  kh_on (p_kh Q) = false ->
  (problem_hydro2 name = KelvinHelmholtz -> execs inb s (init_hydro2 L m S B rnd Q name) s' ->
   forall i j v, 0 <= i < isize m -> 0 <= j < jsize m -> s' (L2 A_U i j v) = s (L2 A_U i j v)) /\
  (problem_hydro3 name = KelvinHelmholtz -> execs inb s (init_hydro3 L m S B rnd Q name) s' ->
   forall i j k v, 0 <= i < isize m -> 0 <= j < jsize m -> 0 <= k < ksize m ->
   s' (mkloc A_U i j k v) = s (mkloc A_U i j k v)).
Proof.
  intros T N L m S B rnd Q inb name s s' Hk. unfold kh_on in Hk.
  destruct (k_rand (p_kh Q)) eqn:E1; [discriminate|]. destruct (k_rob (p_kh Q)) eqn:E2; [discriminate|].
  split; intros Hp E.
  - apply init_hydro2_spec in E. intros i j v Hi Hj. rewrite (proj1 E), Hp by auto.
    cbn [hydro_stores2]. unfold kh2. rewrite E1, E2. reflexivity.
  - apply init_hydro3_spec in E. intros i j k v Hi Hj Hk'. rewrite (proj1 E), Hp by auto.
    cbn [hydro_stores3]. unfold kh3. rewrite E1, E2. reflexivity.
Qed.
Print Assumptions C51_kelvin_helmholtz_sine_refuted.

(** MHD: the z momentum of 2D Kelvin-Helmholtz, the magnetic field of 3D
    Kelvin-Helmholtz with random perturbations, and the energy of Orszag-Tang in the last
    column and row are not assigned; they keep what memory held. *)
Theorem C51_mhd_not_assigned_refuted :
  forall (T : Type) (N : Num T) (L : mlib T) m S B rnd Q inb name s s',
  (problem_mhd name = KelvinHelmholtz -> execs inb s (init_mhd2 L m S B rnd Q name) s' ->
   forall i j, 0 <= i < isize m -> 0 <= j < jsize m -> s' (L2 A_U i j IW) = s (L2 A_U i j IW)) /\
  (problem_mhd name = KelvinHelmholtz -> k_rand (p_kh Q) = true ->
   execs inb s (init_mhd3 L m S B rnd Q name) s' ->
   forall i j k v, 0 <= i < isize m -> 0 <= j < jsize m -> 0 <= k < ksize m -> In v [IA; IB; IC] ->
   s' (mkloc A_U i j k v) = s (mkloc A_U i j k v)) /\
  (problem_mhd name = OrszagTang -> execs inb s (init_mhd2 L m S B rnd Q name) s' ->
   forall i j, 0 <= i < isize m -> 0 <= j < jsize m -> i = isize m - 1 \/ j = jsize m - 1 ->
   s' (L2 A_U i j IP) = s (L2 A_U i j IP)).
Proof.
  intros T N L m S B rnd Q inb name s s'. split; [|split]; intros Hp.
  - intros E i j Hi Hj.
    apply init_mhd2_spec in E; [|rewrite Hp; split; discriminate].
    rewrite (proj1 E), Hp by auto. apply assign_out. cbn [mhd_stores2]. unfold mkh2, mkh_state2.
    repeat match goal with |- context [if ?b then _ else _] => destruct b end; cbv zeta;
    cbn [map fst In]; unfold ID, IP, IU, IV, IW, IA, IB, IC; lia.
  - intros Hr E i j k v Hi Hj Hk Hv.
    apply init_mhd3_spec in E; [|rewrite Hp; split; discriminate].
    rewrite (proj1 E), Hp by auto. apply assign_out. cbn [mhd_stores3]. unfold mkh3, kh3. rewrite Hr.
    simpl in Hv. cbv zeta. cbn [map fst In]; unfold ID, IP, IU, IV, IW, IA, IB, IC in *; lia.
  - intros E i j Hi Hj He.
    apply (init_ot2_spec _ _ _ _ _ _ _ _ _ _ Hp) in E. destruct E as (_ & E & _).
    rewrite E by auto. unfold ot_has2. replace (_ && _) with false by lia. reflexivity.
Qed.
Print Assumptions C51_mhd_not_assigned_refuted.

(** ** C53 *)

(** The process at position (pi, pj, pk) of a grid of processes, each with the cells of
    [m], and the undivided mesh. *)
Definition undivided (m : mesh) (px py pz : Z) : mesh :=
  mkmesh (nx m * px) (ny m * py) (nz m * pz) (gw m) (nbvar m) (p_mhd m) (bc m).
Definition at_origin {T} (B : box T) : box T :=
  mkbox _ (xmin B) (xmax B) (ymin B) (ymax B) (zmin B) (zmax B) 0 0 0.

(** Index of a cell of the process in the undivided mesh. *)
Definition gi {T} (m : mesh) (B : box T) (i : Z) : Z := i + nx m * pos_i B.
Definition gj {T} (m : mesh) (B : box T) (j : Z) : Z := j + ny m * pos_j B.
Definition gk {T} (m : mesh) (B : box T) (k : Z) : Z := k + nz m * pos_k B.
(** A process of the grid. *)
Definition process_of {T} (m : mesh) (B : box T) (npx npy npz : Z) : Prop :=
  0 <= nx m /\ 0 <= ny m /\ 0 <= nz m /\
  0 <= pos_i B < npx /\ 0 <= pos_j B < npy /\ 0 <= pos_k B < npz.

Section Layout.
Context {T : Type} {N : Num T}.
Variable L : mlib T.
Variable m : mesh.
Variable S : hset T.
Variable B : box T.
Variables npx npy npz : Z.
Variables rnd rndg : nat -> Z -> Z -> Z -> T.
Hypothesis Hp : process_of m B npx npy npz.
Let M := undivided m npx npy npz.
Let O := at_origin B.

Lemma px_global i : px M S O (gi m B i) = px m S B i.
Proof. unfold px, centre, gi. cbn. do 3 f_equal. lia. Qed.
Lemma py_global j : py M S O (gj m B j) = py m S B j.
Proof. unfold py, centre, gj. cbn. do 3 f_equal. lia. Qed.
Lemma pz_global k : pz M S O (gk m B k) = pz m S B k.
Proof. unfold pz, centre, gk. cbn. do 3 f_equal. lia. Qed.
Lemma briowu_pz_global k : ny m = nz m -> briowu_pz M S O (gk m B k) = briowu_pz m S B k.
Proof. intros E. unfold briowu_pz, centre, gk. cbn. do 3 f_equal. lia. Qed.

Lemma inside_global i j k :
  (0 <= i < isize m -> 0 <= gi m B i < isize M) /\
  (0 <= j < jsize m -> 0 <= gj m B j < jsize M) /\
  (0 <= k < ksize m -> 0 <= gk m B k < ksize M).
Proof.
  destruct Hp as (? & ? & ? & ? & ? & ?). unfold isize, jsize, ksize, gi, gj, gk, M, undivided. cbn.
  repeat split; intros; nia.
Qed.

Lemma hydro_global2 Q p i j :
  (forall n, rnd n i j 0 = rndg n (gi m B i) (gj m B j) 0) ->
  hydro_stores2 L M S O rndg Q p (gi m B i) (gj m B j) = hydro_stores2 L m S B rnd Q p i j.
Proof.
  intros Hr. unfold hydro_stores2. rewrite px_global, py_global.
  destruct p; try reflexivity. unfold kh2, draw. rewrite !Hr. reflexivity.
Qed.
Lemma hydro_global3 Q p i j k :
  (forall n, rnd n i j k = rndg n (gi m B i) (gj m B j) (gk m B k)) ->
  hydro_stores3 L M S O rndg Q p (gi m B i) (gj m B j) (gk m B k) = hydro_stores3 L m S B rnd Q p i j k.
Proof.
  intros Hr. unfold hydro_stores3. rewrite px_global, py_global, pz_global.
  destruct p; try reflexivity. unfold kh3, draw. rewrite !Hr. reflexivity.
Qed.
Lemma mhd_global2 Q p i j :
  (forall n, rnd n i j 0 = rndg n (gi m B i) (gj m B j) 0) ->
  mhd_stores2 L M S O rndg Q p (gi m B i) (gj m B j) = mhd_stores2 L m S B rnd Q p i j.
Proof.
  intros Hr. unfold mhd_stores2. rewrite px_global, py_global.
  destruct p; try reflexivity. unfold mkh2, draw. rewrite !Hr. reflexivity.
Qed.
Lemma mhd_global3 Q p i j k :
  (forall n, rnd n i j k = rndg n (gi m B i) (gj m B j) (gk m B k)) ->
  (p = BrioWu -> 0 <= w_dir (p_briowu Q) < 2 \/ ny m = nz m) ->
  mhd_stores3 L M S O rndg Q p (gi m B i) (gj m B j) (gk m B k) = mhd_stores3 L m S B rnd Q p i j k.
Proof.
  intros Hr Hw. unfold mhd_stores3. rewrite px_global, py_global, pz_global.
  destruct p; try reflexivity.
  - unfold mkh3, kh3, draw. rewrite !Hr. reflexivity.
  - destruct (Hw eq_refl) as [Hd|E].
    + unfold briowu3. destruct (Z.eq_dec (w_dir (p_briowu Q)) 0) as [->|]; [reflexivity|].
      replace (w_dir (p_briowu Q)) with 1 by lia. reflexivity.
    + rewrite briowu_pz_global by exact E. reflexivity.
Qed.

Lemma loop_global P i j : loop_at M S O P (gi m B i) (gj m B j) = loop_at m S B P i j.
Proof. unfold loop_at. rewrite px_global, py_global. reflexivity. Qed.
Lemma inner_global2 i j : inner2 m i j = true -> inner2 M (gi m B i) (gj m B j) = true.
Proof.
  destruct Hp as (? & ? & ? & ? & ? & ?). unfold inner2, isize, jsize, gi, gj, M, undivided. cbn.
  intros; nia.
Qed.
Lemma inner_global3 i j k : inner3 m i j k = true -> inner3 M (gi m B i) (gj m B j) (gk m B k) = true.
Proof.
  destruct Hp as (? & ? & ? & ? & ? & ?). unfold inner3, isize, jsize, ksize, gi, gj, gk, M, undivided. cbn.
  intros; nia.
Qed.
End Layout.

(** The numbers a process of a distributed run starts from are those of the run on the
    undivided mesh, ghosts included; the random numbers, if any, are those of the cell. *)
Theorem C53_hydro_layout_free :
  forall (T : Type) (N : Num T) (L : mlib T) m S B npx npy npz rnd rndg Q inb inbg name s sg s' sg',
  process_of m B npx npy npz ->
  (problem_hydro2 name = KelvinHelmholtz -> kh_on (p_kh Q) = true) ->
  (forall n i j, rnd n i j 0 = rndg n (gi m B i) (gj m B j) 0) ->
  execs inb s (init_hydro2 L m S B rnd Q name) s' ->
  execs inbg sg (init_hydro2 L (undivided m npx npy npz) S (at_origin B) rndg Q name) sg' ->
  forall i j v, 0 <= i < isize m -> 0 <= j < jsize m -> 0 <= v < 4 ->
  s' (L2 A_U i j v) = sg' (L2 A_U (gi m B i) (gj m B j) v).
Proof.
  intros T N L m S B npx npy npz rnd rndg Q inb inbg name s sg s' sg' Hp Hk Hr E Eg i j v Hi Hj Hv.
  apply init_hydro2_spec in E. apply init_hydro2_spec in Eg.
  destruct (inside_global m B npx npy npz Hp i j 0) as (HI & HJ & _).
  rewrite (proj1 E), (proj1 Eg) by auto. rewrite (hydro_global2 _ _ _ _ _ _ _ rnd) by auto.
  apply assign_in. clear E Eg.
  destruct (problem_hydro2 name); try (cbn [hydro_stores2]; unfold implode2, blast2, gresho2, four2, vortex2, rti2; cover).
  specialize (Hk eq_refl). unfold kh_on in Hk. cbn [hydro_stores2]. unfold kh2.
  destruct (k_rand (p_kh Q)); [cover|]. destruct (k_rob (p_kh Q)); [cover|discriminate Hk].
Qed.
Print Assumptions C53_hydro_layout_free.

Theorem C53_hydro3d_layout_free :
  forall (T : Type) (N : Num T) (L : mlib T) m S B npx npy npz rnd rndg Q inb inbg name s sg s' sg',
  process_of m B npx npy npz ->
  (problem_hydro3 name = KelvinHelmholtz -> kh_on (p_kh Q) = true) ->
  (forall n i j k, rnd n i j k = rndg n (gi m B i) (gj m B j) (gk m B k)) ->
  execs inb s (init_hydro3 L m S B rnd Q name) s' ->
  execs inbg sg (init_hydro3 L (undivided m npx npy npz) S (at_origin B) rndg Q name) sg' ->
  forall i j k v, 0 <= i < isize m -> 0 <= j < jsize m -> 0 <= k < ksize m -> 0 <= v < 5 ->
  s' (mkloc A_U i j k v) = sg' (mkloc A_U (gi m B i) (gj m B j) (gk m B k) v).
Proof.
  intros T N L m S B npx npy npz rnd rndg Q inb inbg name s sg s' sg' Hp Hk Hr E Eg i j k v Hi Hj Hk' Hv.
  apply init_hydro3_spec in E. apply init_hydro3_spec in Eg.
  destruct (inside_global m B npx npy npz Hp i j k) as (HI & HJ & HK).
  rewrite (proj1 E), (proj1 Eg) by auto. rewrite (hydro_global3 _ _ _ _ _ _ _ rnd) by auto.
  apply assign_in. clear E Eg.
  destruct (problem_hydro3 name); try (cbn [hydro_stores3]; unfold implode3, blast3, gresho3, four3, rti3; cover).
  specialize (Hk eq_refl). unfold kh_on in Hk. cbn [hydro_stores3]. unfold kh3.
  destruct (k_rand (p_kh Q)); [cover|]. destruct (k_rob (p_kh Q)); [cover|discriminate Hk].
Qed.
Print Assumptions C53_hydro3d_layout_free.

(** Any two memories agree where the problem assigns, so the run of a process may be
    compared with the cells of the undivided mesh it stands for.  The z momentum of the
    2D field loop is divided by the diagonal of the cells of one process. *)
Theorem C53_mhd_layout_free :
  forall (T : Type) (N : Num T) (L : mlib T) m S B npx npy npz rnd rndg Q inb inbg name s sg s' sg',
  process_of m B npx npy npz ->
  (forall n i j, rnd n i j 0 = rndg n (gi m B i) (gj m B j) 0) ->
  execs inb s (init_mhd2 L m S B rnd Q name) s' ->
  execs inbg sg (init_mhd2 L (undivided m npx npy npz) S (at_origin B) rndg Q name) sg' ->
  forall i j v, 0 <= i < isize m -> 0 <= j < jsize m -> 0 <= v < 8 ->
  mhd_assigned2 m Q (problem_mhd name) i j v ->
  (problem_mhd name = FieldLoop -> v <> IW) ->
  s' (L2 A_U i j v) = sg' (L2 A_U (gi m B i) (gj m B j) v).
Proof.
  intros T N L m S B npx npy npz rnd rndg Q inb inbg name s sg s' sg' Hp Hr E Eg i j v Hi Hj Hv Ha Hw.
  destruct (inside_global m B npx npy npz Hp i j 0) as (HI & HJ & _).
  specialize (HI Hi). specialize (HJ Hj).
  destruct (problem_mhd name) eqn:Ep.
  9: { apply (init_ot2_spec _ _ _ _ _ _ _ _ _ _ Ep) in E. apply (init_ot2_spec _ _ _ _ _ _ _ _ _ _ Ep) in Eg.
    destruct E as (A1 & P1 & _), Eg as (A2 & P2 & _).
    assert (A : forall i j v, 0 <= i < isize m -> 0 <= j < jsize m -> 0 <= v < 8 -> v <> IP ->
      s' (L2 A_U i j v) = sg' (L2 A_U (gi m B i) (gj m B j) v)).
    { intros i' j' v' Hi' Hj' Hv' Hn.
      destruct (inside_global m B npx npy npz Hp i' j' 0) as (HI' & HJ' & _).
      rewrite A1, A2 by auto. rewrite (mhd_global2 _ _ _ _ _ _ _ rnd) by auto. apply assign_in.
      cbn [mhd_stores2]. unfold ot_vars2. cover. }
    destruct (Z.eq_dec v IP) as [->|Hn]; [|apply A; auto].
    destruct (Ha eq_refl) as [Hi' Hj']. rewrite P1, P2 by auto. unfold ot_has2.
    replace ((i <? isize m - 1) && (j <? jsize m - 1)) with true by lia.
    replace (_ && _) with true.
    2:{ destruct Hp as (? & ? & ? & ? & ? & ?). unfold gi, gj, isize, jsize, undivided in *. cbn in *. nia. }
    unfold ot_e2. rewrite !A by (unfold ID, IP, IU, IV, IW, IA, IB, IC; lia).
    unfold gi, gj. replace (i + 1 + nx m * pos_i B) with (i + nx m * pos_i B + 1) by lia.
    replace (j + 1 + ny m * pos_j B) with (j + ny m * pos_j B + 1) by lia. reflexivity. }
  10: { destruct Ha as (Hin & Hg & Ha).
    apply (init_loop2_spec _ _ _ _ _ _ _ _ _ _ Ep Hg) in E. assert (Hg' : 1 <= gw (undivided m npx npy npz)) by exact Hg.
    apply (init_loop2_spec _ _ _ _ _ _ _ _ _ _ Ep Hg') in Eg.
    destruct E as (A1 & P1 & _), Eg as (A2 & P2 & _).
    assert (A : forall i j v, inner2 m i j = true -> 0 <= v < 8 -> v <> IP -> v <> IW ->
      s' (L2 A_U i j v) = sg' (L2 A_U (gi m B i) (gj m B j) v)).
    { intros i' j' v' Hin' Hv' Hn Hnw. pose proof Hin' as Hc. unfold inner2 in Hc.
      destruct (inside_global m B npx npy npz Hp i' j' 0) as (HI' & HJ' & _).
      rewrite A1 by (auto; lia). rewrite A2 by (auto; (apply HI' || apply HJ'); lia).
      rewrite Hin', (inner_global2 m B npx npy npz Hp _ _ Hin').
      assert (G1 : gi m B i' + 1 = gi m B (i' + 1)) by (unfold gi; lia).
      assert (G2 : gj m B j' + 1 = gj m B (j' + 1)) by (unfold gj; lia).
      unfold loop_cell2. rewrite G1, G2, !loop_global, px_global, py_global. cbn [dx dy].
      cbn [assign fst snd]. replace (IW =? v') with false by lia.
      assert (V : v' = ID \/ v' = IU \/ v' = IV \/ v' = IA \/ v' = IB \/ v' = IC)
        by (unfold ID, IP, IU, IV, IW, IA, IB, IC in *; lia).
      destruct V as [->|[->|[->|[->|[->| ->]]]]]; reflexivity. }
    destruct (Z.eq_dec v IP) as [->|Hn]; [|apply A; auto].
    destruct (Ha eq_refl) as [Hi' Hj']. rewrite P1, P2 by auto.
    rewrite Hin, (inner_global2 m B npx npy npz Hp _ _ Hin).
    unfold loop_e2. rewrite !A by (auto; unfold ID, IP, IU, IV, IW, IA, IB, IC; lia).
    unfold gi, gj. replace (i + 1 + nx m * pos_i B) with (i + nx m * pos_i B + 1) by lia.
    replace (j + 1 + ny m * pos_j B) with (j + ny m * pos_j B + 1) by lia. reflexivity. }
  all: assert (O1 : one_kernel (problem_mhd name)) by (rewrite Ep; split; discriminate);
    apply (init_mhd2_spec _ _ _ _ _ _ _ _ _ _ O1) in E; apply (init_mhd2_spec _ _ _ _ _ _ _ _ _ _ O1) in Eg;
    rewrite (proj1 E), (proj1 Eg) by auto; rewrite (mhd_global2 _ _ _ _ _ _ _ rnd) by auto;
    apply assign_in; clear E Eg; apply mhd_cover2; [exact O1|exact Hv|rewrite Ep; exact Ha].
Qed.
Print Assumptions C53_mhd_layout_free.

(** Brio-Wu along z: only with as many cells along y as along z (or one process along z). *)
Theorem C53_mhd3d_layout_free :
  forall (T : Type) (N : Num T) (L : mlib T) m S B npx npy npz rnd rndg Q inb inbg name s sg s' sg',
  process_of m B npx npy npz ->
  (forall n i j k, rnd n i j k = rndg n (gi m B i) (gj m B j) (gk m B k)) ->
  (problem_mhd name = BrioWu -> w_dir (p_briowu Q) < 2 \/ ny m = nz m) ->
  execs inb s (init_mhd3 L m S B rnd Q name) s' ->
  execs inbg sg (init_mhd3 L (undivided m npx npy npz) S (at_origin B) rndg Q name) sg' ->
  forall i j k v, 0 <= i < isize m -> 0 <= j < jsize m -> 0 <= k < ksize m -> 0 <= v < 8 ->
  mhd_assigned3 m Q (problem_mhd name) i j k v ->
  s' (mkloc A_U i j k v) = sg' (mkloc A_U (gi m B i) (gj m B j) (gk m B k) v).
Proof.
  intros T N L m S B npx npy npz rnd rndg Q inb inbg name s sg s' sg' Hp Hr Hw E Eg i j k v Hi Hj Hk Hv Ha.
  destruct (inside_global m B npx npy npz Hp i j k) as (HI & HJ & HK).
  specialize (HI Hi). specialize (HJ Hj). specialize (HK Hk).
  assert (N1 : forall i, gi m B i + 1 = gi m B (i + 1)) by (intros; unfold gi; lia).
  assert (N2 : forall j, gj m B j + 1 = gj m B (j + 1)) by (intros; unfold gj; lia).
  assert (N3 : forall k, gk m B k + 1 = gk m B (k + 1)) by (intros; unfold gk; lia).
  destruct (problem_mhd name) eqn:Ep.
  9: { apply (init_ot3_spec _ _ _ _ _ _ _ _ _ _ Ep) in E. apply (init_ot3_spec _ _ _ _ _ _ _ _ _ _ Ep) in Eg.
    destruct E as (A1 & P1 & _), Eg as (A2 & P2 & _). destruct Ha as [Hd Ha].
    assert (A : forall i j k v, 0 <= i < isize m -> 0 <= j < jsize m -> 0 <= k < ksize m -> 0 <= v < 8 -> v <> IP ->
      s' (mkloc A_U i j k v) = sg' (mkloc A_U (gi m B i) (gj m B j) (gk m B k) v)).
    { intros i' j' k' v' Hi' Hj' Hk' Hv' Hn.
      destruct (inside_global m B npx npy npz Hp i' j' k') as (HI' & HJ' & HK').
      rewrite A1, A2 by auto. rewrite (mhd_global3 _ _ _ _ _ _ _ rnd) by (auto; discriminate). apply assign_in.
      cbn [mhd_stores3]. unfold ot_vars3.
      destruct (o_dir (p_ot Q) =? 2) eqn:D2; [cover|]. destruct (o_dir (p_ot Q) =? 0) eqn:D0; [cover|].
      destruct (o_dir (p_ot Q) =? 1) eqn:D1; [cover|lia]. }
    destruct (Z.eq_dec v IP) as [->|Hn]; [|apply A; auto].
    destruct (Ha eq_refl) as (Hi' & Hj' & Hk'). rewrite P1, P2 by auto. unfold ot_has3.
    replace ((i <? isize m - 1) && (j <? jsize m - 1) && (k <? ksize m - 1)) with true by lia.
    replace (_ && _ && _) with true.
    2:{ destruct Hp as (? & ? & ? & ? & ? & ?). unfold gi, gj, gk, isize, jsize, ksize, undivided in *. cbn in *. nia. }
    unfold ot_e3. rewrite !N1, !N2, !N3, !A by (unfold ID, IP, IU, IV, IW, IA, IB, IC; lia). reflexivity. }
  10: { destruct Ha as (Hin & Hg & Ha).
    assert (Hg' : 1 <= gw (undivided m npx npy npz)) by exact Hg.
    apply (init_loop3_spec _ _ _ _ _ _ _ _ _ _ Ep Hg) in E. apply (init_loop3_spec _ _ _ _ _ _ _ _ _ _ Ep Hg') in Eg.
    destruct E as (A1 & P1 & _), Eg as (A2 & P2 & _).
    assert (A : forall i j k v, inner3 m i j k = true -> 0 <= v < 8 -> v <> IP ->
      s' (mkloc A_U i j k v) = sg' (mkloc A_U (gi m B i) (gj m B j) (gk m B k) v)).
    { intros i' j' k' v' Hin' Hv' Hn. pose proof Hin' as Hc. unfold inner3 in Hc.
      destruct (inside_global m B npx npy npz Hp i' j' k') as (HI' & HJ' & HK').
      rewrite A1 by (auto; lia). rewrite A2 by (auto; (apply HI' || apply HJ' || apply HK'); lia).
      rewrite Hin', (inner_global3 m B npx npy npz Hp _ _ _ Hin').
      unfold loop_cell3. rewrite !N1, !N2, !loop_global, px_global, py_global.
      assert (V : v' = ID \/ v' = IU \/ v' = IV \/ v' = IW \/ v' = IA \/ v' = IB \/ v' = IC)
        by (unfold ID, IP, IU, IV, IW, IA, IB, IC in *; lia).
      destruct V as [->|[->|[->|[->|[->|[->| ->]]]]]]; reflexivity. }
    destruct (Z.eq_dec v IP) as [->|Hn]; [|apply A; auto].
    destruct (Ha eq_refl) as (Hi' & Hj' & Hk'). rewrite P1, P2 by auto.
    rewrite Hin, (inner_global3 m B npx npy npz Hp _ _ _ Hin).
    unfold loop_e3. rewrite !N1, !N2, !N3, !A by (auto; unfold ID, IP, IU, IV, IW, IA, IB, IC; lia). reflexivity. }
  all: assert (O1 : one_kernel (problem_mhd name)) by (rewrite Ep; split; discriminate);
    apply (init_mhd3_spec _ _ _ _ _ _ _ _ _ _ O1) in E; apply (init_mhd3_spec _ _ _ _ _ _ _ _ _ _ O1) in Eg;
    rewrite (proj1 E), (proj1 Eg) by auto; rewrite (mhd_global3 _ _ _ _ _ _ _ rnd);
    [apply assign_in; apply mhd_cover3; [exact O1|exact Hv|rewrite Ep; exact Ha]|auto
    |rewrite Ep; intros X; try discriminate X; cbn [mhd_assigned3] in Ha; specialize (Hw X); lia].
Qed.
Print Assumptions C53_mhd3d_layout_free.

(** *** Refuted parts *)

(** Brio-Wu along z, more than one process along z: the position is computed with the
    number of cells along y, so a cell on the left of the discontinuity, on the
    undivided mesh too, gets the right state. *)
Theorem C53_brio_wu_z_refuted :
  forall (T : Type) (N : Num T) (L : mlib T) m S B npx npy npz rnd rndg Q inb inbg name s sg s' sg',
  process_of m B npx npy npz -> problem_mhd name = BrioWu -> w_dir (p_briowu Q) = 2 ->
  execs inb s (init_mhd3 L m S B rnd Q name) s' ->
  execs inbg sg (init_mhd3 L (undivided m npx npy npz) S (at_origin B) rndg Q name) sg' ->
  forall i j k, 0 <= i < isize m -> 0 <= j < jsize m -> 0 <= k < ksize m ->
  let P := p_briowu Q in
  (pz m S B k <=? w_xd P)%num = true ->
  (centre (zmin B) (dz S) (nz m) (pos_k B) (gw m) (k + (ny m - nz m) * pos_k B) <=? w_xd P)%num = false ->
  s' (mkloc A_U i j k ID) = w_rhoR P /\ sg' (mkloc A_U (gi m B i) (gj m B j) (gk m B k) ID) = w_rhoL P.
Proof.
  intros T N L m S B npx npy npz rnd rndg Q inb inbg name s sg s' sg' Hp Hn Hd E Eg i j k Hi Hj Hk P HL HR.
  destruct (inside_global m B npx npy npz Hp i j k) as (HI & HJ & HK).
  apply init_mhd3_spec in E; [|rewrite Hn; split; discriminate].
  apply init_mhd3_spec in Eg; [|rewrite Hn; split; discriminate].
  rewrite (proj1 E), (proj1 Eg) by auto. rewrite Hn. cbn [mhd_stores3]. unfold briowu3. rewrite Hd.
  cbv zeta. change (2 =? 0) with false. change (2 =? 1) with false. cbv iota.
  assert (X1 : briowu_pz m S B k = centre (zmin B) (dz S) (nz m) (pos_k B) (gw m) (k + (ny m - nz m) * pos_k B)).
  { unfold briowu_pz, centre. do 3 f_equal. lia. }
  assert (X2 : briowu_pz (undivided m npx npy npz) S (at_origin B) (gk m B k) = pz m S B k).
  { unfold briowu_pz, pz, centre, gk. cbn. do 3 f_equal. lia. }
  rewrite X1, X2. unfold P in *. rewrite HL, HR. split; reflexivity.
Qed.
Print Assumptions C53_brio_wu_z_refuted.
(** Process 1 along z with 4 x 4 x 2 cells of size 2 from 1: centre 6 on the left of
    xd = 7, computed centre 10. *)
Example C53_brio_wu_z_case :
  (centre (H := Znum) 1 2 2 1 0 0 <=? 7 = true)%Z /\
  (centre (H := Znum) 1 2 2 1 0 (0 + (4 - 2) * 1) <=? 7 = false)%Z.
Proof. split; reflexivity. Qed.

(** 2D field loop: with more than one process the z momentum is larger than on the
    undivided mesh, in every physical cell. *)
Theorem C53_field_loop_momentum_refuted :
  forall (L : mlib R) m (S : hset R) B npx npy rnd rndg Q inb inbg name s sg s' sg' i j,
  process_of m B npx npy 1 -> 0 < nx m -> 0 < ny m -> 0 < nz m -> 1 < npx -> 1 <= gw m ->
  problem_mhd name = FieldLoop -> (0 < f_din (p_loop Q))%R -> (0 < f_vflow (p_loop Q))%R ->
  execs inb s (init_mhd2 L m S B rnd Q name) s' ->
  execs inbg sg (init_mhd2 L (undivided m npx npy 1) S (at_origin B) rndg Q name) sg' ->
  inner2 m i j = true ->
  (sg' (L2 A_U (gi m B i) (gj m B j) IW) < s' (L2 A_U i j IW))%R.
Proof.
  intros L m S B npx npy rnd rndg Q inb inbg name s sg s' sg' i j Hp Hx Hy Hz Hnp Hg Ep Hd Hv E Eg Hin.
  assert (Hg' : 1 <= gw (undivided m npx npy 1)) by exact Hg.
  apply (init_loop2_spec _ _ _ _ _ _ _ _ _ _ Ep Hg) in E. apply (init_loop2_spec _ _ _ _ _ _ _ _ _ _ Ep Hg') in Eg.
  destruct E as (A1 & _), Eg as (A2 & _).
  pose proof Hin as Hc. unfold inner2 in Hc.
  destruct (inside_global m B npx npy 1 Hp i j 0) as (HI & HJ & _).
  rewrite A1 by (try discriminate; lia). rewrite A2 by (try discriminate; (apply HI || apply HJ); lia).
  rewrite Hin, (inner_global2 m B npx npy 1 Hp _ _ Hin).
  unfold loop_cell2. rewrite px_global, py_global. cbn [assign fst snd].
  change (ID =? IW) with false; change (IU =? IW) with false; change (IV =? IW) with false;
  change (IW =? IW) with true; change (IA =? IW) with false; change (IB =? IW) with false;
  change (IC =? IW) with false. cbv iota.
  set (d := loop_d _ _ _).
  assert (Hd' : (0 < d)%R) by (unfold d, loop_d; destruct (_ <? _)%num; [exact Hd|Rn; lra]).
  unfold loop_diag. cbn [nx ny nz undivided]. Rn. rewrite !Rmult_1_l.
  replace (nz m * 1) with (nz m) by lia.
  set (k := (d * f_vflow (p_loop Q) * IZR (nz m))%R).
  assert (Hk : (0 < k)%R) by (unfold k; repeat apply Rmult_lt_0_compat; auto; apply (IZR_lt 0); lia).
  set (A := nx m * nx m + ny m * ny m + nz m * nz m).
  set (C := nx m * npx * (nx m * npx) + ny m * npy * (ny m * npy) + nz m * nz m).
  assert (HA : 0 < A) by (unfold A; nia).
  assert (HC : A < C).
  { destruct Hp as (_ & _ & _ & _ & Hpy & _). unfold A, C.
    assert (nx m < nx m * npx) by nia. assert (ny m <= ny m * npy) by nia. nia. }
  assert (SA : (0 < sqrt (IZR A))%R) by (apply sqrt_lt_R0, (IZR_lt 0); lia).
  assert (SC : (sqrt (IZR A) < sqrt (IZR C))%R)
    by (apply sqrt_lt_1; [apply (IZR_le 0); lia|apply (IZR_le 0); lia|apply IZR_lt; lia]).
  unfold Rdiv. apply Rmult_lt_compat_l; [exact Hk|]. apply Rinv_lt_contravar; [nra|exact SC].
Qed.
Print Assumptions C53_field_loop_momentum_refuted.

(** Field loop: in the last physical column of a process that is not the last one the
    energy was computed with the ghost cell's field before it was assigned (zero since
    the allocation), not with the field of the neighbour. *)
Theorem C53_field_loop_energy_refuted :
  forall (L : mlib R) m (S : hset R) B npx npy npz rnd rndg Q inb inbg name s sg s' sg' i j,
  process_of m B npx npy npz -> 1 <= gw m -> problem_mhd name = FieldLoop ->
  execs inb s (init_mhd2 L m S B rnd Q name) s' ->
  execs inbg sg (init_mhd2 L (undivided m npx npy npz) S (at_origin B) rndg Q name) sg' ->
  inner2 m i j = true -> inner2 m (i + 1) j = false -> inner2 m i (j + 1) = true ->
  s (L2 A_U (i + 1) j IA) = 0%R ->
  let a := sg' (L2 A_U (gi m B i) (gj m B j) IA) in
  let a' := sg' (L2 A_U (gi m B i + 1) (gj m B j) IA) in
  (s' (L2 A_U i j IP) = sg' (L2 A_U (gi m B i) (gj m B j) IP) + (a * a - (a + a') * (a + a')) / 8)%R.
Proof.
  intros L m S B npx npy npz rnd rndg Q inb inbg name s sg s' sg' i j Hp Hg Ep E Eg Hin Hout Hup H0 a a'.
  assert (CV : forall i j v, inner2 m i j = true -> 0 <= v < 8 -> v <> IP -> v <> IW ->
    s' (L2 A_U i j v) = sg' (L2 A_U (gi m B i) (gj m B j) v)).
  { intros i' j' v' Hin' Hv' Hn Hnw. pose proof Hin' as Hc. unfold inner2 in Hc.
    eapply (C53_mhd_layout_free R Rnum L m S B npx npy npz (fun _ _ _ _ => 0%R) (fun _ _ _ _ => 0%R));
    [exact Hp|reflexivity| | |lia|lia|exact Hv'|rewrite Ep; cbn; repeat split; auto; congruence|congruence].
    - unfold init_mhd2 in *. rewrite Ep in *. exact E.
    - unfold init_mhd2 in *. rewrite Ep in *. exact Eg. }
  assert (Hg' : 1 <= gw (undivided m npx npy npz)) by exact Hg.
  apply (init_loop2_spec _ _ _ _ _ _ _ _ _ _ Ep Hg) in E. apply (init_loop2_spec _ _ _ _ _ _ _ _ _ _ Ep Hg') in Eg.
  destruct E as (A1 & P1 & _), Eg as (_ & P2 & _).
  pose proof Hin as Hc. unfold inner2 in Hc.
  destruct (inside_global m B npx npy npz Hp i j 0) as (HI & HJ & _).
  rewrite P1 by lia. rewrite P2 by ((apply HI || apply HJ); lia).
  rewrite Hin, (inner_global2 m B npx npy npz Hp _ _ Hin).
  unfold loop_e2. rewrite (A1 (i + 1) j IA) by (try discriminate; lia). rewrite Hout, H0.
  assert (G2 : gj m B j + 1 = gj m B (j + 1)) by (unfold gj; lia).
  rewrite (CV i (j + 1) IB Hup) by (unfold IB, IP, IW; lia). rewrite G2.
  rewrite !CV by (auto; unfold ID, IP, IU, IV, IW, IA, IB, IC; lia).
  fold a a'. unfold sqr. Rn. lra.
Qed.
Print Assumptions C53_field_loop_energy_refuted.

(** *** Concrete cases *)

(** Integers, cells of size 2: a blast of radius 3 around (5,5) in a domain of 8 x 6 cells,
    divided between 2 x 2 processes of 4 x 3 cells with 2 ghost layers. *)
Definition ex_lib : mlib Z := mkmlib Z (fun x => x) (fun x => x) (fun x => x) (fun x => x)
  (fun x _ => x) (fun x _ => x) (fun x => x) 3 6.
Definition ex_gas (d : Z) : gas Z := mkgas d d 0 0 0 0 0 0.
Definition ex_Q : problems Z := mkproblems Z
  (mkimplode Z (ex_gas 8) (ex_gas 1) 0)
  (mkblast Z 3 5 5 5 7 2 30 10 1 2 3 1 2 3)
  (mkkh Z 1 2 3 false true false 4 5 6 2 1 1)
  (mkgresho Z 1 1) (mkquad Z (fun c => mkhs (c + 1) 1 0 0 0) 5 5 5)
  (mkvortex Z 1 1 1 1 0 0 1) (mkrti Z 1 1 2 0 0 0)
  (mkbriowu Z 8 8 0 1 1 1 0 (-1) 1 1 5) (mkot Z 0 2) (mkrotor Z 1 2 1 1 1) (mkloop Z 3 2 1 1).
Definition ex_S : hset Z := mkhset 2 1 1 1 1 1 1 1 R_HLLC 2 2 2.
Definition ex_m : mesh := mkmesh 4 3 1 2 4 false (fun _ => 3).
Definition ex_B : box Z := mkbox Z 0 16 0 12 0 2 1 1 0.

(** The hypotheses of the theorems hold; the cell with centre (9,7), number (2,2) of
    process (1,1) and (6,5) of the undivided mesh, is outside the blast, cell (0,1), centre
    (5,5), is inside. *)
Example C51_C53_case :
  process_of ex_m ex_B 2 2 1 /\ kh_on (p_kh ex_Q) = true /\
  (forall i j, mhd_assigned2 ex_m ex_Q BrioWu i j IP) /\
  (exists s', execs (alloc2d ex_m (nv2 ex_m (mkgravp false false) V0)) (fun _ => 99)
     (init_hydro2 (H := Znum) ex_lib ex_m ex_S ex_B (fun _ _ _ _ => 0) ex_Q "blast") s' /\
     s' (L2 A_U 2 2 ID) = 2 /\ s' (L2 A_U 0 1 ID) = 7 /\ s' (L2 A_U 0 1 IP) = 30) /\
  (exists s', execs (alloc2d (undivided ex_m 2 2 1) (nv2 (undivided ex_m 2 2 1) (mkgravp false false) V0))
     (fun _ => 55)
     (init_hydro2 (H := Znum) ex_lib (undivided ex_m 2 2 1) ex_S (at_origin ex_B)
        (fun _ _ _ _ => 0) ex_Q "blast") s' /\
     s' (L2 A_U 6 5 ID) = 2 /\ s' (L2 A_U 4 4 ID) = 7).
Proof.
  split; [repeat split; simpl; lia|]. split; [reflexivity|]. split; [intros; simpl; lia|].
  split.
  - destruct (C51_hydro_in_bounds Z Znum ex_lib ex_m ex_S ex_B (fun _ _ _ _ => 0) ex_Q (mkgravp false false) V0
      "blast" (fun _ => 99)) as [X _].
    destruct X as [_ [s' E]]; [reflexivity|discriminate|]. exists s'. split; [exact E|].
    apply init_hydro2_spec in E. destruct E as [E _].
    rewrite !E by (unfold isize, jsize; simpl; lia). repeat split; reflexivity.
  - destruct (C51_hydro_in_bounds Z Znum ex_lib (undivided ex_m 2 2 1) ex_S (at_origin ex_B) (fun _ _ _ _ => 0) ex_Q
      (mkgravp false false) V0 "blast" (fun _ => 55)) as [X _].
    destruct X as [_ [s' E]]; [reflexivity|discriminate|]. exists s'. split; [exact E|].
    apply init_hydro2_spec in E. destruct E as [E _].
    rewrite !E by (unfold isize, jsize; simpl; lia). repeat split; reflexivity.
Qed.
