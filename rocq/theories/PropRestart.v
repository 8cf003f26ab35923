(** * C33: checkpoint and restart *)
From Coq Require Import String ZArith List Bool Lia ZifyBool Reals Lra Ascii.
Import ListNotations.
From Verif Require Import Num Exec ExecFacts Grid GridFacts Boundaries BoundariesSpec
  BoundariesFacts BoundariesFill BoundariesNarrow HydroNum Kernels KernelFacts Atomics
  Hydro2D Hydro2DSpec Hydro2DFacts Hydro2DStep Determ Hydro2DRun EulerSpec HydroPhysics
  HydroRiemann PropPhysics Sums Hydro2DLaws Binary64 Doomed PropHydro2D
  Hydro3D Hydro3DSpec Hydro3DFacts Hydro3DStep Hydro3DRun Hydro3DLaws Hydro3DAxes Doomed3 PropHydro3D
  TimeStep TimeStepFacts Driver DriverFacts HydroMachine PropDriver
  MhdNum Mhd2D Mhd2DSpec MhdFacts Mhd2DFacts Mhd2DStep Mhd2DV2 Mhd2DAgree Mhd2DRun
  MhdSpec MhdPhysics Mhd2DLaws Mhd2DDoomed PropMhd2D MhdMachine PropMhdDriver
  Mhd3DNum Mhd3D Mhd3DSpec Mhd3DRun PropMhd3D Mhd3DMachine PropMhd3DDriver
  Config Vtk Hdf5 Hdf5Facts RestartFacts.
From Verif Require Mhd3DStep.
Local Open Scope Z_scope.
Local Notation length := List.length.

(** ** Round trip *)

(** Number of variables of a solver. *)
Definition all_vars (cf : h5conf) : Z := if h_mhd cf then 8 else if h_three cf then 5 else 4.

Lemma fields_all cf v : In v (h5_fields cf) <-> 0 <= v < all_vars cf.
Proof.
  unfold h5_fields, all_vars, ID, IE, IU, IV, IW, IA, IB, IC.
  destruct (h_three cf), (h_mhd cf); cbn; lia.
Qed.

(** Cells that the file contains: the physical ones, or all. *)
Definition on_file (cf : h5conf) (m : mesh) (i j k : Z) : Prop :=
  if h_ghost cf
  then 0 <= i < isize m /\ 0 <= j < jsize m /\ 0 <= k < (if h_three cf then ksize m else 1)
  else gw m <= i < nx m + gw m /\ gw m <= j < ny m + gw m /\
       (if h_three cf then gw m <= k < nz m + gw m else k = 0).

(** Same problem: the memory layout may differ. *)
Definition same_kind (cf cf2 : h5conf) : Prop :=
  h_three cf = h_three cf2 /\ h_mhd cf = h_mhd cf2 /\ h_ghost cf = h_ghost cf2.

Section RoundTrip.
Context {T : Type} {N : Num T}.

Lemma save_sets cf cf2 m (U : Z -> Z -> Z -> Z -> T) n t :
  same_kind cf cf2 -> h5_mesh m -> nbvar m = all_vars cf ->
  exists sets, forall v, In v (h5_fields cf2) -> find_set (h5_save cf m U n t) v = Some (sets v) /\ holds_field cf m U v (sets v).
Proof.
  intros (K1 & K2 & K3) Hm Hn.
  assert (EF : h5_fields cf2 = h5_fields cf) by (unfold h5_fields; rewrite K1, K2; reflexivity).
  exists (fun v => match find_set (h5_save cf m U n t) v with Some d => d | None => mkdataset (0, 0, 0) (fun _ _ _ => None) end).
  intros v Hv. rewrite EF in Hv.
  destruct (write_fields_at cf m Hm U (h5_fields cf)) with (data := blank (T := T)) (v := v) as (ds & A & B); auto.
  { intros w Hw. apply fields_all in Hw. lia. }
  unfold find_set, h5_save. cbn [h_sets]. rewrite A. auto.
Qed.

Lemma load_same cf cf2 m (U : Z -> Z -> Z -> Z -> T) n t :
  same_kind cf cf2 -> h_half cf2 = false -> h5_mesh m -> nbvar m = all_vars cf ->
  exists h, h5_load cf2 m (h5_save cf m U n t) = Some h /\
    forall i j k v, on_file cf m i j k -> 0 <= v < all_vars cf -> h (addr cf2 m i j k v) = Some (U i j k v).
Proof.
  intros K Hh Hm Hn. destruct (save_sets cf cf2 m U n t K Hm Hn) as (sets & HS).
  destruct K as (K1 & K2 & K3).
  assert (EC : load_count cf2 m = save_count cf m).
  { unfold load_count, save_count, nz_rg, ny_rg, nx_rg, nz_r, ny_r, nx_r, gz. rewrite Hh, <- K3, <- K1.
    destruct (h_ghost cf), (h_three cf); reflexivity. }
  assert (EV : all_vars cf2 = all_vars cf) by (unfold all_vars; rewrite K1, K2; reflexivity).
  destruct (load_at cf2 m Hm (h5_save cf m U n t) sets) as (h & A & B).
  { intros v Hv. apply fields_all in Hv. lia. }
  { intros v Hv. destruct (HS v Hv) as (C & D & _). rewrite EC. auto. }
  exists h. split; [exact A|]. intros i j k v Hc Hv.
  destruct (B v) as (dv & (C1 & C2) & D); [apply fields_all; lia|].
  destruct (HS v) as (_ & _ & F); [apply fields_all; lia|].
  assert (Hall : in_all cf2 m k j i).
  { destruct Hm as (? & ? & ? & ?). unfold on_file, in_all, in3, ks, isize, jsize, ksize in *. rewrite <- K1.
    destruct (h_ghost cf), (h_three cf); lia. }
  rewrite D by auto. unfold cell_value. rewrite Hh.
  set (k0 := k - start3 cf m). set (j0 := j - start2 cf m). set (i0 := i - start1 cf m).
  assert (Hcnt : in_count (save_count cf m) k0 j0 i0).
  { unfold k0, j0, i0, on_file, in_count, in3, save_count, start3, start2, start1, save_start, gz, isize, jsize, ksize in *.
    destruct (h_ghost cf), (h_three cf); cbn [fst snd]; lia. }
  replace (i + isize m * (j + jsize m * k)) with (slot cf2 m k0 j0 i0).
  - rewrite C1 by (rewrite EC; exact Hcnt). rewrite F by exact Hcnt. unfold k0, j0, i0.
    do 2 f_equal; lia.
  - unfold slot, k0, j0, i0, lstart3, lstart2, lstart1, start3, start2, start1, load_start, save_start, nx_rg, ny_rg, nx_r, ny_r, gz, isize, jsize.
    rewrite Hh, <- K3, <- K1. destruct (h_ghost cf), (h_three cf); cbn [fst snd]; ring.
Qed.

End RoundTrip.

(** Reading a file back restores every variable of every cell it contains, the
    output counter and the time, on machines of either memory layout. *)
Theorem C33_round_trip :
  forall (T : Type) (N : Num T) cf cf2 m (U : Z -> Z -> Z -> Z -> T) n t a (s : store T),
  same_kind cf cf2 -> h_half cf2 = false -> h5_mesh m -> nbvar m = all_vars cf ->
  let f := h5_save cf m U n t in
  h_step f = n /\ h_time f = t /\
  (exists s', loaded cf2 m f a s s') /\
  forall s', loaded cf2 m f a s s' ->
    (forall i j k v, on_file cf m i j k -> 0 <= v < all_vars cf -> s' (mkloc a i j k v) = U i j k v) /\
    (forall l, la l <> a -> s' l = s l).
Proof.
  intros T N cf cf2 m U n t a s K Hh Hm Hn. cbn zeta. split; [reflexivity|]. split; [reflexivity|].
  destruct (load_same cf cf2 m U n t K Hh Hm Hn) as (h & A & B). split.
  - exists (fun l => if arr_eq_dec (la l) a then match h (addr cf2 m (li l) (lj l) (lk l) (lv l)) with Some x => x | None => s l end else s l).
    exists h. split; [exact A|]. split.
    + intros i j k v _ _ _ _ x Hx. cbn [la li lj lk lv]. destruct (arr_eq_dec a a); [|congruence]. rewrite Hx. reflexivity.
    + intros l Hl. destruct (arr_eq_dec (la l) a); congruence.
  - intros s' (h' & A' & B' & C'). rewrite A in A'. injection A' as <-. split; [|exact C'].
    intros i j k v Hc Hv. apply B'; [| | | |apply B; auto]; destruct K as (K1 & _), Hm as (? & ? & ? & ?);
      unfold on_file, ks, isize, jsize, ksize in *; rewrite ?K1 in *; destruct (h_ghost cf), (h_three cf2); lia.
Qed.
Print Assumptions C33_round_trip.

Lemma eqchars_refl l : eqchars l l = true.
Proof. induction l; cbn [eqchars]; auto. rewrite Ascii.eqb_refl. auto. Qed.

(** The names given to the files are accepted as names of restart files. *)
Lemma name_is_hdf5 dir prefix n : is_hdf5 (h5_name dir prefix n) = true.
Proof.
  unfold is_hdf5, h5_name. set (l := lit ".h5").
  rewrite !app_assoc. set (b := ((((dir ++ lit "/") ++ prefix) ++ lit "_") ++ padded 7 n)).
  rewrite app_length. assert (El : length l = 3%nat) by reflexivity. rewrite El.
  replace (length b + 3 - 3)%nat with (length b) by lia. rewrite skipn_app, skipn_all, Nat.sub_diag. cbn [app skipn].
  rewrite eqchars_refl. lia.
Qed.

(** ** The run goes on as if it had not been interrupted *)

(** Run [tr], [s'] compared from its loop-head state number [k], [x], with run [ztr],
    [z']: same times, time steps, contents of the state, counter of outputs (that of
    the restarted run is one ahead in the first state, since it has rewritten
    the file), and the files of the restarted run are those that the other
    writes from [x] on. *)
Definition same_future {T M D} (P : machine T M D) (DR : D -> D -> Prop) (k : nat)
    (x : sol (T := T) (M := M) (D := D)) (tr : list (sol (T := T) (M := M) (D := D))) (s' : sol (T := T) (M := M) (D := D))
    (ztr : list (sol (T := T) (M := M) (D := D))) (z' : sol (T := T) (M := M) (D := D)) : Prop :=
  length tr = (k + length ztr)%nat /\
  (forall n a b, nth_error tr (k + n) = Some a -> nth_error ztr n = Some b ->
     s_it a = (k + s_it b)%nat /\ s_t a = s_t b /\
     (n <> O -> s_dt a = s_dt b /\ s_saved a = s_saved b) /\
     DR (current P (s_it a) (s_mem a)) (current P (s_it b) (s_mem b))) /\
  s_t s' = s_t z' /\ s_saved s' = s_saved z' /\
  exists later, s_files s' = s_files x ++ later /\ Forall2 (same_file DR) later (s_files z') /\
    exists rest, later = shot P x :: rest.

Section Main.
Context {T : Type} {N : Num T} {M D : Type}.
Variable P : machine T M D.
Variable c : config (T := T).
Implicit Types s x z : sol (T := T) (M := M) (D := D).

Lemma loop_from s tr s1 : loop P c s tr s1 -> forall k x, nth_error tr k = Some x -> loop P c x (skipn k tr) s1.
Proof.
  induction 1 as [s Hf|s y tr s1 Hf Hn Hl IH]; intros [|k] x Hx; cbn in Hx.
  - injection Hx as <-. constructor. auto.
  - destruct k; discriminate.
  - injection Hx as <-. econstructor; eauto.
  - cbn [skipn]. auto.
Qed.

Lemma loop_splice s tr s1 : loop P c s tr s1 -> forall k x tr2 s2, nth_error tr k = Some x -> loop P c x (x :: tr2) s2 ->
  loop P c s (firstn (Datatypes.S k) tr ++ tr2) s2.
Proof.
  induction 1 as [s Hf|s y tr s1 Hf Hn Hl IH]; intros [|k] x tr2 s2 Hx H2; cbn in Hx.
  - injection Hx as <-. exact H2.
  - destruct k; discriminate.
  - injection Hx as <-. exact H2.
  - change (firstn (Datatypes.S (Datatypes.S k)) (s :: tr)) with (s :: firstn (Datatypes.S k) tr). cbn [app]. econstructor; eauto.
Qed.

Lemma all_later_nth p q old old2 Rel DR l : forall l2 n0,
  all_later (M := M) (D := D) (M2 := M) (D2 := D) p q old old2 Rel DR n0 l l2 -> length l = length l2 /\
  forall n a b, nth_error l n = Some a -> nth_error l2 n = Some b -> same_later (T := T) p q old old2 Rel DR (n0 + n) a b.
Proof.
  induction l as [|s l IH]; intros [|z l2] n0 H; cbn in H; try contradiction.
  - split; auto. intros [|n] a b; discriminate.
  - destruct H as [H1 H2]. destruct (IH _ _ H2) as [L1 L2]. split; [cbn; lia|].
    intros [|n] a b Ha Hb; cbn in Ha, Hb.
    + injection Ha as <-. injection Hb as <-. rewrite Nat.add_0_r. auto.
    + replace (n0 + Datatypes.S n)%nat with (Datatypes.S n0 + n)%nat by lia. auto.
Qed.

Context {E : Type}.
Variables rep rep' : nat -> M -> E -> Prop.
Variable dtI : E -> T -> Prop.
Variable stepI : T -> E -> E.
Variable DR : D -> D -> Prop.
Hypothesis HP : represented P rep rep' dtI stepI DR.

Variables x z : sol (T := T) (M := M) (D := D).
Variable mem : M.
Hypothesis Hunf : finished c x = false.
Hypothesis Hsave : saves c x = true.
Hypothesis Hquiet : should_save c (save P x) = false.
Hypothesis Hz : start (s_t x) (s_saved x) mem z.
Hypothesis Hrep : exists u, rep (s_it x) (s_mem x) u /\ rep O mem u.

Let Hz' : s_t z = s_t x /\ s_it z = O /\ s_saved z = s_saved x /\ s_files z = [].
Proof. destruct Hz as (A & B & C & F & _). auto. Qed.
Let Hrep' : both_rep rep (s_it x) O O (s_mem x) (s_mem z).
Proof. destruct Hz as (_ & _ & _ & _ & ->), Hrep as (u & A & B). exists u. rewrite Nat.add_0_r. auto. Qed.

Lemma future tr tr2 s1 ztr z1 : length tr = s_it x ->
  loop P c x (x :: tr2) s1 -> loop P c (main_save P c z) (main_save P c z :: ztr) z1 ->
  all_later (s_it x) O (s_files x) [] (both_rep rep (s_it x) O) DR 1 tr2 ztr ->
  same_later (s_it x) O (s_files x) [] (both_rep rep (s_it x) O) DR (s_it s1 - s_it x) s1 z1 ->
  same_future P DR (s_it x) x (tr ++ x :: tr2) (main_save P c s1) (main_save P c z :: ztr) (main_save P c z1).
Proof.
  intros Hlen HL1 HL2 HA HS. destruct (all_later_nth _ _ _ _ _ _ _ _ _ HA) as [LE LN].
  assert (HSm : same_later (s_it x) O (s_files x) [] (both_rep rep (s_it x) O) DR (s_it s1 - s_it x) (main_save P c s1) (main_save P c z1)).
  { apply later_main_save; auto. intros n a b. eapply off_cur; eauto. }
  destruct (main_save_same P c z) as (M1 & M2 & M3). destruct Hz' as (A & B & C & F).
  split; [rewrite app_length; cbn [length]; lia|]. split.
  { intros n a b. rewrite nth_error_app2 by lia. replace (s_it x + n - length tr)%nat with n by lia.
    destruct n as [|n]; cbn [nth_error]; intros Ha Hb.
    - injection Ha as <-. injection Hb as <-. rewrite M1, M2, M3, A, B. repeat split; auto; try lia; try congruence.
      destruct Hz as (_ & _ & _ & _ & ->), Hrep as (u & R1 & R2). eapply (r_cur _ _ _ _ _ _ HP); eauto.
    - destruct (LN n a b Ha Hb) as ((J1 & J2 & J3 & J4 & J5 & u & R1 & R2) & J6).
      rewrite J1, J2, J3. repeat split; auto. eapply (r_cur _ _ _ _ _ _ HP); eauto. }
  destruct HSm as ((J1 & J2 & J3 & J4 & (new & new2 & F1 & F2 & F3) & J5) & J6).
  split; [auto|]. split; [auto|]. exists new. split; [auto|]. cbn [app] in F2. rewrite <- F2 in F3. split; [auto|].
  destruct (loop_files P c _ _ _ HL1) as (G1 & _).
  assert (ER : exists r, map (shot P) (filter (saves c) (removelast (x :: tr2))) = shot P x :: r).
  { inversion HL1 as [? Hf|? y tr' ? Hf Hn Hl]; subst; [congruence|]. destruct (loop_head P c _ _ _ Hl) as [tl0 ->].
    change (removelast (x :: y :: tl0)) with (x :: removelast (y :: tl0)). cbn [filter]. rewrite Hsave. cbn [map]. eauto. }
  destruct ER as [r Er]. rewrite Er in G1.
  assert (EM : exists r', s_files (main_save P c s1) = s_files x ++ shot P x :: r').
  { unfold main_save. destruct (_ =? _); [rewrite G1; eauto|]. unfold save. cbn [s_files]. rewrite G1, <- app_assoc. cbn [app]. eauto. }
  destruct EM as [r' Er']. exists r'. rewrite Er' in F1. apply app_inv_head in F1. congruence.
Qed.

Lemma resume_main s t0 k0 m0 k tr s' :
  start t0 k0 m0 s -> main P c s tr s' -> nth_error tr k = Some x ->
  (Z.of_nat (length tr) <= c_nStepmax c ->
     exists ztr z', main P c z ztr z' /\ same_future P DR k x tr s' ztr z') /\
  (forall ztr z', main P c z ztr z' -> Z.of_nat (k + length ztr) <= c_nStepmax c ->
     exists tr2 s2, main P c s (firstn (Datatypes.S k) tr ++ tr2) s2 /\
       same_future P DR k x (firstn (Datatypes.S k) tr ++ tr2) s2 ztr z').
Proof.
  intros Hs (s1 & HL & ->) Hx.
  destruct (loop_it P c _ _ _ HL) as (I1 & I2 & I3 & _).
  destruct (main_save_same P c s) as (_ & N2 & _). destruct Hs as (_ & Ei & _). rewrite N2, Ei in *.
  assert (Hk : (k < length tr)%nat) by (apply nth_error_Some; congruence).
  assert (Ek : s_it x = k).
  { rewrite <- (nth_error_nth _ _ s Hx). rewrite I3 by auto. lia. }
  assert (Etr : tr = firstn k tr ++ x :: skipn (Datatypes.S k) tr).
  { rewrite <- (firstn_skipn k tr) at 1. f_equal. clear - Hx. revert tr Hx. induction k as [|k IH]; intros [|y tr] Hx; cbn in *; try discriminate.
    - congruence.
    - auto. }
  assert (EF : firstn (Datatypes.S k) tr = firstn k tr ++ [x]).
  { clear - Hx. revert tr Hx. induction k as [|k IH]; intros [|y tr] Hx; cbn in *; try discriminate.
    - congruence.
    - f_equal. apply IH. auto. }
  pose proof (loop_from _ _ _ HL _ _ Hx) as HLx.
  assert (ES : skipn k tr = x :: skipn (Datatypes.S k) tr).
  { rewrite Etr at 1. rewrite skipn_app, skipn_all2 by (rewrite firstn_length; lia). rewrite firstn_length.
    replace (k - Nat.min k (length tr))%nat with O by lia. reflexivity. }
  rewrite ES in HLx.
  assert (Hlen : length (firstn k tr) = s_it x) by (rewrite firstn_length; lia).
  clear Hk I3. subst k. split.
  - intros Hlim.
    destruct (resume_forward P c rep rep' dtI stepI DR HP x z Hunf Hsave Hquiet Hz' Hrep' _ _ HLx ltac:(lia))
      as (ztr & z1 & A & B & C).
    exists (main_save P c z :: ztr), (main_save P c z1). split; [exists z1; auto|].
    rewrite Etr. apply future; auto.
  - intros ztr z' (z1 & HZ & ->) Hlim.
    destruct (loop_it P c _ _ _ HZ) as (J1 & J2 & _).
    destruct (main_save_same P c z) as (_ & M2 & _). destruct Hz' as (_ & B & _). rewrite M2, B in J1.
    destruct (resume_backward P c rep rep' dtI stepI DR HP x z Hunf Hsave Hquiet Hz' Hrep' _ _ HZ ltac:(lia))
      as (tr2 & s2 & A & HA & HS).
    destruct (loop_head P c _ _ _ HZ) as [tl0 Etl]. subst ztr. cbn [tl] in HA.
    exists tr2, (main_save P c s2). split.
    + exists s2. split; auto. eapply loop_splice; eauto.
    + rewrite EF, <- app_assoc. cbn [app]. apply future; auto.
      destruct HS as ((Q1 & Q2 & Q3) & Q4). replace (s_it s2 - s_it x)%nat with (s_it z1) by lia.
      split; [split; auto|auto].
Qed.

End Main.
(** The program started with run/restart_enabled on a file [name] of [disk]: new
    arrays, [init_restart], rest of the constructor. *)
Definition restart {T} {N : Num T} {D} (cf : h5conf) (m : mesh) (hdf5 reset : bool) (built : store T -> store T -> Prop)
    (name : list ascii) (disk : list ascii -> option (h5file (T := T))) (z : sol (T := T) (M := store T) (D := D)) : Prop :=
  exists tCurrent saved t s0 mem, init_restart cf m hdf5 reset name disk 0 tCurrent zeros saved t s0 /\
    built s0 mem /\ start t saved mem z.

(** A checkpoint: the run is at the loop head in state [x], not at its end, and
    writes a file; the time is not already that of the next output. *)
Definition checkpoint {T} {N : Num T} {M D} (P : machine T M D) (c : config (T := T)) (x : sol (T := T) (M := M) (D := D)) : Prop :=
  finished c x = false /\ saves c x = true /\ should_save c (save P x) = false.

(** From a checkpoint [x] of a run: every run of the program restarted from the
    file [x] is the continuation of an uninterrupted run with the same past, and
    every continuation of the uninterrupted run is a run of the restarted
    program (as long as neither reaches nStepmax). *)
Definition resumes {T} {N : Num T} {M D} (P : machine T M D) (c : config (T := T)) (DR : D -> D -> Prop)
    (s : sol (T := T) (M := M) (D := D)) tr s' k x z : Prop :=
  (Z.of_nat (length tr) <= c_nStepmax c ->
     exists ztr z', main P c z ztr z' /\ same_future P DR k x tr s' ztr z') /\
  (forall ztr z', main P c z ztr z' -> Z.of_nat (k + length ztr) <= c_nStepmax c ->
     exists tr2 s2, main P c s (firstn (Datatypes.S k) tr ++ tr2) s2 /\
       same_future P DR k x (firstn (Datatypes.S k) tr ++ tr2) s2 ztr z').

Lemma restart_start {T} {N : Num T} {D} cf cf2 m built dir prefix disk (U : Z -> Z -> Z -> Z -> T) n t z :
  same_kind cf cf2 -> h_half cf2 = false -> h5_mesh m -> nbvar m = all_vars cf ->
  disk (h5_name dir prefix n) = Some (h5_save cf m U n t) ->
  restart (D := D) cf2 m true false built (h5_name dir prefix n) disk z ->
  exists s0 mem, built s0 mem /\ start t n mem z /\
    (forall i j k v, on_file cf m i j k -> 0 <= v < all_vars cf -> s0 (mkloc A_U i j k v) = U i j k v) /\
    (forall l, la l <> A_U -> s0 l = nZ 0).
Proof.
  intros K Hh Hm Hn Hd (tC & saved & t' & s0 & mem & (t1 & HL & ->) & HB & HS). exists s0, mem.
  unfold load_data in HL. rewrite name_is_hdf5 in HL. cbn [andb] in HL. destruct HL as (f & Ef & HL & -> & ->).
  rewrite Hd in Ef. injection Ef as <-. cbn [h_step h_time h5_save] in HS.
  destruct (C33_round_trip T N cf cf2 m U n t A_U zeros K Hh Hm Hn) as (_ & _ & _ & HR).
  destruct (HR s0 HL) as [R1 R2]. repeat split; auto; apply HS.
Qed.

Lemma wide2_mesh m : wide2 m -> 0 <= nz m -> h5_mesh m.
Proof. intros (Hg & _ & (H1 & _) & _ & (H3 & _) & _) Hz. unfold h5_mesh. lia. Qed.
Lemma wide3_mesh m : wide3 m -> h5_mesh m.
Proof. intros ((Hg & _ & (H1 & _) & _ & (H3 & _) & _) & (H5 & _) & _). unfold h5_mesh. lia. Qed.

(** *** 2D hydro *)

Lemma dt_local2_off {T} {N : Num T} m (S : hset T) g U G G' d : g_enabled g = false ->
  dt_local2 m S g U G d -> dt_local2 m S g U G' d.
Proof. unfold dt_local2. intros ->. auto. Qed.
Lemma step2_off {T} {N : Num T} (S : hset T) g dt U G G' i j v : g_enabled g = false ->
  step2 S g dt U G i j v = step2 S g dt U G' i j v.
Proof. intros E. unfold step2, adv2, FX, FY, face_state. rewrite E. reflexivity. Qed.

Definition blank2 {T} {N : Num T} : field2 T := fun _ _ _ => nZ 0.
Definition blank3 {T} {N : Num T} : field3 T := fun _ _ _ _ => nZ 0.

Lemma same_phys_sym {T} m (u1 u2 : field2 T) : same_phys m u1 u2 -> same_phys m u2 u1.
Proof. intros E i j v Hp Hv. symmetry. auto. Qed.
Lemma same_phys_trans {T} m (u1 u2 u3 : field2 T) : same_phys m u1 u2 -> same_phys m u2 u3 -> same_phys m u1 u3.
Proof. intros E F i j v Hp Hv. rewrite E; auto. Qed.
Lemma same_phys3_sym {T} m (u1 u2 : field3 T) : same_phys3 m u1 u2 -> same_phys3 m u2 u1.
Proof. intros E i j k v Hp Hv. symmetry. auto. Qed.
Lemma same_phys3_trans {T} m (u1 u2 u3 : field3 T) : same_phys3 m u1 u2 -> same_phys3 m u2 u3 -> same_phys3 m u1 u3.
Proof. intros E F i j k v Hp Hv. rewrite E; auto. Qed.

Definition rep2 {T} (m : mesh) (n : nat) (s : store T) (u : field2 T) : Prop := same_phys m (field_of (in_array n) s) u.
Definition rep3 {T} (m : mesh) (n : nat) (s : store T) (u : field3 T) : Prop := same_phys3 m (field_of3 (in_array n) s) u.

Lemma hydro2_represented {T} {N : Num T} m (S : hset T) g iv : ready2 m S -> g_enabled g = false ->
  refines2 m S g (alloc2d m (nv2 m g iv)) iv ->
  represented (hydro2 m S g (alloc2d m (nv2 m g iv)) iv) (rep2 m) (rep2 m)
    (fun u d => dt_local2 m S g u blank2 d) (fun dt u => step2 S g dt (extend m u) blank2) (same_phys m).
Proof.
  intros HR E Href. pose proof HR as (Hw & Hg & Hn & Hs & Hr). split.
  - intros n a u HU. split; [exists a; reflexivity|]. intros a' ->. exact HU.
  - intros n a u d HU. cbn [local_dt hydro2]. split; intros Hd.
    + apply (dt_local2_off _ _ _ _ blank2 _ _ E). revert Hd.
      intros Hd. apply (dt_local2_off _ _ _ _ (field_of A_G a) blank2 _ E) in Hd. revert Hd. apply dt_local2_ext; auto.
    + apply (dt_local2_off _ _ _ _ blank2 _ _ E). revert Hd. apply dt_local2_ext; [apply same_phys_sym; exact HU|auto].
  - intros dt n a u HU. cbn [after hydro2]. split.
    + destruct (C02_steps_in_bounds T N m S g iv n [dt] a HR) as [_ [a' Ha]]. cbn [steps2] in Ha. rewrite app_nil_r in Ha. exists a'. exact Ha.
    + intros a' Hx. destruct (Href dt n a a' Hx) as [A _]. intros i j v Hp Hv.
      change (field_of (in_array (Datatypes.S n)) a') with (field_of (cur (Datatypes.S n)) a').
      rewrite cur_S, A by auto. rewrite (step2_off S g dt _ _ blank2) by auto. apply step_ext; auto.
  - intros n n2 a b u A B. cbn [current hydro2]. eapply same_phys_trans; [exact A|]. apply same_phys_sym. exact B.
  - apply same_phys_sym.
Qed.

Lemma restart_2d {T} {N : Num T} {O : NumOne T} m (S : hset T) g iv c cf cf2 dir prefix disk t0 k0 m0 s tr s' k x z :
  let inb := alloc2d m (nv2 m g iv) in let P := hydro2 m S g inb iv in
  ready2 m S -> 0 <= nz m -> g_enabled g = false -> refines2 m S g inb iv ->
  same_kind cf cf2 -> h_three cf = false -> h_mhd cf = false -> h_half cf2 = false ->
  start t0 k0 m0 s -> main P c s tr s' -> nth_error tr k = Some x -> checkpoint P c x ->
  disk (h5_name dir prefix (s_saved x)) =
    Some (h5_save cf m (fun i j _ v => f_data (shot P x) i j v) (f_number (shot P x)) (f_time (shot P x))) ->
  restart cf2 m true false (built2 m inb) (h5_name dir prefix (s_saved x)) disk z ->
  resumes P c (same_phys m) s tr s' k x z.
Proof.
  intros inb P HR Hz E Href K K1 K2 K3 Hst HM Hx (C1 & C2 & C3) Hd HRe. pose proof HR as (Hw & Hg & Hn & Hs & Hr).
  assert (EV : all_vars cf = 4) by (unfold all_vars; rewrite K1, K2; reflexivity).
  destruct (restart_start cf cf2 m _ dir prefix disk _ _ _ z K K3 (wide2_mesh _ Hw Hz) ltac:(lia) Hd HRe)
    as (s0 & mem & HB & HS & R1 & R2).
  cbn [f_number f_time shot] in HS.
  eapply (resume_main P c (rep2 m) (rep2 m) _ _ (same_phys m) (hydro2_represented m S g iv HR E Href) x z mem C1 C2 C3 HS); eauto.
  exists (field_of (in_array (s_it x)) (s_mem x)). split; [intros i j v _ _; reflexivity|].
  destruct (built2_holds m inb s0 mem Hw ltac:(lia) HB) as [B1 _]. intros i j v Hp Hv.
  rewrite B1 by auto. unfold field_of at 1, L2. rewrite R1; [reflexivity| |lia].
  destruct Hp as [Hi Hj]. unfold on_file. rewrite K1. unfold physical, isize, jsize in *. destruct (h_ghost cf); lia.
Qed.

(** The run restarted from a checkpoint goes through the same states and writes
    the same files as the uninterrupted run, bit for bit: implementations 0 and 1. *)
Theorem C33_restart_2d :
  forall (T : Type) (N : Num T) (O : NumOne T) m (S : hset T) g iv c cf cf2 dir prefix disk t0 k0 m0 s tr s' k x z,
  let inb := alloc2d m (nv2 m g iv) in let P := hydro2 m S g inb iv in
  ready2 m S -> 0 <= nz m -> g_enabled g = false -> iv = V0 \/ iv = V1 ->
  same_kind cf cf2 -> h_three cf = false -> h_mhd cf = false -> h_half cf2 = false ->
  start t0 k0 m0 s -> main P c s tr s' -> nth_error tr k = Some x -> checkpoint P c x ->
  disk (h5_name dir prefix (s_saved x)) =
    Some (h5_save cf m (fun i j _ v => f_data (shot P x) i j v) (f_number (shot P x)) (f_time (shot P x))) ->
  restart cf2 m true false (built2 m inb) (h5_name dir prefix (s_saved x)) disk z ->
  resumes P c (same_phys m) s tr s' k x z.
Proof.
  intros T N O m S g iv c cf cf2 dir prefix disk t0 k0 m0 s tr s' k x z inb P HR Hz E Hiv. apply restart_2d; auto.
  destruct HR as (Hw & Hg & Hn & Hs & Hr). apply refines_V01; auto.
Qed.
Print Assumptions C33_restart_2d.

(** In exact arithmetic for the three implementations. *)
Theorem C33_restart_exact_2d :
  forall m (S : hset R) g iv c cf cf2 dir prefix disk t0 k0 m0 s tr s' k x z,
  let inb := alloc2d m (nv2 m g iv) in let P := hydro2 m S g inb iv in
  ready2 m S -> 0 <= nz m -> g_enabled g = false ->
  same_kind cf cf2 -> h_three cf = false -> h_mhd cf = false -> h_half cf2 = false ->
  start t0 k0 m0 s -> main P c s tr s' -> nth_error tr k = Some x -> checkpoint P c x ->
  disk (h5_name dir prefix (s_saved x)) =
    Some (h5_save cf m (fun i j _ v => f_data (shot P x) i j v) (f_number (shot P x)) (f_time (shot P x))) ->
  restart cf2 m true false (built2 m inb) (h5_name dir prefix (s_saved x)) disk z ->
  resumes P c (same_phys m) s tr s' k x z.
Proof.
  intros m S g iv c cf cf2 dir prefix disk t0 k0 m0 s tr s' k x z inb P HR Hz E. apply restart_2d; auto.
  destruct HR as (Hw & Hg & Hn & Hs & Hr). apply refines_R; auto.
Qed.
Print Assumptions C33_restart_exact_2d.

(** *** 3D hydro *)

Lemma dt_local3_off {T} {N : Num T} m (S : hset T) g U G G' d : g_enabled g = false ->
  dt_local3 m S g U G d -> dt_local3 m S g U G' d.
Proof. unfold dt_local3. intros ->. auto. Qed.
Lemma step3_off {T} {N : Num T} (S : hset T) g dt full U G G' i j k v : g_enabled g = false ->
  step3 S g dt full U G i j k v = step3 S g dt full U G' i j k v.
Proof.
  intros E. unfold step3, adv3, F3, flux3, face_state3, predictor. rewrite E, !andb_false_r. reflexivity.
Qed.

Lemma hydro3_represented {T} {N : Num T} m (S : hset T) g full iv : ready3 m S -> g_enabled g = false ->
  refines3 m S g full (alloc3d m (nv3 m g iv)) iv ->
  represented (hydro3 m S g (alloc3d m (nv3 m g iv)) iv) (rep3 m) (rep3 m)
    (fun u d => dt_local3 m S g u blank3 d) (fun dt u => step3 S g dt full (extend3 m u) blank3) (same_phys3 m).
Proof.
  intros HR E Href. pose proof HR as (Hw & Hg & Hn & Hs & Hr). split.
  - intros n a u HU. split; [exists a; reflexivity|]. intros a' ->. exact HU.
  - intros n a u d HU. cbn [local_dt hydro3]. split; intros Hd.
    + apply (dt_local3_off _ _ _ _ (field_of3 A_G a) blank3 _ E) in Hd. revert Hd. apply dt_local3_ext; auto.
    + apply (dt_local3_off _ _ _ _ blank3 _ _ E). revert Hd. apply dt_local3_ext; [apply same_phys3_sym; exact HU|auto].
  - intros dt n a u HU. cbn [after hydro3]. split.
    + destruct (C02_3d_steps_in_bounds T N m S g iv n [dt] a HR) as [_ [a' Ha]]. cbn [steps3] in Ha. rewrite app_nil_r in Ha. exists a'. exact Ha.
    + intros a' Hx. destruct (Href dt n a a' Hx) as [A _]. intros i j k v Hp Hv.
      change (field_of3 (in_array (Datatypes.S n)) a') with (field_of3 (cur (Datatypes.S n)) a').
      rewrite cur_S, A by auto. rewrite (step3_off S g dt full _ _ blank3) by auto. apply step3_ext; auto.
  - intros n n2 a b u A B. cbn [current hydro3]. eapply same_phys3_trans; [exact A|]. apply same_phys3_sym. exact B.
  - apply same_phys3_sym.
Qed.

Lemma restart_3d {T} {N : Num T} {O : NumOne T} m (S : hset T) g full iv c cf cf2 dir prefix disk t0 k0 m0 s tr s' k x z :
  let inb := alloc3d m (nv3 m g iv) in let P := hydro3 m S g inb iv in
  ready3 m S -> g_enabled g = false -> refines3 m S g full inb iv ->
  same_kind cf cf2 -> h_three cf = true -> h_mhd cf = false -> h_half cf2 = false ->
  start t0 k0 m0 s -> main P c s tr s' -> nth_error tr k = Some x -> checkpoint P c x ->
  disk (h5_name dir prefix (s_saved x)) =
    Some (h5_save cf m (f_data (shot P x)) (f_number (shot P x)) (f_time (shot P x))) ->
  restart cf2 m true false (built3 m inb) (h5_name dir prefix (s_saved x)) disk z ->
  resumes P c (same_phys3 m) s tr s' k x z.
Proof.
  intros inb P HR E Href K K1 K2 K3 Hst HM Hx (C1 & C2 & C3) Hd HRe. pose proof HR as (Hw & Hg & Hn & Hs & Hr).
  assert (EV : all_vars cf = 5) by (unfold all_vars; rewrite K1, K2; reflexivity).
  destruct (restart_start cf cf2 m _ dir prefix disk _ _ _ z K K3 (wide3_mesh _ Hw) ltac:(lia) Hd HRe)
    as (s0 & mem & HB & HS & R1 & R2).
  cbn [f_number f_time shot] in HS.
  eapply (resume_main P c (rep3 m) (rep3 m) _ _ (same_phys3 m) (hydro3_represented m S g full iv HR E Href) x z mem C1 C2 C3 HS); eauto.
  exists (field_of3 (in_array (s_it x)) (s_mem x)). split; [intros i j l v _ _; reflexivity|].
  destruct (built3_holds m inb s0 mem Hw ltac:(lia) HB) as [B1 _]. intros i j l v Hp Hv.
  rewrite B1 by auto. unfold field_of3 at 1. rewrite R1; [reflexivity| |lia].
  destruct Hp as [[Hi Hj] Hk]. unfold on_file. rewrite K1. unfold physical, isize, jsize, ksize in *. destruct (h_ghost cf); lia.
Qed.

Theorem C33_restart_3d :
  forall (T : Type) (N : Num T) (O : NumOne T) m (S : hset T) g iv c cf cf2 dir prefix disk t0 k0 m0 s tr s' k x z,
  let inb := alloc3d m (nv3 m g iv) in let P := hydro3 m S g inb iv in
  ready3 m S -> g_enabled g = false -> iv = V0 \/ iv = V1 ->
  same_kind cf cf2 -> h_three cf = true -> h_mhd cf = false -> h_half cf2 = false ->
  start t0 k0 m0 s -> main P c s tr s' -> nth_error tr k = Some x -> checkpoint P c x ->
  disk (h5_name dir prefix (s_saved x)) =
    Some (h5_save cf m (f_data (shot P x)) (f_number (shot P x)) (f_time (shot P x))) ->
  restart cf2 m true false (built3 m inb) (h5_name dir prefix (s_saved x)) disk z ->
  resumes P c (same_phys3 m) s tr s' k x z.
Proof.
  intros T N O m S g iv c cf cf2 dir prefix disk t0 k0 m0 s tr s' k x z inb P HR E Hiv. apply restart_3d with (full := full_of iv); auto.
  destruct HR as (Hw & Hg & Hn & Hs & Hr). apply refines3_V01; auto.
Qed.
Print Assumptions C33_restart_3d.

Theorem C33_restart_exact_3d :
  forall m (S : hset R) g iv c cf cf2 dir prefix disk t0 k0 m0 s tr s' k x z,
  let inb := alloc3d m (nv3 m g iv) in let P := hydro3 m S g inb iv in
  ready3 m S -> g_enabled g = false ->
  same_kind cf cf2 -> h_three cf = true -> h_mhd cf = false -> h_half cf2 = false ->
  start t0 k0 m0 s -> main P c s tr s' -> nth_error tr k = Some x -> checkpoint P c x ->
  disk (h5_name dir prefix (s_saved x)) =
    Some (h5_save cf m (f_data (shot P x)) (f_number (shot P x)) (f_time (shot P x))) ->
  restart cf2 m true false (built3 m inb) (h5_name dir prefix (s_saved x)) disk z ->
  resumes P c (same_phys3 m) s tr s' k x z.
Proof.
  intros m S g iv c cf cf2 dir prefix disk t0 k0 m0 s tr s' k x z inb P HR E. apply restart_3d with (full := full_of iv); auto.
  destruct HR as (Hw & Hg & Hn & Hs & Hr). apply refines3_R; auto.
Qed.
Print Assumptions C33_restart_exact_3d.

(** *** 2D MHD *)

Lemma msame_sym {T} m (u1 u2 : field2 T) : msame m u1 u2 -> msame m u2 u1.
Proof. intros E i j v Hp Hv. symmetry. auto. Qed.

Lemma mhd2_represented {T} {N : Num T} {O : NumOne T} m (S : hset T) iv : mready2 m S ->
  mscheme_ok m S (alloc2d m (mnv2 m iv)) iv ->
  represented (mhd2 m S (alloc2d m (mnv2 m iv)) iv) (mholds2 m)
    (fun n s u => ready m S (in_array n) (out_array n) (extend m u) s)
    (fun u d => mdt_local2 m S (mQ S (extend m u)) d) (fun dt u => mstep2 S dt (extend m u)) (msame m).
Proof.
  intros HR Hok. pose proof HR as (Hw & Hg & Hn & Hs & Hr).
  assert (HF : forall dt n, Forall (Forall (in_foot (alloc2d m (mnv2 m iv)))) (mgodunov2 m S dt iv (in_array n) (out_array n))).
  { intros dt n. apply mgodunov2_in_foot; auto using io_buffers. }
  split.
  - intros n a u HU. cbn [before mhd2]. split.
    + apply in_foot_execs. specialize (HF n0 n). apply Forall_app in HF. tauto.
    + intros a' Hex. pose proof (mprefix_ready m S (alloc2d m (mnv2 m iv)) Hw Hn _ _ (io_buffers n) a a' Hex) as HP.
      revert HP. apply ready_ext; [|lia]. intros i j v Hc Hv. apply mextend_ext; auto.
  - intros n a u d HU. cbn [local_dt mhd2]. split; apply mdt_local2_ext; intros i j Hp; [|symmetry];
      (eapply ready_Q; [|exact HU|exact Hp]; lia).
  - intros dt n a u HU. cbn [after mhd2]. split.
    + apply in_foot_execs. specialize (HF dt n). apply Forall_app in HF. tauto.
    + intros a' Hx. unfold mholds2. change (in_array (Datatypes.S n)) with (cur (Datatypes.S n)). rewrite cur_S.
      exact (Hok dt n _ a a' HU Hx).
  - intros n n2 a b u A B i j v Hp Hv. cbn [current mhd2]. etransitivity; [exact (A i j v Hp Hv)|]. symmetry. exact (B i j v Hp Hv).
  - apply msame_sym.
Qed.

Lemma restart_mhd {T} {N : Num T} {O : NumOne T} m (S : hset T) iv c cf cf2 dir prefix disk t0 k0 m0 s tr s' k x z :
  let inb := alloc2d m (mnv2 m iv) in let P := mhd2 m S inb iv in
  mready2 m S -> 0 <= nz m -> mscheme_ok m S inb iv ->
  same_kind cf cf2 -> h_three cf = false -> h_mhd cf = true -> h_half cf2 = false ->
  start t0 k0 m0 s -> main P c s tr s' -> nth_error tr k = Some x -> checkpoint P c x ->
  disk (h5_name dir prefix (s_saved x)) =
    Some (h5_save cf m (fun i j _ v => f_data (shot P x) i j v) (f_number (shot P x)) (f_time (shot P x))) ->
  restart cf2 m true false (mbuilt2 m S inb) (h5_name dir prefix (s_saved x)) disk z ->
  resumes P c (msame m) s tr s' k x z.
Proof.
  intros inb P HR Hz Hok K K1 K2 K3 Hst HM Hx (C1 & C2 & C3) Hd HRe. pose proof HR as (Hw & Hg & Hn & Hs & Hr).
  assert (EV : all_vars cf = 8) by (unfold all_vars; rewrite K2; reflexivity).
  destruct (restart_start cf cf2 m _ dir prefix disk _ _ _ z K K3 (wide2_mesh _ Hw Hz) ltac:(lia) Hd HRe)
    as (s0 & mem & HB & HS & R1 & R2).
  cbn [f_number f_time shot] in HS.
  eapply (resume_main P c (mholds2 m) _ _ _ (msame m) (mhd2_represented m S iv HR Hok) x z mem C1 C2 C3 HS); eauto.
  exists (field_of (in_array (s_it x)) (s_mem x)). split; [intros i j v _ _; reflexivity|].
  pose proof (mbuilt2_holds m S inb s0 mem HR HB) as B1. intros i j v Hp Hv.
  rewrite (B1 i j v Hp Hv). unfold field_of at 1, L2. rewrite R1; [reflexivity| |lia].
  destruct Hp as [Hi Hj]. unfold on_file. rewrite K1. unfold physical, isize, jsize in *. destruct (h_ghost cf); lia.
Qed.

Theorem C33_restart_mhd :
  forall (T : Type) (N : Num T) (O : NumOne T) m (S : hset T) c cf cf2 dir prefix disk t0 k0 m0 s tr s' k x z,
  let inb := alloc2d m (mnv2 m V0) in let P := mhd2 m S inb V0 in
  mready2 m S -> 0 <= nz m ->
  same_kind cf cf2 -> h_three cf = false -> h_mhd cf = true -> h_half cf2 = false ->
  start t0 k0 m0 s -> main P c s tr s' -> nth_error tr k = Some x -> checkpoint P c x ->
  disk (h5_name dir prefix (s_saved x)) =
    Some (h5_save cf m (fun i j _ v => f_data (shot P x) i j v) (f_number (shot P x)) (f_time (shot P x))) ->
  restart cf2 m true false (mbuilt2 m S inb) (h5_name dir prefix (s_saved x)) disk z ->
  resumes P c (msame m) s tr s' k x z.
Proof. intros. eapply restart_mhd; eauto using mscheme_ok_V0. Qed.
Print Assumptions C33_restart_mhd.

Theorem C33_restart_exact_mhd :
  forall m (S : hset R) iv c cf cf2 dir prefix disk t0 k0 m0 s tr s' k x z,
  let inb := alloc2d m (mnv2 m iv) in let P := mhd2 m S inb iv in
  mready2 m S -> 0 <= nz m ->
  same_kind cf cf2 -> h_three cf = false -> h_mhd cf = true -> h_half cf2 = false ->
  start t0 k0 m0 s -> main P c s tr s' -> nth_error tr k = Some x -> checkpoint P c x ->
  disk (h5_name dir prefix (s_saved x)) =
    Some (h5_save cf m (fun i j _ v => f_data (shot P x) i j v) (f_number (shot P x)) (f_time (shot P x))) ->
  restart cf2 m true false (mbuilt2 m S inb) (h5_name dir prefix (s_saved x)) disk z ->
  resumes P c (msame m) s tr s' k x z.
Proof. intros. eapply restart_mhd; eauto using mscheme_ok_R. Qed.
Print Assumptions C33_restart_exact_mhd.

(** *** 3D MHD *)

Lemma msame3_sym {T} m (u1 u2 : field3 T) : msame3 m u1 u2 -> msame3 m u2 u1.
Proof. intros E i j k v Hp Hv. symmetry. auto. Qed.

Lemma mhd3_represented {T} {N : Num T} {O : NumOne T} m (S : hset T) iv : mready3 iv m S ->
  mscheme_ok3 m S (alloc3d m (mnv3 m iv)) iv ->
  represented (mhd3 m S (alloc3d m (mnv3 m iv)) iv) (mholds3 m)
    (fun n s u => Mhd3DStep.ready3 m S (in_array n) (out_array n) (extend3 m u) s)
    (fun u d => mdt_local3 m S (mQ3 S (extend3 m u)) d) (fun dt u => mstepv3 iv S dt (extend3 m u)) (msame3 m).
Proof.
  intros HR Hok. pose proof HR as (Hw & Hg & Hn & Hr & Hs).
  assert (HF : forall dt n, Forall (Forall (in_foot (alloc3d m (mnv3 m iv)))) (mgodunov3 m S dt iv (in_array n) (out_array n))).
  { intros dt n. apply mgodunov3_in_foot; auto using io_buffers. }
  split.
  - intros n a u HU. cbn [before mhd3]. split.
    + apply in_foot_execs. specialize (HF n0 n). apply Forall_app in HF. tauto.
    + intros a' Hex. pose proof (mprefix_ready3 m S (alloc3d m (mnv3 m iv)) Hw Hn _ _ (io_buffers n) a a' Hex) as HP.
      revert HP. apply mready3_ext; [|lia]. intros i j k v Hc Hv. apply mextend3_ext; auto.
  - intros n a u d HU. cbn [local_dt mhd3]. split; apply mdt_local3_ext; intros i j k Hp; [|symmetry];
      (eapply mready3_Q; [|exact HU|exact Hp]; lia).
  - intros dt n a u HU. cbn [after mhd3]. split.
    + apply in_foot_execs. specialize (HF dt n). apply Forall_app in HF. tauto.
    + intros a' Hx. unfold mholds3. change (in_array (Datatypes.S n)) with (cur (Datatypes.S n)). rewrite cur_S.
      exact (Hok dt n _ a a' HU Hx).
  - intros n n2 a b u A B i j k v Hp Hv. cbn [current mhd3]. etransitivity; [exact (A i j k v Hp Hv)|]. symmetry. exact (B i j k v Hp Hv).
  - apply msame3_sym.
Qed.

Lemma restart_mhd3d {T} {N : Num T} {O : NumOne T} m (S : hset T) iv c cf cf2 dir prefix disk t0 k0 m0 s tr s' k x z :
  let inb := alloc3d m (mnv3 m iv) in let P := mhd3 m S inb iv in
  mready3 iv m S -> mscheme_ok3 m S inb iv ->
  same_kind cf cf2 -> h_three cf = true -> h_mhd cf = true -> h_half cf2 = false ->
  start t0 k0 m0 s -> main P c s tr s' -> nth_error tr k = Some x -> checkpoint P c x ->
  disk (h5_name dir prefix (s_saved x)) =
    Some (h5_save cf m (f_data (shot P x)) (f_number (shot P x)) (f_time (shot P x))) ->
  restart cf2 m true false (mbuilt3 m S inb) (h5_name dir prefix (s_saved x)) disk z ->
  resumes P c (msame3 m) s tr s' k x z.
Proof.
  intros inb P HR Hok K K1 K2 K3 Hst HM Hx (C1 & C2 & C3) Hd HRe. pose proof HR as (Hw & Hg & Hn & Hr & Hs).
  assert (EV : all_vars cf = 8) by (unfold all_vars; rewrite K2; reflexivity).
  destruct (restart_start cf cf2 m _ dir prefix disk _ _ _ z K K3 (wide3_mesh _ Hw) ltac:(lia) Hd HRe)
    as (s0 & mem & HB & HS & R1 & R2).
  cbn [f_number f_time shot] in HS.
  eapply (resume_main P c (mholds3 m) _ _ _ (msame3 m) (mhd3_represented m S iv HR Hok) x z mem C1 C2 C3 HS); eauto.
  exists (field_of3 (in_array (s_it x)) (s_mem x)). split; [intros i j l v _ _; reflexivity|].
  pose proof (mbuilt3_holds m S iv inb s0 mem HR HB) as B1. intros i j l v Hp Hv.
  rewrite (B1 i j l v Hp Hv). unfold field_of3 at 1. rewrite R1; [reflexivity| |lia].
  destruct Hp as [[Hi Hj] Hk]. unfold on_file. rewrite K1. unfold physical, isize, jsize, ksize in *. destruct (h_ghost cf); lia.
Qed.

Theorem C33_restart_mhd3d :
  forall (T : Type) (N : Num T) (O : NumOne T) m (S : hset T) c cf cf2 dir prefix disk t0 k0 m0 s tr s' k x z,
  let inb := alloc3d m (mnv3 m V0) in let P := mhd3 m S inb V0 in
  mready3 V0 m S ->
  same_kind cf cf2 -> h_three cf = true -> h_mhd cf = true -> h_half cf2 = false ->
  start t0 k0 m0 s -> main P c s tr s' -> nth_error tr k = Some x -> checkpoint P c x ->
  disk (h5_name dir prefix (s_saved x)) =
    Some (h5_save cf m (f_data (shot P x)) (f_number (shot P x)) (f_time (shot P x))) ->
  restart cf2 m true false (mbuilt3 m S inb) (h5_name dir prefix (s_saved x)) disk z ->
  resumes P c (msame3 m) s tr s' k x z.
Proof. intros. eapply restart_mhd3d; eauto using mscheme_ok3_V0. Qed.
Print Assumptions C33_restart_mhd3d.

Theorem C33_restart_exact_mhd3d :
  forall m (S : hset R) iv c cf cf2 dir prefix disk t0 k0 m0 s tr s' k x z,
  let inb := alloc3d m (mnv3 m iv) in let P := mhd3 m S inb iv in
  mready3 iv m S ->
  same_kind cf cf2 -> h_three cf = true -> h_mhd cf = true -> h_half cf2 = false ->
  start t0 k0 m0 s -> main P c s tr s' -> nth_error tr k = Some x -> checkpoint P c x ->
  disk (h5_name dir prefix (s_saved x)) =
    Some (h5_save cf m (f_data (shot P x)) (f_number (shot P x)) (f_time (shot P x))) ->
  restart cf2 m true false (mbuilt3 m S inb) (h5_name dir prefix (s_saved x)) disk z ->
  resumes P c (msame3 m) s tr s' k x z.
Proof. intros. eapply restart_mhd3d; eauto using mscheme_ok3_R. Qed.
Print Assumptions C33_restart_exact_mhd3d.

(** *** The file written before the first step *)

Lemma first_main {T} {N : Num T} {M D E} (P : machine T M D) c rep rep' dtI stepI DR
    (HP : represented (E := E) P rep rep' dtI stepI DR) t0 k0 m0 mem s z u tr s' :
  start t0 k0 m0 s -> start t0 k0 mem z -> s_dt s = s_dt z -> rep O m0 u -> rep O mem u -> main P c s tr s' ->
  exists ztr z', main P c z ztr z' /\
    Forall2 (fun a b => s_it a = s_it b /\ s_t a = s_t b /\ s_dt a = s_dt b /\
                        DR (current P (s_it a) (s_mem a)) (current P (s_it b) (s_mem b))) tr ztr /\
    Forall2 (same_file DR) (s_files s') (s_files z').
Proof.
  intros (A1 & A2 & A3 & A4 & A5) (B1 & B2 & B3 & B4 & B5) Hdt R1 R2 HM.
  assert (HS : same_sol (both_rep rep O O) DR s z).
  { unfold same_sol. rewrite A1, A2, A3, A4, A5, B1, B2, B3, B4, B5. repeat split; auto. exists u. auto. }
  destruct (sim_main P c P (both_rep rep O O) (both_rep rep' O O) DR
    (off_before _ _ _ _ _ _ HP O O) (off_dt _ _ _ _ _ _ HP O O) (off_after _ _ _ _ _ _ HP O O) (off_cur _ _ _ _ _ _ HP O O)
    _ _ _ _ HS HM) as (ztr & z' & C1 & C2 & C3).
  exists ztr, z'. split; [auto|]. split.
  - revert C2. clear - HP. induction 1 as [|a b l l2 (Q1 & Q2 & Q3 & Q4 & Q5 & Q6) H IH]; constructor; auto.
    repeat split; auto. pose proof (off_cur _ _ _ _ _ _ HP O O _ _ _ Q6) as X. cbn in X. rewrite <- Q3. exact X.
  - apply C3.
Qed.

(** Restarted from the file written before the first step, the program repeats
    the whole run. *)
Theorem C33_restart_from_first_file :
  forall (T : Type) (N : Num T) (O : NumOne T) m (S : hset T) g iv c cf cf2 dir prefix disk t0 k0 m0 s tr s' z,
  let inb := alloc2d m (nv2 m g iv) in let P := hydro2 m S g inb iv in
  ready2 m S -> 0 <= nz m -> g_enabled g = false -> iv = V0 \/ iv = V1 ->
  same_kind cf cf2 -> h_three cf = false -> h_mhd cf = false -> h_half cf2 = false ->
  start t0 k0 m0 s -> main P c s tr s' ->
  disk (h5_name dir prefix k0) = Some (h5_save cf m (fun i j _ v => f_data (shot P s) i j v) k0 t0) ->
  restart cf2 m true false (built2 m inb) (h5_name dir prefix k0) disk z -> s_dt z = s_dt s ->
  exists ztr z', main P c z ztr z' /\
    Forall2 (fun a b => s_it a = s_it b /\ s_t a = s_t b /\ s_dt a = s_dt b /\
               same_phys m (field_of (cur (s_it a)) (s_mem a)) (field_of (cur (s_it b)) (s_mem b))) tr ztr /\
    Forall2 (same_file (same_phys m)) (s_files s') (s_files z').
Proof.
  intros T N O m S g iv c cf cf2 dir prefix disk t0 k0 m0 s tr s' z inb P HR Hz E Hiv K K1 K2 K3 Hst HM Hd HRe Hdt.
  pose proof HR as (Hw & Hg & Hn & Hs & Hr).
  assert (EV : all_vars cf = 4) by (unfold all_vars; rewrite K1, K2; reflexivity).
  destruct (restart_start cf cf2 m _ dir prefix disk _ _ _ z K K3 (wide2_mesh _ Hw Hz) ltac:(lia) Hd HRe)
    as (s0 & mem & HB & HS & R1 & R2).
  pose proof Hst as (_ & A2 & _ & _ & A5).
  assert (Href : refines2 m S g inb iv) by (apply refines_V01; auto).
  eapply (first_main P c _ _ _ _ _ (hydro2_represented m S g iv HR E Href)) with (m0 := m0) (mem := mem) (u := field_of A_U m0);
    [exact Hst|exact HS|congruence|intros i j v _ _; reflexivity| |exact HM].
  destruct (built2_holds m inb s0 mem Hw ltac:(lia) HB) as [B1 _]. intros i j v Hp Hv.
  rewrite B1 by auto. unfold field_of at 1, L2. rewrite R1; [|destruct Hp as [Hi Hj]; unfold on_file; rewrite K1; unfold physical, isize, jsize in *; destruct (h_ghost cf); lia|lia].
  cbn [f_data shot]. rewrite A2, A5. reflexivity.
Qed.
Print Assumptions C33_restart_from_first_file.

(** *** What a restart loses *)

(** The gravity field is in no file and nothing sets it after a restart: it is
    zero.  A uniform gas at rest or not, which the uninterrupted run accelerates
    by gx dt, is left unchanged by the step of the restarted run. *)
Lemma step_falls m (S : hset R) g dt (c : Z -> R) u G gx gy i j : wide2 m -> 2 <= gw m -> g_enabled g = true ->
  (forall f, kind_of (bc m f) <> Reflecting) -> (forall i j v, phys2 m i j -> 0 <= v < 4 -> u i j v = c v) ->
  (forall i j, cell2 m i j -> G i j IX = gx /\ G i j IY = gy) -> (smallr S <= c ID)%R -> phys2 m i j ->
  step2 S g dt (extend m u) G i j IU = (c IU + dt * gx * c ID)%R.
Proof.
  intros Hw Hg HE HO HU HG Hr Hp.
  set (G' := fun (_ _ : Z) v => if v =? IX then gx else gy).
  assert (HG' : forall i' j', i - 1 <= i' <= i + 1 -> j - 1 <= j' <= j + 1 -> G i' j' IX = G' i' j' IX /\ G i' j' IY = G' i' j' IY).
  { intros i' j' Hi Hj. apply HG. destruct Hp as [Hp1 Hp2]. unfold cell2, physical in *. lia. }
  assert (Hfc : forall U i0 j0 f, i - 1 <= i0 <= i + 1 -> j - 1 <= j0 <= j + 1 ->
     face_state S g dt (Qf S U) G i0 j0 f = face_state S g dt (Qf S U) G' i0 j0 f).
  { intros U i0 j0 f Hi Hj. unfold face_state. destruct (HG' i0 j0 Hi Hj) as [-> ->]. reflexivity. }
  assert (HA : forall U v, adv2 S g dt U G i j v = adv2 S g dt U G' i j v).
  { intros U v. unfold adv2, FX, FY. rewrite !Hfc by lia. reflexivity. }
  assert (HUc : forall i' j' v, i - 2 <= i' <= i + 2 -> j - 2 <= j' <= j + 2 -> 0 <= v < 4 -> extend m u i' j' v = c v).
  { intros. apply extend_uniform; auto. destruct Hp as [Hp1 Hp2]. unfold cell2, physical in *. lia. }
  assert (HC : forall v, 0 <= v < 4 -> adv2 S g dt (extend m u) G i j v = c v).
  { intros v Hv. rewrite HA, (adv2_ext S g dt (extend m u) (fun _ _ v => c v) G' G') by auto.
    unfold adv2, FX, FY. Rn.
    assert (Ef : forall i j i' j' f, face_state S g dt (Qf S (fun _ _ v => c v)) G' i j f =
                                     face_state S g dt (Qf S (fun _ _ v => c v)) G' i' j' f) by reflexivity.
    rewrite (Ef (i + 1 - 1) j (i - 1) j), (Ef (i + 1) j i j), (Ef i (j + 1 - 1) i (j - 1)), (Ef i (j + 1) i j). ring. }
  unfold step2. rewrite HE. unfold grav_source. rewrite !HC by (unfold ID, IU; lia).
  rewrite HUc by (unfold ID; lia). destruct (HG i j) as [-> _]; [destruct Hp as [Hp1 Hp2]; unfold cell2, physical in *; lia|].
  Rn. unfold nhalf, n1, n2. Rn. rewrite Rmax_right by auto. rewrite Z.eqb_refl. field.
Qed.

Theorem C33_gravity_lost_refuted :
  forall m (S : hset R) g iv (c : Z -> R) gx gy n s cf cf2 dir prefix disk number t D (z : sol (T := R) (D := D)) dt s' z',
  let inb := alloc2d m (nv2 m g iv) in
  ready2 m S -> 0 <= nz m -> g_enabled g = true -> (forall f, kind_of (bc m f) <> Reflecting) ->
  (smallr S <= c ID)%R ->
  (forall i j v, phys2 m i j -> 0 <= v < 4 -> s (L2 (in_array n) i j v) = c v) ->
  (forall i j, cell2 m i j -> s (L2 A_G i j IX) = gx /\ s (L2 A_G i j IY) = gy) ->
  same_kind cf cf2 -> h_three cf = false -> h_mhd cf = false -> h_half cf2 = false ->
  disk (h5_name dir prefix number) = Some (h5_save cf m (fun i j _ v => s (L2 (in_array n) i j v)) number t) ->
  restart cf2 m true false (built2 m inb) (h5_name dir prefix number) disk z ->
  execs inb s (godunov2 m S g dt iv (in_array n) (out_array n)) s' ->
  execs inb (s_mem z) (godunov2 m S g dt iv (in_array 0) (out_array 0)) z' ->
  (forall i j v, s_mem z (L2 A_G i j v) = 0%R) /\
  forall i j, phys2 m i j ->
    s' (L2 (out_array n) i j IU) = (c IU + dt * gx * c ID)%R /\ z' (L2 (out_array 0) i j IU) = c IU.
Proof.
  intros m S g iv c gx gy n s cf cf2 dir prefix disk number t D z dt s' z' inb HR Hz E HO Hc HU HG K K1 K2 K3 Hd HRe X1 X2.
  pose proof HR as (Hw & Hg & Hn & Hs & Hr).
  assert (EV : all_vars cf = 4) by (unfold all_vars; rewrite K1, K2; reflexivity).
  destruct (restart_start cf cf2 m _ dir prefix disk _ _ _ z K K3 (wide2_mesh _ Hw Hz) ltac:(lia) Hd HRe)
    as (s0 & mem & HB & (_ & _ & _ & _ & HS) & R1 & R2). rewrite HS in *.
  destruct (built2_holds m inb s0 mem Hw ltac:(lia) HB) as [B1 B2].
  assert (BG : forall i j v, mem (L2 A_G i j v) = 0%R).
  { intros i j v. rewrite B2. unfold field_of. rewrite R2 by discriminate. reflexivity. }
  split; [exact BG|]. intros i j Hp.
  destruct (refines_R m S g inb iv Hw Hg Hn Hs Hr dt n s s' X1) as [A1 _].
  destruct (refines_R m S g inb iv Hw Hg Hn Hs Hr dt O mem z' X2) as [A2 _].
  split.
  - change (field_of (nxt n) s' i j IU = (c IU + dt * gx * c ID)%R). rewrite A1 by (auto; unfold IU; lia).
    apply step_falls with (gy := gy); auto.
  - change (field_of (nxt O) z' i j IU = c IU). rewrite A2 by (auto; unfold IU; lia).
    rewrite (step_falls m S g dt c _ _ 0 0); auto; [ring| |].
    + intros i' j' v Hp' Hv. change (field_of (cur O) mem i' j' v) with (field_of (in_array O) mem i' j' v). rewrite B1 by auto.
      unfold field_of, L2. rewrite R1; [apply HU; auto| |lia].
      destruct Hp' as [Hi Hj]; unfold on_file; rewrite K1; unfold physical, isize, jsize in *; destruct (h_ghost cf); lia.
    + intros i' j' _. split; apply BG.
Qed.
Print Assumptions C33_gravity_lost_refuted.

(** With one output per step the restarted run writes the checkpoint again under
    the next number, which the uninterrupted run gives to the next step. *)
Theorem C33_output_every_step_refuted :
  forall (T : Type) (N : Num T) M D (P : machine T M D) c t n mem z ztr z',
  c_nOutput c < 0 -> start t n mem z -> finished c z = false -> main P c z ztr z' ->
  exists rest, s_files z' = mkfile n t (current P 0 mem) :: mkfile (n + 1) t (current P 0 mem) :: rest.
Proof.
  intros T N M D P c t n mem z ztr z' Ho (A1 & A2 & A3 & A4 & A5) Hf (z1 & HL & ->).
  assert (En : (c_nOutput c =? 0) = false) by lia.
  unfold main_save in *. rewrite En in *.
  destruct (loop_files P c _ _ _ HL) as (F & _).
  inversion HL as [? Hf'|? y tr' ? Hf' Hn Hl]; subst.
  - exfalso. unfold finished in *. cbn in Hf'. congruence.
  - destruct (loop_head P c _ _ _ Hl) as [tl0 ->].
    change (removelast (save P z :: y :: tl0)) with (save P z :: removelast (y :: tl0)) in F. cbn [filter] in F.
    assert (ES : saves c (save P z) = true).
    { unfold saves, should_save, enable_output. rewrite En. replace (c_nOutput c <? 0) with true by lia. reflexivity. }
    rewrite ES in F. unfold save at 1. cbn [s_files]. rewrite F. unfold shot. cbn [map save s_files s_t s_it s_mem s_saved app].
    rewrite A2, A4. cbn [app]. eexists. reflexivity.
Qed.
Print Assumptions C33_output_every_step_refuted.

Lemma loop_saved {T} {N : Num T} {M D} (P : machine T M D) c s tr s' : loop P c s tr s' ->
  forall y, In y tr -> s_saved s <= s_saved y.
Proof.
  induction 1 as [s Hf|s s1 tr s' Hf Hn Hl IH]; intros y [<-|Hy]; try lia; [destruct Hy|].
  specialize (IH _ Hy). destruct Hn as (_ & m1 & d & m2 & _ & _ & _ & ->). cbn [s_saved] in IH.
  unfold maybe_save in IH. destruct (_ && _); cbn [save s_saved] in IH; lia.
Qed.

(** With the option that resets the time, the number of the file is kept: the
    restarted run writes nothing at the multiples of tEnd / nOutput that the
    number has passed, up to time (n + 1) tEnd / nOutput. *)
Theorem C33_reset_time_refuted :
  forall cf m built name disk (f : h5file (T := R)) D (P : machine R (store R) D) c z ztr z',
  is_hdf5 name = true -> disk name = Some f -> restart cf m true true built name disk z ->
  0 < c_nOutput c -> main P c z ztr z' ->
  s_t z = 0%R /\ s_saved z = h_step f /\
  forall y, In y ztr -> (s_t y <= IZR (h_step f + 1) * (c_tEnd c / IZR (c_nOutput c)))%R -> (0 < c_tEnd c)%R ->
    (1 / IZR (10 ^ 12) <= Rabs (s_t y - c_tEnd c))%R -> saves c y = false.
Proof.
  intros cf m built name disk f D P c z ztr z' Hn Hd (tC & sv & t & s0 & mem & (t1 & HL & ->) & _ & HS) Ho (z1 & HM & _).
  unfold load_data in HL. rewrite Hn in HL. cbn [andb] in HL. destruct HL as (f' & Ef & _ & -> & ->).
  rewrite Hd in Ef. injection Ef as <-. destruct HS as (A1 & A2 & A3 & A4 & A5).
  split; [exact A1|]. split; [exact A3|]. intros y Hy Ht Hpos Habs.
  pose proof (loop_saved P c _ _ _ HM y Hy) as Hge.
  unfold main_save in Hge. replace (c_nOutput c =? 0) with false in Hge by lia. cbn [save s_saved] in Hge. rewrite A3 in Hge.
  unfold saves, should_save. replace (c_nOutput c <? 0) with false by lia. cbn [orb].
  apply andb_false_intro2. apply orb_false_intro.
  - cbn [nltb Rnum nsub nmul nZ ndiv]. destruct (Rlt_dec _ _) as [Hlt|]; [exfalso|reflexivity].
    assert (Hi : (0 < c_tEnd c / IZR (c_nOutput c))%R) by (apply Rdiv_lt_0_compat; auto; apply IZR_lt; lia).
    assert (Hs : (IZR (h_step f + 1) <= IZR (s_saved y - 1) + 1)%R) by (rewrite <- (plus_IZR _ 1); apply IZR_le; lia).
    apply Rmult_le_compat_r with (r := (c_tEnd c / IZR (c_nOutput c))%R) in Hs; [|lra].
    rewrite Rmult_plus_distr_r in Hs. lra.
  - unfold eps_fuzzy, n1. cbn [nltb Rnum nsub nabs nZ ndiv]. destruct (Rlt_dec _ _) as [Hlt|]; [lra|reflexivity].
Qed.
Print Assumptions C33_reset_time_refuted.

(** A restart whose file is not an HDF5 file by its name, or in a program built
    without HDF5, goes on silently with zeros everywhere. *)
Theorem C33_restart_without_reader_refuted :
  forall (T : Type) (N : Num T) (O : NumOne T) cf m hdf5 reset inb name disk D (z : sol (T := T) (D := D)),
  wide2 m -> 0 <= nbvar m -> hdf5 && is_hdf5 name = false ->
  restart cf m hdf5 reset (built2 m inb) name disk z ->
  s_saved z = 0 /\ forall i j v, phys2 m i j -> 0 <= v < 4 -> s_mem z (L2 A_U i j v) = nZ 0.
Proof.
  intros T N O cf m hdf5 reset inb name disk D z Hw Hn HF (tC & sv & t & s0 & mem & (t1 & HL & ->) & HB & HS).
  unfold load_data in HL. rewrite HF in HL. destruct HL as (-> & -> & ->). destruct HS as (A1 & A2 & A3 & A4 & A5).
  split; [exact A3|]. intros i j v Hp Hv. rewrite A5. destruct (built2_holds m inb zeros mem Hw Hn HB) as [B1 _].
  change (field_of (in_array 0) mem i j v = nZ 0). rewrite B1 by auto. reflexivity.
Qed.
Print Assumptions C33_restart_without_reader_refuted.

(** *** Cases meeting the hypotheses *)

(** A run from time 3/5 to 1 with two outputs: its first state is a checkpoint,
    the program can be restarted from its file, and the restarted run exists. *)
Definition ex_h5 : h5conf := mkh5conf false false true false LayoutLeft.

Example C33_case_2d : forall iv (s0 : store R), exists mem s tr s' x z disk name,
  let inb := alloc2d ex_mesh2 (nv2 ex_mesh2 no_gravity iv) in
  let P := hydro2 ex_mesh2 (ex_set R_HLLC 1) no_gravity inb iv in
  ready2 ex_mesh2 (ex_set R_HLLC 1) /\ 0 <= nz ex_mesh2 /\ built2 ex_mesh2 inb s0 mem /\ start (3 / 5)%R 0 mem s /\
  main P ex_config s tr s' /\ nth_error tr 0 = Some x /\ checkpoint P ex_config x /\
  name = h5_name (lit "./") (lit "test") (s_saved x) /\
  disk name = Some (h5_save ex_h5 ex_mesh2 (fun i j _ v => f_data (shot P x) i j v) (f_number (shot P x)) (f_time (shot P x))) /\
  restart ex_h5 ex_mesh2 true false (built2 ex_mesh2 inb) name disk z /\
  resumes P ex_config (same_phys ex_mesh2) s tr s' 0 x z.
Proof.
  intros iv s0. set (inb := alloc2d ex_mesh2 (nv2 ex_mesh2 no_gravity iv)).
  assert (HR : ready2 ex_mesh2 (ex_set R_HLLC 1)) by (apply ex_ready2; [discriminate|simpl; auto]).
  assert (HF : Forall (Forall (in_foot inb)) (make_boundaries2d ex_mesh2 A_U ++ [deep_copy2 (T := R) ex_mesh2 A_U2 A_U])).
  { destruct HR as (Hw & Hg & Hn & Hs & Hr).
    pose proof (godunov2_in_foot ex_mesh2 (ex_set R_HLLC 1) no_gravity 1%R Hs Hr Hw Hg Hn A_U A_U2
                 (or_introl (conj eq_refl eq_refl)) iv Hs) as HF.
    unfold godunov2, godunov2_body in HF. apply Forall_app in HF. destruct HF as [HF1 HF2]. apply Forall_app. split; auto.
    apply Forall_app in HF2. destruct HF2 as [HF2 _]. inversion HF2; subst. constructor; auto. }
  destruct (in_foot_execs inb _ s0 HF) as [mem Hmem].
  set (P := hydro2 ex_mesh2 (ex_set R_HLLC 1) no_gravity inb iv).
  set (s := mksol (D := field2 R) (3 / 5)%R 0%R O 0 [] mem).
  destruct (C14_runs_complete_2d R Rnum ex_mesh2 (ex_set R_HLLC 1) no_gravity iv ex_config s HR) as (tr & s' & HM); [discriminate|].
  set (x := main_save P ex_config s).
  set (f := h5_save ex_h5 ex_mesh2 (fun i j _ v => f_data (shot P x) i j v) (f_number (shot P x)) (f_time (shot P x))).
  set (name := h5_name (lit "./") (lit "test") (s_saved x)).
  assert (Hload : exists s1, loaded ex_h5 ex_mesh2 f A_U zeros s1).
  { apply (C33_round_trip R Rnum ex_h5 ex_h5); try reflexivity; [repeat split|].
    destruct HR as (Hw & _). apply wide2_mesh; [exact Hw|simpl; lia]. }
  destruct Hload as [s1 Hs1]. destruct (in_foot_execs inb _ s1 HF) as [mem1 Hmem1].
  set (z := mksol (D := field2 R) (s_t x) 0%R O (s_saved x) [] mem1).
  assert (HZ : restart ex_h5 ex_mesh2 true false (built2 ex_mesh2 inb) name (fun _ => Some f) z).
  { exists 0%R, (s_saved x), (s_t x), s1, mem1. split; [|split; [exact Hmem1|repeat split]].
    exists (s_t x). split; [|reflexivity]. unfold load_data, name. rewrite name_is_hdf5. cbn [andb].
    exists f. repeat split. exact Hs1. }
  assert (Hx : nth_error tr 0 = Some x).
  { destruct HM as (s2 & HL & _). destruct (loop_head P ex_config _ _ _ HL) as [tl0 ->]. reflexivity. }
  assert (Hb : (1 / IZR (10 ^ 12) < 1 / 10 /\ 1 / IZR (10 ^ 14) < 1 / 10)%R).
  { split; (apply Rmult_lt_compat_l; [lra|]; apply Rinv_lt_contravar; [|apply IZR_lt; reflexivity];
      rewrite <- mult_IZR; apply IZR_lt; reflexivity). }
  assert (HC : checkpoint P ex_config x).
  { change x with (save P s). unfold checkpoint, finished, saves, should_save, enable_output, eps_end, eps_fuzzy, n1.
    cbn [ex_config c_nOutput c_tEnd c_nStepmax Z.eqb s_t s_it s_saved save s nleb nltb nsub nmul ndiv nabs nZ Rnum Z.ltb Z.compare andb orb].
    repeat split.
    - destruct (Rle_dec _ _) as [H|]; [exfalso; lra|]. reflexivity.
    - destruct (Rlt_dec _ _) as [|H]; [reflexivity|]. exfalso. apply H. change (IZR (0 + 1 - 1)) with 0%R. lra.
    - apply orb_false_intro.
      + destruct (Rlt_dec _ _) as [H|]; [|reflexivity]. exfalso. change (IZR (0 + 1 + 1 - 1)) with 1%R in H. lra.
      + destruct (Rlt_dec _ _) as [H|]; [|reflexivity]. exfalso. rewrite Rabs_left in H by lra. lra. }
  exists mem, s, tr, s', x, z, (fun _ => Some f), name. cbv zeta. fold inb. fold P.
  assert (HSt : start (3 / 5)%R 0 mem s) by (repeat split).
  split; [exact HR|]. split; [simpl; lia|]. split; [exact Hmem|]. split; [exact HSt|]. split; [exact HM|].
  split; [exact Hx|]. split; [exact HC|]. split; [reflexivity|]. split; [reflexivity|]. split; [exact HZ|].
  eapply (C33_restart_exact_2d ex_mesh2 (ex_set R_HLLC 1) no_gravity iv ex_config ex_h5 ex_h5 (lit "./") (lit "test") (fun _ => Some f));
    eauto; try reflexivity; try (simpl; lia). repeat split.
Qed.

(** A box with no wall for the loss of gravity. *)
Example C33_gravity_case : ready2 ex_periodic2 (ex_set R_HLLC 1) /\ 0 <= nz ex_periodic2 /\
  (forall f, kind_of (bc ex_periodic2 f) <> Reflecting) /\ (smallr (ex_set R_HLLC 1) <= 1)%R /\
  is_hdf5 (lit "run.vti") = false.
Proof.
  split; [apply ex_ready2; [discriminate|simpl; auto]|]. split; [simpl; lia|]. split; [intros f; cbn; discriminate|].
  split; [unfold ex_set, derive; simpl; lra|reflexivity].
Qed.
