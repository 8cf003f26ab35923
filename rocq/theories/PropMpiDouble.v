(** * C06 in binary64: a distributed run takes the same time steps as the serial run

    Each process divides the CFL number by the largest speed of its own cells and the
    processes take the minimum (SolverBase.cpp:125-154); the serial program divides by
    the largest speed of all cells.  Division of IEEE doubles is monotone, so the two
    agree bit for bit, as long as every process has a cell whose speed is a number. *)
From Coq Require Import ZArith List Bool Lia ZifyBool Arith Reals Lra Floats.SpecFloat Permutation.
Import ListNotations.
From Flocq Require Import Core.Core IEEE754.BinarySingleNaN.
From Verif Require Import Num Exec ExecFacts Grid GridFacts Boundaries BoundariesSpec
  BoundariesFacts BoundariesFill BoundariesNarrow PropBoundaries HydroNum Kernels KernelFacts Atomics
  Hydro2D Hydro2DSpec Hydro2DFacts Hydro2DStep Determ Hydro2DRun EulerSpec HydroPhysics
  HydroRiemann PropPhysics Sums Hydro2DLaws Binary64 Doomed PropHydro2D
  Hydro3D Hydro3DSpec Hydro3DFacts Hydro3DStep Hydro3DRun Hydro3DLaws Hydro3DAxes Doomed3 PropHydro3D
  TimeStep TimeStepFacts Driver DriverFacts HydroMachine PropDriver
  MpiRun MpiFacts Halo HaloFacts HaloFill HydroMpi HydroMpiFacts PropMpi
  MhdNum MhdFacts MhdSpec MhdPhysics Mhd2D Mhd2DSpec Mhd2DStep Mhd2DRun Mhd2DLaws PropMhd2D
  MhdMachine PropMhdDriver
  Mhd3DNum Mhd3D Mhd3DSpec Mhd3DFacts Mhd3DStep Mhd3DV2 Mhd3DRun Mhd3DLaws PropMhd3D Mhd3DMachine PropMhd3DDriver
  MhdMpi PropMhdMpi Binary64Valid SignFacts.
Local Open Scope Z_scope.

#[local] Existing Instance v64_prec.
#[local] Existing Instance v64_emax.
#[local] Existing Instance Vnum.
#[local] Existing Instance Vnum_one.

(** ** Specification *)

(** Not a NaN. *)
Definition number (x : v64) : Prop := BinarySingleNaN.is_nan x = false.
(** Positive and finite. *)
Definition positive (x : v64) : Prop := is_finite x = true /\ (0 < B2R x)%R.

(** Speed that bounds the time step in cell (i, j). *)
Definition speed2 (S : hset v64) (g : gravp) (U G : field2 v64) (i j : Z) : v64 :=
  if g_enabled g then gravity_speeds2 (H := Vnum) S U G i j else speeds2 (H := Vnum) S U i j.
Definition speed3 (S : hset v64) (g : gravp) (U G : field3 v64) (i j k : Z) : v64 :=
  if g_enabled g then gravity_speeds3 (H := Vnum) S U G i j k else speeds3 (H := Vnum) S U i j k.

(** Every process owns a cell of the mesh whose speed is a number. *)
Definition numbers2 (m : mesh) (gp : pgrid) (speed : Z -> Z -> v64) : Prop :=
  forall r x y, sits gp r x y 0 -> exists i j, phys2 m i j /\ number (speed (x * nx m + i) (y * ny m + j)).
Definition numbers3 (m : mesh) (gp : pgrid) (speed : Z -> Z -> Z -> v64) : Prop :=
  forall r x y z, sits gp r x y z -> exists i j k, phys3 m i j k /\
  number (speed (x * nx m + i) (y * ny m + j) (z * nz m + k)).

(** ... in the state found by every iteration of the serial run. *)
Definition every_step {D} (c : config (T := v64)) (ok : nat -> store v64 -> Prop) (tr : list (sol (T := v64) (M := store v64) (D := D))) : Prop :=
  Forall (fun s => Driver.finished (H := Vnum) c s = false -> ok (s_it s) (s_mem s)) tr.

(** ** Division by larger numbers gives smaller numbers *)
Definition good (x : v64) : Prop := clear x /\ number x.

Lemma good_okF x : good x -> okF (sf x).
Proof.
  intros [Hc Hn]. split; [destruct x; try discriminate Hn; reflexivity|].
  intros E. unfold clear in Hc. rewrite <- sign_sf, E in Hc. discriminate.
Qed.

Local Notation rnd := (round radix2 (SpecFloat.fexp 53 1024) (round_mode mode_NE)).

Lemma div_cases (c x : v64) : positive c -> is_finite x = true -> (0 < B2R x)%R ->
  let d := Bdiv mode_NE c x in
  (is_finite d = true /\ B2R d = rnd (B2R c / B2R x) /\ (Rabs (rnd (B2R c / B2R x)) < bpow radix2 1024)%R) \/
  (d = B754_infinity false /\ (bpow radix2 1024 <= Rabs (rnd (B2R c / B2R x)))%R).
Proof.
  intros [Fc Pc] Fx Px d.
  pose proof (Bdiv_correct 53 1024 _ _ mode_NE c x ltac:(lra)) as C. fold d in C.
  destruct (Rlt_bool_spec (Rabs (rnd (B2R c / B2R x))) (bpow radix2 1024)).
  - left. destruct C as (C1 & C2 & _). rewrite C2. auto.
  - right. split; auto.
    assert (Sc : Bsign c = false) by (destruct c as [[]|[]| |[] ? ? ?]; simpl in Pc; try lra; try reflexivity;
      exfalso; revert Pc; apply Rle_not_lt; apply F2R_le_0; discriminate).
    assert (Sx : Bsign x = false) by (destruct x as [[]|[]| |[] ? ? ?]; simpl in Px; try lra; try reflexivity;
      exfalso; revert Px; apply Rle_not_lt; apply F2R_le_0; discriminate).
    rewrite Sc, Sx in C. simpl in C. destruct d; try discriminate C. simpl in C. injection C as ->. reflexivity.
Qed.

Lemma positive_clear c : positive c -> clear c.
Proof.
  intros [Fc Pc]. destruct c as [[]|[]| |[] ? ? ?]; simpl in Pc; try lra; try reflexivity;
  exfalso; revert Pc; apply Rle_not_lt; apply F2R_le_0; discriminate.
Qed.

Lemma good_cases x : good x -> x = B754_zero false \/ x = B754_infinity false \/ is_finite x = true /\ (0 < B2R x)%R.
Proof.
  intros [Hc Hn]. destruct x as [[]|[]| |[] mx ex px]; try discriminate; auto.
  right; right. split; auto. apply F2R_gt_0. reflexivity.
Qed.

Lemma good_div c x : positive c -> good x -> good (ndiv (Num := Vnum) c x).
Proof.
  intros Hc Hx. split; [apply clear_div; [apply positive_clear; auto|apply Hx]|].
  destruct Vnum_ieee as (_ & _ & _ & _ & -> & _). unfold number.
  destruct (good_cases x Hx) as [->|[->|[Fx Px]]].
  - destruct Hc as [Fc Pc]. destruct c; simpl in *; try discriminate; try lra; reflexivity.
  - destruct Hc as [Fc Pc]. destruct c; simpl in *; try discriminate; try lra; reflexivity.
  - destruct (div_cases c x Hc Fx Px) as [(F & _)|[-> _]]; [|reflexivity].
    destruct (Bdiv mode_NE c x); try discriminate F; reflexivity.
Qed.

Lemma not_below_zero a : good a -> nltb (Num := Vnum) a (B754_zero false) = false.
Proof. intros [Hc Hn]. destruct a as [[]|[]| |[] ? ? ?]; try discriminate; reflexivity. Qed.

Lemma not_above_inf a : nltb (Num := Vnum) (B754_infinity false) a = false.
Proof. destruct a as [[]|[]| |[] ? ? ?]; reflexivity. Qed.

Lemma nltb_R x y : is_finite x = true -> is_finite y = true -> nltb (Num := Vnum) x y = Rlt_bool (B2R x) (B2R y).
Proof. intros Fx Fy. exact (Bltb_correct 53 1024 x y Fx Fy). Qed.

Lemma nltb_R_false x y : is_finite x = true -> is_finite y = true ->
  nltb (Num := Vnum) x y = false <-> (B2R y <= B2R x)%R.
Proof.
  intros Fx Fy. rewrite nltb_R by auto. destruct (Rlt_bool_spec (B2R x) (B2R y)); split; intros; try discriminate; try lra; auto.
Qed.

Lemma div_anti c x y : positive c -> good x -> good y -> nltb (Num := Vnum) y x = false ->
  nltb (Num := Vnum) (ndiv (Num := Vnum) c x) (ndiv (Num := Vnum) c y) = false.
Proof.
  intros Hc Hx Hy HL. pose proof (good_div c x Hc Hx) as Gx. revert Gx.
  destruct Vnum_ieee as (_ & _ & _ & _ & E & _). rewrite !E. intros Gx.
  assert (Dinf : Bdiv mode_NE c (B754_infinity false) = B754_zero false).
  { pose proof (positive_clear c Hc) as Sc. destruct Hc as [Fc Pc].
    destruct c as [[]|[]| |[] ? ? ?]; simpl in *; try discriminate; try lra; reflexivity. }
  assert (D0 : Bdiv mode_NE c (B754_zero false) = B754_infinity false).
  { pose proof (positive_clear c Hc) as Sc. destruct Hc as [Fc Pc].
    destruct c as [[]|[]| |[] ? ? ?]; simpl in *; try discriminate; try lra; reflexivity. }
  destruct (good_cases x Hx) as [->|[->|[Fx Px]]].
  - rewrite D0. apply not_above_inf.
  - destruct (good_cases y Hy) as [->|[->|[Fy Py]]].
    + discriminate HL.
    + rewrite Dinf. reflexivity.
    + exfalso. destruct y as [[]|[]| |[] ? ? ?]; simpl in Fy, Py; try discriminate; try lra; discriminate HL.
  - destruct (good_cases y Hy) as [->|[->|[Fy Py]]].
    + exfalso. rewrite nltb_R_false in HL by auto. simpl in HL. lra.
    + rewrite Dinf. apply not_below_zero. exact Gx.
    + rewrite nltb_R_false in HL by auto.
      assert (Hq : (0 <= B2R c / B2R y <= B2R c / B2R x)%R).
      { destruct Hc as [_ Pc]. split; [left; apply Rdiv_lt_0_compat; auto|].
        apply Rmult_le_compat_l; [lra|]. apply Rinv_le; auto. }
      assert (Vf : Valid_exp (SpecFloat.fexp 53 1024)) by (apply fexp_correct; reflexivity).
      assert (Vr : Valid_rnd (round_mode mode_NE)) by apply valid_rnd_round_mode.
      assert (R0 : (0 <= rnd (B2R c / B2R y))%R).
      { rewrite <- (round_0 radix2 (SpecFloat.fexp 53 1024) (round_mode mode_NE)). apply round_le; auto. apply Hq. }
      assert (R1 : (rnd (B2R c / B2R y) <= rnd (B2R c / B2R x))%R) by (apply round_le; auto; apply Hq).
      destruct (div_cases c x Hc Fx Px) as [(F1 & E1 & B1)|[-> _]]; [|apply not_above_inf].
      destruct (div_cases c y Hc Fy Py) as [(F2 & E2 & B2)|[_ B2]].
      * rewrite nltb_R_false by auto. rewrite E1, E2. exact R1.
      * exfalso. rewrite !Rabs_pos_eq in * by lra. lra.
Qed.

(** ** The largest speed *)
Lemma V_irrefl a : good a -> nltb (Num := Vnum) a a = false.
Proof. intros H. exact (F_lt_irrefl (sf a) (good_okF a H)). Qed.
Lemma V_trans a b d : good a -> good b -> good d ->
  nltb (Num := Vnum) a b = true -> nltb (Num := Vnum) b d = true -> nltb (Num := Vnum) a d = true.
Proof. intros A B C. exact (F_lt_trans _ _ _ (good_okF _ A) (good_okF _ B) (good_okF _ C)). Qed.
Lemma V_total a b : good a -> good b -> nltb (Num := Vnum) a b = false -> nltb (Num := Vnum) b a = false -> a = b.
Proof.
  intros A B H1 H2. pose proof (F_lt_total _ _ (good_okF _ A) (good_okF _ B) H1 H2) as E.
  rewrite <- (of_sf_sf a), <- (of_sf_sf b), E. reflexivity.
Qed.

Lemma nltb_sf a b : nltb (Num := Vnum) a b = nltb (Num := Fnum) (sf a) (sf b).
Proof. reflexivity. Qed.

(** Values that the reduction goes through: good numbers and the starting value. *)
Definition okV (x : v64) : Prop := okF (sf x).

Lemma init_below x : good x -> nltb (Num := Vnum) (max_init (H := Vnum)) x = true.
Proof.
  intros [Hc Hn]. rewrite nltb_sf.
  assert (E : sf (max_init (H := Vnum)) = max_init (H := Fnum)).
  { unfold max_init. destruct Vnum_Fnum as [E _]. apply E. }
  rewrite E. assert (E2 : max_init (H := Fnum) = S754_finite true 9007199254740991 971) by (vm_compute; reflexivity).
  rewrite E2. clear E E2. destruct x as [[]|[]| |[] ? ? ?]; try discriminate; reflexivity.
Qed.

Lemma red_V {I} (act : I -> bool) (val : I -> v64) f l v :
  reduction f (max_join (H := Vnum)) (max_init (H := Vnum)) l v ->
  (forall i a, f i a = if act i then nmax (Num := Vnum) a (val i) else a) ->
  (forall i, In i l -> act i = true -> clear (val i)) ->
  (exists i, In i l /\ act i = true /\ number (val i)) ->
  good v /\ (exists i, In i l /\ act i = true /\ v = val i) /\
  forall i, In i l -> act i = true -> number (val i) -> nltb (Num := Vnum) v (val i) = false.
Proof.
  intros HR Hf Hcl (i0 & Hi0 & Ha0 & Hn0).
  set (act' := fun i => act i && negb (BinarySingleNaN.is_nan (val i))).
  assert (Hact : forall i, act' i = true <-> act i = true /\ number (val i)).
  { intros i. unfold act', number. destruct (act i), (BinarySingleNaN.is_nan (val i)); simpl; tauto || (split; [discriminate|intros [? ?]; discriminate]) || idtac.
    all: split; auto. all: try (intros; discriminate). all: intros [? ?]; congruence. }
  assert (Hnan : forall x : v64, Binary64.is_nan (sf x) = BinarySingleNaN.is_nan x) by (intros []; reflexivity).
  assert (Hmax : forall a b, nmax (Num := Vnum) a b = of_sf (b64_max (sf a) (sf b))) by reflexivity.
  assert (U : upper (N := Vnum) okV act' val (max_init (H := Vnum)) l v).
  { refine (red_upper (N := Vnum) okV _ _ _ _ act' val _ f _ _ l v _ HR).
    - intros a. exact (F_lt_irrefl (sf a)).
    - intros a b d. exact (F_lt_trans (sf a) (sf b) (sf d)).
    - intros a b A B H1 H2. pose proof (F_lt_total _ _ A B H1 H2) as E. rewrite <- (of_sf_sf a), <- (of_sf_sf b), E. reflexivity.
    - intros a b A B. rewrite Hmax. pose proof (F_max_lt _ _ A B) as E. cbn [nmax Fnum] in E. rewrite E.
      rewrite nltb_sf.
      destruct (nltb _ _); apply of_sf_sf.
    - intros i a A. rewrite Hf. unfold act'. destruct (act i); auto. cbn [andb]. rewrite <- Hnan.
      destruct (Binary64.is_nan (sf (val i))) eqn:En; cbn [negb]; auto. rewrite Hmax. unfold b64_max.
      destruct A as [A _]. rewrite A, En. apply of_sf_sf.
    - unfold okV. assert (E : sf (max_init (H := Vnum)) = max_init (H := Fnum)).
      { unfold max_init. destruct Vnum_Fnum as [E _]. apply E. }
      rewrite E. apply okF_init.
    - intros i Hi Ha. apply Hact in Ha. apply good_okF. split; [apply Hcl; tauto|tauto]. }
  destruct U as (_ & B & _ & D).
  assert (HB : exists i, In i l /\ act i = true /\ number (val i) /\ v = val i).
  { destruct B as [->|(i & Hi & Ha & ->)].
    - exfalso. specialize (D i0 Hi0 ltac:(apply Hact; auto)). rewrite init_below in D; [discriminate|]. split; auto.
    - apply Hact in Ha. exists i. tauto. }
  destruct HB as (i & Hi & Ha & Hn & ->). split; [split; auto|split; [exists i; auto|]].
  intros j Hj Haj Hnj. apply D; auto. apply Hact; auto.
Qed.

(** ** The common time step *)
Section MinOfSteps.
Context {C C' : Type}.
Variable gp : pgrid.
Variable cf : v64.
Hypothesis Hcf : positive cf.
Variable local : nat -> v64 -> Prop.
Variable own : C -> Prop.
Variable all : C' -> Prop.
Variable at_r : nat -> C -> C'.
Variable val : C' -> v64.
Hypothesis Hloc : forall r x, (r < np gp)%nat -> local r x -> exists v, x = ndiv (Num := Vnum) cf v /\ good v /\
  (exists c, own c /\ v = val (at_r r c)) /\
  forall c, own c -> number (val (at_r r c)) -> nltb (Num := Vnum) v (val (at_r r c)) = false.
Hypothesis Hin : forall r c, (r < np gp)%nat -> own c -> all (at_r r c).
Hypothesis Hown : forall c', all c' -> exists r c, (r < np gp)%nat /\ own c /\ at_r r c = c'.

Lemma local_good r x : (r < np gp)%nat -> local r x -> good x.
Proof. intros Hr HL. destruct (Hloc r x Hr HL) as (v & -> & Hv & _). apply good_div; auto. Qed.

Lemma min_of_steps_V d v' : good v' -> (exists c', all c' /\ v' = val c') ->
  (forall c', all c' -> number (val c') -> nltb (Num := Vnum) v' (val c') = false) ->
  dt_all (H := Vnum) gp local d -> d = ndiv (Num := Vnum) cf v'.
Proof.
  intros Gv (c' & Hc' & Ev) B' (ds & HF & HA).
  assert (Hds : Forall good ds).
  { assert (A : forall l ds, (forall r, In r l -> (r < np gp)%nat) -> Forall2 local l ds -> Forall good ds).
    { intros l ds0 Hl HF0. induction HF0; constructor.
      - eapply local_good; [|eauto]. apply Hl. left; auto.
      - apply IHHF0. intros. apply Hl. right; auto. }
    eapply A; [|exact HF]. intros r Hr. apply in_seq in Hr. unfold np. lia. }
  destruct (allreduce_lower (N := Vnum) good V_irrefl V_trans V_total ds d Hds HA) as [Hd Hlow].
  assert (A : exists r, (r < np gp)%nat /\ local r d).
  { assert (A : forall l ds, Forall2 local l ds -> In d ds -> exists r, In r l /\ local r d).
    { clear. intros l ds HF. induction HF; intros Hd; [destruct Hd|]. destruct Hd as [->|Hd].
      - exists x. simpl. auto.
      - destruct (IHHF Hd) as (r & Hr & Hl). exists r. simpl. auto. }
    destruct (A _ _ HF Hd) as (r & Hr & Hl). exists r. split; auto. apply in_seq in Hr. unfold np. lia. }
  assert (B : forall r, (r < np gp)%nat -> exists dr, local r dr /\ nltb (Num := Vnum) dr d = false /\ good dr).
  { assert (B : forall l ds', Forall2 local l ds' -> forall r, In r l -> exists dr, local r dr /\ In dr ds').
    { clear. intros l ds' HF. induction HF; intros r Hr; [destruct Hr|]. destruct Hr as [->|Hr].
      - exists y. simpl. auto.
      - destruct (IHHF r Hr) as (dr & H1 & H2). exists dr. simpl. auto. }
    intros r Hr. destruct (B _ _ HF r) as (dr & Hl & Hdr); [apply in_seq; unfold np in Hr; lia|].
    exists dr. repeat split; auto; rewrite Forall_forall in Hds; apply Hds; auto. }
  destruct A as (r & Hr & Hl). destruct (Hloc r d Hr Hl) as (v & Ed & Gvr & (c & Hc & Evc) & Bv).
  pose proof (good_div cf v' Hcf Gv) as Gd'.
  assert (Gd : good d) by (rewrite Forall_forall in Hds; auto).
  apply V_total; auto.
  - rewrite Ed. apply div_anti; auto. rewrite Evc. apply B'; [apply Hin; auto|]. rewrite <- Evc. apply Gvr.
  - destruct (Hown c' Hc') as (r1 & c1 & Hr1 & Hc1 & Er). destruct (B r1 Hr1) as (dr & Hl1 & Hle & Gdr).
    destruct (Hloc r1 dr Hr1 Hl1) as (v1 & Ed1 & Gv1 & _ & Bv1).
    refine (not_lt_trans good V_trans V_total dr _ d Gdr Gd' Gd _ Hle).
    rewrite Ed1. apply div_anti; auto. rewrite Ev, <- Er. apply Bv1; auto. rewrite Er, <- Ev. apply Gv.
Qed.
End MinOfSteps.

(** The time step of one array of cells. *)
Section Local.
Variable S : hset v64.
Hypothesis Hx : clear (dx S).
Hypothesis Hy : clear (dy S).

Definition largest {C} (cf : v64) (own : C -> Prop) (val : C -> v64) (d : v64) : Prop :=
  exists v, d = ndiv (Num := Vnum) cf v /\ good v /\ (exists c, own c /\ v = val c) /\
  forall c, own c -> number (val c) -> nltb (Num := Vnum) v (val c) = false.

Lemma dt2_V m g U G d : 0 <= gw m -> (exists i j, phys2 m i j /\ number (speed2 S g U G i j)) ->
  dt_local2 (H := Vnum) m S g U G d ->
  largest (cfl S) (fun c => phys2 m (fst c) (snd c)) (fun c => speed2 S g U G (fst c) (snd c)) d.
Proof.
  intros Hg (i & j & Hp & Hn) (v & HR & ->). exists v. split; [reflexivity|].
  destruct (red_V (fun c => inner2 m (fst c) (snd c)) (fun c => speed2 S g U G (fst c) (snd c)) _ _ v HR
    ltac:(intros [i0 j0] a; unfold speed2; destruct (g_enabled g); reflexivity)
    ltac:(intros [i0 j0] _ _; unfold speed2; destruct (g_enabled g); [apply clear_gravity_speeds2|apply clear_speeds2]; auto)
    ltac:(exists (i, j); split; [apply phys_cells2; auto|split; [apply inner2_phys; auto|exact Hn]])) as (A & ([i1 j1] & _ & B2 & B3) & C).
  split; auto. split.
  - exists (i1, j1). split; auto. apply inner2_phys. exact B2.
  - intros [i2 j2] H2 N2. apply (C (i2, j2)); auto; [apply phys_cells2; auto|apply inner2_phys; auto].
Qed.

Lemma mdt2_V m Q d : 0 <= gw m -> (exists i j, phys2 m i j /\ number (mspeeds2 (H := Vnum) S Q i j)) ->
  mdt_local2 (H := Vnum) m S Q d ->
  largest (cfl S) (fun c => phys2 m (fst c) (snd c)) (fun c => mspeeds2 (H := Vnum) S Q (fst c) (snd c)) d.
Proof.
  intros Hg (i & j & Hp & Hn) (v & HR & ->). exists v. split; [reflexivity|].
  destruct (red_V (fun c => inner2 m (fst c) (snd c)) (fun c => mspeeds2 (H := Vnum) S Q (fst c) (snd c)) _ _ v HR
    ltac:(intros [i0 j0] a; reflexivity)
    ltac:(intros [i0 j0] _ _; apply clear_mspeeds2; auto)
    ltac:(exists (i, j); split; [apply phys_cells2; auto|split; [apply inner2_phys; auto|exact Hn]])) as (A & ([i1 j1] & _ & B2 & B3) & C).
  split; auto. split.
  - exists (i1, j1). split; auto. apply inner2_phys. exact B2.
  - intros [i2 j2] H2 N2. apply (C (i2, j2)); auto; [apply phys_cells2; auto|apply inner2_phys; auto].
Qed.

Hypothesis Hz : clear (dz S).

Lemma dt3_V m g U G d : 0 <= gw m -> (exists i j k, phys3 m i j k /\ number (speed3 S g U G i j k)) ->
  dt_local3 (H := Vnum) m S g U G d ->
  largest (cfl S) (fun c => phys3 m (fst (fst c)) (snd (fst c)) (snd c))
    (fun c => speed3 S g U G (fst (fst c)) (snd (fst c)) (snd c)) d.
Proof.
  intros Hg (i & j & k & Hp & Hn) (v & HR & ->). exists v. split; [reflexivity|].
  destruct (red_V (fun c => inner3 m (fst (fst c)) (snd (fst c)) (snd c)) (fun c => speed3 S g U G (fst (fst c)) (snd (fst c)) (snd c)) _ _ v HR
    ltac:(intros [[i0 j0] k0] a; unfold speed3; destruct (g_enabled g); reflexivity)
    ltac:(intros [[i0 j0] k0] _ _; unfold speed3; destruct (g_enabled g); [apply clear_gravity_speeds3|apply clear_speeds3]; auto)
    ltac:(exists (i, j, k); split; [apply phys_cells3; auto|split; [apply inner3_phys; auto|exact Hn]])) as (A & ([[i1 j1] k1] & _ & B2 & B3) & C).
  split; auto. split.
  - exists (i1, j1, k1). split; auto. apply inner3_phys. exact B2.
  - intros [[i2 j2] k2] H2 N2. apply (C (i2, j2, k2)); auto; [apply phys_cells3; auto|apply inner3_phys; auto].
Qed.

Lemma mdt3_V m Q d : 0 <= gw m -> (exists i j k, phys3 m i j k /\ number (mspeeds3 (H := Vnum) S Q i j k)) ->
  mdt_local3 (H := Vnum) m S Q d ->
  largest (cfl S) (fun c => phys3 m (fst (fst c)) (snd (fst c)) (snd c))
    (fun c => mspeeds3 (H := Vnum) S Q (fst (fst c)) (snd (fst c)) (snd c)) d.
Proof.
  intros Hg (i & j & k & Hp & Hn) (v & HR & ->). exists v. split; [reflexivity|].
  destruct (red_V (fun c => inner3 m (fst (fst c)) (snd (fst c)) (snd c)) (fun c => mspeeds3 (H := Vnum) S Q (fst (fst c)) (snd (fst c)) (snd c)) _ _ v HR
    ltac:(intros [[i0 j0] k0] a; reflexivity)
    ltac:(intros [[i0 j0] k0] _ _; apply clear_mspeeds3; auto)
    ltac:(exists (i, j, k); split; [apply phys_cells3; auto|split; [apply inner3_phys; auto|exact Hn]])) as (A & ([[i1 j1] k1] & _ & B2 & B3) & C).
  split; auto. split.
  - exists (i1, j1, k1). split; auto. apply inner3_phys. exact B2.
  - intros [[i2 j2] k2] H2 N2. apply (C (i2, j2, k2)); auto; [apply phys_cells3; auto|apply inner3_phys; auto].
Qed.
End Local.

Lemma min_largest {C C'} gp cf (local : nat -> v64 -> Prop) (own : C -> Prop) (all : C' -> Prop)
  (at_r : nat -> C -> C') (val : C' -> v64) d d' : positive cf ->
  (forall r x, (r < np gp)%nat -> local r x -> largest cf own (fun c => val (at_r r c)) x) ->
  (forall r c, (r < np gp)%nat -> own c -> all (at_r r c)) ->
  (forall c', all c' -> exists r c, (r < np gp)%nat /\ own c /\ at_r r c = c') ->
  largest cf all val d' -> dt_all (H := Vnum) gp local d -> d = d'.
Proof.
  intros Hcf HL Hin Hown (v' & -> & Gv & Ev & Bv) Hd.
  exact (min_of_steps_V gp cf Hcf local own all at_r val HL Hin Hown d v' Gv Ev Bv Hd).
Qed.

(** Processes by rank instead of by position. *)
Lemma numbers2_rank m gp sp : pgrid_ok gp -> mz gp = 1 -> numbers2 m gp sp -> forall r, (r < np gp)%nat ->
  exists i j, phys2 m i j /\ number (sp (org m gp AX r + i) (org m gp AY r + j)).
Proof.
  intros gok flat HN r Hr. destruct (sits_exists gp r gok Hr) as (x & y & z & Hs).
  assert (z = 0) by (destruct Hs as (_ & _ & ? & _); lia). subst z.
  destruct (sits_org m gp r x y 0 gok Hs) as (-> & -> & _). exact (HN r x y Hs).
Qed.
Lemma numbers3_rank m gp sp : pgrid_ok gp -> numbers3 m gp sp -> forall r, (r < np gp)%nat ->
  exists i j k, phys3 m i j k /\ number (sp (org m gp AX r + i) (org m gp AY r + j) (org m gp AZ r + k)).
Proof.
  intros gok HN r Hr. destruct (sits_exists gp r gok Hr) as (x & y & z & Hs).
  destruct (sits_org m gp r x y z gok Hs) as (-> & -> & ->). exact (HN r x y z Hs).
Qed.

Lemma some_process gp : pgrid_ok gp -> (0 < np gp)%nat.
Proof.
  intros (? & ? & ?). unfold np, nprocs. assert (0 < mx gp * my gp * mz gp) by (apply Z.mul_pos_pos; nia). lia.
Qed.

Lemma mspeeds2_shift (S : hset v64) Q a b i j :
  mspeeds2 S (fun i j => Q (a + i) (b + j)) i j = mspeeds2 S Q (a + i) (b + j).
Proof. unfold mspeeds2. reflexivity. Qed.
Lemma mspeeds3_shift (S : hset v64) Q a b e i j k :
  mspeeds3 S (fun i j k => Q (a + i) (b + j) (e + k)) i j k = mspeeds3 S Q (a + i) (b + j) (e + k).
Proof. unfold mspeeds3. reflexivity. Qed.

Section Same.
Variable S : hset v64.
Hypothesis Hcfl : positive (cfl S).
Hypothesis Hx : clear (dx S).
Hypothesis Hy : clear (dy S).

Lemma dt_same2_V m gp g a (M : nat -> store v64) s d d' : splits2 m gp -> blocks2 m gp a M s ->
  numbers2 m gp (speed2 S g (field_of a s) (field_of A_G s)) ->
  dt_all (H := Vnum) gp (fun r => dt_local2 (H := Vnum) m S g (field_of a (M r)) (field_of A_G (M r))) d ->
  dt_local2 (H := Vnum) (gmesh m gp) S g (field_of a s) (field_of A_G s) d' -> d = d'.
Proof.
  intros Hsp [HU HG] HN Hd Hd'. pose proof Hsp as (gok & Hflat & Hgw & Hnx & Hny & Hnv & Hbc).
  pose proof (numbers2_rank m gp _ gok Hflat HN) as HNr.
  assert (EV : forall r i j, (r < np gp)%nat -> phys2 m i j ->
    speed2 S g (field_of a (M r)) (field_of A_G (M r)) i j =
    speed2 S g (field_of a s) (field_of A_G s) (org m gp AX r + i) (org m gp AY r + j)).
  { intros r i j Hr Hp.
    assert (E : cell_state (field_of a (M r)) i j = cell_state (field_of a s) (org m gp AX r + i) (org m gp AY r + j)).
    { unfold cell_state, field_of. rewrite !HU by (auto; unfold ID, IP, IU, IV; lia). reflexivity. }
    unfold speed2. destruct (g_enabled g); [unfold gravity_speeds2|unfold speeds2]; rewrite E; [|reflexivity].
    assert (Hc : cell2 m i j) by (unfold cell2, phys2, physical in Hp |- *; unfold phys2, physical in Hp; lia).
    unfold field_of. rewrite !HG by assumption. reflexivity. }
  refine (min_largest gp (cfl S) _ (fun c => phys2 m (fst c) (snd c)) (fun c => phys2 (gmesh m gp) (fst c) (snd c))
    (fun r c => (org m gp AX r + fst c, org m gp AY r + snd c)) (fun c => speed2 S g (field_of a s) (field_of A_G s) (fst c) (snd c))
    d d' Hcfl _ _ _ _ Hd).
  - intros r x Hr Hl.
    assert (Hex : exists i j, phys2 m i j /\ number (speed2 S g (field_of a (M r)) (field_of A_G (M r)) i j)).
    { destruct (HNr r Hr) as (i & j & Hp & Hn). exists i, j. rewrite EV; auto. }
    destruct (dt2_V S Hx Hy m g _ _ x ltac:(lia) Hex Hl) as (v & E & Gv & ([i j] & Hp & Ev) & Bv).
    exists v. split; [exact E|split; [exact Gv|split]].
    + exists (i, j). split; [exact Hp|]. cbn [fst snd] in *. rewrite <- EV by assumption. exact Ev.
    + intros [i0 j0] Hp0 Hn0. cbn [fst snd] in *. rewrite <- EV in * by auto. exact (Bv (i0, j0) Hp0 Hn0).
  - intros r [i j] Hr Hp. exact (org_phys2 m gp Hsp r i j Hr Hp).
  - intros [I J] Hp. destruct (owner2 m gp Hsp I J Hp) as (r & i & j & Hr & Hp1 & <- & <-). exists r, (i, j). auto.
  - apply (dt2_V S Hx Hy); [simpl; lia| |exact Hd'].
    destruct (HNr 0%nat (some_process gp gok)) as (i & j & Hp & Hn).
    do 2 eexists. split; [|exact Hn]. apply org_phys2; auto. apply some_process; auto.
Qed.

Lemma mdt_same2_V m gp n (M : nat -> store v64) s s0 d d' : mready2_mpi (N := Vnum) m gp S ->
  (forall r, (r < np gp)%nat -> ready m S (in_array n) (out_array n) (window2 m gp (field_of (in_array n) s0) r) (M r)) ->
  ready (gmesh m gp) S (in_array n) (out_array n) (extend (gmesh m gp) (field_of (in_array n) s0)) s ->
  numbers2 m gp (mspeeds2 (H := Vnum) S (mQ (H := Vnum) S (extend (gmesh m gp) (field_of (in_array n) s0)))) ->
  dt_all (H := Vnum) gp (fun r => mdt_local2 (H := Vnum) m S (fun i j => getm (M r) (L2 A_Q i j))) d ->
  mdt_local2 (H := Vnum) (gmesh m gp) S (fun i j => getm s (L2 A_Q i j)) d' -> d = d'.
Proof.
  intros HR HM Hs HN Hd Hd'. pose proof HR as ((gok & Hflat & _) & _ & Hg & _).
  pose proof (numbers2_rank m gp _ gok Hflat HN) as HNr.
  set (U := extend (gmesh m gp) (field_of (in_array n) s0)) in *.
  assert (HQ : forall i j, phys2 (gmesh m gp) i j -> getm s (L2 A_Q i j) = mQ (H := Vnum) S U i j).
  { intros. eapply ready_Q; [|exact Hs|auto]. simpl. lia. }
  apply (mdt_local2_ext _ _ _ _ _ HQ) in Hd'.
  refine (min_largest gp (cfl S) _ (fun c => phys2 m (fst c) (snd c)) (fun c => phys2 (gmesh m gp) (fst c) (snd c))
    (fun r c => (org m gp AX r + fst c, org m gp AY r + snd c)) (fun c => mspeeds2 (H := Vnum) S (mQ (H := Vnum) S U) (fst c) (snd c))
    d d' Hcfl _ _ _ _ Hd).
  - intros r x Hr Hl. set (Qr := fun i j : Z => mQ (H := Vnum) S U (org m gp AX r + i) (org m gp AY r + j)).
    assert (HQr : forall i j, phys2 m i j -> getm (M r) (L2 A_Q i j) = Qr i j).
    { intros i0 j0 Hp0. rewrite (ready_Q m S _ _ _ (M r) i0 j0 ltac:(lia) (HM r Hr) Hp0). apply mQ_window. }
    apply (mdt_local2_ext _ _ _ _ _ HQr) in Hl.
    assert (Hex : exists i j, phys2 m i j /\ number (mspeeds2 S Qr i j)).
    { destruct (HNr r Hr) as (i & j & Hp & Hn). exists i, j. unfold Qr. rewrite (mspeeds2_shift S (mQ S U)). split; [exact Hp|exact Hn]. }
    destruct (mdt2_V S Hx Hy m Qr x ltac:(lia) Hex Hl) as (v & E & Gv & ([i j] & Hp & Ev) & Bv).
    exists v. split; [exact E|split; [exact Gv|split]].
    + exists (i, j). split; [exact Hp|]. cbn [fst snd] in *. rewrite <- (mspeeds2_shift S (mQ S U)). exact Ev.
    + intros [i0 j0] Hp0 Hn0. cbn [fst snd] in *. rewrite <- (mspeeds2_shift S (mQ S U)) in *. exact (Bv (i0, j0) Hp0 Hn0).
  - intros r [i j] Hr Hp. exact (morg_phys2 m gp S HR r i j Hr Hp).
  - intros [I J] Hp. destruct (mowner2 m gp S HR I J Hp) as (r & i & j & Hr & Hp1 & <- & <-). exists r, (i, j). auto.
  - apply (mdt2_V S Hx Hy); [simpl; lia| |exact Hd'].
    destruct (HNr 0%nat (some_process gp gok)) as (i & j & Hp & Hn).
    do 2 eexists. split; [|exact Hn]. apply (morg_phys2 m gp S HR); auto. apply some_process; auto.
Qed.

Hypothesis Hz : clear (dz S).

Lemma dt_same3_V m gp g a (M : nat -> store v64) s d d' : splits3 m gp -> blocks3 m gp a M s ->
  numbers3 m gp (speed3 S g (field_of3 a s) (field_of3 A_G s)) ->
  dt_all (H := Vnum) gp (fun r => dt_local3 (H := Vnum) m S g (field_of3 a (M r)) (field_of3 A_G (M r))) d ->
  dt_local3 (H := Vnum) (gmesh m gp) S g (field_of3 a s) (field_of3 A_G s) d' -> d = d'.
Proof.
  intros Hsp [HU HG] HN Hd Hd'. pose proof Hsp as (gok & Hgw & Hnx & Hny & Hnz & Hnv & Hbc).
  pose proof (numbers3_rank m gp _ gok HN) as HNr.
  assert (EV : forall r i j k, (r < np gp)%nat -> phys3 m i j k ->
    speed3 S g (field_of3 a (M r)) (field_of3 A_G (M r)) i j k =
    speed3 S g (field_of3 a s) (field_of3 A_G s) (org m gp AX r + i) (org m gp AY r + j) (org m gp AZ r + k)).
  { intros r i j k Hr Hp.
    assert (E : cell_state3 (field_of3 a (M r)) i j k =
      cell_state3 (field_of3 a s) (org m gp AX r + i) (org m gp AY r + j) (org m gp AZ r + k)).
    { unfold cell_state3, field_of3. rewrite !HU by (auto; unfold ID, IP, IU, IV, IW; lia). reflexivity. }
    unfold speed3. destruct (g_enabled g); [unfold gravity_speeds3|unfold speeds3]; rewrite E; [|reflexivity].
    assert (Hc : cell3 m i j k) by (unfold cell3, cell2, phys3, phys2, physical in Hp |- *; unfold phys2, physical in Hp; lia).
    unfold field_of3. rewrite !HG by assumption. reflexivity. }
  refine (min_largest gp (cfl S) _ (fun c => phys3 m (fst (fst c)) (snd (fst c)) (snd c))
    (fun c => phys3 (gmesh m gp) (fst (fst c)) (snd (fst c)) (snd c))
    (fun r c => (org m gp AX r + fst (fst c), org m gp AY r + snd (fst c), org m gp AZ r + snd c))
    (fun c => speed3 S g (field_of3 a s) (field_of3 A_G s) (fst (fst c)) (snd (fst c)) (snd c))
    d d' Hcfl _ _ _ _ Hd).
  - intros r x Hr Hl.
    assert (Hex : exists i j k, phys3 m i j k /\ number (speed3 S g (field_of3 a (M r)) (field_of3 A_G (M r)) i j k)).
    { destruct (HNr r Hr) as (i & j & k & Hp & Hn). exists i, j, k. rewrite EV; auto. }
    destruct (dt3_V S Hx Hy Hz m g _ _ x ltac:(lia) Hex Hl) as (v & E & Gv & ([[i j] k] & Hp & Ev) & Bv).
    exists v. split; [exact E|split; [exact Gv|split]].
    + exists (i, j, k). split; [exact Hp|]. cbn [fst snd] in *. rewrite <- EV by assumption. exact Ev.
    + intros [[i0 j0] k0] Hp0 Hn0. cbn [fst snd] in *. rewrite <- EV in * by auto. exact (Bv (i0, j0, k0) Hp0 Hn0).
  - intros r [[i j] k] Hr Hp. exact (org_phys3 m gp Hsp r i j k Hr Hp).
  - intros [[I J] K] Hp. destruct (owner3 m gp Hsp I J K Hp) as (r & i & j & k & Hr & Hp1 & <- & <- & <-). exists r, (i, j, k). auto.
  - apply (dt3_V S Hx Hy Hz); [simpl; lia| |exact Hd'].
    destruct (HNr 0%nat (some_process gp gok)) as (i & j & k & Hp & Hn).
    do 3 eexists. split; [|exact Hn]. apply org_phys3; auto. apply some_process; auto.
Qed.

Lemma mdt_same3_V m gp iv n (M : nat -> store v64) s s0 d d' : mready3_mpi (N := Vnum) iv m gp S ->
  (forall r, (r < np gp)%nat -> Mhd3DStep.ready3 m S (in_array n) (out_array n) (window3 m gp (field_of3 (in_array n) s0) r) (M r)) ->
  Mhd3DStep.ready3 (gmesh m gp) S (in_array n) (out_array n) (extend3 (gmesh m gp) (field_of3 (in_array n) s0)) s ->
  numbers3 m gp (mspeeds3 (H := Vnum) S (mQ3 (H := Vnum) S (extend3 (gmesh m gp) (field_of3 (in_array n) s0)))) ->
  dt_all (H := Vnum) gp (fun r => mdt_local3 (H := Vnum) m S (fun i j k => getm (M r) (mkloc A_Q i j k))) d ->
  mdt_local3 (H := Vnum) (gmesh m gp) S (fun i j k => getm s (mkloc A_Q i j k)) d' -> d = d'.
Proof.
  intros HR HM Hs HN Hd Hd'. pose proof HR as ((gok & _) & _ & Hg & _).
  pose proof (numbers3_rank m gp _ gok HN) as HNr.
  set (U := extend3 (gmesh m gp) (field_of3 (in_array n) s0)) in *.
  assert (HQ : forall i j k, phys3 (gmesh m gp) i j k -> getm s (mkloc A_Q i j k) = mQ3 (H := Vnum) S U i j k).
  { intros. eapply mready3_Q; [|exact Hs|auto]. simpl. lia. }
  apply (mdt_local3_ext _ _ _ _ _ HQ) in Hd'.
  refine (min_largest gp (cfl S) _ (fun c => phys3 m (fst (fst c)) (snd (fst c)) (snd c))
    (fun c => phys3 (gmesh m gp) (fst (fst c)) (snd (fst c)) (snd c))
    (fun r c => (org m gp AX r + fst (fst c), org m gp AY r + snd (fst c), org m gp AZ r + snd c))
    (fun c => mspeeds3 (H := Vnum) S (mQ3 (H := Vnum) S U) (fst (fst c)) (snd (fst c)) (snd c))
    d d' Hcfl _ _ _ _ Hd).
  - intros r x Hr Hl. set (Qr := fun i j k : Z => mQ3 (H := Vnum) S U (org m gp AX r + i) (org m gp AY r + j) (org m gp AZ r + k)).
    assert (HQr : forall i j k, phys3 m i j k -> getm (M r) (mkloc A_Q i j k) = Qr i j k).
    { intros i0 j0 k0 Hp0. rewrite (mready3_Q m S _ _ _ (M r) i0 j0 k0 ltac:(lia) (HM r Hr) Hp0). apply mQ3_window. }
    apply (mdt_local3_ext _ _ _ _ _ HQr) in Hl.
    assert (Hex : exists i j k, phys3 m i j k /\ number (mspeeds3 S Qr i j k)).
    { destruct (HNr r Hr) as (i & j & k & Hp & Hn). exists i, j, k. unfold Qr. rewrite (mspeeds3_shift S (mQ3 S U)). split; [exact Hp|exact Hn]. }
    destruct (mdt3_V S Hx Hy Hz m Qr x ltac:(lia) Hex Hl) as (v & E & Gv & ([[i j] k] & Hp & Ev) & Bv).
    exists v. split; [exact E|split; [exact Gv|split]].
    + exists (i, j, k). split; [exact Hp|]. cbn [fst snd] in *. rewrite <- (mspeeds3_shift S (mQ3 S U)). exact Ev.
    + intros [[i0 j0] k0] Hp0 Hn0. cbn [fst snd] in *. rewrite <- (mspeeds3_shift S (mQ3 S U)) in *. exact (Bv (i0, j0, k0) Hp0 Hn0).
  - intros r [[i j] k] Hr Hp. exact (morg_phys3 m gp S iv HR r i j k Hr Hp).
  - intros [[I J] K] Hp. destruct (mowner3 m gp S iv HR I J K Hp) as (r & i & j & k & Hr & Hp1 & <- & <- & <-). exists r, (i, j, k). auto.
  - apply (mdt3_V S Hx Hy Hz); [simpl; lia| |exact Hd'].
    destruct (HNr 0%nat (some_process gp gok)) as (i & j & k & Hp & Hn).
    do 3 eexists. split; [|exact Hn]. apply (morg_phys3 m gp S iv HR); auto. apply some_process; auto.
Qed.
End Same.

(** ** Runs whose iterations start from states with a property *)
Definition guard {T M D} (ok : nat -> M -> Prop) (P : machine T M D) : machine T M D :=
  mkmachine (fun n s s' => ok n s /\ before P n s s') (local_dt P) (after P) (current P).

Lemma guard_main {D} (P : machine v64 (store v64) D) c ok s tr s' :
  main (H := Vnum) P c s tr s' -> every_step c ok tr -> main (H := Vnum) (guard ok P) c s tr s'.
Proof.
  intros (s1 & HL & ->) HE. exists s1. split; [|reflexivity].
  change (main_save (guard ok P) c s) with (main_save P c s). revert HL HE.
  generalize (main_save P c s). clear s. intros s HL. induction HL as [s Hf|s s2 tr s' Hf Hn Hl IH]; intros HE.
  - constructor. exact Hf.
  - inversion HE; subst. eapply loop_step; [exact Hf| |apply IH; auto].
    destruct Hn as (Hlog & m1 & d & m2 & HB & HD & HA & Es). split; auto.
    exists m1, d, m2. split; [|auto]. split; [|exact HB].
    specialize (H1 Hf). clear - H1. unfold maybe_save, save. destruct (_ && _); exact H1.
Qed.

(** ** C06: the distributed run is the serial run, bit for bit *)
Theorem C06_run_double_2d :
  forall lay m gp (S : hset v64) g inb inb' iv iv' c t0 k0 M0 M s0 s z tr z' q qtr q',
  ready2_mpi m gp S -> iv = V0 \/ iv = V1 -> iv' = V0 \/ iv' = V1 ->
  positive (cfl S) -> clear (dx S) -> clear (dy S) ->
  share2 m gp A_U M0 s0 ->
  built2_mpi lay m gp inb M0 M -> built2 (gmesh m gp) inb' s0 s ->
  Driver.start t0 k0 M z -> Driver.start t0 k0 s q -> s_dt z = s_dt q ->
  main (hydro2_mpi lay m gp S g inb iv) c z tr z' ->
  main (hydro2 (gmesh m gp) S g inb' iv') c q qtr q' ->
  every_step c (fun n s => numbers2 m gp (speed2 S g (field_of (in_array n) s) (field_of A_G s))) qtr ->
  Forall2 (same_run2 m gp) tr qtr /\ same_run2 m gp z' q'.
Proof.
  intros lay m gp S g inb inb' iv iv' c t0 k0 M0 M s0 s z tr z' q qtr q' HR Hiv Hiv' Hc Hdx Hdy H0 HM Hb Hz Hq Edt Hm1 Hm2 HE.
  destruct (ready_splits2 m gp S HR) as (Hsp & Hw & Hs & Hr). pose proof Hsp as (gok & flat & Hg & Hx & Hy & Hv & Hbc).
  pose proof (guard_main _ c _ q qtr q' Hm2 HE) as Hm3. clear Hm2 HE.
  refine (both_main (hydro2_mpi lay m gp S g inb iv) c (guard _ (hydro2 (gmesh m gp) S g inb' iv'))
    (fun n => share2 m gp (in_array n))
    (fun n a b => share2 m gp (in_array n) a b /\ numbers2 m gp (speed2 S g (field_of (in_array n) b) (field_of A_G b)))
    (file_parts2 m gp) _ _ _ _ z tr z' q qtr q' _ Hm1 Hm3).
  - intros n a a' b b' HB -> [HN ->]. split; [exact HB|exact HN].
  - intros n a b d d2 [HB HN] H1 H2. apply share_blocks2 in HB; [|assumption|assumption].
    exact (dt_same2_V S Hc Hdx Hdy m gp g (in_array n) a b d d2 Hsp HB HN H1 H2).
  - intros dt n a a' b b' [HB _] HA HA2. apply share_blocks2 in HB; [|assumption|assumption]. apply share_blocks2; [assumption|assumption|].
    change (in_array (Datatypes.S n)) with (cur (Datatypes.S n)). rewrite cur_S.
    refine (dist_blocks2 lay m gp S g inb iv Hsp inb' iv' n dt a a' b b' _ _ HB HA HA2).
    + apply body_ok2_V01; assumption.
    + apply refines_V01; try assumption; try exact Hg; try exact Hv. exact Vnum_one.
  - intros n a b HB r x y Hsit i j v Hp Hvv. apply (HB r x y Hsit); assumption.
  - destruct Hz as (E1 & E2 & E3 & E4 & E5), Hq as (F1 & F2 & F3 & F4 & F5).
    unfold same_sol. rewrite E1, E2, E3, E4, E5, F1, F2, F3, F4, F5.
    assert (HB : share2 m gp A_U M s).
    { apply share_blocks2 in H0; [|assumption|assumption]. destruct H0 as [HU HG].
      apply share_blocks2; [assumption|assumption|]. exact (built_blocks2 lay m gp inb Hsp inb' M0 M s0 s HU HG HM Hb). }
    split; [reflexivity|]. split; [exact Edt|]. split; [reflexivity|]. split; [reflexivity|]. split; [constructor|exact HB].
Qed.
Print Assumptions C06_run_double_2d.

Theorem C06_run_double_3d :
  forall lay m gp (S : hset v64) g inb inb' iv c t0 k0 M0 M s0 s z tr z' q qtr q',
  ready3_mpi m gp S -> iv = V0 \/ iv = V1 ->
  positive (cfl S) -> clear (dx S) -> clear (dy S) -> clear (dz S) ->
  share3 m gp A_U M0 s0 ->
  built3_mpi lay m gp inb M0 M -> built3 (gmesh m gp) inb' s0 s ->
  Driver.start t0 k0 M z -> Driver.start t0 k0 s q -> s_dt z = s_dt q ->
  main (hydro3_mpi lay m gp S g inb iv) c z tr z' ->
  main (hydro3 (gmesh m gp) S g inb' iv) c q qtr q' ->
  every_step c (fun n s => numbers3 m gp (speed3 S g (field_of3 (in_array n) s) (field_of3 A_G s))) qtr ->
  Forall2 (same_run3 m gp) tr qtr /\ same_run3 m gp z' q'.
Proof.
  intros lay m gp S g inb inb' iv c t0 k0 M0 M s0 s z tr z' q qtr q' HR Hiv Hc Hdx Hdy Hdz H0 HM Hb Hz Hq Edt Hm1 Hm2 HE.
  destruct (ready_splits3 m gp S HR) as (Hsp & Hw & Hs & Hr). pose proof Hsp as (gok & Hg & Hx & Hy & Hzz & Hv & Hbc).
  pose proof (guard_main _ c _ q qtr q' Hm2 HE) as Hm3. clear Hm2 HE.
  refine (both_main (hydro3_mpi lay m gp S g inb iv) c (guard _ (hydro3 (gmesh m gp) S g inb' iv))
    (fun n => share3 m gp (in_array n))
    (fun n a b => share3 m gp (in_array n) a b /\ numbers3 m gp (speed3 S g (field_of3 (in_array n) b) (field_of3 A_G b)))
    (file_parts3 m gp) _ _ _ _ z tr z' q qtr q' _ Hm1 Hm3).
  - intros n a a' b b' HB -> [HN ->]. split; [exact HB|exact HN].
  - intros n a b d d2 [HB HN] H1 H2. apply share_blocks3 in HB; [|assumption].
    exact (dt_same3_V S Hc Hdx Hdy Hdz m gp g (in_array n) a b d d2 Hsp HB HN H1 H2).
  - intros dt n a a' b b' [HB _] HA HA2. apply share_blocks3 in HB; [|assumption]. apply share_blocks3; [assumption|].
    change (in_array (Datatypes.S n)) with (cur (Datatypes.S n)). rewrite cur_S.
    refine (dist_blocks3 lay m gp S g inb iv (full_of iv) Hsp inb' iv n dt a a' b b' _ _ HB HA HA2).
    + apply body_ok3_V01; assumption.
    + apply refines3_V01; try assumption; try exact Hg; try exact Hv; [exact Vnum_one|reflexivity].
  - intros n a b HB r x y zz Hsit i j k v Hp Hvv. apply (HB r x y zz Hsit); assumption.
  - destruct Hz as (E1 & E2 & E3 & E4 & E5), Hq as (F1 & F2 & F3 & F4 & F5).
    unfold same_sol. rewrite E1, E2, E3, E4, E5, F1, F2, F3, F4, F5.
    assert (HB : share3 m gp A_U M s).
    { apply share_blocks3 in H0; [|assumption]. destruct H0 as [HU HG].
      apply share_blocks3; [assumption|]. exact (built_blocks3 lay m gp inb Hsp inb' M0 M s0 s HU HG HM Hb). }
    split; [reflexivity|]. split; [exact Edt|]. split; [reflexivity|]. split; [reflexivity|]. split; [constructor|exact HB].
Qed.
Print Assumptions C06_run_double_3d.

(** MHD, version 0: the speeds are those of the primitive variables computed after the ghosts
    are filled. *)
Theorem C06_mhd_run_double_2d :
  forall lay m gp (S : hset v64) inb inb' c t0 k0 M0 M s0 s z tr z' q qtr q',
  mready2_mpi m gp S -> positive (cfl S) -> clear (dx S) -> clear (dy S) ->
  mshare2 m gp A_U M0 s0 ->
  mbuilt2_mpi lay m gp S inb M0 M -> mbuilt2 (gmesh m gp) S inb' s0 s ->
  Driver.start t0 k0 M z -> Driver.start t0 k0 s q -> s_dt z = s_dt q ->
  main (mhd2_mpi lay m gp S inb V0) c z tr z' ->
  main (mhd2 (gmesh m gp) S inb' V0) c q qtr q' ->
  every_step c (fun n s => numbers2 m gp (mspeeds2 S (mQ S (extend (gmesh m gp) (field_of (in_array n) s))))) qtr ->
  Forall2 (msame_run2 m gp) tr qtr /\ msame_run2 m gp z' q'.
Proof.
  intros lay m gp S inb inb' c t0 k0 M0 M s0 s z tr z' q qtr q' HR Hc Hdx Hdy H0 HM Hb Hz Hq Edt Hm1 Hm2 HE.
  pose proof (guard_main _ c _ q qtr q' Hm2 HE) as Hm3. clear Hm2 HE.
  refine (both_main (mhd2_mpi lay m gp S inb V0) c (guard _ (mhd2 (gmesh m gp) S inb' V0))
    (fun n => mshare2 m gp (in_array n))
    (fun n a b => exists s0, ((forall r, (r < np gp)%nat -> ready m S (in_array n) (out_array n) (window2 m gp (field_of (in_array n) s0) r) (a r)) /\
       ready (gmesh m gp) S (in_array n) (out_array n) (extend (gmesh m gp) (field_of (in_array n) s0)) b) /\
       numbers2 m gp (mspeeds2 S (mQ S (extend (gmesh m gp) (field_of (in_array n) s0)))))
    (mfile_parts2 m gp) _ _ _ _ z tr z' q qtr q' _ Hm1 Hm3).
  - intros n a a' b b' HB HA [HN HA2]. apply (mshare_blocks2 m gp S HR) in HB.
    exists b. split; [|exact HN]. exact (mprefix_dist2 lay m gp S inb HR inb' n a a' b b' HB HA HA2).
  - intros n a b d d2 (s1 & [A B] & HN) H1 H2. exact (mdt_same2_V S Hc Hdx Hdy m gp n a b s1 d d2 HR A B HN H1 H2).
  - intros dt n a a' b b' (s1 & AB & _) HA HA2. apply (mshare_blocks2 m gp S HR).
    eapply mscheme_dist2; [exact HR| | |exists (field_of (in_array n) s1); exact AB|exact HA|exact HA2]; apply mscheme_ok_V0.
    + apply (mready2_local m gp S HR).
    + apply (mready2_global m gp S HR).
  - intros n a b HB r x y Hsit i j v Hp Hvv. apply (HB r x y Hsit); assumption.
  - destruct Hz as (E1 & E2 & E3 & E4 & E5), Hq as (F1 & F2 & F3 & F4 & F5).
    unfold same_sol. rewrite E1, E2, E3, E4, E5, F1, F2, F3, F4, F5.
    assert (HB : mshare2 m gp A_U M s).
    { apply (mshare_blocks2 m gp S HR) in H0. apply (mshare_blocks2 m gp S HR).
      destruct (mprefix_dist2 lay m gp S inb HR inb' 0 M0 M s0 s H0 HM Hb) as [A B].
      intros r i j v Hr Hp Hv. destruct (A r Hr) as (A1 & _). destruct B as (B1 & _).
      change A_U with (in_array 0). rewrite A1, B1; [| |exact Hv| |exact Hv].
      - unfold window2. f_equal; lia.
      - destruct (morg_phys2 m gp S HR r i j Hr Hp) as [P1 P2]. unfold cell2. unfold physical in P1, P2. simpl in *.
        destruct HR as (_ & _ & Hg & _). lia.
      - destruct Hp as [P1 P2]. unfold cell2. unfold physical in P1, P2. destruct HR as (_ & _ & Hg & _). lia. }
    split; [reflexivity|]. split; [exact Edt|]. split; [reflexivity|]. split; [reflexivity|]. split; [constructor|exact HB].
Qed.
Print Assumptions C06_mhd_run_double_2d.

Theorem C06_mhd_run_double_3d :
  forall lay m gp (S : hset v64) inb inb' c t0 k0 M0 M s0 s z tr z' q qtr q',
  mready3_mpi V0 m gp S -> positive (cfl S) -> clear (dx S) -> clear (dy S) -> clear (dz S) ->
  mshare3 m gp A_U M0 s0 ->
  mbuilt3_mpi lay m gp S inb M0 M -> mbuilt3 (gmesh m gp) S inb' s0 s ->
  Driver.start t0 k0 M z -> Driver.start t0 k0 s q -> s_dt z = s_dt q ->
  main (mhd3_mpi lay m gp S inb V0) c z tr z' ->
  main (mhd3 (gmesh m gp) S inb' V0) c q qtr q' ->
  every_step c (fun n s => numbers3 m gp (mspeeds3 S (mQ3 S (extend3 (gmesh m gp) (field_of3 (in_array n) s))))) qtr ->
  Forall2 (msame_run3 m gp) tr qtr /\ msame_run3 m gp z' q'.
Proof.
  intros lay m gp S inb inb' c t0 k0 M0 M s0 s z tr z' q qtr q' HR Hc Hdx Hdy Hdz H0 HM Hb Hz Hq Edt Hm1 Hm2 HE.
  pose proof (guard_main _ c _ q qtr q' Hm2 HE) as Hm3. clear Hm2 HE.
  refine (both_main (mhd3_mpi lay m gp S inb V0) c (guard _ (mhd3 (gmesh m gp) S inb' V0))
    (fun n => mshare3 m gp (in_array n))
    (fun n a b => exists s0, ((forall r, (r < np gp)%nat -> Mhd3DStep.ready3 m S (in_array n) (out_array n) (window3 m gp (field_of3 (in_array n) s0) r) (a r)) /\
       Mhd3DStep.ready3 (gmesh m gp) S (in_array n) (out_array n) (extend3 (gmesh m gp) (field_of3 (in_array n) s0)) b) /\
       numbers3 m gp (mspeeds3 S (mQ3 S (extend3 (gmesh m gp) (field_of3 (in_array n) s0)))))
    (mfile_parts3 m gp) _ _ _ _ z tr z' q qtr q' _ Hm1 Hm3).
  - intros n a a' b b' HB HA [HN HA2]. apply (mshare_blocks3 m gp S V0 HR) in HB.
    exists b. split; [|exact HN]. exact (mprefix_dist3 lay m gp S inb V0 HR inb' n a a' b b' HB HA HA2).
  - intros n a b d d2 (s1 & [A B] & HN) H1 H2. exact (mdt_same3_V S Hc Hdx Hdy Hdz m gp V0 n a b s1 d d2 HR A B HN H1 H2).
  - intros dt n a a' b b' (s1 & AB & _) HA HA2. apply (mshare_blocks3 m gp S V0 HR).
    eapply mscheme_dist3; [exact HR| | | |exists (field_of3 (in_array n) s1); exact AB|exact HA|exact HA2]; [tauto|apply mscheme_ok3_V0..].
    + apply (mready3_local m gp S V0 HR).
    + apply (mready3_global m gp S V0 HR).
  - intros n a b HB r x y zz Hsit i j k v Hp Hvv. apply (HB r x y zz Hsit); assumption.
  - destruct Hz as (E1 & E2 & E3 & E4 & E5), Hq as (F1 & F2 & F3 & F4 & F5).
    unfold same_sol. rewrite E1, E2, E3, E4, E5, F1, F2, F3, F4, F5.
    assert (HB : mshare3 m gp A_U M s).
    { apply (mshare_blocks3 m gp S V0 HR) in H0. apply (mshare_blocks3 m gp S V0 HR).
      destruct (mprefix_dist3 lay m gp S inb V0 HR inb' 0 M0 M s0 s H0 HM Hb) as [A B].
      intros r i j k v Hr Hp Hv. destruct (A r Hr) as (A1 & _). destruct B as (B1 & _).
      change A_U with (in_array 0). rewrite A1, B1; [| |exact Hv| |exact Hv].
      - unfold window3. f_equal; lia.
      - destruct (morg_phys3 m gp S V0 HR r i j k Hr Hp) as [[P1 P2] P3]. unfold cell3, cell2. unfold physical in P1, P2, P3. simpl in *.
        destruct HR as (_ & _ & Hg & _). lia.
      - destruct Hp as [[P1 P2] P3]. unfold cell3, cell2. unfold physical in P1, P2, P3. destruct HR as (_ & _ & Hg & _). lia. }
    split; [reflexivity|]. split; [exact Edt|]. split; [reflexivity|]. split; [reflexivity|]. split; [constructor|exact HB].
Qed.
Print Assumptions C06_mhd_run_double_3d.

(** ** Cases *)

(** gamma = 7/5, CFL number 4/5, cells of 1/100 by 1/50 by 1/25. *)
Definition ex_vset (rs : rsolver) : hset v64 :=
  let q a b := ndiv (nZ a) (nZ b) in
  derive (q 7 5) (q 1 10000000000) (q 1 10000000000) (nZ 1) (q 4 5) rs (q 1 100) (q 1 50) (q 1 25).
(** One step. *)
Definition ex_vconfig : config (T := v64) := mkconfig (nZ 1) 1 2 10.
(** Gas of density 1 and energy 2 moving along the diagonal. *)
Definition ex_vgas : store v64 := fun l => nZ (if lv l =? IP then 2 else 1).

Lemma ex_vset_ok rs : slope_ok (ex_vset rs) /\ positive (cfl (ex_vset rs)) /\ clear (dx (ex_vset rs)) /\
  clear (dy (ex_vset rs)) /\ clear (dz (ex_vset rs)).
Proof.
  assert (P : forall a b, 0 <= a -> 0 <= b -> clear (ndiv (nZ a) (nZ b))) by (intros; apply clear_div; apply clear_Z; assumption).
  split; [vm_compute; reflexivity|]. split; [|repeat split; apply P; discriminate].
  assert (E : cfl (ex_vset rs) = ndiv (nZ 4) (nZ 5)) by reflexivity. rewrite E.
  assert (F : is_finite (ndiv (nZ 4) (nZ 5) : v64) = true) by (vm_compute; reflexivity).
  split; [exact F|]. assert (L : nltb (nZ 0 : v64) (ndiv (nZ 4) (nZ 5)) = true) by (vm_compute; reflexivity).
  rewrite nltb_R in L; [|vm_compute; reflexivity|exact F].
  destruct (Rlt_bool_spec (B2R (nZ 0 : v64)) (B2R (ndiv (nZ 4) (nZ 5) : v64))) as [H|]; [|discriminate L].
  assert (E0 : B2R (nZ 0 : v64) = 0%R) by reflexivity. rewrite E0 in H. exact H.
Qed.

Lemma ex_vlog : c_nlog ex_vconfig <> 0.
Proof. intros E. change (10 = 0) in E. discriminate E. Qed.

Lemma built_in_foot2 {T} {N : Num T} m (S : hset T) g iv : ready2 m S ->
  Forall (Forall (in_foot (alloc2d m (nv2 m g iv)))) (make_boundaries2d m A_U ++ [deep_copy2 m A_U2 A_U]).
Proof.
  intros (Hw & Hg & Hn & Hs & Hr).
  pose proof (godunov2_in_foot m S g n0 Hs Hr Hw Hg Hn A_U A_U2 (or_introl (conj eq_refl eq_refl)) iv Hs) as HF.
  unfold godunov2 in HF. apply Forall_app in HF. destruct HF as [H1 H2]. apply Forall_app. split; [exact H1|].
  constructor; [|constructor]. inversion H2; subst. assumption.
Qed.
Lemma copy_in_foot2 {T} {N : Num T} m (S : hset T) g iv : ready2 m S -> g_enabled g = false ->
  Forall (Forall (in_foot (mpi_alloc2d m (nv2 m g iv)))) [deep_copy2 (T := T) m A_U2 A_U].
Proof.
  intros HR Hg0. pose proof (built_in_foot2 m S g iv HR) as HF. apply Forall_app in HF. destruct HF as [_ HF].
  inversion HF; subst. constructor; [|constructor]. revert H1. apply Forall_impl. intros p. apply in_foot_mono.
  intros l. apply mpi_alloc2d_mono; intros; unfold nv2; simpl; rewrite ?Hg0; lia.
Qed.

(** Four processes, one step: all hypotheses hold. *)
Example C06_double_case :
  let gp := mkpgrid 2 2 1 in let S := ex_vset R_HLLC in let m := ex_mesh2 in
  let inb := mpi_alloc2d m (nv2 m no_gravity V0) in
  let inb' := alloc2d (gmesh m gp) (nv2 (gmesh m gp) no_gravity V1) in
  exists M0 M s z tr z' q qtr q',
  ready2_mpi m gp S /\ positive (cfl S) /\ clear (dx S) /\ clear (dy S) /\ share2 m gp A_U M0 ex_vgas /\
  built2_mpi LayoutLeft m gp inb M0 M /\ built2 (gmesh m gp) inb' ex_vgas s /\
  Driver.start (nZ 0) 0 M z /\ Driver.start (nZ 0) 0 s q /\ s_dt z = s_dt q /\
  main (hydro2_mpi LayoutLeft m gp S no_gravity inb V0) ex_vconfig z tr z' /\
  main (hydro2 (gmesh m gp) S no_gravity inb' V1) ex_vconfig q qtr q' /\
  every_step ex_vconfig (fun n s => numbers2 m gp (speed2 S no_gravity (field_of (in_array n) s) (field_of A_G s))) qtr /\
  length qtr = 2%nat.
Proof.
  intros gp S m inb inb'. destruct (ex_vset_ok R_HLLC) as (Hs & Hc & Hdx & Hdy & _).
  assert (HR : ready2_mpi m gp S).
  { split; [unfold block2, pgrid_ok; simpl; lia|]. split; [intros f _ _; destruct f; simpl; lia|].
    split; [simpl; lia|]. split; [reflexivity|]. split; [exact Hs|]. unfold solver_ok2. discriminate. }
  destruct (ready_splits2 _ _ _ HR) as (Hsp & Hw & _ & Hr). pose proof Hsp as (gok & flat & Hg & Hx & Hy & Hv & Hbc).
  pose proof (ready_local2 _ _ _ HR) as (Hw' & _).
  assert (Hd : Forall (Forall (in_foot inb)) [deep_copy2 (T := v64) m A_U2 A_U])
    by exact (copy_in_foot2 m S no_gravity V0 (ready_local2 _ _ _ HR) eq_refl).
  assert (HG2 : ready2 (gmesh m gp) S)
    by (repeat (split; [first [exact Hw|exact Hg|exact Hv|exact Hs]|]); exact Hr).
  assert (Hd' : Forall (Forall (in_foot inb')) (make_boundaries2d (gmesh m gp) A_U ++ [deep_copy2 (T := v64) (gmesh m gp) A_U2 A_U]))
    by exact (built_in_foot2 (gmesh m gp) S no_gravity V1 HG2).
  set (M0 := fun (r : nat) (l : loc) => ex_vgas l).
  destruct (completes_runs inb gp _ _ M0 (C05_exchange_completes_2d v64 _ LayoutLeft m gp A_U (nv2 m no_gravity V0)
    [deep_copy2 m A_U2 A_U] (proj1 HR) eq_refl ltac:(simpl; lia) Hd)) as [M HM].
  destruct (in_foot_execs inb' _ ex_vgas Hd') as [s Hb].
  set (t0 := nZ 0 : v64).
  set (z := mksol (D := nat -> field2 v64) t0 t0 O 0 [] M). set (q := mksol (D := field2 v64) t0 t0 O 0 [] s).
  destruct (C05_runs_complete_2d v64 _ LayoutLeft m gp S no_gravity V0 ex_vconfig z HR ex_vlog) as (tr & z' & Hz).
  destruct (C14_runs_complete_2d v64 _ (gmesh m gp) S no_gravity V1 ex_vconfig q) as (qtr & q' & Hq);
    [exact HG2|exact ex_vlog|].
  exists M0, M, s, z, tr, z', q, qtr, q'. split; [exact HR|]. split; [exact Hc|]. split; [exact Hdx|]. split; [exact Hdy|].
  split; [split; [intros; reflexivity|intros; reflexivity]|].
  split; [exact HM|]. split; [exact Hb|]. split; [repeat split|]. split; [repeat split|]. split; [reflexivity|].
  split; [exact Hz|]. split; [exact Hq|].
  pose proof (built2_holds (gmesh m gp) inb' ex_vgas s ltac:(exact Hw) ltac:(simpl; lia) Hb) as [HU _].
  assert (HN : numbers2 m gp (speed2 S no_gravity (field_of A_U s) (field_of A_G s))).
  { intros r x y (X & Y & _). exists 2, 2. split; [unfold phys2, physical; simpl; lia|].
    unfold speed2. cbn [no_gravity g_enabled]. unfold speeds2.
    assert (Hp : phys2 (gmesh m gp) (x * nx m + 2) (y * ny m + 2)) by (unfold phys2, physical; simpl in *; lia).
    assert (E : cell_state (field_of A_U s) (x * nx m + 2) (y * ny m + 2) = cell_state (field_of A_U ex_vgas) 2 2).
    { unfold cell_state. rewrite !(HU _ _ _ Hp) by (unfold ID, IP, IU, IV; lia). reflexivity. }
    rewrite E. vm_compute. reflexivity. }
  destruct Hq as (q1 & HL & _). inversion HL as [a Hf|a b l d Hf Hn HL2]; subst.
  { exfalso. revert Hf. vm_compute. discriminate. }
  destruct Hn as (_ & m1 & dd & m2 & _ & _ & _ & Eb).
  assert (Hit : s_it b = 1%nat) by (rewrite Eb; reflexivity).
  inversion HL2 as [a' Hf'|a' b' l' d' Hf' Hn' HL3]; subst a'.
  - split; [|reflexivity]. constructor; [intros _; exact HN|]. constructor; [congruence|constructor].
  - exfalso. revert Hf'. unfold Driver.finished. rewrite Hit. change (c_nStepmax ex_vconfig <=? Z.of_nat 1) with true.
    rewrite orb_true_r. discriminate.
Qed.

(** The condition that every process has a number is needed: with a NaN in all cells of one of
    two processes, that process divides by the starting value [-DBL_MAX] of its reduction, and
    the common step is negative; the serial program ignores the NaN and takes a positive step. *)
Definition ex_half_nan : store v64 := fun l => if 6 <=? li l then B754_nan else ex_vgas l.

Lemma sits_21 r x y : sits (mkpgrid 2 1 1) r x y 0 -> Z.of_nat r = x /\ y = 0.
Proof. intros (A & B & C & D). simpl in *. lia. Qed.

Theorem C06_nan_block_refuted :
  let gp := mkpgrid 2 1 1 in let S := ex_vset R_HLLC in let m := ex_mesh2 in
  exists M d d', ready2_mpi m gp S /\ share2 m gp A_U M ex_half_nan /\
  local_dt (hydro2_mpi LayoutLeft m gp S no_gravity (mpi_alloc2d m (nv2 m no_gravity V0)) V0) 0 M d /\
  local_dt (hydro2 (gmesh m gp) S no_gravity (alloc2d (gmesh m gp) (nv2 (gmesh m gp) no_gravity V0)) V0) 0 ex_half_nan d' /\
  nltb d (nZ 0) = true /\ nltb (nZ 0) d' = true.
Proof.
  intros gp S m. destruct (ex_vset_ok R_HLLC) as (Hs & _).
  set (M := fun r l => ex_half_nan (mkloc (la l) (Z.of_nat r * 4 + li l) (lj l) (lk l) (lv l))).
  set (dr := fun r => ndiv (cfl S) (fold_left (fun a i => dt_item2 m S (field_of A_U (M r)) i a) (cells2 m) max_init)).
  exists M, (min_join (dr 0%nat) (dr 1%nat)),
    (ndiv (cfl S) (fold_left (fun a i => dt_item2 (gmesh m gp) S (field_of A_U ex_half_nan) i a) (cells2 (gmesh m gp)) max_init)).
  split.
  { split; [unfold block2, pgrid_ok; simpl; lia|]. split; [intros f _ _; destruct f; simpl; lia|].
    split; [simpl; lia|]. split; [reflexivity|]. split; [exact Hs|]. unfold solver_ok2. discriminate. }
  split.
  { intros r x y Hsit. destruct (sits_21 r x y Hsit) as [E1 ->]. split; intros; unfold M, L2; cbn [la li lj lk lv]; rewrite E1, Z.mul_0_l, Z.add_0_l;
    change (nx m) with 4; reflexivity. }
  split.
  { exists [dr 0%nat; dr 1%nat]. split.
    - constructor; [|constructor; [|constructor]]; eexists; (split; [apply red_chunk|reflexivity]).
    - apply (min_more [_] [_]); apply min_one. }
  split; [eexists; split; [apply red_chunk|reflexivity]|].
  split; vm_compute; reflexivity.
Qed.
Print Assumptions C06_nan_block_refuted.
