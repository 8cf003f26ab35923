(** * C05-C08: distributed ghost filling and distributed hydro runs *)
From Coq Require Import ZArith List Bool Lia ZifyBool Arith Reals Lra Permutation.
Import ListNotations.
From Verif Require Import Num Exec ExecFacts Grid GridFacts Boundaries BoundariesSpec
  BoundariesFacts BoundariesFill BoundariesNarrow PropBoundaries HydroNum Kernels KernelFacts Atomics
  Hydro2D Hydro2DSpec Hydro2DFacts Hydro2DStep Determ Hydro2DRun EulerSpec HydroPhysics
  HydroRiemann PropPhysics Sums Hydro2DLaws Binary64 Doomed PropHydro2D
  Hydro3D Hydro3DSpec Hydro3DFacts Hydro3DStep Hydro3DRun Hydro3DLaws Hydro3DAxes Doomed3 PropHydro3D
  TimeStep TimeStepFacts Driver DriverFacts HydroMachine PropDriver
  MpiRun MpiFacts Halo HaloFacts HaloFill HydroMpi HydroMpiFacts.
Local Open Scope Z_scope.

(** ** Specification: who owns what *)

(** Process [r] sits at (x, y, z) in the process grid (row-major numbering). *)
Definition sits (gp : pgrid) (r : nat) (x y z : Z) : Prop :=
  0 <= x < mx gp /\ 0 <= y < my gp /\ 0 <= z < mz gp /\ Z.of_nat r = (x * my gp + y) * mz gp + z.

(** Process on side [f] of (x, y, z), the grid being wrapped around. *)
Definition beside (gp : pgrid) (f : face) (x y z x' y' z' : Z) : Prop :=
  match f with
  | XMIN => x' = (if x =? 0 then mx gp - 1 else x - 1) /\ y' = y /\ z' = z
  | XMAX => x' = (if x =? mx gp - 1 then 0 else x + 1) /\ y' = y /\ z' = z
  | YMIN => x' = x /\ y' = (if y =? 0 then my gp - 1 else y - 1) /\ z' = z
  | YMAX => x' = x /\ y' = (if y =? my gp - 1 then 0 else y + 1) /\ z' = z
  | ZMIN => x' = x /\ y' = y /\ z' = (if z =? 0 then mz gp - 1 else z - 1)
  | ZMAX => x' = x /\ y' = y /\ z' = (if z =? mz gp - 1 then 0 else z + 1)
  end.

(** Does (x, y, z) touch side [f] of the domain? *)
Definition touches (gp : pgrid) (f : face) (x y z : Z) : bool :=
  match f with
  | XMIN => x =? 0 | XMAX => x =? mx gp - 1
  | YMIN => y =? 0 | YMAX => y =? my gp - 1
  | ZMIN => z =? 0 | ZMAX => z =? mz gp - 1
  end.

Lemma sits_coords gp r x y z : pgrid_ok gp -> sits gp r x y z ->
  (r < np gp)%nat /\ cart_coords gp (Z.of_nat r) = (x, y, z).
Proof.
  intros gok (Hx & Hy & Hz & E).
  assert (E2 : Z.of_nat r = cart_rank gp (x, y, z)).
  { unfold cart_rank. rewrite !Z.mod_small by lia. lia. }
  split.
  - pose proof (rank_range gp gok (x, y, z)). unfold np. lia.
  - rewrite E2, coords_rank by auto. unfold wrap. rewrite !Z.mod_small by lia. reflexivity.
Qed.

Lemma sits_exists gp r : pgrid_ok gp -> (r < np gp)%nat -> exists x y z, sits gp r x y z.
Proof.
  intros gok Hr. assert (H0 : 0 <= Z.of_nat r < nprocs gp) by (unfold np in Hr; lia).
  pose proof (coords_inside gp gok _ H0) as Hi. pose proof (rank_coords gp gok _ H0) as Er.
  destruct (cart_coords gp (Z.of_nat r)) as [[x y] z]. exists x, y, z.
  pose proof (Hi AX) as HX. pose proof (Hi AY) as HY. pose proof (Hi AZ) as HZ. simpl in HX, HY, HZ.
  split; auto. split; auto. split; auto. unfold cart_rank in Er. rewrite !Z.mod_small in Er by lia. lia.
Qed.

Lemma sits_org m gp r x y z : pgrid_ok gp -> sits gp r x y z ->
  org m gp AX r = x * nx m /\ org m gp AY r = y * ny m /\ org m gp AZ r = z * nz m.
Proof.
  intros gok Hs. destruct (sits_coords gp r x y z gok Hs) as [_ E]. unfold org, pos. rewrite E. auto.
Qed.

(** ** C08 *)

(** Boundary type of every side and neighbour on every side, with the number of
    processes given by the grid. *)
Theorem C08_topology :
  forall two gp user r x y z f, pgrid_ok gp -> sits gp r x y z ->
  (face_ok two f -> neighbors_bc two gp user (Z.of_nat r) f =
     if touches gp f x y z then user f else BC_COPY) /\
  (exists x' y' z', beside gp f x y z x' y' z' /\ sits gp (rank_of gp r f) x' y' z') /\
  rank_of gp (rank_of gp r f) (opposite f) = r.
Proof.
  intros two gp user r x y z f gok Hs. destruct (sits_coords gp r x y z gok Hs) as [Hr E].
  pose proof gok as (Gx & Gy & Gz). pose proof Hs as (Hx & Hy & Hz & _).
  split; [|split].
  - intros Hf. unfold neighbors_bc. rewrite E. destruct f; simpl in *; rewrite ?Hf; reflexivity.
  - pose proof (nbr_lt gp gok r f) as Hn.
    destruct (sits_exists gp (rank_of gp r f) gok Hn) as (x' & y' & z' & Hs').
    destruct (sits_coords gp _ x' y' z' gok Hs') as [_ E'].
    exists x', y', z'. split; auto. pose proof Hs' as (Hx' & Hy' & Hz' & _).
    pose proof (pos_nbr_same gp gok r f Hr) as P0.
    assert (P1 : forall ax, ax <> face_axis f -> pos gp (rank_of gp r f) ax = pos gp r ax).
    { intros. apply pos_nbr_other; auto. }
    pose proof (P1 AX) as QX. pose proof (P1 AY) as QY. pose proof (P1 AZ) as QZ.
    unfold pos in P0, QX, QY, QZ. rewrite E, E' in P0, QX, QY, QZ.
    assert (Wm : forall u n, 0 <= u < n -> (u + -1) mod n = if u =? 0 then n - 1 else u - 1).
    { intros u n Hu. destruct (u =? 0) eqn:Eu.
      - replace (u + -1) with ((n - 1) + (-1) * n) by lia. rewrite Z_mod_plus_full. apply Z.mod_small. lia.
      - replace (u + -1) with (u - 1) by lia. apply Z.mod_small. lia. }
    assert (Wp : forall u n, 0 <= u < n -> (u + 1) mod n = if u =? n - 1 then 0 else u + 1).
    { intros u n Hu. destruct (u =? n - 1) eqn:Eu.
      - replace (u + 1) with (0 + 1 * n) by lia. rewrite Z_mod_plus_full. apply Z.mod_small. lia.
      - apply Z.mod_small. lia. }
    destruct f; simpl in P0, QX, QY, QZ; unfold step_of in P0; simpl in P0; simpl;
      rewrite ?Wm, ?Wp in P0 by auto;
      try (rewrite QX by discriminate); try (rewrite QY by discriminate); try (rewrite QZ by discriminate); auto.
  - apply nbr_sym; auto.
Qed.
Print Assumptions C08_topology.

Example C08_witness : pgrid_ok (mkpgrid 3 2 1) /\ sits (mkpgrid 3 2 1) 5 2 1 0 /\
  rank_of (mkpgrid 3 2 1) 5 XMAX = 1%nat /\ rank_of (mkpgrid 3 2 1) 5 YMIN = 4%nat.
Proof. repeat split; simpl; lia. Qed.

(** ** C05 *)

(** Every execution of [P] on [n] processes: no more than [bound] steps, no
    access out of bounds, and unless all processes have finished some process can go
    on.  So all executions end, with every process finished. *)
Definition completes {T} (inb : extents) (n : nat) (P : nat -> list (action T)) (bound : nat) : Prop :=
  forall eager M c w, msteps inb n P eager c (MpiRun.start M) w ->
    (c <= bound)%nat /\ ~ may_fault inb n P w /\
    (MpiRun.finished n P w \/ exists w', mstep inb n P eager w w').

Lemma in_foot_mono {T} (e e' : extents) (p : prog T) :
  (forall l, e l = true -> e' l = true) -> in_foot e p -> in_foot e' p.
Proof. intros He. apply foot_mono; auto. Qed.

Lemma mpi_alloc2d_mono m nv l : (forall f, nv (A_BufSend f) <= 0) -> (forall f, nv (A_BufRecv f) <= 0) ->
  alloc2d m nv l = true -> mpi_alloc2d m nv l = true.
Proof.
  intros H1 H2. unfold mpi_alloc2d. destruct (la l) eqn:E; auto; unfold alloc2d; rewrite E.
  - specialize (H1 f). lia.
  - specialize (H2 f). lia.
Qed.

Lemma mpi_alloc3d_mono m nv l : (forall f, nv (A_BufSend f) <= 0) -> (forall f, nv (A_BufRecv f) <= 0) ->
  alloc3d m nv l = true -> mpi_alloc3d m nv l = true.
Proof.
  intros H1 H2. unfold mpi_alloc3d. destruct (la l) eqn:E; auto; unfold alloc3d; rewrite E.
  - specialize (H1 f). lia.
  - specialize (H2 f). lia.
Qed.

Lemma completes_exch {T} {NT : Num T} two lay m gp a inb Ks :
  pgrid_ok gp -> (two = true -> mz gp = 1) -> 0 < gw m -> gw m <= nx m -> gw m <= ny m ->
  (two = false -> gw m <= nz m) -> 0 <= nbvar m ->
  (forall c v, BoundariesFacts.in_array two m c -> 0 <= v < nbvar m -> inb (at_ a c v) = true) ->
  (forall f c v, face_ok two f -> bbox two m f c -> 0 <= v < nbvar m ->
     inb (at_ (A_BufSend f) c v) = true /\ inb (at_ (A_BufRecv f) c v) = true) ->
  Forall (Forall (in_foot inb)) Ks ->
  completes (T := T) inb (np gp) (exch_prog two lay m gp a Ks) (np gp * (3 * (fill_len two + length Ks))).
Proof.
  intros gok flat Hg Hx Hy Hz Hn Hb1 Hb2 HK eager M c w Hs.
  assert (HF : forall p K, In (Compute K) (exch_prog two lay m gp a Ks p) -> Forall (in_foot inb) K).
  { intros p K Hin. unfold exch_prog in Hin. apply in_app_or in Hin. destruct Hin as [Hin|Hin].
    - exact (fill_in_foot two lay m gp a inb flat Hg Hx Hy Hz Hn Hb1 Hb2 p K Hin).
    - apply in_map_iff in Hin. destruct Hin as (K' & E & Hin). injection E as <-.
      rewrite Forall_forall in HK. auto. }
  assert (H0 : (0 < np gp)%nat).
  { destruct gok as (G1 & G2 & G3). unfold np, nprocs. assert (0 < mx gp * my gp * mz gp) by (apply Z.mul_pos_pos; nia). lia. }
  split; [|split].
  - exact (bounded_runs inb (np gp) _ _ (fun p _ => exch_len two lay m gp a Ks p)
      (exch_matched two lay m gp a gok Ks) eager c M w Hs).
  - intros (p & K & Hp & E & _ & HN). apply HN. apply in_foot_safe. apply nth_error_In in E. eauto.
  - refine (progress inb (np gp) _ _ (fun p _ => exch_len two lay m gp a Ks p)
      (exch_matched two lay m gp a gok Ks) eager c M w H0 _ Hs).
    apply in_foot_runnable. intros. eauto.
Qed.

Lemma mpi_buf2 m nv f c v : gw m <= nx m -> 0 < gw m -> face_ok true f -> bbox true m f c -> 0 <= v < nbvar m ->
  mpi_alloc2d m nv (at_ (A_BufSend f) c v) = true /\ mpi_alloc2d m nv (at_ (A_BufRecv f) c v) = true.
Proof.
  intros Hx Hg Hf Hb Hv. destruct c as [[i j] k]. unfold bbox, buf_ext in Hb. unfold mpi_alloc2d, buf_ext, at_; simpl.
  destruct f; simpl in *; try discriminate; try tauto; split; lia.
Qed.

Lemma mpi_buf3 m nv f c v : bbox false m f c -> 0 <= v < nbvar m ->
  mpi_alloc3d m nv (at_ (A_BufSend f) c v) = true /\ mpi_alloc3d m nv (at_ (A_BufRecv f) c v) = true.
Proof.
  intros Hb Hv. destruct c as [[i j] k]. unfold bbox, buf_ext in Hb. unfold mpi_alloc3d, buf_ext, at_; simpl.
  destruct f; simpl in *; split; lia.
Qed.

Definition not_buffer (a : arr) : Prop := is_buf a = false.

Lemma mpi_arr2 m nv a c v : not_buffer a -> nbvar m <= nv a ->
  BoundariesFacts.in_array true m c -> 0 <= v < nbvar m -> mpi_alloc2d m nv (at_ a c v) = true.
Proof.
  intros Ha Hn Hc Hv. destruct c as [[i j] k]. unfold mpi_alloc2d, alloc2d; simpl.
  unfold BoundariesFacts.in_array in Hc. destruct a; simpl in *; try discriminate Ha; lia.
Qed.

Lemma mpi_arr3 m nv a c v : not_buffer a -> nbvar m <= nv a ->
  BoundariesFacts.in_array false m c -> 0 <= v < nbvar m -> mpi_alloc3d m nv (at_ a c v) = true.
Proof.
  intros Ha Hn Hc Hv. destruct c as [[i j] k]. unfold mpi_alloc3d, alloc3d; simpl.
  unfold BoundariesFacts.in_array in Hc. destruct a; simpl in *; try discriminate Ha; lia.
Qed.

(** Mesh of one process: ghosts no wider than the block (SolverBase and setup_mpi do not
    check this), any boundary types. *)
Definition block2 (m : mesh) (gp : pgrid) : Prop :=
  pgrid_ok gp /\ mz gp = 1 /\ 0 < gw m <= nx m /\ gw m <= ny m /\ 0 <= nbvar m.
Definition block3 (m : mesh) (gp : pgrid) : Prop :=
  pgrid_ok gp /\ 0 < gw m <= nx m /\ gw m <= ny m /\ gw m <= nz m /\ 0 <= nbvar m.

(** The exchange followed by local kernels that stay within the arrays. *)
Theorem C05_exchange_completes_2d :
  forall (T : Type) (N : Num T) lay m gp a nv (Ks : list (list (prog T))), block2 m gp ->
  not_buffer a -> nbvar m <= nv a -> Forall (Forall (in_foot (mpi_alloc2d m nv))) Ks ->
  completes (mpi_alloc2d m nv) (Z.to_nat (nprocs gp))
    (fun r => make_boundaries_mpi2 lay m gp a r ++ map Compute Ks)
    (Z.to_nat (nprocs gp) * (3 * (14 + length Ks))).
Proof.
  intros T N lay m gp a nv Ks (gok & flat & Hx & Hy & Hn) Ha Hnv HK.
  apply (completes_exch true lay m gp a (mpi_alloc2d m nv) Ks); auto; try lia; try discriminate.
  - intros. apply mpi_arr2; auto.
  - intros. apply mpi_buf2; auto; lia.
Qed.
Print Assumptions C05_exchange_completes_2d.

Theorem C05_exchange_completes_3d :
  forall (T : Type) (N : Num T) lay m gp a nv (Ks : list (list (prog T))), block3 m gp ->
  not_buffer a -> nbvar m <= nv a -> Forall (Forall (in_foot (mpi_alloc3d m nv))) Ks ->
  completes (mpi_alloc3d m nv) (Z.to_nat (nprocs gp))
    (fun r => make_boundaries_mpi3 lay m gp a r ++ map Compute Ks)
    (Z.to_nat (nprocs gp) * (3 * (21 + length Ks))).
Proof.
  intros T N lay m gp a nv Ks (gok & Hx & Hy & Hz & Hn) Ha Hnv HK.
  apply (completes_exch false lay m gp a (mpi_alloc3d m nv) Ks); auto; try lia; try discriminate.
  - intros. apply mpi_arr3; auto.
  - intros. apply mpi_buf3; auto; lia.
Qed.
Print Assumptions C05_exchange_completes_3d.

(** In particular a whole time step. *)
Theorem C05_step_completes_2d :
  forall (T : Type) (N : Num T) lay m gp (S : hset T) g iv n dt, block2 m gp -> ready2 m S ->
  exists bound, completes (mpi_alloc2d m (nv2 m g iv)) (Z.to_nat (nprocs gp))
    (godunov2_mpi lay m gp S g iv dt (in_array n) (out_array n)) bound.
Proof.
  intros T N lay m gp S g iv n dt Hb (Hw & Hg & Hn & Hs & Hr).
  eexists. unfold godunov2_mpi. apply C05_exchange_completes_2d; auto.
  - unfold in_array, not_buffer. destruct (Nat.even n); reflexivity.
  - unfold in_array. destruct (Nat.even n); simpl; lia.
  - pose proof (godunov2_in_foot m S g dt Hs Hr Hw Hg Hn _ _ (cur_nxt n) iv Hs) as HF.
    unfold godunov2 in HF. apply Forall_app in HF. destruct HF as [_ HF]. revert HF. apply Forall_impl. intros K. apply Forall_impl. intros p.
    apply in_foot_mono. intros l. apply mpi_alloc2d_mono; intros; simpl; lia.
Qed.
Print Assumptions C05_step_completes_2d.

Theorem C05_step_completes_3d :
  forall (T : Type) (N : Num T) lay m gp (S : hset T) g iv n dt, block3 m gp -> ready3 m S ->
  exists bound, completes (mpi_alloc3d m (nv3 m g iv)) (Z.to_nat (nprocs gp))
    (godunov3_mpi lay m gp S g iv dt (in_array n) (out_array n)) bound.
Proof.
  intros T N lay m gp S g iv n dt Hb (Hw & Hg & Hn & Hs & Hr).
  eexists. unfold godunov3_mpi. apply C05_exchange_completes_3d; auto.
  - unfold in_array, not_buffer. destruct (Nat.even n); reflexivity.
  - unfold in_array. destruct (Nat.even n); simpl; lia.
  - pose proof (godunov3_in_foot m S g dt Hs Hr Hw Hg Hn _ _ (cur_nxt n) iv) as HF.
    unfold godunov3 in HF. apply Forall_app in HF. destruct HF as [_ HF]. revert HF. apply Forall_impl. intros K. apply Forall_impl. intros p.
    apply in_foot_mono. intros l. apply mpi_alloc3d_mono; intros; simpl; lia.
Qed.
Print Assumptions C05_step_completes_3d.

(** Pairing: when all processes have finished, the buffer received for side [f] is the
    one packed for side [opposite f] by the process beside. *)
Lemma spmd_lockrun {T} {NT : Num T} two lay m gp a inb (M M' : nat -> store T) : pgrid_ok gp ->
  spmd gp inb (fill_prog two lay m gp a) M M' -> lockrun inb (np gp) (fill_prog two lay m gp a) (fill_len two) M M'.
Proof.
  intros gok (eager & c & w & Hs & Hf & ->).
  apply (async_lockrun inb (np gp) _ (fill_len two) (fun p _ => fill_prog_len two lay m gp a p)
    (fun k Hk => fill_matched two lay m gp a gok k Hk) eager c M w Hs Hf).
Qed.

Theorem C05_pairing_2d :
  forall (T : Type) (N : Num T) lay m gp a inb (M M' : nat -> store T), block2 m gp -> not_buffer a ->
  spmd gp inb (make_boundaries_mpi2 lay m gp a) M M' ->
  forall r f x y x' y' z', sits gp r x y 0 -> f <> ZMIN -> f <> ZMAX -> beside gp f x y 0 x' y' z' ->
  exists r', sits gp r' x' y' z' /\
    forall i j v, M' r (L2 (A_BufRecv f) i j v) = M' r' (L2 (A_BufSend (opposite f)) i j v).
Proof.
  intros T N lay m gp a inb M M' (gok & flat & Hx & Hy & Hn) Ha Hrun r f x y x' y' z' Hs Hf1 Hf2 Hbes.
  destruct (C08_topology true gp (bc m) r x y 0 f gok Hs) as (_ & (x1 & y1 & z1 & Hb1 & Hs1) & _).
  assert (E : x1 = x' /\ y1 = y' /\ z1 = z').
  { destruct f; simpl in *; destruct Hbes as (-> & -> & ->), Hb1 as (-> & -> & ->); auto. }
  destruct E as (-> & -> & ->). exists (rank_of gp r f). split; auto.
  destruct (sits_coords gp r x y 0 gok Hs) as [Hr _].
  intros i j v.
  apply (fill_buffers true lay m gp a inb gok (fun _ => flat) ltac:(lia) ltac:(lia) ltac:(lia) ltac:(discriminate) ltac:(lia)
    ltac:(intros f' ->; discriminate) ltac:(intros f' ->; discriminate) M M'
    (spmd_lockrun true lay m gp a inb M M' gok Hrun) r f (i, j, 0) v Hr).
  destruct f; simpl; auto; congruence.
Qed.
Print Assumptions C05_pairing_2d.

Theorem C05_pairing_3d :
  forall (T : Type) (N : Num T) lay m gp a inb (M M' : nat -> store T), block3 m gp -> not_buffer a ->
  spmd gp inb (make_boundaries_mpi3 lay m gp a) M M' ->
  forall r f x y z x' y' z', sits gp r x y z -> beside gp f x y z x' y' z' ->
  exists r', sits gp r' x' y' z' /\
    forall i j k v, M' r (mkloc (A_BufRecv f) i j k v) = M' r' (mkloc (A_BufSend (opposite f)) i j k v).
Proof.
  intros T N lay m gp a inb M M' (gok & Hx & Hy & Hz & Hn) Ha Hrun r f x y z x' y' z' Hs Hbes.
  destruct (C08_topology false gp (bc m) r x y z f gok Hs) as (_ & (x1 & y1 & z1 & Hb1 & Hs1) & _).
  assert (E : x1 = x' /\ y1 = y' /\ z1 = z').
  { destruct f; simpl in *; destruct Hbes as (-> & -> & ->), Hb1 as (-> & -> & ->); auto. }
  destruct E as (-> & -> & ->). exists (rank_of gp r f). split; auto.
  destruct (sits_coords gp r x y z gok Hs) as [Hr _].
  intros i j k v.
  apply (fill_buffers false lay m gp a inb gok ltac:(discriminate) ltac:(lia) ltac:(lia) ltac:(lia) ltac:(intros; lia) ltac:(lia)
    ltac:(intros f' ->; discriminate) ltac:(intros f' ->; discriminate) M M'
    (spmd_lockrun false lay m gp a inb M M' gok Hrun) r f (i, j, k) v Hr).
  destruct f; simpl; auto; congruence.
Qed.
Print Assumptions C05_pairing_3d.

(** One process (its own neighbour on all sides), two processes (the same neighbour on
    both sides of an axis), and a 3 x 2 grid. *)
Example C05_witness : forall gp, In gp [mkpgrid 1 1 1; mkpgrid 2 1 1; mkpgrid 3 2 1] ->
  block2 ex_mesh2 gp /\ block2 ex_box2 gp /\ block3 ex_mesh3 gp /\ ready2 ex_mesh2 (ex_set R_HLLC 1) /\ ready3 ex_mesh3 (ex_set R_HLLC 1).
Proof.
  intros gp Hin. split; [|split; [|split; [|split]]].
  - destruct Hin as [<-|[<-|[<-|[]]]]; unfold block2, pgrid_ok; simpl; lia.
  - destruct Hin as [<-|[<-|[<-|[]]]]; unfold block2, pgrid_ok; simpl; lia.
  - destruct Hin as [<-|[<-|[<-|[]]]]; unfold block3, pgrid_ok; simpl; lia.
  - apply ex_ready2; [discriminate|simpl; auto].
  - apply ex_ready3; [discriminate|discriminate|simpl; auto].
Qed.

(** From [completes]: a complete run exists. *)
Lemma completes_runs {T} inb gp (P : nat -> list (action T)) b M :
  completes inb (Z.to_nat (nprocs gp)) P b -> exists M', spmd gp inb P M M'.
Proof.
  intros HC.
  assert (A : forall k c w, msteps inb (Z.to_nat (nprocs gp)) P (fun _ _ => true) c (MpiRun.start M) w ->
    (b - c <= k)%nat -> exists c' w', msteps inb (Z.to_nat (nprocs gp)) P (fun _ _ => true) c' (MpiRun.start M) w' /\
      MpiRun.finished (Z.to_nat (nprocs gp)) P w').
  { induction k; intros c w Hs Hk; destruct (HC _ _ _ _ Hs) as (H1 & _ & [Hf|[w' Hw]]); eauto;
    pose proof (msteps_S _ _ _ _ _ _ _ _ Hs Hw) as Hs'; destruct (HC _ _ _ _ Hs') as (H2 & _).
    - lia.
    - apply (IHk _ _ Hs'). lia. }
  destruct (A b 0%nat _ (msteps_0 _ _ _ _ _) ltac:(lia)) as (c & w & H1 & H2).
  exists (mem w), (fun _ _ => true), c, w. auto.
Qed.

(** ** C07 *)

(** Ghost cells of side [f]. *)
Definition ghost_layer2 (m : mesh) (f : face) (i j : Z) : Prop :=
  cell2 m i j /\
  match f with
  | XMIN => i < gw m | XMAX => nx m + gw m <= i
  | YMIN => j < gw m | YMAX => ny m + gw m <= j
  | ZMIN | ZMAX => False
  end.
Definition ghost_layer3 (m : mesh) (f : face) (i j k : Z) : Prop :=
  cell3 m i j k /\
  match f with
  | XMIN => i < gw m | XMAX => nx m + gw m <= i
  | YMIN => j < gw m | YMAX => ny m + gw m <= j
  | ZMIN => k < gw m | ZMAX => nz m + gw m <= k
  end.

(** Cell of the neighbour on side [f] that lies at the place of cell (i, j, k): the
    blocks follow each other without a gap. *)
Definition twin (m : mesh) (f : face) (i j k : Z) : Z * Z * Z :=
  match f with
  | XMIN => (i + nx m, j, k) | XMAX => (i - nx m, j, k)
  | YMIN => (i, j + ny m, k) | YMAX => (i, j - ny m, k)
  | ZMIN => (i, j, k + nz m) | ZMAX => (i, j, k - nz m)
  end.

Definition at3 (a : arr) (c : Z * Z * Z) (v : Z) : loc := let '(i, j, k) := c in mkloc a i j k v.

(** Locations written by a work item run from [s], in order. *)
Fixpoint writes {T} (p : prog T) (s : store T) : list loc :=
  match p with
  | Done | Crash => []
  | Rd l k => writes (k (s l)) s
  | Wr l x k => l :: writes k (upd s l x)
  | Upd l f k => l :: writes k (upd s l (f (s l)))
  end.
Definition all_writes {T} (K : list (prog T)) (s : store T) : list loc := flat_map (fun p => writes p s) K.

Lemma slab2 m f i j : slab true m f (i, j, 0) <-> ghost_layer2 m f i j \/ (f = ZMIN \/ f = ZMAX) /\ slab true m f (i, j, 0).
Proof.
  unfold slab, ghost_layer2, cell2, BoundariesFacts.in_array, ghost_lo, ghost_hi, isize, jsize. destruct f; simpl; split; intros; try (left; lia); try lia; try tauto.
Qed.

Lemma slab3 m f i j k : slab false m f (i, j, k) <-> ghost_layer3 m f i j k.
Proof.
  unfold slab, ghost_layer3, cell3, cell2, BoundariesFacts.in_array, ghost_lo, ghost_hi, isize, jsize, ksize. destruct f; simpl; lia.
Qed.

Lemma move_twin m f i j k : move f (- recv_off m f) (i, j, k) = move (opposite f) (- send_off m (opposite f)) (twin m f i j k).
Proof. unfold move, recv_off, send_off, twin. destruct f; simpl; repeat apply (f_equal2 pair); lia. Qed.

Lemma move_back f o c : move f o (move f (- o) c) = c.
Proof. destruct c as [[i j] k]. unfold move. destruct f; simpl; repeat apply (f_equal2 pair); lia. Qed.

Lemma bbox_opp two m f c : bbox two m (opposite f) c <-> bbox two m f c.
Proof. destruct f; reflexivity. Qed.

Lemma carry {T} two lay m a inb inb' f (Sd Sd' Rc Rc' : store T) :
  0 < gw m -> 1 <= nx m -> 1 <= ny m -> (two = false -> 1 <= nz m) -> 0 <= nbvar m -> not_buffer a -> ok_face two f ->
  exec inb Sd (pack two lay m a (opposite f)) Sd' ->
  exec inb' (received Rc (A_BufRecv f) (content Sd' (A_BufSend (opposite f)))) (unpack two lay m a f) Rc' ->
  (forall i j k v, slab two m f (i, j, k) -> 0 <= v < nbvar m ->
     Rc' (at3 a (i, j, k) v) = Sd (at3 a (twin m f i j k) v)) /\
  (forall l, ~ (la l = a /\ slab two m f (cell_of l) /\ 0 <= lv l < nbvar m) -> la l <> A_BufRecv f -> Rc' l = Rc l) /\
  (forall l, la l <> A_BufSend (opposite f) -> Sd' l = Sd l).
Proof.
  intros Hg Hx Hy Hz Hn Ha Hf Hp Hu.
  apply pack_exec in Hp; auto; [|intros f' ->; discriminate|destruct f; exact Hf].
  apply unpack_exec in Hu; auto; [|intros f' ->; discriminate].
  destruct Hp as [P1 P2], Hu as [U1 U2]. split; [|split; [|exact P2]].
  - intros i j k v Hs Hv. destruct (slab_box two m Hz f (i, j, k) Hf Hs) as [Hb Em].
    change (at3 a (i, j, k) v) with (at_ a (i, j, k) v). rewrite <- Em at 1. rewrite U1 by auto.
    rewrite content_received. rewrite P1 by (auto; apply bbox_opp; auto).
    rewrite move_twin, move_back. destruct (twin m f i j k) as [[i' j'] k']. reflexivity.
  - intros l H1 H2. rewrite U2 by auto. apply received_other. auto.
Qed.

(** [Sd]: memory of the sender, [Rc]: memory of the receiver, [f]: side of the receiver. *)
Theorem C07_border_moves_2d :
  forall (T : Type) lay m a inb inb' f (Sd Sd' Rc Rc' : store T),
  0 < gw m -> 1 <= nx m -> 1 <= ny m -> 0 <= nbvar m -> not_buffer a -> f <> ZMIN -> f <> ZMAX ->
  exec inb Sd (pack2d lay m a (opposite f)) Sd' ->
  exec inb' (received Rc (A_BufRecv f) (content Sd' (A_BufSend (opposite f)))) (unpack2d lay m a f) Rc' ->
  (forall i j v, ghost_layer2 m f i j -> 0 <= v < nbvar m ->
     Rc' (L2 a i j v) = Sd (at3 a (twin m f i j 0) v)) /\
  (forall l, ~ (la l = a /\ ghost_layer2 m f (li l) (lj l) /\ lk l = 0 /\ 0 <= lv l < nbvar m) ->
     la l <> A_BufRecv f -> Rc' l = Rc l) /\
  (forall l, la l <> A_BufSend (opposite f) -> Sd' l = Sd l).
Proof.
  intros T lay m a inb inb' f Sd Sd' Rc Rc' Hg Hx Hy Hn Ha Hf1 Hf2 Hp Hu.
  destruct (carry true lay m a inb inb' f Sd Sd' Rc Rc' Hg Hx Hy ltac:(discriminate) Hn Ha) as (A & B & C);
    [destruct f; simpl; auto; congruence|exact Hp|exact Hu|].
  split; [|split; [|exact C]].
  - intros i j v Hs Hv. apply (A i j 0 v); auto. apply slab2. auto.
  - intros l Hl Hb. apply B; auto. intros (E1 & E2 & E3). apply Hl. split; auto. destruct l as [b i j k v]. simpl in *.
    unfold cell_of in E2; simpl in E2. assert (k = 0) as -> by (destruct E2 as [E2 _]; simpl in E2; lia).
    apply slab2 in E2. destruct E2 as [E2|[[E2|E2] _]]; try congruence. auto.
Qed.
Print Assumptions C07_border_moves_2d.

Theorem C07_border_moves_3d :
  forall (T : Type) lay m a inb inb' f (Sd Sd' Rc Rc' : store T),
  0 < gw m -> 1 <= nx m -> 1 <= ny m -> 1 <= nz m -> 0 <= nbvar m -> not_buffer a ->
  exec inb Sd (pack3d lay m a (opposite f)) Sd' ->
  exec inb' (received Rc (A_BufRecv f) (content Sd' (A_BufSend (opposite f)))) (unpack3d lay m a f) Rc' ->
  (forall i j k v, ghost_layer3 m f i j k -> 0 <= v < nbvar m ->
     Rc' (mkloc a i j k v) = Sd (at3 a (twin m f i j k) v)) /\
  (forall l, ~ (la l = a /\ ghost_layer3 m f (li l) (lj l) (lk l) /\ 0 <= lv l < nbvar m) ->
     la l <> A_BufRecv f -> Rc' l = Rc l) /\
  (forall l, la l <> A_BufSend (opposite f) -> Sd' l = Sd l).
Proof.
  intros T lay m a inb inb' f Sd Sd' Rc Rc' Hg Hx Hy Hz Hn Ha Hp Hu.
  destruct (carry false lay m a inb inb' f Sd Sd' Rc Rc' Hg Hx Hy (fun _ => Hz) Hn Ha) as (A & B & C);
    [destruct f; simpl; auto; congruence|exact Hp|exact Hu|].
  split; [|split; [|exact C]].
  - intros i j k v Hs Hv. apply (A i j k v); auto. apply slab3. auto.
  - intros l Hl Hb. apply B; auto. intros (E1 & E2 & E3). apply Hl. split; auto. split; auto. apply slab3. exact E2.
Qed.
Print Assumptions C07_border_moves_3d.

(** Each ghost cell is written exactly once, for every variable. *)
Lemma writes_copy_n {T} n : forall v dst src (s : store T),
  writes (copy_n n v dst src) s = map (fun k => dst (v + Z.of_nat k)) (seq 0 n).
Proof.
  induction n as [|n IH]; intros v dst src s; simpl; auto. rewrite IH, <- seq_shift, map_map.
  f_equal; [f_equal; lia|]. apply map_ext. intros k. f_equal. lia.
Qed.

Lemma nodup_flat_map {A B} (f : A -> list B) l : NoDup l -> (forall x, In x l -> NoDup (f x)) ->
  (forall x y z, In x l -> In y l -> In z (f x) -> In z (f y) -> x = y) -> NoDup (flat_map f l).
Proof.
  induction l as [|x l IH]; intros Hn Hf Hd; simpl; [constructor|]. inversion Hn; subst.
  assert (IH' : NoDup (flat_map f l)).
  { apply IH; auto; intros; [apply Hf; simpl; auto|eapply Hd; eauto; simpl; auto]. }
  assert (Hx : NoDup (f x)) by (apply Hf; simpl; auto).
  assert (Hdis : forall z, In z (f x) -> ~ In z (flat_map f l)).
  { intros z Hz Hin. apply in_flat_map in Hin. destruct Hin as (y & Hy & Hzy).
    assert (x = y) by (eapply Hd; eauto; simpl; auto). congruence. }
  revert Hx Hdis. induction (f x) as [|b bs IHb]; intros Hx Hdis; simpl; auto. inversion Hx; subst.
  constructor.
  - intros Hin. apply in_app_or in Hin. destruct Hin as [Hin|Hin]; auto. apply (Hdis b); simpl; auto.
  - apply IHb; auto. intros z Hz. apply Hdis. simpl; auto.
Qed.

Lemma at_inj a c v c' v' : at_ a c v = at_ a c' v' -> c = c' /\ v = v'.
Proof. destruct c as [[i j] k], c' as [[i' j'] k']. simpl. intros E. inversion E. auto. Qed.

Lemma move_inj f o c c' : move f o c = move f o c' -> c = c'.
Proof.
  destruct c as [[i j] k], c' as [[i' j'] k']. unfold move. destruct f; simpl; intros E; inversion E;
  repeat apply (f_equal2 pair); lia.
Qed.

Lemma unpack_once {T} two lay m a f (s : store T) :
  0 < gw m -> 1 <= nx m -> 1 <= ny m -> (two = false -> 1 <= nz m) -> 0 <= nbvar m -> ok_face two f ->
  NoDup (all_writes (unpack two lay m a f) s) /\
  forall l, In l (all_writes (unpack two lay m a f) s) <->
    la l = a /\ slab two m f (cell_of l) /\ 0 <= lv l < nbvar m.
Proof.
  intros Hg Hx Hy Hz Hn Hf. rewrite unpack_eq by auto.
  assert (E : all_writes (map (body2 (T := T) a (A_BufRecv f) (bdec two lay m f) (move f (recv_off m f)) (fun c => c)
      (Z.to_nat (nbvar m))) (range (border_iter two m f))) s =
    flat_map (fun x => map (fun k => at_ a (move f (recv_off m f) (bdec two lay m f x)) (Z.of_nat k)) (seq 0 (Z.to_nat (nbvar m))))
      (range (border_iter two m f))).
  { unfold all_writes. rewrite flat_map_concat_map, map_map, flat_map_concat_map. f_equal.
    apply map_ext. intros x. unfold body2. rewrite writes_copy_n. apply map_ext. intros k. reflexivity. }
  rewrite E. split.
  - apply nodup_flat_map.
    + apply nodup_range.
    + intros x _. apply FinFun.Injective_map_NoDup; [|apply seq_NoDup]. intros k k' Ek. apply at_inj in Ek. lia.
    + intros x y z Hx1 Hy1 H1 H2. apply in_map_iff in H1, H2. destruct H1 as (k1 & <- & _), H2 as (k2 & E2 & _).
      apply at_inj in E2. destruct E2 as [E2 _]. apply move_inj in E2.
      symmetry. exact (bdec_inj two lay m Hg Hx Hy Hz f y x Hf Hy1 Hx1 E2).
  - intros l. rewrite in_flat_map. split.
    + intros (x & Hin & H1). apply in_map_iff in H1. destruct H1 as (k & <- & Hk). apply in_seq in Hk.
      rewrite la_at, cell_at, lv_at. split; auto. split; [|lia].
      assert (Hb : bbox two m f (bdec two lay m f x)).
      { apply (bdec_box two lay m Hg Hx Hy Hz f _ Hf). eauto. }
      revert Hb. generalize (bdec two lay m f x). intros [[i j] kk] Hb.
      unfold slab, bbox, buf_ext, move, recv_off, ghost_lo, ghost_hi, BoundariesFacts.in_array in *.
      destruct f; simpl in *; umesh; try rewrite Hf in *; (destruct two; [|specialize (Hz eq_refl)]);
      try congruence; lia.
    + intros (Ha & Hs & Hv). destruct (slab_box two m Hz f _ Hf Hs) as [Hb Em].
      destruct (proj1 (bdec_box two lay m Hg Hx Hy Hz f _ Hf) Hb) as (x & Hin & Ex).
      exists x. split; auto. apply in_map_iff. exists (Z.to_nat (lv l)). split; [|apply in_seq; lia].
      rewrite Ex, Em, Z2Nat.id by lia. destruct l; simpl in *; subst; reflexivity.
Qed.

Theorem C07_each_ghost_once_2d :
  forall (T : Type) lay m a f (s : store T),
  0 < gw m -> 1 <= nx m -> 1 <= ny m -> 0 <= nbvar m -> f <> ZMIN -> f <> ZMAX ->
  NoDup (all_writes (unpack2d lay m a f) s) /\
  forall l, In l (all_writes (unpack2d lay m a f) s) <->
    la l = a /\ ghost_layer2 m f (li l) (lj l) /\ lk l = 0 /\ 0 <= lv l < nbvar m.
Proof.
  intros T lay m a f s Hg Hx Hy Hn Hf1 Hf2.
  destruct (unpack_once true lay m a f s Hg Hx Hy ltac:(discriminate) Hn) as [A B]; [destruct f; simpl; auto; congruence|].
  split; [exact A|]. intros l. etransitivity; [apply B|]. destruct l as [b i j k v]; unfold cell_of; simpl. split.
  - intros (E1 & E2 & E3). assert (k = 0) as -> by (destruct E2 as [E2 _]; simpl in E2; lia).
    apply slab2 in E2. destruct E2 as [E2|[[E2|E2] _]]; try congruence. auto.
  - intros (E1 & E2 & -> & E3). split; auto. split; auto. apply slab2. auto.
Qed.
Print Assumptions C07_each_ghost_once_2d.

Theorem C07_each_ghost_once_3d :
  forall (T : Type) lay m a f (s : store T),
  0 < gw m -> 1 <= nx m -> 1 <= ny m -> 1 <= nz m -> 0 <= nbvar m ->
  NoDup (all_writes (unpack3d lay m a f) s) /\
  forall l, In l (all_writes (unpack3d lay m a f) s) <->
    la l = a /\ ghost_layer3 m f (li l) (lj l) (lk l) /\ 0 <= lv l < nbvar m.
Proof.
  intros T lay m a f s Hg Hx Hy Hz Hn.
  destruct (unpack_once false lay m a f s Hg Hx Hy (fun _ => Hz) Hn) as [A B]; [destruct f; simpl; auto; congruence|].
  split; [exact A|]. intros l. etransitivity; [apply B|]. destruct l as [b i j k v]; unfold cell_of; simpl.
  split; intros (E1 & E2 & E3); (split; [auto|split; [apply slab3; auto|auto]]).
Qed.
Print Assumptions C07_each_ghost_once_3d.

(** A ghost cell and its source on 4 x 3 cells with 2 ghosts. *)
Example C07_witness : ghost_layer2 ex_mesh2 XMIN 1 3 /\ twin ex_mesh2 XMIN 1 3 0 = (5, 3, 0) /\
  phys2 ex_mesh2 5 3 /\
  all_writes (T := R) (unpack2d LayoutLeft (mkmesh 1 1 1 1 2 false (fun _ => 3)) A_U XMAX) (fun _ => 0%R) =
    [L2 A_U 2 0 0; L2 A_U 2 0 1; L2 A_U 2 1 0; L2 A_U 2 1 1; L2 A_U 2 2 0; L2 A_U 2 2 1].
Proof. split; [|split; [|split]]; try reflexivity; unfold ghost_layer2, cell2, phys2, physical; simpl; lia. Qed.

(** ** C06 *)

(** The serial program runs on [gmesh m gp]: mx*nx by my*ny (by mz*nz) cells, same ghost
    width, number of variables and boundary types. *)
Example gmesh_meaning : forall m gp, gmesh m gp =
  mkmesh (nx m * mx gp) (ny m * my gp) (nz m * mz gp) (gw m) (nbvar m) (p_mhd m) (bc m).
Proof. reflexivity. Qed.

(** Documented boundary types: reflecting, absorbing, periodic (and BC_COPY). *)
Definition codes_ok2 (m : mesh) : Prop := forall f, f <> ZMIN -> f <> ZMAX -> 1 <= bc m f <= 4.
Definition codes_ok3 (m : mesh) : Prop := forall f, 1 <= bc m f <= 4.

Lemma spmd_ext {T} gp inb (P P' : nat -> list (action T)) M M' : (forall r, P r = P' r) ->
  spmd gp inb P M M' -> spmd gp inb P' M M'.
Proof.
  intros HP (eager & c & w & H1 & H2 & H3). exists eager, c, w. split; [|split; [|exact H3]].
  - clear H2 H3. induction H1; [constructor|]. econstructor; eauto.
    inversion H; subst; [eapply m_compute|eapply m_post|eapply m_recv|eapply m_return|eapply m_barrier]; eauto;
      rewrite <- ?HP; eauto. intros p Hp. rewrite <- HP. auto.
  - intros p Hp. rewrite <- HP. apply H2; auto.
Qed.

(** Ghost filling: every process ends with its window, ghosts included, of the
    ghost-filled global array, and nothing else changes. *)
Theorem C06_ghosts_2d :
  forall (T : Type) (N : Num T) (O : NumOne T) lay m gp a inb inb' (M M' : nat -> store T) s s',
  block2 m gp -> codes_ok2 m -> not_buffer a ->
  (forall r x y, sits gp r x y 0 -> forall i j v, phys2 m i j -> 0 <= v < nbvar m ->
     M r (L2 a i j v) = s (L2 a (x * nx m + i) (y * ny m + j) v)) ->
  spmd gp inb (make_boundaries_mpi2 lay m gp a) M M' ->
  execs inb' s (make_boundaries2d (gmesh m gp) a) s' ->
  forall r x y, sits gp r x y 0 ->
  (forall i j v, cell2 m i j -> 0 <= v < nbvar m ->
     M' r (L2 a i j v) = s' (L2 a (x * nx m + i) (y * ny m + j) v)) /\
  (forall l, not_buffer (la l) -> la l <> a -> M' r l = M r l).
Proof.
  intros T N O lay m gp a inb inb' M M' s s' (gok & flat & Hx & Hy & Hn) Hbc Ha HM Hrun Hex r x y Hs.
  destruct (sits_coords gp r x y 0 gok Hs) as [Hr _]. destruct (sits_org m gp r x y 0 gok Hs) as (OX & OY & _).
  assert (Hbc' : forall f, face_ok true f -> 1 <= bc m f <= 4).
  { intros f Hf. apply Hbc; intros ->; discriminate. }
  destruct (spmd_fill true lay m gp a inb gok (fun _ => flat) ltac:(lia) ltac:(lia) Hy ltac:(discriminate)
    Hn Hbc' ltac:(intros f ->; discriminate) ltac:(intros f ->; discriminate) [] M M' (fun c v => s (at_ a c v)))
    as (M1 & A & B & C).
  { intros q c v Hq Hc Hv. destruct (phys2_dom m c Hc) as (i & j & -> & Hp).
    destruct (sits_exists gp q gok Hq) as (x1 & y1 & z1 & Hs1).
    assert (z1 = 0) as -> by (destruct Hs1 as (_ & _ & Hz & _); lia).
    destruct (sits_org m gp q x1 y1 0 gok Hs1) as (OX1 & OY1 & _).
    etransitivity; [apply (HM q x1 y1 Hs1 i j v Hp Hv)|].
    unfold win, org in *. simpl. unfold L2. rewrite <- OX1, <- OY1. reflexivity. }
  { revert Hrun. apply spmd_ext. intros q. unfold exch_prog, fill_prog. symmetry. apply app_nil_r. }
  assert (E1 : M' r = M1 r) by (specialize (C r Hr); inversion C; auto).
  assert (Hw : wide2 (gmesh m gp)) by (apply gmesh_wide; auto; lia).
  destruct (fill2d_spec (gmesh m gp) a inb' s s' Hw Hex) as (SA & SB & SC).
  rewrite E1. split.
  - intros i j v Hc Hv. unfold L2 at 2. rewrite SA.
    + rewrite <- OX, <- OY. apply (A r (i, j, 0) v Hr); [|lia].
      unfold cell2 in Hc. simpl. unfold isize, jsize. lia.
    + destruct Hs as (Sx & Sy & Sz & _). unfold cell2 in *. simpl. nia.
    + simpl. lia.
  - intros l Hl Hla. apply B; auto. tauto.
Qed.
Print Assumptions C06_ghosts_2d.

Theorem C06_ghosts_3d :
  forall (T : Type) (N : Num T) (O : NumOne T) lay m gp a inb inb' (M M' : nat -> store T) s s',
  block3 m gp -> codes_ok3 m -> not_buffer a ->
  (forall r x y z, sits gp r x y z -> forall i j k v, phys3 m i j k -> 0 <= v < nbvar m ->
     M r (mkloc a i j k v) = s (mkloc a (x * nx m + i) (y * ny m + j) (z * nz m + k) v)) ->
  spmd gp inb (make_boundaries_mpi3 lay m gp a) M M' ->
  execs inb' s (make_boundaries3d (gmesh m gp) a) s' ->
  forall r x y z, sits gp r x y z ->
  (forall i j k v, cell3 m i j k -> 0 <= v < nbvar m ->
     M' r (mkloc a i j k v) = s' (mkloc a (x * nx m + i) (y * ny m + j) (z * nz m + k) v)) /\
  (forall l, not_buffer (la l) -> la l <> a -> M' r l = M r l).
Proof.
  intros T N O lay m gp a inb inb' M M' s s' (gok & Hx & Hy & Hz & Hn) Hbc Ha HM Hrun Hex r x y z Hs.
  destruct (sits_coords gp r x y z gok Hs) as [Hr _]. destruct (sits_org m gp r x y z gok Hs) as (OX & OY & OZ).
  destruct (spmd_fill false lay m gp a inb gok ltac:(discriminate) ltac:(lia) ltac:(lia) Hy (fun _ => Hz)
    Hn (fun f _ => Hbc f) ltac:(intros f ->; discriminate) ltac:(intros f ->; discriminate) [] M M' (fun c v => s (at_ a c v)))
    as (M1 & A & B & C).
  { intros q c v Hq Hc Hv. destruct (phys3_dom m c Hc) as (i & j & k & -> & Hp).
    destruct (sits_exists gp q gok Hq) as (x1 & y1 & z1 & Hs1).
    destruct (sits_org m gp q x1 y1 z1 gok Hs1) as (OX1 & OY1 & OZ1).
    etransitivity; [apply (HM q x1 y1 z1 Hs1 i j k v Hp Hv)|].
    unfold win, org in *. simpl. rewrite <- OX1, <- OY1, <- OZ1. reflexivity. }
  { revert Hrun. apply spmd_ext. intros q. unfold exch_prog, fill_prog. symmetry. apply app_nil_r. }
  assert (E1 : M' r = M1 r) by (specialize (C r Hr); inversion C; auto).
  assert (Hw : wide3 (gmesh m gp)) by (apply gmesh_wide3; auto; lia).
  destruct (fill3d_spec (gmesh m gp) a inb' s s' Hw Hex) as (SA & SB & SC).
  rewrite E1. split.
  - intros i j k v Hc Hv. rewrite SA.
    + rewrite <- OX, <- OY, <- OZ. apply (A r (i, j, k) v Hr); [|lia].
      unfold cell3, cell2 in Hc. simpl. unfold isize, jsize, ksize. lia.
    + destruct Hs as (Sx & Sy & Sz & _). unfold cell3, cell2 in *. simpl. nia.
    + simpl. lia.
  - intros l Hl Hla. apply B; auto. tauto.
Qed.
Print Assumptions C06_ghosts_3d.

(** Every process holds its part of the state of the serial program: physical cells of
    the array [a] and the gravity field. *)
Definition share2 {T} (m : mesh) (gp : pgrid) (a : arr) (M : nat -> store T) (s : store T) : Prop :=
  forall r x y, sits gp r x y 0 ->
  (forall i j v, phys2 m i j -> 0 <= v < 4 -> M r (L2 a i j v) = s (L2 a (x * nx m + i) (y * ny m + j) v)) /\
  (forall i j v, cell2 m i j -> M r (L2 A_G i j v) = s (L2 A_G (x * nx m + i) (y * ny m + j) v)).
Definition share3 {T} (m : mesh) (gp : pgrid) (a : arr) (M : nat -> store T) (s : store T) : Prop :=
  forall r x y z, sits gp r x y z ->
  (forall i j k v, phys3 m i j k -> 0 <= v < 5 ->
     M r (mkloc a i j k v) = s (mkloc a (x * nx m + i) (y * ny m + j) (z * nz m + k) v)) /\
  (forall i j k v, cell3 m i j k ->
     M r (mkloc A_G i j k v) = s (mkloc A_G (x * nx m + i) (y * ny m + j) (z * nz m + k) v)).

Lemma share_blocks2 {T} m gp a (M : nat -> store T) s : pgrid_ok gp -> mz gp = 1 -> share2 m gp a M s <-> blocks2 m gp a M s.
Proof.
  intros gok flat. split.
  - intros HS. split; intros r i j v Hr Hp; destruct (sits_exists gp r gok Hr) as (x & y & z & Hs);
    (assert (z = 0) as -> by (destruct Hs as (_ & _ & Hz & _); lia));
    destruct (sits_org m gp r x y 0 gok Hs) as (-> & -> & _); apply (HS r x y Hs); auto.
  - intros [H1 H2] r x y Hs. destruct (sits_coords gp r x y 0 gok Hs) as [Hr _].
    destruct (sits_org m gp r x y 0 gok Hs) as (<- & <- & _). split; intros; auto.
Qed.

Lemma share_blocks3 {T} m gp a (M : nat -> store T) s : pgrid_ok gp -> share3 m gp a M s <-> blocks3 m gp a M s.
Proof.
  intros gok. split.
  - intros HS. split; intros r i j k v Hr Hp; destruct (sits_exists gp r gok Hr) as (x & y & z & Hs);
    destruct (sits_org m gp r x y z gok Hs) as (-> & -> & ->); apply (HS r x y z Hs); auto.
  - intros [H1 H2] r x y z Hs. destruct (sits_coords gp r x y z gok Hs) as [Hr _].
    destruct (sits_org m gp r x y z gok Hs) as (<- & <- & <-). split; intros; auto.
Qed.

(** Both programs take the same steps; [S] is common. *)
Definition ready2_mpi {T} {N : Num T} (m : mesh) (gp : pgrid) (S : hset T) : Prop :=
  block2 m gp /\ codes_ok2 m /\ 2 <= gw m /\ nbvar m = 4 /\ slope_ok S /\ solver_ok2 S.
Definition ready3_mpi {T} {N : Num T} (m : mesh) (gp : pgrid) (S : hset T) : Prop :=
  block3 m gp /\ codes_ok3 m /\ 2 <= gw m /\ nbvar m = 5 /\ slope_ok S /\ solver_ok3 S.

Lemma ready_splits2 {T} {N : Num T} m gp (S : hset T) : ready2_mpi m gp S ->
  splits2 m gp /\ wide2 (gmesh m gp) /\ slope_ok S /\ solver_ok2 S.
Proof.
  intros ((gok & flat & Hx & Hy & Hn) & Hbc & Hg & Hv & Hs & Hr). split; [|split; [|split]]; auto.
  - repeat (split; auto; try lia); intros; apply Hbc; intros ->; discriminate.
  - apply gmesh_wide; auto; lia.
Qed.

Lemma ready_splits3 {T} {N : Num T} m gp (S : hset T) : ready3_mpi m gp S ->
  splits3 m gp /\ wide3 (gmesh m gp) /\ slope_ok S /\ solver_ok3 S.
Proof.
  intros ((gok & Hx & Hy & Hz & Hn) & Hbc & Hg & Hv & Hs & Hr). split; [|split; [|split]]; auto.
  - repeat (split; auto; try lia); intros; apply Hbc.
  - apply gmesh_wide3; auto; lia.
Qed.

(** Sequence of steps of given lengths from iteration [n]. *)
Inductive steps_of {T M D} (P : machine T M D) : nat -> list T -> M -> M -> Prop :=
| steps_nil : forall n s, steps_of P n [] s s
| steps_cons : forall n dt dts s s1 s2, after P dt n s s1 -> steps_of P (Datatypes.S n) dts s1 s2 ->
    steps_of P n (dt :: dts) s s2.

Lemma steps_share {T M D M2 D2} (P : machine T M D) (P2 : machine T M2 D2) (Rel : nat -> M -> M2 -> Prop) :
  (forall dt n a a' b b', Rel n a b -> after P dt n a a' -> after P2 dt n b b' -> Rel (Datatypes.S n) a' b') ->
  forall dts n a a' b b', Rel n a b -> steps_of P n dts a a' -> steps_of P2 n dts b b' -> Rel (n + length dts)%nat a' b'.
Proof.
  intros HP dts. induction dts as [|dt dts IH]; intros n a a' b b' HR H1 H2; inversion H1; inversion H2; subst.
  - simpl. rewrite Nat.add_0_r. auto.
  - simpl. rewrite <- Nat.add_succ_comm. eapply IH; eauto.
Qed.

Theorem C06_steps_2d :
  forall (T : Type) (N : Num T) (O : NumOne T) lay m gp (S : hset T) g inb inb' iv iv' n dts M M' s s',
  ready2_mpi m gp S -> iv = V0 \/ iv = V1 -> iv' = V0 \/ iv' = V1 ->
  share2 m gp (in_array n) M s ->
  steps_of (hydro2_mpi lay m gp S g inb iv) n dts M M' ->
  steps_of (hydro2 (gmesh m gp) S g inb' iv') n dts s s' ->
  share2 m gp (in_array (n + length dts)) M' s'.
Proof.
  intros T N O lay m gp S g inb inb' iv iv' n dts M M' s s' HR Hiv Hiv' HS H1 H2.
  destruct (ready_splits2 m gp S HR) as (Hsp & Hw & Hs & Hr). pose proof Hsp as (gok & flat & Hg & Hx & Hy & Hv & Hbc).
  rewrite share_blocks2 in * by auto.
  refine (steps_share _ _ (fun n => blocks2 m gp (in_array n)) _ dts n M M' s s' HS H1 H2).
  clear - Hsp Hw Hs Hr Hg Hv Hiv Hiv' O. intros dt n a a' b b' HB HA HA2.
  change (in_array (Datatypes.S n)) with (cur (Datatypes.S n)). rewrite cur_S.
  apply (dist_blocks2 lay m gp S g inb iv Hsp inb' iv' n dt a a' b b'); auto.
  - apply body_ok2_V01; auto.
  - apply refines_V01; auto.
Qed.
Print Assumptions C06_steps_2d.

Theorem C06_steps_3d :
  forall (T : Type) (N : Num T) (O : NumOne T) lay m gp (S : hset T) g inb inb' iv n dts M M' s s',
  ready3_mpi m gp S -> iv = V0 \/ iv = V1 ->
  share3 m gp (in_array n) M s ->
  steps_of (hydro3_mpi lay m gp S g inb iv) n dts M M' ->
  steps_of (hydro3 (gmesh m gp) S g inb' iv) n dts s s' ->
  share3 m gp (in_array (n + length dts)) M' s'.
Proof.
  intros T N O lay m gp S g inb inb' iv n dts M M' s s' HR Hiv HS H1 H2.
  destruct (ready_splits3 m gp S HR) as (Hsp & Hw & Hs & Hr). pose proof Hsp as (gok & Hg & Hx & Hy & Hz & Hv & Hbc).
  rewrite share_blocks3 in * by auto.
  refine (steps_share _ _ (fun n => blocks3 m gp (in_array n)) _ dts n M M' s s' HS H1 H2).
  clear - Hsp Hw Hs Hr Hg Hv Hiv O. intros dt n a a' b b' HB HA HA2.
  change (in_array (Datatypes.S n)) with (cur (Datatypes.S n)). rewrite cur_S.
  apply (dist_blocks3 lay m gp S g inb iv (full_of iv) Hsp inb' iv n dt a a' b b'); auto.
  - apply body_ok3_V01; auto.
  - apply refines3_V01; auto.
Qed.
Print Assumptions C06_steps_3d.

(** Whole runs in exact arithmetic, any implementation versions: the distributed run
    and the serial run of the whole mesh go through the same times, time steps and
    file numbers, and every process writes and ends with its part. *)
Definition file_parts2 {T} (m : mesh) (gp : pgrid) (D : nat -> field2 T) (d : field2 T) : Prop :=
  forall r x y, sits gp r x y 0 -> forall i j v, phys2 m i j -> 0 <= v < 4 ->
  D r i j v = d (x * nx m + i) (y * ny m + j) v.
Definition file_parts3 {T} (m : mesh) (gp : pgrid) (D : nat -> field3 T) (d : field3 T) : Prop :=
  forall r x y z, sits gp r x y z -> forall i j k v, phys3 m i j k -> 0 <= v < 5 ->
  D r i j k v = d (x * nx m + i) (y * ny m + j) (z * nz m + k) v.

Definition same_run2 {T} (m : mesh) (gp : pgrid) :=
  same_sol (T := T) (fun n => share2 (T := T) m gp (in_array n)) (file_parts2 (T := T) m gp).
Definition same_run3 {T} (m : mesh) (gp : pgrid) :=
  same_sol (T := T) (fun n => share3 (T := T) m gp (in_array n)) (file_parts3 (T := T) m gp).

Theorem C06_run_exact_2d :
  forall lay m gp (S : hset R) g inb inb' iv iv' c t0 k0 M0 M s0 s z tr z' q qtr q',
  ready2_mpi m gp S -> sane S -> (0 < cfl S -> 0 < dx S -> 0 < dy S ->
  share2 m gp A_U M0 s0 ->
  built2_mpi lay m gp inb M0 M -> built2 (gmesh m gp) inb' s0 s ->
  Driver.start t0 k0 M z -> Driver.start t0 k0 s q -> s_dt z = s_dt q ->
  main (hydro2_mpi lay m gp S g inb iv) c z tr z' ->
  main (hydro2 (gmesh m gp) S g inb' iv') c q qtr q' ->
  Forall2 (same_run2 m gp) tr qtr /\ same_run2 m gp z' q')%R.
Proof.
  intros lay m gp S g inb inb' iv iv' c t0 k0 M0 M s0 s z tr z' q qtr q' HR HS Hc Hdx Hdy H0 HM Hb Hz Hq Edt Hm1 Hm2.
  destruct (ready_splits2 m gp S HR) as (Hsp & Hw & Hs & Hr). pose proof Hsp as (gok & flat & Hg & Hx & Hy & Hv & Hbc).
  refine (both_main (hydro2_mpi lay m gp S g inb iv) c (hydro2 (gmesh m gp) S g inb' iv')
    (fun n => share2 m gp (in_array n)) (fun n => share2 m gp (in_array n)) (file_parts2 m gp) _ _ _ _
    z tr z' q qtr q' _ Hm1 Hm2).
  - intros n a a' b b' HB -> ->. exact HB.
  - intros n a b d d2 HB H1 H2. apply share_blocks2 in HB; auto.
    exact (dt_same2 S g HS Hc Hdx Hdy m gp (in_array n) a b d d2 Hsp HB H1 H2).
  - intros dt n a a' b b' HB HA HA2. apply share_blocks2 in HB; auto. apply share_blocks2; auto.
    change (in_array (Datatypes.S n)) with (cur (Datatypes.S n)). rewrite cur_S.
    apply (dist_blocks2 lay m gp S g inb iv Hsp inb' iv' n dt a a' b b'); auto.
    + apply body_ok2_R; auto.
    + apply refines_R; auto.
  - intros n a b HB r x y Hsit i j v Hp Hvv. apply (HB r x y Hsit); auto.
  - destruct Hz as (E1 & E2 & E3 & E4 & E5), Hq as (F1 & F2 & F3 & F4 & F5).
    unfold same_sol. rewrite E1, E2, E3, E4, E5, F1, F2, F3, F4, F5. repeat (split; auto).
    + apply share_blocks2 in H0; auto. destruct H0 as [HU HG].
      pose proof (built_blocks2 lay m gp inb Hsp inb' M0 M s0 s HU HG HM Hb) as HB.
      apply share_blocks2 in HB; auto. apply (HB r x y H).
    + apply share_blocks2 in H0; auto. destruct H0 as [HU HG].
      pose proof (built_blocks2 lay m gp inb Hsp inb' M0 M s0 s HU HG HM Hb) as HB.
      apply share_blocks2 in HB; auto. apply (HB r x y H).
Qed.
Print Assumptions C06_run_exact_2d.

Theorem C06_run_exact_3d :
  forall lay m gp (S : hset R) g inb inb' iv c t0 k0 M0 M s0 s z tr z' q qtr q',
  ready3_mpi m gp S -> sane S -> (0 < cfl S -> 0 < dx S -> 0 < dy S -> 0 < dz S ->
  share3 m gp A_U M0 s0 ->
  built3_mpi lay m gp inb M0 M -> built3 (gmesh m gp) inb' s0 s ->
  Driver.start t0 k0 M z -> Driver.start t0 k0 s q -> s_dt z = s_dt q ->
  main (hydro3_mpi lay m gp S g inb iv) c z tr z' ->
  main (hydro3 (gmesh m gp) S g inb' iv) c q qtr q' ->
  Forall2 (same_run3 m gp) tr qtr /\ same_run3 m gp z' q')%R.
Proof.
  intros lay m gp S g inb inb' iv c t0 k0 M0 M s0 s z tr z' q qtr q' HR HS Hc Hdx Hdy Hdz H0 HM Hb Hz Hq Edt Hm1 Hm2.
  destruct (ready_splits3 m gp S HR) as (Hsp & Hw & Hs & Hr). pose proof Hsp as (gok & Hg & Hx & Hy & Hzz & Hv & Hbc).
  refine (both_main (hydro3_mpi lay m gp S g inb iv) c (hydro3 (gmesh m gp) S g inb' iv)
    (fun n => share3 m gp (in_array n)) (fun n => share3 m gp (in_array n)) (file_parts3 m gp) _ _ _ _
    z tr z' q qtr q' _ Hm1 Hm2).
  - intros n a a' b b' HB -> ->. exact HB.
  - intros n a b d d2 HB H1 H2. apply share_blocks3 in HB; auto.
    exact (dt_same3 S g HS Hc Hdx Hdy m gp (in_array n) a b d d2 Hdz Hsp HB H1 H2).
  - intros dt n a a' b b' HB HA HA2. apply share_blocks3 in HB; auto. apply share_blocks3; auto.
    change (in_array (Datatypes.S n)) with (cur (Datatypes.S n)). rewrite cur_S.
    apply (dist_blocks3 lay m gp S g inb iv (full_of iv) Hsp inb' iv n dt a a' b b'); auto.
    + apply body_ok3_R; auto.
    + apply refines3_R; auto.
  - intros n a b HB r x y zz Hsit i j k v Hp Hvv. apply (HB r x y zz Hsit); auto.
  - destruct Hz as (E1 & E2 & E3 & E4 & E5), Hq as (F1 & F2 & F3 & F4 & F5).
    unfold same_sol. rewrite E1, E2, E3, E4, E5, F1, F2, F3, F4, F5.
    assert (HB : share3 m gp A_U M s).
    { apply share_blocks3 in H0; auto. destruct H0 as [HU HG].
      pose proof (built_blocks3 lay m gp inb Hsp inb' M0 M s0 s HU HG HM Hb) as HB. apply share_blocks3; auto. }
    repeat (split; auto); apply (HB r x y z0 H).
Qed.
Print Assumptions C06_run_exact_3d.

(** Distributed runs exist and end. *)
Lemma ready_local2 {T} {N : Num T} m gp (S : hset T) : ready2_mpi m gp S -> ready2 m S.
Proof.
  intros ((gok & flat & Hx & Hy & Hn) & Hbc & Hg & Hv & Hs & Hr). unfold ready2. split; [|auto].
  unfold wide3, wide2, enough. repeat split; try lia; right; lia.
Qed.

Lemma ready_local3 {T} {N : Num T} m gp (S : hset T) : ready3_mpi m gp S -> ready3 m S.
Proof.
  intros ((gok & Hx & Hy & Hz & Hn) & Hbc & Hg & Hv & Hs & Hr). unfold ready3. split; [|auto].
  unfold wide3, wide2, enough. repeat split; try lia; right; lia.
Qed.

Lemma dt_all_exists {T} {N : Num T} gp (local : nat -> T -> Prop) : pgrid_ok gp -> (forall r, exists d, local r d) ->
  exists d, dt_all gp local d.
Proof.
  intros (G1 & G2 & G3) Hl.
  assert (A : forall l, exists ds, Forall2 local l ds).
  { induction l as [|r l (ds & IH)]; [exists []; constructor|]. destruct (Hl r) as [d Hd]. exists (d :: ds). auto. }
  destruct (A (ranks gp)) as [ds Hds].
  destruct (allreduce_exists ds) as [d Hd].
  - intros ->. inversion Hds as [E|]. symmetry in E. apply (f_equal (@length _)) in E. unfold ranks in E. rewrite seq_length in E. simpl in E.
    unfold nprocs in E. assert (0 < mx gp * my gp * mz gp) by (apply Z.mul_pos_pos; nia). lia.
  - exists d, ds. auto.
Qed.

Theorem C05_runs_complete_2d :
  forall (T : Type) (N : Num T) lay m gp (S : hset T) g iv c s,
  ready2_mpi m gp S -> c_nlog c <> 0 ->
  exists tr s', main (hydro2_mpi lay m gp S g (mpi_alloc2d m (nv2 m g iv)) iv) c s tr s'.
Proof.
  intros T N lay m gp S g iv c s HR Hl. pose proof HR as ((gok & _) & _).
  set (P := hydro2_mpi lay m gp S g (mpi_alloc2d m (nv2 m g iv)) iv).
  destruct (loop_exists P c (main_save P c s)) as (tr & s1 & HL).
  - intros x _. set (y := maybe_save P c x).
    destruct (dt_all_exists gp (fun r => dt_local2 m S g (field_of (dt_array (s_it y)) (s_mem y r)) (field_of A_G (s_mem y r))) gok
      (fun r => dt_local2_exists m S g _ _)) as [d Hd].
    destruct (C05_step_completes_2d T N lay m gp S g iv (s_it y) (clamp c (s_t y) d)
      (proj1 HR) (ready_local2 m gp S HR)) as [b Hb].
    destruct (completes_runs _ gp _ b (s_mem y) Hb) as [m2 Hm].
    eexists. split; [exact Hl|]. exists (s_mem y), d, m2.
    split; [reflexivity|]. split; [exact Hd|]. split; [exact Hm|reflexivity].
  - exists tr, (main_save P c s1). exists s1. auto.
Qed.
Print Assumptions C05_runs_complete_2d.

Theorem C05_runs_complete_3d :
  forall (T : Type) (N : Num T) lay m gp (S : hset T) g iv c s,
  ready3_mpi m gp S -> c_nlog c <> 0 ->
  exists tr s', main (hydro3_mpi lay m gp S g (mpi_alloc3d m (nv3 m g iv)) iv) c s tr s'.
Proof.
  intros T N lay m gp S g iv c s HR Hl. pose proof HR as ((gok & _) & _).
  set (P := hydro3_mpi lay m gp S g (mpi_alloc3d m (nv3 m g iv)) iv).
  destruct (loop_exists P c (main_save P c s)) as (tr & s1 & HL).
  - intros x _. set (y := maybe_save P c x).
    destruct (dt_all_exists gp (fun r => dt_local3 m S g (field_of3 (dt_array (s_it y)) (s_mem y r)) (field_of3 A_G (s_mem y r))) gok
      (fun r => dt_local3_exists m S g _ _)) as [d Hd].
    destruct (C05_step_completes_3d T N lay m gp S g iv (s_it y) (clamp c (s_t y) d)
      (proj1 HR) (ready_local3 m gp S HR)) as [b Hb].
    destruct (completes_runs _ gp _ b (s_mem y) Hb) as [m2 Hm].
    eexists. split; [exact Hl|]. exists (s_mem y), d, m2.
    split; [reflexivity|]. split; [exact Hd|]. split; [exact Hm|reflexivity].
  - exists tr, (main_save P c s1). exists s1. auto.
Qed.
Print Assumptions C05_runs_complete_3d.

(** A 2 x 2 grid of processes meets the hypotheses of the run theorem: both programs
    run to the end, from any serial initial state and its parts. *)
Example C06_witness : forall s0 : store R,
  let gp := mkpgrid 2 2 1 in let S := ex_set R_HLLC 1 in let m := ex_mesh2 in
  let inb := mpi_alloc2d m (nv2 m no_gravity V0) in
  let inb' := alloc2d (gmesh m gp) (nv2 (gmesh m gp) no_gravity V2) in
  exists M0 M s z tr z' q qtr q',
  ready2_mpi m gp S /\ steppable S /\ share2 m gp A_U M0 s0 /\
  built2_mpi LayoutLeft m gp inb M0 M /\ built2 (gmesh m gp) inb' s0 s /\
  Driver.start 0%R 0 M z /\ Driver.start 0%R 0 s q /\ s_dt z = s_dt q /\
  main (hydro2_mpi LayoutLeft m gp S no_gravity inb V0) ex_config z tr z' /\
  main (hydro2 (gmesh m gp) S no_gravity inb' V2) ex_config q qtr q'.
Proof.
  intros s0 gp S m inb inb'.
  assert (HR : ready2_mpi m gp S).
  { split; [unfold block2, pgrid_ok; simpl; lia|].
    destruct (ex_ready2 R_HLLC ex_mesh2 ltac:(discriminate) ltac:(simpl; auto)) as (H1 & H2 & H3 & H4 & H5).
    repeat (split; auto); destruct f; simpl; try lia; congruence. }
  destruct (ready_splits2 _ _ _ HR) as (Hsp & Hw & Hs & Hr). pose proof Hsp as (gok & flat & Hg & Hx & Hy & Hv & Hbc).
  pose proof (ready_local2 _ _ _ HR) as (Hw' & _).
  assert (Hd : Forall (Forall (in_foot inb)) [deep_copy2 (T := R) m A_U2 A_U]).
  { pose proof (godunov2_in_foot m S no_gravity 1%R Hs Hr Hw' Hg Hv A_U A_U2 (or_introl (conj eq_refl eq_refl)) V0 Hs) as HF.
    unfold godunov2, godunov2_body in HF. apply Forall_app in HF. destruct HF as [_ HF]. inversion HF; subst.
    constructor; [|constructor]. revert H1. apply Forall_impl. intros p. apply in_foot_mono.
    intros l. apply mpi_alloc2d_mono; intros; simpl; lia. }
  assert (Hd' : Forall (Forall (in_foot inb')) (make_boundaries2d (gmesh m gp) A_U ++ [deep_copy2 (T := R) (gmesh m gp) A_U2 A_U])).
  { pose proof (godunov2_in_foot (gmesh m gp) S no_gravity 1%R Hs Hr Hw ltac:(simpl; lia) Hv A_U A_U2 (or_introl (conj eq_refl eq_refl)) V2 Hs) as HF.
    unfold godunov2, godunov2_body in HF. apply Forall_app in HF. destruct HF as [H1 HF]. inversion HF; subst.
    apply Forall_app. split; auto. }
  set (M0 := fun r l => s0 (mkloc (la l) (org m gp AX r + li l) (org m gp AY r + lj l) (lk l) (lv l))).
  destruct (completes_runs inb gp _ _ M0 (C05_exchange_completes_2d R _ LayoutLeft m gp A_U (nv2 m no_gravity V0)
    [deep_copy2 m A_U2 A_U] (proj1 HR) eq_refl ltac:(simpl; lia) Hd)) as [M HM].
  destruct (in_foot_execs inb' _ s0 Hd') as [s Hb].
  set (z := mksol (D := nat -> field2 R) 0%R 0%R O 0 [] M). set (q := mksol (D := field2 R) 0%R 0%R O 0 [] s).
  destruct (C05_runs_complete_2d R _ LayoutLeft m gp S no_gravity V0 ex_config z HR ltac:(discriminate)) as (tr & z' & Hz).
  destruct (C14_runs_complete_2d R _ (gmesh m gp) S no_gravity V2 ex_config q) as (qtr & q' & Hq);
    [repeat (split; auto); simpl; lia|discriminate|].
  exists M0, M, s, z, tr, z', q, qtr, q'. split; [exact HR|]. split; [apply ex_steppable|].
  split; [apply share_blocks2; auto; split; intros; reflexivity|].
  split; [exact HM|]. split; [exact Hb|]. split; [repeat split|]. split; [repeat split|]. split; [reflexivity|]. split; [exact Hz|exact Hq].
Qed.

(** ** An undocumented boundary type

    The serial ghost filling treats every type other than 1 and 2 as periodic, a process
    on the border does so within its own block: with type 0 along x on two processes,
    the distributed ghosts are not those of the serial run. *)
Definition ex_code0 : mesh := mkmesh 2 2 1 2 4 false (fun f => match f with XMIN | XMAX => 0 | _ => 3 end).

Theorem C06_unknown_code_refuted :
  let m := ex_code0 in let gp := mkpgrid 2 1 1 in
  exists (M M' : nat -> store R) s s',
  block2 m gp /\
  (forall r x y, sits gp r x y 0 -> forall i j v, phys2 m i j -> 0 <= v < nbvar m ->
     M r (L2 A_U i j v) = s (L2 A_U (x * nx m + i) (y * ny m + j) v)) /\
  spmd gp (mpi_alloc2d m (fun _ => nbvar m)) (make_boundaries_mpi2 LayoutLeft m gp A_U) M M' /\
  execs (alloc2d (gmesh m gp) (fun _ => nbvar m)) s (make_boundaries2d (gmesh m gp) A_U) s' /\
  sits gp 0 0 0 0 /\ cell2 m 1 2 /\
  M' 0%nat (L2 A_U 1 2 0) <> s' (L2 A_U 1 2 0).
Proof.
  intros m gp.
  assert (Hb : block2 m gp) by (unfold block2, pgrid_ok; simpl; lia). pose proof Hb as (gok & flat & Hx & Hy & Hn).
  set (s := fun l : loc => IZR (li l)).
  set (M := fun r l => s (mkloc (la l) (org m gp AX r + li l) (org m gp AY r + lj l) (lk l) (lv l))).
  set (inb := mpi_alloc2d m (fun _ => nbvar m)).
  destruct (completes_runs inb gp _ _ M (C05_exchange_completes_2d R _ LayoutLeft m gp A_U (fun _ => nbvar m)
    [] Hb eq_refl ltac:(simpl; lia) (Forall_nil _))) as [M' HM].
  apply (spmd_ext gp inb _ (make_boundaries_mpi2 LayoutLeft m gp A_U)) in HM; [|intros; apply app_nil_r].
  assert (Hw : wide2 (gmesh m gp)) by (apply gmesh_wide; auto; simpl; lia).
  destruct (fill2d_safe R _ (gmesh m gp) A_U s Hw) as [_ [s' Hs']].
  exists M, M', s, s'. split; [exact Hb|].
  split.
  { intros r x y Hs i j v _ _. unfold M, L2. cbn [la li lj lk lv]. destruct (sits_org m gp r x y 0 gok Hs) as (-> & -> & _). reflexivity. }
  split; [exact HM|]. split; [exact Hs'|]. split; [unfold sits; simpl; lia|]. split; [unfold cell2; simpl; lia|].
  assert (E2 : s' (L2 A_U 1 2 0) = 5%R).
  { destruct (fill2d_spec (gmesh m gp) A_U _ s s' Hw Hs') as (A & _). unfold L2. rewrite A by (unfold cell2; simpl; lia).
    unfold filled2, s. cbn [li].
    replace (mirrored_y (gmesh m gp) 2 && odd_y (p_mhd (gmesh m gp)) 0) with false by reflexivity.
    replace (mirrored_x (gmesh m gp) 1 && odd_x (p_mhd (gmesh m gp)) 0) with false by reflexivity.
    replace (image_x (gmesh m gp) 1) with 5 by reflexivity. reflexivity. }
  pose proof (spmd_lockrun true LayoutLeft m gp A_U inb M M' gok HM) as HL.
  apply (lockrun_ext inb (np gp) _ (fun r => dir_prog true LayoutLeft m gp A_U r XMIN XMAX 111 ++
    dir_prog true LayoutLeft m gp A_U r YMIN YMAX 211)) in HL; [|intros; reflexivity].
  change (fill_len true) with (7 + 7)%nat in HL.
  apply lockrun_app in HL; [|intros; apply dir_len]. destruct HL as (M1 & R1 & R2).
  pose proof (dir_values true LayoutLeft m gp A_U inb gok (fun _ => flat) ltac:(lia) ltac:(lia) Hy ltac:(discriminate) Hn
    ltac:(discriminate) ltac:(discriminate) AX M M1 111 Logic.I R1 0%nat ltac:(unfold np; simpl; lia)) as [V1 _].
  pose proof (dir_values true LayoutLeft m gp A_U inb gok (fun _ => flat) ltac:(lia) ltac:(lia) Hy ltac:(discriminate) Hn
    ltac:(discriminate) ltac:(discriminate) AY M1 M' 211 Logic.I R2 0%nat ltac:(unfold np; simpl; lia)) as [V2 _].
  assert (E1 : M' 0%nat (L2 A_U 1 2 0) = 3%R).
  { change (L2 A_U 1 2 0) with (at_ A_U (1, 2, 0) 0). rewrite V2; [|repeat split; discriminate|split; [discriminate|reflexivity]].
    replace (dir_val true m gp A_U M1 AY 0 (1, 2, 0) 0) with (M1 0%nat (at_ A_U (1, 2, 0) 0)) by reflexivity.
    rewrite V1; [|repeat split; discriminate|split; [discriminate|reflexivity]].
    unfold dir_val, side_val, M, s. cbn.
    replace (1 <? 2) with true by reflexivity. replace (exchanged true m gp 0 XMIN) with false by reflexivity.
    replace (0 / (1 * 1) * 2 + src_lo 0 2 2 1) with 3 by reflexivity.
    replace (bc_sign false XMIN 0 0) with 1%R by reflexivity. lra. }
  rewrite E1, E2. lra.
Qed.
Print Assumptions C06_unknown_code_refuted.
