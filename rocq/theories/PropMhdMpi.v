(** * C05, C06 for the MHD solvers: distributed runs *)
From Coq Require Import ZArith List Bool Lia ZifyBool Arith Reals Lra Psatz Permutation.
Import ListNotations.
From Verif Require Import Num Exec ExecFacts Grid GridFacts Boundaries BoundariesSpec
  BoundariesFacts BoundariesFill BoundariesNarrow PropBoundaries HydroNum Kernels KernelFacts Atomics
  Hydro2D Hydro2DSpec Hydro2DFacts Hydro2DStep Determ Hydro2DRun EulerSpec HydroPhysics
  HydroRiemann PropPhysics Sums Hydro2DLaws Binary64 Doomed PropHydro2D
  Hydro3D Hydro3DSpec Hydro3DFacts Hydro3DStep Hydro3DRun Hydro3DLaws Hydro3DAxes Doomed3 PropHydro3D
  TimeStep TimeStepFacts Driver DriverFacts HydroMachine PropDriver
  MpiRun MpiFacts Halo HaloFacts HaloFill HydroMpi HydroMpiFacts PropMpi
  MhdNum MhdFacts MhdSpec MhdPhysics Mhd2D Mhd2DSpec Mhd2DStep Mhd2DRun Mhd2DLaws PropMhd2D
  MhdMachine PropMhdDriver
  Mhd3DNum Mhd3D Mhd3DSpec Mhd3DFacts Mhd3DStep Mhd3DV2 Mhd3DRun Mhd3DLaws PropMhd3D Mhd3DMachine PropMhd3DDriver
  MhdMpi.
Local Open Scope Z_scope.

(** ** Specification *)

(** Every process holds its part of the state of the serial program. *)
Definition mshare2 {T} (m : mesh) (gp : pgrid) (a : arr) (M : nat -> store T) (s : store T) : Prop :=
  forall r x y, sits gp r x y 0 -> forall i j v, phys2 m i j -> 0 <= v < 8 ->
  M r (L2 a i j v) = s (L2 a (x * nx m + i) (y * ny m + j) v).
Definition mshare3 {T} (m : mesh) (gp : pgrid) (a : arr) (M : nat -> store T) (s : store T) : Prop :=
  forall r x y z, sits gp r x y z -> forall i j k v, phys3 m i j k -> 0 <= v < 8 ->
  M r (mkloc a i j k v) = s (mkloc a (x * nx m + i) (y * ny m + j) (z * nz m + k) v).

(** The files written by the processes are the parts of the file of the serial program. *)
Definition mfile_parts2 {T} (m : mesh) (gp : pgrid) (D : nat -> field2 T) (d : field2 T) : Prop :=
  forall r x y, sits gp r x y 0 -> forall i j v, phys2 m i j -> 0 <= v < 8 ->
  D r i j v = d (x * nx m + i) (y * ny m + j) v.
Definition mfile_parts3 {T} (m : mesh) (gp : pgrid) (D : nat -> field3 T) (d : field3 T) : Prop :=
  forall r x y z, sits gp r x y z -> forall i j k v, phys3 m i j k -> 0 <= v < 8 ->
  D r i j k v = d (x * nx m + i) (y * ny m + j) (z * nz m + k) v.

Definition msame_run2 {T} (m : mesh) (gp : pgrid) :=
  same_sol (T := T) (fun n => mshare2 (T := T) m gp (in_array n)) (mfile_parts2 (T := T) m gp).
Definition msame_run3 {T} (m : mesh) (gp : pgrid) :=
  same_sol (T := T) (fun n => mshare3 (T := T) m gp (in_array n)) (mfile_parts3 (T := T) m gp).

(** Mesh of one process, documented boundary types and configuration. *)
Definition mready2_mpi {T} {N : Num T} (m : mesh) (gp : pgrid) (S : hset T) : Prop :=
  block2 m gp /\ codes_ok2 m /\ 3 <= gw m /\ nbvar m = 8 /\ mslope_ok S /\ msolver_ok S.
Definition mready3_mpi {T} {N : Num T} (iv : impl) (m : mesh) (gp : pgrid) (S : hset T) : Prop :=
  block3 m gp /\ codes_ok3 m /\ 3 <= gw m /\ nbvar m = 8 /\ msolver_ok S /\ mslope_ok3 iv S.

(** Whole steps of given lengths from iteration [n]: the part before the time step,
    then the part after it. *)
Inductive whole_steps {T M D} (P : machine T M D) : nat -> list T -> M -> M -> Prop :=
| wsteps_nil : forall n s, whole_steps P n [] s s
| wsteps_cons : forall n dt dts s s1 s2 s3, before P n s s1 -> after P dt n s1 s2 ->
    whole_steps P (Datatypes.S n) dts s2 s3 -> whole_steps P n (dt :: dts) s s3.

Lemma wsteps_share {T M D M2 D2} (P : machine T M D) (P2 : machine T M2 D2) (Rel Rel' : nat -> M -> M2 -> Prop) :
  (forall n a a' b b', Rel n a b -> before P n a a' -> before P2 n b b' -> Rel' n a' b') ->
  (forall dt n a a' b b', Rel' n a b -> after P dt n a a' -> after P2 dt n b b' -> Rel (Datatypes.S n) a' b') ->
  forall dts n a a' b b', Rel n a b -> whole_steps P n dts a a' -> whole_steps P2 n dts b b' ->
  Rel (n + length dts)%nat a' b'.
Proof.
  intros HB HA dts. induction dts as [|dt dts IH]; intros n a a' b b' HR H1 H2; inversion H1; inversion H2; subst.
  - simpl. rewrite Nat.add_0_r. auto.
  - simpl. rewrite <- Nat.add_succ_comm. eapply IH; [|eassumption|eassumption]. eauto.
Qed.

(** ** Kernels without communication *)
Lemma computes_len {T} (Ks : list (list (prog T))) : length (map Compute Ks) = length Ks.
Proof. apply map_length. Qed.

Lemma spmd_computes {T} gp inb (Ks : list (list (prog T))) M M' :
  spmd gp inb (fun _ => map Compute Ks) M M' ->
  forall r, (r < np gp)%nat -> execs inb (M r) Ks (M' r).
Proof.
  intros (eager & c & w & Hs & Hf & ->).
  pose proof (async_lockrun inb (np gp) (fun _ => map Compute Ks) (length Ks) (fun p _ => computes_len Ks)
    (fun k Hk => matched_computes (np gp) Ks k Hk) eager c M w Hs Hf) as HL.
  apply (lockrun_computes inb (np gp) (length Ks) (fun _ => Ks) M (mem w)); auto.
Qed.

Lemma completes_computes {T} gp inb (Ks : list (list (prog T))) : pgrid_ok gp ->
  Forall (Forall (in_foot inb)) Ks ->
  completes inb (Z.to_nat (nprocs gp)) (fun _ => map Compute Ks) (np gp * (3 * length Ks)).
Proof.
  intros gok HK eager M c w Hs.
  assert (HF : forall K, In (Compute K) (map (@Compute T) Ks) -> Forall (in_foot inb) K).
  { intros K Hin. apply in_map_iff in Hin. destruct Hin as (K' & E & Hin). injection E as <-.
    rewrite Forall_forall in HK. auto. }
  assert (H0 : (0 < np gp)%nat).
  { destruct gok as (G1 & G2 & G3). unfold np, nprocs. assert (0 < mx gp * my gp * mz gp) by (apply Z.mul_pos_pos; nia). lia. }
  split; [|split].
  - exact (bounded_runs inb (np gp) _ _ (fun p _ => computes_len Ks)
      (fun k Hk => matched_computes (np gp) Ks k Hk) eager c M w Hs).
  - intros (p & K & Hp & E & _ & HN). apply HN. apply in_foot_safe. apply nth_error_In in E. eauto.
  - refine (progress inb (np gp) _ _ (fun p _ => computes_len Ks)
      (fun k Hk => matched_computes (np gp) Ks k Hk) eager c M w H0 _ Hs).
    apply in_foot_runnable. intros. eauto.
Qed.

(** The mesh with the variables of the hydro solver (for the geometric lemmas). *)
Definition with_nbvar (n : Z) (m : mesh) : mesh := mkmesh (nx m) (ny m) (nz m) (gw m) n (p_mhd m) (bc m).

(** ** 2D *)
Section Dist2.
Context {T : Type} {NT : Num T} {NO : NumOne T}.
Variable lay : layout.
Variable m : mesh.
Variable gp : pgrid.
Variable S : hset T.
Variable inb : extents.
Hypothesis Hready : mready2_mpi m gp S.

Notation G := (gmesh m gp).
Notation ox := (org m gp AX).
Notation oy := (org m gp AY).

Lemma msplits2 : splits2 (with_nbvar 4 m) gp.
Proof.
  destruct Hready as ((gok & flat & Hx & Hy & Hn) & Hbc & Hg & Hv & _). unfold splits2, with_nbvar; simpl.
  repeat (split; auto; try lia); intros; apply Hbc; intros ->; discriminate.
Qed.

Lemma morg_phys2 r i j : (r < np gp)%nat -> phys2 m i j -> phys2 G (ox r + i) (oy r + j).
Proof. exact (org_phys2 (with_nbvar 4 m) gp msplits2 r i j). Qed.

Lemma mowner2 I J : phys2 G I J ->
  exists r i j, (r < np gp)%nat /\ phys2 m i j /\ ox r + i = I /\ oy r + j = J.
Proof. exact (owner2 (with_nbvar 4 m) gp msplits2 I J). Qed.

Lemma mready2_global : mready2 G S.
Proof.
  destruct Hready as ((gok & flat & Hx & Hy & Hn) & Hbc & Hg & Hv & Hs & Hr).
  split; [apply gmesh_wide; auto; lia|]. simpl. auto.
Qed.

Lemma mready2_local : mready2 m S.
Proof.
  destruct Hready as ((gok & flat & Hx & Hy & Hn) & Hbc & Hg & Hv & Hs & Hr).
  split; [|auto]. unfold wide2, enough. repeat split; try lia; right; lia.
Qed.

Definition mblocks2 (a : arr) (M : nat -> store T) (s : store T) : Prop :=
  forall r i j v, (r < np gp)%nat -> phys2 m i j -> 0 <= v < 8 ->
  M r (L2 a i j v) = s (L2 a (ox r + i) (oy r + j) v).

Lemma mshare_blocks2 a M s : mshare2 m gp a M s <-> mblocks2 a M s.
Proof.
  destruct Hready as ((gok & flat & _) & _). split.
  - intros HS r i j v Hr Hp Hv. destruct (sits_exists gp r gok Hr) as (x & y & z & Hs).
    assert (z = 0) as -> by (destruct Hs as (_ & _ & Hz & _); lia).
    destruct (sits_org m gp r x y 0 gok Hs) as (-> & -> & _). apply (HS r x y Hs); auto.
  - intros HB r x y Hs. destruct (sits_coords gp r x y 0 gok Hs) as [Hr _].
    destruct (sits_org m gp r x y 0 gok Hs) as (<- & <- & _). intros; auto.
Qed.

(** After the first part of the step: the global field, seen from every process. *)
Definition window2 (u : field2 T) (r : nat) : field2 T := fun i j => extend G u (i + ox r) (j + oy r).
Definition mmid2 (n : nat) (M : nat -> store T) (s : store T) : Prop := exists u,
  (forall r, (r < np gp)%nat -> ready m S (in_array n) (out_array n) (window2 u r) (M r)) /\
  ready G S (in_array n) (out_array n) (extend G u) s.

Lemma mprefix_dist2 inb' n M M' s s' : mblocks2 (in_array n) M s ->
  spmd gp inb (mprefix2_mpi lay m gp S (in_array n) (out_array n)) M M' ->
  execs inb' s (mprefix2 G S (in_array n) (out_array n)) s' ->
  (forall r, (r < np gp)%nat -> ready m S (in_array n) (out_array n) (window2 (field_of (in_array n) s) r) (M' r)) /\
  ready G S (in_array n) (out_array n) (extend G (field_of (in_array n) s)) s'.
Proof.
  intros HU Hrun Hex. pose proof Hready as ((gok & flat & Hx & Hy & Hn) & Hbc & Hg & Hv & Hs & Hr).
  pose proof (io_buffers n) as Hbuf.
  assert (Hbc' : forall f, face_ok true f -> 1 <= bc m f <= 4).
  { intros f Hf. apply Hbc; intros ->; discriminate. }
  split.
  - destruct (spmd_fill true lay m gp (in_array n) inb gok (fun _ => flat) ltac:(lia) ltac:(lia) Hy ltac:(discriminate)
      Hn Hbc' ltac:(intros f; destruct Hbuf as [[-> _]|[-> _]]; discriminate)
      ltac:(intros f; destruct Hbuf as [[-> _]|[-> _]]; discriminate)
      [deep_copy2 m (out_array n) (in_array n); map (mconvert_item2 m S (in_array n)) (cells2 m)]
      M M' (fun c v => s (at_ (in_array n) c v))) as (M1 & A & B & C).
    { intros r c v Hr' Hc Hv'. destruct (phys2_dom m c Hc) as (i & j & -> & Hp). apply HU; auto. lia. }
    { exact Hrun. }
    intros r Hr'. apply (mprefix_spec m S inb Hv _ _ Hbuf _ (M1 r)); [|exact (C r Hr')].
    intros i j v Hc Hv'. unfold window2. rewrite (Z.add_comm i), (Z.add_comm j).
    apply (A r (i, j, 0) v Hr'); [|lia]. unfold cell2 in Hc. simpl. unfold isize, jsize. lia.
  - destruct mready2_global as (Hw & _ & Hn' & _). exact (mprefix_ready G S inb' Hw Hn' _ _ Hbuf s s' Hex).
Qed.

Lemma mQ_window u r i j : mQ S (window2 u r) i j = mQ S (extend G u) (ox r + i) (oy r + j).
Proof.
  unfold mQ, mstate, window2.
  replace (i + 1 + ox r) with (ox r + i + 1) by lia. replace (j + 1 + oy r) with (oy r + j + 1) by lia.
  rewrite (Z.add_comm i), (Z.add_comm j). reflexivity.
Qed.

Lemma mscheme_dist2 iv iv' inb' dt n M M' s s' :
  mscheme_ok m S inb iv -> mscheme_ok G S inb' iv' -> mmid2 n M s ->
  spmd gp inb (mscheme2_mpi m S iv dt (in_array n) (out_array n)) M M' ->
  execs inb' s (mscheme2 G S dt iv' (in_array n) (out_array n)) s' ->
  mblocks2 (in_array (Datatypes.S n)) M' s'.
Proof.
  intros H1 H2 (u & HM & Hs) Hrun Hex.
  change (in_array (Datatypes.S n)) with (cur (Datatypes.S n)). rewrite cur_S.
  intros r i j v Hr Hp Hv. pose proof (spmd_computes gp inb _ M M' Hrun r Hr) as Hx.
  pose proof (H1 dt n _ _ _ (HM r Hr) Hx i j v Hp Hv) as E1.
  pose proof (H2 dt n _ _ _ Hs Hex (ox r + i) (oy r + j) v (morg_phys2 r i j Hr Hp) Hv) as E2.
  unfold field_of in E1, E2. change (nxt n) with (out_array n). rewrite E1, E2.
  apply mstep2_move; auto. intros a b w _ _ _. unfold window2. f_equal; lia.
Qed.
End Dist2.

(** ** 3D *)
Section Dist3.
Context {T : Type} {NT : Num T} {NO : NumOne T}.
Variable lay : layout.
Variable m : mesh.
Variable gp : pgrid.
Variable S : hset T.
Variable inb : extents.
Variable iv : impl.
Hypothesis Hready : mready3_mpi iv m gp S.

Notation G := (gmesh m gp).
Notation ox := (org m gp AX).
Notation oy := (org m gp AY).
Notation oz := (org m gp AZ).

Lemma msplits3 : splits3 (with_nbvar 5 m) gp.
Proof.
  destruct Hready as ((gok & Hx & Hy & Hz & Hn) & Hbc & Hg & Hv & _). unfold splits3, with_nbvar; simpl.
  repeat (split; auto; try lia); intros; apply Hbc.
Qed.

Lemma morg_phys3 r i j k : (r < np gp)%nat -> phys3 m i j k -> phys3 G (ox r + i) (oy r + j) (oz r + k).
Proof. exact (org_phys3 (with_nbvar 5 m) gp msplits3 r i j k). Qed.

Lemma mowner3 I J K : phys3 G I J K ->
  exists r i j k, (r < np gp)%nat /\ phys3 m i j k /\ ox r + i = I /\ oy r + j = J /\ oz r + k = K.
Proof. exact (owner3 (with_nbvar 5 m) gp msplits3 I J K). Qed.

Lemma mready3_global : mready3 iv G S.
Proof.
  destruct Hready as ((gok & Hx & Hy & Hz & Hn) & Hbc & Hg & Hv & Hr & Hs).
  split; [apply gmesh_wide3; auto; lia|]. simpl. auto.
Qed.

Lemma mready3_local : mready3 iv m S.
Proof.
  destruct Hready as ((gok & Hx & Hy & Hz & Hn) & Hbc & Hg & Hv & Hr & Hs).
  split; [|auto]. unfold wide3, wide2, enough. repeat split; try lia; right; lia.
Qed.

Definition mblocks3 (a : arr) (M : nat -> store T) (s : store T) : Prop :=
  forall r i j k v, (r < np gp)%nat -> phys3 m i j k -> 0 <= v < 8 ->
  M r (mkloc a i j k v) = s (mkloc a (ox r + i) (oy r + j) (oz r + k) v).

Lemma mshare_blocks3 a M s : mshare3 m gp a M s <-> mblocks3 a M s.
Proof.
  destruct Hready as ((gok & _) & _). split.
  - intros HS r i j k v Hr Hp Hv. destruct (sits_exists gp r gok Hr) as (x & y & z & Hs).
    destruct (sits_org m gp r x y z gok Hs) as (-> & -> & ->). apply (HS r x y z Hs); auto.
  - intros HB r x y z Hs. destruct (sits_coords gp r x y z gok Hs) as [Hr _].
    destruct (sits_org m gp r x y z gok Hs) as (<- & <- & <-). intros; auto.
Qed.

(** After the first part of the step: the global field, seen from every process. *)
Definition window3 (u : field3 T) (r : nat) : field3 T :=
  fun i j k => extend3 G u (i + ox r) (j + oy r) (k + oz r).
Definition mmid3 (n : nat) (M : nat -> store T) (s : store T) : Prop := exists u,
  (forall r, (r < np gp)%nat -> Mhd3DStep.ready3 m S (in_array n) (out_array n) (window3 u r) (M r)) /\
  Mhd3DStep.ready3 G S (in_array n) (out_array n) (extend3 G u) s.

Lemma mprefix_dist3 inb' n M M' s s' : mblocks3 (in_array n) M s ->
  spmd gp inb (mprefix3_mpi lay m gp S (in_array n) (out_array n)) M M' ->
  execs inb' s (mprefix3 G S (in_array n) (out_array n)) s' ->
  (forall r, (r < np gp)%nat -> Mhd3DStep.ready3 m S (in_array n) (out_array n) (window3 (field_of3 (in_array n) s) r) (M' r)) /\
  Mhd3DStep.ready3 G S (in_array n) (out_array n) (extend3 G (field_of3 (in_array n) s)) s'.
Proof.
  intros HU Hrun Hex. pose proof Hready as ((gok & Hx & Hy & Hz & Hn) & Hbc & Hg & Hv & Hr & Hs).
  pose proof (io_buffers n) as Hbuf.
  split.
  - destruct (spmd_fill false lay m gp (in_array n) inb gok ltac:(discriminate) ltac:(lia) ltac:(lia) Hy (fun _ => Hz)
      Hn (fun f _ => Hbc f) ltac:(intros f; destruct Hbuf as [[-> _]|[-> _]]; discriminate)
      ltac:(intros f; destruct Hbuf as [[-> _]|[-> _]]; discriminate)
      [deep_copy3 m (out_array n) (in_array n); map (mconvert_item3 m S (in_array n)) (cells3 m)]
      M M' (fun c v => s (at_ (in_array n) c v))) as (M1 & A & B & C).
    { intros r c v Hr' Hc Hv'. destruct (phys3_dom m c Hc) as (i & j & k & -> & Hp). apply HU; auto. lia. }
    { exact Hrun. }
    intros r Hr'. apply (mprefix_spec3 m S inb Hv _ _ Hbuf _ (M1 r)); [|exact (C r Hr')].
    intros i j k v Hc Hv'. unfold window3. rewrite (Z.add_comm i), (Z.add_comm j), (Z.add_comm k).
    apply (A r (i, j, k) v Hr'); [|lia]. unfold cell3, cell2 in Hc. simpl. unfold isize, jsize, ksize. lia.
  - destruct mready3_global as (Hw & _ & Hn' & _). exact (mprefix_ready3 G S inb' Hw Hn' _ _ Hbuf s s' Hex).
Qed.

Lemma mQ3_window u r i j k : mQ3 S (window3 u r) i j k = mQ3 S (extend3 G u) (ox r + i) (oy r + j) (oz r + k).
Proof.
  unfold mQ3, mstate3, window3.
  replace (i + 1 + ox r) with (ox r + i + 1) by lia. replace (j + 1 + oy r) with (oy r + j + 1) by lia.
  replace (k + 1 + oz r) with (oz r + k + 1) by lia.
  rewrite (Z.add_comm i), (Z.add_comm j), (Z.add_comm k). reflexivity.
Qed.

Lemma mscheme_dist3 iv' inb' dt n M M' s s' : (iv = V2 <-> iv' = V2) ->
  mscheme_ok3 m S inb iv -> mscheme_ok3 G S inb' iv' -> mmid3 n M s ->
  spmd gp inb (mscheme3_mpi m S iv dt (in_array n) (out_array n)) M M' ->
  execs inb' s (mscheme3 G S dt iv' (in_array n) (out_array n)) s' ->
  mblocks3 (in_array (Datatypes.S n)) M' s'.
Proof.
  intros Hiv H1 H2 (u & HM & Hs) Hrun Hex.
  change (in_array (Datatypes.S n)) with (cur (Datatypes.S n)). rewrite cur_S.
  intros r i j k v Hr Hp Hv. pose proof (spmd_computes gp inb _ M M' Hrun r Hr) as Hx.
  pose proof (H1 dt n _ _ _ (HM r Hr) Hx i j k v Hp Hv) as E1.
  pose proof (H2 dt n _ _ _ Hs Hex (ox r + i) (oy r + j) (oz r + k) v (morg_phys3 r i j k Hr Hp) Hv) as E2.
  assert (EV : forall U, mstepv3 iv' S dt U = mstepv3 iv S dt U).
  { intros U. destruct Hiv as [A B].
    destruct iv, iv'; first [discriminate (A eq_refl) | discriminate (B eq_refl) | reflexivity]. }
  unfold field_of3 in E1, E2. change (nxt n) with (out_array n). rewrite E1, E2, EV.
  apply mstepv3_ext; auto. intros x y z x' y' z' w X Y Z0 _ _ _ _. unfold window3. f_equal; lia.
Qed.
End Dist3.

(** ** The common time step, over the reals *)
Local Open Scope R_scope.

(** Local steps [d_r], each the largest allowed by the cells of process [r], and the step
    [d'] allowed by all cells. *)
Lemma min_of_steps {C C'} gp (cf : R) (local : nat -> R -> Prop) (own : C -> Prop) (all : C' -> Prop)
  (at_r : nat -> C -> C') (val : C' -> R) d d' : 0 < cf ->
  (forall r x, (r < np gp)%nat -> local r x -> 0 < x /\ (forall c, own c -> x * val (at_r r c) <= cf) /\
     exists c, own c /\ x * val (at_r r c) = cf) ->
  (forall r c, (r < np gp)%nat -> own c -> all (at_r r c)) ->
  (forall c', all c' -> exists r c, (r < np gp)%nat /\ own c /\ at_r r c = c') ->
  0 < d' -> (forall c', all c' -> d' * val c' <= cf) -> (exists c', all c' /\ d' * val c' = cf) ->
  dt_all gp local d -> d = d'.
Proof.
  intros Hcf HL Hin Hown P' B' (c' & Hc' & E') Hd.
  destruct (dt_all_R _ _ _ Hd) as ((r & Hr & Hl) & Hall).
  destruct (HL r d Hr Hl) as (P & B & c & Hc & E).
  apply Rle_antisym.
  - destruct (Hown c' Hc') as (r1 & c1 & Hr1 & Hc1 & <-).
    destruct (Hall r1 Hr1) as (dr & Hl1 & Hle). destruct (HL r1 dr Hr1 Hl1) as (P1 & B1 & _).
    specialize (B1 c1 Hc1). set (V := val _) in *. assert (0 < V) by nra. nra.
  - specialize (B' _ (Hin r c Hr Hc)). set (V := val _) in *. assert (0 < V) by nra. nra.
Qed.

Lemma mdt_same2 m gp (S : hset R) n (M : nat -> store R) s d d' : mready2_mpi m gp S -> steppable S -> mmid2 m gp S n M s ->
  dt_all gp (fun r => mdt_local2 m S (fun i j => getm (M r) (L2 A_Q i j))) d ->
  mdt_local2 (gmesh m gp) S (fun i j => getm s (L2 A_Q i j)) d' -> d = d'.
Proof.
  intros HR HS (u & HM & Hs) Hd Hd'.
  pose proof (mready2_local m gp S HR) as (Hw & Hg & _). pose proof (mready2_global m gp S HR) as (Hw' & Hg' & _).
  set (U := extend (gmesh m gp) u) in *.
  assert (HQ : forall i j, phys2 (gmesh m gp) i j -> getm s (L2 A_Q i j) = mQ S U i j).
  { intros. eapply ready_Q; [|exact Hs|auto]. lia. }
  apply (mdt_local2_ext _ _ _ _ _ HQ) in Hd'.
  destruct (mdt_local2_bound S HS _ Hw' (mQ S U) d' (fun i j _ => proj2 (mQ_adm S HS U i j)) Hd') as (P & B & i & j & Hp & E).
  refine (min_of_steps gp (cfl S) _ (fun c => phys2 m (fst c) (snd c)) (fun c => phys2 (gmesh m gp) (fst c) (snd c))
    (fun r c => (org m gp AX r + fst c, org m gp AY r + snd c)%Z) (fun c => mspeeds2 S (mQ S U) (fst c) (snd c)) d d'
    (proj1 (proj2 HS)) _ _ _ P _ _ Hd).
  - intros r x Hr Hx. set (Qr := fun i j : Z => mQ S U (org m gp AX r + i)%Z (org m gp AY r + j)%Z).
    assert (HQr : forall i j, phys2 m i j -> getm (M r) (L2 A_Q i j) = Qr i j).
    { intros i0 j0 Hp0. rewrite (ready_Q m S _ _ _ (M r) i0 j0 ltac:(lia) (HM r Hr) Hp0). apply mQ_window. }
    apply (mdt_local2_ext _ _ _ _ _ HQr) in Hx.
    destruct (mdt_local2_bound S HS _ Hw Qr x (fun i j _ => proj2 (mQ_adm S HS U _ _)) Hx) as (A1 & A2 & i1 & j1 & A3 & A4).
    split; auto. split; [intros [i0 j0] H0; exact (A2 i0 j0 H0)|]. exists (i1, j1). auto.
  - intros r [i0 j0] Hr H0. apply (morg_phys2 m gp S HR r i0 j0); auto.
  - intros [I J] H0. destruct (mowner2 m gp S HR I J H0) as (r & i0 & j0 & A1 & A2 & <- & <-).
    exists r, (i0, j0). auto.
  - intros [I J] H0. apply B; auto.
  - exists (i, j). auto.
Qed.

Lemma mdt_same3 m gp (S : hset R) iv n (M : nat -> store R) s d d' : mready3_mpi iv m gp S -> steppable S -> mmid3 m gp S n M s ->
  dt_all gp (fun r => mdt_local3 m S (fun i j k => getm (M r) (mkloc A_Q i j k))) d ->
  mdt_local3 (gmesh m gp) S (fun i j k => getm s (mkloc A_Q i j k)) d' -> d = d'.
Proof.
  intros HR HS (u & HM & Hs) Hd Hd'.
  pose proof (mready3_local m gp S iv HR) as (Hw & Hg & _). pose proof (mready3_global m gp S iv HR) as (Hw' & Hg' & _).
  set (U := extend3 (gmesh m gp) u) in *.
  assert (HQ : forall i j k, phys3 (gmesh m gp) i j k -> getm s (mkloc A_Q i j k) = mQ3 S U i j k).
  { intros. eapply mready3_Q; [|exact Hs|auto]. lia. }
  apply (mdt_local3_ext _ _ _ _ _ HQ) in Hd'.
  destruct (mdt_local3_bound S HS _ Hw' (mQ3 S U) d' (fun i j k _ => proj2 (mQ3_adm S HS U i j k)) Hd') as (P & B & i & j & k & Hp & E).
  refine (min_of_steps gp (cfl S) _ (fun c => phys3 m (fst (fst c)) (snd (fst c)) (snd c))
    (fun c => phys3 (gmesh m gp) (fst (fst c)) (snd (fst c)) (snd c))
    (fun r c => (org m gp AX r + fst (fst c), org m gp AY r + snd (fst c), org m gp AZ r + snd c)%Z)
    (fun c => mspeeds3 S (mQ3 S U) (fst (fst c)) (snd (fst c)) (snd c)) d d'
    (proj1 (proj2 HS)) _ _ _ P _ _ Hd).
  - intros r x Hr Hx.
    set (Qr := fun i j k : Z => mQ3 S U (org m gp AX r + i)%Z (org m gp AY r + j)%Z (org m gp AZ r + k)%Z).
    assert (HQr : forall i j k, phys3 m i j k -> getm (M r) (mkloc A_Q i j k) = Qr i j k).
    { intros i0 j0 k0 Hp0. rewrite (mready3_Q m S _ _ _ (M r) i0 j0 k0 ltac:(lia) (HM r Hr) Hp0). apply mQ3_window. }
    apply (mdt_local3_ext _ _ _ _ _ HQr) in Hx.
    destruct (mdt_local3_bound S HS _ Hw Qr x (fun i j k _ => proj2 (mQ3_adm S HS U _ _ _)) Hx) as (A1 & A2 & i1 & j1 & k1 & A3 & A4).
    split; auto. split; [intros [[i0 j0] k0] H0; exact (A2 i0 j0 k0 H0)|]. exists (i1, j1, k1). auto.
  - intros r [[i0 j0] k0] Hr H0. apply (morg_phys3 m gp S iv HR r i0 j0 k0); auto.
  - intros [[I J] K] H0. destruct (mowner3 m gp S iv HR I J K H0) as (r & i0 & j0 & k0 & A1 & A2 & <- & <- & <-).
    exists r, (i0, j0, k0). auto.
  - intros [[I J] K] H0. apply B; auto.
  - exists (i, j, k). auto.
Qed.
Local Open Scope Z_scope.

(** ** C05: every execution completes *)

(** Both parts of a step, and the constructor. *)
Theorem C05_mhd_step_completes_2d :
  forall (T : Type) (N : Num T) lay m gp (S : hset T) iv n dt, block2 m gp -> mready2 m S ->
  (exists bound, completes (mpi_alloc2d m (mnv2 m iv)) (Z.to_nat (nprocs gp))
     (mprefix2_mpi lay m gp S (in_array n) (out_array n)) bound) /\
  exists bound, completes (mpi_alloc2d m (mnv2 m iv)) (Z.to_nat (nprocs gp))
    (mscheme2_mpi m S iv dt (in_array n) (out_array n)) bound.
Proof.
  intros T N lay m gp S iv n dt Hb HR. pose proof HR as (Hw & Hg & Hn & Hs & Hr).
  assert (HF : Forall (Forall (in_foot (mpi_alloc2d m (mnv2 m iv)))) (mgodunov2 m S dt iv (in_array n) (out_array n))).
  { pose proof (mgodunov2_in_foot m S dt Hs Hr Hw Hg Hn _ _ (io_buffers n) iv) as HF. revert HF.
    apply Forall_impl. intros K. apply Forall_impl. intros p. apply in_foot_mono.
    intros l. apply mpi_alloc2d_mono; intros; simpl; lia. }
  unfold mgodunov2, mprefix2 in HF. rewrite !Forall_app in HF. destruct HF as ((_ & HF1) & HF2).
  split; eexists.
  - apply C05_exchange_completes_2d; auto.
    + unfold in_array, not_buffer. destruct (Nat.even n); reflexivity.
    + unfold in_array. destruct (Nat.even n); simpl; lia.
  - apply completes_computes; auto. destruct Hb; auto.
Qed.
Print Assumptions C05_mhd_step_completes_2d.

Theorem C05_mhd_step_completes_3d :
  forall (T : Type) (N : Num T) lay m gp (S : hset T) iv n dt, block3 m gp -> mready3 iv m S ->
  (exists bound, completes (mpi_alloc3d m (mnv3 m iv)) (Z.to_nat (nprocs gp))
     (mprefix3_mpi lay m gp S (in_array n) (out_array n)) bound) /\
  exists bound, completes (mpi_alloc3d m (mnv3 m iv)) (Z.to_nat (nprocs gp))
    (mscheme3_mpi m S iv dt (in_array n) (out_array n)) bound.
Proof.
  intros T N lay m gp S iv n dt Hb HR. pose proof HR as (Hw & Hg & Hn & Hr & Hs).
  assert (HF : Forall (Forall (in_foot (mpi_alloc3d m (mnv3 m iv)))) (mgodunov3 m S dt iv (in_array n) (out_array n))).
  { assert (HF : Forall (Forall (in_foot (alloc3d m (mnv3 m iv)))) (mgodunov3 m S dt iv (in_array n) (out_array n)))
      by (apply mgodunov3_in_foot; auto using io_buffers). revert HF.
    apply Forall_impl. intros K. apply Forall_impl. intros p. apply in_foot_mono.
    intros l. apply mpi_alloc3d_mono; intros; simpl; lia. }
  unfold mgodunov3, mprefix3 in HF. rewrite !Forall_app in HF. destruct HF as ((_ & HF1) & HF2).
  split; eexists.
  - apply C05_exchange_completes_3d; auto.
    + unfold in_array, not_buffer. destruct (Nat.even n); reflexivity.
    + unfold in_array. destruct (Nat.even n); simpl; lia.
  - apply completes_computes; auto. destruct Hb; auto.
Qed.
Print Assumptions C05_mhd_step_completes_3d.

(** Whole distributed runs reach their end. *)
Theorem C05_mhd_runs_complete_2d :
  forall (T : Type) (N : Num T) lay m gp (S : hset T) iv c s,
  mready2_mpi m gp S -> c_nlog c <> 0 ->
  exists tr s', main (mhd2_mpi lay m gp S (mpi_alloc2d m (mnv2 m iv)) iv) c s tr s'.
Proof.
  intros T N lay m gp S iv c s HR Hl. pose proof HR as ((gok & _) & _).
  set (P := mhd2_mpi lay m gp S (mpi_alloc2d m (mnv2 m iv)) iv).
  destruct (loop_exists P c (main_save P c s)) as (tr & s1 & HL).
  - intros x _. set (y := maybe_save P c x).
    pose proof (fun dt => C05_mhd_step_completes_2d T N lay m gp S iv (s_it y) dt (proj1 HR) (mready2_local m gp S HR)) as HC.
    destruct (HC n0) as ((b1 & Hb1) & _). destruct (completes_runs _ gp _ b1 (s_mem y) Hb1) as [m1 Hm1].
    destruct (dt_all_exists gp (fun r => mdt_local2 m S (fun i j => getm (m1 r) (L2 A_Q i j))) gok) as [d Hd].
    { intros r. eexists. eexists. split; [apply red_chunk|reflexivity]. }
    destruct (HC (clamp c (s_t y) d)) as (_ & b2 & Hb2). destruct (completes_runs _ gp _ b2 m1 Hb2) as [m2 Hm2].
    eexists. split; [exact Hl|]. exists m1, d, m2.
    split; [exact Hm1|]. split; [exact Hd|]. split; [exact Hm2|reflexivity].
  - exists tr, (main_save P c s1). exists s1. auto.
Qed.
Print Assumptions C05_mhd_runs_complete_2d.

Theorem C05_mhd_runs_complete_3d :
  forall (T : Type) (N : Num T) lay m gp (S : hset T) iv c s,
  mready3_mpi iv m gp S -> c_nlog c <> 0 ->
  exists tr s', main (mhd3_mpi lay m gp S (mpi_alloc3d m (mnv3 m iv)) iv) c s tr s'.
Proof.
  intros T N lay m gp S iv c s HR Hl. pose proof HR as ((gok & _) & _).
  set (P := mhd3_mpi lay m gp S (mpi_alloc3d m (mnv3 m iv)) iv).
  destruct (loop_exists P c (main_save P c s)) as (tr & s1 & HL).
  - intros x _. set (y := maybe_save P c x).
    pose proof (fun dt => C05_mhd_step_completes_3d T N lay m gp S iv (s_it y) dt (proj1 HR) (mready3_local m gp S iv HR)) as HC.
    destruct (HC n0) as ((b1 & Hb1) & _). destruct (completes_runs _ gp _ b1 (s_mem y) Hb1) as [m1 Hm1].
    destruct (dt_all_exists gp (fun r => mdt_local3 m S (fun i j k => getm (m1 r) (mkloc A_Q i j k))) gok) as [d Hd].
    { intros r. eexists. eexists. split; [apply red_chunk|reflexivity]. }
    destruct (HC (clamp c (s_t y) d)) as (_ & b2 & Hb2). destruct (completes_runs _ gp _ b2 m1 Hb2) as [m2 Hm2].
    eexists. split; [exact Hl|]. exists m1, d, m2.
    split; [exact Hm1|]. split; [exact Hd|]. split; [exact Hm2|reflexivity].
  - exists tr, (main_save P c s1). exists s1. auto.
Qed.
Print Assumptions C05_mhd_runs_complete_3d.

(** ** C06: the distributed run is the serial run of the whole mesh *)

(** Any number of steps of version 0, bit for bit, in any arithmetic. *)
Theorem C06_mhd_steps_2d :
  forall (T : Type) (N : Num T) (O : NumOne T) lay m gp (S : hset T) inb inb' n dts M M' s s',
  mready2_mpi m gp S -> mshare2 m gp (in_array n) M s ->
  whole_steps (mhd2_mpi lay m gp S inb V0) n dts M M' ->
  whole_steps (mhd2 (gmesh m gp) S inb' V0) n dts s s' ->
  mshare2 m gp (in_array (n + length dts)) M' s'.
Proof.
  intros T N O lay m gp S inb inb' n dts M M' s s' HR HS H1 H2.
  refine (wsteps_share _ _ (fun n => mshare2 m gp (in_array n)) (mmid2 m gp S) _ _ dts n M M' s s' HS H1 H2).
  - clear - HR O. intros n a a' b b' HB HA HA2. apply (mshare_blocks2 m gp S HR) in HB.
    exists (field_of (in_array n) b). exact (mprefix_dist2 lay m gp S inb HR inb' n a a' b b' HB HA HA2).
  - clear - HR. intros dt n a a' b b' HB HA HA2. apply (mshare_blocks2 m gp S HR).
    eapply mscheme_dist2; [exact HR| | |exact HB|exact HA|exact HA2]; apply mscheme_ok_V0.
    + apply (mready2_local m gp S HR).
    + apply (mready2_global m gp S HR).
Qed.
Print Assumptions C06_mhd_steps_2d.

Theorem C06_mhd_steps_3d :
  forall (T : Type) (N : Num T) (O : NumOne T) lay m gp (S : hset T) inb inb' n dts M M' s s',
  mready3_mpi V0 m gp S -> mshare3 m gp (in_array n) M s ->
  whole_steps (mhd3_mpi lay m gp S inb V0) n dts M M' ->
  whole_steps (mhd3 (gmesh m gp) S inb' V0) n dts s s' ->
  mshare3 m gp (in_array (n + length dts)) M' s'.
Proof.
  intros T N O lay m gp S inb inb' n dts M M' s s' HR HS H1 H2.
  refine (wsteps_share _ _ (fun n => mshare3 m gp (in_array n)) (mmid3 m gp S) _ _ dts n M M' s s' HS H1 H2).
  - clear - HR O. intros n a a' b b' HB HA HA2. apply (mshare_blocks3 m gp S V0 HR) in HB.
    exists (field_of3 (in_array n) b). exact (mprefix_dist3 lay m gp S inb V0 HR inb' n a a' b b' HB HA HA2).
  - clear - HR. intros dt n a a' b b' HB HA HA2. apply (mshare_blocks3 m gp S V0 HR).
    eapply mscheme_dist3; [exact HR| | | |exact HB|exact HA|exact HA2]; [tauto|apply mscheme_ok3_V0..].
    + apply (mready3_local m gp S V0 HR).
    + apply (mready3_global m gp S V0 HR).
Qed.
Print Assumptions C06_mhd_steps_3d.

(** Whole runs in exact arithmetic, any implementation versions: same times, time
    steps and file numbers, and every process writes and ends with its part. *)
Theorem C06_mhd_run_exact_2d :
  forall lay m gp (S : hset R) inb inb' iv iv' c t0 k0 M0 M s0 s z tr z' q qtr q',
  mready2_mpi m gp S -> steppable S ->
  mshare2 m gp A_U M0 s0 ->
  mbuilt2_mpi lay m gp S inb M0 M -> mbuilt2 (gmesh m gp) S inb' s0 s ->
  Driver.start t0 k0 M z -> Driver.start t0 k0 s q -> s_dt z = s_dt q ->
  main (mhd2_mpi lay m gp S inb iv) c z tr z' ->
  main (mhd2 (gmesh m gp) S inb' iv') c q qtr q' ->
  Forall2 (msame_run2 m gp) tr qtr /\ msame_run2 m gp z' q'.
Proof.
  intros lay m gp S inb inb' iv iv' c t0 k0 M0 M s0 s z tr z' q qtr q' HR HS H0 HM Hb Hz Hq Edt Hm1 Hm2.
  refine (both_main (mhd2_mpi lay m gp S inb iv) c (mhd2 (gmesh m gp) S inb' iv')
    (fun n => mshare2 m gp (in_array n)) (mmid2 m gp S) (mfile_parts2 m gp) _ _ _ _
    z tr z' q qtr q' _ Hm1 Hm2).
  - intros n a a' b b' HB HA HA2. apply (mshare_blocks2 m gp S HR) in HB.
    exists (field_of (in_array n) b). exact (mprefix_dist2 lay m gp S inb HR inb' n a a' b b' HB HA HA2).
  - intros n a b d d2 HB H1 H2. exact (mdt_same2 m gp S n a b d d2 HR HS HB H1 H2).
  - intros dt n a a' b b' HB HA HA2. apply (mshare_blocks2 m gp S HR).
    eapply mscheme_dist2; [exact HR| | |exact HB|exact HA|exact HA2]; apply mscheme_ok_R.
    + apply (mready2_local m gp S HR).
    + apply (mready2_global m gp S HR).
  - intros n a b HB r x y Hsit i j v Hp Hvv. apply (HB r x y Hsit); auto.
  - destruct Hz as (E1 & E2 & E3 & E4 & E5), Hq as (F1 & F2 & F3 & F4 & F5).
    unfold same_sol. rewrite E1, E2, E3, E4, E5, F1, F2, F3, F4, F5.
    assert (HB : mshare2 m gp A_U M s).
    { apply (mshare_blocks2 m gp S HR) in H0. apply (mshare_blocks2 m gp S HR).
      destruct (mprefix_dist2 lay m gp S inb HR inb' 0 M0 M s0 s H0 HM Hb) as [A B].
      intros r i j v Hr Hp Hv. destruct (A r Hr) as (A1 & _). destruct B as (B1 & _).
      change A_U with (in_array 0). rewrite A1, B1.
      - unfold window2. f_equal; lia.
      - destruct (morg_phys2 m gp S HR r i j Hr Hp) as [P1 P2]. unfold cell2. unfold physical in P1, P2. simpl in *.
        destruct HR as (_ & _ & Hg & _). lia.
      - auto.
      - destruct Hp as [P1 P2]. unfold cell2. unfold physical in P1, P2. destruct HR as (_ & _ & Hg & _). lia.
      - auto. }
    repeat (split; auto).
Qed.
Print Assumptions C06_mhd_run_exact_2d.

(** In 3D version 2 is a different scheme from versions 0 and 1: it is compared with itself. *)
Theorem C06_mhd_run_exact_3d :
  forall lay m gp (S : hset R) inb inb' iv iv' c t0 k0 M0 M s0 s z tr z' q qtr q',
  (iv = V2 <-> iv' = V2) -> mready3_mpi iv m gp S -> steppable S ->
  mshare3 m gp A_U M0 s0 ->
  mbuilt3_mpi lay m gp S inb M0 M -> mbuilt3 (gmesh m gp) S inb' s0 s ->
  Driver.start t0 k0 M z -> Driver.start t0 k0 s q -> s_dt z = s_dt q ->
  main (mhd3_mpi lay m gp S inb iv) c z tr z' ->
  main (mhd3 (gmesh m gp) S inb' iv') c q qtr q' ->
  Forall2 (msame_run3 m gp) tr qtr /\ msame_run3 m gp z' q'.
Proof.
  intros lay m gp S inb inb' iv iv' c t0 k0 M0 M s0 s z tr z' q qtr q' Hiv HR HS H0 HM Hb Hz Hq Edt Hm1 Hm2.
  refine (both_main (mhd3_mpi lay m gp S inb iv) c (mhd3 (gmesh m gp) S inb' iv')
    (fun n => mshare3 m gp (in_array n)) (mmid3 m gp S) (mfile_parts3 m gp) _ _ _ _
    z tr z' q qtr q' _ Hm1 Hm2).
  - intros n a a' b b' HB HA HA2. apply (mshare_blocks3 m gp S iv HR) in HB.
    exists (field_of3 (in_array n) b). exact (mprefix_dist3 lay m gp S inb iv HR inb' n a a' b b' HB HA HA2).
  - intros n a b d d2 HB H1 H2. exact (mdt_same3 m gp S iv n a b d d2 HR HS HB H1 H2).
  - intros dt n a a' b b' HB HA HA2. apply (mshare_blocks3 m gp S iv HR).
    eapply mscheme_dist3; [exact HR|exact Hiv| | |exact HB|exact HA|exact HA2]; apply mscheme_ok3_R.
    + apply (mready3_local m gp S iv HR).
    + destruct (mready3_global m gp S iv HR) as (G1 & G2 & G3 & G4 & G5). repeat (split; auto).
      unfold mslope_ok3 in *. tauto.
  - intros n a b HB r x y zz Hsit i j k v Hp Hvv. apply (HB r x y zz Hsit); auto.
  - destruct Hz as (E1 & E2 & E3 & E4 & E5), Hq as (F1 & F2 & F3 & F4 & F5).
    unfold same_sol. rewrite E1, E2, E3, E4, E5, F1, F2, F3, F4, F5.
    assert (HB : mshare3 m gp A_U M s).
    { apply (mshare_blocks3 m gp S iv HR) in H0. apply (mshare_blocks3 m gp S iv HR).
      destruct (mprefix_dist3 lay m gp S inb iv HR inb' 0 M0 M s0 s H0 HM Hb) as [A B].
      intros r i j k v Hr Hp Hv. destruct (A r Hr) as (A1 & _). destruct B as (B1 & _).
      change A_U with (in_array 0). rewrite A1, B1.
      - unfold window3. f_equal; lia.
      - destruct (morg_phys3 m gp S iv HR r i j k Hr Hp) as [[P1 P2] P3]. unfold cell3, cell2. unfold physical in P1, P2, P3. simpl in *.
        destruct HR as (_ & _ & Hg & _). lia.
      - auto.
      - destruct Hp as [[P1 P2] P3]. unfold cell3, cell2. unfold physical in P1, P2, P3. destruct HR as (_ & _ & Hg & _). lia.
      - auto. }
    repeat (split; auto).
Qed.
Print Assumptions C06_mhd_run_exact_3d.

(** ** Cases *)

(** A 2 x 2 grid of processes, walls in y: both programs run to the end, from any
    serial initial state and its parts. *)
Example C06_mhd_case : forall s0 : store R,
  let gp := mkpgrid 2 2 1 in let S := ex_set R_HLLD 1 in let m := ex_mhd_walls2 in
  let inb := mpi_alloc2d m (mnv2 m V0) in
  let inb' := alloc2d (gmesh m gp) (mnv2 (gmesh m gp) V2) in
  exists M0 M s z tr z' q qtr q',
  mready2_mpi m gp S /\ steppable S /\ mshare2 m gp A_U M0 s0 /\
  mbuilt2_mpi LayoutLeft m gp S inb M0 M /\ mbuilt2 (gmesh m gp) S inb' s0 s /\
  Driver.start 0%R 0 M z /\ Driver.start 0%R 0 s q /\ s_dt z = s_dt q /\
  main (mhd2_mpi LayoutLeft m gp S inb V0) ex_config z tr z' /\
  main (mhd2 (gmesh m gp) S inb' V2) ex_config q qtr q'.
Proof.
  intros s0 gp S m inb inb'.
  assert (HR : mready2_mpi m gp S).
  { split; [unfold block2, pgrid_ok; simpl; lia|].
    destruct (ex_mready2 R_HLLD ex_mhd_walls2 ltac:(discriminate) ltac:(discriminate) ltac:(simpl; auto)) as (H1 & H2 & H3 & H4 & H5).
    repeat (split; auto); destruct f; simpl; try lia; congruence. }
  pose proof (mready2_local m gp S HR) as HL. pose proof (mready2_global m gp S HR) as HG.
  set (M0 := fun r l => s0 (mkloc (la l) (org m gp AX r + li l) (org m gp AY r + lj l) (lk l) (lv l))).
  destruct (C05_mhd_step_completes_2d R _ LayoutLeft m gp S V0 0 1%R (proj1 HR) HL) as ((b & Hb) & _).
  destruct (completes_runs inb gp _ b M0 Hb) as [M HM].
  destruct HG as (Hw & Hg & Hn & Hs & Hr).
  destruct (in_foot_execs inb' _ s0 (mprefix_in_foot (gmesh m gp) S Hw Hn A_U A_U2 (io_buffers 0) V2)) as [s Hbs].
  set (z := mksol (D := nat -> field2 R) 0%R 0%R O 0 [] M). set (q := mksol (D := field2 R) 0%R 0%R O 0 [] s).
  destruct (C05_mhd_runs_complete_2d R _ LayoutLeft m gp S V0 ex_config z HR ltac:(discriminate)) as (tr & z' & Hz).
  destruct (C14_mhd_runs_complete R _ (gmesh m gp) S V2 ex_config q) as (qtr & q' & Hq);
    [repeat (split; auto)|discriminate|].
  exists M0, M, s, z, tr, z', q, qtr, q'. split; [exact HR|]. split; [apply ex_steppable|].
  split; [apply (mshare_blocks2 m gp S HR); intros r i j v _ _ _; reflexivity|].
  split; [exact HM|]. split; [exact Hbs|]. split; [repeat split|]. split; [repeat split|]. split; [reflexivity|]. split; [exact Hz|exact Hq].
Qed.

(** The same in 3D, on 2 x 1 x 3 processes, version 1 against version 0. *)
Example C06_mhd3d_case : forall s0 : store R,
  let gp := mkpgrid 2 1 3 in let S := ex_set R_HLLD 1 in let m := ex_mhd_walls3 in
  let inb := mpi_alloc3d m (mnv3 m V1) in
  let inb' := alloc3d (gmesh m gp) (mnv3 (gmesh m gp) V0) in
  exists M0 M s z tr z' q qtr q',
  mready3_mpi V1 m gp S /\ steppable S /\ mshare3 m gp A_U M0 s0 /\
  mbuilt3_mpi LayoutRight m gp S inb M0 M /\ mbuilt3 (gmesh m gp) S inb' s0 s /\
  Driver.start 0%R 0 M z /\ Driver.start 0%R 0 s q /\ s_dt z = s_dt q /\
  main (mhd3_mpi LayoutRight m gp S inb V1) ex_config z tr z' /\
  main (mhd3 (gmesh m gp) S inb' V0) ex_config q qtr q'.
Proof.
  intros s0 gp S m inb inb'.
  assert (HR : mready3_mpi V1 m gp S).
  { split; [unfold block3, pgrid_ok; simpl; lia|].
    destruct (ex_mready3 R_HLLD V1 ex_mhd_walls3 ltac:(discriminate) ltac:(discriminate) ltac:(simpl; auto)) as (H1 & H2 & H3 & H4 & H5).
    repeat (split; auto); destruct f; simpl; lia. }
  pose proof (mready3_local m gp S V1 HR) as HL. pose proof (mready3_global m gp S V1 HR) as HG.
  set (M0 := fun r l => s0 (mkloc (la l) (org m gp AX r + li l) (org m gp AY r + lj l) (org m gp AZ r + lk l) (lv l))).
  destruct (C05_mhd_step_completes_3d R _ LayoutRight m gp S V1 0 1%R (proj1 HR) HL) as ((b & Hb) & _).
  destruct (completes_runs inb gp _ b M0 Hb) as [M HM].
  destruct HG as (Hw & Hg & Hn & Hr & Hs).
  destruct (in_foot_execs inb' _ s0 (mprefix3_in_foot (gmesh m gp) S Hw Hn A_U A_U2 (io_buffers 0) V0)) as [s Hbs].
  set (z := mksol (D := nat -> field3 R) 0%R 0%R O 0 [] M). set (q := mksol (D := field3 R) 0%R 0%R O 0 [] s).
  destruct (C05_mhd_runs_complete_3d R _ LayoutRight m gp S V1 ex_config z HR ltac:(discriminate)) as (tr & z' & Hz).
  destruct (C14_mhd3d_runs_complete R _ (gmesh m gp) S V0 ex_config q) as (qtr & q' & Hq);
    [repeat (split; auto); discriminate|discriminate|].
  exists M0, M, s, z, tr, z', q, qtr, q'. split; [exact HR|]. split; [apply ex_steppable|].
  split; [apply (mshare_blocks3 m gp S V1 HR); intros r i j k v _ _ _; reflexivity|].
  split; [exact HM|]. split; [exact Hbs|]. split; [repeat split|]. split; [repeat split|]. split; [reflexivity|]. split; [exact Hz|exact Hq].
Qed.

(** Whole steps of the distributed program exist, of any given lengths. *)
Example C06_mhd_steps_case : forall (T : Type) (N : Num T) (S : hset T) dts (M : nat -> store T) n,
  mready2_mpi ex_mhd_walls2 (mkpgrid 3 2 1) S ->
  exists M', whole_steps (mhd2_mpi LayoutLeft ex_mhd_walls2 (mkpgrid 3 2 1) S
    (mpi_alloc2d ex_mhd_walls2 (mnv2 ex_mhd_walls2 V0)) V0) n dts M M'.
Proof.
  intros T N S dts. induction dts as [|dt dts IH]; intros M n HR; [eexists; constructor|].
  destruct (C05_mhd_step_completes_2d T N LayoutLeft _ _ S V0 n dt (proj1 HR) (mready2_local _ _ S HR)) as ((b1 & H1) & b2 & H2).
  destruct (completes_runs _ _ _ b1 M H1) as [M1 X1]. destruct (completes_runs _ _ _ b2 M1 H2) as [M2 X2].
  destruct (IH M2 (Datatypes.S n) HR) as [M3 X3]. exists M3. eapply wsteps_cons; [exact X1|exact X2|exact X3].
Qed.
