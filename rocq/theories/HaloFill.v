(** * Distributed ghost filling, direction by direction *)
From Coq Require Import ZArith List Bool Lia ZifyBool.
Import ListNotations.
From Verif Require Import Num Exec ExecFacts Grid GridFacts Boundaries BoundariesSpec BoundariesFacts
  BoundariesFill HydroNum Kernels KernelFacts MpiRun MpiFacts Halo HaloFacts.
Local Open Scope Z_scope.

Section Dist.
Context {T : Type} `{HN : Num T} `{HO : !NumOne T}.
Variable two : bool.
Variable lay : layout.
Variable m : mesh.
Variable g : pgrid.
Variable a : arr.
Variable inb : extents.
Hypothesis gok : pgrid_ok g.
Hypothesis flat : two = true -> mz g = 1.
Hypothesis gw_pos : 0 < gw m.
Hypothesis nx_gw : gw m <= nx m.
Hypothesis ny_gw : gw m <= ny m.
Hypothesis nz_gw : two = false -> gw m <= nz m.
Hypothesis nbvar_pos : 0 <= nbvar m.
Hypothesis codes : forall f, face_ok two f -> 1 <= bc m f <= 4.
Hypothesis not_send : forall f, a <> A_BufSend f.
Hypothesis not_recv : forall f, a <> A_BufRecv f.

Definition np : nat := Z.to_nat (nprocs g).
Definition pos (r : nat) (ax : axis) : Z := coord ax (cart_coords g (Z.of_nat r)).
Notation nbr := (rank_of g).
Notation N := (ncells m).

Lemma np_range r : (r < np)%nat -> 0 <= Z.of_nat r < nprocs g.
Proof. clear. unfold np. lia. Qed.

Lemma nbr_lt r f : (nbr r f < np)%nat.
Proof. clear - gok. unfold rank_of, np. pose proof (neighbor_range g gok (Z.of_nat r) f). lia. Qed.

Lemma nbr_Z r f : Z.of_nat (nbr r f) = neighbor_rank g (Z.of_nat r) f.
Proof. clear - gok. unfold rank_of. pose proof (neighbor_range g gok (Z.of_nat r) f). lia. Qed.

Lemma nbr_sym r f : (r < np)%nat -> nbr (nbr r f) (opposite f) = r.
Proof.
  clear - gok.
  intros Hr. apply Nat2Z.inj. rewrite nbr_Z, nbr_Z. apply neighbor_sym; auto. apply np_range; auto.
Qed.

Lemma pos_range r ax : (r < np)%nat -> 0 <= pos r ax < mdim g ax.
Proof. clear - gok. intros Hr. apply coords_inside; auto. apply np_range; auto. Qed.

Lemma pos_nbr_same r f : (r < np)%nat ->
  pos (nbr r f) (face_axis f) = (pos r (face_axis f) + step_of f) mod mdim g (face_axis f).
Proof.
  clear - gok.
  intros Hr. unfold pos. rewrite nbr_Z, neighbor_pos; auto; [|apply np_range; auto].
  destruct f; reflexivity.
Qed.

Lemma pos_nbr_other r f ax : (r < np)%nat -> ax <> face_axis f -> pos (nbr r f) ax = pos r ax.
Proof.
  clear - gok.
  intros Hr Hne. unfold pos. rewrite nbr_Z, neighbor_pos; auto; [|apply np_range; auto].
  destruct f, ax; simpl in *; congruence.
Qed.

Definition fill_side (r : nat) (f : face) : list (prog T) :=
  if two then fill_side2 lay m g a r f else fill_side3 lay m g a r f.

(** Side [f] of process [r] is filled by exchange. *)
Definition exchanged (r : nat) (f : face) : bool :=
  let t := neighbors_bc two g (bc m) (Z.of_nat r) f in (t =? BC_COPY) || (t =? BC_PERIODIC).

Lemma fill_side_eq r f : fill_side r f =
  if exchanged r f then unpack two lay m a f else bnd_kernel two m a f.
Proof.
  clear. unfold fill_side, fill_side2, fill_side3, exchanged, unpack, bnd_kernel. destruct two; reflexivity.
Qed.

(** The side touches the border of the domain. *)
Definition at_border (r : nat) (f : face) : Prop :=
  pos r (face_axis f) = if is_lo f then 0 else mdim g (face_axis f) - 1.

Lemma exchanged_spec r f : face_ok two f ->
  exchanged r f = true <-> (~ at_border r f \/ kind_of (bc m f) = Periodic).
Proof.
  intros Hf. unfold exchanged, neighbors_bc, at_border, pos, kind_of.
  destruct (cart_coords g (Z.of_nat r)) as [[x y] z].
  unfold BC_COPY, BC_PERIODIC.
  assert (bc m f = 1 \/ bc m f = 2 \/ bc m f = 3 \/ bc m f = 4) as Hc.
  { specialize (codes f Hf). lia. }
  destruct f; simpl in *; try rewrite Hf;
  match goal with |- context [if ?b then bc m ?f else 4] =>
    destruct b eqn:E; destruct Hc as [Eb|[Eb|[Eb|Eb]]]; rewrite ?Eb; simpl end;
  (split; [intros X; first [discriminate X | (right; reflexivity) | (left; lia)]
          |intros [X|X]; try discriminate X; try (exfalso; lia); try reflexivity]).
Qed.

Definition dir_prog (r : nat) (lo hi : face) (tag : Z) : list (action T) :=
  if two then halo_dir2 lay m g a r lo hi tag else halo_dir3 lay m g a r lo hi tag.

Lemma dir_prog_eq r lo hi tag : dir_prog r lo hi tag =
  [Compute (pack two lay m a lo); Compute (pack two lay m a hi);
   Sendrecv (A_BufSend lo) (nbr r lo) tag (A_BufRecv hi) (nbr r hi) tag;
   Sendrecv (A_BufSend hi) (nbr r hi) tag (A_BufRecv lo) (nbr r lo) tag;
   Compute (fill_side r lo); Compute (fill_side r hi); Barrier].
Proof. clear. unfold dir_prog, fill_side, pack, halo_dir2, halo_dir3, transfer. destruct two; reflexivity. Qed.

Definition axis_face_ok (ax : axis) : Prop := match ax with AZ => two = false | _ => True end.

Lemma nax_gw ax : axis_face_ok ax -> gw m <= N ax.
Proof. destruct ax; simpl; auto. Qed.

(** Where the value of a side cell comes from. *)
Definition side_val (M : nat -> store T) (r : nat) (f : face) (c : cell) (v : Z) : T :=
  if exchanged r f
  then M (nbr r f) (at_ a (move f (if is_lo f then N (face_axis f) else - N (face_axis f)) c) v)
  else nmul (M r (at_ a (fimg m f c) v)) (bc_sign (p_mhd m) f (bc m f) v).

Definition dir_val (M : nat -> store T) (ax : axis) (r : nat) (c : cell) (v : Z) : T :=
  if coord ax c <? gw m then side_val M r (lo_face ax) c v
  else if N ax + gw m <=? coord ax c then side_val M r (hi_face ax) c v
  else M r (at_ a c v).

Definition is_buf (b : arr) : bool := match b with A_BufSend _ | A_BufRecv _ => true | _ => false end.

Lemma received_other (s : store T) b d l : la l <> b -> received s b d l = s l.
Proof. intros. unfold received. destruct (arr_eq_dec (la l) b); congruence. Qed.

Lemma received_at (s : store T) b d i j k v : received s b d (mkloc b i j k v) = d i j k v.
Proof. unfold received. simpl. destruct (arr_eq_dec b b); congruence. Qed.

Lemma la_at b c v : la (at_ b c v) = b.
Proof. destruct c as [[i j] k]; reflexivity. Qed.
Lemma cell_at b c v : cell_of (at_ b c v) = c.
Proof. destruct c as [[i j] k]; reflexivity. Qed.
Lemma lv_at b c v : lv (at_ b c v) = v.
Proof. destruct c as [[i j] k]; reflexivity. Qed.

Lemma content_received (s s2 : store T) b b2 c v :
  received s b (content s2 b2) (at_ b c v) = s2 (at_ b2 c v).
Proof. destruct c as [[i j] k]. simpl. rewrite received_at. reflexivity. Qed.

Lemma lo_axis ax : face_axis (lo_face ax) = ax. Proof. destruct ax; auto. Qed.
Lemma hi_axis ax : face_axis (hi_face ax) = ax. Proof. destruct ax; auto. Qed.
Lemma lo_is_lo ax : is_lo (lo_face ax) = true. Proof. destruct ax; auto. Qed.
Lemma hi_is_hi ax : is_lo (hi_face ax) = false. Proof. destruct ax; auto. Qed.

Lemma enough_face f : face_ok two f -> enough (fkind m f) (nf m f) (gw m).
Proof.
  clear codes. intros Hf. assert (gw m <= nf m f) by (unfold nf; destruct f; simpl in *; auto).
  unfold enough. destruct (fkind m f); lia.
Qed.

(** One side, after the exchange. *)
Lemma side_exec r f s s' (src : cell -> Z -> T) : (r < np)%nat -> face_ok two f ->
  (forall c v, bbox two m f c -> 0 <= v < nbvar m -> s (at_ (A_BufRecv f) c v) = src c v) ->
  exec inb s (fill_side r f) s' ->
  (forall c v, slab two m f c -> 0 <= v < nbvar m ->
     s' (at_ a c v) = if exchanged r f then src (move f (- recv_off m f) c) v
       else nmul (s (at_ a (fimg m f c) v)) (bc_sign (p_mhd m) f (bc m f) v)) /\
  (forall l, ~ (la l = a /\ slab two m f (cell_of l) /\ 0 <= lv l < nbvar m) -> s' l = s l).
Proof.
  clear codes. intros Hr Hf Hsrc Hex. rewrite fill_side_eq in Hex.
  assert (Hnx : 1 <= nx m) by lia. assert (Hny : 1 <= ny m) by lia.
  assert (Hnz : two = false -> 1 <= nz m) by (intros E; specialize (nz_gw E); lia).
  destruct (exchanged r f).
  - apply unpack_exec in Hex; auto. destruct Hex as [E1 E2]. split; [|exact E2].
    intros c v Hc Hv.
    destruct (slab_box two m Hnz f c) as [Hb Em]; auto.
    rewrite <- Em at 1. rewrite E1 by auto. apply Hsrc; auto.
  - apply face_exec in Hex; auto. apply enough_face; auto.
Qed.

Lemma bbox_same ax c : bbox two m (lo_face ax) c <-> bbox two m (hi_face ax) c.
Proof. destruct ax; reflexivity. Qed.

Lemma dir_values ax M M' tag : axis_face_ok ax ->
  lockrun inb np (fun r => dir_prog r (lo_face ax) (hi_face ax) tag) 7 M M' ->
  forall r, (r < np)%nat ->
  (forall c v, in_array two m c -> 0 <= v < nbvar m -> M' r (at_ a c v) = dir_val M ax r c v) /\
  (forall l, ~ (la l = a /\ in_array two m (cell_of l) /\ 0 <= lv l < nbvar m) ->
     is_buf (la l) = false -> M' r l = M r l).
Proof.
  clear codes. intros Hax Hrun.
  set (lo := lo_face ax) in *. set (hi := hi_face ax) in *.
  assert (Hflo : face_ok two lo) by (unfold lo; destruct ax; auto).
  assert (Hfhi : face_ok two hi) by (unfold hi; destruct ax; auto).
  assert (Hnx : 1 <= nx m) by lia. assert (Hny : 1 <= ny m) by lia.
  assert (Hnz : two = false -> 1 <= nz m) by (intros E; specialize (nz_gw E); lia).
  assert (Hrun' : lockrun inb np (fun r =>
     [Compute (pack two lay m a lo); Compute (pack two lay m a hi);
      Sendrecv (A_BufSend lo) (nbr r lo) tag (A_BufRecv hi) (nbr r hi) tag;
      Sendrecv (A_BufSend hi) (nbr r hi) tag (A_BufRecv lo) (nbr r lo) tag;
      Compute (fill_side r lo); Compute (fill_side r hi); Barrier]) 7 M M').
  { revert Hrun. apply lockrun_ext. intros r. apply dir_prog_eq. }
  clear Hrun.
  apply lockrun_cons in Hrun'. destruct Hrun' as (M1 & S1 & Hrun).
  apply lockrun_cons in Hrun. destruct Hrun as (M2 & S2 & Hrun).
  apply lockrun_cons in Hrun. destruct Hrun as (M3 & S3 & Hrun).
  apply lockrun_cons in Hrun. destruct Hrun as (M4 & S4 & Hrun).
  apply lockrun_cons in Hrun. destruct Hrun as (M5 & S5 & Hrun).
  apply lockrun_cons in Hrun. destruct Hrun as (M6 & S6 & S7).
  pose proof (lockrun_compute inb np _ _ _ S1) as P1.
  pose proof (lockrun_compute inb np _ _ _ S2) as P2.
  pose proof (lockrun_sendrecv inb np _ _ _ _ _ _ _ _ (fun p _ => nbr_lt p hi) S3) as P3.
  pose proof (lockrun_sendrecv inb np _ _ _ _ _ _ _ _ (fun p _ => nbr_lt p lo) S4) as P4.
  pose proof (lockrun_compute inb np _ _ _ S5) as P5.
  pose proof (lockrun_compute inb np _ _ _ S6) as P6.
  pose proof (lockrun_barrier inb np _ _ S7) as P7.
  clear S1 S2 S3 S4 S5 S6 S7.
  (* packed buffers *)
  assert (Q1 : forall r, (r < np)%nat -> _) by (intros r Hr; exact (pack_exec two lay m a inb gw_pos Hnx Hny Hnz nbvar_pos not_send lo _ _ Hflo (P1 r Hr))).
  assert (Q2 : forall r, (r < np)%nat -> _) by (intros r Hr; exact (pack_exec two lay m a inb gw_pos Hnx Hny Hnz nbvar_pos not_send hi _ _ Hfhi (P2 r Hr))).
  clear P1 P2.
  assert (Hlohi : lo <> hi) by (unfold lo, hi; destruct ax; discriminate).
  assert (B2lo : forall r c v, (r < np)%nat -> bbox two m lo c -> 0 <= v < nbvar m ->
     M2 r (at_ (A_BufSend lo) c v) = M r (at_ a (move lo (send_off m lo) c) v)).
  { intros r c v Hr Hc Hv. rewrite (proj2 (Q2 r Hr)) by (rewrite la_at; congruence).
    apply (proj1 (Q1 r Hr)); auto. }
  assert (B2hi : forall r c v, (r < np)%nat -> bbox two m hi c -> 0 <= v < nbvar m ->
     M2 r (at_ (A_BufSend hi) c v) = M r (at_ a (move hi (send_off m hi) c) v)).
  { intros r c v Hr Hc Hv. rewrite (proj1 (Q2 r Hr)) by auto.
    apply (proj2 (Q1 r Hr)). rewrite la_at. apply not_send. }
  assert (K4 : forall r l, (r < np)%nat -> is_buf (la l) = false -> M4 r l = M r l).
  { intros r l Hr Hb. rewrite P4 by auto. rewrite received_other by (intros E; rewrite E in Hb; discriminate).
    rewrite P3 by auto. rewrite received_other by (intros E; rewrite E in Hb; discriminate).
    rewrite (proj2 (Q2 r Hr)) by (intros E; rewrite E in Hb; discriminate).
    apply (proj2 (Q1 r Hr)). intros E; rewrite E in Hb; discriminate. }
  assert (Hna : is_buf a = false).
  { destruct a; auto; exfalso; [eapply not_send|eapply not_recv]; reflexivity. }
  (* received buffers *)
  assert (R4hi : forall r c v, (r < np)%nat -> bbox two m hi c -> 0 <= v < nbvar m ->
     M4 r (at_ (A_BufRecv hi) c v) = M (nbr r hi) (at_ a (move lo (send_off m lo) c) v)).
  { intros r c v Hr Hc Hv. rewrite P4 by auto. rewrite received_other by (rewrite la_at; congruence).
    rewrite P3 by auto. rewrite content_received. apply B2lo; auto; [apply nbr_lt|apply bbox_same; auto]. }
  assert (R4lo : forall r c v, (r < np)%nat -> bbox two m lo c -> 0 <= v < nbvar m ->
     M4 r (at_ (A_BufRecv lo) c v) = M (nbr r lo) (at_ a (move hi (send_off m hi) c) v)).
  { intros r c v Hr Hc Hv. rewrite P4 by auto. rewrite content_received.
    assert (Hn : (nbr r lo < np)%nat) by apply nbr_lt.
    rewrite P3 by auto. rewrite received_other by (rewrite la_at; discriminate).
    apply B2hi; auto. apply bbox_same; auto. }
  clear P3 P4 Q1 Q2 B2lo B2hi.
  intros r Hr.
  pose proof (side_exec r lo _ _ _ Hr Hflo (fun c v => R4lo r c v Hr) (P5 r Hr)) as [A5 F5].
  assert (R5hi : forall c v, bbox two m hi c -> 0 <= v < nbvar m ->
     M5 r (at_ (A_BufRecv hi) c v) = M (nbr r hi) (at_ a (move lo (send_off m lo) c) v)).
  { intros c v Hc Hv. rewrite F5; auto. rewrite la_at. intros (E & _). apply (not_recv hi). congruence. }
  pose proof (side_exec r hi _ _ _ Hr Hfhi R5hi (P6 r Hr)) as [A6 F6].
  assert (Elo : face_axis lo = ax) by apply lo_axis. assert (Ehi : face_axis hi = ax) by apply hi_axis.
  assert (Ilo : is_lo lo = true) by apply lo_is_lo. assert (Ihi : is_lo hi = false) by apply hi_is_hi.
  assert (Hslo : forall c, slab two m lo c <-> in_array two m c /\ 0 <= coord ax c < gw m).
  { intros c. unfold slab. rewrite Elo, Ilo. unfold ghost_lo. tauto. }
  assert (Hshi : forall c, slab two m hi c <-> in_array two m c /\ N ax + gw m <= coord ax c < N ax + 2 * gw m).
  { intros c. unfold slab. rewrite Ehi, Ihi. unfold ghost_hi. tauto. }
  pose proof (nax_gw ax Hax) as Hnax.
  assert (Hcr : forall c, in_array two m c -> 0 <= coord ax c < N ax + 2 * gw m).
  { intros [[i j] k] Hc. destruct ax; simpl in *; umesh; try (rewrite Hax in *); lia. }
  split.
  - intros c v Hc Hv. rewrite P7 by auto. unfold dir_val.
    pose proof (Hcr c Hc) as Hcc.
    destruct (coord ax c <? gw m) eqn:L1; [|destruct (N ax + gw m <=? coord ax c) eqn:L2].
    + assert (Hs : slab two m lo c) by (apply Hslo; split; auto; lia).
      rewrite F6. 2:{ rewrite cell_at. intros (_ & Hx & _). apply Hshi in Hx. lia. }
      rewrite A5 by auto. unfold side_val. fold lo. rewrite Ilo, Elo.
      destruct (exchanged r lo).
      * f_equal. f_equal. unfold move, recv_off, send_off. rewrite Ilo, Ihi, Elo, Ehi.
        clear. destruct c as [[i j] k], ax; simpl; repeat apply (f_equal2 pair); lia.
      * rewrite K4; auto. rewrite la_at; auto.
    + assert (Hs : slab two m hi c) by (apply Hshi; split; auto; lia).
      rewrite A6 by auto. unfold side_val. fold hi. rewrite Ihi, Ehi.
      destruct (exchanged r hi).
      * f_equal. f_equal. unfold move, recv_off, send_off. rewrite Ilo, Ihi, Elo, Ehi.
        clear. destruct c as [[i j] k], ax; simpl; repeat apply (f_equal2 pair); lia.
      * rewrite F5.
        -- rewrite K4; auto. rewrite la_at; auto.
        -- rewrite cell_at. intros (_ & Hx & _). apply Hslo in Hx.
           destruct (fimg_phys two m gw_pos Hnx Hny Hnz hi c) as [Hp _]; auto.
           { apply enough_face; auto. }
           unfold nf in Hp. rewrite Ehi in Hp. unfold physical in Hp. lia.
    + rewrite F6. 2:{ rewrite cell_at. intros (_ & Hx & _). apply Hshi in Hx. lia. }
      rewrite F5. 2:{ rewrite cell_at. intros (_ & Hx & _). apply Hslo in Hx. lia. }
      apply K4; auto. rewrite la_at; auto.
  - intros l Hl Hb. rewrite P7 by auto. rewrite F6, F5.
    + apply K4; auto.
    + intros (E1 & E2 & E3). apply Hslo in E2. tauto.
    + intros (E1 & E2 & E3). apply Hshi in E2. tauto.
Qed.

(** The buffer received for a side is the one packed by the neighbour on that
    side; both still hold it at the end, and other buffers are untouched. *)
Lemma dir_buffers ax M M' tag : axis_face_ok ax ->
  lockrun inb np (fun r => dir_prog r (lo_face ax) (hi_face ax) tag) 7 M M' ->
  (forall r f c v, (r < np)%nat -> face_axis f = ax ->
     M' r (at_ (A_BufRecv f) c v) = M' (nbr r f) (at_ (A_BufSend (opposite f)) c v)) /\
  (forall r f c v, (r < np)%nat -> face_axis f = ax -> bbox two m f c -> 0 <= v < nbvar m ->
     M' r (at_ (A_BufSend f) c v) = M r (at_ a (move f (send_off m f) c) v)) /\
  (forall r f l, (r < np)%nat -> face_axis f <> ax -> la l = A_BufSend f \/ la l = A_BufRecv f ->
     M' r l = M r l).
Proof.
  clear codes. intros Hax Hrun.
  set (lo := lo_face ax) in *. set (hi := hi_face ax) in *.
  assert (Hflo : face_ok two lo) by (unfold lo; destruct ax; auto).
  assert (Hfhi : face_ok two hi) by (unfold hi; destruct ax; auto).
  assert (Hnx : 1 <= nx m) by lia. assert (Hny : 1 <= ny m) by lia.
  assert (Hnz : two = false -> 1 <= nz m) by (intros E; specialize (nz_gw E); lia).
  assert (Hrun' : lockrun inb np (fun r =>
     [Compute (pack two lay m a lo); Compute (pack two lay m a hi);
      Sendrecv (A_BufSend lo) (nbr r lo) tag (A_BufRecv hi) (nbr r hi) tag;
      Sendrecv (A_BufSend hi) (nbr r hi) tag (A_BufRecv lo) (nbr r lo) tag;
      Compute (fill_side r lo); Compute (fill_side r hi); Barrier]) 7 M M').
  { revert Hrun. apply lockrun_ext. intros r. apply dir_prog_eq. }
  clear Hrun.
  apply lockrun_cons in Hrun'. destruct Hrun' as (M1 & S1 & Hrun).
  apply lockrun_cons in Hrun. destruct Hrun as (M2 & S2 & Hrun).
  apply lockrun_cons in Hrun. destruct Hrun as (M3 & S3 & Hrun).
  apply lockrun_cons in Hrun. destruct Hrun as (M4 & S4 & Hrun).
  apply lockrun_cons in Hrun. destruct Hrun as (M5 & S5 & Hrun).
  apply lockrun_cons in Hrun. destruct Hrun as (M6 & S6 & S7).
  pose proof (lockrun_compute inb np _ _ _ S1) as P1.
  pose proof (lockrun_compute inb np _ _ _ S2) as P2.
  pose proof (lockrun_sendrecv inb np _ _ _ _ _ _ _ _ (fun p _ => nbr_lt p hi) S3) as P3.
  pose proof (lockrun_sendrecv inb np _ _ _ _ _ _ _ _ (fun p _ => nbr_lt p lo) S4) as P4.
  pose proof (lockrun_compute inb np _ _ _ S5) as P5.
  pose proof (lockrun_compute inb np _ _ _ S6) as P6.
  pose proof (lockrun_barrier inb np _ _ S7) as P7.
  clear S1 S2 S3 S4 S5 S6 S7.
  assert (Q1 : forall r, (r < np)%nat -> _) by (intros r Hr; exact (pack_exec two lay m a inb gw_pos Hnx Hny Hnz nbvar_pos not_send lo _ _ Hflo (P1 r Hr))).
  assert (Q2 : forall r, (r < np)%nat -> _) by (intros r Hr; exact (pack_exec two lay m a inb gw_pos Hnx Hny Hnz nbvar_pos not_send hi _ _ Hfhi (P2 r Hr))).
  clear P1 P2.
  assert (Hlohi : lo <> hi) by (unfold lo, hi; destruct ax; discriminate).
  assert (Hna : is_buf a = false).
  { destruct a; auto; exfalso; [eapply not_send|eapply not_recv]; reflexivity. }
  assert (F : forall r l, (r < np)%nat -> is_buf (la l) = true -> M' r l = M4 r l).
  { intros r l Hr Hb. rewrite P7 by auto.
    pose proof (side_exec r hi _ _ _ Hr Hfhi (fun c v _ _ => eq_refl) (P6 r Hr)) as [_ F6].
    pose proof (side_exec r lo _ _ _ Hr Hflo (fun c v _ _ => eq_refl) (P5 r Hr)) as [_ F5].
    rewrite F6, F5; [reflexivity| |]; intros (E & _); rewrite E in Hb; congruence. }
  assert (Fs : forall r f c v, (r < np)%nat -> M' r (at_ (A_BufSend f) c v) = M2 r (at_ (A_BufSend f) c v)).
  { intros r f c v Hr. rewrite F by (auto; rewrite la_at; reflexivity).
    rewrite P4 by auto. rewrite received_other by (rewrite la_at; discriminate).
    rewrite P3 by auto. rewrite received_other by (rewrite la_at; discriminate). reflexivity. }
  assert (Hcases : forall f, face_axis f = ax -> f = lo /\ opposite f = hi \/ f = hi /\ opposite f = lo).
  { intros f Hf. unfold lo, hi. destruct f, ax; try discriminate; auto. }
  split; [|split].
  - intros r f c v Hr Hf. rewrite F by (auto; rewrite la_at; reflexivity).
    destruct (Hcases f Hf) as [[-> ->]|[-> ->]]; rewrite Fs by apply nbr_lt.
    + rewrite P4 by auto. rewrite content_received. rewrite P3 by apply nbr_lt.
      apply received_other. rewrite la_at. discriminate.
    + rewrite P4 by auto. rewrite received_other by (rewrite la_at; congruence).
      rewrite P3 by auto. apply content_received.
  - intros r f c v Hr Hf Hc Hv. rewrite Fs by auto. destruct (Hcases f Hf) as [[-> _]|[-> _]].
    + rewrite (proj2 (Q2 r Hr)) by (rewrite la_at; congruence). apply (proj1 (Q1 r Hr)); auto.
    + rewrite (proj1 (Q2 r Hr)) by auto. apply (proj2 (Q1 r Hr)). rewrite la_at. apply not_send.
  - intros r f l Hr Hf Hl.
    assert (N1 : f <> lo) by (intros ->; apply Hf; apply lo_axis).
    assert (N2 : f <> hi) by (intros ->; apply Hf; apply hi_axis).
    rewrite F by (auto; destruct Hl as [-> | ->]; reflexivity).
    rewrite P4 by auto. rewrite received_other by (destruct Hl as [-> | ->]; congruence).
    rewrite P3 by auto. rewrite received_other by (destruct Hl as [-> | ->]; congruence).
    rewrite (proj2 (Q2 r Hr)) by (destruct Hl as [-> | ->]; congruence).
    apply (proj2 (Q1 r Hr)). destruct Hl as [-> | ->]; congruence.
Qed.

(** ** Comparison with the global mesh *)
Definition gmesh : mesh :=
  mkmesh (nx m * mx g) (ny m * my g) (nz m * mz g) (gw m) (nbvar m) (p_mhd m) (bc m).

(** Cell of the global array seen as cell [c] of process [r]. *)
Definition win (r : nat) (c : cell) : cell :=
  let '(i, j, k) := c in
  (pos r AX * nx m + i, pos r AY * ny m + j, if two then k else pos r AZ * nz m + k).

Definition field := cell -> Z -> T.

(** Effect on a global field of filling the ghosts of one axis. *)
Definition axis_fld (ax : axis) (F : field) : field := fun c v =>
  let lo := kind_of (bc m (lo_face ax)) in
  let hi := kind_of (bc m (hi_face ax)) in
  let n := ncells gmesh ax in
  flip_if (mirrored lo hi n (gw m) (coord ax c) && normal_var (p_mhd m) (lo_face ax) v)
    (F (setc ax c (image lo hi n (gw m) (coord ax c))) v).

(** Domains: along each axis either all cells of the local array or the physical ones. *)
Definition dom := axis -> bool.
Definition in_dom (D : dom) (c : cell) : Prop :=
  in_array two m c /\ forall ax, axis_face_ok ax -> D ax = false -> physical (N ax) (gw m) (coord ax c).
Definition widen (D : dom) (ax : axis) : dom := fun ax' =>
  match ax, ax' with AX, AX | AY, AY | AZ, AZ => true | _, _ => D ax' end.

Definition agree (D : dom) (M : nat -> store T) (F : field) : Prop :=
  forall r c v, (r < np)%nat -> in_dom D c -> 0 <= v < nbvar m -> M r (at_ a c v) = F (win r c) v.

Lemma win_coord r c ax : axis_face_ok ax -> coord ax (win r c) = pos r ax * N ax + coord ax c.
Proof. destruct c as [[i j] k], ax; simpl; auto. intros ->. reflexivity. Qed.

Lemma win_setc r c ax x : axis_face_ok ax ->
  win r (setc ax c x) = setc ax (win r c) (pos r ax * N ax + x).
Proof. destruct c as [[i j] k], ax; simpl; auto. intros ->. reflexivity. Qed.

Lemma gcells ax : ncells gmesh ax = N ax * mdim g ax.
Proof. destruct ax; reflexivity. Qed.

(** A neighbour sees the same global cell at the shifted local position. *)
Lemma win_nbr r f c x : (r < np)%nat -> face_ok two f ->
  win (nbr r f) (setc (face_axis f) c x) =
  setc (face_axis f) (win r c)
    (((pos r (face_axis f) + step_of f) mod mdim g (face_axis f)) * N (face_axis f) + x).
Proof.
  intros Hr Hf. rewrite <- (pos_nbr_same r f Hr).
  pose proof (pos_nbr_other r f) as Ho. unfold win. destruct c as [[i j] k].
  destruct f; simpl in *; rewrite ?Hf; repeat apply (f_equal2 pair); auto;
    destruct two; auto; rewrite Ho by (auto; discriminate); auto.
Qed.

Lemma dom_setc D ax c x : in_dom (widen D ax) c -> axis_face_ok ax -> 0 <= x < N ax + 2 * gw m ->
  physical (N ax) (gw m) x -> in_dom D (setc ax c x).
Proof.
  intros [Ha Hd] Hax Hx Hp. split.
  - destruct c as [[i j] k], ax; simpl in *; umesh; try rewrite Hax in *; lia.
  - intros ax' Hax' HD. destruct c as [[i j] k].
    pose proof (Hd ax' Hax') as Hd'. destruct ax, ax'; simpl in *; auto.
Qed.

Lemma axis_agree ax D M M' F tag : axis_face_ok ax ->
  agree D M F ->
  lockrun inb np (fun r => dir_prog r (lo_face ax) (hi_face ax) tag) 7 M M' ->
  agree (widen D ax) M' (axis_fld ax F).
Proof.
  intros Hax Hag Hrun r c v Hr Hc Hv.
  rewrite (proj1 (dir_values ax M M' tag Hax Hrun r Hr)) by (auto; apply Hc).
  unfold dir_val, axis_fld. rewrite win_coord by auto. rewrite gcells.
  pose proof (nax_gw ax Hax) as Hn. pose proof (pos_range r ax Hr) as Hp.
  set (P := pos r ax) in *. set (n := N ax) in *. set (mm := mdim g ax) in *. set (G := gw m) in *.
  assert (Hcc : 0 <= coord ax c < n + 2 * G).
  { destruct c as [[i j] k], Hc as [Hc _]. unfold n, G. destruct ax; simpl in *; umesh; try (rewrite Hax in *); lia. }
  assert (Hnx : 1 <= nx m) by lia. assert (Hny : 1 <= ny m) by lia.
  assert (Hnz : two = false -> 1 <= nz m) by (intros E; specialize (nz_gw E); lia).
  assert (Hflo : face_ok two (lo_face ax)) by (destruct ax; auto).
  assert (Hfhi : face_ok two (hi_face ax)) by (destruct ax; auto).
  assert (Env : forall v, normal_var (p_mhd m) (hi_face ax) v = normal_var (p_mhd m) (lo_face ax) v)
    by (destruct ax; auto).
  destruct (coord ax c <? G) eqn:L1; [|destruct (n + G <=? coord ax c) eqn:L2].
  - (* low side *)
    unfold side_val. rewrite lo_is_lo, lo_axis.
    destruct (exchanged r (lo_face ax)) eqn:Ex.
    + assert (Hd : in_dom D (setc ax c (n + coord ax c))).
      { apply dom_setc; auto; fold n; fold G; [lia|]. unfold physical. lia. }
      unfold move. rewrite lo_axis. fold n.
      rewrite Hag by (auto; apply nbr_lt).
      pose proof (win_nbr r (lo_face ax) c (n + coord ax c) Hr Hflo) as W.
      unfold step_of in W. rewrite lo_is_lo, lo_axis in W. fold P mm n in W. rewrite W. clear W.
      destruct (Z.eq_dec P 0) as [E0|E0].
      * (* wraps around *)
        apply exchanged_spec in Ex; auto. destruct Ex as [Ex|Ex].
        { exfalso. apply Ex. unfold at_border. rewrite lo_is_lo, lo_axis. exact E0. }
        assert (Eg : (P * n + coord ax c <? G) = true) by (rewrite E0; lia).
        unfold image, mirrored. rewrite Eg, Ex. simpl. f_equal.
        f_equal. rewrite E0. replace ((0 + -1) mod mm) with (mm - 1); [nia|].
        apply Z.mod_unique with (-1); lia.
      * assert (Eg : (P * n + coord ax c <? G) = false) by nia.
        assert (Eh : (n * mm + G <=? P * n + coord ax c) = false) by nia.
        unfold image, mirrored. rewrite Eg, Eh. simpl. f_equal.
        f_equal. rewrite Z.mod_small by lia. lia.
    + assert (Hb : pos r ax = 0 /\ kind_of (bc m (lo_face ax)) <> Periodic).
      { split.
        - destruct (Z.eq_dec (pos r ax) 0); auto. exfalso.
          rewrite (proj2 (exchanged_spec r _ Hflo)) in Ex; [discriminate|].
          left. unfold at_border. rewrite lo_is_lo, lo_axis. auto.
        - intros E. rewrite (proj2 (exchanged_spec r _ Hflo)) in Ex; [discriminate|]. auto. }
      destruct Hb as [E0 Ek]. fold P in E0.
      assert (Eg : (P * n + coord ax c <? G) = true) by (rewrite E0; lia).
      rewrite sign_mul by exact HO. unfold fkind.
      unfold image, mirrored. rewrite Eg. unfold fimg. rewrite lo_axis, lo_is_lo.
      unfold src_lo, BC_DIRICHLET, BC_NEUMANN. fold n G.
      unfold kind_of in *. destruct (bc m (lo_face ax) =? 1) eqn:E1; [|destruct (bc m (lo_face ax) =? 2) eqn:E2].
      * rewrite Hag; auto.
        -- rewrite win_setc by auto. f_equal. fold P n. f_equal. f_equal. lia.
        -- apply dom_setc; auto; fold n; fold G; [lia|]. unfold physical. lia.
      * rewrite Hag; auto.
        -- rewrite win_setc by auto. f_equal. fold P n. f_equal. f_equal. lia.
        -- apply dom_setc; auto; fold n; fold G; [lia|]. unfold physical. lia.
      * congruence.
  - (* high side *)
    unfold side_val. rewrite hi_is_hi, hi_axis.
    destruct (exchanged r (hi_face ax)) eqn:Ex.
    + assert (Hd : in_dom D (setc ax c (- n + coord ax c))).
      { apply dom_setc; auto; fold n; fold G; [lia|]. unfold physical. lia. }
      unfold move. rewrite hi_axis. fold n.
      rewrite Hag by (auto; apply nbr_lt).
      pose proof (win_nbr r (hi_face ax) c (- n + coord ax c) Hr Hfhi) as W.
      unfold step_of in W. rewrite hi_is_hi, hi_axis in W. fold P mm n in W. rewrite W. clear W.
      assert (Eg : (P * n + coord ax c <? G) = false) by nia.
      destruct (Z.eq_dec P (mm - 1)) as [E0|E0].
      * apply exchanged_spec in Ex; auto. destruct Ex as [Ex|Ex].
        { exfalso. apply Ex. unfold at_border. rewrite hi_is_hi, hi_axis. exact E0. }
        assert (Eh : (n * mm + G <=? P * n + coord ax c) = true) by (rewrite E0; nia).
        unfold image, mirrored. rewrite Eg, Eh, Ex. simpl. f_equal.
        f_equal. rewrite E0. replace ((mm - 1 + 1) mod mm) with 0; [nia|].
        replace (mm - 1 + 1) with mm by lia. rewrite Z.mod_same by lia. reflexivity.
      * assert (Eh : (n * mm + G <=? P * n + coord ax c) = false) by nia.
        unfold image, mirrored. rewrite Eg, Eh. simpl. f_equal.
        f_equal. rewrite Z.mod_small by lia. lia.
    + assert (Hb : pos r ax = mm - 1 /\ kind_of (bc m (hi_face ax)) <> Periodic).
      { split.
        - destruct (Z.eq_dec (pos r ax) (mm - 1)); auto. exfalso.
          rewrite (proj2 (exchanged_spec r _ Hfhi)) in Ex; [discriminate|].
          left. unfold at_border. rewrite hi_is_hi, hi_axis. auto.
        - intros E. rewrite (proj2 (exchanged_spec r _ Hfhi)) in Ex; [discriminate|]. auto. }
      destruct Hb as [E0 Ek]. fold P in E0.
      assert (Eg : (P * n + coord ax c <? G) = false) by nia.
      assert (Eh : (n * mm + G <=? P * n + coord ax c) = true) by (rewrite E0; nia).
      rewrite sign_mul by exact HO. rewrite Env. unfold fkind.
      unfold image, mirrored. rewrite Eg, Eh. unfold fimg. rewrite hi_axis, hi_is_hi.
      unfold src_hi, BC_DIRICHLET, BC_NEUMANN. fold n G.
      unfold kind_of in *. destruct (bc m (hi_face ax) =? 1) eqn:E1; [|destruct (bc m (hi_face ax) =? 2) eqn:E2].
      * rewrite Hag; auto.
        -- rewrite win_setc by auto. f_equal. fold P n. f_equal. f_equal. rewrite E0. nia.
        -- apply dom_setc; auto; fold n; fold G; [lia|]. unfold physical. lia.
      * rewrite Hag; auto.
        -- rewrite win_setc by auto. f_equal. fold P n. f_equal. f_equal. rewrite E0. nia.
        -- apply dom_setc; auto; fold n; fold G; [lia|]. unfold physical. lia.
      * congruence.
  - (* physical cells of the process *)
    assert (Hd : in_dom D c).
    { rewrite <- (setc_coord ax c). apply dom_setc; auto. unfold physical. fold n G. lia. }
    rewrite Hag by auto.
    assert (Eg : (P * n + coord ax c <? G) = false) by nia.
    assert (Eh : (n * mm + G <=? P * n + coord ax c) = false) by nia.
    unfold image, mirrored. rewrite Eg, Eh. simpl. f_equal.
    unfold P, n. rewrite <- win_coord by auto. rewrite setc_coord. reflexivity.
Qed.

(** ** The whole distributed ghost filling *)
Definition fill_prog (r : nat) : list (action T) :=
  if two then make_boundaries_mpi2 lay m g a r else make_boundaries_mpi3 lay m g a r.
Definition fill_len : nat := if two then 14 else 21.

Definition filled_fld (F : field) : field :=
  if two then axis_fld AY (axis_fld AX F) else axis_fld AZ (axis_fld AY (axis_fld AX F)).

Lemma two_cases : two = true \/ two = false.
Proof. clear. destruct two; auto. Qed.

Lemma dir_len r lo hi tag : length (dir_prog r lo hi tag) = 7%nat.
Proof. clear. rewrite dir_prog_eq. reflexivity. Qed.

Lemma fill_prog_len r : length (fill_prog r) = fill_len.
Proof.
  clear.
  unfold fill_prog, fill_len, make_boundaries_mpi2, make_boundaries_mpi3.
  destruct two; rewrite !app_length; reflexivity.
Qed.

Lemma dir_matched ax tag k : (k < 7)%nat ->
  matched np (fun r => dir_prog r (lo_face ax) (hi_face ax) tag) k.
Proof.
  clear - gok.
  intros Hk. unfold matched.
  assert (Hs1 : forall p, (p < np)%nat -> nbr (nbr p (hi_face ax)) (lo_face ax) = p).
  { intros p Hp. replace (lo_face ax) with (opposite (hi_face ax)) by (destruct ax; auto). apply nbr_sym; auto. }
  assert (Hs2 : forall p, (p < np)%nat -> nbr (nbr p (lo_face ax)) (hi_face ax) = p).
  { intros p Hp. replace (hi_face ax) with (opposite (lo_face ax)) by (destruct ax; auto). apply nbr_sym; auto. }
  destruct k as [|[|[|[|[|[|[|k]]]]]]]; try lia.
  - left. intros p Hp. rewrite dir_prog_eq. eexists. reflexivity.
  - left. intros p Hp. rewrite dir_prog_eq. eexists. reflexivity.
  - right. right. intros p Hp. rewrite dir_prog_eq. do 6 eexists. split; [reflexivity|].
    split; [apply nbr_lt|]. split; [apply nbr_lt|]. rewrite !dir_prog_eq. cbn [nth_error].
    split; do 4 eexists; [rewrite Hs1 by auto|rewrite Hs2 by auto]; reflexivity.
  - right. right. intros p Hp. rewrite dir_prog_eq. do 6 eexists. split; [reflexivity|].
    split; [apply nbr_lt|]. split; [apply nbr_lt|]. rewrite !dir_prog_eq. cbn [nth_error].
    split; do 4 eexists; [rewrite Hs2 by auto|rewrite Hs1 by auto]; reflexivity.
  - left. intros p Hp. rewrite dir_prog_eq. eexists. reflexivity.
  - left. intros p Hp. rewrite dir_prog_eq. eexists. reflexivity.
  - right. left. intros p Hp. rewrite dir_prog_eq. reflexivity.
Qed.

Lemma fill_prog_eq r : fill_prog r =
  dir_prog r XMIN XMAX 111 ++ dir_prog r YMIN YMAX 211 ++ (if two then [] else dir_prog r ZMIN ZMAX 311).
Proof.
  clear.
  unfold fill_prog, make_boundaries_mpi2, make_boundaries_mpi3, dir_prog.
  destruct two; [rewrite app_nil_r|]; reflexivity.
Qed.

Lemma fill_matched k : (k < fill_len)%nat -> matched np fill_prog k.
Proof.
  clear - gok.
  intros Hk. apply (matched_ext np (fun r => dir_prog r XMIN XMAX 111 ++ dir_prog r YMIN YMAX 211 ++
    (if two then [] else dir_prog r ZMIN ZMAX 311))); [intros; symmetry; apply fill_prog_eq|].
  apply (matched_app np _ _ 7 (7 + (if two then 0 else 7))); [intros; apply dir_len|apply (dir_matched AX)| |].
  - apply (matched_app np _ _ 7 (if two then 0 else 7)); [intros; apply dir_len|apply (dir_matched AY)|].
    intros k' Hk'. destruct two_cases as [E|E]; rewrite E in Hk'; [lia|].
    apply (matched_ext np (fun r => dir_prog r ZMIN ZMAX 311)); [intros; rewrite E; auto|].
    apply (dir_matched AZ); auto.
  - unfold fill_len in Hk. destruct two_cases as [E|E]; rewrite E in *; lia.
Qed.

Definition D0 : dom := fun _ => false.

Theorem fill_agree M M' F : agree D0 M F -> lockrun inb np fill_prog fill_len M M' ->
  (forall r c v, (r < np)%nat -> in_array two m c -> 0 <= v < nbvar m ->
     M' r (at_ a c v) = filled_fld F (win r c) v) /\
  (forall r l, (r < np)%nat -> ~ (la l = a /\ in_array two m (cell_of l) /\ 0 <= lv l < nbvar m) ->
     is_buf (la l) = false -> M' r l = M r l).
Proof.
  intros Hag Hrun. apply (lockrun_ext _ _ _ _ _ _ _ fill_prog_eq) in Hrun.
  replace fill_len with (7 + (7 + (if two then 0 else 7)))%nat in Hrun by (unfold fill_len; destruct two; auto).
  apply lockrun_app in Hrun; [|intros; apply dir_len]. destruct Hrun as (M1 & R1 & Hrun).
  apply lockrun_app in Hrun; [|intros; apply dir_len]. destruct Hrun as (M2 & R2 & R3).
  pose proof (axis_agree AX D0 M M1 F 111 I Hag R1) as A1.
  pose proof (axis_agree AY _ M1 M2 _ 211 I A1 R2) as A2.
  assert (A3 : agree (if two then widen (widen D0 AX) AY else widen (widen (widen D0 AX) AY) AZ) M' (filled_fld F) /\
    forall r l, (r < np)%nat -> ~ (la l = a /\ in_array two m (cell_of l) /\ 0 <= lv l < nbvar m) ->
     is_buf (la l) = false -> M' r l = M2 r l).
  { unfold filled_fld. destruct two_cases as [E2|E2].
    - rewrite E2 in R3. pose proof (lockrun_nil inb np _ _ _ R3) as E. rewrite E2. split.
      + intros r c v Hr Hc Hv. rewrite E by auto. apply A2; auto.
      + intros. rewrite E; auto.
    - rewrite E2 in R3. rewrite E2. split.
      + apply (axis_agree AZ _ M2 M' _ 311); auto.
      + intros r l Hr Hl. apply (proj2 (dir_values AZ M2 M' 311 E2 R3 r Hr)). rewrite E2. auto. }
  destruct A3 as [A3 B3]. split.
  - intros r c v Hr Hc Hv. apply A3; auto. split; auto. intros ax Hax HD. exfalso.
    destruct two_cases as [E|E]; rewrite E in HD; destruct ax; simpl in Hax, HD; congruence.
  - intros r l Hr Hl Hb. rewrite B3 by auto.
    rewrite (proj2 (dir_values AY M1 M2 211 I R2 r Hr)) by auto.
    apply (proj2 (dir_values AX M M1 111 I R1 r Hr)); auto.
Qed.

(** At the end of the exchange every receive buffer holds what the neighbour on
    that side packed. *)
Theorem fill_buffers M M' : lockrun inb np fill_prog fill_len M M' ->
  forall r f c v, (r < np)%nat -> face_ok two f ->
  M' r (at_ (A_BufRecv f) c v) = M' (nbr r f) (at_ (A_BufSend (opposite f)) c v).
Proof.
  clear codes. intros Hrun.
  apply (lockrun_ext inb np _ (fun r => dir_prog r XMIN XMAX 111 ++ dir_prog r YMIN YMAX 211 ++
    (if two then [] else dir_prog r ZMIN ZMAX 311))) in Hrun; [|intros; apply fill_prog_eq].
  assert (El : fill_len = (7 + (7 + (if two then 0 else 7)))%nat).
  { clear. unfold fill_len. destruct two; reflexivity. }
  rewrite El in Hrun. clear El.
  apply lockrun_app in Hrun; [|intros; apply dir_len]. destruct Hrun as (M1 & R1 & Hrun).
  apply lockrun_app in Hrun; [|intros; apply dir_len]. destruct Hrun as (M2 & R2 & R3).
  destruct (dir_buffers AX M M1 111 I R1) as (A1 & _ & _).
  destruct (dir_buffers AY M1 M2 211 I R2) as (A2 & _ & K2).
  assert (H3 : (forall r f l, (r < np)%nat -> face_axis f <> AZ -> la l = A_BufSend f \/ la l = A_BufRecv f ->
     M' r l = M2 r l) /\
     (two = false -> forall r f c v, (r < np)%nat -> face_axis f = AZ ->
        M' r (at_ (A_BufRecv f) c v) = M' (nbr r f) (at_ (A_BufSend (opposite f)) c v))).
  { destruct two_cases as [E|E]; rewrite E in R3.
    - split; [|congruence]. intros. rewrite (lockrun_nil inb np _ _ _ R3); auto.
    - assert (Hz : axis_face_ok AZ) by exact E.
      apply (lockrun_ext inb np _ (fun r => dir_prog r (lo_face AZ) (hi_face AZ) 311)) in R3; [|intros; rewrite ?E; auto].
      destruct (dir_buffers AZ M2 M' 311 Hz R3) as (A3 & _ & K3). split; [exact K3|auto]. }
  destruct H3 as [K3 A3].
  assert (Eo : forall f, face_axis (opposite f) = face_axis f) by (intros []; reflexivity).
  intros r f c v Hr Hf. pose proof (nbr_lt r f) as Hn.
  destruct (face_axis f) eqn:Ef.
  - rewrite (K3 r f), (K2 r f) by (auto; rewrite ?la_at; try congruence; auto).
    rewrite (K3 _ (opposite f)), (K2 _ (opposite f)) by (auto; rewrite ?la_at, ?Eo; try congruence; auto).
    apply A1; auto.
  - rewrite (K3 r f) by (auto; rewrite ?la_at; try congruence; auto).
    rewrite (K3 _ (opposite f)) by (auto; rewrite ?la_at, ?Eo; try congruence; auto).
    apply A2; auto.
  - apply A3; auto. destruct f; try discriminate; exact Hf.
Qed.

(** All kernels of the filling stay inside the arrays. *)
Hypothesis inb_a : forall c v, in_array two m c -> 0 <= v < nbvar m -> inb (at_ a c v) = true.
Hypothesis inb_buf : forall f c v, face_ok two f -> bbox two m f c -> 0 <= v < nbvar m ->
  inb (at_ (A_BufSend f) c v) = true /\ inb (at_ (A_BufRecv f) c v) = true.

Lemma dir_in_foot r ax tag K : axis_face_ok ax ->
  In (Compute K) (dir_prog r (lo_face ax) (hi_face ax) tag) -> Forall (in_foot inb) K.
Proof.
  clear codes. intros Hax.
  assert (Hflo : face_ok two (lo_face ax)) by (destruct ax; auto).
  assert (Hfhi : face_ok two (hi_face ax)) by (destruct ax; auto).
  assert (Hnx : 1 <= nx m) by lia. assert (Hny : 1 <= ny m) by lia.
  assert (Hnz : two = false -> 1 <= nz m) by (intros E; specialize (nz_gw E); lia).
  assert (Hside : forall f, face_ok two f -> Forall (in_foot inb) (fill_side r f)).
  { intros f Hf. rewrite fill_side_eq. destruct (exchanged r f).
    - apply unpack_in_foot; auto. intros. apply inb_buf; auto.
    - apply face_in_foot; auto. apply enough_face; auto. }
  assert (Hpack : forall f, face_ok two f -> Forall (in_foot inb) (pack two lay m a f : list (prog T))).
  { intros f Hf. apply pack_in_foot; auto. intros. apply inb_buf; auto. }
  rewrite dir_prog_eq. simpl.
  intros [E|[E|[E|[E|[E|[E|[E|[]]]]]]]]; try discriminate; injection E as <-; auto.
Qed.

Lemma fill_in_foot r K : In (Compute K) (fill_prog r) -> Forall (in_foot inb) K.
Proof.
  clear codes. rewrite fill_prog_eq. intros Hin. apply in_app_or in Hin. destruct Hin as [Hin|Hin].
  { apply (dir_in_foot r AX 111); auto. exact I. }
  apply in_app_or in Hin. destruct Hin as [Hin|Hin].
  { apply (dir_in_foot r AY 211); auto. exact I. }
  destruct two_cases as [E|E]; rewrite E in Hin; [destruct Hin|]. apply (dir_in_foot r AZ 311); auto.
Qed.

End Dist.

(** ** Reading the result as the ghost-filled global array *)
Lemma filled_fld_2 {T} `{Num T} m g a (s : store T) i j v :
  filled_fld true m g (fun c v => s (at_ a c v)) (i, j, 0) v = filled2 (gmesh m g) a s i j v.
Proof. reflexivity. Qed.

Lemma filled_fld_3 {T} `{Num T} m g a (s : store T) i j k v :
  filled_fld false m g (fun c v => s (at_ a c v)) (i, j, k) v = filled3 (gmesh m g) a s i j k v.
Proof. reflexivity. Qed.
