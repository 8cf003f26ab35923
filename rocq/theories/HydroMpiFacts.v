(** * Distributed hydro runs follow the serial run of the whole mesh *)
From Coq Require Import ZArith List Bool Lia ZifyBool Arith Reals Lra.
Import ListNotations.
From Verif Require Import Num Exec ExecFacts Grid GridFacts Boundaries BoundariesSpec
  BoundariesFacts BoundariesFill BoundariesNarrow HydroNum Kernels KernelFacts Atomics
  Hydro2D Hydro2DSpec Hydro2DFacts Hydro2DStep Determ Hydro2DRun EulerSpec HydroPhysics
  HydroRiemann Sums Hydro2DLaws Hydro3D Hydro3DSpec Hydro3DFacts Hydro3DStep Hydro3DRun Hydro3DLaws
  TimeStep TimeStepFacts Driver DriverFacts HydroMachine
  MpiRun MpiFacts Halo HaloFacts HaloFill HydroMpi.
Local Open Scope Z_scope.

(** ** The exchange followed by local kernels *)
Section Fill.
Context {T : Type} {NT : Num T} {NO : NumOne T}.
Variable two : bool.
Variable lay : layout.
Variable m : mesh.
Variable g : pgrid.
Variable a : arr.
Variable inb : extents.
Hypothesis gok : pgrid_ok g.
Hypothesis flat : two = true -> mz g = 1.
Hypothesis gw_pos : 0 < gw m.
Hypothesis nx_gw : gw m <= nx m.
Hypothesis ny_gw : gw m <= ny m.
Hypothesis nz_gw : two = false -> gw m <= nz m.
Hypothesis nbvar_pos : 0 <= nbvar m.
Hypothesis codes : forall f, face_ok two f -> 1 <= bc m f <= 4.
Hypothesis not_send : forall f, a <> A_BufSend f.
Hypothesis not_recv : forall f, a <> A_BufRecv f.

Definition exch_prog (Ks : list (list (prog T))) (r : nat) : list (action T) :=
  fill_prog two lay m g a r ++ map Compute Ks.

Lemma exch_len Ks r : length (exch_prog Ks r) = (fill_len two + length Ks)%nat.
Proof. unfold exch_prog. rewrite app_length, fill_prog_len, map_length. reflexivity. Qed.

Lemma exch_matched Ks k : (k < fill_len two + length Ks)%nat -> matched (np g) (exch_prog Ks) k.
Proof.
  apply matched_app; [intros; apply fill_prog_len|intros; apply fill_matched; auto|].
  intros. apply matched_computes. auto.
Qed.

Lemma spmd_fill Ks M M' F : agree two m g a D0 M F -> spmd g inb (exch_prog Ks) M M' ->
  exists M1,
  (forall r c v, (r < np g)%nat -> BoundariesFacts.in_array two m c -> 0 <= v < nbvar m ->
     M1 r (at_ a c v) = filled_fld two m g F (win two m g r c) v) /\
  (forall r l, (r < np g)%nat -> ~ (la l = a /\ BoundariesFacts.in_array two m (cell_of l) /\ 0 <= lv l < nbvar m) ->
     is_buf (la l) = false -> M1 r l = M r l) /\
  forall r, (r < np g)%nat -> execs inb (M1 r) Ks (M' r).
Proof.
  intros HF (eager & c & w & Hs & Hf & ->).
  pose proof (async_lockrun inb (np g) (exch_prog Ks) (fill_len two + length Ks) (fun p _ => exch_len Ks p)
    (exch_matched Ks) eager c M w Hs Hf) as HL.
  unfold exch_prog in HL. apply lockrun_app in HL; [|intros; apply fill_prog_len].
  destruct HL as (M1 & H1 & H2). exists M1.
  destruct (fill_agree two lay m g a inb gok flat gw_pos nx_gw ny_gw nz_gw nbvar_pos codes not_send not_recv M M1 F HF H1)
    as [A B].
  split; [exact A|]. split; [exact B|].
  apply (lockrun_computes inb (np g) (length Ks) (fun _ => Ks) M1 (mem w)); auto.
Qed.
End Fill.

Lemma execs_one {T} inb (s : store T) K s' : execs inb s [K] s' -> exec inb s K s'.
Proof. intros HX. inversion HX as [|? ? ? ? ? X Y]; subst. inversion Y; subst. exact X. Qed.

Lemma gmesh_wide m gp : pgrid_ok gp -> 0 < gw m -> 0 <= nbvar m -> gw m <= nx m -> gw m <= ny m ->
  wide2 (gmesh m gp).
Proof.
  intros (Hx & Hy & Hz) Hg Hn H1 H2. unfold wide2, enough, gmesh; simpl.
  assert (gw m <= nx m * mx gp) by nia. assert (gw m <= ny m * my gp) by nia.
  repeat split; auto; try lia; right; lia.
Qed.

(** ** 2D *)
Section Dist2.
Context {T : Type} {NT : Num T} {NO : NumOne T}.
Variable lay : layout.
Variable m : mesh.
Variable gp : pgrid.
Variable S : hset T.
Variable g : gravp.
Variable inb : extents.
Variable iv : impl.

Definition splits2 : Prop :=
  pgrid_ok gp /\ mz gp = 1 /\ 2 <= gw m /\ gw m <= nx m /\ gw m <= ny m /\ nbvar m = 4 /\
  forall f, face_ok true f -> 1 <= bc m f <= 4.

(** First cell of the block of process [r] in the global mesh, minus the ghosts. *)
Definition org (ax : axis) (r : nat) : Z :=
  match ax with AX => pos gp r AX * nx m | AY => pos gp r AY * ny m | AZ => pos gp r AZ * nz m end.

(** Every process holds its block of [s]. *)
Definition blocks2 (a : arr) (M : nat -> store T) (s : store T) : Prop :=
  (forall r i j v, (r < np gp)%nat -> phys2 m i j -> 0 <= v < 4 ->
     M r (L2 a i j v) = s (L2 a (org AX r + i) (org AY r + j) v)) /\
  (forall r i j v, (r < np gp)%nat -> cell2 m i j ->
     M r (L2 A_G i j v) = s (L2 A_G (org AX r + i) (org AY r + j) v)).

(** What the kernels after the ghost filling compute. *)
Definition body_ok2 : Prop := forall dt ain aout U s s',
  (ain = A_U /\ aout = A_U2 \/ ain = A_U2 /\ aout = A_U) ->
  (forall i j v, cell2 m i j -> 0 <= v < 4 -> s (L2 ain i j v) = U i j v) ->
  execs inb s (godunov2_body m S g dt iv ain aout) s' ->
  (forall i j v, phys2 m i j -> 0 <= v < 4 -> s' (L2 aout i j v) = step2 S g dt U (field_of A_G s) i j v) /\
  (forall i j v, s' (L2 A_G i j v) = s (L2 A_G i j v)).

Hypothesis Hsplit : splits2.

Lemma phys2_dom c : in_dom true m D0 c -> exists i j, c = (i, j, 0) /\ phys2 m i j.
Proof.
  destruct c as [[i j] k]. intros [(H1 & H2 & ->) Hd]. exists i, j. split; auto.
  split; [apply (Hd AX); simpl; auto|apply (Hd AY); simpl; auto].
Qed.

Lemma dist_step2 n dt M M' s :
  body_ok2 -> blocks2 (cur n) M s ->
  spmd gp inb (godunov2_mpi lay m gp S g iv dt (cur n) (nxt n)) M M' ->
  (forall r i j v, (r < np gp)%nat -> phys2 m i j -> 0 <= v < 4 ->
     M' r (L2 (nxt n) i j v) =
     step2 S g dt (extend (gmesh m gp) (field_of (cur n) s)) (field_of A_G s) (org AX r + i) (org AY r + j) v) /\
  (forall r i j v, (r < np gp)%nat -> M' r (L2 A_G i j v) = M r (L2 A_G i j v)).
Proof.
  destruct Hsplit as (gok & Hflat & Hgw & Hnx & Hny & Hnv & Hbc).
  intros Hbody [HU HG] Hrun.
  assert (Hbuf : (cur n = A_U /\ nxt n = A_U2 \/ cur n = A_U2 /\ nxt n = A_U)) by apply cur_nxt.
  destruct (spmd_fill true lay m gp (cur n) inb gok (fun _ => Hflat) ltac:(lia) Hnx Hny ltac:(discriminate)
    ltac:(lia) Hbc ltac:(intros f; destruct Hbuf as [[-> _]|[-> _]]; discriminate)
    ltac:(intros f; destruct Hbuf as [[-> _]|[-> _]]; discriminate)
    (godunov2_body m S g dt iv (cur n) (nxt n)) M M' (fun c v => s (at_ (cur n) c v))) as (M1 & A & B & C).
  { intros r c v Hr Hc Hv. destruct (phys2_dom c Hc) as (i & j & -> & Hp). apply HU; auto. lia. }
  { exact Hrun. }
  assert (BG : forall r i j v, (r < np gp)%nat -> M1 r (L2 A_G i j v) = M r (L2 A_G i j v)).
  { intros r i j v Hr. apply B; auto. simpl. destruct Hbuf as [[-> _]|[-> _]]; intros [? _]; discriminate. }
  assert (BU : forall r i j v, (r < np gp)%nat -> cell2 m i j -> 0 <= v < 4 ->
    M1 r (L2 (cur n) i j v) = extend (gmesh m gp) (field_of (cur n) s) (i + org AX r) (j + org AY r) v).
  { intros r i j v Hr Hc Hv. rewrite (Z.add_comm i), (Z.add_comm j).
    apply (A r (i, j, 0) v Hr); [|lia]. unfold cell2 in Hc. simpl. unfold isize, jsize. lia. }
  split.
  - intros r i j v Hr Hp Hv.
    destruct (Hbody dt (cur n) (nxt n) (fun i j => extend (gmesh m gp) (field_of (cur n) s) (i + org AX r) (j + org AY r))
      (M1 r) (M' r) Hbuf (fun i j v => BU r i j v Hr) (C r Hr)) as [D _].
    rewrite D by auto. rewrite (Z.add_comm _ i), (Z.add_comm _ j), <- step2_shift.
    apply step2_stencil; auto. intros i' j' v' Hi Hj. unfold field_of. rewrite BG by auto.
    rewrite HG by (auto; unfold cell2; unfold phys2, physical in Hp; lia).
    rewrite (Z.add_comm _ i'), (Z.add_comm _ j'). reflexivity.
  - intros r i j v Hr.
    destruct (Hbody dt (cur n) (nxt n) (fun i j => extend (gmesh m gp) (field_of (cur n) s) (i + org AX r) (j + org AY r))
      (M1 r) (M' r) Hbuf (fun i j v => BU r i j v Hr) (C r Hr)) as [_ D].
    rewrite D. auto.
Qed.

Lemma org_phys2 r i j : (r < np gp)%nat -> phys2 m i j -> phys2 (gmesh m gp) (org AX r + i) (org AY r + j).
Proof.
  destruct Hsplit as (gok & Hflat & Hgw & Hnx & Hny & Hnv & Hbc). intros Hr [H1 H2].
  pose proof (pos_range gp gok r AX Hr) as PX. pose proof (pos_range gp gok r AY Hr) as PY. simpl in PX, PY.
  unfold phys2, physical, gmesh, org in *; simpl. nia.
Qed.

(** Every global cell belongs to a process. *)
Lemma owner2 I J : phys2 (gmesh m gp) I J ->
  exists r i j, (r < np gp)%nat /\ phys2 m i j /\ org AX r + i = I /\ org AY r + j = J.
Proof.
  destruct Hsplit as (gok & Hflat & Hgw & Hnx & Hny & Hnv & Hbc). intros [H1 H2].
  unfold physical, gmesh in H1, H2; simpl in H1, H2.
  set (x := (I - gw m) / nx m). set (y := (J - gw m) / ny m).
  assert (Hx : 0 <= x < mx gp).
  { unfold x. split; [apply Z.div_pos; lia|apply Z.div_lt_upper_bound; lia]. }
  assert (Hy : 0 <= y < my gp).
  { unfold y. split; [apply Z.div_pos; lia|apply Z.div_lt_upper_bound; lia]. }
  pose proof (rank_range gp gok (x, y, 0)) as RR.
  pose proof (coords_rank gp gok (x, y, 0)) as RC. unfold wrap in RC.
  rewrite (Z.mod_small x), (Z.mod_small y), (Z.mod_small 0) in RC by lia.
  set (r := Z.to_nat (cart_rank gp (x, y, 0))).
  assert (Er : Z.of_nat r = cart_rank gp (x, y, 0)) by (unfold r; lia).
  assert (Ex : org AX r = x * nx m) by (unfold org, pos; rewrite Er, RC; reflexivity).
  assert (Ey : org AY r = y * ny m) by (unfold org, pos; rewrite Er, RC; reflexivity).
  exists r, (I - x * nx m), (J - y * ny m).
  pose proof (Z.div_mod (I - gw m) (nx m) ltac:(lia)) as DX. pose proof (Z.mod_pos_bound (I - gw m) (nx m) ltac:(lia)).
  pose proof (Z.div_mod (J - gw m) (ny m) ltac:(lia)) as DY. pose proof (Z.mod_pos_bound (J - gw m) (ny m) ltac:(lia)).
  fold x in DX. fold y in DY.
  split; [unfold np, r; lia|]. split; [unfold phys2, physical; nia|]. rewrite Ex, Ey. lia.
Qed.

(** After a step of both programs the processes hold the blocks of the serial state. *)
Lemma dist_blocks2 inb' iv' n dt M M' s s' :
  body_ok2 -> refines2 (gmesh m gp) S g inb' iv' ->
  blocks2 (cur n) M s ->
  spmd gp inb (godunov2_mpi lay m gp S g iv dt (cur n) (nxt n)) M M' ->
  execs inb' s (godunov2 (gmesh m gp) S g dt iv' (cur n) (nxt n)) s' ->
  blocks2 (nxt n) M' s'.
Proof.
  intros Hbody Href HB Hrun Hex. destruct (dist_step2 n dt M M' s Hbody HB Hrun) as [A B].
  destruct (Href dt n s s' Hex) as [C D]. destruct HB as [HU HG]. split.
  - intros r i j v Hr Hp Hv. rewrite A by auto. symmetry. apply (C (org AX r + i) (org AY r + j) v); auto.
    apply org_phys2; auto.
  - intros r i j v Hr Hc. rewrite B, D by auto. auto.
Qed.

Lemma built_blocks2 inb' M M' s s' :
  (forall r i j v, (r < np gp)%nat -> phys2 m i j -> 0 <= v < 4 ->
     M r (L2 A_U i j v) = s (L2 A_U (org AX r + i) (org AY r + j) v)) ->
  (forall r i j v, (r < np gp)%nat -> cell2 m i j ->
     M r (L2 A_G i j v) = s (L2 A_G (org AX r + i) (org AY r + j) v)) ->
  built2_mpi lay m gp inb M M' -> built2 (gmesh m gp) inb' s s' -> blocks2 A_U M' s'.
Proof.
  destruct Hsplit as (gok & Hflat & Hgw & Hnx & Hny & Hnv & Hbc). intros HU HG HM HB.
  apply execs_app in HB. destruct HB as (s1 & H1 & H2).
  assert (Hw : wide2 (gmesh m gp)) by (apply gmesh_wide; auto; lia).
  destruct (fill2d_spec (gmesh m gp) A_U inb' s s1 Hw H1) as (SA & SB & SC).
  apply execs_one in H2.
  destruct (deep_copy_spec (gmesh m gp) inb' A_U2 A_U _ _ ltac:(discriminate) ltac:(simpl; lia) H2) as (D & E).
  destruct (spmd_fill true lay m gp A_U inb gok (fun _ => Hflat) ltac:(lia) Hnx Hny ltac:(discriminate)
    ltac:(lia) Hbc ltac:(discriminate) ltac:(discriminate)
    [deep_copy2 m A_U2 A_U] M M' (fun c v => s (at_ A_U c v))) as (M1 & A & B & C).
  { intros r c v Hr Hc Hv. destruct (phys2_dom c Hc) as (i & j & -> & Hp). apply HU; auto. lia. }
  { exact HM. }
  assert (CC : forall r, (r < np gp)%nat -> forall l, la l <> A_U2 -> M' r l = M1 r l).
  { intros r Hr l Hl. pose proof (execs_one _ _ _ _ (C r Hr)) as C1.
    destruct (deep_copy_spec m inb A_U2 A_U _ _ ltac:(discriminate) ltac:(lia) C1) as (_ & E').
    destruct l. apply E'. auto. }
  split.
  - intros r i j v Hr Hp Hv. rewrite CC by (auto; discriminate).
    rewrite E by discriminate. unfold L2. rewrite SA.
    + apply (A r (i, j, 0) v Hr); [|lia]. unfold phys2, physical in Hp. simpl. unfold isize, jsize. lia.
    + pose proof (org_phys2 r i j Hr Hp) as [P1 P2]. unfold cell2. unfold physical in P1, P2. simpl in *. lia.
    + simpl. lia.
  - intros r i j v Hr Hc. rewrite CC by (auto; discriminate). rewrite E by discriminate.
    rewrite B; auto; [|simpl; intros [? _]; discriminate]. rewrite SC by discriminate. auto.
Qed.
End Dist2.

Lemma gmesh_wide3 m gp : pgrid_ok gp -> 0 < gw m -> 0 <= nbvar m -> gw m <= nx m -> gw m <= ny m -> gw m <= nz m ->
  wide3 (gmesh m gp).
Proof.
  intros gok Hg Hn H1 H2 H3. split; [apply gmesh_wide; auto|]. destruct gok as (Hx & Hy & Hz).
  unfold enough, gmesh; simpl. assert (gw m <= nz m * mz gp) by nia. repeat split; try lia; right; lia.
Qed.

(** ** 3D *)
Section Dist3.
Context {T : Type} {NT : Num T} {NO : NumOne T}.
Variable lay : layout.
Variable m : mesh.
Variable gp : pgrid.
Variable S : hset T.
Variable g : gravp.
Variable inb : extents.
Variable iv : impl.
Variable full : bool.

Definition splits3 : Prop :=
  pgrid_ok gp /\ 2 <= gw m /\ gw m <= nx m /\ gw m <= ny m /\ gw m <= nz m /\ nbvar m = 5 /\
  forall f, face_ok false f -> 1 <= bc m f <= 4.

(** Every process holds its block of [s]. *)
Definition blocks3 (a : arr) (M : nat -> store T) (s : store T) : Prop :=
  (forall r i j k v, (r < np gp)%nat -> phys3 m i j k -> 0 <= v < 5 ->
     M r (mkloc a i j k v) = s (mkloc a (org m gp AX r + i) (org m gp AY r + j) (org m gp AZ r + k) v)) /\
  (forall r i j k v, (r < np gp)%nat -> cell3 m i j k ->
     M r (mkloc A_G i j k v) = s (mkloc A_G (org m gp AX r + i) (org m gp AY r + j) (org m gp AZ r + k) v)).

(** What the kernels after the ghost filling compute. *)
Definition body_ok3 : Prop := forall dt ain aout U s s',
  (ain = A_U /\ aout = A_U2 \/ ain = A_U2 /\ aout = A_U) ->
  (forall i j k v, cell3 m i j k -> 0 <= v < 5 -> s (mkloc ain i j k v) = U i j k v) ->
  execs inb s (godunov3_body m S g dt iv ain aout) s' ->
  (forall i j k v, phys3 m i j k -> 0 <= v < 5 -> s' (mkloc aout i j k v) = step3 S g dt full U (field_of3 A_G s) i j k v) /\
  (forall i j k v, s' (mkloc A_G i j k v) = s (mkloc A_G i j k v)).

Hypothesis Hsplit : splits3.

Lemma phys3_dom c : in_dom false m D0 c -> exists i j k, c = (i, j, k) /\ phys3 m i j k.
Proof.
  destruct c as [[i j] k]. intros [_ Hd]. exists i, j, k. split; auto.
  split; [split|]; [apply (Hd AX)|apply (Hd AY)|apply (Hd AZ)]; simpl; auto.
Qed.

Lemma dist_step3 n dt M M' s :
  body_ok3 -> blocks3 (cur n) M s ->
  spmd gp inb (godunov3_mpi lay m gp S g iv dt (cur n) (nxt n)) M M' ->
  (forall r i j k v, (r < np gp)%nat -> phys3 m i j k -> 0 <= v < 5 ->
     M' r (mkloc (nxt n) i j k v) =
     step3 S g dt full (extend3 (gmesh m gp) (field_of3 (cur n) s)) (field_of3 A_G s) (org m gp AX r + i) (org m gp AY r + j) (org m gp AZ r + k) v) /\
  (forall r i j k v, (r < np gp)%nat -> M' r (mkloc A_G i j k v) = M r (mkloc A_G i j k v)).
Proof.
  destruct Hsplit as (gok & Hgw & Hnx & Hny & Hnz & Hnv & Hbc).
  intros Hbody [HU HG] Hrun.
  assert (Hbuf : (cur n = A_U /\ nxt n = A_U2 \/ cur n = A_U2 /\ nxt n = A_U)) by apply cur_nxt.
  destruct (spmd_fill false lay m gp (cur n) inb gok ltac:(discriminate) ltac:(lia) Hnx Hny (fun _ => Hnz)
    ltac:(lia) Hbc ltac:(intros f; destruct Hbuf as [[-> _]|[-> _]]; discriminate)
    ltac:(intros f; destruct Hbuf as [[-> _]|[-> _]]; discriminate)
    (godunov3_body m S g dt iv (cur n) (nxt n)) M M' (fun c v => s (at_ (cur n) c v))) as (M1 & A & B & C).
  { intros r c v Hr Hc Hv. destruct (phys3_dom c Hc) as (i & j & k & -> & Hp). apply HU; auto. lia. }
  { exact Hrun. }
  assert (BG : forall r i j k v, (r < np gp)%nat -> M1 r (mkloc A_G i j k v) = M r (mkloc A_G i j k v)).
  { intros r i j k v Hr. apply B; auto. simpl. destruct Hbuf as [[-> _]|[-> _]]; intros [? _]; discriminate. }
  assert (BU : forall r i j k v, (r < np gp)%nat -> cell3 m i j k -> 0 <= v < 5 ->
    M1 r (mkloc (cur n) i j k v) = extend3 (gmesh m gp) (field_of3 (cur n) s) (i + org m gp AX r) (j + org m gp AY r) (k + org m gp AZ r) v).
  { intros r i j k v Hr Hc Hv. rewrite (Z.add_comm i), (Z.add_comm j), (Z.add_comm k).
    apply (A r (i, j, k) v Hr); [|lia]. unfold cell3, cell2 in Hc. simpl. unfold isize, jsize, ksize. lia. }
  split.
  - intros r i j k v Hr Hp Hv.
    destruct (Hbody dt (cur n) (nxt n) (fun i j k => extend3 (gmesh m gp) (field_of3 (cur n) s) (i + org m gp AX r) (j + org m gp AY r) (k + org m gp AZ r))
      (M1 r) (M' r) Hbuf (fun i j k v => BU r i j k v Hr) (C r Hr)) as [D _].
    rewrite D by auto. rewrite (Z.add_comm _ i), (Z.add_comm _ j), (Z.add_comm _ k), <- step3_shift.
    apply step3_stencil; auto. intros i' j' k' v' Hi Hj Hk. unfold field_of3. rewrite BG by auto.
    rewrite HG by (auto; unfold cell3, cell2; unfold phys3, phys2, physical in Hp; lia).
    rewrite (Z.add_comm _ i'), (Z.add_comm _ j'), (Z.add_comm _ k'). reflexivity.
  - intros r i j k v Hr.
    destruct (Hbody dt (cur n) (nxt n) (fun i j k => extend3 (gmesh m gp) (field_of3 (cur n) s) (i + org m gp AX r) (j + org m gp AY r) (k + org m gp AZ r))
      (M1 r) (M' r) Hbuf (fun i j k v => BU r i j k v Hr) (C r Hr)) as [_ D].
    rewrite D. auto.
Qed.

Lemma org_phys3 r i j k : (r < np gp)%nat -> phys3 m i j k -> phys3 (gmesh m gp) (org m gp AX r + i) (org m gp AY r + j) (org m gp AZ r + k).
Proof.
  destruct Hsplit as (gok & Hgw & Hnx & Hny & Hnz & Hnv & Hbc). intros Hr [[H1 H2] H3].
  pose proof (pos_range gp gok r AX Hr) as PX. pose proof (pos_range gp gok r AY Hr) as PY.
  pose proof (pos_range gp gok r AZ Hr) as PZ. simpl in PX, PY, PZ.
  unfold phys3, phys2, physical, gmesh, org in *; simpl. nia.
Qed.

(** Every global cell belongs to a process. *)
Lemma owner3 I J K : phys3 (gmesh m gp) I J K ->
  exists r i j k, (r < np gp)%nat /\ phys3 m i j k /\ org m gp AX r + i = I /\ org m gp AY r + j = J /\ org m gp AZ r + k = K.
Proof.
  destruct Hsplit as (gok & Hgw & Hnx & Hny & Hnz & Hnv & Hbc). intros [[H1 H2] H3].
  unfold physical, gmesh in H1, H2, H3; simpl in H1, H2, H3.
  set (x := (I - gw m) / nx m). set (y := (J - gw m) / ny m). set (z := (K - gw m) / nz m).
  assert (Hx : 0 <= x < mx gp).
  { unfold x. split; [apply Z.div_pos; lia|apply Z.div_lt_upper_bound; lia]. }
  assert (Hy : 0 <= y < my gp).
  { unfold y. split; [apply Z.div_pos; lia|apply Z.div_lt_upper_bound; lia]. }
  assert (Hz : 0 <= z < mz gp).
  { unfold z. split; [apply Z.div_pos; lia|apply Z.div_lt_upper_bound; lia]. }
  pose proof (rank_range gp gok (x, y, z)) as RR.
  pose proof (coords_rank gp gok (x, y, z)) as RC. unfold wrap in RC.
  rewrite (Z.mod_small x), (Z.mod_small y), (Z.mod_small z) in RC by lia.
  set (r := Z.to_nat (cart_rank gp (x, y, z))).
  assert (Er : Z.of_nat r = cart_rank gp (x, y, z)) by (unfold r; lia).
  assert (Ex : org m gp AX r = x * nx m) by (unfold org, pos; rewrite Er, RC; reflexivity).
  assert (Ey : org m gp AY r = y * ny m) by (unfold org, pos; rewrite Er, RC; reflexivity).
  assert (Ez : org m gp AZ r = z * nz m) by (unfold org, pos; rewrite Er, RC; reflexivity).
  exists r, (I - x * nx m), (J - y * ny m), (K - z * nz m).
  pose proof (Z.div_mod (I - gw m) (nx m) ltac:(lia)) as DX. pose proof (Z.mod_pos_bound (I - gw m) (nx m) ltac:(lia)).
  pose proof (Z.div_mod (J - gw m) (ny m) ltac:(lia)) as DY. pose proof (Z.mod_pos_bound (J - gw m) (ny m) ltac:(lia)).
  pose proof (Z.div_mod (K - gw m) (nz m) ltac:(lia)) as DZ. pose proof (Z.mod_pos_bound (K - gw m) (nz m) ltac:(lia)).
  fold z in DZ. fold x in DX. fold y in DY.
  split; [unfold np, r; lia|]. split; [unfold phys3, phys2, physical; nia|]. rewrite Ex, Ey, Ez. lia.
Qed.

(** After a step of both programs the processes hold the blocks of the serial state. *)
Lemma dist_blocks3 inb' iv' n dt M M' s s' :
  body_ok3 -> refines3 (gmesh m gp) S g full inb' iv' ->
  blocks3 (cur n) M s ->
  spmd gp inb (godunov3_mpi lay m gp S g iv dt (cur n) (nxt n)) M M' ->
  execs inb' s (godunov3 (gmesh m gp) S g dt iv' (cur n) (nxt n)) s' ->
  blocks3 (nxt n) M' s'.
Proof.
  intros Hbody Href HB Hrun Hex. destruct (dist_step3 n dt M M' s Hbody HB Hrun) as [A B].
  destruct (Href dt n s s' Hex) as [C D]. destruct HB as [HU HG]. split.
  - intros r i j k v Hr Hp Hv. rewrite A by auto. symmetry. apply (C (org m gp AX r + i) (org m gp AY r + j) (org m gp AZ r + k) v); auto.
    apply org_phys3; auto.
  - intros r i j k v Hr Hc. rewrite B, D by auto. auto.
Qed.

Lemma built_blocks3 inb' M M' s s' :
  (forall r i j k v, (r < np gp)%nat -> phys3 m i j k -> 0 <= v < 5 ->
     M r (mkloc A_U i j k v) = s (mkloc A_U (org m gp AX r + i) (org m gp AY r + j) (org m gp AZ r + k) v)) ->
  (forall r i j k v, (r < np gp)%nat -> cell3 m i j k ->
     M r (mkloc A_G i j k v) = s (mkloc A_G (org m gp AX r + i) (org m gp AY r + j) (org m gp AZ r + k) v)) ->
  built3_mpi lay m gp inb M M' -> built3 (gmesh m gp) inb' s s' -> blocks3 A_U M' s'.
Proof.
  destruct Hsplit as (gok & Hgw & Hnx & Hny & Hnz & Hnv & Hbc). intros HU HG HM HB.
  apply execs_app in HB. destruct HB as (s1 & H1 & H2).
  assert (Hw : wide3 (gmesh m gp)) by (apply gmesh_wide3; auto; lia).
  destruct (fill3d_spec (gmesh m gp) A_U inb' s s1 Hw H1) as (SA & SB & SC).
  apply execs_one in H2.
  destruct (deep_copy_spec3 (gmesh m gp) inb' A_U2 A_U _ _ ltac:(discriminate) ltac:(simpl; lia) H2) as (D & E).
  destruct (spmd_fill false lay m gp A_U inb gok ltac:(discriminate) ltac:(lia) Hnx Hny (fun _ => Hnz)
    ltac:(lia) Hbc ltac:(discriminate) ltac:(discriminate)
    [deep_copy3 m A_U2 A_U] M M' (fun c v => s (at_ A_U c v))) as (M1 & A & B & C).
  { intros r c v Hr Hc Hv. destruct (phys3_dom c Hc) as (i & j & k & -> & Hp). apply HU; auto. lia. }
  { exact HM. }
  assert (CC : forall r, (r < np gp)%nat -> forall l, la l <> A_U2 -> M' r l = M1 r l).
  { intros r Hr l Hl. pose proof (execs_one _ _ _ _ (C r Hr)) as C1.
    destruct (deep_copy_spec3 m inb A_U2 A_U _ _ ltac:(discriminate) ltac:(lia) C1) as (_ & E').
    destruct l. apply E'. auto. }
  split.
  - intros r i j k v Hr Hp Hv. rewrite CC by (auto; discriminate).
    rewrite E by discriminate. rewrite SA.
    + apply (A r (i, j, k) v Hr); [|lia]. unfold phys3, phys2, physical in Hp. simpl. unfold isize, jsize, ksize. lia.
    + pose proof (org_phys3 r i j k Hr Hp) as [[P1 P2] P3]. unfold cell3, cell2. unfold physical in P1, P2, P3. simpl in *. lia.
    + simpl. lia.
  - intros r i j k v Hr Hc. rewrite CC by (auto; discriminate). rewrite E by discriminate.
    rewrite B; auto; [|simpl; intros [? _]; discriminate]. rewrite SC by discriminate. auto.
Qed.
End Dist3.

(** ** The kernels after the ghost filling *)
Lemma body_ok2_V01 {T} {NT : Num T} {NO : NumOne T} m (S : hset T) g inb iv :
  2 <= gw m -> nbvar m = 4 -> slope_ok S -> solver_ok2 S -> iv = V0 \/ iv = V1 ->
  body_ok2 m S g inb iv.
Proof.
  intros Hg Hn Hs Hr Hiv dt ain aout U s s' Hb HU Hex.
  destruct (body_V01 m S g dt inb Hs Hr Hg Hn ain aout Hb (fun _ => U) iv s s s' Hiv HU (fun _ _ _ => eq_refl) Hex)
    as (A & _ & _ & D). split; [exact A|exact D].
Qed.

Lemma body_ok2_R m (S : hset R) g inb iv :
  2 <= gw m -> nbvar m = 4 -> slope_ok S -> solver_ok2 S -> body_ok2 m S g inb iv.
Proof.
  intros Hg Hn Hs Hr. destruct iv; [apply body_ok2_V01; auto|apply body_ok2_V01; auto|].
  intros dt ain aout U s s' Hb HU Hex.
  destruct (body_V2 m S g dt inb Hs Hr Hg Hn ain aout Hb (fun _ => U) s s s' HU (fun _ _ _ => eq_refl) Hex)
    as (W & A & B & _ & _ & D). split; [|exact D].
  intros i j v Hp Hv. rewrite B by auto. unfold step2. destruct (g_enabled g).
  - apply grav_source_ext; auto. intros. apply any_order_R. apply A; auto.
  - apply any_order_R. apply A; auto.
Qed.

Lemma body_ok3_V01 {T} {NT : Num T} {NO : NumOne T} m (S : hset T) g inb iv :
  2 <= gw m -> nbvar m = 5 -> slope_ok S -> solver_ok3 S -> iv = V0 \/ iv = V1 ->
  body_ok3 m S g inb iv (full_of iv).
Proof.
  intros Hg Hn Hs Hr Hiv dt ain aout U s s' Hb HU Hex.
  destruct (body3_V01 m S g dt inb Hs Hr Hg Hn ain aout Hb (fun _ => U) iv s s s' Hiv HU (fun _ _ _ _ => eq_refl) Hex)
    as (A & _ & _ & D). split; [exact A|exact D].
Qed.

Lemma body_ok3_R m (S : hset R) g inb iv :
  2 <= gw m -> nbvar m = 5 -> slope_ok S -> solver_ok3 S -> body_ok3 m S g inb iv (full_of iv).
Proof.
  intros Hg Hn Hs Hr. destruct iv; [apply (body_ok3_V01 m S g inb V0); auto|apply (body_ok3_V01 m S g inb V1); auto|].
  intros dt ain aout U s s' Hb HU Hex.
  destruct (body3_V2 m S g dt inb Hs Hr Hg Hn ain aout Hb (fun _ => U) s s s' HU (fun _ _ _ _ => eq_refl) Hex)
    as (W & A & B & _ & _ & D). split; [|exact D].
  intros i j k v Hp Hv. rewrite B by auto. unfold step3. cbn [full_of]. destruct (g_enabled g).
  - apply grav_source3_ext; auto. intros. apply any_order3_R. apply A; auto.
  - apply any_order3_R. apply A; auto.
Qed.

(** ** The common time step, over the reals *)
Local Open Scope R_scope.

(** Inverse time of a cell. *)
Definition val2 (S : hset R) g (U G : field2 R) i j : R :=
  if g_enabled g then gravity_speeds2 S U G i j else speeds2 S U i j.
Definition val3 (S : hset R) g (U G : field3 R) i j k : R :=
  if g_enabled g then gravity_speeds3 S U G i j k else speeds3 S U i j k.

Section Dt.
Variable S : hset R.
Variable g : gravp.
Hypothesis HS : sane S.
Hypothesis Hcfl : 0 < cfl S.
Hypothesis Hdx : 0 < dx S.
Hypothesis Hdy : 0 < dy S.

Lemma dt2_char m U G d : (0 <= gw m)%Z -> (exists i j, phys2 m i j) -> dt_local2 m S g U G d ->
  0 < d /\ (forall i j, phys2 m i j -> d * val2 S g U G i j <= cfl S) /\
  exists i j, phys2 m i j /\ d * val2 S g U G i j = cfl S.
Proof.
  intros Hg (i0 & j0 & H0) (v & HR & Hd).
  assert (Hh : 0 < Rmin (dx S) (dy S)) by (apply Rmin_pos; auto).
  assert (Hga : forall i j, 0 <= Rabs (G i j IX) + Rabs (G i j IY)).
  { intros. pose proof (Rabs_pos (G i j IX)). pose proof (Rabs_pos (G i j IY)). lra. }
  destruct (inv_dt S Hcfl (if g_enabled g then dt_gravity_item2 m S U G else dt_item2 m S U)
     (fun c => inner2 m (fst c) (snd c)) (fun c => val2 S g U G (fst c) (snd c)) (cells2 m) v d) as (A & B & i & Hi & Ha & E); auto.
  - intros [i j] a. unfold val2. destruct (g_enabled g); reflexivity.
  - intros [i j] _ _. simpl. unfold val2. destruct (g_enabled g).
    + destruct (gravity_speeds2_eq S HS U G i j) as [-> ?]. apply corrected_bound; auto.
    + destruct (speeds2_rate S HS Hdx Hdy U i j) as [-> ?]. auto.
  - exists (i0, j0). split; [apply phys_cells2|apply inner2_phys]; auto.
  - split; auto. split.
    + intros i' j' Hp. apply (B (i', j')); [apply phys_cells2|apply inner2_phys]; auto.
    + destruct i as [i j]. exists i, j. split; auto. apply inner2_phys; auto.
Qed.

Lemma dt3_char m U G d : 0 < dz S -> (0 <= gw m)%Z -> (exists i j k, phys3 m i j k) -> dt_local3 m S g U G d ->
  0 < d /\ (forall i j k, phys3 m i j k -> d * val3 S g U G i j k <= cfl S) /\
  exists i j k, phys3 m i j k /\ d * val3 S g U G i j k = cfl S.
Proof.
  intros Hdz Hg (i0 & j0 & k0 & H0) (v & HR & Hd).
  assert (Hh : 0 < Rmin (Rmin (dx S) (dy S)) (dz S)) by (repeat apply Rmin_pos; auto).
  assert (Hga : forall i j k, 0 <= Rabs (G i j k IX) + Rabs (G i j k IY) + Rabs (G i j k IZ)).
  { intros. pose proof (Rabs_pos (G i j k IX)). pose proof (Rabs_pos (G i j k IY)). pose proof (Rabs_pos (G i j k IZ)). lra. }
  destruct (inv_dt S Hcfl (if g_enabled g then dt_gravity_item3 m S U G else dt_item3 m S U)
     (fun c => inner3 m (fst (fst c)) (snd (fst c)) (snd c)) (fun c => val3 S g U G (fst (fst c)) (snd (fst c)) (snd c))
     (cells3 m) v d) as (A & B & i & Hi & Ha & E); auto.
  - intros [[i j] k] a. unfold val3. destruct (g_enabled g); reflexivity.
  - intros [[i j] k] _ _. simpl. unfold val3. destruct (g_enabled g).
    + destruct (gravity_speeds3_eq S HS U G i j k) as [-> ?]. apply corrected_bound; auto.
    + destruct (speeds3_rate S HS Hdx Hdy U i j k Hdz) as [-> ?]. auto.
  - exists (i0, j0, k0). split; [apply phys_cells3|apply inner3_phys]; auto.
  - split; auto. split.
    + intros i' j' k' Hp. apply (B (i', j', k')); [apply phys_cells3|apply inner3_phys]; auto.
    + destruct i as [[i j] k]. exists i, j, k. split; auto. apply inner3_phys; auto.
Qed.

(** The minimum over the processes: a bound for every process, attained by one. *)
Lemma dt_all_R gp (local : nat -> R -> Prop) d : dt_all gp local d ->
  (exists r, (r < np gp)%nat /\ local r d) /\
  forall r, (r < np gp)%nat -> exists dr, local r dr /\ d <= dr.
Proof.
  intros (ds & HF & HA). destruct (allreduce_R _ _ HA) as [Hin Hlow].
  assert (A : forall l, Forall2 local l ds -> exists r, In r l /\ local r d).
  { clear HF HA Hlow. intros l HF. induction HF; [destruct Hin|]. destruct Hin as [->|Hin].
    - exists x. simpl. auto.
    - destruct (IHHF Hin) as (r & Hr & Hl). exists r. simpl. auto. }
  assert (B : forall l ds', Forall2 local l ds' -> forall r, In r l -> exists dr, local r dr /\ In dr ds').
  { clear. intros l ds' HF. induction HF; intros r Hr; [destruct Hr|]. destruct Hr as [->|Hr].
    - exists y. simpl. auto.
    - destruct (IHHF r Hr) as (dr & H1 & H2). exists dr. simpl. auto. }
  split.
  - destruct (A _ HF) as (r & Hr & Hl). exists r. split; auto. apply in_seq in Hr. unfold np. lia.
  - intros r Hr. destruct (B _ _ HF r) as (dr & Hl & Hd).
    + apply in_seq. unfold np in Hr. lia.
    + exists dr. split; auto.
Qed.

Lemma dt_same2 m gp a (M : nat -> store R) s d d' : splits2 m gp -> blocks2 m gp a M s ->
  dt_all gp (fun r => dt_local2 m S g (field_of a (M r)) (field_of A_G (M r))) d ->
  dt_local2 (gmesh m gp) S g (field_of a s) (field_of A_G s) d' -> d = d'.
Proof.
  intros Hsp [HU HG] Hd Hd'. pose proof Hsp as (gok & Hflat & Hgw & Hnx & Hny & Hnv & Hbc).
  assert (Hex : exists i j, phys2 m i j) by (exists (gw m), (gw m); unfold phys2, physical; lia).
  assert (Hex' : exists i j, phys2 (gmesh m gp) i j).
  { destruct Hex as (i & j & Hp). assert (H0 : (0 < np gp)%nat).
    { destruct gok as (? & ? & ?). unfold np, nprocs. assert (0 < mx gp * my gp * mz gp)%Z by (apply Z.mul_pos_pos; nia). lia. }
    do 2 eexists. exact (org_phys2 m gp Hsp 0 i j H0 Hp). }
  assert (EV : forall r i j, (r < np gp)%nat -> phys2 m i j ->
    val2 S g (field_of a (M r)) (field_of A_G (M r)) i j =
    val2 S g (field_of a s) (field_of A_G s) (org m gp AX r + i) (org m gp AY r + j)).
  { intros r i j Hr Hp.
    assert (E : cell_state (field_of a (M r)) i j = cell_state (field_of a s) (org m gp AX r + i) (org m gp AY r + j)).
    { unfold cell_state, field_of. rewrite !HU by (auto; unfold ID, IP, IU, IV; lia). reflexivity. }
    unfold val2. destruct (g_enabled g); [unfold gravity_speeds2|unfold speeds2]; rewrite E; auto.
    unfold field_of. rewrite !HG by (auto; unfold cell2; unfold phys2, physical in Hp; lia). reflexivity. }
  destruct (dt2_char (gmesh m gp) _ _ _ ltac:(simpl; lia) Hex' Hd') as (P' & B' & I & J & HIJ & E').
  destruct (dt_all_R _ _ _ Hd) as ((r & Hr & Hl) & Hall).
  destruct (dt2_char m _ _ _ ltac:(lia) Hex Hl) as (P & B & i & j & Hij & E).
  apply Rle_antisym.
  - destruct (owner2 m gp Hsp I J HIJ) as (r1 & i1 & j1 & Hr1 & Hp1 & <- & <-).
    destruct (Hall r1 Hr1) as (dr & Hl1 & Hle).
    destruct (dt2_char m _ _ _ ltac:(lia) Hex Hl1) as (P1 & B1 & _).
    specialize (B1 i1 j1 Hp1). rewrite EV in B1 by auto.
    set (V := val2 _ _ _ _ _ _) in *. assert (0 < V) by nra. nra.
  - rewrite EV in E by auto. specialize (B' _ _ (org_phys2 m gp Hsp r i j Hr Hij)).
    set (V := val2 _ _ _ _ _ _) in *. assert (0 < V) by nra. nra.
Qed.

Lemma dt_same3 m gp a (M : nat -> store R) s d d' : 0 < dz S -> splits3 m gp -> blocks3 m gp a M s ->
  dt_all gp (fun r => dt_local3 m S g (field_of3 a (M r)) (field_of3 A_G (M r))) d ->
  dt_local3 (gmesh m gp) S g (field_of3 a s) (field_of3 A_G s) d' -> d = d'.
Proof.
  intros Hdz Hsp [HU HG] Hd Hd'. pose proof Hsp as (gok & Hgw & Hnx & Hny & Hnz & Hnv & Hbc).
  assert (Hex : exists i j k, phys3 m i j k) by (exists (gw m), (gw m), (gw m); unfold phys3, phys2, physical; lia).
  assert (Hex' : exists i j k, phys3 (gmesh m gp) i j k).
  { destruct Hex as (i & j & k & Hp). assert (H0 : (0 < np gp)%nat).
    { destruct gok as (? & ? & ?). unfold np, nprocs. assert (0 < mx gp * my gp * mz gp)%Z by (apply Z.mul_pos_pos; nia). lia. }
    do 3 eexists. exact (org_phys3 m gp Hsp 0 i j k H0 Hp). }
  assert (EV : forall r i j k, (r < np gp)%nat -> phys3 m i j k ->
    val3 S g (field_of3 a (M r)) (field_of3 A_G (M r)) i j k =
    val3 S g (field_of3 a s) (field_of3 A_G s) (org m gp AX r + i) (org m gp AY r + j) (org m gp AZ r + k)).
  { intros r i j k Hr Hp.
    assert (E : cell_state3 (field_of3 a (M r)) i j k =
      cell_state3 (field_of3 a s) (org m gp AX r + i) (org m gp AY r + j) (org m gp AZ r + k)).
    { unfold cell_state3, field_of3. rewrite !HU by (auto; unfold ID, IP, IU, IV, IW; lia). reflexivity. }
    unfold val3. destruct (g_enabled g); [unfold gravity_speeds3|unfold speeds3]; rewrite E; auto.
    unfold field_of3. rewrite !HG by (auto; unfold cell3, cell2; unfold phys3, phys2, physical in Hp; lia). reflexivity. }
  destruct (dt3_char (gmesh m gp) _ _ _ Hdz ltac:(simpl; lia) Hex' Hd') as (P' & B' & I & J & K & HIJ & E').
  destruct (dt_all_R _ _ _ Hd) as ((r & Hr & Hl) & Hall).
  destruct (dt3_char m _ _ _ Hdz ltac:(lia) Hex Hl) as (P & B & i & j & k & Hij & E).
  apply Rle_antisym.
  - destruct (owner3 m gp Hsp I J K HIJ) as (r1 & i1 & j1 & k1 & Hr1 & Hp1 & <- & <- & <-).
    destruct (Hall r1 Hr1) as (dr & Hl1 & Hle).
    destruct (dt3_char m _ _ _ Hdz ltac:(lia) Hex Hl1) as (P1 & B1 & _).
    specialize (B1 i1 j1 k1 Hp1). rewrite EV in B1 by auto.
    set (V := val3 _ _ _ _ _ _ _) in *. assert (0 < V) by nra. nra.
  - rewrite EV in E by auto. specialize (B' _ _ _ (org_phys3 m gp Hsp r i j k Hr Hij)).
    set (V := val3 _ _ _ _ _ _ _) in *. assert (0 < V) by nra. nra.
Qed.
End Dt.
