(** * The 3D MHD kernels compute the scheme, under every schedule *)
From Coq Require Import ZArith List Bool Lia ZifyBool.
Import ListNotations.
From Verif Require Import Num Exec ExecFacts Grid GridFacts Boundaries BoundariesSpec
  BoundariesFacts HydroNum Kernels KernelFacts Atomics Hydro2D Hydro2DSpec Hydro2DFacts
  Hydro3D Hydro3DSpec Hydro3DFacts MhdNum Mhd2D Mhd2DSpec MhdFacts Mhd2DFacts
  Mhd3DNum Mhd3D Mhd3DSpec.
Local Open Scope Z_scope.

Lemma f_app {A B} (f g : A -> B) x y : f = g -> x = y -> f x = g y.
Proof. intros -> ->. reflexivity. Qed.

(** ** The scheme is local and translation invariant

    Fields that agree around (i1,j1,k1) and (i2,j2,k2), at offsets in [lo,hi]. *)
Section Ext.
Context {T : Type} {N : Num T}.
Variable S : hset T.
Variable dt : T.
Variables i1 j1 k1 i2 j2 k2 : Z.

Definition agr {X} (lo hi : Z) (F1 F2 : Z -> Z -> Z -> X) : Prop :=
  forall x y z x' y' z', x - i1 = x' - i2 -> y - j1 = y' - j2 -> z - k1 = z' - k2 ->
    lo <= x - i1 <= hi -> lo <= y - j1 <= hi -> lo <= z - k1 <= hi -> F1 x y z = F2 x' y' z'.
Definition agrU (lo hi : Z) (U1 U2 : field3 T) : Prop :=
  forall x y z x' y' z' v, x - i1 = x' - i2 -> y - j1 = y' - j2 -> z - k1 = z' - k2 ->
    lo <= x - i1 <= hi -> lo <= y - j1 <= hi -> lo <= z - k1 <= hi -> 0 <= v < 8 ->
    U1 x y z v = U2 x' y' z' v.

Ltac rng := unfold ID, IP, IU, IV, IW, IA, IB, IC; lia.
(* split applications down to values known to agree *)
Ltac dec :=
  first [ reflexivity
        | match goal with H : agr _ _ _ _ |- _ => apply H; rng end
        | match goal with H : agrU _ _ _ _ |- _ => apply H; rng end
        | match goal with H : forall _, agr _ _ _ _ |- _ => apply H; rng end
        | match goal with H : forall _ _, agr _ _ _ _ |- _ => apply H; rng end
        | apply f_app; dec ].

Lemma agr_Q lo hi U1 U2 : agrU lo (hi + 1) U1 U2 -> agr lo hi (mQ3 S U1) (mQ3 S U2).
Proof. intros HU x y z x' y' z' Hx Hy Hz Bx By Bz. unfold mQ3, mstate3. dec. Qed.

Lemma agr_El lo hi Q1 Q2 U1 U2 e : agr (lo - 1) hi Q1 Q2 -> agrU (lo - 1) hi U1 U2 ->
  agr lo hi (mEl3 Q1 U1 e) (mEl3 Q2 U2 e).
Proof. intros HQ HU x y z x' y' z' Hx Hy Hz Bx By Bz. destruct e; unfold mEl3; dec. Qed.

Lemma agr_D lo hi U1 U2 c d : agrU (lo - 1) (hi + 1) U1 U2 ->
  agr lo hi (mD3 S U1 c d) (mD3 S U2 c d).
Proof.
  intros HU x y z x' y' z' Hx Hy Hz Bx By Bz.
  destruct c, d; unfold mD3; cbn [ox oy oz bcomp]; dec.
Qed.

Lemma agr_tr lo hi Q1 Q2 U1 U2 El1 El2 D1 D2 p :
  agr (lo - 1) (hi + 1) Q1 Q2 -> agrU lo (hi + 1) U1 U2 ->
  (forall e, agr lo (hi + 1) (El1 e) (El2 e)) -> (forall c d, agr lo (hi + 1) (D1 c d) (D2 c d)) ->
  agr lo hi (mtr3 S dt Q1 U1 El1 D1 p) (mtr3 S dt Q2 U2 El2 D2 p).
Proof.
  intros HQ HU HE HD x y z x' y' z' Hx Hy Hz Bx By Bz. unfold mtr3. dec.
Qed.

Lemma agr_F lo hi tr1 tr2 d : (forall p, agr (lo - 1) hi (tr1 p) (tr2 p)) ->
  agr lo hi (mF3 S tr1 d) (mF3 S tr2 d).
Proof.
  intros Ht x y z x' y' z' Hx Hy Hz Bx By Bz. unfold mF3. destruct d; cbn [ox oy oz]; dec.
Qed.

Lemma agr_E lo hi tr1 tr2 e : (forall p, agr (lo - 1) hi (tr1 p) (tr2 p)) ->
  agr lo hi (mE3 S tr1 e) (mE3 S tr2 e).
Proof.
  intros Ht x y z x' y' z' Hx Hy Hz Bx By Bz. unfold mE3. destruct e; dec.
Qed.

Lemma agr_at {X} lo hi (F1 F2 : Z -> Z -> Z -> X) : lo <= 0 <= hi -> agr lo hi F1 F2 ->
  F1 i1 j1 k1 = F2 i2 j2 k2.
Proof. intros Hl HA. apply HA; lia. Qed.

Lemma agr_weak {X} lo hi lo' hi' (F1 F2 : Z -> Z -> Z -> X) : agr lo hi F1 F2 ->
  lo <= lo' -> hi' <= hi -> agr lo' hi' F1 F2.
Proof. intros HA H1 H2 x y z x' y' z' ? ? ? ? ? ?. apply HA; lia. Qed.
Lemma agrU_weak lo hi lo' hi' U1 U2 : agrU lo hi U1 U2 -> lo <= lo' -> hi' <= hi -> agrU lo' hi' U1 U2.
Proof. intros HA H1 H2 x y z x' y' z' v ? ? ? ? ? ? ?. apply HA; lia. Qed.

Lemma agr_trace lo hi U1 U2 p : agrU (lo - 1) (hi + 2) U1 U2 ->
  agr lo hi (mtrace3 S dt U1 p) (mtrace3 S dt U2 p).
Proof.
  intros HU. unfold mtrace3.
  assert (HQ : agr (lo - 1) (hi + 1) (mQ3 S U1) (mQ3 S U2)).
  { apply agr_Q. eapply agrU_weak; eauto; lia. }
  apply agr_tr; auto.
  - eapply agrU_weak; eauto; lia.
  - intros e. apply agr_El; [eapply agr_weak; eauto; lia|eapply agrU_weak; eauto; lia].
  - intros c d. apply agr_D. eapply agrU_weak; eauto; lia.
Qed.

Lemma agr_balance lo hi F1 F2 E1 E2 U1 U2 x y z x' y' z' v :
  (forall d, agr lo hi (F1 d) (F2 d)) -> (forall e, agr lo hi (E1 e) (E2 e)) -> agrU lo hi U1 U2 ->
  x - i1 = x' - i2 -> y - j1 = y' - j2 -> z - k1 = z' - k2 ->
  lo <= x - i1 < hi -> lo <= y - j1 < hi -> lo <= z - k1 < hi -> 0 <= v < 8 ->
  mbalance3 S dt F1 E1 U1 x y z v = mbalance3 S dt F2 E2 U2 x' y' z' v.
Proof.
  intros HF HE HU Hx Hy Hz Bx By Bz Hv. unfold mbalance3.
  destruct (v =? IA); [dec|]. destruct (v =? IB); [dec|]. destruct (v =? IC); [dec|].
  rewrite (HF DX x y z x' y' z'), (HF DX (x + 1) y z (x' + 1) y' z'),
    (HF DY x y z x' y' z'), (HF DY x (y + 1) z x' (y' + 1) z'),
    (HF DZ x y z x' y' z'), (HF DZ x y (z + 1) x' y' (z' + 1)), (HU x y z x' y' z') by lia.
  reflexivity.
Qed.

Lemma mstep3_ext U1 U2 v : agrU (-2) 3 U1 U2 -> 0 <= v < 8 ->
  mstep3 S dt U1 i1 j1 k1 v = mstep3 S dt U2 i2 j2 k2 v.
Proof.
  intros HU Hv. unfold mstep3.
  assert (Ht : forall p, agr (-1) 1 (mtrace3 S dt U1 p) (mtrace3 S dt U2 p)).
  { intros p. apply agr_trace. eapply agrU_weak; eauto; lia. }
  apply (agr_balance 0 1); try lia.
  - intros d. apply agr_F. intros p. eapply agr_weak; [apply Ht|lia|lia].
  - intros d. apply agr_E. intros p. eapply agr_weak; [apply Ht|lia|lia].
  - eapply agrU_weak; eauto; lia.
Qed.
End Ext.

(** Fields equal on a region around a cell. *)
Lemma agr_same {X} i j k lo hi (F1 F2 : Z -> Z -> Z -> X) :
  (forall x y z, lo <= x - i <= hi -> lo <= y - j <= hi -> lo <= z - k <= hi -> F1 x y z = F2 x y z) ->
  agr i j k i j k lo hi F1 F2.
Proof.
  intros HF x y z x' y' z' Hx Hy Hz Bx By Bz.
  replace x' with x by lia. replace y' with y by lia. replace z' with z by lia. auto.
Qed.
Lemma agrU_same {T} i j k lo hi (U1 U2 : field3 T) :
  (forall x y z v, lo <= x - i <= hi -> lo <= y - j <= hi -> lo <= z - k <= hi -> 0 <= v < 8 ->
     U1 x y z v = U2 x y z v) ->
  agrU i j k i j k lo hi U1 U2.
Proof.
  intros HF x y z x' y' z' v Hx Hy Hz Bx By Bz Hv.
  replace x' with x by lia. replace y' with y by lia. replace z' with z by lia. auto.
Qed.

(** ** Views of a store *)
Section Views.
Context {T : Type} {N : Num T}.
Definition gq (s : store T) (a : arr) (i j k : Z) : ms T := getm s (mkloc a i j k).
Definition gu (s : store T) (a : arr) (i j k v : Z) : T := s (mkloc a i j k v).
Definition gE (s : store T) (e : dir) (i j k : Z) : T := s (mkloc A_Elec i j k (icomp e)).
Definition gD (s : store T) (c d : dir) (i j k : Z) : T := s (mkloc (darr c) i j k (icomp d)).
Definition gT (s : store T) (p : part) (i j k : Z) : ms T := getm s (mkloc (parr p) i j k).

Lemma mloc_inj a i j k : forall v1 v2, mkloc a i j k v1 = mkloc a i j k v2 -> v1 = v2.
Proof. intros. eapply mkloc_inj; eauto. Qed.

Lemma other_arr3 l a s (q : ms T) i j k : la l <> a -> putm s (mkloc a i j k) q l = s l.
Proof. intros Hl. apply putm_other. intros v _ E. apply Hl. rewrite <- E. reflexivity. Qed.
Lemma same_arr3 s a i j k (q : ms T) v : 0 <= v < 8 ->
  putm s (mkloc a i j k) q (mkloc a i j k v) = mget q v.
Proof. intros Hv. apply (putm_same s (mkloc a i j k)); auto. apply mloc_inj. Qed.
Lemma gq_put_other s a b i j k x y z (q : ms T) : b <> a ->
  getm (putm s (mkloc a i j k) q) (mkloc b x y z) = getm s (mkloc b x y z).
Proof. intros Hn. apply getm_ext. intros v _. apply other_arr3. auto. Qed.
Lemma gq_put_same s a i j k (q : ms T) :
  getm (putm s (mkloc a i j k) q) (mkloc a i j k) = q.
Proof. apply getm_putm. apply mloc_inj. Qed.
Lemma gq_upd_other s a b i j k v x y z (w : T) : b <> a ->
  getm (upd s (mkloc a i j k v) w) (mkloc b x y z) = getm s (mkloc b x y z).
Proof. intros Hn. apply getm_ext. intros. apply upd_other. congruence. Qed.

Lemma run_Wr l x (k : prog T) s : run (Wr l x k) s = run k (upd s l x).
Proof. reflexivity. Qed.
Lemma run_Rd l (k : T -> prog T) s : run (Rd l k) s = run (k (s l)) s.
Proof. reflexivity. Qed.
Lemma run_Done (s : store T) : run Done s = s.
Proof. reflexivity. Qed.

(** Values of a list of stores. *)
Fixpoint putl (s : store T) (ws : list (loc * T)) : store T :=
  match ws with [] => s | w :: ws => putl (upd s (fst w) (snd w)) ws end.
Lemma run_wrl ws : forall k s, run (wrl ws k) s = run k (putl s ws).
Proof. induction ws; intros; simpl; auto. Qed.
Lemma putl_other ws : forall s l, ~ In l (map fst ws) -> putl s ws l = s l.
Proof.
  induction ws as [|w ws IH]; intros s l Hn; simpl in *; auto.
  rewrite IH by tauto. apply upd_other. tauto.
Qed.
Lemma putl_in ws : forall s l x, NoDup (map fst ws) -> In (l, x) ws -> putl s ws l = x.
Proof.
  induction ws as [|w ws IH]; intros s l x Hn Hi; simpl in *; [tauto|].
  inversion Hn as [|? ? N1 N2]; subst. destruct Hi as [->|Hi]; [|auto].
  rewrite putl_other by auto. apply upd_same.
Qed.
Lemma foot_wrl (R W At : loc -> Prop) ws : forall (k : prog T),
  (forall w, In w ws -> W (fst w)) -> foot R W At k -> foot R W At (wrl ws k).
Proof. induction ws; intros k Hw Hk; simpl in *; auto. Qed.

(** Values of a list of stored states. *)
Fixpoint putp (s : store T) (ps : list part) (t : part -> ms T) (i j k : Z) : store T :=
  match ps with [] => s | p :: ps => putp (putm s (mkloc (parr p) i j k) (t p)) ps t i j k end.
Lemma run_wrparts t i j k ps : forall c s, run (wrparts ps t i j k c) s = run c (putp s ps t i j k).
Proof. induction ps; intros; simpl wrparts; simpl putp; [reflexivity|]. rewrite run_wrm. apply IHps. Qed.
Lemma parr_inj p q : parr p = parr q -> p = q.
Proof. destruct p as [[]|[]|[] []], q as [[]|[]|[] []]; cbn [parr]; congruence. Qed.
Lemma putp_other t i j k ps : forall s l, ~ In (la l) (map parr ps) -> putp s ps t i j k l = s l.
Proof.
  induction ps as [|p ps IH]; intros s l Hn; simpl in *; auto.
  rewrite IH by tauto. apply other_arr3. intros E. apply Hn. auto.
Qed.
Lemma putp_in t i j k ps : forall s p v, NoDup ps -> In p ps -> 0 <= v < 8 ->
  putp s ps t i j k (mkloc (parr p) i j k v) = mget (t p) v.
Proof.
  induction ps as [|q ps IH]; intros s p v Hn Hi Hv; simpl in *; [tauto|].
  inversion Hn as [|? ? N1 N2]; subst. destruct Hi as [->|Hi]; [|auto].
  rewrite putp_other.
  - apply same_arr3; auto.
  - simpl. intros Hp. apply in_map_iff in Hp. destruct Hp as (p' & E & Hp).
    apply parr_inj in E. subst. auto.
Qed.
Lemma foot_wrparts (R W At : loc -> Prop) t i j k ps : forall (c : prog T),
  (forall p v, In p ps -> 0 <= v < 8 -> W (mkloc (parr p) i j k v)) -> foot R W At c ->
  foot R W At (wrparts ps t i j k c).
Proof.
  induction ps as [|p ps IH]; intros c Hw Hk; simpl wrparts; auto.
  apply foot_wrm; [|apply IH; auto]; intros; apply Hw; simpl; auto.
Qed.
Lemma parts_nodup : NoDup parts.
Proof. unfold parts. repeat constructor; simpl; intuition discriminate. Qed.
Lemma parts_all p : In p parts.
Proof. destruct p as [[]|[]|[] []]; unfold parts; simpl; tauto. Qed.

Lemma foot_rd1s (R W At : loc -> Prop) ls : forall k : list T -> prog T,
  (forall l, In l ls -> R l) -> (forall xs, foot R W At (k xs)) -> foot R W At (rds rd1 ls k).
Proof.
  intros k Hr Hk. apply foot_rds; auto. intros c Hc k' Hk'. split; auto.
Qed.
Lemma run_rd1s ls (k : list T -> prog T) s : run (rds rd1 ls k) s = run (k (map s ls)) s.
Proof. apply (run_rds rd1 s). reflexivity. Qed.
Lemma foot_upd_if (R W At : loc -> Prop) b l f (c : prog T) :
  (b = true -> At l) -> foot R W At c -> foot R W At (upd_if b l f c).
Proof. unfold upd_if. destruct b; simpl; auto. Qed.
Lemma effects_upd_if b l f (c : prog T) s :
  effects (upd_if b l f c) s = (if b then [(l, f)] else []) ++ effects c s.
Proof. destruct b; reflexivity. Qed.
End Views.

(* [footsm_step] without [rds]: lists of single values have their own rule *)
Ltac footsm_step_no_rds :=
  match goal with
  | |- foot _ _ _ (rds _ _ _) => fail 1
  | _ => footsm_step
  end.
Ltac footm3 := repeat first
  [ footsm_step_no_rds
  | match goal with
    | |- foot _ _ _ (rds rd1 _ _) => apply foot_rd1s
    | |- foot _ _ _ (wrl _ _) => apply foot_wrl
    | |- foot _ _ _ (wrparts _ _ _ _ _ _) => apply foot_wrparts
    | |- foot _ _ _ (upd_if _ _ _ _) => apply foot_upd_if
    | |- foot _ _ _ (need (mslope_dir _ _ _ _) _) =>
        apply foot_need; [rewrite mslope_dir_some by assumption; discriminate|]
    | |- foot _ _ _ (need (riemann_mhd _ _ _) _) => apply foot_need; [apply riemann_mhd_some; assumption|]
    | |- foot _ _ _ (melec_dir3 _ _ _ _ _ _) => unfold melec_dir3; cbv zeta
    | |- foot _ _ _ (mflux_dir3 _ _ _ _ _ _) => unfold mflux_dir3; cbv zeta
    | |- foot _ _ _ (mflux_updates3 _ _ _ _ _ _ _ _ _ _) => unfold mflux_updates3; cbv zeta
    | |- foot _ _ _ (medge3 _ _ _ _ _ _) => unfold medge3; cbv zeta
    | |- foot _ _ _ (memf_updates3 _ _ _ _ _ _ _ _ _ _) => unfold memf_updates3; cbv zeta
    | |- foot _ _ _ (mslope_dir3 _ _ _ _ _ _ _ _) => unfold mslope_dir3; cbv zeta
    | |- foot _ _ _ (rd_slope3 _ _ _ _ _ _ _ _) => unfold rd_slope3; cbv zeta
    | |- foot _ _ _ (medge_rec3 _ _ _ _ _ _ _ _ _) => unfold medge_rec3; cbv zeta
    | |- foot _ _ _ (medge_at3 _ _ _ _ _ _ _ _ _) => unfold medge_at3; cbv zeta
    end ].

Section Facts.
Context {T : Type} {N : Num T}.
Variable m : mesh.
Variable S : hset T.
Variable dt : T.
Variable inb : extents.
Hypothesis Hsolver : msolver_ok S.

(** ** Footprints *)

Ltac own3 :=
  footm3; intros; try solve [own_goal];
  simpl in *;
  repeat match goal with H : _ \/ _ |- _ => destruct H as [<-|H] end; try tauto; try solve [own_goal].

Lemma own_mconvert3 a : a = A_U \/ a = A_U2 ->
  forall c, own_foot (only [A_Q]) c (mconvert_item3 m S a c).
Proof.
  intros Ha [[i j] k]. unfold own_foot, mconvert_item3. destruct (_ && _); [|exact I].
  destruct Ha as [-> | ->]; own3.
Qed.

Lemma own_melec3 a : a = A_U \/ a = A_U2 ->
  forall c, own_foot (only [A_Elec]) c (melec_item3 m a c).
Proof.
  intros Ha [[i j] k]. unfold own_foot, melec_item3. destruct (mid_range3 m i j k); [|exact I].
  destruct Ha as [-> | ->]; own3.
Qed.

Lemma own_mmag3 a : a = A_U \/ a = A_U2 ->
  forall c, own_foot (only [A_DA; A_DB; A_DC]) c (mmag_item3 m S a c).
Proof.
  intros Ha [[i j] k]. unfold own_foot, mmag_item3. destruct (mid_range3 m i j k); [|exact I].
  destruct Ha as [-> | ->]; own3.
Qed.

Definition part_arrays : list arr := map parr parts.

Lemma own_mtrace3 a : a = A_U \/ a = A_U2 ->
  forall c, own_foot (only part_arrays) c (mtrace_item3 m S dt a c).
Proof.
  intros Ha [[i j] k]. unfold own_foot, mtrace_item3. destruct (trace_range3 m i j k); [|exact I].
  destruct Ha as [-> | ->]; footm3; intros; try solve [own_goal].
  all: try (simpl in *; repeat match goal with H : _ \/ _ |- _ => destruct H as [<-|H] end; try tauto; solve [own_goal]).
  all: destruct p as [[]|[]|[] []]; split; reflexivity.
Qed.

Lemma own_mfluxes3 : forall c, own_foot (only [A_Fx; A_Fy; A_Fz]) c (mfluxes_item3 m S c).
Proof.
  intros [[i j] k]. unfold own_foot, mfluxes_item3. destruct (upto_face3 m i j k); [|exact I]. own3.
Qed.

Lemma own_memf3 : forall c, own_foot (only [A_Emf]) c (memf_item3 m S c).
Proof.
  intros [[i j] k]. unfold own_foot, memf_item3. destruct (upto_face3 m i j k); [|exact I]. own3.
Qed.

Lemma own_mupdate3 a : a = A_U \/ a = A_U2 ->
  forall c, own_foot (only [a]) c (mupdate_item3 m S dt a c).
Proof.
  intros Ha [[i j] k]. unfold own_foot, mupdate_item3. cbv zeta. destruct (inner3 m i j k); [|exact I].
  destruct Ha as [-> | ->]; own3.
Qed.

Lemma own_mupdate_emf3 a : a = A_U \/ a = A_U2 ->
  forall c, own_foot (only [a]) c (mupdate_emf_item3 m S dt a c).
Proof.
  intros Ha [[i j] k]. unfold own_foot, mupdate_emf_item3. destruct (inner3 m i j k); [|exact I].
  destruct Ha as [-> | ->]; own3.
Qed.

(** ** Values *)

Ltac frame H2 := intros l Hl; apply H2; destruct l as [[] ? ? ? ?];
  first [reflexivity | exfalso; apply Hl; cbn; tauto].

Lemma mconvert_spec3 a s s' : a = A_U \/ a = A_U2 ->
  exec inb s (map (mconvert_item3 m S a) (cells3 m)) s' ->
  (forall i j k, 0 <= i < isize m - 1 -> 0 <= j < jsize m - 1 -> 0 <= k < ksize m - 1 ->
     gq s' A_Q i j k = mQ3 S (gu s a) i j k) /\
  (forall l, la l <> A_Q -> s' l = s l).
Proof.
  intros Ha Hex. destruct (cellwise3 _ _ _ _ _ _ _ _ (own_mconvert3 a Ha) Hex) as [H1 H2]. split.
  - intros i j k Hi Hj Hk. apply getm_eq. intros v Hv.
    rewrite H1 by lia. unfold mconvert_item3.
    replace (_ && _) with true by lia.
    rewrite run_rdm. cbn [run]. rewrite run_wrm. cbn [run]. apply same_arr3. auto.
  - frame H2.
Qed.

Ltac idx := unfold lo3, hi3, ccell; cbn [tr0 tr1 ox oy oz cu0 cu1 bcomp];
  rewrite ?Z.mul_0_r, ?Z.mul_0_l, ?Z.mul_1_r, ?Z.sub_0_r, ?Z.add_0_r.

Lemma run_melec_dir3 a e i j k c s :
  run (melec_dir3 a e i j k c) s =
  run c (upd s (mkloc A_Elec i j k (icomp e)) (mEl3 (gq s A_Q) (gu s a) e i j k)).
Proof.
  unfold melec_dir3. cbv zeta. rewrite !run_rdm. cbn [run]. destruct e; idx; reflexivity.
Qed.

Lemma mEl3_upd a s x y z v w e i j k : a <> A_Elec ->
  mEl3 (gq (upd s (mkloc A_Elec x y z v) w) A_Q) (gu (upd s (mkloc A_Elec x y z v) w) a) e i j k =
  mEl3 (gq s A_Q) (gu s a) e i j k.
Proof.
  intros Ha. apply (agr_at i j k i j k 0 0); [lia|]. apply agr_El.
  - apply agr_same. intros. unfold gq. apply gq_upd_other. congruence.
  - apply agrU_same. intros. unfold gu. apply upd_other. congruence.
Qed.

Lemma melec_spec3 a s s' : a = A_U \/ a = A_U2 ->
  exec inb s (map (melec_item3 m a) (cells3 m)) s' ->
  (forall e i j k, 1 <= i < isize m - 1 -> 1 <= j < jsize m - 1 -> 1 <= k < ksize m - 1 ->
     gE s' e i j k = mEl3 (gq s A_Q) (gu s a) e i j k) /\
  (forall l, la l <> A_Elec -> s' l = s l).
Proof.
  intros Ha Hex. destruct (cellwise3 _ _ _ _ _ _ _ _ (own_melec3 a Ha) Hex) as [H1 H2]. split.
  - intros e i j k Hi Hj Hk. unfold gE.
    rewrite H1 by lia. unfold melec_item3.
    replace (mid_range3 m i j k) with true by (unfold mid_range3; lia).
    rewrite !run_melec_dir3. cbn [run].
    assert (Hn : a <> A_Elec) by (destruct Ha; congruence).
    rewrite !mEl3_upd by auto.
    destruct e; cbn [icomp]; repeat first [rewrite upd_same | rewrite upd_other by discriminate]; reflexivity.
  - frame H2.
Qed.

Lemma mdelta3_spec s a i j k c d :
  mdelta3 S (map s (bslope_locs a i j k)) c d = mD3 S (gu s a) c d i j k.
Proof.
  unfold bslope_locs. cbn [map]. unfold gu.
  destruct c, d; unfold mdelta3, mD3; cbn [nth ox oy oz bcomp]; rewrite ?Z.add_0_r, ?Z.sub_0_r; reflexivity.
Qed.

Lemma mmag_spec3 a s s' : a = A_U \/ a = A_U2 ->
  exec inb s (map (mmag_item3 m S a) (cells3 m)) s' ->
  (forall c d i j k, 1 <= i < isize m - 1 -> 1 <= j < jsize m - 1 -> 1 <= k < ksize m - 1 ->
     gD s' c d i j k = mD3 S (gu s a) c d i j k) /\
  (forall l, ~ In (la l) [A_DA; A_DB; A_DC] -> s' l = s l).
Proof.
  intros Ha Hex. destruct (cellwise3 _ _ _ _ _ _ _ _ (own_mmag3 a Ha) Hex) as [H1 H2]. split.
  - intros c d i j k Hi Hj Hk. unfold gD. rewrite H1 by lia. unfold mmag_item3.
    replace (mid_range3 m i j k) with true by (unfold mid_range3; lia).
    rewrite run_rd1s, run_wrl. cbn [run]. rewrite <- mdelta3_spec.
    apply putl_in.
    + cbn [map fst snd darr icomp].
      repeat constructor; cbn [In]; intros Hin;
      repeat match goal with H : _ \/ _ |- _ => destruct H as [H|H]; [discriminate|] end; contradiction.
    + cbn [map fst snd]. destruct c, d; cbn [In]; tauto.
  - frame H2.
Qed.

Lemma mtrace_spec3 a s s' : a = A_U \/ a = A_U2 -> 2 <= gw m ->
  exec inb s (map (mtrace_item3 m S dt a) (cells3 m)) s' ->
  (forall p i j k, gw m - 2 <= i <= nx m + gw m -> gw m - 2 <= j <= ny m + gw m ->
     gw m - 2 <= k <= nz m + gw m ->
     gT s' p i j k = mtr3 S dt (gq s A_Q) (gu s a) (gE s) (gD s) p i j k) /\
  (forall l, ~ In (la l) part_arrays -> s' l = s l).
Proof.
  intros Ha Hg Hex. destruct (cellwise3 _ _ _ _ _ _ _ _ (own_mtrace3 a Ha) Hex) as [H1 H2]. split.
  - intros p i j k Hi Hj Hk. apply getm_eq. intros v Hv.
    rewrite H1 by (unfold isize, jsize, ksize; lia). unfold mtrace_item3.
    replace (trace_range3 m i j k) with true by (unfold trace_range3, isize, jsize, ksize; lia).
    rewrite !run_rdm, !run_rd1s, run_wrparts. cbn [run].
    rewrite putp_in by (auto using parts_nodup, parts_all).
    f_equal. unfold mtr3, gq, gu, gE, gD, bf_locs, dbf_locs, el_locs. cbv zeta. cbn [map icomp darr]. idx.
    reflexivity.
  - frame H2.
Qed.

Lemma run_mflux_dir3 d i j k c s :
  run (mflux_dir3 S d i j k c) s = run (c (swapm d (mF3 S (gT s) d i j k))) s.
Proof.
  unfold mflux_dir3. rewrite !run_rdm, run_msolve by auto. unfold mF3.
  replace (swapm d (swapm d _)) with
    (msolve S (swapm d (gT s (Pm d) (i - ox d) (j - oy d) (k - oz d))) (swapm d (gT s (Pp d) i j k)));
  [reflexivity|].
  destruct (msolve S _ _), d; reflexivity.
Qed.

Lemma effects_mflux_dir3 d i j k c s :
  effects (mflux_dir3 S d i j k c) s = effects (c (swapm d (mF3 S (gT s) d i j k))) s.
Proof.
  unfold mflux_dir3. rewrite !effects_rdm, effects_msolve by auto. unfold mF3.
  replace (swapm d (swapm d _)) with
    (msolve S (swapm d (gT s (Pm d) (i - ox d) (j - oy d) (k - oz d))) (swapm d (gT s (Pp d) i j k)));
  [reflexivity|].
  destruct (msolve S _ _), d; reflexivity.
Qed.

Lemma run_medge3 e i j k c s : run (medge3 S e i j k c) s = run (c (mE3 S (gT s) e i j k)) s.
Proof.
  unfold medge3. rewrite !run_rdm. destruct e; idx; reflexivity.
Qed.
Lemma effects_medge3 e i j k c s : effects (medge3 S e i j k c) s = effects (c (mE3 S (gT s) e i j k)) s.
Proof.
  unfold medge3. rewrite !effects_rdm. destruct e; idx; reflexivity.
Qed.

Lemma mF3_put s a b d i j k x y z : ~ In a part_arrays ->
  mF3 S (gT (putm s (mkloc a x y z) b)) d i j k = mF3 S (gT s) d i j k.
Proof.
  intros Ha. unfold mF3, gT.
  assert (Hp : forall p, parr p <> a).
  { intros p <-. apply Ha. apply in_map. apply parts_all. }
  rewrite !gq_put_other by apply Hp. reflexivity.
Qed.
Lemma mE3_upd s l b d i j k : ~ In (la l) part_arrays ->
  mE3 S (gT (upd s l b)) d i j k = mE3 S (gT s) d i j k.
Proof.
  intros Ha. apply (agr_at i j k i j k 0 0); [lia|]. apply agr_E. intros p. apply agr_same.
  intros. unfold gT. apply getm_ext. intros. apply upd_other. intros E. subst l.
  apply Ha. cbn [la]. apply in_map. apply parts_all.
Qed.

Lemma swapm_twice d (q : ms T) : swapm d (swapm d q) = q.
Proof. destruct d, q; reflexivity. Qed.

Lemma mfluxes_spec3 s s' : 1 <= gw m ->
  exec inb s (map (mfluxes_item3 m S) (cells3 m)) s' ->
  (forall d i j k, gw m <= i <= nx m + gw m -> gw m <= j <= ny m + gw m -> gw m <= k <= nz m + gw m ->
     gq s' (farr d) i j k = swapm d (mF3 S (gT s) d i j k)) /\
  (forall l, ~ In (la l) [A_Fx; A_Fy; A_Fz] -> s' l = s l).
Proof.
  intros Hg Hex. destruct (cellwise3 _ _ _ _ _ _ _ _ own_mfluxes3 Hex) as [H1 H2]. split.
  - intros d i j k Hi Hj Hk. apply getm_eq. intros v Hv.
    rewrite H1 by (unfold isize, jsize, ksize; lia). unfold mfluxes_item3.
    replace (upto_face3 m i j k) with true by (unfold upto_face3, isize, jsize, ksize; lia).
    rewrite run_mflux_dir3, run_wrm, run_mflux_dir3, run_wrm, run_mflux_dir3, run_wrm. cbn [run].
    rewrite !mF3_put by (cbn; intuition discriminate).
    destruct d; cbn [farr]; repeat rewrite other_arr3 by discriminate; apply same_arr3; auto.
  - frame H2.
Qed.

Lemma memf_spec3 s s' : 1 <= gw m ->
  exec inb s (map (memf_item3 m S) (cells3 m)) s' ->
  (forall e i j k, gw m <= i <= nx m + gw m -> gw m <= j <= ny m + gw m -> gw m <= k <= nz m + gw m ->
     gu s' A_Emf i j k (iemf e) = mE3 S (gT s) e i j k) /\
  (forall l, la l <> A_Emf -> s' l = s l).
Proof.
  intros Hg Hex. destruct (cellwise3 _ _ _ _ _ _ _ _ own_memf3 Hex) as [H1 H2]. split.
  - intros e i j k Hi Hj Hk. unfold gu.
    rewrite H1 by (unfold isize, jsize, ksize; lia). unfold memf_item3.
    replace (upto_face3 m i j k) with true by (unfold upto_face3, isize, jsize, ksize; lia).
    rewrite run_medge3. cbv beta. rewrite run_Wr. rewrite run_medge3. cbv beta. rewrite run_Wr.
    rewrite run_medge3. cbv beta. rewrite run_Wr, run_Done.
    rewrite !mE3_upd by (cbn; intuition discriminate).
    generalize (mE3 S (gT s)). intros E.
    destruct e; cbn [iemf]; repeat first [rewrite upd_same | rewrite upd_other by discriminate]; reflexivity.
  - frame H2.
Qed.

Lemma mupdate_spec3 a s s' : a = A_U \/ a = A_U2 -> 1 <= gw m ->
  exec inb s (map (mupdate_item3 m S dt a) (cells3 m)) s' ->
  (forall i j k v, phys3 m i j k -> 0 <= v < 5 ->
     s' (mkloc a i j k v) =
     mbalance3 S dt (fun d i j k => swapm d (gq s (farr d) i j k)) (fun _ _ _ _ => n0) (gu s a) i j k v) /\
  (forall i j k v, phys3 m i j k -> 5 <= v < 8 -> s' (mkloc a i j k v) = s (mkloc a i j k v)) /\
  (forall i j k v, cell3 m i j k -> ~ phys3 m i j k -> s' (mkloc a i j k v) = s (mkloc a i j k v)) /\
  (forall l, la l <> a -> s' l = s l).
Proof.
  intros Ha Hg Hex. destruct (cellwise3 _ _ _ _ _ _ _ _ (own_mupdate3 a Ha) Hex) as [H1 H2].
  assert (HP : forall i j k v, phys3 m i j k -> 0 <= v < 8 ->
    s' (mkloc a i j k v) = if v <? 5 then
      mbalance3 S dt (fun d i j k => swapm d (gq s (farr d) i j k)) (fun _ _ _ _ => n0) (gu s a) i j k v
      else s (mkloc a i j k v)).
  { intros i j k v Hp Hv. assert (Hp' := Hp). destruct Hp' as [[Hi Hj] Hk]. unfold physical in *.
    rewrite H1 by (unfold isize, jsize, ksize; lia). unfold mupdate_item3. cbv zeta.
    replace (inner3 m i j k) with true by (unfold inner3, isize, jsize, ksize; lia).
    rewrite !run_rdm, run_wrm. cbn [run]. rewrite same_arr3 by auto. idx.
    destruct (eight v Hv) as [->|[->|[->|[->|[->|[->|[->| ->]]]]]]]; reflexivity. }
  split; [|split; [|split]].
  - intros. rewrite HP by (auto; lia). replace (v <? 5) with true by lia. reflexivity.
  - intros. rewrite HP by (auto; lia). replace (v <? 5) with false by lia. reflexivity.
  - intros i j k v [[Hi Hj] Hk] Hn. rewrite H1 by (unfold isize, jsize, ksize; lia).
    unfold mupdate_item3. replace (inner3 m i j k) with false; [reflexivity|].
    unfold phys3, phys2, physical in Hn. unfold inner3, isize, jsize, ksize. lia.
  - intros l Hl. apply H2. simpl. unfold arr_eqb. destruct (arr_eq_dec (la l) a); auto. contradiction.
Qed.

Lemma mupdate_emf_spec3 a s s' : a = A_U \/ a = A_U2 -> 1 <= gw m ->
  exec inb s (map (mupdate_emf_item3 m S dt a) (cells3 m)) s' ->
  (forall i j k v, phys3 m i j k -> 5 <= v < 8 ->
     s' (mkloc a i j k v) =
     mbalance3 S dt (fun _ _ _ _ => mzero) (fun e i j k => gu s A_Emf i j k (iemf e)) (gu s a) i j k v) /\
  (forall i j k v, phys3 m i j k -> 0 <= v < 5 -> s' (mkloc a i j k v) = s (mkloc a i j k v)) /\
  (forall i j k v, cell3 m i j k -> ~ phys3 m i j k -> s' (mkloc a i j k v) = s (mkloc a i j k v)) /\
  (forall l, la l <> a -> s' l = s l).
Proof.
  intros Ha Hg Hex. destruct (cellwise3 _ _ _ _ _ _ _ _ (own_mupdate_emf3 a Ha) Hex) as [H1 H2].
  assert (HP : forall i j k v, phys3 m i j k -> 0 <= v < 8 ->
    s' (mkloc a i j k v) = if 5 <=? v then
      mbalance3 S dt (fun _ _ _ _ => mzero) (fun e i j k => gu s A_Emf i j k (iemf e)) (gu s a) i j k v
      else s (mkloc a i j k v)).
  { intros i j k v Hp Hv. assert (Hp' := Hp). destruct Hp' as [[Hi Hj] Hk]. unfold physical in *.
    rewrite H1 by (unfold isize, jsize, ksize; lia). unfold mupdate_emf_item3.
    replace (inner3 m i j k) with true by (unfold inner3, isize, jsize, ksize; lia).
    rewrite !run_rdm. cbn [run]. idx.
    destruct (eight v Hv) as [->|[->|[->|[->|[->|[->|[->| ->]]]]]]];
    repeat first [rewrite upd_same | rewrite upd_other by discriminate]; reflexivity. }
  split; [|split; [|split]].
  - intros. rewrite HP by (auto; lia). replace (5 <=? v) with true by lia. reflexivity.
  - intros. rewrite HP by (auto; lia). replace (5 <=? v) with false by lia. reflexivity.
  - intros i j k v [[Hi Hj] Hk] Hn. rewrite H1 by (unfold isize, jsize, ksize; lia).
    unfold mupdate_emf_item3. replace (inner3 m i j k) with false; [reflexivity|].
    unfold phys3, phys2, physical in Hn. unfold inner3, isize, jsize, ksize. lia.
  - intros l Hl. apply H2. simpl. unfold arr_eqb. destruct (arr_eq_dec (la l) a); auto. contradiction.
Qed.

End Facts.
