(** * The 2D MHD kernels compute the scheme, under every schedule *)
From Coq Require Import ZArith List Bool Lia ZifyBool.
Import ListNotations.
From Verif Require Import Num Exec ExecFacts Grid GridFacts Boundaries BoundariesSpec
  BoundariesFacts HydroNum Kernels KernelFacts Atomics Hydro2D Hydro2DSpec Hydro2DFacts
  MhdNum Mhd2D Mhd2DSpec MhdFacts.
Local Open Scope Z_scope.

Section Ext.
Context {T : Type} {N : Num T}.
Variable S : hset T.
Variable dt : T.

Lemma trace_mhd2_ext (q1 q2 : nbh (ms T)) (b1 b2 : nbh (bf T)) x y :
  (forall di dj, (di <= 2)%nat -> (dj <= 2)%nat -> q1 di dj = q2 di dj) ->
  (forall di dj, (di <= 2)%nat -> (dj <= 2)%nat -> b1 di dj = b2 di dj) ->
  trace_mhd2 S q1 b1 x y = trace_mhd2 S q2 b2 x y.
Proof.
  intros Hq Hb. unfold trace_mhd2, mslopes2. cbn [Nat.add].
  rewrite (Hq 0 0)%nat, (Hq 0 1)%nat, (Hq 0 2)%nat, (Hq 1 0)%nat, (Hq 1 1)%nat, (Hq 1 2)%nat,
    (Hq 2 0)%nat, (Hq 2 1)%nat, (Hq 2 2)%nat by lia.
  rewrite (Hb 0 1)%nat, (Hb 0 2)%nat, (Hb 1 0)%nat, (Hb 1 1)%nat, (Hb 1 2)%nat,
    (Hb 2 0)%nat, (Hb 2 1)%nat, (Hb 2 2)%nat by lia.
  reflexivity.
Qed.

(** The scheme is local and translation invariant: equal neighbourhoods, possibly
    at different places, give equal results. *)
Lemma mQ_ext U1 U2 i1 j1 i2 j2 :
  (forall di dj v, 0 <= di <= 1 -> 0 <= dj <= 1 -> 0 <= v < 8 ->
     U1 (i1 + di) (j1 + dj) v = U2 (i2 + di) (j2 + dj) v) ->
  mQ S U1 i1 j1 = mQ S U2 i2 j2.
Proof.
  intros HU. unfold mQ, mstate.
  assert (H0 : forall v, 0 <= v < 8 -> U1 i1 j1 v = U2 i2 j2 v).
  { intros v Hv. specialize (HU 0 0 v). rewrite !Z.add_0_r in HU. apply HU; lia. }
  assert (H1 := fun v => HU 1 0 v). assert (H2 := fun v => HU 0 1 v).
  setoid_rewrite Z.add_0_r in H1. setoid_rewrite Z.add_0_r in H2.
  rewrite !H0, H1, H2 by (unfold ID, IP, IU, IV, IW, IA, IB, IC; lia). reflexivity.
Qed.

Lemma mtr_ext Q1 Q2 U1 U2 i1 j1 i2 j2 :
  (forall di dj, -1 <= di <= 1 -> -1 <= dj <= 1 -> Q1 (i1 + di) (j1 + dj) = Q2 (i2 + di) (j2 + dj)) ->
  (forall di dj v, -1 <= di <= 1 -> -1 <= dj <= 1 -> 0 <= v < 8 ->
     U1 (i1 + di) (j1 + dj) v = U2 (i2 + di) (j2 + dj) v) ->
  mtr S dt Q1 U1 i1 j1 = mtr S dt Q2 U2 i2 j2.
Proof.
  intros HQ HU. unfold mtr.
  match goal with |- match ?a with _ => _ end = match ?b with _ => _ end => replace b with a; [reflexivity|] end.
  apply trace_mhd2_ext.
  - intros di dj H1 H2. cbv beta.
    replace (i1 + Z.of_nat di - 1) with (i1 + (Z.of_nat di - 1)) by lia.
    replace (j1 + Z.of_nat dj - 1) with (j1 + (Z.of_nat dj - 1)) by lia.
    rewrite HQ by lia. f_equal; lia.
  - intros di dj H1 H2. cbv beta zeta.
    replace (i1 + Z.of_nat di - 1) with (i1 + (Z.of_nat di - 1)) by lia.
    replace (j1 + Z.of_nat dj - 1) with (j1 + (Z.of_nat dj - 1)) by lia.
    rewrite !HU by (unfold IA, IB, IC; lia). f_equal; f_equal; lia.
Qed.

Section At.
Variables Q1 Q2 : Z -> Z -> ms T.
Variables U1 U2 : field2 T.
Variables i1 j1 i2 j2 : Z.
Variables rx ry : Z. (* how far to the left/below the states are needed *)
Hypothesis HQ : forall di dj, - 1 - rx <= di <= 1 -> - 1 - ry <= dj <= 1 ->
  Q1 (i1 + di) (j1 + dj) = Q2 (i2 + di) (j2 + dj).
Hypothesis HU : forall di dj v, - 1 - rx <= di <= 1 -> - 1 - ry <= dj <= 1 -> 0 <= v < 8 ->
  U1 (i1 + di) (j1 + dj) v = U2 (i2 + di) (j2 + dj) v.

Lemma mtr_at a b : - rx <= a <= 0 -> - ry <= b <= 0 ->
  mtr S dt Q1 U1 (i1 + a) (j1 + b) = mtr S dt Q2 U2 (i2 + a) (j2 + b).
Proof.
  intros Ha Hb. apply mtr_ext; intros.
  - rewrite <- !Z.add_assoc. apply HQ; lia.
  - rewrite <- !Z.add_assoc. apply HU; lia.
Qed.
End At.

Lemma mFX_ext Q1 Q2 U1 U2 i1 j1 i2 j2 :
  (forall di dj, -2 <= di <= 1 -> -1 <= dj <= 1 -> Q1 (i1 + di) (j1 + dj) = Q2 (i2 + di) (j2 + dj)) ->
  (forall di dj v, -2 <= di <= 1 -> -1 <= dj <= 1 -> 0 <= v < 8 ->
     U1 (i1 + di) (j1 + dj) v = U2 (i2 + di) (j2 + dj) v) ->
  mFX S dt Q1 U1 i1 j1 = mFX S dt Q2 U2 i2 j2.
Proof.
  intros HQ HU. unfold mFX.
  pose proof (mtr_at Q1 Q2 U1 U2 i1 j1 i2 j2 1 0 HQ HU) as Ht.
  pose proof (Ht (-1) 0 ltac:(lia) ltac:(lia)) as E1.
  pose proof (Ht 0 0 ltac:(lia) ltac:(lia)) as E2.
  rewrite ?Z.add_0_r in E1; rewrite ?Z.add_0_r in E2. rewrite E2.
  replace (i1 - 1) with (i1 + -1) by lia. replace (i2 - 1) with (i2 + -1) by lia. rewrite E1. reflexivity.
Qed.

Lemma mFY_ext Q1 Q2 U1 U2 i1 j1 i2 j2 :
  (forall di dj, -1 <= di <= 1 -> -2 <= dj <= 1 -> Q1 (i1 + di) (j1 + dj) = Q2 (i2 + di) (j2 + dj)) ->
  (forall di dj v, -1 <= di <= 1 -> -2 <= dj <= 1 -> 0 <= v < 8 ->
     U1 (i1 + di) (j1 + dj) v = U2 (i2 + di) (j2 + dj) v) ->
  mFY S dt Q1 U1 i1 j1 = mFY S dt Q2 U2 i2 j2.
Proof.
  intros HQ HU. unfold mFY.
  pose proof (mtr_at Q1 Q2 U1 U2 i1 j1 i2 j2 0 1 HQ HU) as Ht.
  pose proof (Ht 0 (-1) ltac:(lia) ltac:(lia)) as E1.
  pose proof (Ht 0 0 ltac:(lia) ltac:(lia)) as E2.
  rewrite ?Z.add_0_r in E1; rewrite ?Z.add_0_r in E2. rewrite E2.
  replace (j1 - 1) with (j1 + -1) by lia. replace (j2 - 1) with (j2 + -1) by lia. rewrite E1. reflexivity.
Qed.

Lemma mE_ext Q1 Q2 U1 U2 i1 j1 i2 j2 :
  (forall di dj, -2 <= di <= 1 -> -2 <= dj <= 1 -> Q1 (i1 + di) (j1 + dj) = Q2 (i2 + di) (j2 + dj)) ->
  (forall di dj v, -2 <= di <= 1 -> -2 <= dj <= 1 -> 0 <= v < 8 ->
     U1 (i1 + di) (j1 + dj) v = U2 (i2 + di) (j2 + dj) v) ->
  mE S dt Q1 U1 i1 j1 = mE S dt Q2 U2 i2 j2.
Proof.
  intros HQ HU. unfold mE.
  pose proof (mtr_at Q1 Q2 U1 U2 i1 j1 i2 j2 1 1 HQ HU) as Ht.
  pose proof (Ht (-1) (-1) ltac:(lia) ltac:(lia)) as E1.
  pose proof (Ht (-1) 0 ltac:(lia) ltac:(lia)) as E2.
  pose proof (Ht 0 (-1) ltac:(lia) ltac:(lia)) as E3.
  pose proof (Ht 0 0 ltac:(lia) ltac:(lia)) as E4.
  rewrite ?Z.add_0_r in E2; rewrite ?Z.add_0_r in E3; rewrite ?Z.add_0_r in E4. rewrite E4.
  replace (i1 - 1) with (i1 + -1) by lia. replace (i2 - 1) with (i2 + -1) by lia. replace (j1 - 1) with (j1 + -1) by lia. replace (j2 - 1) with (j2 + -1) by lia.
  rewrite E1, E2, E3. reflexivity.
Qed.

End Ext.

Section Facts.
Context {T : Type} {N : Num T}.
Variable m : mesh.
Variable S : hset T.
Variable dt : T.
Variable inb : extents.
Hypothesis Hslope : mslope_ok S.
Hypothesis Hsolver : msolver_ok S.

Lemma trace_mhd2_some q b x y : trace_mhd2 S q b x y <> None.
Proof.
  unfold trace_mhd2, mslopes2. pose proof Hslope as Hs. unfold mslope_ok in Hs. rewrite Hs. discriminate.
Qed.

Lemma mslope_dir_some q a b : mslope_dir S q a b = Some (mslope S q a b).
Proof. unfold mslope_dir. pose proof Hslope as Hs. unfold mslope_ok in Hs. rewrite Hs. reflexivity. Qed.

Lemma riemann_mhd_some ql qr : riemann_mhd S ql qr <> None.
Proof. unfold riemann_mhd. destruct Hsolver as [->|[->| ->]]; discriminate. Qed.

Lemma run_msolve ql qr (k : ms T -> prog T) s :
  run (need (riemann_mhd S ql qr) k) s = run (k (msolve S ql qr)) s.
Proof.
  unfold need, msolve. destruct (riemann_mhd S ql qr) as [d|] eqn:E; [reflexivity|].
  exfalso. eapply riemann_mhd_some; eauto.
Qed.

Lemma effects_msolve ql qr (k : ms T -> prog T) s :
  effects (need (riemann_mhd S ql qr) k) s = effects (k (msolve S ql qr)) s.
Proof.
  unfold need, msolve. destruct (riemann_mhd S ql qr) as [d|] eqn:E; [reflexivity|].
  exfalso. eapply riemann_mhd_some; eauto.
Qed.

Ltac footm := repeat first
  [ footsm_step
  | match goal with
    | |- foot _ _ _ (need (trace_mhd2 _ _ _ _ _) _) => apply foot_need; [apply trace_mhd2_some|]
    | |- foot _ _ _ (need (mslope_dir _ _ _ _) _) => apply foot_need; [rewrite mslope_dir_some; discriminate|]
    | |- foot _ _ _ (need (riemann_mhd _ _ _) _) => apply foot_need; [apply riemann_mhd_some|]
    end ].

(** ** Footprints *)

Lemma own_mconvert a : a = A_U \/ a = A_U2 ->
  forall c, own_foot (only [A_Q]) (cell2of c) (mconvert_item2 m S a c).
Proof.
  intros Ha [i j]. unfold own_foot, mconvert_item2. destruct (_ && _); [|exact I].
  footm; destruct Ha as [-> | ->]; own_goal.
Qed.

Definition traced_arrays : list arr := [A_Qmx; A_Qpx; A_Qmy; A_Qpy; A_RT; A_RB; A_LT; A_LB].

Lemma own_mtrace a : a = A_U \/ a = A_U2 ->
  forall c, own_foot (only traced_arrays) (cell2of c) (mtrace_item2 m S dt a c).
Proof.
  intros Ha [i j]. unfold own_foot, mtrace_item2. destruct (trace_range2 m i j); [|exact I].
  footm; destruct Ha as [-> | ->]; try solve [own_goal];
  intros c _ k Hk; footm; auto; own_goal.
Qed.

Lemma own_mfluxes : forall c, own_foot (only [A_Fx; A_Fy]) (cell2of c) (mfluxes_item2 m S c).
Proof.
  intros [i j]. unfold own_foot, mfluxes_item2. destruct (upto_face2 m i j); [|exact I].
  footm; own_goal.
Qed.

Lemma own_memf : forall c, own_foot (only [A_Emf]) (cell2of c) (memf_item2 m S c).
Proof.
  intros [i j]. unfold own_foot, memf_item2, medge2. destruct (upto_face2 m i j); [|exact I].
  footm; own_goal.
Qed.

Lemma own_mupdate a : a = A_U \/ a = A_U2 ->
  forall c, own_foot (only [a]) (cell2of c) (mupdate_item2 m S dt a c).
Proof.
  intros Ha [i j]. unfold own_foot, mupdate_item2. destruct (inner2 m i j); [|exact I].
  destruct Ha as [-> | ->]; footm; own_goal.
Qed.

Lemma own_mupdate_emf a : a = A_U \/ a = A_U2 ->
  forall c, own_foot (only [a]) (cell2of c) (mupdate_emf_item2 m S dt a c).
Proof.
  intros Ha [i j]. unfold own_foot, mupdate_emf_item2. destruct (inner2 m i j); [|exact I].
  destruct Ha as [-> | ->]; footm; own_goal.
Qed.

Lemma own_mslopes a : a = A_U \/ a = A_U2 ->
  forall c, own_foot (only [A_Sx; A_Sy]) (cell2of c) (mslopes_item2 m S a c).
Proof.
  intros Ha [i j]. unfold own_foot, mslopes_item2. destruct (_ && _); [|exact I].
  destruct Ha as [-> | ->]; footm; own_goal.
Qed.

Lemma own_mhalf a : a = A_U \/ a = A_U2 ->
  forall c, own_foot (only [A_Q2]) (cell2of c) (mhalf_item2 m S dt a c).
Proof.
  intros Ha [i j]. unfold own_foot, mhalf_item2. destruct (trace_range2 m i j); [|exact I].
  destruct Ha as [-> | ->]; footm; own_goal.
Qed.

Lemma own_melec a : a = A_U \/ a = A_U2 ->
  forall c, own_foot (only [A_Elec]) (cell2of c) (melec_item2 m a c).
Proof.
  intros Ha [i j]. unfold own_foot, melec_item2. destruct (_ && _); [|exact I].
  destruct Ha as [-> | ->]; footm; own_goal.
Qed.

Lemma own_msface : forall c, own_foot (only [A_SFace]) (cell2of c) (msface_item2 m S dt c).
Proof.
  intros [i j]. unfold own_foot, msface_item2. destruct (_ && _); [|exact I].
  footm; own_goal.
Qed.

(** ** Values *)

Lemma other_arr l a s (q : ms T) i j : la l <> a -> putm s (L2 a i j) q l = s l.
Proof. intros Hl. apply putm_other. intros v _ E. apply Hl. rewrite <- E. reflexivity. Qed.

Lemma same_arr s a i j (q : ms T) v : 0 <= v < 8 -> putm s (L2 a i j) q (L2 a i j v) = mget q v.
Proof. intros Hv. apply (putm_same s (L2 a i j)); auto. intros. eapply L2_inj; eauto. Qed.

Lemma mconvert_spec a s s' : a = A_U \/ a = A_U2 ->
  exec inb s (map (mconvert_item2 m S a) (cells2 m)) s' ->
  (forall i j, 0 <= i < isize m - 1 -> 0 <= j < jsize m - 1 ->
     getm s' (L2 A_Q i j) = mQ S (fun i j v => s (L2 a i j v)) i j) /\
  (forall l, la l <> A_Q -> s' l = s l).
Proof.
  intros Ha Hex. destruct (cellwise2 _ _ _ _ _ _ _ (own_mconvert a Ha) Hex) as [H1 H2]. split.
  - intros i j Hi Hj. apply getm_eq. intros v Hv. unfold L2 at 1.
    rewrite H1 by lia. unfold mconvert_item2.
    replace (_ && _) with true by lia.
    rewrite run_rdm. cbn [run]. rewrite run_wrm. cbn [run]. apply same_arr. auto.
  - intros l Hl. apply H2. destruct l as [[] ? ? ? ?]; simpl in *; congruence.
Qed.

Lemma nb3_list (Q : Z -> Z -> ms T) i j di dj : (di <= 2)%nat -> (dj <= 2)%nat ->
  nbq (map (fun c => Q (fst c) (snd c)) (nb3 i j)) di dj = Q (i + Z.of_nat di - 1) (j + Z.of_nat dj - 1).
Proof.
  intros H1 H2.
  destruct di as [|[|[|]]]; try lia; destruct dj as [|[|[|]]]; try lia;
  unfold nbq; cbn [Nat.mul Nat.add nb3 map nth fst snd]; f_equal; lia.
Qed.

Lemma nb4_list (B : Z -> Z -> bf T) i j di dj : (di <= 3)%nat -> (dj <= 3)%nat ->
  nbb (map (fun c => B (fst c) (snd c)) (nb4 i j)) di dj = B (i + Z.of_nat di - 1) (j + Z.of_nat dj - 1).
Proof.
  intros H1 H2.
  destruct di as [|[|[|[|]]]]; try lia; destruct dj as [|[|[|[|]]]]; try lia;
  unfold nbb; cbn [Nat.mul Nat.add nb4 map nth fst snd]; f_equal; lia.
Qed.

Definition tpart (a : arr) (t : traced T) : ms T :=
  match a with
  | A_Qmx => t_mx t | A_Qpx => t_px t | A_Qmy => t_my t | A_Qpy => t_py t
  | A_RT => t_rt t | A_RB => t_rb t | A_LT => t_lt t | _ => t_lb t
  end.

Lemma mtrace_spec a s s' : a = A_U \/ a = A_U2 -> 2 <= gw m ->
  exec inb s (map (mtrace_item2 m S dt a) (cells2 m)) s' ->
  (forall b i j, In b traced_arrays -> gw m - 2 <= i <= nx m + gw m -> gw m - 2 <= j <= ny m + gw m ->
     getm s' (L2 b i j) =
     tpart b (mtr S dt (fun i j => getm s (L2 A_Q i j)) (fun i j v => s (L2 a i j v)) i j)) /\
  (forall l, ~ In (la l) traced_arrays -> s' l = s l).
Proof.
  intros Ha Hg Hex. destruct (cellwise2 _ _ _ _ _ _ _ (own_mtrace a Ha) Hex) as [H1 H2]. split.
  - intros b i j Hb Hi Hj. apply getm_eq. intros v Hv. unfold L2 at 1.
    rewrite H1 by (unfold isize, jsize; lia). unfold mtrace_item2.
    replace (trace_range2 m i j) with true by (unfold trace_range2, isize, jsize; lia).
    rewrite (run_rds _ (fun c => getm s (L2 A_Q (fst c) (snd c)))) by reflexivity.
    rewrite (run_rds _ (fun c => getb s (L2 a (fst c) (snd c)))) by reflexivity.
    assert (E : trace_mhd2 S (nbq (map (fun c => getm s (L2 A_Q (fst c) (snd c))) (nb3 i j)))
        (nbb (map (fun c => getb s (L2 a (fst c) (snd c))) (nb4 i j))) (mdtdx S dt) (mdtdy S dt) =
        Some (mtr S dt (fun i j => getm s (L2 A_Q i j)) (fun i j v => s (L2 a i j v)) i j)).
    { unfold mtr.
      match goal with |- trace_mhd2 _ ?q ?b _ _ = Some (match trace_mhd2 _ ?q2 ?b2 ?x2 ?y2 with _ => _ end) =>
        assert (E : trace_mhd2 S q b x2 y2 = trace_mhd2 S q2 b2 x2 y2);
        [|change (mdtdx S dt) with x2; change (mdtdy S dt) with y2; rewrite E;
          destruct (trace_mhd2 S q2 b2 x2 y2) eqn:E'; [reflexivity|exfalso; revert E'; apply trace_mhd2_some]]
      end.
      apply trace_mhd2_ext.
      - intros di dj Hd Hd'. rewrite (nb3_list (fun i j => getm s (L2 A_Q i j))) by auto. reflexivity.
      - intros di dj Hd Hd'. rewrite (nb4_list (fun i j => getb s (L2 a i j))) by lia. reflexivity. }
    rewrite E. cbn [need]. rewrite !run_wrm. cbn [run].
    fold (L2 b i j v).
    unfold traced_arrays in Hb. simpl in Hb.
    repeat (destruct Hb as [<-|Hb];
      [repeat rewrite other_arr by (simpl; discriminate); rewrite same_arr by auto; reflexivity|]).
    destruct Hb.
  - intros l Hl. apply H2. destruct l as [[] ? ? ? ?]; simpl in *; tauto.
Qed.

Section Faces.
Variables (s s' : store T).
Notation tr b i j := (getm s (L2 b i j)).

Definition sFX i j := msolve S (tr A_Qmx (i - 1) j) (tr A_Qpx i j).
Definition sFY i j := swap_xy (msolve S (swap_xy (tr A_Qmy i (j - 1))) (swap_xy (tr A_Qpy i j))).
Definition sE i j := compute_emf S EMFZ (tr A_RT (i - 1) (j - 1)) (tr A_RB (i - 1) j)
  (tr A_LT i (j - 1)) (tr A_LB i j).

Lemma mfluxes_spec : 1 <= gw m ->
  exec inb s (map (mfluxes_item2 m S) (cells2 m)) s' ->
  (forall i j, gw m <= i <= nx m + gw m -> gw m <= j <= ny m + gw m ->
     getm s' (L2 A_Fx i j) = sFX i j /\ getm s' (L2 A_Fy i j) = swap_xy (sFY i j)) /\
  (forall l, la l <> A_Fx -> la l <> A_Fy -> s' l = s l).
Proof.
  intros Hg Hex. destruct (cellwise2 _ _ _ _ _ _ _ own_mfluxes Hex) as [H1 H2]. split.
  - intros i j Hi Hj.
    assert (HG : upto_face2 m i j = true) by (unfold upto_face2, isize, jsize; lia).
    split; apply getm_eq; intros v Hv; unfold L2 at 1; rewrite H1 by (unfold isize, jsize; lia);
    unfold mfluxes_item2; rewrite HG;
    rewrite !run_rdm, run_msolve, run_wrm, !run_rdm, run_msolve, run_wrm; cbn [run].
    + rewrite other_arr by (simpl; discriminate).
      change (mkloc A_Fx i j 0 v) with (L2 A_Fx i j v). rewrite same_arr by auto. reflexivity.
    + change (mkloc A_Fy i j 0 v) with (L2 A_Fy i j v). rewrite same_arr by auto.
      unfold sFY. rewrite swap_xy_twice. reflexivity.
  - intros l Hl Hl'. apply H2. destruct l as [[] ? ? ? ?]; simpl in *; congruence.
Qed.

Lemma memf_spec : 1 <= gw m ->
  exec inb s (map (memf_item2 m S) (cells2 m)) s' ->
  (forall i j, gw m <= i <= nx m + gw m -> gw m <= j <= ny m + gw m ->
     s' (L2 A_Emf i j 0) = sE i j) /\
  (forall l, la l <> A_Emf -> s' l = s l).
Proof.
  intros Hg Hex. destruct (cellwise2 _ _ _ _ _ _ _ own_memf Hex) as [H1 H2]. split.
  - intros i j Hi Hj.
    assert (HG : upto_face2 m i j = true) by (unfold upto_face2, isize, jsize; lia).
    unfold L2 at 1. rewrite H1 by (unfold isize, jsize; lia).
    unfold memf_item2. rewrite HG. unfold medge2. rewrite !run_rdm. cbn [run].
    change (mkloc A_Emf i j 0 0) with (L2 A_Emf i j 0). rewrite upd_same. reflexivity.
  - intros l Hl. apply H2. destruct l as [[] ? ? ? ?]; simpl in *; congruence.
Qed.

End Faces.

Lemma mget_swap6 (q : ms T) c v :
  mget (mscale (swap_xy q) c) v = nmul (mget (swap_xy q) v) c.
Proof.
  unfold mget. repeat match goal with |- context [if ?b then _ else _] => destruct b end; reflexivity.
Qed.

Definition six (v : Z) : Prop := 0 <= v < 8 /\ v <> IA /\ v <> IB.

Lemma mget_madd6 op (u f : ms T) c v :  six v -> mget (madd6 op u f c) v = op (mget u v) (nmul (mget f v) c).
Proof.
  intros (Hv & H1 & H2). unfold IA, IB in *.
  destruct (eight v Hv) as [->|[->|[->|[->|[->|[->|[->| ->]]]]]]]; try reflexivity; congruence.
Qed.

Lemma mget_madd6_ab op (u f : ms T) c : ma (madd6 op u f c) = ma u /\ mb (madd6 op u f c) = mb u.
Proof. split; reflexivity. Qed.

Lemma mupdate_spec a s s' : a = A_U \/ a = A_U2 -> 0 < gw m ->
  exec inb s (map (mupdate_item2 m S dt a) (cells2 m)) s' ->
  (forall i j v, phys2 m i j -> six v ->
     s' (L2 a i j v) =
     nsub (nadd (nsub (nadd (s (L2 a i j v)) (nmul (s (L2 A_Fx i j v)) (ndiv dt (dx S))))
                      (nmul (s (L2 A_Fx (i + 1) j v)) (ndiv dt (dx S))))
                (nmul (mget (swap_xy (getm s (L2 A_Fy i j))) v) (ndiv dt (dy S))))
          (nmul (mget (swap_xy (getm s (L2 A_Fy i (j + 1)))) v) (ndiv dt (dy S)))) /\
  (forall i j v, cell2 m i j -> v = IA \/ v = IB -> s' (L2 a i j v) = s (L2 a i j v)) /\
  (forall i j v, cell2 m i j -> ~ phys2 m i j -> s' (L2 a i j v) = s (L2 a i j v)) /\
  (forall l, la l <> a -> s' l = s l).
Proof.
  intros Ha Hg Hex. destruct (cellwise2 _ _ _ _ _ _ _ (own_mupdate a Ha) Hex) as [H1 H2].
  repeat split.
  - intros i j v [Hi Hj] Hv. unfold physical in *. unfold L2 at 1.
    rewrite H1 by (unfold isize, jsize; lia). unfold mupdate_item2.
    replace (inner2 m i j) with true by (unfold inner2, isize, jsize; lia).
    rewrite !run_rdm, run_wrm. cbn [run]. fold (L2 a i j v). rewrite same_arr by apply Hv.
    rewrite !mget_madd6 by auto. rewrite !mget_getm by apply Hv. reflexivity.
  - intros i j v [Hi Hj] Hv. unfold L2 at 1. rewrite H1 by (unfold isize, jsize; lia).
    unfold mupdate_item2. destruct (inner2 m i j); [|reflexivity].
    rewrite !run_rdm, run_wrm. cbn [run]. fold (L2 a i j v).
    rewrite same_arr by (destruct Hv as [-> | ->]; unfold IA, IB; lia).
    destruct Hv as [-> | ->]; reflexivity.
  - intros i j v [Hi Hj] Hn. unfold L2 at 1. rewrite H1 by (unfold isize, jsize; lia).
    unfold mupdate_item2. replace (inner2 m i j) with false; [reflexivity|].
    unfold phys2, physical in Hn. unfold inner2, isize, jsize. lia.
  - intros l Hl. apply H2. simpl. unfold arr_eqb. destruct (arr_eq_dec (la l) a); auto. contradiction.
Qed.

Lemma mupdate_emf_spec a s s' : a = A_U \/ a = A_U2 -> 0 < gw m ->
  exec inb s (map (mupdate_emf_item2 m S dt a) (cells2 m)) s' ->
  (forall i j, phys2 m i j ->
     s' (L2 a i j IA) = nadd (s (L2 a i j IA))
       (nmul (nsub (s (L2 A_Emf i (j + 1) 0)) (s (L2 A_Emf i j 0))) (ndiv dt (dy S))) /\
     s' (L2 a i j IB) = nsub (s (L2 a i j IB))
       (nmul (nsub (s (L2 A_Emf (i + 1) j 0)) (s (L2 A_Emf i j 0))) (ndiv dt (dx S)))) /\
  (forall i j v, cell2 m i j -> six v -> s' (L2 a i j v) = s (L2 a i j v)) /\
  (forall i j v, cell2 m i j -> ~ phys2 m i j -> s' (L2 a i j v) = s (L2 a i j v)) /\
  (forall l, la l <> a -> s' l = s l).
Proof.
  intros Ha Hg Hex. destruct (cellwise2 _ _ _ _ _ _ _ (own_mupdate_emf a Ha) Hex) as [H1 H2].
  assert (Hne : forall i j v i' j' v', L2 a i j v <> L2 A_Emf i' j' v').
  { intros i j v i' j' v' E. inversion E. destruct Ha; congruence. }
  assert (Hab : forall i j, L2 a i j IA <> L2 a i j IB).
  { intros i j E. apply L2_inj in E. discriminate. }
  repeat split.
  - destruct H as [Hi Hj]. unfold physical in *. unfold L2 at 1.
    rewrite H1 by (unfold isize, jsize; lia). unfold mupdate_emf_item2.
    replace (inner2 m i j) with true by (unfold inner2, isize, jsize; lia).
    cbn [run]. fold (L2 a i j IA). rewrite upd_other by auto. rewrite upd_same. reflexivity.
  - destruct H as [Hi Hj]. unfold physical in *. unfold L2 at 1.
    rewrite H1 by (unfold isize, jsize; lia). unfold mupdate_emf_item2.
    replace (inner2 m i j) with true by (unfold inner2, isize, jsize; lia).
    cbn [run]. fold (L2 a i j IB). rewrite upd_same. rewrite !upd_other by auto. reflexivity.
  - intros i j v [Hi Hj] Hv. unfold L2 at 1. rewrite H1 by (unfold isize, jsize; lia).
    unfold mupdate_emf_item2. destruct (inner2 m i j); [|reflexivity].
    cbn [run]. fold (L2 a i j v). destruct Hv as (_ & H3 & H4).
    rewrite !upd_other by (intros E; apply L2_inj in E; congruence). reflexivity.
  - intros i j v [Hi Hj] Hn. unfold L2 at 1. rewrite H1 by (unfold isize, jsize; lia).
    unfold mupdate_emf_item2. replace (inner2 m i j) with false; [reflexivity|].
    unfold phys2, physical in Hn. unfold inner2, isize, jsize. lia.
  - intros l Hl. apply H2. simpl. unfold arr_eqb. destruct (arr_eq_dec (la l) a); auto. contradiction.
Qed.

End Facts.

(** For use outside this file. *)
Ltac footm2 := repeat first
  [ footsm_step
  | match goal with
    | |- foot _ _ _ (need (trace_mhd2 _ _ _ _ _) _) => apply foot_need; [apply trace_mhd2_some; assumption|]
    | |- foot _ _ _ (need (mslope_dir _ _ _ _) _) => apply foot_need; [rewrite mslope_dir_some by assumption; discriminate|]
    | |- foot _ _ _ (need (riemann_mhd _ _ _) _) => apply foot_need; [apply riemann_mhd_some; assumption|]
    end ].
