(** * 3D MHD: magnetic divergence, conservation, uniform states, translations *)
From Coq Require Import ZArith List Bool Lia ZifyBool Reals Lra.
Import ListNotations.
From Verif Require Import Num Exec ExecFacts Grid GridFacts Boundaries BoundariesSpec BoundariesNarrow
  HydroNum Kernels KernelFacts Hydro2D Hydro2DSpec Hydro2DFacts Hydro2DStep Hydro2DRun
  Sums HydroPhysics Hydro2DLaws Hydro3D Hydro3DSpec Hydro3DFacts Hydro3DStep Hydro3DRun Hydro3DLaws
  MhdNum Mhd2DSpec MhdFacts Mhd3DNum Mhd3D Mhd3DSpec Mhd3DFacts Mhd3DStep Mhd3DV2 Mhd3DRun.
Local Open Scope Z_scope.

(** Discrete divergence of the face-centred field: IA lives on the lower x face of
    the cell, IB on its lower y face, IC on its lower z face. *)
Definition divB3 (S : hset R) (u : field3 R) (i j k : Z) : R :=
  ((u (i + 1)%Z j k IA - u i j k IA) / dx S + (u i (j + 1)%Z k IB - u i j k IB) / dy S +
   (u i j (k + 1)%Z IC - u i j k IC) / dz S)%R.

(** Faraday's law on the lower face of a cell along [c], with the electromotive
    forces [emf] on the lower edges along each direction. *)
Definition faraday3 (S : hset R) (dt : R) (emf : dir -> Z -> Z -> Z -> R) (u u' : field3 R) (c : dir)
    (i j k : Z) : Prop :=
  match c with
  | DX => u' i j k IA = (u i j k IA + (emf DZ i (j + 1)%Z k - emf DZ i j k) * (dt / dy S)
                                    - (emf DY i j (k + 1)%Z - emf DY i j k) * (dt / dz S))%R
  | DY => u' i j k IB = (u i j k IB - (emf DZ (i + 1)%Z j k - emf DZ i j k) * (dt / dx S)
                                    + (emf DX i j (k + 1)%Z - emf DX i j k) * (dt / dz S))%R
  | DZ => u' i j k IC = (u i j k IC + (emf DY (i + 1)%Z j k - emf DY i j k) * (dt / dx S)
                                    - (emf DX i (j + 1)%Z k - emf DX i j k) * (dt / dy S))%R
  end.

(** Whatever the electromotive forces, the divergence of a cell is unchanged when
    its six faces are updated. *)
Lemma faraday_divB3 S dt emf u u' i j k :
  (forall c, faraday3 S dt emf u u' c i j k) ->
  (forall c, faraday3 S dt emf u u' c (i + ox c) (j + oy c) (k + oz c)) ->
  divB3 S u' i j k = divB3 S u i j k.
Proof.
  intros H0 H1. unfold divB3.
  pose proof (H0 DX) as A0. pose proof (H0 DY) as B0. pose proof (H0 DZ) as C0.
  pose proof (H1 DX) as A1. pose proof (H1 DY) as B1. pose proof (H1 DZ) as C1.
  unfold faraday3 in *. cbn [ox oy oz] in *. rewrite !Z.add_0_r in A1, B1, C1.
  rewrite A0, A1, B0, B1, C0, C1. unfold Rdiv. ring.
Qed.

(** ** Periodic ends *)
Section Periodic.
Context {T : Type} {N : Num T}.
Variable m : mesh.
Variable S : hset T.
Variable iv : impl.
Variable dt : T.
Hypothesis Hwide : wide3 m.
Hypothesis Hgw : 3 <= gw m.

Lemma period_agrU d u i j k : periodic3 m d -> along d i j k = gw m ->
  agrU (i + ox d * nd m d) (j + oy d * nd m d) (k + oz d * nd m d) i j k (-2) 2 (extend3 m u) (extend3 m u).
Proof.
  intros HP Ha x y z x' y' z' v Hx Hy Hz Bx By Bz Hv.
  replace x with (x' + ox d * nd m d) by lia. replace y with (y' + oy d * nd m d) by lia.
  replace z with (z' + oz d * nd m d) by lia.
  apply extend3_period; auto. destruct d; cbn [along ox oy oz] in *; lia.
Qed.

Lemma mfl3_period d u i j k e : periodic3 m d -> along d i j k = gw m ->
  mfl3 iv S dt (extend3 m u) e (i + ox d * nd m d) (j + oy d * nd m d) (k + oz d * nd m d) =
  mfl3 iv S dt (extend3 m u) e i j k.
Proof.
  intros HP Ha. apply (agr_at _ _ _ i j k 0 0); [lia|]. apply agr_mfl3. apply period_agrU; auto.
Qed.
Lemma mem3_period d u i j k e : periodic3 m d -> along d i j k = gw m ->
  mem3 iv S dt (extend3 m u) e (i + ox d * nd m d) (j + oy d * nd m d) (k + oz d * nd m d) =
  mem3 iv S dt (extend3 m u) e i j k.
Proof.
  intros HP Ha. apply (agr_at _ _ _ i j k 0 0); [lia|]. apply agr_mem3. apply period_agrU; auto.
Qed.
End Periodic.

Section Div.
Variable m : mesh.
Variable S : hset R.
Variable iv : impl.
Hypothesis Hwide : wide3 m.
Hypothesis Hgw : 3 <= gw m.

(** The neighbour above along [d] is physical, or the axis wraps around. *)
Definition has_upper (d : dir) (x : Z) : Prop := physical (nd m d) (gw m) (x + 1) \/ periodic3 m d.
Definition has_uppers (i j k : Z) : Prop := has_upper DX i /\ has_upper DY j /\ has_upper DZ k.

Section Step.
Variable dt : R.
Variable u : field3 R.
Let U := extend3 m u.
Let E := mem3 iv S dt U.
Let u' := mstepv3 iv S dt U.

Lemma mstep3_faraday_phys c i j k : phys3 m i j k -> faraday3 S dt E U (extend3 m u') c i j k.
Proof. intros Hp. unfold faraday3. destruct c; rewrite (extend3_phys m u') by auto; reflexivity. Qed.

(** On the ghost face closing a periodic axis the law holds too. *)
Lemma mstep3_faraday_end c i j k : periodic3 m c -> phys3 m i j k -> along c i j k = gw m ->
  faraday3 S dt E U (extend3 m u') c (i + ox c * nd m c) (j + oy c * nd m c) (k + oz c * nd m c).
Proof.
  intros HP Hp Ha. pose proof (mstep3_faraday_phys c i j k Hp) as A.
  assert (EP : forall i j k e, along c i j k = gw m ->
    E e (i + ox c * nd m c) (j + oy c * nd m c) (k + oz c * nd m c) = E e i j k)
    by (intros; apply mem3_period; auto).
  assert (UP : forall w v, extend3 m w (i + ox c * nd m c) (j + oy c * nd m c) (k + oz c * nd m c) v =
    extend3 m w i j k v) by (intros; apply extend3_period; auto; lia).
  unfold faraday3 in *. destruct c; cbn [ox oy oz nd along] in *;
  rewrite ?Z.mul_0_l, ?Z.mul_1_l, ?Z.add_0_r in *.
  - unfold U at 1. rewrite !UP. fold U.
    pose proof (EP i (j + 1) k DZ Ha) as E1. pose proof (EP i j (k + 1) DY Ha) as E2.
    pose proof (EP i j k DZ Ha) as E3. pose proof (EP i j k DY Ha) as E4.
    rewrite ?Z.mul_0_l, ?Z.mul_1_l, ?Z.add_0_r in E1, E2, E3, E4. rewrite E1, E2, E3, E4. exact A.
  - unfold U at 1. rewrite !UP. fold U.
    pose proof (EP (i + 1) j k DZ Ha) as E1. pose proof (EP i j (k + 1) DX Ha) as E2.
    pose proof (EP i j k DZ Ha) as E3. pose proof (EP i j k DX Ha) as E4.
    rewrite ?Z.mul_0_l, ?Z.mul_1_l, ?Z.add_0_r in E1, E2, E3, E4. rewrite E1, E2, E3, E4. exact A.
  - unfold U at 1. rewrite !UP. fold U.
    pose proof (EP (i + 1) j k DY Ha) as E1. pose proof (EP i (j + 1) k DX Ha) as E2.
    pose proof (EP i j k DY Ha) as E3. pose proof (EP i j k DX Ha) as E4.
    rewrite ?Z.mul_0_l, ?Z.mul_1_l, ?Z.add_0_r in E1, E2, E3, E4. rewrite E1, E2, E3, E4. exact A.
Qed.

Lemma mstep3_divB i j k : phys3 m i j k -> has_uppers i j k ->
  divB3 S (extend3 m u') i j k = divB3 S U i j k.
Proof.
  intros Hp (HX & HY & HZ). apply (faraday_divB3 S dt E).
  - intros c. apply mstep3_faraday_phys; auto.
  - intros c. pose proof Hp as [[Hi Hj] Hk]. unfold physical in *.
    destruct (Z.eq_dec (along c i j k + 1) (gw m + nd m c)) as [He|Hne].
    + assert (HP : periodic3 m c).
      { destruct c; cbn [along nd] in *; [destruct HX as [H|H]|destruct HY as [H|H]|destruct HZ as [H|H]];
        auto; unfold physical in H; cbn [nd] in H; lia. }
      pose proof (nd_pos m Hwide c) as Hn.
      assert (HA : along c (i + ox c - ox c * nd m c) (j + oy c - oy c * nd m c) (k + oz c - oz c * nd m c) = gw m)
        by (destruct c; cbn [along ox oy oz nd] in *; lia).
      pose proof (mstep3_faraday_end c (i + ox c - ox c * nd m c) (j + oy c - oy c * nd m c)
        (k + oz c - oz c * nd m c) HP) as F.
      rewrite !Z.sub_simpl_r in F.
      apply F; auto. unfold phys3, phys2, physical. destruct c; cbn [along ox oy oz nd] in *; lia.
    + apply mstep3_faraday_phys. unfold phys3, phys2, physical.
      destruct c; cbn [along ox oy oz nd] in *; lia.
Qed.
End Step.

Lemma divB3_ext u1 u2 i j k : msame3 m u1 u2 -> phys3 m i j k ->
  divB3 S (extend3 m u1) i j k = divB3 S (extend3 m u2) i j k.
Proof.
  intros He [[Hi Hj] Hk]. unfold physical in *. unfold divB3.
  rewrite !(mextend3_ext m Hwide u1 u2) by (auto; unfold cell3, cell2, IA, IB, IC; lia). reflexivity.
Qed.

Lemma mrun_divB3 dts : forall u i j k, phys3 m i j k -> has_uppers i j k ->
  divB3 S (extend3 m (mrun_spec3 m S iv dts u)) i j k = divB3 S (extend3 m u) i j k.
Proof.
  induction dts as [|dt dts IH]; intros u i j k Hp HR; cbn [mrun_spec3]; auto.
  rewrite IH by auto. apply mstep3_divB; auto.
Qed.

(** ** Totals on a periodic domain *)
Lemma mtotal3_ext u1 u2 v : 0 <= v < 8 -> msame3 m u1 u2 -> total3 m u1 v = total3 m u2 v.
Proof.
  intros Hv H. unfold total3. apply sumz_ext. intros i Hi. apply sumz_ext. intros j Hj.
  apply sumz_ext. intros k Hk. apply H; auto. unfold phys3, phys2, physical. lia.
Qed.

(** Discrete Gauss theorem: differences that vanish between the two ends of each
    axis do not change the total. *)
Lemma gauss3 (G : dir -> Z -> Z -> Z -> R) (u u' : field3 R) v :
  (forall d i j k, along d i j k = gw m ->
     G d (i + ox d * nd m d)%Z (j + oy d * nd m d)%Z (k + oz d * nd m d)%Z = G d i j k) ->
  (forall i j k, phys3 m i j k -> u' i j k v =
     (u i j k v + ((G DX i j k - G DX (i + 1)%Z j k) + ((G DY i j k - G DY i (j + 1)%Z k) +
      (G DZ i j k - G DZ i j (k + 1)%Z))))%R) ->
  total3 m u' v = total3 m u v.
Proof.
  intros HP HU.
  pose proof (nd_pos m Hwide DX) as X. pose proof (nd_pos m Hwide DY) as Y.
  pose proof (nd_pos m Hwide DZ) as Z. cbn [nd] in *.
  assert (PX : forall j k, G DX (gw m + nx m)%Z j k = G DX (gw m) j k).
  { intros j k. pose proof (HP DX (gw m) j k eq_refl) as E. cbn [ox oy oz nd] in E.
    rewrite !Z.mul_0_l, !Z.add_0_r, Z.mul_1_l in E. exact E. }
  assert (PY : forall i k, G DY i (gw m + ny m)%Z k = G DY i (gw m) k).
  { intros j k. pose proof (HP DY j (gw m) k eq_refl) as E. cbn [ox oy oz nd] in E.
    rewrite !Z.mul_0_l, !Z.add_0_r, Z.mul_1_l in E. exact E. }
  assert (PZ : forall i j, G DZ i j (gw m + nz m)%Z = G DZ i j (gw m)).
  { intros j k. pose proof (HP DZ j k (gw m) eq_refl) as E. cbn [ox oy oz nd] in E.
    rewrite !Z.mul_0_l, !Z.add_0_r, Z.mul_1_l in E. exact E. }
  unfold total3.
  rewrite (sumz_ext (gw m) (nx m)
    (fun i => sumz (gw m) (ny m) (fun j => sumz (gw m) (nz m) (fun k => u' i j k v)))
    (fun i => (sumz (gw m) (ny m) (fun j => sumz (gw m) (nz m) (fun k => u i j k v)) +
      (sumz (gw m) (ny m) (fun j => sumz (gw m) (nz m) (fun k => G DX i j k - G DX (i + 1)%Z j k)) +
      (sumz (gw m) (ny m) (fun j => sumz (gw m) (nz m) (fun k => G DY i j k - G DY i (j + 1)%Z k)) +
       sumz (gw m) (ny m) (fun j => sumz (gw m) (nz m) (fun k => G DZ i j k - G DZ i j (k + 1)%Z)))))%R)).
  - rewrite !sumz_add.
    rewrite (sumz_zero (gw m) (nx m) (fun i => sumz (gw m) (ny m) (fun j => sumz (gw m) (nz m) (fun k => G DZ i j k - G DZ i j (k + 1)%Z)%R))).
    2:{ intros i _. apply sumz_zero. intros j _. rewrite (sumz_tele (gw m) (nz m) (fun k => G DZ i j k)) by lia. rewrite PZ. lra. }
    rewrite (sumz_zero (gw m) (nx m) (fun i => sumz (gw m) (ny m) (fun j => sumz (gw m) (nz m) (fun k => G DY i j k - G DY i (j + 1)%Z k)%R))).
    2:{ intros i _. rewrite sumz_swap. apply sumz_zero. intros k _.
        rewrite (sumz_tele (gw m) (ny m) (fun j => G DY i j k)) by lia. rewrite PY. lra. }
    rewrite (sumz_swap (gw m) (nx m) (gw m) (ny m)
      (fun i j => sumz (gw m) (nz m) (fun k => (G DX i j k - G DX (i + 1)%Z j k)%R))).
    match goal with |- (_ + (?x + _))%R = _ => enough (x = 0%R) by lra end. apply sumz_zero.
    intros j _. rewrite sumz_swap. apply sumz_zero. intros k _.
    rewrite (sumz_tele (gw m) (nx m) (fun i => G DX i j k)) by lia. rewrite PX. lra.
  - intros i Hi. rewrite <- !sumz_add. apply sumz_ext. intros j Hj. rewrite <- !sumz_add.
    apply sumz_ext. intros k Hk. apply HU. unfold phys3, phys2, physical. lia.
Qed.

(** What enters a cell through its lower face along [d]. *)
Definition mgain (dt : R) (F : dir -> Z -> Z -> Z -> ms R) (E : dir -> Z -> Z -> Z -> R) (v : Z) (d : dir)
    (i j k : Z) : R :=
  (if v =? IA then match d with DX => 0 | DY => - E DZ i j k * (dt / dy S) | DZ => E DY i j k * (dt / dz S) end
   else if v =? IB then match d with DX => E DZ i j k * (dt / dx S) | DY => 0 | DZ => - E DX i j k * (dt / dz S) end
   else if v =? IC then match d with DX => - E DY i j k * (dt / dx S) | DY => E DX i j k * (dt / dy S) | DZ => 0 end
   else mget (F d i j k) v * (dt / match d with DX => dx S | DY => dy S | DZ => dz S end))%R.

Lemma mconserve_periodic3 dt u v : (forall d, periodic3 m d) ->
  total3 m (mstepv3 iv S dt (extend3 m u)) v = total3 m u v.
Proof.
  intros HP. set (U := extend3 m u).
  apply (gauss3 (mgain dt (mfl3 iv S dt U) (mem3 iv S dt U) v)).
  - intros d i j k Ha. unfold mgain, U. rewrite !mem3_period, !mfl3_period by auto. reflexivity.
  - intros i j k Hp. unfold mstepv3, mbalance3, mgain.
    destruct (v =? IA) eqn:EA; [|destruct (v =? IB) eqn:EB; [|destruct (v =? IC) eqn:EC]];
    unfold U at 1; rewrite extend3_phys by auto; fold U;
    generalize (mfl3 iv S dt U), (mem3 iv S dt U); intros F E;
    [replace v with IA by lia|replace v with IB by lia|replace v with IC by lia|]; Rn; ring.
Qed.

Lemma mconserve_periodic_run3 dts : forall u v, (forall d, periodic3 m d) ->
  total3 m (mrun_spec3 m S iv dts u) v = total3 m u v.
Proof.
  induction dts as [|dt dts IH]; intros u v HP; cbn [mrun_spec3]; auto.
  rewrite IH by auto. apply mconserve_periodic3; auto.
Qed.

(** ** Uniform states *)
Definition muniform3 (c : Z -> R) (u : field3 R) : Prop :=
  forall i j k v, phys3 m i j k -> 0 <= v < 8 -> u i j k v = c v.
Hypothesis Hopen : forall f, kind_of (bc m f) <> Reflecting.

Lemma mextend_uniform3 c u i j k v : muniform3 c u -> cell3 m i j k -> 0 <= v < 8 -> extend3 m u i j k v = c v.
Proof.
  intros HU Hc Hv. unfold extend3, mirrored_x, mirrored_y, mirrored_z. rewrite !open_mirrored by auto. simpl.
  apply HU; auto. apply images_phys3; auto.
Qed.

Lemma mstep_uniform3 dt c u : muniform3 c u -> muniform3 c (mstepv3 iv S dt (extend3 m u)).
Proof.
  intros HU i j k v Hp Hv.
  rewrite (mstepv3_stencil iv S dt (extend3 m u) (fun _ _ _ v => c v)); auto.
  - set (U := fun _ _ _ v => c v).
    assert (HA : forall i j k, agrU i j k 0 0 0 (-2) 2 U U) by (intros; intros x y z x' y' z' w _ _ _ _ _ _ _; reflexivity).
    assert (HF : forall d i j k, mfl3 iv S dt U d i j k = mfl3 iv S dt U d 0 0 0).
    { intros. apply (agr_at i0 j0 k0 0 0 0 0 0); [lia|]. apply agr_mfl3. apply HA. }
    assert (HE : forall d i j k, mem3 iv S dt U d i j k = mem3 iv S dt U d 0 0 0).
    { intros. apply (agr_at i0 j0 k0 0 0 0 0 0); [lia|]. apply agr_mem3. apply HA. }
    unfold mstepv3, mbalance3.
    rewrite !(HF _ (i + 1) j k), !(HF _ i (j + 1) k), !(HF _ i j (k + 1)), !(HF _ i j k).
    rewrite !(HE _ (i + 1) j k), !(HE _ i (j + 1) k), !(HE _ i j (k + 1)), !(HE _ i j k).
    generalize (mfl3 iv S dt U), (mem3 iv S dt U). clear HF HE HA. intros F E. unfold U. clear U.
    destruct (v =? IA) eqn:EA; [|destruct (v =? IB) eqn:EB; [|destruct (v =? IC) eqn:EC]];
    [replace v with IA by lia|replace v with IB by lia|replace v with IC by lia|]; Rn; ring.
  - intros. apply mextend_uniform3; auto. destruct Hp as [[Hp1 Hp2] Hp3]. unfold cell3, cell2, physical in *. lia.
Qed.

Lemma mrun_uniform3 dts : forall c u, muniform3 c u -> muniform3 c (mrun_spec3 m S iv dts u).
Proof. induction dts as [|dt dts IH]; intros; cbn [mrun_spec3]; auto. apply IH. apply mstep_uniform3; auto. Qed.
End Div.

(** ** Translations of a periodic box *)
Section Translate.
Context {T : Type} {N : Num T}.
Variable m : mesh.
Variable S : hset T.
Variable iv : impl.
Hypothesis Hwide : wide3 m.
Hypothesis Hgw : 3 <= gw m.
Hypothesis Hper : forall d, periodic3 m d.

Lemma hg2 : 2 <= gw m. Proof. lia. Qed.

Lemma mstep_per3 dt u i j k v : phys3 m i j k -> 0 <= v < 8 ->
  mstepv3 iv S dt (extend3 m u) i j k v = mstepv3 iv S dt (per3 m u) i j k v.
Proof.
  intros [[Hi Hj] Hk] Hv. unfold physical in *. apply mstepv3_stencil; auto.
  intros. apply extend_per3; auto using hg2. unfold cell3, cell2. lia.
Qed.

Lemma mstep_per_wrap3 dt u i j k v : 0 <= v < 8 ->
  mstepv3 iv S dt (per3 m u) i j k v = mstepv3 iv S dt (per3 m u) (wrap m DX i) (wrap m DY j) (wrap m DZ k) v.
Proof.
  intros Hv. apply mstepv3_ext; auto. intros x y z x' y' z' w Hx Hy Hz _ _ _ _. unfold per3.
  replace x' with (wrap m DX i + (x - i)) by lia. replace y' with (wrap m DY j + (y - j)) by lia.
  replace z' with (wrap m DZ k + (z - k)) by lia.
  rewrite !wrap_add by auto using hg2.
  replace (i + (x - i)) with x by lia. replace (j + (y - j)) with y by lia. replace (k + (z - k)) with z by lia.
  reflexivity.
Qed.

Lemma mstep_translate3 dt (u : field3 T) a b c :
  msame3 m (mstepv3 iv S dt (extend3 m (shift3 m a b c u))) (shift3 m a b c (mstepv3 iv S dt (extend3 m u))).
Proof.
  intros i j k v Hp Hv. rewrite (mstep_per3 dt (shift3 m a b c u)) by assumption.
  unfold shift3 at 2. rewrite mstep_per3; [|apply wrap_phys3; auto using hg2|exact Hv].
  rewrite <- mstep_per_wrap3 by auto. apply mstepv3_ext; [|exact Hv].
  intros x y z x' y' z' w Hx Hy Hz _ _ _ _.
  rewrite per_shift3 by auto using hg2. f_equal; lia.
Qed.

Lemma mshift_ext3 a b c (u1 u2 : field3 T) : msame3 m u1 u2 -> msame3 m (shift3 m a b c u1) (shift3 m a b c u2).
Proof. intros H i j k v Hp Hv. apply H; auto. apply wrap_phys3; auto using hg2. Qed.

Lemma mrun_translate3 dts : forall (u : field3 T) a b c,
  msame3 m (mrun_spec3 m S iv dts (shift3 m a b c u)) (shift3 m a b c (mrun_spec3 m S iv dts u)).
Proof.
  induction dts as [|dt dts IH]; intros u a b c; cbn [mrun_spec3].
  - intros i j k v _ _. reflexivity.
  - intros i j k v Hp Hv. rewrite <- IH by auto.
    apply mrun_spec3_ext; auto. apply mstep_translate3; auto.
Qed.
End Translate.
