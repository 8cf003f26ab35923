(** * C52: the initial arrays hold the documented gas (MHD) *)
From Coq Require Import ZArith List Bool String Lia ZifyBool Reals Lra Psatz.
From Verif Require Import Num Exec ExecFacts Grid GridFacts HydroNum HydroPhysics MhdNum Kernels BoundariesSpec EulerSpec MhdSpec Mhd2DAgree
  Hydro2D Hydro3D Hydro2DSpec Hydro3DSpec Mhd2DSpec Mhd3DSpec Hydro2DRun Hydro3DRun PropPhysics Params
  Init InitFacts InitSpec PropInit PropInitHydro PropInitField PropMhd2D.
Import ListNotations.
Local Open Scope R_scope.

(** The solver's conversion of the conserved quantities of a gas above the floors. *)
Definition above_floors (S : hset R) (q : ms R) : Prop := smallr S <= md q /\ md q * smallp S <= mp q.
Lemma prim_mhd_back S q u nbx nby nbz : mhd_sane S -> above_floors S q ->
  md u = md q -> mp u = mhd_energy S q -> mu u = md q * mu q -> mv u = md q * mv q -> mw u = md q * mw q ->
  (ma u + nbx) / 2 = ma q -> (mb u + nby) / 2 = mb q -> (mc u + nbz) / 2 = mc q ->
  prim_mhd S u nbx nby nbz = q.
Proof.
  intros (G & R1 & _) [A1 A2] H1 H2 H3 H4 H5 HA HB HC. unfold prim_mhd. Rn.
  rewrite H1, H2, H3, H4, H5, (Rmax_left (md q)) by lra.
  replace (1 / 2 * (ma u + nbx)) with (ma q) by lra. replace (1 / 2 * (mb u + nby)) with (mb q) by lra.
  replace (1 / 2 * (mc u + nbz)) with (mc q) by lra. unfold mhd_energy, v_sq, b_sq.
  match goal with |- context [Rmax ?x (md q * smallp S)] => replace x with (mp q) by (field; lra) end.
  rewrite Rmax_left by lra. apply ms_eq; cbn; try reflexivity; field; lra.
Qed.

(** The stores [ws] of a cell give the conserved quantities of [q]; [z] is the z momentum
    before. *)
Definition gas_held (ws : stores) (q : ms R) (z : R) : Prop :=
  (forall old, assign ws ID old = md q /\ assign ws IU old = md q * mu q /\ assign ws IV old = md q * mv q /\
     assign ws IA old = ma q /\ assign ws IB old = mb q /\ assign ws IC old = mc q) /\
  assign ws IW z = md q * mw q.
Definition all_held (S : hset R) (ws : stores) (q : ms R) (z : R) : Prop :=
  gas_held ws q z /\ forall old, assign ws IP old = mhd_energy S q.

Ltac split6 := split; [|split; [|split; [|split; [|split]]]].
Ltac heldgas := split; [intros old; split6|]; asg; unfold gm1, sqr; cbn [md mp mu mv mw ma mb mc hd hp hu hv hw]; Rn;
  try reflexivity; try (field; lra).
Ltac held := split; [heldgas|intros old; asg; unfold mhd_energy, v_sq, b_sq, gm1, sqr;
  cbn [md mp mu mv mw ma mb mc hd hp hu hv hw]; Rn; try reflexivity; try (field; lra)].

Section Held.
Variables (L : mlib R) (m : mesh) (S : hset R) (B : box R) (rnd : nat -> Z -> Z -> Z -> R) (Q : problems R).
Hypothesis HL : libm L.
Hypothesis G : 1 < gamma0 S.

Lemma held_blast_state P (b : bool) z :
  all_held S (mblast_state S P b)
    (in_field (if b then mkhs (b_din P) (b_pin P) 0 0 0 else mkhs (b_dout P) (b_pout P) 0 0 0)
       (if b then b_bxin P else b_bxout P) (if b then b_byin P else b_byout P) (if b then b_bzin P else b_bzout P)) z.
Proof. unfold mblast_state, in_field. destruct b; held. Qed.
Lemma held_blast2 x y e z : 0 <= b_radius (p_blast Q) ->
  all_held S (mblast2 S (p_blast Q) x y) (doc_mhd2 S B Q Blast e x y) z.
Proof.
  intros Hr. unfold mblast2, doc_mhd2, doc_blast, dist2. Rn.
  match goal with |- context [Rlt_dec ?a (?r * ?r)] =>
    assert (Ha : 0 <= a) by (repeat apply Rplus_le_le_0_compat; apply Rle_0_sqr); pose proof (sq_lt a r Hr Ha) as Hsq;
    destruct (Rlt_dec a (r * r)), (Rlt_dec (sqrt a) r) end; try tauto.
  - exact (held_blast_state (p_blast Q) true z).
  - exact (held_blast_state (p_blast Q) false z).
Qed.
Lemma held_blast3 x y t e z : 0 <= b_radius (p_blast Q) ->
  all_held S (mblast3 S (p_blast Q) x y t) (doc_mhd3 S B Q Blast e x y t) z.
Proof.
  intros Hr. unfold mblast3, blast_in3, doc_mhd3, doc_blast, dist3. Rn.
  match goal with |- context [Rlt_dec ?a (?r * ?r)] =>
    assert (Ha : 0 <= a) by (repeat apply Rplus_le_le_0_compat; apply Rle_0_sqr); pose proof (sq_lt a r Hr Ha) as Hsq;
    destruct (Rlt_dec a (r * r)), (Rlt_dec (sqrt a) r) end; try tauto.
  - exact (held_blast_state (p_blast Q) true z).
  - exact (held_blast_state (p_blast Q) false z).
Qed.

Lemma outer2_mhd_region P x y : mimplode_region2 B (i_shape P) x y = outer2_mhd B P x y.
Proof.
  unfold mimplode_region2, outer2_mhd, inside, above, c52. Rn.
  destruct (i_shape P =? 1)%Z; destruct (Rlt_dec _ _); try destruct (Rlt_dec _ _); try reflexivity.
Qed.
Lemma held_implode2 x y e z : unit_or_rest (i_out (p_implode Q)) -> unit_or_rest (i_in (p_implode Q)) ->
  all_held S (mimplode2 S B (p_implode Q) x y) (doc_mhd2 S B Q Implode e x y) z.
Proof.
  intros HO HI. unfold mimplode2, doc_mhd2, doc_implode, in_field. rewrite outer2_mhd_region.
  destruct HO as [(O1 & O2 & O3)|HO], HI as [(I1 & I2 & I3)|HI];
  destruct (outer2_mhd _ _ _ _); held; rewrite ?O1, ?O2, ?I1, ?I2, ?HO, ?HI; field; lra.
Qed.
Lemma held_implode3 x y t e z : unit_or_rest (i_out (p_implode Q)) -> unit_or_rest (i_in (p_implode Q)) ->
  all_held S (mimplode3 S B (p_implode Q) x y t) (doc_mhd3 S B Q Implode e x y t) z.
Proof.
  intros HO HI. unfold mimplode3, doc_mhd3, doc_implode, in_field. rewrite outer3_region.
  destruct HO as [(O1 & O2 & O3)|HO], HI as [(I1 & I2 & I3)|HI];
  destruct (outer3 _ _ _ _ _); held; rewrite ?O1, ?O2, ?O3, ?I1, ?I2, ?I3, ?HO, ?HI; field; lra.
Qed.

Lemma held_briowu2 x y e z : (0 <= w_dir (p_briowu Q) < 2)%Z ->
  all_held S (briowu2 S (p_briowu Q) x y) (doc_mhd2 S B Q BrioWu e x y) z.
Proof.
  intros Hd. unfold briowu2, doc_mhd2, doc_briowu2. Rn.
  assert (D : w_dir (p_briowu Q) = 0%Z \/ w_dir (p_briowu Q) = 1%Z) by lia.
  destruct D as [-> | ->]; change (1 =? 0)%Z with false; change (0 =? 0)%Z with true; cbv iota;
  destruct (Rle_dec _ _); held.
Qed.
Lemma held_briowu3 x y t e z : (0 <= w_dir (p_briowu Q) < 3)%Z ->
  all_held S (briowu3 S (p_briowu Q) x y t) (doc_mhd3 S B Q BrioWu e x y t) z.
Proof.
  intros Hd. unfold briowu3, doc_mhd3, doc_briowu, axis_part. Rn.
  assert (D : (w_dir (p_briowu Q) = 0 \/ w_dir (p_briowu Q) = 1 \/ w_dir (p_briowu Q) = 2)%Z) by lia.
  destruct D as [-> | [-> | ->]];
  repeat match goal with |- context [Z.eqb ?a ?b] =>
    let r := eval vm_compute in (Z.eqb a b) in change (Z.eqb a b) with r end; cbv iota;
  destruct (Rle_dec _ _); held.
Qed.

Lemma held_kh2 i j x y z : kh_on_mhd (p_kh Q) = true -> z = 0 ->
  all_held S (mkh2 L S B rnd (p_kh Q) i j x y) (doc_mhd2 S B Q KelvinHelmholtz (fun n => rnd n i j 0%Z) x y) z.
Proof.
  intros Hk ->. unfold kh_on_mhd in Hk. unfold mkh2, mkh_state2, doc_mhd2, doc_kh2.
  rewrite outer_within, ramp_transition, !mix_between, (lm_sin L HL), (lm_pi L HL) by exact HL.
  destruct (k_rand (p_kh Q)); cbn [orb].
  - destruct (within _ _ _); cbn [negb]; unfold doc_kh_random, in_field, flat, draw; cbn [hd hp hu hv hw]; held.
  - destruct (k_rob (p_kh Q)).
    + unfold doc_kh_smooth2, in_field. held.
    + destruct (k_sine (p_kh Q)); [|discriminate Hk]. unfold doc_kh_sine2, in_field, within, c34. Rn.
      repeat destruct (Rle_dec _ _); cbn [andb]; held.
Qed.
Lemma held_kh3 i j k x y t z : kh_on_mhd (p_kh Q) = true -> k_rand (p_kh Q) = false ->
  all_held S (mkh3 L S B rnd (p_kh Q) i j k x y t) (doc_mhd3 S B Q KelvinHelmholtz (fun n => rnd n i j k) x y t) z.
Proof.
  intros Hk Hr. unfold kh_on_mhd in Hk. unfold mkh3, mkh_state3, doc_mhd3, doc_kh3.
  rewrite ramp_transition, !mix_between, !(lm_sin L HL), (lm_pi L HL) by exact HL. rewrite Hr in *. cbn [orb] in *.
  destruct (k_rob (p_kh Q)).
  - unfold doc_kh_smooth3, in_field, between. held.
  - destruct (k_sine (p_kh Q)); [|discriminate Hk]. unfold doc_kh_sine3, in_field, within, c34. Rn.
    repeat destruct (Rle_dec _ _); cbn [andb]; held.
Qed.

(** Distance from the axis of the rotor. *)
Definition rotor_r (x y : R) : R := dist2 x y ((xmin B + xmax B) / 2) ((ymin B + ymax B) / 2).
Lemma held_rotor2 x y e z : 0 <= t_r0 (p_rotor Q) < t_r1 (p_rotor Q) -> t_r0 (p_rotor Q) < rotor_r x y ->
  all_held S (rotor2 S B (p_rotor Q) x y) (doc_mhd2 S B Q Rotor e x y) z.
Proof.
  intros Hr Hx. unfold rotor2, doc_mhd2, doc_rotor. unfold rotor_r, dist2 in Hx. Rn.
  replace (xmax B + xmin B) with (xmin B + xmax B) by ring. replace (ymax B + ymin B) with (ymin B + ymax B) by ring.
  set (X := x - _) in *. set (Y := y - _) in *. set (r := sqrt _) in *.
  destruct (Rle_dec r (t_r0 (p_rotor Q))); [lra|].
  destruct (Rle_dec r (t_r1 (p_rotor Q))).
  - assert (F : 0 <= (t_r1 (p_rotor Q) - r) / (t_r1 (p_rotor Q) - t_r0 (p_rotor Q))).
    { apply Rmult_le_pos; [lra|left; apply Rinv_0_lt_compat; lra]. }
    set (f := (t_r1 _ - r) / _) in *. clearbody f X Y r. held; field; lra.
  - held.
Qed.
Lemma held_rotor3 x y t e z : 0 <= t_r0 (p_rotor Q) < t_r1 (p_rotor Q) -> t_u0 (p_rotor Q) = 0 ->
  all_held S (rotor3 S B (p_rotor Q) x y) (doc_mhd3 S B Q Rotor e x y t) z.
Proof.
  intros Hr Hu. unfold rotor3, doc_mhd3, doc_rotor. Rn. rewrite Hu.
  replace (xmax B + xmin B) with (xmin B + xmax B) by ring. replace (ymax B + ymin B) with (ymin B + ymax B) by ring.
  set (X := x - _) in *. set (Y := y - _) in *. set (r := sqrt _) in *.
  destruct (Rle_dec r (t_r0 (p_rotor Q))).
  - unfold Rdiv. rewrite Rmult_0_l. generalize (/ t_r0 (p_rotor Q)). intros. held.
  - destruct (Rle_dec r (t_r1 (p_rotor Q))).
    + assert (F : 0 <= (t_r1 (p_rotor Q) - r) / (t_r1 (p_rotor Q) - t_r0 (p_rotor Q))).
      { apply Rmult_le_pos; [lra|left; apply Rinv_0_lt_compat; lra]. }
      set (f := (t_r1 _ - r) / _) in *. clearbody f X Y r. held; field; lra.
    + held.
Qed.

Lemma held_ot2 x y e z : gas_held (ot_vars2 L S x y) (doc_mhd2 S B Q OrszagTang e x y) z.
Proof.
  pose proof PI_RGT_0. pose proof (sqrt_lt_R0 (4 * PI) ltac:(lra)).
  unfold ot_vars2, doc_mhd2, doc_ot2, ot_p, ot_b. rewrite !(lm_sin L HL), !(lm_2pi L HL). Rn.
  replace (2 * (2 * PI)) with (4 * PI) by ring. replace (y * (2 * PI)) with (2 * PI * y) by ring.
  replace (x * (2 * PI)) with (2 * PI * x) by ring. replace (2 * x * (2 * PI)) with (4 * PI * x) by ring. heldgas.
Qed.
Lemma held_ot3 x y t e z : (0 <= o_dir (p_ot Q) < 3)%Z ->
  gas_held (ot_vars3 L S B (p_ot Q) x y t) (doc_mhd3 S B Q OrszagTang e x y t) z.
Proof.
  intros Hd. pose proof PI_RGT_0. pose proof (sqrt_lt_R0 (4 * PI) ltac:(lra)).
  unfold ot_vars3, doc_mhd3, doc_ot3, ot_p, ot_b. rewrite !(lm_sin L HL), !(lm_cos L HL), !(lm_2pi L HL), !(lm_pi L HL). Rn.
  replace (2 * (2 * PI)) with (4 * PI) by ring.
  replace (2 * x * (2 * PI)) with (4 * PI * x) by ring. replace (2 * y * (2 * PI)) with (4 * PI * y) by ring.
  replace (2 * t * (2 * PI)) with (4 * PI * t) by ring.
  replace (y * (2 * PI)) with (2 * PI * y) by ring.
  replace (x * (2 * PI)) with (2 * PI * x) by ring. replace (t * (2 * PI)) with (2 * PI * t) by ring.
  assert (D : (o_dir (p_ot Q) = 0 \/ o_dir (p_ot Q) = 1 \/ o_dir (p_ot Q) = 2)%Z) by lia.
  destruct D as [-> | [-> | ->]];
  repeat match goal with |- context [Z.eqb ?a ?b] =>
    let r := eval vm_compute in (Z.eqb a b) in change (Z.eqb a b) with r end; cbv iota; repeat match goal with |- context [cos ?a] => generalize (cos a); intros ? end; heldgas.
Qed.
End Held.

(** ** C52 *)

(** Where the code does what it documents; [z] is the z momentum in memory before, zero in
    a new array.  Conditions on fields: see C54; on velocities, radii and the z field:
    see the refutations below. *)
Definition as_documented_mhd2 (B : box R) (Q : problems R) (p : problem) (x y z : R) : Prop :=
  match p with
  | Blast => 0 <= b_radius (p_blast Q) /\ b_bzin (p_blast Q) = 0
  | Implode => unit_or_rest (i_out (p_implode Q)) /\ unit_or_rest (i_in (p_implode Q))
  | KelvinHelmholtz => z = 0
  | Rotor => 0 <= t_r0 (p_rotor Q) < t_r1 (p_rotor Q) /\ t_r0 (p_rotor Q) < rotor_r B x y
  | _ => True
  end.
Definition as_documented_mhd3 (m : mesh) (B : box R) (Q : problems R) (p : problem) : Prop :=
  match p with
  | Blast => 0 <= b_radius (p_blast Q)
  | Implode => unit_or_rest (i_out (p_implode Q)) /\ unit_or_rest (i_in (p_implode Q))
  | BrioWu => (w_dir (p_briowu Q) < 2 \/ pos_k B = 0 \/ ny m = nz m)%Z
  | Rotor => 0 <= t_r0 (p_rotor Q) < t_r1 (p_rotor Q) /\ t_u0 (p_rotor Q) = 0
  | _ => True
  end.

Theorem C52_mhd :
  forall (L : mlib R) m S B rnd Q inb name s s', libm L -> mhd_sane S ->
  straight2 Q (problem_mhd name) ->
  execs inb s (init_mhd2 L m S B rnd Q name) s' ->
  forall i j, (0 <= i)%Z -> (i + 1 < isize m)%Z -> (0 <= j)%Z -> (j + 1 < jsize m)%Z ->
  let q := doc_mhd2 S B Q (problem_mhd name) (fun n => rnd n i j 0%Z) (at_x S B m i) (at_y S B m j) in
  as_documented_mhd2 B Q (problem_mhd name) (at_x S B m i) (at_y S B m j) (s (L2 A_U i j IW)) ->
  above_floors S q -> mQ S (field_of A_U s') i j = q.
Proof.
  intros L m S B rnd Q inb name s s' HL HS Hs E i j Hi Hi' Hj Hj' q Hd Ha.
  pose proof HS as (G & Hr & _).
  pose proof (init_mhd2_noIP L m S B rnd Q inb name s s' (straight_one_kernel Q _ Hs) E) as A.
  assert (H : gas_held (mhd_stores2 L m S B rnd Q (problem_mhd name) i j) q (s (L2 A_U i j IW)) /\
    (problem_mhd name <> OrszagTang ->
     forall old, assign (mhd_stores2 L m S B rnd Q (problem_mhd name) i j) IP old = mhd_energy S q) /\ mc q = 0).
  { subst q. rewrite at_x_px, at_y_py in *.
    destruct (problem_mhd name); cbn [straight2 as_documented_mhd2 mhd_stores2] in *; try tauto.
    - destruct (held_implode2 S B Q G (px m S B i) (py m S B j) (fun n => rnd n i j 0%Z) (s (L2 A_U i j IW)));
        [tauto..|]. split; [assumption|]. split; [auto|]. reflexivity.
    - destruct Hs as (_ & _ & Hz). destruct Hd as [Hd Hz'].
      destruct (held_blast2 S B Q G (px m S B i) (py m S B j) (fun n => rnd n i j 0%Z) (s (L2 A_U i j IW)) Hd).
      split; [assumption|]. split; [auto|]. unfold doc_mhd2. destruct (Rlt_dec _ _); cbn; congruence.
    - destruct (held_kh2 L S B rnd Q HL G i j (px m S B i) (py m S B j) (s (L2 A_U i j IW)) Hs Hd).
      split; [assumption|]. split; [auto|]. reflexivity.
    - destruct (held_briowu2 S B Q G (px m S B i) (py m S B j) (fun n => rnd n i j 0%Z) (s (L2 A_U i j IW)) Hs).
      split; [assumption|]. split; [auto|]. unfold doc_mhd2, doc_briowu2.
      destruct (Rle_dec _ _); destruct (_ =? _)%Z; reflexivity.
    - split; [|split; [tauto|]].
      + exact (held_ot2 L S B Q HL (px m S B i) (py m S B j) (fun n => rnd n i j 0%Z) (s (L2 A_U i j IW))).
      + reflexivity.
    - destruct Hd as [H1 H2].
      destruct (held_rotor2 S B Q G (px m S B i) (py m S B j) (fun n => rnd n i j 0%Z) (s (L2 A_U i j IW)) H1 H2).
      split; [assumption|]. split; [auto|]. unfold doc_mhd2, doc_rotor.
      repeat destruct (Rle_dec _ _); reflexivity. }
  destruct H as ((H & HW) & HP & HC).
  assert (V : forall v, v <> IP -> s' (L2 A_U i j v) =
    assign (mhd_stores2 L m S B rnd Q (problem_mhd name) i j) v (s (L2 A_U i j v))) by (intros; apply A; lia || assumption).
  assert (VD : s' (L2 A_U i j ID) = md q) by (rewrite V by discriminate; apply H).
  assert (VU : s' (L2 A_U i j IU) = md q * mu q) by (rewrite V by discriminate; apply H).
  assert (VV : s' (L2 A_U i j IV) = md q * mv q) by (rewrite V by discriminate; apply H).
  assert (VW : s' (L2 A_U i j IW) = md q * mw q) by (rewrite V by discriminate; exact HW).
  assert (VA : s' (L2 A_U i j IA) = ma q) by (rewrite V by discriminate; apply H).
  assert (VB : s' (L2 A_U i j IB) = mb q) by (rewrite V by discriminate; apply H).
  assert (VC : s' (L2 A_U i j IC) = mc q) by (rewrite V by discriminate; apply H).
  assert (VA' : s' (L2 A_U (i + 1) j IA) = ma q).
  { rewrite A by (lia || discriminate).
    rewrite (straight_x2 L m S B rnd Q _ (i + 1) i j _ (s (L2 A_U i j IA)) Hs). apply H. }
  assert (VB' : s' (L2 A_U i (j + 1) IB) = mb q).
  { rewrite A by (lia || discriminate).
    rewrite (straight_y2 L m S B rnd Q _ i (j + 1) j _ (s (L2 A_U i j IB)) Hs). apply H. }
  assert (VP : s' (L2 A_U i j IP) = mhd_energy S q).
  { assert (D : problem_mhd name = OrszagTang \/ problem_mhd name <> OrszagTang)
      by (destruct (problem_mhd name); auto; right; discriminate).
    destruct D as [D|D].
    - destruct (init_ot2_spec L m S B rnd inb Q name s s' D E) as (_ & E2 & _).
      rewrite E2 by lia. unfold ot_has2. replace ((i <? isize m - 1)%Z && (j <? jsize m - 1)%Z) with true by lia.
      unfold ot_e2, sqr, gm1. rewrite VD, VU, VV, VA, VA', VB, VB'. Rn. rewrite (lm_asin L HL).
      assert (HP' : mp q = gamma0 S / (4 * PI)) by (unfold q; rewrite D; reflexivity).
      assert (HW' : mw q = 0) by (unfold q; rewrite D; reflexivity).
      unfold mhd_energy, v_sq, b_sq. rewrite HP', HW', HC. destruct Ha as [Ha _].
      pose proof PI_RGT_0. field. repeat split; lra.
    - assert (O : one_kernel (problem_mhd name)).
      { split; [exact D|intros F; rewrite F in Hs; exact Hs]. }
      rewrite (proj1 (init_mhd2_spec L m S B rnd inb Q name s s' O E)) by lia. apply HP. exact D. }
  unfold mQ, mstate, field_of. apply prim_mhd_back; auto; cbn [md mp mu mv mw ma mb mc].
  - rewrite VA, VA'. lra.
  - rewrite VB, VB'. lra.
  - rewrite VC, HC. Rn. lra.
Qed.
Print Assumptions C52_mhd.

Theorem C52_mhd3d :
  forall (L : mlib R) m S B rnd Q inb name s s', libm L -> mhd_sane S ->
  straight3 Q (problem_mhd name) ->
  execs inb s (init_mhd3 L m S B rnd Q name) s' ->
  forall i j k, (0 <= i)%Z -> (i + 1 < isize m)%Z -> (0 <= j)%Z -> (j + 1 < jsize m)%Z ->
  (0 <= k)%Z -> (k + 1 < ksize m)%Z ->
  let q := doc_mhd3 S B Q (problem_mhd name) (fun n => rnd n i j k) (at_x S B m i) (at_y S B m j) (at_z S B m k) in
  as_documented_mhd3 m B Q (problem_mhd name) ->
  above_floors S q -> mQ3 S (field_of3 A_U s') i j k = q.
Proof.
  intros L m S B rnd Q inb name s s' HL HS Hs E i j k Hi Hi' Hj Hj' Hk Hk' q Hd Ha.
  pose proof HS as (G & Hr & _).
  pose proof (init_mhd3_noIP L m S B rnd Q inb name s s' (straight_one_kernel3 Q _ Hs) E) as A.
  assert (H : gas_held (mhd_stores3 L m S B rnd Q (problem_mhd name) i j k) q (s (mkloc A_U i j k IW)) /\
    (problem_mhd name <> OrszagTang ->
     forall old, assign (mhd_stores3 L m S B rnd Q (problem_mhd name) i j k) IP old = mhd_energy S q)).
  { subst q. rewrite at_x_px, at_y_py, at_z_pz in *.
    destruct (problem_mhd name); cbn [straight3 straight2 as_documented_mhd3 mhd_stores3] in *; try tauto.
    - destruct (held_implode3 S B Q G (px m S B i) (py m S B j) (pz m S B k) (fun n => rnd n i j k) (s (mkloc A_U i j k IW)));
        [tauto..|]. split; [assumption|auto].
    - destruct (held_blast3 S B Q G (px m S B i) (py m S B j) (pz m S B k) (fun n => rnd n i j k) (s (mkloc A_U i j k IW)) Hd).
      split; [assumption|auto].
    - destruct Hs as [Hs1 Hs2].
      destruct (held_kh3 L S B rnd Q HL G i j k (px m S B i) (py m S B j) (pz m S B k) (s (mkloc A_U i j k IW)) Hs1 Hs2).
      split; [assumption|auto].
    - assert (Z : (w_dir (p_briowu Q) < 2)%Z \/ briowu_pz m S B k = pz m S B k).
      { destruct Hd as [Hd|[Hd|Hd]]; [auto|right..]; unfold briowu_pz, pz, centre; [rewrite Hd|rewrite Hd; reflexivity].
        replace (k + ny m * 0)%Z with (k + nz m * 0)%Z by lia. reflexivity. }
      assert (Eq : briowu3 S (p_briowu Q) (px m S B i) (py m S B j) (briowu_pz m S B k) =
                   briowu3 S (p_briowu Q) (px m S B i) (py m S B j) (pz m S B k)).
      { destruct Z as [Z| ->]; [|reflexivity]. unfold briowu3.
        assert (D : (w_dir (p_briowu Q) = 0 \/ w_dir (p_briowu Q) = 1)%Z) by lia. destruct D as [-> | ->]; reflexivity. }
      rewrite Eq.
      destruct (held_briowu3 S B Q G (px m S B i) (py m S B j) (pz m S B k) (fun n => rnd n i j k) (s (mkloc A_U i j k IW)) Hs).
      split; [assumption|auto].
    - split; [|tauto].
      exact (held_ot3 L S B Q HL (px m S B i) (py m S B j) (pz m S B k) (fun n => rnd n i j k) (s (mkloc A_U i j k IW)) Hs).
    - destruct Hd as [H1 H2].
      destruct (held_rotor3 S B Q G (px m S B i) (py m S B j) (pz m S B k) (fun n => rnd n i j k) (s (mkloc A_U i j k IW)) H1 H2).
      split; [assumption|auto]. }
  destruct H as ((H & HW) & HP).
  assert (V : forall v, v <> IP -> s' (mkloc A_U i j k v) =
    assign (mhd_stores3 L m S B rnd Q (problem_mhd name) i j k) v (s (mkloc A_U i j k v))) by (intros; apply A; lia || assumption).
  assert (VD : s' (mkloc A_U i j k ID) = md q) by (rewrite V by discriminate; apply H).
  assert (VU : s' (mkloc A_U i j k IU) = md q * mu q) by (rewrite V by discriminate; apply H).
  assert (VV : s' (mkloc A_U i j k IV) = md q * mv q) by (rewrite V by discriminate; apply H).
  assert (VW : s' (mkloc A_U i j k IW) = md q * mw q) by (rewrite V by discriminate; exact HW).
  assert (VA : s' (mkloc A_U i j k IA) = ma q) by (rewrite V by discriminate; apply H).
  assert (VB : s' (mkloc A_U i j k IB) = mb q) by (rewrite V by discriminate; apply H).
  assert (VC : s' (mkloc A_U i j k IC) = mc q) by (rewrite V by discriminate; apply H).
  assert (VA' : s' (mkloc A_U (i + 1) j k IA) = ma q).
  { rewrite A by (lia || discriminate).
    rewrite (straight_x3 L m S B rnd Q _ (i + 1) j k i _ (s (mkloc A_U i j k IA)) Hs). apply H. }
  assert (VB' : s' (mkloc A_U i (j + 1) k IB) = mb q).
  { rewrite A by (lia || discriminate).
    rewrite (straight_y3 L m S B rnd Q _ i (j + 1) k j _ (s (mkloc A_U i j k IB)) Hs). apply H. }
  assert (VC' : s' (mkloc A_U i j (k + 1) IC) = mc q).
  { rewrite A by (lia || discriminate).
    rewrite (straight_z3 L m S B rnd Q _ i j (k + 1) k _ (s (mkloc A_U i j k IC)) Hs). apply H. }
  assert (VP : s' (mkloc A_U i j k IP) = mhd_energy S q).
  { assert (D : problem_mhd name = OrszagTang \/ problem_mhd name <> OrszagTang)
      by (destruct (problem_mhd name); auto; right; discriminate).
    destruct D as [D|D].
    - destruct (init_ot3_spec L m S B rnd inb Q name s s' D E) as (_ & E2 & _).
      rewrite E2 by lia. unfold ot_has3.
      replace ((i <? isize m - 1)%Z && (j <? jsize m - 1)%Z && (k <? ksize m - 1)%Z) with true by lia.
      unfold ot_e3, sqr, gm1. rewrite VD, VU, VV, VW, VA, VA', VB, VB', VC, VC', (lm_pi L HL). Rn.
      assert (HP' : mp q = gamma0 S / (4 * PI)).
      { unfold q; rewrite D. unfold doc_mhd3, doc_ot3. repeat destruct (_ =? _)%Z; reflexivity. }
      unfold mhd_energy, v_sq, b_sq. rewrite HP'. destruct Ha as [Ha _].
      pose proof PI_RGT_0. field. repeat split; lra.
    - assert (O : one_kernel (problem_mhd name)).
      { split; [exact D|intros F; rewrite F in Hs; exact Hs]. }
      rewrite (proj1 (init_mhd3_spec L m S B rnd inb Q name s s' O E)) by lia. apply HP. exact D. }
  unfold mQ3, mstate3, field_of3. apply prim_mhd_back; auto; cbn [md mp mu mv mw ma mb mc].
  - rewrite VA, VA'. lra.
  - rewrite VB, VB'. lra.
  - rewrite VC, VC'. lra.
Qed.
Print Assumptions C52_mhd3d.

(** ** The field loop *)
Lemma loop_trig : loop_cost = 2 / sqrt 5 /\ loop_sint = 1 / sqrt 5.
Proof.
  assert (H5 : 0 < sqrt 5) by (apply sqrt_lt_R0; lra). pose proof (sqrt_sqrt 5 ltac:(lra)) as E5.
  unfold loop_cost, loop_sint, loop_cost. Rn. split; [reflexivity|].
  replace (1 - 2 / sqrt 5 * (2 / sqrt 5)) with (1 / sqrt 5 * (1 / sqrt 5)).
  - apply sqrt_square. apply Rmult_le_pos; [lra|left; apply Rinv_0_lt_compat; exact H5].
  - replace (2 / sqrt 5 * (2 / sqrt 5)) with (4 / (sqrt 5 * sqrt 5)) by (field; lra).
    replace (1 / sqrt 5 * (1 / sqrt 5)) with (1 / (sqrt 5 * sqrt 5)) by (field; lra). rewrite E5. lra.
Qed.
Lemma px_next m S B i : px m S B (i + 1) = px m S B i + dx S.
Proof. unfold px, centre. Rn. replace (i + 1 + nx m * pos_i B - gw m)%Z with (i + nx m * pos_i B - gw m + 1)%Z by lia. rewrite plus_IZR. ring. Qed.
Lemma py_next m S B j : py m S B (j + 1) = py m S B j + dy S.
Proof. unfold py, centre. Rn. replace (j + 1 + ny m * pos_j B - gw m)%Z with (j + ny m * pos_j B - gw m + 1)%Z by lia. rewrite plus_IZR. ring. Qed.
Lemma loop_at_doc m S B P i j : loop_at m S B P i j = doc_pot P (px m S B i) (py m S B j).
Proof. unfold loop_at, loop_A, doc_pot. Rn. destruct (Rlt_dec _ _); reflexivity. Qed.

(** The gas [q] with pressure [p]. *)
Definition with_p (q : ms R) (p : R) : ms R := mkms (md q) p (mu q) (mv q) (mw q) (ma q) (mb q) (mc q).
(** The z velocity of the 2D field loop: flow along the diagonal of an nx x ny x nz box. *)
Definition loop_w (m : mesh) (P : loop_params R) : R :=
  f_vflow P * IZR (nz m) / sqrt (IZR (nx m * nx m + ny m * ny m + nz m * nz m)).

(** In 2D the pressure is too low by the kinetic energy of the z velocity. *)
Theorem C52_field_loop :
  forall (L : mlib R) m S B rnd Q inb name s s', mhd_sane S -> dx S <> 0 -> dy S <> 0 -> (1 <= gw m)%Z ->
  problem_mhd name = FieldLoop ->
  execs inb s (init_mhd2 L m S B rnd Q name) s' ->
  forall i j, (gw m <= i)%Z -> (i + 1 < isize m - gw m)%Z -> (gw m <= j)%Z -> (j + 1 < jsize m - gw m)%Z ->
  let w := loop_w m (p_loop Q) in
  let q0 := doc_loop S (p_loop Q) w (at_x S B m i) (at_y S B m j) in
  let q := with_p q0 (mp q0 - (gamma0 S - 1) * (1 / 2 * md q0 * (w * w))) in
  above_floors S q -> mQ S (field_of A_U s') i j = q.
Proof.
  intros L m S B rnd Q inb name s s' HS Hx Hy Hg Hl E i j Hi Hi' Hj Hj' w q0 q Ha.
  pose proof HS as (G & Hr & _).
  destruct (init_loop2_spec L m S B rnd inb Q name s s' Hl Hg E) as (A & P & _).
  destruct loop_trig as [T1 T2].
  assert (V : forall a b v, (gw m <= a < isize m - gw m)%Z -> (gw m <= b < jsize m - gw m)%Z -> v <> IP ->
    s' (L2 A_U a b v) = assign (loop_cell2 m S B (p_loop Q) a b) v (s (L2 A_U a b v))).
  { intros a b v Ha1 Hb Hv. rewrite A by (lia || exact Hv). unfold inner2.
    replace (_ && _) with true by lia. reflexivity. }
  assert (VP : s' (L2 A_U i j IP) = loop_e2 S (fun i j v => s' (L2 A_U i j v)) i j).
  { rewrite P by lia. unfold inner2. replace (_ && _) with true by lia. reflexivity. }
  assert (Fd : md q0 = loop_d (p_loop Q) (px m S B i) (py m S B j)).
  { subst q0. rewrite at_x_px, at_y_py. unfold doc_loop, loop_d; cbn [md]. Rn. destruct (Rlt_dec _ _); reflexivity. }
  destruct Ha as [Ha1 Ha2]. change (md q) with (md q0) in Ha1.
  assert (VD : s' (L2 A_U i j ID) = md q0) by (rewrite V by (lia || discriminate); rewrite Fd; reflexivity).
  assert (VU : s' (L2 A_U i j IU) = md q0 * mu q0).
  { rewrite V by (lia || discriminate). change (@eq R (loop_d (p_loop Q) (px m S B i) (py m S B j) * f_vflow (p_loop Q) * loop_cost) (md q0 * mu q0)). rewrite <- Fd, T1. unfold q0, doc_loop; cbn [md mu]. ring. }
  assert (VV : s' (L2 A_U i j IV) = md q0 * mv q0).
  { rewrite V by (lia || discriminate). change (@eq R (loop_d (p_loop Q) (px m S B i) (py m S B j) * f_vflow (p_loop Q) * loop_sint) (md q0 * mv q0)). rewrite <- Fd, T2. unfold q0, doc_loop; cbn [md mv]. ring. }
  assert (VW : s' (L2 A_U i j IW) = md q0 * w).
  { rewrite V by (lia || discriminate). change (@eq R (loop_d (p_loop Q) (px m S B i) (py m S B j) * f_vflow (p_loop Q) * IZR (nz m) / loop_diag m) (md q0 * w)). rewrite <- Fd. unfold w, loop_w, loop_diag. Rn. rewrite Rmult_1_l.
    unfold Rdiv. ring. }
  assert (VC : s' (L2 A_U i j IC) = 0) by (rewrite V by (lia || discriminate); asg; reflexivity).
  assert (FA : (s' (L2 A_U i j IA) + s' (L2 A_U (i + 1) j IA)) / 2 = ma q0).
  { rewrite !V by (lia || discriminate). unfold loop_cell2, loop_cell3; asg. rewrite !loop_at_doc, !px_next, !py_next. Rn.
    unfold q0, doc_loop. rewrite at_x_px, at_y_py. cbn [ma]. rewrite ?Rmult_0_l, ?Rmult_1_l, ?Rplus_0_r. field. exact Hy. }
  assert (FB : (s' (L2 A_U i j IB) + s' (L2 A_U i (j + 1) IB)) / 2 = mb q0).
  { rewrite !V by (lia || discriminate). unfold loop_cell2, loop_cell3; asg. rewrite !loop_at_doc, !px_next, !py_next. Rn.
    unfold q0, doc_loop. rewrite at_x_px, at_y_py. cbn [mb]. rewrite ?Rmult_0_l, ?Rmult_1_l, ?Rplus_0_r. field. exact Hx. }
  unfold mQ, mstate, field_of. apply prim_mhd_back; cbn [md mp mu mv mw ma mb mc]; auto.
  - split; assumption.
  - rewrite VP. unfold loop_e2. rewrite VD, VU, VV. unfold sqr, gm1. Rn.
    replace (s' (L2 A_U i j IA) + s' (L2 A_U (i + 1) j IA)) with (2 * ma q0) by lra.
    replace (s' (L2 A_U i j IB) + s' (L2 A_U i (j + 1) IB)) with (2 * mb q0) by lra.
    unfold mhd_energy, v_sq, b_sq, q, with_p. cbn [md mp mu mv mw ma mb mc].
    replace (mc q0) with 0 by reflexivity. replace (mw q0) with w by reflexivity. replace (mp q0) with 1 by reflexivity.
    field. split; lra.
  - rewrite VC. Rn. change (mc q) with 0. lra.
Qed.
Print Assumptions C52_field_loop.

Theorem C52_field_loop_refuted :
  forall (L : mlib R) m S B rnd Q inb name s s', mhd_sane S -> dx S <> 0 -> dy S <> 0 -> (1 <= gw m)%Z ->
  (nz m <> 0)%Z -> f_vflow (p_loop Q) <> 0 ->
  problem_mhd name = FieldLoop ->
  execs inb s (init_mhd2 L m S B rnd Q name) s' ->
  forall i j, (gw m <= i)%Z -> (i + 1 < isize m - gw m)%Z -> (gw m <= j)%Z -> (j + 1 < jsize m - gw m)%Z ->
  let w := loop_w m (p_loop Q) in
  let q := doc_loop S (p_loop Q) w (at_x S B m i) (at_y S B m j) in
  above_floors S (with_p q (mp q - (gamma0 S - 1) * (1 / 2 * md q * (w * w)))) ->
  mp (mQ S (field_of A_U s') i j) < mp q.
Proof.
  intros L m S B rnd Q inb name s s' HS Hx Hy Hg Hz Hv Hl E i j Hi Hi' Hj Hj' w q Ha.
  rewrite (C52_field_loop L m S B rnd Q inb name s s' HS Hx Hy Hg Hl E i j Hi Hi' Hj Hj' Ha).
  cbn [with_p mp]. fold w. fold q. pose proof HS as (G & Hr & _). destruct Ha as [Ha _]. change (smallr S <= md q) in Ha.
  assert (W : w <> 0).
  { unfold w, loop_w. apply Rmult_integral_contrapositive. split.
    - apply Rmult_integral_contrapositive. split; [exact Hv|]. apply not_0_IZR. exact Hz.
    - apply Rinv_neq_0_compat. apply Rgt_not_eq, sqrt_lt_R0. apply IZR_lt. nia. }
  assert (0 < w * w) by nra. assert (0 < (gamma0 S - 1) * (1 / 2 * md q * (w * w))).
  { apply Rmult_lt_0_compat; [lra|]. apply Rmult_lt_0_compat; [nra|assumption]. }
  lra.
Qed.
Print Assumptions C52_field_loop_refuted.

Theorem C52_field_loop3d :
  forall (L : mlib R) m S B rnd Q inb name s s', mhd_sane S -> dx S <> 0 -> dy S <> 0 -> (1 <= gw m)%Z ->
  problem_mhd name = FieldLoop ->
  execs inb s (init_mhd3 L m S B rnd Q name) s' ->
  forall i j k, (gw m <= i)%Z -> (i + 1 < isize m - gw m)%Z -> (gw m <= j)%Z -> (j + 1 < jsize m - gw m)%Z ->
  (gw m <= k)%Z -> (k + 1 < ksize m - gw m)%Z ->
  let q := doc_loop S (p_loop Q) (f_vflow (p_loop Q)) (at_x S B m i) (at_y S B m j) in
  above_floors S q -> mQ3 S (field_of3 A_U s') i j k = q.
Proof.
  intros L m S B rnd Q inb name s s' HS Hx Hy Hg Hl E i j k Hi Hi' Hj Hj' Hk Hk' q Ha.
  pose proof HS as (G & Hr & _).
  destruct (init_loop3_spec L m S B rnd inb Q name s s' Hl Hg E) as (A & P & _).
  destruct loop_trig as [T1 T2].
  assert (V : forall a b c v, (gw m <= a < isize m - gw m)%Z -> (gw m <= b < jsize m - gw m)%Z ->
    (gw m <= c < ksize m - gw m)%Z -> v <> IP ->
    s' (mkloc A_U a b c v) = assign (loop_cell3 m S B (p_loop Q) a b c) v (s (mkloc A_U a b c v))).
  { intros a b c v Ha1 Hb Hc Hv. rewrite A by (lia || exact Hv). unfold Init.inner3.
    replace (_ && _) with true by lia. reflexivity. }
  assert (VP : s' (mkloc A_U i j k IP) = loop_e3 S (fun i j k v => s' (mkloc A_U i j k v)) i j k).
  { rewrite P by lia. unfold Init.inner3. replace (_ && _) with true by lia. reflexivity. }
  assert (Fd : md q = loop_d (p_loop Q) (px m S B i) (py m S B j)).
  { subst q. rewrite at_x_px, at_y_py. unfold doc_loop, loop_d; cbn [md]. Rn. destruct (Rlt_dec _ _); reflexivity. }
  pose proof Ha as [Ha1 Ha2].
  assert (VD : s' (mkloc A_U i j k ID) = md q) by (rewrite V by (lia || discriminate); rewrite Fd; reflexivity).
  assert (VU : s' (mkloc A_U i j k IU) = md q * mu q).
  { rewrite V by (lia || discriminate). change (@eq R (loop_d (p_loop Q) (px m S B i) (py m S B j) * f_vflow (p_loop Q) * loop_cost) (md q * mu q)). rewrite <- Fd, T1. unfold q, doc_loop; cbn [md mu]. ring. }
  assert (VV : s' (mkloc A_U i j k IV) = md q * mv q).
  { rewrite V by (lia || discriminate). change (@eq R (loop_d (p_loop Q) (px m S B i) (py m S B j) * f_vflow (p_loop Q) * loop_sint) (md q * mv q)). rewrite <- Fd, T2. unfold q, doc_loop; cbn [md mv]. ring. }
  assert (VW : s' (mkloc A_U i j k IW) = md q * mw q).
  { rewrite V by (lia || discriminate). change (@eq R (loop_d (p_loop Q) (px m S B i) (py m S B j) * f_vflow (p_loop Q)) (md q * mw q)). rewrite <- Fd. unfold q, doc_loop; cbn [md mw]. ring. }
  assert (FA : (s' (mkloc A_U i j k IA) + s' (mkloc A_U (i + 1) j k IA)) / 2 = ma q).
  { rewrite !V by (lia || discriminate). unfold loop_cell2, loop_cell3; asg. rewrite !loop_at_doc, !px_next, !py_next. Rn.
    unfold q, doc_loop. rewrite at_x_px, at_y_py. cbn [ma]. unfold Rdiv at 3 5. rewrite Rminus_0_r, !Rmult_0_l, ?Rmult_1_l, ?Rplus_0_r, ?Rminus_0_r. field. exact Hy. }
  assert (FB : (s' (mkloc A_U i j k IB) + s' (mkloc A_U i (j + 1) k IB)) / 2 = mb q).
  { rewrite !V by (lia || discriminate). unfold loop_cell2, loop_cell3; asg. rewrite !loop_at_doc, !px_next, !py_next. Rn.
    unfold q, doc_loop. rewrite at_x_px, at_y_py. cbn [mb]. rewrite (Rminus_0_r 0). unfold Rdiv. rewrite ?Rmult_0_l, ?Rmult_1_l, ?Rplus_0_r. field. exact Hx. }
  assert (FC : forall k, (gw m <= k < ksize m - gw m)%Z -> s' (mkloc A_U i j k IC) = 0).
  { intros k' Hk2. rewrite V by (lia || discriminate). unfold loop_cell2, loop_cell3; asg. Rn. unfold Rdiv. ring. }
  unfold mQ3, mstate3, field_of3. apply prim_mhd_back; cbn [md mp mu mv mw ma mb mc]; auto.
  - rewrite VP. unfold loop_e3. rewrite VD, VU, VV, VW, !FC by lia. unfold sqr, gm1. Rn.
    replace (s' (mkloc A_U i j k IA) + s' (mkloc A_U (i + 1) j k IA)) with (2 * ma q) by lra.
    replace (s' (mkloc A_U i j k IB) + s' (mkloc A_U i (j + 1) k IB)) with (2 * mb q) by lra.
    unfold mhd_energy, v_sq, b_sq.
    replace (mc q) with 0 by reflexivity. replace (mp q) with 1 by reflexivity.
    field. split; lra.
  - rewrite !FC by lia. change (mc q) with 0. lra.
Qed.
Print Assumptions C52_field_loop3d.

(** ** Where the code does something else *)
Lemma speeds S u nbx nby nbz : smallr S <= md u ->
  md (prim_mhd S u nbx nby nbz) = md u /\ mu (prim_mhd S u nbx nby nbz) = mu u / md u /\
  mv (prim_mhd S u nbx nby nbz) = mv u / md u /\ mw (prim_mhd S u nbx nby nbz) = mw u / md u.
Proof. intros H. unfold prim_mhd. Rn. rewrite Rmax_left by lra. cbn. auto. Qed.

(** The implosion stores the velocities in the place of the momenta. *)
Theorem C52_mhd_implode_refuted :
  forall (L : mlib R) m S B rnd Q inb name s s', problem_mhd name = Implode ->
  execs inb s (init_mhd2 L m S B rnd Q name) s' ->
  forall i j, (0 <= i < isize m)%Z -> (0 <= j < jsize m)%Z ->
  let q := doc_mhd2 S B Q Implode (fun n => rnd n i j 0%Z) (at_x S B m i) (at_y S B m j) in
  0 < smallr S <= md q ->
  mu (mQ S (field_of A_U s') i j) = mu q / md q /\ mv (mQ S (field_of A_U s') i j) = mv q / md q /\
  (md q <> 1 -> mu q <> 0 -> mQ S (field_of A_U s') i j <> q).
Proof.
  intros L m S B rnd Q inb name s s' Hn E i j Hi Hj q Hr.
  assert (O : one_kernel (problem_mhd name)) by (rewrite Hn; split; discriminate).
  pose proof (proj1 (init_mhd2_spec L m S B rnd inb Q name s s' O E)) as A. rewrite Hn in A.
  assert (V : s' (L2 A_U i j ID) = md q /\ s' (L2 A_U i j IU) = mu q /\ s' (L2 A_U i j IV) = mv q).
  { rewrite !A by assumption. unfold q. rewrite at_x_px, at_y_py. cbn [mhd_stores2]. unfold mimplode2, doc_mhd2, doc_implode, in_field.
    rewrite outer2_mhd_region. destruct (outer2_mhd _ _ _ _); repeat split. }
  destruct V as (V1 & V2 & V3).
  assert (H : mu (mQ S (field_of A_U s') i j) = mu q / md q /\ mv (mQ S (field_of A_U s') i j) = mv q / md q).
  { unfold mQ. rewrite <- V1, <- V2, <- V3. split; apply speeds; cbn; unfold field_of; rewrite V1; apply Hr. }
  destruct H as [H1 H2]. split; [exact H1|]. split; [exact H2|]. intros N1 N2 F. rewrite F in H1.
  apply N1. apply (Rmult_eq_reg_l (mu q)); [|exact N2]. rewrite H1 at 1. field. lra.
Qed.
Print Assumptions C52_mhd_implode_refuted.
Theorem C52_mhd3d_implode_refuted :
  forall (L : mlib R) m S B rnd Q inb name s s', problem_mhd name = Implode ->
  execs inb s (init_mhd3 L m S B rnd Q name) s' ->
  forall i j k, (0 <= i < isize m)%Z -> (0 <= j < jsize m)%Z -> (0 <= k < ksize m)%Z ->
  let q := doc_mhd3 S B Q Implode (fun n => rnd n i j k) (at_x S B m i) (at_y S B m j) (at_z S B m k) in
  0 < smallr S <= md q ->
  mu (mQ3 S (field_of3 A_U s') i j k) = mu q / md q /\ mv (mQ3 S (field_of3 A_U s') i j k) = mv q / md q /\
  mw (mQ3 S (field_of3 A_U s') i j k) = mw q / md q /\
  (md q <> 1 -> mu q <> 0 -> mQ3 S (field_of3 A_U s') i j k <> q).
Proof.
  intros L m S B rnd Q inb name s s' Hn E i j k Hi Hj Hk q Hr.
  assert (O : one_kernel (problem_mhd name)) by (rewrite Hn; split; discriminate).
  pose proof (proj1 (init_mhd3_spec L m S B rnd inb Q name s s' O E)) as A. rewrite Hn in A.
  assert (V : s' (mkloc A_U i j k ID) = md q /\ s' (mkloc A_U i j k IU) = mu q /\ s' (mkloc A_U i j k IV) = mv q /\ s' (mkloc A_U i j k IW) = mw q).
  { rewrite !A by assumption. unfold q. rewrite at_x_px, at_y_py, at_z_pz. cbn [mhd_stores3]. unfold mimplode3, doc_mhd3, doc_implode, in_field.
    rewrite outer3_region. destruct (outer3 _ _ _ _ _); repeat split. }
  destruct V as (V1 & V2 & V3 & V4).
  assert (H : mu (mQ3 S (field_of3 A_U s') i j k) = mu q / md q /\ mv (mQ3 S (field_of3 A_U s') i j k) = mv q / md q /\
              mw (mQ3 S (field_of3 A_U s') i j k) = mw q / md q).
  { unfold mQ3. rewrite <- V1, <- V2, <- V3, <- V4. repeat split; apply speeds; cbn; unfold field_of3; rewrite V1; apply Hr. }
  destruct H as (H1 & H2 & H3). split; [exact H1|]. split; [exact H2|]. split; [exact H3|]. intros N1 N2 F. rewrite F in H1.
  apply N1. apply (Rmult_eq_reg_l (mu q)); [|exact N2]. rewrite H1 at 1. field. lra.
Qed.
Print Assumptions C52_mhd3d_implode_refuted.

(** The 2D rotor turns too fast inside [r0]: the factor of the transition is applied there
    too, where it is greater than 1. *)
Theorem C52_rotor_refuted :
  forall (L : mlib R) m S B rnd Q inb name s s', problem_mhd name = Rotor ->
  execs inb s (init_mhd2 L m S B rnd Q name) s' ->
  forall i j, (0 <= i < isize m)%Z -> (0 <= j < jsize m)%Z ->
  let P := p_rotor Q in
  let r := rotor_r B (at_x S B m i) (at_y S B m j) in
  let q := doc_mhd2 S B Q Rotor (fun n => rnd n i j 0%Z) (at_x S B m i) (at_y S B m j) in
  r < t_r0 P < t_r1 P -> 0 < smallr S <= 10 ->
  exists f, 1 < f /\ mu (mQ S (field_of A_U s') i j) = f * mu q /\ mv (mQ S (field_of A_U s') i j) = f * mv q.
Proof.
  intros L m S B rnd Q inb name s s' Hn E i j Hi Hj P r q Hr Hs.
  assert (O : one_kernel (problem_mhd name)) by (rewrite Hn; split; discriminate).
  pose proof (proj1 (init_mhd2_spec L m S B rnd inb Q name s s' O E)) as A. rewrite Hn in A.
  set (f := (t_r1 P - r) / (t_r1 P - t_r0 P)). exists f.
  assert (H0 : 0 <= r) by apply sqrt_pos.
  split.
  { unfold f. apply (Rmult_lt_reg_r (t_r1 P - t_r0 P)); [lra|].
    replace ((t_r1 P - r) / (t_r1 P - t_r0 P) * (t_r1 P - t_r0 P)) with (t_r1 P - r) by (field; lra). lra. }
  assert (V : s' (L2 A_U i j ID) = 10 /\ s' (L2 A_U i j IU) = 10 * (f * mu q) /\ s' (L2 A_U i j IV) = 10 * (f * mv q)).
  { rewrite !A by assumption. cbn [mhd_stores2]. unfold f, q, r, rotor_r, dist2 in *. rewrite at_x_px, at_y_py in *.
    unfold rotor2, doc_mhd2, doc_rotor. fold P. Rn.
    replace (xmax B + xmin B) with (xmin B + xmax B) by ring. replace (ymax B + ymin B) with (ymin B + ymax B) by ring.
    set (X := px m S B i - _) in *. set (Y := py m S B j - _) in *. set (ra := sqrt (X * X + Y * Y)) in *.
    destruct (Rle_dec ra (t_r0 P)); [|lra]. asg. cbn [mu mv]. repeat split; field; lra. }
  destruct V as (V1 & V2 & V3). unfold mQ.
  destruct (speeds S (mstate (field_of A_U s') i j) (field_of A_U s' (i + 1)%Z j IA) (field_of A_U s' i (j + 1)%Z IB) n0) as (_ & U1 & U2 & _).
  - cbn; unfold field_of; rewrite V1; lra.
  - rewrite U1, U2. unfold mstate, field_of. cbn [md mu mv]. rewrite V1, V2, V3. clearbody q f. split; field.
Qed.
Print Assumptions C52_rotor_refuted.

(** The 3D rotor stores velocities in the place of momenta. *)
Theorem C52_rotor3d_refuted :
  forall (L : mlib R) m S B rnd Q inb name s s', problem_mhd name = Rotor ->
  execs inb s (init_mhd3 L m S B rnd Q name) s' ->
  forall i j k, (0 <= i < isize m)%Z -> (0 <= j < jsize m)%Z -> (0 <= k < ksize m)%Z ->
  let P := p_rotor Q in
  let q := doc_mhd3 S B Q Rotor (fun n => rnd n i j k) (at_x S B m i) (at_y S B m j) (at_z S B m k) in
  0 < t_r0 P < t_r1 P -> 0 < smallr S <= md q ->
  mu (mQ3 S (field_of3 A_U s') i j k) = mu q / md q /\ mv (mQ3 S (field_of3 A_U s') i j k) = mv q / md q /\
  (md q <> 1 -> mu q <> 0 -> mQ3 S (field_of3 A_U s') i j k <> q).
Proof.
  intros L m S B rnd Q inb name s s' Hn E i j k Hi Hj Hk P q Hr Hs.
  assert (O : one_kernel (problem_mhd name)) by (rewrite Hn; split; discriminate).
  pose proof (proj1 (init_mhd3_spec L m S B rnd inb Q name s s' O E)) as A. rewrite Hn in A.
  assert (V : s' (mkloc A_U i j k ID) = md q /\ s' (mkloc A_U i j k IU) = mu q /\ s' (mkloc A_U i j k IV) = mv q).
  { rewrite !A by assumption. cbn [mhd_stores3]. unfold q in *. rewrite at_x_px, at_y_py, at_z_pz in *.
    unfold rotor3, doc_mhd3, doc_rotor. fold P. Rn.
    replace (xmax B + xmin B) with (xmin B + xmax B) by ring. replace (ymax B + ymin B) with (ymin B + ymax B) by ring.
    set (X := px m S B i - _) in *. set (Y := py m S B j - _) in *. set (ra := sqrt (X * X + Y * Y)) in *.
    destruct (Rle_dec ra (t_r0 P)); [|destruct (Rle_dec ra (t_r1 P))]; asg; cbn [md mu mv]; repeat split; try lra; field; lra. }
  destruct V as (V1 & V2 & V3).
  assert (H : mu (mQ3 S (field_of3 A_U s') i j k) = mu q / md q /\ mv (mQ3 S (field_of3 A_U s') i j k) = mv q / md q).
  { unfold mQ3. rewrite <- V1, <- V2, <- V3. split; apply speeds; cbn; unfold field_of3; rewrite V1; apply Hs. }
  destruct H as (H1 & H2). split; [exact H1|]. split; [exact H2|]. intros N1 N2 F. rewrite F in H1.
  apply N1. apply (Rmult_eq_reg_l (mu q)); [|exact N2]. rewrite H1 at 1. field. lra.
Qed.
Print Assumptions C52_rotor3d_refuted.

(** The 2D blast with a field along z: half of it is seen, and its energy heats the gas. *)
Theorem C52_mhd_blast_refuted :
  forall (L : mlib R) m S B rnd Q inb name s s', mhd_sane S -> problem_mhd name = Blast ->
  straight2 Q Blast -> 0 <= b_radius (p_blast Q) ->
  execs inb s (init_mhd2 L m S B rnd Q name) s' ->
  forall i j, (0 <= i)%Z -> (i + 1 < isize m)%Z -> (0 <= j)%Z -> (j + 1 < jsize m)%Z ->
  let q := doc_mhd2 S B Q Blast (fun n => rnd n i j 0%Z) (at_x S B m i) (at_y S B m j) in
  above_floors S q ->
  mc (mQ S (field_of A_U s') i j) = mc q / 2 /\
  mp (mQ S (field_of A_U s') i j) = mp q + (gamma0 S - 1) * (3 / 8 * (mc q * mc q)).
Proof.
  intros L m S B rnd Q inb name s s' HS Hn Hs Hr E i j Hi Hi' Hj Hj' q Ha.
  pose proof HS as (G & Hsr & _).
  assert (O : one_kernel (problem_mhd name)) by (rewrite Hn; split; discriminate).
  pose proof (proj1 (init_mhd2_spec L m S B rnd inb Q name s s' O E)) as A. rewrite Hn in A.
  destruct (held_blast2 S B Q G (px m S B i) (py m S B j) (fun n => rnd n i j 0%Z) 0 Hr) as [[H HW] HP].
  rewrite <- at_x_px, <- at_y_py in H, HW, HP. fold q in H, HW, HP. rewrite at_x_px, at_y_py in H, HW, HP.
  assert (V0 : forall v old, assign (mhd_stores2 L m S B rnd Q Blast i j) v old = assign (mblast2 S (p_blast Q) (px m S B i) (py m S B j)) v old) by reflexivity.
  set (q' := with_p q (mp q + (gamma0 S - 1) * (3 / 8 * (mc q * mc q)))).
  set (q2 := mkms (md q') (mp q') (mu q') (mv q') (mw q') (ma q') (mb q') (mc q / 2)).
  assert (HWv : forall old, assign (mblast2 S (p_blast Q) (px m S B i) (py m S B j)) IW old = md q * mw q).
  { intros old. rewrite <- HW. unfold mblast2, mblast_state. destruct (_ <? _)%num; reflexivity. }
  assert (F : mQ S (field_of A_U s') i j = q2).
  { unfold mQ, mstate, field_of.
    assert (Hd : 0 <= mc q * mc q) by nra.
    assert (Hx : forall old, assign (mhd_stores2 L m S B rnd Q Blast (i + 1) j) IA old = ma q).
    { intros old. rewrite (straight_x2 L m S B rnd Q Blast (i + 1) i j old old Hs). rewrite V0. apply H. }
    assert (Hy : forall old, assign (mhd_stores2 L m S B rnd Q Blast i (j + 1)) IB old = mb q).
    { intros old. rewrite (straight_y2 L m S B rnd Q Blast i (j + 1) j old old Hs). rewrite V0. apply H. }
    rewrite !A by lia. rewrite Hx, Hy, !V0.
    apply prim_mhd_back; cbn [md mp mu mv mw ma mb mc]; auto.
    - destruct Ha as [Ha1 Ha2]. split; [exact Ha1|]. unfold q2, q', with_p; cbn [md mp]. nra.
    - apply H.
    - rewrite HP. unfold mhd_energy, v_sq, b_sq, q2, q', with_p; cbn [md mp mu mv mw ma mb mc]. field. lra.
    - apply H.
    - apply H.
    - rewrite ?V0. destruct (H (s (L2 A_U i j IA))) as (_ & _ & _ & -> & _). unfold q2, q', with_p; cbn [ma]. lra.
    - rewrite ?V0. destruct (H (s (L2 A_U i j IB))) as (_ & _ & _ & _ & -> & _). unfold q2, q', with_p; cbn [mb]. lra.
    - rewrite ?V0. destruct (H (s (L2 A_U i j IC))) as (_ & _ & _ & _ & _ & ->). Rn. unfold q2; cbn [mc]. lra. }
  rewrite F. split; reflexivity.
Qed.
Print Assumptions C52_mhd_blast_refuted.

(** The hypotheses hold: the loop of C54 at cell (4,4), the default rotor and blast. *)
Example C52_mhd_case :
  let S := derive (7/5) (1/10000000000) (1/10000000000) 1 (4/5) R_HLLD 1 1 1 in
  let q := doc_loop S ex_loop (loop_w ex_mhd2 ex_loop) (at_x S ex_loop_box ex_mhd2 4) (at_y S ex_loop_box ex_mhd2 4) in
  mhd_sane S /\ dx S <> 0 /\ dy S <> 0 /\ (1 <= gw ex_mhd2)%Z /\ (nz ex_mhd2 <> 0)%Z /\ f_vflow ex_loop <> 0 /\
  (gw ex_mhd2 <= 4)%Z /\ (4 + 1 < isize ex_mhd2 - gw ex_mhd2)%Z /\ (4 + 1 < jsize ex_mhd2 - gw ex_mhd2)%Z /\
  md q = 1 /\
  above_floors S (with_p q (mp q - (gamma0 S - 1) * (1 / 2 * md q * (loop_w ex_mhd2 ex_loop * loop_w ex_mhd2 ex_loop)))).
Proof.
  intros S q.
  assert (D : md q = 1). { unfold q, doc_loop. cbn [md ex_loop f_din]. destruct (Rlt_dec _ _); reflexivity. }
  repeat match goal with |- _ /\ _ => split end; try exact D; try (cbn; lra); try (cbn; lia); try (cbn; discriminate); try (cbn; intros; lra); try (vm_compute; reflexivity).
  - unfold mhd_sane; cbn; lra.
  - split; [unfold with_p; cbn [md]; rewrite D; cbn; lra|]. unfold with_p; cbn [md mp]. rewrite D. change (mp q) with 1.
    assert (W : loop_w ex_mhd2 ex_loop * loop_w ex_mhd2 ex_loop <= 1).
    { unfold loop_w. cbn [f_vflow ex_loop].
      change (nx ex_mhd2 * nx ex_mhd2 + ny ex_mhd2 * ny ex_mhd2 + nz ex_mhd2 * nz ex_mhd2)%Z with 26%Z. change (nz ex_mhd2) with 1%Z.
      assert (1 <= sqrt 26). { rewrite <- sqrt_1 at 1. apply sqrt_le_1; lra. }
      assert (0 < / sqrt 26 <= 1). { split; [apply Rinv_0_lt_compat; lra|]. rewrite <- Rinv_1. apply Rinv_le_contravar; lra. }
      unfold Rdiv. nra. }
    cbn [gamma0 S derive smallp]. cbn. cbn in W. lra.
Qed.

(** Orszag-Tang at every point; a rotor with the default parameters at its axis and half
    way through its transition. *)
Example C52_mhd_states_case :
  let S := ex_set R_HLLD 1 in
  let Q := mkrotor R (1/10) (115/1000) 2 1 (5 / sqrt (4 * PI)) in
  let B := mkbox R 0 1 0 1 0 1 0 0 0 in
  mhd_sane S /\ (forall x y, above_floors S (doc_ot2 S x y)) /\
  rotor_r B (1/2) (1/2) < t_r0 Q < t_r1 Q /\
  t_r0 Q < rotor_r B (6075/10000) (1/2) < t_r1 Q /\ above_floors S (doc_rotor B Q (6075/10000) (1/2)) /\
  md (doc_rotor B Q (6075/10000) (1/2)) = 55/10.
Proof.
  intros S Q B.
  assert (R0 : rotor_r B (1/2) (1/2) = 0).
  { unfold rotor_r, dist2. cbn. replace ((1 / 2 - (0 + 1) / 2) * (1 / 2 - (0 + 1) / 2) + (1 / 2 - (0 + 1) / 2) * (1 / 2 - (0 + 1) / 2)) with 0 by lra.
    apply sqrt_0. }
  assert (R1 : rotor_r B (6075/10000) (1/2) = 1075/10000).
  { unfold rotor_r, dist2. cbn.
    match goal with |- sqrt ?a = _ => replace a with ((1075/10000) * (1075/10000)) by lra end. apply sqrt_square. lra. }
  assert (D : md (doc_rotor B Q (6075/10000) (1/2)) = 55/10 /\ mp (doc_rotor B Q (6075/10000) (1/2)) = 1).
  { unfold rotor_r, dist2 in R1. unfold doc_rotor. rewrite R1. cbn [t_r0 t_r1 Q].
    destruct (Rle_dec _ _); [lra|]. destruct (Rle_dec _ _); [|lra]. cbn [md mp t_p0]. split; [field_simplify; lra|reflexivity]. }
  destruct D as [D1 D2].
  split; [unfold mhd_sane; cbn; lra|]. split.
  { intros x y. pose proof PI_RGT_0. assert (P4 : PI <= 4) by apply PI_4. unfold above_floors, doc_ot2, ot_p. cbn.
    assert (I : 1 / 4 <= / PI) by (unfold Rdiv; rewrite Rmult_1_l; apply Rinv_le_contravar; lra).
    replace (7 / 5 / (4 * PI)) with (7 / 20 * / PI) by (field; lra). split; lra. }
  rewrite R0, R1. cbn [t_r0 t_r1 Q]. split; [lra|]. split; [lra|]. split; [|exact D1].
  split; rewrite ?D1, ?D2; cbn; lra.
Qed.
