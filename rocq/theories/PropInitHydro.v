(** * C52: the initial arrays hold the documented gas (hydrodynamics) *)
From Coq Require Import ZArith List Bool String Lia ZifyBool Reals Lra Psatz.
From Verif Require Import Num Exec ExecFacts Grid GridFacts HydroNum HydroPhysics Kernels EulerSpec
  Hydro2D Hydro3D Hydro2DSpec Hydro3DSpec Hydro2DRun Hydro3DRun PropPhysics Params Init InitFacts InitSpec PropInit.
Import ListNotations.
Local Open Scope R_scope.

(** The solver's conversion of the conserved quantities of a gas above the floors. *)
Lemma prim2_back S q : sane S -> admissible S q -> hw q = 0 ->
  fst (prim2 S (mk2 (hd q) (energy S false q) (hd q * hu q) (hd q * hv q))) = q.
Proof.
  intros (G & R1 & _) [A1 A2] Hw. unfold prim2, mk2, energy, vel2. cbn [hd hp hu hv hw fst]. Rn.
  rewrite (Rmax_left (hd q)) by lra.
  match goal with |- context [Rmax ?x (hd q * smallp S)] => replace x with (hp q) by (field; lra) end.
  rewrite Rmax_left by lra. apply hs_eq; cbn [hd hp hu hv hw]; try reflexivity; try (field; lra). lra.
Qed.
Lemma prim3_back S q : sane S -> admissible S q ->
  fst (prim3 S (mkhs (hd q) (energy S true q) (hd q * hu q) (hd q * hv q) (hd q * hw q))) = q.
Proof.
  intros (G & R1 & _) [A1 A2]. unfold prim3, energy, vel2. cbn [hd hp hu hv hw fst]. Rn.
  rewrite (Rmax_left (hd q)) by lra.
  match goal with |- context [Rmax ?x (hd q * smallp S)] => replace x with (hp q) by (field; lra) end.
  rewrite Rmax_left by lra. apply hs_eq; cbn [hd hp hu hv hw]; try reflexivity; field; lra.
Qed.

(** The arrays hold the conserved quantities of [q] in every variable. *)
Definition holds2 (S : hset R) (ws : stores) (q : hs R) : Prop :=
  hw q = 0 /\ forall old,
  assign ws ID old = hd q /\ assign ws IP old = energy S false q /\
  assign ws IU old = hd q * hu q /\ assign ws IV old = hd q * hv q.
Definition holds3 (S : hset R) (ws : stores) (q : hs R) : Prop :=
  forall old,
  assign ws ID old = hd q /\ assign ws IP old = energy S true q /\
  assign ws IU old = hd q * hu q /\ assign ws IV old = hd q * hv q /\ assign ws IW old = hd q * hw q.

Lemma at_x_px m S B i : at_x S B m i = px m S B i.
Proof. unfold at_x, px, centre. Rn. lra. Qed.
Lemma at_y_py m S B i : at_y S B m i = py m S B i.
Proof. unfold at_y, py, centre. Rn. lra. Qed.
Lemma at_z_pz m S B i : at_z S B m i = pz m S B i.
Proof. unfold at_z, pz, centre. Rn. lra. Qed.

Lemma sq_lt a r : 0 <= r -> 0 <= a -> (a < r * r <-> sqrt a < r).
Proof.
  intros Hr Ha. split; intros H.
  - rewrite <- (sqrt_square r) by lra. apply sqrt_lt_1; nra.
  - pose proof (sqrt_sqrt a Ha). pose proof (sqrt_pos a). nra.
Qed.

(** Where the code does what it documents: it stores velocities as momenta (implode), has
    no kinetic energy (Rayleigh-Taylor), no sine perturbation (hydro Kelvin-Helmholtz) and a z
    momentum (Gresho in 3D); see the refutations below. *)
Definition at_rest (s : gas R) : Prop := g_u s = 0 /\ g_v s = 0 /\ g_w s = 0.
(** The velocities are stored as momenta: right for a gas at rest or of density 1. *)
Definition unit_or_rest (g : gas R) : Prop := at_rest g \/ g_rho g = 1.
Definition as_documented (S : hset R) (d3 : bool) (Q : problems R) (p : problem) (q : hs R) : Prop :=
  match p with
  | Blast => 0 <= b_radius (p_blast Q)
  | KelvinHelmholtz => kh_on (p_kh Q) = true
  | Gresho => d3 = true -> hv q = 0
  | FourQuadrant => True
  | IsentropicVortex => 0 < v_T (p_vortex Q) /\ 0 < hp q / hd q
  | RayleighTaylor => hv q = 0 /\ hw q = 0
  | _ => unit_or_rest (i_out (p_implode Q)) /\ unit_or_rest (i_in (p_implode Q))
  end.

Ltac asg := cbn [assign fst snd]; repeat match goal with |- context [Z.eqb ?a ?b] =>
  let r := eval vm_compute in (Z.eqb a b) in change (Z.eqb a b) with r end; cbv iota.
Ltac split4 := split; [|split; [|split]].
Ltac split5 := split; [|split; [|split; [|split]]].

Section C52.
Variables (L : mlib R) (m : mesh) (S : hset R) (B : box R) (rnd : nat -> Z -> Z -> Z -> R) (Q : problems R).
Hypothesis HL : libm L.
Hypothesis HS : sane S.

Lemma holds_blast2 x y : 0 <= b_radius (p_blast Q) ->
  holds2 S (blast2 S (p_blast Q) x y) (doc_blast (dist2 x y (b_cx (p_blast Q)) (b_cy (p_blast Q))) (p_blast Q)).
Proof.
  intros Hr. destruct HS as (G & _). unfold blast2, doc_blast, dist2. Rn.
  match goal with |- context [Rlt_dec ?a (?r * ?r)] =>
    assert (Ha : 0 <= a) by (repeat apply Rplus_le_le_0_compat; apply Rle_0_sqr); pose proof (sq_lt a r Hr Ha) as Hsq; destruct (Rlt_dec a (r * r)), (Rlt_dec (sqrt a) r) end; try tauto;
  (split; [reflexivity|intros old; split4; asg; unfold energy, vel2, gm1; cbn [hd hp hu hv hw]; Rn; try reflexivity; field; lra]).
Qed.
Lemma holds_blast3 x y z : 0 <= b_radius (p_blast Q) ->
  holds3 S (blast3 S (p_blast Q) x y z)
    (doc_blast (dist3 x y z (b_cx (p_blast Q)) (b_cy (p_blast Q)) (b_cz (p_blast Q))) (p_blast Q)).
Proof.
  intros Hr. destruct HS as (G & _). unfold blast3, blast_in3, doc_blast, dist3. Rn.
  match goal with |- context [Rlt_dec ?a (?r * ?r)] =>
    assert (Ha : 0 <= a) by (repeat apply Rplus_le_le_0_compat; apply Rle_0_sqr); pose proof (sq_lt a r Hr Ha) as Hsq; destruct (Rlt_dec a (r * r)), (Rlt_dec (sqrt a) r) end; try tauto;
  (intros old; split5; asg; unfold energy, vel2, gm1; cbn [hd hp hu hv hw]; Rn; try reflexivity; field; lra).
Qed.

Lemma outer2_region P x y : implode_region2 B (i_shape P) x y = outer2 B P x y.
Proof.
  unfold implode_region2, outer2, inside, above, c32. Rn.
  destruct (i_shape P =? 1)%Z; destruct (Rlt_dec _ _); try destruct (Rlt_dec _ _); try reflexivity.
Qed.
Lemma outer3_region P x y z : implode_region3 B (i_shape P) x y z = outer3 B P x y z.
Proof.
  unfold implode_region3, outer3, inside, above, c52. Rn.
  destruct (i_shape P =? 1)%Z; destruct (Rlt_dec _ _); try destruct (Rlt_dec _ _); try reflexivity.
Qed.
Lemma holds_implode2 P x y : unit_or_rest (i_out P) -> unit_or_rest (i_in P) ->
  holds2 S (implode2 S B P x y) (doc_implode false (outer2 B P x y) P).
Proof.
  intros HO HI. destruct HS as (G & _). unfold implode2, doc_implode. rewrite outer2_region. Rn.
  destruct (outer2 B P x y);
  destruct HO as [(O1 & O2 & O3)|HO], HI as [(I1 & I2 & I3)|HI];
  (split; [reflexivity|intros old; split4; asg; unfold energy, vel2, gm1; cbn [hd hp hu hv hw]; Rn;
    rewrite ?O1, ?O2, ?I1, ?I2, ?HO, ?HI; try reflexivity; field; lra]).
Qed.
Lemma holds_implode3 P x y z : unit_or_rest (i_out P) -> unit_or_rest (i_in P) ->
  holds3 S (implode3 S B P x y z) (doc_implode true (outer3 B P x y z) P).
Proof.
  intros HO HI. destruct HS as (G & _). unfold implode3, doc_implode. rewrite outer3_region. Rn.
  destruct (outer3 B P x y z);
  destruct HO as [(O1 & O2 & O3)|HO], HI as [(I1 & I2 & I3)|HI];
  (intros old; split5; asg; unfold energy, vel2, gm1; cbn [hd hp hu hv hw]; Rn;
    rewrite ?O1, ?O2, ?O3, ?I1, ?I2, ?I3, ?HO, ?HI; try reflexivity; field; lra).
Qed.

Lemma ramp_transition P y : ramp L P y = transition (k_delta P) y.
Proof. unfold ramp, transition, c34. rewrite !(lm_exp L HL). Rn. unfold Rdiv. rewrite !Rmult_1_l. reflexivity. Qed.
Lemma mix_between a b r : mix (T := R) a b r = between a b r.
Proof. unfold mix, between. Rn. ring. Qed.
Lemma outer_within lo hi y : kh_outer (T := R) lo hi y = negb (within (1 / 4) (height lo hi y) (3 / 4)).
Proof.
  unfold kh_outer, within, height, c34. Rn.
  repeat match goal with |- context [Rlt_dec ?a ?b] => destruct (Rlt_dec a b) end;
  repeat match goal with |- context [Rle_dec ?a ?b] => destruct (Rle_dec a b) end; try reflexivity; exfalso; lra.
Qed.
Lemma holds_kh2 i j x y : kh_on (p_kh Q) = true ->
  holds2 S (kh2 L S B rnd (p_kh Q) i j x y) (doc_kh2 B (p_kh Q) (fun n => rnd n i j 0%Z) x y).
Proof.
  intros Hk. unfold kh_on in Hk. destruct HS as (G & _). unfold kh2, doc_kh2.
  rewrite outer_within, ramp_transition, !mix_between, (lm_sin L HL), (lm_pi L HL).
  destruct (k_rand (p_kh Q)).
  - destruct (within _ _ _); cbn [negb]; unfold doc_kh_random, flat, draw; cbn [hd hp hu hv hw];
    (split; [reflexivity|intros old; split4; asg; unfold energy, vel2, gm1; cbn [hd hp hu hv hw]; Rn; try reflexivity; field; lra]).
  - destruct (k_rob (p_kh Q)); [|discriminate Hk]. unfold doc_kh_smooth2.
    split; [reflexivity|intros old; split4; asg; unfold energy, vel2, gm1; cbn [hd hp hu hv hw]; Rn; try reflexivity; field; lra].
Qed.
Lemma holds_kh3 i j k x y z : kh_on (p_kh Q) = true ->
  holds3 S (kh3 L S B rnd (p_kh Q) i j k x y z) (doc_kh3 B (p_kh Q) (fun n => rnd n i j k) x y z).
Proof.
  intros Hk. unfold kh_on in Hk. destruct HS as (G & _). unfold kh3, doc_kh3.
  rewrite outer_within, ramp_transition, !mix_between, !(lm_sin L HL), (lm_pi L HL).
  destruct (k_rand (p_kh Q)).
  - destruct (within _ _ _); cbn [negb]; unfold doc_kh_random, draw; cbn [hd hp hu hv hw];
    (intros old; split5; asg; unfold energy, vel2, gm1; cbn [hd hp hu hv hw]; Rn; try reflexivity; field; lra).
  - destruct (k_rob (p_kh Q)); [|discriminate Hk]. unfold doc_kh_smooth3, between.
    intros old; split5; asg; unfold energy, vel2, gm1; cbn [hd hp hu hv hw]; Rn; try reflexivity; field; lra.
Qed.

(** Gresho: the sine and cosine of the angle. *)
Lemma uphi_doc r : gresho_uphi (T := R) r = doc_uphi r.
Proof.
  unfold gresho_uphi, doc_uphi, c02, c04. Rn.
  destruct (Rlt_dec _ _); [reflexivity|]. destruct (Rlt_dec _ _); reflexivity.
Qed.
Lemma gresho_p_doc P r : gresho_p L S P r = doc_gresho_p S P r.
Proof.
  unfold gresho_p, doc_gresho_p, gresho_p0, c02, c04. Rn.
  rewrite (lm_log L HL 2), (lm_log L HL (1/5)) by lra.
  replace (gamma0 S * gr_ma P * gr_ma P) with (gamma0 S * (gr_ma P * gr_ma P)) by ring.
  generalize (gr_rho0 P / (gamma0 S * (gr_ma P * gr_ma P))). intros p0.
  destruct (Rlt_dec r _); [|destruct (Rlt_dec r (2 / 5))].
  - lra.
  - rewrite (lm_log L HL r) by lra. lra.
  - lra.
Qed.
Lemma gresho_trig x y : let r := sqrt (x * x + y * y) in
  - lsin L (latan2 L y x) * doc_uphi r = - (y / r) * doc_uphi r /\
  lcos L (latan2 L y x) * doc_uphi r = x / r * doc_uphi r.
Proof.
  intros r. rewrite (lm_sin L HL), (lm_cos L HL).
  destruct (Rlt_dec 0 (x * x + y * y)) as [H|H].
  - destruct (lm_atan2 L HL x y H) as [-> ->]. fold r. split; reflexivity.
  - replace (doc_uphi r) with 0; [split; ring|].
    assert (E : x * x + y * y = 0) by nra. unfold r. rewrite E, sqrt_0. unfold doc_uphi.
    destruct (Rlt_dec _ _); lra.
Qed.
Lemma holds_gresho2 P x y : smallr S <= gr_rho0 P ->
  holds2 S (gresho2 L S P x y) (doc_gresho S P x y).
Proof.
  intros Hr. destruct HS as (G & R1 & _). unfold gresho2, doc_gresho. rewrite uphi_doc, gresho_p_doc.
  pose proof (gresho_trig x y) as [E1 E2]. cbv zeta in E1, E2. Rn. rewrite E1, E2.
  generalize (x / sqrt (x * x + y * y)), (y / sqrt (x * x + y * y)). intros.
  split; [reflexivity|intros old; split4; asg; unfold energy, vel2, gm1; cbn [hd hp hu hv hw]; Rn; try reflexivity; field; lra].
Qed.
Lemma holds_gresho3 P x y : smallr S <= gr_rho0 P -> hv (doc_gresho S P x y) = 0 ->
  holds3 S (gresho3 L S P x y) (doc_gresho S P x y).
Proof.
  intros Hr Hv. destruct HS as (G & R1 & _). unfold gresho3, doc_gresho in *. cbn [hv] in Hv. rewrite uphi_doc, gresho_p_doc.
  pose proof (gresho_trig x y) as [E1 E2]. cbv zeta in E1, E2. Rn. rewrite E1, E2, Hv.
  generalize (y / sqrt (x * x + y * y)). intros.
  intros old; split5; asg; unfold energy, vel2, gm1; cbn [hd hp hu hv hw]; Rn; try reflexivity; field; lra.
Qed.

Lemma four2_doc P x y : q_states P (quadrant2 P x y) = doc_four2 P x y.
Proof. unfold quadrant2, doc_four2. Rn. destruct (Rlt_dec x _), (Rlt_dec y _); reflexivity. Qed.
Lemma four3_doc P x y z : q_states P (quadrant3 P x y z) = doc_four3 P x y z.
Proof. unfold quadrant3, doc_four3. Rn. destruct (Rlt_dec x _), (Rlt_dec y _), (Rlt_dec z _); reflexivity. Qed.
Lemma holds_four2 P x y : holds2 S (four2 S P x y) (flat (doc_four2 P x y)).
Proof.
  destruct HS as (G & _). unfold four2. rewrite four2_doc. unfold flat, prim_to_cons2, mk2. cbn [hd hp hu hv hw].
  split; [reflexivity|intros old; split4; asg; unfold energy, vel2, gm1; cbn [hd hp hu hv hw]; Rn; try reflexivity; field; lra].
Qed.
Lemma holds_four3 P x y z : holds3 S (four3 S P x y z) (doc_four3 P x y z).
Proof.
  destruct HS as (G & _). unfold four3. rewrite four3_doc. unfold prim_to_cons3. cbn [hd hp hu hv hw].
  intros old; split5; asg; unfold energy, vel2, gm1; cbn [hd hp hu hv hw]; Rn; try reflexivity; field; lra.
Qed.

Lemma holds_vortex2 P x y : 0 < v_T P -> smallr S <= hd (doc_vortex S P x y) ->
  0 < hp (doc_vortex S P x y) / hd (doc_vortex S P x y) ->
  holds2 S (vortex2 L S P x y) (doc_vortex S P x y).
Proof.
  intros HT Hd Ht. destruct HS as (G & R1 & _).
  set (X := x - v_x P). set (Y := y - v_y P).
  assert (Er : sqrt (X * X + Y * Y) * sqrt (X * X + Y * Y) = X * X + Y * Y).
  { apply sqrt_sqrt. apply Rplus_le_le_0_compat; apply Rle_0_sqr. }
  assert (HP : 0 < PI) by apply PI_RGT_0.
  unfold doc_vortex in *. cbn [hd hp] in Hd, Ht. fold X Y in Hd, Ht |- *.
  set (t := v_T P - (gamma0 S - 1) * (v_beta P * v_beta P) / (8 * gamma0 S * (PI * PI)) *
                    exp (1 - (X * X + Y * Y))) in *.
  assert (ET : vortex_T L S P (sqrt (X * X + Y * Y)) = t).
  { unfold vortex_T, gm1, t. rewrite (lm_pi L HL), (lm_exp L HL). Rn. rewrite Er. f_equal. f_equal. field. split; lra. }
  set (rho := v_rho P * Rpower (t / v_T P) (1 / (gamma0 S - 1))) in *.
  assert (Hpos : 0 < t).
  { replace t with (rho * t / rho) by (field; lra). exact Ht. }
  assert (ER : vortex_rho L S P (sqrt (X * X + Y * Y)) = rho).
  { unfold vortex_rho. rewrite ET. unfold gm1, rho. Rn. rewrite (lm_pow L HL); [reflexivity|].
    apply Rdiv_lt_0_compat; lra. }
  assert (EE : lexp L (1 / 2 * (1 - sqrt (X * X + Y * Y) * sqrt (X * X + Y * Y))) = exp ((1 - (X * X + Y * Y)) / 2)).
  { rewrite (lm_exp L HL), Er. f_equal. lra. }
  unfold vortex2. Rn. fold X Y. unfold vortex_T, vortex_rho in ET, ER |- *. Rn. rewrite ER, ET, EE, (lm_pi L HL).
  generalize (exp ((1 - (X * X + Y * Y)) / 2)). intros e. clearbody rho t. clear Er ET ER EE.
  split; [reflexivity|intros old; split4; asg; unfold energy, vel2, gm1; cbn [hd hp hu hv hw]; Rn; try reflexivity; field; lra].
Qed.

Lemma holds_rti2 P x y : hv (doc_rti2 B P x y) = 0 -> holds2 S (rti2 L S B P x y) (doc_rti2 B P x y).
Proof.
  intros Hv. destruct HS as (G & _). unfold rti2. unfold doc_rti2, wave2 in *. cbn [hv] in Hv.
  rewrite !(lm_cos L HL), !(lm_pi L HL). Rn.
  destruct (Rlt_dec _ _);
  (split; [reflexivity|intros old; split4; asg; unfold energy, vel2, gm1; cbn [hd hp hu hv hw]; Rn;
     first [reflexivity | field; lra | rewrite Hv; field; lra]]).
Qed.
Lemma holds_rti3 P x y z : hw (doc_rti3 B P x y z) = 0 -> holds3 S (rti3 L S B P x y z) (doc_rti3 B P x y z).
Proof.
  intros Hv. destruct HS as (G & _). unfold rti3. unfold doc_rti3, wave2 in *. cbn [hw] in Hv.
  rewrite !(lm_cos L HL), !(lm_pi L HL). Rn.
  destruct (Rlt_dec _ _);
  (intros old; split5; asg; unfold energy, vel2, gm1; cbn [hd hp hu hv hw]; Rn;
     first [reflexivity | field; lra | rewrite Hv; field; lra]).
Qed.
End C52.

(** ** C52 *)

(** Hydrodynamics in two and three dimensions, every problem: the solver reads from its
    initial arrays, in every cell and its ghosts, the gas documented at the centre of the
    cell, if that gas is above the floors. *)
Theorem C52_hydro :
  forall (L : mlib R) m S B rnd Q inb name s s', libm L -> sane S ->
  execs inb s (init_hydro2 L m S B rnd Q name) s' ->
  forall i j, (0 <= i < isize m)%Z -> (0 <= j < jsize m)%Z ->
  let q := doc_hydro2 S B Q (problem_hydro2 name) (fun n => rnd n i j 0%Z) (at_x S B m i) (at_y S B m j) in
  as_documented S false Q (problem_hydro2 name) q -> admissible S q ->
  Qf S (field_of A_U s') i j = q.
Proof.
  intros L m S B rnd Q inb name s s' HL HS E i j Hi Hj q Hd Ha.
  apply init_hydro2_spec in E. destruct E as [E _].
  assert (H : holds2 S (hydro_stores2 L m S B rnd Q (problem_hydro2 name) i j) q).
  { subst q. rewrite at_x_px, at_y_py in *. destruct Ha as [Ha1 Ha2].
    destruct (problem_hydro2 name); cbn [as_documented doc_hydro2 hydro_stores2] in *.
    all: try (apply holds_implode2; tauto).
    - apply holds_blast2; auto.
    - apply holds_kh2; auto.
    - apply holds_gresho2; auto.
    - apply holds_four2; auto.
    - apply holds_vortex2; tauto.
    - apply holds_rti2; tauto. }
  destruct H as [Hw H]. rewrite <- (prim2_back S q HS Ha Hw). unfold Qf, cell_state, field_of. f_equal. f_equal.
  rewrite !E by auto. unfold mk2.
  destruct (H (s (L2 A_U i j ID))) as (-> & _ & _ & _). destruct (H (s (L2 A_U i j IP))) as (_ & -> & _ & _).
  destruct (H (s (L2 A_U i j IU))) as (_ & _ & -> & _). destruct (H (s (L2 A_U i j IV))) as (_ & _ & _ & ->).
  reflexivity.
Qed.
Print Assumptions C52_hydro.

Theorem C52_hydro3d :
  forall (L : mlib R) m S B rnd Q inb name s s', libm L -> sane S ->
  execs inb s (init_hydro3 L m S B rnd Q name) s' ->
  forall i j k, (0 <= i < isize m)%Z -> (0 <= j < jsize m)%Z -> (0 <= k < ksize m)%Z ->
  let q := doc_hydro3 S B Q (problem_hydro3 name) (fun n => rnd n i j k)
             (at_x S B m i) (at_y S B m j) (at_z S B m k) in
  as_documented S true Q (problem_hydro3 name) q -> admissible S q ->
  Qf3 S (field_of3 A_U s') i j k = q.
Proof.
  intros L m S B rnd Q inb name s s' HL HS E i j k Hi Hj Hk q Hd Ha.
  apply init_hydro3_spec in E. destruct E as [E _].
  assert (H : holds3 S (hydro_stores3 L m S B rnd Q (problem_hydro3 name) i j k) q).
  { subst q. rewrite at_x_px, at_y_py, at_z_pz in *. destruct Ha as [Ha1 Ha2].
    destruct (problem_hydro3 name) eqn:Ep; cbn [as_documented doc_hydro3 hydro_stores3] in *.
    all: try (apply holds_implode3; tauto).
    - apply holds_blast3; auto.
    - apply holds_kh3; auto.
    - apply holds_gresho3; auto.
    - apply holds_four3; auto.
    - exfalso. unfold problem_hydro3 in Ep.
      repeat match type of Ep with (if ?b then _ else _) = _ => destruct b; [discriminate Ep|] end. discriminate Ep.
    - apply holds_rti3; tauto. }
  rewrite <- (prim3_back S q HS Ha). unfold Qf3, cell_state3, field_of3. f_equal. f_equal.
  rewrite !E by auto.
  destruct (H (s (mkloc A_U i j k ID))) as (-> & _ & _ & _ & _). destruct (H (s (mkloc A_U i j k IP))) as (_ & -> & _ & _ & _).
  destruct (H (s (mkloc A_U i j k IU))) as (_ & _ & -> & _ & _). destruct (H (s (mkloc A_U i j k IV))) as (_ & _ & _ & -> & _).
  destruct (H (s (mkloc A_U i j k IW))) as (_ & _ & _ & _ & ->).
  reflexivity.
Qed.
Print Assumptions C52_hydro3d.

(** Velocities of the implosion are stored as momenta: the gas of density rho does not move
    at the velocity of the parameter file. *)
Theorem C52_implode_velocity_refuted :
  forall (L : mlib R) m S B rnd Q inb name s s', sane S ->
  problem_hydro2 name = Implode ->
  execs inb s (init_hydro2 L m S B rnd Q name) s' ->
  forall i j, (0 <= i < isize m)%Z -> (0 <= j < jsize m)%Z ->
  let q := doc_hydro2 S B Q Implode (fun n => rnd n i j 0%Z) (at_x S B m i) (at_y S B m j) in
  smallr S <= hd q ->
  hu (Qf S (field_of A_U s') i j) = hu q / hd q /\ hv (Qf S (field_of A_U s') i j) = hv q / hd q.
Proof.
  intros L m S B rnd Q inb name s s' HS Hn E i j Hi Hj q Hd.
  apply init_hydro2_spec in E. destruct E as [E _]. rewrite Hn in E.
  subst q. rewrite at_x_px, at_y_py in *. cbn [doc_hydro2 hydro_stores2] in *.
  unfold Qf, cell_state, field_of. rewrite !E by auto. unfold implode2. rewrite outer2_region.
  unfold doc_implode in *.
  destruct (outer2 _ _ _ _); cbn [hd hu hv] in *; unfold prim2, mk2; asg; cbn [fst hu hv hd]; Rn;
  rewrite Rmax_left by lra; split; reflexivity.
Qed.
Print Assumptions C52_implode_velocity_refuted.
Theorem C52_implode3d_velocity_refuted :
  forall (L : mlib R) m S B rnd Q inb name s s', sane S ->
  problem_hydro3 name = Implode ->
  execs inb s (init_hydro3 L m S B rnd Q name) s' ->
  forall i j k, (0 <= i < isize m)%Z -> (0 <= j < jsize m)%Z -> (0 <= k < ksize m)%Z ->
  let q := doc_hydro3 S B Q Implode (fun n => rnd n i j k) (at_x S B m i) (at_y S B m j) (at_z S B m k) in
  let r := Qf3 S (field_of3 A_U s') i j k in
  smallr S <= hd q -> hu r = hu q / hd q /\ hv r = hv q / hd q /\ hw r = hw q / hd q.
Proof.
  intros L m S B rnd Q inb name s s' HS Hn E i j k Hi Hj Hk q r Hd.
  apply init_hydro3_spec in E. destruct E as [E _]. rewrite Hn in E.
  subst q r. rewrite at_x_px, at_y_py, at_z_pz in *. cbn [doc_hydro3 hydro_stores3] in *.
  unfold Qf3, cell_state3, field_of3. rewrite !E by auto. unfold implode3. rewrite outer3_region.
  unfold doc_implode in *.
  destruct (outer3 _ _ _ _ _); cbn [hd hu hv hw] in *; unfold prim3; asg; cbn [fst hu hv hw hd]; Rn;
  rewrite Rmax_left by lra; repeat split; reflexivity.
Qed.
Print Assumptions C52_implode3d_velocity_refuted.
(** A gas of density 1/8 at velocity 1 is started at velocity 8. *)
Example C52_implode_case :
  let S := ex_set R_HLLC 1 in
  let P := mkimplode R (mkgas (1/8) 1 1 0 0 0 0 0) (mkgas (1/8) 1 1 0 0 0 0 0) 0 in
  forall B x y, let q := doc_implode false (outer2 B P x y) P in
  sane S /\ smallr S <= hd q /\ hu q = 1 /\ hu q / hd q = 8.
Proof.
  intros S P B x y q. split; [apply ex_set_sane|]. subst q P S. unfold doc_implode. cbn.
  destruct (outer2 _ _ _ _); cbn; lra.
Qed.

(** Rayleigh-Taylor: the energy lacks the kinetic energy of the perturbation, which the
    solver subtracts from the pressure. *)
Theorem C52_rayleigh_taylor_energy_refuted :
  forall (L : mlib R) m S B rnd Q inb name s s', libm L -> sane S ->
  problem_hydro2 name = RayleighTaylor ->
  execs inb s (init_hydro2 L m S B rnd Q name) s' ->
  forall i j, (0 <= i < isize m)%Z -> (0 <= j < jsize m)%Z ->
  let q := doc_hydro2 S B Q RayleighTaylor (fun n => rnd n i j 0%Z) (at_x S B m i) (at_y S B m j) in
  let lost := (gamma0 S - 1) * (hd q * (hv q * hv q) / 2) in
  smallr S <= hd q -> hd q * smallp S <= hp q - lost ->
  hv (Qf S (field_of A_U s') i j) = hv q /\ hp (Qf S (field_of A_U s') i j) = hp q - lost.
Proof.
  intros L m S B rnd Q inb name s s' HL HS Hn E i j Hi Hj q lost Hd Hp.
  apply init_hydro2_spec in E. destruct E as [E _]. rewrite Hn in E.
  subst lost q. rewrite at_x_px, at_y_py in *. cbn [doc_hydro2 hydro_stores2] in *.
  unfold Qf, cell_state, field_of. rewrite !E by auto. unfold rti2. destruct HS as (G & R1 & _).
  unfold doc_rti2, wave2 in *. rewrite !(lm_cos L HL), !(lm_pi L HL). cbn [hd hp hu hv] in *. Rn.
  set (c1 := cos _) in *. set (c2 := cos _) in *. clearbody c1 c2.
  destruct (Rlt_dec _ _); unfold prim2, mk2; asg; cbn [fst hd hp hu hv] in *; unfold gm1; Rn;
  rewrite (Rmax_left _ (smallr S)) by lra; (split; [field; lra|]);
  match goal with |- Rmax ?a ?b = ?c => replace a with c by (field; lra) end; apply Rmax_left; lra.
Qed.
Print Assumptions C52_rayleigh_taylor_energy_refuted.
Theorem C52_rayleigh_taylor3d_energy_refuted :
  forall (L : mlib R) m S B rnd Q inb name s s', libm L -> sane S ->
  problem_hydro3 name = RayleighTaylor ->
  execs inb s (init_hydro3 L m S B rnd Q name) s' ->
  forall i j k, (0 <= i < isize m)%Z -> (0 <= j < jsize m)%Z -> (0 <= k < ksize m)%Z ->
  let q := doc_hydro3 S B Q RayleighTaylor (fun n => rnd n i j k) (at_x S B m i) (at_y S B m j) (at_z S B m k) in
  let lost := (gamma0 S - 1) * (hd q * (hw q * hw q) / 2) in
  smallr S <= hd q -> hd q * smallp S <= hp q - lost ->
  hw (Qf3 S (field_of3 A_U s') i j k) = hw q /\ hp (Qf3 S (field_of3 A_U s') i j k) = hp q - lost.
Proof.
  intros L m S B rnd Q inb name s s' HL HS Hn E i j k Hi Hj Hk q lost Hd Hp.
  apply init_hydro3_spec in E. destruct E as [E _]. rewrite Hn in E.
  subst lost q. rewrite at_x_px, at_y_py, at_z_pz in *. cbn [doc_hydro3 hydro_stores3] in *.
  unfold Qf3, cell_state3, field_of3. rewrite !E by auto. unfold rti3. destruct HS as (G & R1 & _).
  unfold doc_rti3, wave2 in *. rewrite !(lm_cos L HL), !(lm_pi L HL). cbn [hd hp hu hv hw] in *. Rn.
  set (c1 := cos _) in *. set (c2 := cos _) in *. clearbody c1 c2.
  destruct (Rlt_dec _ _); unfold prim3; asg; cbn [fst hd hp hu hv hw] in *; unfold gm1; Rn;
  rewrite (Rmax_left _ (smallr S)) by lra; (split; [field; lra|]);
  match goal with |- Rmax ?a ?b = ?c => replace a with c by (field; lra) end; apply Rmax_left; lra.
Qed.
Print Assumptions C52_rayleigh_taylor3d_energy_refuted.
Example C52_rayleigh_taylor_case :
  let S := ex_set R_HLLC 1 in
  let B := mkbox R (-1/4) (1/4) (-3/4) (3/4) 0 1 0 0 0 in
  let q := doc_rti2 B (mkrti R (1/100) 1 2 0 (-1/10) 0) 0 0 in
  let lost := (gamma0 S - 1) * (hd q * (hv q * hv q) / 2) in
  smallr S <= hd q /\ hd q * smallp S <= hp q - lost /\ 0 < lost.
Proof.
  intros S B q lost. subst lost q B S. unfold doc_rti2, wave2. cbn.
  replace (2 * PI * 0 / (1 / 4 - -1 / 4)) with 0 by lra.
  replace (2 * PI * 0 / (3 / 4 - -3 / 4)) with 0 by lra. rewrite cos_0.
  destruct (Rlt_dec _ _); lra.
Qed.

(** Gresho in three dimensions: the gas also moves along z, as fast as along y. *)
Theorem C52_gresho3d_refuted :
  forall (L : mlib R) m S B rnd Q inb name s s', libm L -> sane S ->
  problem_hydro3 name = Gresho ->
  execs inb s (init_hydro3 L m S B rnd Q name) s' ->
  forall i j k, (0 <= i < isize m)%Z -> (0 <= j < jsize m)%Z -> (0 <= k < ksize m)%Z ->
  let q := doc_hydro3 S B Q Gresho (fun n => rnd n i j k) (at_x S B m i) (at_y S B m j) (at_z S B m k) in
  admissible S q ->
  hw q = 0 /\ Qf3 S (field_of3 A_U s') i j k = mkhs (hd q) (hp q) (hu q) (hv q) (hv q).
Proof.
  intros L m S B rnd Q inb name s s' HL HS Hn E i j k Hi Hj Hk q Ha.
  apply init_hydro3_spec in E. destruct E as [E _]. rewrite Hn in E.
  split; [reflexivity|].
  set (q' := mkhs (hd q) (hp q) (hu q) (hv q) (hv q)).
  assert (Ha' : admissible S q') by exact Ha.
  rewrite <- (prim3_back S q' HS Ha'). unfold Qf3, cell_state3, field_of3. rewrite !E by auto. f_equal.
  assert (R1 : 0 < smallr S) by apply HS. assert (G : 1 < gamma0 S) by apply HS.
  destruct Ha as [Ha _]. subst q' q. rewrite at_x_px, at_y_py in *. cbn [doc_hydro3 hydro_stores3] in *.
  unfold gresho3, doc_gresho in *. cbn [hd hp hu hv hw] in *. rewrite uphi_doc, (gresho_p_doc L S HL).
  pose proof (gresho_trig L HL (px m S B i) (py m S B j)) as [E1 E2]. cbv zeta in E1, E2.
  Rn. rewrite E1, E2. f_equal. unfold energy, vel2, gm1. asg. cbn [hd hp hu hv hw]. Rn.
  apply hs_eq; cbn [hd hp hu hv hw]; try reflexivity.
  set (r := sqrt _). generalize (px m S B i / r), (py m S B j / r). intros. field. lra.
Qed.
Print Assumptions C52_gresho3d_refuted.
Example C52_gresho_case :
  let S := ex_set R_HLLC 1 in
  let q := doc_gresho S (mkgresho R 1 (1/10)) (1/5) 0 in
  admissible S q /\ hv q = 1.
Proof.
  intros S q. subst q S. unfold doc_gresho, doc_gresho_p, doc_uphi, admissible. cbn.
  replace (1 / 5 * (1 / 5) + 0 * 0) with ((1 / 5) * (1 / 5)) by ring. rewrite sqrt_square by lra.
  repeat (destruct (Rlt_dec _ _); try lra).
Qed.

(** The hypothesis on <cmath> is met by the functions of the standard library. *)
Definition Rlib : mlib R :=
  mkmlib R sin cos exp ln Rpower
    (fun y x => let r := sqrt (x * x + y * y) in if Rlt_dec y 0 then - acos (x / r) else acos (x / r))
    asin PI (2 * PI).
Example Rlib_libm : libm Rlib.
Proof.
  constructor; try reflexivity.
  - cbn. apply asin_1.
  - intros x y H. cbn. set (r := sqrt (x * x + y * y)).
    assert (Hr : 0 < r) by (apply sqrt_lt_R0; exact H).
    assert (E : r * r = x * x + y * y) by (apply sqrt_sqrt; lra).
    assert (Hx : -1 <= x / r <= 1).
    { split; [apply Rmult_le_reg_r with r|apply Rmult_le_reg_r with r]; try lra;
      unfold Rdiv; rewrite Rmult_assoc, Rinv_l by lra; nra. }
    assert (Es : sqrt (1 - Rsqr (x / r)) = Rabs y / r).
    { replace (1 - Rsqr (x / r)) with ((Rabs y / r) * (Rabs y / r)).
      - apply sqrt_square. apply Rmult_le_pos; [apply Rabs_pos|]. left. apply Rinv_0_lt_compat. exact Hr.
      - unfold Rsqr. replace (Rabs y / r * (Rabs y / r)) with ((Rabs y * Rabs y) / (r * r)) by (field; lra).
        rewrite <- Rabs_mult, Rabs_pos_eq by nra. replace (y * y) with (r * r - x * x) by lra. field. lra. }
    destruct (Rlt_dec y 0) as [N|N].
    + rewrite cos_neg, sin_neg, cos_acos, sin_acos, Es by exact Hx. rewrite Rabs_left by exact N.
      split; [reflexivity|field; lra].
    + rewrite cos_acos, sin_acos, Es by exact Hx. rewrite Rabs_pos_eq by lra. split; reflexivity.
Qed.

(** The hypotheses of [C52_hydro] hold: the default blast at its centre, and a
    vortex of strength 5 one radius away. *)
Example C52_hydro_case :
  let S := ex_set R_HLLC 1 in
  let P := mkblast R (1/10) (1/2) (1/2) (1/2) 1 (12/10) 10 (1/10) 0 0 0 0 0 0 in
  libm Rlib /\ sane S /\ 0 <= b_radius P /\
  doc_blast (dist2 (1/2) (1/2) (b_cx P) (b_cy P)) P = mkhs 1 10 0 0 0 /\
  admissible S (doc_blast (dist2 (1/2) (1/2) (b_cx P) (b_cy P)) P) /\
  admissible S (doc_vortex S (mkvortex R 1 1 1 1 0 0 5) 1 0).
Proof.
  intros S P. split; [apply Rlib_libm|]. split; [apply ex_set_sane|]. split; [cbn; lra|].
  assert (E : doc_blast (dist2 (1/2) (1/2) (b_cx P) (b_cy P)) P = mkhs 1 10 0 0 0).
  { unfold dist2, doc_blast. cbn. replace ((1 / 2 - 1 / 2) * (1 / 2 - 1 / 2) + (1 / 2 - 1 / 2) * (1 / 2 - 1 / 2)) with 0 by lra.
    rewrite sqrt_0. destruct (Rlt_dec _ _); [reflexivity|lra]. }
  split; [exact E|]. split; [rewrite E; unfold admissible; cbn; lra|].
  unfold admissible, doc_vortex. cbn.
  replace (1 - ((1 - 0) * (1 - 0) + (0 - 0) * (0 - 0))) with 0 by lra. rewrite exp_0.
  set (t := 1 - _). assert (Ht : 1 / 2 <= t <= 1).
  { assert (H2 : 2 < PI) by (generalize PI2_1; lra). assert (H4 : 4 < PI * PI) by nra.
    assert (Hi : 0 < / (PI * PI) < / 4) by (split; [apply Rinv_0_lt_compat|apply Rinv_lt_contravar]; lra).
    unfold t. replace (_ / _ * 1) with (25 / 28 * / (PI * PI)); [lra|]. field. lra. }
  replace (t / 1) with t by field.
  assert (Hp : 1 / 8 <= Rpower t (1 / (7 / 5 - 1))).
  { apply Rle_trans with (Rpower t 3).
    - replace 3 with (INR 3) by (cbn; lra). rewrite Rpower_pow by lra. cbn. nra.
    - unfold Rpower. assert (Hl : ln t <= 0).
      { rewrite <- ln_1. destruct (Req_dec t 1) as [->|]; [lra|]. left. apply ln_increasing; lra. }
      destruct (Rle_lt_or_eq_dec (3 * ln t) (1 / (7 / 5 - 1) * ln t)) as [H|H];
        [lra|left; apply exp_increasing; exact H|rewrite H; lra]. }
  clearbody t. nra.
Qed.
