(** * C10, C20: the two-shock solver at a wall and at a resting contact

    RiemannSolvers.h:59-199.  The solver finds the pressure between the two
    waves by at most ten Newton iterations (TwoShock.v). *)
From Coq Require Import ZArith List Bool Reals Lra Psatz Lia.
From Verif Require Import Num Exec Grid HydroNum EulerSpec HydroPhysics TwoShock HydroRiemann PropPhysics.
Local Open Scope R_scope.

(** ** C10: nothing crosses a wall *)

(** Gas of any density and pressure above the floors, running onto a wall with
    (gamma + 1) / 2 times its Mach number at most 100000, or away from it at any
    speed. *)
Theorem C10_wall_two_shock :
  forall (S : hset R) (d3 : bool) (q : hs R), sane S -> admissible S q ->
  (gamma0 S + 1) / 2 * hu q <= 100000 * sound S q ->
  no_flow (riemann_approx S d3 q (mirror q)).
Proof.
  intros S d3 q HS [A1 A2] HM. apply approx_wall; auto.
  rewrite (Rmax_left (hd q)) by auto. rewrite Rmax_left by auto. exact HM.
Qed.
Print Assumptions C10_wall_two_shock.

(** Air at Mach 50000. *)
Example C10_wall_case : exists q, admissible (ex_set R_APPROX 1) q /\ 0 < hu q /\ hu q = 50000 * sound (ex_set R_APPROX 1) q /\
  no_flow (riemann_approx (ex_set R_APPROX 1) true q (mirror q)).
Proof.
  set (S := ex_set R_APPROX 1). set (q := mkhs 1 1 (50000 * sqrt (7 / 5)) 2 3).
  assert (Hs : 0 < sqrt (7 / 5)) by (apply sqrt_lt_R0; lra).
  assert (Es : sound S q = sqrt (7 / 5)).
  { unfold sound, S, q. cbn [hd hp ex_set derive gamma0]. f_equal. lra. }
  assert (Ha : admissible S q) by (unfold admissible, S, q, ex_set, derive; simpl; lra).
  assert (Eu : hu q = 50000 * sqrt (7 / 5)) by reflexivity.
  exists q. rewrite Es. split; [exact Ha|]. split; [rewrite Eu; lra|]. split; [exact Eu|].
  apply C10_wall_two_shock; auto; [apply ex_set_sane|].
  rewrite Es, Eu. change (gamma0 S) with (7 / 5). lra.
Qed.

(** ** A gas too fast for ten iterations *)

(** With m = h^2048 the iteration ends below 3 h^2047. *)
Lemma slow_newton (S : hset R) (HS : sane S) r u p (Hr : 0 < r) (Hp : 0 < p) (Hu : 0 <= u) (h : R) :
  1 <= h -> (gamma0 S + 1) / 2 * r * u / sqrt (gamma0 S * p * r) = h ^ 2048 ->
  forall n x conv, (n <= 10)%nat -> p <= x -> 0 <= resid (h ^ 2048) (wall_t S r p x) ->
  wall_t S r p x <= 3 * h ^ (2048 - 2 ^ n) ->
  p <= newton S n (gamma0 S * p * r) (gamma0 S * p * r) p p u (- u) x conv /\
  wall_t S r p (newton S n (gamma0 S * p * r) (gamma0 S * p * r) p p u (- u) x conv) <= 3 * h ^ 2047.
Proof.
  intros Hh Em n. set (C := gamma0 S * p * r).
  assert (H2n : forall n, (1 <= 2 ^ n)%nat) by (intros k; induction k; cbn; lia).
  assert (Hmono : forall k l, (k <= l)%nat -> h ^ k <= h ^ l) by (intros; apply Rle_pow; auto).
  assert (Hpos : forall k, 1 <= h ^ k) by (intros k; apply pow_R1_Rle; auto).
  induction n as [|n IH]; intros x conv Hn Hx HR HT; cbn [newton].
  - split; auto.
  - assert (Hfin : wall_t S r p x <= 3 * h ^ 2047).
    { apply Rle_trans with (1 := HT). apply Rmult_le_compat_l; [lra|]. apply Hmono.
      specialize (H2n (Datatypes.S n)). lia. }
    destruct (nltb _ _); [|split; auto].
    pose proof (wall_step S HS r u p Hr Hp x Hx) as W. cbv zeta in W. rewrite Em in W.
    destruct (W HR) as (x' & E & Hxx & HS'). fold C in E. rewrite E.
    destruct (wall_t_sq S HS r p Hr Hp x Hx) as [T1 _].
    destruct (wall_t_sq S HS r p Hr Hp x') as [T1' _]; [lra|].
    apply IH; try lia; try lra.
    + apply (resid_next (h ^ 2048) (wall_t S r p x)); auto.
    + assert (Hm0 : 0 <= h ^ 2048) by (specialize (Hpos 2048%nat); lra).
      pose proof (step_bound (h ^ 2048) Hm0 _ _ T1 HS') as HB.
      set (t := wall_t S r p x) in *. set (t' := wall_t S r p x') in *.
      set (k := (2048 - 2 ^ n)%nat) in *.
      assert (Hk : (2 ^ Datatypes.S n <= 2048)%nat).
      { apply (Nat.pow_le_mono_r 2 (Datatypes.S n) 11); lia. }
      cbn [Nat.pow] in Hk, HT.
      assert (Ek : (2048 + (2048 - (2 ^ n + (2 ^ n + 0))) = k + k)%nat) by (unfold k; lia).
      assert (HP : h ^ 2048 * h ^ (2048 - (2 ^ n + (2 ^ n + 0))) = h ^ k * h ^ k) by (rewrite <- !pow_add, Ek; reflexivity).
      pose proof (Hpos k) as Hk1. set (K := h ^ k) in *.
      assert (HB2 : 2 * h ^ 2048 * t <= 6 * (K * K)).
      { rewrite <- HP. apply Rle_trans with (2 * h ^ 2048 * (3 * h ^ (2048 - (2 ^ n + (2 ^ n + 0))))); [|lra].
        apply Rmult_le_compat_l; [lra|]. exact HT. }
      nra.
Qed.

(** Settings gamma = 5/3, floors 1e-10. *)
Definition mono_set : hset R :=
  derive (5/3) (1/10000000000) (1/10000000000) 1 (4/5) R_APPROX (1/100) (1/50) (1/25).

Definition eight : R := 8.
Lemma eight_pow k : 1 <= eight ^ k. Proof. apply pow_R1_Rle. unfold eight. lra. Qed.
Lemma eight_2048 : eight ^ 2048 = 8 * eight ^ 2047.
Proof. change 2048%nat with (1 + 2047)%nat. rewrite pow_add, pow_1. reflexivity. Qed.
Lemma eight_half : eight ^ 2048 = eight ^ 1024 * eight ^ 1024.
Proof. rewrite <- pow_add. reflexivity. Qed.
Opaque eight.

(** Gas of density 1 and sound speed 1. *)
Definition very_fast : hs R := mkhs 1 (3 / 5) (3 / 4 * eight ^ 2048) 0 0.

Lemma very_fast_flux d3 : hd (riemann_approx mono_set d3 very_fast (mirror very_fast)) = 3 / 4 * eight ^ 2048.
Proof.
  assert (HS : sane mono_set) by (apply derived_settings_are_sane; lra).
  set (U := 3 / 4 * eight ^ 2048). set (S := mono_set) in *.
  pose proof (eight_pow 2047) as H1. pose proof eight_2048 as E8. pose proof (eight_pow 1) as He. rewrite pow_1 in He.
  assert (HU : 0 <= U) by (unfold U; lra).
  assert (EC : gamma0 S * (3 / 5) * 1 = 1) by (change (gamma0 S) with (5 / 3); lra).
  assert (Es1 : sqrt (gamma0 S * (3 / 5) * 1) = 1) by (rewrite EC; apply sqrt_1).
  assert (Em : (gamma0 S + 1) / 2 * 1 * U / sqrt (gamma0 S * (3 / 5) * 1) = eight ^ 2048).
  { rewrite Es1. change (gamma0 S) with (5 / 3). unfold U. field. }
  assert (P1 : 0 < 1) by lra. assert (P2 : 0 < 3 / 5) by lra.
  destruct (wall_first S HS 1 U (3 / 5) P1 P2 HU) as [F1 F2]. rewrite Em in F1.
  destruct (wall_t_sq S HS 1 (3 / 5) P1 P2 _ F2) as [T1 _].
  set (x0 := 3 / 5 + sqrt (gamma0 S * (3 / 5) * 1) * U) in *.
  set (ps := approx_pstar S 1 U (3 / 5) 1 (- U) (3 / 5)).
  assert (HP : 3 / 5 <= ps /\ wall_t S 1 (3 / 5) ps <= 3 * eight ^ 2047).
  { unfold ps. rewrite (wall_pstar S HS 1 U (3 / 5) P1 P2 HU).
    apply (slow_newton S HS 1 U (3 / 5) P1 P2 HU eight); auto; try lra.
    - fold x0. unfold resid. rewrite F1. replace (1 + eight ^ 2048 * wall_t S 1 (3 / 5) x0 - (1 + eight ^ 2048))
        with (eight ^ 2048 * (wall_t S 1 (3 / 5) x0 - 1)) by ring. apply Rmult_le_pos; lra.
    - fold x0. replace (2048 - 2 ^ 10)%nat with 1024%nat by reflexivity.
      pose proof eight_half as E2. pose proof (eight_pow 1024).
      rewrite E2 in F1. set (K := eight ^ 1024) in *. clearbody K. nra. }
  destruct HP as [HP1 HP2].
  assert (Ew : approx_w S 1 (3 / 5) ps = wall_t S 1 (3 / 5) ps) by (unfold wall_t; rewrite Es1; field).
  assert (Hshock : approx_w S 1 (3 / 5) ps / 1 - 1 * U < 0).
  { rewrite Ew. unfold U. rewrite E8. lra. }
  unfold riemann_approx. rewrite cmpflx_euler by auto.
  assert (Er : Rmax 1 (smallr S) = 1) by (apply Rmax_left; change (smallr S) with (1 / 10000000000); lra).
  assert (Ep : Rmax (3 / 5) (1 * smallp S) = 3 / 5).
  { apply Rmax_left. unfold S, mono_set, derive. simpl. lra. }
  assert (HA : forall v, approx_sample S 1 U (3 / 5) (approx_w S 1 (3 / 5) ps) ps 0 1 = v -> v = (1, 3 / 5, U)).
  { intros v <-. unfold approx_sample. cbv zeta. Rn.
    destruct (Rle_dec (3 / 5) ps) as [_|N]; [|contradiction].
    destruct (Rlt_dec 0 (approx_w S 1 (3 / 5) ps / 1 - 1 * U)); [lra|].
    destruct (Rlt_dec (approx_w S 1 (3 / 5) ps / 1 - 1 * U) 0); [reflexivity|contradiction]. }
  unfold approx_state. cbv zeta. rewrite !mirror_hd, !mirror_hp, !mirror_hu. cbn [very_fast hd hp hu]. fold U. Rn.
  rewrite Er, Ep. fold ps. rewrite !ustar_wall.
  destruct (Rlt_dec 0 0); [lra|]. destruct (Rlt_dec 0 1); [|lra].
  rewrite (HA _ eq_refl). unfold euler_flux. cbn [hd hu]. ring.
Qed.

(** Without a bound on the speed the two-shock solver lets mass through a wall:
    ten iterations do not reach the pressure of the shock, the computed shock
    does not leave the wall, and the solver returns the state of the gas.  (The
    speed of this gas, 3/4 * 8^2048, exceeds what a double can hold.) *)
Theorem C10_any_speed_refuted :
  ~ (forall (S : hset R) (d3 : bool) (q : hs R), sane S -> admissible S q ->
     no_flow (riemann_approx S d3 q (mirror q))).
Proof.
  intros H. destruct (H mono_set true very_fast) as [E _].
  - apply derived_settings_are_sane; lra.
  - unfold admissible, mono_set, very_fast, derive. cbn [hd hp smallr smallp]. Rn. lra.
  - rewrite very_fast_flux in E. pose proof (eight_pow 2048). lra.
Qed.
Print Assumptions C10_any_speed_refuted.

(** ** C20: exchanging the sides *)

(** A sample at the contact, at rest, of a side whose wave leaves the interface. *)
Lemma sample_rest (S : hset R) ro uo po ps : sane S -> 0 < ro -> 0 < po ->
  uo < sqrt (gamma0 S * po / ro) ->
  exists d, approx_sample S ro uo po (approx_w S ro po ps) ps 0 1 = (d, ps, 0).
Proof.
  intros HS Hr Hp Hu. unfold approx_sample. cbv zeta. Rn.
  destruct (Rle_dec po ps) as [Hs|Hs].
  - assert (HW : 0 < approx_w S ro po ps / ro - 1 * uo).
    { destruct (wall_t_sq S HS ro po Hr Hp ps Hs) as [T1 _]. destruct (wall_w0 S HS ro po Hr Hp) as [V1 V2].
      assert (Es : sqrt (gamma0 S * po * ro) = ro * sqrt (gamma0 S * po / ro)).
      { rewrite <- (sqrt_Rsqr ro) at 2 by lra. rewrite <- sqrt_mult_alt by apply Rle_0_sqr.
        f_equal. unfold Rsqr. field. lra. }
      assert (Hle : ro * sqrt (gamma0 S * po / ro) <= approx_w S ro po ps).
      { rewrite <- Es. unfold wall_t in T1. apply (Rmult_le_compat_r (sqrt (gamma0 S * po * ro))) in T1; [|lra].
        replace (approx_w S ro po ps / sqrt (gamma0 S * po * ro) * sqrt (gamma0 S * po * ro)) with (approx_w S ro po ps) in T1 by (field; lra). lra. }
      assert (sqrt (gamma0 S * po / ro) <= approx_w S ro po ps / ro); [|lra].
      apply Rmult_le_reg_l with ro; auto. replace (ro * (approx_w S ro po ps / ro)) with (approx_w S ro po ps) by (field; lra). exact Hle. }
    destruct (Rlt_dec 0 (approx_w S ro po ps / ro - 1 * uo)); [|contradiction]. eexists. reflexivity.
  - match goal with |- context [Rlt_dec 0 (Rmax ?a ?b - 1 * 0)] =>
      pose proof (Rmax_l a b) as HL; destruct (Rlt_dec 0 (Rmax a b - 1 * 0)) as [|Hn] end.
    + eexists. reflexivity.
    + exfalso. assert (0 < smallc S) by apply HS. lra.
Qed.

(** Neither gas runs onto the interface at the speed of sound or faster: all
    values of the contact speed, including zero. *)
Theorem C20_mirror_two_shock_subsonic :
  forall (S : hset R) (d3 : bool) (ql qr : hs R), sane S -> admissible S ql -> admissible S qr ->
  hu ql < sound S ql -> - hu qr < sound S qr ->
  riemann_approx S d3 (mirror qr) (mirror ql) = mirror_flux (riemann_approx S d3 ql qr).
Proof.
  intros S d3 ql qr HS [L1 L2] [R1 R2] HL HR.
  destruct (Req_dec (contact_speed S ql qr) 0) as [Ez|]; [|apply approx_mirror; auto].
  destruct (floors_pos S HS ql) as (P1 & P2 & _). destruct (floors_pos S HS qr) as (P3 & P4 & _).
  unfold contact_speed in Ez. cbv zeta in Ez.
  rewrite (Rmax_left (hd ql)) in * by auto. rewrite (Rmax_left (hp ql)) in * by auto.
  rewrite (Rmax_left (hd qr)) in * by auto. rewrite (Rmax_left (hp qr)) in * by auto.
  unfold riemann_approx. rewrite !cmpflx_euler by auto.
  unfold approx_state. cbv zeta. rewrite !mirror_hd, !mirror_hp, !mirror_hu, !mirror_hv, !mirror_hw.
  Rn. rewrite (Rmax_left (hd ql)), (Rmax_left (hp ql)), (Rmax_left (hd qr)), (Rmax_left (hp qr)) by auto.
  rewrite !pstar_mirror, !ustar_mirror.
  set (ps := approx_pstar S (hd ql) (hu ql) (hp ql) (hd qr) (hu qr) (hp qr)) in *.
  rewrite !Ez, !Ropp_0.
  destruct (Rlt_dec 0 0); [lra|]. destruct (Rlt_dec 0 1); [|lra].
  destruct (sample_rest S (hd ql) (hu ql) (hp ql) ps HS P1 P2 HL) as [dl El].
  destruct (sample_rest S (hd qr) (- hu qr) (hp qr) ps HS P3 P4 HR) as [dr Er].
  rewrite El, Er. unfold euler_flux, mirror_flux, energy, vel2. cbn [hd hp hu hv hw].
  destruct d3; apply hs_eq; cbn [hd hp hu hv hw]; ring.
Qed.
Print Assumptions C20_mirror_two_shock_subsonic.

(** Two gases at rest with equal pressures and unequal densities. *)
Example C20_subsonic_case :
  let ql := mkhs 1 1 0 0 0 in let qr := mkhs (1/8) 1 0 1 0 in let S := ex_set R_APPROX 1 in
  admissible S ql /\ admissible S qr /\ hu ql < sound S ql /\ - hu qr < sound S qr.
Proof.
  cbv zeta. unfold admissible, sound, ex_set, derive. cbn [hd hp hu smallr smallp gamma0]. Rn.
  repeat split; try lra; (rewrite ?Ropp_0; apply sqrt_lt_R0; lra).
Qed.

(** For all states the claim is false: the very fast gas against its mirror image. *)
Theorem C20_mirror_two_shock_refuted :
  ~ (forall (S : hset R) (d3 : bool) (ql qr : hs R), sane S -> admissible S ql -> admissible S qr ->
     riemann_approx S d3 (mirror qr) (mirror ql) = mirror_flux (riemann_approx S d3 ql qr)).
Proof.
  intros H. assert (HS : sane mono_set) by (apply derived_settings_are_sane; lra).
  assert (Ha : admissible mono_set very_fast).
  { unfold admissible, mono_set, very_fast, derive. cbn [hd hp smallr smallp]. Rn. lra. }
  assert (Hb : admissible mono_set (mirror very_fast)) by exact Ha.
  specialize (H mono_set true very_fast (mirror very_fast) HS Ha Hb).
  apply (f_equal hd) in H. rewrite mirror_mirror in H. unfold mirror_flux in H. cbn [hd] in H.
  rewrite very_fast_flux in H. pose proof (eight_pow 2048). lra.
Qed.
Print Assumptions C20_mirror_two_shock_refuted.

(** ** C21: which state the two-shock solver takes at the interface *)

(** Mass flux through the wave that brings the gas [q] to the pressure [ps], and the
    gas behind that wave, moving with speed [us]. *)
Definition wave (S : hset R) (q : hs R) (ps : R) : R :=
  sqrt (hd q * (gamma0 S * hp q + (gamma0 S + 1) / 2 * (ps - hp q))).
Definition behind_wave (S : hset R) (q : hs R) (ps us : R) : hs R :=
  mkhs (Rmax (/ (/ hd q - (ps - hp q) / (wave S q ps) ^ 2)) (smallr S)) ps us (hv q) (hw q).
Definition mix (t : R) (a b : hs R) : hs R :=
  mkhs (hd a + t * (hd b - hd a)) (hp a + t * (hp b - hp a)) (hu a + t * (hu b - hu a))
       (hv a + t * (hv b - hv a)) (hw a + t * (hw b - hw a)).
(** Pressure between the two waves found by the iteration. *)
Definition star_pressure (S : hset R) (ql qr : hs R) : R :=
  approx_pstar S (hd ql) (hu ql) (hp ql) (hd qr) (hu qr) (hp qr).

Lemma pstar_pos S rl ul pl rr ur pr : 0 <= approx_pstar S rl ul pl rr ur pr.
Proof.
  unfold approx_pstar. cbv zeta. apply newton_inv; [|Rn; apply Rmax_r].
  intros p Hp. unfold newton_step. cbv zeta. cbn [fst]. Rn.
  match goal with |- 0 <= p + Rmax ?a ?b => pose proof (Rmax_r a b) end. lra.
Qed.

(** The gas left of the interface when the contact moves to the right (the other case
    is its mirror image, C20): behind or ahead of a shock, behind or ahead of a
    rarefaction, or the point of the rarefaction that stands at the interface, found by
    interpolation between its head and its tail. *)
Theorem C21_two_shock :
  forall (S : hset R) (d3 : bool) (ql qr : hs R), sane S -> admissible S ql -> admissible S qr ->
  let ps := star_pressure S ql qr in
  let us := contact_speed S ql qr in
  let star := behind_wave S ql ps us in
  let F := riemann_approx S d3 ql qr in
  0 < us ->
  (hp ql <= ps ->
     let shock := hu ql - wave S ql ps / hd ql in
     (shock < 0 -> F = euler_flux S d3 star) /\ (0 < shock -> F = euler_flux S d3 ql)) /\
  (ps < hp ql ->
     let head := hu ql - sound S ql in
     let tail := us - Rmax (smallc S) (sound S star) in
     (tail < 0 -> F = euler_flux S d3 star) /\
     (0 <= tail -> 0 < head -> F = euler_flux S d3 ql) /\
     (smallc S <= 2 * - head -> smallc S <= 2 * tail ->
        F = euler_flux S d3 (mix (- head / (tail - head)) ql star))).
Proof.
  intros S d3 ql qr HS [L1 L2] [R1 R2] ps us star F Hus.
  pose proof (gamma_gt1 S HS) as Hg.
  destruct (floors_pos S HS ql) as (P1 & P2 & _).
  assert (Hps : 0 <= ps) by (unfold ps, star_pressure; exact (pstar_pos S _ _ _ _ _ _)).
  assert (Hsr : 0 < smallr S) by apply HS. assert (Hsc : 0 < smallc S) by apply HS.
  assert (Hsp : smallp S = smallc S * smallc S / gamma0 S) by apply HS.
  assert (G6 : gamma6 S = (gamma0 S + 1) / (2 * gamma0 S)) by apply HS.
  rewrite (Rmax_left (hd ql)) in P1, P2 by auto. rewrite Rmax_left in P2 by auto.
  assert (Ew : approx_w S (hd ql) (hp ql) ps = wave S ql ps).
  { unfold approx_w, wave. Rn. f_equal. rewrite G6. field. lra. }
  assert (Hw2 : 0 < gamma0 S * hp ql + (gamma0 S + 1) / 2 * (ps - hp ql)) by nra.
  assert (Hw : wave S ql ps * wave S ql ps = hd ql * (gamma0 S * hp ql + (gamma0 S + 1) / 2 * (ps - hp ql))).
  { apply sqrt_sqrt. apply Rlt_le, Rmult_lt_0_compat; assumption. }
  assert (Er : Rmax (hd ql / (1 + hd ql * (hp ql - ps) / (wave S ql ps * wave S ql ps))) (smallr S) = hd star).
  { unfold star, behind_wave. cbn [hd]. f_equal.
    replace (wave S ql ps ^ 2) with (wave S ql ps * wave S ql ps) by ring. rewrite Hw.
    set (A := gamma0 S * hp ql + (gamma0 S + 1) / 2 * (ps - hp ql)) in *.
    assert (HA : 0 < A + (hp ql - ps)) by (unfold A; nra).
    field. repeat split; lra. }
  assert (Ec : Rmax (smallc S) (sqrt (Rabs (gamma0 S * hp ql / hd ql))) = sound S ql).
  { assert (Hq : 0 < gamma0 S * hp ql / hd ql) by (apply Rdiv_lt_0_compat; [apply Rmult_lt_0_compat; lra|exact P1]).
    rewrite Rabs_right by lra. unfold sound. apply Rmax_right.
    rewrite <- (sqrt_Rsqr (smallc S)) by lra. apply sqrt_le_1_alt. unfold Rsqr.
    apply Rmult_le_reg_r with (hd ql); [exact P1|].
    replace (gamma0 S * hp ql / hd ql * hd ql) with (gamma0 S * hp ql) by (field; lra).
    rewrite Hsp in L2. replace (smallc S * smallc S * hd ql) with (gamma0 S * (hd ql * (smallc S * smallc S / gamma0 S))) by (field; lra).
    apply Rmult_le_compat_l; lra. }
  assert (Hrs : 0 < hd star) by (unfold star, behind_wave; cbn [hd]; apply Rlt_le_trans with (1 := Hsr), Rmax_r).
  assert (Es : sqrt (Rabs (gamma0 S * ps / hd star)) = sound S star).
  { unfold sound. rewrite Rabs_right; [reflexivity|]. apply Rle_ge. unfold Rdiv. apply Rmult_le_pos; [apply Rmult_le_pos; lra|].
    apply Rlt_le, Rinv_0_lt_compat; exact Hrs. }
  assert (EF : F = euler_flux S d3 (let '(d, p, u) := approx_sample S (hd ql) (hu ql) (hp ql) (wave S ql ps) ps us 1 in
                                    mkhs d p u (hv ql) (if d3 then hw ql else 0))).
  { unfold F, riemann_approx. rewrite cmpflx_euler by exact HS. f_equal.
    unfold approx_state. cbv zeta. Rn.
    assert (Eus : contact_speed S ql qr = us) by reflexivity. unfold contact_speed in Eus. cbv zeta in Eus.
    rewrite (Rmax_left (hd ql)), (Rmax_left (hp ql)), (Rmax_left (hd qr)), (Rmax_left (hp qr)) in * by auto.
    fold (star_pressure S ql qr) in *. fold ps in Eus |- *. rewrite !Eus.
    destruct (Rlt_dec us 0); [lra|]. destruct (Rlt_dec 0 1); [|lra]. rewrite Ew. reflexivity. }
  assert (Eq : forall q, euler_flux S d3 (mkhs (hd q) (hp q) (hu q) (hv q) (if d3 then hw q else 0)) = euler_flux S d3 q).
  { intros q. unfold euler_flux, energy, vel2. destruct d3; reflexivity. }
  assert (Eql : euler_flux S d3 (mkhs (hd ql) (hp ql) (hu ql) (hv ql) (if d3 then hw ql else 0)) = euler_flux S d3 ql) by apply Eq.
  assert (Est : euler_flux S d3 (mkhs (hd star) ps us (hv ql) (if d3 then hw ql else 0)) = euler_flux S d3 star) by apply (Eq star).
  rewrite EF. unfold approx_sample. cbv zeta. Rn. rewrite Er, Ec, Es. rewrite !Rmult_1_l.
  split.
  - intros Hsh. cbv zeta. destruct (Rle_dec (hp ql) ps); [|lra].
    split; intros Hx.
    + destruct (Rlt_dec 0 (wave S ql ps / hd ql - hu ql)); [|lra]. exact Est.
    + destruct (Rlt_dec 0 (wave S ql ps / hd ql - hu ql)); [lra|].
      destruct (Rlt_dec (wave S ql ps / hd ql - hu ql) 0); [|lra]. exact Eql.
  - intros Hra. cbv zeta. destruct (Rle_dec (hp ql) ps); [lra|].
    set (cs := Rmax (smallc S) (sound S star)). set (c := sound S ql).
    split; [|split].
    + intros Hx. destruct (Rlt_dec 0 (cs - us)); [|lra]. exact Est.
    + intros Hx Hy. destruct (Rlt_dec 0 (cs - us)); [lra|]. destruct (Rlt_dec (c - hu ql) 0); [|lra]. exact Eql.
    + intros Hx Hy. destruct (Rlt_dec 0 (cs - us)); [lra|]. destruct (Rlt_dec (c - hu ql) 0); [lra|].
      assert (Em : Rmax (c - hu ql - (cs - us)) (smallc S + Rabs (c - hu ql + (cs - us))) = c - hu ql - (cs - us)).
      { apply Rmax_left.
        assert (Rabs (c - hu ql + (cs - us)) <= c - hu ql - (cs - us) - smallc S); [|lra].
        apply Rabs_le. lra. }
      rewrite Em.
      assert (Ho : 0 < c - hu ql) by lra. assert (Hi : cs - us < 0) by lra.
      set (out := c - hu ql) in *. set (inn := cs - us) in *.
      assert (Ef : 1 / 2 * (1 + (out + inn) / (out - inn)) = out / (out - inn)) by (field; lra).
      rewrite Ef.
      assert (Ht : 0 < out / (out - inn) < 1).
      { split; [apply Rdiv_lt_0_compat; lra|]. apply Rmult_lt_reg_r with (out - inn); [lra|].
        replace (out / (out - inn) * (out - inn)) with out by (field; lra). lra. }
      unfold neqb. Rn. destruct (Rle_dec (out / (out - inn)) (out / (out - inn))) as [|Hn]; [|exfalso; apply Hn, Rle_refl].
      cbn [andb negb].
      destruct (Rle_dec 1 (out / (out - inn))); [lra|]. destruct (Rle_dec (out / (out - inn)) 0); [lra|].
      replace (- (hu ql - c) / (us - cs - (hu ql - c))) with (out / (out - inn))
        by (unfold out, inn; field; unfold out, inn in *; lra).
      set (t := out / (out - inn)) in *.
      rewrite <- (Eq (mix t ql star)). f_equal. unfold mix, star, behind_wave. cbn [hd hp hu hv hw].
      apply hs_eq; cbn [hd hp hu hv hw]; try ring. destruct d3; ring.
Qed.
Print Assumptions C21_two_shock.

(** Two gases torn apart: the pressure drops to zero and the fan stands at the interface. *)
Example C21_fan_case :
  let S := ex_set R_APPROX 1 in
  let ql := mkhs 1 1 0 2 3 in let qr := mkhs 1 1 100 0 0 in
  admissible S ql /\ admissible S qr /\ star_pressure S ql qr = 0 /\ contact_speed S ql qr = 50 /\
  exists t, 0 < t < 1 /\ riemann_approx S true ql qr = euler_flux S true (mix t ql (behind_wave S ql 0 50)).
Proof.
  intros S ql qr.
  assert (HS : sane S) by (apply ex_set_sane || (apply derived_settings_are_sane; lra)).
  assert (Al : admissible S ql) by (unfold admissible, S, ex_set, derive; cbn [hd hp smallr smallp ql]; Rn; lra).
  assert (Ar : admissible S qr) by (unfold admissible, S, ex_set, derive; cbn [hd hp smallr smallp qr]; Rn; lra).
  assert (G : gamma0 S = 7 / 5) by (unfold S, ex_set, derive; cbn [gamma0]; Rn; lra).
  assert (G6 : gamma6 S = 6 / 7) by (unfold S, ex_set, derive; cbn [gamma6]; Rn; lra).
  assert (Ps : star_pressure S ql qr = 0).
  { unfold star_pressure, approx_pstar. cbn [hd hp hu ql qr]. cbv zeta. Rn. rewrite !G.
    assert (H1 : 1 < sqrt (7 / 5 * 1 * 1)).
    { rewrite <- sqrt_1 at 1. apply sqrt_lt_1; lra. }
    set (w := sqrt (7 / 5 * 1 * 1)) in *.
    rewrite Rmax_right.
    2:{ replace ((w * 1 + w * 1 + w * w * (0 - 100)) / (w + w)) with (1 - w * 50) by (field; lra). lra. }
    apply newton_fix. unfold newton_step. cbv zeta. Rn. rewrite G6.
    replace (7 / 5 * 1 * 1 * (1 + 6 / 7 * (0 - 1) / 1)) with (1 / 5) by lra.
    assert (H2 : 0 < sqrt (1 / 5)) by (apply sqrt_lt_R0; lra).
    assert (H3 : sqrt (1 / 5) * sqrt (1 / 5) = 1 / 5) by (apply sqrt_sqrt; lra).
    assert (H4 : / sqrt (1 / 5) < 3).
    { apply Rmult_lt_reg_r with (sqrt (1 / 5)); [exact H2|]. rewrite Rinv_l by lra. nra. }
    set (v := sqrt (1 / 5)) in *.
    assert (H5 : 0 < 2 * v * v * v / (v * v + 7 / 5 * 1 * 1)) by (apply Rdiv_lt_0_compat; nra).
    set (q := 2 * v * v * v / (v * v + 7 / 5 * 1 * 1)) in *.
    rewrite Rmax_right.
    2:{ replace (q * q / (q + q)) with (q / 2) by (field; lra).
        replace (0 - (0 - 1) / v - (100 + (0 - 1) / v)) with (2 * / v - 100) by (field; lra).
        assert (0 < q / 2) by lra. nra. }
    replace (0 + - 0) with 0 by ring.
    replace (- 0 / (0 + smallpp S)) with 0 by (unfold Rdiv; ring).
    rewrite Rabs_R0. reflexivity. }
  assert (Us : contact_speed S ql qr = 50).
  { unfold contact_speed. cbv zeta.
    destruct Al as [A1 A2], Ar as [A3 A4].
    rewrite (Rmax_left (hd ql)), (Rmax_left (hp ql)), (Rmax_left (hd qr)), (Rmax_left (hp qr)) by auto.
    fold (star_pressure S ql qr). rewrite Ps. unfold approx_ustar. cbn [hd hp hu ql qr]. Rn.
    set (x := (1 - 0) / approx_w S 1 1 0). lra. }
  split; [exact Al|]. split; [exact Ar|]. split; [exact Ps|]. split; [exact Us|].
  destruct (C21_two_shock S true ql qr HS Al Ar) as [_ H]; [rewrite Us; lra|].
  rewrite Ps, Us in H. destruct H as (_ & _ & H); [cbn [hp ql]; lra|].
  assert (C0 : sound S (behind_wave S ql 0 50) = 0).
  { unfold sound, behind_wave. cbn [hp hd]. rewrite Rmult_0_r. unfold Rdiv. rewrite Rmult_0_l. apply sqrt_0. }
  assert (Sc : 0 < smallc S < 1) by (unfold S, ex_set, derive; cbn [smallc]; Rn; lra).
  rewrite C0 in H. rewrite Rmax_left in H by lra.
  assert (H1 : 1 < sound S ql).
  { unfold sound. cbn [hp hd ql]. rewrite G. rewrite <- sqrt_1 at 1. apply sqrt_lt_1; lra. }
  cbn [hu ql] in H. eexists. split; [|apply H; lra].
  split.
  - apply Rdiv_lt_0_compat; lra.
  - apply Rmult_lt_reg_r with (50 - smallc S - (0 - sound S ql)); [lra|].
    unfold Rdiv. rewrite Rmult_assoc, Rinv_l by lra. lra.
Qed.
