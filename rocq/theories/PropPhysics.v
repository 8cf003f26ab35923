(** * C17-C21, C41: per-cell physics, over the reals

    Every theorem quantifies over the settings: [sane] is what
    HydroParams.cpp:340-352 derives from gamma > 1 and positive floors. *)
From Coq Require Import ZArith List Bool Reals Lra.
From Verif Require Import Num Exec Grid HydroNum EulerSpec HydroPhysics HydroRiemann.
Local Open Scope R_scope.

(** Settings and states used as concrete cases: gamma = 7/5, floors 1e-10. *)
Definition ex_set (rs : rsolver) (st : R) : hset R :=
  derive (7/5) (1/10000000000) (1/10000000000) st (4/5) rs (1/100) (1/50) (1/25).

Example derived_settings_are_sane : forall (g smr smc st cf : R) (rs : rsolver) (x y z : R),
  1 < g -> 0 < smr -> 0 < smc -> sane (derive g smr smc st cf rs x y z).
Proof. intros. unfold sane, derive; simpl. repeat split; auto. Qed.

Example ex_set_sane : forall rs st, sane (ex_set rs st).
Proof. intros. apply derived_settings_are_sane; lra. Qed.

(** Shock-tube states: left (1, 1, u=3/4), right (1/8, 1/10, u=0), and a fast state. *)
Definition ex_left : hs R := mkhs 1 1 (3/4) 0 0.
Definition ex_right : hs R := mkhs (1/8) (1/10) 0 (1/2) 0.
Definition ex_fast : hs R := mkhs 1 (1/2) 3 0 0.
Definition ex_fast' : hs R := mkhs 2 (1/2) 4 1 0.

Example ex_admissible : forall rs st,
  admissible (ex_set rs st) ex_left /\ admissible (ex_set rs st) ex_right /\
  admissible (ex_set rs st) ex_fast /\ admissible (ex_set rs st) ex_fast'.
Proof. intros. unfold admissible, ex_set, derive; simpl. repeat split; lra. Qed.

Example ex_supersonic : forall rs st, supersonic_right (ex_set rs st) ex_fast ex_fast'.
Proof.
  intros. unfold supersonic_right, sound, ex_set, derive; simpl.
  rewrite (Rmin_left 3 4) by lra. apply Rmax_lub_lt.
  - rewrite <- (sqrt_square 3) by lra. apply sqrt_lt_1_alt. lra.
  - rewrite <- (sqrt_square 3) by lra. apply sqrt_lt_1_alt. lra.
Qed.

(** ** C17 *)

(** Pressure of a conservative state (rho, E, rho u, rho v, rho w). *)
Definition cons_pressure (S : hset R) (d3 : bool) (u : hs R) : R :=
  (gamma0 S - 1) * (hp u - (hu u * hu u + hv u * hv u + (if d3 then hw u * hw u else 0)) / (2 * hd u)).

Theorem C17_floors_and_sound_speed :
  forall (S : hset R) (u : hs R), sane S ->
  forall q c, (q, c) = prim2 S u \/ (q, c) = prim3 S u ->
  smallr S <= hd q /\ hd q * smallp S <= hp q /\ 0 < hd q /\ 0 < hp q /\
  smallc S <= c /\ c * c = gamma0 S * hp q / hd q.
Proof.
  intros S u HS q c [E|E].
  - pose proof (prim_sound S HS false u) as H. unfold primd in H. rewrite <- E in H. exact H.
  - pose proof (prim_sound S HS true u) as H. unfold primd in H. rewrite <- E in H. exact H.
Qed.
Print Assumptions C17_floors_and_sound_speed.

Theorem C17_converting_back :
  forall (S : hset R) (d3 : bool) (u : hs R), sane S ->
  smallr S <= hd u -> hd u * smallp S <= cons_pressure S d3 u -> (d3 = false -> hw u = 0) ->
  let q := fst (if d3 then prim3 S u else prim2 S u) in
  hd u = hd q /\ hp u = energy S d3 q /\ hu u = hd q * hu q /\ hv u = hd q * hv q /\ hw u = hd q * hw q.
Proof.
  intros S d3 u HS H1 H2 H3. exact (prim_inverse S HS d3 u H1 H2 H3).
Qed.
Print Assumptions C17_converting_back.

Example C17_case : cons_pressure (ex_set R_HLLC 1) true (mkhs 1 3 1 1 1) = 3/5.
Proof. unfold cons_pressure, ex_set, derive; simpl. lra. Qed.

(** ** C18: the limiter *)
Theorem C18_limited_slope :
  forall (S : hset R) (q qp qm : R), slope_type S = 1 \/ slope_type S = 2 ->
  let s := slope1 S q qp qm in
  ((q - qm) * (qp - q) <= 0 -> s = 0) /\
  0 <= s * (qp - qm) /\
  Rabs s <= Rabs (qp - qm) / 2 /\
  Rabs s <= slope_type S * Rabs (q - qm) /\ Rabs s <= slope_type S * Rabs (qp - q) /\
  (q - qm = qp - q -> s = qp - q) /\
  slope1 S q qm qp = - s /\ slope1 S (- q) (- qp) (- qm) = - s /\
  Rmin q qp <= q + s / 2 <= Rmax q qp /\ Rmin q qm <= q - s / 2 <= Rmax q qm.
Proof.
  intros S q qp qm Hst s.
  assert (H0 : 0 <= slope_type S) by (destruct Hst as [-> | ->]; lra).
  assert (H1 : 1 <= slope_type S) by (destruct Hst as [-> | ->]; lra).
  assert (H2 : slope_type S <= 2) by (destruct Hst as [-> | ->]; lra).
  destruct (slope_bound S q qp qm H0) as (B1 & B2 & B3).
  destruct (slope_tvd S q qp qm H0 H2) as (T1 & T2).
  repeat split; auto; try apply T1; try apply T2.
  - apply slope_extremum; auto.
  - apply slope_sign; auto.
  - intros E. apply (slope_linear S q qp qm H0 (qp - q)); auto.
  - apply slope_odd; auto.
  - apply slope_neg; auto.
Qed.
Print Assumptions C18_limited_slope.

Example C18_case : slope1 (ex_set R_HLLC 1) 2 4 1 = 1.
Proof.
  unfold slope1, ex_set, derive; simpl. Rn.
  rewrite !Rabs_pos_eq by lra. rewrite (Rmin_left (1 * (2 - 1))) by lra.
  destruct (Rle_dec _ 0); [lra|]. destruct (Rle_dec 0 _); [|lra].
  rewrite Rmin_left by lra. lra.
Qed.

(** ** C19: equal states give the Euler flux *)
Theorem C19_consistent :
  forall (S : hset R) (d3 : bool) (q : hs R), sane S -> admissible S q ->
  riemann_approx S d3 q q = euler_flux S d3 q /\
  riemann_llf S d3 q q = euler_flux S d3 q /\
  riemann_hll S d3 q q = euler_flux S d3 q /\
  riemann_hllc S d3 q q = euler_flux S d3 q.
Proof.
  intros S d3 q HS Ha. repeat split.
  - apply approx_consistent; auto.
  - apply llf_consistent; auto.
  - apply hll_consistent; auto.
  - apply hllc_consistent; auto.
Qed.
Print Assumptions C19_consistent.

Example C19_case : hd (riemann_hllc (ex_set R_HLLC 1) false ex_left ex_left) = 3/4 /\
  hu (riemann_approx (ex_set R_APPROX 1) false ex_left ex_left) = 25/16.
Proof.
  destruct (ex_admissible R_HLLC 1) as (A & _). destruct (ex_admissible R_APPROX 1) as (B & _).
  split.
  - rewrite hllc_consistent by (auto using ex_set_sane). simpl. lra.
  - rewrite approx_consistent by (auto using ex_set_sane). simpl. lra.
Qed.

(** ** C20: exchanging the sides *)
Theorem C20_mirror :
  forall (S : hset R) (d3 : bool) (ql qr : hs R), sane S ->
  riemann_llf S d3 (mirror qr) (mirror ql) = mirror_flux (riemann_llf S d3 ql qr) /\
  riemann_hll S d3 (mirror qr) (mirror ql) = mirror_flux (riemann_hll S d3 ql qr) /\
  riemann_hllc S d3 (mirror qr) (mirror ql) = mirror_flux (riemann_hllc S d3 ql qr).
Proof.
  intros S d3 ql qr HS. repeat split.
  - apply llf_mirror; auto.
  - apply hll_mirror; auto.
  - apply hllc_mirror; auto.
Qed.
Print Assumptions C20_mirror.

(** Two-shock solver: all cases except a contact wave of computed speed
    exactly zero, where the program always takes the left state.  That case is
    settled in PropTwoShock.v: it holds when neither gas runs onto the interface
    faster than sound, and fails for some faster gases. *)
Theorem C20_mirror_approx_partial :
  forall (S : hset R) (d3 : bool) (ql qr : hs R), sane S ->
  contact_speed S ql qr <> 0 ->
  riemann_approx S d3 (mirror qr) (mirror ql) = mirror_flux (riemann_approx S d3 ql qr).
Proof. intros. apply approx_mirror; auto. Qed.
Print Assumptions C20_mirror_approx_partial.

(** The contact speed of two gases of equal density and pressure is the mean velocity. *)
Example C20_partial_case : contact_speed (ex_set R_APPROX 1) (mkhs 1 1 1 0 0) (mkhs 1 1 (1/2) 0 0) <> 0.
Proof.
  unfold contact_speed, approx_ustar. cbn [hd hp hu]. cbv zeta. Rn.
  match goal with |- 1 / 2 * (1 + ?x + 1 / 2 - ?x) <> 0 =>
    generalize x; intros; lra end.
Qed.

(** ** C21: supersonic flow *)
Theorem C21_upwind :
  forall (S : hset R) (d3 : bool) (ql qr : hs R), sane S -> admissible S ql -> admissible S qr ->
  (supersonic_right S ql qr ->
     riemann_hll S d3 ql qr = euler_flux S d3 ql /\ riemann_hllc S d3 ql qr = euler_flux S d3 ql) /\
  (supersonic_left S ql qr ->
     riemann_hll S d3 ql qr = euler_flux S d3 qr /\ riemann_hllc S d3 ql qr = euler_flux S d3 qr).
Proof.
  intros S d3 ql qr HS Al Ar. split; intros H; split.
  - apply hll_upwind_right; auto.
  - apply hllc_upwind_right; auto.
  - apply (upwind_left_from_right S d3 (riemann_hll S d3)); auto.
    + intros. apply hll_upwind_right; auto.
    + intros. apply hll_mirror; auto.
  - apply (upwind_left_from_right S d3 (riemann_hllc S d3)); auto.
    + intros. apply hllc_upwind_right; auto.
    + intros. apply hllc_mirror; auto.
Qed.
Print Assumptions C21_upwind.

(** ** C41: isolated contact discontinuities are resolved exactly *)
Theorem C41_contact :
  forall (S : hset R) (d3 : bool) (ql qr : hs R), sane S -> admissible S ql -> admissible S qr ->
  hp ql = hp qr -> hu ql = hu qr ->
  let upwind := if Rlt_dec 0 (hu ql) then ql else qr in
  riemann_hllc S d3 ql qr = euler_flux S d3 upwind /\
  riemann_approx S d3 ql qr = euler_flux S d3 upwind.
Proof.
  intros S d3 ql qr HS Al Ar Ep Eu. split.
  - apply hllc_contact; auto.
  - apply approx_contact; auto.
Qed.
Print Assumptions C41_contact.

Example C41_case :
  let ql := mkhs 1 1 0 2 0 in let qr := mkhs (1/8) 1 0 (-1) 0 in
  riemann_hllc (ex_set R_HLLC 1) false ql qr = mkhs 0 0 1 0 0.
Proof.
  intros ql qr.
  destruct (C41_contact (ex_set R_HLLC 1) false ql qr (ex_set_sane _ _)) as [E _];
    try reflexivity; try (unfold admissible, ex_set, derive; simpl; lra).
  rewrite E. destruct (Rlt_dec _ _) as [H|H]; simpl in H; [lra|].
  unfold euler_flux; simpl. apply hs_eq; simpl; lra.
Qed.
