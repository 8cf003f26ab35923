(** * C55: the documented equilibria *)
From Coq Require Import ZArith List Bool String Lia ZifyBool Reals Lra Psatz FunctionalExtensionality.
From Coquelicot Require Import Coquelicot.
From Verif Require Import Num Exec ExecFacts Grid GridFacts HydroNum HydroPhysics MhdNum Kernels BoundariesSpec EulerSpec
  Hydro2D Hydro3D Hydro2DSpec Hydro3DSpec Hydro2DRun Hydro3DRun PropPhysics Params
  Init InitFacts InitSpec PropInit PropInitHydro SteadySpec.
Import ListNotations.
Local Open Scope R_scope.

(** ** Derivatives *)
Lemma glued (f g h : R -> R) (a l : R) : (forall r, r < a -> f r = g r) -> (forall r, a <= r -> f r = h r) ->
  g a = h a -> is_derive g a l -> is_derive h a l -> is_derive f a l.
Proof.
  intros Hf Hh E Dg Dh. apply is_derive_Reals. apply is_derive_Reals in Dg. apply is_derive_Reals in Dh.
  intros eps He. destruct (Dg eps He) as [d1 D1]. destruct (Dh eps He) as [d2 D2].
  assert (Hd : 0 < Rmin d1 d2) by (apply Rmin_pos; apply cond_pos).
  exists (mkposreal _ Hd). intros e Hn Hl. cbn in Hl.
  assert (Rabs e < d1 /\ Rabs e < d2) as [L1 L2].
  { split; eapply Rlt_le_trans; try exact Hl; [apply Rmin_l|apply Rmin_r]. }
  rewrite (Hh a) by lra. destruct (Rlt_dec e 0).
  - rewrite Hf by lra. rewrite <- E. apply D1; auto.
  - rewrite Hh by lra. apply D2; auto.
Qed.
Lemma is_derive_locally (f g : R -> R) (x l : R) : (exists a b, a < x < b /\ forall t, a < t < b -> g t = f t) ->
  is_derive g x l -> is_derive f x l.
Proof.
  intros (a & b & Hx & E) D. refine (is_derive_ext_loc g f x l _ D).
  assert (Hd : 0 < Rmin (x - a) (b - x)) by (apply Rmin_pos; lra).
  exists (mkposreal _ Hd). intros y Hy. apply E. change (Rabs (y - x) < Rmin (x - a) (b - x)) in Hy.
  pose proof (Rmin_l (x - a) (b - x)). pose proof (Rmin_r (x - a) (b - x)).
  unfold Rabs in Hy. destruct (Rcase_abs _); lra.
Qed.

(** A swirl around the origin: density [D], pressure [P] and angular velocity [W] are
    functions of the squared radius. *)
Definition swirl (D P W : R -> R) (x y : R) : hs R :=
  mkhs (D (x * x + y * y)) (P (x * x + y * y)) (- (y * W (x * x + y * y))) (x * W (x * x + y * y)) 0.
Lemma swirl_parts (D P W : R -> R) (x y D' P' W' : R) : let s := x * x + y * y in
  is_derive D s D' -> is_derive P s P' -> is_derive W s W' ->
  let q := swirl D P W in
  ddx (fun x y => hd (q x y)) x y (2 * x * D') /\ ddy (fun x y => hd (q x y)) x y (2 * y * D') /\
  ddx (fun x y => hp (q x y)) x y (2 * x * P') /\ ddy (fun x y => hp (q x y)) x y (2 * y * P') /\
  ddx (fun x y => hu (q x y)) x y (- (y * (2 * x * W'))) /\ ddy (fun x y => hu (q x y)) x y (- (W s + y * (2 * y * W'))) /\
  ddx (fun x y => hv (q x y)) x y (W s + x * (2 * x * W')) /\ ddy (fun x y => hv (q x y)) x y (x * (2 * y * W')).
Proof.
  intros s HD HP HW q.
  assert (X : forall (F : R -> R) (F' : R), is_derive F s F' -> is_derive (fun t => F (t * t + y * y)) x (2 * x * F')).
  { intros F F' H. apply (is_derive_comp F (fun t => t * t + y * y)); [exact H|]. auto_derive; [exact I|ring]. }
  assert (Y : forall (F : R -> R) (F' : R), is_derive F s F' -> is_derive (fun t => F (x * x + t * t)) y (2 * y * F')).
  { intros F F' H. apply (is_derive_comp F (fun t => x * x + t * t)); [exact H|]. auto_derive; [exact I|ring]. }
  unfold ddx, ddy, q, swirl; cbn [hd hp hu hv]. repeat split; apply is_derive_Reals.
  - apply X, HD.
  - apply Y, HD.
  - apply X, HP.
  - apply Y, HP.
  - apply (is_derive_opp (fun t => y * W (t * t + y * y))). apply (is_derive_scal (fun t => W (t * t + y * y))). apply X, HW.
  - apply (is_derive_opp (fun t => t * W (x * x + t * t))).
    evar_last; [apply (is_derive_mult (fun t => t) (fun t => W (x * x + t * t)));
      [apply is_derive_id|apply Y, HW|intros; apply Rmult_comm]|].
    unfold plus, mult, one; cbn. fold s. ring.
  - evar_last; [apply (is_derive_mult (fun t => t) (fun t => W (t * t + y * y)));
      [apply is_derive_id|apply X, HW|intros; apply Rmult_comm]|].
    unfold plus, mult, one; cbn. fold s. ring.
  - apply (is_derive_scal (fun t => W (x * x + t * t))). apply Y, HW.
Qed.
Lemma swirl_steady g (D P W : R -> R) (x y D' P' W' : R) : let s := x * x + y * y in
  is_derive D s D' -> is_derive P s P' -> is_derive W s W' -> 2 * P' = D s * (W s * W s) ->
  steady g 0 0 (swirl D P W) x y.
Proof.
  intros s HD HP HW E. pose proof (swirl_parts D P W x y D' P' W' HD HP HW) as H. cbv zeta in H. fold s in H.
  unfold steady. do 8 eexists. repeat (split; [apply H|]).
  cbv zeta. unfold swirl; cbn [hd hp hu hv]. fold s. repeat split.
  - ring.
  - replace (2 * x * P') with (x * (D s * (W s * W s))) by (rewrite <- E; ring). ring.
  - replace (2 * y * P') with (y * (D s * (W s * W s))) by (rewrite <- E; ring). ring.
  - ring.
Qed.
Lemma swirl_not_steady g (D P W : R -> R) (x y D' P' W' : R) : let s := x * x + y * y in
  is_derive D s D' -> is_derive P s P' -> is_derive W s W' -> 0 < s -> 2 * P' <> D s * (W s * W s) ->
  ~ steady g 0 0 (swirl D P W) x y.
Proof.
  intros s HD HP HW Hs E (rx & ry & px & py & ux & uy & vx & vy & H1 & H2 & H3 & H4 & H5 & H6 & H7 & H8 & _ & M1 & M2 & _).
  pose proof (swirl_parts D P W x y D' P' W' HD HP HW) as (_ & _ & P3 & P4 & P5 & P6 & P7 & P8).
  pose proof (uniqueness_limite _ _ _ _ H3 P3). pose proof (uniqueness_limite _ _ _ _ H4 P4).
  pose proof (uniqueness_limite _ _ _ _ H5 P5). pose proof (uniqueness_limite _ _ _ _ H6 P6).
  pose proof (uniqueness_limite _ _ _ _ H7 P7). pose proof (uniqueness_limite _ _ _ _ H8 P8). subst.
  unfold swirl in M1, M2; cbn [hd hp hu hv] in M1, M2. fold s in M1, M2.
  assert (X : x * (2 * P' - D s * (W s * W s)) = 0) by (rewrite <- (Rmult_0_r (D s)), <- M1; ring).
  assert (Y : y * (2 * P' - D s * (W s * W s)) = 0) by (rewrite <- (Rmult_0_r (D s)), <- M2; ring).
  apply Rmult_integral in X. apply Rmult_integral in Y. destruct X as [X|X]; [|lra]. destruct Y as [Y|Y]; [|lra].
  unfold s in Hs. rewrite X, Y in Hs. lra.
Qed.

(** ** Gresho *)
Lemma uphi_pieces r : (0 < r < 1 / 5 -> is_derive doc_uphi r 5) /\ (1 / 5 < r < 2 / 5 -> is_derive doc_uphi r (-5)) /\
  (2 / 5 < r -> is_derive doc_uphi r 0).
Proof.
  split; [|split]; intros H.
  - apply (is_derive_locally _ (fun r => 5 * r)); [exists 0, (1 / 5)|auto_derive; [exact I|ring]].
    split; [lra|]. intros t Ht. unfold doc_uphi. destruct (Rlt_dec _ _); [reflexivity|lra].
  - apply (is_derive_locally _ (fun r => 2 - 5 * r)); [exists (1 / 5), (2 / 5)|auto_derive; [exact I|ring]].
    split; [lra|]. intros t Ht. unfold doc_uphi. destruct (Rlt_dec _ _); [lra|]. destruct (Rlt_dec _ _); [reflexivity|lra].
  - apply (is_derive_locally _ (fun r => 0)); [exists (2 / 5), (r + 1)|auto_derive; [exact I|ring]].
    split; [lra|]. intros t Ht. unfold doc_uphi. destruct (Rlt_dec _ _); [lra|]. destruct (Rlt_dec _ _); [lra|reflexivity].
Qed.
Lemma gresho_p_derive S P r : 0 < r -> is_derive (doc_gresho_p S P) r (doc_uphi r * doc_uphi r / r).
Proof.
  intros Hr. unfold doc_gresho_p. set (p0 := gr_rho0 P / _).
  set (A := fun r : R => p0 + 25 / 2 * (r * r)).
  set (M := fun r : R => p0 + 25 / 2 * (r * r) + 4 * (1 - 5 * r - ln (1 / 5) + ln r)).
  set (C := fun _ : R => p0 - 2 + 4 * ln 2).
  change (fun r : R => _) with (fun r : R => if Rlt_dec r (1 / 5) then A r else if Rlt_dec r (2 / 5) then M r else C r).
  assert (DA : forall r, is_derive A r (25 * r)) by (intros t; unfold A; auto_derive; [exact I|field]).
  assert (DM : forall r, 0 < r -> is_derive M r (25 * r + 4 * (- 5 + / r))).
  { intros t Ht. unfold M. auto_derive; [exact Ht|]. field. lra. }
  assert (DC : forall r, is_derive C r 0) by (intros t; unfold C; auto_derive; [exact I|ring]).
  assert (E1 : A (1 / 5) = M (1 / 5)) by (unfold A, M; lra).
  assert (E2 : M (2 / 5) = C (2 / 5)).
  { unfold M, C. replace (ln (2 / 5)) with (ln 2 + ln (1 / 5)); [lra|]. rewrite <- ln_mult by lra. f_equal. lra. }
  set (f := fun r => if Rlt_dec r (1 / 5) then _ else _).
  destruct (Rlt_le_dec r (1 / 5)) as [H|H].
  - replace (doc_uphi r * doc_uphi r / r) with (25 * r).
    + apply (is_derive_locally _ A); [exists 0, (1 / 5); split; [lra|]|apply DA].
      intros t Ht. unfold f. destruct (Rlt_dec _ _); [reflexivity|lra].
    + unfold doc_uphi. destruct (Rlt_dec _ _); [field; lra|lra].
  - destruct (Rle_lt_or_eq_dec _ _ H) as [H'|<-].
    + destruct (Rlt_le_dec r (2 / 5)) as [K|K].
      * replace (doc_uphi r * doc_uphi r / r) with (25 * r + 4 * (- 5 + / r)).
        -- apply (is_derive_locally _ M); [exists (1 / 5), (2 / 5); split; [lra|]|apply DM; lra].
           intros t Ht. unfold f. destruct (Rlt_dec _ _); [lra|]. destruct (Rlt_dec _ _); [reflexivity|lra].
        -- unfold doc_uphi. destruct (Rlt_dec _ _); [lra|]. destruct (Rlt_dec _ _); [field; lra|lra].
      * assert (U : doc_uphi r * doc_uphi r / r = 0).
        { unfold doc_uphi. destruct (Rlt_dec _ _); [lra|]. destruct (Rlt_dec _ _); [lra|]. unfold Rdiv. ring. }
        rewrite U. destruct (Rle_lt_or_eq_dec _ _ K) as [K'|<-].
        -- apply (is_derive_locally _ C); [exists (2 / 5), (r + 1); split; [lra|]|apply DC].
           intros t Ht. unfold f. destruct (Rlt_dec _ _); [lra|]. destruct (Rlt_dec _ _); [lra|reflexivity].
        -- apply (is_derive_locally _ (fun r => if Rlt_dec r (2 / 5) then M r else C r));
             [exists (1 / 5), 1; split; [lra|]|].
           { intros t Ht. unfold f. destruct (Rlt_dec t (1 / 5)); [lra|reflexivity]. }
           apply (glued _ M C); auto.
           { intros t Ht. destruct (Rlt_dec _ _); [reflexivity|lra]. }
           { intros t Ht. destruct (Rlt_dec _ _); [lra|reflexivity]. }
           evar_last; [apply DM; lra|field].
    + replace (doc_uphi (1 / 5) * doc_uphi (1 / 5) / (1 / 5)) with 5.
      2:{ unfold doc_uphi. destruct (Rlt_dec _ _); [lra|]. destruct (Rlt_dec _ _); [field|lra]. }
      apply (glued _ A (fun r => if Rlt_dec r (2 / 5) then M r else C r)).
      * intros t Ht. unfold f. destruct (Rlt_dec _ _); [reflexivity|lra].
      * intros t Ht. unfold f. destruct (Rlt_dec t (1 / 5)); [lra|reflexivity].
      * destruct (Rlt_dec _ _); [exact E1|lra].
      * evar_last; [apply DA|field].
      * apply (is_derive_locally _ M); [exists 0, (2 / 5); split; [lra|]|].
        { intros t Ht. destruct (Rlt_dec _ _); [reflexivity|lra]. }
        evar_last; [apply DM; lra|field].
Qed.

Definition gresho_W (s : R) : R := doc_uphi (sqrt s) / sqrt s.
Lemma gresho_swirl S P : doc_gresho S P = swirl (fun _ => gr_rho0 P) (fun s => doc_gresho_p S P (sqrt s)) gresho_W.
Proof.
  apply functional_extensionality. intros x. apply functional_extensionality. intros y.
  unfold doc_gresho, swirl, gresho_W. f_equal; unfold Rdiv; ring.
Qed.
Lemma is_derive_sqrt s : 0 < s -> is_derive sqrt s (/ (2 * sqrt s)).
Proof. intros H. auto_derive; [exact H|]. ring. Qed.
Lemma gresho_W_derive s : 0 < s -> sqrt s <> 1 / 5 -> sqrt s <> 2 / 5 -> exists l, is_derive gresho_W s l.
Proof.
  intros Hs N1 N2. pose proof (sqrt_lt_R0 s Hs) as Hr.
  assert (exists u, is_derive doc_uphi (sqrt s) u) as [u Hu].
  { destruct (uphi_pieces (sqrt s)) as (U1 & U2 & U3).
    destruct (Rlt_le_dec (sqrt s) (1 / 5)); [exists 5; apply U1; lra|].
    destruct (Rlt_le_dec (sqrt s) (2 / 5)); [exists (-5); apply U2; lra|exists 0; apply U3; lra]. }
  eexists. unfold gresho_W.
  apply (is_derive_div (fun s => doc_uphi (sqrt s)) sqrt); [|apply is_derive_sqrt, Hs|lra].
  apply (is_derive_comp doc_uphi sqrt); [exact Hu|apply is_derive_sqrt, Hs].
Qed.
Lemma gresho_P_derive S P s : 0 < s ->
  is_derive (fun s => doc_gresho_p S P (sqrt s)) s (gresho_W s * gresho_W s / 2).
Proof.
  intros Hs. pose proof (sqrt_lt_R0 s Hs) as Hr.
  replace (gresho_W s * gresho_W s / 2) with (/ (2 * sqrt s) * (doc_uphi (sqrt s) * doc_uphi (sqrt s) / sqrt s)).
  - apply (is_derive_comp (doc_gresho_p S P) sqrt); [apply gresho_p_derive, Hr|apply is_derive_sqrt, Hs].
  - unfold gresho_W. generalize (doc_uphi (sqrt s)). intros u. field. lra.
Qed.

(** ** Isentropic vortex *)
Definition vortex_t S (P : vortex_params R) (s : R) : R :=
  v_T P - (gamma0 S - 1) * (v_beta P * v_beta P) / (8 * gamma0 S * (PI * PI)) * exp (1 - s).
Definition vortex_d S (P : vortex_params R) (s : R) : R :=
  v_rho P * Rpower (vortex_t S P s / v_T P) (1 / (gamma0 S - 1)).
Definition vortex_W (P : vortex_params R) (s : R) : R := v_beta P / (2 * PI) * exp ((1 - s) / 2).
Lemma vortex_swirl S P x y :
  seen_from (v_u P) (v_v P) (doc_vortex S P) x y =
  swirl (vortex_d S P) (fun s => vortex_d S P s * vortex_t S P s) (vortex_W P) (x - v_x P) (y - v_y P).
Proof.
  unfold seen_from, doc_vortex, swirl, vortex_d, vortex_t, vortex_W. cbn [hd hp hu hv hw]. f_equal; ring.
Qed.
Lemma steady_shift g gx gy q a b x y : steady g gx gy q (x - a) (y - b) ->
  steady g gx gy (fun x y => q (x - a) (y - b)) x y.
Proof.
  intros (rx & ry & px & py & ux & uy & vx & vy & H1 & H2 & H3 & H4 & H5 & H6 & H7 & H8 & H).
  assert (K : forall (f : R -> R) c t l, derivable_pt_lim f (t - c) l -> derivable_pt_lim (fun t => f (t - c)) t l).
  { intros f c t l D. apply is_derive_Reals. apply is_derive_Reals in D. replace l with (1 * l) by ring.
    apply (is_derive_comp f (fun t => t - c)); [exact D|]. auto_derive; [exact I|ring]. }
  exists rx, ry, px, py, ux, uy, vx, vy. unfold ddx, ddy in *.
  split; [exact (K (fun t => hd (q t (y - b))) a x rx H1)|]. split; [exact (K (fun t => hd (q (x - a) t)) b y ry H2)|].
  split; [exact (K (fun t => hp (q t (y - b))) a x px H3)|]. split; [exact (K (fun t => hp (q (x - a) t)) b y py H4)|].
  split; [exact (K (fun t => hu (q t (y - b))) a x ux H5)|]. split; [exact (K (fun t => hu (q (x - a) t)) b y uy H6)|].
  split; [exact (K (fun t => hv (q t (y - b))) a x vx H7)|]. split; [exact (K (fun t => hv (q (x - a) t)) b y vy H8)|].
  exact H.
Qed.
Lemma vortex_balance S P s : 1 < gamma0 S -> 0 < v_T P -> 0 < vortex_t S P s ->
  exists D' P', is_derive (vortex_d S P) s D' /\ is_derive (fun s => vortex_d S P s * vortex_t S P s) s P' /\
  2 * P' = vortex_d S P s * (vortex_W P s * vortex_W P s).
Proof.
  intros G HT Ht. pose proof PI_RGT_0 as Hpi.
  set (c := (gamma0 S - 1) * (v_beta P * v_beta P) / (8 * gamma0 S * (PI * PI))).
  assert (Dt : is_derive (vortex_t S P) s (c * exp (1 - s))).
  { unfold vortex_t. fold c. auto_derive; [exact I|]. replace (1 + - s) with (1 - s) by ring. generalize (exp (1 - s)). intros e. ring. }
  set (k := 1 / (gamma0 S - 1)).
  assert (Dd : is_derive (vortex_d S P) s (vortex_d S P s * k * (c * exp (1 - s)) / vortex_t S P s)).
  { unfold vortex_d. fold k. unfold Rpower.
    assert (D2 : is_derive (fun t => v_rho P * exp (k * ln (t / v_T P))) (vortex_t S P s)
              (v_rho P * exp (k * ln (vortex_t S P s / v_T P)) * k / vortex_t S P s)).
    { assert (0 < vortex_t S P s / v_T P) by (apply Rdiv_lt_0_compat; lra).
      auto_derive; [exact H|]. unfold Rdiv in *. generalize (exp (k * ln (vortex_t S P s * / v_T P))). intros e. field. lra. }
    evar_last; [apply (is_derive_comp (fun t => v_rho P * exp (k * ln (t / v_T P))) (vortex_t S P)); [exact D2|exact Dt]|].
    unfold scal; cbn; unfold mult; cbn. field. lra. }
  do 2 eexists. split; [exact Dd|]. split.
  { apply (is_derive_mult (vortex_d S P) (vortex_t S P)); [exact Dd|exact Dt|intros; apply Rmult_comm]. }
  unfold plus, mult; cbn. unfold vortex_W. replace (exp (1 - s)) with (exp ((1 - s) / 2) * exp ((1 - s) / 2)).
  2:{ rewrite <- exp_plus. f_equal. field. }
  unfold k, c. generalize (exp ((1 - s) / 2)). intros e. generalize (vortex_d S P s). intros d.
  field. repeat split; lra.
Qed.
Lemma vortex_entropy S P s : 1 < gamma0 S -> 0 < v_T P -> 0 < v_rho P -> 0 < vortex_t S P s ->
  vortex_d S P s * vortex_t S P s =
  v_T P / Rpower (v_rho P) (gamma0 S - 1) * Rpower (vortex_d S P s) (gamma0 S).
Proof.
  intros G HT Hr Ht. assert (Hq : 0 < vortex_t S P s / v_T P) by (apply Rdiv_lt_0_compat; lra).
  assert (Hd : 0 < vortex_d S P s) by (unfold vortex_d; apply Rmult_lt_0_compat; [lra|apply exp_pos]).
  replace (gamma0 S) with (1 + (gamma0 S - 1)) at 2 by ring. rewrite Rpower_plus, Rpower_1 by exact Hd.
  assert (E : Rpower (vortex_d S P s) (gamma0 S - 1) = Rpower (v_rho P) (gamma0 S - 1) * (vortex_t S P s / v_T P)).
  { unfold vortex_d. rewrite <- Rpower_mult_distr by (auto; apply exp_pos). rewrite Rpower_mult.
    replace (1 / (gamma0 S - 1) * (gamma0 S - 1)) with 1 by (field; lra). rewrite Rpower_1 by exact Hq. reflexivity. }
  rewrite E. assert (0 < Rpower (v_rho P) (gamma0 S - 1)) by apply exp_pos.
  generalize (vortex_t S P s). intros t. field. split; lra.
Qed.

Lemma pos_of_sqrt x y : 0 < sqrt (x * x + y * y) -> 0 < x * x + y * y.
Proof.
  intros H. assert (K : 0 <= x * x + y * y) by (apply Rplus_le_le_0_compat; apply Rle_0_sqr).
  destruct (Rle_lt_or_eq_dec _ _ K) as [K'|K']; [exact K'|]. rewrite <- K', sqrt_0 in H. lra.
Qed.

(** ** C55 *)

(** Gresho vortex of unit density: the pressure force is the centripetal force at every
    radius, the two joints included, and away from the joints the gas is stationary; the
    arrays hold this gas. *)
Theorem C55_gresho :
  forall (L : mlib R) m S B rnd Q inb name s s', libm L -> sane S -> problem_hydro2 name = Gresho ->
  gr_rho0 (p_gresho Q) = 1 ->
  execs inb s (init_hydro2 L m S B rnd Q name) s' ->
  let q := doc_gresho S (p_gresho Q) in
  (forall r, 0 < r -> derivable_pt_lim (doc_gresho_p S (p_gresho Q)) r (gr_rho0 (p_gresho Q) * (doc_uphi r * doc_uphi r / r))) /\
  (forall x y, let r := sqrt (x * x + y * y) in 0 < r -> r <> 1 / 5 -> r <> 2 / 5 -> steady (gamma0 S) 0 0 q x y) /\
  (forall i j, (0 <= i < isize m)%Z -> (0 <= j < jsize m)%Z -> admissible S (q (at_x S B m i) (at_y S B m j)) ->
   Qf S (field_of A_U s') i j = q (at_x S B m i) (at_y S B m j)).
Proof.
  intros L m S B rnd Q inb name s s' HL HS Hn Hr E q. split; [|split].
  - intros r H. apply is_derive_Reals. rewrite Hr, Rmult_1_l. apply gresho_p_derive, H.
  - intros x y r H N1 N2. unfold q. rewrite gresho_swirl.
    assert (Hs : 0 < x * x + y * y).
    { apply pos_of_sqrt. fold r. lra. }
    destruct (gresho_W_derive (x * x + y * y) Hs N1 N2) as [l Hl].
    eapply swirl_steady; [|apply gresho_P_derive, Hs|exact Hl|].
    + apply (is_derive_const (gr_rho0 (p_gresho Q))).
    + cbv beta. rewrite Hr. field.
  - intros i j Hi Hj Ha. unfold q. 
    pose proof (C52_hydro L m S B rnd Q inb name s s' HL HS E i j Hi Hj) as C. rewrite Hn in C.
    apply C; [discriminate|exact Ha].
Qed.
Print Assumptions C55_gresho.

(** With another density the velocity is too high or too low for the pressure. *)
Theorem C55_gresho_refuted :
  forall (L : mlib R) m S B rnd Q inb name s s', libm L -> sane S -> problem_hydro2 name = Gresho ->
  gr_rho0 (p_gresho Q) <> 1 ->
  execs inb s (init_hydro2 L m S B rnd Q name) s' ->
  let q := doc_gresho S (p_gresho Q) in
  (forall x y, let r := sqrt (x * x + y * y) in 0 < r < 2 / 5 -> r <> 1 / 5 -> ~ steady (gamma0 S) 0 0 q x y) /\
  (forall i j, (0 <= i < isize m)%Z -> (0 <= j < jsize m)%Z -> admissible S (q (at_x S B m i) (at_y S B m j)) ->
   Qf S (field_of A_U s') i j = q (at_x S B m i) (at_y S B m j)).
Proof.
  intros L m S B rnd Q inb name s s' HL HS Hn Hr E q. split.
  - intros x y r H N1. unfold q. rewrite gresho_swirl.
    assert (Hs : 0 < x * x + y * y).
    { apply pos_of_sqrt. fold r. lra. }
    destruct (gresho_W_derive (x * x + y * y) Hs N1 ltac:(fold r; lra)) as [l Hl].
    eapply swirl_not_steady; [|apply gresho_P_derive, Hs|exact Hl|exact Hs|].
    + apply (is_derive_const (gr_rho0 (p_gresho Q))).
    + cbv beta. intros F.
      assert (W : 0 < gresho_W (x * x + y * y)).
      { unfold gresho_W. fold r. apply Rdiv_lt_0_compat; [|lra]. unfold doc_uphi.
        destruct (Rlt_dec _ _); [lra|]. destruct (Rlt_dec _ _); lra. }
      apply Hr. apply (Rmult_eq_reg_r (gresho_W (x * x + y * y) * gresho_W (x * x + y * y))); [|nra]. lra.
  - intros i j Hi Hj Ha. unfold q.
    pose proof (C52_hydro L m S B rnd Q inb name s s' HL HS E i j Hi Hj) as C. rewrite Hn in C.
    apply C; [discriminate|exact Ha].
Qed.
Print Assumptions C55_gresho_refuted.

(** Isentropic vortex: p = K rho^gamma with one K, and stationary for an observer moving
    with the mean flow, wherever its temperature is positive. *)
Theorem C55_vortex :
  forall (L : mlib R) m S B rnd Q inb name s s', libm L -> sane S -> problem_hydro2 name = IsentropicVortex ->
  let P := p_vortex Q in 0 < v_T P -> 0 < v_rho P ->
  execs inb s (init_hydro2 L m S B rnd Q name) s' ->
  let q := doc_vortex S P in
  (forall x y, 0 < hp (q x y) / hd (q x y) ->
   hp (q x y) = v_T P / Rpower (v_rho P) (gamma0 S - 1) * Rpower (hd (q x y)) (gamma0 S) /\
   steady (gamma0 S) 0 0 (seen_from (v_u P) (v_v P) q) x y) /\
  (forall i j, (0 <= i < isize m)%Z -> (0 <= j < jsize m)%Z ->
   0 < hp (q (at_x S B m i) (at_y S B m j)) / hd (q (at_x S B m i) (at_y S B m j)) ->
   admissible S (q (at_x S B m i) (at_y S B m j)) ->
   Qf S (field_of A_U s') i j = q (at_x S B m i) (at_y S B m j)).
Proof.
  intros L m S B rnd Q inb name s s' HL HS Hn P HT Hr E q. pose proof HS as (G & _). split.
  - intros x y H.
    assert (F : forall x y, hd (q x y) = vortex_d S P ((x - v_x P) * (x - v_x P) + (y - v_y P) * (y - v_y P)) /\
      hp (q x y) = vortex_d S P ((x - v_x P) * (x - v_x P) + (y - v_y P) * (y - v_y P)) *
                   vortex_t S P ((x - v_x P) * (x - v_x P) + (y - v_y P) * (y - v_y P))) by (intros; split; reflexivity).
    destruct (F x y) as [F1 F2]. rewrite F1, F2 in *. set (z := _ + _) in *.
    assert (Hd : 0 < vortex_d S P z) by (unfold vortex_d; apply Rmult_lt_0_compat; [lra|apply exp_pos]).
    assert (Ht : 0 < vortex_t S P z).
    { replace (vortex_t S P z) with (vortex_d S P z * vortex_t S P z / vortex_d S P z) by (field; lra). exact H. }
    split; [apply vortex_entropy; auto|].
    assert (E' : seen_from (v_u P) (v_v P) q = fun x y => swirl (vortex_d S P) (fun s => vortex_d S P s * vortex_t S P s) (vortex_W P) (x - v_x P) (y - v_y P)).
    { apply functional_extensionality. intros a. apply functional_extensionality. intros b. apply vortex_swirl. }
    rewrite E'. apply steady_shift.
    destruct (vortex_balance S P z G HT Ht) as (D' & P' & H1 & H2 & H3).
    eapply swirl_steady; [exact H1|exact H2| |exact H3].
    unfold vortex_W. auto_derive; [exact I|reflexivity].
  - intros i j Hi Hj Hp Ha. unfold q.
    pose proof (C52_hydro L m S B rnd Q inb name s s' HL HS E i j Hi Hj) as C. rewrite Hn in C.
    apply C; [split; auto|exact Ha].
Qed.
Print Assumptions C55_vortex.

(** ** Rayleigh-Taylor *)
Lemma is_derive_if (f g : R -> R) (c : R) (l : R) t : t <> c ->
  (t < c -> is_derive f t l) -> (c < t -> is_derive g t l) ->
  is_derive (fun t => if Rlt_dec c t then g t else f t) t l.
Proof.
  intros N Hf Hg. destruct (Rlt_le_dec t c) as [H|H].
  - apply (is_derive_locally _ f); [|auto]. exists (t - 1), c. split; [lra|]. intros u Hu.
    destruct (Rlt_dec _ _); [lra|reflexivity].
  - apply (is_derive_locally _ g); [|apply Hg; lra]. exists c, (t + 1). split; [lra|]. intros u Hu.
    destruct (Rlt_dec _ _); [reflexivity|lra].
Qed.

(** Without perturbation the two layers are stationary in the gravity field that the
    arrays hold, away from the surface between them. *)
Theorem C55_rayleigh_taylor :
  forall (L : mlib R) m S B rnd Q inb name s s', libm L -> sane S -> problem_hydro2 name = RayleighTaylor ->
  let P := p_rti Q in r_ampl P = 0 ->
  execs inb s (init_hydro2 L m S B rnd Q name) s' ->
  let q := doc_rti2 B P in
  (forall x y, y <> (ymin B + ymax B) / 2 -> steady (gamma0 S) (r_gx P) (r_gy P) q x y) /\
  (forall i j, (0 <= i < isize m)%Z -> (0 <= j < jsize m)%Z ->
   s' (L2 A_G i j IX) = r_gx P /\ s' (L2 A_G i j IY) = r_gy P /\
   (admissible S (q (at_x S B m i) (at_y S B m j)) ->
    Qf S (field_of A_U s') i j = q (at_x S B m i) (at_y S B m j))).
Proof.
  intros L m S B rnd Q inb name s s' HL HS Hn P HA E q. split.
  - intros x y N. set (c := (ymin B + ymax B) / 2) in *.
    set (d := if Rlt_dec c y then r_d1 P else r_d0 P).
    assert (Hu : forall x y, hu (q x y) = 0 /\ hv (q x y) = 0).
    { intros a b. unfold q, doc_rti2; cbn [hu hv]. rewrite HA. split; ring. }
    exists 0, 0, (d * r_gx P), (d * r_gy P), 0, 0, 0, 0.
    assert (Z : forall f : R -> R, (forall t, f t = 0) -> forall t, derivable_pt_lim f t 0).
    { intros f Hf t. apply is_derive_Reals. apply (is_derive_ext (fun _ => 0)); [auto|]. apply (is_derive_const 0). }
    unfold ddx, ddy.
    split. { unfold q, doc_rti2; cbn [hd hp]; fold c; fold d. apply is_derive_Reals; auto_derive; [exact I|reflexivity]. }
    split. { unfold q, doc_rti2; cbn [hd hp]; fold c; fold d. apply is_derive_Reals. apply is_derive_if; [exact N|intros _; auto_derive; [exact I|reflexivity]..]. }
    split. { unfold q, doc_rti2; cbn [hd hp]; fold c; fold d. apply is_derive_Reals; auto_derive; [exact I|ring]. }
    split. { unfold q, doc_rti2; cbn [hd hp]; fold c; fold d. apply is_derive_Reals.
      apply (is_derive_ext (fun t => if Rlt_dec c t then 1 + r_d1 P * (r_gx P * x + r_gy P * t) else 1 + r_d0 P * (r_gx P * x + r_gy P * t))).
      { intros t. destruct (Rlt_dec c t); reflexivity. }
      apply is_derive_if; [exact N|intros H; unfold d; auto_derive; [exact I|]..]; destruct (Rlt_dec c y); try lra; ring. }
    split; [apply Z; intros; apply Hu|]. split; [apply Z; intros; apply Hu|].
    split; [apply Z; intros; apply Hu|]. split; [apply Z; intros; apply Hu|].
    cbv zeta. rewrite (proj1 (Hu x y)), (proj2 (Hu x y)). change (hd (q x y)) with d.
    repeat split; ring.
  - intros i j Hi Hj.
    pose proof (C52_hydro L m S B rnd Q inb name s s' HL HS E i j Hi Hj) as C. rewrite Hn in C.
    pose proof (init_hydro2_spec L m S B rnd inb Q name s s' E) as (_ & G & _). rewrite Hn in G.
    destruct (G eq_refl i j Hi Hj) as [G1 G2]. split; [exact G1|]. split; [exact G2|].
    intros Ha. apply C; [|exact Ha]. split; [|reflexivity]. cbn [doc_hydro2]. unfold doc_rti2; cbn [hv]. fold P. rewrite HA. ring.
Qed.
Print Assumptions C55_rayleigh_taylor.

Theorem C55_rayleigh_taylor3d :
  forall (L : mlib R) m S B rnd Q inb name s s', libm L -> sane S -> problem_hydro3 name = RayleighTaylor ->
  let P := p_rti Q in r_ampl P = 0 ->
  execs inb s (init_hydro3 L m S B rnd Q name) s' ->
  let q := doc_rti3 B P in
  (forall x y z, z <> (zmin B + zmax B) / 2 -> hydrostatic (r_gx P) (r_gy P) (r_gz P) q x y z) /\
  (forall i j k, (0 <= i < isize m)%Z -> (0 <= j < jsize m)%Z -> (0 <= k < ksize m)%Z ->
   s' (mkloc A_G i j k IX) = r_gx P /\ s' (mkloc A_G i j k IY) = r_gy P /\ s' (mkloc A_G i j k IZ) = r_gz P /\
   (admissible S (q (at_x S B m i) (at_y S B m j) (at_z S B m k)) ->
    Qf3 S (field_of3 A_U s') i j k = q (at_x S B m i) (at_y S B m j) (at_z S B m k))).
Proof.
  intros L m S B rnd Q inb name s s' HL HS Hn P HA E q. split.
  - intros x y z N. set (c := (zmin B + zmax B) / 2) in *.
    set (d := if Rlt_dec c z then r_d1 P else r_d0 P).
    split; [reflexivity|]. split; [reflexivity|]. split; [unfold q, doc_rti3; cbn [hw]; rewrite HA; ring|].
    unfold q, doc_rti3; cbn [hd hp]; fold c; fold d.
    split; [apply is_derive_Reals; auto_derive; [exact I|ring]|].
    split; [apply is_derive_Reals; auto_derive; [exact I|ring]|].
    apply is_derive_Reals.
    apply (is_derive_ext (fun t => if Rlt_dec c t then 1 + r_d1 P * (r_gx P * x + r_gy P * y + r_gz P * t)
                                   else 1 + r_d0 P * (r_gx P * x + r_gy P * y + r_gz P * t))).
    { intros t. destruct (Rlt_dec c t); reflexivity. }
    apply is_derive_if; [exact N|intros H; unfold d; auto_derive; [exact I|]..]; destruct (Rlt_dec c z); try lra; ring.
  - intros i j k Hi Hj Hk.
    pose proof (C52_hydro3d L m S B rnd Q inb name s s' HL HS E i j k Hi Hj Hk) as C. rewrite Hn in C.
    pose proof (init_hydro3_spec L m S B rnd inb Q name s s' E) as (_ & G & _). rewrite Hn in G.
    destruct (G eq_refl i j k Hi Hj Hk) as (G1 & G2 & G3). split; [exact G1|]. split; [exact G2|]. split; [exact G3|].
    intros Ha. apply C; [|exact Ha]. split; [reflexivity|]. cbn [doc_hydro3]. unfold doc_rti3; cbn [hw]. fold P. rewrite HA. ring.
Qed.
Print Assumptions C55_rayleigh_taylor3d.

(** The pressure jumps at the surface between the layers (it is 1 at the origin of the
    coordinates, not at the surface), so the whole is no equilibrium: where the potential
    of the gravity is not zero on the surface, the pressure is not even continuous. *)
Lemma jump (a b p0 w u c : R) : (a - b) * (u + w * c) <> 0 ->
  ~ continuity_pt (fun t => p0 + (if Rlt_dec c t then a else b) * (u + w * t)) c.
Proof.
  intros N H. set (J := (a - b) * (u + w * c)) in *.
  assert (HJ : 0 < Rabs J) by (apply Rabs_pos_lt; exact N).
  destruct (H (Rabs J / 2)) as (al & Hal & K); [lra|].
  set (A := Rabs (a * w) + 1). assert (HA : 1 <= A) by (unfold A; generalize (Rabs_pos (a * w)); lra).
  set (e := Rmin (al / 2) (Rabs J / 2 / A)).
  assert (He : 0 < e) by (apply Rmin_pos; [lra|apply Rdiv_lt_0_compat; lra]).
  assert (He1 : e <= al / 2) by apply Rmin_l. assert (He2 : e <= Rabs J / 2 / A) by apply Rmin_r.
  specialize (K (c + e)). destruct (Rlt_dec c c) as [F|_] in K; [lra|].
  assert (K' : R_dist (p0 + a * (u + w * (c + e))) (p0 + b * (u + w * c)) < Rabs J / 2).
  { replace (p0 + a * (u + w * (c + e))) with (p0 + (if Rlt_dec c (c + e) then a else b) * (u + w * (c + e)))
      by (destruct (Rlt_dec _ _); [reflexivity|lra]).
    apply K. split; [split; [exact Logic.I|lra]|]. cbn; unfold R_dist. replace (c + e - c) with e by ring. rewrite Rabs_pos_eq; lra. }
  unfold R_dist in K'. replace (p0 + a * (u + w * (c + e)) - (p0 + b * (u + w * c))) with (J + a * w * e) in K' by (unfold J; ring).
  assert (T : Rabs (a * w * e) <= Rabs J / 2).
  { rewrite Rabs_mult, (Rabs_pos_eq e) by lra. apply Rle_trans with (A * (Rabs J / 2 / A)); [|right; field; lra].
    apply Rmult_le_compat; try lra; [apply Rabs_pos|unfold A; lra]. }
  pose proof (Rabs_triang (J + a * w * e) (- (a * w * e))) as T2. rewrite Rabs_Ropp in T2.
  replace (J + a * w * e + - (a * w * e)) with J in T2 by ring. lra.
Qed.
Theorem C55_rayleigh_taylor_refuted :
  forall (L : mlib R) m S B rnd Q inb name s s', libm L -> sane S -> problem_hydro2 name = RayleighTaylor ->
  let P := p_rti Q in r_ampl P = 0 ->
  execs inb s (init_hydro2 L m S B rnd Q name) s' ->
  let q := doc_rti2 B P in let mid := (ymin B + ymax B) / 2 in
  (forall x, r_d0 P <> r_d1 P -> r_gx P * x + r_gy P * mid <> 0 ->
   ~ continuity_pt (fun y => hp (q x y)) mid /\ ~ steady (gamma0 S) (r_gx P) (r_gy P) q x mid) /\
  (forall i j, (0 <= i < isize m)%Z -> (0 <= j < jsize m)%Z -> admissible S (q (at_x S B m i) (at_y S B m j)) ->
   Qf S (field_of A_U s') i j = q (at_x S B m i) (at_y S B m j)).
Proof.
  intros L m S B rnd Q inb name s s' HL HS Hn P HA E q mid. split.
  - intros x Nd Ng.
    assert (C : ~ continuity_pt (fun y => hp (q x y)) mid).
    { unfold q, doc_rti2; cbn [hp]. fold mid. apply jump. apply Rmult_integral_contrapositive. split; [lra|exact Ng]. }
    split; [exact C|]. intros (rx & ry & px & py & ux & uy & vx & vy & _ & _ & _ & H4 & _).
    apply C. apply derivable_continuous_pt. exists py. exact H4.
  - exact (fun i j Hi Hj => proj2 (proj2 (proj2 (C55_rayleigh_taylor L m S B rnd Q inb name s s' HL HS Hn HA E) i j Hi Hj))).
Qed.
Print Assumptions C55_rayleigh_taylor_refuted.

(** ** Kelvin-Helmholtz *)
Lemma transition_bounds delta y : 0 < delta -> 0 < transition delta y < 1.
Proof.
  intros Hd. unfold transition.
  assert (Ea : 1 < exp (2 * (y - 1 / 4) / delta) * exp (2 * (3 / 4 - y) / delta)).
  { rewrite <- exp_plus. replace (2 * (y - 1 / 4) / delta + 2 * (3 / 4 - y) / delta) with (/ delta) by (field; lra).
    apply Rlt_trans with (1 + / delta); [generalize (Rinv_0_lt_compat _ Hd); lra|].
    apply exp_ineq1. apply Rgt_not_eq, Rinv_0_lt_compat, Hd. }
  pose proof (exp_pos (2 * (y - 1 / 4) / delta)) as Pa. pose proof (exp_pos (2 * (3 / 4 - y) / delta)) as Pb.
  set (a := exp (2 * (y - 1 / 4) / delta)) in *. set (b := exp (2 * (3 / 4 - y) / delta)) in *. clearbody a b.
  assert (0 < / (1 + a)) by (apply Rinv_0_lt_compat; lra). assert (0 < / (1 + b)) by (apply Rinv_0_lt_compat; lra).
  split; [lra|]. apply (Rmult_lt_reg_r ((1 + a) * (1 + b))); [nra|].
  replace ((/ (1 + a) + / (1 + b)) * ((1 + a) * (1 + b))) with (2 + a + b) by (field; lra). nra.
Qed.
Lemma between_bounds a b r : 0 < r < 1 -> Rmin a b <= between a b r <= Rmax a b.
Proof.
  intros Hr. unfold between, Rmin, Rmax. destruct (Rle_dec a b); split; nra.
Qed.
Lemma smallp_pos S : sane S -> 0 <= smallp S.
Proof.
  intros (G & _ & Hc & E & _). rewrite E. apply Rmult_le_pos; [nra|]. left. apply Rinv_0_lt_compat. lra.
Qed.
(** Density and stream velocity of the smooth profile stay between the two given values. *)
Theorem C55_kelvin_helmholtz :
  forall (L : mlib R) m S B rnd Q inb name s s', libm L -> sane S -> problem_hydro2 name = KelvinHelmholtz ->
  let P := p_kh Q in k_rand P = false -> k_rob P = true -> 0 < k_delta P ->
  execs inb s (init_hydro2 L m S B rnd Q name) s' ->
  forall i j, (0 <= i < isize m)%Z -> (0 <= j < jsize m)%Z ->
  smallr S <= Rmin (k_din P) (k_dout P) -> Rmax (k_din P) (k_dout P) * smallp S <= k_p P ->
  let q := Qf S (field_of A_U s') i j in
  Rmin (k_din P) (k_dout P) <= hd q <= Rmax (k_din P) (k_dout P) /\
  Rmin (k_vin P) (k_vout P) <= hu q <= Rmax (k_vin P) (k_vout P) /\ hp q = k_p P.
Proof.
  intros L m S B rnd Q inb name s s' HL HS Hn P H1 H2 Hd E i j Hi Hj F1 F2 q.
  pose proof (C52_hydro L m S B rnd Q inb name s s' HL HS E i j Hi Hj) as C. rewrite Hn in C.
  cbv zeta in C. cbn [doc_hydro2 as_documented] in C. unfold doc_kh2 in C. fold P in C. rewrite H1 in C.
  pose proof (between_bounds (k_din P) (k_dout P) _ (transition_bounds _ (at_y S B m j) Hd)) as BD.
  pose proof (between_bounds (k_vin P) (k_vout P) _ (transition_bounds _ (at_y S B m j) Hd)) as BV.
  unfold q. rewrite C.
  - unfold doc_kh_smooth2; cbn [hd hp hu]. repeat split; try apply BD; try apply BV.
  - unfold kh_on. rewrite H2. apply orb_true_r.
  - unfold admissible, doc_kh_smooth2; cbn [hd hp]. pose proof HS as (G & Hr & Hc). split; [lra|].
    apply Rle_trans with (Rmax (k_din P) (k_dout P) * smallp S); [|exact F2].
    apply Rmult_le_compat_r; [|apply BD]. exact (smallp_pos S HS).
Qed.
Print Assumptions C55_kelvin_helmholtz.

Theorem C55_kelvin_helmholtz3d :
  forall (L : mlib R) m S B rnd Q inb name s s', libm L -> sane S -> problem_hydro3 name = KelvinHelmholtz ->
  let P := p_kh Q in k_rand P = false -> k_rob P = true -> 0 < k_delta P ->
  execs inb s (init_hydro3 L m S B rnd Q name) s' ->
  forall i j k, (0 <= i < isize m)%Z -> (0 <= j < jsize m)%Z -> (0 <= k < ksize m)%Z ->
  smallr S <= Rmin (k_din P) (k_dout P) -> Rmax (k_din P) (k_dout P) * smallp S <= k_p P ->
  let q := Qf3 S (field_of3 A_U s') i j k in
  Rmin (k_din P) (k_dout P) <= hd q <= Rmax (k_din P) (k_dout P) /\
  Rmin (k_vin P) (k_vout P) <= hu q <= Rmax (k_vin P) (k_vout P) /\ hv q = hu q / 2 /\ hp q = k_p P.
Proof.
  intros L m S B rnd Q inb name s s' HL HS Hn P H1 H2 Hd E i j k Hi Hj Hk F1 F2 q.
  pose proof (C52_hydro3d L m S B rnd Q inb name s s' HL HS E i j k Hi Hj Hk) as C. rewrite Hn in C.
  cbv zeta in C. cbn [doc_hydro3 as_documented] in C. unfold doc_kh3 in C. fold P in C. rewrite H1 in C.
  pose proof (between_bounds (k_din P) (k_dout P) _ (transition_bounds _ (at_z S B m k) Hd)) as BD.
  pose proof (between_bounds (k_vin P) (k_vout P) _ (transition_bounds _ (at_z S B m k) Hd)) as BV.
  unfold q. rewrite C.
  - unfold doc_kh_smooth3; cbn [hd hp hu hv]. repeat split; try apply BD; try apply BV.
  - unfold kh_on. rewrite H2. apply orb_true_r.
  - unfold admissible, doc_kh_smooth3; cbn [hd hp]. pose proof HS as (G & Hr & Hc). split; [lra|].
    apply Rle_trans with (Rmax (k_din P) (k_dout P) * smallp S); [|exact F2].
    apply Rmult_le_compat_r; [|apply BD]. exact (smallp_pos S HS).
Qed.
Print Assumptions C55_kelvin_helmholtz3d.

(** The hypotheses hold: at (3/10, 0) in the Gresho vortex, one radius from the centre of a
    vortex of strength 5, in the default Kelvin-Helmholtz and Rayleigh-Taylor boxes. *)
Example C55_case :
  let S := ex_set R_HLLC 1 in
  let V := mkvortex R 1 1 1 1 0 0 5 in
  let r := sqrt (3/10 * (3/10) + 0 * 0) in
  sane S /\ 0 < r < 2 / 5 /\ r <> 1 / 5 /\ hv (doc_gresho S (mkgresho R 1 (1/10)) (3/10) 0) = 1/2 /\
  admissible S (doc_gresho S (mkgresho R 1 (1/10)) (1/5) 0) /\
  0 < hp (doc_vortex S V 1 0) / hd (doc_vortex S V 1 0) /\
  smallr S <= Rmin 1 2 /\ Rmax 1 2 * smallp S <= 10 /\
  (0 + -1/10 * ((0 + 1) / 2) <> 0).
Proof.
  intros S V r.
  assert (Er : r = 3/10).
  { unfold r. replace (3 / 10 * (3 / 10) + 0 * 0) with (3/10 * (3/10)) by ring. apply sqrt_square. lra. }
  split; [apply ex_set_sane|]. rewrite Er. split; [lra|]. split; [lra|]. split.
  { unfold doc_gresho. cbn [hv]. fold r. rewrite Er. unfold doc_uphi. destruct (Rlt_dec _ _); [lra|].
    destruct (Rlt_dec _ _); [field|lra]. }
  split; [exact (proj1 C52_gresho_case)|].
  destruct C52_hydro_case as (_ & _ & _ & _ & _ & Ha1 & Ha2). fold S V in Ha1, Ha2.
  assert (Hr : 0 < smallr S) by (cbn; lra). assert (Hp : 0 < smallp S) by (cbn; lra).
  split. { apply Rdiv_lt_0_compat; [|lra]. apply Rlt_le_trans with (2 := Ha2). apply Rmult_lt_0_compat; lra. }
  rewrite Rmin_left, Rmax_right by lra. cbn. repeat split; lra.
Qed.
