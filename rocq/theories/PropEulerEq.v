(** * C61: the equations of gas dynamics as written in EulerEquations.h *)
From Coq Require Import ZArith List Bool Reals Lra Lia.
Import ListNotations.
From Verif Require Import Num HydroNum EulerEq EulerEqSpec.
Local Open Scope R_scope.

Definition flat2 (q : hs R) : Prop := hw q = 0.
Definition planar (d : dir3) : Prop := d <> DZ.

Ltac nums := cbn [nadd nsub nmul ndiv nopp nZ nmax nltb Rnum] in *.
Ltac parts := cbn [hd hp hu hv hw mk2] in *.

Lemma half_val : nhalf (T := R) = / 2. Proof. unfold nhalf, n1, n2. nums. lra. Qed.
Lemma one_val : n1 (T := R) = 1. Proof. reflexivity. Qed.
Lemma two_val : n2 (T := R) = 2. Proof. reflexivity. Qed.
Lemma zero_val : n0 (T := R) = 0. Proof. reflexivity. Qed.
Ltac vals := rewrite ?half_val, ?one_val, ?two_val, ?zero_val in *.

Lemma hs_eq (a b : hs R) : hd a = hd b -> hp a = hp b -> hu a = hu b -> hv a = hv b -> hw a = hw b -> a = b.
Proof. destruct a, b. parts. intros -> -> -> -> ->. reflexivity. Qed.

(** ** Pressure *)

Lemma e_smallp_pos : 0 < e_smallp (T := R).
Proof. unfold e_smallp. vals. nums. apply Rdiv_lt_0_compat; [lra|]. apply IZR_lt. reflexivity. Qed.
Lemma e_smallr_pos : 0 < e_smallr (T := R).
Proof. unfold e_smallr. vals. nums. apply Rdiv_lt_0_compat; [lra|]. apply IZR_lt. reflexivity. Qed.

Lemma pressure2_max q gamma : flat2 q ->
  compute_pressure2 q gamma = Rmax (gas_pressure gamma q) (e_smallp * hd q) \/ hd q = 0.
Proof.
  intros F. destruct (Req_dec (hd q) 0) as [|Hd]; [right; auto|left].
  unfold compute_pressure2, gas_pressure. rewrite F. vals. nums.
  replace (/ 2 * (hu q * hu q + hv q * hv q) / hd q) with ((hu q * hu q + hv q * hv q + 0 * 0) / (2 * hd q)) by (field; auto).
  set (p := (gamma - 1) * _). unfold Rmax.
  destruct (Rlt_dec (e_smallp * hd q) p), (Rle_dec p (e_smallp * hd q)); lra.
Qed.

Lemma pressure3_max q gamma : hd q <> 0 ->
  compute_pressure3 q gamma = Rmax (gas_pressure gamma q) (e_smallp * hd q).
Proof.
  intros Hd. unfold compute_pressure3, gas_pressure. vals. nums.
  replace (/ 2 * (hu q * hu q + hv q * hv q + hw q * hw q) / hd q)
    with ((hu q * hu q + hv q * hv q + hw q * hw q) / (2 * hd q)) by (field; auto).
  set (p := (gamma - 1) * _). unfold Rmax.
  destruct (Rlt_dec (e_smallp * hd q) p), (Rle_dec p (e_smallp * hd q)); lra.
Qed.

(** The pressure is that of an ideal gas, kept above a multiple of the density; it
    is positive, and the conversion to primitive variables gives the same. *)
Theorem C61_pressure : forall q gamma, 0 < hd q ->
  (compute_pressure3 q gamma = Rmax (gas_pressure gamma q) (/ 10 ^ 7 * hd q) /\
   0 < compute_pressure3 q gamma /\
   convert_to_primitive3 q gamma =
     mkhs (hd q) (compute_pressure3 q gamma) (hu q / hd q) (hv q / hd q) (hw q / hd q)) /\
  (flat2 q ->
   compute_pressure2 q gamma = Rmax (gas_pressure gamma q) (/ 10 ^ 7 * hd q) /\
   0 < compute_pressure2 q gamma /\
   (/ 10 ^ 8 <= hd q ->
    convert_to_primitive2 q gamma = mkhs (hd q) (compute_pressure2 q gamma) (hu q / hd q) (hv q / hd q) 0)).
Proof.
  intros q gamma Hd. pose proof e_smallp_pos as Hs.
  assert (Ep : / 10 ^ 7 = e_smallp) by (unfold e_smallp; vals; nums; change (10 ^ 7)%Z with 10000000%Z; field).
  assert (Er : / 10 ^ 8 = e_smallr) by (unfold e_smallr; vals; nums; change (10 ^ 8)%Z with 100000000%Z; field).
  rewrite Ep, Er.
  assert (Hf : 0 < e_smallp * hd q) by (apply Rmult_lt_0_compat; auto).
  split.
  - assert (E := pressure3_max q gamma ltac:(lra)). split; [exact E|]. split.
    { rewrite E. eapply Rlt_le_trans; [exact Hf|apply Rmax_r]. }
    rewrite E. unfold convert_to_primitive3, gas_pressure. vals. nums. f_equal. f_equal. f_equal. f_equal. field. lra.
  - intros F. destruct (pressure2_max q gamma F) as [E|E]; [|lra]. split; [exact E|]. split.
    { rewrite E. eapply Rlt_le_trans; [exact Hf|apply Rmax_r]. }
    intros Hr. rewrite E. unfold convert_to_primitive2, gas_pressure, mk2. vals. nums. rewrite (Rmax_left (hd q) e_smallr) by lra.
    rewrite F. f_equal. f_equal. f_equal. f_equal. field. lra.
Qed.
Print Assumptions C61_pressure.

(** ** Fluxes *)
Theorem C61_fluxes : forall d q p, hd q <> 0 ->
  flux3 d q p = carried d q p /\ (flat2 q -> planar d -> flux2 d q p = carried d q p).
Proof.
  intros d q p Hd. split.
  - destruct d; unfold flux3, carried, along; nums; apply hs_eq; parts; field; auto.
  - intros F HP. unfold flat2 in F. destruct d; [| |contradiction HP; reflexivity];
      unfold flux2, carried, along, mk2; vals; nums; apply hs_eq; parts; rewrite ?F; field; auto.
Qed.
Print Assumptions C61_fluxes.

(** ** Characteristic variables *)

(** The two transformations are inverse to each other, for every speed c. *)
Theorem C61_inverse : forall d data q c gamma, hd q <> 0 -> c <> 0 -> gamma <> 1 ->
  (charac_to_cons3 d (cons_to_charac3 d data q c gamma) q c gamma = data /\
   cons_to_charac3 d (charac_to_cons3 d data q c gamma) q c gamma = data) /\
  (flat2 data -> planar d ->
   charac_to_cons2 d (cons_to_charac2 d data q c gamma) q c gamma = data /\
   cons_to_charac2 d (charac_to_cons2 d data q c gamma) q c gamma = data).
Proof.
  intros d data q c gamma Hd Hc Hg. assert (gamma - 1 <> 0) by lra.
  split; [split|intros F HP; unfold flat2 in F; split].
  - destruct d; unfold charac_to_cons3, cons_to_charac3; vals; nums; apply hs_eq; parts; field; auto.
  - destruct d; unfold charac_to_cons3, cons_to_charac3; vals; nums; apply hs_eq; parts; field; auto.
  - destruct d; [| |contradiction HP; reflexivity]; unfold charac_to_cons2, cons_to_charac2, mk2; vals; nums; apply hs_eq; parts; rewrite ?F; try field; auto.
  - destruct d; [| |contradiction HP; reflexivity]; unfold charac_to_cons2, cons_to_charac2, mk2; vals; nums; apply hs_eq; parts; rewrite ?F; try field; auto.
Qed.
Print Assumptions C61_inverse.

(** ** The transformations diagonalise the Jacobian *)

Lemma der_eq f x l l' : derivable_pt_lim f x l' -> l' = l -> derivable_pt_lim f x l.
Proof. intros H <-. exact H. Qed.

Ltac der :=
  lazymatch goal with
  | |- derivable_pt_lim (fun _ => ?a) _ _ => apply (derivable_pt_lim_const a)
  | |- derivable_pt_lim (fun t => t) _ _ => apply derivable_pt_lim_id
  | |- derivable_pt_lim (fun t => @?a t + @?b t) _ _ => refine (derivable_pt_lim_plus a b _ _ _ _ _); der
  | |- derivable_pt_lim (fun t => @?a t - @?b t) _ _ => refine (derivable_pt_lim_minus a b _ _ _ _ _); der
  | |- derivable_pt_lim (fun t => @?a t * @?b t) _ _ => refine (derivable_pt_lim_mult a b _ _ _ _ _); der
  | |- derivable_pt_lim (fun t => @?a t / @?b t) _ _ => refine (derivable_pt_lim_div a b _ _ _ _ _ _); [der|der|]
  | |- _ => idtac
  end.

Lemma local_pos f l : derivable_pt_lim f 0 l -> 0 < f 0 -> exists e, 0 < e /\ forall t, - e < t < e -> 0 < f t.
Proof.
  intros HD H0. assert (HC : continuity_pt f 0) by (apply derivable_continuous_pt; exists l; exact HD).
  destruct (HC (f 0) H0) as (e & He & Hf). exists e. split; [exact He|]. intros t Ht.
  destruct (Req_dec t 0) as [->|Hn]; [exact H0|].
  specialize (Hf t). unfold dist in Hf. cbn in Hf. unfold R_dist in Hf.
  assert (Rabs (f t - f 0) < f 0).
  { apply Hf. split; [split; [exact I|auto]|]. apply Rabs_def1; lra. }
  apply Rabs_def2 in H. lra.
Qed.

Lemma shift_0 q r : shift q r 0 = q.
Proof. apply hs_eq; unfold shift; parts; ring. Qed.

(** Derivative of the pressure of a gas *)
Lemma pressure_derivative gamma q r : hd q <> 0 -> exists l,
  derivable_pt_lim (fun t => gas_pressure gamma (shift q r t)) 0 l.
Proof.
  intros Hd. eexists. unfold gas_pressure, shift. parts. der.
  cbn beta. parts. unfold mult_fct. rewrite Rmult_0_l, Rplus_0_r. lra.
Qed.

(** Near a state of positive density with a pressure above the floor, the computed
    pressure is that of the gas. *)
Lemma near gamma q r : 0 < hd q -> e_smallp * hd q < gas_pressure gamma q ->
  exists e, 0 < e /\ forall t, - e < t < e -> 0 < hd (shift q r t) /\
    compute_pressure3 (shift q r t) gamma = gas_pressure gamma (shift q r t).
Proof.
  intros Hd Hp.
  assert (D1 : derivable_pt_lim (fun t => hd (shift q r t)) 0 (0 + (1 * hd r + 0 * 0))) by (unfold shift; parts; der).
  destruct (pressure_derivative gamma q r ltac:(lra)) as (l & D2).
  destruct (local_pos _ _ D1) as (e1 & He1 & H1); [rewrite shift_0; exact Hd|].
  assert (D3 : derivable_pt_lim (fun t => gas_pressure gamma (shift q r t) - e_smallp * hd (shift q r t)) 0
     (l - (0 * hd (shift q r 0) + e_smallp * (0 + (1 * hd r + 0 * 0))))).
  { apply (derivable_pt_lim_minus (fun t => gas_pressure gamma (shift q r t)) (fun t => e_smallp * hd (shift q r t)) 0); [exact D2|].
    apply (derivable_pt_lim_mult (fun _ => e_smallp) (fun t => hd (shift q r t)) 0); [apply derivable_pt_lim_const|exact D1]. }
  destruct (local_pos _ _ D3) as (e2 & He2 & H2); [rewrite shift_0; lra|].
  exists (Rmin e1 e2). split; [apply Rmin_pos; auto|]. intros t Ht.
  pose proof (Rmin_l e1 e2). pose proof (Rmin_r e1 e2).
  specialize (H1 t ltac:(lra)). specialize (H2 t ltac:(lra)). cbn beta in H1, H2. split; [exact H1|].
  rewrite pressure3_max by lra. apply Rmax_left. lra.
Qed.

(** The state with density r, velocity (u, v, w) and speed of sound c *)
Definition gas (gamma r u v w c : R) : hs R :=
  mkhs r (r * (c * c) / (gamma * (gamma - 1)) + r * (u * u + v * v + w * w) / 2) (r * u) (r * v) (r * w).

Lemma as_gas gamma q c : 0 < hd q -> 1 < gamma -> c * c = gamma * gas_pressure gamma q / hd q ->
  q = gas gamma (hd q) (hu q / hd q) (hv q / hd q) (hw q / hd q) c.
Proof.
  intros Hd Hg Hc. unfold gas. apply hs_eq; parts; [reflexivity| |field; lra..].
  rewrite Hc. unfold gas_pressure. field. lra.
Qed.

(** Change of the pressure, of the momentum along an axis *)
Definition dp (gamma u v w : R) (r : hs R) : R :=
  (gamma - 1) * (hp r - u * hu r - v * hv r - w * hw r + (u * u + v * v + w * w) / 2 * hd r).
Definition dm (d : dir3) (u v w : R) (r : hs R) : R :=
  match d with DX => hu r - u * hd r | DY => hv r - v * hd r | DZ => hw r - w * hd r end.
Definition vel (d : dir3) (u v w : R) : R := match d with DX => u | DY => v | DZ => w end.

Lemma gas_velocity gamma rho u v w c : rho <> 0 ->
  hu (gas gamma rho u v w c) / hd (gas gamma rho u v w c) = u /\
  hv (gas gamma rho u v w c) / hd (gas gamma rho u v w c) = v /\
  hw (gas gamma rho u v w c) / hd (gas gamma rho u v w c) = w.
Proof. intros. unfold gas. parts. repeat split; field; auto. Qed.

Section Jacobian.
Variables gamma rho u v w c : R.
Variable r : hs R.
Hypotheses (Hr : rho <> 0) (Hc : c <> 0) (Hg0 : gamma <> 0) (Hg1 : gamma - 1 <> 0).
Let q := gas gamma rho u v w c.
Let P := dp gamma u v w r.

(** Amplitudes of the waves: two of sound, one of entropy, two of shear *)
Lemma amplitudes d : cons_to_charac3 d r q c gamma =
  mkhs ((P - c * dm d u v w r) / (2 * (c * c))) ((P + c * dm d u v w r) / (2 * (c * c))) (hd r - P / (c * c))
    (match d with DX => dm DY u v w r | _ => dm DX u v w r end)
    (match d with DZ => dm DY u v w r | _ => dm DZ u v w r end).
Proof.
  unfold cons_to_charac3. destruct (gas_velocity gamma rho u v w c Hr) as (E1 & E2 & E3). fold q in E1, E2, E3. vals. nums.
  rewrite E1, E2, E3. unfold P, dp, dm. destruct d; apply hs_eq; parts; field; auto.
Qed.

Definition change (d : dir3) : hs R :=
  let un := vel d u v w in
  let h := c * c / (gamma - 1) + (u * u + v * v + w * w) / 2 in
  let push e := match d, e with DX, DX | DY, DY | DZ, DZ => P | _, _ => 0 end in
  mkhs (dm d u v w r + un * hd r) (dm d u v w r * h + un * (hp r + P))
    (dm d u v w r * u + un * hu r + push DX) (dm d u v w r * v + un * hv r + push DY)
    (dm d u v w r * w + un * hw r + push DZ).

Lemma recombined d : charac_to_cons3 d (by_speeds (along d q / hd q) c (cons_to_charac3 d r q c gamma)) q c gamma = change d.
Proof.
  rewrite amplitudes. unfold charac_to_cons3. destruct (gas_velocity gamma rho u v w c Hr) as (E1 & E2 & E3). fold q in E1, E2, E3.
  assert (E : along d q / hd q = vel d u v w) by (destruct d; assumption).
  vals. nums. rewrite E, E1, E2, E3. unfold by_speeds, change. parts.
  assert (EP : hp r = P / (gamma - 1) + u * hu r + v * hv r + w * hw r - (u * u + v * v + w * w) / 2 * hd r)
    by (unfold P, dp; field; auto).
  unfold dm in *. destruct d; apply hs_eq; parts; unfold vel; rewrite ?EP; generalize P; intros; field; auto.
Qed.

Lemma changes d : derivative (fun t => flux3 d (shift q r t) (gas_pressure gamma (shift q r t))) (change d).
Proof.
  assert (Q0 : forall x y, x + 0 * y = x) by (intros; ring).
  assert (DP : derivable_pt_lim (fun t => gas_pressure gamma (shift q r t)) 0 P).
  { unfold gas_pressure, shift, q, gas. parts. eapply der_eq; [der; cbn beta; unfold mult_fct; rewrite Rmult_0_l, Rplus_0_r; lra|].
    cbn beta. unfold mult_fct, Rsqr. rewrite !Q0. unfold P, dp. field. auto. }
  assert (P0 : gas_pressure gamma (shift q r 0) = rho * (c * c) / gamma).
  { rewrite shift_0. unfold gas_pressure, q, gas. parts. field. auto. }
  remember (fun t => gas_pressure gamma (shift q r t)) as pf eqn:Epf.
  assert (Ep : forall t, gas_pressure gamma (shift q r t) = pf t) by (intros; subst; reflexivity).
  rewrite Ep in P0.
  assert (X : forall f l, derivative (fun t => flux3 d (shift q r t) (pf t)) l -> f = (fun t => flux3 d (shift q r t) (pf t)) -> derivative f l)
    by (intros f l HD ->; exact HD).
  apply (X _ _); [|subst pf; reflexivity]. clear X Epf Ep.
  unfold derivative. destruct d; unfold flux3, shift, q, gas; nums; parts;
  (repeat split;
   (eapply der_eq; [der; try exact DP; cbn beta; unfold mult_fct; rewrite ?Rmult_0_l, ?Rplus_0_r; auto|]);
   cbn beta; unfold mult_fct, div_fct, plus_fct, minus_fct, Rsqr; rewrite ?Q0, ?P0;
   unfold change, vel, dm; parts; generalize P; intros; field; auto).
Qed.

Lemma jacobian_gas d : derivative (fun t => flux3 d (shift q r t) (gas_pressure gamma (shift q r t)))
    (charac_to_cons3 d (by_speeds (along d q / hd q) c (cons_to_charac3 d r q c gamma)) q c gamma).
Proof. rewrite recombined. apply changes. Qed.
End Jacobian.

Lemma carried_flux d q p : hd q <> 0 -> flat2 q -> planar d -> flux2 d q p = flux3 d q p.
Proof. intros Hd F HP. destruct (C61_fluxes d q p Hd) as (A & B). rewrite A. auto. Qed.

Lemma charac_flat d r q c gamma : hd q <> 0 -> c <> 0 -> flat2 q -> flat2 r -> planar d ->
  cons_to_charac2 d r q c gamma = cons_to_charac3 d r q c gamma /\ charac_to_cons2 d r q c gamma = charac_to_cons3 d r q c gamma.
Proof.
  unfold flat2. intros Hd Hc Fq Fr HP.
  assert (E : hw q / hd q = 0) by (rewrite Fq; field; auto).
  assert (E2 : forall a b, a * a + b * b + 0 * 0 = a * a + b * b) by (intros; ring).
  unfold cons_to_charac2, cons_to_charac3, charac_to_cons2, charac_to_cons3, mk2. vals. nums. rewrite E, Fr, !E2.
  destruct d; [| |contradiction HP; reflexivity]; split; apply hs_eq; parts; unfold Rdiv; ring.
Qed.

(** Along every direction of the space of states, the change of the flux is the sum of
    waves of speeds un - c, un and un + c, where c is the speed of sound; the amplitudes are those
    given by cons_to_charac, and charac_to_cons adds them up. *)
Theorem C61_jacobian : forall d gamma q r c, 1 < gamma -> 0 < hd q -> e_smallp * hd q < gas_pressure gamma q ->
  c * c = gamma * gas_pressure gamma q / hd q ->
  derivative (fun t => flux3 d (shift q r t) (compute_pressure3 (shift q r t) gamma))
    (charac_to_cons3 d (by_speeds (along d q / hd q) c (cons_to_charac3 d r q c gamma)) q c gamma) /\
  (flat2 q -> flat2 r -> planar d ->
   derivative (fun t => flux2 d (shift q r t) (compute_pressure2 (shift q r t) gamma))
     (charac_to_cons2 d (by_speeds (along d q / hd q) c (cons_to_charac2 d r q c gamma)) q c gamma)).
Proof.
  intros d gamma q r c Hg Hd Hp Hc.
  assert (Hcn : c <> 0).
  { intros ->. rewrite Rmult_0_l in Hc. pose proof e_smallp_pos.
    assert (0 < e_smallp * hd q) by (apply Rmult_lt_0_compat; auto).
    assert (0 < gamma * gas_pressure gamma q / hd q); [|lra].
    apply Rdiv_lt_0_compat; auto. apply Rmult_lt_0_compat; lra. }
  destruct (near gamma q r Hd Hp) as (e & He & Hn).
  pose proof (jacobian_gas gamma (hd q) (hu q / hd q) (hv q / hd q) (hw q / hd q) c r ltac:(lra) Hcn ltac:(lra) ltac:(lra) d) as J.
  rewrite <- (as_gas gamma q c Hd Hg Hc) in J.
  assert (J3 : derivative (fun t => flux3 d (shift q r t) (compute_pressure3 (shift q r t) gamma))
    (charac_to_cons3 d (by_speeds (along d q / hd q) c (cons_to_charac3 d r q c gamma)) q c gamma)).
  { unfold derivative in *. destruct J as (J1 & J2 & J3 & J4 & J5).
    repeat split; (eapply derivable_pt_lim_locally_ext with (a := - e) (b := e); [lra| |eassumption]);
      intros t Ht; destruct (Hn t Ht) as [_ ->]; reflexivity. }
  split; [exact J3|]. intros Fq Fr HP.
  assert (Fs : forall t, flat2 (shift q r t)) by (intros t; unfold flat2, shift in *; parts; rewrite Fq, Fr; ring).
  assert (EL : cons_to_charac2 d r q c gamma = cons_to_charac3 d r q c gamma) by (apply charac_flat; auto; lra).
  assert (FL : flat2 (by_speeds (along d q / hd q) c (cons_to_charac3 d r q c gamma))).
  { rewrite <- EL. unfold flat2, by_speeds, cons_to_charac2. destruct d; unfold mk2; parts; vals; ring. }
  assert (ER : charac_to_cons2 d (by_speeds (along d q / hd q) c (cons_to_charac2 d r q c gamma)) q c gamma =
     charac_to_cons3 d (by_speeds (along d q / hd q) c (cons_to_charac3 d r q c gamma)) q c gamma).
  { rewrite EL. apply charac_flat; auto; lra. }
  rewrite ER. unfold derivative in *. destruct J3 as (J1 & J2 & J4 & J5 & J6).
  repeat split; (eapply derivable_pt_lim_locally_ext with (a := - e) (b := e); [lra| |eassumption]);
    intros t Ht; destruct (Hn t Ht) as [Hpos _];
    rewrite (carried_flux d (shift q r t)) by (auto; lra);
    (replace (compute_pressure2 (shift q r t) gamma) with (compute_pressure3 (shift q r t) gamma); [reflexivity|]);
    rewrite pressure3_max by lra; (destruct (pressure2_max (shift q r t) gamma (Fs t)) as [->|]; [reflexivity|lra]).
Qed.
Print Assumptions C61_jacobian.

(** compute_speed_of_sound returns the square of the speed of sound: it is right only
    where that speed is one. *)
Theorem C61_sound_refuted : forall w gamma, 0 < hd w -> 0 < hp w -> 0 < gamma ->
  compute_speed_of_sound w gamma = sqrt (gamma * hp w / hd w) * sqrt (gamma * hp w / hd w) /\
  (compute_speed_of_sound w gamma = sqrt (gamma * hp w / hd w) <-> sqrt (gamma * hp w / hd w) = 1).
Proof.
  intros w gamma Hd Hp Hg.
  assert (H : 0 < gamma * hp w / hd w) by (apply Rdiv_lt_0_compat; auto; apply Rmult_lt_0_compat; auto).
  assert (E : compute_speed_of_sound w gamma = sqrt (gamma * hp w / hd w) * sqrt (gamma * hp w / hd w)).
  { rewrite sqrt_sqrt by lra. unfold compute_speed_of_sound. nums. field. lra. }
  split; [exact E|]. rewrite E. pose proof (sqrt_lt_R0 _ H) as Hs. split; intros HE.
  - apply Rmult_eq_reg_l with (sqrt (gamma * hp w / hd w)); lra.
  - rewrite HE. ring.
Qed.
Print Assumptions C61_sound_refuted.

(** ** Viscosity *)

Definition grad2 (g : Z -> R) (a b : nat) : R := g (2 * Z.of_nat a + Z.of_nat b)%Z.
Definition grad3 (g : Z -> R) (a b : nat) : R := g (3 * Z.of_nat a + Z.of_nat b)%Z.
Definition axis (d : dir3) : nat := match d with DX => 0%nat | DY => 1%nat | DZ => 2%nat end.

(** The viscous flux along an axis carries no mass, the stress on the faces across that
    axis, the work of the stress and the diffusive flux. *)
Theorem C61_viscous_flux : forall d g v f mu,
  (let s b := stress 3 (grad3 g) mu b (axis d) in
   flux_visc3 d g v f mu = mkhs 0 (v 0%Z * s 0%nat + v 1%Z * s 1%nat + v 2%Z * s 2%nat + f (Z.of_nat (axis d)))
     (s 0%nat) (s 1%nat) (s 2%nat)) /\
  (planar d ->
   let s b := stress 2 (grad2 g) mu b (axis d) in
   flux_visc2 d g v f mu = mkhs 0 (v 0%Z * s 0%nat + v 1%Z * s 1%nat + f (Z.of_nat (axis d))) (s 0%nat) (s 1%nat) 0).
Proof.
  intros d g v f mu. split; [|intros HP]; cbv zeta.
  - destruct d; unfold flux_visc3; vals; nums; apply hs_eq; parts; unfold stress, trace, grad3, axis, U_X, U_Y, U_Z, V_X, V_Y, V_Z, W_X, W_Y, W_Z; cbn; field.
  - destruct d; [| |contradiction HP; reflexivity]; unfold flux_visc2, mk2; vals; nums; apply hs_eq; parts; unfold stress, trace, grad2, axis, U_X2, U_Y2, V_X2, V_Y2; cbn; try field; reflexivity.
Qed.
Print Assumptions C61_viscous_flux.

(** That stress is symmetric and has no trace, a fluid that turns as a rigid body has
    none, and it never gives energy back. *)
Theorem C61_viscous_stress : forall n grad mu, n = 2%nat \/ n = 3%nat ->
  (forall a b, stress n grad mu a b = stress n grad mu b a) /\
  sum_f_R0 (fun a => stress n grad mu a a) (n - 1) = 0 /\
  ((forall a b, grad a b = - grad b a) -> forall a b, stress n grad mu a b = 0) /\
  (0 <= mu -> 0 <= dissipation n grad mu).
Proof.
  intros n grad mu Hn. split; [|split; [|split]].
  - intros a b. unfold stress. rewrite (Nat.eqb_sym b a). ring.
  - destruct Hn as [-> | ->]; unfold stress, trace; cbn; field.
  - intros Ha a b. assert (HT : trace n grad = 0).
    { assert (D : forall a, grad a a = 0) by (intros k; specialize (Ha k k); lra).
      unfold trace. induction (n - 1)%nat as [|k IH]; cbn [sum_f_R0]; rewrite ?IH, D; ring. }
    unfold stress. rewrite HT, (Ha b a), Rmult_0_r. destruct (Nat.eqb a b); ring.
  - intros Hm. destruct Hn as [-> | ->].
    + replace (dissipation 2 grad mu) with (mu * ((grad 0%nat 0%nat - grad 1%nat 1%nat) ^ 2 + (grad 0%nat 1%nat + grad 1%nat 0%nat) ^ 2))
        by (unfold dissipation, stress, trace; cbn; field).
      apply Rmult_le_pos; [exact Hm|]. apply Rplus_le_le_0_compat; apply pow2_ge_0.
    + replace (dissipation 3 grad mu) with (mu * (2 / 3 * ((grad 0%nat 0%nat - grad 1%nat 1%nat) ^ 2 +
          (grad 1%nat 1%nat - grad 2%nat 2%nat) ^ 2 + (grad 2%nat 2%nat - grad 0%nat 0%nat) ^ 2) +
          ((grad 0%nat 1%nat + grad 1%nat 0%nat) ^ 2 + (grad 0%nat 2%nat + grad 2%nat 0%nat) ^ 2 +
           (grad 1%nat 2%nat + grad 2%nat 1%nat) ^ 2)))
        by (unfold dissipation, stress, trace; cbn; field).
      apply Rmult_le_pos; [exact Hm|].
      apply Rplus_le_le_0_compat; [apply Rmult_le_pos; [lra|]|]; repeat apply Rplus_le_le_0_compat; apply pow2_ge_0.
Qed.
Print Assumptions C61_viscous_stress.

(** ** A concrete case: density 1, velocity (1, 2, 0), pressure 5/7, so that c = 1 *)
Definition ex_gas : hs R := mkhs 1 (25 / 14 + 5 / 2) 1 2 0.
Example C61_case : 1 < 7 / 5 /\ 0 < hd ex_gas /\ e_smallp * hd ex_gas < gas_pressure (7 / 5) ex_gas /\
  1 * 1 = 7 / 5 * gas_pressure (7 / 5) ex_gas / hd ex_gas /\ flat2 ex_gas /\
  cons_to_charac2 DX (mkhs 1 0 0 0 0) ex_gas 1 (7 / 5) = mkhs 1 0 0 (-2) 0.
Proof.
  assert (E : gas_pressure (7 / 5) ex_gas = 5 / 7) by (unfold gas_pressure, ex_gas; parts; field).
  rewrite E. unfold ex_gas at 1 2 3. parts. repeat split; try lra.
  - unfold e_smallp. vals. nums. assert (1 / IZR (10 ^ 7) < 1 / 7); [|lra].
    apply Rmult_lt_compat_l; [lra|]. apply Rinv_lt_contravar; [|apply IZR_lt; reflexivity].
    rewrite <- mult_IZR. apply IZR_lt. reflexivity.
  - unfold cons_to_charac2, ex_gas, mk2. vals. nums. apply hs_eq; parts; field.
Qed.
