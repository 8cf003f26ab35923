(** * The predictor and the interface fluxes meet their specification *)
From Coq Require Import ZArith List Bool Reals Lra Psatz Sorted.
Import ListNotations.
From Verif Require Import Num Exec Grid HydroNum Kernels Hydro2D Hydro2DSpec Hydro3D Hydro3DSpec
  EulerSpec HydroPhysics HydroRiemann HancockSpec.
Local Open Scope R_scope.

(** ** Derivatives of polynomials *)

Lemma dl_eq f x l l' : derivable_pt_lim f x l -> l = l' -> derivable_pt_lim f x l'.
Proof. intros H <-. exact H. Qed.
Lemma dl_const c x : derivable_pt_lim (fun _ => c) x 0.
Proof. exact (derivable_pt_lim_const c x). Qed.
Lemma dl_plus f g x l m : derivable_pt_lim f x l -> derivable_pt_lim g x m ->
  derivable_pt_lim (fun e => f e + g e) x (l + m).
Proof. exact (derivable_pt_lim_plus f g x l m). Qed.
Lemma dl_mult f g x l m : derivable_pt_lim f x l -> derivable_pt_lim g x m ->
  derivable_pt_lim (fun e => f e * g e) x (l * g x + f x * m).
Proof. exact (derivable_pt_lim_mult f g x l m). Qed.
Lemma dl_line a b x : derivable_pt_lim (fun e => a + e * b) x b.
Proof.
  apply dl_eq with (0 + (1 * b + x * 0)); [|ring].
  apply (dl_plus (fun _ => a) (fun e => e * b)); [apply dl_const|].
  apply (dl_mult (fun e => e) (fun _ => b)); [apply derivable_pt_lim_id|apply dl_const].
Qed.
Lemma dl_div f c x l : derivable_pt_lim f x l -> derivable_pt_lim (fun e => f e / c) x (l / c).
Proof.
  intros H. unfold Rdiv. apply dl_eq with (l * / c + f x * 0); [|ring].
  apply (dl_mult f (fun _ => / c)); [auto|apply dl_const].
Qed.

Ltac dl := first
  [ apply dl_const | apply dl_line
  | eapply dl_plus; [dl|dl] | eapply dl_mult; [dl|dl] | eapply dl_div; dl ].

(** The time derivative given by the Euler equations, in closed form. *)
Definition rate (S : hset R) (d3 : bool) (q gX gY gZ : hs R) : hs R :=
  let w := if d3 then hw q else 0 in
  let dw := if d3 then hw gZ else 0 in
  let div := hu gX + hv gY + dw in
  let adv (c : hs R -> R) := hu q * c gX + hv q * c gY + w * c gZ in
  mkhs (- adv hd - div * hd q) (- adv hp - gamma0 S * div * hp q)
       (- adv hu - hp gX / hd q) (- adv hv - hp gY / hd q)
       (if d3 then - adv hw - hp gZ / hd q else 0).

Lemma rate_ok S d3 q gX gY gZ : gamma0 S <> 1 -> hd q <> 0 ->
  (d3 = false -> hw q = 0 /\ hw gX = 0 /\ hw gY = 0 /\ gZ = mkhs 0 0 0 0 0) ->
  euler_rate S d3 q gX gY gZ (rate S d3 q gX gY gZ).
Proof.
  intros Hg Hd H2 v Hv. assert (Hg' : gamma0 S - 1 <> 0) by (intros E; apply Hg; lra).
  destruct d3.
  - clear H2. repeat destruct Hv as [<-|Hv]; try contradiction;
    unfold hget; cbn -[Rplus Rmult Rdiv Rminus Ropp];
    unfold energy, vel2; cbn [hd hp hu hv hw along];
    (eexists; eexists; eexists; split; [dl|split; [dl|split; [dl|]]]);
    (eapply dl_eq; [dl|]); cbn beta; unfold rate; cbn [hd hp hu hv hw]; field; auto.
  - destruct (H2 eq_refl) as (E1 & E2 & E3 & ->).
    repeat destruct Hv as [<-|Hv]; try contradiction;
    unfold hget; cbn -[Rplus Rmult Rdiv Rminus Ropp];
    unfold energy, vel2; cbn [hd hp hu hv hw along];
    (eexists; eexists; eexists; split; [dl|split; [dl|split; [dl|]]]);
    (eapply dl_eq; [dl|]); cbn beta; unfold rate; cbn [hd hp hu hv hw]; rewrite ?E1, ?E2, ?E3; field; auto.
Qed.

(** The Euler equations determine the time derivative. *)
Lemma rate_unique S d3 q gX gY gZ r r' : gamma0 S <> 1 -> hd q <> 0 -> (d3 = false -> hw r = hw r') ->
  euler_rate S d3 q gX gY gZ r -> euler_rate S d3 q gX gY gZ r' -> r = r'.
Proof.
  intros Hg Hd Hw H H'. assert (Hg' : gamma0 S - 1 <> 0) by (intros E; apply Hg; lra).
  assert (U : forall v l l', In v [ID; IP; IU; IV; IW] ->
    derivable_pt_lim (fun e => hget (conserved S d3 (along q r e)) v) 0 l ->
    derivable_pt_lim (fun e => hget (conserved S d3 (along q r' e)) v) 0 l' -> l = l').
  { intros v l l' Hv L L'.
    destruct (H v Hv) as (fx & fy & fz & A1 & A2 & A3 & A4).
    destruct (H' v Hv) as (fx' & fy' & fz' & B1 & B2 & B3 & B4).
    rewrite (uniqueness_limite _ _ _ _ L A4), (uniqueness_limite _ _ _ _ L' B4).
    rewrite (uniqueness_limite _ _ _ _ A1 B1), (uniqueness_limite _ _ _ _ A2 B2), (uniqueness_limite _ _ _ _ A3 B3).
    reflexivity. }
  clear H H'.
  assert (E0 : hd r = hd r').
  { refine (U ID _ _ _ _ _); [simpl; tauto| |]; unfold hget; cbn -[Rplus Rmult Rdiv Rminus Ropp]; (eapply dl_eq; [dl|cbn beta; ring]). }
  assert (E1 : hu r = hu r').
  { assert (E : hd r * (hu q + 0 * hu r) + (hd q + 0 * hd r) * hu r =
                hd r' * (hu q + 0 * hu r') + (hd q + 0 * hd r') * hu r').
    { refine (U IU _ _ _ _ _); [simpl; tauto| |]; unfold hget; cbn -[Rplus Rmult Rdiv Rminus Ropp]; (eapply dl_eq; [dl|cbn beta; ring]). }
    rewrite E0 in E. apply Rmult_eq_reg_l with (hd q); [lra|auto]. }
  assert (E2 : hv r = hv r').
  { assert (E : hd r * (hv q + 0 * hv r) + (hd q + 0 * hd r) * hv r =
                hd r' * (hv q + 0 * hv r') + (hd q + 0 * hd r') * hv r').
    { refine (U IV _ _ _ _ _); [simpl; tauto| |]; unfold hget; cbn -[Rplus Rmult Rdiv Rminus Ropp]; (eapply dl_eq; [dl|cbn beta; ring]). }
    rewrite E0 in E. apply Rmult_eq_reg_l with (hd q); [lra|auto]. }
  assert (E3 : hw r = hw r').
  { destruct d3; [|auto].
    assert (E : hd r * (hw q + 0 * hw r) + (hd q + 0 * hd r) * hw r =
                hd r' * (hw q + 0 * hw r') + (hd q + 0 * hd r') * hw r').
    { refine (U IW _ _ _ _ _); [simpl; tauto| |]; unfold hget; cbn -[Rplus Rmult Rdiv Rminus Ropp]; (eapply dl_eq; [dl|cbn beta; ring]). }
    rewrite E0 in E. apply Rmult_eq_reg_l with (hd q); [lra|auto]. }
  apply hs_eq; auto.
  assert (K : forall x, exists k, forall p, derivable_pt_lim
    (fun e => energy S d3 (along q (mkhs (hd x) p (hu x) (hv x) (hw x)) e)) 0 (p / (gamma0 S - 1) + k)).
  { intros x. destruct d3; (eexists; intros p; unfold energy, vel2; cbn [hd hp hu hv hw along]; apply dl_plus; [dl|dl]). }
  destruct (K r) as [k Hk].
  assert (E : hp r / (gamma0 S - 1) + k = hp r' / (gamma0 S - 1) + k).
  { refine (U IP _ _ _ _ _); [simpl; tauto| |].
    - specialize (Hk (hp r)). destruct r. exact Hk.
    - specialize (Hk (hp r')). rewrite E0, E1, E2, E3 in Hk. destruct r'. exact Hk. }
  apply Rmult_eq_reg_r with (/ (gamma0 S - 1)); [unfold Rdiv in E; lra|apply Rinv_neq_0_compat; auto].
Qed.

(** ** The predictor *)

Definition hz : hs R := mkhs 0 0 0 0 0.

(** The predicted face states, for slopes dX, dY, dZ; in each call the program
    divides all slopes by the size [h] of the cell across the face. *)
Lemma trace2_hancock S dt q dX dY h f gx gy : gamma0 S <> 1 -> hd q <> 0 -> h <> 0 ->
  hw q = 0 -> hw dX = 0 -> hw dY = 0 -> axis_of f <> AZ ->
  let tr := trace2 S q dX dY (dt / h) (dt / h) f in
  let d a := match a with AX => dX | AY => dY | AZ => hz end in
  let r := rate S false q (hscaleR (/ h) dX) (hscaleR (/ h) dY) hz in
  mk2 (hd tr) (hp tr) (hu tr + dt / 2 * gx) (hv tr + dt / 2 * gy) = hancock S dt q d r gx gy 0 f.
Proof.
  intros Hg Hd Hh E1 E2 E3 Hf tr d r. unfold tr, d, r, hancock, rate, mk2.
  destruct f; try (exfalso; apply Hf; reflexivity);
  unfold trace2, mk2; cbn [axis_of side_of hd hp hu hv hw along hscaleR hz]; Rn;
  rewrite ?E1, ?E2, ?E3; f_equal; try (f_equal; field; auto); try (field; auto).
Qed.

Lemma trace3_hancock S dt q dX dY dZ h f gx gy gz : gamma0 S <> 1 -> hd q <> 0 -> h <> 0 ->
  let tr := trace3 S q dX dY dZ (dt / h) (dt / h) (dt / h) f in
  let d a := match a with AX => dX | AY => dY | AZ => dZ end in
  let r := rate S true q (hscaleR (/ h) dX) (hscaleR (/ h) dY) (hscaleR (/ h) dZ) in
  mkhs (hd tr) (hp tr) (hu tr + dt / 2 * gx) (hv tr + dt / 2 * gy) (hw tr + dt / 2 * gz)
  = hancock S dt q d r gx gy gz f.
Proof.
  intros Hg Hd Hh tr d r. unfold tr, d, r, hancock, rate.
  destruct f; unfold trace3; cbn [axis_of side_of hd hp hu hv hw along hscaleR]; Rn;
  f_equal; try (f_equal; field; auto); try (field; auto).
Qed.

(** ** Interface fluxes *)
Section Fluxes.
Variable S : hset R.
Hypothesis HS : sane S.
Variable d3 : bool.

Lemma cons_conserved q : cons_of S d3 q = conserved S d3 q.
Proof.
  pose proof (gamma_gt1 S HS).
  unfold cons_of, conserved, energy, vel2; destruct d3; apply hs_eq; cbn [hd hp hu hv hw]; Rn;
  try reflexivity; try ring; field; lra.
Qed.

Lemma axis_euler q : axis_flux S d3 AX q = euler_flux S d3 q.
Proof. unfold axis_flux, euler_flux, speed_along; destruct d3; apply hs_eq; cbn [hd hp hu hv hw]; ring. Qed.

Lemma sorted2 a b : a <= b -> Sorted Rle [a; b].
Proof. intros. apply Sorted_cons; [apply Sorted_cons; [apply Sorted_nil|apply HdRel_nil]|apply HdRel_cons; auto]. Qed.
Lemma sorted3 a b c : a <= b -> b <= c -> Sorted Rle [a; b; c].
Proof. intros. apply Sorted_cons; [apply sorted2; auto|apply HdRel_cons; auto]. Qed.

Lemma in5 (P : Z -> Prop) : P ID -> P IP -> P IU -> P IV -> P IW ->
  forall v, In v [ID; IP; IU; IV; IW] -> P v.
Proof. intros H1 H2 H3 H4 H5 v Hv. repeat destruct Hv as [<-|Hv]; auto. contradiction. Qed.

Lemma jump5 s u1 f1 u2 f2 :
  let P v := hget f2 v - hget f1 v = s * (hget u2 v - hget u1 v) in
  P ID -> P IP -> P IU -> P IV -> P IW -> jump s u1 f1 u2 f2.
Proof. intros P. exact (in5 P). Qed.

(** Two jumps with one state between them. *)
Lemma two_jumps uL fL uR fR sl sr :
  sl < sr ->
  let mid g := mkhs (g (hd uL) (hd fL) (hd uR) (hd fR)) (g (hp uL) (hp fL) (hp uR) (hp fR))
                    (g (hu uL) (hu fL) (hu uR) (hu fR)) (g (hv uL) (hv fL) (hv uR) (hv fR))
                    (g (hw uL) (hw fL) (hw uR) (hw fR)) in
  let u := mid (fun a fa b fb => (sr * b - sl * a - (fb - fa)) / (sr - sl)) in
  let f := mid (fun a fa b fb => (sr * fa - sl * fb + sr * sl * (b - a)) / (sr - sl)) in
  fan uL fL [(sl, (u, f)); (sr, (uR, fR))] uR fR.
Proof.
  intros Hs mid u f. unfold u, f, mid.
  apply fan_jump; [|apply fan_jump; [|apply fan_end]];
  apply jump5; unfold hget; cbn -[Rplus Rmult Rdiv Rminus Ropp]; field; lra.
Qed.

Lemma c_pos q : admissible S q -> 0 < sound S q.
Proof.
  intros Ha. destruct (adm_pos S HS q Ha). pose proof (gamma_gt1 S HS).
  apply sqrt_lt_R0. apply Rdiv_lt_0_compat; nra.
Qed.

Lemma llf_fan ql qr : admissible S ql -> admissible S qr ->
  let a := Rmax (Rabs (hu ql) + sound S ql) (Rabs (hu qr) + sound S qr) in
  exists u, fan_flux S d3 ql qr
    [(- a, (u, riemann_llf S d3 ql qr)); (a, (conserved S d3 qr, axis_flux S d3 AX qr))]
    (riemann_llf S d3 ql qr) /\
  encloses S (- a) a ql /\ encloses S (- a) a qr.
Proof.
  intros Al Ar a. pose proof (c_pos ql Al). pose proof (c_pos qr Ar).
  assert (M1 : Rabs (hu ql) + sound S ql <= a) by apply Rmax_l.
  assert (M2 : Rabs (hu qr) + sound S qr <= a) by apply Rmax_r.
  pose proof (Rabs_pos (hu ql)). assert (Ha : 0 < a) by lra.
  assert (Hl : - Rabs (hu ql) <= hu ql <= Rabs (hu ql)) by (unfold Rabs; destruct (Rcase_abs _); lra).
  assert (Hr : - Rabs (hu qr) <= hu qr <= Rabs (hu qr)) by (unfold Rabs; destruct (Rcase_abs _); lra).
  set (F := riemann_llf S d3 ql qr).
  pose proof (two_jumps (conserved S d3 ql) (axis_flux S d3 AX ql) (conserved S d3 qr) (axis_flux S d3 AX qr)
    (- a) a ltac:(lra)) as J. cbv beta zeta in J.
  match type of J with fan _ _ [(_, (?u, ?f)); _] _ _ => set (us := u) in J; assert (E : f = F) end.
  { unfold F, riemann_llf. cbv zeta. rewrite !cons_conserved.
    replace (side_flux_llf d3 ql (conserved S d3 ql)) with (axis_flux S d3 AX ql)
      by (rewrite axis_euler, <- cons_conserved, side_llf; auto).
    replace (side_flux_llf d3 qr (conserved S d3 qr)) with (axis_flux S d3 AX qr)
      by (rewrite axis_euler, <- cons_conserved, side_llf; auto).
    Rn. rewrite !(sound_floor S) by auto. fold a. clearbody a. clear -Ha.
    unfold map4. apply hs_eq; cbn [hd hp hu hv hw]; try (field; lra).
    unfold conserved, axis_flux. destruct d3; cbn [hw]; Rn; field; lra. }
  rewrite E in J. exists us. split; [split; [|split]|split].
  - cbn [map fst]. apply sorted2; lra.
  - exact J.
  - cbn [at_rest]. destruct (Rle_dec (- a) 0); [|lra]. destruct (Rle_dec a 0); [lra|reflexivity].
  - unfold encloses; lra.
  - unfold encloses; lra.
Qed.

Lemma hll_fan ql qr : admissible S ql -> admissible S qr ->
  let c := Rmax (sound S ql) (sound S qr) in
  let sl := Rmin (Rmin (hu ql) (hu qr) - c) 0 in
  let sr := Rmax (Rmax (hu ql) (hu qr) + c) 0 in
  exists u, fan_flux S d3 ql qr
    [(sl, (u, riemann_hll S d3 ql qr)); (sr, (conserved S d3 qr, axis_flux S d3 AX qr))]
    (riemann_hll S d3 ql qr) /\
  encloses S sl sr ql /\ encloses S sl sr qr.
Proof.
  intros Al Ar c sl sr. pose proof (c_pos ql Al). pose proof (c_pos qr Ar).
  assert (M1 : sound S ql <= c) by apply Rmax_l. assert (M2 : sound S qr <= c) by apply Rmax_r.
  assert (L0 : sl <= 0) by apply Rmin_r. assert (R0 : 0 <= sr) by apply Rmax_r.
  assert (L1 : sl <= Rmin (hu ql) (hu qr) - c) by apply Rmin_l.
  assert (R1 : Rmax (hu ql) (hu qr) + c <= sr) by apply Rmax_l.
  pose proof (Rmin_l (hu ql) (hu qr)). pose proof (Rmin_r (hu ql) (hu qr)).
  pose proof (Rmax_l (hu ql) (hu qr)). pose proof (Rmax_r (hu ql) (hu qr)).
  assert (Hs : sl < sr) by lra.
  set (F := riemann_hll S d3 ql qr).
  pose proof (two_jumps (conserved S d3 ql) (axis_flux S d3 AX ql) (conserved S d3 qr) (axis_flux S d3 AX qr)
    sl sr Hs) as J. cbv beta zeta in J.
  match type of J with fan _ _ [(_, (?u, ?f)); _] _ _ => set (us := u) in J; assert (E : f = F) end.
  { unfold F, riemann_hll. cbv zeta. rewrite !cons_conserved.
    replace (side_flux_hll d3 ql (conserved S d3 ql)) with (axis_flux S d3 AX ql)
      by (rewrite axis_euler, <- cons_conserved, side_hll; auto).
    replace (side_flux_hll d3 qr (conserved S d3 qr)) with (axis_flux S d3 AX qr)
      by (rewrite axis_euler, <- cons_conserved, side_hll; auto).
    Rn. rewrite !(sound_floor S) by auto. fold c. fold sl sr. clearbody sl sr. clear -Hs.
    unfold map4. apply hs_eq; cbn [hd hp hu hv hw]; try (field; lra).
    unfold conserved, axis_flux. destruct d3; cbn [hw]; Rn; field; lra. }
  rewrite E in J. exists us. split; [split; [|split]|split].
  - cbn [map fst]. apply sorted2; lra.
  - exact J.
  - cbn [at_rest]. destruct (Rle_dec sl 0); [|lra]. destruct (Rle_dec sr 0) as [Hz|]; [|reflexivity].
    (* sr = 0: nothing jumps there *)
    inversion J as [|? ? ? ? ? ? ? ? _ J2]; subst. inversion J2 as [|? ? ? ? ? ? ? ? J3 _]; subst.
    assert (sr = 0) as Z by lra.
    assert (K : forall v, In v [ID; IP; IU; IV; IW] -> hget (axis_flux S d3 AX qr) v = hget F v).
    { intros v Hv. specialize (J3 v Hv). rewrite Z in J3. lra. }
    apply hs_eq; [apply (K ID)|apply (K IP)|apply (K IU)|apply (K IV)|apply (K IW)]; simpl; tauto.
  - unfold encloses; lra.
  - unfold encloses; lra.
Qed.

Lemma total_energy q : hllc_total S d3 q (hd q) (hp q) = energy S d3 q.
Proof.
  pose proof (gamma_gt1 S HS). unfold hllc_total, energy, vel2. destruct d3; field; lra.
Qed.

Lemma hllc_fan ql qr : admissible S ql -> admissible S qr ->
  let c := Rmax (sound S ql) (sound S qr) in
  let sl := Rmin (hu ql) (hu qr) - c in
  let sr := Rmax (hu ql) (hu qr) + c in
  exists s p rl el rr er, sl < s < sr /\ 0 < rl /\ 0 < rr /\
  fan_flux S d3 ql qr
    [(sl, carried d3 rl el s p (hv ql) (hw ql)); (s, carried d3 rr er s p (hv qr) (hw qr));
     (sr, (conserved S d3 qr, axis_flux S d3 AX qr))]
    (riemann_hllc S d3 ql qr) /\
  encloses S sl sr ql /\ encloses S sl sr qr.
Proof.
  intros Al Ar c sl sr. rewrite (hllc_unfold S d3).
  destruct (hllc_speeds S HS ql qr) as (H1 & H2 & H3 & H4 & H5 & H6 & H7).
  rewrite !(hllc_c_floor S HS) in * by auto. rewrite !(sound_floor S) in * by auto.
  destruct (adm_floor S ql Al) as [El1 El2]. destruct (adm_floor S qr Ar) as [Er1 Er2].
  rewrite El1, El2, Er1, Er2 in *. rewrite !total_energy. fold c in H5, H6, H7 |- *. fold sl sr.
  assert (G := hllc_gaps (hu ql) (hu qr) sl sr c eq_refl eq_refl).
  assert (P := rc_pos (hd ql) (hu ql) (hd qr) (hu qr) sl sr c H1 H2 H5 eq_refl eq_refl).
  assert (B := us_bounds (hd ql) (hu ql) (hp ql) (hd qr) (hu qr) (hp qr) sl sr c H1 H2 H3 H4 H5 H6 H7 eq_refl eq_refl).
  assert (PL := ps_left (hd ql) (hu ql) (hp ql) (hd qr) (hu qr) (hp qr) sl sr c H1 H2 H5 eq_refl eq_refl).
  assert (PR := ps_right (hd ql) (hu ql) (hp ql) (hd qr) (hu qr) (hp qr) sl sr c H1 H2 H5 eq_refl eq_refl).
  assert (M1 : sound S ql <= c) by apply Rmax_l. assert (M2 : sound S qr <= c) by apply Rmax_r.
  unfold hllc_sel.
  set (us := (_ + (hp ql - hp qr)) / _) in *. set (ps := (_ + _ * (hu ql - hu qr)) / _) in *.
  assert (Hen : encloses S sl sr ql /\ encloses S sl sr qr) by (unfold encloses; lra).
  clearbody us ps. clear M1 M2.
  set (rL := hd ql * (sl - hu ql) / (sl - us)). set (rR := hd qr * (sr - hu qr) / (sr - us)).
  set (eL := ((sl - hu ql) * energy S d3 ql - hp ql * hu ql + ps * us) / (sl - us)).
  set (eR := ((sr - hu qr) * energy S d3 qr - hp qr * hu qr + ps * us) / (sr - us)).
  assert (QL : 0 < rL).
  { unfold rL. replace (hd ql * (sl - hu ql) / (sl - us)) with (hd ql * (hu ql - sl) / (us - sl)) by (field; lra).
    apply Rdiv_lt_0_compat; [apply Rmult_lt_0_compat|]; lra. }
  assert (QR : 0 < rR).
  { unfold rR. apply Rdiv_lt_0_compat; [apply Rmult_lt_0_compat|]; lra. }
  assert (IL : rL * (sl - us) = hd ql * (sl - hu ql)) by (unfold rL; field; lra).
  assert (IR : rR * (sr - us) = hd qr * (sr - hu qr)) by (unfold rR; field; lra).
  assert (KL : eL * (sl - us) = (sl - hu ql) * energy S d3 ql - hp ql * hu ql + ps * us) by (unfold eL; field; lra).
  assert (KR : eR * (sr - us) = (sr - hu qr) * energy S d3 qr - hp qr * hu qr + ps * us) by (unfold eR; field; lra).
  exists us, ps, rL, eL, rR, eR. split; [exact B|]. split; [exact QL|]. split; [exact QR|]. split; [|exact Hen].
  clearbody rL rR eL eR sl sr.
  split; [|split].
  - cbn [map fst]. apply sorted3; lra.
  - unfold carried. apply fan_jump; [|apply fan_jump; [|apply fan_jump; [|apply fan_end]]].
    + apply jump5; unfold hget; cbn -[Rplus Rmult Rdiv Rminus Ropp].
      * lra.
      * lra.
      * apply (f_equal (fun x => x * us)) in IL. cbn beta in IL. rewrite PL. lra.
      * replace (rL * us * hv ql) with (- hv ql * (rL * (sl - us)) + rL * sl * hv ql) by ring. rewrite IL. ring.
      * destruct d3; [|ring].
        replace (rL * us * hw ql) with (- hw ql * (rL * (sl - us)) + rL * sl * hw ql) by ring. rewrite IL. ring.
    + apply jump5; unfold hget; cbn -[Rplus Rmult Rdiv Rminus Ropp]; try ring. destruct d3; ring.
    + apply jump5; unfold hget; cbn -[Rplus Rmult Rdiv Rminus Ropp].
      * lra.
      * lra.
      * apply (f_equal (fun x => x * us)) in IR. cbn beta in IR. rewrite PR. lra.
      * replace (rR * us * hv qr) with (- hv qr * (rR * (sr - us)) + rR * sr * hv qr) by ring. rewrite IR. ring.
      * destruct d3; [|ring].
        replace (rR * us * hw qr) with (- hw qr * (rR * (sr - us)) + rR * sr * hw qr) by ring. rewrite IR. ring.
  - unfold carried. cbn [at_rest].
    assert (Pos : forall a b, 0 < a -> 0 < b -> 0 < a * b) by (intros; apply Rmult_lt_0_compat; lra).
    assert (Neg : forall a b, 0 < a -> b <= 0 -> ~ 0 < a * b) by (intros a b Ha Hb; nra).
    destruct (Rlt_dec 0 sl) as [C1|C1]; destruct (Rle_dec sl 0) as [C2|C2]; try lra.
    { unfold hllc_flux. destruct (Rlt_dec 0 (hd ql * hu ql)) as [_|N]; [|exfalso; apply N, Pos; lra].
      unfold axis_flux, speed_along. destruct d3; apply hs_eq; cbn [hd hp hu hv hw]; ring. }
    destruct (Rlt_dec 0 us) as [C3|C3]; destruct (Rle_dec us 0) as [C4|C4]; try lra.
    { unfold hllc_flux. destruct (Rlt_dec 0 (rL * us)) as [_|N]; [|exfalso; apply N, Pos; lra].
      destruct d3; apply hs_eq; cbn [hd hp hu hv hw]; ring. }
    destruct (Rlt_dec 0 sr) as [C5|C5]; destruct (Rle_dec sr 0) as [C6|C6]; try lra.
    { unfold hllc_flux. destruct (Rlt_dec 0 (rR * us)) as [N|_]; [exfalso; revert N; apply Neg; lra|].
      destruct d3; apply hs_eq; cbn [hd hp hu hv hw]; ring. }
    unfold hllc_flux. destruct (Rlt_dec 0 (hd qr * hu qr)) as [N|_]; [exfalso; revert N; apply Neg; lra|].
    unfold axis_flux, speed_along. destruct d3; apply hs_eq; cbn [hd hp hu hv hw]; ring.
Qed.

End Fluxes.
