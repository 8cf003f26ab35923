(** * The MHD predictor meets its specification *)
From Coq Require Import ZArith List Bool Reals Lra Psatz.
Import ListNotations.
From Verif Require Import Num Exec Grid HydroNum EulerSpec HydroPhysics HancockFacts Hydro2DSpec Hydro3D Hydro3DSpec
  MhdNum Mhd2DSpec Mhd2DAgree Mhd3DNum Mhd3DSpec MhdSpec MhdFanSpec Mhd2DLaws Mhd3DLaws MhdHancockSpec.
Local Open Scope R_scope.

Lemma dl_opp f x l : derivable_pt_lim f x l -> derivable_pt_lim (fun e => - f e) x (- l).
Proof. exact (derivable_pt_lim_opp f x l). Qed.
Lemma dl_minus f g x l m : derivable_pt_lim f x l -> derivable_pt_lim g x m ->
  derivable_pt_lim (fun e => f e - g e) x (l - m).
Proof. exact (derivable_pt_lim_minus f g x l m). Qed.

Ltac mdl := first
  [ apply dl_const | apply dl_line
  | eapply dl_plus; [mdl|mdl] | eapply dl_minus; [mdl|mdl] | eapply dl_mult; [mdl|mdl] | eapply dl_div; mdl ].

(** The time derivative of ideal MHD for a divergence-free field, in closed form. *)
Definition mrate (S : hset R) (q gX gY gZ : ms R) : ms R :=
  let r := md q in
  let div := mu gX + mv gY + mw gZ in
  let adv (c : ms R -> R) := mu q * c gX + mv q * c gY + mw q * c gZ in
  mkms (- adv md - div * r) (- adv mp - gamma0 S * div * mp q)
    (- adv mu - mp gX / r + (mb q * (ma gY - mb gX) - mc q * (mc gX - ma gZ)) / r)
    (- adv mv - mp gY / r + (mc q * (mb gZ - mc gY) - ma q * (ma gY - mb gX)) / r)
    (- adv mw - mp gZ / r + (ma q * (mc gX - ma gZ) - mb q * (mb gZ - mc gY)) / r)
    (mu gY * mb q + mu q * mb gY - mv gY * ma q - mv q * ma gY + mu gZ * mc q + mu q * mc gZ - mw gZ * ma q - mw q * ma gZ)
    (mv gX * ma q + mv q * ma gX - mu gX * mb q - mu q * mb gX + mv gZ * mc q + mv q * mc gZ - mw gZ * mb q - mw q * mb gZ)
    (mw gX * ma q + mw q * ma gX - mu gX * mc q - mu q * mc gX + mw gY * mb q + mw q * mb gY - mv gY * mc q - mv q * mc gY).

Ltac open_rate :=
  cbv beta iota zeta delta [mget ID IP IU IV IW IA IB IC Z.eqb Pos.eqb flux_along first_axis ideal_flux MhdSpec.conserved
    mhd_energy total_pressure v_dot_b v_sq b_sq mline mrate md mp mu mv mw ma mb mc].

Lemma mrate_ok S q g : gamma0 S <> 1 -> md q <> 0 -> ma (g DX) + mb (g DY) + mc (g DZ) = 0 ->
  mhd_rate S q g (mrate S q (g DX) (g DY) (g DZ)).
Proof.
  intros Hg Hd H2 v Hv. assert (Hg' : gamma0 S - 1 <> 0) by (intros E; apply Hg; lra).
  assert (E : ma (g DX) = - mb (g DY) - mc (g DZ)) by lra. clear H2.
  destruct q as [d p u v' w a b c], (g DX) as [dX pX uX vX wX aX bX cX], (g DY) as [dY pY uY vY wY aY bY cY],
    (g DZ) as [dZ pZ uZ vZ wZ aZ bZ cZ].
  cbn [md ma mb mc] in Hd, E. unfold mhd_vars in Hv.
  repeat destruct Hv as [<-|Hv]; try contradiction;
  open_rate;
  (eexists; eexists; eexists; split; [mdl|split; [mdl|split; [mdl|]]]);
  (eapply dl_eq; [mdl|]); cbn beta; rewrite ?E; field; auto.
Qed.

(** The equations determine the time derivative. *)
Lemma mrate_unique S q g r r' : gamma0 S <> 1 -> md q <> 0 -> mhd_rate S q g r -> mhd_rate S q g r' -> r = r'.
Proof.
  intros Hg Hd H H'. assert (Hg' : gamma0 S - 1 <> 0) by (intros E; apply Hg; lra).
  assert (U : forall v l l', In v mhd_vars ->
    derivable_pt_lim (fun e => mget (MhdSpec.conserved S (mline q r e)) v) 0 l ->
    derivable_pt_lim (fun e => mget (MhdSpec.conserved S (mline q r' e)) v) 0 l' -> l = l').
  { intros v l l' Hv L L'.
    destruct (H v Hv) as (fx & fy & fz & A1 & A2 & A3 & A4).
    destruct (H' v Hv) as (fx' & fy' & fz' & B1 & B2 & B3 & B4).
    rewrite (uniqueness_limite _ _ _ _ L A4), (uniqueness_limite _ _ _ _ L' B4).
    rewrite (uniqueness_limite _ _ _ _ A1 B1), (uniqueness_limite _ _ _ _ A2 B2), (uniqueness_limite _ _ _ _ A3 B3).
    reflexivity. }
  clear H H'. unfold mhd_vars in U.
  destruct q as [d p u v w a b c], r as [dr pr ur vr wr ar br cr], r' as [ds ps us vs ws as' bs cs]. cbn [md] in Hd.
  assert (E0 : dr = ds).
  { refine (U ID _ _ _ _ _); [simpl; tauto| |]; open_rate; (eapply dl_eq; [mdl|cbn beta; ring]). }
  subst ds.
  assert (E1 : ur = us).
  { apply Rmult_eq_reg_l with d; [|auto].
    assert (E : dr * u + d * ur = dr * u + d * us); [|lra].
    refine (U IU _ _ _ _ _); [simpl; tauto| |]; open_rate; (eapply dl_eq; [mdl|cbn beta; ring]). }
  assert (E2 : vr = vs).
  { apply Rmult_eq_reg_l with d; [|auto].
    assert (E : dr * v + d * vr = dr * v + d * vs); [|lra].
    refine (U IV _ _ _ _ _); [simpl; tauto| |]; open_rate; (eapply dl_eq; [mdl|cbn beta; ring]). }
  assert (E3 : wr = ws).
  { apply Rmult_eq_reg_l with d; [|auto].
    assert (E : dr * w + d * wr = dr * w + d * ws); [|lra].
    refine (U IW _ _ _ _ _); [simpl; tauto| |]; open_rate; (eapply dl_eq; [mdl|cbn beta; ring]). }
  assert (E4 : ar = as').
  { refine (U IA _ _ _ _ _); [simpl; tauto| |]; open_rate; (eapply dl_eq; [mdl|cbn beta; ring]). }
  assert (E5 : br = bs).
  { refine (U IB _ _ _ _ _); [simpl; tauto| |]; open_rate; (eapply dl_eq; [mdl|cbn beta; ring]). }
  assert (E6 : cr = cs).
  { refine (U IC _ _ _ _ _); [simpl; tauto| |]; open_rate; (eapply dl_eq; [mdl|cbn beta; ring]). }
  subst us vs ws as' bs cs.
  set (k := dr * (u * u + v * v + w * w) / 2 + d * (u * ur + v * vr + w * wr) + (a * ar + b * br + c * cr)).
  assert (E : pr / (gamma0 S - 1) + k = ps / (gamma0 S - 1) + k).
  { refine (U IP _ _ _ _ _); [simpl; tauto| |]; open_rate; (eapply dl_eq; [mdl|cbn beta; unfold k; field; auto]). }
  assert (Ep : pr = ps).
  { apply Rmult_eq_reg_r with (/ (gamma0 S - 1)); [unfold Rdiv in E; lra|apply Rinv_neq_0_compat; auto]. }
  rewrite Ep. reflexivity.
Qed.

(** ** 2D *)

Definition slopes_m2 (S : hset R) (Q : Z -> Z -> ms R) (i j : Z) (d : dir) : ms R :=
  match d with
  | DX => mslope S (Q i j) (Q (i + 1)%Z j) (Q (i - 1)%Z j)
  | DY => mslope S (Q i j) (Q i (j + 1)%Z) (Q i (j - 1)%Z)
  | DZ => mkms 0 0 0 0 0 0 0 0
  end.

Lemma elec_corner U Q i j :
  elec2 (Q (i - 1)%Z (j - 1)%Z) (Q (i - 1)%Z j) (Q i (j - 1)%Z) (Q i j)
    (U i (j - 1)%Z IA) (U i j IA) (U (i - 1)%Z j IB) (U i j IB) = corner_emf U Q i j.
Proof. unfold elec2, corner_emf, mean4. cbv zeta. Rn. field. Qed.

Lemma source2_rate S q dX dY dA dB dt : dx S <> 0 -> dy S <> 0 -> md q <> 0 ->
  mmap2 nadd q (source2 S q (mscale dX nhalf) (mscale dY nhalf) (nhalf * dA)%num (nhalf * dB)%num
                  (dt / dx S)%num (dt / dy S)%num) =
  mline q (mrate S q (mline (mkms 0 0 0 0 0 0 0 0) (with_b DX dX dA) (/ dx S))
                     (mline (mkms 0 0 0 0 0 0 0 0) (with_b DY dY dB) (/ dy S)) (mkms 0 0 0 0 0 0 0 0)) (dt / 2).
Proof.
  intros Hx Hy Hd. unfold mmap2, source2, mscale, mrate, mline, with_b. cbv zeta.
  cbn [md mp mu mv mw ma mb mc]. Rn. f_equal; field; auto.
Qed.

Lemma mline_zero c : mline (mkms 0 0 0 0 0 0 0 0) (mkms 0 0 0 0 0 0 0 0) c = mkms 0 0 0 0 0 0 0 0.
Proof. unfold mline. cbn [md mp mu mv mw ma mb mc]. f_equal; ring. Qed.

Lemma traced_eq (a b c d e f g h a' b' c' d' e' f' g' h' : ms R) :
  a = a' -> b = b' -> c = c' -> d = d' -> e = e' -> f = f' -> g = g' -> h = h' ->
  mktraced a b c d e f g h = mktraced a' b' c' d' e' f' g' h'.
Proof. intros. subst. reflexivity. Qed.

Ltac parts :=
  cbv beta iota zeta delta [mfloor mfloor3 floored set_a set_ab setb tr0 tr1 mmap2 mscale with_b mline side
    md mp mu mv mw ma mb mc]; Rn; apply ms_eq; cbv beta iota delta [md mp mu mv mw ma mb mc];
  repeat match goal with |- Rmax _ _ = Rmax _ _ => apply f_equal2 | |- _ * Rmax _ _ = _ * Rmax _ _ => apply f_equal2 end;
  unfold Rdiv; ring.

Lemma mtr_pred S dt U i j : mslope_ok S -> dx S <> 0 -> dy S <> 0 -> md (mQ S U i j) <> 0 ->
  let Q := mQ S U in
  let q := Q i j in
  let sl := slopes_m2 S Q i j in
  let F := faces2 S U Q (slope1 S) i j in
  let g := gradient S sl F in
  let r := mrate S q (g DX) (g DY) (g DZ) in
  let pm := fun d => smallp S * d in
  let face := face_pred S pm dt q sl F r in
  let edge := edge_pred S pm dt q sl F r in
  mtr S dt Q U i j =
  mktraced (face DX true) (face DX false) (face DY true) (face DY false)
    (edge DX DY true true) (edge DX DY true false) (edge DX DY false true) (edge DX DY false false).
Proof.
  intros Hs Hx Hy Hd Q. fold Q in Hd. intros q sl F g r pm face edge.
  unfold mtr, trace_mhd2, mslopes2. unfold mslope_ok in Hs. rewrite Hs. cbv zeta.
  cbn [Nat.add]. change (Z.of_nat 0) with 0%Z. change (Z.of_nat 1) with 1%Z. change (Z.of_nat 2) with 2%Z.
  replace (i + 0 - 1)%Z with (i - 1)%Z by lia. replace (i + 1 - 1)%Z with i by lia. replace (i + 2 - 1)%Z with (i + 1)%Z by lia.
  replace (j + 0 - 1)%Z with (j - 1)%Z by lia. replace (j + 1 - 1)%Z with j by lia. replace (j + 2 - 1)%Z with (j + 1)%Z by lia.
  cbn [bx by_].
  pose proof (elec_corner U Q i j) as C00.
  pose proof (elec_corner U Q i (j + 1)) as C01.
  pose proof (elec_corner U Q (i + 1) j) as C10.
  pose proof (elec_corner U Q (i + 1) (j + 1)) as C11.
  replace (i + 1 - 1)%Z with i in * by lia. replace (j + 1 - 1)%Z with j in * by lia.
  rewrite C00, C01, C10, C11, source2_rate by auto.
  assert (Er : r = mrate S q (mline (mkms 0 0 0 0 0 0 0 0) (with_b DX (sl DX) (U (i + 1)%Z j IA - U i j IA)) (/ dx S))
                     (mline (mkms 0 0 0 0 0 0 0 0) (with_b DY (sl DY) (U i (j + 1)%Z IB - U i j IB)) (/ dy S))
                     (mkms 0 0 0 0 0 0 0 0)).
  { unfold r, g, gradient, F, faces2. cbn [fb size]. rewrite !Z.add_0_r. rewrite Rminus_eq_0.
    change (with_b DZ (sl DZ) 0) with (mkms 0 0 0 0 0 0 0 0). rewrite mline_zero. reflexivity. }
  change (Q i j) with q. change (mslope S q (Q (i + 1)%Z j) (Q (i - 1)%Z j)) with (sl DX).
  change (mslope S q (Q i (j + 1)%Z) (Q i (j - 1)%Z)) with (sl DY).
  change (U (i + 1)%Z j IA - U i j IA)%num with (U (i + 1)%Z j IA - U i j IA).
  change (U i (j + 1)%Z IB - U i j IB)%num with (U i (j + 1)%Z IB - U i j IB).
  rewrite <- Er.
  unfold face, edge, face_pred, edge_pred, F, faces2, pm. cbn [fb ft fs]. rewrite !Z.add_0_r.
  clearbody sl r. clear face edge g Er C00 C01 C10 C11. clearbody q Q.
  generalize (corner_emf U Q i j) (corner_emf U Q (i + 1) j) (corner_emf U Q i (j + 1)) (corner_emf U Q (i + 1) (j + 1)).
  generalize (slope1 S (U i j IA) (U i (j + 1)%Z IA) (U i (j - 1)%Z IA))
    (slope1 S (U (i + 1)%Z j IA) (U (i + 1)%Z (j + 1)%Z IA) (U (i + 1)%Z (j - 1)%Z IA))
    (slope1 S (U i j IB) (U (i + 1)%Z j IB) (U (i - 1)%Z j IB))
    (slope1 S (U i (j + 1)%Z IB) (U (i + 1)%Z (j + 1)%Z IB) (U (i - 1)%Z (j + 1)%Z IB)).
  generalize (U i j IA) (U (i + 1)%Z j IA) (U i j IB) (U i (j + 1)%Z IB). generalize (sl DX) (sl DY).
  clear - Hx Hy. destruct q, r. intros sx sy. destruct sx, sy. intros.
  apply traced_eq.
  parts. parts. parts. parts. parts. parts. parts. parts.
Qed.

(** ** 3D *)

Definition slopes_m3 (S : hset R) (Q : Z -> Z -> Z -> ms R) (i j k : Z) (d : dir) : ms R :=
  match d with
  | DX => mslope S (Q i j k) (Q (i + 1)%Z j k) (Q (i - 1)%Z j k)
  | DY => mslope S (Q i j k) (Q i (j + 1)%Z k) (Q i (j - 1)%Z k)
  | DZ => mslope S (Q i j k) (Q i j (k + 1)%Z) (Q i j (k - 1)%Z)
  end.

Lemma elec_edge U Q e i j k : mEl3 Q U e i j k = edge_emf U Q e i j k.
Proof.
  destruct e; unfold mEl3, elec3, edge_emf, mean4, avg4; cbv zeta; Rn; field.
Qed.

Lemma source3_rate S q dX dY dZ dA dB dC dt z : dx S <> 0 -> dy S <> 0 -> dz S <> 0 -> md q <> 0 ->
  mmap2 nadd q (source3 S q (mscale dX nhalf) (mscale dY nhalf) (mscale (setb DZ dZ z) nhalf)
                  (nhalf * dA)%num (nhalf * dB)%num (nhalf * dC)%num
                  (dt / dx S)%num (dt / dy S)%num (dt / dz S)%num) =
  mline q (mrate S q (mline (mkms 0 0 0 0 0 0 0 0) (with_b DX dX dA) (/ dx S))
                     (mline (mkms 0 0 0 0 0 0 0 0) (with_b DY dY dB) (/ dy S))
                     (mline (mkms 0 0 0 0 0 0 0 0) (with_b DZ dZ dC) (/ dz S))) (dt / 2).
Proof.
  intros Hx Hy Hz Hd. unfold mmap2, source3, mscale, mrate, mline, with_b, setb. cbv zeta.
  cbn [md mp mu mv mw ma mb mc]. Rn. f_equal; field; auto.
Qed.

Definition up0 (c : corner) : bool := match c with RT | RB => true | _ => false end.
Definition up1 (c : corner) : bool := match c with RT | LT => true | _ => false end.

Ltac parts3 :=
  cbn [tr0 tr1 up0 up1]; rewrite ?Z.add_0_r;
  match goal with sl : dir -> ms R |- _ => generalize (sl DX) (sl DY) (sl DZ) end;
  repeat match goal with |- ms R -> _ => let s := fresh "s" in intro s; destruct s end;
  parts.

Lemma mtr3_pred S dt U i j k p : mslope_ok S -> dx S <> 0 -> dy S <> 0 -> dz S <> 0 -> md (mQ3 S U i j k) <> 0 ->
  let Q := mQ3 S U in
  let q := Q i j k in
  let sl := slopes_m3 S Q i j k in
  let F := faces3 S U Q (slopet (Rmin (slope_type S) 2)) i j k in
  let g := gradient S sl F in
  let r := mrate S q (g DX) (g DY) (g DZ) in
  let pm := fun _ => smallp S in
  let face := face_pred S pm dt q sl F r in
  let edge := edge_pred S pm dt q sl F r in
  mtrace3 S dt U p i j k =
  match p with Pm d => face d true | Pp d => face d false | Pe e c => edge (tr0 e) (tr1 e) (up0 c) (up1 c) end.
Proof.
  intros Hs Hx Hy Hz Hd Q. fold Q in Hd. intros q sl F g r pm face edge.
  unfold mtrace3, mtr3. fold Q.
  unfold trace_mhd3, mslopes3. unfold mslope_ok in Hs. rewrite Hs. cbv zeta. cbn [nth].
  rewrite !elec_edge, source3_rate by auto.
  assert (Er : r = mrate S q (mline (mkms 0 0 0 0 0 0 0 0) (with_b DX (sl DX) (U (i + 1)%Z j k IA - U i j k IA)) (/ dx S))
                     (mline (mkms 0 0 0 0 0 0 0 0) (with_b DY (sl DY) (U i (j + 1)%Z k IB - U i j k IB)) (/ dy S))
                     (mline (mkms 0 0 0 0 0 0 0 0) (with_b DZ (sl DZ) (U i j (k + 1)%Z IC - U i j k IC)) (/ dz S))).
  { unfold r, g, gradient, F, faces3. cbn [fb size]. rewrite !Z.add_0_r. reflexivity. }
  change (Q i j k) with q. change (mslope S q (Q (i + 1)%Z j k) (Q (i - 1)%Z j k)) with (sl DX).
  change (mslope S q (Q i (j + 1)%Z k) (Q i (j - 1)%Z k)) with (sl DY).
  change (mslope S q (Q i j (k + 1)%Z) (Q i j (k - 1)%Z)) with (sl DZ).
  change (U (i + 1)%Z j k IA - U i j k IA)%num with (U (i + 1)%Z j k IA - U i j k IA).
  change (U i (j + 1)%Z k IB - U i j k IB)%num with (U i (j + 1)%Z k IB - U i j k IB).
  change (U i j (k + 1)%Z IC - U i j k IC)%num with (U i j (k + 1)%Z IC - U i j k IC).
  rewrite <- Er.
  unfold face, edge, face_pred, edge_pred, F, faces3, pm. cbn [fb ft fs]. rewrite !Z.add_0_r.
  clearbody sl r. clear face edge g Er pm F. clearbody q.
  unfold mD3. cbn [bcomp ox oy oz]. rewrite ?Z.add_0_r, ?Z.sub_0_r.
  generalize (slope1 S (mc q) (mc (Q i j (k + 1)%Z)) (mc (Q i (j - 1)%Z k))). intros z0.
  change (nmin (slope_type S) n2) with (Rmin (slope_type S) 2).
  generalize (slopet (Rmin (slope_type S) 2)). generalize (edge_emf U Q). clear - Hx Hy Hz.
  intros E L.
  destruct p as [d|d|e c].
  - destruct q, r, d; parts3.
  - destruct q, r, d; parts3.
  - destruct q, r, e, c; parts3.
Qed.
