(** * C50: the MHD predictor advances ideal MHD by half a step *)
From Coq Require Import ZArith List Bool Reals Lra Psatz.
Import ListNotations.
From Verif Require Import Num Exec Grid HydroNum EulerSpec HydroPhysics HancockFacts Hydro2DSpec Hydro3D Hydro3DSpec
  MhdNum Mhd2DSpec Mhd2DAgree Mhd3DNum Mhd3DSpec MhdSpec MhdFanSpec Mhd2DLaws Mhd3DLaws MhdHancockSpec MhdHancock
  PropMhdScheme.
Local Open Scope R_scope.

(** ** The limiter *)
Lemma slopet_limiter th q qp qm : 0 < th -> slopet th q qp qm = limiter th q qp qm.
Proof.
  intros Ht. unfold slopet, limiter. cbv zeta. Rn.
  set (l := q - qm). set (r := qp - q). replace (qp - qm) with (l + r) by (unfold l, r; lra).
  clearbody l r. clear q qp qm.
  replace (th * l * (th * r)) with (th * th * (l * r)) by ring.
  assert (T : 0 < th * th) by nra.
  destruct (Rle_dec (l * r) 0) as [H|H].
  { destruct (Rle_dec (th * th * (l * r)) 0); [|nra].
    rewrite Rmin_left by apply Rabs_pos. ring. }
  destruct (Rle_dec (th * th * (l * r)) 0); [nra|].
  destruct (Rle_dec 0 l) as [L|L].
  - assert (0 < r) by nra. assert (0 <= th * l) by nra. assert (0 <= th * r) by nra.
    rewrite !Rabs_pos_eq by lra. destruct (Rle_dec 0 (1 / 2 * (l + r))); [|lra].
    rewrite Rmult_1_l. f_equal. lra.
  - assert (r < 0) by nra. assert (th * l < 0) by nra. assert (th * r < 0) by nra.
    rewrite !Rabs_left by lra. destruct (Rle_dec 0 (1 / 2 * (l + r))); [lra|].
    rewrite <- Ropp_Rmax, <- Ropp_Rmax. replace ((l + r) / 2) with (1 / 2 * (l + r)) by lra. ring.
Qed.

Section Settings.
Variable S : hset R.
Hypothesis HS : mhd_sane S.
Hypothesis Hst : slope_type S = 1 \/ slope_type S = 2.

Lemma st_pos : 0 < slope_type S. Proof. destruct Hst; lra. Qed.
Lemma slope1_limiter q qp qm : slope1 S q qp qm = limiter (slope_type S) q qp qm.
Proof. rewrite <- slopet_limiter by apply st_pos. reflexivity. Qed.
Lemma mslope_limiter q qp qm : mslope S q qp qm = mlimiter (slope_type S) q qp qm.
Proof. unfold mslope, mlimiter. rewrite !slope1_limiter. reflexivity. Qed.
Lemma st_ok : mslope_ok S.
Proof.
  unfold mslope_ok, neqb. Rn. destruct Hst as [-> | ->];
  repeat match goal with |- context [Rle_dec ?a ?b] => destruct (Rle_dec a b); try lra end; reflexivity.
Qed.
Lemma st_min : Rmin (slope_type S) 2 = slope_type S.
Proof. apply Rmin_left. destruct Hst; lra. Qed.

Lemma mQ_d U i j : md (mQ S U i j) <> 0.
Proof.
  unfold mQ, prim_mhd. cbn [md]. Rn. destruct HS as (_ & H & _).
  match goal with |- Rmax ?a ?b <> 0 => pose proof (Rmax_r a b); lra end.
Qed.
Lemma mQ3_d U i j k : md (mQ3 S U i j k) <> 0.
Proof.
  unfold mQ3, prim_mhd. cbn [md]. Rn. destruct HS as (_ & H & _).
  match goal with |- Rmax ?a ?b <> 0 => pose proof (Rmax_r a b); lra end.
Qed.
End Settings.

Lemma face_pred_ext S pm dt q sl sl' F F' r d up : sl d = sl' d ->
  (fb F d up = fb F' d up) -> ft F d up = ft F' d up ->
  face_pred S pm dt q sl F r d up = face_pred S pm dt q sl' F' r d up.
Proof. intros E1 E2 E3. unfold face_pred. rewrite E1, E2, E3. reflexivity. Qed.
Lemma edge_pred_ext S pm dt q sl sl' F F' r d0 d1 u0 u1 : (forall d, sl d = sl' d) ->
  (forall d up, fb F d up = fb F' d up) -> (forall d up, ft F d up = ft F' d up) ->
  (forall d a up, fs F d a up = fs F' d a up) ->
  edge_pred S pm dt q sl F r d0 d1 u0 u1 = edge_pred S pm dt q sl' F' r d0 d1 u0 u1.
Proof. intros E1 E2 E3 E4. unfold edge_pred. rewrite !E1, !E2, !E3, !E4. reflexivity. Qed.

(** ** Theorems *)

(** 2D.  On a cell without magnetic divergence, ideal MHD in conservation form has
    exactly one time derivative [r] for the cell's limited slopes, and the program's
    predicted states are, on the four faces and at the four corners, the
    reconstructed states advanced by [dt/2] with [r]; the field components across
    faces are advanced by Faraday's law with the electric field at the corners. *)
Theorem C50_mhd_predictor_2d :
  forall (S : hset R) (dt : R) (U : field2 R) (i j : Z),
  mhd_sane S -> (slope_type S = 1 \/ slope_type S = 2) -> dx S <> 0 -> dy S <> 0 ->
  divB S U i j = 0 ->
  let Q := mQ S U in
  let q := Q i j in
  let sl := slopes2m (slope_type S) Q i j in
  let F := faces2 S U Q (limiter (slope_type S)) i j in
  let g := gradient S sl F in
  (exists r, mhd_rate S q g r) /\
  (forall r, mhd_rate S q g r ->
     let face := face_pred S (fun d => smallp S * d) dt q sl F r in
     let edge := edge_pred S (fun d => smallp S * d) dt q sl F r in
     mtr S dt Q U i j =
     mktraced (face DX true) (face DX false) (face DY true) (face DY false)
       (edge DX DY true true) (edge DX DY true false) (edge DX DY false true) (edge DX DY false false)).
Proof.
  intros S dt U i j HS Hst Hx Hy HB Q q sl F g.
  assert (Hg : gamma0 S <> 1) by (destruct HS; lra).
  pose proof (mQ_d S HS U i j) as Hd. change (mQ S U i j) with q in Hd.
  assert (HD : ma (g DX) + mb (g DY) + mc (g DZ) = 0).
  { unfold g, gradient, F, faces2, mline, with_b. cbn [fb ma mb mc size]. rewrite !Z.add_0_r.
    unfold divB in HB. etransitivity; [|exact HB]. unfold Rdiv. ring. }
  pose proof (mrate_ok S q g Hg Hd HD) as R0.
  split; [eexists; exact R0|]. intros r Hr face edge.
  assert (Er : r = mrate S q (g DX) (g DY) (g DZ)) by (eapply mrate_unique; eauto).
  assert (Esl : forall d, slopes_m2 S Q i j d = sl d).
  { intros []; unfold sl; cbn [slopes_m2 slopes2m]; rewrite ?mslope_limiter by auto; reflexivity. }
  set (F0 := faces2 S U Q (slope1 S) i j).
  assert (Eb : forall d up, fb F0 d up = fb F d up) by reflexivity.
  assert (Et : forall d up, ft F0 d up = ft F d up) by reflexivity.
  assert (Es : forall d a up, fs F0 d a up = fs F d a up).
  { intros d a up. destruct d, a; try reflexivity; unfold F0, F; cbn [faces2 fs]; apply slope1_limiter; auto. }
  assert (Eg : forall d, gradient S (slopes_m2 S Q i j) F0 d = g d).
  { intros d. unfold g, gradient. rewrite Esl, !Eb. reflexivity. }
  pose proof (mtr_pred S dt U i j (st_ok S Hst) Hx Hy Hd) as M. cbv zeta in M. change (mQ S U) with Q in M.
  change (faces2 S U Q (slope1 S) i j) with F0 in M. change (Q i j) with q in M.
  rewrite !Eg, <- Er in M. rewrite M. unfold face, edge.
  rewrite !(face_pred_ext S _ dt q (slopes_m2 S Q i j) sl F0 F r) by auto.
  rewrite !(edge_pred_ext S _ dt q (slopes_m2 S Q i j) sl F0 F r) by auto. reflexivity.
Qed.
Print Assumptions C50_mhd_predictor_2d.

(** 3D: six faces and twelve edges.  The edge along [e] lies between the two other
    axes; its corner says on which side of the cell along each of them it lies. *)
Definition axes_across (e : dir) : dir * dir :=
  match e with DX => (DY, DZ) | DY => (DX, DZ) | DZ => (DX, DY) end.
Definition sides (c : corner) : bool * bool :=
  match c with RT => (true, true) | RB => (true, false) | LT => (false, true) | LB => (false, false) end.

Theorem C50_mhd_predictor_3d :
  forall (S : hset R) (dt : R) (U : field3 R) (i j k : Z),
  mhd_sane S -> (slope_type S = 1 \/ slope_type S = 2) -> dx S <> 0 -> dy S <> 0 -> dz S <> 0 ->
  divB3 S U i j k = 0 ->
  let Q := mQ3 S U in
  let q := Q i j k in
  let sl := slopes3m (slope_type S) Q i j k in
  let F := faces3 S U Q (limiter (slope_type S)) i j k in
  let g := gradient S sl F in
  (exists r, mhd_rate S q g r) /\
  (forall r, mhd_rate S q g r ->
     (forall d, mtrace3 S dt U (Pm d) i j k = face_pred S (fun _ => smallp S) dt q sl F r d true /\
                mtrace3 S dt U (Pp d) i j k = face_pred S (fun _ => smallp S) dt q sl F r d false) /\
     (forall e c, let (d0, d1) := axes_across e in let (u0, u1) := sides c in
        mtrace3 S dt U (Pe e c) i j k = edge_pred S (fun _ => smallp S) dt q sl F r d0 d1 u0 u1)).
Proof.
  intros S dt U i j k HS Hst Hx Hy Hz HB Q q sl F g.
  assert (Hg : gamma0 S <> 1) by (destruct HS; lra).
  pose proof (mQ3_d S HS U i j k) as Hd. change (mQ3 S U i j k) with q in Hd.
  assert (HD : ma (g DX) + mb (g DY) + mc (g DZ) = 0).
  { unfold g, gradient, F, faces3, mline, with_b. cbn [fb ma mb mc size]. rewrite !Z.add_0_r.
    unfold divB3 in HB. etransitivity; [|exact HB]. unfold Rdiv. ring. }
  pose proof (mrate_ok S q g Hg Hd HD) as R0.
  split; [eexists; exact R0|]. intros r Hr.
  assert (Er : r = mrate S q (g DX) (g DY) (g DZ)) by (eapply mrate_unique; eauto).
  assert (Esl : forall d, slopes_m3 S Q i j k d = sl d).
  { intros []; unfold sl; cbn [slopes_m3 slopes3m]; rewrite ?mslope_limiter by auto; reflexivity. }
  set (F0 := faces3 S U Q (slopet (Rmin (slope_type S) 2)) i j k).
  assert (Eb : forall d up, fb F0 d up = fb F d up) by reflexivity.
  assert (Et : forall d up, ft F0 d up = ft F d up) by reflexivity.
  assert (Es : forall d a up, fs F0 d a up = fs F d a up).
  { intros d a up. unfold F0, F. rewrite st_min by auto.
    destruct d, a; cbn [faces3 fs]; apply slopet_limiter; apply st_pos; auto. }
  assert (Eg : forall d, gradient S (slopes_m3 S Q i j k) F0 d = g d).
  { intros d. unfold g, gradient. rewrite Esl, !Eb. reflexivity. }
  assert (M : forall p, mtrace3 S dt U p i j k =
    match p with Pm d => face_pred S (fun _ => smallp S) dt q sl F r d true
    | Pp d => face_pred S (fun _ => smallp S) dt q sl F r d false
    | Pe e c => edge_pred S (fun _ => smallp S) dt q sl F r (tr0 e) (tr1 e) (up0 c) (up1 c) end).
  { intros p. pose proof (mtr3_pred S dt U i j k p (st_ok S Hst) Hx Hy Hz Hd) as M. cbv zeta in M.
    change (mQ3 S U) with Q in M. change (faces3 S U Q (slopet (Rmin (slope_type S) 2)) i j k) with F0 in M.
    change (Q i j k) with q in M. rewrite !Eg, <- Er in M. rewrite M. destruct p as [d|d|e c].
    - apply face_pred_ext; auto.
    - apply face_pred_ext; auto.
    - apply edge_pred_ext; auto. }
  split.
  - intros d. split; apply M.
  - intros e c. destruct e, c; cbn [axes_across sides]; apply M.
Qed.
Print Assumptions C50_mhd_predictor_3d.

(** A field without divergence and with slopes in every direction. *)
Definition ex_pred2 : field2 R := fun i j v =>
  if Z.eqb v ID then 2 + IZR (i + 2 * j) else if Z.eqb v IA then IZR i + IZR j
  else if Z.eqb v IB then 3 * IZR i - IZR j else 1.
Definition ex_pred3 : field3 R := fun i j k v =>
  if Z.eqb v ID then 2 + IZR (i + j + k) else if Z.eqb v IA then IZR i + IZR j
  else if Z.eqb v IB then IZR j - IZR k else if Z.eqb v IC then IZR i - 2 * IZR k else 1.
Example C50_case : mhd_sane (fan_set (5 / 3)) /\ slope_type (fan_set (5 / 3)) = 1 /\
  (forall i j, divB (fan_set (5 / 3)) ex_pred2 i j = 0) /\
  (forall i j k, divB3 (fan_set (5 / 3)) ex_pred3 i j k = 0) /\
  md (slopes2m 1 (mQ (fan_set (5 / 3)) ex_pred2) 0 0 DX) = 1 /\
  mb (slopes2m 1 (mQ (fan_set (5 / 3)) ex_pred2) 0 0 DX) = 3.
Proof.
  split; [apply fan_set_sane; lra|]. split; [reflexivity|]. split; [|split].
  - intros. unfold divB, ex_pred2, fan_set, derive. cbn [dx dy]. cbv beta iota delta [ID IA IB Z.eqb Pos.eqb].
    rewrite !plus_IZR. field.
  - intros. unfold divB3, ex_pred3, fan_set, derive. cbn [dx dy dz].
    cbv beta iota delta [ID IA IB IC Z.eqb Pos.eqb]. rewrite !plus_IZR. field.
  - assert (D : forall i, (-1 <= i)%Z -> md (mQ (fan_set (5 / 3)) ex_pred2 i 0) = 2 + IZR i).
    { intros i Hi. apply IZR_le in Hi. unfold mQ, prim_mhd, mstate, ex_pred2, fan_set, derive. cbn [md smallr]. Rn.
      cbv beta iota delta [ID Z.eqb Pos.eqb]. rewrite Z.mul_0_r, Z.add_0_r. apply Rmax_left. lra. }
    assert (B : forall i, mb (mQ (fan_set (5 / 3)) ex_pred2 i 0) = 3 * IZR i - 1 / 2).
    { intros i. unfold mQ, prim_mhd, mstate, ex_pred2. cbn [mb]. Rn.
      cbv beta iota delta [ID IA IB Z.eqb Pos.eqb]. change (0 + 1)%Z with 1%Z. field. }
    assert (L : forall a d, 0 < d -> limiter 1 a (a + d) (a - d) = d).
    { intros a d Hd. unfold limiter. destruct (Rle_dec ((a - (a - d)) * (a + d - a)) 0); [nra|].
      destruct (Rle_dec 0 (a - (a - d))); [|lra].
      rewrite !Rmin_left; try lra. rewrite Rmin_left; lra. }
    unfold slopes2m, mlimiter. cbn [md mb]. rewrite !B, !D by lia.
    change (0 + 1)%Z with 1%Z. change (0 - 1)%Z with (-1)%Z. split.
    + replace (2 + 1) with (2 + 0 + 1) by lra. replace (2 + -1) with (2 + 0 - 1) by lra. apply L. lra.
    + replace (3 * 1 - 1 / 2) with (3 * 0 - 1 / 2 + 3) by lra.
      replace (3 * -1 - 1 / 2) with (3 * 0 - 1 / 2 - 3) by lra. apply L. lra.
Qed.
