(** * C43, C44: the half-step predictor and the interface fluxes, over the reals *)
From Coq Require Import ZArith List Bool Reals Lra Psatz.
Import ListNotations.
From Verif Require Import Num Exec Grid HydroNum Kernels Hydro2D Hydro2DSpec Hydro3D Hydro3DSpec
  EulerSpec HydroPhysics HydroRiemann HancockSpec HancockFacts PropPhysics.
Local Open Scope R_scope.

(** ** C43: the predictor advances the Euler equations by half a step *)

(** Acceleration seen by the predictor along axis [v]. *)
Definition pull2 (g : gravp) (G : field2 R) (i j v : Z) : R :=
  if (g_enabled g && g_hancock g)%bool then G i j v else 0.
Definition pull3 (g : gravp) (G : field3 R) (b : bool) (i j k v : Z) : R :=
  if (b && (g_enabled g && g_hancock g))%bool then G i j k v else 0.

(** Slopes of a cell by axis. *)
Definition slopes_of2 (S : hset R) (U : field2 R) (i j : Z) (a : axis) : hs R :=
  match a with AX => fst (dqf S (Qf S U) i j) | AY => snd (dqf S (Qf S U) i j) | AZ => mkhs 0 0 0 0 0 end.
Definition slopes_of3 (S : hset R) (U : field3 R) (i j k : Z) (a : axis) : hs R :=
  match a with
  | AX => fst (fst (dqf3 S (Qf3 S U) i j k)) | AY => snd (fst (dqf3 S (Qf3 S U) i j k))
  | AZ => snd (dqf3 S (Qf3 S U) i j k)
  end.

Lemma slopes_of2_w S U i j a : hw (slopes_of2 S U i j a) = 0.
Proof.
  destruct a; try reflexivity; unfold slopes_of2, dqf, slopes2;
  destruct (neqb (slope_type S) n0); try reflexivity;
  destruct (neqb (slope_type S) n1 || neqb (slope_type S) n2)%bool; reflexivity.
Qed.

Lemma Qf_pos S U i j : sane S -> 0 < hd (Qf S U i j).
Proof.
  intros HS. unfold Qf. destruct (prim2 S (cell_state U i j)) as [q c] eqn:E.
  apply (C17_floors_and_sound_speed S (cell_state U i j) HS q c). left; auto.
Qed.
Lemma Qf3_pos S U i j k : sane S -> 0 < hd (Qf3 S U i j k).
Proof.
  intros HS. unfold Qf3. destruct (prim3 S (cell_state3 U i j k)) as [q c] eqn:E.
  apply (C17_floors_and_sound_speed S (cell_state3 U i j k) HS q c). right; auto.
Qed.

Section Predictor.
Variable S : hset R.
Hypothesis HS : sane S.
Variable g : gravp.
Variable dt : R.

(** Every derivative is divided by the size [h] of the cell across the face. *)
Lemma predictor2 (U G : field2 R) i j f h : axis_of f <> AZ -> h <> 0 ->
  h = match axis_of f with AX => dx S | _ => dy S end ->
  let q := Qf S U i j in
  let d := slopes_of2 S U i j in
  let solves r := hw r = 0 /\
    euler_rate S false q (hscaleR (/ h) (d AX)) (hscaleR (/ h) (d AY)) (mkhs 0 0 0 0 0) r in
  (exists r, solves r) /\
  forall r, solves r ->
  face_state S g dt (Qf S U) G i j f = hancock S dt q d r (pull2 g G i j IX) (pull2 g G i j IY) 0 f.
Proof.
  intros Hf Hh Eh q d solves. pose proof (Qf_pos S U i j HS) as Hd. fold q in Hd.
  assert (Hg : gamma0 S <> 1) by (pose proof (gamma_gt1 S HS); lra).
  pose proof (slopes_of2_w S U i j AX) as W1. pose proof (slopes_of2_w S U i j AY) as W2. fold d in W1, W2.
  assert (Wq : hw q = 0) by reflexivity.
  set (r0 := rate S false q (hscaleR (/ h) (d AX)) (hscaleR (/ h) (d AY)) (mkhs 0 0 0 0 0)).
  assert (R0 : solves r0).
  { split; [reflexivity|]. apply rate_ok; auto; [lra|]. intros _. unfold hscaleR; cbn [hw]. rewrite W1, W2.
    repeat split; auto; ring. }
  split; [exists r0; auto|]. intros r [Hw Hr].
  replace r with r0.
  2:{ apply (rate_unique S false q (hscaleR (/ h) (d AX)) (hscaleR (/ h) (d AY)) (mkhs 0 0 0 0 0));
      [exact Hg|lra| |apply R0|exact Hr]. intros _. rewrite Hw. reflexivity. }
  assert (Ed : hancock S dt q d r0 (pull2 g G i j IX) (pull2 g G i j IY) 0 f =
    hancock S dt q (fun a => match a with AX => d AX | AY => d AY | AZ => hz end) r0
      (pull2 g G i j IX) (pull2 g G i j IY) 0 f)
    by (destruct f; reflexivity).
  rewrite Ed. unfold r0. rewrite <- (trace2_hancock S dt q (d AX) (d AY) h f) by (auto; lra).
  unfold face_state. fold q. change (fst (dqf S (Qf S U) i j)) with (d AX).
  change (snd (dqf S (Qf S U) i j)) with (d AY).
  replace (trace2 S q (d AX) (d AY) (ndiv dt (dx S)) (ndiv dt (dy S)) f)
    with (trace2 S q (d AX) (d AY) (dt / h) (dt / h) f)
    by (rewrite Eh; destruct f; try reflexivity; exfalso; apply Hf; reflexivity).
  set (tr := trace2 _ _ _ _ _ _ _). assert (Wt : hw tr = 0) by (destruct f; reflexivity).
  unfold pull2. destruct (g_enabled g && g_hancock g)%bool.
  - unfold kick2, mk2. apply hs_eq; cbn [hd hp hu hv hw]; Rn; try reflexivity; field.
  - unfold mk2. apply hs_eq; cbn [hd hp hu hv hw]; Rn; try reflexivity; try ring. exact Wt.
Qed.

Lemma predictor3 (U G : field3 R) b i j k f h : h <> 0 ->
  h = match axis_of f with AX => dx S | AY => dy S | AZ => dz S end ->
  let q := Qf3 S U i j k in
  let d := slopes_of3 S U i j k in
  let solves r := euler_rate S true q (hscaleR (/ h) (d AX)) (hscaleR (/ h) (d AY)) (hscaleR (/ h) (d AZ)) r in
  (exists r, solves r) /\
  forall r, solves r ->
  face_state3 S g dt (Qf3 S U) G b i j k f =
  hancock S dt q d r (pull3 g G b i j k IX) (pull3 g G b i j k IY) (pull3 g G b i j k IZ) f.
Proof.
  intros Hh Eh q d solves. pose proof (Qf3_pos S U i j k HS) as Hd. fold q in Hd.
  assert (Hg : gamma0 S <> 1) by (pose proof (gamma_gt1 S HS); lra).
  set (r0 := rate S true q (hscaleR (/ h) (d AX)) (hscaleR (/ h) (d AY)) (hscaleR (/ h) (d AZ))).
  assert (R0 : solves r0) by (apply rate_ok; auto; [lra|discriminate]).
  split; [exists r0; auto|]. intros r Hr.
  replace r with r0.
  2:{ apply (rate_unique S true q (hscaleR (/ h) (d AX)) (hscaleR (/ h) (d AY)) (hscaleR (/ h) (d AZ)));
      [exact Hg|lra|discriminate|exact R0|exact Hr]. }
  assert (Ed : forall x y z, hancock S dt q d r0 x y z f =
    hancock S dt q (fun a => match a with AX => d AX | AY => d AY | AZ => d AZ end) r0 x y z f)
    by (intros; destruct f; reflexivity).
  rewrite Ed. unfold r0. rewrite <- (trace3_hancock S dt q (d AX) (d AY) (d AZ) h f) by (auto; lra).
  unfold face_state3. fold q. change (fst (fst (dqf3 S (Qf3 S U) i j k))) with (d AX).
  change (snd (fst (dqf3 S (Qf3 S U) i j k))) with (d AY).
  change (snd (dqf3 S (Qf3 S U) i j k)) with (d AZ).
  replace (trace3 S q (d AX) (d AY) (d AZ) (ndiv dt (dx S)) (ndiv dt (dy S)) (ndiv dt (dz S)) f)
    with (trace3 S q (d AX) (d AY) (d AZ) (dt / h) (dt / h) (dt / h) f)
    by (rewrite Eh; destruct f; reflexivity).
  set (tr := trace3 _ _ _ _ _ _ _ _ _).
  unfold predictor, pull3. destruct (b && (g_enabled g && g_hancock g))%bool.
  - unfold kick3. apply hs_eq; cbn [hd hp hu hv hw]; Rn; try reflexivity; field.
  - apply hs_eq; cbn [hd hp hu hv hw]; Rn; try reflexivity; ring.
Qed.
End Predictor.

(** On square cells the state predicted on each face is the cell value, plus half
    the limited slope, plus half a time step of the unique time derivative that
    the Euler equations give for the cell value and its gradient, plus half a time
    step of gravity, the density being floored. *)
Theorem C43_predictor_2d :
  forall (S : hset R) (g : gravp) (dt : R) (U G : field2 R) (i j : Z) (f : face),
  sane S -> 0 < dx S -> dy S = dx S -> axis_of f <> AZ ->
  let q := Qf S U i j in
  let d := slopes_of2 S U i j in
  let solves r := hw r = 0 /\
    euler_rate S false q (hscaleR (/ dx S) (d AX)) (hscaleR (/ dy S) (d AY)) (mkhs 0 0 0 0 0) r in
  (exists r, solves r) /\
  forall r, solves r ->
  face_state S g dt (Qf S U) G i j f = hancock S dt q d r (pull2 g G i j IX) (pull2 g G i j IY) 0 f.
Proof.
  intros S g dt U G i j f HS Hx Ey Hf. rewrite Ey.
  apply predictor2; auto; [lra|]. rewrite Ey. destruct (axis_of f); reflexivity.
Qed.
Print Assumptions C43_predictor_2d.

Theorem C43_predictor_3d :
  forall (S : hset R) (g : gravp) (dt : R) (U G : field3 R) (b : bool) (i j k : Z) (f : face),
  sane S -> 0 < dx S -> dy S = dx S -> dz S = dx S ->
  let q := Qf3 S U i j k in
  let d := slopes_of3 S U i j k in
  let solves r :=
    euler_rate S true q (hscaleR (/ dx S) (d AX)) (hscaleR (/ dy S) (d AY)) (hscaleR (/ dz S) (d AZ)) r in
  (exists r, solves r) /\
  forall r, solves r ->
  face_state3 S g dt (Qf3 S U) G b i j k f =
  hancock S dt q d r (pull3 g G b i j k IX) (pull3 g G b i j k IY) (pull3 g G b i j k IZ) f.
Proof.
  intros S g dt U G b i j k f HS Hx Ey Ez. rewrite Ey, Ez.
  apply predictor3; auto; [lra|]. rewrite Ey, Ez. destruct (axis_of f); reflexivity.
Qed.
Print Assumptions C43_predictor_3d.

(** A flow along y whose density grows along y: 1 + j in row j, at pressure 1 and
    velocity (0, 1). *)
Definition ex_layers : field2 R := fun i j v =>
  let r := 1 + IZR j in
  if (v =? ID)%Z then r else if (v =? IP)%Z then 1 / (7/5 - 1) + r / 2
  else if (v =? IV)%Z then r else 0.

Lemma ex_layers_Q rs st i j : (0 <= j <= 2)%Z -> Qf (ex_set rs st) ex_layers i j = mk2 (1 + IZR j) 1 0 1.
Proof.
  intros [Hj Hj2]. apply IZR_le in Hj, Hj2. unfold Qf, prim2, cell_state, ex_layers, mk2.
  replace (ID =? ID)%Z with true by reflexivity. replace (IP =? ID)%Z with false by reflexivity.
  replace (IP =? IP)%Z with true by reflexivity. replace (IU =? ID)%Z with false by reflexivity.
  replace (IU =? IP)%Z with false by reflexivity. replace (IU =? IV)%Z with false by reflexivity.
  replace (IV =? ID)%Z with false by reflexivity. replace (IV =? IP)%Z with false by reflexivity.
  replace (IV =? IV)%Z with true by reflexivity.
  cbn [fst hd hp hu hv hw]. cbv zeta. unfold ex_set, derive; cbn [gamma0 smallr smallp]. Rn.
  set (r := 1 + IZR j). assert (1 <= r <= 3) by (unfold r; lra). clearbody r.
  rewrite (Rmax_left r) by lra.
  assert (E : (7 / 5 - 1) * r * ((1 / (7 / 5 - 1) + r / 2) / r - 1 / 2 * (0 / r * (0 / r) + r / r * (r / r))) = 1)
    by (field; lra).
  rewrite E. rewrite Rmax_left by lra.
  apply hs_eq; cbn [hd hp hu hv hw]; try reflexivity; field; lra.
Qed.

Lemma slope1_same (S : hset R) q : slope_type S = 1 -> slope1 S q q q = 0.
Proof. intros E. apply slope_const. rewrite E. lra. Qed.

Lemma ex_layers_slopes rs i :
  slopes_of2 (ex_set rs 1) ex_layers i 1 AX = mkhs 0 0 0 0 0 /\
  slopes_of2 (ex_set rs 1) ex_layers i 1 AY = mkhs 1 0 0 0 0.
Proof.
  unfold slopes_of2, dqf, slopes2.
  replace (neqb (slope_type (ex_set rs 1)) n0) with false
    by (unfold neqb, ex_set, derive; cbn [slope_type]; Rn; destruct (Rle_dec 1 0); [lra|reflexivity]).
  replace (neqb (slope_type (ex_set rs 1)) n1) with true
    by (unfold neqb, ex_set, derive; cbn [slope_type]; Rn; destruct (Rle_dec 1 1); [reflexivity|lra]).
  cbn [orb fst snd]. replace (1 + 1)%Z with 2%Z by reflexivity. replace (1 - 1)%Z with 0%Z by reflexivity.
  rewrite !ex_layers_Q by lia. unfold slope2, mk2. cbn [hd hp hu hv hw].
  rewrite !(slope1_same (ex_set rs 1)) by reflexivity.
  split; [reflexivity|]. apply hs_eq; cbn [hd hp hu hv hw]; try reflexivity.
  destruct (C18_limited_slope (ex_set rs 1) (1 + 1) (1 + 2) (1 + 0) ltac:(left; reflexivity)) as (_ & _ & _ & _ & _ & K & _).
  rewrite K; lra.
Qed.

(** With cells twice as long along y as along x the predicted state is not the
    Hancock state: on faces across x the derivatives along y are divided by dx. *)
Theorem C43_unequal_cells_refuted :
  exists (S : hset R) (g : gravp) (dt : R) (U G : field2 R) (i j : Z) (f : face) (r : hs R),
  sane S /\ 0 < dx S /\ 0 < dy S /\ axis_of f <> AZ /\
  let q := Qf S U i j in
  let d := slopes_of2 S U i j in
  hw r = 0 /\
  euler_rate S false q (hscaleR (/ dx S) (d AX)) (hscaleR (/ dy S) (d AY)) (mkhs 0 0 0 0 0) r /\
  face_state S g dt (Qf S U) G i j f <> hancock S dt q d r (pull2 g G i j IX) (pull2 g G i j IY) 0 f.
Proof.
  set (S := ex_set R_HLLC 1). set (g := mkgravp false false).
  set (q := mk2 2 1 0 1). set (dY := mkhs 1 0 0 0 0).
  exists S, g, (1/100), ex_layers, (fun _ _ _ => 0), 0%Z, 1%Z, XMIN,
    (rate S false q (hscaleR (/ dx S) hz) (hscaleR (/ dy S) dY) hz).
  assert (HS : sane S) by apply ex_set_sane.
  assert (Eq : Qf S ex_layers 0 1 = q).
  { unfold S. rewrite ex_layers_Q by lia. unfold q, mk2. f_equal; lra. }
  destruct (ex_layers_slopes R_HLLC 0) as [E1 E2]. fold S in E1, E2.
  split; [exact HS|]. split; [unfold S, ex_set, derive; cbn [dx]; lra|].
  split; [unfold S, ex_set, derive; cbn [dy]; lra|]. split; [discriminate|].
  cbv zeta. rewrite Eq, E1, E2. split; [reflexivity|]. split.
  { apply rate_ok; [unfold S, ex_set, derive; cbn [gamma0]; lra|unfold q; simpl; lra|].
    intros _. unfold hscaleR; cbn [hw]. repeat split; try reflexivity; unfold dY, hz; cbn [hw]; ring. }
  intros E. apply (f_equal hd) in E. revert E.
  unfold face_state, hancock. cbn [axis_of side_of]. fold (slopes_of2 S ex_layers 0 1 AX).
  fold (slopes_of2 S ex_layers 0 1 AY). rewrite Eq, E1, E2.
  unfold g; cbn [g_enabled g_hancock andb]. unfold trace2, mk2, rate, along, hscaleR, hz, dY, q, mk2.
  unfold S, ex_set, derive. cbn [hd hp hu hv hw dx dy smallr gamma0]. Rn. intros E.
  rewrite !Rmax_right in E by lra. lra.
Qed.
Print Assumptions C43_unequal_cells_refuted.

(** The same flow on square cells: the density on the low x face after half a step
    is 2 - dt/(2 dy). *)
Definition ex_square : hset R := derive (7/5) (1/10000000000) (1/10000000000) 1 (4/5) R_HLLC (1/50) (1/50) (1/50).
Example C43_case : sane ex_square /\ 0 < dx ex_square /\ dy ex_square = dx ex_square /\ dz ex_square = dx ex_square.
Proof. split; [apply derived_settings_are_sane; lra|]. unfold ex_square, derive; cbn [dx dy dz]. lra. Qed.

(** ** C44: interface fluxes come from fans of jumps that satisfy the conservation laws *)

(** LLF: one state between two jumps at plus and minus the largest speed. *)
Theorem C44_llf_fan :
  forall (S : hset R) (d3 : bool) (ql qr : hs R), sane S -> admissible S ql -> admissible S qr ->
  let a := Rmax (Rabs (hu ql) + sound S ql) (Rabs (hu qr) + sound S qr) in
  exists u,
  fan_flux S d3 ql qr
    [(- a, (u, riemann_llf S d3 ql qr)); (a, (conserved S d3 qr, axis_flux S d3 AX qr))]
    (riemann_llf S d3 ql qr) /\
  encloses S (- a) a ql /\ encloses S (- a) a qr.
Proof. intros. apply llf_fan; auto. Qed.
Print Assumptions C44_llf_fan.

(** HLL: one state between jumps at the smallest and the largest wave speed. *)
Theorem C44_hll_fan :
  forall (S : hset R) (d3 : bool) (ql qr : hs R), sane S -> admissible S ql -> admissible S qr ->
  let c := Rmax (sound S ql) (sound S qr) in
  let sl := Rmin (Rmin (hu ql) (hu qr) - c) 0 in
  let sr := Rmax (Rmax (hu ql) (hu qr) + c) 0 in
  exists u,
  fan_flux S d3 ql qr
    [(sl, (u, riemann_hll S d3 ql qr)); (sr, (conserved S d3 qr, axis_flux S d3 AX qr))]
    (riemann_hll S d3 ql qr) /\
  encloses S sl sr ql /\ encloses S sl sr qr.
Proof. intros. apply hll_fan; auto. Qed.
Print Assumptions C44_hll_fan.

(** HLLC: two states of positive density moving with the contact, at one pressure,
    each carrying the transverse velocity of its side. *)
Theorem C44_hllc_fan :
  forall (S : hset R) (d3 : bool) (ql qr : hs R), sane S -> admissible S ql -> admissible S qr ->
  let c := Rmax (sound S ql) (sound S qr) in
  let sl := Rmin (hu ql) (hu qr) - c in
  let sr := Rmax (hu ql) (hu qr) + c in
  exists s p rl el rr er, sl < s < sr /\ 0 < rl /\ 0 < rr /\
  fan_flux S d3 ql qr
    [(sl, carried d3 rl el s p (hv ql) (hw ql)); (s, carried d3 rr er s p (hv qr) (hw qr));
     (sr, (conserved S d3 qr, axis_flux S d3 AX qr))]
    (riemann_hllc S d3 ql qr) /\
  encloses S sl sr ql /\ encloses S sl sr qr.
Proof. intros. apply hllc_fan; auto. Qed.
Print Assumptions C44_hllc_fan.

Example C44_case : forall rs st, sane (ex_set rs st) /\ admissible (ex_set rs st) ex_left /\
  admissible (ex_set rs st) ex_right /\ conserved (ex_set rs st) true ex_left <> conserved (ex_set rs st) true ex_right.
Proof.
  intros. split; [apply ex_set_sane|]. destruct (ex_admissible rs st) as (A & B & _).
  split; [exact A|]. split; [exact B|]. intros E. apply (f_equal hd) in E. cbn in E. lra.
Qed.
