(** * C63: the incoming shock of the double Mach reflection *)
From Coq Require Import ZArith List Bool String Lia ZifyBool Reals Lra.
Import ListNotations.
From Verif Require Import Num Exec ExecFacts Grid GridFacts BoundariesSpec BoundariesFacts HydroNum EulerEq EulerEqSpec
  Wedge WedgeFacts.
Local Open Scope Z_scope.

(** ** What is expected of the ghost cells

    [gas v]: variable [v] of the gas behind the shock; [foot]: beginning of the wall;
    [front y]: position of the shock at height [y].  Left of the box gas comes in;
    right of it the last column is repeated; below it gas comes in before the wall, which
    reflects; above it gas comes in behind the shock and the last row is repeated ahead
    of it.  [U]: the array before; the values left and right are used below and above. *)
Section Expected.
Context {T : Type} `{Num T}.
Variables (n_x n_y g : Z) (centre_x centre_y : Z -> T) (gas : Z -> T) (start : T) (front : T -> T) (U : Z -> Z -> Z -> T).
Definition sideways (i j v : Z) : T :=
  if i <? g then gas v else if i <? n_x + g then U i j v else U (n_x + g - 1) j v.
Definition expected (i j v : Z) : T :=
  if j <? g then
    if nltb (centre_x i) start then gas v else flip_if (v =? 3) (sideways i (2 * g - 1 - j) v)
  else if j <? n_y + g then sideways i j v
  else if nltb (centre_x i) (front (centre_y j)) then gas v else sideways i (n_y + g - 1) v.
End Expected.

Theorem C63_ghosts :
  forall (T : Type) (N : Num T) (O : NumOne T) (m : mesh) (dx dy xmin ymin : T) (w : wedge T) (a : arr)
    (inb : extents) (s s' : store T),
  0 < gw m -> 1 <= nx m -> gw m <= ny m -> nbvar m = 4 ->
  execs inb s (make_wedges m dx dy xmin ymin w a) s' ->
  (forall i j v, 0 <= i < nx m + 2 * gw m -> 0 <= j < ny m + 2 * gw m -> 0 <= v < 4 ->
     s' (mkloc a i j 0 v) =
     expected (nx m) (ny m) (gw m)
       (fun i => nadd (nadd xmin (ndiv dx (nZ 2))) (nmul (nZ (i - gw m)) dx))
       (fun j => nadd (nadd ymin (ndiv dy (nZ 2))) (nmul (nZ (j - gw m)) dy))
       (fun v => nth (Z.to_nat v) [rho1 w; e_tot1 w; rho_u1 w; rho_v1 w] n0)
       (x_f w) (fun y => nadd (nadd (x_f w) (ndiv y (slope_f w))) (delta_x w))
       (fun i j v => s (mkloc a i j 0 v)) i j v) /\
  (forall i j v, gw m <= i < nx m + gw m -> gw m <= j < ny m + gw m -> s' (mkloc a i j 0 v) = s (mkloc a i j 0 v)) /\
  (forall l, la l <> a -> s' l = s l).
Proof.
  intros T N O m dx dy xmin ymin w a inb s s' Hg Hx Hy H4 Hex.
  apply wedges in Hex; auto. cbv zeta in Hex. destruct Hex as [HA HB].
  assert (Hin : forall v, 0 <= v < 4 -> incoming w v = nth (Z.to_nat v) [rho1 w; e_tot1 w; rho_u1 w; rho_v1 w] n0).
  { intros v Hv. assert (E : v = 0 \/ v = 1 \/ v = 2 \/ v = 3) by lia.
    destruct E as [->|[->|[->| ->]]]; reflexivity. }
  assert (Hcol : forall i j v, 0 <= v < 4 ->
    (if i <? gw m then incoming w v else if nx m + gw m <=? i then s (mkloc a (nx m + gw m - 1) j 0 v)
     else s (mkloc a i j 0 v)) =
    sideways (nx m) (gw m) (fun v => nth (Z.to_nat v) [rho1 w; e_tot1 w; rho_u1 w; rho_v1 w] n0)
      (fun i j v => s (mkloc a i j 0 v)) i j v).
  { intros i j v Hv. unfold sideways. rewrite Hin by exact Hv.
    destruct (i <? gw m) eqn:E1; [reflexivity|].
    destruct (nx m + gw m <=? i) eqn:E2; destruct (i <? nx m + gw m) eqn:E3; try lia; reflexivity. }
  assert (Hfl : forall v (x : T), 0 <= v < 4 -> nmul x (wall_sign v) = flip_if (v =? 3) x).
  { intros v x Hv. unfold wall_sign, flip_if, negate, n1. change IV with 3.
    destruct (3 <=? v) eqn:E1; destruct (v =? 3) eqn:E2; try lia; [reflexivity|apply nmul_1_r]. }
  split; [|split].
  - intros i j v Hi Hj Hv. rewrite HA by (unfold isize, jsize; lia || assumption). unfold expected, x_of, y_of.
    rewrite !Hcol by exact Hv. rewrite Hfl by exact Hv. rewrite Hin by exact Hv.
    destruct (j <? gw m) eqn:E1; [reflexivity|].
    destruct (ny m + gw m <=? j) eqn:E2; destruct (j <? ny m + gw m) eqn:E3; try lia; reflexivity.
  - intros i j v Hi Hj. destruct (Z_lt_dec v 0); [apply HB; cbn; lia|].
    destruct (Z_lt_dec v 4); [|apply HB; cbn; lia].
    rewrite HA by (unfold isize, jsize; lia).
    destruct (j <? gw m) eqn:E1; [lia|]. destruct (ny m + gw m <=? j) eqn:E2; [lia|].
    destruct (i <? gw m) eqn:E3; [lia|]. destruct (nx m + gw m <=? i) eqn:E4; [lia|]. reflexivity.
  - intros l Hl. apply HB. tauto.
Qed.
Print Assumptions C63_ghosts.

(** No schedule leaves the array, and every launch can be completed. *)
Theorem C63_in_bounds :
  forall (T : Type) (N : Num T) (m : mesh) (dx dy xmin ymin : T) (w : wedge T) (a : arr) (s : store T),
  0 < gw m -> 1 <= nx m -> gw m <= ny m -> nbvar m = 4 ->
  let inb := alloc2d m (fun _ => nbvar m) in
  safes inb s (make_wedges m dx dy xmin ymin w a) /\
  exists s', execs inb s (make_wedges m dx dy xmin ymin w a) s'.
Proof.
  intros T N m dx dy xmin ymin w a s Hg Hx Hy H4 inb.
  assert (Hf : Forall (Forall (in_foot inb)) (make_wedges m dx dy xmin ymin w a)).
  { apply wedges_in_foot; auto. intros [[i j] k] v (Hi & Hj & Hk) Hv. unfold inb, alloc2d. cbn.
    rewrite H4. lia. }
  split; [apply in_foot_safes|apply in_foot_execs]; exact Hf.
Qed.
Print Assumptions C63_in_bounds.

Local Open Scope R_scope.

(** The plane through (x0, 0) with unit normal (sin a, -cos a): signed distance. *)
Definition distance (a x0 x y : R) : R := (x - x0) * sin a - y * cos a.

(** The front at time [t], as the functor computes it, is that plane, moving along its
    normal with the configured speed of the shock. *)
Theorem C63_front : forall (get : string -> string -> R -> R) (t x y : R),
  let angle := get "wedge"%string "front_angle"%string (PI / 3) in
  let speed := get "wedge"%string "shock_speed"%string 10 in
  let w := wedge_params get t in
  0 < angle < PI / 2 ->
  (x < x_f w + y / slope_f w + delta_x w <-> distance angle (x_f w) x y < speed * t) /\
  (x = x_f w + y / slope_f w + delta_x w <-> distance angle (x_f w) x y = speed * t).
Proof.
  intros get t x y angle speed w Ha. subst w. unfold wedge_params, distance. cbn [x_f slope_f delta_x].
  fold angle speed. set (x0 := get _ "front_x"%string _).
  rewrite cos_shift. unfold tan.
  assert (Hs : 0 < sin angle) by (apply sin_gt_0; lra).
  assert (Hc : 0 < cos angle) by (apply cos_gt_0; lra).
  set (s := sin angle) in *. set (c := cos angle) in *.
  assert (E : (x - (x0 + y / (s / c) + speed / s * t)) * s = (x - x0) * s - y * c - speed * t) by (field; lra).
  assert (Hlt : x < x0 + y / (s / c) + speed / s * t <-> (x - x0) * s - y * c - speed * t < 0).
  { rewrite <- E. split; intros H1.
    - apply Rmult_lt_reg_r with (/ s); [apply Rinv_0_lt_compat; exact Hs|].
      rewrite Rmult_0_l, Rmult_assoc, Rinv_r by lra. lra.
    - apply Rnot_le_lt. intros H2. assert (0 <= (x - (x0 + y / (s / c) + speed / s * t)) * s); [|lra].
      apply Rmult_le_pos; lra. }
  split.
  - rewrite Hlt. lra.
  - split; intros H1.
    + assert (X : x - (x0 + y / (s / c) + speed / s * t) = 0) by lra. rewrite X in E. lra.
    + assert (X : (x - (x0 + y / (s / c) + speed / s * t)) * s = 0) by lra.
      apply Rmult_integral in X. lra.
Qed.
Print Assumptions C63_front.

(** The ghost cells above the box therefore follow the shock: with positive speed a
    cell that gas enters once gets gas ever after. *)
Theorem C63_once_behind_always : forall (get : string -> string -> R -> R) (t t' x y : R),
  let angle := get "wedge"%string "front_angle"%string (PI / 3) in
  0 < angle < PI / 2 -> 0 <= get "wedge"%string "shock_speed"%string 10 -> t <= t' ->
  let w := wedge_params get t in let w' := wedge_params get t' in
  nltb x (nadd (nadd (x_f w) (ndiv y (slope_f w))) (delta_x w)) = true ->
  nltb x (nadd (nadd (x_f w') (ndiv y (slope_f w'))) (delta_x w')) = true.
Proof.
  intros get t t' x y angle Ha Hs Ht w w' H1. cbn in H1 |- *.
  destruct (Rlt_dec x _) as [Hx|] in H1; [|discriminate].
  destruct (Rlt_dec x _) as [|Hn]; [reflexivity|]. exfalso. apply Hn.
  apply (C63_front get t x y Ha) in Hx.
  apply (C63_front get t' x y Ha). change (x_f (wedge_params get t')) with (x_f (wedge_params get t)).
  apply Rlt_le_trans with (1 := Hx). apply Rmult_le_compat_l; assumption.
Qed.
Print Assumptions C63_once_behind_always.

(** Flux of a conserved state through a plane with unit normal (n1, n2). *)
Definition through (gamma n1 n2 : R) (q : hs R) (v : Z) : R :=
  n1 * hget (carried DX q (gas_pressure gamma q)) v + n2 * hget (carried DY q (gas_pressure gamma q)) v.

(** With the built-in states the front is a shock of the Euler equations: every
    conserved quantity satisfies its jump condition, and the wave is compressive,
    supersonic into the gas ahead (Mach 10) and subsonic behind. *)
Theorem C63_shock : forall (get : string -> string -> R -> R) (t : R),
  (forall name d, name <> "front_x"%string -> name <> "front_angle"%string -> get "wedge"%string name d = d) ->
  get "hydro"%string "gamma0"%string (14 / 10) = 14 / 10 ->
  let angle := get "wedge"%string "front_angle"%string (PI / 3) in
  let w := wedge_params get t in
  let behind := mkhs (rho1 w) (e_tot1 w) (rho_u1 w) (rho_v1 w) 0 in
  let ahead := mkhs (rho2 w) (e_tot2 w) (rho_u2 w) (rho_v2 w) 0 in
  let D := 10 in let n1 := sin angle in let n2 := - cos angle in
  let normal_velocity q := (n1 * hu q + n2 * hv q) / hd q in
  let squared_sound q := 14 / 10 * gas_pressure (14 / 10) q / hd q in
  (forall v, (0 <= v < 4)%Z ->
     through (14 / 10) n1 n2 behind v - through (14 / 10) n1 n2 ahead v = D * (hget behind v - hget ahead v)) /\
  gas_pressure (14 / 10) ahead < gas_pressure (14 / 10) behind /\
  (D - normal_velocity ahead) ^ 2 = 10 ^ 2 * squared_sound ahead /\
  0 < D - normal_velocity behind /\ (D - normal_velocity behind) ^ 2 < squared_sound behind.
Proof.
  intros get t Hd Hg angle w behind ahead D n1 n2 nv ss.
  assert (Sc : sin angle * sin angle + cos angle * cos angle = 1).
  { pose proof (sin2_cos2 angle) as H1. unfold Rsqr in H1. exact H1. }
  assert (Ec : cos (angle - PI / 2) = sin angle).
  { rewrite <- (cos_neg (angle - PI / 2)). replace (- (angle - PI / 2)) with (PI / 2 - angle) by ring. apply cos_shift. }
  assert (Es : sin (angle - PI / 2) = - cos angle).
  { replace (angle - PI / 2) with (- (PI / 2 - angle)) by ring. rewrite sin_neg, sin_shift. reflexivity. }
  assert (Eb : behind = mkhs 8 (1165 / 10 / (14 / 10 - 1) + 4 * (825 / 100) * (825 / 100))
                          (8 * (825 / 100 * sin angle)) (8 * (825 / 100 * - cos angle)) 0).
  { unfold behind, w, wedge_params. cbn [rho1 e_tot1 rho_u1 rho_v1]. rewrite Hg. fold angle.
    rewrite !Hd by discriminate. rewrite Ec, Es. f_equal.
    replace (825 / 100 * sin angle * (825 / 100 * sin angle) + 825 / 100 * - cos angle * (825 / 100 * - cos angle) + 0 * 0)
      with (825 / 100 * (825 / 100) * (sin angle * sin angle + cos angle * cos angle)) by ring.
    rewrite Sc. lra. }
  assert (Ea : ahead = mkhs (14 / 10) (1 / (14 / 10 - 1)) 0 0 0).
  { unfold ahead, w, wedge_params. cbn [rho2 e_tot2 rho_u2 rho_v2]. rewrite Hg. rewrite !Hd by discriminate.
    f_equal; lra. }
  assert (Pb : gas_pressure (14 / 10) behind = 1165 / 10).
  { rewrite Eb. unfold gas_pressure. cbn [hd hp hu hv hw].
    replace (8 * (825 / 100 * sin angle) * (8 * (825 / 100 * sin angle)) +
             8 * (825 / 100 * - cos angle) * (8 * (825 / 100 * - cos angle)) + 0 * 0)
      with (8 * 8 * (825 / 100 * (825 / 100)) * (sin angle * sin angle + cos angle * cos angle)) by ring.
    rewrite Sc. lra. }
  assert (Pa : gas_pressure (14 / 10) ahead = 1).
  { rewrite Ea. unfold gas_pressure. cbn [hd hp hu hv hw]. lra. }
  assert (Nb : nv behind = 825 / 100).
  { unfold nv, n1, n2. rewrite Eb. cbn [hd hu hv].
    replace (sin angle * (8 * (825 / 100 * sin angle)) + - cos angle * (8 * (825 / 100 * - cos angle)))
      with (8 * (825 / 100) * (sin angle * sin angle + cos angle * cos angle)) by ring.
    rewrite Sc. lra. }
  assert (Na : nv ahead = 0) by (unfold nv; rewrite Ea; cbn [hd hu hv]; lra).
  split; [|split; [|split; [|split]]].
  - intros v Hv. unfold through. rewrite Pb, Pa. rewrite Eb, Ea. unfold D, n1, n2.
    assert (Cv : (v = 0 \/ v = 1 \/ v = 2 \/ v = 3)%Z) by lia.
    set (s := sin angle) in *. set (c := cos angle) in *.
    destruct Cv as [->|[->|[->| ->]]];
    unfold hget; cbv beta iota delta [Z.eqb Pos.eqb ID IP IU IV];
    unfold carried, along; cbv zeta; cbn [hd hp hu hv hw].
    + replace (s * (8 * (825 / 100 * s) / 8 * 8) + - c * (8 * (825 / 100 * - c) / 8 * 8))
        with (8 * (825 / 100) * (s * s + c * c)) by field. rewrite Sc. lra.
    + replace (s * (8 * (825 / 100 * s) / 8 * (1165 / 10 / (14 / 10 - 1) + 4 * (825 / 100) * (825 / 100)) + 8 * (825 / 100 * s) / 8 * (1165 / 10)) +
         - c * (8 * (825 / 100 * - c) / 8 * (1165 / 10 / (14 / 10 - 1) + 4 * (825 / 100) * (825 / 100)) + 8 * (825 / 100 * - c) / 8 * (1165 / 10)))
        with (825 / 100 * (1165 / 10 / (14 / 10 - 1) + 4 * (825 / 100) * (825 / 100) + 1165 / 10) * (s * s + c * c)) by (field; lra).
      rewrite Sc. lra.
    + replace (s * (8 * (825 / 100 * s) / 8 * (8 * (825 / 100 * s)) + 1165 / 10) +
         - c * (8 * (825 / 100 * - c) / 8 * (8 * (825 / 100 * s)) + 0))
        with (s * (8 * (825 / 100) * (825 / 100) * (s * s + c * c) + 1165 / 10)) by field. rewrite Sc. lra.
    + replace (s * (8 * (825 / 100 * s) / 8 * (8 * (825 / 100 * - c)) + 0) +
         - c * (8 * (825 / 100 * - c) / 8 * (8 * (825 / 100 * - c)) + 1165 / 10))
        with (- c * (8 * (825 / 100) * (825 / 100) * (s * s + c * c) + 1165 / 10)) by field. rewrite Sc. lra.
  - lra.
  - unfold ss. rewrite Na, Pa, Ea. unfold D. cbn [hd]. lra.
  - rewrite Nb. unfold D. lra.
  - unfold ss. rewrite Nb, Pb, Eb. unfold D. cbn [hd]. lra.
Qed.
Print Assumptions C63_shock.

(** A parameter file that only moves the front: 0.25 instead of 0.1. *)
Definition some_file (section name : string) (d : R) : R :=
  if String.eqb name "front_x" then 1 / 4 else d.
Example C63_case :
  (forall name d, name <> "front_x"%string -> name <> "front_angle"%string -> some_file "wedge"%string name d = d) /\
  some_file "hydro"%string "gamma0"%string (14 / 10) = 14 / 10 /\
  0 < some_file "wedge"%string "front_angle"%string (PI / 3) < PI / 2 /\
  x_f (wedge_params some_file 0) = 1 / 4.
Proof.
  pose proof PI_RGT_0. split; [|split; [|split]].
  - intros name d H1 _. unfold some_file. destruct (String.eqb_spec name "front_x"); [contradiction|reflexivity].
  - reflexivity.
  - unfold some_file. cbn. lra.
  - reflexivity.
Qed.

(** Four by three cells of size 1/4: gas comes in on the left and below the first
    column; the wall below the second column reflects. *)
Example C63_ghosts_case : forall s : store R,
  let m := mkmesh 4 3 1 2 4 false (fun _ => 3%Z) in
  let w := wedge_params some_file 0 in
  let inb := alloc2d m (fun _ => nbvar m) in
  exists s', execs inb s (make_wedges m (1 / 4) (1 / 4) 0 0 w A_U) s' /\
    s' (mkloc A_U 0 3 0 0) = 8 /\ s' (mkloc A_U 2 1 0 0) = 8 /\
    s' (mkloc A_U 3 1 0 3) = - s (mkloc A_U 3 2 0 3) /\ s' (mkloc A_U 3 1 0 0) = s (mkloc A_U 3 2 0 0).
Proof.
  intros s m w inb.
  destruct (C63_in_bounds R Rnum m (1 / 4) (1 / 4) 0 0 w A_U s) as [_ [s' Hex]]; try reflexivity; try (unfold m; cbn [nx ny gw]; lia).
  exists s'. split; [exact Hex|].
  pose proof (C63_ghosts R Rnum _ m (1 / 4) (1 / 4) 0 0 w A_U inb s s') as H.
  destruct H as [H _]; try exact Hex; try reflexivity; try (unfold m; cbn [nx ny gw]; lia).
  repeat split; rewrite H by (unfold m; cbn [nx ny gw]; lia); unfold expected, sideways, flip_if, negate; cbn -[IZR Rlt_dec Rmult Rplus Ropp Rdiv w].
  - reflexivity.
  - destruct (Rlt_dec _ _) as [|Hn]; [reflexivity|]. exfalso. apply Hn.
    change (x_f w) with (1 / 4). change (2 - 2)%Z with 0%Z. lra.
  - destruct (Rlt_dec _ _) as [Hl|_]; [|cbn; rewrite (Ropp_mult_distr_r_reverse _ 1), Rmult_1_r; reflexivity]. exfalso. change (x_f w) with (1 / 4) in Hl. change (3 - 2)%Z with 1%Z in Hl. lra.
  - destruct (Rlt_dec _ _) as [Hl|_]; [|reflexivity]. exfalso. change (x_f w) with (1 / 4) in Hl. change (3 - 2)%Z with 1%Z in Hl. lra.
Qed.
