(** * Initial conditions: the documented gas

    Independent of the program's arrays and kernels: the primitive state (density,
    pressure, velocity, cell-centred magnetic field) of each problem at a point, over the
    real numbers.  The parameters are those of the parameter file (records of Init.v). *)
From Coq Require Import ZArith List Bool Reals.
From Verif Require Import Num Exec Grid HydroNum MhdNum Params Init.
Local Open Scope R_scope.

(** The functions of <cmath> are the mathematical ones. *)
Record libm (L : mlib R) : Prop := mklibm {
  lm_sin : forall x, lsin L x = sin x;
  lm_cos : forall x, lcos L x = cos x;
  lm_exp : forall x, lexp L x = exp x;
  lm_log : forall x, 0 < x -> llog L x = ln x;
  lm_pow : forall x y, 0 < x -> lpow L x y = Rpower x y;
  lm_asin : lasin L 1 = PI / 2;
  lm_pi : lpi L = PI;
  lm_2pi : ltwopi L = 2 * PI;
  lm_atan2 : forall x y, 0 < x * x + y * y ->
    cos (latan2 L y x) = x / sqrt (x * x + y * y) /\
    sin (latan2 L y x) = y / sqrt (x * x + y * y) }.

(** Distances. *)
Definition dist2 (x y x0 y0 : R) : R := sqrt ((x - x0) * (x - x0) + (y - y0) * (y - y0)).
Definition dist3 (x y z x0 y0 z0 : R) : R :=
  sqrt ((x - x0) * (x - x0) + (y - y0) * (y - y0) + (z - z0) * (z - z0)).

Section Doc.
Variable S : hset R.
Variable B : box R.
Let g := gamma0 S.

(** Centre of cell (i,j,k) of the process. *)
Definition at_x (m : mesh) (i : Z) : R := xmin B + (IZR (i + nx m * pos_i B - gw m) + 1 / 2) * dx S.
Definition at_y (m : mesh) (j : Z) : R := ymin B + (IZR (j + ny m * pos_j B - gw m) + 1 / 2) * dy S.
Definition at_z (m : mesh) (k : Z) : R := zmin B + (IZR (k + nz m * pos_k B - gw m) + 1 / 2) * dz S.

(** Open and closed intervals. *)
Definition inside (a x b : R) : bool :=
  if Rlt_dec a x then if Rlt_dec x b then true else false else false.
Definition within (a x b : R) : bool :=
  if Rle_dec a x then if Rle_dec x b then true else false else false.
Definition above (a x : R) : bool := if Rlt_dec a x then true else false.

(** Implosion: a diagonal separates the two states (or, shape_region 1, a band). *)
Definition doc_implode (d3 outer : bool) (P : implode_params R) : hs R :=
  let s := if outer then i_out P else i_in P in
  mkhs (g_rho s) (g_p s) (g_u s) (g_v s) (if d3 then g_w s else 0).
Definition outer2 (P : implode_params R) (x y : R) : bool :=
  if (i_shape P =? 1)%Z then inside (1 / 2) (x + y * y) (3 / 2)
  else above ((xmin B + xmax B) / 2 + ymin B) (x + y).
Definition outer2_mhd (P : implode_params R) (x y : R) : bool :=
  if (i_shape P =? 1)%Z then inside (1 / 2) (x + y) (5 / 2)
  else above ((xmin B + xmax B) / 2 + ymin B) (x + y).
Definition outer3 (P : implode_params R) (x y z : R) : bool :=
  if (i_shape P =? 1)%Z then inside (1 / 2) (x + y + z) (5 / 2)
  else above ((xmin B + xmax B) / 2 + ymin B + zmin B) (x + y + z).

(** Blast: a ball of dense or hot gas, at rest. *)
Definition doc_blast (r : R) (P : blast_params R) : hs R :=
  if Rlt_dec r (b_radius P) then mkhs (b_din P) (b_pin P) 0 0 0
  else mkhs (b_dout P) (b_pout P) 0 0 0.

(** Kelvin-Helmholtz: two streams, with the smooth transition of Robertson et al. (2010)
    or sharp layers between a quarter and three quarters of the domain. *)
Definition transition (delta y : R) : R :=
  / (1 + exp (2 * (y - 1 / 4) / delta)) + / (1 + exp (2 * (3 / 4 - y) / delta)).
Definition between (a b r : R) : R := (1 - r) * a + r * b.
Definition doc_kh_smooth2 (P : kh_params R) (x y : R) : hs R :=
  let r := transition (k_delta P) y in
  mkhs (between (k_din P) (k_dout P) r) (k_p P) (between (k_vin P) (k_vout P) r)
       (k_w0 P * sin (IZR (k_mode P) * PI * x)) 0.
Definition doc_kh_smooth3 (P : kh_params R) (x y z : R) : hs R :=
  let r := transition (k_delta P) z in
  mkhs (between (k_din P) (k_dout P) r) (k_p P) (between (k_vin P) (k_vout P) r)
       (between (k_vin P) (k_vout P) r / 2)
       (k_w0 P * sin (IZR (k_mode P) * PI * x) * sin (IZR (k_mode P) * PI * y)).
(** Fraction of the height. *)
Definition height (lo hi y : R) : R := (y - lo) / (hi - lo).
(** [e1 e2 e3]: the random numbers of the cell. *)
Definition doc_kh_random (layer : bool) (P : kh_params R) (e1 e2 e3 : R) : hs R :=
  mkhs (if layer then k_din P else k_dout P) (k_p P)
       ((if layer then k_vin P else k_vout P) + k_ampl P * (e1 - 1 / 2))
       (k_ampl P * (e2 - 1 / 2)) (k_ampl P * (e3 - 1 / 2)).

(** Gresho vortex: the azimuthal velocity rises to 1 at r = 0.2 and falls to 0 at 0.4. *)
Definition doc_uphi (r : R) : R :=
  if Rlt_dec r (1 / 5) then 5 * r else if Rlt_dec r (2 / 5) then 2 - 5 * r else 0.
Definition doc_gresho_p (P : gresho_params R) (r : R) : R :=
  let p0 := gr_rho0 P / (g * (gr_ma P * gr_ma P)) in
  if Rlt_dec r (1 / 5) then p0 + 25 / 2 * (r * r)
  else if Rlt_dec r (2 / 5) then p0 + 25 / 2 * (r * r) + 4 * (1 - 5 * r - ln (1 / 5) + ln r)
  else p0 - 2 + 4 * ln 2.
Definition doc_gresho (P : gresho_params R) (x y : R) : hs R :=
  let r := sqrt (x * x + y * y) in
  mkhs (gr_rho0 P) (doc_gresho_p P r) (- (y / r) * doc_uphi r) (x / r * doc_uphi r) 0.

(** Four quadrants (eight octants) with the states of the Riemann configuration. *)
Definition doc_four2 (P : quad_params R) (x y : R) : hs R :=
  q_states P
   (if Rlt_dec x (q_xt P) then if Rlt_dec y (q_yt P) then 2%Z else 1%Z
    else if Rlt_dec y (q_yt P) then 3%Z else 0%Z).
(** The upper octants hold the states 4 to 7. *)
Definition doc_four3 (P : quad_params R) (x y z : R) : hs R :=
  q_states P
   ((if Rlt_dec x (q_xt P) then if Rlt_dec y (q_yt P) then 2 else 1
     else if Rlt_dec y (q_yt P) then 3 else 0) + (if Rlt_dec z (q_zt P) then 0 else 4))%Z.

(** Isentropic vortex (Yee et al. 1999) of strength beta around (v_x, v_y). *)
Definition doc_vortex (P : vortex_params R) (x y : R) : hs R :=
  let X := x - v_x P in
  let Y := y - v_y P in
  let w := v_beta P / (2 * PI) * exp ((1 - (X * X + Y * Y)) / 2) in
  let t := v_T P - (g - 1) * (v_beta P * v_beta P) / (8 * g * (PI * PI)) * exp (1 - (X * X + Y * Y)) in
  let rho := v_rho P * Rpower (t / v_T P) (1 / (g - 1)) in
  mkhs rho (rho * t) (v_u P - Y * w) (v_v P + X * w) 0.

(** Rayleigh-Taylor: heavy gas above light gas, a small velocity upwards. *)
Definition wave2 (x y : R) : R :=
  (1 + cos (2 * PI * x / (xmax B - xmin B))) * (1 + cos (2 * PI * y / (ymax B - ymin B))) / 4.
Definition doc_rti2 (P : rti_params R) (x y : R) : hs R :=
  let d := if Rlt_dec ((ymin B + ymax B) / 2) y then r_d1 P else r_d0 P in
  mkhs d (1 + d * (r_gx P * x + r_gy P * y)) 0 (r_ampl P * wave2 x y) 0.
Definition doc_rti3 (P : rti_params R) (x y z : R) : hs R :=
  let d := if Rlt_dec ((zmin B + zmax B) / 2) z then r_d1 P else r_d0 P in
  mkhs d (1 + d * (r_gx P * x + r_gy P * y + r_gz P * z)) 0 0 (r_ampl P * wave2 x y).

(** ** The gas of each problem at a point; [e n]: n-th random number of the cell *)
Definition flat (q : hs R) : hs R := mkhs (hd q) (hp q) (hu q) (hv q) 0.
Definition doc_kh2 (P : kh_params R) (e : nat -> R) (x y : R) : hs R :=
  if k_rand P then flat (doc_kh_random (within (1 / 4) (height (ymin B) (ymax B) y) (3 / 4)) P (e 0%nat) (e 1%nat) 0)
  else doc_kh_smooth2 P x y.
Definition doc_kh3 (P : kh_params R) (e : nat -> R) (x y z : R) : hs R :=
  if k_rand P then doc_kh_random (within (1 / 4) (height (zmin B) (zmax B) z) (3 / 4)) P (e 0%nat) (e 1%nat) (e 2%nat)
  else doc_kh_smooth3 P x y z.
Definition doc_hydro2 (Q : problems R) (p : problem) (e : nat -> R) (x y : R) : hs R :=
  match p with
  | Blast => doc_blast (dist2 x y (b_cx (p_blast Q)) (b_cy (p_blast Q))) (p_blast Q)
  | KelvinHelmholtz => doc_kh2 (p_kh Q) e x y
  | Gresho => doc_gresho (p_gresho Q) x y
  | FourQuadrant => flat (doc_four2 (p_quad Q) x y)
  | IsentropicVortex => doc_vortex (p_vortex Q) x y
  | RayleighTaylor => doc_rti2 (p_rti Q) x y
  | _ => doc_implode false (outer2 (p_implode Q) x y) (p_implode Q)
  end.
Definition doc_hydro3 (Q : problems R) (p : problem) (e : nat -> R) (x y z : R) : hs R :=
  match p with
  | Blast => doc_blast (dist3 x y z (b_cx (p_blast Q)) (b_cy (p_blast Q)) (b_cz (p_blast Q))) (p_blast Q)
  | KelvinHelmholtz => doc_kh3 (p_kh Q) e x y z
  | Gresho => doc_gresho (p_gresho Q) x y
  | FourQuadrant => doc_four3 (p_quad Q) x y z
  | RayleighTaylor => doc_rti3 (p_rti Q) x y z
  | _ => doc_implode true (outer3 (p_implode Q) x y z) (p_implode Q)
  end.

(** ** MHD *)

(** Gas [q] in the magnetic field [a b c]. *)
Definition in_field (q : hs R) (a b c : R) : ms R := mkms (hd q) (hp q) (hu q) (hv q) (hw q) a b c.

(** Brio-Wu shock tube along axis [d] (0, 1, 2): the field along the axis is Bx, the
    field along the next axis is By. *)
Definition axis_part (d e : Z) (a b : R) : R := if (d =? e)%Z then a else if (d =? (e + 1) mod 3)%Z then b else 0.
Definition doc_briowu (P : briowu_params R) (e : Z) (pos : R) : ms R :=
  let '(rho, p, u, b) := if Rle_dec pos (w_xd P) then (w_rhoL P, w_pL P, w_uL P, w_ByL P)
                         else (w_rhoR P, w_pR P, w_uR P, w_ByR P) in
  mkms rho p (axis_part 0 e u 0) (axis_part 1 e u 0) (axis_part 2 e u 0)
       (axis_part 0 e (w_Bx P) b) (axis_part 1 e (w_Bx P) b) (axis_part 2 e (w_Bx P) b).
(** In two dimensions the axis after y is x. *)
Definition doc_briowu2 (P : briowu_params R) (e : Z) (x y : R) : ms R :=
  let '(rho, p, u, b) := if Rle_dec (if (e =? 0)%Z then x else y) (w_xd P)
                         then (w_rhoL P, w_pL P, w_uL P, w_ByL P)
                         else (w_rhoR P, w_pR P, w_uR P, w_ByR P) in
  if (e =? 0)%Z then mkms rho p u 0 0 (w_Bx P) b 0 else mkms rho p 0 u 0 b (w_Bx P) 0.

(** Orszag-Tang vortex: rho = gamma p, p = gamma/(4 pi), |B| scale 1/sqrt(4 pi). *)
Definition ot_p : R := g / (4 * PI).
Definition ot_b : R := / sqrt (4 * PI).
Definition doc_ot2 (x y : R) : ms R :=
  mkms (g * ot_p) ot_p (- sin (2 * PI * y)) (sin (2 * PI * x)) 0
       (- (ot_b * sin (2 * PI * y))) (ot_b * sin (4 * PI * x)) 0.
(** In three dimensions the vortex is around axis [e], its field modulated along the axis. *)
Definition doc_ot3 (P : ot_params R) (e : Z) (x y z : R) : ms R :=
  let wave t lo hi := cos (4 * PI * o_kt P * (t - lo) / (hi - lo)) in
  let d := g * ot_p in
  if (e =? 2)%Z then
    let k := ot_b * wave z (zmin B) (zmax B) in
    mkms d ot_p (- sin (2 * PI * y)) (sin (2 * PI * x)) 0 (- (k * sin (2 * PI * y))) (k * sin (4 * PI * x)) 0
  else if (e =? 0)%Z then
    let k := ot_b * wave x (xmin B) (xmax B) in
    mkms d ot_p 0 (- sin (2 * PI * z)) (sin (2 * PI * y)) 0 (- (k * sin (2 * PI * z))) (k * sin (4 * PI * y))
  else
    let k := ot_b * wave y (ymin B) (ymax B) in
    mkms d ot_p (sin (2 * PI * z)) 0 (- sin (2 * PI * x)) (k * sin (4 * PI * z)) 0 (- (k * sin (2 * PI * x))).

(** Rotor (Balsara & Spicer 1999): a dense disc in rigid rotation, a transition, gas at rest. *)
Definition doc_rotor (P : rotor_params R) (x y : R) : ms R :=
  let X := x - (xmin B + xmax B) / 2 in
  let Y := y - (ymin B + ymax B) / 2 in
  let r := sqrt (X * X + Y * Y) in
  let f := (t_r1 P - r) / (t_r1 P - t_r0 P) in
  let '(d, w) := if Rle_dec r (t_r0 P) then (10, t_u0 P / t_r0 P)
                 else if Rle_dec r (t_r1 P) then (1 + 9 * f, f * t_u0 P / r) else (1, 0) in
  mkms d (t_p0 P) (- (w * Y)) (w * X) 0 (t_b0 P) 0 0.

(** Advected field loop: potential A(r) = A0 (R - r) along z inside the loop; the field of
    a cell is the mean of the fields on its faces, differences of A. *)
Definition doc_pot (P : loop_params R) (x y : R) : R :=
  if Rlt_dec (sqrt (x * x + y * y)) (f_radius P) then f_ampl P * (f_radius P - sqrt (x * x + y * y)) else 0.
Definition doc_loop (P : loop_params R) (w : R) (x y : R) : ms R :=
  let A i j := doc_pot P (x + i * dx S) (y + j * dy S) in
  mkms (if Rlt_dec (sqrt (x * x + y * y)) (f_radius P) then f_din P else 1) 1
       (2 / sqrt 5 * f_vflow P) (1 / sqrt 5 * f_vflow P) w
       (((A 0 1 - A 0 0) + (A 1 1 - A 1 0)) / (2 * dy S))
       (- (((A 1 0 - A 0 0) + (A 1 1 - A 0 1)) / (2 * dx S))) 0.

(** ** The gas of each problem at a point *)
Definition doc_kh_sine2 (P : kh_params R) (x y : R) : hs R :=
  let l := within (1 / 4) y (3 / 4) in
  mkhs (if l then k_din P else k_dout P) (k_p P) (if l then k_vin P else k_vout P)
       (k_w0 P * sin (IZR (k_mode P) * PI * x)) 0.
Definition doc_kh_sine3 (P : kh_params R) (x z : R) : hs R :=
  let l := within (1 / 4) z (3 / 4) in
  mkhs (if l then k_din P else k_dout P) (k_p P) (if l then k_vin P else k_vout P) 0
       (k_w0 P * sin (IZR (k_mode P) * PI * x)).
Definition doc_mhd2 (Q : problems R) (p : problem) (e : nat -> R) (x y : R) : ms R :=
  match p with
  | Blast =>
      let P := p_blast Q in
      let r := dist2 x y (b_cx P) (b_cy P) in
      if Rlt_dec r (b_radius P) then in_field (doc_blast r P) (b_bxin P) (b_byin P) (b_bzin P)
      else in_field (doc_blast r P) (b_bxout P) (b_byout P) (b_bzout P)
  | Implode =>
      let o := outer2_mhd (p_implode Q) x y in
      let s := if o then i_out (p_implode Q) else i_in (p_implode Q) in
      in_field (doc_implode false o (p_implode Q)) (g_bx s) (g_by s) 0
  | BrioWu => doc_briowu2 (p_briowu Q) (w_dir (p_briowu Q)) x y
  | KelvinHelmholtz =>
      let P := p_kh Q in
      in_field (if k_rand P || k_rob P then doc_kh2 P e x y else doc_kh_sine2 P x y) (1 / 2) 0 0
  | Rotor => doc_rotor (p_rotor Q) x y
  | _ => doc_ot2 x y
  end.
Definition doc_mhd3 (Q : problems R) (p : problem) (e : nat -> R) (x y z : R) : ms R :=
  match p with
  | Blast =>
      let P := p_blast Q in
      let r := dist3 x y z (b_cx P) (b_cy P) (b_cz P) in
      if Rlt_dec r (b_radius P) then in_field (doc_blast r P) (b_bxin P) (b_byin P) (b_bzin P)
      else in_field (doc_blast r P) (b_bxout P) (b_byout P) (b_bzout P)
  | Implode =>
      let o := outer3 (p_implode Q) x y z in
      let s := if o then i_out (p_implode Q) else i_in (p_implode Q) in
      in_field (doc_implode true o (p_implode Q)) (g_bx s) (g_by s) (g_bz s)
  | BrioWu =>
      let d := w_dir (p_briowu Q) in
      doc_briowu (p_briowu Q) d (if (d =? 0)%Z then x else if (d =? 1)%Z then y else z)
  | KelvinHelmholtz =>
      let P := p_kh Q in
      in_field (if k_rand P || k_rob P then doc_kh3 P e x y z else doc_kh_sine3 P x z) (1 / 2) 0 0
  | Rotor => doc_rotor (p_rotor Q) x y
  | _ => doc_ot3 (p_ot Q) (o_dir (p_ot Q)) x y z
  end.
End Doc.
