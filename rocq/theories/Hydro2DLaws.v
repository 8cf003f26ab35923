(** * Conservation, walls, uniform states, gravity, symmetries of the 2D scheme *)
From Coq Require Import ZArith List Bool Lia ZifyBool Reals Lra.
Import ListNotations.
From Verif Require Import Num Exec ExecFacts Grid GridFacts Boundaries BoundariesSpec
  HydroNum Kernels KernelFacts Hydro2D Hydro2DSpec Hydro2DFacts Hydro2DStep Hydro2DRun
  Sums EulerSpec HydroPhysics HydroRiemann.
Local Open Scope Z_scope.

(** Sum over the physical cells. *)
Definition total2 (m : mesh) (u : field2 R) (v : Z) : R :=
  sumz (gw m) (nx m) (fun i => sumz (gw m) (ny m) (fun j => u i j v)).

Lemma total2_ext m u1 u2 v : 0 <= v < 4 -> same_phys m u1 u2 -> total2 m u1 v = total2 m u2 v.
Proof.
  intros Hv H. unfold total2. apply sumz_ext. intros i Hi. apply sumz_ext. intros j Hj.
  apply H; auto. unfold phys2, physical. lia.
Qed.

(** The extension equals the field on physical cells. *)
Lemma extend_phys {T} {N : Num T} m u i j v : phys2 m i j -> extend m u i j v = u i j v.
Proof.
  intros [Hi Hj]. unfold physical in *. unfold extend, image_x, image_y, mirrored_x, mirrored_y, image, mirrored.
  destruct (i <? gw m) eqn:E1; [lia|]. destruct (nx m + gw m <=? i) eqn:E2; [lia|].
  destruct (j <? gw m) eqn:E3; [lia|]. destruct (ny m + gw m <=? j) eqn:E4; [lia|]. reflexivity.
Qed.

Section Balance.
Variable m : mesh.
Variable S : hset R.
Variable g : gravp.
Hypothesis Hx : 0 <= nx m.
Hypothesis Hy : 0 <= ny m.

(** Discrete Gauss theorem: without gravity source the total changes by the
    fluxes through the four sides. *)
Lemma balance2 dt u G v :
  g_enabled g = false ->
  let U := extend m u in
  total2 m (step2 S g dt U G) v =
  (total2 m u v +
   (sumz (gw m) (ny m) (fun j => FX S g dt (Qf S U) G (gw m) j v - FX S g dt (Qf S U) G (gw m + nx m) j v) +
    sumz (gw m) (nx m) (fun i => FY S g dt (Qf S U) G i (gw m) v - FY S g dt (Qf S U) G i (gw m + ny m) v)))%R.
Proof.
  intros Hg U. unfold total2.
  rewrite (sumz_ext (gw m) (nx m) (fun i => sumz (gw m) (ny m) (fun j => step2 S g dt U G i j v))
    (fun i => (sumz (gw m) (ny m) (fun j => u i j v) +
      (sumz (gw m) (ny m) (fun j => FX S g dt (Qf S U) G i j v - FX S g dt (Qf S U) G (i + 1) j v) +
       (FY S g dt (Qf S U) G i (gw m) v - FY S g dt (Qf S U) G i (gw m + ny m) v)))%R)).
  - rewrite !sumz_add. f_equal. f_equal.
    rewrite sumz_swap. apply sumz_ext. intros j _.
    apply (sumz_tele (gw m) (nx m) (fun i => FX S g dt (Qf S U) G i j v)). auto.
  - intros i Hi. rewrite <- (sumz_tele (gw m) (ny m) (fun j => FY S g dt (Qf S U) G i j v)) by auto.
    rewrite <- !sumz_add. apply sumz_ext. intros j Hj. unfold step2, adv2. rewrite Hg. Rn.
    unfold U at 1. rewrite extend_phys by (unfold phys2, physical; lia). ring.
Qed.
End Balance.

(** ** Periodic faces *)
Section Periodic.
Context {T : Type} {N : Num T}.
Variable m : mesh.
Variable S : hset T.
Variable g : gravp.

Definition periodic_x : Prop := kind_of (bc m XMIN) = Periodic /\ kind_of (bc m XMAX) = Periodic.
Definition periodic_y : Prop := kind_of (bc m YMIN) = Periodic /\ kind_of (bc m YMAX) = Periodic.

Hypothesis Hwide : wide2 m.
Hypothesis Hgw : 2 <= gw m.

Lemma periodic_x_wide : periodic_x -> 2 <= nx m /\ gw m <= nx m.
Proof.
  intros [P1 P2]. pose proof Hwide as (_ & _ & (A & [B|B]) & _); [congruence|]. lia.
Qed.
Lemma periodic_y_wide : periodic_y -> 2 <= ny m /\ gw m <= ny m.
Proof.
  intros [P1 P2]. pose proof Hwide as (_ & _ & _ & _ & (A & [B|B]) & _); [congruence|]. lia.
Qed.

(** The extended field has the period of the domain, as far as the array goes. *)
Lemma extend_period_x u i j v : periodic_x -> 0 <= i -> i + nx m < nx m + 2 * gw m ->
  extend m u (i + nx m) j v = extend m u i j v.
Proof.
  intros HP Hi Hi'. destruct (periodic_x_wide HP) as [W1 W2]. destruct HP as [P1 P2].
  unfold extend, image_x, mirrored_x, image, mirrored. rewrite P1, P2.
  destruct (i <? gw m) eqn:E1; destruct (i + nx m <? gw m) eqn:E3; try lia;
  destruct (nx m + gw m <=? i + nx m) eqn:E4; try lia.
  - reflexivity.
  - destruct (nx m + gw m <=? i) eqn:E2; [lia|]. simpl. replace (i + nx m - nx m) with i by lia. reflexivity.
Qed.

Lemma extend_period_y u i j v : periodic_y -> 0 <= j -> j + ny m < ny m + 2 * gw m ->
  extend m u i (j + ny m) v = extend m u i j v.
Proof.
  intros HP Hi Hi'. destruct (periodic_y_wide HP) as [W1 W2]. destruct HP as [P1 P2].
  unfold extend, image_y, mirrored_y, image, mirrored. rewrite P1, P2.
  destruct (j <? gw m) eqn:E1; destruct (j + ny m <? gw m) eqn:E3; try lia;
  destruct (ny m + gw m <=? j + ny m) eqn:E4; try lia.
  - reflexivity.
  - destruct (ny m + gw m <=? j) eqn:E2; [lia|]. simpl. replace (j + ny m - ny m) with j by lia. reflexivity.
Qed.

End Periodic.

(** Translating the primitive field translates the fluxes. *)
Section Shift.
Context {T : Type} {N : Num T}.
Variable S : hset T.
Variable g : gravp.
Variable dt : T.

Lemma FX_shift Q G a b i j v :
  FX S g dt (fun i j => Q (i + a) (j + b)) (fun i j => G (i + a) (j + b)) i j v = FX S g dt Q G (i + a) (j + b) v.
Proof.
  unfold FX, face_state, dqf.
  replace (i + 1 + a) with (i + a + 1) by lia. replace (i - 1 + a) with (i + a - 1) by lia.
  replace (j + 1 + b) with (j + b + 1) by lia. replace (j - 1 + b) with (j + b - 1) by lia.
  replace (i - 1 + 1 + a) with (i + a - 1 + 1) by lia. replace (i - 1 - 1 + a) with (i + a - 1 - 1) by lia.
  reflexivity.
Qed.

Lemma FY_shift Q G a b i j v :
  FY S g dt (fun i j => Q (i + a) (j + b)) (fun i j => G (i + a) (j + b)) i j v = FY S g dt Q G (i + a) (j + b) v.
Proof.
  unfold FY, face_state, dqf.
  replace (i + 1 + a) with (i + a + 1) by lia. replace (i - 1 + a) with (i + a - 1) by lia.
  replace (j + 1 + b) with (j + b + 1) by lia. replace (j - 1 + b) with (j + b - 1) by lia.
  replace (j - 1 + 1 + b) with (j + b - 1 + 1) by lia. replace (j - 1 - 1 + b) with (j + b - 1 - 1) by lia.
  reflexivity.
Qed.

Lemma step2_shift U G a b i j v :
  step2 S g dt (fun i j => U (i + a) (j + b)) (fun i j => G (i + a) (j + b)) i j v =
  step2 S g dt U G (i + a) (j + b) v.
Proof.
  assert (A : forall v, adv2 S g dt (fun i j => U (i + a) (j + b)) (fun i j => G (i + a) (j + b)) i j v
                        = adv2 S g dt U G (i + a) (j + b) v).
  { intros w. unfold adv2.
    change (Qf S (fun i0 j0 => U (i0 + a) (j0 + b))) with (fun i0 j0 => Qf S U (i0 + a) (j0 + b)).
    rewrite !FX_shift, !FY_shift.
    replace (i + 1 + a) with (i + a + 1) by lia. replace (j + 1 + b) with (j + b + 1) by lia. reflexivity. }
  unfold step2. destruct (g_enabled g); auto. unfold grav_source. rewrite !A. reflexivity.
Qed.
End Shift.

(** Periodic sides: what leaves on one side enters on the other. *)
Lemma flux_periodic_x {T} {N : Num T} m S g dt u G j v :
  wide2 m -> 2 <= gw m -> periodic_x m -> g_enabled g = false -> physical (ny m) (gw m) j ->
  let Q := Qf S (extend m u) in
  FX S g dt Q G (gw m + nx m) j v = FX S g dt Q G (gw m) j v.
Proof.
  intros Hw Hgw HP Hg Hj Q. unfold physical in Hj.
  destruct (periodic_x_wide m Hw Hgw HP) as [W1 W2].
  rewrite <- (Z.add_0_r j) at 1. rewrite <- FX_shift.
  assert (E : forall Q G G', FX S g dt Q G (gw m) j v = FX S g dt Q G' (gw m) j v).
  { intros. unfold FX, face_state. rewrite Hg. reflexivity. }
  rewrite (E _ _ G). apply FX_ext; auto. intros i' j' Hi' Hj'. unfold Q, Qf, cell_state.
  rewrite Z.add_0_r, !extend_period_x by (auto; lia). reflexivity.
Qed.

Lemma flux_periodic_y {T} {N : Num T} m S g dt u G i v :
  wide2 m -> 2 <= gw m -> periodic_y m -> g_enabled g = false -> physical (nx m) (gw m) i ->
  let Q := Qf S (extend m u) in
  FY S g dt Q G i (gw m + ny m) v = FY S g dt Q G i (gw m) v.
Proof.
  intros Hw Hgw HP Hg Hj Q. unfold physical in Hj.
  destruct (periodic_y_wide m Hw Hgw HP) as [W1 W2].
  rewrite <- (Z.add_0_r i) at 1. rewrite <- FY_shift.
  assert (E : forall Q G G', FY S g dt Q G i (gw m) v = FY S g dt Q G' i (gw m) v).
  { intros. unfold FY, face_state. rewrite Hg. reflexivity. }
  rewrite (E _ _ G). apply FY_ext; auto. intros i' j' Hi' Hj'. unfold Q, Qf, cell_state.
  rewrite Z.add_0_r, !extend_period_y by (auto; lia). reflexivity.
Qed.

(** ** Settings that differ only in the cell sizes and the Courant number *)
Section SameGas.
Context {T : Type} {N : Num T}.

Definition same_gas (S1 S2 : hset T) : Prop :=
  gamma0 S1 = gamma0 S2 /\ gamma6 S1 = gamma6 S2 /\ smallr S1 = smallr S2 /\ smallc S1 = smallc S2 /\
  smallp S1 = smallp S2 /\ smallpp S1 = smallpp S2 /\ slope_type S1 = slope_type S2 /\ solver S1 = solver S2.

Lemma newton_same S1 S2 n : gamma6 S1 = gamma6 S2 -> smallpp S1 = smallpp S2 ->
  forall cl cr pl pr ul ur p c, newton S1 n cl cr pl pr ul ur p c = newton S2 n cl cr pl pr ul ur p c.
Proof.
  intros E1 E2. induction n as [|n IH]; intros; cbn [newton]; auto.
  unfold newton_step. rewrite E1, E2. cbv zeta. rewrite IH. reflexivity.
Qed.

Lemma pstar_same_gas S1 S2 : same_gas S1 S2 -> forall rl ul pl rr ur pr,
  approx_pstar S1 rl ul pl rr ur pr = approx_pstar S2 rl ul pl rr ur pr.
Proof.
  intros (E1 & E2 & _ & _ & _ & E6 & _) rl ul pl rr ur pr. unfold approx_pstar.
  rewrite (newton_same S1 S2) by auto. rewrite E1. reflexivity.
Qed.

Lemma w_same_gas S1 S2 : same_gas S1 S2 -> forall r p x, approx_w S1 r p x = approx_w S2 r p x.
Proof. intros (E1 & E2 & _) r p x. unfold approx_w. rewrite E1, E2. reflexivity. Qed.

Lemma ustar_same_gas S1 S2 : same_gas S1 S2 -> forall rl ul pl rr ur pr x,
  approx_ustar S1 rl ul pl rr ur pr x = approx_ustar S2 rl ul pl rr ur pr x.
Proof. intros HE rl ul pl rr ur pr x. unfold approx_ustar. rewrite !(w_same_gas S1 S2 HE). reflexivity. Qed.

Lemma sample_same_gas S1 S2 : same_gas S1 S2 -> forall ro uo po wo p u s,
  approx_sample S1 ro uo po wo p u s = approx_sample S2 ro uo po wo p u s.
Proof.
  intros (E1 & _ & E3 & E4 & _) ro uo po wo p u s. unfold approx_sample. rewrite E1, E3, E4. reflexivity.
Qed.

Lemma approx_same S1 S2 d3 ql qr : same_gas S1 S2 -> riemann_approx S1 d3 ql qr = riemann_approx S2 d3 ql qr.
Proof.
  intros HE. unfold riemann_approx.
  assert (EF : forall q, cmpflx S1 d3 q = cmpflx S2 d3 q)
    by (intros; unfold cmpflx; rewrite (proj1 HE); reflexivity).
  rewrite EF. f_equal. unfold approx_state. cbv zeta.
  rewrite !(pstar_same_gas S1 S2 HE), !(ustar_same_gas S1 S2 HE), !(w_same_gas S1 S2 HE), !(sample_same_gas S1 S2 HE).
  destruct HE as (_ & _ & E3 & _ & E5 & _). rewrite E3, E5. reflexivity.
Qed.

Lemma solve_same S1 S2 ql qr : same_gas S1 S2 -> solve S1 ql qr = solve S2 ql qr.
Proof.
  intros HE. unfold solve, riemann2. rewrite (approx_same S1 S2) by auto.
  destruct HE as (E1 & E2 & E3 & E4 & E5 & E6 & _ & E8). rewrite E8.
  destruct (solver S2); try reflexivity.
  - unfold riemann_llf, cons_of. rewrite E1, E3, E5. reflexivity.
  - unfold riemann_hll, cons_of. rewrite E1, E3, E5. reflexivity.
  - unfold riemann_hllc. rewrite E1, E3, E4, E5. reflexivity.
Qed.

End SameGas.

(** ** Reflecting faces *)
Section Wall.
Variable S : hset R.
Hypothesis HS : sane S.
Hypothesis Hslope : slope_ok S.
Local Open Scope R_scope.

Definition mirror_y (q : hs R) : hs R := mkhs (hd q) (hp q) (hu q) (- hv q) (hw q).
(** A slope across the mirror: even components change sign. *)
Definition slope_mirror (d : hs R) : hs R := mkhs (- hd d) (- hp d) (hu d) (- hv d) (- hw d).
Definition slope_mirror_y (d : hs R) : hs R := mkhs (- hd d) (- hp d) (- hu d) (hv d) (- hw d).

Lemma slope_type_nonneg : 0 <= slope_type S.
Proof.
  unfold slope_ok, neqb in Hslope. Rn.
  repeat match type of Hslope with context [Rle_dec ?a ?b] => destruct (Rle_dec a b) end;
    try lra; discriminate.
Qed.

Lemma slope2_across q0 q1 :
  slope2 S (mirror q0) q0 (mirror q1) = slope_mirror (slope2 S q0 q1 (mirror q0)).
Proof.
  pose proof slope_type_nonneg as H0.
  unfold slope2, slope_mirror, mirror, mk2. apply hs_eq; cbn [hd hp hu hv hw];
    try (apply slope_odd; auto); [|Rn; ring].
  pose proof (slope_neg S (hu q0) (hu q1) (- hu q0) H0) as E. rewrite Ropp_involutive in E.
  rewrite (slope_odd S (- hu q0) (- hu q1) (hu q0)), E by auto. ring.
Qed.

Lemma slope2_along q qp qm :
  slope2 S (mirror q) (mirror qp) (mirror qm) = mirror (slope2 S q qp qm).
Proof.
  pose proof slope_type_nonneg as H0.
  unfold slope2, mirror, mk2. apply hs_eq; cbn [hd hp hu hv hw]; auto. apply slope_neg; auto.
Qed.

Lemma trace2_mirror q dX dY a b :
  trace2 S (mirror q) (slope_mirror dX) (mirror dY) a b XMAX = mirror (trace2 S q dX dY a b XMIN).
Proof.
  unfold trace2, slope_mirror, mirror, mk2. cbv zeta. cbn [hd hp hu hv hw]. Rn.
  apply hs_eq; cbn [hd hp hu hv hw]; unfold Rdiv; try ring. f_equal. ring.
Qed.

(** Axis exchange. *)
Lemma trace2_swap q dX dY a b :
  trace2 S (swap_uv q) (swap_uv dY) (swap_uv dX) b a XMIN = swap_uv (trace2 S q dX dY a b YMIN) /\
  trace2 S (swap_uv q) (swap_uv dY) (swap_uv dX) b a XMAX = swap_uv (trace2 S q dX dY a b YMAX) /\
  trace2 S (swap_uv q) (swap_uv dY) (swap_uv dX) b a YMIN = swap_uv (trace2 S q dX dY a b XMIN) /\
  trace2 S (swap_uv q) (swap_uv dY) (swap_uv dX) b a YMAX = swap_uv (trace2 S q dX dY a b XMAX).
Proof.
  unfold trace2, swap_uv, mk2. cbv zeta. cbn [hd hp hu hv hw]. Rn.
  repeat split; apply hs_eq; cbn [hd hp hu hv hw]; unfold Rdiv; try ring; f_equal; ring.
Qed.

Lemma slope2_swap q qp qm :
  slope2 S (swap_uv q) (swap_uv qp) (swap_uv qm) = swap_uv (slope2 S q qp qm).
Proof. reflexivity. Qed.

Lemma swap_swap (q : hs R) : swap_uv (swap_uv q) = q.
Proof. destruct q; reflexivity. Qed.

Lemma slopes2_swap q qpx qmx qpy qmy :
  slopes2 S (swap_uv q) (swap_uv qpy) (swap_uv qmy) (swap_uv qpx) (swap_uv qmx) =
  match slopes2 S q qpx qmx qpy qmy with
  | Some (dX, dY) => Some (swap_uv dY, swap_uv dX) | None => None end.
Proof.
  unfold slopes2. destruct (neqb (slope_type S) n0); [reflexivity|].
  destruct (neqb (slope_type S) n1 || neqb (slope_type S) n2); reflexivity.
Qed.

Section Field.
Variable g : gravp.
Hypothesis Hg : (g_enabled g && g_hancock g)%bool = false.
Variable dt : R.
Variable Q : Z -> Z -> hs R.
Variable G : field2 R.

(** The primitive field is mirror symmetric about the face between a-1 and a. *)
Definition wall_x (a j : Z) : Prop :=
  forall k j', (0 <= k <= 1)%Z -> (j - 1 <= j' <= j + 1)%Z -> Q (a - 1 - k) j' = mirror (Q (a + k) j').
Definition wall_y (i b : Z) : Prop :=
  forall k i', (0 <= k <= 1)%Z -> (i - 1 <= i' <= i + 1)%Z -> Q i' (b - 1 - k) = mirror_y (Q i' (b + k)).

Lemma dqf_wall_x a j : wall_x a j ->
  dqf S Q (a - 1) j = (slope_mirror (fst (dqf S Q a j)), mirror (snd (dqf S Q a j))).
Proof.
  intros HW. unfold dqf.
  replace (a - 1 + 1)%Z with a by lia.
  assert (E : forall j', (j - 1 <= j' <= j + 1)%Z -> Q (a - 1) j' = mirror (Q a j')).
  { intros j' Hj'. specialize (HW 0%Z j' ltac:(lia) Hj'). rewrite Z.sub_0_r, Z.add_0_r in HW. exact HW. }
  assert (E2 : Q (a - 1 - 1) j = mirror (Q (a + 1) j)) by (apply (HW 1%Z); lia).
  rewrite !E, E2 by lia.
  unfold slopes2. destruct (neqb (slope_type S) n0).
  { unfold slope_mirror, mirror, hzero. cbn [fst snd hd hp hu hv hw]. Rn. f_equal; apply hs_eq; cbn [hd hp hu hv hw]; ring. }
  destruct (neqb (slope_type S) n1 || neqb (slope_type S) n2).
  - cbn [fst snd]. f_equal; [apply slope2_across | apply slope2_along].
  - unfold slope_mirror, mirror, hzero. cbn [fst snd hd hp hu hv hw]. Rn. f_equal; apply hs_eq; cbn [hd hp hu hv hw]; ring.
Qed.

Lemma face_wall_x a j : wall_x a j ->
  face_state S g dt Q G (a - 1) j XMAX = mirror (face_state S g dt Q G a j XMIN).
Proof.
  intros HW. unfold face_state. rewrite Hg, (dqf_wall_x a j HW). cbn [fst snd].
  assert (E : Q (a - 1) j = mirror (Q a j)).
  { specialize (HW 0%Z j ltac:(lia) ltac:(lia)). rewrite Z.sub_0_r, Z.add_0_r in HW. exact HW. }
  rewrite E. apply trace2_mirror.
Qed.

End Field.

(** The y direction is the x direction of the transposed field. *)
Lemma dqf_swap Q i j : dqf S (fun i j => swap_uv (Q j i)) i j = (swap_uv (snd (dqf S Q j i)), swap_uv (fst (dqf S Q j i))).
Proof.
  unfold dqf. rewrite slopes2_swap. destruct (slopes2 S _ _ _ _ _) as [[dX dY]|]; reflexivity.
Qed.

(** Settings with the axes exchanged. *)
Definition swap_set : hset R :=
  mkhset (gamma0 S) (gamma6 S) (smallr S) (smallc S) (smallp S) (smallpp S) (slope_type S) (cfl S)
         (solver S) (dy S) (dx S) (dz S).
Definition swap_g (G : field2 R) : field2 R :=
  fun i j v => if (v =? IX)%Z then G j i IY else if (v =? IY)%Z then G j i IX else G j i v.
Definition swap_face (f : face) : face :=
  match f with XMIN => YMIN | XMAX => YMAX | YMIN => XMIN | YMAX => XMAX | f => f end.

Lemma face_state_swap g dt Q G i j f : (f = XMIN \/ f = XMAX \/ f = YMIN \/ f = YMAX) ->
  face_state swap_set g dt (fun i j => swap_uv (Q j i)) (swap_g G) i j f =
  swap_uv (face_state S g dt Q G j i (swap_face f)).
Proof.
  intros Hf. unfold face_state.
  assert (E : dqf swap_set (fun i j => swap_uv (Q j i)) i j = dqf S (fun i j => swap_uv (Q j i)) i j) by reflexivity.
  rewrite E, dqf_swap. cbn [fst snd].
  change (dx swap_set) with (dy S). change (dy swap_set) with (dx S).
  assert (ET : trace2 swap_set (swap_uv (Q j i)) (swap_uv (snd (dqf S Q j i))) (swap_uv (fst (dqf S Q j i))) (ndiv dt (dy S)) (ndiv dt (dx S)) f
    = swap_uv (trace2 S (Q j i) (fst (dqf S Q j i)) (snd (dqf S Q j i)) (ndiv dt (dx S)) (ndiv dt (dy S)) (swap_face f))).
  { destruct (trace2_swap (Q j i) (fst (dqf S Q j i)) (snd (dqf S Q j i)) (ndiv dt (dx S)) (ndiv dt (dy S))) as (A & B & C & D).
    destruct Hf as [->|[->|[->| ->]]]; cbn [swap_face]; assumption. }
  rewrite ET. destruct (g_enabled g && g_hancock g)%bool; reflexivity.
Qed.

Lemma FX_swap g dt Q G i j v : (0 <= v < 4)%Z ->
  FX swap_set g dt (fun i j => swap_uv (Q j i)) (swap_g G) i j v =
  FY S g dt Q G j i (if (v =? IU)%Z then IV else if (v =? IV)%Z then IU else v).
Proof.
  intros Hv. unfold FX, FY. rewrite !face_state_swap by auto. cbn [swap_face].
  rewrite (solve_same swap_set S) by (repeat split). change (dx swap_set) with (dy S). f_equal.
  assert (v = 0 \/ v = 1 \/ v = 2 \/ v = 3)%Z as [->|[->|[->| ->]]] by lia; reflexivity.
Qed.

Lemma FY_swap g dt Q G i j v : (0 <= v < 4)%Z ->
  FY swap_set g dt (fun i j => swap_uv (Q j i)) (swap_g G) i j v =
  FX S g dt Q G j i (if (v =? IU)%Z then IV else if (v =? IV)%Z then IU else v).
Proof.
  intros Hv. unfold FX, FY. rewrite !face_state_swap by auto. cbn [swap_face].
  rewrite (swap_swap (face_state S g dt Q G j i _)), (swap_swap (face_state S g dt Q G (j - 1) i _)).
  rewrite (solve_same swap_set S) by (repeat split). change (dy swap_set) with (dx S). f_equal.
  assert (v = 0 \/ v = 1 \/ v = 2 \/ v = 3)%Z as [->|[->|[->| ->]]] by lia; reflexivity.
Qed.

End Wall.

(** ** No flow through reflecting faces *)
Section WallFlux.
Variable S : hset R.
Hypothesis HS : sane S.
Hypothesis Hslope : slope_ok S.
Hypothesis Hsolver : solver_ok2 S.
Local Open Scope R_scope.

(** The flow towards the wall, of normal velocity [un], has a Mach number of at
    most 200000 / (gamma + 1); only required for the two-shock solver. *)
Definition tame (q : hs R) (un : R) : Prop :=
  solver S = R_APPROX ->
  let r := Rmax (hd q) (smallr S) in
  let p := Rmax (hp q) (r * smallp S) in
  (gamma0 S + 1) / 2 * un <= 100000 * sqrt (gamma0 S * p / r).

Lemma solve_wall q : tame q (hu q) -> no_flow (solve S q (mirror q)).
Proof.
  intros HT. unfold solve, riemann2. unfold tame in HT.
  destruct (solver S) eqn:E; try (exfalso; apply Hsolver; exact E).
  - apply approx_wall; auto.
  - apply (wall_from_mirror (riemann_llf S false)). intros; apply llf_mirror; auto.
  - apply (wall_from_mirror (riemann_hll S false)). intros; apply hll_mirror; auto.
  - apply (wall_from_mirror (riemann_hllc S false)). intros; apply hllc_mirror; auto.
Qed.

Lemma FX_wall g dt Q G a j v : (g_enabled g && g_hancock g)%bool = false ->
  wall_x Q a j -> tame (face_state S g dt Q G a j XMIN) (- hu (face_state S g dt Q G a j XMIN)) ->
  v = ID \/ v = IP \/ v = IV -> FX S g dt Q G a j v = 0.
Proof.
  intros Hg HW HT Hv. unfold FX. rewrite (face_wall_x S Hslope g Hg dt Q G a j HW).
  set (q := face_state S g dt Q G a j XMIN) in *.
  assert (HF : no_flow (solve S (mirror q) (mirror (mirror q)))).
  { apply solve_wall. unfold tame in *. intros E. specialize (HT E). exact HT. }
  rewrite mirror_mirror in HF. destruct HF as (F1 & F2 & F3 & F4).
  assert (E : hget (solve S (mirror q) q) v = 0) by (destruct Hv as [->|[->| ->]]; assumption).
  rewrite E. Rn. ring.
Qed.

Lemma wall_x_inner g dt Q G a j : (g_enabled g && g_hancock g)%bool = false -> wall_x Q a j ->
  forall un, un = hu (face_state S g dt Q G (a - 1) j XMAX) ->
  tame (face_state S g dt Q G (a - 1) j XMAX) un ->
  tame (face_state S g dt Q G a j XMIN) (- hu (face_state S g dt Q G a j XMIN)).
Proof.
  intros Hg HW un -> HT. rewrite (face_wall_x S Hslope g Hg dt Q G a j HW) in HT. exact HT.
Qed.

Lemma swap_sane : sane (swap_set S).
Proof. exact HS. Qed.

End WallFlux.

Section WallFluxY.
Variable S : hset R.
Hypothesis HS : sane S.
Hypothesis Hslope : slope_ok S.
Hypothesis Hsolver : solver_ok2 S.
Local Open Scope R_scope.

Lemma FY_as_FX g dt Q G i j v : (0 <= v < 4)%Z ->
  FY S g dt Q G i j v =
  FX (swap_set S) g dt (fun i j => swap_uv (Q j i)) (swap_g G) j i (if (v =? IU)%Z then IV else if (v =? IV)%Z then IU else v).
Proof.
  intros Hv. rewrite FX_swap.
  - f_equal. assert (v = 0 \/ v = 1 \/ v = 2 \/ v = 3)%Z as [->|[->|[->| ->]]] by lia; reflexivity.
  - unfold IU, IV. destruct (v =? 2)%Z, (v =? 3)%Z; lia.
Qed.

Lemma wall_y_swap Q i b : wall_y Q i b -> wall_x (fun i j => swap_uv (Q j i)) b i.
Proof. intros HW k j' Hk Hj'. rewrite (HW k j' Hk Hj'). reflexivity. Qed.

Lemma FY_wall g dt Q G i b v : (g_enabled g && g_hancock g)%bool = false ->
  wall_y Q i b -> tame S (face_state S g dt Q G i b YMIN) (- hv (face_state S g dt Q G i b YMIN)) ->
  v = ID \/ v = IP \/ v = IU -> FY S g dt Q G i b v = 0.
Proof.
  intros Hg HW HT Hv. rewrite FY_as_FX by (destruct Hv as [->|[->| ->]]; unfold ID, IP, IU; lia).
  apply FX_wall; auto.
  - apply wall_y_swap; auto.
  - rewrite face_state_swap by auto. exact HT.
  - destruct Hv as [->|[->| ->]]; cbn; auto.
Qed.

Lemma wall_y_inner g dt Q G i b : (g_enabled g && g_hancock g)%bool = false -> wall_y Q i b ->
  forall un, un = hv (face_state S g dt Q G i (b - 1) YMAX) ->
  tame S (face_state S g dt Q G i (b - 1) YMAX) un ->
  tame S (face_state S g dt Q G i b YMIN) (- hv (face_state S g dt Q G i b YMIN)).
Proof.
  intros Hg HW un -> HT.
  pose proof (wall_x_inner (swap_set S) Hslope g dt _ (swap_g G) b i Hg (wall_y_swap Q i b HW)) as HH.
  rewrite !face_state_swap in HH by auto. cbn [swap_face] in HH.
  exact (HH _ eq_refl HT).
Qed.
End WallFluxY.

(** ** The ghost-filled field is mirror symmetric about a reflecting face *)
Section MirrorField.
Variable m : mesh.
Variable S : hset R.
Hypothesis Hwide : wide2 m.
Hypothesis Hgw : 2 <= gw m.
Local Open Scope R_scope.

Lemma negate_R (x : R) : negate x = - x.
Proof. unfold negate. Rn. lra. Qed.

Lemma prim2_mirror u : fst (prim2 S (mirror u)) = mirror (fst (prim2 S u)).
Proof.
  unfold prim2, mirror, mk2. cbv zeta. cbn [fst hd hp hu hv hw]. Rn.
  apply hs_eq; cbn [hd hp hu hv hw]; auto.
  - f_equal. unfold Rdiv. ring.
  - unfold Rdiv. ring.
Qed.
Lemma prim2_mirror_y u : fst (prim2 S (mirror_y u)) = mirror_y (fst (prim2 S u)).
Proof.
  unfold prim2, mirror_y, mk2. cbv zeta. cbn [fst hd hp hu hv hw]. Rn.
  apply hs_eq; cbn [hd hp hu hv hw]; auto.
  - f_equal. unfold Rdiv. ring.
  - unfold Rdiv. ring.
Qed.

Lemma odd_x_hydro mhd v : (0 <= v < 4)%Z -> odd_x mhd v = (v =? 2)%Z.
Proof. intros H. unfold odd_x. destruct mhd, (v =? 2)%Z; simpl; auto; lia. Qed.
Lemma odd_y_hydro mhd v : (0 <= v < 4)%Z -> odd_y mhd v = (v =? 3)%Z.
Proof. intros H. unfold odd_y. destruct mhd, (v =? 3)%Z; simpl; auto; lia. Qed.

Ltac split_flip :=
  rewrite ?odd_x_hydro, ?odd_y_hydro by (unfold ID, IP, IU, IV; lia);
  unfold flip_if, ID, IP, IU, IV; cbn [Z.eqb Pos.eqb]; rewrite ?andb_false_r, ?andb_true_r; cbn [andb];
  repeat match goal with |- context [if ?b then _ else _] => destruct b end; rewrite ?negate_R; ring.

Lemma extend_wall_lo_x u k j : kind_of (bc m XMIN) = Reflecting -> (0 <= k < gw m)%Z ->
  cell_state (extend m u) (gw m - 1 - k) j = mirror (cell_state (extend m u) (gw m + k) j).
Proof.
  intros HK Hk. pose proof Hwide as (_ & _ & (A & [B|B]) & _); [congruence|].
  unfold cell_state, mirror, mk2. apply hs_eq; cbn [hd hp hu hv hw]; auto;
  unfold extend, image_x, mirrored_x, image, mirrored; rewrite HK;
  (destruct (gw m - 1 - k <? gw m)%Z eqn:E1; [|lia]);
  (destruct (gw m + k <? gw m)%Z eqn:E2; [lia|]);
  (destruct (nx m + gw m <=? gw m + k)%Z eqn:E3; [lia|]);
  replace (2 * gw m - 1 - (gw m - 1 - k))%Z with (gw m + k)%Z by lia; split_flip.
Qed.

Lemma extend_wall_hi_x u k j : kind_of (bc m XMAX) = Reflecting -> (0 <= k < gw m)%Z ->
  cell_state (extend m u) (gw m + nx m - 1 - k) j = mirror (cell_state (extend m u) (gw m + nx m + k) j).
Proof.
  intros HK Hk. pose proof Hwide as (_ & _ & _ & (A & [B|B]) & _); [congruence|].
  unfold cell_state, mirror, mk2. apply hs_eq; cbn [hd hp hu hv hw]; auto;
  unfold extend, image_x, mirrored_x, image, mirrored; rewrite HK;
  (destruct (gw m + nx m - 1 - k <? gw m)%Z eqn:E1; [lia|]);
  (destruct (gw m + nx m + k <? gw m)%Z eqn:E2; [lia|]);
  (destruct (nx m + gw m <=? gw m + nx m + k)%Z eqn:E3; [|lia]);
  (destruct (nx m + gw m <=? gw m + nx m - 1 - k)%Z eqn:E4; [lia|]);
  replace (2 * (nx m + gw m) - 1 - (gw m + nx m + k))%Z with (gw m + nx m - 1 - k)%Z by lia; split_flip.
Qed.

Lemma extend_wall_lo_y u k i : kind_of (bc m YMIN) = Reflecting -> (0 <= k < gw m)%Z ->
  cell_state (extend m u) i (gw m - 1 - k) = mirror_y (cell_state (extend m u) i (gw m + k)).
Proof.
  intros HK Hk. pose proof Hwide as (_ & _ & _ & _ & (A & [B|B]) & _); [congruence|].
  unfold cell_state, mirror_y, mk2. apply hs_eq; cbn [hd hp hu hv hw]; auto;
  unfold extend, image_y, mirrored_y, image, mirrored; rewrite HK;
  (destruct (gw m - 1 - k <? gw m)%Z eqn:E1; [|lia]);
  (destruct (gw m + k <? gw m)%Z eqn:E2; [lia|]);
  (destruct (ny m + gw m <=? gw m + k)%Z eqn:E3; [lia|]);
  replace (2 * gw m - 1 - (gw m - 1 - k))%Z with (gw m + k)%Z by lia; split_flip.
Qed.

Lemma extend_wall_hi_y u k i : kind_of (bc m YMAX) = Reflecting -> (0 <= k < gw m)%Z ->
  cell_state (extend m u) i (gw m + ny m - 1 - k) = mirror_y (cell_state (extend m u) i (gw m + ny m + k)).
Proof.
  intros HK Hk. pose proof Hwide as (_ & _ & _ & _ & _ & (A & [B|B])); [congruence|].
  unfold cell_state, mirror_y, mk2. apply hs_eq; cbn [hd hp hu hv hw]; auto;
  unfold extend, image_y, mirrored_y, image, mirrored; rewrite HK;
  (destruct (gw m + ny m - 1 - k <? gw m)%Z eqn:E1; [lia|]);
  (destruct (gw m + ny m + k <? gw m)%Z eqn:E2; [lia|]);
  (destruct (ny m + gw m <=? gw m + ny m + k)%Z eqn:E3; [|lia]);
  (destruct (ny m + gw m <=? gw m + ny m - 1 - k)%Z eqn:E4; [lia|]);
  replace (2 * (ny m + gw m) - 1 - (gw m + ny m + k))%Z with (gw m + ny m - 1 - k)%Z by lia; split_flip.
Qed.

Lemma wall_lo_x u j : kind_of (bc m XMIN) = Reflecting -> wall_x (Qf S (extend m u)) (gw m) j.
Proof.
  intros HK k j' Hk _. unfold Qf. rewrite extend_wall_lo_x by (auto; lia). apply prim2_mirror.
Qed.
Lemma wall_hi_x u j : kind_of (bc m XMAX) = Reflecting -> wall_x (Qf S (extend m u)) (gw m + nx m) j.
Proof.
  intros HK k j' Hk _. unfold Qf. rewrite extend_wall_hi_x by (auto; lia). apply prim2_mirror.
Qed.
Lemma wall_lo_y u i : kind_of (bc m YMIN) = Reflecting -> wall_y (Qf S (extend m u)) i (gw m).
Proof.
  intros HK k i' Hk _. unfold Qf. rewrite extend_wall_lo_y by (auto; lia). apply prim2_mirror_y.
Qed.
Lemma wall_hi_y u i : kind_of (bc m YMAX) = Reflecting -> wall_y (Qf S (extend m u)) i (gw m + ny m).
Proof.
  intros HK k i' Hk _. unfold Qf. rewrite extend_wall_hi_y by (auto; lia). apply prim2_mirror_y.
Qed.

End MirrorField.

(** ** Totals *)
Section Conserve.
Variable m : mesh.
Variable S : hset R.
Variable g : gravp.
Hypothesis Hwide : wide2 m.
Hypothesis Hgw : 2 <= gw m.
Hypothesis Hg : g_enabled g = false.

Lemma nx_pos : 1 <= nx m. Proof. pose proof Hwide as (_ & _ & (A & _) & _). exact A. Qed.
Lemma ny_pos : 1 <= ny m. Proof. pose proof Hwide as (_ & _ & _ & _ & (A & _) & _). exact A. Qed.

Lemma conserve_periodic dt u G v : periodic_x m -> periodic_y m ->
  total2 m (step2 S g dt (extend m u) G) v = total2 m u v.
Proof.
  intros PX PY. pose proof nx_pos. pose proof ny_pos.
  rewrite balance2 by (auto; lia). cbv zeta.
  rewrite (sumz_zero (gw m) (ny m)), (sumz_zero (gw m) (nx m)); [lra| |].
  - intros i Hi. rewrite flux_periodic_y by (auto; unfold physical; lia). lra.
  - intros j Hj. rewrite flux_periodic_x by (auto; unfold physical; lia). lra.
Qed.

Lemma conserve_periodic_run dts : forall u G v, periodic_x m -> periodic_y m ->
  total2 m (run_spec m S g G dts u) v = total2 m u v.
Proof.
  induction dts as [|dt dts IH]; intros u G v PX PY; cbn [run_spec]; auto.
  rewrite IH by auto. apply conserve_periodic; auto.
Qed.

(** Each axis is periodic or has a wall at both ends. *)
Definition closed_x : Prop :=
  periodic_x m \/ (kind_of (bc m XMIN) = Reflecting /\ kind_of (bc m XMAX) = Reflecting).
Definition closed_y : Prop :=
  periodic_y m \/ (kind_of (bc m YMIN) = Reflecting /\ kind_of (bc m YMAX) = Reflecting).

(** The flow onto every wall is tame (no condition unless the two-shock solver is used). *)
Definition calm (dt : R) (u G : field2 R) : Prop :=
  let fs := face_state S g dt (Qf S (extend m u)) G in
  (forall j, physical (ny m) (gw m) j ->
     tame S (fs (gw m) j XMIN) (- hu (fs (gw m) j XMIN)) /\
     tame S (fs (gw m + nx m - 1) j XMAX) (hu (fs (gw m + nx m - 1) j XMAX))) /\
  (forall i, physical (nx m) (gw m) i ->
     tame S (fs i (gw m) YMIN) (- hv (fs i (gw m) YMIN)) /\
     tame S (fs i (gw m + ny m - 1) YMAX) (hv (fs i (gw m + ny m - 1) YMAX))).

Fixpoint calm_run (G : field2 R) (dts : list R) (u : field2 R) : Prop :=
  match dts with
  | [] => True
  | dt :: dts' => calm dt u G /\ calm_run G dts' (step2 S g dt (extend m u) G)
  end.

Lemma calm_no_approx dt u G : solver S <> R_APPROX -> calm dt u G.
Proof. intros Hn. unfold calm, tame. repeat split; intros; contradiction. Qed.
Lemma calm_run_no_approx G dts : forall u, solver S <> R_APPROX -> calm_run G dts u.
Proof. induction dts; intros; simpl; auto using calm_no_approx. Qed.

Hypothesis HS : sane S.
Hypothesis Hslope : slope_ok S.
Hypothesis Hsolver : solver_ok2 S.

Lemma Hg2 : (g_enabled g && g_hancock g)%bool = false. Proof. rewrite Hg. reflexivity. Qed.

(** Fluxes of mass, energy and transverse momentum through the walls vanish. *)
Lemma wall_fluxes dt u G : calm dt u G ->
  let Q := Qf S (extend m u) in
  (forall j v, physical (ny m) (gw m) j -> v = ID \/ v = IP \/ v = IV ->
     (kind_of (bc m XMIN) = Reflecting -> FX S g dt Q G (gw m) j v = 0%R) /\
     (kind_of (bc m XMAX) = Reflecting -> FX S g dt Q G (gw m + nx m) j v = 0%R)) /\
  (forall i v, physical (nx m) (gw m) i -> v = ID \/ v = IP \/ v = IU ->
     (kind_of (bc m YMIN) = Reflecting -> FY S g dt Q G i (gw m) v = 0%R) /\
     (kind_of (bc m YMAX) = Reflecting -> FY S g dt Q G i (gw m + ny m) v = 0%R)).
Proof.
  intros [CX CY] Q. pose proof Hg2 as Hgg. split.
  - intros j v Hj Hv. destruct (CX j Hj) as [C1 C2]. split; intros HK.
    + apply FX_wall; auto. apply wall_lo_x; auto.
    + assert (HW : wall_x Q (gw m + nx m) j) by (apply wall_hi_x; auto).
      apply FX_wall; auto. eapply wall_x_inner; eauto.
  - intros i v Hi Hv. destruct (CY i Hi) as [C1 C2]. split; intros HK.
    + apply FY_wall; auto. apply wall_lo_y; auto.
    + assert (HW : wall_y Q i (gw m + ny m)) by (apply wall_hi_y; auto).
      apply FY_wall; auto. eapply wall_y_inner; eauto.
Qed.

Lemma conserve_closed dt u G v : closed_x -> closed_y -> calm dt u G -> v = ID \/ v = IP ->
  total2 m (step2 S g dt (extend m u) G) v = total2 m u v.
Proof.
  intros PX PY HC Hv. pose proof nx_pos. pose proof ny_pos.
  destruct (wall_fluxes dt u G HC) as [WX WY].
  rewrite balance2 by (auto; lia). cbv zeta.
  rewrite (sumz_zero (gw m) (ny m)), (sumz_zero (gw m) (nx m)); [lra| |].
  - intros i Hi. destruct PY as [PY|[P1 P2]].
    + rewrite flux_periodic_y by (auto; unfold physical; lia). lra.
    + destruct (WY i v) as [W1 W2]; [unfold physical; lia | tauto |]. rewrite W1, W2 by auto. lra.
  - intros j Hj. destruct PX as [PX|[P1 P2]].
    + rewrite flux_periodic_x by (auto; unfold physical; lia). lra.
    + destruct (WX j v) as [W1 W2]; [unfold physical; lia | tauto |]. rewrite W1, W2 by auto. lra.
Qed.

Lemma conserve_closed_run dts : forall u G v, closed_x -> closed_y -> calm_run G dts u -> v = ID \/ v = IP ->
  total2 m (run_spec m S g G dts u) v = total2 m u v.
Proof.
  induction dts as [|dt dts IH]; intros u G v PX PY HC Hv; cbn [run_spec]; auto.
  destruct HC as [C1 C2]. rewrite IH by auto. apply conserve_closed; auto.
Qed.

End Conserve.

(** ** Uniform states *)
Section Uniform.
Variable m : mesh.
Variable S : hset R.
Variable g : gravp.
Hypothesis Hwide : wide2 m.
Hypothesis Hgw : 2 <= gw m.
Hypothesis Hg : g_enabled g = false.
(** No reflecting face. *)
Hypothesis Hopen : forall f, kind_of (bc m f) <> Reflecting.

Definition uniform (c : Z -> R) (u : field2 R) : Prop :=
  forall i j v, phys2 m i j -> 0 <= v < 4 -> u i j v = c v.

Lemma extend_uniform c u i j v : uniform c u -> cell2 m i j -> 0 <= v < 4 -> extend m u i j v = c v.
Proof.
  intros HU Hc Hv. unfold extend.
  assert (F1 : mirrored_x m i = false).
  { pose proof (Hopen XMIN). pose proof (Hopen XMAX). unfold mirrored_x, mirrored.
    destruct (i <? gw m), (nx m + gw m <=? i), (kind_of (bc m XMIN)), (kind_of (bc m XMAX)); congruence. }
  assert (F2 : mirrored_y m j = false).
  { pose proof (Hopen YMIN). pose proof (Hopen YMAX). unfold mirrored_y, mirrored.
    destruct (j <? gw m), (ny m + gw m <=? j), (kind_of (bc m YMIN)), (kind_of (bc m YMAX)); congruence. }
  rewrite F1, F2. simpl. apply HU; auto. apply image_phys2; auto.
Qed.

Lemma step_uniform dt c u G : uniform c u -> uniform c (step2 S g dt (extend m u) G).
Proof.
  intros HU i j v Hp Hv.
  rewrite (step2_stencil S g dt (extend m u) (fun _ _ v => c v) G G).
  - assert (Ef : forall i j i' j' f, face_state S g dt (Qf S (fun _ _ v => c v)) G i j f =
                                     face_state S g dt (Qf S (fun _ _ v => c v)) G i' j' f).
    { intros. unfold face_state. rewrite Hg. reflexivity. }
    unfold step2, adv2. rewrite Hg. unfold FX, FY. Rn.
    rewrite (Ef (i + 1 - 1) j (i - 1) j), (Ef (i + 1) j i j), (Ef i (j + 1 - 1) i (j - 1)), (Ef i (j + 1) i j).
    ring.
  - intros. apply extend_uniform; auto. destruct Hp as [Hp1 Hp2]. unfold cell2, physical in *. lia.
  - auto.
  - auto.
Qed.

Lemma run_uniform dts : forall c u G, uniform c u -> uniform c (run_spec m S g G dts u).
Proof. induction dts as [|dt dts IH]; intros; cbn [run_spec]; auto. apply IH. apply step_uniform; auto. Qed.
End Uniform.

(** ** Translations of a periodic box *)
Section Translate.
Context {T : Type} {N : Num T}.
Variable m : mesh.
Variable S : hset T.
Variable g : gravp.
Hypothesis Hwide : wide2 m.
Hypothesis Hgw : 2 <= gw m.
Hypothesis PX : periodic_x m.
Hypothesis PY : periodic_y m.

(** Position modulo the period. *)
Definition wrap_x (i : Z) : Z := gw m + (i - gw m) mod (nx m).
Definition wrap_y (j : Z) : Z := gw m + (j - gw m) mod (ny m).

(** Cyclic shift by (a, b) cells. *)
Definition shift2 (a b : Z) (u : field2 T) : field2 T := fun i j v => u (wrap_x (i + a)) (wrap_y (j + b)) v.

Definition per (u : field2 T) : field2 T := fun i j v => u (wrap_x i) (wrap_y j) v.

Lemma wrap_x_phys i : physical (nx m) (gw m) (wrap_x i).
Proof.
  destruct (periodic_x_wide m Hwide Hgw PX). unfold physical, wrap_x.
  pose proof (Z.mod_pos_bound (i - gw m) (nx m) ltac:(lia)). lia.
Qed.
Lemma wrap_y_phys j : physical (ny m) (gw m) (wrap_y j).
Proof.
  destruct (periodic_y_wide m Hwide Hgw PY). unfold physical, wrap_y.
  pose proof (Z.mod_pos_bound (j - gw m) (ny m) ltac:(lia)). lia.
Qed.
Lemma wrap_x_add i a : wrap_x (wrap_x i + a) = wrap_x (i + a).
Proof.
  destruct (periodic_x_wide m Hwide Hgw PX). unfold wrap_x. f_equal.
  replace (gw m + (i - gw m) mod nx m + a - gw m) with ((i - gw m) mod nx m + a) by lia.
  rewrite Zplus_mod_idemp_l. f_equal. lia.
Qed.
Lemma wrap_y_add j a : wrap_y (wrap_y j + a) = wrap_y (j + a).
Proof.
  destruct (periodic_y_wide m Hwide Hgw PY). unfold wrap_y. f_equal.
  replace (gw m + (j - gw m) mod ny m + a - gw m) with ((j - gw m) mod ny m + a) by lia.
  rewrite Zplus_mod_idemp_l. f_equal. lia.
Qed.
Lemma wrap_x_idem i : wrap_x (wrap_x i) = wrap_x i.
Proof. rewrite <- (Z.add_0_r (wrap_x i)) at 1. rewrite wrap_x_add, Z.add_0_r. reflexivity. Qed.
Lemma wrap_y_idem i : wrap_y (wrap_y i) = wrap_y i.
Proof. rewrite <- (Z.add_0_r (wrap_y i)) at 1. rewrite wrap_y_add, Z.add_0_r. reflexivity. Qed.

Lemma image_wrap_x i : 0 <= i < nx m + 2 * gw m -> image_x m i = wrap_x i /\ mirrored_x m i = false.
Proof.
  intros Hi. destruct (periodic_x_wide m Hwide Hgw PX). destruct PX as [P1 P2].
  unfold image_x, mirrored_x, image, mirrored, wrap_x. rewrite P1, P2. split.
  - destruct (i <? gw m) eqn:E1.
    + rewrite <- (Z_mod_plus (i - gw m) 1 (nx m)) by lia. rewrite Z.mod_small; lia.
    + destruct (nx m + gw m <=? i) eqn:E2.
      * rewrite <- (Z_mod_plus (i - gw m) (-1) (nx m)) by lia. rewrite Z.mod_small; lia.
      * rewrite Z.mod_small; lia.
  - destruct (i <? gw m), (nx m + gw m <=? i); auto.
Qed.
Lemma image_wrap_y j : 0 <= j < ny m + 2 * gw m -> image_y m j = wrap_y j /\ mirrored_y m j = false.
Proof.
  intros Hi. destruct (periodic_y_wide m Hwide Hgw PY). destruct PY as [P1 P2].
  unfold image_y, mirrored_y, image, mirrored, wrap_y. rewrite P1, P2. split.
  - destruct (j <? gw m) eqn:E1.
    + rewrite <- (Z_mod_plus (j - gw m) 1 (ny m)) by lia. rewrite Z.mod_small; lia.
    + destruct (ny m + gw m <=? j) eqn:E2.
      * rewrite <- (Z_mod_plus (j - gw m) (-1) (ny m)) by lia. rewrite Z.mod_small; lia.
      * rewrite Z.mod_small; lia.
  - destruct (j <? gw m), (ny m + gw m <=? j); auto.
Qed.

Lemma extend_per u i j v : cell2 m i j -> extend m u i j v = per u i j v.
Proof.
  intros [Hi Hj]. unfold extend, per.
  destruct (image_wrap_x i Hi) as [-> ->]. destruct (image_wrap_y j Hj) as [-> ->]. reflexivity.
Qed.

Lemma per_shift a b u i j v : per (shift2 a b u) i j v = per u (i + a) (j + b) v.
Proof. unfold per, shift2. rewrite wrap_x_add, wrap_y_add. reflexivity. Qed.

(** The acceleration field is periodic, ghost cells included. *)
Definition periodic_G (G : field2 T) : Prop := forall i j v, cell2 m i j -> G i j v = per G i j v.

Lemma step_per dt u G i j v : periodic_G G -> phys2 m i j -> 0 <= v < 4 ->
  step2 S g dt (extend m u) G i j v = step2 S g dt (per u) (per G) i j v.
Proof.
  intros HG [Hi Hj] Hv. unfold physical in *. apply step2_stencil; auto.
  - intros. apply extend_per. unfold cell2. lia.
  - intros. apply HG. unfold cell2. lia.
Qed.

Lemma step_per_wrap dt u G i j v : 0 <= v < 4 ->
  step2 S g dt (per u) (per G) i j v = step2 S g dt (per u) (per G) (wrap_x i) (wrap_y j) v.
Proof.
  intros Hv. replace (wrap_x i) with (i + (wrap_x i - i)) at 1 by lia.
  replace (wrap_y j) with (j + (wrap_y j - j)) at 1 by lia.
  rewrite <- step2_shift.
  assert (EX : forall i', wrap_x (i' + (wrap_x i - i)) = wrap_x i').
  { intros i'. replace (i' + (wrap_x i - i)) with (wrap_x i + (i' - i)) by lia. rewrite wrap_x_add. f_equal. lia. }
  assert (EY : forall j', wrap_y (j' + (wrap_y j - j)) = wrap_y j').
  { intros j'. replace (j' + (wrap_y j - j)) with (wrap_y j + (j' - j)) by lia. rewrite wrap_y_add. f_equal. lia. }
  apply step2_stencil; auto; intros; unfold per; rewrite EX, EY; reflexivity.
Qed.

(** Shifting and stepping commute. *)
Lemma step_translate dt u G a b : periodic_G G ->
  same_phys m (step2 S g dt (extend m (shift2 a b u)) (shift2 a b G))
              (shift2 a b (step2 S g dt (extend m u) G)).
Proof.
  intros HG i j v Hp Hv.
  rewrite step_per; auto.
  - unfold shift2 at 3. rewrite step_per; auto.
    + rewrite <- step_per_wrap by auto. rewrite <- step2_shift.
      apply step2_stencil; auto; intros; apply per_shift.
    + split; [apply wrap_x_phys | apply wrap_y_phys].
  - intros i' j' v' Hc. rewrite per_shift. reflexivity.
Qed.

Lemma shift_ext a b u1 u2 : same_phys m u1 u2 -> same_phys m (shift2 a b u1) (shift2 a b u2).
Proof. intros H i j v Hp Hv. apply H; auto. split; [apply wrap_x_phys | apply wrap_y_phys]. Qed.

Lemma run_translate dts : forall u G a b, periodic_G G ->
  same_phys m (run_spec m S g (shift2 a b G) dts (shift2 a b u)) (shift2 a b (run_spec m S g G dts u)).
Proof.
  induction dts as [|dt dts IH]; intros u G a b HG; cbn [run_spec].
  - intros i j v _ _. reflexivity.
  - intros i j v Hp Hv. rewrite <- IH by auto.
    apply run_spec_ext; auto. apply step_translate; auto.
Qed.
End Translate.

(** ** Exchange of the axes *)
Section Transpose.
Local Open Scope R_scope.

Definition swap_var (v : Z) : Z := if (v =? IU)%Z then IV else if (v =? IV)%Z then IU else v.

Definition transpose (u : field2 R) : field2 R := fun i j v => u j i (swap_var v).

Definition swap_mesh (m : mesh) : mesh :=
  mkmesh (ny m) (nx m) (nz m) (gw m) (nbvar m) (p_mhd m) (fun f => bc m (swap_face f)).

Variable m : mesh.
Variable S : hset R.
Variable g : gravp.

Lemma swap_var_range v : (0 <= v < 4)%Z -> (0 <= swap_var v < 4)%Z.
Proof. intros. unfold swap_var, IU, IV. destruct (v =? 2)%Z, (v =? 3)%Z; lia. Qed.

Lemma extend_transpose u i j v : (0 <= v < 4)%Z ->
  extend (swap_mesh m) (transpose u) i j v = transpose (extend m u) i j v.
Proof.
  intros Hv. unfold transpose, extend.
  change (image_x (swap_mesh m) i) with (image_y m i). change (image_y (swap_mesh m) j) with (image_x m j).
  change (mirrored_x (swap_mesh m) i) with (mirrored_y m i). change (mirrored_y (swap_mesh m) j) with (mirrored_x m j).
  rewrite !odd_x_hydro, !odd_y_hydro by (auto using swap_var_range).
  unfold flip_if, swap_var, IU, IV.
  assert (v = 0 \/ v = 1 \/ v = 2 \/ v = 3)%Z as [->|[->|[->| ->]]] by lia; cbn [Z.eqb Pos.eqb];
  rewrite ?andb_false_r, ?andb_true_r; reflexivity.
Qed.

Lemma prim2_swap u : fst (prim2 S (swap_uv u)) = swap_uv (fst (prim2 S u)).
Proof.
  unfold prim2, swap_uv, mk2. cbv zeta. cbn [fst hd hp hu hv hw]. Rn.
  apply hs_eq; cbn [hd hp hu hv hw]; auto. f_equal. ring.
Qed.

Lemma Qf_transpose U i j : Qf (swap_set S) (transpose U) i j = swap_uv (Qf S U j i).
Proof.
  unfold Qf. rewrite <- prim2_swap. reflexivity.
Qed.

Lemma FX_transpose dt U G i j v : (0 <= v < 4)%Z ->
  FX (swap_set S) g dt (Qf (swap_set S) (transpose U)) (swap_g G) i j v = FY S g dt (Qf S U) G j i (swap_var v).
Proof.
  intros Hv. unfold swap_var. rewrite <- (FX_swap S) by auto.
  apply FX_ext; auto. intros. apply Qf_transpose.
Qed.
Lemma FY_transpose dt U G i j v : (0 <= v < 4)%Z ->
  FY (swap_set S) g dt (Qf (swap_set S) (transpose U)) (swap_g G) i j v = FX S g dt (Qf S U) G j i (swap_var v).
Proof.
  intros Hv. unfold swap_var. rewrite <- (FY_swap S) by auto.
  apply FY_ext; auto. intros. apply Qf_transpose.
Qed.

Lemma adv_transpose dt U G i j v : (0 <= v < 4)%Z ->
  adv2 (swap_set S) g dt (transpose U) (swap_g G) i j v = adv2 S g dt U G j i (swap_var v).
Proof.
  intros Hv. unfold adv2. rewrite !FX_transpose, !FY_transpose by auto. unfold transpose at 1. Rn. ring.
Qed.

Lemma step_transpose dt U G i j v : (0 <= v < 4)%Z ->
  step2 (swap_set S) g dt (transpose U) (swap_g G) i j v = transpose (step2 S g dt U G) i j v.
Proof.
  intros Hv. unfold transpose at 2. unfold step2. destruct (g_enabled g).
  - unfold grav_source. rewrite !adv_transpose by (auto; unfold ID, IU, IV, IE; lia).
    assert (v = 0 \/ v = 1 \/ v = 2 \/ v = 3)%Z as [->|[->|[->| ->]]] by lia;
    unfold swap_var, ID, IU, IV, IE, IX, IY, swap_g, transpose; cbn [Z.eqb Pos.eqb]; Rn; auto.
    change (smallr (swap_set S)) with (smallr S).
    cbv beta iota delta [Z.eqb Pos.eqb swap_var IX IY IU IV ID IE]. unfold Rdiv; ring.
  - apply adv_transpose. auto.
Qed.

Lemma wide2_swap : wide2 m -> wide2 (swap_mesh m).
Proof. intros (H1 & H2 & H3 & H4 & H5 & H6). repeat split; try apply H3; try apply H4; try apply H5; try apply H6; auto. Qed.

Lemma run_transpose dts : forall u G, wide2 m -> (2 <= gw m)%Z ->
  same_phys (swap_mesh m) (run_spec (swap_mesh m) (swap_set S) g (swap_g G) dts (transpose u))
                          (transpose (run_spec m S g G dts u)).
Proof.
  induction dts as [|dt dts IH]; intros u G Hw Hgw; cbn [run_spec].
  - intros i j v _ _. reflexivity.
  - intros i j v Hp Hv. rewrite <- IH by auto.
    apply run_spec_ext; auto using wide2_swap.
    intros i' j' v' Hp' Hv'. rewrite <- step_transpose by auto.
    apply step2_stencil; auto. intros. apply extend_transpose; auto.
Qed.
End Transpose.
