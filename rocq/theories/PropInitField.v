(** * C54: initial magnetic fields have no divergence, and keep none *)
From Coq Require Import ZArith List Bool String Lia ZifyBool Reals Lra Psatz.
From Verif Require Import Num Exec ExecFacts Grid GridFacts HydroNum HydroPhysics MhdNum Kernels Boundaries BoundariesSpec
  Hydro2D Hydro3D Mhd2D Mhd3D Hydro2DSpec Hydro3DSpec Mhd2DSpec Mhd3DSpec Hydro2DRun Hydro3DRun Hydro2DLaws Hydro3DLaws Mhd2DRun Mhd3DRun Mhd2DLaws Mhd3DLaws
  MhdMachine Mhd3DMachine PropPhysics PropHydro2D PropHydro3D PropMhd2D PropMhd3D PropMhdDriver PropMhd3DDriver
  Params Init InitFacts InitSpec PropInit PropInitHydro.
Import ListNotations.
Local Open Scope Z_scope.

(** The problems whose field is constant along its own direction.  For blast and implode:
    when the parameters give the same field on both sides. *)
Definition same_field {T} (a b : gas T) : Prop := g_bx a = g_bx b /\ g_by a = g_by b /\ g_bz a = g_bz b.
Definition straight2 {T} (Q : problems T) (p : problem) : Prop :=
  match p with
  | Blast => b_bxin (p_blast Q) = b_bxout (p_blast Q) /\ b_byin (p_blast Q) = b_byout (p_blast Q) /\
             b_bzin (p_blast Q) = b_bzout (p_blast Q)
  | Implode => same_field (i_out (p_implode Q)) (i_in (p_implode Q))
  | BrioWu => 0 <= w_dir (p_briowu Q) < 2
  | KelvinHelmholtz => kh_on_mhd (p_kh Q) = true
  | OrszagTang | Rotor => True
  | _ => False
  end.
Definition straight3 {T} (Q : problems T) (p : problem) : Prop :=
  match p with
  | BrioWu => 0 <= w_dir (p_briowu Q) < 3
  | KelvinHelmholtz => kh_on_mhd (p_kh Q) = true /\ k_rand (p_kh Q) = false
  | OrszagTang => 0 <= o_dir (p_ot Q) < 3
  | _ => straight2 Q p
  end.

Section Straight.
Context {T : Type} {N : Num T}.
Variables (L : mlib T) (m : mesh) (S : hset T) (B : box T) (rnd : nat -> Z -> Z -> Z -> T) (Q : problems T).

Ltac pick := repeat match goal with
  | |- context [if ?b then _ else _] => destruct b
  end; try reflexivity.

(** In any arithmetic. *)
Lemma straight_x2 p i i' j old old' : straight2 Q p ->
  assign (mhd_stores2 L m S B rnd Q p i j) IA old = assign (mhd_stores2 L m S B rnd Q p i' j) IA old'.
Proof.
  intros Hs. destruct p; cbn [straight2 mhd_stores2] in *; try tauto; try reflexivity.
  - destruct Hs as (E & _ & _). unfold mimplode2. asg. pick; congruence.
  - destruct Hs as (E & _ & _). unfold mblast2, mblast_state. pick; asg; congruence.
  - unfold kh_on_mhd in Hs. unfold mkh2, mkh_state2.
    destruct (k_rand (p_kh Q)); [reflexivity|]. destruct (k_rob (p_kh Q)); [reflexivity|].
    destruct (k_sine (p_kh Q)); [reflexivity|discriminate Hs].
  - unfold briowu2. assert (w_dir (p_briowu Q) = 0 \/ w_dir (p_briowu Q) = 1) as [-> | ->] by lia.
    + change (0 =? 0) with true. cbv iota. pick.
    + change (1 =? 0) with false. cbv iota. destruct (_ <=? _)%num; reflexivity.
  - unfold rotor2. pick.
Qed.
Lemma straight_y2 p i j j' old old' : straight2 Q p ->
  assign (mhd_stores2 L m S B rnd Q p i j) IB old = assign (mhd_stores2 L m S B rnd Q p i j') IB old'.
Proof.
  intros Hs. destruct p; cbn [straight2 mhd_stores2] in *; try tauto; try reflexivity.
  - destruct Hs as (_ & E & _). unfold mimplode2. asg. pick; congruence.
  - destruct Hs as (_ & E & _). unfold mblast2, mblast_state. pick; asg; congruence.
  - unfold kh_on_mhd in Hs. unfold mkh2, mkh_state2.
    destruct (k_rand (p_kh Q)); [reflexivity|]. destruct (k_rob (p_kh Q)); [reflexivity|].
    destruct (k_sine (p_kh Q)); [reflexivity|discriminate Hs].
  - unfold briowu2. assert (w_dir (p_briowu Q) = 0 \/ w_dir (p_briowu Q) = 1) as [-> | ->] by lia.
    + change (0 =? 0) with true. cbv iota. destruct (_ <=? _)%num; reflexivity.
    + change (1 =? 0) with false. cbv iota. pick.
  - unfold rotor2. pick.
Qed.

Lemma straight_x3 p i j k i' old old' : straight3 Q p ->
  assign (mhd_stores3 L m S B rnd Q p i j k) IA old = assign (mhd_stores3 L m S B rnd Q p i' j k) IA old'.
Proof.
  intros Hs. destruct p; cbn [straight3 straight2 mhd_stores3] in *; try tauto.
  - destruct Hs as (E & _ & _). unfold mimplode3. asg. pick; congruence.
  - destruct Hs as (E & _ & _). unfold mblast3, mblast_state. pick; asg; congruence.
  - destruct Hs as [Hs R]. unfold kh_on_mhd in Hs. unfold mkh3, mkh_state3. rewrite R in *.
    destruct (k_rob (p_kh Q)); [reflexivity|].
    destruct (k_sine (p_kh Q)); [reflexivity|discriminate Hs].
  - unfold briowu3.
    assert (w_dir (p_briowu Q) = 0 \/ w_dir (p_briowu Q) = 1 \/ w_dir (p_briowu Q) = 2) as [-> | [-> | ->]] by lia;
    [change (0 =? 0) with true|change (1 =? 0) with false; change (1 =? 1) with true
    |change (2 =? 0) with false; change (2 =? 1) with false]; cbv iota;
    repeat match goal with |- context [(?a <=? ?b)%num] => destruct (a <=? b)%num end; reflexivity.
  - unfold ot_vars3.
    assert (o_dir (p_ot Q) = 0 \/ o_dir (p_ot Q) = 1 \/ o_dir (p_ot Q) = 2) as [-> | [-> | ->]] by lia; reflexivity.
  - unfold rotor3. pick.
Qed.
Lemma straight_y3 p i j k j' old old' : straight3 Q p ->
  assign (mhd_stores3 L m S B rnd Q p i j k) IB old = assign (mhd_stores3 L m S B rnd Q p i j' k) IB old'.
Proof.
  intros Hs. destruct p; cbn [straight3 straight2 mhd_stores3] in *; try tauto.
  - destruct Hs as (_ & E & _). unfold mimplode3. asg. pick; congruence.
  - destruct Hs as (_ & E & _). unfold mblast3, mblast_state. pick; asg; congruence.
  - destruct Hs as [Hs R]. unfold kh_on_mhd in Hs. unfold mkh3, mkh_state3. rewrite R in *.
    destruct (k_rob (p_kh Q)); [reflexivity|].
    destruct (k_sine (p_kh Q)); [reflexivity|discriminate Hs].
  - unfold briowu3.
    assert (w_dir (p_briowu Q) = 0 \/ w_dir (p_briowu Q) = 1 \/ w_dir (p_briowu Q) = 2) as [-> | [-> | ->]] by lia;
    [change (0 =? 0) with true|change (1 =? 0) with false; change (1 =? 1) with true
    |change (2 =? 0) with false; change (2 =? 1) with false]; cbv iota;
    repeat match goal with |- context [(?a <=? ?b)%num] => destruct (a <=? b)%num end; reflexivity.
  - unfold ot_vars3.
    assert (o_dir (p_ot Q) = 0 \/ o_dir (p_ot Q) = 1 \/ o_dir (p_ot Q) = 2) as [-> | [-> | ->]] by lia; reflexivity.
  - unfold rotor3. pick.
Qed.
Lemma straight_z3 p i j k k' old old' : straight3 Q p ->
  assign (mhd_stores3 L m S B rnd Q p i j k) IC old = assign (mhd_stores3 L m S B rnd Q p i j k') IC old'.
Proof.
  intros Hs. destruct p; cbn [straight3 straight2 mhd_stores3] in *; try tauto.
  - destruct Hs as (_ & _ & E). unfold mimplode3. asg. pick; congruence.
  - destruct Hs as (_ & _ & E). unfold mblast3, mblast_state. pick; asg; congruence.
  - destruct Hs as [Hs R]. unfold kh_on_mhd in Hs. unfold mkh3, mkh_state3. rewrite R in *.
    destruct (k_rob (p_kh Q)); [reflexivity|].
    destruct (k_sine (p_kh Q)); [reflexivity|discriminate Hs].
  - unfold briowu3.
    assert (w_dir (p_briowu Q) = 0 \/ w_dir (p_briowu Q) = 1 \/ w_dir (p_briowu Q) = 2) as [-> | [-> | ->]] by lia;
    [change (0 =? 0) with true|change (1 =? 0) with false; change (1 =? 1) with true
    |change (2 =? 0) with false; change (2 =? 1) with false]; cbv iota;
    repeat match goal with |- context [(?a <=? ?b)%num] => destruct (a <=? b)%num end; reflexivity.
  - unfold ot_vars3.
    assert (o_dir (p_ot Q) = 0 \/ o_dir (p_ot Q) = 1 \/ o_dir (p_ot Q) = 2) as [-> | [-> | ->]] by lia; reflexivity.
  - unfold rotor3. pick.
Qed.
End Straight.

Lemma straight_one_kernel {T} (Q : problems T) p : straight2 Q p -> p <> FieldLoop.
Proof. intros H ->. exact H. Qed.
Lemma straight_one_kernel3 {T} (Q : problems T) p : straight3 Q p -> p <> FieldLoop.
Proof. intros H ->. exact H. Qed.

(** Field of the initial arrays. *)
Section Init.
Context {T : Type} {N : Num T}.
Variables (L : mlib T) (m : mesh) (S : hset T) (B : box T) (rnd : nat -> Z -> Z -> Z -> T) (Q : problems T).
Lemma init_mhd2_noIP inb name s s' : problem_mhd name <> FieldLoop ->
  execs inb s (init_mhd2 L m S B rnd Q name) s' ->
  forall i j v, 0 <= i < isize m -> 0 <= j < jsize m -> v <> IP ->
  s' (L2 A_U i j v) = assign (mhd_stores2 L m S B rnd Q (problem_mhd name) i j) v (s (L2 A_U i j v)).
Proof.
  intros Hf E i j v Hi Hj Hv.
  assert (D : problem_mhd name = OrszagTang \/ problem_mhd name <> OrszagTang)
    by (destruct (problem_mhd name); auto; right; discriminate).
  destruct D as [D|D].
  - pose proof (proj1 (init_ot2_spec _ _ _ _ _ _ _ _ _ _ D E)) as A. rewrite D. auto.
  - pose proof (proj1 (init_mhd2_spec _ _ _ _ _ _ _ _ _ _ (conj D Hf) E)) as A. auto.
Qed.
Lemma init_mhd3_noIP inb name s s' : problem_mhd name <> FieldLoop ->
  execs inb s (init_mhd3 L m S B rnd Q name) s' ->
  forall i j k v, 0 <= i < isize m -> 0 <= j < jsize m -> 0 <= k < ksize m -> v <> IP ->
  s' (mkloc A_U i j k v) = assign (mhd_stores3 L m S B rnd Q (problem_mhd name) i j k) v (s (mkloc A_U i j k v)).
Proof.
  intros Hf E i j k v Hi Hj Hk Hv.
  assert (D : problem_mhd name = OrszagTang \/ problem_mhd name <> OrszagTang)
    by (destruct (problem_mhd name); auto; right; discriminate).
  destruct D as [D|D].
  - pose proof (proj1 (init_ot3_spec _ _ _ _ _ _ _ _ _ _ D E)) as A. rewrite D. auto.
  - pose proof (proj1 (init_mhd3_spec _ _ _ _ _ _ _ _ _ _ (conj D Hf) E)) as A. auto.
Qed.
End Init.

(** The neighbour above a physical cell is a physical cell or repeats one across the domain. *)
Lemma right_image m (u : field2 R) i j v : wide2 m -> 3 <= gw m -> phys2 m i j -> has_right m i ->
  exists i', phys2 m i' j /\ extend m u (i + 1) j v = u i' j v /\ (i' = i + 1 \/ (periodic_x m /\ i' = gw m /\ i + 1 = gw m + nx m)).
Proof.
  intros Hw Hg [Hi Hj] HR. unfold physical in *.
  destruct (Z.eq_dec (i + 1) (gw m + nx m)) as [E|E].
  - destruct HR as [HR|HR]; [unfold physical in HR; lia|].
    destruct (periodic_x_wide m Hw ltac:(lia) HR).
    exists (gw m). split; [unfold phys2, physical; lia|]. split; [|auto].
    rewrite E, extend_period_x by (auto; lia). apply extend_phys. unfold phys2, physical. lia.
  - exists (i + 1). split; [unfold phys2, physical; lia|]. split; [|auto].
    apply extend_phys. unfold phys2, physical. lia.
Qed.
Lemma above_image m (u : field2 R) i j v : wide2 m -> 3 <= gw m -> phys2 m i j -> has_above m j ->
  exists j', phys2 m i j' /\ extend m u i (j + 1) v = u i j' v /\ (j' = j + 1 \/ (periodic_y m /\ j' = gw m /\ j + 1 = gw m + ny m)).
Proof.
  intros Hw Hg [Hi Hj] HR. unfold physical in *.
  destruct (Z.eq_dec (j + 1) (gw m + ny m)) as [E|E].
  - destruct HR as [HR|HR]; [unfold physical in HR; lia|].
    destruct (periodic_y_wide m Hw ltac:(lia) HR).
    exists (gw m). split; [unfold phys2, physical; lia|]. split; [|auto].
    rewrite E, extend_period_y by (auto; lia). apply extend_phys. unfold phys2, physical. lia.
  - exists (j + 1). split; [unfold phys2, physical; lia|]. split; [|auto].
    apply extend_phys. unfold phys2, physical. lia.
Qed.
(** Three dimensions; [d] the axis. *)
Lemma upper_image m (u : field3 R) d i j k v : wide3 m -> 3 <= gw m -> phys3 m i j k -> has_upper m d (along d i j k) ->
  exists t, let i' := if (ox d =? 1) then t else i in let j' := if (oy d =? 1) then t else j in
            let k' := if (oz d =? 1) then t else k in
  phys3 m i' j' k' /\ extend3 m u (i + ox d) (j + oy d) (k + oz d) v = u i' j' k' v /\
  (t = along d i j k + 1 \/ (periodic3 m d /\ t = gw m /\ along d i j k + 1 = gw m + nd m d)).
Proof.
  intros Hw Hg [[Hi Hj] Hk] HR. pose proof (nd_pos m Hw d) as Hn. unfold physical in *.
  destruct (Z.eq_dec (along d i j k + 1) (gw m + nd m d)) as [E|E].
  - destruct HR as [HR|HR]; [unfold physical in HR; lia|].
    exists (gw m).
    destruct d; cbn [ox oy oz along nd] in *; change (1 =? 1) with true; change (0 =? 1) with false; cbv iota zeta.
    + split; [unfold phys3, phys2, physical; lia|]. split; [|auto].
      pose proof (extend3_period m Hw DX u (gw m) j k v HR ltac:(cbn [along]; lia)) as P.
      cbn [ox oy oz nd] in P. rewrite ?Z.mul_0_l, ?Z.mul_1_l, ?Z.add_0_r in *. rewrite E, P.
      apply extend3_phys. unfold phys3, phys2, physical. lia.
    + split; [unfold phys3, phys2, physical; lia|]. split; [|auto].
      pose proof (extend3_period m Hw DY u i (gw m) k v HR ltac:(cbn [along]; lia)) as P.
      cbn [ox oy oz nd] in P. rewrite ?Z.mul_0_l, ?Z.mul_1_l, ?Z.add_0_r in *. rewrite E, P.
      apply extend3_phys. unfold phys3, phys2, physical. lia.
    + split; [unfold phys3, phys2, physical; lia|]. split; [|auto].
      pose proof (extend3_period m Hw DZ u i j (gw m) v HR ltac:(cbn [along]; lia)) as P.
      cbn [ox oy oz nd] in P. rewrite ?Z.mul_0_l, ?Z.mul_1_l, ?Z.add_0_r in *. rewrite E, P.
      apply extend3_phys. unfold phys3, phys2, physical. lia.
  - exists (along d i j k + 1).
    destruct d; cbn [ox oy oz along nd] in *; change (1 =? 1) with true; change (0 =? 1) with false; cbv iota zeta;
    rewrite ?Z.add_0_r in *;
    (split; [unfold phys3, phys2, physical; lia|]); (split; [|auto]); apply extend3_phys; unfold phys3, phys2, physical; lia.
Qed.

(** ** C54 *)

(** The field loop does not reach the first and last cells of a periodic axis. *)
Definition loop_clear (m : mesh) (S : hset R) (B : box R) (P : loop_params R) : Prop :=
  (periodic_x m -> (f_radius P <= Rabs (at_x S B m (gw m)) /\ f_radius P <= Rabs (at_x S B m (gw m + nx m)))%R) /\
  (periodic_y m -> (f_radius P <= Rabs (at_y S B m (gw m)) /\ f_radius P <= Rabs (at_y S B m (gw m + ny m)))%R).

Lemma radius_le_x (x y r : R) : (r <= Rabs x -> r <= sqrt (x * x + y * y))%R.
Proof.
  intros H. eapply Rle_trans; [exact H|]. rewrite <- sqrt_Rsqr_abs. apply sqrt_le_1_alt. unfold Rsqr. nra.
Qed.
Lemma radius_le_y (x y r : R) : (r <= Rabs y -> r <= sqrt (x * x + y * y))%R.
Proof.
  intros H. eapply Rle_trans; [exact H|]. rewrite <- sqrt_Rsqr_abs. apply sqrt_le_1_alt. unfold Rsqr. nra.
Qed.
Lemma loop_outside m S B P i j :
  (f_radius P <= Rabs (at_x S B m i) \/ f_radius P <= Rabs (at_y S B m j))%R -> loop_at m S B P i j = 0%R.
Proof.
  intros H. unfold loop_at, loop_A. rewrite <- at_x_px, <- at_y_py. Rn.
  destruct (Rlt_dec _ _) as [Hl|_]; [|reflexivity]. exfalso.
  destruct H as [H|H]; [apply (radius_le_x _ (at_y S B m j)) in H|apply (radius_le_y (at_x S B m i)) in H]; lra.
Qed.

Section C54.
Variables (L : mlib R) (m : mesh) (S : hset R) (B : box R) (rnd : nat -> Z -> Z -> Z -> R) (Q : problems R).

(** The field of the initial arrays, ghosts filled, has no divergence. *)
Lemma init_divB inb name s s' i j : wide2 m -> 3 <= gw m ->
  straight2 Q (problem_mhd name) \/ (problem_mhd name = FieldLoop /\ loop_clear m S B (p_loop Q)) ->
  execs inb s (init_mhd2 L m S B rnd Q name) s' ->
  phys2 m i j -> has_right m i -> has_above m j ->
  divB S (extend m (field_of A_U s')) i j = 0%R.
Proof.
  intros Hw Hg Hc E Hp HR HA. pose proof Hp as [Hi Hj]. unfold divB.
  destruct (right_image m (field_of A_U s') i j IA Hw Hg Hp HR) as (i' & Pi & -> & Di).
  destruct (above_image m (field_of A_U s') i j IB Hw Hg Hp HA) as (j' & Pj & -> & Dj).
  rewrite !extend_phys by exact Hp. unfold field_of.
  assert (Ri : 0 <= i < isize m /\ 0 <= j < jsize m) by (unfold physical, isize, jsize in *; lia).
  assert (Ri' : 0 <= i' < isize m) by (destruct Pi as [Pi _]; unfold physical, isize in *; lia).
  assert (Rj' : 0 <= j' < jsize m) by (destruct Pj as [_ Pj]; unfold physical, jsize in *; lia).
  destruct Hc as [Hs|[Hl Hc]].
  - pose proof (init_mhd2_noIP L m S B rnd Q inb name s s' (straight_one_kernel Q _ Hs) E) as A.
    rewrite !A by (tauto || discriminate).
    rewrite (straight_x2 L m S B rnd Q _ i' i j _ (s (L2 A_U i j IA)) Hs).
    rewrite (straight_y2 L m S B rnd Q _ i j' j _ (s (L2 A_U i j IB)) Hs). unfold Rdiv. ring.
  - pose proof (proj1 (init_loop2_spec L m S B rnd inb Q name s s' Hl ltac:(lia) E)) as A.
    assert (IN : forall a b, phys2 m a b -> inner2 m a b = true)
      by (intros a b [Pa Pb]; unfold physical, inner2, isize, jsize in *; lia).
    assert (VA : forall a, phys2 m a j ->
      s' (L2 A_U a j IA) = ((loop_at m S B (p_loop Q) a (j + 1) - loop_at m S B (p_loop Q) a j) / dy S)%R).
    { intros a Pa. destruct (Pa) as [Pa' _]. unfold physical in Pa'.
      rewrite A by (discriminate || (unfold isize, jsize, physical in *; lia)). rewrite IN by exact Pa. reflexivity. }
    assert (VB : forall b, phys2 m i b ->
      s' (L2 A_U i b IB) = (- (loop_at m S B (p_loop Q) (i + 1) b - loop_at m S B (p_loop Q) i b) / dx S)%R).
    { intros b Pb. destruct (Pb) as [_ Pb']. unfold physical in Pb'.
      rewrite A by (discriminate || (unfold isize, jsize, physical in *; lia)). rewrite IN by exact Pb. reflexivity. }
    rewrite !VA, !VB by assumption.
    assert (X : (loop_at m S B (p_loop Q) i' (j + 1) - loop_at m S B (p_loop Q) i' j =
                 loop_at m S B (p_loop Q) (i + 1) (j + 1) - loop_at m S B (p_loop Q) (i + 1) j)%R).
    { destruct Di as [->|(PX & -> & ->)]; [reflexivity|]. destruct Hc as [Hc _]. destruct (Hc PX).
      rewrite !loop_outside by auto. reflexivity. }
    assert (Y : (loop_at m S B (p_loop Q) (i + 1) j' - loop_at m S B (p_loop Q) i j' =
                 loop_at m S B (p_loop Q) (i + 1) (j + 1) - loop_at m S B (p_loop Q) i (j + 1))%R).
    { destruct Dj as [->|(PX & -> & ->)]; [reflexivity|]. destruct Hc as [_ Hc]. destruct (Hc PX).
      rewrite !loop_outside by auto. reflexivity. }
    rewrite X, Y. unfold Rdiv. ring.
Qed.
End C54.

(** In the initial state and after any number of steps of every version under every
    schedule, in every physical cell whose upper faces are stored in a physical cell or
    wrap around a periodic axis. *)
Theorem C54_no_divergence :
  forall (L : mlib R) m S B rnd Q inb inb' inb'' iv name dts s0 s1 s2 s3,
  mready2 m S ->
  straight2 Q (problem_mhd name) \/ (problem_mhd name = FieldLoop /\ loop_clear m S B (p_loop Q)) ->
  execs inb s0 (init_mhd2 L m S B rnd Q name) s1 -> mbuilt2 m S inb' s1 s2 ->
  execs inb'' s2 (msteps2 m S iv 0 dts) s3 ->
  forall i j, phys2 m i j -> has_right m i -> has_above m j ->
  divB S (extend m (field_of A_U s1)) i j = 0%R /\ divB S (extend m (final_field 0 dts s3)) i j = 0%R.
Proof.
  intros L m S B rnd Q inb inb' inb'' iv name dts s0 s1 s2 s3 HR Hc E1 E2 E3 i j Hp H1 H2.
  pose proof HR as (Hw & Hg & _).
  assert (D : divB S (extend m (field_of A_U s1)) i j = 0%R) by (eapply init_divB; eauto).
  split; [exact D|].
  rewrite (C25_run_keeps_divergence m S inb'' iv 0 dts s2 s3 i j HR E3 Hp H1 H2).
  rewrite <- D. apply divB_ext; auto. exact (mbuilt2_holds m S inb' s1 s2 HR E2).
Qed.
Print Assumptions C54_no_divergence.

(** Blast with different fields inside and outside: the cells on the circle have a
    divergence. *)
Theorem C54_blast_refuted :
  forall (L : mlib R) m S B rnd Q inb name s s' i j,
  problem_mhd name = Blast -> 0 <= gw m -> (0 <= b_radius (p_blast Q))%R -> (0 < dx S)%R ->
  execs inb s (init_mhd2 L m S B rnd Q name) s' ->
  phys2 m i j -> phys2 m (i + 1) j -> phys2 m i (j + 1) ->
  let in_ball i j := (dist2 (at_x S B m i) (at_y S B m j) (b_cx (p_blast Q)) (b_cy (p_blast Q)) < b_radius (p_blast Q))%R in
  in_ball i j -> in_ball i (j + 1) -> ~ in_ball (i + 1) j -> b_bxin (p_blast Q) <> b_bxout (p_blast Q) ->
  divB S (field_of A_U s') i j <> 0%R.
Proof.
  intros L m S B rnd Q inb name s s' i j Hn Hg Hr Hdx E [Hi Hj] [Hi' _] [_ Hj'] ball B1 B2 B3 Hne.
  assert (O : one_kernel (problem_mhd name)) by (rewrite Hn; split; discriminate).
  pose proof (proj1 (init_mhd2_spec L m S B rnd inb Q name s s' O E)) as A. rewrite Hn in A. cbn [mhd_stores2] in A.
  unfold divB, field_of. rewrite !A by (unfold physical, isize, jsize in *; lia).
  assert (V : forall x y v old, (v = IA \/ v = IB) ->
    assign (mblast2 S (p_blast Q) x y) v old =
    (if Rlt_dec (dist2 x y (b_cx (p_blast Q)) (b_cy (p_blast Q))) (b_radius (p_blast Q))
     then if v =? IA then b_bxin (p_blast Q) else b_byin (p_blast Q)
     else if v =? IA then b_bxout (p_blast Q) else b_byout (p_blast Q))%R).
  { intros x y v old Hv. unfold mblast2, mblast_state, dist2. Rn.
    match goal with |- context [Rlt_dec ?a (?r * ?r)] => assert (Ha : (0 <= a)%R)
      by (repeat apply Rplus_le_le_0_compat; apply Rle_0_sqr); pose proof (sq_lt a r Hr Ha) as Hsq;
      destruct (Rlt_dec a (r * r)), (Rlt_dec (sqrt a) r) end; try tauto; destruct Hv as [-> | ->]; reflexivity. }
  rewrite !V by auto. unfold ball in *. rewrite at_x_px, at_y_py in *. rewrite ?at_x_px, ?at_y_py in *.
  repeat (destruct (Rlt_dec _ _)); try tauto.
  change (IA =? IA) with true. change (IB =? IA) with false. cbv iota. intros X.
  apply Hne. unfold Rdiv in X. assert (0 < / dx S)%R by (apply Rinv_0_lt_compat; lra). nra.
Qed.
Print Assumptions C54_blast_refuted.

(** ** In 3D *)
Definition loop_clear3 (m : mesh) (S : hset R) (B : box R) (P : loop_params R) : Prop :=
  (periodic3 m DX -> (f_radius P <= Rabs (at_x S B m (gw m)) /\ f_radius P <= Rabs (at_x S B m (gw m + nx m)))%R) /\
  (periodic3 m DY -> (f_radius P <= Rabs (at_y S B m (gw m)) /\ f_radius P <= Rabs (at_y S B m (gw m + ny m)))%R).

Lemma init_divB3 (L : mlib R) m S B rnd Q inb name s s' i j k : wide3 m -> 3 <= gw m ->
  straight3 Q (problem_mhd name) \/ (problem_mhd name = FieldLoop /\ loop_clear3 m S B (p_loop Q)) ->
  execs inb s (init_mhd3 L m S B rnd Q name) s' ->
  phys3 m i j k -> has_uppers m i j k ->
  divB3 S (extend3 m (field_of3 A_U s')) i j k = 0%R.
Proof.
  intros Hw Hg Hc E Hp (HX & HY & HZ). pose proof Hp as [[Hi Hj] Hk]. unfold divB3.
  destruct (upper_image m (field_of3 A_U s') DX i j k IA Hw Hg Hp HX) as (i' & Pi & Ei & Di).
  destruct (upper_image m (field_of3 A_U s') DY i j k IB Hw Hg Hp HY) as (j' & Pj & Ej & Dj).
  destruct (upper_image m (field_of3 A_U s') DZ i j k IC Hw Hg Hp HZ) as (k' & Pk & Ek & Dk).
  cbn [ox oy oz along] in *.
  change (1 =? 1) with true in *. change (0 =? 1) with false in *. cbv iota in *.
  rewrite !Z.add_0_r in *. rewrite Ei, Ej, Ek. rewrite !extend3_phys by exact Hp. unfold field_of3.
  assert (Ri : 0 <= i < isize m /\ 0 <= j < jsize m /\ 0 <= k < ksize m)
    by (unfold physical, isize, jsize, ksize in *; lia).
  assert (Ri' : 0 <= i' < isize m) by (destruct Pi as [[Pi _] _]; unfold physical, isize in *; lia).
  assert (Rj' : 0 <= j' < jsize m) by (destruct Pj as [[_ Pj] _]; unfold physical, jsize in *; lia).
  assert (Rk' : 0 <= k' < ksize m) by (destruct Pk as [_ Pk]; unfold physical, ksize in *; lia).
  destruct Hc as [Hs|[Hl Hc]].
  - pose proof (init_mhd3_noIP L m S B rnd Q inb name s s' (straight_one_kernel3 Q _ Hs) E) as A.
    rewrite !A by (tauto || discriminate).
    rewrite (straight_x3 L m S B rnd Q _ i' j k i _ (s (mkloc A_U i j k IA)) Hs).
    rewrite (straight_y3 L m S B rnd Q _ i j' k j _ (s (mkloc A_U i j k IB)) Hs).
    rewrite (straight_z3 L m S B rnd Q _ i j k' k _ (s (mkloc A_U i j k IC)) Hs). unfold Rdiv. ring.
  - pose proof (proj1 (init_loop3_spec L m S B rnd inb Q name s s' Hl ltac:(lia) E)) as A.
    assert (IN : forall a b c, phys3 m a b c -> Init.inner3 m a b c = true)
      by (intros a b c [[Pa Pb] Pc]; unfold physical, Init.inner3, isize, jsize, ksize in *; lia).
    assert (VA : forall a, phys3 m a j k -> s' (mkloc A_U a j k IA) =
      ((loop_at m S B (p_loop Q) a (j + 1) - loop_at m S B (p_loop Q) a j) / dy S - (0 - 0) / dz S)%R).
    { intros a Pa. destruct (Pa) as [[Pa' _] _]. unfold physical in Pa'.
      rewrite A by (discriminate || (unfold isize, jsize, ksize, physical in *; lia)). rewrite IN by exact Pa. reflexivity. }
    assert (VB : forall b, phys3 m i b k -> s' (mkloc A_U i b k IB) =
      ((0 - 0) / dz S - (loop_at m S B (p_loop Q) (i + 1) b - loop_at m S B (p_loop Q) i b) / dx S)%R).
    { intros b Pb. destruct (Pb) as [[_ Pb'] _]. unfold physical in Pb'.
      rewrite A by (discriminate || (unfold isize, jsize, ksize, physical in *; lia)). rewrite IN by exact Pb. reflexivity. }
    assert (VC : forall c, phys3 m i j c -> s' (mkloc A_U i j c IC) = ((0 - 0) / dx S - (0 - 0) / dy S)%R).
    { intros c Pc. destruct (Pc) as [_ Pc']. unfold physical in Pc'.
      rewrite A by (discriminate || (unfold isize, jsize, ksize, physical in *; lia)). rewrite IN by exact Pc. reflexivity. }
    rewrite !VA, !VB, !VC by assumption.
    assert (X : (loop_at m S B (p_loop Q) i' (j + 1) - loop_at m S B (p_loop Q) i' j =
                 loop_at m S B (p_loop Q) (i + 1) (j + 1) - loop_at m S B (p_loop Q) (i + 1) j)%R).
    { destruct Di as [->|(PX & -> & ->)]; [reflexivity|]. destruct Hc as [Hc _]. destruct (Hc PX). cbn [nd].
      rewrite !loop_outside by auto. reflexivity. }
    assert (Y : (loop_at m S B (p_loop Q) (i + 1) j' - loop_at m S B (p_loop Q) i j' =
                 loop_at m S B (p_loop Q) (i + 1) (j + 1) - loop_at m S B (p_loop Q) i (j + 1))%R).
    { destruct Dj as [->|(PX & -> & ->)]; [reflexivity|]. destruct Hc as [_ Hc]. destruct (Hc PX). cbn [nd].
      rewrite !loop_outside by auto. reflexivity. }
    rewrite X, Y. unfold Rdiv. ring.
Qed.

Theorem C54_no_divergence3d :
  forall (L : mlib R) m S B rnd Q inb inb' inb'' iv name dts s0 s1 s2 s3,
  mready3 iv m S ->
  straight3 Q (problem_mhd name) \/ (problem_mhd name = FieldLoop /\ loop_clear3 m S B (p_loop Q)) ->
  execs inb s0 (init_mhd3 L m S B rnd Q name) s1 -> mbuilt3 m S inb' s1 s2 ->
  execs inb'' s2 (msteps3 m S iv 0 dts) s3 ->
  forall i j k, phys3 m i j k -> has_uppers m i j k ->
  divB3 S (extend3 m (field_of3 A_U s1)) i j k = 0%R /\
  divB3 S (extend3 m (final_field3 0 dts s3)) i j k = 0%R.
Proof.
  intros L m S B rnd Q inb inb' inb'' iv name dts s0 s1 s2 s3 HR Hc E1 E2 E3 i j k Hp H1.
  pose proof HR as (Hw & Hg & _).
  assert (D : divB3 S (extend3 m (field_of3 A_U s1)) i j k = 0%R) by (eapply init_divB3; eauto).
  split; [exact D|].
  rewrite (C25_mhd3d_run_keeps_divergence m S inb'' iv 0 dts s2 s3 i j k HR E3 Hp H1).
  rewrite <- D. apply divB3_ext; auto. exact (mbuilt3_holds m S iv inb' s1 s2 HR E2).
Qed.
Print Assumptions C54_no_divergence3d.

(** 4 x 3 periodic cells of side 1 about the origin: the loop of radius 9/10 stays clear of
    the border and contains the cell centres (±1/2, 0), where its field is not zero; and
    Orszag-Tang, the uniform blast. *)
Definition ex_loop_box : box R := (mkbox R (-2) 2 (-3/2) (3/2) (-3/2) (3/2) 0 0 0)%R.
Definition ex_loop : loop_params R := (mkloop R (9/10) 1 1 1)%R.
Ltac zval := match goal with |- context [IZR (Z.sub ?a ?b)] => let z := eval compute in (Z.sub a b) in change (Z.sub a b) with z end.
Example C54_case :
  let S := (derive (7/5) (1/10000000000) (1/10000000000) 1 (4/5) R_HLLD 1 1 1)%R in
  mready2 ex_mhd2 S /\ mready3 V0 ex_mhd3 S /\
  loop_clear ex_mhd2 S ex_loop_box ex_loop /\ loop_clear3 ex_mhd3 S ex_loop_box ex_loop /\
  periodic_x ex_mhd2 /\ periodic_y ex_mhd2 /\
  (loop_at ex_mhd2 S ex_loop_box ex_loop 5 4 = 4/10)%R /\ loop_at ex_mhd2 S ex_loop_box ex_loop 5 3 = 0%R /\
  problem_mhd "field_loop" = FieldLoop /\ problem_mhd "orszag_tang" = OrszagTang /\
  (forall Q : problems R, straight2 Q OrszagTang).
Proof.
  intros S. split; [apply ex_mready2; try discriminate; simpl; auto|].
  split; [apply ex_mready3; try discriminate; simpl; auto|].
  assert (D1 : dx S = 1%R) by reflexivity. assert (D2 : dy S = 1%R) by reflexivity.
  assert (X1 : at_x S ex_loop_box ex_mhd2 3 = (-3/2)%R) by (unfold at_x; rewrite D1; zval; cbn; lra).
  assert (X2 : at_x S ex_loop_box ex_mhd2 7 = (5/2)%R) by (unfold at_x; rewrite D1; zval; cbn; lra).
  assert (Y1 : at_y S ex_loop_box ex_mhd2 3 = (-1)%R) by (unfold at_y; rewrite D2; zval; cbn; lra).
  assert (Y2 : at_y S ex_loop_box ex_mhd2 6 = 2%R) by (unfold at_y; rewrite D2; zval; cbn; lra).
  assert (C : loop_clear ex_mhd2 S ex_loop_box ex_loop).
  { split; intros _; change (gw ex_mhd2) with 3.
    - change (3 + nx ex_mhd2) with 7. rewrite X1, X2. cbn. split; unfold Rabs; destruct (Rcase_abs _); lra.
    - change (3 + ny ex_mhd2) with 6. rewrite Y1, Y2. cbn. split; unfold Rabs; destruct (Rcase_abs _); lra. }
  split; [exact C|]. split; [split; intros _; apply C; (unfold periodic_x, periodic_y; cbn; auto)|].
  split; [unfold periodic_x; cbn; auto|]. split; [unfold periodic_y; cbn; auto|].
  split; [|split; [|split; [reflexivity|split; [reflexivity|exact (fun _ => I)]]]].
  - unfold loop_at, loop_A. rewrite <- at_x_px, <- at_y_py.
    replace (at_x S ex_loop_box ex_mhd2 5) with (1/2)%R by (unfold at_x; rewrite D1; zval; cbn; lra).
    replace (at_y S ex_loop_box ex_mhd2 4) with 0%R by (unfold at_y; rewrite D2; zval; cbn; lra). Rn.
    replace (1 / 2 * (1 / 2) + 0 * 0)%R with ((1/2) * (1/2))%R by ring. rewrite sqrt_square by lra.
    cbn [ex_loop f_radius f_ampl]. destruct (Rlt_dec _ _); lra.
  - apply loop_outside. right. rewrite Y1. cbn. unfold Rabs; destruct (Rcase_abs _); lra.
Qed.

(** The same mesh, circle of radius 1 about (-1/2, 1/2): cell (4,4) is on it. *)
Example C54_blast_case :
  let S := (derive (7/5) (1/10000000000) (1/10000000000) 1 (4/5) R_HLLD 1 1 1)%R in
  let m := ex_mhd2 in let B := ex_loop_box in
  let in_ball i j := (dist2 (at_x S B m i) (at_y S B m j) (-1/2) (1/2) < 1)%R in
  phys2 m 4 4 /\ phys2 m 5 4 /\ phys2 m 4 5 /\ in_ball 4 4 /\ in_ball 4 5 /\ ~ in_ball 5 4 /\ problem_mhd "blast" = Blast.
Proof.
  intros S m B ball.
  assert (D1 : dx S = 1%R) by reflexivity. assert (D2 : dy S = 1%R) by reflexivity.
  assert (X1 : at_x S B m 4 = (-1/2)%R) by (unfold at_x; rewrite D1; zval; cbn; lra).
  assert (X2 : at_x S B m 5 = (1/2)%R) by (unfold at_x; rewrite D1; zval; cbn; lra).
  assert (Y1 : at_y S B m 4 = 0%R) by (unfold at_y; rewrite D2; zval; cbn; lra).
  assert (Y2 : at_y S B m 5 = 1%R) by (unfold at_y; rewrite D2; zval; cbn; lra).
  assert (P : forall i j, 3 <= i < 7 -> 3 <= j < 6 -> phys2 m i j) by (intros; unfold phys2, physical; cbn; lia).
  subst ball. cbv beta. rewrite X1, X2, Y1, Y2. unfold dist2.
  repeat (split; [apply P; lia|]).
  assert (Q : forall r, (0 <= r)%R -> (sqrt r < 1 <-> r < 1)%R).
  { intros r Hr. rewrite <- (sqrt_1) at 1. split; [apply sqrt_lt_0_alt|]. intros H. apply sqrt_lt_1_alt. lra. }
  rewrite !Q by lra. repeat split; lra.
Qed.
