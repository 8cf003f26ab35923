(** * Signs of binary64 results

    Lemmas about [Vnum]: the sign bit of a sum, product, quotient, root of numbers
    without sign bit is clear (a NaN counts as clear).  They give that the signal
    speeds of TimeStep.v, MhdMachine.v and Mhd3DMachine.v are never -0, the one
    value for which the reduction of the time step could depend on its order. *)
From Coq Require Import ZArith List Bool Reals Lra Floats.SpecFloat Permutation.
Import ListNotations.
From Flocq Require Import Core.Core IEEE754.BinarySingleNaN.
From Verif Require Import Num Exec Grid Boundaries BoundariesSpec Binary64 Binary64Valid HydroNum Kernels Hydro2D Hydro2DSpec
  Hydro3D Hydro3DSpec TimeStep TimeStepFacts HydroMachine MhdNum Mhd2D Mhd2DSpec MhdMachine Mhd3D Mhd3DSpec Mhd3DMachine.
Local Open Scope Z_scope.

#[local] Existing Instance v64_prec.
#[local] Existing Instance v64_emax.

(** The sign bit is clear. *)
Definition clear (x : v64) : Prop := Bsign x = false.
(** ... or the number is -0, which a sum with a clear number absorbs. *)
Definition clear0 (x : v64) : Prop := Bsign x = false \/ x = B754_zero true.

Lemma sign_sf (x : v64) : sign_of (sf x) = Bsign x.
Proof. destruct x; reflexivity. Qed.

Lemma round_aux_clear m e l : sign_of (SpecFloat.binary_round_aux 53 1024 false m e l) = false.
Proof.
  unfold SpecFloat.binary_round_aux. destruct (shr_fexp 53 1024 m e l) as [mrs e'].
  destruct (shr_fexp _ _ _ _ _) as [mrs' e'']. destruct (shr_m mrs'); try reflexivity.
  destruct (Z.leb _ _); reflexivity.
Qed.

Lemma normalize_clear m e : 0 <= m -> sign_of (SpecFloat.binary_normalize 53 1024 m e false) = false.
Proof.
  intros H. destruct m; try reflexivity; [|exfalso; apply H; reflexivity].
  unfold SpecFloat.binary_normalize, SpecFloat.binary_round. destruct (shl_align _ _ _). apply round_aux_clear.
Qed.

Lemma clear_Z z : 0 <= z -> clear (nZ (Num := Vnum) z).
Proof.
  intros H. unfold clear. rewrite <- sign_sf. destruct Vnum_Fnum as [-> _]. apply normalize_clear. exact H.
Qed.

Lemma clear_abs x : clear (nabs (Num := Vnum) x).
Proof. destruct Vnum_ieee as (_ & _ & _ & _ & _ & _ & _ & E). unfold clear. rewrite E. destruct x; reflexivity. Qed.

Lemma clear_add x y : clear0 x -> clear y -> clear (nadd (Num := Vnum) x y).
Proof.
  intros Hx Hy. unfold clear. rewrite <- sign_sf. destruct Vnum_Fnum as (_ & -> & _). revert Hx Hy.
  unfold clear0, clear. intros [Hx | ->] Hy.
  - destruct x as [[]|[]| |[] mx ex px]; try discriminate Hx; destruct y as [[]|[]| |[] my ey py]; try discriminate Hy; try reflexivity.
    cbn [nadd Fnum B2SF]. unfold SFadd. apply normalize_clear.
    unfold cond_Zopp. apply Z.add_nonneg_nonneg; discriminate.
  - destruct y as [[]|[]| |[] my ey py]; try discriminate Hy; reflexivity.
Qed.

Lemma clear_add2 x y : clear x -> clear y -> clear (nadd (Num := Vnum) x y).
Proof. intros Hx Hy. apply clear_add; [left|]; auto. Qed.

Lemma clear_mul x y : clear x -> clear y -> clear (nmul (Num := Vnum) x y).
Proof.
  intros Hx Hy. unfold clear. rewrite <- sign_sf. destruct Vnum_Fnum as (_ & _ & _ & -> & _). revert Hx Hy. unfold clear.
  destruct x as [[]|[]| |[] mx ex px]; intros Hx; try discriminate Hx; destruct y as [[]|[]| |[] my ey py]; intros Hy; try discriminate Hy;
  try reflexivity. apply round_aux_clear.
Qed.

Lemma clear_div x y : clear x -> clear y -> clear (ndiv (Num := Vnum) x y).
Proof.
  intros Hx Hy. unfold clear. rewrite <- sign_sf. destruct Vnum_Fnum as (_ & _ & _ & _ & -> & _). revert Hx Hy. unfold clear.
  destruct x as [[]|[]| |[] mx ex px]; intros Hx; try discriminate Hx; destruct y as [[]|[]| |[] my ey py]; intros Hy; try discriminate Hy;
  try reflexivity. cbn [ndiv Fnum B2SF]. unfold SFdiv. destruct (SFdiv_core_binary _ _ _ _ _ _) as [[? ?] ?]. apply round_aux_clear.
Qed.

(** A root has the sign bit only when it is -0. *)
Lemma clear_sqrt x : clear0 (nsqrt (Num := Vnum) x).
Proof.
  destruct x as [[]|[]| |[] mx ex px]; try (left; reflexivity); [right; reflexivity|].
  left. rewrite <- sign_sf. destruct Vnum_Fnum as (_ & _ & _ & _ & _ & -> & _).
  cbn [nsqrt Fnum B2SF]. unfold SFsqrt. destruct (SFsqrt_core_binary _ _ _ _) as [[? ?] ?]. apply round_aux_clear.
Qed.

Lemma clear_min x y : clear x -> clear y -> clear (nmin (Num := Vnum) x y).
Proof.
  intros Hx Hy. unfold clear. rewrite <- sign_sf. destruct Vnum_Fnum as (_ & _ & _ & _ & _ & _ & _ & _ & -> & _).
  cbn [nmin Fnum]. unfold b64_min.
  repeat match goal with |- context [if ?b then _ else _] => destruct b end; rewrite sign_sf; assumption.
Qed.

(** A maximum with a positive number is clear. *)
Lemma clear_max x y : clear y -> is_nan (sf y) = false -> y <> B754_zero false -> clear (nmax (Num := Vnum) x y).
Proof.
  intros Hy Hn Hz. unfold clear. rewrite <- sign_sf. destruct Vnum_Fnum as (_ & _ & _ & _ & _ & _ & _ & _ & _ & -> & _).
  cbn [nmax Fnum]. unfold b64_max. rewrite Hn. destruct (is_nan (sf x)) eqn:Nx; [rewrite sign_sf; exact Hy|].
  destruct (SFltb (sf x) (sf y)) eqn:L; [rewrite sign_sf; exact Hy|].
  destruct x as [[]|[]| |[] mx ex px]; try reflexivity; destruct y as [[]|[]| |[] my ey py]; try discriminate Hy; try discriminate; congruence.
Qed.

(** ** [sqrt (1 + 2 k) - 1] *)
Local Notation rnd := (round radix2 (SpecFloat.fexp 53 1024) (round_mode mode_NE)).

(** At least 1: infinite, or a finite value of at least one, or a NaN. *)
Definition above1 (x : v64) : Prop := is_finite x = true /\ (1 <= B2R x)%R \/ x = B754_infinity false \/ x = B754_nan.

Lemma rnd_1 (r : R) : (1 <= r)%R -> (1 <= rnd r)%R.
Proof.
  intros H. apply round_ge_generic; auto.
  - apply fexp_correct. reflexivity.
  - apply valid_rnd_round_mode.
  - change 1%R with (bpow radix2 0). apply generic_format_bpow. vm_compute. discriminate.
Qed.

Lemma one_v : nZ (Num := Vnum) 1 = Bone. Proof. apply v64_one. Qed.
Lemma one_fin : is_finite (@Bone 53 1024 _ _) = true. Proof. reflexivity. Qed.
Lemma one_sign : Bsign (@Bone 53 1024 _ _) = false. Proof. reflexivity. Qed.

Lemma clear_B2R (x : v64) : clear x -> (0 <= B2R x)%R.
Proof.
  intros H. destruct x as [[]|[]| |[] mx ex px]; try discriminate H; simpl; try lra.
  unfold F2R. simpl. apply Rmult_le_pos; [apply IZR_le; discriminate|apply bpow_ge_0].
Qed.

Lemma above1_add k : clear k -> above1 (nadd (Num := Vnum) (nZ (Num := Vnum) 1) k).
Proof.
  intros Hk. rewrite one_v. destruct Vnum_ieee as (_ & -> & _).
  destruct (is_finite k) eqn:F.
  - pose proof (Bplus_correct 53 1024 _ _ mode_NE Bone k one_fin F) as C.
    rewrite Bone_correct in C. pose proof (clear_B2R k Hk) as P.
    destruct (Rlt_bool _ _).
    + destruct C as (C1 & C2 & _). left. split; auto. rewrite C1. apply rnd_1. lra.
    + destruct C as [C1 _]. right; left. rewrite one_sign in C1.
      destruct (Bplus mode_NE Bone k); try discriminate C1. simpl in C1. injection C1 as ->. reflexivity.
  - right. destruct k as [[]|[]| |[] mx ex px]; try discriminate F; try discriminate Hk; [left|right]; reflexivity.
Qed.

Lemma above1_sqrt x : above1 x -> above1 (nsqrt (Num := Vnum) x).
Proof.
  destruct Vnum_ieee as (_ & _ & _ & _ & _ & E & _). rewrite E. intros [[F H]|[-> | ->]]; [|right; left; reflexivity|right; right; reflexivity].
  left. destruct (Bsqrt_correct 53 1024 _ _ mode_NE x) as (C1 & C2 & _). split.
  - rewrite C2. destruct x as [[]|[]| |[] mx ex px]; try discriminate F; try reflexivity.
    simpl in H. unfold F2R in H. simpl in H. pose proof (bpow_gt_0 radix2 ex). exfalso.
    assert (0 < IZR (Z.pos mx))%R by (apply IZR_lt; reflexivity).
    change (Z.neg mx) with (- Z.pos mx)%Z in H. rewrite opp_IZR in H. nra.
  - rewrite C1. apply rnd_1. rewrite <- sqrt_1. apply sqrt_le_1_alt. exact H.
Qed.

Lemma above1_clear (x : v64) : (1 <= B2R x)%R -> Bsign x = false.
Proof.
  intros H. destruct x as [[]|[]| |[] mx ex px]; try reflexivity; simpl in H; try lra.
  unfold F2R in H. simpl in H. pose proof (bpow_gt_0 radix2 ex). exfalso.
  assert (0 < IZR (Z.pos mx))%R by (apply IZR_lt; reflexivity).
  change (Z.neg mx) with (- Z.pos mx)%Z in H. rewrite opp_IZR in H. nra.
Qed.

Lemma clear_minus1 x : above1 x -> clear (nsub (Num := Vnum) x (nZ (Num := Vnum) 1)).
Proof.
  rewrite one_v. destruct Vnum_ieee as (_ & _ & -> & _). unfold clear.
  intros [[F H]|[-> | ->]]; try reflexivity.
  pose proof (Bminus_correct 53 1024 _ _ mode_NE x Bone F one_fin) as C. rewrite Bone_correct in C.
  destruct (Rlt_bool _ _).
  - destruct C as (_ & _ & ->). rewrite one_sign, (above1_clear x H). destruct (Rcompare_spec (B2R x - 1) 0); auto. lra.
  - destruct C as [_ C2]. rewrite one_sign, (above1_clear x H) in C2. discriminate.
Qed.

(** ** The signal speeds *)
Section Speeds.
#[local] Existing Instance Vnum.
Variable S : hset v64.
Hypothesis Hx : clear (dx S).
Hypothesis Hy : clear (dy S).

Lemma clear_prim2 u : clear0 (snd (prim2 (H := Vnum) S u)).
Proof. apply clear_sqrt. Qed.
Lemma clear_prim3 u : clear0 (snd (prim3 (H := Vnum) S u)).
Proof. apply clear_sqrt. Qed.

Lemma clear_speeds2 U i j : clear (speeds2 (H := Vnum) S U i j).
Proof.
  unfold speeds2. generalize (clear_prim2 (cell_state U i j)). destruct (prim2 S (cell_state U i j)) as [q c].
  cbn [snd]. intros Hc. apply clear_add2; apply clear_div.
  - apply clear_add; [exact Hc|apply clear_abs].
  - exact Hx.
  - apply clear_add; [exact Hc|apply clear_abs].
  - exact Hy.
Qed.

Lemma clear_speeds3 (Hz : clear (dz S)) U i j k : clear (speeds3 (H := Vnum) S U i j k).
Proof.
  unfold speeds3. generalize (clear_prim3 (cell_state3 U i j k)). destruct (prim3 S (cell_state3 U i j k)) as [q c].
  cbn [snd]. intros Hc. apply clear_add2; [apply clear_add2|]; apply clear_div.
  - apply clear_add; [exact Hc|apply clear_abs].
  - exact Hx.
  - apply clear_add; [exact Hc|apply clear_abs].
  - exact Hy.
  - apply clear_add; [exact Hc|apply clear_abs].
  - exact Hz.
Qed.

Lemma sf_tiny : sf (tiny_k (H := Vnum)) = tiny_k (H := Fnum).
Proof.
  unfold tiny_k. destruct Vnum_Fnum as (E & _ & _ & _ & D & _). rewrite D. rewrite !E. reflexivity.
Qed.

Lemma clear_max_tiny k : clear (nmax (Num := Vnum) k tiny_k).
Proof.
  apply clear_max; unfold clear; rewrite <- ?sign_sf, ?sf_tiny; try (vm_compute; reflexivity).
  intros E. apply (f_equal (fun x => sf x)) in E. rewrite sf_tiny in E. vm_compute in E. discriminate E.
Qed.

Lemma clear_corrected v gs h : clear v -> clear h -> clear (corrected (H := Vnum) S v gs h).
Proof.
  intros Hv Hh. unfold corrected. set (k := nmax _ tiny_k).
  assert (Hk : clear k) by apply clear_max_tiny. clearbody k.
  apply clear_div; [|exact Hh]. apply clear_mul; [exact Hv|]. apply clear_div; [exact Hk|].
  apply clear_minus1, above1_sqrt, above1_add. apply clear_mul; [apply clear_Z; discriminate|exact Hk].
Qed.

Lemma clear_gravity_speeds2 U G i j : clear (gravity_speeds2 (H := Vnum) S U G i j).
Proof.
  unfold gravity_speeds2. generalize (clear_prim2 (cell_state U i j)). destruct (prim2 S (cell_state U i j)) as [q c].
  cbn [snd]. intros Hc. apply clear_corrected.
  - apply clear_add2; [apply clear_add2; [apply clear_Z; discriminate|]|]; (apply clear_add; [exact Hc|apply clear_abs]).
  - apply clear_min; [exact Hx|exact Hy].
Qed.

Lemma clear_gravity_speeds3 (Hz : clear (dz S)) U G i j k : clear (gravity_speeds3 (H := Vnum) S U G i j k).
Proof.
  unfold gravity_speeds3. generalize (clear_prim3 (cell_state3 U i j k)). destruct (prim3 S (cell_state3 U i j k)) as [q c].
  cbn [snd]. intros Hc. apply clear_corrected.
  - apply clear_add2; [apply clear_add2; [apply clear_add2; [apply clear_Z; discriminate|]|]|];
    (apply clear_add; [exact Hc|apply clear_abs]).
  - apply clear_min; [apply clear_min; [exact Hx|exact Hy]|exact Hz].
Qed.

Lemma clear_info_x q : clear (info_x (H := Vnum) S q).
Proof. unfold info_x. apply clear_add; [apply clear_sqrt|apply clear_abs]. Qed.
Lemma clear_info_y q : clear (info_y (H := Vnum) S q).
Proof. unfold info_y. apply clear_add; [apply clear_sqrt|apply clear_abs]. Qed.
Lemma clear_info_z q : clear (info_z (H := Vnum) S q).
Proof. unfold info_z. apply clear_add; [apply clear_sqrt|apply clear_abs]. Qed.

Lemma clear_mspeeds2 Q i j : clear (mspeeds2 (H := Vnum) S Q i j).
Proof.
  unfold mspeeds2. apply clear_add2; apply clear_div; [apply clear_info_x|exact Hx|apply clear_info_y|exact Hy].
Qed.
Lemma clear_mspeeds3 (Hz : clear (dz S)) Q i j k : clear (mspeeds3 (H := Vnum) S Q i j k).
Proof.
  unfold mspeeds3. apply clear_add2; [apply clear_add2|]; apply clear_div;
  [apply clear_info_x|exact Hx|apply clear_info_y|exact Hy|apply clear_info_z|exact Hz].
Qed.
End Speeds.

(** ** Reductions over valid numbers *)
Lemma reduction_map {I A B} (h : A -> B) fA jA iA fB jB iB (l : list I) a :
  (forall i x, h (fA i x) = fB i (h x)) -> (forall x y, h (jA x y) = jB (h x) (h y)) -> h iA = iB ->
  reduction fA jA iA l a -> reduction fB jB iB l (h a).
Proof.
  intros Hf Hj Hi HR. induction HR.
  - replace (h (fold_left (fun a i => fA i a) l iA)) with (fold_left (fun a i => fB i a) l iB); [constructor|].
    subst iB. generalize iA. induction l as [|i l IH]; intros x; simpl; auto. rewrite <- Hf. apply IH.
  - rewrite Hj. constructor; auto.
  - eapply red_perm; eauto.
Qed.

(** Two reductions of the same clear values agree. *)
Lemma red_V_unique {I} (act : I -> bool) (val : I -> v64) f l v w :
  (forall i a, f i a = if act i then nmax (Num := Vnum) a (val i) else a) ->
  (forall i, In i l -> act i = true -> clear (val i)) ->
  reduction f (max_join (H := Vnum)) (max_init (H := Vnum)) l v ->
  reduction f (max_join (H := Vnum)) (max_init (H := Vnum)) l w -> v = w.
Proof.
  intros Hf Hv H1 H2.
  set (g := fun i a => if act i then nmax (Num := Fnum) a (sf (val i)) else a).
  assert (Hh : forall i x, sf (f i x) = g i (sf x)).
  { intros i x. rewrite Hf. unfold g. destruct (act i); auto.
    destruct Vnum_Fnum as (_ & _ & _ & _ & _ & _ & _ & _ & _ & E & _). apply E. }
  assert (Hj : forall x y, sf (max_join (H := Vnum) x y) = max_join (H := Fnum) (sf x) (sf y)).
  { intros x y. unfold max_join. cbn [nltb Vnum]. destruct (nltb (Num := Fnum) (sf x) (sf y)); reflexivity. }
  assert (Hi : sf (max_init (H := Vnum)) = max_init (H := Fnum)).
  { unfold max_init. destruct Vnum_Fnum as [E _]. apply E. }
  assert (E : sf v = sf w).
  { apply (red_F_unique act (fun i => sf (val i)) g l); [reflexivity| |eapply reduction_map; eauto|eapply reduction_map; eauto].
    intros i Hin Ha E. apply Hv in Hin; auto. unfold clear in Hin. rewrite <- sign_sf, E in Hin. discriminate. }
  rewrite <- (of_sf_sf v), <- (of_sf_sf w), E. reflexivity.
Qed.

(** ** Cell sizes *)
Lemma clear_sub x y : nltb (Num := Vnum) y x = true -> clear (nsub (Num := Vnum) x y).
Proof.
  cbn [nltb Vnum]. intros HL. unfold clear. destruct Vnum_ieee as (_ & _ & -> & _).
  destruct x as [sx|[]| |sx mx ex px] eqn:Ex; destruct y as [sy|[]| |sy my ey py] eqn:Ey; try discriminate HL; try reflexivity.
  all: match type of Ex with ?v = ?a => match type of Ey with ?w = ?b =>
    change (SFltb (B2SF b) (B2SF a) = true) in HL;
    pose proof (Bminus_correct 53 1024 _ _ mode_NE a b eq_refl eq_refl) as C;
    pose proof (Bltb_correct 53 1024 b a eq_refl eq_refl) as HB end end.
  all: unfold Bltb in HB; rewrite HL in HB; symmetry in HB.
  all: match type of HB with Rlt_bool ?u ?v = true => generalize (Rlt_bool_spec u v); rewrite HB; inversion 1 as [HR|] end.
  all: destruct (Rlt_bool (Rabs _) _).
  all: try (destruct C as (_ & _ & ->); rewrite Rcompare_Gt by lra; reflexivity).
  all: destruct C as [C1 C2]; rewrite <- sign_sf, C1; cbn [Bsign] in C2 |- *.
  all: assert (Hs : sx = false) by (destruct sx; [exfalso|reflexivity]; destruct sy; try discriminate C2;
    revert HR; apply Rle_not_lt; cbn [B2R];
    first [apply Rle_refl | apply F2R_ge_0; discriminate | apply F2R_le_0; discriminate
          | apply Rle_trans with 0%R; [apply F2R_le_0|apply F2R_ge_0]; discriminate]).
  all: rewrite Hs; reflexivity.
Qed.

Lemma clear_size lo hi n : nltb (Num := Vnum) lo hi = true -> 0 <= n ->
  clear (ndiv (Num := Vnum) (nsub (Num := Vnum) hi lo) (nZ (Num := Vnum) (n * 1))).
Proof.
  intros HL Hn. apply clear_div; [apply clear_sub; exact HL|apply clear_Z]. rewrite Z.mul_1_r. exact Hn.
Qed.
