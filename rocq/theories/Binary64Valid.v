(** * Valid binary64 numbers

    [Binary64.Fnum] works on triples of sign, mantissa and exponent, some of which
    are no binary64 number.  Here the same arithmetic on the valid ones only
    (Flocq's type [binary_float 53 1024]), i.e. exactly the values of [real_t =
    double] (/repo/src/shared/real_type.h:13-20) with all NaNs identified.  The
    operations never leave the valid triples and are Flocq's IEEE-754 operations,
    rounding to nearest even.  Multiplication by 1.0 is the identity on valid
    numbers, so the theorems asking for [NumOne] hold bit for bit for the
    arithmetic the solver runs in. *)
From Coq Require Import ZArith Bool Reals Lra Floats.SpecFloat.
From Flocq Require Import Core.Core IEEE754.BinarySingleNaN.
From Verif Require Import Num BoundariesSpec Binary64.
Local Open Scope Z_scope.

Definition v64 := binary_float 53 1024.

Definition v64_prec : Prec_gt_0 53 := eq_refl.
Definition v64_emax : Prec_lt_emax 53 1024 := eq_refl.
#[local] Existing Instance v64_prec.
#[local] Existing Instance v64_emax.

(** The valid number with the given sign, mantissa and exponent. *)
Definition of_sf (x : spec_float) : v64 :=
  match SpecFloat.valid_binary 53 1024 x as b return SpecFloat.valid_binary 53 1024 x = b -> v64 with
  | true => fun H => SF2B x H
  | false => fun _ => B754_nan
  end eq_refl.

Notation sf := (@B2SF 53 1024).

Definition Vnum : Num v64 := {|
  nZ := fun z => of_sf (nZ (Num := Fnum) z);
  nadd := fun x y => of_sf (nadd (Num := Fnum) (sf x) (sf y));
  nsub := fun x y => of_sf (nsub (Num := Fnum) (sf x) (sf y));
  nmul := fun x y => of_sf (nmul (Num := Fnum) (sf x) (sf y));
  ndiv := fun x y => of_sf (ndiv (Num := Fnum) (sf x) (sf y));
  nopp := fun x => of_sf (nopp (Num := Fnum) (sf x));
  nsqrt := fun x => of_sf (nsqrt (Num := Fnum) (sf x));
  nabs := fun x => of_sf (nabs (Num := Fnum) (sf x));
  nmin := fun x y => of_sf (nmin (Num := Fnum) (sf x) (sf y));
  nmax := fun x y => of_sf (nmax (Num := Fnum) (sf x) (sf y));
  nltb := fun x y => nltb (Num := Fnum) (sf x) (sf y);
  nleb := fun x y => nleb (Num := Fnum) (sf x) (sf y);
  nsgn := fun x => of_sf (nsgn (Num := Fnum) (sf x))
|}.

Lemma of_sf_sf (x : v64) : of_sf (sf x) = x.
Proof.
  unfold of_sf. generalize (eq_refl (SpecFloat.valid_binary 53 1024 (sf x))).
  assert (V : SpecFloat.valid_binary 53 1024 (sf x) = true) by apply valid_binary_B2SF.
  revert V. generalize (SpecFloat.valid_binary 53 1024 (sf x)) at 1 3 4 as b.
  intros b -> H. apply SF2B_B2SF.
Qed.

Lemma sf_of_sf x : SpecFloat.valid_binary 53 1024 x = true -> sf (of_sf x) = x.
Proof.
  intros V. unfold of_sf. generalize (eq_refl (SpecFloat.valid_binary 53 1024 x)).
  revert V. generalize (SpecFloat.valid_binary 53 1024 x) at 1 3 4 as b.
  intros b -> H. apply B2SF_SF2B.
Qed.

(** ** The operations are those of IEEE-754 *)
Section Equiv.
Let nearest_even s m l : round_nearest_even m l = choice_mode mode_NE s m l.
Proof.
  destruct l as [|[]]; try reflexivity. simpl. unfold Round.cond_incr. destruct (Z.even m); reflexivity.
Qed.

Let round_aux sx mx ex lx :
  SpecFloat.binary_round_aux 53 1024 sx mx ex lx = binary_round_aux 53 1024 mode_NE sx mx ex lx.
Proof.
  unfold SpecFloat.binary_round_aux, binary_round_aux. destruct (shr_fexp _ _ _ _ _) as [mrs e].
  rewrite (nearest_even sx). reflexivity.
Qed.

Let round s m e : SpecFloat.binary_round 53 1024 s m e = binary_round 53 1024 mode_NE s m e.
Proof.
  unfold SpecFloat.binary_round, binary_round, shl_align_fexp. destruct (shl_align _ _ _). apply round_aux.
Qed.

Let normalize m e z : SpecFloat.binary_normalize 53 1024 m e z = sf (binary_normalize 53 1024 _ _ mode_NE m e z).
Proof. destruct m; simpl; [reflexivity| |]; rewrite B2SF_SF2B; apply round. Qed.

Lemma sf_Z z : nZ (Num := Fnum) z = sf (binary_normalize 53 1024 _ _ mode_NE z 0 false).
Proof. apply normalize. Qed.

Lemma sf_mul x y : nmul (Num := Fnum) (sf x) (sf y) = sf (Bmult mode_NE x y).
Proof. destruct x, y; try reflexivity. simpl. rewrite B2SF_SF2B. apply round_aux. Qed.

Lemma sf_add x y : nadd (Num := Fnum) (sf x) (sf y) = sf (Bplus mode_NE x y).
Proof. destruct x, y; try (reflexivity || (simpl; destruct (Bool.eqb _ _); reflexivity)). apply normalize. Qed.

Lemma sf_sub x y : nsub (Num := Fnum) (sf x) (sf y) = sf (Bminus mode_NE x y).
Proof.
  destruct x, y; try (reflexivity || (simpl; destruct (Bool.eqb _ _); reflexivity)).
  simpl. unfold Zminus. rewrite <- cond_Zopp_negb. apply normalize.
Qed.

Lemma sf_div x y : ndiv (Num := Fnum) (sf x) (sf y) = sf (Bdiv mode_NE x y).
Proof.
  destruct x, y; try (reflexivity || (simpl; destruct (Bool.eqb _ _); reflexivity)).
  simpl. rewrite B2SF_SF2B. destruct (SFdiv_core_binary _ _ _ _ _ _) as [[mz ez] lz]. apply round_aux.
Qed.

Lemma sf_sqrt x : nsqrt (Num := Fnum) (sf x) = sf (Bsqrt mode_NE x).
Proof.
  destruct x as [s|s| |s m e H]; try (reflexivity || (destruct s; reflexivity)). destruct s; [reflexivity|].
  simpl. rewrite B2SF_SF2B. destruct (SFsqrt_core_binary _ _ _ _) as [[mz ez] lz]. apply round_aux.
Qed.

Lemma sf_opp x : nopp (Num := Fnum) (sf x) = sf (Bopp x).
Proof. destruct x; reflexivity. Qed.
Lemma sf_abs x : nabs (Num := Fnum) (sf x) = sf (Babs x).
Proof. destruct x; reflexivity. Qed.
End Equiv.

Theorem Vnum_ieee :
  (forall z, nZ (Num := Vnum) z = binary_normalize 53 1024 _ _ mode_NE z 0 false) /\
  (forall x y, nadd (Num := Vnum) x y = Bplus mode_NE x y) /\
  (forall x y, nsub (Num := Vnum) x y = Bminus mode_NE x y) /\
  (forall x y, nmul (Num := Vnum) x y = Bmult mode_NE x y) /\
  (forall x y, ndiv (Num := Vnum) x y = Bdiv mode_NE x y) /\
  (forall x, nsqrt (Num := Vnum) x = Bsqrt mode_NE x) /\
  (forall x, nopp (Num := Vnum) x = Bopp x) /\
  (forall x, nabs (Num := Vnum) x = Babs x).
Proof.
  repeat split; intros; cbn [nZ nadd nsub nmul ndiv nsqrt nopp nabs Vnum];
  rewrite ?sf_Z, ?sf_add, ?sf_sub, ?sf_mul, ?sf_div, ?sf_sqrt, ?sf_opp, ?sf_abs; apply of_sf_sf.
Qed.

(** Hence [Fnum] computes the same numbers: on valid triples it is [Vnum]. *)
Theorem Vnum_Fnum :
  (forall z, sf (nZ (Num := Vnum) z) = nZ (Num := Fnum) z) /\
  (forall x y, sf (nadd (Num := Vnum) x y) = nadd (Num := Fnum) (sf x) (sf y)) /\
  (forall x y, sf (nsub (Num := Vnum) x y) = nsub (Num := Fnum) (sf x) (sf y)) /\
  (forall x y, sf (nmul (Num := Vnum) x y) = nmul (Num := Fnum) (sf x) (sf y)) /\
  (forall x y, sf (ndiv (Num := Vnum) x y) = ndiv (Num := Fnum) (sf x) (sf y)) /\
  (forall x, sf (nsqrt (Num := Vnum) x) = nsqrt (Num := Fnum) (sf x)) /\
  (forall x, sf (nopp (Num := Vnum) x) = nopp (Num := Fnum) (sf x)) /\
  (forall x, sf (nabs (Num := Vnum) x) = nabs (Num := Fnum) (sf x)) /\
  (forall x y, sf (nmin (Num := Vnum) x y) = nmin (Num := Fnum) (sf x) (sf y)) /\
  (forall x y, sf (nmax (Num := Vnum) x y) = nmax (Num := Fnum) (sf x) (sf y)) /\
  (forall x, sf (nsgn (Num := Vnum) x) = nsgn (Num := Fnum) (sf x)).
Proof.
  repeat split; intros; cbn [nZ nadd nsub nmul ndiv nsqrt nopp nabs nmin nmax nsgn Vnum];
  rewrite ?sf_Z, ?sf_add, ?sf_sub, ?sf_mul, ?sf_div, ?sf_sqrt, ?sf_opp, ?sf_abs, ?of_sf_sf; try reflexivity;
  apply sf_of_sf; cbn [nmin nmax nsgn Fnum].
  - unfold b64_min. repeat (match goal with |- context [if ?b then _ else _] => destruct b end); apply valid_binary_B2SF.
  - unfold b64_max. repeat (match goal with |- context [if ?b then _ else _] => destruct b end); apply valid_binary_B2SF.
  - destruct (sign_of _); vm_compute; reflexivity.
Qed.

Lemma v64_one : nZ (Num := Vnum) 1 = Bone.
Proof. apply B2R_Bsign_inj; vm_compute; reflexivity. Qed.

Lemma v64_mul_1_r (x : v64) : nmul (Num := Vnum) x (nZ (Num := Vnum) 1) = x.
Proof.
  rewrite v64_one. destruct Vnum_ieee as (_ & _ & _ & -> & _).
  destruct (is_finite x) eqn:F.
  - pose proof (Bmult_correct 53 1024 _ _ mode_NE x Bone) as C.
    rewrite Bone_correct, Rmult_1_r in C.
    rewrite round_generic in C; [|apply valid_rnd_round_mode|apply generic_format_B2R].
    rewrite Rlt_bool_true in C by apply abs_B2R_lt_emax.
    destruct C as (C1 & C2 & C3).
    assert (F1 : is_finite (@Bone 53 1024 v64_prec v64_emax) = true) by (vm_compute; reflexivity).
    rewrite F, F1 in C2. apply B2R_Bsign_inj; auto.
    rewrite C3.
    + replace (Bsign (@Bone 53 1024 v64_prec v64_emax)) with false by (vm_compute; reflexivity).
      destruct (Bsign x); reflexivity.
    + destruct (Bmult mode_NE x Bone); try reflexivity; discriminate.
  - destruct x as [s|s| |s m e H]; try discriminate F; [destruct s|]; vm_compute; reflexivity.
Qed.

Definition Vnum_one : @NumOne v64 Vnum.
Proof. constructor. exact v64_mul_1_r. Qed.

(** Not a triviality of the representation: with the invalid triples included the
    law fails, which is why [Fnum] has no such instance. *)
Example mul_1_r_invalid : nmul (Num := Fnum) (S754_finite false 1 5000) (nZ (Num := Fnum) 1) <> S754_finite false 1 5000.
Proof. vm_compute. discriminate. Qed.
Print Assumptions Vnum_ieee.
Print Assumptions Vnum_Fnum.
Print Assumptions Vnum_one.
