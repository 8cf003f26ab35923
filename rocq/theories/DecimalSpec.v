(** * Real numbers written in decimal, and the float nearest to a real (specification)

    Written with Flocq's rounding of real numbers, not with the operations of the model. *)
From Coq Require Import Ascii String ZArith List Bool Reals Floats.SpecFloat.
From Flocq Require Import Core.Core IEEE754.BinarySingleNaN.
From Verif Require Import ConfigSpec.
Import ListNotations.
Local Open Scope R_scope.

(** [x] is the binary32 number nearest to [y] (ties to even), infinite beyond the largest. *)
Definition near32 (y : R) : R := round radix2 (FLT_exp (-149) 24) ZnearestE y.
Definition is_float_of (y : R) (x : spec_float) : Prop :=
  (Rabs (near32 y) < bpow radix2 128 -> is_finite_SF x = true /\ SF2R radix2 x = near32 y) /\
  (bpow radix2 128 <= Rabs (near32 y) -> x = S754_infinity (Rlt_bool y 0)).

(** An optional sign, digits with at most one point among or beside them, and optionally
    an exponent, for example -12.50e-3. *)
Definition exponent_text (e : chars) (k : Z) : Prop :=
  (e = [] /\ k = 0%Z) \/
  exists c sg ds, e = c :: sg ++ ds /\ (c = "e"%char \/ c = "E"%char) /\ signed sg /\ ds <> [] /\
    Forall decimal ds /\ k = (signum sg * dvalue ds)%Z.
Definition decimal_text (v : chars) (y : R) : Prop :=
  exists sg ip dot fp e k, v = sg ++ ip ++ dot ++ fp ++ e /\ signed sg /\
    Forall decimal ip /\ Forall decimal fp /\ ip ++ fp <> [] /\
    (dot = ["."%char] \/ dot = [] /\ fp = []) /\ exponent_text e k /\
    y = IZR (signum sg * dvalue (ip ++ fp)) * powerRZ 10 (k - Z.of_nat (length fp)).
