(** * IEEE-754 binary64 arithmetic as an instance of the interface

    Round-to-nearest-even operations of the Coq standard library
    (Coq.Floats.SpecFloat), i.e. what [real_t = double] computes
    (/repo/src/shared/real_type.h:13-20) on hardware without extended
    precision or contraction.  Executable and axiom free. *)
From Coq Require Import ZArith Bool Floats.SpecFloat.
From Verif Require Import Num.
Local Open Scope Z_scope.

Definition b64 := spec_float.

Definition is_nan (x : b64) : bool := match x with S754_nan => true | _ => false end.
Definition sign_of (x : b64) : bool :=
  match x with S754_zero b | S754_infinity b | S754_finite b _ _ => b | S754_nan => false end.

Definition b64_Z (z : Z) : b64 := binary_normalize 53 1024 z 0 false.

(** C [fmin]/[fmax]: a NaN argument is ignored. *)
Definition b64_min (a b : b64) : b64 :=
  if is_nan a then b else if is_nan b then a else if SFltb b a then b else a.
Definition b64_max (a b : b64) : b64 :=
  if is_nan a then b else if is_nan b then a else if SFltb a b then b else a.

Definition Fnum : Num b64 := {|
  nZ := b64_Z;
  nadd := SFadd 53 1024;
  nsub := SFsub 53 1024;
  nmul := SFmul 53 1024;
  ndiv := SFdiv 53 1024;
  nopp := SFopp;
  nsqrt := SFsqrt 53 1024;
  nabs := SFabs;
  nmin := b64_min;
  nmax := b64_max;
  nltb := SFltb;
  nleb := SFleb;
  nsgn := fun x => if sign_of x then b64_Z (-1) else b64_Z 1
|}.
