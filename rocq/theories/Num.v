(** * Arithmetic interface of the model

    Models [real_t] and the <cmath>/Kokkos functions used by the kernels
    (/repo/src/shared/real_type.h:1-90: [real_t], [FMAX], [FMIN], [SQRT],
    [FABS], [COPYSIGN], [ISFUZZYNULL], literals [ZERO_F], [HALF_F], ...).

    No law is assumed: a theorem proved for every instance of [Num] holds in
    particular for IEEE doubles under any rounding.  The instance [Rnum]
    (exact real arithmetic) is used for the physics laws. *)
From Coq Require Import ZArith Reals Lra Psatz Bool.

Class Num (T : Type) := {
  nZ    : Z -> T;            (* integer literals and int -> real_t conversions *)
  nadd  : T -> T -> T;
  nsub  : T -> T -> T;
  nmul  : T -> T -> T;
  ndiv  : T -> T -> T;
  nopp  : T -> T;
  nsqrt : T -> T;
  nabs  : T -> T;
  nmin  : T -> T -> T;
  nmax  : T -> T -> T;
  nltb  : T -> T -> bool;    (* a < b *)
  nleb  : T -> T -> bool;    (* a <= b *)
  nsgn  : T -> T             (* COPYSIGN(1, x) *)
}.

Declare Scope num_scope.
Delimit Scope num_scope with num.
Infix "+" := nadd : num_scope.
Infix "-" := nsub : num_scope.
Infix "*" := nmul : num_scope.
Infix "/" := ndiv : num_scope.
Notation "- x" := (nopp x) : num_scope.
Infix "<?" := nltb : num_scope.
Infix "<=?" := nleb : num_scope.
Notation "a >? b" := (nltb b a) (only parsing) : num_scope.
Notation "a >=? b" := (nleb b a) (only parsing) : num_scope.

(** real_type.h:  ZERO_F, ONE_F, TWO_F, HALF_F (=0.5), ONE_FOURTH_F (=0.25). *)
Definition n0 {T} `{Num T} : T := nZ 0.
Definition n1 {T} `{Num T} : T := nZ 1.
Definition n2 {T} `{Num T} : T := nZ 2.
Definition nhalf {T} `{Num T} : T := ndiv (nZ 1) (nZ 2).
Definition nquarter {T} `{Num T} : T := ndiv (nZ 1) (nZ 4).

(** C++ [a == b] on real_t: false on NaN. *)
Definition neqb {T} `{Num T} (a b : T) : bool := nleb a b && nleb b a.

(** Exact real arithmetic. *)
#[export] Instance Rnum : Num R := {
  nZ := IZR;
  nadd := Rplus;
  nsub := Rminus;
  nmul := Rmult;
  ndiv := Rdiv;
  nopp := Ropp;
  nsqrt := sqrt;
  nabs := Rabs;
  nmin := Rmin;
  nmax := Rmax;
  nltb := fun a b => if Rlt_dec a b then true else false;
  nleb := fun a b => if Rle_dec a b then true else false;
  nsgn := fun a => if Rlt_dec a 0 then (-1)%R else 1%R
}.
