(** * The equations of gas dynamics in conservative variables

    A state is (rho, E, rho u, rho v, rho w); in 2D the last component is zero. *)
From Coq Require Import ZArith Reals.
From Verif Require Import Num HydroNum EulerEq.
Local Open Scope R_scope.

(** Component of a vector along an axis. *)
Definition along (d : dir3) (q : hs R) : R := match d with DX => hu q | DY => hv q | DZ => hw q end.

(** Pressure of an ideal gas. *)
Definition gas_pressure (gamma : R) (q : hs R) : R :=
  (gamma - 1) * (hp q - (hu q * hu q + hv q * hv q + hw q * hw q) / (2 * hd q)).

(** Every conserved quantity is carried by the velocity along the axis; pressure
    pushes along the axis and works. *)
Definition carried (d : dir3) (q : hs R) (p : R) : hs R :=
  let un := along d q / hd q in
  let push e := match d, e with DX, DX | DY, DY | DZ, DZ => p | _, _ => 0 end in
  mkhs (un * hd q) (un * hp q + un * p) (un * hu q + push DX) (un * hv q + push DY) (un * hw q + push DZ).

(** [q + t r] *)
Definition shift (q r : hs R) (t : R) : hs R :=
  mkhs (hd q + t * hd r) (hp q + t * hp r) (hu q + t * hu r) (hv q + t * hv r) (hw q + t * hw r).

(** Derivative at 0 of a curve of states, component by component. *)
Definition derivative (f : R -> hs R) (l : hs R) : Prop :=
  derivable_pt_lim (fun t => hd (f t)) 0 (hd l) /\ derivable_pt_lim (fun t => hp (f t)) 0 (hp l) /\
  derivable_pt_lim (fun t => hu (f t)) 0 (hu l) /\ derivable_pt_lim (fun t => hv (f t)) 0 (hv l) /\
  derivable_pt_lim (fun t => hw (f t)) 0 (hw l).

(** Amplitudes of the waves, multiplied by their speeds un - c, un, un, un, un + c
    (the first component is that of un - c, the second that of un + c). *)
Definition by_speeds (un c : R) (a : hs R) : hs R :=
  mkhs ((un - c) * hd a) ((un + c) * hp a) (un * hu a) (un * hv a) (un * hw a).

(** Stress of a viscous fluid in [n] dimensions; [grad a b]: derivative of component
    a of the velocity along axis b. *)
Definition trace (n : nat) (grad : nat -> nat -> R) : R := sum_f_R0 (fun a => grad a a) (n - 1).
Definition stress (n : nat) (grad : nat -> nat -> R) (mu : R) (a b : nat) : R :=
  mu * (grad a b + grad b a - (if Nat.eqb a b then 2 / INR n * trace n grad else 0)).
(** Power dissipated. *)
Definition dissipation (n : nat) (grad : nat -> nat -> R) (mu : R) : R :=
  sum_f_R0 (fun a => sum_f_R0 (fun b => stress n grad mu a b * grad a b) (n - 1)) (n - 1).
