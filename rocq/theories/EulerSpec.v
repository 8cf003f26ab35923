(** * Euler equations: what the per-cell functions should compute

    Independent of the program: fluxes, mirror image, admissible states and
    settings, all over the real numbers. *)
From Coq Require Import ZArith Reals.
From Verif Require Import Num Exec Grid HydroNum.
Local Open Scope R_scope.

(** Settings as produced by [derive] from a parameter file with gamma > 1 and
    positive floors. *)
Definition sane (S : hset R) : Prop :=
  1 < gamma0 S /\ 0 < smallr S /\ 0 < smallc S /\
  smallp S = smallc S * smallc S / gamma0 S /\
  gamma6 S = (gamma0 S + 1) / (2 * gamma0 S) /\
  smallpp S = smallr S * smallp S.

(** Primitive state above the floors. *)
Definition admissible (S : hset R) (q : hs R) : Prop :=
  smallr S <= hd q /\ hd q * smallp S <= hp q.

(** Squared speed; the third component exists in 3D only. *)
Definition vel2 (d3 : bool) (q : hs R) : R :=
  hu q * hu q + hv q * hv q + (if d3 then hw q * hw q else 0).

(** Total energy per unit volume of a primitive state (rho, p, u, v, w). *)
Definition energy (S : hset R) (d3 : bool) (q : hs R) : R :=
  hp q / (gamma0 S - 1) + hd q * vel2 d3 q / 2.

(** Physical Euler flux along the first axis. *)
Definition euler_flux (S : hset R) (d3 : bool) (q : hs R) : hs R :=
  mkhs (hd q * hu q)
       (hu q * (energy S d3 q + hp q))
       (hd q * hu q * hu q + hp q)
       (hd q * hu q * hv q)
       (if d3 then hd q * hu q * hw q else 0).

(** Mirror image of a state along the first axis. *)
Definition mirror (q : hs R) : hs R := mkhs (hd q) (hp q) (- hu q) (hv q) (hw q).

(** How a flux transforms when the interface is seen from the other side. *)
Definition mirror_flux (f : hs R) : hs R := mkhs (- hd f) (- hp f) (hu f) (- hv f) (- hw f).

(** A flux through which nothing passes: no mass, no energy, no transverse momentum. *)
Definition no_flow (f : hs R) : Prop := hd f = 0 /\ hp f = 0 /\ hv f = 0 /\ hw f = 0.

(** Sound speed of a state. *)
Definition sound (S : hset R) (q : hs R) : R := sqrt (gamma0 S * hp q / hd q).

(** All waves of the Riemann problem (ql, qr) move to the right. *)
Definition supersonic_right (S : hset R) (ql qr : hs R) : Prop :=
  Rmax (sound S ql) (sound S qr) < Rmin (hu ql) (hu qr).

(** All waves move to the left. *)
Definition supersonic_left (S : hset R) (ql qr : hs R) : Prop :=
  Rmax (hu ql) (hu qr) < - Rmax (sound S ql) (sound S qr).
