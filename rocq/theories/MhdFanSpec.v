(** * MHD interface fluxes: what they should be

    Independent of the program, over the reals: fans of constant states joined by
    jumps that satisfy the conservation laws of ideal MHD with a constant normal
    field (compare HancockSpec.v for hydrodynamics). *)
From Coq Require Import ZArith List Reals Sorted.
Import ListNotations.
From Verif Require Import Num Exec Grid HydroNum MhdNum MhdSpec.
Local Open Scope R_scope.

Definition mhd_vars : list Z := [ID; IP; IU; IV; IW; IA; IB; IC].

(** Rankine-Hugoniot condition across a jump moving at speed [s]. *)
Definition mjump (s : R) (u1 f1 u2 f2 : ms R) : Prop :=
  forall v, In v mhd_vars -> mget f2 v - mget f1 v = s * (mget u2 v - mget u1 v).

(** A fan of constant states (value, flux) separated by jumps, from (u, f) to
    (u', f'): the list gives the speed of each jump and the state behind it. *)
Inductive mfan : ms R -> ms R -> list (R * (ms R * ms R)) -> ms R -> ms R -> Prop :=
| mfan_end u f : mfan u f [] u f
| mfan_jump u f s u1 f1 l u' f' :
    mjump s u f u1 f1 -> mfan u1 f1 l u' f' -> mfan u f ((s, (u1, f1)) :: l) u' f'.

(** Flux of the fan on the line x = 0: that of the last state entered by a jump
    of non-positive speed. *)
Fixpoint mat_rest (f : ms R) (l : list (R * (ms R * ms R))) : ms R :=
  match l with
  | [] => f
  | (s, (_, f1)) :: l' => if Rle_dec s 0 then mat_rest f1 l' else f
  end.

(** The state [q] with normal field [a]. *)
Definition with_bn (q : ms R) (a : R) : ms R :=
  mkms (md q) (mp q) (mu q) (mv q) (mw q) a (mb q) (mc q).

(** [F] is the flux on x = 0 of the fan [l], which joins the two states, both given
    the mean normal field. *)
Definition mfan_flux (S : hset R) (ql qr : ms R) (l : list (R * (ms R * ms R))) (F : ms R) : Prop :=
  let a := (ma ql + ma qr) / 2 in
  mfan (conserved S (with_bn ql a)) (ideal_flux S (with_bn ql a)) l
       (conserved S (with_bn qr a)) (ideal_flux S (with_bn qr a)) /\
  mat_rest (ideal_flux S (with_bn ql a)) l = F.

(** A state with normal field [a] carried along at normal velocity [s] under total
    pressure [p]: value and flux. *)
Definition mcarried (a r e s p v w b c : R) : ms R * ms R :=
  (mkms r e (r * s) (r * v) (r * w) a b c,
   mkms (r * s) ((e + p) * s - a * (s * a + v * b + w * c)) (r * s * s + p - a * a)
        (r * s * v - a * b) (r * s * w - a * c) 0 (s * b - v * a) (s * c - w * a)).

(** [c] is the fast magnetosonic speed of [q] along the first axis. *)
Definition fast_speed (S : hset R) (q : ms R) (c : R) : Prop :=
  0 < c /\ magnetosonic S q (ma q) (c * c) = 0 /\ forall x, c * c < x -> 0 < magnetosonic S q (ma q) x.

(** The speeds u - c and u + c of a state lie between two speeds. *)
Definition mencloses (sl sr : R) (q : ms R) (c : R) : Prop := sl <= mu q - c /\ mu q + c <= sr.

(** Speed of the middle wave for outer speeds [sl], [sr]: the quotient of the mean
    momentum and the mean mass between the outer waves. *)
Definition contact_speed (ql qr : ms R) (sl sr : R) : R :=
  let ml := md ql * (mu ql - sl) in
  let mr := md qr * (sr - mu qr) in
  (mr * mu qr + ml * mu ql + total_pressure ql - total_pressure qr) / (mr + ml).

(** The program's star states are those of the jump conditions: [m] the mass
    crossing the outer wave, [d] the distance (in speed) from it to the contact. *)
Definition regular (a m d : R) : Prop :=
  m * d <> a * a /\ ~ (a <> 0 /\ Rabs ((m * d - a * a) / (a * a) - 1) <= / 100000000).
