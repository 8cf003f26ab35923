(** * MUSCL-Hancock predictor and interface fluxes: what they should be

    Independent of the program, over the reals.  The predictor is specified
    through the Euler equations in conservation form and derivatives, the
    interface fluxes through jump conditions. *)
From Coq Require Import ZArith List Reals Sorted.
Import ListNotations.
From Verif Require Import Num Exec Grid HydroNum EulerSpec.
Local Open Scope R_scope.

(** ** Euler equations along every axis *)

Inductive axis := AX | AY | AZ.

(** Velocity of [q] along an axis. *)
Definition speed_along (a : axis) (q : hs R) : R :=
  match a with AX => hu q | AY => hv q | AZ => hw q end.

(** Conserved quantities of a primitive state: mass, total energy, momentum. *)
Definition conserved (S : hset R) (d3 : bool) (q : hs R) : hs R :=
  mkhs (hd q) (energy S d3 q) (hd q * hu q) (hd q * hv q) (if d3 then hd q * hw q else 0).

(** Flux of the conserved quantities along an axis: everything is carried with
    the velocity; pressure adds to the momentum of the axis and does work. *)
Definition axis_flux (S : hset R) (d3 : bool) (a : axis) (q : hs R) : hs R :=
  let un := speed_along a q in
  mkhs (hd q * un)
       ((energy S d3 q + hp q) * un)
       (hd q * hu q * un + match a with AX => hp q | _ => 0 end)
       (hd q * hv q * un + match a with AY => hp q | _ => 0 end)
       (if d3 then hd q * hw q * un + match a with AZ => hp q | _ => 0 end else 0).

(** The state reached from [q] by moving by [e] in direction [d]. *)
Definition along (q d : hs R) (e : R) : hs R :=
  mkhs (hd q + e * hd d) (hp q + e * hp d) (hu q + e * hu d) (hv q + e * hv d) (hw q + e * hw d).

Definition hscaleR (c : R) (q : hs R) : hs R :=
  mkhs (c * hd q) (c * hp q) (c * hu q) (c * hv q) (c * hw q).

(** [r] is the time derivative of the primitive state [q] whose gradient is
    [gX], [gY], [gZ]: the conserved quantities change by minus the divergence of
    the fluxes. *)
Definition euler_rate (S : hset R) (d3 : bool) (q gX gY gZ r : hs R) : Prop :=
  forall v, In v [ID; IP; IU; IV; IW] ->
  exists fx fy fz,
    derivable_pt_lim (fun e => hget (axis_flux S d3 AX (along q gX e)) v) 0 fx /\
    derivable_pt_lim (fun e => hget (axis_flux S d3 AY (along q gY e)) v) 0 fy /\
    derivable_pt_lim (fun e => hget (axis_flux S d3 AZ (along q gZ e)) v) 0 fz /\
    derivable_pt_lim (fun e => hget (conserved S d3 (along q r e)) v) 0 (- (fx + fy + fz)).

(** Axis and side of a face. *)
Definition axis_of (f : face) : axis :=
  match f with XMIN | XMAX => AX | YMIN | YMAX => AY | ZMIN | ZMAX => AZ end.
Definition side_of (f : face) : R :=
  match f with XMIN | YMIN | ZMIN => -1 | XMAX | YMAX | ZMAX => 1 end.

(** State at the centre of face [f] half a time step later, for a cell of value
    [q], slopes [d a] (difference across the cell along axis [a]), time derivative
    [r] and acceleration (gx, gy, gz); density is floored. *)
Definition hancock (S : hset R) (dt : R) (q : hs R) (d : axis -> hs R) (r : hs R)
  (gx gy gz : R) (f : face) : hs R :=
  let w := along (along q (d (axis_of f)) (side_of f / 2)) r (dt / 2) in
  mkhs (Rmax (smallr S) (hd w)) (hp w)
       (hu w + dt / 2 * gx) (hv w + dt / 2 * gy) (hw w + dt / 2 * gz).

(** ** Interface fluxes *)

(** Rankine-Hugoniot condition across a jump moving at speed [s]. *)
Definition jump (s : R) (u1 f1 u2 f2 : hs R) : Prop :=
  forall v, In v [ID; IP; IU; IV; IW] -> hget f2 v - hget f1 v = s * (hget u2 v - hget u1 v).

(** A fan of constant states (value, flux) separated by jumps, from (u, f) to
    (u', f'): the list gives the speed of each jump and the state behind it. *)
Inductive fan : hs R -> hs R -> list (R * (hs R * hs R)) -> hs R -> hs R -> Prop :=
| fan_end u f : fan u f [] u f
| fan_jump u f s u1 f1 l u' f' :
    jump s u f u1 f1 -> fan u1 f1 l u' f' -> fan u f ((s, (u1, f1)) :: l) u' f'.

(** Flux of the fan on the line x = 0: that of the last state entered by a jump
    of non-positive speed. *)
Fixpoint at_rest (f : hs R) (l : list (R * (hs R * hs R))) : hs R :=
  match l with
  | [] => f
  | (s, (_, f1)) :: l' => if Rle_dec s 0 then at_rest f1 l' else f
  end.

(** [F] is the flux on x = 0 of the fan [l], which joins the two states and whose
    jumps are ordered by speed. *)
Definition fan_flux (S : hset R) (d3 : bool) (ql qr : hs R) (l : list (R * (hs R * hs R))) (F : hs R) : Prop :=
  Sorted Rle (map fst l) /\
  fan (conserved S d3 ql) (axis_flux S d3 AX ql) l (conserved S d3 qr) (axis_flux S d3 AX qr) /\
  at_rest (axis_flux S d3 AX ql) l = F.

(** A state carried along at normal velocity [s] under pressure [p]: value and flux. *)
Definition carried (d3 : bool) (r e s p v w : R) : hs R * hs R :=
  (mkhs r e (r * s) (r * v) (if d3 then r * w else 0),
   mkhs (r * s) ((e + p) * s) (r * s * s + p) (r * s * v) (if d3 then r * s * w else 0)).

(** The characteristic speeds u - c and u + c of a state lie between two speeds. *)
Definition encloses (S : hset R) (sl sr : R) (q : hs R) : Prop :=
  sl <= hu q - sound S q /\ hu q + sound S q <= sr.
