(** * The MHD predictor: what it should be

    Independent of the program, over the reals: the equations of ideal MHD in
    conservation form, through derivatives, and the states half a time step later
    on the faces and edges of a cell. *)
From Coq Require Import ZArith List Reals.
Import ListNotations.
From Verif Require Import Num Exec Grid HydroNum Hydro2DSpec Hydro3D Hydro3DSpec MhdNum MhdSpec MhdFanSpec.
Local Open Scope R_scope.

(** A state seen with the axis [d] first (the first axis takes its place). *)
Definition first_axis (d : dir) (q : ms R) : ms R :=
  match d with
  | DX => q
  | DY => mkms (md q) (mp q) (mv q) (mu q) (mw q) (mb q) (ma q) (mc q)
  | DZ => mkms (md q) (mp q) (mw q) (mv q) (mu q) (mc q) (mb q) (ma q)
  end.

(** Flux of the conserved quantities along an axis. *)
Definition flux_along (S : hset R) (d : dir) (q : ms R) : ms R :=
  first_axis d (ideal_flux S (first_axis d q)).

(** [q + e * g], component by component. *)
Definition mline (q g : ms R) (e : R) : ms R :=
  mkms (md q + e * md g) (mp q + e * mp g) (mu q + e * mu g) (mv q + e * mv g) (mw q + e * mw g)
       (ma q + e * ma g) (mb q + e * mb g) (mc q + e * mc g).

(** [r] is the time derivative of the primitive state [q] whose gradient along axis
    [d] is [g d]: the conserved quantities change by minus the divergence of the
    fluxes. *)
Definition mhd_rate (S : hset R) (q : ms R) (g : dir -> ms R) (r : ms R) : Prop :=
  forall v, In v mhd_vars ->
  exists fx fy fz,
    derivable_pt_lim (fun e => mget (flux_along S DX (mline q (g DX) e)) v) 0 fx /\
    derivable_pt_lim (fun e => mget (flux_along S DY (mline q (g DY) e)) v) 0 fy /\
    derivable_pt_lim (fun e => mget (flux_along S DZ (mline q (g DZ) e)) v) 0 fz /\
    derivable_pt_lim (fun e => mget (MhdSpec.conserved S (mline q r e)) v) 0 (- (fx + fy + fz)).

(** The magnetic field on the faces of a cell: its component across the lower
    ([false]) and upper ([true]) face along [d], the time derivative of that
    component, and the difference across the face along another axis. *)
Record faces := mkfaces {
  fb : dir -> bool -> R;
  ft : dir -> bool -> R;
  fs : dir -> dir -> bool -> R
}.

(** Gradient of the cell: slopes [d a] (differences across the cell along axis [a])
    over the cell sizes; the normal field component from the two faces. *)
Definition with_b (d : dir) (q : ms R) (x : R) : ms R :=
  match d with
  | DX => mkms (md q) (mp q) (mu q) (mv q) (mw q) x (mb q) (mc q)
  | DY => mkms (md q) (mp q) (mu q) (mv q) (mw q) (ma q) x (mc q)
  | DZ => mkms (md q) (mp q) (mu q) (mv q) (mw q) (ma q) (mb q) x
  end.
Definition size (S : hset R) (d : dir) : R := match d with DX => dx S | DY => dy S | DZ => dz S end.
Definition gradient (S : hset R) (sl : dir -> ms R) (F : faces) (d : dir) : ms R :=
  mline (mkms 0 0 0 0 0 0 0 0) (with_b d (sl d) (fb F d true - fb F d false)) (/ size S d).

(** Side of the cell: half the slope is subtracted or added. *)
Definition side (up : bool) : R := if up then 1 else -1.

(** Density and pressure are kept above their floors. *)
Definition floored (S : hset R) (pmin : R -> R) (q : ms R) : ms R :=
  let d := Rmax (smallr S) (md q) in
  mkms d (Rmax (pmin d) (mp q)) (mu q) (mv q) (mw q) (ma q) (mb q) (mc q).

Section Predicted.
Variable S : hset R.
Variable pmin : R -> R.       (* floor of the pressure for a given density *)
Variable dt : R.
Variable q : ms R.            (* cell value *)
Variable sl : dir -> ms R.    (* slopes *)
Variable F : faces.
Variable r : ms R.            (* time derivative of the cell value *)

(** Centre of a face: the component of the field across it lives there. *)
Definition face_pred (d : dir) (up : bool) : ms R :=
  floored S pmin (with_b d (mline (mline q (sl d) (side up / 2)) r (dt / 2)) (fb F d up + dt / 2 * ft F d up)).

(** Centre of an edge, on sides [u0], [u1] along the two axes [d0], [d1] across it:
    both components across the edge live on faces. *)
Definition edge_pred (d0 d1 : dir) (u0 u1 : bool) : ms R :=
  floored S pmin
    (with_b d1 (with_b d0 (mline (mline (mline q (sl d0) (side u0 / 2)) (sl d1) (side u1 / 2)) r (dt / 2))
      (fb F d0 u0 + side u1 / 2 * fs F d0 d1 u0 + dt / 2 * ft F d0 u0))
      (fb F d1 u1 + side u0 / 2 * fs F d1 d0 u1 + dt / 2 * ft F d1 u1)).

End Predicted.

(** Limited difference at [q] between [qm] below and [qp] above: zero at an extremum,
    else the smallest of [th] times either one-sided difference and the centred one
    (minmod for [th = 1], monotonized central for [th = 2]). *)
Definition limiter (th q qp qm : R) : R :=
  let l := q - qm in
  let r := qp - q in
  if Rle_dec (l * r) 0 then 0
  else if Rle_dec 0 l then Rmin (Rmin (th * l) (th * r)) ((l + r) / 2)
  else Rmax (Rmax (th * l) (th * r)) ((l + r) / 2).

Definition mlimiter (th : R) (q qp qm : ms R) : ms R :=
  let f c := limiter th (c q) (c qp) (c qm) in
  mkms (f md) (f mp) (f mu) (f mv) (f mw) (f ma) (f mb) (f mc).

(** Limited slopes of a cell by axis. *)
Definition slopes2m (th : R) (Q : Z -> Z -> ms R) (i j : Z) (d : dir) : ms R :=
  match d with
  | DX => mlimiter th (Q i j) (Q (i + 1)%Z j) (Q (i - 1)%Z j)
  | DY => mlimiter th (Q i j) (Q i (j + 1)%Z) (Q i (j - 1)%Z)
  | DZ => mkms 0 0 0 0 0 0 0 0
  end.
Definition slopes3m (th : R) (Q : Z -> Z -> Z -> ms R) (i j k : Z) (d : dir) : ms R :=
  match d with
  | DX => mlimiter th (Q i j k) (Q (i + 1)%Z j k) (Q (i - 1)%Z j k)
  | DY => mlimiter th (Q i j k) (Q i (j + 1)%Z k) (Q i (j - 1)%Z k)
  | DZ => mlimiter th (Q i j k) (Q i j (k + 1)%Z) (Q i j (k - 1)%Z)
  end.

(** Electric field at an edge between four cells: mean velocity of the cells, mean
    field on the faces that meet there. *)
Definition mean4 (f : ms R -> R) (a b c d : ms R) : R := (f a + f b + f c + f d) / 4.

(** ** Face data of a cell of a mesh, from the field [U] (face-centred components in
    IA, IB, IC, on the lower faces) and the primitive states [Q] *)

(** 2D. *)
Section Plane.
Variable S : hset R.
Variable U : field2 R.
Variable Q : Z -> Z -> ms R.

Definition corner_emf (i j : Z) : R :=
  let m f := mean4 f (Q (i - 1) (j - 1))%Z (Q (i - 1)%Z j) (Q i (j - 1)%Z) (Q i j) in
  m mu * ((U (i - 1)%Z j IB + U i j IB) / 2) - m mv * ((U i (j - 1)%Z IA + U i j IA) / 2).

(** Limited difference of three successive values. *)
Variable limited : R -> R -> R -> R.

Definition faces2 (i j : Z) : faces :=
  let up (b : bool) : Z := if b then 1%Z else 0%Z in
  mkfaces
    (fun d b => match d with DX => U (i + up b)%Z j IA | DY => U i (j + up b)%Z IB | DZ => 0 end)
    (fun d b => match d with
       | DX => (corner_emf (i + up b) (j + 1) - corner_emf (i + up b) j) / dy S
       | DY => - (corner_emf (i + 1) (j + up b) - corner_emf i (j + up b)) / dx S
       | DZ => 0 end)
    (fun d a b => match d, a with
       | DX, DY => let i' := (i + up b)%Z in limited (U i' j IA) (U i' (j + 1)%Z IA) (U i' (j - 1)%Z IA)
       | DY, DX => let j' := (j + up b)%Z in limited (U i j' IB) (U (i + 1)%Z j' IB) (U (i - 1)%Z j' IB)
       | _, _ => 0 end).
End Plane.

(** 3D. *)
Section Space.
Variable S : hset R.
Variable U : field3 R.
Variable Q : Z -> Z -> Z -> ms R.

(** Electric field on the lower edge of (i,j,k) along [e]. *)
Definition edge_emf (e : dir) (i j k : Z) : R :=
  match e with
  | DX => let m f := mean4 f (Q i (j - 1) (k - 1))%Z (Q i (j - 1)%Z k) (Q i j (k - 1)%Z) (Q i j k) in
      m mv * ((U i (j - 1)%Z k IC + U i j k IC) / 2) - m mw * ((U i j (k - 1)%Z IB + U i j k IB) / 2)
  | DY => let m f := mean4 f (Q (i - 1) j (k - 1))%Z (Q (i - 1)%Z j k) (Q i j (k - 1)%Z) (Q i j k) in
      m mw * ((U i j (k - 1)%Z IA + U i j k IA) / 2) - m mu * ((U (i - 1)%Z j k IC + U i j k IC) / 2)
  | DZ => let m f := mean4 f (Q (i - 1) (j - 1) k)%Z (Q (i - 1)%Z j k) (Q i (j - 1)%Z k) (Q i j k) in
      m mu * ((U (i - 1)%Z j k IB + U i j k IB) / 2) - m mv * ((U i (j - 1)%Z k IA + U i j k IA) / 2)
  end.

Variable limited : R -> R -> R -> R.

Definition faces3 (i j k : Z) : faces :=
  let up (b : bool) : Z := if b then 1%Z else 0%Z in
  let lim c i j k (a : dir) := match a with
    | DX => limited (U i j k c) (U (i + 1)%Z j k c) (U (i - 1)%Z j k c)
    | DY => limited (U i j k c) (U i (j + 1)%Z k c) (U i (j - 1)%Z k c)
    | DZ => limited (U i j k c) (U i j (k + 1)%Z c) (U i j (k - 1)%Z c) end in
  mkfaces
    (fun d b => match d with
       | DX => U (i + up b)%Z j k IA | DY => U i (j + up b)%Z k IB | DZ => U i j (k + up b)%Z IC end)
    (fun d b => match d with
       | DX => let i := (i + up b)%Z in
           (edge_emf DZ i (j + 1) k - edge_emf DZ i j k) / dy S - (edge_emf DY i j (k + 1) - edge_emf DY i j k) / dz S
       | DY => let j := (j + up b)%Z in
           (edge_emf DX i j (k + 1) - edge_emf DX i j k) / dz S - (edge_emf DZ (i + 1) j k - edge_emf DZ i j k) / dx S
       | DZ => let k := (k + up b)%Z in
           (edge_emf DY (i + 1) j k - edge_emf DY i j k) / dx S - (edge_emf DX i (j + 1) k - edge_emf DX i j k) / dy S
       end)
    (fun d a b => match d with
       | DX => lim IA (i + up b)%Z j k a | DY => lim IB i (j + up b)%Z k a | DZ => lim IC i j (k + up b)%Z a end).
End Space.
