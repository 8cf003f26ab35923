(** * Equilibria of the Euler equations (specification)

    The stationary Euler equations with a constant acceleration, for a gas given by its
    primitive state at every point.  Partial derivatives are those of the standard library. *)
From Coq Require Import Reals.
From Verif Require Import HydroNum.
Local Open Scope R_scope.

Definition ddx (f : R -> R -> R) (x y l : R) : Prop := derivable_pt_lim (fun t => f t y) x l.
Definition ddy (f : R -> R -> R) (x y l : R) : Prop := derivable_pt_lim (fun t => f x t) y l.

(** Mass, momentum and pressure do not change with time at (x,y). *)
Definition steady (g gx gy : R) (q : R -> R -> hs R) (x y : R) : Prop :=
  exists rx ry px py ux uy vx vy,
  ddx (fun x y => hd (q x y)) x y rx /\ ddy (fun x y => hd (q x y)) x y ry /\
  ddx (fun x y => hp (q x y)) x y px /\ ddy (fun x y => hp (q x y)) x y py /\
  ddx (fun x y => hu (q x y)) x y ux /\ ddy (fun x y => hu (q x y)) x y uy /\
  ddx (fun x y => hv (q x y)) x y vx /\ ddy (fun x y => hv (q x y)) x y vy /\
  let r := hd (q x y) in let p := hp (q x y) in let u := hu (q x y) in let v := hv (q x y) in
  (u * rx + r * ux) + (v * ry + r * vy) = 0 /\
  r * (u * ux + v * uy) + px = r * gx /\
  r * (u * vx + v * vy) + py = r * gy /\
  (u * px + v * py) + g * p * (ux + vy) = 0.

(** The gas seen by an observer moving with velocity (a,b). *)
Definition seen_from (a b : R) (q : R -> R -> hs R) (x y : R) : hs R :=
  mkhs (hd (q x y)) (hp (q x y)) (hu (q x y) - a) (hv (q x y) - b) (hw (q x y)).

(** Gas at rest whose pressure carries its weight, in three dimensions. *)
Definition hydrostatic (gx gy gz : R) (q : R -> R -> R -> hs R) (x y z : R) : Prop :=
  hu (q x y z) = 0 /\ hv (q x y z) = 0 /\ hw (q x y z) = 0 /\
  derivable_pt_lim (fun t => hp (q t y z)) x (hd (q x y z) * gx) /\
  derivable_pt_lim (fun t => hp (q x t z)) y (hd (q x y z) * gy) /\
  derivable_pt_lim (fun t => hp (q x y t)) z (hd (q x y z) * gz).
