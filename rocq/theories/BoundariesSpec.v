(** * Specification of the boundary types (independent of the functors)

    What a user expects from a face of the box: the value of a ghost cell is
    the value found at its image in the physical domain. *)
From Coq Require Import ZArith Bool.
From Verif Require Import Num Exec Grid.
Local Open Scope Z_scope.

Inductive kind := Reflecting | Absorbing | Periodic.

(** Meaning of the integer code given in the parameter file (enums.h: 1 = DIRICHLET
    i.e. reflecting wall, 2 = NEUMANN i.e. absorbing, 3 = PERIODIC). Every other
    code behaves as periodic in the program. *)
Definition kind_of (code : Z) : kind :=
  if code =? 1 then Reflecting else if code =? 2 then Absorbing else Periodic.

(** Cells along one axis: 0 .. g-1 low ghosts, g .. g+n-1 physical, then high ghosts. *)
Definition ghost_lo (g i : Z) : Prop := 0 <= i < g.
Definition ghost_hi (n g i : Z) : Prop := n + g <= i < n + 2 * g.
Definition physical (n g i : Z) : Prop := g <= i < n + g.

(** Image of cell [i] along one axis: mirror about the wall, nearest physical
    cell, or translation by the period. *)
Definition image (lo hi : kind) (n g i : Z) : Z :=
  if i <? g then
    match lo with Reflecting => 2 * g - 1 - i | Absorbing => g | Periodic => i + n end
  else if n + g <=? i then
    match hi with Reflecting => 2 * (n + g) - 1 - i | Absorbing => n + g - 1 | Periodic => i - n end
  else i.

(** Does crossing the axis mirror the cell? *)
Definition mirrored (lo hi : kind) (n g i : Z) : bool :=
  if i <? g then match lo with Reflecting => true | _ => false end
  else if n + g <=? i then match hi with Reflecting => true | _ => false end
  else false.

(** There must be enough physical cells to fill the ghosts (an absorbing side
    only needs one). *)
Definition enough (k : kind) (n g : Z) : Prop :=
  1 <= n /\ (k = Absorbing \/ g <= n).

(** [x * 1.0 = x]: holds in IEEE arithmetic and in R. *)
Class NumOne (T : Type) `{Num T} := { nmul_1_r : forall x : T, nmul x (nZ 1) = x }.

(** Change of sign as done by the program, [x * -1.0]. *)
Definition negate {T} `{Num T} (x : T) : T := nmul x (nopp (nZ 1)).

Definition flip_if {T} `{Num T} (b : bool) (x : T) : T := if b then negate x else x.

#[export] Instance Rnum_one : NumOne Reals.Rdefinitions.R.
Proof. constructor. intros. apply Reals.RIneq.Rmult_1_r. Qed.

(** Vector components normal to an axis change sign in a mirror: momentum
    components (variables 2,3,4) and, for MHD, magnetic components (5,6,7). *)
Definition odd_x (mhd : bool) (v : Z) : bool := (v =? 2) || (mhd && (v =? 5)).
Definition odd_y (mhd : bool) (v : Z) : bool := (v =? 3) || (mhd && (v =? 6)).
Definition odd_z (mhd : bool) (v : Z) : bool := (v =? 4) || (mhd && (v =? 7)).

(** The mesh is wide enough for its boundary types. *)
Definition wide2 (m : mesh) : Prop :=
  0 < gw m /\ 0 <= nbvar m /\
  enough (kind_of (bc m XMIN)) (nx m) (gw m) /\ enough (kind_of (bc m XMAX)) (nx m) (gw m) /\
  enough (kind_of (bc m YMIN)) (ny m) (gw m) /\ enough (kind_of (bc m YMAX)) (ny m) (gw m).

Definition wide3 (m : mesh) : Prop :=
  wide2 m /\
  enough (kind_of (bc m ZMIN)) (nz m) (gw m) /\ enough (kind_of (bc m ZMAX)) (nz m) (gw m).

(** Physical image of a cell of the array along each axis. *)
Definition image_x (m : mesh) := image (kind_of (bc m XMIN)) (kind_of (bc m XMAX)) (nx m) (gw m).
Definition image_y (m : mesh) := image (kind_of (bc m YMIN)) (kind_of (bc m YMAX)) (ny m) (gw m).
Definition image_z (m : mesh) := image (kind_of (bc m ZMIN)) (kind_of (bc m ZMAX)) (nz m) (gw m).
Definition mirrored_x (m : mesh) := mirrored (kind_of (bc m XMIN)) (kind_of (bc m XMAX)) (nx m) (gw m).
Definition mirrored_y (m : mesh) := mirrored (kind_of (bc m YMIN)) (kind_of (bc m YMAX)) (ny m) (gw m).
Definition mirrored_z (m : mesh) := mirrored (kind_of (bc m ZMIN)) (kind_of (bc m ZMAX)) (nz m) (gw m).

(** Cells of the array and physical cells. *)
Definition cell2 (m : mesh) (i j : Z) : Prop :=
  0 <= i < nx m + 2 * gw m /\ 0 <= j < ny m + 2 * gw m.
Definition cell3 (m : mesh) (i j k : Z) : Prop :=
  cell2 m i j /\ 0 <= k < nz m + 2 * gw m.
Definition phys2 (m : mesh) (i j : Z) : Prop :=
  physical (nx m) (gw m) i /\ physical (ny m) (gw m) j.
Definition phys3 (m : mesh) (i j k : Z) : Prop :=
  phys2 m i j /\ physical (nz m) (gw m) k.

(** Ghost-filled field: what array [a] must contain everywhere, given the
    contents [s] of its physical cells. *)
Definition filled2 {T} `{Num T} (m : mesh) (a : arr) (s : store T) (i j v : Z) : T :=
  flip_if (mirrored_y m j && odd_y (p_mhd m) v)
   (flip_if (mirrored_x m i && odd_x (p_mhd m) v)
     (s (mkloc a (image_x m i) (image_y m j) 0 v))).

Definition filled3 {T} `{Num T} (m : mesh) (a : arr) (s : store T) (i j k v : Z) : T :=
  flip_if (mirrored_z m k && odd_z (p_mhd m) v)
   (flip_if (mirrored_y m j && odd_y (p_mhd m) v)
    (flip_if (mirrored_x m i && odd_x (p_mhd m) v)
      (s (mkloc a (image_x m i) (image_y m j) (image_z m k) v)))).
