(** * The 3D MHD scheme as a function on fields (no arrays, no kernels, no schedule)

    Unsplit MUSCL-Hancock with constrained transport: density, energy and momentum
    are advanced by fluxes, the face-centred field components IA, IB, IC (lower x,
    y and z faces) by the electromotive forces on the edges of the cells. *)
From Coq Require Import ZArith List Bool Permutation.
Import ListNotations.
From Verif Require Import Num Exec Grid HydroNum Kernels Hydro3D Hydro3DSpec MhdNum Mhd2DSpec Mhd3DNum.
Local Open Scope Z_scope.

Section Spec.
Context {T : Type} `{Num T}.
Variable S : hset T.
Variable dt : T.

Definition mstate3 (U : field3 T) (i j k : Z) : ms T :=
  mkms (U i j k ID) (U i j k IP) (U i j k IU) (U i j k IV) (U i j k IW)
       (U i j k IA) (U i j k IB) (U i j k IC).

(** Primitive state of a cell: the field at the cell centre uses the upper faces. *)
Definition mQ3 (U : field3 T) (i j k : Z) : ms T :=
  prim_mhd S (mstate3 U i j k) (U (i + 1) j k IA) (U i (j + 1) k IB) (U i j (k + 1) IC).

Section Fields.
Variable Q : Z -> Z -> Z -> ms T.   (* primitive states *)
Variable U : field3 T.              (* conservative variables *)

(** Electric field on the lower edge of (i,j,k) along [e]: -v x B with the
    velocity averaged over the four cells around the edge. *)
Definition mEl3 (e : dir) (i j k : Z) : T :=
  match e with
  | DX => elec3 DX (Q i (j - 1) (k - 1)) (Q i (j - 1) k) (Q i j (k - 1)) (Q i j k)
            (U i j (k - 1) IB) (U i j k IB) (U i (j - 1) k IC) (U i j k IC)
  | DY => elec3 DY (Q (i - 1) j (k - 1)) (Q (i - 1) j k) (Q i j (k - 1)) (Q i j k)
            (U i j (k - 1) IA) (U i j k IA) (U (i - 1) j k IC) (U i j k IC)
  | DZ => elec3 DZ (Q (i - 1) (j - 1) k) (Q (i - 1) j k) (Q i (j - 1) k) (Q i j k)
            (U i (j - 1) k IA) (U i j k IA) (U (i - 1) j k IB) (U i j k IB)
  end.

(** Limited slope along [d] of the face-centred component along [c]. *)
Definition mD3 (c d : dir) (i j k : Z) : T :=
  match c, d with
  | DX, DX | DY, DY | DZ, DZ => n0
  | _, _ => slopet (nmin (slope_type S) n2) (U i j k (bcomp c))
              (U (i + ox d) (j + oy d) (k + oz d) (bcomp c))
              (U (i - ox d) (j - oy d) (k - oz d) (bcomp c))
  end.

Section Trace.
Variable El : dir -> Z -> Z -> Z -> T.          (* electric field *)
Variable D : dir -> dir -> Z -> Z -> Z -> T.    (* slopes of the face-centred field *)

(** Half-step states of cell (i,j,k) on its six faces and twelve edges. *)
Definition mtr3 (p : part) (i j k : Z) : ms T :=
  trace_mhd3 S (Q i j k)
    (mslopes3 S (Q i j k) (Q (i + 1) j k) (Q (i - 1) j k) (Q i (j + 1) k) (Q i (j - 1) k)
       (Q i j (k + 1)) (Q i j (k - 1)))
    [ U i j k IA; U (i + 1) j k IA; U i j k IB; U i (j + 1) k IB; U i j k IC; U i j (k + 1) IC ]
    [ D DX DY i j k; D DX DZ i j k; D DY DX i j k; D DY DZ i j k; D DZ DX i j k; D DZ DY i j k;
      D DX DY (i + 1) j k; D DX DZ (i + 1) j k; D DY DX i (j + 1) k; D DY DZ i (j + 1) k;
      D DZ DX i j (k + 1); D DZ DY i j (k + 1) ]
    [ El DX i j k; El DX i j (k + 1); El DX i (j + 1) k; El DX i (j + 1) (k + 1) ]
    [ El DY i j k; El DY i j (k + 1); El DY (i + 1) j k; El DY (i + 1) j (k + 1) ]
    [ El DZ i j k; El DZ i (j + 1) k; El DZ (i + 1) j k; El DZ (i + 1) (j + 1) k ]
    (ndiv dt (dx S)) (ndiv dt (dy S)) (ndiv dt (dz S)) p.
End Trace.
End Fields.

Section Fluxes.
Variable tr : part -> Z -> Z -> Z -> ms T.      (* half-step states *)

(** Flux through the lower face of (i,j,k) along [d]: the solver works along its
    first component. *)
Definition mF3 (d : dir) (i j k : Z) : ms T :=
  swapm d (msolve S (swapm d (tr (Pm d) (i - ox d) (j - oy d) (k - oz d)))
                    (swapm d (tr (Pp d) i j k))).

(** Electromotive force on the lower edge of (i,j,k) along [e]. *)
Definition mE3 (e : dir) (i j k : Z) : T :=
  match e with
  | DX => emf3 S DX (tr (Pe DX RT) i (j - 1) (k - 1)) (tr (Pe DX RB) i (j - 1) k)
                    (tr (Pe DX LT) i j (k - 1)) (tr (Pe DX LB) i j k)
  | DY => emf3 S DY (tr (Pe DY RT) (i - 1) j (k - 1)) (tr (Pe DY RB) (i - 1) j k)
                    (tr (Pe DY LT) i j (k - 1)) (tr (Pe DY LB) i j k)
  | DZ => emf3 S DZ (tr (Pe DZ RT) (i - 1) (j - 1) k) (tr (Pe DZ RB) (i - 1) j k)
                    (tr (Pe DZ LT) i (j - 1) k) (tr (Pe DZ LB) i j k)
  end.
End Fluxes.

Notation dtx := (ndiv dt (dx S)).
Notation dty := (ndiv dt (dy S)).
Notation dtz := (ndiv dt (dz S)).

Section Balance.
Variable flux : dir -> Z -> Z -> Z -> ms T.   (* fluxes through the lower faces *)
Variable emf : dir -> Z -> Z -> Z -> T.       (* electromotive forces on the lower edges *)
Variable U : field3 T.

(** Flux balance of the cell-centred variables, Faraday's law for the face-centred field. *)
Definition mbalance3 (i j k v : Z) : T :=
  if v =? IA then
    nsub (nadd (U i j k IA) (nmul (nsub (emf DZ i (j + 1) k) (emf DZ i j k)) dty))
         (nmul (nsub (emf DY i j (k + 1)) (emf DY i j k)) dtz)
  else if v =? IB then
    nadd (nsub (U i j k IB) (nmul (nsub (emf DZ (i + 1) j k) (emf DZ i j k)) dtx))
         (nmul (nsub (emf DX i j (k + 1)) (emf DX i j k)) dtz)
  else if v =? IC then
    nsub (nadd (U i j k IC) (nmul (nsub (emf DY (i + 1) j k) (emf DY i j k)) dtx))
         (nmul (nsub (emf DX i (j + 1) k) (emf DX i j k)) dty)
  else
    nsub (nadd (nsub (nadd (nsub (nadd (U i j k v)
      (nmul (mget (flux DX i j k) v) dtx)) (nmul (mget (flux DX (i + 1) j k) v) dtx))
      (nmul (mget (flux DY i j k) v) dty)) (nmul (mget (flux DY i (j + 1) k) v) dty))
      (nmul (mget (flux DZ i j k) v) dtz)) (nmul (mget (flux DZ i j (k + 1)) v) dtz).

(** The same contributions one by one. *)
Definition mcontribs3 (i j k v : Z) : list (T -> T) :=
  if v =? IA then
    [ (fun y => nsub y (nmul (emf DZ i j k) dty)); (fun y => nadd y (nmul (emf DZ i (j + 1) k) dty));
      (fun y => nadd y (nmul (emf DY i j k) dtz)); (fun y => nsub y (nmul (emf DY i j (k + 1)) dtz)) ]
  else if v =? IB then
    [ (fun y => nadd y (nmul (emf DZ i j k) dtx)); (fun y => nsub y (nmul (emf DZ (i + 1) j k) dtx));
      (fun y => nsub y (nmul (emf DX i j k) dtz)); (fun y => nadd y (nmul (emf DX i j (k + 1)) dtz)) ]
  else if v =? IC then
    [ (fun y => nsub y (nmul (emf DY i j k) dtx)); (fun y => nadd y (nmul (emf DY (i + 1) j k) dtx));
      (fun y => nadd y (nmul (emf DX i j k) dty)); (fun y => nsub y (nmul (emf DX i (j + 1) k) dty)) ]
  else
    [ (fun y => nadd y (nmul (mget (flux DX i j k) v) dtx));
      (fun y => nsub y (nmul (mget (flux DX (i + 1) j k) v) dtx));
      (fun y => nadd y (nmul (mget (flux DY i j k) v) dty));
      (fun y => nsub y (nmul (mget (flux DY i (j + 1) k) v) dty));
      (fun y => nadd y (nmul (mget (flux DZ i j k) v) dtz));
      (fun y => nsub y (nmul (mget (flux DZ i j (k + 1)) v) dtz)) ].

(** Applied in some order. *)
Definition mbalance_any3 (i j k v : Z) (x : T) : Prop :=
  exists ops, Permutation ops (mcontribs3 i j k v) /\
    x = fold_left (fun y f => f y) ops (U i j k v).

End Balance.

(** Half-step states from the conservative variables. *)
Definition mtrace3 (U : field3 T) : part -> Z -> Z -> Z -> ms T :=
  mtr3 (mQ3 U) U (mEl3 (mQ3 U) U) (mD3 U).

(** One step. *)
Definition mstep3 (U : field3 T) : field3 T :=
  mbalance3 (mF3 (mtrace3 U)) (mE3 (mtrace3 U)) U.
Definition mstep3_any_order (U : field3 T) : Z -> Z -> Z -> Z -> T -> Prop :=
  mbalance_any3 (mF3 (mtrace3 U)) (mE3 (mtrace3 U)) U.

End Spec.
