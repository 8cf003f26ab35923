(** * Magnetohydrodynamics in 3D: per-cell numerical functions

    Models the device functions of /repo/src/muscl/MHDBaseFunctor3D.h and
    [reconstruct_state_at_edge] of /repo/src/muscl/MHDRunFunctors3D.h.  The
    conversion to primitive variables, the Riemann solvers and the electromotive
    force are shared with the 2D solver (MhdNum.v).

    Simplification: blocks that the program writes once per direction are written
    once with the direction as a parameter; the places where the copies differ
    are kept.  [Omega0] is 0 (see MhdNum.v): the shearing-box terms of
    MHDBaseFunctor3D.h:856-867 are not modelled. *)
From Coq Require Import ZArith List Bool.
Import ListNotations.
From Verif Require Import Num Exec Grid HydroNum Kernels Hydro3D MhdNum.
Local Open Scope num_scope.

(** Component of the magnetic field along a direction: IA, IB, IC. *)
Definition bcomp (d : dir) : Z := match d with DX => IA | DY => IB | DZ => IC end.
(** IX, IY, IZ: index in ElecField, sFaceMag, DeltaA, DeltaB, DeltaC. *)
Definition icomp (d : dir) : Z := match d with DX => IX | DY => IY | DZ => IZ end.
(** shared/enums.h:217-222: I_EMFZ = 0, I_EMFY = 1, I_EMFX = 2. *)
Definition iemf (d : dir) : Z := match d with DZ => 0 | DY => 1 | DX => 2 end%Z.

(** The two directions transverse to an edge: [reconstruct_state_at_edge<dir0,dir1>]
    is called with <IY,IZ>, <IX,IZ>, <IX,IY> for edges along X, Y, Z. *)
Definition tr0 (e : dir) : dir := match e with DX => DY | DY => DX | DZ => DX end.
Definition tr1 (e : dir) : dir := match e with DX => DZ | DY => DZ | DZ => DY end.

(** shared/enums.h [MHDEdgeLocation]: corner of a cell in the plane (dir0,dir1);
    R/L is the side along dir0, T/B along dir1. *)
Inductive corner := RT | RB | LT | LB.
Definition cs0 (c : corner) : Z := match c with RT | RB => 1 | _ => -1 end%Z.
Definition cs1 (c : corner) : Z := match c with RT | LT => 1 | _ => -1 end%Z.
(** 1 if the corner is on the upper face along dir0 (dir1), else 0. *)
Definition cu0 (c : corner) : Z := match c with RT | RB => 1 | _ => 0 end%Z.
Definition cu1 (c : corner) : Z := match c with RT | LT => 1 | _ => 0 end%Z.

(** The states computed by the predictor: [qm[d]], [qp[d]], [qEdge[c][e]]. *)
Inductive part := Pm (d : dir) | Pp (d : dir) | Pe (e : dir) (c : corner).

(** Arrays holding them, SolverMHDMuscl.h:309-382. *)
Definition parr (p : part) : arr :=
  match p with
  | Pm DX => A_Qmx | Pm DY => A_Qmy | Pm DZ => A_Qmz
  | Pp DX => A_Qpx | Pp DY => A_Qpy | Pp DZ => A_Qpz
  | Pe DX RT => A_RT | Pe DX RB => A_RB | Pe DX LT => A_LT | Pe DX LB => A_LB
  | Pe DY RT => A_RT2 | Pe DY RB => A_RB2 | Pe DY LT => A_LT2 | Pe DY LB => A_LB2
  | Pe DZ RT => A_RT3 | Pe DZ RB => A_RB3 | Pe DZ LT => A_LT3 | Pe DZ LB => A_LB3
  end.

(** Order of the stores, MHDRunFunctors3D.h:830-851. *)
Definition parts : list part :=
  [ Pm DX; Pp DX; Pm DY; Pp DY; Pm DZ; Pp DZ;
    Pe DX RT; Pe DX RB; Pe DX LT; Pe DX LB;
    Pe DY RT; Pe DY RB; Pe DY LT; Pe DY LB;
    Pe DZ RT; Pe DZ RB; Pe DZ LT; Pe DZ LB ].

Section Mhd3.
Context {T : Type} `{Num T}.

(** The normal velocity and field come first in the Riemann solver:
    MHDRunFunctors3D.h:1862-1868, 1881-1887 ([swapValues]). *)
Definition swapm (d : dir) (q : ms T) : ms T :=
  match d with DX => q | DY => swap_xy q | DZ => swap_xz q end.

(** [q[IA] = b], [q[IB] = b], [q[IC] = b] *)
Definition setb (d : dir) (q : ms T) (b : T) : ms T :=
  match d with
  | DX => mkms (md q) (mp q) (mu q) (mv q) (mw q) b (mb q) (mc q)
  | DY => mkms (md q) (mp q) (mu q) (mv q) (mw q) (ma q) b (mc q)
  | DZ => mkms (md q) (mp q) (mu q) (mv q) (mw q) (ma q) (mb q) b
  end.
Definition getbc (d : dir) (q : ms T) : T := match d with DX => ma q | DY => mb q | DZ => mc q end.

(** Limited slope with limiter coefficient [st]: MHDBaseFunctor3D.h:606-613. *)
Definition slopet (st q qp qm : T) : T :=
  let dlft := st * (q - qm) in
  let drgt := st * (qp - q) in
  let dcen := nhalf * (qp - qm) in
  let dsgn := if dcen >=? n0 then n1 else - n1 in
  let slop := nmin (nabs dlft) (nabs drgt) in
  let dlim := if dlft * drgt <=? n0 then n0 else slop in
  dsgn * nmin dlim (nabs dcen).

(** Average over the four cells around an edge. *)
Definition avg4 (a b c d : T) : T := nquarter * (a + b + c + d).

(** ComputeElecFieldFunctor3D, MHDRunFunctors3D.h:323-330, 333-342, 345-354: the
    four cells around the edge and the face fields on both sides of it. *)
Definition elec3 (e : dir) (q00 q01 q10 q11 : ms T) (b0_lo b0 b1_lo b1 : T) : T :=
  let u := avg4 (mu q00) (mu q01) (mu q10) (mu q11) in
  let v := avg4 (mv q00) (mv q01) (mv q10) (mv q11) in
  let w := avg4 (mw q00) (mw q01) (mw q10) (mw q11) in
  let B0 := nhalf * (b0_lo + b0) in     (* component along dir0 *)
  let B1 := nhalf * (b1_lo + b1) in     (* component along dir1 *)
  match e with
  | DX => v * B1 - w * B0
  | DY => w * B0 - u * B1
  | DZ => u * B1 - v * B0
  end.

Variable S : hset T.

(** MHDBaseFunctor3D.h:362-495 [slope_unsplit_hydro_3d(q, ..., dq[3])].  The z
    slope of IC uses qMinusY (line 458).  Other slope types: zero slopes. *)
Definition mslopes3 (q qpx qmx qpy qmy qpz qmz : ms T) : ms T * ms T * ms T :=
  if neqb (slope_type S) n1 || neqb (slope_type S) n2
  then (mslope S q qpx qmx, mslope S q qpy qmy,
        setb DZ (mslope S q qpz qmz) (slope1 S (mc q) (mc qpz) (mc qmy)))
  else (mzero, mzero, mzero).

(** MHDBaseFunctor3D.h:561-668 [slope_unsplit_mhd_3d]: [bs] is bfNeighbors; slope
    along [d] of the component along [c] ([dbf[d][c]]). *)
Definition mdelta3 (bs : list T) (c d : dir) : T :=
  let b n := nth n bs n0 in
  let xs := nmin (slope_type S) n2 in
  match c, d with
  | DX, DY => slopet xs (b 0) (b 1) (b 2)
  | DX, DZ => slopet xs (b 0) (b 3) (b 4)
  | DY, DX => slopet xs (b 5) (b 6) (b 7)
  | DY, DZ => slopet xs (b 5) (b 8) (b 9)
  | DZ, DX => slopet xs (b 10) (b 11) (b 12)
  | DZ, DY => slopet xs (b 10) (b 13) (b 14)
  | DX, DX | DY, DY | DZ, DZ => n0
  end%nat.

(** Source terms of the primitive equations, MHDBaseFunctor3D.h:836-854 and
    MHDRunFunctors3D.h:984-1004 (half slopes in the former, full slopes in the latter). *)
Definition source3 (q dqx dqy dqz : ms T) (dAx dBy dCz dtdx dtdy dtdz : T) : ms T :=
  let r := md q in let p := mp q in let u := mu q in let v := mv q in let w := mw q in
  let A := ma q in let B := mb q in let C := mc q in
  let drx := md dqx in let dpx := mp dqx in let dux := mu dqx in let dvx := mv dqx in
  let dwx := mw dqx in let dBx := mb dqx in let dCx := mc dqx in
  let dry := md dqy in let dpy := mp dqy in let duy := mu dqy in let dvy := mv dqy in
  let dwy := mw dqy in let dAy := ma dqy in let dCy := mc dqy in
  let drz := md dqz in let dpz := mp dqz in let duz := mu dqz in let dvz := mv dqz in
  let dwz := mw dqz in let dAz := ma dqz in let dBz := mb dqz in
  let gamma := gamma0 S in
  mkms ((- u * drx - dux * r) * dtdx + (- v * dry - dvy * r) * dtdy + (- w * drz - dwz * r) * dtdz)
       ((- u * dpx - dux * gamma * p) * dtdx + (- v * dpy - dvy * gamma * p) * dtdy +
        (- w * dpz - dwz * gamma * p) * dtdz)
       ((- u * dux - (dpx + B * dBx + C * dCx) / r) * dtdx + (- v * duy + B * dAy / r) * dtdy +
        (- w * duz + C * dAz / r) * dtdz)
       ((- u * dvx + A * dBx / r) * dtdx + (- v * dvy - (dpy + A * dAy + C * dCy) / r) * dtdy +
        (- w * dvz + C * dBz / r) * dtdz)
       ((- u * dwx + A * dCx / r) * dtdx + (- v * dwy + B * dCy / r) * dtdy +
        (- w * dwz - (dpz + A * dAz + B * dBz) / r) * dtdz)
       ((u * dBy + B * duy - v * dAy - A * dvy) * dtdy +
        (u * dCz + C * duz - w * dAz - A * dwz) * dtdz)
       ((v * dAx + A * dvx - u * dBx - B * dux) * dtdx +
        (v * dCz + C * dvz - w * dBz - B * dwz) * dtdz)
       ((w * dAx + A * dwx - u * dCx - C * dux) * dtdx +
        (w * dBy + B * dwy - v * dCy - C * dvy) * dtdy).

(** [q[ID] = fmax(smallR, q[ID]); q[IP] = fmax(smallp, q[IP]);] (the factor
    [q[ID]] of the 2D code is commented out, MHDBaseFunctor3D.h:906-907). *)
Definition mfloor3 (q : ms T) : ms T :=
  mkms (nmax (smallr S) (md q)) (nmax (smallp S) (mp q)) (mu q) (mv q) (mw q) (ma q) (mb q) (mc q).

(** MHDBaseFunctor3D.h:688-1114 [trace_unsplit_mhd_3d_simpler]; [bfNb], [dbf] and
    [Ex], [Ey], [Ez] (row by row) are the arrays of the same names.  Of the
    half slopes only those of the components listed at lines 772-817 are used. *)
Definition trace_mhd3 (q : ms T) (dq : ms T * ms T * ms T) (bfNb dbf Ex Ey Ez : list T)
    (dtdx dtdy dtdz : T) : part -> ms T :=
  let '(dqX, dqY, dqZ) := dq in
  let at_ (l : list T) n := nth n l n0 in
  let ELL := at_ Ex 0%nat in let ELR := at_ Ex 1%nat in
  let ERL := at_ Ex 2%nat in let ERR := at_ Ex 3%nat in
  let FLL := at_ Ey 0%nat in let FLR := at_ Ey 1%nat in
  let FRL := at_ Ey 2%nat in let FRR := at_ Ey 3%nat in
  let GLL := at_ Ez 0%nat in let GLR := at_ Ez 1%nat in
  let GRL := at_ Ez 2%nat in let GRR := at_ Ez 3%nat in
  let AL := at_ bfNb 0%nat in let AR := at_ bfNb 1%nat in
  let BL := at_ bfNb 2%nat in let BR := at_ bfNb 3%nat in
  let CL := at_ bfNb 4%nat in let CR := at_ bfNb 5%nat in
  let hx := mscale dqX nhalf in let hy := mscale dqY nhalf in let hz := mscale dqZ nhalf in
  let dALy := nhalf * at_ dbf 0%nat in let dALz := nhalf * at_ dbf 1%nat in
  let dBLx := nhalf * at_ dbf 2%nat in let dBLz := nhalf * at_ dbf 3%nat in
  let dCLx := nhalf * at_ dbf 4%nat in let dCLy := nhalf * at_ dbf 5%nat in
  let dARy := nhalf * at_ dbf 6%nat in let dARz := nhalf * at_ dbf 7%nat in
  let dBRx := nhalf * at_ dbf 8%nat in let dBRz := nhalf * at_ dbf 9%nat in
  let dCRx := nhalf * at_ dbf 10%nat in let dCRy := nhalf * at_ dbf 11%nat in
  let dAx := nhalf * (AR - AL) in
  let dBy := nhalf * (BR - BL) in
  let dCz := nhalf * (CR - CL) in
  let s := source3 q hx hy hz dAx dBy dCz dtdx dtdy dtdz in
  let sAL := (GLR - GLL) * dtdy * nhalf - (FLR - FLL) * dtdz * nhalf in
  let sAR := (GRR - GRL) * dtdy * nhalf - (FRR - FRL) * dtdz * nhalf in
  let sBL := - (GRL - GLL) * dtdx * nhalf + (ELR - ELL) * dtdz * nhalf in
  let sBR := - (GRR - GLR) * dtdx * nhalf + (ERR - ERL) * dtdz * nhalf in
  let sCL := (FRL - FLL) * dtdx * nhalf - (ERL - ELL) * dtdy * nhalf in
  let sCR := (FRR - FLR) * dtdx * nhalf - (ERR - ELR) * dtdy * nhalf in
  let c := mmap2 nadd q s in
  let AL := AL + sAL in let AR := AR + sAR in
  let BL := BL + sBL in let BR := BR + sBR in
  let CL := CL + sCL in let CR := CR + sCR in
  let pp x y := x + y in
  let pm x y := x - y in
  let mpl x y := - x + y in
  let mm x y := - x - y in
  (* edge states: [ha], [hb] the half slopes along dir0 and dir1, [B0], [B1] the two
     face-centred components *)
  let edge e f ha hb B0 B1 :=
    mfloor3 (setb (tr1 e) (setb (tr0 e) (mmap2 nadd c (mmap2 f ha hb)) B0) B1) in
  fun p =>
  match p with
  | Pp DX => mfloor3 (setb DX (mmap2 nsub c hx) AL)
  | Pm DX => mfloor3 (setb DX (mmap2 nadd c hx) AR)
  | Pp DY => mfloor3 (setb DY (mmap2 nsub c hy) BL)
  | Pm DY => mfloor3 (setb DY (mmap2 nadd c hy) BR)
  | Pp DZ => mfloor3 (setb DZ (mmap2 nsub c hz) CL)
  | Pm DZ => mfloor3 (setb DZ (mmap2 nadd c hz) CR)
  | Pe DX RT => edge DX pp hy hz (BR + dBRz) (CR + dCRy)
  | Pe DX RB => edge DX pm hy hz (BR + - dBRz) (CL + dCLy)
  | Pe DX LT => edge DX mpl hy hz (BL + dBLz) (CR + - dCRy)
  | Pe DX LB => edge DX mm hy hz (BL + - dBLz) (CL + - dCLy)
  | Pe DY RT => edge DY pp hx hz (AR + dARz) (CR + dCRx)
  | Pe DY RB => edge DY pm hx hz (AR + - dARz) (CL + dCLx)
  | Pe DY LT => edge DY mpl hx hz (AL + dALz) (CR + - dCRx)
  | Pe DY LB => edge DY mm hx hz (AL + - dALz) (CL + - dCLx)
  | Pe DZ RT => edge DZ pp hx hy (AR + dARy) (BR + dBRx)
  | Pe DZ RB => edge DZ pm hx hy (AR + - dARy) (BL + dBLx)
  | Pe DZ LT => edge DZ mpl hx hy (AL + dALy) (BR + - dBRx)
  | Pe DZ LB => edge DZ mm hx hy (AL + - dALy) (BL + - dBLx)
  end.

(** [compute_emf<EMFX/EMFY/EMFZ>]; along Y "RB and LT are swapped",
    MHDRunFunctors3D.h:2214-2219, 1716-1726. *)
Definition emf3 (e : dir) (rt rb lt lb : ms T) : T :=
  match e with
  | DX => compute_emf S EMFX rt rb lt lb
  | DY => compute_emf S EMFY rt lt rb lb
  | DZ => compute_emf S EMFZ rt rb lt lb
  end.

(** ** Version 2 *)

(** Reconstruction [q2 -/+ 0.5*dq] on a face with floors and the face-centred
    normal field, MHDRunFunctors3D.h:1142-1172, 1197-1222. *)
Definition mface3 (op : T -> T -> T) (d : dir) (q2 dq : ms T) (b : T) : ms T :=
  setb d (mfloor S (mmap2 (fun x y => op x (nmul nhalf y)) q2 dq)) b.

(** MHDRunFunctors3D.h:1483-1527: [h] is [0.5 * (sign_dq0*dq0 + sign_dq1*dq1)],
    [V0] and [V1] are [B0 + 0.5*(sign_b0*dB0d1)] and [B1 + 0.5*(sign_b1*dB1d0)].
    IB is assigned by two successive if/else (1499-1515): unless dir1 is IY the
    second one adds the slope on top of what the first one stored. *)
Definition edge_rec3 (d0 d1 : dir) (q h : ms T) (V0 V1 : T) : ms T :=
  let a := match d0 with DX => V0 | _ => ma q + ma h end in
  let b := match d0 with DY => V0 | _ => mb q + mb h end in
  let b := match d1 with DY => V1 | _ => b + mb h end in
  let c := match d1 with DZ => V1 | _ => mc q + mc h end in
  mfloor S (mkms (md q + md h) (mp q + mp h) (mu q + mu h) (mv q + mv h) (mw q + mw h) a b c).

End Mhd3.
