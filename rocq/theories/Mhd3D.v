(** * 3D MUSCL-Hancock MHD: kernels and time step

    Models /repo/src/muscl/MHDRunFunctors3D.h and
    [SolverMHDMuscl<3>::godunov_unsplit_impl]
    (/repo/src/muscl/SolverMHDMuscl.cpp:457-565).

    Simplification: blocks that the program writes once per direction (or once
    per corner of an edge) are written once here with the direction as a
    parameter; the places where the copies differ are kept.  Loads that follow
    one another without a store in between may be listed in another order than
    in the program. *)
From Coq Require Import ZArith List Bool.
Import ListNotations.
From Verif Require Import Num Exec Grid Boundaries HydroNum Kernels Hydro3D MhdNum Mhd2D Mhd3DNum.
Local Open Scope Z_scope.

Section Mhd3D.
Context {T : Type} `{Num T}.
Variable m : mesh.
Variable S : hset T.
Variable dt : T.

(** dt/dx, dt/dy, dt/dz: SolverMHDMuscl.cpp:487-489 *)
Local Notation dtd := (dtd S dt).

(** [gw <= i < isize-gw+1], and so on for j and k *)
Definition upto_face3 (i j k : Z) : bool :=
  (gw m <=? k) && (k <? ksize m - gw m + 1) && (gw m <=? j) && (j <? jsize m - gw m + 1) &&
  (gw m <=? i) && (i <? isize m - gw m + 1).

(** [gw-2 <= i < isize-gw+1], and so on for j and k *)
Definition trace_range3 (i j k : Z) : bool :=
  (gw m - 2 <=? k) && (k <? ksize m - gw m + 1) && (gw m - 2 <=? j) &&
  (j <? jsize m - gw m + 1) && (gw m - 2 <=? i) && (i <? isize m - gw m + 1).

(** [0 < i < isize-1], and so on for j and k *)
Definition mid_range3 (i j k : Z) : bool :=
  (0 <? k) && (k <? ksize m - 1) && (0 <? j) && (j <? jsize m - 1) && (0 <? i) && (i <? isize m - 1).

(** Load of one value. *)
Definition rd1 (l : loc) (k : T -> prog T) : prog T := Rd l k.

(** Stores, in order. *)
Fixpoint wrl (ws : list (loc * T)) (k : prog T) : prog T :=
  match ws with [] => k | w :: ws => Wr (fst w) (snd w) (wrl ws k) end.

(** The cell on the lower side along [d]. *)
Definition lo3 (a : arr) (d : dir) (i j k : Z) : Z -> loc := mkloc a (i - ox d) (j - oy d) (k - oz d).
Definition hi3 (a : arr) (d : dir) (i j k : Z) : Z -> loc := mkloc a (i + ox d) (j + oy d) (k + oz d).

(** ConvertToPrimitivesFunctor3D_MHD, MHDRunFunctors3D.h:90-165 *)
Definition mconvert_item3 (a : arr) (c : Z * Z * Z) : prog T :=
  let '(i, j, k) := c in
  if (0 <=? k) && (k <? ksize m - 1) && (0 <=? j) && (j <? jsize m - 1) &&
     (0 <=? i) && (i <? isize m - 1) then
    rdm (mkloc a i j k) (fun u =>
    Rd (mkloc a (i + 1) j k IA) (fun nbx => Rd (mkloc a i (j + 1) k IB) (fun nby =>
    Rd (mkloc a i j (k + 1) IC) (fun nbz =>
    wrm (mkloc A_Q i j k) (prim_mhd S u nbx nby nbz) Done))))
  else Done.

(** ComputeElecFieldFunctor3D, MHDRunFunctors3D.h:281-374, one of the three
    components (the velocities are read component by component there). *)
Definition melec_dir3 (a : arr) (e : dir) (i j k : Z) (c : prog T) : prog T :=
  let t0 := tr0 e in let t1 := tr1 e in
  rdm (mkloc A_Q (i - ox t0 - ox t1) (j - oy t0 - oy t1) (k - oz t0 - oz t1)) (fun q00 =>
  rdm (lo3 A_Q t0 i j k) (fun q01 =>
  rdm (lo3 A_Q t1 i j k) (fun q10 =>
  rdm (mkloc A_Q i j k) (fun q11 =>
  Rd (lo3 a t1 i j k (bcomp t0)) (fun b0_lo => Rd (mkloc a i j k (bcomp t0)) (fun b0 =>
  Rd (lo3 a t0 i j k (bcomp t1)) (fun b1_lo => Rd (mkloc a i j k (bcomp t1)) (fun b1 =>
  Wr (mkloc A_Elec i j k (icomp e)) (elec3 e q00 q01 q10 q11 b0_lo b0 b1_lo b1) c)))))))).

Definition melec_item3 (a : arr) (c : Z * Z * Z) : prog T :=
  let '(i, j, k) := c in
  if mid_range3 i j k then
    melec_dir3 a DX i j k (melec_dir3 a DY i j k (melec_dir3 a DZ i j k Done))
  else Done.

(** bfSlopes, MHDRunFunctors3D.h:480-498 *)
Definition bslope_locs (a : arr) (i j k : Z) : list loc :=
  [ mkloc a i j k IA; mkloc a i (j + 1) k IA; mkloc a i (j - 1) k IA;
    mkloc a i j (k + 1) IA; mkloc a i j (k - 1) IA;
    mkloc a i j k IB; mkloc a (i + 1) j k IB; mkloc a (i - 1) j k IB;
    mkloc a i j (k + 1) IB; mkloc a i j (k - 1) IB;
    mkloc a i j k IC; mkloc a (i + 1) j k IC; mkloc a (i - 1) j k IC;
    mkloc a i (j + 1) k IC; mkloc a i (j - 1) k IC ].

Definition darr (c : dir) : arr := match c with DX => A_DA | DY => A_DB | DZ => A_DC end.

(** ComputeMagSlopesFunctor3D, MHDRunFunctors3D.h:441-534 *)
Definition mmag_item3 (a : arr) (c : Z * Z * Z) : prog T :=
  let '(i, j, k) := c in
  if mid_range3 i j k then
    rds rd1 (bslope_locs a i j k) (fun bs =>
    wrl (map (fun cd => (mkloc (darr (fst cd)) i j k (icomp (snd cd)),
                         mdelta3 S bs (fst cd) (snd cd)))
          [(DX, DX); (DX, DY); (DX, DZ); (DY, DX); (DY, DY); (DY, DZ);
           (DZ, DX); (DZ, DY); (DZ, DZ)]) Done)
  else Done.

(** MHDRunFunctors3D.h:743-757 bfNb *)
Definition bf_locs (a : arr) (i j k : Z) : list loc :=
  [ mkloc a i j k IA; mkloc a (i + 1) j k IA; mkloc a i j k IB; mkloc a i (j + 1) k IB;
    mkloc a i j k IC; mkloc a i j (k + 1) IC ].

(** MHDRunFunctors3D.h:759-785 dbf *)
Definition dbf_locs (i j k : Z) : list loc :=
  [ mkloc A_DA i j k IY; mkloc A_DA i j k IZ; mkloc A_DB i j k IX; mkloc A_DB i j k IZ;
    mkloc A_DC i j k IX; mkloc A_DC i j k IY;
    mkloc A_DA (i + 1) j k IY; mkloc A_DA (i + 1) j k IZ;
    mkloc A_DB i (j + 1) k IX; mkloc A_DB i (j + 1) k IZ;
    mkloc A_DC i j (k + 1) IX; mkloc A_DC i j (k + 1) IY ].

(** MHDRunFunctors3D.h:787-805 elecFields[e][a][b]: [a] and [b] step along the
    two transverse directions. *)
Definition el_locs (e : dir) (i j k : Z) : list loc :=
  let t0 := tr0 e in let t1 := tr1 e in
  [ mkloc A_Elec i j k (icomp e); hi3 A_Elec t1 i j k (icomp e); hi3 A_Elec t0 i j k (icomp e);
    mkloc A_Elec (i + ox t0 + ox t1) (j + oy t0 + oy t1) (k + oz t0 + oz t1) (icomp e) ].

(** Stores of the predicted states, MHDRunFunctors3D.h:830-851. *)
Fixpoint wrparts (ps : list part) (t : part -> ms T) (i j k : Z) (c : prog T) : prog T :=
  match ps with
  | [] => c
  | p :: ps => wrm (mkloc (parr p) i j k) (t p) (wrparts ps t i j k c)
  end.

(** ComputeTraceFunctor3D_MHD, MHDRunFunctors3D.h:539-869 *)
Definition mtrace_item3 (a : arr) (c : Z * Z * Z) : prog T :=
  let '(i, j, k) := c in
  if trace_range3 i j k then
    rdm (mkloc A_Q i j k) (fun q =>
    rdm (hi3 A_Q DX i j k) (fun qpx => rdm (lo3 A_Q DX i j k) (fun qmx =>
    rdm (hi3 A_Q DY i j k) (fun qpy => rdm (lo3 A_Q DY i j k) (fun qmy =>
    rdm (hi3 A_Q DZ i j k) (fun qpz => rdm (lo3 A_Q DZ i j k) (fun qmz =>
    rds rd1 (bf_locs a i j k) (fun bfNb =>
    rds rd1 (dbf_locs i j k) (fun dbf =>
    rds rd1 (el_locs DX i j k) (fun Ex =>
    rds rd1 (el_locs DY i j k) (fun Ey =>
    rds rd1 (el_locs DZ i j k) (fun Ez =>
    wrparts parts
      (trace_mhd3 S q (mslopes3 S q qpx qmx qpy qmy qpz qmz) bfNb dbf Ex Ey Ez
         (dtd DX) (dtd DY) (dtd DZ)) i j k Done))))))))))))
  else Done.

Definition farr (d : dir) : arr := match d with DX => A_Fx | DY => A_Fy | DZ => A_Fz end.

(** Riemann problem on the lower face along [d]: MHDRunFunctors3D.h:1844-1850,
    1859-1871, 1878-1890; the flux is in the rotated frame. *)
Definition mflux_dir3 (d : dir) (i j k : Z) (c : ms T -> prog T) : prog T :=
  rdm (lo3 (parr (Pm d)) d i j k) (fun ql => rdm (mkloc (parr (Pp d)) i j k) (fun qr =>
  need (riemann_mhd S (swapm d ql) (swapm d qr)) c)).

(** ComputeFluxesAndStoreFunctor3D_MHD, MHDRunFunctors3D.h:1783-1907 *)
Definition mfluxes_item3 (c : Z * Z * Z) : prog T :=
  let '(i, j, k) := c in
  if upto_face3 i j k then
    mflux_dir3 DX i j k (fun fx => wrm (mkloc A_Fx i j k) fx
   (mflux_dir3 DY i j k (fun fy => wrm (mkloc A_Fy i j k) fy
   (mflux_dir3 DZ i j k (fun fz => wrm (mkloc A_Fz i j k) fz Done)))))
  else Done.

(** The variables advanced by the fluxes in 3D: MHDRunFunctors3D.h:1985-1999. *)
Definition mvars3 : list Z := [ID; IP; IU; IV; IW].

(** All three coordinates below the upper ghost cells. *)
Definition below3 (i j k : Z) : bool :=
  (k <? ksize m - gw m) && (j <? jsize m - gw m) && (i <? isize m - gw m).
(** The cell on the lower side along [d] is not a ghost cell:
    e.g. [k < ksize-gw and j < jsize-gw and i > gw]. *)
Definition lower3 (d : dir) (i j k : Z) : bool :=
  match d with
  | DX => (k <? ksize m - gw m) && (j <? jsize m - gw m) && (gw m <? i)
  | DY => (k <? ksize m - gw m) && (gw m <? j) && (i <? isize m - gw m)
  | DZ => (gw m <? k) && (j <? jsize m - gw m) && (i <? isize m - gw m)
  end.

(** MHDRunFunctors3D.h:1985-1999 (x), 2026-2040 (y), 2067-2081 (z) and 1241-1300. *)
Definition mflux_updates3 (aout : arr) (d : dir) (i j k : Z) (f : ms T) (c : prog T) : prog T :=
  matomics nadd (if below3 i j k then mvars3 else []) (mkloc aout i j k) (mscale f (dtd d))
 (matomics nsub (if lower3 d i j k then mvars3 else []) (lo3 aout d i j k) (mscale f (dtd d)) c).

(** ComputeFluxesAndUpdateFunctor3D_MHD, MHDRunFunctors3D.h:1912-2100 *)
Definition mfluxes_update_item3 (aout : arr) (c : Z * Z * Z) : prog T :=
  let '(i, j, k) := c in
  if upto_face3 i j k then
    mflux_dir3 DX i j k (fun fx => mflux_updates3 aout DX i j k (swapm DX fx)
   (mflux_dir3 DY i j k (fun fy => mflux_updates3 aout DY i j k (swapm DY fy)
   (mflux_dir3 DZ i j k (fun fz => mflux_updates3 aout DZ i j k (swapm DZ fz) Done)))))
  else Done.

(** The cell that has the edge (i,j,k) at its corner [c]. *)
Definition ccell (a : arr) (e : dir) (c : corner) (i j k : Z) : Z -> loc :=
  mkloc a (i - cu0 c * ox (tr0 e) - cu1 c * ox (tr1 e))
          (j - cu0 c * oy (tr0 e) - cu1 c * oy (tr1 e))
          (k - cu0 c * oz (tr0 e) - cu1 c * oz (tr1 e)).

(** Loads of the four edge states and EMF: MHDRunFunctors3D.h:2175-2233. *)
Definition medge3 (e : dir) (i j k : Z) (c : T -> prog T) : prog T :=
  rdm (ccell (parr (Pe e RT)) e RT i j k) (fun rt =>
  rdm (ccell (parr (Pe e RB)) e RB i j k) (fun rb =>
  rdm (ccell (parr (Pe e LT)) e LT i j k) (fun lt =>
  rdm (ccell (parr (Pe e LB)) e LB i j k) (fun lb =>
  c (emf3 S e rt rb lt lb))))).

(** ComputeEmfAndStoreFunctor3D, MHDRunFunctors3D.h:2105-2238 *)
Definition memf_item3 (c : Z * Z * Z) : prog T :=
  let '(i, j, k) := c in
  if upto_face3 i j k then
    medge3 DZ i j k (fun ez => Wr (mkloc A_Emf i j k (iemf DZ)) ez
   (medge3 DY i j k (fun ey => Wr (mkloc A_Emf i j k (iemf DY)) ey
   (medge3 DX i j k (fun ex => Wr (mkloc A_Emf i j k (iemf DX)) ex Done)))))
  else Done.

Definition upd_if (b : bool) (l : loc) (f : T -> T) (c : prog T) : prog T :=
  if b then Upd l f c else c.

(** The signs of the updates by an EMF: -,+ for Z and X, +,- for Y. *)
Definition eop0 (e : dir) : T -> T -> T := match e with DY => nadd | _ => nsub end.
Definition eop1 (e : dir) : T -> T -> T := match e with DY => nsub | _ => nadd end.

(** MHDRunFunctors3D.h:2319-2336 (Z), 2357-2374 (Y), 2395-2412 (X), and 1603-1770. *)
Definition memf_updates3 (aout : arr) (e : dir) (i j k : Z) (x : T) (c : prog T) : prog T :=
  let t0 := tr0 e in let t1 := tr1 e in
  upd_if (below3 i j k) (mkloc aout i j k (bcomp t0)) (fun y => eop0 e y (nmul x (dtd t1)))
 (upd_if (below3 i j k) (mkloc aout i j k (bcomp t1)) (fun y => eop1 e y (nmul x (dtd t0)))
 (upd_if (lower3 t1 i j k) (lo3 aout t1 i j k (bcomp t0)) (fun y => eop1 e y (nmul x (dtd t1)))
 (upd_if (lower3 t0 i j k) (lo3 aout t0 i j k (bcomp t1)) (fun y => eop0 e y (nmul x (dtd t0))) c))).

(** ComputeEmfAndUpdateFunctor3D, MHDRunFunctors3D.h:2243-2424 *)
Definition memf_update_item3 (aout : arr) (c : Z * Z * Z) : prog T :=
  let '(i, j, k) := c in
  if upto_face3 i j k then
    medge3 DZ i j k (fun ez => memf_updates3 aout DZ i j k ez
   (medge3 DY i j k (fun ey => memf_updates3 aout DY i j k ey
   (medge3 DX i j k (fun ex => memf_updates3 aout DX i j k ex Done)))))
  else Done.

(** [udata[v] op= flux[v] * c] for the variables of [mvars3] *)
Definition madd5 (op : T -> T -> T) (u f : ms T) (c : T) : ms T :=
  mkms (op (md u) (nmul (md f) c)) (op (mp u) (nmul (mp f) c)) (op (mu u) (nmul (mu f) c))
       (op (mv u) (nmul (mv f) c)) (op (mw u) (nmul (mw f) c)) (ma u) (mb u) (mc u).

(** UpdateFunctor3D_MHD, MHDRunFunctors3D.h:2430-2544; for the y fluxes
    [udata[IU] += flux[IV]*dtdy; udata[IV] += flux[IU]*dtdy], for the z fluxes
    IU and IW are exchanged. *)
Definition mupdate_item3 (a : arr) (c : Z * Z * Z) : prog T :=
  let '(i, j, k) := c in
  if inner3 m i j k then
    rdm (mkloc a i j k) (fun u =>
    rdm (mkloc A_Fx i j k) (fun f1 => rdm (hi3 A_Fx DX i j k) (fun f2 =>
    rdm (mkloc A_Fy i j k) (fun f3 => rdm (hi3 A_Fy DY i j k) (fun f4 =>
    rdm (mkloc A_Fz i j k) (fun f5 => rdm (hi3 A_Fz DZ i j k) (fun f6 =>
    let u := madd5 nsub (madd5 nadd u f1 (dtd DX)) f2 (dtd DX) in
    let u := madd5 nsub (madd5 nadd u (swap_xy f3) (dtd DY)) (swap_xy f4) (dtd DY) in
    let u := madd5 nsub (madd5 nadd u (swap_xz f5) (dtd DZ)) (swap_xz f6) (dtd DZ) in
    wrm (mkloc a i j k) u Done)))))))
  else Done.

(** UpdateEmfFunctor3D, MHDRunFunctors3D.h:2549-2628 *)
Definition mupdate_emf_item3 (a : arr) (c : Z * Z * Z) : prog T :=
  let '(i, j, k) := c in
  if inner3 m i j k then
    rdm (mkloc a i j k) (fun u =>
    Rd (mkloc A_Emf i j k (iemf DZ)) (fun ez => Rd (hi3 A_Emf DY i j k (iemf DZ)) (fun ezj =>
    Rd (hi3 A_Emf DX i j k (iemf DZ)) (fun ezi =>
    Rd (mkloc A_Emf i j k (iemf DY)) (fun ey => Rd (hi3 A_Emf DZ i j k (iemf DY)) (fun eyk =>
    Rd (hi3 A_Emf DX i j k (iemf DY)) (fun eyi =>
    Rd (mkloc A_Emf i j k (iemf DX)) (fun ex => Rd (hi3 A_Emf DZ i j k (iemf DX)) (fun exk =>
    Rd (hi3 A_Emf DY i j k (iemf DX)) (fun exj =>
    Wr (mkloc a i j k IA)
      (nsub (nadd (ma u) (nmul (nsub ezj ez) (dtd DY))) (nmul (nsub eyk ey) (dtd DZ)))
   (Wr (mkloc a i j k IB)
      (nadd (nsub (mb u) (nmul (nsub ezi ez) (dtd DX))) (nmul (nsub exk ex) (dtd DZ)))
   (Wr (mkloc a i j k IC)
      (nsub (nadd (mc u) (nmul (nsub eyi ey) (dtd DX))) (nmul (nsub exj ex) (dtd DY)))
    Done))))))))))))
  else Done.

(** ** Version 2 *)

Definition sarr3 (d : dir) : arr := match d with DX => A_Sx | DY => A_Sy | DZ => A_Sz end.

(** ComputeSlopesFunctor3D_MHD, MHDRunFunctors3D.h:171-276 *)
Definition mslope_dir3 (a : arr) (d : dir) (q : ms T) (i j k : Z) (c : prog T) : prog T :=
  rdm (lo3 A_Q d i j k) (fun qm => rdm (hi3 A_Q d i j k) (fun qp =>
  need (mslope_dir S q qp qm) (fun dq =>
  wrm (mkloc (sarr3 d) i j k) dq
 (Rd (hi3 a d i j k (bcomp d)) (fun b1 => Rd (mkloc a i j k (bcomp d)) (fun b0 =>
  Wr (mkloc (sarr3 d) i j k (bcomp d)) (nsub b1 b0) c)))))).

Definition mslopes_item3 (a : arr) (c : Z * Z * Z) : prog T :=
  let '(i, j, k) := c in
  if (1 <=? k) && (k <? ksize m - 1) && (1 <=? j) && (j <? jsize m - 1) &&
     (1 <=? i) && (i <? isize m - 1) then
    rdm (mkloc A_Q i j k) (fun q =>
    mslope_dir3 a DX q i j k (mslope_dir3 a DY q i j k (mslope_dir3 a DZ q i j k Done)))
  else Done.

(** ComputeUpdatedPrimVarFunctor3D_MHD, MHDRunFunctors3D.h:879-1022 *)
Definition mhalf_item3 (a : arr) (c : Z * Z * Z) : prog T :=
  let '(i, j, k) := c in
  if trace_range3 i j k then
    rdm (mkloc A_Q i j k) (fun q =>
    rdm (mkloc A_Sx i j k) (fun dqx => rdm (mkloc A_Sy i j k) (fun dqy =>
    rdm (mkloc A_Sz i j k) (fun dqz =>
    Rd (mkloc a (i + 1) j k IA) (fun a1 => Rd (mkloc a i j k IA) (fun a0 =>
    Rd (mkloc a i (j + 1) k IB) (fun b1 => Rd (mkloc a i j k IB) (fun b0 =>
    Rd (mkloc a i j (k + 1) IC) (fun c1 => Rd (mkloc a i j k IC) (fun c0 =>
    let s := source3 S q dqx dqy dqz (nsub a1 a0) (nsub b1 b0) (nsub c1 c0)
               (dtd DX) (dtd DY) (dtd DZ) in
    wrm (mkloc A_Q2 i j k) (mmap2 (fun x y => nadd x (nmul nhalf y)) q s) Done))))))))))
  else Done.

(** ComputeSourceFaceMagFunctor3D, MHDRunFunctors3D.h:379-436 *)
Definition msface_item3 (c : Z * Z * Z) : prog T :=
  let '(i, j, k) := c in
  if mid_range3 i j k then
    Rd (mkloc A_Elec i (j + 1) k IZ) (fun e1 => Rd (mkloc A_Elec i j k IZ) (fun e0 =>
    Rd (mkloc A_Elec i j (k + 1) IY) (fun f1 => Rd (mkloc A_Elec i j k IY) (fun f0 =>
    Wr (mkloc A_SFace i j k IX)
      (nsub (nmul (nmul (nsub e1 e0) nhalf) (dtd DY)) (nmul (nmul (nsub f1 f0) nhalf) (dtd DZ)))
   (Rd (mkloc A_Elec (i + 1) j k IZ) (fun e1 => Rd (mkloc A_Elec i j k IZ) (fun e0 =>
    Rd (mkloc A_Elec i j (k + 1) IX) (fun f1 => Rd (mkloc A_Elec i j k IX) (fun f0 =>
    Wr (mkloc A_SFace i j k IY)
      (nadd (nmul (nmul (nopp (nsub e1 e0)) nhalf) (dtd DX))
            (nmul (nmul (nsub f1 f0) nhalf) (dtd DZ)))
   (Rd (mkloc A_Elec (i + 1) j k IY) (fun e1 => Rd (mkloc A_Elec i j k IY) (fun e0 =>
    Rd (mkloc A_Elec i (j + 1) k IX) (fun f1 => Rd (mkloc A_Elec i j k IX) (fun f0 =>
    Wr (mkloc A_SFace i j k IZ)
      (nsub (nmul (nmul (nsub e1 e0) nhalf) (dtd DX)) (nmul (nmul (nsub f1 f0) nhalf) (dtd DY)))
    Done))))))))))))))
  else Done.

(** ComputeFluxAndUpdateAlongDirFunctor3D_MHD<dir>, MHDRunFunctors3D.h:1033-1310 *)
Definition mflux_dir_item3 (d : dir) (ain aout : arr) (c : Z * Z * Z) : prog T :=
  let '(i, j, k) := c in
  if upto_face3 i j k then
    rdm (mkloc (sarr3 d) i j k) (fun dq => rdm (mkloc A_Q2 i j k) (fun q2 =>
    Rd (mkloc ain i j k (bcomp d)) (fun b0 => Rd (mkloc A_SFace i j k (icomp d)) (fun sb =>
    let qr := mface3 S nsub d q2 dq (nadd b0 sb) in
    rdm (lo3 (sarr3 d) d i j k) (fun dqn => rdm (lo3 A_Q2 d i j k) (fun q2n =>
    let ql := mface3 S nadd d q2n dqn (getbc d qr) in
    need (riemann_mhd S (swapm d ql) (swapm d qr)) (fun f =>
    mflux_updates3 aout d i j k (swapm d f) Done)))))))
  else Done.

(** compute_limited_slope<dir>, MHDBaseFunctor3D.h:127-155.  Line 142 reads
    [udata(i - delta_i, j - delta_j, k + delta_k, component)] for the value below. *)
Definition rd_slope3 (a : arr) (d : dir) (i j k v : Z) (c : T -> prog T) : prog T :=
  Rd (mkloc a i j k v) (fun b => Rd (hi3 a d i j k v) (fun bp =>
  Rd (mkloc a (i - ox d) (j - oy d) (k + oz d) v) (fun bm => c (slope1 S b bp bm)))).

(** reconstruct_state_at_edge<dir0,dir1>, MHDRunFunctors3D.h:1395-1528, for the
    corner [c] of the cell (i,j,k); [q] is its state at half step.  The signs of
    the slopes of B0 and B1 (1411-1467) are those of the other direction. *)
Definition medge_rec3 (ain : arr) (e : dir) (c : corner) (q : ms T) (i j k : Z)
    (kt : ms T -> prog T) : prog T :=
  let d0 := tr0 e in let d1 := tr1 e in
  let i0 := i + cu0 c * ox d0 in let j0 := j + cu0 c * oy d0 in let k0 := k + cu0 c * oz d0 in
  let i1 := i + cu1 c * ox d1 in let j1 := j + cu1 c * oy d1 in let k1 := k + cu1 c * oz d1 in
  Rd (mkloc ain i0 j0 k0 (bcomp d0)) (fun b0 => Rd (mkloc A_SFace i0 j0 k0 (icomp d0)) (fun s0 =>
  rd_slope3 ain d1 i0 j0 k0 (bcomp d0) (fun db0 =>
  Rd (mkloc ain i1 j1 k1 (bcomp d1)) (fun b1 => Rd (mkloc A_SFace i1 j1 k1 (icomp d1)) (fun s1 =>
  rd_slope3 ain d0 i1 j1 k1 (bcomp d1) (fun db1 =>
  rdm (mkloc (sarr3 d0) i j k) (fun dq0 => rdm (mkloc (sarr3 d1) i j k) (fun dq1 =>
  let h := mmap2 (fun x y => nmul nhalf (nadd (nmul (nZ (cs0 c)) x) (nmul (nZ (cs1 c)) y))) dq0 dq1 in
  kt (edge_rec3 S d0 d1 q h
        (nadd (nadd b0 s0) (nmul nhalf (nmul (nZ (cs1 c)) db0)))
        (nadd (nadd b1 s1) (nmul nhalf (nmul (nZ (cs0 c)) db1)))))))))))).

(** Coordinates of [ccell]. *)
Definition cci (e : dir) (c : corner) (i : Z) : Z := i - cu0 c * ox (tr0 e) - cu1 c * ox (tr1 e).
Definition ccj (e : dir) (c : corner) (j : Z) : Z := j - cu0 c * oy (tr0 e) - cu1 c * oy (tr1 e).
Definition cck (e : dir) (c : corner) (k : Z) : Z := k - cu0 c * oz (tr0 e) - cu1 c * oz (tr1 e).
Definition medge_at3 (ain : arr) (e : dir) (c : corner) (q : ms T) (i j k : Z)
    (kt : ms T -> prog T) : prog T :=
  medge_rec3 ain e c q (cci e c i) (ccj e c j) (cck e c k) kt.

(** ReconstructEdgeComputeEmfAndUpdateFunctor3D<dir>, MHDRunFunctors3D.h:1315-1778 *)
Definition medge_emf_item3 (e : dir) (ain aout : arr) (c : Z * Z * Z) : prog T :=
  let '(i, j, k) := c in
  if upto_face3 i j k then
    rdm (ccell A_Q2 e LB i j k) (fun qlb => rdm (ccell A_Q2 e LT i j k) (fun qlt =>
    rdm (ccell A_Q2 e RB i j k) (fun qrb => rdm (ccell A_Q2 e RT i j k) (fun qrt =>
    medge_at3 ain e LB qlb i j k (fun lb =>
    medge_at3 ain e RT qrt i j k (fun rt =>
    medge_at3 ain e RB qrb i j k (fun rb =>
    medge_at3 ain e LT qlt i j k (fun lt =>
    memf_updates3 aout e i j k (emf3 S e rt rb lt lb) Done))))))))
  else Done.

(** SolverMHDMuscl.cpp:491-561 *)
Definition mscheme3 (iv : impl) (ain aout : arr) : list (list (prog T)) :=
  match iv with
  | V0 => [ map (melec_item3 ain) (cells3 m);
            map (mmag_item3 ain) (cells3 m);
            map (mtrace_item3 ain) (cells3 m);
            map mfluxes_item3 (cells3 m);
            map memf_item3 (cells3 m);
            map (mupdate_item3 aout) (cells3 m);
            map (mupdate_emf_item3 aout) (cells3 m) ]
  | V1 => [ map (melec_item3 ain) (cells3 m);
            map (mmag_item3 ain) (cells3 m);
            map (mtrace_item3 ain) (cells3 m);
            map (mfluxes_update_item3 aout) (cells3 m);
            map (memf_update_item3 aout) (cells3 m) ]
  | V2 => [ map (mslopes_item3 ain) (cells3 m);
            map (mhalf_item3 ain) (cells3 m);
            map (melec_item3 ain) (cells3 m);
            map msface_item3 (cells3 m);
            map (mflux_dir_item3 DX ain aout) (cells3 m);
            map (mflux_dir_item3 DY ain aout) (cells3 m);
            map (mflux_dir_item3 DZ ain aout) (cells3 m);
            map (medge_emf_item3 DX ain aout) (cells3 m);
            map (medge_emf_item3 DY ain aout) (cells3 m);
            map (medge_emf_item3 DZ ain aout) (cells3 m) ]
  end.

(** SolverMHDMuscl.cpp:465-478: ghost cells, copy, primitive variables.  The time
    step is computed from Q after these. *)
Definition mprefix3 (ain aout : arr) : list (list (prog T)) :=
  make_boundaries3d m ain ++ [ deep_copy3 m aout ain; map (mconvert_item3 ain) (cells3 m) ].

(** SolverMHDMuscl.cpp:457-565 [godunov_unsplit_impl] with the time step it computes. *)
Definition mgodunov3 (iv : impl) (ain aout : arr) : list (list (prog T)) :=
  mprefix3 ain aout ++ mscheme3 iv ain aout.

(** Extents, SolverMHDMuscl.h:309-382. *)
Definition mnv3 (iv : impl) (a : arr) : Z :=
  match a with
  | A_U | A_U2 | A_Q => nbvar m
  | A_Qmx | A_Qmy | A_Qmz | A_Qpx | A_Qpy | A_Qpz
  | A_RT | A_RB | A_LT | A_LB | A_RT2 | A_RB2 | A_LT2 | A_LB2
  | A_RT3 | A_RB3 | A_LT3 | A_LB3 => match iv with V0 | V1 => nbvar m | V2 => 0 end
  | A_DA | A_DB | A_DC => match iv with V0 | V1 => 3 | V2 => 0 end
  | A_Elec => 3
  | A_Q2 | A_Sx | A_Sy | A_Sz => match iv with V2 => nbvar m | _ => 0 end
  | A_SFace => match iv with V2 => 3 | _ => 0 end
  | A_Fx | A_Fy | A_Fz => match iv with V0 => nbvar m | _ => 0 end
  | A_Emf => match iv with V0 => 3 | _ => 0 end
  | _ => 0
  end.

End Mhd3D.
