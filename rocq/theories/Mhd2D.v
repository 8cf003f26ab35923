(** * 2D MUSCL-Hancock MHD: kernels and time step

    Models /repo/src/muscl/MHDRunFunctors2D.h and
    [SolverMHDMuscl<2>::godunov_unsplit_impl]
    (/repo/src/muscl/SolverMHDMuscl.cpp:369-454). *)
From Coq Require Import ZArith List Bool.
Import ListNotations.
From Verif Require Import Num Exec Grid Boundaries HydroNum Kernels Hydro2D MhdNum.
Local Open Scope Z_scope.

Section Blocks.
Context {T : Type} `{Num T}.

(** MHDBaseFunctor2D.h:50-82 / MHDBaseFunctor3D.h:48-80 [get_state], [set_state];
    [L v] is the location of variable [v] of the cell. *)
Definition rdm (L : Z -> loc) (k : ms T -> prog T) : prog T :=
  Rd (L ID) (fun d => Rd (L IP) (fun p => Rd (L IU) (fun u => Rd (L IV) (fun v =>
  Rd (L IW) (fun w => Rd (L IA) (fun a => Rd (L IB) (fun b => Rd (L IC) (fun c =>
  k (mkms d p u v w a b c))))))))).

Definition wrm (L : Z -> loc) (q : ms T) (k : prog T) : prog T :=
  Wr (L ID) (md q) (Wr (L IP) (mp q) (Wr (L IU) (mu q) (Wr (L IV) (mv q)
  (Wr (L IW) (mw q) (Wr (L IA) (ma q) (Wr (L IB) (mb q) (Wr (L IC) (mc q) k))))))).

(** MHDBaseFunctor2D.h:88-95 [get_magField] *)
Definition rdb (L : Z -> loc) (k : bf T -> prog T) : prog T :=
  Rd (L IA) (fun a => Rd (L IB) (fun b => Rd (L IC) (fun c => k (mkbf a b c)))).

(** Load of a list of cells, in order. *)
Fixpoint rds {X V : Type} (rd : X -> (V -> prog T) -> prog T) (l : list X)
    (k : list V -> prog T) : prog T :=
  match l with
  | [] => k []
  | c :: cs => rd c (fun x => rds rd cs (fun xs => k (x :: xs)))
  end.

(** [Kokkos::atomic_add/atomic_sub(&dst(v), val[v])], in order. *)
Fixpoint matomics (op : T -> T -> T) (vars : list Z) (dst : Z -> loc) (val : ms T) (k : prog T)
  : prog T :=
  match vars with
  | [] => k
  | v :: vs => Upd (dst v) (fun x => op x (mget val v)) (matomics op vs dst val k)
  end.

(** The variables advanced by the fluxes in 2D (IA and IB are advanced by the
    EMF): MHDRunFunctors2D.h:1590-1640, 560-600. *)
Definition mvars2 : list Z := [ID; IP; IU; IV; IW; IC].

End Blocks.

Section Mhd2D.
Context {T : Type} `{Num T}.
Variable m : mesh.
Variable S : hset T.
Variable dt : T.

(** SolverMHDMuscl.cpp:396-397 *)
Definition mdtdx : T := ndiv dt (dx S).
Definition mdtdy : T := ndiv dt (dy S).

(** [gw <= i < isize-gw+1 and gw <= j < jsize-gw+1] *)
Definition upto_face2 (i j : Z) : bool :=
  (gw m <=? j) && (j <? jsize m - gw m + 1) && (gw m <=? i) && (i <? isize m - gw m + 1).

(** [gw-2 <= i < isize-gw+1 and gw-2 <= j < jsize-gw+1] *)
Definition trace_range2 (i j : Z) : bool :=
  (gw m - 2 <=? j) && (j <? jsize m - gw m + 1) && (gw m - 2 <=? i) && (i <? isize m - gw m + 1).

(** ConvertToPrimitivesFunctor2D_MHD, MHDRunFunctors2D.h:85-159 *)
Definition mconvert_item2 (a : arr) (c : Z * Z) : prog T :=
  let (i, j) := c in
  if (0 <=? j) && (j <? jsize m - 1) && (0 <=? i) && (i <? isize m - 1) then
    rdm (L2 a i j) (fun u =>
    Rd (L2 a (i + 1) j IA) (fun nbx => Rd (L2 a i (j + 1) IB) (fun nby =>
    wrm (L2 A_Q i j) (prim_mhd S u nbx nby n0) Done)))
  else Done.

(** The cells of a neighbourhood, in the order of the loops at
    MHDRunFunctors2D.h:845-868. *)
Definition nb3 (i j : Z) : list (Z * Z) :=
  [ (i - 1, j - 1); (i - 1, j); (i - 1, j + 1);
    (i, j - 1); (i, j); (i, j + 1);
    (i + 1, j - 1); (i + 1, j); (i + 1, j + 1) ].
Definition nb4 (i j : Z) : list (Z * Z) :=
  [ (i - 1, j - 1); (i - 1, j); (i - 1, j + 1); (i - 1, j + 2);
    (i, j - 1); (i, j); (i, j + 1); (i, j + 2);
    (i + 1, j - 1); (i + 1, j); (i + 1, j + 1); (i + 1, j + 2);
    (i + 2, j - 1); (i + 2, j); (i + 2, j + 1); (i + 2, j + 2) ].

(** [qNb[di][dj]], [bfNb[di][dj]] *)
Definition nbq (l : list (ms T)) : nbh (ms T) := fun di dj => nth (3 * di + dj)%nat l mzero.
Definition nbb (l : list (bf T)) : nbh (bf T) := fun di dj => nth (4 * di + dj)%nat l (mkbf n0 n0 n0).

(** ComputeTraceFunctor2D_MHD, MHDRunFunctors2D.h:782-911; [a] is Udata. *)
Definition mtrace_item2 (a : arr) (c : Z * Z) : prog T :=
  let (i, j) := c in
  if trace_range2 i j then
    rds (fun c => rdm (L2 A_Q (fst c) (snd c))) (nb3 i j) (fun qs =>
    rds (fun c => rdb (L2 a (fst c) (snd c))) (nb4 i j) (fun bs =>
    need (trace_mhd2 S (nbq qs) (nbb bs) mdtdx mdtdy) (fun t =>
    wrm (L2 A_Qmx i j) (t_mx t) (wrm (L2 A_Qpx i j) (t_px t)
   (wrm (L2 A_Qmy i j) (t_my t) (wrm (L2 A_Qpy i j) (t_py t)
   (wrm (L2 A_RT i j) (t_rt t) (wrm (L2 A_RB i j) (t_rb t)
   (wrm (L2 A_LT i j) (t_lt t) (wrm (L2 A_LB i j) (t_lb t) Done)))))))))) 
  else Done.

(** ComputeFluxesAndStoreFunctor2D_MHD, MHDRunFunctors2D.h:375-470: the y flux is
    stored with the components of the rotated frame. *)
Definition mfluxes_item2 (c : Z * Z) : prog T :=
  let (i, j) := c in
  if upto_face2 i j then
    rdm (L2 A_Qmx (i - 1) j) (fun ql => rdm (L2 A_Qpx i j) (fun qr =>
    need (riemann_mhd S ql qr) (fun fx =>
    wrm (L2 A_Fx i j) fx
   (rdm (L2 A_Qmy i (j - 1)) (fun ql => rdm (L2 A_Qpy i j) (fun qr =>
    need (riemann_mhd S (swap_xy ql) (swap_xy qr)) (fun fy =>
    wrm (L2 A_Fy i j) fy Done)))))))
  else Done.

(** The updates of MHDRunFunctors2D.h:551-604 and 1225-1270: [f] flux along x or y. *)
Definition mflux_x_updates (aout : arr) (i j : Z) (f : ms T) (k : prog T) : prog T :=
  let add := (j <? jsize m - gw m) && (i <? isize m - gw m) in
  let sub := (j <? jsize m - gw m) && (gw m <? i) in
  matomics nadd (if add then mvars2 else []) (L2 aout i j) (mscale f mdtdx)
 (matomics nsub (if sub then mvars2 else []) (L2 aout (i - 1) j) (mscale f mdtdx) k).
Definition mflux_y_updates (aout : arr) (i j : Z) (f : ms T) (k : prog T) : prog T :=
  let add := (j <? jsize m - gw m) && (i <? isize m - gw m) in
  let sub := (gw m <? j) && (i <? isize m - gw m) in
  matomics nadd (if add then mvars2 else []) (L2 aout i j) (mscale f mdtdy)
 (matomics nsub (if sub then mvars2 else []) (L2 aout i (j - 1)) (mscale f mdtdy) k).

(** ComputeFluxesAndUpdateFunctor2D_MHD, MHDRunFunctors2D.h:475-607 *)
Definition mfluxes_update_item2 (aout : arr) (c : Z * Z) : prog T :=
  let (i, j) := c in
  if upto_face2 i j then
    rdm (L2 A_Qmx (i - 1) j) (fun ql => rdm (L2 A_Qpx i j) (fun qr =>
    need (riemann_mhd S ql qr) (fun fx =>
    mflux_x_updates aout i j fx
   (rdm (L2 A_Qmy i (j - 1)) (fun ql => rdm (L2 A_Qpy i j) (fun qr =>
    need (riemann_mhd S (swap_xy ql) (swap_xy qr)) (fun fy =>
    mflux_y_updates aout i j (swap_xy fy) Done)))))))
  else Done.

(** Load of the four edge states and EMF: MHDRunFunctors2D.h:655-683. *)
Definition medge2 (i j : Z) (k : T -> prog T) : prog T :=
  rdm (L2 A_RT (i - 1) (j - 1)) (fun rt => rdm (L2 A_RB (i - 1) j) (fun rb =>
  rdm (L2 A_LT i (j - 1)) (fun lt => rdm (L2 A_LB i j) (fun lb =>
  k (compute_emf S EMFZ rt rb lt lb))))).

(** ComputeEmfAndStoreFunctor2D, MHDRunFunctors2D.h:612-686 *)
Definition memf_item2 (c : Z * Z) : prog T :=
  let (i, j) := c in
  if upto_face2 i j then medge2 i j (fun e => Wr (L2 A_Emf i j 0) e Done) else Done.

(** MHDRunFunctors2D.h:762-771 and 1516-1523 *)
Definition memf_updates (aout : arr) (i j : Z) (e : T) (k : prog T) : prog T :=
  Upd (L2 aout i j IA) (fun x => nsub x (nmul e mdtdy))
 (Upd (L2 aout i j IB) (fun x => nadd x (nmul e mdtdx))
 (Upd (L2 aout i (j - 1) IA) (fun x => nadd x (nmul e mdtdy))
 (Upd (L2 aout (i - 1) j IB) (fun x => nsub x (nmul e mdtdx)) k))).

(** ComputeEmfAndUpdateFunctor2D, MHDRunFunctors2D.h:691-777 *)
Definition memf_update_item2 (aout : arr) (c : Z * Z) : prog T :=
  let (i, j) := c in
  if upto_face2 i j then medge2 i j (fun e => memf_updates aout i j e Done) else Done.

(** [udata[v] op= flux[v] * c] for the variables of [mvars2] *)
Definition madd6 (op : T -> T -> T) (u f : ms T) (c : T) : ms T :=
  mkms (op (md u) (nmul (md f) c)) (op (mp u) (nmul (mp f) c)) (op (mu u) (nmul (mu f) c))
       (op (mv u) (nmul (mv f) c)) (op (mw u) (nmul (mw f) c)) (ma u) (mb u)
       (op (mc u) (nmul (mc f) c)).

(** UpdateFunctor2D_MHD, MHDRunFunctors2D.h:1539-1641; for the y fluxes
    [udata[IU] += flux[IV]*dtdy; udata[IV] += flux[IU]*dtdy]. *)
Definition mupdate_item2 (a : arr) (c : Z * Z) : prog T :=
  let (i, j) := c in
  if inner2 m i j then
    rdm (L2 a i j) (fun u =>
    rdm (L2 A_Fx i j) (fun f1 => rdm (L2 A_Fx (i + 1) j) (fun f2 =>
    rdm (L2 A_Fy i j) (fun f3 => rdm (L2 A_Fy i (j + 1)) (fun f4 =>
    wrm (L2 a i j)
      (madd6 nsub (madd6 nadd (madd6 nsub (madd6 nadd u f1 mdtdx) f2 mdtdx)
        (swap_xy f3) mdtdy) (swap_xy f4) mdtdy) Done)))))
  else Done.

(** UpdateEmfFunctor2D, MHDRunFunctors2D.h:1646-1699 *)
Definition mupdate_emf_item2 (a : arr) (c : Z * Z) : prog T :=
  let (i, j) := c in
  if inner2 m i j then
    Rd (L2 a i j IA) (fun x => Rd (L2 A_Emf i (j + 1) 0) (fun e1 => Rd (L2 A_Emf i j 0) (fun e2 =>
    Wr (L2 a i j IA) (nadd x (nmul (nsub e1 e2) mdtdy))
   (Rd (L2 a i j IB) (fun y => Rd (L2 A_Emf (i + 1) j 0) (fun e3 => Rd (L2 A_Emf i j 0) (fun e4 =>
    Wr (L2 a i j IB) (nsub y (nmul (nsub e3 e4) mdtdx)) Done)))))))
  else Done.

(** ** Version 2 *)

(** ComputeSlopesFunctor2D_MHD, MHDRunFunctors2D.h:164-248 *)
Definition mslopes_item2 (a : arr) (c : Z * Z) : prog T :=
  let (i, j) := c in
  if (1 <=? j) && (j <? jsize m - 1) && (1 <=? i) && (i <? isize m - 1) then
    rdm (L2 A_Q i j) (fun q =>
    rdm (L2 A_Q (i + 1) j) (fun qp => rdm (L2 A_Q (i - 1) j) (fun qm =>
    need (mslope_dir S q qp qm) (fun dqx =>
    wrm (L2 A_Sx i j) dqx
   (Rd (L2 a (i + 1) j IA) (fun a1 => Rd (L2 a i j IA) (fun a0 =>
    Wr (L2 A_Sx i j IA) (nsub a1 a0)
   (rdm (L2 A_Q i (j + 1)) (fun qp => rdm (L2 A_Q i (j - 1)) (fun qm =>
    need (mslope_dir S q qp qm) (fun dqy =>
    wrm (L2 A_Sy i j) dqy
   (Rd (L2 a i (j + 1) IB) (fun b1 => Rd (L2 a i j IB) (fun b0 =>
    Wr (L2 A_Sy i j IB) (nsub b1 b0) Done))))))))))))))
  else Done.

(** ComputeUpdatedPrimVarFunctor2D_MHD, MHDRunFunctors2D.h:920-1051 *)
Definition mhalf_item2 (a : arr) (c : Z * Z) : prog T :=
  let (i, j) := c in
  if trace_range2 i j then
    rdm (L2 A_Q i j) (fun q => rdm (L2 A_Sx i j) (fun dqx => rdm (L2 A_Sy i j) (fun dqy =>
    Rd (L2 a (i + 1) j IA) (fun a1 => Rd (L2 a i j IA) (fun a0 =>
    Rd (L2 a i (j + 1) IB) (fun b1 => Rd (L2 a i j IB) (fun b0 =>
    let s := source2 S q dqx dqy (nsub a1 a0) (nsub b1 b0) mdtdx mdtdy in
    wrm (L2 A_Q2 i j) (mmap2 (fun x y => nadd x (nmul nhalf y)) q s) Done)))))))
  else Done.

(** ComputeElecFieldFunctor2D, MHDRunFunctors2D.h:253-314 (the velocities are read
    component by component there). *)
Definition melec_item2 (a : arr) (c : Z * Z) : prog T :=
  let (i, j) := c in
  if (0 <? j) && (j <? jsize m) && (0 <? i) && (i <? isize m) then
    rdm (L2 A_Q (i - 1) (j - 1)) (fun q00 => rdm (L2 A_Q (i - 1) j) (fun q01 =>
    rdm (L2 A_Q i (j - 1)) (fun q10 => rdm (L2 A_Q i j) (fun q11 =>
    Rd (L2 a i (j - 1) IA) (fun a0 => Rd (L2 a i j IA) (fun a1 =>
    Rd (L2 a (i - 1) j IB) (fun b0 => Rd (L2 a i j IB) (fun b1 =>
    Wr (L2 A_Elec i j 0) (elec2 q00 q01 q10 q11 a0 a1 b0 b1) Done))))))))
  else Done.

(** ComputeSourceFaceMagFunctor2D, MHDRunFunctors2D.h:319-370 *)
Definition msface_item2 (c : Z * Z) : prog T :=
  let (i, j) := c in
  if (0 <? j) && (j <? jsize m - 1) && (0 <? i) && (i <? isize m - 1) then
    Rd (L2 A_Elec i (j + 1) 0) (fun e1 => Rd (L2 A_Elec i j 0) (fun e0 =>
    Wr (L2 A_SFace i j IX) (nmul (nmul (nsub e1 e0) nhalf) mdtdy)
   (Rd (L2 A_Elec (i + 1) j 0) (fun e2 => Rd (L2 A_Elec i j 0) (fun e0 =>
    Wr (L2 A_SFace i j IY) (nmul (nmul (nopp (nsub e2 e0)) nhalf) mdtdx) Done)))))
  else Done.

(** Reconstruction [q2 -/+ 0.5*dq] on a face, with floors (MHDRunFunctors2D.h:1150-1185). *)
Definition mface (op : T -> T -> T) (q2 dq : ms T) : ms T :=
  mfloor S (mmap2 (fun x y => op x (nmul nhalf y)) q2 dq).

(** [qR[IB] = BL], [qL[IB] = qR[IB]] *)
Definition set_b (q : ms T) (b : T) : ms T :=
  mkms (md q) (mp q) (mu q) (mv q) (mw q) (ma q) b (mc q).

(** ComputeFluxAndUpdateAlongDirFunctor2D_MHD<dir>, MHDRunFunctors2D.h:1062-1283;
    [xdir] is dir == DIR_X. *)
Definition mflux_dir_item2 (xdir : bool) (ain aout : arr) (c : Z * Z) : prog T :=
  let (i, j) := c in
  if upto_face2 i j then
    if xdir then
      rdm (L2 A_Sx i j) (fun dq => rdm (L2 A_Q2 i j) (fun q2 =>
      Rd (L2 ain i j IA) (fun a0 => Rd (L2 A_SFace i j IX) (fun sa =>
      let qr := set_a (mface nsub q2 dq) (nadd a0 sa) in
      rdm (L2 A_Sx (i - 1) j) (fun dqn => rdm (L2 A_Q2 (i - 1) j) (fun q2n =>
      let ql := set_a (mface nadd q2n dqn) (ma qr) in
      need (riemann_mhd S ql qr) (fun f => mflux_x_updates aout i j f Done)))))))
    else
      rdm (L2 A_Sy i j) (fun dq => rdm (L2 A_Q2 i j) (fun q2 =>
      Rd (L2 ain i j IB) (fun b0 => Rd (L2 A_SFace i j IY) (fun sb =>
      let qr := set_b (mface nsub q2 dq) (nadd b0 sb) in
      rdm (L2 A_Sy i (j - 1)) (fun dqn => rdm (L2 A_Q2 i (j - 1)) (fun q2n =>
      let ql := set_b (mface nadd q2n dqn) (mb qr) in
      need (riemann_mhd S (swap_xy ql) (swap_xy qr)) (fun f =>
      mflux_y_updates aout i j (swap_xy f) Done)))))))
  else Done.

(** compute_limited_slope<dir>, MHDBaseFunctor2D.h:129-155 *)
Definition rd_slope_y (a : arr) (i j v : Z) (k : T -> prog T) : prog T :=
  Rd (L2 a i j v) (fun b => Rd (L2 a i (j + 1) v) (fun bp => Rd (L2 a i (j - 1) v) (fun bm =>
  k (slope1 S b bp bm)))).
Definition rd_slope_x (a : arr) (i j v : Z) (k : T -> prog T) : prog T :=
  Rd (L2 a i j v) (fun b => Rd (L2 a (i + 1) j v) (fun bp => Rd (L2 a (i - 1) j v) (fun bm =>
  k (slope1 S b bp bm)))).

(** reconstruct_state_at_edge, MHDRunFunctors2D.h:1348-1430: [sx sy sa sb] are the
    signs and [(ia,ja)], [(ib,jb)] the faces. *)
Definition medge_rec2 (ain : arr) (q : ms T) (i0 j0 ia ja ib jb sx sy sa sb : Z)
    (k : ms T -> prog T) : prog T :=
  Rd (L2 ain ia ja IA) (fun a0 => Rd (L2 A_SFace ia ja IX) (fun s1 =>
  rd_slope_y ain ia ja IA (fun dAy =>
  Rd (L2 ain ib jb IB) (fun b0 => Rd (L2 A_SFace ib jb IY) (fun s2 =>
  rd_slope_x ain ib jb IB (fun dBx =>
  rdm (L2 A_Sx i0 j0) (fun dqx => rdm (L2 A_Sy i0 j0) (fun dqy =>
  let c := mmap2 nadd q
    (mmap2 (fun x y => nmul nhalf (nadd (nmul (nZ sx) x) (nmul (nZ sy) y))) dqx dqy) in
  k (mfloor S (set_ab c
       (nadd (nadd a0 s1) (nmul nhalf (nmul (nZ sa) dAy)))
       (nadd (nadd b0 s2) (nmul nhalf (nmul (nZ sb) dBx)))))))))))))  .

(** ReconstructEdgeComputeEmfAndUpdateFunctor2D, MHDRunFunctors2D.h:1291-1534 *)
Definition medge_emf_item2 (ain aout : arr) (c : Z * Z) : prog T :=
  let (i, j) := c in
  if upto_face2 i j then
    rdm (L2 A_Q2 i j) (fun qlb => rdm (L2 A_Q2 i (j - 1)) (fun qlt =>
    rdm (L2 A_Q2 (i - 1) j) (fun qrb => rdm (L2 A_Q2 (i - 1) (j - 1)) (fun qrt =>
    medge_rec2 ain qlb i j i j i j (-1) (-1) (-1) (-1) (fun lb =>
    medge_rec2 ain qrt (i - 1) (j - 1) (i - 1 + 1) (j - 1) (i - 1) (j - 1 + 1) 1 1 1 1 (fun rt =>
    medge_rec2 ain qrb (i - 1) j (i - 1 + 1) j (i - 1) j 1 (-1) (-1) 1 (fun rb =>
    medge_rec2 ain qlt i (j - 1) i (j - 1) i (j - 1 + 1) (-1) 1 1 (-1) (fun lt =>
    memf_updates aout i j (compute_emf S EMFZ rt rb lt lb) Done))))))))
  else Done.

(** SolverMHDMuscl.cpp:399-450 *)
Definition mscheme2 (iv : impl) (ain aout : arr) : list (list (prog T)) :=
  match iv with
  | V0 => [ map (mtrace_item2 ain) (cells2 m);
            map mfluxes_item2 (cells2 m);
            map memf_item2 (cells2 m);
            map (mupdate_item2 aout) (cells2 m);
            map (mupdate_emf_item2 aout) (cells2 m) ]
  | V1 => [ map (mtrace_item2 ain) (cells2 m);
            map (mfluxes_update_item2 aout) (cells2 m);
            map (memf_update_item2 aout) (cells2 m) ]
  | V2 => [ map (mslopes_item2 ain) (cells2 m);
            map (mhalf_item2 ain) (cells2 m);
            map (melec_item2 ain) (cells2 m);
            map msface_item2 (cells2 m);
            map (mflux_dir_item2 true ain aout) (cells2 m);
            map (mflux_dir_item2 false ain aout) (cells2 m);
            map (medge_emf_item2 ain aout) (cells2 m) ]
  end.

(** SolverMHDMuscl.cpp:375-388: ghost cells, copy, primitive variables.  The time
    step is computed from Q after these. *)
Definition mprefix2 (ain aout : arr) : list (list (prog T)) :=
  make_boundaries2d m ain ++ [ deep_copy2 m aout ain; map (mconvert_item2 ain) (cells2 m) ].

(** SolverMHDMuscl.cpp:369-454 [godunov_unsplit_impl] with the time step it computes. *)
Definition mgodunov2 (iv : impl) (ain aout : arr) : list (list (prog T)) :=
  mprefix2 ain aout ++ mscheme2 iv ain aout.

(** Extents, SolverMHDMuscl.h:262-308. *)
Definition mnv2 (iv : impl) (a : arr) : Z :=
  match a with
  | A_U | A_U2 | A_Q => nbvar m
  | A_Qmx | A_Qmy | A_Qpx | A_Qpy | A_RT | A_RB | A_LT | A_LB =>
      match iv with V0 | V1 => nbvar m | V2 => 0 end
  | A_Q2 | A_Sx | A_Sy => match iv with V2 => nbvar m | _ => 0 end
  | A_SFace => match iv with V2 => 2 | _ => 0 end
  | A_Elec => match iv with V2 => 1 | _ => 0 end
  | A_Fx | A_Fy => match iv with V0 => nbvar m | _ => 0 end
  | A_Emf => match iv with V0 => 1 | _ => 0 end
  | _ => 0
  end.

End Mhd2D.
