(** * Hydrodynamics: per-cell numerical functions

    Models the device functions of /repo/src/muscl/HydroBaseFunctor2D.h,
    /repo/src/muscl/HydroBaseFunctor3D.h and /repo/src/shared/RiemannSolvers.h.
    Pointer/reference outputs are returned.  One record [hs] stands for
    [HydroState2d] and [HydroState3d]; in 2D the fifth component is never used
    by the program and is [n0] here. *)
From Coq Require Import ZArith List Bool.
Import ListNotations.
From Verif Require Import Num Exec Grid.
Local Open Scope num_scope.

Section Hydro.
Context {T : Type} `{Num T}.

(** shared/HydroState.h:15-35 *)
Record hs : Type := mkhs { hd : T; hp : T; hu : T; hv : T; hw : T }.

Definition mk2 (d p u v : T) : hs := mkhs d p u v n0.

(** Component access [q[v]]. *)
Definition hget (q : hs) (v : Z) : T :=
  if (v =? ID)%Z then hd q else if (v =? IP)%Z then hp q else if (v =? IU)%Z then hu q
  else if (v =? IV)%Z then hv q else hw q.

(** shared/enums.h ([RiemannSolverType]) *)
Inductive rsolver := R_APPROX | R_LLF | R_HLL | R_HLLC | R_HLLD.

(** shared/HydroParams.h:30-70 ([HydroSettings]), riemannSolverType and cell sizes. *)
Record hset : Type := mkhset {
  gamma0 : T; gamma6 : T; smallr : T; smallc : T; smallp : T; smallpp : T;
  slope_type : T; cfl : T;
  solver : rsolver;
  dx : T; dy : T; dz : T
}.

(** shared/HydroParams.cpp:340-352: derived settings. *)
Definition derive (g smr smc st cf : T) (rs : rsolver) (x y z : T) : hset :=
  let smp := smc * smc / g in
  mkhset g ((g + n1) / (n2 * g)) smr smc smp (smr * smp) st cf rs x y z.

Variable S : hset.

(** HydroBaseFunctor2D.h:79-105 / HydroBaseFunctor3D.h:79-105 [computePrimitives]:
    primitive state and sound speed. *)
Definition prim2 (u : hs) : hs * T :=
  let d := nmax (hd u) (smallr S) in
  let ux := hu u / d in
  let uy := hv u / d in
  let eken := nhalf * (ux * ux + uy * uy) in
  let e := hp u / d - eken in
  let p := nmax ((gamma0 S - n1) * d * e) (d * smallp S) in
  let c := nsqrt (gamma0 S * p / d) in
  (mk2 d p ux uy, c).

Definition prim3 (u : hs) : hs * T :=
  let d := nmax (hd u) (smallr S) in
  let ux := hu u / d in
  let uy := hv u / d in
  let uz := hw u / d in
  let eken := nhalf * (ux * ux + uy * uy + uz * uz) in
  let e := hp u / d - eken in
  let p := nmax ((gamma0 S - n1) * d * e) (d * smallp S) in
  let c := nsqrt (gamma0 S * p / d) in
  (mkhs d p ux uy uz, c).

(** HydroBaseFunctor2D.h:432-442 / 3D.h:424-434: limited slope of one component
    along one direction (the same block is repeated for each direction). *)
Definition slope1 (q qp qm : T) : T :=
  let dlft := slope_type S * (q - qm) in
  let drgt := slope_type S * (qp - q) in
  let dcen := nhalf * (qp - qm) in
  let dsgn := if dcen >=? n0 then n1 else - n1 in
  let slop := nmin (nabs dlft) (nabs drgt) in
  let dlim := if dlft * drgt <=? n0 then n0 else slop in
  dsgn * nmin dlim (nabs dcen).

(** Slope of each component along one direction. *)
Definition slope2 (q qp qm : hs) : hs :=
  mk2 (slope1 (hd q) (hd qp) (hd qm)) (slope1 (hp q) (hp qp) (hp qm))
      (slope1 (hu q) (hu qp) (hu qm)) (slope1 (hv q) (hv qp) (hv qm)).

Definition slope3 (q qp qm : hs) : hs :=
  mkhs (slope1 (hd q) (hd qp) (hd qm)) (slope1 (hp q) (hp qp) (hp qm))
       (slope1 (hu q) (hu qp) (hu qm)) (slope1 (hv q) (hv qp) (hv qm))
       (slope1 (hw q) (hw qp) (hw qm)).

Definition hzero : hs := mkhs n0 n0 n0 n0 n0.

(** HydroBaseFunctor2D.h:475-518 [slope_unsplit_hydro_2d]; [None]: the outputs
    are left as they were (slope_type other than 0, 1, 2). *)
Definition slopes2 (q qpx qmx qpy qmy : hs) : option (hs * hs) :=
  if neqb (slope_type S) n0 then Some (hzero, hzero)
  else if neqb (slope_type S) n1 || neqb (slope_type S) n2
  then Some (slope2 q qpx qmx, slope2 q qpy qmy)
  else None.

(** HydroBaseFunctor3D.h:493-578 [slope_unsplit_hydro_3d]. *)
Definition slopes3 (q qpx qmx qpy qmy qpz qmz : hs) : option (hs * hs * hs) :=
  if neqb (slope_type S) n0 then Some (hzero, hzero, hzero)
  else if neqb (slope_type S) n1 || neqb (slope_type S) n2
  then Some (slope3 q qpx qmx, slope3 q qpy qmy, slope3 q qpz qmz)
  else None.

(** HydroBaseFunctor2D.h:216-293 [trace_unsplit_2d_along_dir]. *)
Definition trace2 (q dqX dqY : hs) (dtdx dtdy : T) (f : face) : hs :=
  let r := hd q in let p := hp q in let u := hu q in let v := hv q in
  let drx := hd dqX in let dpx := hp dqX in let dux := hu dqX in let dvx := hv dqX in
  let dry := hd dqY in let dpy := hp dqY in let duy := hu dqY in let dvy := hv dqY in
  let sr0 := - u * drx - v * dry - (dux + dvy) * r in
  let sp0 := - u * dpx - v * dpy - (dux + dvy) * gamma0 S * p in
  let su0 := - u * dux - v * duy - dpx / r in
  let sv0 := - u * dvx - v * dvy - dpy / r in
  match f with
  | XMIN => mk2 (nmax (smallr S) (r - nhalf * drx + sr0 * dtdx * nhalf))
                (p - nhalf * dpx + sp0 * dtdx * nhalf)
                (u - nhalf * dux + su0 * dtdx * nhalf)
                (v - nhalf * dvx + sv0 * dtdx * nhalf)
  | XMAX => mk2 (nmax (smallr S) (r + nhalf * drx + sr0 * dtdx * nhalf))
                (p + nhalf * dpx + sp0 * dtdx * nhalf)
                (u + nhalf * dux + su0 * dtdx * nhalf)
                (v + nhalf * dvx + sv0 * dtdx * nhalf)
  | YMIN => mk2 (nmax (smallr S) (r - nhalf * dry + sr0 * dtdy * nhalf))
                (p - nhalf * dpy + sp0 * dtdy * nhalf)
                (u - nhalf * duy + su0 * dtdy * nhalf)
                (v - nhalf * dvy + sv0 * dtdy * nhalf)
  | YMAX => mk2 (nmax (smallr S) (r + nhalf * dry + sr0 * dtdy * nhalf))
                (p + nhalf * dpy + sp0 * dtdy * nhalf)
                (u + nhalf * duy + su0 * dtdy * nhalf)
                (v + nhalf * dvy + sv0 * dtdy * nhalf)
  | _ => hzero  (* never requested in 2D *)
  end.

(** HydroBaseFunctor3D.h:274-389 [trace_unsplit_3d_along_dir]. *)
Definition trace3 (q dqX dqY dqZ : hs) (dtdx dtdy dtdz : T) (f : face) : hs :=
  let r := hd q in let p := hp q in let u := hu q in let v := hv q in let w := hw q in
  let drx := hd dqX in let dpx := hp dqX in let dux := hu dqX in
  let dvx := hv dqX in let dwx := hw dqX in
  let dry := hd dqY in let dpy := hp dqY in let duy := hu dqY in
  let dvy := hv dqY in let dwy := hw dqY in
  let drz := hd dqZ in let dpz := hp dqZ in let duz := hu dqZ in
  let dvz := hv dqZ in let dwz := hw dqZ in
  let sr0 := - u * drx - v * dry - w * drz - (dux + dvy + dwz) * r in
  let sp0 := - u * dpx - v * dpy - w * dpz - (dux + dvy + dwz) * gamma0 S * p in
  let su0 := - u * dux - v * duy - w * duz - dpx / r in
  let sv0 := - u * dvx - v * dvy - w * dvz - dpy / r in
  let sw0 := - u * dwx - v * dwy - w * dwz - dpz / r in
  match f with
  | XMIN => mkhs (nmax (smallr S) (r - nhalf * drx + sr0 * dtdx * nhalf))
                 (p - nhalf * dpx + sp0 * dtdx * nhalf)
                 (u - nhalf * dux + su0 * dtdx * nhalf)
                 (v - nhalf * dvx + sv0 * dtdx * nhalf)
                 (w - nhalf * dwx + sw0 * dtdx * nhalf)
  | XMAX => mkhs (nmax (smallr S) (r + nhalf * drx + sr0 * dtdx * nhalf))
                 (p + nhalf * dpx + sp0 * dtdx * nhalf)
                 (u + nhalf * dux + su0 * dtdx * nhalf)
                 (v + nhalf * dvx + sv0 * dtdx * nhalf)
                 (w + nhalf * dwx + sw0 * dtdx * nhalf)
  | YMIN => mkhs (nmax (smallr S) (r - nhalf * dry + sr0 * dtdy * nhalf))
                 (p - nhalf * dpy + sp0 * dtdy * nhalf)
                 (u - nhalf * duy + su0 * dtdy * nhalf)
                 (v - nhalf * dvy + sv0 * dtdy * nhalf)
                 (w - nhalf * dwy + sw0 * dtdy * nhalf)
  | YMAX => mkhs (nmax (smallr S) (r + nhalf * dry + sr0 * dtdy * nhalf))
                 (p + nhalf * dpy + sp0 * dtdy * nhalf)
                 (u + nhalf * duy + su0 * dtdy * nhalf)
                 (v + nhalf * dvy + sv0 * dtdy * nhalf)
                 (w + nhalf * dwy + sw0 * dtdy * nhalf)
  | ZMIN => mkhs (nmax (smallr S) (r - nhalf * drz + sr0 * dtdz * nhalf))
                 (p - nhalf * dpz + sp0 * dtdz * nhalf)
                 (u - nhalf * duz + su0 * dtdz * nhalf)
                 (v - nhalf * dvz + sv0 * dtdz * nhalf)
                 (w - nhalf * dwz + sw0 * dtdz * nhalf)
  | ZMAX => mkhs (nmax (smallr S) (r + nhalf * drz + sr0 * dtdz * nhalf))
                 (p + nhalf * dpz + sp0 * dtdz * nhalf)
                 (u + nhalf * duz + su0 * dtdz * nhalf)
                 (v + nhalf * dvz + sv0 * dtdz * nhalf)
                 (w + nhalf * dwz + sw0 * dtdz * nhalf)
  end.

(** [swapValues(&q[IU], &q[IV])] and [swapValues(&q[IU], &q[IW])]. *)
Definition swap_uv (q : hs) : hs := mkhs (hd q) (hp q) (hv q) (hu q) (hw q).
Definition swap_uw (q : hs) : hs := mkhs (hd q) (hp q) (hw q) (hv q) (hu q).

(** ** Riemann solvers (shared/RiemannSolvers.h).  [d3] is the template test
    [std::is_same<HydroState, HydroState3d>]. *)

(** RiemannSolvers.h:19-48 [cmpflx] *)
Definition cmpflx (d3 : bool) (q : hs) : hs :=
  let fd := hd q * hu q in
  let fu := fd * hu q + hp q in
  let fv := fd * hv q in
  let fw := if d3 then fd * hw q else n0 in
  let entho := n1 / (gamma0 S - n1) in
  let ekin0 := nhalf * hd q * (hu q * hu q + hv q * hv q) in
  let ekin := if d3 then ekin0 + nhalf * hd q * (hw q * hw q) else ekin0 in
  let etot := hp q * entho + ekin in
  mkhs fd (hu q * (etot + hp q)) fu fv fw.

(** One Newton iteration, RiemannSolvers.h:99-110: (pold, conv) -> (pold, conv). *)
Definition newton_step (cl cr pl pr ul ur pold : T) : T * T :=
  let wwl := nsqrt (cl * (n1 + gamma6 S * (pold - pl) / pl)) in
  let wwr := nsqrt (cr * (n1 + gamma6 S * (pold - pr) / pr)) in
  let ql := n2 * wwl * wwl * wwl / (wwl * wwl + cl) in
  let qr := n2 * wwr * wwr * wwr / (wwr * wwr + cr) in
  let usl := ul - (pold - pl) / wwl in
  let usr := ur + (pold - pr) / wwr in
  let delp := nmax (qr * ql / (qr + ql) * (usl - usr)) (- pold) in
  let pold' := pold + delp in
  (pold', nabs (delp / (pold' + smallpp S))).

(** RiemannSolvers.h:97-111: at most [n] iterations while conv > 1e-6. *)
Fixpoint newton (n : nat) (cl cr pl pr ul ur pold conv : T) : T :=
  match n with
  | O => pold
  | Datatypes.S n' =>
      if conv >? n1 / nZ 1000000 then
        let '(pold', conv') := newton_step cl cr pl pr ul ur pold in
        newton n' cl cr pl pr ul ur pold' conv'
      else pold
  end.

(** RiemannSolvers.h:68-111: star pressure from the floored left and right states. *)
Definition approx_pstar (rl ul pl rr ur pr : T) : T :=
  let cl := gamma0 S * pl * rl in
  let cr := gamma0 S * pr * rr in
  let wl0 := nsqrt cl in
  let wr0 := nsqrt cr in
  let pstar0 := nmax ((wr0 * pl + wl0 * pr + wl0 * wr0 * (ul - ur)) / (wl0 + wr0)) n0 in
  newton 10 cl cr pl pr ul ur pstar0 n1.

(** RiemannSolvers.h:114-117: mass flux through the wave on one side. *)
Definition approx_w (r p pstar : T) : T :=
  nsqrt (gamma0 S * p * r * (n1 + gamma6 S * (pstar - p) / p)).

(** RiemannSolvers.h:119: star velocity. *)
Definition approx_ustar (rl ul pl rr ur pr pstar : T) : T :=
  nhalf * (ul + (pl - pstar) / approx_w rl pl pstar + ur - (pr - pstar) / approx_w rr pr pstar).

(** RiemannSolvers.h:121-181: state on the axis t = 0, given the upwind state
    (ro, uo, po, wo) and the star state: (density, pressure, normal velocity). *)
Definition approx_sample (ro uo po wo pstar ustar sgnm : T) : T * T * T :=
  let co := nmax (smallc S) (nsqrt (nabs (gamma0 S * po / ro))) in
  let rstar := nmax (ro / (n1 + ro * (po - pstar) / (wo * wo))) (smallr S) in
  let cstar := nmax (smallc S) (nsqrt (nabs (gamma0 S * pstar / rstar))) in
  let ushock := wo / ro - sgnm * uo in
  let shock := pstar >=? po in
  let spout := if shock then ushock else co - sgnm * uo in
  let spin := if shock then ushock else cstar - sgnm * ustar in
  let scr := nmax (spout - spin) (smallc S + nabs (spout + spin)) in
  let frac0 := nhalf * (n1 + (spout + spin) / scr) in
  let frac := if negb (neqb frac0 frac0) then n0
              else if frac0 >=? n1 then n1 else if frac0 <=? n0 then n0 else frac0 in
  if spin >? n0 then (rstar, pstar, ustar)
  else if spout <? n0 then (ro, po, uo)
  else (frac * rstar + (n1 - frac) * ro, frac * pstar + (n1 - frac) * po,
        frac * ustar + (n1 - frac) * uo).

(** RiemannSolvers.h:59-199 [riemann_approx]: the Godunov state. *)
Definition approx_state (d3 : bool) (ql qr : hs) : hs :=
  let rl := nmax (hd ql) (smallr S) in
  let ul := hu ql in
  let pl := nmax (hp ql) (rl * smallp S) in
  let rr := nmax (hd qr) (smallr S) in
  let ur := hu qr in
  let pr := nmax (hp qr) (rr * smallp S) in
  let pstar := approx_pstar rl ul pl rr ur pr in
  let ustar := approx_ustar rl ul pl rr ur pr pstar in
  let sgnm := nsgn ustar in
  let left := sgnm >? n0 in
  let '(d, p, u) :=
    if left then approx_sample rl ul pl (approx_w rl pl pstar) pstar ustar sgnm
    else approx_sample rr ur pr (approx_w rr pr pstar) pstar ustar sgnm in
  mkhs d p u (if left then hv ql else hv qr)
       (if d3 then (if left then hw ql else hw qr) else n0).

Definition riemann_approx (d3 : bool) (ql qr : hs) : hs := cmpflx d3 (approx_state d3 ql qr).

(** RiemannSolvers.h:262-289, 375-398: conservative variables of a primitive state. *)
Definition cons_of (d3 : bool) (q : hs) : hs :=
  let entho := n1 / (gamma0 S - n1) in
  let e0 := hp q * entho + nhalf * hd q * hu q * hu q in
  let e1 := e0 + nhalf * hd q * hv q * hv q in
  let e2 := if d3 then e1 + nhalf * hd q * hw q * hw q else e1 in
  mkhs (hd q) e2 (hd q * hu q) (hd q * hv q) (if d3 then hd q * hw q else n0).

(** RiemannSolvers.h:294-314: fluxes of one side, LLF. *)
Definition side_flux_llf (d3 : bool) (q u : hs) : hs :=
  let fd := hd u * hu q in
  mkhs fd (hu q * (hp u + hp q)) (hp q + hu u * hu q) (fd * hv q)
       (if d3 then fd * hw q else n0).

(** RiemannSolvers.h:401-417: fluxes of one side, HLL. *)
Definition side_flux_hll (d3 : bool) (q u : hs) : hs :=
  let fd := hu u in
  mkhs fd (hu q * (hp u + hp q)) (hp q + hu u * hu q) (fd * hv q)
       (if d3 then fd * hw q else n0).

Definition map4 (f : T -> T -> T -> T -> T) (d3 : bool) (a b c d : hs) : hs :=
  mkhs (f (hd a) (hd b) (hd c) (hd d)) (f (hp a) (hp b) (hp c) (hp d))
       (f (hu a) (hu b) (hu c) (hu d)) (f (hv a) (hv b) (hv c) (hv d))
       (if d3 then f (hw a) (hw b) (hw c) (hw d) else n0).

(** RiemannSolvers.h:217-327 [riemann_llf] *)
Definition riemann_llf (d3 : bool) (ql qr : hs) : hs :=
  let rl := nmax (hd ql) (smallr S) in
  let ul := hu ql in
  let pl := nmax (hp ql) (rl * smallp S) in
  let rr := nmax (hd qr) (smallr S) in
  let ur := hu qr in
  let pr := nmax (hp qr) (rr * smallp S) in
  let cl := nsqrt (gamma0 S * pl / rl) in
  let cr := nsqrt (gamma0 S * pr / rr) in
  let cmax := nmax (nabs ul + cl) (nabs ur + cr) in
  let uL := cons_of d3 ql in
  let uR := cons_of d3 qr in
  let fL := side_flux_llf d3 ql uL in
  let fR := side_flux_llf d3 qr uR in
  map4 (fun fl fr a b => nhalf * (fl + fr - cmax * (b - a))) d3 fL fR uL uR.

(** RiemannSolvers.h:343-435 [riemann_hll] *)
Definition riemann_hll (d3 : bool) (ql qr : hs) : hs :=
  let rl := nmax (hd ql) (smallr S) in
  let ul := hu ql in
  let pl := nmax (hp ql) (rl * smallp S) in
  let rr := nmax (hd qr) (smallr S) in
  let ur := hu qr in
  let pr := nmax (hp qr) (rr * smallp S) in
  let cl := nsqrt (gamma0 S * pl / rl) in
  let cr := nsqrt (gamma0 S * pr / rr) in
  let SL := nmin (nmin ul ur - nmax cl cr) n0 in
  let SR := nmax (nmax ul ur + nmax cl cr) n0 in
  let uL := cons_of d3 ql in
  let uR := cons_of d3 qr in
  let fL := side_flux_hll d3 ql uL in
  let fR := side_flux_hll d3 qr uR in
  map4 (fun fl fr a b => (SR * fl - SL * fr + SR * SL * (b - a)) / (SR - SL)) d3 fL fR uL uR.

(** RiemannSolvers.h:445-568 [riemann_hllc] *)
Definition riemann_hllc (d3 : bool) (ql qr : hs) : hs :=
  let entho := n1 / (gamma0 S - n1) in
  let rl := nmax (hd ql) (smallr S) in
  let pl := nmax (hp ql) (rl * smallp S) in
  let ul := hu ql in
  let ecinl0 := nhalf * rl * ul * ul + nhalf * rl * hv ql * hv ql in
  let ecinl := if d3 then ecinl0 + nhalf * rl * hw ql * hw ql else ecinl0 in
  let etotl := pl * entho + ecinl in
  let rr := nmax (hd qr) (smallr S) in
  let pr := nmax (hp qr) (rr * smallp S) in
  let ur := hu qr in
  let ecinr0 := nhalf * rr * ur * ur + nhalf * rr * hv qr * hv qr in
  let ecinr := if d3 then ecinr0 + nhalf * rr * hw qr * hw qr else ecinr0 in
  let etotr := pr * entho + ecinr in
  let cfastl := nsqrt (nmax (gamma0 S * pl / rl) (smallc S * smallc S)) in
  let cfastr := nsqrt (nmax (gamma0 S * pr / rr) (smallc S * smallc S)) in
  let SL := nmin ul ur - nmax cfastl cfastr in
  let SR := nmax ul ur + nmax cfastl cfastr in
  let rcl := rl * (ul - SL) in
  let rcr := rr * (SR - ur) in
  let ustar := (rcr * ur + rcl * ul + (pl - pr)) / (rcr + rcl) in
  let ptotstar := (rcr * pl + rcl * pr + rcl * rcr * (ul - ur)) / (rcr + rcl) in
  let rstarl := rl * (SL - ul) / (SL - ustar) in
  let etotstarl := ((SL - ul) * etotl - pl * ul + ptotstar * ustar) / (SL - ustar) in
  let rstarr := rr * (SR - ur) / (SR - ustar) in
  let etotstarr := ((SR - ur) * etotr - pr * ur + ptotstar * ustar) / (SR - ustar) in
  let '(ro, uo, ptoto, etoto) :=
    if SL >? n0 then (rl, ul, pl, etotl)
    else if ustar >? n0 then (rstarl, ustar, ptotstar, etotstarl)
    else if SR >? n0 then (rstarr, ustar, ptotstar, etotstarr)
    else (rr, ur, pr, etotr) in
  let fd := ro * uo in
  mkhs fd ((etoto + ptoto) * uo) (ro * uo * uo + ptoto)
       (if fd >? n0 then fd * hv ql else fd * hv qr)
       (if d3 then (if fd >? n0 then fd * hw ql else fd * hw qr) else n0).

(** RiemannSolvers.h:573-603 [riemann_hydro] (2D). [None]: flux left uninitialised. *)
Definition riemann2 (ql qr : hs) : option hs :=
  match solver S with
  | R_APPROX => Some (riemann_approx false ql qr)
  | R_HLL => Some (riemann_hll false ql qr)
  | R_HLLC => Some (riemann_hllc false ql qr)
  | R_LLF => Some (riemann_llf false ql qr)
  | R_HLLD => None
  end.

(** RiemannSolvers.h:608-633 [riemann_hydro] (3D): no HLL branch. *)
Definition riemann3 (ql qr : hs) : option hs :=
  match solver S with
  | R_APPROX => Some (riemann_approx true ql qr)
  | R_HLLC => Some (riemann_hllc true ql qr)
  | R_LLF => Some (riemann_llf true ql qr)
  | R_HLL | R_HLLD => None
  end.

End Hydro.

Arguments hs : clear implicits.
Arguments hset : clear implicits.
