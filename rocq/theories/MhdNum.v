(** * Magnetohydrodynamics: per-cell numerical functions

    Models the device functions of /repo/src/muscl/MHDBaseFunctor2D.h,
    /repo/src/shared/mhd_utils.h and /repo/src/shared/RiemannSolvers_MHD.h.

    [params.settings.cIso] is 0 in every run: its only assignment is the
    initialiser of HydroParams.h:62 and no configuration key sets it.  The
    isothermal branches ([cIso > 0]) are therefore not modelled.  The same holds
    for [Omega0] (HydroParams.h:63).  Reference outputs are returned; the
    writes of the Riemann solvers to their own copies of the input states are
    local. *)
From Coq Require Import ZArith List Bool.
Import ListNotations.
From Verif Require Import Num Exec Grid HydroNum Kernels.
Local Open Scope num_scope.

Section Mhd.
Context {T : Type} `{Num T}.

(** shared/HydroState.h:37-40 ([MHDState], 8 components: density, energy or
    pressure, three velocity or momentum components, three components of the
    magnetic field). *)
Record ms : Type := mkms {
  md : T; mp : T; mu : T; mv : T; mw : T; ma : T; mb : T; mc : T
}.

Definition mzero : ms := mkms n0 n0 n0 n0 n0 n0 n0 n0.

(** Component access [q[v]]. *)
Definition mget (q : ms) (v : Z) : T :=
  if (v =? ID)%Z then md q else if (v =? IP)%Z then mp q else if (v =? IU)%Z then mu q
  else if (v =? IV)%Z then mv q else if (v =? IW)%Z then mw q
  else if (v =? IA)%Z then ma q else if (v =? IB)%Z then mb q else mc q.

(** [swapValues(&q[IU], &q[IV]); swapValues(&q[IA], &q[IB]);]
    MHDRunFunctors2D.h:455-459 and all the y-direction fluxes. *)
Definition swap_xy (q : ms) : ms :=
  mkms (md q) (mp q) (mv q) (mu q) (mw q) (mb q) (ma q) (mc q).

(** [swapValues(&q[IU], &q[IW]); swapValues(&q[IA], &q[IC]);] z-direction fluxes (3D). *)
Definition swap_xz (q : ms) : ms :=
  mkms (md q) (mp q) (mw q) (mv q) (mu q) (mc q) (mb q) (ma q).

(** Component-wise operations [q[v] * c] and loops over [MHD_NBVAR]. *)
Definition mscale (q : ms) (c : T) : ms :=
  mkms (md q * c) (mp q * c) (mu q * c) (mv q * c) (mw q * c) (ma q * c) (mb q * c) (mc q * c).
Definition mmap2 (f : T -> T -> T) (a b : ms) : ms :=
  mkms (f (md a) (md b)) (f (mp a) (mp b)) (f (mu a) (mu b)) (f (mv a) (mv b))
       (f (mw a) (mw b)) (f (ma a) (ma b)) (f (mb a) (mb b)) (f (mc a) (mc b)).
Definition mmap4 (f : T -> T -> T -> T -> T) (a b c d : ms) : ms :=
  mkms (f (md a) (md b) (md c) (md d)) (f (mp a) (mp b) (mp c) (mp d))
       (f (mu a) (mu b) (mu c) (mu d)) (f (mv a) (mv b) (mv c) (mv d))
       (f (mw a) (mw b) (mw c) (mw d)) (f (ma a) (ma b) (ma c) (ma d))
       (f (mb a) (mb b) (mb c) (mb d)) (f (mc a) (mc b) (mc c) (mc d)).

Variable S : hset T.

(** MHDBaseFunctor2D.h:192-242 / MHDBaseFunctor3D.h:192-242 [constoprim_mhd]:
    [u] is the conservative state (magnetic field on the lower faces of the
    cell), [nbx nby nbz] the magnetic field on the upper faces. *)
Definition prim_mhd (u : ms) (nbx nby nbz : T) : ms :=
  let d := nmax (md u) (smallr S) in
  let vx := mu u / d in
  let vy := mv u / d in
  let vz := mw u / d in
  let a := nhalf * (ma u + nbx) in
  let b := nhalf * (mb u + nby) in
  let c := nhalf * (mc u + nbz) in
  let eken := nhalf * (vx * vx + vy * vy + vz * vz) in
  let emag := nhalf * (a * a + b * b + c * c) in
  let eint := (mp u - emag) / d - eken in
  let p := nmax ((gamma0 S - n1) * d * eint) (d * smallp S) in
  mkms d p vx vy vz a b c.

(** ** Speeds (shared/mhd_utils.h) *)

(** Lines 36-77. *)
Definition fmax4 (a0 a1 a2 a3 : T) : T :=
  let r := a0 in
  let r := if a1 >? r then a1 else r in
  let r := if a2 >? r then a2 else r in
  if a3 >? r then a3 else r.
Definition fmin4 (a0 a1 a2 a3 : T) : T :=
  let r := a0 in
  let r := if a1 <? r then a1 else r in
  let r := if a2 <? r then a2 else r in
  if a3 <? r then a3 else r.
Definition fmax5 (a0 a1 a2 a3 a4 : T) : T :=
  let r := a0 in
  let r := if a1 >? r then a1 else r in
  let r := if a2 >? r then a2 else r in
  let r := if a3 >? r then a3 else r in
  if a4 >? r then a4 else r.

(** Lines 89-117 [find_speed_fast<dir>]; [bn] is the component of the field along dir. *)
Definition fast (q : ms) (bn : T) : T :=
  let b2 := ma q * ma q + mb q * mb q + mc q * mc q in
  let c2 := gamma0 S * mp q / md q in
  let d2 := nhalf * (b2 / md q + c2) in
  nsqrt (d2 + nsqrt (d2 * d2 - c2 * bn * bn / md q)).
Definition fast_x (q : ms) : T := fast q (ma q).
Definition fast_y (q : ms) : T := fast q (mb q).
Definition fast_z (q : ms) : T := fast q (mc q).

(** Lines 319-366 [find_speed_info<NDIM>] and 377-403 [find_speed_info]. *)
Definition info_x (q : ms) : T := fast_x q + nabs (mu q).
Definition info_y (q : ms) : T := fast_y q + nabs (mv q).
Definition info_z (q : ms) : T := fast_z q + nabs (mw q).

(** Lines 173-231 [find_mhd_flux]: conservative state and flux along x. *)
Definition mhd_flux (q : ms) : ms * ms :=
  let entho := n1 / (gamma0 S - n1) in
  let d := md q in let p := mp q in
  let u := mu q in let v := mv q in let w := mw q in
  let a := ma q in let b := mb q in let c := mc q in
  let ecin := nhalf * (u * u + v * v + w * w) * d in
  let emag := nhalf * (a * a + b * b + c * c) in
  let etot := p * entho + ecin + emag in
  let ptot := p + emag in
  (mkms d etot (d * u) (d * v) (d * w) a b c,
   mkms (d * u) ((etot + ptot) * u - a * (a * u + b * v + c * w))
        (d * u * u - a * a + ptot) (d * u * v - a * b) (d * u * w - a * c)
        n0 (b * u - a * v) (c * u - a * w)).

(** ** Riemann solvers (shared/RiemannSolvers_MHD.h) *)

(** [qleft[IA] = a; qright[IA] = a] *)
Definition set_a (q : ms) (a : T) : ms :=
  mkms (md q) (mp q) (mu q) (mv q) (mw q) a (mb q) (mc q).

(** Lines 27-64 *)
Definition mhd_hll (ql0 qr0 : ms) : ms :=
  let bx := nhalf * (ma ql0 + ma qr0) in
  let ql := set_a ql0 bx in
  let qr := set_a qr0 bx in
  let (ul, fl) := mhd_flux ql in
  let (ur, fr) := mhd_flux qr in
  let cl := fast_x ql in
  let cr := fast_x qr in
  let sl := nmin (nmin (mu ql) (mu qr) - nmax cl cr) n0 in
  let sr := nmax (nmax (mu ql) (mu qr) + nmax cl cr) n0 in
  mmap4 (fun f1 f2 u1 u2 => (sr * f1 - sl * f2 + sr * sl * (u2 - u1)) / (sr - sl)) fl fr ul ur.

(** Lines 78-108 *)
Definition mhd_llf (ql0 qr0 : ms) : ms :=
  let bx := nhalf * (ma ql0 + ma qr0) in
  let ql := set_a ql0 bx in
  let qr := set_a qr0 bx in
  let (ul, fl) := mhd_flux ql in
  let (ur, fr) := mhd_flux qr in
  let s := nmax (info_x ql) (info_x qr) in
  mmap4 (fun f1 f2 u1 u2 => (f1 + f2) / n2 - s * (u2 - u1) / n2) fl fr ul ur.

(** Sampled state: lines 277-350 [ro, uo, vo, wo, bo, co, ptoto, etoto, vdotbo]. *)
Record sample : Type := mksample {
  o_r : T; o_u : T; o_v : T; o_w : T; o_b : T; o_c : T; o_ptot : T; o_etot : T; o_vdotb : T
}.

(** Lines 352-362: flux of a sampled state. *)
Definition sample_flux (a : T) (o : sample) : ms :=
  mkms (o_r o * o_u o)
       ((o_etot o + o_ptot o) * o_u o - a * o_vdotb o)
       (o_r o * o_u o * o_u o - a * a + o_ptot o)
       (o_r o * o_u o * o_v o - a * o_b o)
       (o_r o * o_u o * o_w o - a * o_c o)
       n0
       (o_b o * o_u o - a * o_v o)
       (o_c o * o_u o - a * o_w o).

(** Lines 202-223 (left) and 232-253 (right): transverse velocity and field in
    the star region of one side; [s], [ustar] the outer and contact speeds. *)
Definition star_side (a r u v w b c s ustar : T) : T * T * T * T :=
  let estar := r * (s - u) * (s - ustar) - a * a in
  let e := r * (s - u) * (s - u) - a * a in
  if (n0 <? a * a) && (nabs (estar / (a * a) - n1) <=? n1 / nZ (10 ^ 8)) then (v, w, b, c)
  else (v - a * b * (ustar - u) / estar, w - a * c * (ustar - u) / estar,
        b * e / estar, c * e / estar).

(** The regions of the fan, lines 135-275: the six sampled states and the five speeds. *)
Record fan : Type := mkfan {
  f_sl : T; f_sal : T; f_ustar : T; f_sar : T; f_sr : T;
  f_l : sample; f_ls : sample; f_lss : sample; f_rss : sample; f_rs : sample; f_r : sample
}.

Definition hlld_fan (ql0 qr0 : ms) : fan :=
  let entho := n1 / (gamma0 S - n1) in
  let a := nhalf * (ma ql0 + ma qr0) in
  let sgnm := if a >=? n0 then n1 else - n1 in
  let ql := set_a ql0 a in
  let qr := set_a qr0 a in
  let rl := md ql in let pl := mp ql in let ul := mu ql in let vl := mv ql in
  let wl := mw ql in let bl := mb ql in let cl := mc ql in
  let ecinl := nhalf * (ul * ul + vl * vl + wl * wl) * rl in
  let emagl := nhalf * (a * a + bl * bl + cl * cl) in
  let etotl := pl * entho + ecinl + emagl in
  let ptotl := pl + emagl in
  let vdotbl := ul * a + vl * bl + wl * cl in
  let rr := md qr in let pr := mp qr in let ur := mu qr in let vr := mv qr in
  let wr := mw qr in let br := mb qr in let cr := mc qr in
  let ecinr := nhalf * (ur * ur + vr * vr + wr * wr) * rr in
  let emagr := nhalf * (a * a + br * br + cr * cr) in
  let etotr := pr * entho + ecinr + emagr in
  let ptotr := pr + emagr in
  let vdotbr := ur * a + vr * br + wr * cr in
  let cfastl := fast_x ql in
  let cfastr := fast_x qr in
  let sl := nmin ul ur - nmax cfastl cfastr in
  let sr := nmax ul ur + nmax cfastl cfastr in
  let rcl := rl * (ul - sl) in
  let rcr := rr * (sr - ur) in
  let ustar := (rcr * ur + rcl * ul + (ptotl - ptotr)) / (rcr + rcl) in
  let ptotstar := (rcr * ptotl + rcl * ptotr + rcl * rcr * (ul - ur)) / (rcr + rcl) in
  let rstarl := rl * (sl - ul) / (sl - ustar) in
  let '(vstarl, wstarl, bstarl, cstarl) := star_side a rl ul vl wl bl cl sl ustar in
  let vdotbstarl := ustar * a + vstarl * bstarl + wstarl * cstarl in
  let etotstarl :=
    ((sl - ul) * etotl - ptotl * ul + ptotstar * ustar + a * (vdotbl - vdotbstarl)) / (sl - ustar) in
  let sqrrstarl := nsqrt rstarl in
  let calfvenl := nabs a / sqrrstarl in
  let sal := ustar - calfvenl in
  let rstarr := rr * (sr - ur) / (sr - ustar) in
  let '(vstarr, wstarr, bstarr, cstarr) := star_side a rr ur vr wr br cr sr ustar in
  let vdotbstarr := ustar * a + vstarr * bstarr + wstarr * cstarr in
  let etotstarr :=
    ((sr - ur) * etotr - ptotr * ur + ptotstar * ustar + a * (vdotbr - vdotbstarr)) / (sr - ustar) in
  let sqrrstarr := nsqrt rstarr in
  let calfvenr := nabs a / sqrrstarr in
  let sar := ustar + calfvenr in
  let sum := sqrrstarl + sqrrstarr in
  let vss := (sqrrstarl * vstarl + sqrrstarr * vstarr + sgnm * (bstarr - bstarl)) / sum in
  let wss := (sqrrstarl * wstarl + sqrrstarr * wstarr + sgnm * (cstarr - cstarl)) / sum in
  let bss := (sqrrstarl * bstarr + sqrrstarr * bstarl +
              sgnm * sqrrstarl * sqrrstarr * (vstarr - vstarl)) / sum in
  let css := (sqrrstarl * cstarr + sqrrstarr * cstarl +
              sgnm * sqrrstarl * sqrrstarr * (wstarr - wstarl)) / sum in
  let vdotbss := ustar * a + vss * bss + wss * css in
  let etotssl := etotstarl - sgnm * sqrrstarl * (vdotbstarl - vdotbss) in
  let etotssr := etotstarr + sgnm * sqrrstarr * (vdotbstarr - vdotbss) in
  mkfan sl sal ustar sar sr
    (mksample rl ul vl wl bl cl ptotl etotl vdotbl)
    (mksample rstarl ustar vstarl wstarl bstarl cstarl ptotstar etotstarl vdotbstarl)
    (mksample rstarl ustar vss wss bss css ptotstar etotssl vdotbss)
    (mksample rstarr ustar vss wss bss css ptotstar etotssr vdotbss)
    (mksample rstarr ustar vstarr wstarr bstarr cstarr ptotstar etotstarr vdotbstarr)
    (mksample rr ur vr wr br cr ptotr etotr vdotbr).

(** Lines 277-350: sampling at x/t = 0. *)
Definition fan_sample (f : fan) : sample :=
  if f_sl f >? n0 then f_l f
  else if f_sal f >? n0 then f_ls f
  else if f_ustar f >? n0 then f_lss f
  else if f_sar f >? n0 then f_rss f
  else if f_sr f >? n0 then f_rs f
  else f_r f.

(** Lines 130-364 *)
Definition mhd_hlld (ql qr : ms) : ms :=
  sample_flux (nhalf * (ma ql + ma qr)) (fan_sample (hlld_fan ql qr)).

(** Lines 369-389 [riemann_mhd]; [None]: the flux is left uninitialised. *)
Definition riemann_mhd (ql qr : ms) : option ms :=
  match solver S with
  | R_HLLD => Some (mhd_hlld ql qr)
  | R_HLL => Some (mhd_hll ql qr)
  | R_LLF => Some (mhd_llf ql qr)
  | R_APPROX | R_HLLC => None
  end.

(** ** The 2D magnetic Riemann solver *)

(** [(int)(1 + COPYSIGN(ONE_F, x)) / 2]: COPYSIGN gives 1 or -1, so 1 or 0. *)
Definition pos (x : T) : Z := if n0 <? nsgn x then 1%Z else 0%Z.
Definition neg (x : T) : Z := (1 - pos x)%Z.

(** Values of the nine regions. *)
Record regions : Type := mkregions {
  e_LL : T; e_RL : T; e_LR : T; e_RR : T;   (* the four corner states *)
  e_B : T; e_T : T;                         (* 1D problems along x, below / above the edge *)
  e_L : T; e_R : T;                         (* 1D problems along y, left / right of the edge *)
  e_C : T                                   (* the interaction region *)
}.

(** Lines 558-593: [E = 0; E += ...] over the regions, products of the integer flags. *)
Definition select_emf (SL SR SB ST : T) (e : regions) : T :=
  let E := n0 + nZ (neg SB * pos ST * neg SL * pos SR) * e_C e in
  let t := nZ (pos SL) * e_LL e + nZ (neg SL * neg SR) * e_RL e + nZ (neg SL * pos SR) * e_B e in
  let E := E + nZ (pos SB) * t in
  let t := nZ (pos SL) * e_LR e + nZ (neg SL * neg SR) * e_RR e + nZ (neg SL * pos SR) * e_T e in
  let E := E + nZ (neg SB * neg ST) * t in
  let E := E + nZ (neg SB * pos ST * pos SL) * e_L e in
  E + nZ (neg SB * pos ST * neg SL * neg SR) * e_R e.

(** Lines 444-557 and 571-593: the four wave speeds SL, SR, SB, ST. *)
Definition emf_speeds (qLL qRL qLR qRR : ms) : T * T * T * T :=
  let cx := fmax4 (fast_x qLL) (fast_x qLR) (fast_x qRL) (fast_x qRR) in
  let cy := fmax4 (fast_y qLL) (fast_y qLR) (fast_y qRL) (fast_y qRR) in
  (fmin4 (mu qLL) (mu qLR) (mu qRL) (mu qRR) - cx,
   fmax4 (mu qLL) (mu qLR) (mu qRL) (mu qRR) + cx,
   fmin4 (mv qLL) (mv qLR) (mv qRL) (mv qRR) - cy,
   fmax4 (mv qLL) (mv qLR) (mv qRL) (mv qRR) + cy).

Definition mptot (q : ms) : T :=
  mp q + nhalf * (ma q * ma q + mb q * mb q + mc q * mc q).

(** The electric fields of the nine regions. *)
Definition emf_regions (qLL qRL qLR qRR : ms) (ELL ERL ELR ERR : T) : regions :=
  let '(SL, SR, SB, ST) := emf_speeds qLL qRL qLR qRR in
  let rLL := md qLL in let uLL := mu qLL in let vLL := mv qLL in
  let aLL := ma qLL in let bLL := mb qLL in
  let rLR := md qLR in let uLR := mu qLR in let vLR := mv qLR in
  let aLR := ma qLR in let bLR := mb qLR in
  let rRL := md qRL in let uRL := mu qRL in let vRL := mv qRL in
  let aRL := ma qRL in let bRL := mb qRL in
  let rRR := md qRR in let uRR := mu qRR in let vRR := mv qRR in
  let aRR := ma qRR in let bRR := mb qRR in
  let PLL := mptot qLL in let PLR := mptot qLR in
  let PRL := mptot qRL in let PRR := mptot qRR in
  let rcLLx := rLL * (uLL - SL) in
  let rcRLx := rRL * (SR - uRL) in
  let rcLRx := rLR * (uLR - SL) in
  let rcRRx := rRR * (SR - uRR) in
  let rcLLy := rLL * (vLL - SB) in
  let rcLRy := rLR * (ST - vLR) in
  let rcRLy := rRL * (vRL - SB) in
  let rcRRy := rRR * (ST - vRR) in
  let ustar :=
    (rcLLx * uLL + rcLRx * uLR + rcRLx * uRL + rcRRx * uRR + (PLL - PRL + PLR - PRR)) /
    (rcLLx + rcLRx + rcRLx + rcRRx) in
  let vstar :=
    (rcLLy * vLL + rcLRy * vLR + rcRLy * vRL + rcRRy * vRR + (PLL - PLR + PRL - PRR)) /
    (rcLLy + rcLRy + rcRLy + rcRRy) in
  let rstarLLx := rLL * (SL - uLL) / (SL - ustar) in
  let BstarLL := bLL * (SL - uLL) / (SL - ustar) in
  let rstarLLy := rLL * (SB - vLL) / (SB - vstar) in
  let AstarLL := aLL * (SB - vLL) / (SB - vstar) in
  let rstarLL := rLL * (SL - uLL) / (SL - ustar) * (SB - vLL) / (SB - vstar) in
  let EstarLLx := ustar * BstarLL - vLL * aLL in
  let EstarLLy := uLL * bLL - vstar * AstarLL in
  let EstarLL := ustar * BstarLL - vstar * AstarLL in
  let rstarLRx := rLR * (SL - uLR) / (SL - ustar) in
  let BstarLR := bLR * (SL - uLR) / (SL - ustar) in
  let rstarLRy := rLR * (ST - vLR) / (ST - vstar) in
  let AstarLR := aLR * (ST - vLR) / (ST - vstar) in
  let rstarLR := rLR * (SL - uLR) / (SL - ustar) * (ST - vLR) / (ST - vstar) in
  let EstarLRx := ustar * BstarLR - vLR * aLR in
  let EstarLRy := uLR * bLR - vstar * AstarLR in
  let EstarLR := ustar * BstarLR - vstar * AstarLR in
  let rstarRLx := rRL * (SR - uRL) / (SR - ustar) in
  let BstarRL := bRL * (SR - uRL) / (SR - ustar) in
  let rstarRLy := rRL * (SB - vRL) / (SB - vstar) in
  let AstarRL := aRL * (SB - vRL) / (SB - vstar) in
  let rstarRL := rRL * (SR - uRL) / (SR - ustar) * (SB - vRL) / (SB - vstar) in
  let EstarRLx := ustar * BstarRL - vRL * aRL in
  let EstarRLy := uRL * bRL - vstar * AstarRL in
  let EstarRL := ustar * BstarRL - vstar * AstarRL in
  let rstarRRx := rRR * (SR - uRR) / (SR - ustar) in
  let BstarRR := bRR * (SR - uRR) / (SR - ustar) in
  let rstarRRy := rRR * (ST - vRR) / (ST - vstar) in
  let AstarRR := aRR * (ST - vRR) / (ST - vstar) in
  let rstarRR := rRR * (SR - uRR) / (SR - ustar) * (ST - vRR) / (ST - vstar) in
  let EstarRRx := ustar * BstarRR - vRR * aRR in
  let EstarRRy := uRR * bRR - vstar * AstarRR in
  let EstarRR := ustar * BstarRR - vstar * AstarRR in
  let calfvenL := fmax5 (nabs aLR / nsqrt rstarLRx) (nabs AstarLR / nsqrt rstarLR)
                        (nabs aLL / nsqrt rstarLLx) (nabs AstarLL / nsqrt rstarLL) (smallc S) in
  let calfvenR := fmax5 (nabs aRR / nsqrt rstarRRx) (nabs AstarRR / nsqrt rstarRR)
                        (nabs aRL / nsqrt rstarRLx) (nabs AstarRL / nsqrt rstarRL) (smallc S) in
  let calfvenB := fmax5 (nabs bLL / nsqrt rstarLLy) (nabs BstarLL / nsqrt rstarLL)
                        (nabs bRL / nsqrt rstarRLy) (nabs BstarRL / nsqrt rstarRL) (smallc S) in
  let calfvenT := fmax5 (nabs bLR / nsqrt rstarLRy) (nabs BstarLR / nsqrt rstarLR)
                        (nabs bRR / nsqrt rstarRRy) (nabs BstarRR / nsqrt rstarRR) (smallc S) in
  let SAL := nmin (ustar - calfvenL) n0 in
  let SAR := nmax (ustar + calfvenR) n0 in
  let SAB := nmin (vstar - calfvenB) n0 in
  let SAT := nmax (vstar + calfvenT) n0 in
  let AstarT := (SAR * AstarRR - SAL * AstarLR) / (SAR - SAL) in
  let AstarB := (SAR * AstarRL - SAL * AstarLL) / (SAR - SAL) in
  let BstarR := (SAT * BstarRR - SAB * BstarRL) / (SAT - SAB) in
  let BstarL := (SAT * BstarLR - SAB * BstarLL) / (SAT - SAB) in
  mkregions ELL ERL ELR ERR
    ((SAR * EstarLLx - SAL * EstarRLx + SAR * SAL * (bRL - bLL)) / (SAR - SAL))
    ((SAR * EstarLRx - SAL * EstarRRx + SAR * SAL * (bRR - bLR)) / (SAR - SAL))
    ((SAT * EstarLLy - SAB * EstarLRy - SAT * SAB * (aLR - aLL)) / (SAT - SAB))
    ((SAT * EstarRLy - SAB * EstarRRy - SAT * SAB * (aRR - aRL)) / (SAT - SAB))
    ((SAL * SAB * EstarRR - SAL * SAT * EstarRL - SAR * SAB * EstarLR + SAR * SAT * EstarLL) /
       (SAR - SAL) / (SAT - SAB) -
     SAT * SAB / (SAT - SAB) * (AstarT - AstarB) + SAR * SAL / (SAR - SAL) * (BstarR - BstarL)).

(** Lines 395-627 *)
Definition mag_riemann2d (qLL qRL qLR qRR : ms) (ELL ERL ELR ERR : T) : T :=
  let '(SL, SR, SB, ST) := emf_speeds qLL qRL qLR qRR in
  select_emf SL SR SB ST (emf_regions qLL qRL qLR qRR ELL ERL ELR ERR).

(** Direction of the edge (shared/enums.h, [EmfDir]). *)
Inductive emfdir := EMFX | EMFY | EMFZ.

(** The renaming (iu,iv,iw / ia,ib,ic) of lines 691-820: the same three blocks of
    assignments, written here as a rotation of the state followed by the EMFZ block. *)
Definition emf_rot (d : emfdir) (q : ms) : ms :=
  match d with
  | EMFZ => q
  | EMFY => mkms (md q) (mp q) (mw q) (mu q) (mv q) (mc q) (ma q) (mb q)
  | EMFX => mkms (md q) (mp q) (mv q) (mw q) (mu q) (mb q) (mc q) (ma q)
  end.

(** [qLL[IA] = ...; qLL[IB] = ...] with the averages of the two sides. *)
Definition set_ab (q : ms) (a b : T) : ms :=
  mkms (md q) (mp q) (mu q) (mv q) (mw q) a b (mc q).

(** Lines 648-871 [compute_emf<emfDir>] *)
Definition compute_emf (d : emfdir) (qRT qRB qLT qLB : ms) : T :=
  let rt := emf_rot d qRT in let rb := emf_rot d qRB in
  let lt := emf_rot d qLT in let lb := emf_rot d qLB in
  let aT := nhalf * (ma rt + ma lt) in
  let aB := nhalf * (ma rb + ma lb) in
  let bR := nhalf * (mb rt + mb rb) in
  let bL := nhalf * (mb lt + mb lb) in
  let qLL := set_ab rt aT bR in
  let qRL := set_ab lt aT bL in
  let qLR := set_ab rb aB bR in
  let qRR := set_ab lb aB bL in
  let E q := mu q * mb q - mv q * ma q in
  mag_riemann2d qLL qRL qLR qRR (E qLL) (E qRL) (E qLR) (E qRR).

(** ** Slopes and predictor, 2D *)

Definition mslope (q qp qm : ms) : ms :=
  mkms (slope1 S (md q) (md qp) (md qm)) (slope1 S (mp q) (mp qp) (mp qm))
       (slope1 S (mu q) (mu qp) (mu qm)) (slope1 S (mv q) (mv qp) (mv qm))
       (slope1 S (mw q) (mw qp) (mw qm)) (slope1 S (ma q) (ma qp) (ma qm))
       (slope1 S (mb q) (mb qp) (mb qm)) (slope1 S (mc q) (mc qp) (mc qm)).

(** MHDBaseFunctor2D.h:405-433 [slope_unsplit_hydro_2d(q, qp, qm, dq)];
    [None]: dq is left uninitialised. *)
Definition mslope_dir (q qp qm : ms) : option ms :=
  if neqb (slope_type S) n1 || neqb (slope_type S) n2 then Some (mslope q qp qm) else None.

(** A 3x3 neighbourhood of primitive states and a 4x4 neighbourhood of
    face-centred fields, [qNb[i][j]] and [bfNb[i][j]] with the cell at (1,1). *)
Definition nbh (X : Type) := nat -> nat -> X.

Record bf : Type := mkbf { bx : T; by_ : T; bz : T }.

(** MHDBaseFunctor2D.h:345-390 [slope_unsplit_hydro_2d(qNb, dq)] *)
Definition mslopes2 (q : nbh ms) : option (ms * ms) :=
  if neqb (slope_type S) n1 || neqb (slope_type S) n2
  then Some (mslope (q 1 1)%nat (q 2 1)%nat (q 0 1)%nat, mslope (q 1 1)%nat (q 1 2)%nat (q 1 0)%nat)
  else None.

(** MHDBaseFunctor2D.h:521-542 [compute_electric_field_2d], and the same
    expression at 815-838; u.. are the velocities in the four cells around the edge. *)
Definition elec2 (q00 q01 q10 q11 : ms) (ax_lo ax b_lo b : T) : T :=
  let u := nquarter * (mu q00 + mu q01 + mu q10 + mu q11) in
  let v := nquarter * (mv q00 + mv q01 + mv q10 + mv q11) in
  let A := nhalf * (ax_lo + ax) in
  let B := nhalf * (b_lo + b) in
  u * B - v * A.

(** Source terms of the primitive equations, MHDBaseFunctor2D.h:972-982 and
    MHDRunFunctors2D.h:985-1030 (with half slopes in the former, full slopes in the latter). *)
Definition source2 (q dqx dqy : ms) (dAx dBy dtdx dtdy : T) : ms :=
  let r := md q in let p := mp q in let u := mu q in let v := mv q in let w := mw q in
  let A := ma q in let B := mb q in let C := mc q in
  let drx := md dqx in let dpx := mp dqx in let dux := mu dqx in let dvx := mv dqx in
  let dwx := mw dqx in let dBx := mb dqx in let dCx := mc dqx in
  let dry := md dqy in let dpy := mp dqy in let duy := mu dqy in let dvy := mv dqy in
  let dwy := mw dqy in let dAy := ma dqy in let dCy := mc dqy in
  mkms ((- u * drx - dux * r) * dtdx + (- v * dry - dvy * r) * dtdy)
       ((- u * dpx - dux * gamma0 S * p) * dtdx + (- v * dpy - dvy * gamma0 S * p) * dtdy)
       ((- u * dux - dpx / r - B * dBx / r - C * dCx / r) * dtdx + (- v * duy + B * dAy / r) * dtdy)
       ((- u * dvx + A * dBx / r) * dtdx + (- v * dvy - dpy / r - A * dAy / r - C * dCy / r) * dtdy)
       ((- u * dwx + A * dCx / r) * dtdx + (- v * dwy + B * dCy / r) * dtdy)
       ((u * dBy + B * duy - v * dAy - A * dvy) * dtdy)
       ((- u * dBx - B * dux + v * dAx + A * dvx) * dtdx)
       ((w * dAx + A * dwx - u * dCx - C * dux) * dtdx +
        (- v * dCy - C * dvy + w * dBy + B * dwy) * dtdy).

(** [q[ID] = fmax(smallR, q[ID]); q[IP] = fmax(smallp * q[ID], q[IP]);] *)
Definition mfloor (q : ms) : ms :=
  let d := nmax (smallr S) (md q) in
  mkms d (nmax (smallp S * d) (mp q)) (mu q) (mv q) (mw q) (ma q) (mb q) (mc q).

(** The eight states produced by the predictor: qm[0], qp[0], qm[1], qp[1] and
    the four edge states. *)
Record traced : Type := mktraced {
  t_mx : ms; t_px : ms; t_my : ms; t_py : ms;
  t_rt : ms; t_rb : ms; t_lt : ms; t_lb : ms
}.

(** MHDBaseFunctor2D.h:774-1109 [trace_unsplit_mhd_2d] *)
Definition trace_mhd2 (q : nbh ms) (b : nbh bf) (dtdx dtdy : T) : option traced :=
  let Ez (di dj : nat) :=
    elec2 (q di dj) (q di (1 + dj)%nat) (q (1 + di)%nat dj) (q (1 + di)%nat (1 + dj)%nat)
          (bx (b (1 + di)%nat dj)) (bx (b (1 + di)%nat (1 + dj)%nat))
          (by_ (b di (1 + dj)%nat)) (by_ (b (1 + di)%nat (1 + dj)%nat)) in
  let ELL := Ez 0%nat 0%nat in let ELR := Ez 0%nat 1%nat in
  let ERL := Ez 1%nat 0%nat in let ERR := Ez 1%nat 1%nat in
  match mslopes2 q with
  | None => None
  | Some (dqx, dqy) =>
    let hx := mscale dqx nhalf in
    let hy := mscale dqy nhalf in
    let AL := bx (b 1 1)%nat in let AR := bx (b 2 1)%nat in
    let BL := by_ (b 1 1)%nat in let BR := by_ (b 1 2)%nat in
    let dALy := nhalf * slope1 S (bx (b 1 1)%nat) (bx (b 1 2)%nat) (bx (b 1 0)%nat) in
    let dBLx := nhalf * slope1 S (by_ (b 1 1)%nat) (by_ (b 2 1)%nat) (by_ (b 0 1)%nat) in
    let dARy := nhalf * slope1 S (bx (b 2 1)%nat) (bx (b 2 2)%nat) (bx (b 2 0)%nat) in
    let dBRx := nhalf * slope1 S (by_ (b 1 2)%nat) (by_ (b 2 2)%nat) (by_ (b 0 2)%nat) in
    let dAx := nhalf * (AR - AL) in
    let dBy := nhalf * (BR - BL) in
    let s := source2 (q 1 1)%nat hx hy dAx dBy dtdx dtdy in
    let sAL := (ELR - ELL) * nhalf * dtdy in
    let sAR := (ERR - ERL) * nhalf * dtdy in
    let sBL := - (ERL - ELL) * nhalf * dtdx in
    let sBR := - (ERR - ELR) * nhalf * dtdx in
    let c := mmap2 nadd (q 1 1)%nat s in
    let AL := AL + sAL in let AR := AR + sAR in
    let BL := BL + sBL in let BR := BR + sBR in
    let px := mfloor (set_a (mmap2 nsub c hx) AL) in
    let mx := mfloor (set_a (mmap2 nadd c hx) AR) in
    let py := mfloor (set_ab (mmap2 nsub c hy) (ma c - ma hy) BL) in
    let my := mfloor (set_ab (mmap2 nadd c hy) (ma c + ma hy) BR) in
    let pp x y := x + y in
    let pm x y := x - y in
    let mpl x y := - x + y in
    let mm x y := - x - y in
    let corner f A B := mfloor (set_ab (mmap2 nadd c (mmap2 f hx hy)) A B) in
    Some (mktraced mx px my py
      (corner pp (AR + dARy) (BR + dBRx))
      (corner pm (AR + - dARy) (BL + dBLx))
      (corner mpl (AL + dALy) (BR + - dBRx))
      (corner mm (AL + - dALy) (BL + - dBLx)))
  end.

End Mhd.

Arguments ms : clear implicits.
Arguments bf : clear implicits.
Arguments traced : clear implicits.
Arguments regions : clear implicits.
Arguments sample : clear implicits.
Arguments fan : clear implicits.
