(** * 2D MUSCL-Hancock hydrodynamics: kernels and time step

    Models /repo/src/muscl/HydroRunFunctors2D.h and
    [SolverHydroMuscl<2>::godunov_unsplit_impl]
    (/repo/src/muscl/SolverHydroMuscl.cpp:213-297). *)
From Coq Require Import ZArith List Bool.
Import ListNotations.
From Verif Require Import Num Exec Grid Boundaries HydroNum Kernels.
Local Open Scope Z_scope.

Section Hydro2D.
Context {T : Type} `{Num T}.
Variable m : mesh.
Variable S : hset T.
Variable g : gravp.
Variable dt : T.

(** dt/params.dx and dt/params.dy: functor constructors, e.g. HydroRunFunctors2D.h:505-516. *)
Definition dtdx : T := ndiv dt (dx S).
Definition dtdy : T := ndiv dt (dy S).

(** MDRangePolicy({0,0},{isize,jsize}): HydroRunFunctors2D.h:40-46 and all other kernels. *)
Definition cells2 : list (Z * Z) := range2 (isize m) (jsize m).

(** [gw <= i < isize-gw and gw <= j < jsize-gw] *)
Definition inner2 (i j : Z) : bool :=
  (gw m <=? j) && (j <? jsize m - gw m) && (gw m <=? i) && (i <? isize m - gw m).

(** [gw <= i <= isize-gw and gw <= j <= jsize-gw] *)
Definition inner2_le (i j : Z) : bool :=
  (gw m <=? j) && (j <=? jsize m - gw m) && (gw m <=? i) && (i <=? isize m - gw m).

(** ConvertToPrimitivesFunctor2D, HydroRunFunctors2D.h:184-246 *)
Definition convert_item2 (a : arr) (c : Z * Z) : prog T :=
  let (i, j) := c in
  if (0 <=? j) && (j <? jsize m) && (0 <=? i) && (i <? isize m) then
    rd2 a i j (fun u => wr2 A_Q i j (fst (prim2 S u)) Done)
  else Done.

(** Gravity predictor on a face state, HydroRunFunctors2D.h:639-650:
    [q[IU] += 0.5*dt*g(i,j,IX); q[IV] += 0.5*dt*g(i,j,IY)]. *)
Definition kick2 (q : hs T) (gx gy : T) : hs T :=
  mk2 (hd q) (hp q) (nadd (hu q) (nmul (nmul nhalf dt) gx))
      (nadd (hv q) (nmul (nmul nhalf dt) gy)).

Definition predict2 (i j : Z) (q : hs T) (k : hs T -> prog T) : prog T :=
  if g_enabled g && g_hancock g then
    Rd (L2 A_G i j IX) (fun gx => Rd (L2 A_G i j IY) (fun gy => k (kick2 q gx gy)))
  else k q.

(** Load a cell and its four neighbours and compute its slopes
    (HydroRunFunctors2D.h:574-601, 603-636, 682-715). *)
Definition slopes_at2 (i j : Z) (k : hs T -> hs T -> hs T -> prog T) : prog T :=
  rd2 A_Q i j (fun q => rd2 A_Q (i + 1) j (fun q0 => rd2 A_Q (i - 1) j (fun q1 =>
  rd2 A_Q i (j + 1) (fun q2 => rd2 A_Q i (j - 1) (fun q3 =>
  need (slopes2 S q q0 q1 q2 q3) (fun d => k q (fst d) (snd d))))))).

(** ComputeAndStoreFluxesFunctor2D, HydroRunFunctors2D.h:489-768 *)
Definition fluxes_item2 (c : Z * Z) : prog T :=
  let (i, j) := c in
  if inner2_le i j then
    slopes_at2 i j (fun q dqX dqY =>
    slopes_at2 (i - 1) j (fun qn dqXn dqYn =>
    predict2 (i - 1) j (trace2 S qn dqXn dqYn dtdx dtdy XMAX) (fun qleft =>
    predict2 i j (trace2 S q dqX dqY dtdx dtdy XMIN) (fun qright =>
    need (riemann2 S qleft qright) (fun fx =>
    wr2 A_Fx i j (hscale fx dtdx)
    (slopes_at2 i (j - 1) (fun qn dqXn dqYn =>
     predict2 i (j - 1) (trace2 S qn dqXn dqYn dtdx dtdy YMAX) (fun qleft =>
     predict2 i j (trace2 S q dqX dqY dtdx dtdy YMIN) (fun qright =>
     need (riemann2 S (swap_uv qleft) (swap_uv qright)) (fun fy =>
     wr2 A_Fy i j (hscale (swap_uv fy) dtdy) Done))))))))))
  else Done.

(** UpdateFunctor2D, HydroRunFunctors2D.h:773-845 *)
Definition update_item2 (a : arr) (c : Z * Z) : prog T :=
  let (i, j) := c in
  if inner2 i j then
    accum nadd vars2 (L2 a i j) (L2 A_Fx i j)
   (accum nsub vars2 (L2 a i j) (L2 A_Fx (i + 1) j)
   (accum nadd vars2 (L2 a i j) (L2 A_Fy i j)
   (accum nsub vars2 (L2 a i j) (L2 A_Fy i (j + 1)) Done)))
  else Done.

(** UpdateDirFunctor2D<dir>, HydroRunFunctors2D.h:851-924; [xdir] is dir == XDIR. *)
Definition update_dir_item2 (xdir : bool) (a b : arr) (c : Z * Z) : prog T :=
  let (i, j) := c in
  if inner2 i j then
    if xdir then
      accum nadd vars2 (L2 a i j) (L2 b i j)
     (accum nsub vars2 (L2 a i j) (L2 b (i + 1) j) Done)
    else
      accum nadd vars2 (L2 a i j) (L2 b i j)
     (accum nsub vars2 (L2 a i j) (L2 b i (j + 1)) Done)
  else Done.

(** ComputeSlopesFunctor2D, HydroRunFunctors2D.h:930-1034 (dqX, dqY start at zero). *)
Definition slopes_item2 (c : Z * Z) : prog T :=
  let (i, j) := c in
  if (gw m - 1 <=? j) && (j <=? jsize m - gw m) && (gw m - 1 <=? i) && (i <=? isize m - gw m) then
    rd2 A_Q i j (fun q => rd2 A_Q (i + 1) j (fun q0 => rd2 A_Q (i - 1) j (fun q1 =>
    rd2 A_Q i (j + 1) (fun q2 => rd2 A_Q i (j - 1) (fun q3 =>
    let d := match slopes2 S q q0 q1 q2 q3 with Some d => d | None => (hzero, hzero) end in
    wr2 A_Sx i j (fst d) (wr2 A_Sy i j (snd d) Done))))))
  else Done.

(** ComputeTraceAndFluxes_Functor2D<dir>, HydroRunFunctors2D.h:1039-1264; fluxes stored in [b]. *)
Definition trace_fluxes_item2 (xdir : bool) (b : arr) (c : Z * Z) : prog T :=
  let (i, j) := c in
  if inner2_le i j then
    rd2 A_Q i j (fun q => rd2 A_Sx i j (fun dqX => rd2 A_Sy i j (fun dqY =>
    if xdir then
      predict2 i j (trace2 S q dqX dqY dtdx dtdy XMIN) (fun qright =>
      rd2 A_Q (i - 1) j (fun qn => rd2 A_Sx (i - 1) j (fun dqXn => rd2 A_Sy (i - 1) j (fun dqYn =>
      predict2 (i - 1) j (trace2 S qn dqXn dqYn dtdx dtdy XMAX) (fun qleft =>
      need (riemann2 S qleft qright) (fun f => wr2 b i j (hscale f dtdx) Done))))))
    else
      predict2 i j (trace2 S q dqX dqY dtdx dtdy YMIN) (fun qright =>
      rd2 A_Q i (j - 1) (fun qn => rd2 A_Sx i (j - 1) (fun dqXn => rd2 A_Sy i (j - 1) (fun dqYn =>
      predict2 i (j - 1) (trace2 S qn dqXn dqYn dtdx dtdy YMAX) (fun qleft =>
      need (riemann2 S (swap_uv qleft) (swap_uv qright)) (fun f =>
      wr2 b i j (hscale (swap_uv f) dtdy) Done)))))))))
  else Done.

(** ComputeAllFluxesAndUpdateFunctor2D, HydroRunFunctors2D.h:1269-1550 *)
Definition all_fluxes_item2 (a : arr) (c : Z * Z) : prog T :=
  let (i, j) := c in
  if inner2_le i j then
    slopes_at2 i j (fun q dqX dqY =>
    slopes_at2 (i - 1) j (fun qn dqXn dqYn =>
    predict2 (i - 1) j (trace2 S qn dqXn dqYn dtdx dtdy XMAX) (fun qleft =>
    predict2 i j (trace2 S q dqX dqY dtdx dtdy XMIN) (fun qright =>
    need (riemann2 S qleft qright) (fun fx =>
    let addx := (j <? jsize m - gw m) && (i <? isize m - gw m) in
    let subx := (j <? jsize m - gw m) && (gw m <? i) in
    atomics nadd (if addx then vars2 else []) (L2 a i j) (hscale fx dtdx)
   (atomics nsub (if subx then vars2 else []) (L2 a (i - 1) j) (hscale fx dtdx)
    (slopes_at2 i (j - 1) (fun qn dqXn dqYn =>
     predict2 i (j - 1) (trace2 S qn dqXn dqYn dtdx dtdy YMAX) (fun qleft =>
     predict2 i j (trace2 S q dqX dqY dtdx dtdy YMIN) (fun qright =>
     need (riemann2 S (swap_uv qleft) (swap_uv qright)) (fun fy0 =>
     let fy := swap_uv fy0 in
     let addy := (j <? jsize m - gw m) && (i <? isize m - gw m) in
     let suby := (gw m <? j) && (i <? isize m - gw m) in
     atomics nadd (if addy then vars2 else []) (L2 a i j) (hscale fy dtdy)
    (atomics nsub (if suby then vars2 else []) (L2 a i (j - 1)) (hscale fy dtdy)
     Done))))))))))))
  else Done.

(** GravitySourceTermFunctor2D, HydroRunFunctors2D.h:1555-1631 *)
Definition gravity_item2 (ain aout : arr) (c : Z * Z) : prog T :=
  let (i, j) := c in
  if inner2 i j then
    Rd (L2 ain i j ID) (fun rhoOld =>
    Rd (L2 aout i j ID) (fun rhoOut =>
    let rhoNew := nmax (smallr S) rhoOut in
    Rd (L2 aout i j IU) (fun rhou =>
    Rd (L2 aout i j IV) (fun rhov =>
    let ekin_old := ndiv (nmul nhalf (nadd (nmul rhou rhou) (nmul rhov rhov))) rhoNew in
    Rd (L2 A_G i j IX) (fun gx =>
    let rhou' := nadd rhou (nmul (nmul (nmul nhalf dt) gx) (nadd rhoOld rhoNew)) in
    Rd (L2 A_G i j IY) (fun gy =>
    let rhov' := nadd rhov (nmul (nmul (nmul nhalf dt) gy) (nadd rhoOld rhoNew)) in
    Wr (L2 aout i j IU) rhou' (Wr (L2 aout i j IV) rhov'
    (let ekin_new := ndiv (nmul nhalf (nadd (nmul rhou' rhou') (nmul rhov' rhov'))) rhoNew in
     Rd (L2 aout i j IE) (fun e =>
     Wr (L2 aout i j IE) (nadd e (nsub ekin_new ekin_old)) Done)))))))))
  else Done.

(** SolverHydroMuscl.cpp:213-297, implementation-specific part.  With version 1
    Fluxes_y is the same view as Fluxes_x (SolverHydroMuscl.h:212-222). *)
Definition scheme2 (iv : impl) (aout : arr) : list (list (prog T)) :=
  match iv with
  | V0 => [ map fluxes_item2 cells2; map (update_item2 aout) cells2 ]
  | V1 => [ map slopes_item2 cells2;
            map (trace_fluxes_item2 true A_Fx) cells2;
            map (update_dir_item2 true aout A_Fx) cells2;
            map (trace_fluxes_item2 false A_Fx) cells2;
            map (update_dir_item2 false aout A_Fx) cells2 ]
  | V2 => [ map (all_fluxes_item2 aout) cells2 ]
  end.

(** SolverHydroMuscl.cpp:213-297 [godunov_unsplit_impl], after the call of
    [make_boundaries] *)
Definition godunov2_body (iv : impl) (ain aout : arr) : list (list (prog T)) :=
  [ deep_copy2 m aout ain; map (convert_item2 ain) cells2 ] ++
  scheme2 iv aout ++
  (if g_enabled g then [ map (gravity_item2 ain aout) cells2 ] else []).

(** SolverHydroMuscl.cpp:213-297, without MPI: [make_boundaries] is the serial one *)
Definition godunov2 (iv : impl) (ain aout : arr) : list (list (prog T)) :=
  make_boundaries2d m ain ++ godunov2_body iv ain aout.

(** Extents of the views allocated by the constructor, SolverHydroMuscl.h:193-232:
    number of variables per array, 0 when the view is not allocated. *)
Definition nv2 (iv : impl) (a : arr) : Z :=
  match a with
  | A_U | A_U2 | A_Q => nbvar m
  | A_Fx => match iv with V0 | V1 => nbvar m | V2 => 0 end
  | A_Fy => match iv with V0 => nbvar m | _ => 0 end
  | A_Sx | A_Sy => match iv with V1 => nbvar m | _ => 0 end
  | A_G => if g_enabled g then 2 else 0
  | _ => 0
  end.

End Hydro2D.
