(** * 3D MUSCL-Hancock hydrodynamics: kernels and time step

    Models /repo/src/muscl/HydroRunFunctors3D.h and
    [SolverHydroMuscl<3>::godunov_unsplit_impl]
    (/repo/src/muscl/SolverHydroMuscl.cpp:300-390).

    Simplification: the blocks that the program writes three times, once per
    direction, are written once here with the direction as a parameter; the
    places where the three copies differ are kept (see [kicked_right]). *)
From Coq Require Import ZArith List Bool.
Import ListNotations.
From Verif Require Import Num Exec Grid Boundaries HydroNum Kernels.
Local Open Scope Z_scope.

(** shared/enums.h:170-179 [enum Direction { XDIR, YDIR, ZDIR }] *)
Inductive dir := DX | DY | DZ.

(** Unit offset along a direction: (i-1,j,k), (i,j-1,k) or (i,j,k-1) is
    [(i - ox d, j - oy d, k - oz d)]. *)
Definition ox (d : dir) : Z := match d with DX => 1 | _ => 0 end.
Definition oy (d : dir) : Z := match d with DY => 1 | _ => 0 end.
Definition oz (d : dir) : Z := match d with DZ => 1 | _ => 0 end.

(** Low and high face of a cell along a direction (shared/enums.h FaceIdType). *)
Definition flo (d : dir) : face := match d with DX => XMIN | DY => YMIN | DZ => ZMIN end.
Definition fhi (d : dir) : face := match d with DX => XMAX | DY => YMAX | DZ => ZMAX end.

Section Hydro3D.
Context {T : Type} `{Num T}.
Variable m : mesh.
Variable S : hset T.
Variable g : gravp.
Variable dt : T.

(** dt/params.dx, dt/params.dy, dt/params.dz: functor constructors, e.g.
    HydroRunFunctors3D.h:302-304. *)
Definition dtd (d : dir) : T :=
  match d with DX => ndiv dt (dx S) | DY => ndiv dt (dy S) | DZ => ndiv dt (dz S) end.

(** The normal velocity comes first in the Riemann solver: [swapValues] of
    IU/IV along Y and IU/IW along Z, HydroRunFunctors3D.h:597-598, 692-693. *)
Definition swapd (d : dir) (q : hs T) : hs T :=
  match d with DX => q | DY => swap_uv q | DZ => swap_uw q end.

(** MDRangePolicy({0,0,0},{isize,jsize,ksize}): all kernels. *)
Definition cells3 : list (Z * Z * Z) := range3 (isize m) (jsize m) (ksize m).

(** [gw <= i < isize-gw], and so on for j and k *)
Definition inner3 (i j k : Z) : bool :=
  (gw m <=? k) && (k <? ksize m - gw m) && (gw m <=? j) && (j <? jsize m - gw m) &&
  (gw m <=? i) && (i <? isize m - gw m).

(** [gw <= i <= isize-gw], and so on for j and k *)
Definition inner3_le (i j k : Z) : bool :=
  (gw m <=? k) && (k <=? ksize m - gw m) && (gw m <=? j) && (j <=? jsize m - gw m) &&
  (gw m <=? i) && (i <=? isize m - gw m).

(** ConvertToPrimitivesFunctor3D, HydroRunFunctors3D.h:200-265 *)
Definition convert_item3 (a : arr) (c : Z * Z * Z) : prog T :=
  let '(i, j, k) := c in
  if (0 <=? k) && (k <? ksize m) && (0 <=? j) && (j <? jsize m) && (0 <=? i) && (i <? isize m) then
    rd3 a i j k (fun u => wr3 A_Q i j k (fst (prim3 S u)) Done)
  else Done.

(** Gravity predictor on a face state, HydroRunFunctors3D.h:489-501. *)
Definition kick3 (q : hs T) (gx gy gz : T) : hs T :=
  mkhs (hd q) (hp q) (nadd (hu q) (nmul (nmul nhalf dt) gx))
       (nadd (hv q) (nmul (nmul nhalf dt) gy)) (nadd (hw q) (nmul (nmul nhalf dt) gz)).

Definition predict3 (i j k : Z) (q : hs T) (c : hs T -> prog T) : prog T :=
  if g_enabled g && g_hancock g then
    Rd (mkloc A_G i j k IX) (fun gx => Rd (mkloc A_G i j k IY) (fun gy =>
    Rd (mkloc A_G i j k IZ) (fun gz => c (kick3 q gx gy gz))))
  else c q.

(** Load a cell and its six neighbours and compute its slopes
    (HydroRunFunctors3D.h:350-412, 414-480). *)
Definition slopes_at3 (i j k : Z) (c : hs T -> hs T -> hs T -> hs T -> prog T) : prog T :=
  rd3 A_Q i j k (fun q =>
  rd3 A_Q (i + 1) j k (fun q0 => rd3 A_Q (i - 1) j k (fun q1 =>
  rd3 A_Q i (j + 1) k (fun q2 => rd3 A_Q i (j - 1) k (fun q3 =>
  rd3 A_Q i j (k + 1) (fun q4 => rd3 A_Q i j (k - 1) (fun q5 =>
  need (slopes3 S q q0 q1 q2 q3 q4 q5) (fun e =>
    let '(dqX, dqY, dqZ) := e in c q dqX dqY dqZ)))))))).

Definition traced (q dqX dqY dqZ : hs T) (f : face) : hs T :=
  trace3 S q dqX dqY dqZ (dtd DX) (dtd DY) (dtd DZ) f.

(** Flux through the low face of (i,j,k) along [d], times dt/d[d], from the state
    and slopes of the cell: slopes of the neighbour, trace of both cells, gravity
    predictor on both states, swap, Riemann problem, swap back
    (X: HydroRunFunctors3D.h:414-514; Y: 516-610; Z: 612-705; and in the third
    version X: 1560-1650; Y: 1670-1760; Z: 1780-1868). *)
Definition flux_dir3 (d : dir) (i j k : Z) (q dqX dqY dqZ : hs T) (c : hs T -> prog T) : prog T :=
  slopes_at3 (i - ox d) (j - oy d) (k - oz d) (fun qn dqXn dqYn dqZn =>
  predict3 (i - ox d) (j - oy d) (k - oz d) (traced qn dqXn dqYn dqZn (fhi d)) (fun qleft =>
  predict3 i j k (traced q dqX dqY dqZ (flo d)) (fun qright =>
  need (riemann3 S (swapd d qleft) (swapd d qright)) (fun f =>
  c (hscale (swapd d f) (dtd d)))))).

(** ComputeAndStoreFluxesFunctor3D, HydroRunFunctors3D.h:271-717 *)
Definition fluxes_item3 (c : Z * Z * Z) : prog T :=
  let '(i, j, k) := c in
  if inner3_le i j k then
    slopes_at3 i j k (fun q dqX dqY dqZ =>
    flux_dir3 DX i j k q dqX dqY dqZ (fun fx => wr3 A_Fx i j k fx
   (flux_dir3 DY i j k q dqX dqY dqZ (fun fy => wr3 A_Fy i j k fy
   (flux_dir3 DZ i j k q dqX dqY dqZ (fun fz => wr3 A_Fz i j k fz Done))))))
  else Done.

(** UpdateFunctor3D, HydroRunFunctors3D.h:722-820 *)
Definition update_item3 (a : arr) (c : Z * Z * Z) : prog T :=
  let '(i, j, k) := c in
  if inner3 i j k then
    accum nadd vars3 (mkloc a i j k) (mkloc A_Fx i j k)
   (accum nsub vars3 (mkloc a i j k) (mkloc A_Fx (i + 1) j k)
   (accum nadd vars3 (mkloc a i j k) (mkloc A_Fy i j k)
   (accum nsub vars3 (mkloc a i j k) (mkloc A_Fy i (j + 1) k)
   (accum nadd vars3 (mkloc a i j k) (mkloc A_Fz i j k)
   (accum nsub vars3 (mkloc a i j k) (mkloc A_Fz i j (k + 1)) Done)))))
  else Done.

(** UpdateDirFunctor3D<dir>, HydroRunFunctors3D.h:826-920 *)
Definition update_dir_item3 (d : dir) (a b : arr) (c : Z * Z * Z) : prog T :=
  let '(i, j, k) := c in
  if inner3 i j k then
    accum nadd vars3 (mkloc a i j k) (mkloc b i j k)
   (accum nsub vars3 (mkloc a i j k) (mkloc b (i + ox d) (j + oy d) (k + oz d)) Done)
  else Done.

(** ComputeSlopesFunctor3D, HydroRunFunctors3D.h:926-1073 (the local slopes are
    not initialised, unlike in 2D). *)
Definition slopes_item3 (c : Z * Z * Z) : prog T :=
  let '(i, j, k) := c in
  if (gw m - 1 <=? k) && (k <=? ksize m - gw m) && (gw m - 1 <=? j) && (j <=? jsize m - gw m) &&
     (gw m - 1 <=? i) && (i <=? isize m - gw m) then
    slopes_at3 i j k (fun _ dqX dqY dqZ =>
    wr3 A_Sx i j k dqX (wr3 A_Sy i j k dqY (wr3 A_Sz i j k dqZ Done)))
  else Done.

(** In the second version the gravity predictor is applied to the right state of
    X faces (HydroRunFunctors3D.h:1203-1211) and Y faces (1277-1285), but not to
    the right state of Z faces (1351-1353). *)
Definition kicked_right (d : dir) : bool := match d with DZ => false | _ => true end.

(** ComputeTraceAndFluxes_Functor3D<dir>, HydroRunFunctors3D.h:1078-1425 *)
Definition trace_fluxes_item3 (d : dir) (b : arr) (c : Z * Z * Z) : prog T :=
  let '(i, j, k) := c in
  if inner3_le i j k then
    rd3 A_Q i j k (fun q => rd3 A_Sx i j k (fun dqX => rd3 A_Sy i j k (fun dqY =>
    rd3 A_Sz i j k (fun dqZ =>
    (if kicked_right d then predict3 i j k (traced q dqX dqY dqZ (flo d))
     else fun c => c (traced q dqX dqY dqZ (flo d))) (fun qright =>
    rd3 A_Q (i - ox d) (j - oy d) (k - oz d) (fun qn =>
    rd3 A_Sx (i - ox d) (j - oy d) (k - oz d) (fun dqXn =>
    rd3 A_Sy (i - ox d) (j - oy d) (k - oz d) (fun dqYn =>
    rd3 A_Sz (i - ox d) (j - oy d) (k - oz d) (fun dqZn =>
    predict3 (i - ox d) (j - oy d) (k - oz d) (traced qn dqXn dqYn dqZn (fhi d)) (fun qleft =>
    need (riemann3 S (swapd d qleft) (swapd d qright)) (fun f =>
    wr3 b i j k (hscale (swapd d f) (dtd d)) Done)))))))))))
  else Done.

(** Guards of the atomic updates of the third version: the cell itself
    (HydroRunFunctors3D.h:1651-1653, 1761-1763, 1870-1872) and the cell on the
    other side of the face (1660-1662, 1770-1771, 1879-1880). *)
Definition add_ok (i j k : Z) : bool :=
  (k <? ksize m - gw m) && (j <? jsize m - gw m) && (i <? isize m - gw m).
Definition sub_ok (d : dir) (i j k : Z) : bool :=
  match d with
  | DX => (k <? ksize m - gw m) && (j <? jsize m - gw m) && (gw m <? i)
  | DY => (k <? ksize m - gw m) && (gw m <? j) && (i <? isize m - gw m)
  | DZ => (gw m <? k) && (j <? jsize m - gw m) && (i <? isize m - gw m)
  end.

Definition apply_flux (d : dir) (a : arr) (i j k : Z) (f : hs T) (c : prog T) : prog T :=
  atomics nadd (if add_ok i j k then vars3 else []) (mkloc a i j k) f
 (atomics nsub (if sub_ok d i j k then vars3 else [])
    (mkloc a (i - ox d) (j - oy d) (k - oz d)) f c).

(** ComputeAllFluxesAndUpdateFunctor3D, HydroRunFunctors3D.h:1430-1898 *)
Definition all_fluxes_item3 (a : arr) (c : Z * Z * Z) : prog T :=
  let '(i, j, k) := c in
  if inner3_le i j k then
    slopes_at3 i j k (fun q dqX dqY dqZ =>
    flux_dir3 DX i j k q dqX dqY dqZ (fun fx => apply_flux DX a i j k fx
   (flux_dir3 DY i j k q dqX dqY dqZ (fun fy => apply_flux DY a i j k fy
   (flux_dir3 DZ i j k q dqX dqY dqZ (fun fz => apply_flux DZ a i j k fz Done))))))
  else Done.

(** GravitySourceTermFunctor3D, HydroRunFunctors3D.h:1903-1985 (no floor on the
    new density, unlike in 2D). *)
Definition gravity_item3 (ain aout : arr) (c : Z * Z * Z) : prog T :=
  let '(i, j, k) := c in
  if inner3 i j k then
    Rd (mkloc ain i j k ID) (fun rhoOld =>
    Rd (mkloc aout i j k ID) (fun rhoNew =>
    Rd (mkloc aout i j k IU) (fun rhou =>
    Rd (mkloc aout i j k IV) (fun rhov =>
    Rd (mkloc aout i j k IW) (fun rhow =>
    let ekin a b c := ndiv (nmul nhalf (nadd (nadd (nmul a a) (nmul b b)) (nmul c c))) rhoNew in
    let ekin_old := ekin rhou rhov rhow in
    Rd (mkloc A_G i j k IX) (fun gx =>
    let rhou' := nadd rhou (nmul (nmul (nmul nhalf dt) gx) (nadd rhoOld rhoNew)) in
    Rd (mkloc A_G i j k IY) (fun gy =>
    let rhov' := nadd rhov (nmul (nmul (nmul nhalf dt) gy) (nadd rhoOld rhoNew)) in
    Rd (mkloc A_G i j k IZ) (fun gz =>
    let rhow' := nadd rhow (nmul (nmul (nmul nhalf dt) gz) (nadd rhoOld rhoNew)) in
    Wr (mkloc aout i j k IU) rhou' (Wr (mkloc aout i j k IV) rhov' (Wr (mkloc aout i j k IW) rhow'
    (let ekin_new := ekin rhou' rhov' rhow' in
     Rd (mkloc aout i j k IE) (fun e =>
     Wr (mkloc aout i j k IE) (nadd e (nsub ekin_new ekin_old)) Done))))))))))))
  else Done.

(** SolverHydroMuscl.cpp:300-390, implementation-specific part.  With version 1
    Fluxes_y and Fluxes_z are the same view as Fluxes_x (SolverHydroMuscl.h:250-262). *)
Definition scheme3 (iv : impl) (aout : arr) : list (list (prog T)) :=
  match iv with
  | V0 => [ map fluxes_item3 cells3; map (update_item3 aout) cells3 ]
  | V1 => [ map slopes_item3 cells3;
            map (trace_fluxes_item3 DX A_Fx) cells3;
            map (update_dir_item3 DX aout A_Fx) cells3;
            map (trace_fluxes_item3 DY A_Fx) cells3;
            map (update_dir_item3 DY aout A_Fx) cells3;
            map (trace_fluxes_item3 DZ A_Fx) cells3;
            map (update_dir_item3 DZ aout A_Fx) cells3 ]
  | V2 => [ map (all_fluxes_item3 aout) cells3 ]
  end.

(** SolverHydroMuscl.cpp:300-390 [godunov_unsplit_impl], after the call of
    [make_boundaries] *)
Definition godunov3_body (iv : impl) (ain aout : arr) : list (list (prog T)) :=
  [ deep_copy3 m aout ain; map (convert_item3 ain) cells3 ] ++
  scheme3 iv aout ++
  (if g_enabled g then [ map (gravity_item3 ain aout) cells3 ] else []).

(** SolverHydroMuscl.cpp:300-390, without MPI: [make_boundaries] is the serial one *)
Definition godunov3 (iv : impl) (ain aout : arr) : list (list (prog T)) :=
  make_boundaries3d m ain ++ godunov3_body iv ain aout.

(** Extents of the views allocated by the constructor, SolverHydroMuscl.h:233-275:
    number of variables per array, 0 when the view is not allocated. *)
Definition nv3 (iv : impl) (a : arr) : Z :=
  match a with
  | A_U | A_U2 | A_Q => nbvar m
  | A_Fx => match iv with V0 | V1 => nbvar m | V2 => 0 end
  | A_Fy | A_Fz => match iv with V0 => nbvar m | _ => 0 end
  | A_Sx | A_Sy | A_Sz => match iv with V1 => nbvar m | _ => 0 end
  | A_G => if g_enabled g then 3 else 0
  | _ => 0
  end.

End Hydro3D.
