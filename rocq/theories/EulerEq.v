(** * The Euler equations as a class: shared/EulerEquations.h

    The header is not included by any file of the program.  It names the y axis IT,
    which is declared nowhere in the sources (the declaration, enums.h:165-167, has IX, IY,
    IZ); here IT is IY.  The variables are those of [hs]: [hp] is the energy of a
    conservative state and the pressure of a primitive one. *)
From Coq Require Import ZArith List Bool.
Import ListNotations.
From Verif Require Import Num Exec Grid HydroNum.
Local Open Scope num_scope.

(** The template parameter [dir]: IX, IT, IZ *)
Inductive dir3 := DX | DY | DZ.

Section EulerEq.
Context {T : Type} `{Num T}.

(** EulerEquations.h:36, 423: 1e-7; 135: 1e-8 *)
Definition e_smallp : T := n1 / nZ (10 ^ 7).
Definition e_smallr : T := n1 / nZ (10 ^ 8).

(** compute_pressure, EulerEquations.h:95-107 and 492-504 *)
Definition compute_pressure2 (q : hs T) (gamma : T) : T :=
  let ekin := nhalf * (hu q * hu q + hv q * hv q) / hd q in
  let pressure := (gamma - n1) * (hp q - ekin) in
  if e_smallp * hd q <? pressure then pressure else e_smallp * hd q.

Definition compute_pressure3 (q : hs T) (gamma : T) : T :=
  let ekin := nhalf * (hu q * hu q + hv q * hv q + hw q * hw q) / hd q in
  let pressure := (gamma - n1) * (hp q - ekin) in
  if e_smallp * hd q <? pressure then pressure else e_smallp * hd q.

(** compute_speed_of_sound, EulerEquations.h:117-123 and 514-520 *)
Definition compute_speed_of_sound (w : hs T) (gamma : T) : T := hp w * gamma / hd w.

(** convert_to_primitive, EulerEquations.h:131-150 *)
Definition convert_to_primitive2 (q : hs T) (gamma : T) : hs T :=
  let rho := nmax (hd q) e_smallr in
  let ekin := nhalf * (hu q * hu q + hv q * hv q) / rho in
  let pressure := (gamma - n1) * (hp q - ekin) in
  let pressure := nmax pressure (e_smallp * rho) in
  mk2 (hd q) pressure (hu q / hd q) (hv q / hd q).

(** EulerEquations.h:528-546 *)
Definition convert_to_primitive3 (q : hs T) (gamma : T) : hs T :=
  let ekin := nhalf * (hu q * hu q + hv q * hv q + hw q * hw q) / hd q in
  let pressure := (gamma - n1) * (hp q - ekin) in
  let pressure := nmax pressure (e_smallp * hd q) in
  mkhs (hd q) pressure (hu q / hd q) (hv q / hd q) (hw q / hd q).

(** flux_x, flux_y, EulerEquations.h:160-184; there is no third one in 2D. *)
Definition flux2 (d : dir3) (q : hs T) (p : T) : hs T :=
  match d with
  | DX => mk2 (hu q) (hu q / hd q * (hp q + p)) (hu q * hu q / hd q + p) (hu q * hv q / hd q)
  | _ => mk2 (hv q) (hv q / hd q * (hp q + p)) (hv q * hu q / hd q) (hv q * hv q / hd q + p)
  end.

(** flux_x, flux_y, flux_z, EulerEquations.h:557-607 *)
Definition flux3 (d : dir3) (q : hs T) (p : T) : hs T :=
  match d with
  | DX => let u := hu q / hd q in
      mkhs (hu q) (u * (hp q + p)) (u * hu q + p) (u * hv q) (u * hw q)
  | DY => let v := hv q / hd q in
      mkhs (hv q) (v * (hp q + p)) (v * hu q) (v * hv q + p) (v * hw q)
  | DZ => let w := hw q / hd q in
      mkhs (hw q) (w * (hp q + p)) (w * hu q) (w * hv q) (w * hw q + p)
  end.

(** Positions in the gradient tensor, enums.h:97-126 *)
Definition U_X2 := 0%Z. Definition U_Y2 := 1%Z. Definition V_X2 := 2%Z. Definition V_Y2 := 3%Z.
Definition U_X := 0%Z. Definition U_Y := 1%Z. Definition U_Z := 2%Z.
Definition V_X := 3%Z. Definition V_Y := 4%Z. Definition V_Z := 5%Z.
Definition W_X := 6%Z. Definition W_Y := 7%Z. Definition W_Z := 8%Z.

(** flux_visc_x, flux_visc_y, EulerEquations.h:198-240 *)
Definition flux_visc2 (d : dir3) (g v f : Z -> T) (mu : T) : hs T :=
  match d with
  | DX =>
      let tau_xx := n2 * mu * (g U_X2 - nhalf * (g U_X2 + g V_Y2)) in
      let tau_xy := mu * (g V_X2 + g U_Y2) in
      mk2 n0 (v 0%Z * tau_xx + v 1%Z * tau_xy + f 0%Z) tau_xx tau_xy
  | _ =>
      let tau_yy := n2 * mu * (g V_Y2 - nhalf * (g U_X2 + g V_Y2)) in
      let tau_xy := mu * (g V_X2 + g U_Y2) in
      mk2 n0 (v 0%Z * tau_xy + v 1%Z * tau_yy + f 1%Z) tau_xy tau_yy
  end.

(** flux_visc_x, flux_visc_y, flux_visc_z, EulerEquations.h:621-697 *)
Definition flux_visc3 (d : dir3) (g v f : Z -> T) (mu : T) : hs T :=
  let third := n1 / nZ 3 in
  match d with
  | DX =>
      let tau_xx := n2 * mu * (g U_X - third * (g U_X + g V_Y + g W_Z)) in
      let tau_yx := mu * (g V_X + g U_Y) in
      let tau_zx := mu * (g W_X + g U_Z) in
      mkhs n0 (v 0%Z * tau_xx + v 1%Z * tau_yx + v 2%Z * tau_zx + f 0%Z) tau_xx tau_yx tau_zx
  | DY =>
      let tau_xy := mu * (g U_Y + g V_X) in
      let tau_yy := n2 * mu * (g V_Y - third * (g U_X + g V_Y + g W_Z)) in
      let tau_zy := mu * (g W_Y + g V_Z) in
      mkhs n0 (v 0%Z * tau_xy + v 1%Z * tau_yy + v 2%Z * tau_zy + f 1%Z) tau_xy tau_yy tau_zy
  | DZ =>
      let tau_xz := mu * (g U_Z + g W_X) in
      let tau_yz := mu * (g V_Z + g W_Y) in
      let tau_zz := n2 * mu * (g W_Z - third * (g U_X + g V_Y + g W_Z)) in
      mkhs n0 (v 0%Z * tau_xz + v 1%Z * tau_yz + v 2%Z * tau_zz + f 2%Z) tau_xz tau_yz tau_zz
  end.

(** cons_to_charac, EulerEquations.h:273-326 *)
Definition cons_to_charac2 (d : dir3) (data q : hs T) (c gamma : T) : hs T :=
  let u := hu q / hd q in
  let v := hv q / hd q in
  let c2 := c * c in
  let g1 := gamma - n1 in
  let beta := n1 / n2 / c2 in
  let V2 := u * u + v * v in
  let H := nhalf * V2 + c2 / g1 in
  let phi2 := g1 * H - c2 in
  match d with
  | DX => mk2
      (hd data * beta * (phi2 + u * c) + hu data * (- beta * (g1 * u + c)) +
       hv data * (- beta * g1 * v) + hp data * beta * g1)
      (hd data * beta * (phi2 - u * c) + hu data * (- beta * (g1 * u - c)) +
       hv data * (- beta * g1 * v) + hp data * beta * g1)
      (hd data * (n1 - phi2 / c2) + hu data * g1 * u / c2 + hv data * g1 * v / c2 + hp data * (- g1 / c2))
      (hd data * (- v) + hv data)
  | _ => mk2
      (hd data * beta * (phi2 + v * c) + hu data * (- beta * g1 * u) +
       hv data * (- beta * (g1 * v + c)) + hp data * beta * g1)
      (hd data * beta * (phi2 - v * c) + hu data * (- beta * g1 * u) +
       hv data * (- beta * (g1 * v - c)) + hp data * beta * g1)
      (hd data * (n1 - phi2 / c2) + hu data * g1 * u / c2 + hv data * g1 * v / c2 + hp data * (- g1 / c2))
      (hd data * (- u) + hu data)
  end.

(** charac_to_cons, EulerEquations.h:360-409 *)
Definition charac_to_cons2 (d : dir3) (data q : hs T) (c gamma : T) : hs T :=
  let u := hu q / hd q in
  let v := hv q / hd q in
  let c2 := c * c in
  let g1 := gamma - n1 in
  let V2 := u * u + v * v in
  let H := nhalf * V2 + c2 / g1 in
  match d with
  | DX => mk2
      (hd data + hu data + hp data)
      (hd data * (H - u * c) + hu data * V2 / n2 + hv data * v + hp data * (H + u * c))
      (hd data * (u - c) + hu data * u + hp data * (u + c))
      (hd data * v + hu data * v + hv data + hp data * v)
  | _ => mk2
      (hd data + hu data + hp data)
      (hd data * (H - v * c) + hu data * V2 / n2 + hv data * u + hp data * (H + v * c))
      (hd data * u + hu data * u + hv data + hp data * u)
      (hd data * (v - c) + hu data * v + hp data * (v + c))
  end.

(** cons_to_charac, EulerEquations.h:737-812 *)
Definition cons_to_charac3 (d : dir3) (data q : hs T) (c gamma : T) : hs T :=
  let u := hu q / hd q in
  let v := hv q / hd q in
  let w := hw q / hd q in
  let c2 := c * c in
  let g1 := gamma - n1 in
  let beta := n1 / n2 / c2 in
  let V2 := u * u + v * v + w * w in
  let H := nhalf * V2 + c2 / g1 in
  let phi2 := g1 * H - c2 in
  let entropy := hd data * (n1 - phi2 / c2) + hu data * g1 * u / c2 + hv data * g1 * v / c2 +
                 hw data * g1 * w / c2 + hp data * (- g1 / c2) in
  match d with
  | DX => mkhs
      (hd data * beta * (phi2 + u * c) + hu data * (- beta * (g1 * u + c)) +
       hv data * (- beta * g1 * v) + hw data * (- beta * g1 * w) + hp data * beta * g1)
      (hd data * beta * (phi2 - u * c) + hu data * (- beta * (g1 * u - c)) +
       hv data * (- beta * g1 * v) + hw data * (- beta * g1 * w) + hp data * beta * g1)
      entropy (hd data * (- v) + hv data) (hd data * (- w) + hw data)
  | DY => mkhs
      (hd data * beta * (phi2 + v * c) + hu data * (- beta * g1 * u) +
       hv data * (- beta * (g1 * v + c)) + hw data * (- beta * g1 * w) + hp data * beta * g1)
      (hd data * beta * (phi2 - v * c) + hu data * (- beta * g1 * u) +
       hv data * (- beta * (g1 * v - c)) + hw data * (- beta * g1 * w) + hp data * beta * g1)
      entropy (hd data * (- u) + hu data) (hd data * (- w) + hw data)
  | DZ => mkhs
      (hd data * beta * (phi2 + w * c) + hu data * (- beta * g1 * u) +
       hv data * (- beta * g1 * v) + hw data * (- beta * (g1 * w + c)) + hp data * beta * g1)
      (hd data * beta * (phi2 - w * c) + hu data * (- beta * g1 * u) +
       hv data * (- beta * g1 * v) + hw data * (- beta * (g1 * w - c)) + hp data * beta * g1)
      entropy (hd data * (- u) + hu data) (hd data * (- v) + hv data)
  end.

(** charac_to_cons, EulerEquations.h:852-914 *)
Definition charac_to_cons3 (d : dir3) (data q : hs T) (c gamma : T) : hs T :=
  let u := hu q / hd q in
  let v := hv q / hd q in
  let w := hw q / hd q in
  let c2 := c * c in
  let g1 := gamma - n1 in
  let V2 := u * u + v * v + w * w in
  let H := nhalf * V2 + c2 / g1 in
  match d with
  | DX => mkhs
      (hd data + hu data + hp data)
      (hd data * (H - u * c) + hu data * V2 / n2 + hv data * v + hw data * w + hp data * (H + u * c))
      (hd data * (u - c) + hu data * u + hp data * (u + c))
      (hd data * v + hu data * v + hv data + hp data * v)
      (hd data * w + hu data * w + hw data + hp data * w)
  | DY => mkhs
      (hd data + hu data + hp data)
      (hd data * (H - v * c) + hu data * V2 / n2 + hv data * u + hw data * w + hp data * (H + v * c))
      (hd data * u + hu data * u + hv data + hp data * u)
      (hd data * (v - c) + hu data * v + hp data * (v + c))
      (hd data * w + hu data * w + hw data + hp data * w)
  | DZ => mkhs
      (hd data + hu data + hp data)
      (hd data * (H - w * c) + hu data * V2 / n2 + hv data * u + hw data * v + hp data * (H + w * c))
      (hd data * u + hu data * u + hv data + hp data * u)
      (hd data * v + hu data * v + hw data + hp data * v)
      (hd data * (w - c) + hu data * w + hp data * (w + c))
  end.

End EulerEq.
