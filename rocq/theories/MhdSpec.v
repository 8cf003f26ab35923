(** * Ideal MHD: what the per-cell functions should compute

    Independent of the program, over the real numbers (units with mu_0 = 1). *)
From Coq Require Import ZArith Reals.
From Verif Require Import Num Exec Grid HydroNum MhdNum.
Local Open Scope R_scope.

(** Settings of a parameter file with gamma > 1 and positive floors. *)
Definition mhd_sane (S : hset R) : Prop := 1 < gamma0 S /\ 0 < smallr S /\ 0 < smallc S.

(** Physical primitive state. *)
Definition mhd_adm (q : ms R) : Prop := 0 < md q /\ 0 < mp q.

Definition v_sq (q : ms R) : R := mu q * mu q + mv q * mv q + mw q * mw q.
Definition b_sq (q : ms R) : R := ma q * ma q + mb q * mb q + mc q * mc q.
Definition v_dot_b (q : ms R) : R := mu q * ma q + mv q * mb q + mw q * mc q.

(** Total energy per unit volume, total pressure. *)
Definition mhd_energy (S : hset R) (q : ms R) : R :=
  mp q / (gamma0 S - 1) + md q * v_sq q / 2 + b_sq q / 2.
Definition total_pressure (q : ms R) : R := mp q + b_sq q / 2.

(** Conservative variables and physical flux along the first axis. *)
Definition conserved (S : hset R) (q : ms R) : ms R :=
  mkms (md q) (mhd_energy S q) (md q * mu q) (md q * mv q) (md q * mw q) (ma q) (mb q) (mc q).
Definition ideal_flux (S : hset R) (q : ms R) : ms R :=
  mkms (md q * mu q)
       ((mhd_energy S q + total_pressure q) * mu q - ma q * v_dot_b q)
       (md q * mu q * mu q + total_pressure q - ma q * ma q)
       (md q * mu q * mv q - ma q * mb q)
       (md q * mu q * mw q - ma q * mc q)
       0
       (mu q * mb q - mv q * ma q)
       (mu q * mc q - mw q * ma q).

(** Electric field -(v x B) along the edge, up to sign: u*By - v*Bx and its rotations. *)
Definition ideal_emf (d : emfdir) (q : ms R) : R :=
  match d with
  | EMFZ => mu q * mb q - mv q * ma q
  | EMFY => mw q * ma q - mu q * mc q
  | EMFX => mv q * mc q - mw q * mb q
  end.

(** Squared sound and Alfven speeds; the polynomial whose roots are the squared
    fast and slow magnetosonic speeds for a wave along a direction with field
    component [bn]. *)
Definition sound_sq (S : hset R) (q : ms R) : R := gamma0 S * mp q / md q.
Definition magnetosonic (S : hset R) (q : ms R) (bn x : R) : R :=
  x * x - (sound_sq S q + b_sq q / md q) * x + sound_sq S q * (bn * bn / md q).

(** The degenerate configuration: the field is along the axis and the Alfven
    speed is at least the speed of sound. *)
Definition switch_on (S : hset R) (q : ms R) : Prop :=
  mb q = 0 /\ mc q = 0 /\ ma q <> 0 /\ gamma0 S * mp q <= ma q * ma q.

(** The case analysis of the comment in RiemannSolvers_MHD.h:597-623. *)
Definition documented_emf (SL SR SB ST : R) (e : regions R) : R :=
  if Rlt_dec 0 SB then
    if Rlt_dec 0 SL then e_LL e else if Rlt_dec SR 0 then e_RL e else e_B e
  else if Rlt_dec ST 0 then
    if Rlt_dec 0 SL then e_LR e else if Rlt_dec SR 0 then e_RR e else e_T e
  else if Rlt_dec 0 SL then e_L e
  else if Rlt_dec SR 0 then e_R e
  else e_C e.
