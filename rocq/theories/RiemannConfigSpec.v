(** * Two-dimensional Riemann problems: which waves separate the quadrants

    Independent of the program's table.  P. D. Lax and X.-D. Liu, "Solution of
    two-dimensional Riemann problems of gas dynamics by positive schemes", SIAM J. Sci.
    Comput. 19 (1998) 319-340, list nineteen configurations: in each, two neighbouring
    quadrants are separated by exactly one wave of the one-dimensional equations, for
    gamma = 7/5.  Their tables give the states with three or four decimals, so the
    relations hold up to a tolerance. *)
From Coq Require Import ZArith List Bool Reals.
Import ListNotations.
From Verif Require Import Num HydroNum.
Local Open Scope R_scope.

Inductive wave := Contact | Rarefaction | Shock.

(** Quadrants: 0 upper right, 1 upper left, 2 lower left, 3 lower right.  The waves
    between 1|0 and 2|3 (in x) and between 2|1 and 3|0 (in y), by configuration. *)
Record waves := mkwaves { w10 : wave; w21 : wave; w23 : wave; w30 : wave }.
Definition lax_liu (config : Z) : waves :=
  (if config <=? 2 then mkwaves Rarefaction Rarefaction Rarefaction Rarefaction
   else if config <=? 4 then mkwaves Shock Shock Shock Shock
   else if config <=? 6 then mkwaves Contact Contact Contact Contact
   else if config <=? 8 then mkwaves Rarefaction Contact Contact Rarefaction
   else if config <=? 10 then mkwaves Contact Rarefaction Contact Rarefaction
   else if config <=? 12 then mkwaves Shock Contact Contact Shock
   else if config <=? 14 then mkwaves Contact Shock Contact Shock
   else if config <=? 16 then mkwaves Rarefaction Contact Contact Shock
   else mkwaves Contact Shock Contact Rarefaction)%Z.

Definition near (e a b : R) : Prop := Rabs (a - b) <= e.
Definition sound_speed (q : hs R) : R := sqrt (7 / 5 * hp q / hd q).

(** The states [a] (left or below) and [b] are joined by one wave; [n] is the velocity
    across the interface and [t] the velocity along it. *)
Definition joined (w : wave) (n t : hs R -> R) (a b : hs R) : Prop :=
  match w with
  | Contact => hp a = hp b /\ n a = n b
  | Rarefaction =>                       (* the gas expands; the entropy and a Riemann invariant are constant *)
      t a = t b /\ n a < n b /\ near (3 / 1000) ((hp a) ^ 5 * (hd b) ^ 7 / ((hp b) ^ 5 * (hd a) ^ 7)) 1 /\
      near (1 / 1000) (n b - n a) (5 * Rabs (sound_speed b - sound_speed a))
  | Shock =>                             (* the gas is compressed; Rankine-Hugoniot *)
      t a = t b /\ n b < n a /\ near (1 / 1000) (hd a / hd b) ((6 * hp a + hp b) / (hp a + 6 * hp b)) /\
      near (1 / 1000) (n a - n b) (sqrt ((hp a - hp b) * (hd a - hd b) / (hd a * hd b)))
  end.

(** The four states of a two-dimensional configuration. *)
Definition configuration (ws : waves) (U : Z -> hs R) : Prop :=
  joined (w10 ws) (@hu R) (@hv R) (U 1%Z) (U 0%Z) /\ joined (w21 ws) (@hv R) (@hu R) (U 2%Z) (U 1%Z) /\
  joined (w23 ws) (@hu R) (@hv R) (U 2%Z) (U 3%Z) /\ joined (w30 ws) (@hv R) (@hu R) (U 3%Z) (U 0%Z).

(** Exchanging x and y maps quadrants (octants) 1 and 3 (5 and 7) to each other. *)
Definition swap_quadrant (q : Z) : Z :=
  (if q =? 1 then 3 else if q =? 3 then 1 else if q =? 5 then 7 else if q =? 7 then 5 else q)%Z.
Definition swap_xy {T} (u : hs T) : hs T := mkhs (hd u) (hp u) (hv u) (hu u) (hw u).
