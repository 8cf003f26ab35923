(** * The Riemann configurations

    Models /repo/src/shared/problems/initRiemannConfig2d.cpp: the states of the four
    quadrants (2D) and eight octants (3D) of the problem "four_quadrant".  The switch is
    kept as a list of cases with their assignments, in source order, and whether the case
    ends with [break]. *)
From Coq Require Import ZArith List Bool.
Import ListNotations.
From Verif Require Import Num Grid HydroNum.
Local Open Scope Z_scope.

Section RiemannConfig.
Context {T : Type} `{Num T}.

(** A decimal literal of the source. *)
Definition dec (a b : Z) : T := ndiv (nZ a) (nZ b).

(** U[IV] = x *)
Definition assign (u : hs T) (v : Z) (x : T) : hs T :=
  if v =? ID then mkhs x (hp u) (hu u) (hv u) (hw u) else if v =? IP then mkhs (hd u) x (hu u) (hv u) (hw u)
  else if v =? IU then mkhs (hd u) (hp u) x (hv u) (hw u) else if v =? IV then mkhs (hd u) (hp u) (hu u) x (hw u)
  else mkhs (hd u) (hp u) (hu u) (hv u) x.

(** The assignments of one case, to the array [Us]. *)
Fixpoint assigns (Us : Z -> hs T) (ws : list (Z * Z * T)) : Z -> hs T :=
  match ws with
  | [] => Us
  | (q, v, x) :: ws => assigns (fun q' => if q' =? q then assign (Us q) v x else Us q') ws
  end.

(** From a label on: case after case until a [break]. *)
Fixpoint fall (Us : Z -> hs T) (cs : list (option Z * list (Z * Z * T) * bool)) : Z -> hs T :=
  match cs with
  | [] => Us
  | (_, ws, brk) :: cs => if brk then assigns Us ws else fall (assigns Us ws) cs
  end.

(** The cases from the label [l] on, if there is such a label. *)
Definition is_label (l l' : option Z) : bool :=
  match l, l' with Some n, Some n' => n =? n' | None, None => true | _, _ => false end.
Fixpoint jump (l : option Z) (cs : list (option Z * list (Z * Z * T) * bool)) : option (list (option Z * list (Z * Z * T) * bool)) :=
  match cs with
  | [] => None
  | (l', ws, brk) :: cs' => if is_label l l' then Some cs else jump l cs'
  end.

(** switch (n) { ... }: [default] when no case has the number. *)
Definition switch (n : Z) (cs : list (option Z * list (Z * Z * T) * bool)) (Us : Z -> hs T) : Z -> hs T :=
  match jump (Some n) cs with
  | Some cs => fall Us cs
  | None => match jump None cs with Some cs => fall Us cs | None => Us end
  end.

(** initRiemannConfig2d.cpp:21-484 *)
Definition cases2d : list (option Z * list (Z * Z * T) * bool) := [
  (* case 0: line 24 *)
  (Some 0, [
      (0, ID, dec 1 1); (0, IU, dec 0 1); (0, IV, dec 0 1); (0, IP, dec 1 1);
      (1, ID, dec 5197 10000); (1, IU, nopp (dec 7259 10000)); (1, IV, dec 0 1); (1, IP, dec 4 10);
      (2, ID, dec 1072 10000); (2, IU, nopp (dec 7259 10000)); (2, IV, nopp (dec 14045 10000)); (2, IP, dec 439 10000);
      (3, ID, dec 2579 10000); (3, IU, dec 0 1); (3, IV, nopp (dec 14045 10000)); (3, IP, dec 15 100)], true);
  (* case 1: line 47 *)
  (Some 1, [
      (0, ID, dec 1 1); (0, IU, dec 0 1); (0, IV, dec 0 1); (0, IP, dec 1 1);
      (1, ID, dec 5197 10000); (1, IU, nopp (dec 7259 10000)); (1, IV, dec 0 1); (1, IP, dec 4 10);
      (2, ID, dec 1 1); (2, IU, nopp (dec 7259 10000)); (2, IV, nopp (dec 7259 10000)); (2, IP, dec 1 1);
      (3, ID, dec 5197 10000); (3, IU, dec 0 1); (3, IV, nopp (dec 7259 10000)); (3, IP, dec 4 10)], true);
  (* case 2: line 70 *)
  (Some 2, [
      (0, ID, dec 15 10); (0, IU, dec 0 1); (0, IV, dec 0 1); (0, IP, dec 15 10);
      (1, ID, dec 5323 10000); (1, IU, dec 1206 1000); (1, IV, dec 0 1); (1, IP, dec 3 10);
      (2, ID, dec 138 1000); (2, IU, dec 1206 1000); (2, IV, dec 1206 1000); (2, IP, dec 29 1000);
      (3, ID, dec 5323 10000); (3, IU, dec 0 1); (3, IV, dec 1206 1000); (3, IP, dec 3 10)], true);
  (* case 3: line 93 *)
  (Some 3, [
      (0, ID, dec 11 10); (0, IU, dec 0 1); (0, IV, dec 0 1); (0, IP, dec 11 10);
      (1, ID, dec 5065 10000); (1, IU, dec 8939 10000); (1, IV, dec 0 1); (1, IP, dec 35 100);
      (2, ID, dec 11 10); (2, IU, dec 8939 10000); (2, IV, dec 8939 10000); (2, IP, dec 11 10);
      (3, ID, dec 5065 10000); (3, IU, dec 0 1); (3, IV, dec 8939 10000); (3, IP, dec 35 100)], true);
  (* case 4: line 116 *)
  (Some 4, [
      (0, ID, dec 1 1); (0, IU, nopp (dec 75 100)); (0, IV, nopp (dec 5 10)); (0, IP, dec 1 1);
      (1, ID, dec 2 1); (1, IU, nopp (dec 75 100)); (1, IV, dec 5 10); (1, IP, dec 1 1);
      (2, ID, dec 1 1); (2, IU, dec 75 100); (2, IV, dec 5 10); (2, IP, dec 1 1);
      (3, ID, dec 3 1); (3, IU, dec 75 100); (3, IV, nopp (dec 5 10)); (3, IP, dec 1 1)], true);
  (* case 5: line 139 *)
  (Some 5, [
      (0, ID, dec 1 1); (0, IU, dec 75 100); (0, IV, nopp (dec 5 10)); (0, IP, dec 1 1);
      (1, ID, dec 2 1); (1, IU, dec 75 100); (1, IV, dec 5 10); (1, IP, dec 5 10);
      (2, ID, dec 1 1); (2, IU, nopp (dec 75 100)); (2, IV, dec 5 10); (2, IP, dec 1 1);
      (3, ID, dec 3 1); (3, IU, nopp (dec 75 100)); (3, IV, nopp (dec 5 10)); (3, IP, dec 1 1)], true);
  (* case 6: line 162 *)
  (Some 6, [
      (0, ID, dec 1 1); (0, IU, dec 1 10); (0, IV, dec 1 10); (0, IP, dec 1 1);
      (1, ID, dec 5197 10000); (1, IU, nopp (dec 6259 10000)); (1, IV, dec 1 10); (1, IP, dec 4 10);
      (2, ID, dec 8 10); (2, IU, dec 1 10); (2, IV, dec 1 10); (2, IP, dec 4 10);
      (3, ID, dec 5197 10000); (3, IU, dec 1 10); (3, IV, nopp (dec 6259 10000)); (3, IP, dec 4 10)], true);
  (* case 7: line 185 *)
  (Some 7, [
      (0, ID, dec 5197 10000); (0, IU, dec 1 10); (0, IV, dec 1 10); (0, IP, dec 4 10);
      (1, ID, dec 1 1); (1, IU, nopp (dec 6259 10000)); (1, IV, dec 1 10); (1, IP, dec 1 1);
      (2, ID, dec 8 10); (2, IU, dec 1 10); (2, IV, dec 1 10); (2, IP, dec 1 1);
      (3, ID, dec 1 1); (3, IU, dec 1 10); (3, IV, nopp (dec 6259 10000)); (3, IP, dec 1 1)], true);
  (* case 8: line 208 *)
  (Some 8, [
      (0, ID, dec 1 1); (0, IU, dec 0 1); (0, IV, dec 3 10); (0, IP, dec 1 1);
      (1, ID, dec 2 1); (1, IU, dec 0 1); (1, IV, nopp (dec 3 10)); (1, IP, dec 1 1);
      (2, ID, dec 1039 1000); (2, IU, dec 0 1); (2, IV, nopp (dec 8133 10000)); (2, IP, dec 4 10);
      (3, ID, dec 5197 10000); (3, IU, dec 0 1); (3, IV, nopp (dec 4259 10000)); (3, IP, dec 4 10)], true);
  (* case 9: line 231 *)
  (Some 9, [
      (0, ID, dec 1 1); (0, IU, dec 0 1); (0, IV, dec 4297 10000); (0, IP, dec 1 1);
      (1, ID, dec 5 10); (1, IU, dec 0 1); (1, IV, dec 6076 10000); (1, IP, dec 1 1);
      (2, ID, dec 2281 10000); (2, IU, dec 0 1); (2, IV, nopp (dec 6076 10000)); (2, IP, dec 3333 10000);
      (3, ID, dec 4562 10000); (3, IU, dec 0 1); (3, IV, nopp (dec 4259 10000)); (3, IP, dec 3333 10000)], true);
  (* case 10: line 254 *)
  (Some 10, [
      (0, ID, dec 1 1); (0, IU, dec 1 10); (0, IV, dec 0 1); (0, IP, dec 1 1);
      (1, ID, dec 5313 10000); (1, IU, dec 8276 10000); (1, IV, dec 0 1); (1, IP, dec 4 10);
      (2, ID, dec 8 10); (2, IU, dec 1 10); (2, IV, dec 0 1); (2, IP, dec 4 10);
      (3, ID, dec 5313 10000); (3, IU, dec 1 10); (3, IV, dec 7276 10000); (3, IP, dec 4 10)], true);
  (* case 11: line 277 *)
  (Some 11, [
      (0, ID, dec 5313 10000); (0, IU, dec 0 1); (0, IV, dec 0 1); (0, IP, dec 4 10);
      (1, ID, dec 1 1); (1, IU, dec 7276 10000); (1, IV, dec 0 1); (1, IP, dec 1 1);
      (2, ID, dec 8 10); (2, IU, dec 0 1); (2, IV, dec 0 1); (2, IP, dec 1 1);
      (3, ID, dec 1 1); (3, IU, dec 0 1); (3, IV, dec 7276 10000); (3, IP, dec 1 1)], true);
  (* case 12: line 300 *)
  (Some 12, [
      (0, ID, dec 1 1); (0, IU, dec 0 1); (0, IV, nopp (dec 3 10)); (0, IP, dec 1 1);
      (1, ID, dec 2 1); (1, IU, dec 0 1); (1, IV, dec 3 10); (1, IP, dec 1 1);
      (2, ID, dec 10625 10000); (2, IU, dec 0 1); (2, IV, dec 8145 10000); (2, IP, dec 4 10);
      (3, ID, dec 5313 10000); (3, IU, dec 0 1); (3, IV, dec 4276 10000); (3, IP, dec 4 10)], true);
  (* case 13: line 323 *)
  (Some 13, [
      (0, ID, dec 2 1); (0, IU, dec 0 1); (0, IV, nopp (dec 5606 10000)); (0, IP, dec 8 1);
      (1, ID, dec 1 1); (1, IU, dec 0 1); (1, IV, nopp (dec 12172 10000)); (1, IP, dec 8 1);
      (2, ID, dec 4736 10000); (2, IU, dec 0 1); (2, IV, dec 12172 10000); (2, IP, dec 26667 10000);
      (3, ID, dec 9474 10000); (3, IU, dec 0 1); (3, IV, dec 11606 10000); (3, IP, dec 26667 10000)], true);
  (* case 14: line 346 *)
  (Some 14, [
      (0, ID, dec 1 1); (0, IU, dec 1 10); (0, IV, nopp (dec 3 10)); (0, IP, dec 1 1);
      (1, ID, dec 5197 10000); (1, IU, nopp (dec 6259 10000)); (1, IV, nopp (dec 3 10)); (1, IP, dec 4 10);
      (2, ID, dec 8 10); (2, IU, dec 1 10); (2, IV, nopp (dec 3 10)); (2, IP, dec 4 10);
      (3, ID, dec 5313 10000); (3, IU, dec 1 10); (3, IV, dec 4276 10000); (3, IP, dec 4 10)], true);
  (* case 15: line 369 *)
  (Some 15, [
      (0, ID, dec 5313 10000); (0, IU, dec 1 10); (0, IV, dec 1 10); (0, IP, dec 4 10);
      (1, ID, dec 10222 10000); (1, IU, nopp (dec 6179 10000)); (1, IV, dec 1 10); (1, IP, dec 1 1);
      (2, ID, dec 8 10); (2, IU, dec 1 10); (2, IV, dec 1 10); (2, IP, dec 1 1);
      (3, ID, dec 1 1); (3, IU, dec 1 10); (3, IV, dec 8276 10000); (3, IP, dec 1 1)], true);
  (* case 16: line 392 *)
  (Some 16, [
      (0, ID, dec 1 1); (0, IU, dec 0 1); (0, IV, nopp (dec 4 10)); (0, IP, dec 1 1);
      (1, ID, dec 2 1); (1, IU, dec 0 1); (1, IV, nopp (dec 3 10)); (1, IP, dec 1 1);
      (2, ID, dec 10625 10000); (2, IU, dec 0 1); (2, IV, dec 2145 10000); (2, IP, dec 4 10);
      (3, ID, dec 5197 10000); (3, IU, dec 0 1); (3, IV, nopp (dec 11259 10000)); (3, IP, dec 4 10)], true);
  (* case 17: line 415 *)
  (Some 17, [
      (0, ID, dec 1 1); (0, IU, dec 0 1); (0, IV, dec 1 1); (0, IP, dec 1 1);
      (1, ID, dec 2 1); (1, IU, dec 0 1); (1, IV, nopp (dec 3 10)); (1, IP, dec 1 1);
      (2, ID, dec 10625 10000); (2, IU, dec 0 1); (2, IV, dec 2145 10000); (2, IP, dec 4 10);
      (3, ID, dec 5197 10000); (3, IU, dec 0 1); (3, IV, dec 2741 10000); (3, IP, dec 4 10)], true);
  (* case 18: line 438 *)
  (Some 18, [
      (0, ID, dec 1 1); (0, IU, dec 0 1); (0, IV, dec 3 10); (0, IP, dec 1 1);
      (1, ID, dec 2 1); (1, IU, dec 0 1); (1, IV, nopp (dec 3 10)); (1, IP, dec 1 1);
      (2, ID, dec 10625 10000); (2, IU, dec 0 1); (2, IV, dec 2145 10000); (2, IP, dec 4 10);
      (3, ID, dec 5197 10000); (3, IU, dec 0 1); (3, IV, nopp (dec 4259 10000)); (3, IP, dec 4 10)], false);
  (* default: line 460 *)
  (None, [
      (0, ID, dec 1 1); (0, IU, dec 0 1); (0, IV, dec 0 1); (0, IP, dec 1 1);
      (1, ID, dec 5197 10000); (1, IU, nopp (dec 7259 10000)); (1, IV, dec 0 1); (1, IP, dec 4 10);
      (2, ID, dec 1072 10000); (2, IU, nopp (dec 7259 10000)); (2, IV, nopp (dec 14045 10000)); (2, IP, dec 439 10000);
      (3, ID, dec 2579 10000); (3, IU, dec 0 1); (3, IV, nopp (dec 14045 10000)); (3, IP, dec 15 100)], false)].

(** initRiemannConfig2d.cpp:502-656 *)
Definition cases3d : list (option Z * list (Z * Z * T) * bool) := [
  (* case 2: line 505 *)
  (Some 2, [
      (0, ID, dec 5323 10000); (0, IU, dec 0 1); (0, IV, dec 0 1); (0, IW, dec 1206 1000); (0, IP, dec 3 10);
      (1, ID, dec 138 1000); (1, IU, dec 1206 1000); (1, IV, dec 0 1); (1, IW, dec 1206 1000); (1, IP, dec 29 1000);
      (2, ID, dec 138 1000); (2, IU, dec 1206 1000); (2, IV, dec 1206 1000); (2, IW, dec 1206 1000); (2, IP, dec 29 1000);
      (3, ID, dec 138 1000); (3, IU, dec 0 1); (3, IV, dec 1206 1000); (3, IW, dec 1206 1000); (3, IP, dec 29 1000);
      (4, ID, dec 15 10); (4, IU, dec 0 1); (4, IV, dec 0 1); (4, IW, dec 0 1); (4, IP, dec 15 10);
      (5, ID, dec 5323 10000); (5, IU, dec 1206 1000); (5, IV, dec 0 1); (5, IW, dec 0 1); (5, IP, dec 3 10);
      (6, ID, dec 138 1000); (6, IU, dec 1206 1000); (6, IV, dec 1206 1000); (6, IW, dec 0 1); (6, IP, dec 29 1000);
      (7, ID, dec 5323 10000); (7, IU, dec 0 1); (7, IV, dec 1206 1000); (7, IW, dec 0 1); (7, IP, dec 3 10)], true);
  (* case 3: line 556 *)
  (Some 3, [
      (0, ID, dec 11 10); (0, IU, dec 0 1); (0, IV, dec 0 1); (0, IW, dec 0 1); (0, IP, dec 11 10);
      (1, ID, dec 5065 10000); (1, IU, dec 8939 10000); (1, IV, dec 0 1); (1, IW, dec 0 1); (1, IP, dec 35 100);
      (2, ID, dec 11 10); (2, IU, dec 8939 10000); (2, IV, dec 8939 10000); (2, IW, dec 0 1); (2, IP, dec 11 10);
      (3, ID, dec 5065 10000); (3, IU, dec 0 1); (3, IV, dec 8939 10000); (3, IW, dec 0 1); (3, IP, dec 35 100);
      (4, ID, dec 5065 10000); (4, IU, dec 0 1); (4, IV, dec 0 1); (4, IW, dec 8939 10000); (4, IP, dec 35 100);
      (5, ID, dec 11 10); (5, IU, dec 8939 10000); (5, IV, dec 0 1); (5, IW, dec 8939 10000); (5, IP, dec 11 10);
      (6, ID, dec 11 10); (6, IU, dec 8939 10000); (6, IV, dec 8939 10000); (6, IW, dec 8939 10000); (6, IP, dec 11 10);
      (7, ID, dec 5065 10000); (7, IU, dec 0 1); (7, IV, dec 8939 10000); (7, IW, dec 8939 10000); (7, IP, dec 35 100)], true);
  (* default: line 607 *)
  (None, [
      (0, ID, dec 11 10); (0, IU, dec 0 1); (0, IV, dec 0 1); (0, IW, dec 0 1); (0, IP, dec 11 10);
      (1, ID, dec 5065 10000); (1, IU, dec 8939 10000); (1, IV, dec 0 1); (1, IW, dec 0 1); (1, IP, dec 35 100);
      (2, ID, dec 11 10); (2, IU, dec 8939 10000); (2, IV, dec 8939 10000); (2, IW, dec 0 1); (2, IP, dec 11 10);
      (3, ID, dec 5065 10000); (3, IU, dec 0 1); (3, IV, dec 8939 10000); (3, IW, dec 0 1); (3, IP, dec 35 100);
      (4, ID, dec 5065 10000); (4, IU, dec 0 1); (4, IV, dec 0 1); (4, IW, dec 8939 10000); (4, IP, dec 35 100);
      (5, ID, dec 11 10); (5, IU, dec 8939 10000); (5, IV, dec 0 1); (5, IW, dec 8939 10000); (5, IP, dec 11 10);
      (6, ID, dec 11 10); (6, IU, dec 8939 10000); (6, IV, dec 8939 10000); (6, IW, dec 8939 10000); (6, IP, dec 11 10);
      (7, ID, dec 5065 10000); (7, IU, dec 0 1); (7, IV, dec 8939 10000); (7, IW, dec 8939 10000); (7, IP, dec 35 100)], false)].

(** [junk] is the array before the assignments (it is not initialised).  In two
    dimensions the states have no third velocity. *)
(** initRiemannConfig2d.cpp:11-489 *)
Definition riemann_config2d (junk : Z -> hs T) (n q : Z) : hs T :=
  let u := switch n cases2d junk q in mk2 (hd u) (hp u) (hu u) (hv u).
(** initRiemannConfig2d.cpp:491-661 *)
Definition riemann_config3d (junk : Z -> hs T) (n q : Z) : hs T := switch n cases3d junk q.

(** HydroInitFunctors2D.h:473-477, HydroInitFunctors3D.h:565-570 with initRiemannConfig2d.h:96-109 *)
Definition riemann_config (three : bool) (n q : Z) : hs T :=
  if three then riemann_config3d (fun _ => mkhs n0 n0 n0 n0 n0) n q else riemann_config2d (fun _ => mkhs n0 n0 n0 n0 n0) n q.

End RiemannConfig.
