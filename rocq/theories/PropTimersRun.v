(** * C64: the report of an actual run *)
From Coq Require Import ZArith List Bool Lia Reals Lra.
Import ListNotations.
From Verif Require Import Num Exec Grid Driver Timers PropTimers.

Section Run.
Context {T : Type} `{Num T} {M D : Type}.
Variable P : machine T M D.
Variable c : config (T := T).

(** The timer calls of a run whose loop heads are [tr]: an output is made in an iteration
    if [should_save_solution] says so (SolverHydroMuscl.h:655-670). *)
Definition run_events (p : solver) (tr : list (sol (T := T) (M := M) (D := D))) : list event :=
  main_events p (enable_output c) (map (should_save c) (removelast tr)).

Lemma loop_counts s tr s' : loop P c s tr s' ->
  s_it s' = (s_it s + length (removelast tr))%nat /\
  length (s_files s') = (length (s_files s) +
    if enable_output c then count_occ bool_dec (map (should_save c) (removelast tr)) true else 0)%nat.
Proof.
  induction 1 as [s Hf|s s1 tr s' Hf Hn Hl IH].
  - cbn [removelast map length count_occ]. destruct (enable_output c); lia.
  - destruct IH as [I1 I2].
    assert (Ht : tr <> []) by (inversion Hl; discriminate).
    assert (E : removelast (s :: tr) = s :: removelast tr) by (destruct tr; [contradiction|reflexivity]).
    rewrite E. cbn [map length]. clear E Ht Hl Hf.
    destruct Hn as [_ (m1 & d & m2 & _ & _ & _ & ->)].
    unfold maybe_save in *. rewrite I1, I2. clear I1 I2. cbn [s_it s_files].
    destruct (enable_output c); cbn [andb].
    + destruct (should_save c s) eqn:Es.
      * rewrite count_occ_cons_eq by reflexivity. cbn [save s_it s_files]. rewrite app_length. cbn [length]. lia.
      * rewrite count_occ_cons_neq by discriminate. lia.
    + lia.
Qed.

End Run.

(** In the report of a run every iteration counts once as time step, ghost cells and
    scheme, and every file that was written counts once as output. *)
Theorem C64_run : forall (T : Type) (N : Num T) (M D : Type) (P : machine T M D) (c : config) (p : solver)
    (t0 : T) (saved : Z) (mem : M) (s0 s' : sol) (tr : list sol),
  start t0 saved mem s0 -> main P c s0 tr s' ->
  let entered x := length (filter (is_start x) (run_events c p tr)) in
  entered TOTAL = 1%nat /\ entered DT = s_it s' /\ entered BOUNDARIES = s_it s' /\ entered NUM_SCHEME = s_it s' /\
  entered IO = length (s_files s').
Proof.
  intros T N M D P c p t0 saved mem s0 s' tr (_ & H0 & _ & Hf & _) [s1 [Hl ->]] entered.
  apply loop_counts in Hl. destruct Hl as [H1 H2].
  assert (E : forall x, entered x = _) by (intros x; apply C64_entered).
  rewrite !E. clear E. rewrite map_length.
  unfold main_save, enable_output in *.
  destruct (c_nOutput c =? 0)%Z; cbn [save s_it s_files] in *.
  - rewrite H1, H2, H0, Hf. cbn [length]. repeat split; lia.
  - rewrite app_length, H1, H2, H0, Hf. cbn [length app Nat.add]. repeat split; lia.
Qed.
Print Assumptions C64_run.

(** One iteration with an output in every one: three files. *)
Example C64_run_case :
  let P := mkmachine (T := R) (M := unit) (D := unit) (fun _ _ _ => True) (fun _ _ d => d = 1%R) (fun _ _ _ _ => True) (fun _ _ => tt) in
  let c := mkconfig (T := R) 2%R 1 (-1) 1 in
  let s0 := mksol (T := R) (M := unit) (D := unit) 0%R 0%R 0 0 [] tt in
  exists tr s', start 0%R 0 tt s0 /\ main P c s0 tr s' /\ s_it s' = 1%nat /\ length (s_files s') = 3%nat /\
    length (filter (is_start IO) (run_events c Mhd tr)) = 3%nat.
Proof.
  intros P c s0.
  set (h := main_save P c s0). set (h1 := maybe_save P c h).
  set (s1 := mksol (nadd (s_t h1) (clamp c (s_t h1) 1%R)) (clamp c (s_t h1) 1%R) 1 (s_saved h1) (s_files h1) tt).
  assert (Hm : main P c s0 [h; s1] (main_save P c s1)).
  { exists s1. split; [|reflexivity]. apply loop_step with s1.
    - unfold finished. cbn. destruct (Rle_dec _ _) as [H|H]; [exfalso|reflexivity]. lra.
    - split; [discriminate|]. exists tt, 1%R, tt. repeat split.
    - apply loop_done. unfold finished. cbn. apply orb_true_r. }
  exists [h; s1], (main_save P c s1).
  assert (Hs : start 0%R 0 tt s0) by (repeat split).
  split; [exact Hs|]. split; [exact Hm|]. split; [reflexivity|]. split; [reflexivity|].
  destruct (C64_run R Rnum unit unit P c Mhd 0%R 0%Z tt s0 _ _ Hs Hm) as (_ & _ & _ & _ & E). rewrite E. reflexivity.
Qed.
