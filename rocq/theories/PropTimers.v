(** * C64: the performance report *)
From Coq Require Import ZArith List Bool Lia ZifyBool Reals Lra.
Import ListNotations.
From Verif Require Import Timers.
Local Open Scope R_scope.

Lemma acts_app clock a : forall b k s, acts clock (a ++ b) k s = acts clock b (k + length a)%nat (acts clock a k s).
Proof.
  induction a as [|e a IH]; intros b k s; cbn [app acts length].
  - rewrite Nat.add_0_r. reflexivity.
  - rewrite IH. f_equal. lia.
Qed.

(** What holds between two iterations: [z] the beginning of the main loop, [i0] the time
    of the first output, [now] the last time read. *)
Record between_steps (p : solver) (z i0 now : R) (s : timers) : Prop := {
  b_total : s TOTAL = mktimer z 0;
  b_io : i0 <= total_time (s IO);
  b_dt : 0 <= total_time (s DT);
  b_prim : 0 <= total_time (s PRIMITIVES);
  b_flux : 0 <= total_time (s FLUXES);
  b_up : 0 <= total_time (s UPDATE);
  b_bound : 0 <= total_time (s BOUNDARIES);
  b_parts : total_time (s PRIMITIVES) + total_time (s FLUXES) + total_time (s UPDATE) +
            (match p with Hydro _ _ => 0 | Mhd => total_time (s DT) end) <= total_time (s NUM_SCHEME);
  b_sum : total_time (s IO) - i0 + total_time (s BOUNDARIES) + total_time (s NUM_SCHEME) +
          (match p with Hydro _ _ => total_time (s DT) | Mhd => 0 end) <= now - z
}.

Section Runs.
Variable clock : nat -> R.
Hypothesis mono : forall k, clock k <= clock (S k).

Lemma one_step p output saved z i0 k s :
  between_steps p z i0 (clock k) s ->
  between_steps p z i0 (clock (k + length (iteration_events p output saved))%nat)
    (acts clock (iteration_events p output saved) (S k) s).
Proof.
  intros [Ht Hio Hdt Hp Hf Hu Hb Hpa Hs].
  pose proof (mono k) as M0. pose proof (mono (S k)) as M1. pose proof (mono (S (S k))) as M2.
  pose proof (mono (3 + k)) as M3. pose proof (mono (4 + k)) as M4. pose proof (mono (5 + k)) as M5.
  pose proof (mono (6 + k)) as M6. pose proof (mono (7 + k)) as M7. pose proof (mono (8 + k)) as M8.
  pose proof (mono (9 + k)) as M9. pose proof (mono (10 + k)) as M10. pose proof (mono (11 + k)) as M11.
  pose proof (mono (12 + k)) as M12. pose proof (mono (13 + k)) as M13. cbn [Nat.add] in *.
  rewrite (Nat.add_comm k).
  unfold iteration_events, godunov_events, save_events.
  destruct p as [dim version|].
  - destruct (output && saved); destruct ((dim =? 2)%Z && (version =? 0)%Z);
      (constructor; cbn [app acts act timer_eqb start_time total_time length Nat.add]; [exact Ht|..]; lra).
  - destruct (output && saved);
      (constructor; cbn [app acts act timer_eqb start_time total_time length Nat.add]; [exact Ht|..]; lra).
Qed.

Lemma no_output_step p saved k s :
  total_time (acts clock (iteration_events p false saved) k s IO) = total_time (s IO).
Proof.
  unfold iteration_events, godunov_events. cbn [andb app].
  destruct p as [dim version|]; [destruct ((dim =? 2)%Z && (version =? 0)%Z)|]; reflexivity.
Qed.

Lemma steps p output z i0 saves : forall k s,
  between_steps p z i0 (clock k) s ->
  let es := flat_map (iteration_events p output) saves in
  between_steps p z i0 (clock (k + length es)%nat) (acts clock es (S k) s).
Proof.
  induction saves as [|b saves IH]; intros k s Hb es; subst es; cbn [flat_map].
  - cbn [length acts]. rewrite Nat.add_0_r. exact Hb.
  - rewrite acts_app, app_length, Nat.add_assoc.
    change (S k + length (iteration_events p output b))%nat with (S (k + length (iteration_events p output b))).
    apply IH. apply one_step. exact Hb.
Qed.

Lemma no_output_steps p saves : forall k s,
  total_time (acts clock (flat_map (iteration_events p false) saves) k s IO) = total_time (s IO).
Proof.
  induction saves as [|b saves IH]; intros k s; cbn [flat_map]; [reflexivity|].
  rewrite acts_app, IH. apply no_output_step.
Qed.

End Runs.

(** For every clock that does not go back, every solver, any number of iterations and any
    outputs among them: no section has a negative time; the parts of the scheme fit into
    the scheme; scheme, ghost cells and (hydro) time steps fit into the total, which is the
    time from the beginning of the main loop to its end; outputs fit into it as well, but
    for the first and the last one. *)
Theorem C64_sections :
  forall (born : timer_id -> R) (clock : nat -> R) (p : solver) (output : bool) (saves : list bool),
  (forall k, clock k <= clock (S k)) ->
  let t := elapsed born clock p output saves in
  let calls := length (main_events p output saves) in
  (forall x, 0 <= t x) /\
  t PRIMITIVES + t FLUXES + t UPDATE <= t NUM_SCHEME /\
  match p with
  | Hydro _ _ => t DT + t BOUNDARIES + t NUM_SCHEME <= t TOTAL
  | Mhd => t DT <= t NUM_SCHEME /\ t BOUNDARIES + t NUM_SCHEME <= t TOTAL
  end /\
  (if output
   then t TOTAL = clock (calls - 3)%nat - clock 2%nat /\
        t BOUNDARIES + t NUM_SCHEME + t IO <=
          t TOTAL + (clock 1%nat - clock 0%nat) + (clock (calls - 1)%nat - clock (calls - 2)%nat)
   else t TOTAL = clock (calls - 1)%nat - clock 0%nat /\ t IO = 0).
Proof.
  intros born clock p output saves Hm t calls.
  set (es := flat_map (iteration_events p output) saves) in *.
  destruct output.
  - set (s0 := acts clock [Start IO; Stop IO; Start TOTAL] 0 (new_timers born)).
    pose proof (Hm 0%nat) as M0. pose proof (Hm 1%nat) as M1.
    assert (B0 : between_steps p (clock 2%nat) (clock 1%nat - clock 0%nat) (clock 2%nat) s0).
    { unfold s0, new_timers. constructor; cbn [acts act timer_eqb start_time total_time]; try lra; [reflexivity|destruct p; lra..]. }
    apply (steps clock Hm p true _ _ saves) in B0. cbv zeta in B0. fold es in B0.
    set (n := length es) in *.
    assert (Hc : calls = (6 + n)%nat).
    { unfold calls, main_events, save_events. rewrite !app_length. cbn [length]. fold es. fold n. lia. }
    set (s1 := acts clock es 3 s0) in *.
    assert (E : forall x, t x = total_time (acts clock [Stop TOTAL; Start IO; Stop IO] (3 + n) s1 x)).
    { intros x. unfold t, elapsed, main_events, save_events. rewrite app_assoc. fold es. rewrite acts_app.
      cbn [app length Nat.add]. fold s0. rewrite acts_app. fold n. reflexivity. }
    destruct B0 as [Ht Hio Hdt Hp Hf Hu Hb Hpa Hs].
    pose proof (Hm (2 + n)%nat) as N0. pose proof (Hm (3 + n)%nat) as N1. pose proof (Hm (4 + n)%nat) as N2.
    rewrite Hc. replace (6 + n - 3)%nat with (3 + n)%nat by lia. replace (6 + n - 1)%nat with (5 + n)%nat by lia.
    replace (6 + n - 2)%nat with (4 + n)%nat by lia. rewrite !E.
    cbn [Nat.add] in *.
    split; [|cbn [acts act timer_eqb start_time total_time]; rewrite Ht; cbn [start_time total_time];
             split; [destruct p; lra|split; [destruct p; [|split]; lra|split; destruct p; lra]]].
    intros x. rewrite E. destruct x; cbn [acts act timer_eqb start_time total_time Nat.add];
      try rewrite Ht; cbn [start_time total_time]; destruct p; lra.
  - set (s0 := acts clock [Start TOTAL] 0 (new_timers born)).
    assert (B0 : between_steps p (clock 0%nat) 0 (clock 0%nat) s0).
    { unfold s0, new_timers. constructor; cbn [acts act timer_eqb start_time total_time]; try lra; [reflexivity|destruct p; lra..]. }
    apply (steps clock Hm p false _ _ saves) in B0. cbv zeta in B0. fold es in B0.
    set (n := length es) in *.
    assert (Hc : calls = (2 + n)%nat).
    { unfold calls, main_events. rewrite !app_length. cbn [length]. fold es. fold n. lia. }
    set (s1 := acts clock es 1 s0) in *.
    assert (E : forall x, t x = total_time (acts clock [Stop TOTAL] (1 + n) s1 x)).
    { intros x. unfold t, elapsed, main_events. rewrite app_assoc. fold es. rewrite acts_app.
      cbn [app length Nat.add]. fold s0. rewrite acts_app. fold n. reflexivity. }
    assert (HI : total_time (s1 IO) = 0) by (unfold s1, es; rewrite no_output_steps; reflexivity).
    destruct B0 as [Ht Hio Hdt Hp Hf Hu Hb Hpa Hs].
    pose proof (Hm (0 + n)%nat) as N0.
    rewrite Hc. replace (2 + n - 1)%nat with (1 + n)%nat by lia. rewrite !E.
    cbn [Nat.add] in *.
    split; [|cbn [acts act timer_eqb start_time total_time]; rewrite Ht; cbn [start_time total_time];
             split; [destruct p; lra|split; [destruct p; [|split]; lra|split; destruct p; lra]]].
    intros x. rewrite E. destruct x; cbn [acts act timer_eqb start_time total_time Nat.add];
      try rewrite Ht; cbn [start_time total_time]; destruct p; lra.
Qed.
Print Assumptions C64_sections.

(** Time spent inside section [x]: the sum of the intervals between two readings during
    which it is open. *)
Definition opens (x : timer_id) (e : event) (is_open : bool) : bool :=
  match e with
  | Start t => if timer_eqb t x then true else is_open
  | Stop t => if timer_eqb t x then false else is_open
  end.
Fixpoint time_in (x : timer_id) (clock : nat -> R) (es : list event) (k : nat) (is_open : bool) : R :=
  match es with
  | [] => 0
  | e :: es' => (if opens x e is_open then clock (S k) - clock k else 0) + time_in x clock es' (S k) (opens x e is_open)
  end.

(** Starts and stops of [x] alternate. *)
Fixpoint alternate (x : timer_id) (is_open : bool) (es : list event) : option bool :=
  match es with
  | [] => Some is_open
  | e :: es' =>
      let bad := match e with Start t => timer_eqb t x && is_open | Stop t => timer_eqb t x && negb is_open end in
      if bad then None else alternate x (opens x e is_open) es'
  end.

Lemma timer_eqb_sym a b : timer_eqb a b = timer_eqb b a.
Proof. destruct a, b; reflexivity. Qed.

Lemma time_in_total x clock es : forall k s f g,
  alternate x f es = Some g ->
  total_time (acts clock es k s x) + (if g then clock (k + length es)%nat - start_time (acts clock es k s x) else 0) =
  total_time (s x) + (if f then clock k - start_time (s x) else 0) + time_in x clock es k f.
Proof.
  induction es as [|e es IH]; intros k s f g H; cbn [alternate acts length time_in] in *.
  - injection H as <-. rewrite Nat.add_0_r. destruct f; lra.
  - specialize (IH (S k) (act e (clock k) s)).
    destruct e as [t|t]; cbn [opens] in *; destruct (timer_eqb t x) eqn:E; cbn [andb] in H;
      [destruct f; cbn [negb] in H; [discriminate|]| |destruct f; cbn [negb] in H; [|discriminate]|];
      apply IH in H; rewrite <- plus_n_Sm; cbn [Nat.add] in H;
      rewrite H; cbn [act]; rewrite (timer_eqb_sym x t), E; cbn [start_time total_time];
      try destruct f; lra.
Qed.

Lemma alternate_app x a : forall f b, alternate x f (a ++ b) =
  match alternate x f a with Some g => alternate x g b | None => None end.
Proof.
  induction a as [|e a IH]; intros f b; cbn [app alternate]; [reflexivity|].
  destruct e as [t|t]; destruct (timer_eqb t x && _); try reflexivity; apply IH.
Qed.

Lemma alternate_steps x p output saves : forall f, (x <> TOTAL -> f = false) ->
  alternate x f (flat_map (iteration_events p output) saves) = Some f.
Proof.
  induction saves as [|b saves IH]; intros f Hf; cbn [flat_map]; [reflexivity|].
  rewrite alternate_app.
  assert (E : alternate x f (iteration_events p output b) = Some f).
  { unfold iteration_events, godunov_events, save_events.
    destruct x; [destruct f|rewrite Hf by discriminate..]; destruct p as [dim version|]; destruct (output && b);
      try destruct ((dim =? 2)%Z && (version =? 0)%Z); reflexivity. }
  rewrite E. apply IH. exact Hf.
Qed.

(** The time reported for a section is the time spent inside it, summed over the whole run. *)
Theorem C64_adds_up :
  forall (born : timer_id -> R) (clock : nat -> R) (p : solver) (output : bool) (saves : list bool) (x : timer_id),
  elapsed born clock p output saves x = time_in x clock (main_events p output saves) 0 false.
Proof.
  intros born clock p output saves x.
  assert (A : alternate x false (main_events p output saves) = Some false).
  { unfold main_events. rewrite app_assoc, alternate_app.
    assert (E : alternate x false ((if output then save_events else []) ++ [Start TOTAL]) = Some (timer_eqb TOTAL x)).
    { destruct output, x; reflexivity. }
    rewrite E, alternate_app, alternate_steps by (destruct x; intros; [congruence|reflexivity..]).
    destruct output, x; reflexivity. }
  apply (time_in_total x clock _ 0%nat (new_timers born)) in A. unfold elapsed.
  cbn [new_timers total_time] in A. lra.
Qed.
Print Assumptions C64_adds_up.

(** How often each section is entered.  Three lines of the report stay at zero where
    nothing is measured: primitives in MHD, fluxes and update everywhere but in
    implementation 0 of 2D hydro. *)
Definition is_start (x : timer_id) (e : event) : bool := match e with Start t => timer_eqb t x | Stop _ => false end.
Theorem C64_entered : forall (p : solver) (output : bool) (saves : list bool) (x : timer_id),
  length (filter (is_start x) (main_events p output saves)) =
  match x with
  | TOTAL => 1
  | IO => if output then 2 + count_occ bool_dec saves true else 0
  | DT | BOUNDARIES | NUM_SCHEME => length saves
  | PRIMITIVES => match p with Hydro _ _ => length saves | Mhd => 0 end
  | FLUXES | UPDATE => match p with Hydro 2 0 => length saves | _ => 0 end
  end%nat.
Proof.
  intros p output saves x.
  assert (F : length (filter (is_start x) (flat_map (iteration_events p output) saves)) =
    match x with
    | TOTAL => 0
    | IO => if output then count_occ bool_dec saves true else 0
    | DT | BOUNDARIES | NUM_SCHEME => length saves
    | PRIMITIVES => match p with Hydro _ _ => length saves | Mhd => 0 end
    | FLUXES | UPDATE => match p with Hydro 2 0 => length saves | _ => 0 end
    end%nat).
  { induction saves as [|b saves IH]; cbn [flat_map].
    - destruct x, output, p as [[|[|[]|]|] []|]; reflexivity.
    - rewrite filter_app, app_length, IH.
      unfold iteration_events, godunov_events, save_events.
      destruct x, output, b, p as [[|[|[]|]|] []|]; reflexivity. }
  unfold main_events, save_events. rewrite !filter_app, !app_length, F.
  destruct x, output; cbn [filter is_start timer_eqb length Nat.add]; try reflexivity; lia.
Qed.
Print Assumptions C64_entered.

(** Every printed percentage but that of the outputs lies between 0 and 100. *)
Theorem C64_percentages :
  forall (born : timer_id -> R) (clock : nat -> R) (p : solver) (output : bool) (saves : list bool) (x : timer_id),
  (forall k, clock k <= clock (S k)) ->
  let t := elapsed born clock p output saves in
  0 < t TOTAL -> (output = true -> x <> IO) ->
  0 <= percentage (t x) (t TOTAL) <= 100.
Proof.
  intros born clock p output saves x Hm t Ht Hx.
  destruct (C64_sections born clock p output saves Hm) as (H0 & H1 & H2 & H3). fold t in H0, H1, H2, H3.
  assert (Hle : 0 <= t x <= t TOTAL).
  { pose proof (H0 IO). pose proof (H0 DT). pose proof (H0 PRIMITIVES). pose proof (H0 FLUXES). pose proof (H0 UPDATE).
    pose proof (H0 BOUNDARIES). pose proof (H0 NUM_SCHEME).
    split; [apply H0|]. destruct x; try (destruct p; lra).
    destruct output; [exfalso; apply Hx; reflexivity|]. lra. }
  unfold percentage. split.
  - apply Rmult_le_pos; [lra|]. left. apply Rinv_0_lt_compat. exact Ht.
  - apply Rmult_le_reg_r with (t TOTAL); [exact Ht|]. unfold Rdiv. rewrite Rmult_assoc, Rinv_l by lra. lra.
Qed.
Print Assumptions C64_percentages.

(** The outputs before and after the main loop count as output time but not as total
    time: the percentage of the outputs can exceed any bound. *)
Theorem C64_io_percentage_refuted : forall bound : R, exists clock : nat -> R,
  (forall k, clock k <= clock (S k)) /\
  let t := elapsed (fun _ => 0) clock (Hydro 2 0) true [true; false] in
  0 < t TOTAL /\ bound < percentage (t IO) (t TOTAL).
Proof.
  intros bound. set (b := Rabs bound).
  assert (Hb : bound <= b /\ 0 <= b) by (unfold b; split; [apply Rle_abs|apply Rabs_pos]). clearbody b.
  exists (fun k => match k with O => - (1 + b) | _ => INR k end). split.
  - intros [|k].
    + cbn [INR]. lra.
    + rewrite (S_INR (S k)). lra.
  - assert (E : forall k, INR (S k) = INR k + 1) by apply S_INR.
    unfold elapsed, main_events, iteration_events, godunov_events, save_events, new_timers, percentage.
    cbn [flat_map app andb Z.eqb Pos.eqb acts act timer_eqb start_time total_time].
    repeat rewrite E. cbn [INR]. split; [lra|].
    match goal with |- _ < 100 * ?a / ?d => assert (D : d = 27) by lra; rewrite D; assert (A : 1 + b <= a) by lra end.
    lra.
Qed.
Print Assumptions C64_io_percentage_refuted.

(** Two iterations, an output before the first: one second between two readings. *)
Example C64_case :
  (forall k, INR k <= INR (S k)) /\
  elapsed (fun _ => 5) INR Mhd true [true; false] TOTAL = 15 /\ elapsed (fun _ => 5) INR Mhd true [true; false] IO = 3.
Proof.
  split; [intros k; rewrite S_INR; lra|].
  unfold elapsed, main_events, iteration_events, godunov_events, save_events, new_timers.
  cbn [flat_map app andb acts act timer_eqb start_time total_time].
  repeat rewrite S_INR. cbn [INR]. lra.
Qed.

(** ** Cell updates per second *)
Local Open Scope Z_scope.

Definition cells (dim nx ny nz : Z) : Z := if dim =? 2 then nx * ny else nx * ny * nz.

(** The rate that is printed, times the total time, counts the ghost cells of every
    process; it is larger than the number of cells updated. *)
Theorem C64_rate : forall (dim nx ny nz g steps procs : Z) (t r : R),
  dim = 2 \/ dim = 3 -> 1 <= nx -> 1 <= ny -> 1 <= nz -> 1 <= g -> 1 <= steps -> 1 <= procs -> (0 < t)%R ->
  performance dim (nx + 2 * g) (ny + 2 * g) (nz + 2 * g) steps procs t = Some r ->
  (r * t * 1000000 = IZR (steps * procs * cells dim (nx + 2 * g) (ny + 2 * g) (nz + 2 * g)))%R /\
  (IZR (steps * procs * cells dim nx ny nz) < r * t * 1000000)%R.
Proof.
  intros dim nx ny nz g steps procs t r Hd Hx Hy Hz Hg Hs Hp Ht H.
  assert (E : (r * t * 1000000 = IZR (steps * procs * cells dim (nx + 2 * g) (ny + 2 * g) (nz + 2 * g)))%R).
  { revert H. generalize (nx + 2 * g) (ny + 2 * g) (nz + 2 * g). intros X Y Z0 H.
    unfold performance, n_cells, mul_bits in H. unfold cells.
    destruct (dim =? 2);
    repeat match type of H with context [if ?b then _ else _] => destruct b; try discriminate H end;
    injection H as <-;
    match goal with |- (IZR ?a / _ * _ * _ * _ = IZR ?b)%R => replace b with a by ring end; field; lra. }
  split; [exact E|]. rewrite E. apply IZR_lt.
  assert (1 <= steps * procs) by nia.
  apply Z.mul_lt_mono_pos_l; [lia|]. unfold cells.
  assert (nx * ny < (nx + 2 * g) * (ny + 2 * g)) by nia.
  destruct (dim =? 2); [assumption|].
  assert (1 <= nx * ny) by nia. nia.
Qed.
Print Assumptions C64_rate.

(** It is defined exactly when the cells of one process number less than 2^31 and the
    updates less than 2^63. *)
Theorem C64_rate_defined : forall (dim nx ny nz g steps procs : Z) (t : R),
  dim = 2 \/ dim = 3 -> 1 <= nx -> 1 <= ny -> 1 <= nz -> 1 <= g -> 1 <= steps -> 1 <= procs ->
  let n := cells dim (nx + 2 * g) (ny + 2 * g) (nz + 2 * g) in
  (exists r, performance dim (nx + 2 * g) (ny + 2 * g) (nz + 2 * g) steps procs t = Some r) <->
  n < 2 ^ 31 /\ steps * n * procs < 2 ^ 63.
Proof.
  intros dim nx ny nz g steps procs t Hd Hx Hy Hz Hg Hs Hp n.
  unfold performance, n_cells, mul_bits. unfold n, cells. clear n.
  change (32 - 1) with 31. change (64 - 1) with 63.
  set (X := nx + 2 * g). set (Y := ny + 2 * g). set (Z0 := nz + 2 * g).
  assert (HX : 1 <= X) by (unfold X; lia). assert (HY : 1 <= Y) by (unfold Y; lia). assert (HZ : 1 <= Z0) by (unfold Z0; lia).
  clearbody X Y Z0. clear nx ny nz g Hx Hy Hz Hg.
  assert (HXY : 1 <= X * Y) by nia. set (A := X * Y) in *. clearbody A. clear X Y HX HY.
  assert (P : 0 < 2 ^ 31 /\ 0 < 2 ^ 63) by lia. destruct P as [P1 P2].
  set (b1 := 2 ^ 31) in *. set (b2 := 2 ^ 63) in *. clearbody b1 b2.
  assert (K : forall n, 1 <= n -> (n < b1) ->
    ((exists r : R, match (if (- b2 <=? steps * n) && (steps * n <? b2) then Some (steps * n) else None) with
       | Some a => match (if (- b2 <=? a * procs) && (a * procs <? b2) then Some (a * procs) else None) with
                   | Some b => Some (IZR b / t * (1 / 1000000))%R | None => None end
       | None => None end = Some r) <-> steps * n * procs < b2)).
  { intros n Hn Hb. assert (1 <= steps * n) by nia. assert (steps * n <= steps * n * procs) by nia.
    destruct (steps * n <? b2) eqn:E1; rewrite ?andb_false_r.
    - replace (- b2 <=? steps * n) with true by lia. cbn [andb].
      destruct (steps * n * procs <? b2) eqn:E2; rewrite ?andb_false_r.
      + replace (- b2 <=? steps * n * procs) with true by lia. cbn [andb]. split; [lia|intros _; eexists; reflexivity].
      + split; [intros [r Hr]; discriminate|lia].
    - split; [intros [r Hr]; discriminate|lia]. }
  destruct (dim =? 2).
  - destruct (A <? b1) eqn:E; rewrite ?andb_false_r.
    + replace (- b1 <=? A) with true by lia. cbn [andb]. rewrite (K A) by lia. intuition lia.
    + split; [intros [r Hr]; discriminate|lia].
  - assert (A <= A * Z0) by nia.
    destruct (A <? b1) eqn:E; rewrite ?andb_false_r.
    + replace (- b1 <=? A) with true by lia. cbn [andb].
      destruct (A * Z0 <? b1) eqn:E2; rewrite ?andb_false_r.
      * replace (- b1 <=? A * Z0) with true by lia. cbn [andb]. rewrite (K (A * Z0)) by lia. intuition lia.
      * split; [intros [r Hr]; discriminate|lia].
    + split; [intros [r Hr]; discriminate|lia].
Qed.
Print Assumptions C64_rate_defined.

(** 100 x 100 cells, ten steps on one process: defined, and 8 percent too large; 2048 x
    1024 x 1024 cells: not defined. *)
Example C64_rate_case :
  (exists r, performance 2 104 104 5 10 1 1 = Some r /\ (r * 1000000 = 108160)%R) /\
  performance 3 2052 1028 1028 10 1 1 = None.
Proof.
  split; [|reflexivity]. exists (108160 / 1 * (1 / 1000000))%R. split; [reflexivity|lra].
Qed.
