(** * The run: main loop, time, buffers and outputs

    Models /repo/src/main.cpp:112-139, [SolverBase] (shared/SolverBase.cpp:22-265)
    and [SolverHydroMuscl] (muscl/SolverHydroMuscl.h:277-285, 589-700, 749-762).
    Not modelled: timers, log messages (except the division by nlog), the file
    formats (a file is its number, recorded time and the array contents handed
    to the writer). *)
From Coq Require Import ZArith List Bool.
Import ListNotations.
From Verif Require Import Num Exec Grid.
Local Open Scope Z_scope.

Section Driver.
Context {T : Type} `{Num T}.

(** SolverBase.cpp:26-36, HydroParams.cpp:38-41 *)
Record config := mkconfig {
  c_tEnd : T; c_nStepmax : Z; c_nOutput : Z; c_nlog : Z
}.

(** HydroParams.cpp:41 *)
Definition enable_output (c : config) : bool := if c_nOutput c =? 0 then false else true.

(** What a solver provides: [M] is its memory, [D] the contents of a file.
    [before n] is what happens before the time step is computed (nothing in the
    hydro solver), [local_dt n] the possible results of [compute_dt_local] and
    [after dt n] the rest of the step, all at iteration number [n]; [current n]
    is the array handed to the writer. *)
Record machine (M D : Type) := mkmachine {
  before : nat -> M -> M -> Prop;
  local_dt : nat -> M -> T -> Prop;
  after : T -> nat -> M -> M -> Prop;
  current : nat -> M -> D
}.
Arguments before {M D}. Arguments local_dt {M D}. Arguments after {M D}. Arguments current {M D}.

Context {M D : Type}.
Variable P : machine M D.
Variable c : config.

(** A file: number, recorded time, contents. *)
Record file := mkfile { f_number : Z; f_time : T; f_data : D }.

(** SolverBase.h members; [s_files] is the list of files written, oldest first. *)
Record sol := mksol {
  s_t : T; s_dt : T; s_it : nat; s_saved : Z; s_files : list file; s_mem : M
}.

(** The literals 1e-14 and 1e-12. *)
Definition eps_end : T := ndiv n1 (nZ (10 ^ 14)).
Definition eps_fuzzy : T := ndiv n1 (nZ (10 ^ 12)).

(** SolverBase.cpp:171-176 [finished] *)
Definition finished (s : sol) : bool :=
  nleb (nsub (c_tEnd c) eps_end) (s_t s) || (c_nStepmax c <=? Z.of_nat (s_it s)).

(** SolverBase.cpp:240-265 [should_save_solution] *)
Definition should_save (s : sol) : bool :=
  let interval := ndiv (c_tEnd c) (nZ (c_nOutput c)) in
  (c_nOutput c <? 0) ||
  nltb interval (nsub (s_t s) (nmul (nZ (s_saved s - 1)) interval)) ||
  nltb (nabs (nsub (s_t s) (c_tEnd c))) eps_fuzzy.

(** SolverBase.cpp:210-219 [save_solution] and SolverHydroMuscl.h:749-762 *)
Definition save (s : sol) : sol :=
  mksol (s_t s) (s_dt s) (s_it s) (s_saved s + 1)
        (s_files s ++ [mkfile (s_saved s) (s_t s) (current P (s_it s) (s_mem s))]) (s_mem s).

(** SolverBase.cpp:149-152 *)
Definition clamp (t d : T) : T := if nltb (c_tEnd c) (nadd t d) then nsub (c_tEnd c) t else d.

(** SolverHydroMuscl.h:652-671: output before the step. *)
Definition maybe_save (s : sol) : sol := if enable_output c && should_save s then save s else s.

(** SolverBase.cpp:181-195 [next_iteration] and SolverHydroMuscl.h:635-679
    [next_iteration_impl].  [m_iteration % m_nlog] needs nlog <> 0. *)
Definition next (s s' : sol) : Prop :=
  c_nlog c <> 0 /\
  let s1 := maybe_save s in
  exists m1 d m2,
    before P (s_it s1) (s_mem s1) m1 /\
    local_dt P (s_it s1) m1 d /\
    let dt := clamp (s_t s1) d in
    after P dt (s_it s1) m1 m2 /\
    s' = mksol (nadd (s_t s1) dt) dt (S (s_it s1)) (s_saved s1) (s_files s1) m2.

(** main.cpp:126-131: [while (!finished()) next_iteration()].  The list records
    the states found at the loop head, the last one included. *)
Inductive loop : sol -> list sol -> sol -> Prop :=
| loop_done s : finished s = true -> loop s [s] s
| loop_step s s1 tr s' : finished s = false -> next s s1 -> loop s1 tr s' -> loop s (s :: tr) s'.

(** main.cpp:117-138 *)
Definition main_save (s : sol) : sol := if c_nOutput c =? 0 then s else save s.
Definition main (s0 : sol) (tr : list sol) (s' : sol) : Prop :=
  exists s1, loop (main_save s0) tr s1 /\ s' = main_save s1.

(** State left by the constructor (SolverBase.cpp:22-45; SolverHydroMuscl.h:277-285):
    iteration 0, no file, time [t0]; [saved] is 0 except in a restarted run. *)
Definition start (t0 : T) (saved : Z) (m : M) (s : sol) : Prop :=
  s_t s = t0 /\ s_it s = O /\ s_saved s = saved /\ s_files s = [] /\ s_mem s = m.

End Driver.

Arguments mkmachine {T M D}. Arguments before {T M D}. Arguments local_dt {T M D}.
Arguments after {T M D}. Arguments current {T M D}. Arguments machine : clear implicits.
