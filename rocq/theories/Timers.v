(** * Timers and the performance report

    Models /repo/src/utils/monitoring/OpenMPTimer.cpp, the places where the solvers start
    and stop their timers, and /repo/src/shared/solver_utils.h.  Times are real numbers;
    CudaTimer.h and SimpleTimer.cpp (not used by the solvers) are not modelled. *)
From Coq Require Import ZArith List Bool Reals.
Import ListNotations.
Local Open Scope R_scope.

(** SolverBase.h:35-45 *)
Inductive timer_id := TOTAL | IO | DT | PRIMITIVES | FLUXES | UPDATE | BOUNDARIES | NUM_SCHEME.
Definition timer_eqb (a b : timer_id) : bool :=
  match a, b with
  | TOTAL, TOTAL | IO, IO | DT, DT | PRIMITIVES, PRIMITIVES | FLUXES, FLUXES
  | UPDATE, UPDATE | BOUNDARIES, BOUNDARIES | NUM_SCHEME, NUM_SCHEME => true
  | _, _ => false
  end.

(** OpenMPTimer.h:39-44 *)
Record timer := mktimer { start_time : R; total_time : R }.
Definition timers := timer_id -> timer.

Inductive event := Start (t : timer_id) | Stop (t : timer_id).

(** OpenMPTimer.cpp:49-67 [start] and [stop]; [now] is what [omp_get_wtime] returns. *)
Definition act (e : event) (now : R) (s : timers) : timers :=
  match e with
  | Start t => fun x => if timer_eqb x t then mktimer now (total_time (s x)) else s x
  | Stop t => fun x => if timer_eqb x t then mktimer (start_time (s x)) (total_time (s x) + (now - start_time (s x)))
                       else s x
  end.

(** The [k]-th call of [omp_get_wtime] returns [clock k]. *)
Fixpoint acts (clock : nat -> R) (es : list event) (k : nat) (s : timers) : timers :=
  match es with
  | [] => s
  | e :: es' => acts clock es' (S k) (act e (clock k) s)
  end.

Inductive solver := Hydro (dim version : Z) | Mhd.

(** SolverHydroMuscl.h:750-762, SolverMHDMuscl.h:891-903 *)
Definition save_events : list event := [Start IO; Stop IO].

(** SolverHydroMuscl.cpp:215-297, 306-390 and SolverHydroMuscl.h:737-745;
    SolverMHDMuscl.cpp:370-454, 462-568 *)
Definition godunov_events (p : solver) : list event :=
  match p with
  | Hydro dim version =>
      [Start BOUNDARIES; Stop BOUNDARIES; Start NUM_SCHEME; Start PRIMITIVES; Stop PRIMITIVES] ++
      (if (dim =? 2)%Z && (version =? 0)%Z then [Start FLUXES; Stop FLUXES; Start UPDATE; Stop UPDATE] else []) ++
      [Stop NUM_SCHEME]
  | Mhd => [Start BOUNDARIES; Stop BOUNDARIES; Start NUM_SCHEME; Start DT; Stop DT; Stop NUM_SCHEME]
  end.

(** [next_iteration_impl], SolverHydroMuscl.h:635-679, SolverMHDMuscl.h:742-778;
    [saved]: the answer of [should_save_solution]. *)
Definition iteration_events (p : solver) (output saved : bool) : list event :=
  (if output && saved then save_events else []) ++
  (match p with Hydro _ _ => [Start DT; Stop DT] | Mhd => [] end) ++ godunov_events p.

(** main.cpp:116-138 *)
Definition main_events (p : solver) (output : bool) (saves : list bool) : list event :=
  (if output then save_events else []) ++ [Start TOTAL] ++
  flat_map (iteration_events p output) saves ++ [Stop TOTAL] ++ (if output then save_events else []).

(** SolverBase.cpp:49-57, OpenMPTimer.cpp:19-24; [born t]: when the timer was made. *)
Definition new_timers (born : timer_id -> R) : timers := fun t => mktimer (born t) 0.

(** [elapsed] of every timer at the end of a run *)
Definition elapsed (born : timer_id -> R) (clock : nat -> R) (p : solver) (output : bool) (saves : list bool)
  (t : timer_id) : R :=
  total_time (acts clock (main_events p output saves) 0 (new_timers born) t).

(** solver_utils.h:41-48 *)
Definition percentage (t_x t_tot : R) : R := 100 * t_x / t_tot.

Local Open Scope Z_scope.

(** Product of signed integers of [b] bits; overflow is undefined. *)
Definition mul_bits (b : Z) (x y : Z) : option Z :=
  let r := x * y in if (- 2 ^ (b - 1) <=? r) && (r <? 2 ^ (b - 1)) then Some r else None.

(** SolverHydroMuscl.h:182, SolverMHDMuscl.h:251: [isize], [jsize], [ksize] are [int]s. *)
Definition n_cells (dim isize jsize ksize : Z) : option Z :=
  match mul_bits 32 isize jsize with
  | Some n => if dim =? 2 then Some n else mul_bits 32 n ksize
  | None => None
  end.

(** solver_utils.h:50-51 [m_iteration * m_nCells * nProcs / t_tot * 1e-6] *)
Definition performance (dim isize jsize ksize iteration procs : Z) (t_tot : R) : option R :=
  match n_cells dim isize jsize ksize with
  | Some n => match mul_bits 64 iteration n with
              | Some a => match mul_bits 64 a procs with
                          | Some b => Some (IZR b / t_tot * (1 / 1000000))%R
                          | None => None
                          end
              | None => None
              end
  | None => None
  end.
