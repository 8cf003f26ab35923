# Formal model of euler_kokkos in Rocq (Coq 8.16.1)

Status: design, written before the proofs; updated as the model grows.  The
up-to-date list of theorems per property is in `MANIFEST.json`.

## 1. What is modelled, and how

All paths below are relative to `/repo/src`.

**Arithmetic.** Numeric kernels are Gallina functions over a record `Num T`
of operations (`+ - * /`, `sqrt`, `fabs`, `fmin`, `fmax`, comparisons,
literals) *without laws*.  A theorem stated for every `Num T` therefore holds
for IEEE doubles (any rounding) as well: these are the "bit for bit" results
(schedule independence, implementation 0 = implementation 1, distributed =
serial, translation invariance, in-bounds, initialised).  Physics laws
(conservation, consistency, positivity, TVD, div B) are stated for the
instance `Num R` (stdlib reals), i.e. in exact arithmetic.

**Memory and parallelism.** A Kokkos kernel is a finite list of work items.
The body of a work item is a *program* (`prog`): a tree of single memory
operations (read, write, atomic add, atomic subtract), plus a distinct `Crash`
outcome (use of an uninitialised value).  An execution of a kernel is *any*
interleaving of single memory operations of all work items.  An access outside
the extents of its array is a distinct faulting outcome.  `Kokkos::View`s are
functions from locations (array, i, j, k, variable) to `T`; `parallel_reduce`
is any bracketing/permutation of the join.  Weak-memory effects are not
modelled (the store-type kernels are proved race free, and for race-free
programs C++ guarantees sequentially consistent behaviour; atomics are modelled
as indivisible).

**MPI.** Every process has its own memory and runs a list of actions (kernel,
`MPI_Sendrecv`, barrier); processes interleave arbitrarily.  `MPI_Sendrecv`
posts its message, receives the oldest message of its source and tag, and
returns when its own message has been buffered by the library or received; an
arbitrary policy decides which messages are buffered.  Messages between two
processes with the same tag are delivered in order.  Cartesian topology is the
row-major one of the MPI standard, without reordering.

**Driver.** The main loop, time-step clamp, stop test, output schedule and the
two-buffer alternation are a state machine over an abstract numerical step.

**Text and files.** INI parsing is modelled character by character; VTK image
output as the list of bytes-blocks and offsets with explicit 32-bit wrap;
Numbers are read by models of strtol, strtof (correct rounding to binary32) and the
`operator<<` of long and float; 2 GB files and non-C locales are not modelled.
HDF5 save/load as the copy loops of the program (HDF5 itself is trusted to
return what was written).  The XDMF index is modelled line by line.

## 2. Files

| files (rocq/theories) | contents |
|----|----|
| Num, Exec, Grid | arithmetic without laws; kernels, schedules, faults; index maps and arrays |
| Boundaries | serial ghost filling (model); BoundariesSpec: images and kinds (spec) |
| HydroNum, Kernels, Hydro2D, Hydro3D | hydro numerics and kernels (model); Hydro2DSpec, Hydro3DSpec, EulerSpec, HancockSpec: the scheme as functions of fields, textbook definitions (spec) |
| MhdNum, Mhd3DNum, Mhd2D, Mhd3D | MHD numerics, 2D and 3D kernels (model); Mhd2DSpec, Mhd3DSpec, MhdSpec, MhdFanSpec, MhdSymSpec, MhdHancockSpec: the scheme as functions of fields, ideal MHD, fans of jumps, symmetries, half-step predictor (spec) |
| TimeStep, Driver, HydroMachine, MhdMachine, Mhd3DMachine | time step reduction, main loop, two buffers, files (model and one-state spec) |
| MpiRun, Halo, HydroMpi, MhdMpi | message passing, process grid, halo exchange, distributed hydro and MHD solvers (model) |
| Config, Params, ProblemParams | parameter file, its settings, choice of the solver, geometry, parameters of the problems (model); ConfigSpec: what a file means, DecimalSpec: decimal numbers and the nearest float (spec) |
| Program, Shipped | the serial program from the text of the parameter file to the files it writes (model); the texts of /repo/settings |
| Vtk | image output, bytes of the files (model); VtkSpec: what the files must contain (spec) |
| Hdf5 | checkpoint files, restart, restart on a finer mesh (model) |
| Hdf5Mpi | checkpoint files written and read by all processes together (model) |
| Xdmf | index of the checkpoint files (model) |
| XdmfSpec | reader of the index, paths (specification) |
| EulerEq | the header EulerEquations.h, included nowhere (model); EulerEqSpec: ideal gas, flux, derivative of a flux, viscous stress (spec) |
| Wedge | WedgeParams.h and BoundariesFunctorsWedge.h, launched nowhere (model; launched here as the other boundary functors, its getFloat without rounding to single precision) |
| Timers | OpenMPTimer.cpp, where the solvers start and stop timers, solver_utils.h (model) |
| Session | GlobalMpiSession, ParallelEnv, ownership of communicators; what MPI and Kokkos allow (model) |
| Init | initial conditions of the four solvers (model); InitSpec: documented gas of each problem, SteadySpec: stationary Euler equations (spec) |
| RiemannConfig | states of the four-quadrant problem (model); RiemannConfigSpec: waves of the published configurations (spec) |
| Binary64, Binary64Valid | executable IEEE binary64 instance of the arithmetic; the same on valid numbers only, proved equal to Flocq's operations, with x * 1.0 = x (`NumOne`), so that every theorem for all `Num`/`NumOne` arithmetics covers binary64 |
| *Facts, *Fill, *Step, *Run, *Laws, *Axes, *Fan, *Sym, *Swap, *Mirror, Sums, Determ, Atomics, Doomed*, TwoShock | proofs |
| Prop*.v | property theorems, with `Print Assumptions` and an example meeting the hypotheses |

## 3. Properties and proofs

| id | modelled / how proved |
|----|----|
| C01 | generic theorem: race-free pools of `prog` have one final store for all interleavings (invariant over small steps); footprint lemmas per kernel |
| C02 | generic theorem: in-bounds footprints never fault; footprint lemmas per kernel, all sizes |
| C03 | each face pass characterised as a store transformer; composition proved equal to the per-axis image map, all sizes/BCs |
| C04 | corollary of C03 (image of a cell is physical) |
| C05 | small-step semantics of P processes with FIFO channels; progress + unique result by invariant; hydro and MHD steps and runs |
| C06 | window invariant: after each direction the local array is the window of the serial global array; composition of directions; the step from a window is the global step; hydro and MHD runs with their own reduced time steps, in exact arithmetic and, because rounded division is monotone, in binary64 as well (PropMpiDouble.v) |
| C07 | pack then unpack as list/array functions, index arithmetic by lia/nia |
| C08 | rank/coordinates bijection; neighbour inverse; case analysis |
| C09 | telescoping sums over R for interior cells + periodic fluxes agree at both ends; induction over steps |
| C10 | mirror-symmetric reconstruction + symmetric Riemann solver gives zero mass/energy flux; for the two-shock solver the Newton iteration against the mirror image is followed in closed form (TwoShock.v) |
| C11 | value of each cell after each kernel sequence characterised; equality generic in `Num` (0 vs 1), in R for 2 |
| C12 | generic theorem on commuting atomic updates; refutation for rounding arithmetic with two schedules |
| C13 | state machine with two buffers refines single-buffer machine, induction on steps |
| C14 | induction on runs over R; step bound as measure |
| C15 | trace of the driver state machine: induction on runs |
| C16 | max over any reduction tree; bound per cell; Allreduce MIN |
| C17 | field arithmetic over R |
| C18 | case analysis over R |
| C19-C21 | algebra over R (approx: fixed point of the Newton iteration at equal states; which side of which wave the interface lies on, C21_two_shock) |
| C22 | flux dispatch returns `option`; refutation with witnesses where it is `None` |
| C23 | consistency + zero slopes, induction on steps |
| C24 | field arithmetic over R |
| C25 | discrete curl/divergence identity over R; atomics via C12 |
| C26-C27 | algebra / case analysis over R |
| C28 | as C11; refutations with witnesses |
| C29 | computation; refutation for the 2D out-of-plane component |
| C30-C31 | string functions, induction on lines/characters; printing of reals by the decimal exponent and rounding error of the printed digits (PropSettings.v) |
| C32 | sums over lists; refutation with 32-bit wrap witness |
| C33 | round trip of copy loops; bisimulation between restarted and uninterrupted machine |
| C34 | div/mod arithmetic + R algebra |
| C35 | div/mod arithmetic |
| C36 | field arithmetic, partition by div/mod |
| C37-C38 | symmetry lemmas on kernels |
| C39 | two stores agreeing on the stencil give equal cell value |
| C40 | finite map lookup over all strings |
| C41 | algebra over R on the HLLC and two-shock star states |
| C42 | transposed fields: every kernel commutes with exchanging two axes |
| C43 | spec by derivatives of the conserved quantities and fluxes; existence and uniqueness of the time derivative, then field arithmetic |
| C45 | as C39 |
| C44 | spec by fans of Rankine-Hugoniot jumps; algebra over R |
| C47 | spec by fans of Rankine-Hugoniot jumps of ideal MHD (MhdFanSpec.v); algebra over R |
| C48-C49 | symmetry maps (MhdSymSpec.v); the solver rewritten as functions of each side |
| C50 | spec by derivatives of the conserved quantities and fluxes of ideal MHD (MhdHancockSpec.v); existence and uniqueness of the time derivative, then field arithmetic for each of the 8 (2D) and 18 (3D) states |
| C51, C53 | initialisation kernels as lists of stores per cell (Init*.v); `parallel_for_spec`; positions through `centre` of Params.v; libm functions abstract |
| C52, C54, C55 | real instance with the stdlib's sin, cos, exp, ln; spec InitSpec.v gives the documented primitive state by position; the solver's own `prim` conversions applied to the arrays |
| C56 | parameter reading as functions of the parsed file (Config.v); table of keys, defaults and places as spec; from the text of the file to the member, by C30; midpoints by Flocq's rounding theorems |
| C57 | whole program as a relation from the text of the parameter file to the list of files written (Program.v); composition of C30, C56, C51, C13, C14, C31; the time step in double is the same in every reduction order because no operand is NaN or a zero of the other sign (SignFacts.v); the version by truncation of the float (PropSettings.v); hypotheses decided by computation for the files of /repo/settings (Shipped.v) |
| C58 | the switch as a list of cases with their assignments in source order (RiemannConfig.v); wave relations of the published list (RiemannConfigSpec.v), checked case by case after a proof that every other number selects the default; initial state by C52 |
| C59 | collective write as a relation: every element of the file has the value of one of the processes that select it (Hdf5Mpi.v); the boxes of the processes cover the file and agree with the serial file; the box read by a process is a file of its own, so C33 and C34 apply; restarted runs by C06 |
| C60 | text written line by line (Xdmf.v), read back by a small reader (XdmfSpec.v); induction over the grids; compared with the names and sizes of Hdf5.v and Hdf5Mpi.v and with the files of the run (Driver.v) |
| C61 | the functions over R, 2D and 3D; field identities; the Jacobian by differentiating the flux along a line of states, through the amplitudes of the waves |
| C62 | every function of the scheme commutes with the mirror (Hydro2DMirror.v, Hydro3DMirror.v); two runs in step whose cells have pairwise the same signal speeds, so the reduced time steps are equal; the same argument carries whole runs under exchange of axes (C38, C42) and translations (C37) |
| C63 | the functor as race-free kernels, four faces one after the other, any schedule; the front as a plane moving along its normal; jump conditions with the fluxes of EulerEqSpec.v |
| C64 | the starts and stops of a run as a list, read against any non-decreasing clock; invariant between iterations, by induction on their number; tied to the runs of Driver.v; integer products with overflow |
| C65 | libraries as state machines in which an illegal call has no result; invariant of a living environment, by induction on its uses |
| C46 | files as character lists; boxes of the pieces by rank/coordinates bijection |

## 4. Claims of the code or its documentation that are refuted

Theorems named `..._refuted` exhibit a concrete case.

* `C03_narrow_mesh_refuted`: fewer cells than ghosts.
* `C06_nan_block_refuted`: a process whose cells all hold NaN makes the common time step
  of a distributed run negative; the serial run of the same state has a positive one.
* `C06_unknown_code_refuted`: an undocumented boundary code acts as periodic in a
  serial run and as block-wise periodic in a distributed run.
* `C11_3d_gravity_predictor_refuted`: 3D implementation 1 does not apply the gravity
  predictor to the upper state of faces normal to z; implementations 0 and 2 do.
* `C12_schedule_dependent_binary64_refuted`: atomic accumulation of implementation 2
  depends on the schedule in binary64.
* `C14_nlog_zero_refuted`, `C14_binary64_overshoot_refuted`: nlog = 0 divides by zero;
  rounding can put the last time one ulp beyond tEnd.
* `C22_*_refuted`: uninitialised flux (hlld in 2D; hll, hlld in 3D) or slope
  (undocumented slope types) is used; for MHD, riemann = approx (the default) and
  hllc compute no flux, and slope types other than 1 and 2 (also 0) no slopes (2D, and
  version 2 in 3D).
* `C26_hlld_switch_on_refuted`: HLLD returns NaN for equal states when the field is along
  the axis and the Alfven speed is at least the speed of sound.
* `C27_zero_speed_refuted`, `C27_binary64_leak_refuted`: a zero wave speed is selected
  differently from the documented case analysis; an infinity in an unselected region
  makes the edge EMF NaN.
* `C28_mhd3d_version_2_refuted`: 3D MHD implementation 2 reads the upper neighbour for
  both sides of the slope along z of the face-centred field, so that slope vanishes;
  after one binary64 step Bx differs by more than 1/20 from implementation 0.
* `C29_out_of_plane_halved_refuted`, `C29_round_trip_2d_refuted`: in 2D the out-of-plane
  magnetic field is averaged with zero, so the scheme uses half of it and the missing
  magnetic energy appears as pressure.
* `C30_dotted_section_refuted`: [a.b] c and [a] b.c are one setting.
  `C30_indented_comment_refuted`, `C30_comment_as_value_refuted`: an indented comment
  replaces the value above it; after an empty value the comment is the value.
  `C30_malformed_integer_refuted`: 1e3 is read as 1, 0100 as 64.
  `C30_set_real_refuted`: reals are stored with six digits.
* `C31_long_line_refuted`: a line longer than 199 characters is read differently by the
  serial and the distributed build.
* `C32_overflow_refuted`: when variable number times cells reaches 2^31 the declared
  offset wraps and is wrong.
* `C46_pieces_2D_refuted`: in 2D the header gives every piece one layer of cells in z
  (0 1) while the whole extent and the piece files say 0 0.
  `C46_debug_name_refuted`: with a debug name the header names files that do not exist.
* `C33_gravity_lost_refuted`: the gravity field is in no file and is zero after a restart.
  `C33_output_every_step_refuted`: with one output per step the restarted run writes the
  checkpoint again under the number of the next step.
  `C33_reset_time_refuted`: resetting the time keeps the file number, so no output is
  written until the time of that number.
  `C33_restart_without_reader_refuted`: a restart file whose name does not end in .h5, or
  a build without HDF5, gives a run that starts silently from zeros.
* `C34_no_ghosts_refuted`: upscaling a file without ghosts reads memory never written.
  `C34_stale_ghosts_refuted`: the ghosts in the files of version 0 are one step old, so
  after an upscaled restart the divergence of the last columns is not their parent's.
  `C34_pressure_refuted`: energies are copied but not the magnetic field at the centre
  of the cells, so pressures change.
* `C47_hlld_cutoff_refuted`: HLLD's test for a degenerate star state compares the wrong
  quantity with one; it also holds for ordinary states, whose flux then belongs to no jump.
  `C47_hlld_order_refuted`: the Alfven wave can run ahead of the fast wave.
* `C48_hlld_mirror_refuted`: when it does, reversing the axis changes the HLLD flux.
* `C51_rayleigh_taylor_without_gravity_refuted`: rayleigh_taylor without the gravity field
  stores outside its (empty) array.  `C51_brio_wu_direction_refuted`: a direction above 2
  stores outside the state.  `C51_kelvin_helmholtz_sine_refuted`: the hydro solvers assign
  nothing for the sine perturbation.  `C51_mhd_not_assigned_refuted`: unassigned are the z
  momentum of 2D MHD Kelvin-Helmholtz, the field of its random variant in 3D, the energy
  of Orszag-Tang in the last row and column.
* `C52_implode_velocity_refuted`, `C52_implode3d_velocity_refuted`: implode stores the
  velocity as momentum, so the gas has velocity v/rho.
  `C52_rayleigh_taylor_energy_refuted`, `C52_rayleigh_taylor3d_energy_refuted`: the energy
  lacks the kinetic part, so the pressure is too low.
  `C52_gresho3d_refuted`: the 3D Gresho vortex has a z velocity equal to its y velocity.
  `C52_mhd_implode_refuted`, `C52_mhd3d_implode_refuted`, `C52_rotor3d_refuted`: velocity
  stored as momentum.  `C52_rotor_refuted`: the 2D rotor turns too fast inside r0 (factor
  of the transition, above one there).  `C52_mhd_blast_refuted`: with a z field in 2D the
  solver sees half of it and a higher pressure.  `C52_field_loop_refuted`: the 2D loop
  moves along z but its energy leaves that out, so the pressure is too low.
* `C53_brio_wu_z_refuted`: the z coordinate of 3D Brio-Wu uses the number of cells in y.
  `C53_field_loop_momentum_refuted`, `C53_field_loop_energy_refuted`: the z momentum of the
  field loop uses local sizes, and its energy at the edge of a block reads ghosts that the
  initialisation never assigned.
* `C54_blast_refuted`: blast with different fields inside and outside starts with a
  divergence on the cells of the circle.
* `C55_gresho_refuted`: the pressure of the Gresho vortex balances a density of one, so with
  any other density the vortex is not in equilibrium.  `C55_rayleigh_taylor_refuted`: the
  pressure is one at the origin of the coordinates on both sides, so it jumps at the
  surface unless the surface goes through the origin.
* `C56_blast_field_refuted`: BlastParams ignores the keys by_in and by_out, reads bz_in and
  bz_out into by, and never assigns bz (the MHD blast starts from whatever the memory held).
  `C56_blast_radius_refuted`: the default radius is a tenth of the middle of the domain, not
  of its width, so it is zero on a domain centred at the origin.
* `C58_configuration_6_refuted`, `C58_configuration_10_refuted`: two mistyped states
  (initRiemannConfig2d.cpp:149, 249) make a quadrant pair no contact, respectively no
  rarefaction.  `C58_configuration_19_refuted`: case 18 has no break, so number 18 gives
  configuration 1.  `C58_octants_4_refuted`: the 3D configuration 4 favours one axis.
* `C59_stale_ghosts_refuted`: with ghostIncluded neighbouring processes write the same
  elements of the file.  The hydro solvers save the array before its ghosts are refilled; the file may
  hold an old ghost in place of a physical cell.
* `C59_pieces_refuted`: with reassembleInFile = false and several processes along x the
  reader, which ignores the setting, announces extents that are not those of the file.
* `C60_directory_refuted`: the index is opened in the current directory while the files go
  to output/outputDir, and its references do not contain the directory.
  `C60_cells_refuted`: the sizes of the topology, which XDMF takes as numbers of nodes, are
  those of the cell-centred values.  `C60_single_step_refuted`: with singleStep the loop
  runs over two steps.  (The index also gives the number of the file as its time.)
* `C61_sound_refuted`: compute_speed_of_sound returns gamma p / rho, the square of the speed
  of sound.  (The header also names an axis IT that is declared nowhere; it is read as IY.)
* `C64_io_percentage_refuted`: the outputs before and after the main loop count as output
  time but not as total time, so the printed percentage has no bound.  (The printed rate
  counts ghost cells: `C64_rate`.)
* `C65_second_refuted`: after one environment has ended a second one takes MPI to be running,
  because MPI_Initialized stays true.
* `C10_any_speed_refuted`, `C20_mirror_two_shock_refuted`: in exact arithmetic the ten Newton
  iterations of the two-shock solver stop short of the pressure behind the shock when the gas is
  fast enough; mass then crosses a wall and the solver is not mirror symmetric.  The
  gas of the counterexample is faster than a double can hold; up to a Mach number of
  200000 / (gamma + 1) the claim is proved.
* `C43_unequal_cells_refuted`: on cells with dx <> dy the predictor divides every
  derivative by the size across the face.

## 5. Trusted base

* Coq 8.16.1 kernel, including `vm_compute`.
* The transcription of the C++ into Gallina (each definition cites file and lines).
* Axioms, as printed by `Print Assumptions` (both groups are generated from it):

<!-- axioms -->

No axiom (200 theorems):
C01_same_arrays_under_every_schedule, C01_3d_same_arrays_under_every_schedule,
C01_mhd_same_arrays_under_every_schedule, C01_mhd_store_kernels,
C01_mhd3d_same_arrays_under_every_schedule, C01_mhd3d_store_kernels,
C02_fill_in_bounds_2d, C02_fill_in_bounds_3d, C02_steps_in_bounds, C02_3d_steps_in_bounds,
C02_mhd_steps_in_bounds, C02_mhd3d_steps_in_bounds, C03_fill_2d, C03_fill_3d,
C03_narrow_mesh_refuted, C04_depends_on_physical_cells_2d,
C04_depends_on_physical_cells_3d, C04_idempotent_2d, C04_idempotent_3d,
C05_exchange_completes_2d, C05_exchange_completes_3d, C05_step_completes_2d,
C05_step_completes_3d, C05_pairing_2d, C05_pairing_3d, C05_runs_complete_2d,
C05_runs_complete_3d, C05_mhd_step_completes_2d, C05_mhd_step_completes_3d,
C05_mhd_runs_complete_2d, C05_mhd_runs_complete_3d, C06_ghosts_2d, C06_ghosts_3d,
C06_steps_2d, C06_steps_3d, C06_mhd_steps_2d, C06_mhd_steps_3d, C07_border_moves_2d,
C07_border_moves_3d, C07_each_ghost_once_2d, C07_each_ghost_once_3d, C08_topology,
C11_versions_0_and_1_bit_identical, C11_3d_versions_0_and_1_bit_identical,
C11_3d_gravity_predictor_refuted, C12_each_flux_once,
C12_schedule_dependent_binary64_refuted, C12_3d_each_flux_once,
C12_mhd_each_contribution_once, C12_mhd_each_contribution_once_v2,
C12_mhd3d_each_contribution_once, C12_mhd3d_each_contribution_once_v2,
C13_two_buffers_act_as_one_state_2d, C13_two_buffers_act_as_one_state_3d,
C13_mhd_two_buffers_act_as_one_state, C13_mhd3d_two_buffers_act_as_one_state, C14_stops,
C14_runs_complete_2d, C14_runs_complete_3d, C14_mhd_runs_complete, C14_nlog_zero_refuted,
C14_binary64_overshoot_refuted, C14_mhd3d_runs_complete, C15_files, C15_disabled_no_file,
C16_order_independent_binary64_2d, C16_order_independent_binary64_3d,
C16_mhd_order_independent_binary64, C16_mhd3d_order_independent_binary64, C22_defined_2d,
C22_hlld_refuted, C22_slope_type_refuted, C22_defined_3d, C22_3d_hll_hlld_refuted,
C22_3d_slope_type_refuted, C22_mhd_defined, C22_mhd_approx_hllc_refuted,
C22_mhd_slope_type_refuted, C22_mhd3d_approx_hllc_refuted, C22_mhd3d_slope_type_refuted,
C26_hlld_switch_on_refuted, C27_binary64_leak_refuted, C30_every_file_has_a_meaning,
C30_last_definition_wins, C30_first_wrong_line, C30_case_blind, C30_integers, C30_reals,
C30_booleans, C30_set_then_get, C30_all_processes_agree, C30_dotted_section_refuted,
C30_indented_comment_refuted, C30_comment_as_value_refuted, C30_malformed_integer_refuted,
C30_set_real_refuted, C31_file_and_buffer_agree, C31_longer_lines_split,
C31_long_line_refuted, C32_raw_2D, C32_text_2D, C32_raw_3D, C32_text_3D,
C32_overflow_refuted, C32_one_file_per_output, C33_round_trip, C33_restart_2d,
C33_restart_3d, C33_restart_mhd, C33_restart_from_first_file,
C33_output_every_step_refuted, C33_restart_without_reader_refuted, C33_restart_mhd3d,
C34_reads_inside, C34_values, C34_cell_values, C34_no_ghosts_refuted,
C35_index_roundtrip_2d, C35_index_roundtrip_3d, C36_any_arithmetic, C37_translation,
C37_3d_translation, C37_mhd_translation, C37_mhd3d_translation, C39_two_cells_per_step,
C39_domain_of_dependence, C39_3d_two_cells_per_step, C39_3d_domain_of_dependence,
C40_factory, C40_main, C45_three_cells_per_mhd_step, C45_mhd_domain_of_dependence,
C45_three_cells_per_mhd3d_step, C45_mhd3d_domain_of_dependence, C46_pieces_3D,
C46_pieces_2D_refuted, C46_debug_name_refuted, C46_one_file_per_piece,
C51_problem_of_its_name, C51_hydro_in_bounds, C51_mhd_in_bounds,
C51_same_arrays_under_every_schedule, C51_hydro_every_cell_assigned,
C51_hydro3d_every_cell_assigned, C51_mhd_every_cell_assigned,
C51_mhd3d_every_cell_assigned, C51_only_the_state_changes, C51_gravity_field,
C51_rayleigh_taylor_without_gravity_refuted, C51_brio_wu_direction_refuted,
C51_kelvin_helmholtz_sine_refuted, C51_mhd_not_assigned_refuted, C53_hydro_layout_free,
C53_hydro3d_layout_free, C53_mhd_layout_free, C53_mhd3d_layout_free,
C53_brio_wu_z_refuted, C56_own_keys, C56_other_keys_do_not_matter, C56_sine_keys,
C56_blast_radius, C56_blast_field_refuted, C57_files_are_the_scheme_hydro2d,
C57_files_are_the_scheme_hydro3d, C57_files_are_the_scheme_mhd2d,
C57_files_are_the_scheme_mhd3d, C57_run_settings, C57_names, C57_image_header,
C57_other_keys_do_not_matter, C57_image_files, C57_no_image_lost, C58_defined,
C58_default, C58_octants, C58_octants_symmetric, C59_written_whole, C59_read_part,
C59_read_half, C59_all_ghosts, C59_other_decomposition, C59_restart_parts, C59_run_file,
C59_pieces, C59_stale_ghosts_refuted, C59_pieces_refuted, C60_index, C60_index_mpi,
C60_default_dir, C60_directory_refuted, C60_cells_refuted, C60_single_step_refuted,
C63_ghosts, C63_in_bounds, C64_entered, C64_run, C65_standalone, C65_library,
C65_nested, C65_second_refuted.

Axioms `ClassicalDedekindReals.sig_forall_dec`, `ClassicalDedekindReals.sig_not_dec`, `FunctionalExtensionality.functional_extensionality_dep` (167 theorems):
C06_run_exact_2d, C06_run_exact_3d, C06_unknown_code_refuted, C06_mhd_run_exact_2d,
C06_mhd_run_exact_3d, C09_conservation_periodic, C09_3d_conservation_periodic,
C09_mhd_conservation_periodic, C09_mhd3d_conservation_periodic, C10_wall_flux,
C10_closed_box, C10_closed_box_two_shock_partial, C10_3d_wall_flux, C10_3d_closed_box,
C10_3d_closed_box_two_shock_partial, C10_wall_two_shock, C10_any_speed_refuted,
C11_all_versions_exact, C11_3d_versions_exact, C12_schedule_independent_exact,
C12_3d_schedule_independent_exact, C12_mhd_schedule_independent_exact,
C12_mhd3d_schedule_independent_exact, C13_two_buffers_act_as_one_state_exact_2d,
C13_two_buffers_act_as_one_state_exact_3d, C13_mhd_two_buffers_act_as_one_state_exact,
C13_mhd3d_two_buffers_act_as_one_state_exact, C14_end_time, C14_end_time_2d,
C14_end_time_3d, C14_mhd_end_time, C14_mhd3d_end_time, C15_times_nondecreasing,
C16_cfl_bound_2d, C16_cfl_bound_3d, C16_cfl_attained, C16_all_processes_2d,
C16_all_processes_3d, C16_mhd_cfl_bound, C16_mhd_cfl_attained, C16_mhd_all_processes,
C16_mhd3d_cfl_bound, C16_mhd3d_cfl_attained, C16_mhd3d_all_processes,
C17_floors_and_sound_speed, C17_converting_back, C18_limited_slope, C19_consistent,
C20_mirror, C20_mirror_approx_partial, C20_mirror_two_shock_subsonic,
C20_mirror_two_shock_refuted, C21_upwind, C21_two_shock, C23_uniform_state_fixed,
C23_3d_uniform_state_fixed, C23_mhd_uniform_state_fixed, C23_mhd3d_uniform_state_fixed,
C24_gravity_source, C24_3d_gravity_source, C25_emf_update_keeps_divergence,
C25_run_keeps_divergence, C25_periodic_every_cell, C25_stored_values,
C25_mhd3d_emf_update_keeps_divergence, C25_mhd3d_run_keeps_divergence,
C25_mhd3d_periodic_every_cell, C25_mhd3d_stored_values, C26_flux_consistency,
C26_edge_consistency, C26_fast_speed, C27_selection, C27_selection_all_speeds,
C27_zero_speed_refuted, C28_all_versions_exact, C28_mhd3d_versions_0_and_1_exact,
C29_face_average, C29_primitive_round_trip, C29_out_of_plane_halved_refuted,
C29_round_trip_2d_refuted, C29_mhd3d_face_average, C33_restart_exact_2d,
C33_restart_exact_3d, C33_restart_exact_mhd, C33_gravity_lost_refuted,
C33_reset_time_refuted, C33_restart_exact_mhd3d, C34_totals, C34_divergence,
C34_divergence_started, C34_stale_ghosts_refuted, C34_pressure_refuted, C36_axis,
C36_mesh, C37_mhd_translation_exact, C37_mhd3d_translation_exact, C37_translation_run,
C37_3d_translation_run, C38_axis_exchange, C38_mhd_axis_exchange, C38_axis_exchange_run,
C41_contact, C42_axis_exchange_3d, C42_axis_exchange_run_3d, C43_predictor_2d,
C43_predictor_3d, C43_unequal_cells_refuted, C44_llf_fan, C44_hll_fan, C44_hllc_fan,
C47_llf_fan, C47_hll_fan, C47_hlld_fan, C47_hlld_cutoff_refuted, C47_hlld_order_refuted,
C48_transverse_exchange, C48_field_reversal, C48_mirror, C48_hlld_mirror,
C48_hlld_mirror_refuted, C49_edge_exchange, C49_edge_axes, C49_edge_field_reversal,
C49_edge_mirror, C49_edge_upwind, C49_edge_upwind3d, C50_mhd_predictor_2d,
C50_mhd_predictor_3d, C52_field_loop, C52_field_loop3d, C52_mhd_implode_refuted,
C52_mhd3d_implode_refuted, C52_rotor_refuted, C52_rotor3d_refuted, C52_mhd_blast_refuted,
C52_field_loop_refuted, C53_field_loop_momentum_refuted, C53_field_loop_energy_refuted,
C54_no_divergence, C54_no_divergence3d, C54_blast_refuted, C58_configurations,
C58_positive, C58_configuration_6, C58_configuration_10, C58_configuration_6_refuted,
C58_configuration_10_refuted, C58_configuration_19_refuted, C58_octants_4_refuted,
C61_pressure, C61_fluxes, C61_inverse, C61_jacobian, C61_viscous_flux, C61_sound_refuted,
C62_mirror_x, C62_mirror_y, C62_mirror_x_run, C62_mirror_y_run, C62_symmetric_x,
C62_symmetric_y, C62_mirror_3d, C62_mirror_3d_run, C62_symmetric_3d, C63_front,
C63_once_behind_always, C63_shock.

Axioms `ClassicalDedekindReals.sig_forall_dec`, `ClassicalDedekindReals.sig_not_dec`, `Classical_Prop.classic`, `FunctionalExtensionality.functional_extensionality_dep` (40 theorems):
C06_run_double_2d, C06_run_double_3d, C06_mhd_run_double_2d, C06_mhd_run_double_3d,
C06_nan_block_refuted, C16_order_independent_double, C28_mhd3d_version_2_refuted,
C30_decimals, C30_set_then_get_real, C52_hydro, C52_hydro3d, C52_mhd, C52_mhd3d,
C52_implode_velocity_refuted, C52_implode3d_velocity_refuted,
C52_rayleigh_taylor_energy_refuted, C52_rayleigh_taylor3d_energy_refuted,
C52_gresho3d_refuted, C55_gresho, C55_gresho_refuted, C55_vortex, C55_rayleigh_taylor,
C55_rayleigh_taylor3d, C55_rayleigh_taylor_refuted, C55_kelvin_helmholtz,
C55_kelvin_helmholtz3d, C56_centres, C56_brio_wu_place, C56_blast_radius_refuted,
C57_file_determines_output, C57_completes, C57_one_output, C57_shipped_files_run,
C57_shipped_files_one_output, C58_initial_state, C58_initial_state_3d, C59_restart_run_2d,
C59_restart_run_3d, C59_mhd_restart_run_2d, C59_mhd_restart_run_3d.

Axioms `ClassicalDedekindReals.sig_forall_dec`, `FunctionalExtensionality.functional_extensionality_dep` (9 theorems):
C57_version, C61_viscous_stress, C62_nothing_crosses_the_middle, C64_sections,
C64_adds_up, C64_percentages, C64_io_percentage_refuted, C64_rate, C64_rate_defined.
<!-- end -->

## 6. Not modelled

Floating-point rounding in the theorems stated over R; weak memory; GPU memory
management; HDF5/PnetCDF/MPI library internals (what is assumed of MPI is in
MpiRun.v, of HDF5 in Hdf5.v and Hdf5Mpi.v); the random
generator (an arbitrary argument of the initial conditions); logging.  A process that runs ahead into the
next iteration while others finish theirs is not modelled: iterations are separated
by the all-reduce of the time step.

Files of /repo/src no definition is taken from:

* utils/io/IO_PNETCDF.h (the PnetCDF writer) and the dates of utils/io/IO_common.cpp;
* utils/monitoring/CudaTimer.h and SimpleTimer;
* shared/euler_kokkos_build_info, euler_kokkos_git_info and shared/utils.cpp;
* shared/problems/JetParams.h (a parameter structure no problem reads).
