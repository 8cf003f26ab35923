{"id": "C01", "title": "Parallel kernels give the same arrays under every schedule", "statement": "Running any of the solver's store-type grid kernels (ghost filling, primitive conversion, slopes, flux storage, cell update, gravity source, electric field, EMF storage) yields bit-identical arrays whatever the order and interleaving in which the execution back-end runs the per-cell work items.", "quantifier": "all grid sizes, all array contents, all interleavings of the individual memory accesses of all work items", "why_tests_cant": "A test observes one schedule of one back-end; a data race only shows under some interleavings.", "anchors": ["src/shared/BoundariesFunctors.h: MakeBoundariesFunctor2D/3D(_MHD)", "src/muscl/HydroRunFunctors2D.h: ConvertToPrimitivesFunctor2D, ComputeAndStoreFluxesFunctor2D, UpdateFunctor2D", "src/muscl/HydroRunFunctors3D.h", "src/muscl/MHDRunFunctors2D.h: UpdateEmfFunctor2D, ComputeEmfAndStoreFunctor2D"]}
{"id": "C02", "title": "No kernel reads or writes outside its arrays", "statement": "During a time step no work item of any grid kernel reads or writes a cell outside the allocated array, for every mesh with at least one interior cell per direction (ghost filling: at least as many interior cells as ghost layers when the boundary is reflecting or periodic).", "quantifier": "all mesh sizes, all work items, all array contents, all interleavings", "why_tests_cant": "Tests use a handful of mesh sizes; release builds do not check bounds.", "anchors": ["src/muscl/HydroRunFunctors2D.h", "src/muscl/HydroRunFunctors3D.h", "src/muscl/MHDRunFunctors2D.h", "src/shared/BoundariesFunctors.h"]}
{"id": "C03", "title": "Ghost cells hold exactly what the boundary type prescribes", "statement": "After the ghost-filling call, every ghost cell (corners and edges included) equals the value at its image in the physical domain: wrapped cell for periodic faces, mirrored cell with negated normal momentum for reflecting faces, nearest interior cell for absorbing faces, composed per direction; physical cells are unchanged.", "quantifier": "all mesh sizes, all combinations of the boundary types on the faces, all field contents, 2D and 3D", "why_tests_cant": "4^6 face combinations times all sizes and contents; corner filling depends on the order of the passes.", "anchors": ["src/shared/BoundariesFunctors.h", "src/shared/SolverBase.cpp: make_boundaries_serial, make_boundary"]}
{"id": "C04", "title": "Ghost filling is idempotent and depends on physical cells only", "statement": "Filling ghosts twice equals filling them once, and two arrays that agree on physical cells agree everywhere after ghost filling (no stale ghost value survives).", "quantifier": "all mesh sizes, boundary types, field contents", "why_tests_cant": "Stale values are only visible for particular initial ghost contents.", "anchors": ["src/shared/SolverBase.cpp: make_boundaries_serial", "src/shared/BoundariesFunctors.h"]}
{"id": "C05", "title": "Halo exchange always completes and pairs the right messages", "statement": "With a periodic Cartesian topology every process's pair of send/receive calls in each direction completes without deadlock, and the buffer received for the low (high) side is the one its low (high) neighbour packed for this process, including when a process is its own neighbour or both neighbours are the same process (1 or 2 processes along the direction), although all messages carry the same tag.", "quantifier": "all process-grid shapes, all buffer contents, all interleavings of the processes and of message deliveries", "why_tests_cant": "Message races depend on timing and on degenerate process grids.", "anchors": ["src/shared/SolverBase.cpp: transfer_boundaries_2d, transfer_boundaries_3d", "src/utils/mpi/MpiCommCart.h: getNeighborRank"]}
{"id": "C06", "title": "Distributed run equals serial run", "statement": "Splitting the global mesh over mx*my(*mz) processes and running the distributed ghost filling gives every process exactly the window (ghosts included) it would see in the ghost-filled global serial array; hence one distributed time step equals one serial time step cell for cell, bit for bit.", "quantifier": "all process grids, local mesh sizes, boundary-type combinations, field contents", "why_tests_cant": "The product of process grids, sizes and boundary types cannot be enumerated.", "anchors": ["src/shared/SolverBase.cpp: make_boundaries_mpi, copy_boundaries, copy_boundaries_back", "src/shared/mpiBorderUtils.h", "src/shared/HydroParams.cpp: setup_mpi"]}
{"id": "C07", "title": "Border pack/unpack moves each border cell to the right ghost cell", "statement": "Packing a border on the sender and unpacking it on the receiver copies, for each variable, the sender's border layer of physical cells to the receiver's ghost layer on the opposite side, each ghost cell exactly once, and changes nothing else.", "quantifier": "all extents, ghost widths, sides, contents, both memory layouts", "why_tests_cant": "Index arithmetic over all sizes.", "anchors": ["src/shared/mpiBorderUtils.h: CopyDataArray_To_BorderBuf, CopyBorderBuf_To_DataArray"]}
{"id": "C08", "title": "Process topology and per-process boundary types", "statement": "A process uses the user's boundary type on a side exactly when it touches the domain border on that side and otherwise exchanges with its neighbour; the neighbour relation is symmetric (my high neighbour's low neighbour is me) and wraps around the domain.", "quantifier": "all process grids and ranks", "why_tests_cant": "All grid shapes, including 1 process per direction.", "anchors": ["src/shared/HydroParams.cpp: setup_mpi", "src/utils/mpi/MpiCommCart.h", "src/utils/mpi/MpiCommCart.cpp"]}
{"id": "C09", "title": "Mass, momentum and energy are conserved on periodic domains", "statement": "With periodic boundaries and no gravity, the sum over physical cells of density, each momentum component and total energy after any number of time steps equals its initial value in exact arithmetic, whichever Riemann solver, limiter and implementation version is used.", "quantifier": "all mesh sizes, initial states, time-step sequences, solvers, numbers of steps, schedules", "why_tests_cant": "Infinite state space and number of steps; rounding hides small leaks in tests.", "anchors": ["src/muscl/HydroRunFunctors2D.h: ComputeAndStoreFluxesFunctor2D, UpdateFunctor2D, ComputeAllFluxesAndUpdateFunctor2D", "src/muscl/HydroRunFunctors3D.h", "src/muscl/SolverHydroMuscl.cpp: godunov_unsplit_impl"]}
{"id": "C10", "title": "Reflecting walls leak neither mass nor energy", "statement": "At a reflecting wall the mass flux and the energy flux computed by the scheme vanish in exact arithmetic, so a closed box keeps its total mass and energy forever.", "quantifier": "all states next to the wall, all limiters, each Riemann solver", "why_tests_cant": "Holds for all states or not at all.", "anchors": ["src/shared/RiemannSolvers.h", "src/muscl/HydroBaseFunctor2D.h: trace_unsplit_2d_along_dir", "src/shared/BoundariesFunctors.h"]}
{"id": "C11", "title": "The implementation versions of the hydro scheme compute the same step", "statement": "Implementation versions 0 and 1 produce bit-identical results, and version 2 the same results in exact arithmetic, for one time step from any state, in 2D and 3D.", "quantifier": "all states, mesh sizes, parameters, schedules", "why_tests_cant": "Equality for all inputs; version 1 reuses one flux buffer for several directions.", "anchors": ["src/muscl/SolverHydroMuscl.cpp: godunov_unsplit_impl", "src/muscl/HydroRunFunctors2D.h", "src/muscl/HydroRunFunctors3D.h"]}
{"id": "C12", "title": "Atomic-update kernels are schedule independent in exact arithmetic", "statement": "For the implementation versions that accumulate fluxes with atomic adds, every interleaving yields the same cell values in exact arithmetic, each cell receiving each of its face fluxes exactly once; with floating-point rounding the result may depend on the schedule.", "quantifier": "all interleavings, sizes, states", "why_tests_cant": "Number of interleavings is exponential.", "anchors": ["src/muscl/HydroRunFunctors2D.h: ComputeAllFluxesAndUpdateFunctor2D", "src/muscl/HydroRunFunctors3D.h: ComputeAllFluxesAndUpdateFunctor3D", "src/muscl/MHDRunFunctors2D.h: ComputeFluxesAndUpdateFunctor2D_MHD, ComputeEmfAndUpdateFunctor2D"]}
{"id": "C13", "title": "The latest state is the one advanced, used for the time step and saved", "statement": "At every moment of a run the array that is read for the time-step size, integrated next, and written to output files is the result of the last completed step (two buffers used alternately); no completed step is lost or skipped.", "quantifier": "all run lengths and output schedules", "why_tests_cant": "Parity of the iteration counter; unbounded histories.", "anchors": ["src/muscl/SolverHydroMuscl.h: compute_dt_local, godunov_unsplit, save_solution_impl", "src/muscl/SolverMHDMuscl.h"]}
{"id": "C14", "title": "The run never overshoots the end time and always stops", "statement": "Simulated time is non-decreasing, never exceeds the requested end time (when started before it), the run stops after at most the configured number of steps, and when it stops earlier the time equals the end time up to 1e-14; the final step is shortened to land on the end time.", "quantifier": "all sequences of stable time steps, all end times and step limits", "why_tests_cant": "Unbounded executions.", "anchors": ["src/shared/SolverBase.cpp: compute_dt, finished, next_iteration", "src/main.cpp"]}
{"id": "C15", "title": "Outputs are numbered consecutively and each holds the state of its time", "statement": "Output files are numbered 0,1,2,... without gaps or overwrites within a run, the first one is the initial state and the last one the final state, the times recorded are non-decreasing, and each file holds the state at its recorded time; with output disabled no file is written.", "quantifier": "all run lengths, output counts, time-step sequences", "why_tests_cant": "Unbounded histories.", "anchors": ["src/shared/SolverBase.cpp: should_save_solution, save_solution", "src/main.cpp", "src/muscl/SolverHydroMuscl.h: next_iteration_impl"]}
{"id": "C16", "title": "The time step satisfies the CFL bound in every cell", "statement": "The time step used never exceeds cfl / (sum over directions of (sound or fast speed + |velocity|)/cell size) in any physical cell of any process, and is the same on all processes, whatever the reduction order.", "quantifier": "all states, sizes, process counts, reduction trees", "why_tests_cant": "Max over all cells of all states; reduction order varies.", "anchors": ["src/muscl/HydroRunFunctors2D.h: ComputeDtFunctor2D", "src/muscl/HydroRunFunctors3D.h: ComputeDtFunctor3D", "src/shared/SolverBase.cpp: compute_dt"]}
{"id": "C17", "title": "Primitive conversion enforces positivity and inverts the conservative variables", "statement": "Converted density and pressure are never below the configured floors (so positive), the sound speed is positive and well defined, and above the floors converting back recovers exactly the conservative variables.", "quantifier": "all conservative states, all parameters with gamma>1 and positive floors", "why_tests_cant": "Infinitely many states.", "anchors": ["src/muscl/HydroBaseFunctor2D.h: computePrimitives, eos", "src/muscl/HydroBaseFunctor3D.h: computePrimitives", "src/muscl/MHDBaseFunctor2D.h: constoprim_mhd", "src/muscl/MHDBaseFunctor3D.h: constoprim_mhd"]}
{"id": "C18", "title": "Limited slopes are total-variation diminishing", "statement": "The limited slope vanishes at local extrema, has the sign of the centred difference, never exceeds the centred difference nor slope_type times each one-sided difference, is exact on linear data, is odd under mirroring, and the face values stay within the range of the neighbouring cell values.", "quantifier": "all cell values, slope_type 1 and 2", "why_tests_cant": "Infinitely many triples.", "anchors": ["src/muscl/HydroBaseFunctor2D.h: slope_unsplit_hydro_2d_scalar", "src/muscl/HydroBaseFunctor3D.h", "src/muscl/MHDBaseFunctor2D.h", "src/muscl/MHDBaseFunctor3D.h"]}
{"id": "C19", "title": "Riemann solvers are consistent with the Euler fluxes", "statement": "When left and right states coincide each hydro Riemann solver (approx, LLF, HLL, HLLC) returns the exact Euler flux of that state.", "quantifier": "all admissible states (positive density, pressure at or above the floors)", "why_tests_cant": "Infinitely many states.", "anchors": ["src/shared/RiemannSolvers.h: riemann_llf, riemann_hll, riemann_hllc, riemann_approx, cmpflx"]}
{"id": "C20", "title": "Riemann solvers are mirror symmetric", "statement": "Exchanging left and right states and negating normal velocities negates mass, energy and transverse-momentum fluxes and keeps the normal-momentum flux.", "quantifier": "all admissible states", "why_tests_cant": "Infinitely many states; tie-breaking branches.", "anchors": ["src/shared/RiemannSolvers.h"]}
{"id": "C21", "title": "Riemann solvers upwind supersonic flow", "statement": "When all wave speeds are positive (negative) the HLL and HLLC fluxes equal the Euler flux of the left (right) state.", "quantifier": "all admissible states", "why_tests_cant": "Infinitely many states.", "anchors": ["src/shared/RiemannSolvers.h: riemann_hll, riemann_hllc"]}
{"id": "C22", "title": "Every selectable Riemann solver and slope type defines the fluxes", "statement": "For every configuration the program accepts, the flux handed to the update is computed from the two states (never left uninitialised).", "quantifier": "all solver names x dimensions x physics x slope types", "why_tests_cant": "Undefined values may look plausible in a test.", "anchors": ["src/shared/RiemannSolvers.h: riemann_hydro", "src/shared/RiemannSolvers_MHD.h: riemann_mhd", "src/muscl/HydroBaseFunctor2D.h: slope_unsplit_hydro_2d", "src/shared/HydroParams.cpp"]}
{"id": "C23", "title": "A uniform state stays uniform", "statement": "A spatially constant admissible state with periodic or absorbing boundaries is a fixed point of the time step, for any number of steps, any mesh and any implementation version.", "quantifier": "all constant states, sizes, time steps, numbers of steps", "why_tests_cant": "Infinitely many states and steps.", "anchors": ["src/muscl/SolverHydroMuscl.cpp", "src/muscl/HydroRunFunctors2D.h", "src/shared/RiemannSolvers.h"]}
{"id": "C24", "title": "The gravity source term changes momentum and kinetic energy consistently", "statement": "The gravity update adds dt times the mean density times the acceleration to momentum, leaves density and internal energy (total minus kinetic) unchanged, and touches physical cells only.", "quantifier": "all states, accelerations, time steps", "why_tests_cant": "Infinitely many states.", "anchors": ["src/muscl/HydroRunFunctors2D.h: GravitySourceTermFunctor2D", "src/muscl/HydroRunFunctors3D.h: GravitySourceTermFunctor3D"]}
{"id": "C25", "title": "Constrained transport keeps the discrete magnetic divergence", "statement": "One MHD step leaves the discrete divergence of the face-centred magnetic field of every cell whose faces are all updated exactly unchanged (exact arithmetic), for any electromotive forces; with periodic boundaries this holds in every physical cell for any number of steps.", "quantifier": "all fields, EMFs, mesh sizes, time steps, implementation versions, schedules", "why_tests_cant": "Round-off masks violations; infinitely many fields.", "anchors": ["src/muscl/MHDRunFunctors2D.h: UpdateEmfFunctor2D, ComputeEmfAndUpdateFunctor2D", "src/muscl/MHDRunFunctors3D.h: UpdateEmfFunctor3D, ComputeEmfAndUpdateFunctor3D"]}
{"id": "C26", "title": "MHD Riemann solvers and the 2D magnetic solver are consistent", "statement": "For equal inputs the MHD solvers (HLL, LLF, HLLD) return the physical MHD flux and the edge solver returns the ideal electric field u*By - v*Bx of the common state.", "quantifier": "all admissible states", "why_tests_cant": "Infinitely many states; HLLD has degenerate branches.", "anchors": ["src/shared/RiemannSolvers_MHD.h: riemann_hll, riemann_llf, riemann_hlld, mag_riemann2d_hlld, compute_emf"]}
{"id": "C27", "title": "Branch-free EMF selection equals the documented case analysis", "statement": "The arithmetic selection of the edge EMF picks exactly the region prescribed by the signs of the four wave speeds.", "quantifier": "all wave-speed sign combinations and region values", "why_tests_cant": "All reals.", "anchors": ["src/shared/RiemannSolvers_MHD.h: mag_riemann2d_hlld"]}
{"id": "C28", "title": "MHD implementation versions compute the same step", "statement": "The MHD implementation versions agree on physical cells after one step (0 and 1 in exact arithmetic); known deviations are identified with witnesses.", "quantifier": "all states, sizes, schedules", "why_tests_cant": "Equality for all inputs.", "anchors": ["src/muscl/SolverMHDMuscl.cpp: godunov_unsplit_impl", "src/muscl/MHDRunFunctors2D.h", "src/muscl/MHDRunFunctors3D.h"]}
{"id": "C29", "title": "Cell-centred magnetic field is the average of its two faces", "statement": "The primitive magnetic field used by the scheme is, per component, the average of the two face values (and in 2D the cell's own value for the out-of-plane component).", "quantifier": "all states", "why_tests_cant": "All field values.", "anchors": ["src/muscl/MHDRunFunctors2D.h: ConvertToPrimitivesFunctor2D_MHD", "src/muscl/MHDBaseFunctor2D.h: constoprim_mhd"]}
{"id": "C30", "title": "Configuration lookup semantics", "statement": "A setting is found whatever the letter case of section and key, the last definition wins, a missing or unparsable value yields the caller's default, setting then getting returns what was set, and every process obtains the same settings.", "quantifier": "all configuration files, keys, values", "why_tests_cant": "All strings.", "anchors": ["src/utils/config/inih/INIReader.cpp", "src/utils/config/ConfigMap.cpp", "src/utils/config/inih/ini.cpp"]}
{"id": "C31", "title": "File and broadcast parsing agree", "statement": "Parsing the parameter file directly (serial build) and parsing the broadcast buffer (distributed build) give the same settings for every file whose lines fit the line buffer; longer lines are split in the serial build only.", "quantifier": "all files", "why_tests_cant": "All strings.", "anchors": ["src/utils/config/inih/ini.cpp: ini_parse, ini_parse_buffer"]}
{"id": "C32", "title": "Image output offsets match the data blocks", "statement": "In the binary image output the declared offset of each variable is the exact position of its data block in the appended section and each block lists exactly the physical cells in x-fastest order, as long as the size arithmetic does not overflow.", "quantifier": "all mesh sizes and variable counts, all field contents", "why_tests_cant": "All sizes; overflow needs meshes too large for tests.", "anchors": ["src/utils/io/IO_VTK.cpp: save_VTK_2D, save_VTK_3D"]}
{"id": "C33", "title": "Checkpoint and restart", "statement": "Saving and loading a checkpoint restores the physical cells, time and output counter, and a run restarted from any checkpoint continues through exactly the same states as the uninterrupted run.", "quantifier": "all states, sizes, checkpoint instants", "why_tests_cant": "Every crash point of every run.", "anchors": ["src/utils/io/IO_HDF5.h: Save_HDF5, Load_HDF5", "src/muscl/SolverHydroMuscl.h: init_restart"]}
{"id": "C34", "title": "Upscaled restart preserves divergence and totals", "statement": "Restarting on a twice finer mesh copies cell averages (totals of mass, momentum, energy preserved), interpolates face-centred fields so that each fine cell has the divergence of its coarse parent, and reads only inside the coarse buffer.", "quantifier": "all coarse fields and even mesh sizes", "why_tests_cant": "All fields and sizes.", "anchors": ["src/utils/io/IO_HDF5.h: Load_HDF5::copy_buffer"]}
{"id": "C35", "title": "Linear index and coordinates are inverse bijections", "statement": "Converting a linear work index to cell coordinates and back is the identity and covers every cell exactly once, in both memory layouts, 2D and 3D.", "quantifier": "all extents and indices", "why_tests_cant": "All sizes.", "anchors": ["src/shared/kokkos_shared.h: index2coord, coord2index"]}
{"id": "C36", "title": "Mesh geometry", "statement": "Cell sizes tile the domain exactly; the physical cells of all processes tile the global domain without gap or overlap.", "quantifier": "all domains, mesh sizes, process grids", "why_tests_cant": "All sizes.", "anchors": ["src/shared/HydroParams.cpp: init, setup_mpi", "src/muscl/HydroInitFunctors2D.h"]}
{"id": "C37", "title": "The scheme commutes with translations on periodic domains", "statement": "Cyclically shifting the initial state by any number of cells and stepping equals stepping and then shifting, bit for bit.", "quantifier": "all states, shifts, sizes", "why_tests_cant": "All states.", "anchors": ["src/muscl/SolverHydroMuscl.cpp: godunov_unsplit_impl", "src/shared/BoundariesFunctors.h"]}
{"id": "C38", "title": "The 2D schemes treat x and y alike", "statement": "Transposing the state (exchanging axes and velocity and magnetic field components, cell sizes and boundary types) and stepping equals stepping and then transposing, in exact arithmetic.", "quantifier": "all states, sizes, parameters", "why_tests_cant": "All states; swapped arguments in one direction are easy to miss.", "anchors": ["src/muscl/HydroRunFunctors2D.h", "src/muscl/HydroBaseFunctor2D.h", "src/shared/BoundariesFunctors.h", "src/muscl/MHDRunFunctors2D.h", "src/muscl/MHDBaseFunctor2D.h", "src/shared/RiemannSolvers_MHD.h"]}
{"id": "C39", "title": "Information travels at most two cells per hydro step", "statement": "After one hydro step the value of a physical cell depends only on cells at most two away (in each direction), so changes farther away cannot affect it; two ghost layers suffice.", "quantifier": "all states, cells, sizes", "why_tests_cant": "All states.", "anchors": ["src/muscl/HydroRunFunctors2D.h: ComputeAndStoreFluxesFunctor2D", "src/muscl/SolverHydroMuscl.cpp"]}
{"id": "C40", "title": "Solver selection", "statement": "Creating a solver by name returns the registered solver for each of the four documented names and aborts for any other name.", "quantifier": "all names", "why_tests_cant": "All strings.", "anchors": ["src/shared/SolverFactory.h", "src/shared/SolverFactory.cpp"]}
{"id": "C41", "title": "Isolated contact discontinuities are resolved exactly", "statement": "When two neighbouring states have the same pressure and normal velocity, the HLLC and the approximate (two-shock) solvers return exactly the Euler flux of the upwind state, so a stationary contact discontinuity exchanges no mass or energy.", "quantifier": "all pairs of admissible states with equal pressure and normal velocity", "why_tests_cant": "A test checks a handful of density ratios and velocities; exactness over all ratios needs algebra on the star-state formulas and on the Newton fixed point.", "anchors": ["src/shared/RiemannSolvers.h:59-199", "src/shared/RiemannSolvers.h:452-560"]}
{"id": "C42", "title": "The 3D scheme treats the three axes alike", "statement": "Exchanging any two axes of the state (positions, velocity components, acceleration, cell sizes and boundary types) and stepping equals stepping and then exchanging, in exact arithmetic, for any number of steps; implementation version 1 is an exception when the gravity predictor is on, because it predicts only one side of Z faces.", "quantifier": "all states, meshes, settings, schedules, numbers of steps", "why_tests_cant": "A test compares a few problems in two orientations; the claim covers every state, every solver and every boundary combination.", "anchors": ["src/muscl/HydroRunFunctors3D.h:271-717", "src/muscl/HydroRunFunctors3D.h:1078-1425", "src/muscl/SolverHydroMuscl.cpp:300-390"]}
{"id": "C43", "title": "The half-step predictor solves the Euler equations", "statement": "On cells of equal size along every axis, the state predicted on each face of a cell is the cell value plus half the limited slope across the face, plus half a time step of the unique time derivative which the Euler equations in conservation form give for the cell value and its slopes, plus half a time step of the acceleration when the gravity predictor is on (density floored). With unequal cell sizes this fails: all derivatives are divided by the size across the face.", "quantifier": "all states of a cell and its neighbours, all faces, time steps, gravity settings, limiters; 2D and 3D", "why_tests_cant": "a wrong coefficient in the predictor only lowers the order of accuracy; runs stay stable and look plausible", "anchors": ["src/muscl/HydroBaseFunctor2D.h:216-293", "src/muscl/HydroBaseFunctor3D.h:274-389", "src/muscl/HydroRunFunctors2D.h:639-650", "src/muscl/HydroRunFunctors3D.h:489-501"]}
{"id": "C44", "title": "Interface fluxes come from jumps that respect the conservation laws", "statement": "For admissible left and right states the LLF, HLL and HLLC fluxes are the flux at x/t = 0 of a fan of constant states joining the two sides, whose jumps are ordered by speed, satisfy the Rankine-Hugoniot conditions in every component, and whose outermost speeds enclose the speeds u-c and u+c of both states; the two HLLC states have positive density, one common pressure and velocity and keep the transverse velocity of their side.", "quantifier": "all admissible pairs of states, gamma > 1, positive floors, 2D and 3D", "why_tests_cant": "solvers with a wrong sign or a wrong star state pass consistency and symmetry tests; the relation must hold for every pair of states", "anchors": ["src/shared/RiemannSolvers.h:217-568"]}
{"id": "C45", "title": "Information travels at most three cells per MHD step", "statement": "After one 2D MHD step the value of a physical cell depends only on the cells from two below to three above it in each direction, so changes farther away cannot affect it and three ghost layers suffice.", "quantifier": "all states, cells, sizes, numbers of steps", "why_tests_cant": "All states.", "anchors": ["src/muscl/MHDRunFunctors2D.h: ComputeTraceFunctor2D_MHD, ConvertToPrimitivesFunctor2D_MHD", "src/muscl/SolverMHDMuscl.cpp: godunov_unsplit_impl"]}
{"id": "C46", "title": "Distributed image output tiles the domain", "statement": "In a distributed run the header file lists one piece per process; the pieces' boxes tile the whole mesh without overlap, and each piece names the file that this process writes, whose own box is the same and whose data are that process's physical cells.", "quantifier": "all process grids, local mesh sizes, variable counts, field contents, output numbers", "why_tests_cant": "All process grids and sizes.", "anchors": ["src/utils/io/IO_VTK.cpp: save_VTK_2D_mpi, save_VTK_3D_mpi, write_pvti_header"]}
{"id": "C47", "title": "MHD interface fluxes come from jumps that respect the conservation laws", "statement": "For admissible left and right states (given their mean normal field) the LLF, HLL and HLLD fluxes are the flux at x/t = 0 of a fan of constant states joining the two sides whose jumps satisfy the Rankine-Hugoniot conditions of ideal MHD in all eight components; the outer speeds enclose u-c and u+c of both states with c the fast speed; the HLLD states have positive density, move at one contact speed under one total pressure and the two inner ones share the transverse velocity and field, and the waves are in order.", "quantifier": "all admissible pairs of states, gamma > 1", "why_tests_cant": "A wrong sign or a wrong star state passes consistency and symmetry tests; the relation must hold for every pair of states.", "anchors": ["src/shared/RiemannSolvers_MHD.h: riemann_llf, riemann_hll, riemann_hlld", "src/shared/mhd_utils.h: find_speed_fast, find_mhd_flux"]}
{"id": "C48", "title": "The MHD Riemann solvers respect the symmetries of ideal MHD", "statement": "Exchanging the two transverse axes in both states exchanges them in the flux; reversing the magnetic field of both states reverses the magnetic components of the flux; reversing the normal axis and exchanging the states gives the mirrored flux.", "quantifier": "all pairs of states, all three solvers", "why_tests_cant": "All pairs of states; a misplaced component shows only in states with all components different.", "anchors": ["src/shared/RiemannSolvers_MHD.h: riemann_llf, riemann_hll, riemann_hlld, riemann_mhd"]}
{"id": "C49", "title": "The edge solver respects the symmetries of the plane and upwinds", "statement": "Exchanging the two axes of an edge (the two states off the diagonal change places, components are exchanged), reversing the magnetic field, or reversing an axis (no outermost wave standing still) changes the sign of the electromotive force and nothing else; an edge along any axis is treated as one along z; where the flow is faster than every wave along both axes the electromotive force is the electric field of the upwind state.", "quantifier": "all four states", "why_tests_cant": "All quadruples of states; hundreds of lines with near-identical expressions.", "anchors": ["src/shared/RiemannSolvers_MHD.h:395-871 mag_riemann2d_hlld, compute_emf"]}
{"id": "C50", "title": "The MHD predictor solves ideal MHD", "statement": "On a cell whose face-centred field has no divergence, ideal MHD in conservation form determines one time derivative of the cell state from its limited slopes, and every state the predictor computes on the faces, corners and edges of the cell is the limited linear reconstruction there advanced by half a time step with that derivative; field components across a face are advanced by Faraday's law with the electric field averaged at the corners or edges, and density and pressure are floored.", "quantifier": "all fields, cells, time steps, slope types 1 and 2", "why_tests_cant": "All states; a wrong term in one of some fifty near-identical expressions only lowers the accuracy.", "anchors": ["src/muscl/MHDBaseFunctor2D.h: trace_unsplit_mhd_2d, slope_unsplit_hydro_2d", "src/muscl/MHDBaseFunctor3D.h:688-1114 trace_unsplit_mhd_3d_simpler", "src/muscl/MHDBaseFunctor3D.h: slope_unsplit_hydro_3d, slope_unsplit_mhd_3d"]}
{"id": "C51", "title": "Initialisation fills every cell once, in bounds", "statement": "Building a solver runs the initialisation kernels of the chosen problem without any access outside the allocated arrays; every schedule gives the same arrays; every variable of every cell is assigned, and nothing outside the state (and, for Rayleigh-Taylor, the gravity field) changes. An unknown problem name gives the documented default problem.", "quantifier": "all problems, parameters, mesh sizes, process positions, schedules", "why_tests_cant": "All sizes, parameters and interleavings; an unassigned variable holds whatever the allocation left, usually zero.", "anchors": ["src/muscl/HydroInitFunctors2D.h", "src/muscl/HydroInitFunctors3D.h", "src/muscl/MHDInitFunctors2D.h", "src/muscl/MHDInitFunctors3D.h", "src/muscl/SolverHydroMuscl.cpp:72-190", "src/muscl/SolverMHDMuscl.h:645-706"]}
{"id": "C52", "title": "Initial states hold the documented gas", "statement": "The solver's own conversion applied to the initial arrays gives, in every cell, the density, velocity, pressure (and cell-centred magnetic field) that the problem documents at the centre of the cell: two states for implode, blast and Brio-Wu, the layers of Kelvin-Helmholtz, the vortices of Gresho, Yee and Orszag-Tang, the disc of the rotor and the loop of the field loop.", "quantifier": "all problems, parameters with positive density, cells", "why_tests_cant": "Real arithmetic over all parameters; a lost energy term gives a plausible picture.", "anchors": ["src/muscl/HydroInitFunctors2D.h", "src/muscl/HydroInitFunctors3D.h", "src/muscl/MHDInitFunctors2D.h", "src/muscl/MHDInitFunctors3D.h"]}
{"id": "C53", "title": "The initial state does not depend on the process layout", "statement": "The value assigned to a cell depends only on its global index: a distributed run starts from the same numbers, bit for bit, as a serial run on the whole mesh, ghosts included.", "quantifier": "all problems, process grids, sizes, arithmetics", "why_tests_cant": "All process grids and sizes, and bit for bit.", "anchors": ["src/muscl/HydroInitFunctors2D.h", "src/muscl/HydroInitFunctors3D.h", "src/muscl/MHDInitFunctors2D.h", "src/muscl/MHDInitFunctors3D.h", "src/shared/HydroParams.cpp"]}
{"id": "C54", "title": "Initial magnetic fields have no divergence", "statement": "The discrete divergence of the face-centred field is zero in the initial state of Orszag-Tang, Brio-Wu, Kelvin-Helmholtz, rotor and field loop, and with the update of the field it stays zero in the physical cells for the whole run.", "quantifier": "all parameters, meshes, runs, schedules", "why_tests_cant": "Needs all cells and all steps; rounding hides small errors in a test.", "anchors": ["src/muscl/MHDInitFunctors2D.h", "src/muscl/MHDInitFunctors3D.h", "src/muscl/SolverMHDMuscl.h"]}
{"id": "C55", "title": "The documented equilibria are equilibria", "statement": "The pressure of the Gresho vortex is continuous and balances the centrifugal force, the isentropic vortex has constant entropy and balanced pressure, the Rayleigh-Taylor atmosphere is in hydrostatic equilibrium, and the Kelvin-Helmholtz profile stays between the two given states.", "quantifier": "all parameters and radii", "why_tests_cant": "A statement about derivatives at every radius.", "anchors": ["src/muscl/HydroInitFunctors2D.h", "src/muscl/HydroInitFunctors3D.h"]}
{"id": "C56", "title": "Problem parameters come from their own keys", "statement": "Every parameter of a problem is the value of its own key in the parameter file, or its documented default when the key is absent, and does not depend on the other keys.", "quantifier": "all parameter files", "why_tests_cant": "All files; defaults hide a key that is ignored or read into another parameter.", "anchors": ["src/shared/problems/BlastParams.h", "src/shared/problems/ImplodeParams.h", "src/shared/problems/KHParams.h", "src/shared/problems/BrioWuParams.h", "src/shared/problems/RotorParams.h", "src/shared/problems/FieldLoopParams.h", "src/shared/problems/GreshoParams.h", "src/shared/problems/IsentropicVortexParams.h"]}
{"id": "C57", "title": "The parameter file determines the output", "statement": "The serial program run on a parameter file ends, never accesses memory outside its arrays, and writes files that depend only on the contents of the parameter file (for the problems with random perturbations, also on the random numbers): whatever the schedule of the threads and the order of the reductions, two runs write the same files byte for byte. The files contain the iterates of the scheme from the initial condition of the file, and each setting acts through its own key only.", "quantifier": "all parameter files, meshes, problems, schedules and reduction orders", "why_tests_cant": "All schedules and all files; a race or an uninitialised parameter rarely shows.", "anchors": ["src/main.cpp", "src/shared/HydroParams.cpp", "src/shared/SolverBase.cpp", "src/muscl/SolverHydroMuscl.cpp", "src/muscl/SolverMHDMuscl.h", "src/utils/io/IO_ReadWrite.cpp", "settings"]}
{"id": "C58", "title": "The Riemann configurations", "statement": "For each configuration number the four-quadrant problem starts from the states of the configuration of that number in Lax and Liu (1998): two neighbouring quadrants are separated by exactly one wave of the one-dimensional equations (contact, rarefaction or shock, as listed there). All entries are assigned for every number; in three dimensions the states extend the two-dimensional ones and do not prefer an axis.", "quantifier": "all configuration numbers, quadrants, meshes and interface positions", "why_tests_cant": "A mistyped state or a missing break still gives a plausible flow; the runs never compare with the published configurations.", "anchors": ["src/shared/problems/initRiemannConfig2d.cpp", "src/shared/problems/initRiemannConfig2d.h", "src/muscl/HydroInitFunctors2D.h", "src/muscl/HydroInitFunctors3D.h"]}
{"id": "C59", "title": "Distributed checkpoint files", "statement": "A checkpoint written by all processes together holds exactly what a single program would write for the whole domain: same names, sizes, elements, step and time. Every process reads back its own part, whatever the number of processes that wrote the file, so that a distributed run restarted from a file goes through the same states and writes the same files as the serial run restarted from it; a file with half the resolution is interpolated across the borders of the processes as in the serial program; with allghostIncluded every process gets back all its cells.", "quantifier": "all process grids, block sizes, ghost widths, memory layouts, fields and orders in which the library serves the processes", "why_tests_cant": "All process grids; with overlapping selections the value in the file depends on the order of the writes, which a test does not control.", "anchors": ["src/utils/io/IO_HDF5.h", "src/utils/io/IO_ReadWrite.cpp"]}
{"id": "C60", "title": "Index of the checkpoint files", "statement": "The XDMF file written at the end of a run lists every checkpoint of the run and of the runs it continues, and nothing else, in order: grid number n names file number n and, for every dataset of that file, an attribute with its name, its sizes and a reference to it. The same holds when the files are written by several processes, with any setting of ghostIncluded, allghostIncluded and reassembleInFile. With the default output directory the references, followed from the index, lead to the files.", "quantifier": "all runs, meshes, process grids, output settings, names of at most one line without quote or colon", "why_tests_cant": "The index repeats by hand, in text, sizes and names computed elsewhere for each combination of settings; a test sees one combination, and the text is only read by external viewers.", "anchors": ["src/utils/io/IO_HDF5.cpp", "src/main.cpp"]}
{"id": "C61", "title": "The Euler equations in conservative form", "statement": "The functions of the header EulerEquations.h agree with the equations they are named after, in 2D and 3D and along every axis: the pressure is that of an ideal gas (never below the floor), converting to primitive variables divides the momenta by the density, and the flux is that of the Euler equations. Conversion to characteristic variables and back returns the data; in these variables the derivative of the flux along any change of the state multiplies each component by one of the speeds u - c, u, u, u, u + c (the Jacobian is diagonalised). The viscous flux is that of the symmetric, traceless stress tensor, whose dissipation is never negative and vanishes for a rotation. The speed of sound is sqrt(gamma p / rho).", "quantifier": "all states with positive density, directions, changes of the state, velocity gradients, viscosities, gamma > 1", "why_tests_cant": "The header is included nowhere, so no test of the program reaches it; that it diagonalises the Jacobian is a statement about derivatives at every state.", "anchors": ["src/shared/EulerEquations.h"]}
{"id": "C62", "title": "Mirror images", "statement": "The mirror image of a hydrodynamics run is a run: exchange the boundary conditions at the two ends of an axis, mirror the initial state (momentum along the axis and acceleration change sign), and the program computes the same time steps, writes the same number of files at the same times, and every file is the mirror image of the original. So a symmetric problem stays symmetric, and nothing crosses its middle line of cells. The same holds for the exchange of the axes and for translations in a periodic box (C37, C38): whole runs with the time steps they compute for themselves correspond.", "quantifier": "all meshes, initial states, numbers of steps, schedules, implementation variants, limiters, the LLF, HLL and HLLC solvers, 2D and 3D, all axes, with and without gravity, exact arithmetic", "why_tests_cant": "A test compares one problem with its mirror image; a sign lost in one branch of a limiter or solver shows only for states that take the branch.", "anchors": ["src/muscl/HydroRunFunctors2D.h", "src/muscl/HydroRunFunctors3D.h", "src/muscl/SolverHydroMuscl.h", "src/shared/RiemannSolvers.h", "src/shared/BoundariesFunctors.h"]}
{"id": "C63", "title": "Incoming shock of the double Mach reflection", "statement": "The time-dependent boundary condition of the double Mach reflection fills every ghost cell, whatever the schedule, and changes nothing else: gas from behind the shock comes in on the left and, below, before the wall; the wall reflects; the right side repeats the last column; above the box the cells whose centre is behind the shock get incoming gas and the others repeat the last row. The shock is a plane moving along its normal with the configured speed, so a cell once behind it stays behind it. With the built-in states it is a genuine Mach 10 shock: mass, both momenta and energy satisfy the Rankine-Hugoniot conditions, and the wave is compressive.", "quantifier": "all meshes with at least as many rows as ghost layers, all array contents, schedules, times, front angles between 0 and 90 degrees; the filling bit for bit, the shock in exact arithmetic", "why_tests_cant": "The ghost cells depend on time, position and angle; a test looks at a few instants and one angle, and the functor is launched nowhere.", "anchors": ["src/shared/BoundariesFunctorsWedge.h", "src/shared/problems/WedgeParams.h"]}
{"id": "C64", "title": "Performance report", "statement": "In the report printed at the end of a run no time is negative; the time of a section is the sum of all intervals spent inside it; every iteration counts once as time step, ghost cells and scheme, and every file written once as output; primitives, fluxes and update together take no longer than the scheme; ghost cells, scheme and (hydro) time steps together take no longer than the total, which is the time from the beginning of the main loop to its end; so every percentage except that of the outputs lies between 0 and 100, and without outputs theirs is 0. The outputs of a run exceed the total by at most the first and the last one. The printed rate times the total time is the number of steps times the number of processes times the cells of a process including ghost cells, hence larger than the number of cells updated; it is defined exactly when the cells of a process are fewer than 2^31 and the product fits 64 bits.", "quantifier": "all solvers, dimensions and implementations, any number of iterations, any outputs among them, any clock that does not go back, all mesh sizes and numbers of processes", "why_tests_cant": "Times differ from run to run; a test can only look at a few reports, and the overflow needs two thousand million cells.", "anchors": ["src/shared/solver_utils.h", "src/utils/monitoring/OpenMPTimer.cpp", "src/main.cpp", "src/muscl/SolverHydroMuscl.cpp", "src/muscl/SolverMHDMuscl.cpp"]}
{"id": "C65", "title": "Start and end of MPI and Kokkos", "statement": "A program that makes one ParallelEnv, changes its topology any number of times and communicates through it makes no illegal MPI or Kokkos call: both libraries are started and ended exactly once, in either order of start, no communicator is used after it was freed, and all are freed before MPI ends. Used as a library with the communicator of a caller, it leaves MPI running and the communicators of the caller alive, and frees its own. GlobalMpiSession objects may be nested to any depth.", "quantifier": "all sequences of uses of any length, both orders of initialisation, all states of the caller, all nesting depths", "why_tests_cant": "Leaks and calls after the end are silent with most MPI libraries; a test tries one sequence of uses.", "anchors": ["src/utils/mpi/ParallelEnv.cpp", "src/utils/mpi/GlobalMpiSession.cpp", "src/utils/mpi/MpiComm.cpp", "src/utils/mpi/MpiComm.h", "src/utils/mpi/MpiCommCart.cpp"]}
