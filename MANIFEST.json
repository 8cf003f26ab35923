{
 "claims": [
  {
   "property": "C01",
   "status": "proved",
   "theorems": [
    "C01_same_arrays_under_every_schedule",
    "C01_3d_same_arrays_under_every_schedule",
    "C01_mhd_same_arrays_under_every_schedule",
    "C01_mhd_store_kernels",
    "C01_mhd3d_same_arrays_under_every_schedule",
    "C01_mhd3d_store_kernels"
   ],
   "note": "2D and 3D hydro runs (versions 0 and 1) and 2D and 3D MHD runs (version 0), any number of steps; store-type kernels of MHD versions 1 and 2."
  },
  {
   "property": "C02",
   "status": "proved",
   "theorems": [
    "C02_fill_in_bounds_2d",
    "C02_fill_in_bounds_3d",
    "C02_steps_in_bounds",
    "C02_3d_steps_in_bounds",
    "C02_mhd_steps_in_bounds",
    "C02_mhd3d_steps_in_bounds"
   ],
   "note": "2D and 3D ghost filling; whole 2D and 3D hydro and MHD runs in all three versions."
  },
  {
   "property": "C03",
   "status": "proved",
   "theorems": [
    "C03_fill_2d",
    "C03_fill_3d",
    "C03_narrow_mesh_refuted"
   ],
   "note": "Meshes at least as wide as the ghost layer; narrower periodic or reflecting meshes are a refuted case."
  },
  {
   "property": "C04",
   "status": "proved",
   "theorems": [
    "C04_depends_on_physical_cells_2d",
    "C04_depends_on_physical_cells_3d",
    "C04_idempotent_2d",
    "C04_idempotent_3d"
   ],
   "note": ""
  },
  {
   "property": "C05",
   "status": "proved",
   "theorems": [
    "C05_exchange_completes_2d",
    "C05_exchange_completes_3d",
    "C05_step_completes_2d",
    "C05_step_completes_3d",
    "C05_pairing_2d",
    "C05_pairing_3d",
    "C05_runs_complete_2d",
    "C05_runs_complete_3d",
    "C05_mhd_step_completes_2d",
    "C05_mhd_step_completes_3d",
    "C05_mhd_runs_complete_2d",
    "C05_mhd_runs_complete_3d"
   ],
   "note": "Hydro and MHD. Any process grid, any buffering policy of the library, any interleaving; MPI_Sendrecv may block until its message has been received."
  },
  {
   "property": "C06",
   "status": "proved",
   "theorems": [
    "C06_ghosts_2d",
    "C06_ghosts_3d",
    "C06_steps_2d",
    "C06_steps_3d",
    "C06_run_exact_2d",
    "C06_run_exact_3d",
    "C06_unknown_code_refuted",
    "C06_mhd_steps_2d",
    "C06_mhd_steps_3d",
    "C06_mhd_run_exact_2d",
    "C06_mhd_run_exact_3d",
    "C06_run_double_2d",
    "C06_run_double_3d",
    "C06_mhd_run_double_2d",
    "C06_mhd_run_double_3d",
    "C06_nan_block_refuted"
   ],
   "note": "Hydro and MHD, 2D and 3D. Ghosts and any number of steps of given length bit for bit (hydro versions 0 and 1, MHD version 0); whole runs with their own time steps and files in exact arithmetic (all versions) and bit for bit in binary64 (hydro versions 0 and 1, MHD version 0) as long as every process has a cell whose signal speed is a number. Refuted when one process holds NaN only, and for undocumented boundary codes."
  },
  {
   "property": "C07",
   "status": "proved",
   "theorems": [
    "C07_border_moves_2d",
    "C07_border_moves_3d",
    "C07_each_ghost_once_2d",
    "C07_each_ghost_once_3d"
   ],
   "note": ""
  },
  {
   "property": "C08",
   "status": "proved",
   "theorems": [
    "C08_topology"
   ],
   "note": ""
  },
  {
   "property": "C09",
   "status": "proved",
   "theorems": [
    "C09_conservation_periodic",
    "C09_3d_conservation_periodic",
    "C09_mhd_conservation_periodic",
    "C09_mhd3d_conservation_periodic"
   ],
   "note": "2D and 3D hydro and MHD, all versions, all schedules, any number of steps."
  },
  {
   "property": "C10",
   "status": "partial",
   "theorems": [
    "C10_wall_flux",
    "C10_closed_box",
    "C10_closed_box_two_shock_partial",
    "C10_3d_wall_flux",
    "C10_3d_closed_box",
    "C10_3d_closed_box_two_shock_partial",
    "C10_wall_two_shock",
    "C10_any_speed_refuted"
   ],
   "note": "2D and 3D hydro. LLF, HLL, HLLC without restriction; the two-shock solver for flow onto the wall up to a Mach number of 200000 / (gamma + 1). For the two-shock solver the claim without a bound on the speed is refuted (its ten Newton iterations)."
  },
  {
   "property": "C11",
   "status": "partial",
   "theorems": [
    "C11_versions_0_and_1_bit_identical",
    "C11_all_versions_exact",
    "C11_3d_versions_0_and_1_bit_identical",
    "C11_3d_versions_exact",
    "C11_3d_gravity_predictor_refuted"
   ],
   "note": "Any number of steps. 2D: all settings. 3D: versions 0 and 2 always agree; version 1 agrees when the gravity predictor is off and is refuted when it is on."
  },
  {
   "property": "C12",
   "status": "proved",
   "theorems": [
    "C12_each_flux_once",
    "C12_schedule_independent_exact",
    "C12_schedule_dependent_binary64_refuted",
    "C12_3d_each_flux_once",
    "C12_3d_schedule_independent_exact",
    "C12_mhd_each_contribution_once",
    "C12_mhd_each_contribution_once_v2",
    "C12_mhd_schedule_independent_exact",
    "C12_mhd3d_each_contribution_once",
    "C12_mhd3d_each_contribution_once_v2",
    "C12_mhd3d_schedule_independent_exact"
   ],
   "note": "2D and 3D hydro and MHD."
  },
  {
   "property": "C13",
   "status": "proved",
   "theorems": [
    "C13_two_buffers_act_as_one_state_2d",
    "C13_two_buffers_act_as_one_state_exact_2d",
    "C13_two_buffers_act_as_one_state_3d",
    "C13_two_buffers_act_as_one_state_exact_3d",
    "C13_mhd_two_buffers_act_as_one_state",
    "C13_mhd_two_buffers_act_as_one_state_exact",
    "C13_mhd3d_two_buffers_act_as_one_state",
    "C13_mhd3d_two_buffers_act_as_one_state_exact"
   ],
   "note": "2D and 3D hydro and MHD, from the constructor to the last file; bit for bit for hydro versions 0 and 1 and MHD version 0, all versions in exact arithmetic."
  },
  {
   "property": "C14",
   "status": "proved",
   "theorems": [
    "C14_end_time",
    "C14_end_time_2d",
    "C14_end_time_3d",
    "C14_mhd_end_time",
    "C14_stops",
    "C14_runs_complete_2d",
    "C14_runs_complete_3d",
    "C14_mhd_runs_complete",
    "C14_nlog_zero_refuted",
    "C14_binary64_overshoot_refuted",
    "C14_mhd3d_end_time",
    "C14_mhd3d_runs_complete"
   ],
   "note": "Exact arithmetic for the times; termination for any arithmetic. Two exceptions are proved: nlog = 0 divides by zero, and rounding can put the last time one ulp beyond the end time."
  },
  {
   "property": "C15",
   "status": "proved",
   "theorems": [
    "C15_files",
    "C15_disabled_no_file",
    "C15_times_nondecreasing"
   ],
   "note": "Any solver; the numbers start at the restart counter (0 in a fresh run)."
  },
  {
   "property": "C16",
   "status": "proved",
   "theorems": [
    "C16_cfl_bound_2d",
    "C16_cfl_bound_3d",
    "C16_cfl_attained",
    "C16_all_processes_2d",
    "C16_all_processes_3d",
    "C16_order_independent_binary64_2d",
    "C16_order_independent_binary64_3d",
    "C16_mhd_cfl_bound",
    "C16_mhd_cfl_attained",
    "C16_mhd_all_processes",
    "C16_mhd_order_independent_binary64",
    "C16_mhd3d_cfl_bound",
    "C16_mhd3d_cfl_attained",
    "C16_mhd3d_all_processes",
    "C16_mhd3d_order_independent_binary64",
    "C16_order_independent_double"
   ],
   "note": "Hydro solvers with and without gravity, 2D and 3D MHD, several processes."
  },
  {
   "property": "C17",
   "status": "proved",
   "theorems": [
    "C17_floors_and_sound_speed",
    "C17_converting_back"
   ],
   "note": ""
  },
  {
   "property": "C18",
   "status": "proved",
   "theorems": [
    "C18_limited_slope"
   ],
   "note": ""
  },
  {
   "property": "C19",
   "status": "proved",
   "theorems": [
    "C19_consistent"
   ],
   "note": ""
  },
  {
   "property": "C20",
   "status": "partial",
   "theorems": [
    "C20_mirror",
    "C20_mirror_approx_partial",
    "C20_mirror_two_shock_subsonic",
    "C20_mirror_two_shock_refuted"
   ],
   "note": "LLF, HLL, HLLC for all states. Two-shock solver: every contact speed different from zero, and every pair of gases that do not run onto the interface faster than sound; refuted for all states."
  },
  {
   "property": "C21",
   "status": "proved",
   "theorems": [
    "C21_upwind",
    "C21_two_shock"
   ],
   "note": "HLL, HLLC: all waves to one side. Two-shock solver: every position of the interface with respect to the waves on its upwind side (contact moving to the right; to the left by C20)."
  },
  {
   "property": "C22",
   "status": "proved",
   "theorems": [
    "C22_defined_2d",
    "C22_hlld_refuted",
    "C22_slope_type_refuted",
    "C22_defined_3d",
    "C22_3d_hll_hlld_refuted",
    "C22_3d_slope_type_refuted",
    "C22_mhd_defined",
    "C22_mhd_approx_hllc_refuted",
    "C22_mhd_slope_type_refuted",
    "C22_mhd3d_approx_hllc_refuted",
    "C22_mhd3d_slope_type_refuted"
   ],
   "note": "Defined for the documented settings (with C02_*_steps_in_bounds: no step uses an undefined value); refuted for riemann=hlld (2D, 3D hydro), riemann=hll (3D hydro), riemann=approx (the default) and hllc (MHD) and for other slope types (2D and 3D hydro, 2D MHD, 3D MHD version 2)."
  },
  {
   "property": "C23",
   "status": "proved",
   "theorems": [
    "C23_uniform_state_fixed",
    "C23_3d_uniform_state_fixed",
    "C23_mhd_uniform_state_fixed",
    "C23_mhd3d_uniform_state_fixed"
   ],
   "note": "2D and 3D hydro and MHD, all versions, any number of steps, exact arithmetic."
  },
  {
   "property": "C24",
   "status": "proved",
   "theorems": [
    "C24_gravity_source",
    "C24_3d_gravity_source"
   ],
   "note": ""
  },
  {
   "property": "C25",
   "status": "proved",
   "theorems": [
    "C25_emf_update_keeps_divergence",
    "C25_run_keeps_divergence",
    "C25_periodic_every_cell",
    "C25_stored_values",
    "C25_mhd3d_emf_update_keeps_divergence",
    "C25_mhd3d_run_keeps_divergence",
    "C25_mhd3d_periodic_every_cell",
    "C25_mhd3d_stored_values"
   ],
   "note": "2D and 3D, all versions and schedules, any number of steps."
  },
  {
   "property": "C26",
   "status": "proved",
   "theorems": [
    "C26_flux_consistency",
    "C26_edge_consistency",
    "C26_fast_speed",
    "C26_hlld_switch_on_refuted"
   ],
   "note": "HLL, LLF and the edge solver for all admissible states; HLLD except when the field is along the axis with Alfven speed at least the speed of sound, where it divides zero by zero (refuted in binary64)."
  },
  {
   "property": "C27",
   "status": "proved",
   "theorems": [
    "C27_selection",
    "C27_selection_all_speeds",
    "C27_zero_speed_refuted",
    "C27_binary64_leak_refuted"
   ],
   "note": "Exact arithmetic, speeds other than zero; two deviations are proved (zero speeds; an infinite value of an unselected region leaks as NaN in binary64)."
  },
  {
   "property": "C28",
   "status": "proved",
   "theorems": [
    "C28_all_versions_exact",
    "C28_mhd3d_versions_0_and_1_exact",
    "C28_mhd3d_version_2_refuted"
   ],
   "note": "2D: all versions, any number of steps. 3D: versions 0 and 1; version 2 is refuted by a binary64 witness, whatever the schedule."
  },
  {
   "property": "C29",
   "status": "proved",
   "theorems": [
    "C29_face_average",
    "C29_primitive_round_trip",
    "C29_out_of_plane_halved_refuted",
    "C29_round_trip_2d_refuted",
    "C29_mhd3d_face_average"
   ],
   "note": "All components in 3D, in-plane components in 2D; the out-of-plane component in 2D is halved (refuted)."
  },
  {
   "property": "C30",
   "status": "proved",
   "theorems": [
    "C30_every_file_has_a_meaning",
    "C30_last_definition_wins",
    "C30_first_wrong_line",
    "C30_case_blind",
    "C30_integers",
    "C30_reals",
    "C30_booleans",
    "C30_set_then_get",
    "C30_all_processes_agree",
    "C30_dotted_section_refuted",
    "C30_indented_comment_refuted",
    "C30_comment_as_value_refuted",
    "C30_malformed_integer_refuted",
    "C30_set_real_refuted",
    "C30_decimals",
    "C30_set_then_get_real"
   ],
   "note": "Every text without NUL; both builds (serial with lines of at most 199 characters). Section names without a point, otherwise refuted. Set-then-get for strings, integers and booleans; refuted for reals (six digits)."
  },
  {
   "property": "C31",
   "status": "proved",
   "theorems": [
    "C31_file_and_buffer_agree",
    "C31_longer_lines_split",
    "C31_long_line_refuted"
   ],
   "note": "Every byte sequence."
  },
  {
   "property": "C32",
   "status": "proved",
   "theorems": [
    "C32_raw_2D",
    "C32_text_2D",
    "C32_raw_3D",
    "C32_text_3D",
    "C32_overflow_refuted",
    "C32_one_file_per_output"
   ],
   "note": "Bytes of the whole file, both byte orders, float and double; sizes below the 32-bit limit, beyond it refuted."
  },
  {
   "property": "C33",
   "status": "proved",
   "theorems": [
    "C33_round_trip",
    "C33_restart_2d",
    "C33_restart_exact_2d",
    "C33_restart_3d",
    "C33_restart_exact_3d",
    "C33_restart_mhd",
    "C33_restart_exact_mhd",
    "C33_restart_from_first_file",
    "C33_gravity_lost_refuted",
    "C33_output_every_step_refuted",
    "C33_reset_time_refuted",
    "C33_restart_without_reader_refuted",
    "C33_restart_mhd3d",
    "C33_restart_exact_mhd3d"
   ],
   "note": "Round trip for all fields, sizes, layouts. Restart from any checkpoint of any run of the 2D and 3D hydro and MHD solvers, without gravity field and with output at intervals; with a gravity field, with output at every step or with the time reset it is refuted."
  },
  {
   "property": "C34",
   "status": "proved",
   "theorems": [
    "C34_reads_inside",
    "C34_values",
    "C34_cell_values",
    "C34_totals",
    "C34_divergence",
    "C34_divergence_started",
    "C34_stale_ghosts_refuted",
    "C34_no_ghosts_refuted",
    "C34_pressure_refuted"
   ],
   "note": "2D and 3D. The divergence holds in the array read from a file with ghosts; after the ghosts are refilled it needs up-to-date ghosts in the file, otherwise refuted."
  },
  {
   "property": "C35",
   "status": "proved",
   "theorems": [
    "C35_index_roundtrip_2d",
    "C35_index_roundtrip_3d"
   ],
   "note": ""
  },
  {
   "property": "C36",
   "status": "proved",
   "theorems": [
    "C36_axis",
    "C36_mesh",
    "C36_any_arithmetic"
   ],
   "note": "Tiling over the reals; agreement between divided and undivided mesh in any arithmetic."
  },
  {
   "property": "C37",
   "status": "proved",
   "theorems": [
    "C37_translation",
    "C37_3d_translation",
    "C37_mhd_translation",
    "C37_mhd_translation_exact",
    "C37_mhd3d_translation",
    "C37_mhd3d_translation_exact",
    "C37_translation_run",
    "C37_3d_translation_run"
   ],
   "note": "Hydro versions 0 and 1 and MHD version 0 bit for bit, MHD versions 1 and 2 in exact arithmetic; any number of steps."
  },
  {
   "property": "C38",
   "status": "proved",
   "theorems": [
    "C38_axis_exchange",
    "C38_mhd_axis_exchange",
    "C38_axis_exchange_run"
   ],
   "note": "2D hydro and 2D MHD, all versions and schedules, any number of steps, exact arithmetic."
  },
  {
   "property": "C39",
   "status": "proved",
   "theorems": [
    "C39_two_cells_per_step",
    "C39_domain_of_dependence",
    "C39_3d_two_cells_per_step",
    "C39_3d_domain_of_dependence"
   ],
   "note": "Versions 0 and 1."
  },
  {
   "property": "C40",
   "status": "proved",
   "theorems": [
    "C40_factory",
    "C40_main"
   ],
   "note": "All names; also that the parameters fit the solver created."
  },
  {
   "property": "C41",
   "status": "proved",
   "theorems": [
    "C41_contact"
   ],
   "note": ""
  },
  {
   "property": "C42",
   "status": "proved",
   "theorems": [
    "C42_axis_exchange_3d",
    "C42_axis_exchange_run_3d"
   ],
   "note": ""
  },
  {
   "property": "C43",
   "status": "proved",
   "theorems": [
    "C43_predictor_2d",
    "C43_predictor_3d",
    "C43_unequal_cells_refuted"
   ],
   "note": "Square (cubic) cells; for unequal cell sizes the claim is refuted."
  },
  {
   "property": "C44",
   "status": "proved",
   "theorems": [
    "C44_llf_fan",
    "C44_hll_fan",
    "C44_hllc_fan"
   ],
   "note": "LLF, HLL and HLLC."
  },
  {
   "property": "C45",
   "status": "proved",
   "theorems": [
    "C45_three_cells_per_mhd_step",
    "C45_mhd_domain_of_dependence",
    "C45_three_cells_per_mhd3d_step",
    "C45_mhd3d_domain_of_dependence"
   ],
   "note": "2D and 3D, version 0, any arithmetic."
  },
  {
   "property": "C46",
   "status": "proved",
   "theorems": [
    "C46_pieces_3D",
    "C46_pieces_2D_refuted",
    "C46_debug_name_refuted",
    "C46_one_file_per_piece"
   ],
   "note": "3D proved, raw encoding; in 2D the pieces tile but their z extent disagrees with the files (refuted part stated in C46_pieces_2D_refuted)."
  },
  {
   "property": "C47",
   "status": "proved",
   "theorems": [
    "C47_llf_fan",
    "C47_hll_fan",
    "C47_hlld_fan",
    "C47_hlld_cutoff_refuted",
    "C47_hlld_order_refuted"
   ],
   "note": "LLF and HLL for all admissible states. HLLD for star states the program computes from the jump conditions; refuted where its test for degenerate star states misfires, and the order of the waves is refuted in general (it holds when the mass crossing each fast wave is large enough)."
  },
  {
   "property": "C48",
   "status": "proved",
   "theorems": [
    "C48_transverse_exchange",
    "C48_field_reversal",
    "C48_mirror",
    "C48_hlld_mirror",
    "C48_hlld_mirror_refuted"
   ],
   "note": "Transverse exchange and field reversal for every state and solver, mirror for HLL and LLF; for HLLD the mirror law is proved for regular fans with the waves in order and refuted when they are not."
  },
  {
   "property": "C49",
   "status": "proved",
   "theorems": [
    "C49_edge_exchange",
    "C49_edge_axes",
    "C49_edge_field_reversal",
    "C49_edge_mirror",
    "C49_edge_upwind",
    "C49_edge_upwind3d"
   ],
   "note": "All states (admissible ones for the mirror and upwind laws), exact arithmetic; the upwind law also for the edges of the 3D solver along the three axes."
  },
  {
   "property": "C50",
   "status": "proved",
   "theorems": [
    "C50_mhd_predictor_2d",
    "C50_mhd_predictor_3d"
   ],
   "note": "2D (all versions use it) and 3D versions 0 and 1, exact arithmetic. The 3D version 2 predictor differs (see C28)."
  },
  {
   "property": "C51",
   "status": "proved",
   "theorems": [
    "C51_problem_of_its_name",
    "C51_hydro_in_bounds",
    "C51_mhd_in_bounds",
    "C51_same_arrays_under_every_schedule",
    "C51_hydro_every_cell_assigned",
    "C51_hydro3d_every_cell_assigned",
    "C51_mhd_every_cell_assigned",
    "C51_mhd3d_every_cell_assigned",
    "C51_only_the_state_changes",
    "C51_gravity_field",
    "C51_rayleigh_taylor_without_gravity_refuted",
    "C51_brio_wu_direction_refuted",
    "C51_kelvin_helmholtz_sine_refuted",
    "C51_mhd_not_assigned_refuted"
   ],
   "note": "All problems of the four solvers, any arithmetic and libm, any mesh and schedule. Refuted where the code leaves variables unassigned or writes outside the arrays."
  },
  {
   "property": "C52",
   "status": "proved",
   "theorems": [
    "C52_hydro",
    "C52_hydro3d",
    "C52_mhd",
    "C52_mhd3d",
    "C52_field_loop",
    "C52_field_loop3d",
    "C52_implode_velocity_refuted",
    "C52_implode3d_velocity_refuted",
    "C52_rayleigh_taylor_energy_refuted",
    "C52_rayleigh_taylor3d_energy_refuted",
    "C52_gresho3d_refuted",
    "C52_mhd_implode_refuted",
    "C52_mhd3d_implode_refuted",
    "C52_rotor_refuted",
    "C52_rotor3d_refuted",
    "C52_mhd_blast_refuted",
    "C52_field_loop_refuted"
   ],
   "note": "All problems of the four solvers, under the conditions of as_documented; outside them the claim is refuted (velocity stored as momentum, energy without its kinetic part, factor above one in the rotor, z field in 2D). MHD cells need stored upper neighbours and a field that is the same on both sides (C54 refutes the rest); field loop: inner cells."
  },
  {
   "property": "C53",
   "status": "proved",
   "theorems": [
    "C53_hydro_layout_free",
    "C53_hydro3d_layout_free",
    "C53_mhd_layout_free",
    "C53_mhd3d_layout_free",
    "C53_brio_wu_z_refuted",
    "C53_field_loop_momentum_refuted",
    "C53_field_loop_energy_refuted"
   ],
   "note": "All problems, any arithmetic. Refuted for the three quantities the code computes from local sizes."
  },
  {
   "property": "C54",
   "status": "proved",
   "theorems": [
    "C54_no_divergence",
    "C54_no_divergence3d",
    "C54_blast_refuted"
   ],
   "note": "2D and 3D, exact arithmetic, every physical cell whose upper faces are stored or wrap around, from the initial state to the end of any run. The loop must stay clear of periodic borders; blast and implode with different fields on the two sides are refuted."
  },
  {
   "property": "C55",
   "status": "proved",
   "theorems": [
    "C55_gresho",
    "C55_gresho_refuted",
    "C55_vortex",
    "C55_rayleigh_taylor",
    "C55_rayleigh_taylor3d",
    "C55_rayleigh_taylor_refuted",
    "C55_kelvin_helmholtz",
    "C55_kelvin_helmholtz3d"
   ],
   "note": "Exact arithmetic, every point and all parameters, together with the state the solver starts from. Refuted for a Gresho vortex of density other than one and at the surface of the Rayleigh-Taylor atmosphere."
  },
  {
   "property": "C56",
   "status": "proved",
   "theorems": [
    "C56_own_keys",
    "C56_other_keys_do_not_matter",
    "C56_sine_keys",
    "C56_centres",
    "C56_brio_wu_place",
    "C56_blast_radius",
    "C56_blast_radius_refuted",
    "C56_blast_field_refuted"
   ],
   "note": "All files, from the text to the parameter; all parameters the kernels use. Refuted for the y and z field of the blast, and for the default radius on a domain centred at the origin."
  },
  {
   "property": "C57",
   "status": "proved",
   "theorems": [
    "C57_files_are_the_scheme_hydro2d",
    "C57_files_are_the_scheme_hydro3d",
    "C57_files_are_the_scheme_mhd2d",
    "C57_files_are_the_scheme_mhd3d",
    "C57_file_determines_output",
    "C57_completes",
    "C57_one_output",
    "C57_run_settings",
    "C57_names",
    "C57_image_header",
    "C57_other_keys_do_not_matter",
    "C57_shipped_files_run",
    "C57_shipped_files_one_output",
    "C57_version",
    "C57_image_files",
    "C57_no_image_lost"
   ],
   "note": "Serial runs that are not restarts, image output, double precision. One output for hydro versions 0 and 1 and MHD version 0 (versions 1 and 2 of MHD add with atomics; for them the run is proved to end and to stay inside the arrays). Hypotheses (usable, acceptable, complete) hold for the files of /repo/settings."
  },
  {
   "property": "C58",
   "status": "proved",
   "theorems": [
    "C58_configurations",
    "C58_defined",
    "C58_default",
    "C58_octants",
    "C58_octants_symmetric",
    "C58_positive",
    "C58_initial_state",
    "C58_initial_state_3d",
    "C58_configuration_6",
    "C58_configuration_10",
    "C58_configuration_6_refuted",
    "C58_configuration_10_refuted",
    "C58_configuration_19_refuted",
    "C58_octants_4_refuted"
   ],
   "note": "Numbers 0 to 17 in 2D except two: configurations 6 and 10 have a wrong entry, and number 18 (configuration 19) falls through to configuration 1 (refuted). In 3D configuration 4, which all numbers but 2 select, is not symmetric in x and y (refuted). Wave relations up to the rounding of the published tables; initial state in exact arithmetic."
  },
  {
   "property": "C59",
   "status": "proved",
   "theorems": [
    "C59_written_whole",
    "C59_read_part",
    "C59_read_half",
    "C59_all_ghosts",
    "C59_other_decomposition",
    "C59_restart_parts",
    "C59_restart_run_2d",
    "C59_restart_run_3d",
    "C59_mhd_restart_run_2d",
    "C59_mhd_restart_run_3d",
    "C59_run_file",
    "C59_pieces",
    "C59_stale_ghosts_refuted",
    "C59_pieces_refuted"
   ],
   "note": "Bit for bit, any process grid, layout and order of the writes; restarted runs in double precision (hydro versions 0 and 1, MHD version 0). With ghostIncluded the claim needs ghosts that agree with the neighbours and is refuted otherwise; with reassembleInFile = false and several processes along x the file cannot be read back (refuted)."
  },
  {
   "property": "C60",
   "status": "proved",
   "theorems": [
    "C60_index",
    "C60_index_mpi",
    "C60_default_dir",
    "C60_directory_refuted",
    "C60_cells_refuted",
    "C60_single_step_refuted"
   ],
   "note": "All runs, meshes and output settings; the text is read by a reader of its own. Refuted: with another output directory the index, which is written to the current directory, leads nowhere; the topology counts cells where XDMF counts nodes; singleStep (never used by main) lists one step too many."
  },
  {
   "property": "C61",
   "status": "proved",
   "theorems": [
    "C61_pressure",
    "C61_fluxes",
    "C61_inverse",
    "C61_jacobian",
    "C61_viscous_flux",
    "C61_viscous_stress",
    "C61_sound_refuted"
   ],
   "note": "Exact arithmetic, 2D and 3D, every axis. The 2D conversion to primitive variables needs a density above its floor 1e-8. The speed of sound is refuted: the function returns its square. The header is included nowhere and names an undeclared axis IT, read as IY."
  },
  {
   "property": "C62",
   "status": "proved",
   "theorems": [
    "C62_mirror_x",
    "C62_mirror_y",
    "C62_mirror_x_run",
    "C62_mirror_y_run",
    "C62_symmetric_x",
    "C62_symmetric_y",
    "C62_nothing_crosses_the_middle",
    "C62_mirror_3d",
    "C62_mirror_3d_run",
    "C62_symmetric_3d"
   ],
   "note": "Hydrodynamics in 2D and 3D along every axis, exact arithmetic, with and without gravity, all schedules and implementation variants (in 3D with the gravity predictor, version 1 is not covered along z, where it leaves out one side of the faces). The two-shock solver is excluded: its flux is not mirrored (C20_mirror_two_shock_refuted). Whole runs use the time steps each run computes."
  },
  {
   "property": "C63",
   "status": "proved",
   "theorems": [
    "C63_ghosts",
    "C63_in_bounds",
    "C63_front",
    "C63_once_behind_always",
    "C63_shock"
   ],
   "note": "The functor is launched nowhere in the project; it is launched here as the other boundary functors, with the four variables of 2D hydrodynamics (with more, the wall would also change the sign of every variable after the second momentum). The values of the parameter file are not rounded to single precision. The front goes through (front_x, 0): with a lower corner other than y = 0 it does not start where the wall begins."
  },
  {
   "property": "C64",
   "status": "proved",
   "theorems": [
    "C64_sections",
    "C64_adds_up",
    "C64_entered",
    "C64_run",
    "C64_percentages",
    "C64_io_percentage_refuted",
    "C64_rate",
    "C64_rate_defined"
   ],
   "note": "Times are real numbers and the clock is any sequence that does not decrease. The percentage of the outputs is excluded: the outputs before and after the main loop are timed as outputs but not in the total, and the percentage is unbounded (C64_io_percentage_refuted). The rate counts ghost cells, so it is always larger than the rate of cells updated (C64_rate). Timers of CUDA builds are not modelled. The lines for fluxes and update stay at zero everywhere but in implementation 0 of 2D hydro (C64_entered)."
  },
  {
   "property": "C65",
   "status": "proved",
   "theorems": [
    "C65_standalone",
    "C65_library",
    "C65_nested",
    "C65_second_refuted"
   ],
   "note": "What the MPI standard and Kokkos allow is part of the model (Session.v): an illegal call has no result. MPI_Cart_create is assumed to succeed and to include the process. A second environment in the same process, after the first has ended, is illegal: MPI_Initialized stays true after MPI_Finalize (C65_second_refuted)."
  }
 ]
}
