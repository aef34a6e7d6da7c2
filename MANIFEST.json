{
 "claims": [
  {
   "property": "C01",
   "status": "proved",
   "theorems": [
    "C01_every_cell_has_one_owner",
    "C01_blocks_consecutive_balanced_and_flagged"
   ],
   "note": "For every process grid; int as unbounded Z; MPI_Dims_create not modelled (any grid)."
  },
  {
   "property": "C02",
   "status": "proved",
   "theorems": [
    "C02_range_construction",
    "C02_with_ghosts_throws_iff",
    "C02_range_enumerates_exactly",
    "C02_no_ghosts_and_all_ghosts"
   ],
   "note": "Range constructor, with_ghosts, no_ghosts, all_ghosts and the MDRange cell enumeration."
  },
  {
   "property": "C03",
   "status": "proved",
   "theorems": [
    "C03_local_coordinates_are_a_slice",
    "C03_processes_agree_on_shared_cells"
   ],
   "note": "Slices of the global coordinates, for every process grid; grids read from file are arbitrary arrays."
  },
  {
   "property": "C04",
   "status": "proved",
   "theorems": [
    "C04_regular_mesh",
    "C04_sizes_and_centres"
   ],
   "note": "Over R."
  },
  {
   "property": "C05",
   "status": "proved",
   "theorems": [
    "C05_spherical_exact_integrals",
    "C05_cartesian_products",
    "C05_positive",
    "C05_volumes_add_up",
    "C05_azimuthal_area_is_approximate"
   ],
   "note": "Over R; exact integrals with Coquelicot's RInt. The azimuthal (phi-face) area of 3D spherical cells is proved to be only approximate, as the property says; the balance of the pressure source is C24."
  },
  {
   "property": "C06",
   "status": "proved",
   "theorems": [
    "C06_ghost_exchange_is_periodic_extension",
    "C06_ghost_exchange_keeps_owned_cells"
   ],
   "note": "Every decomposition with nloc >= ng; MPI_Sendrecv_replace as simultaneous update."
  },
  {
   "property": "C07",
   "status": "partial",
   "theorems": [
    "C07_thin_subdomains_refuted"
   ],
   "note": "refuted: nothing rejects subdomains thinner than the ghost layers and their ghosts are wrong (witness 3 cells, 3 processes, 2 ghosts); the positive statement for thick subdomains is C06."
  },
  {
   "property": "C08",
   "status": "proved",
   "theorems": [
    "C08_null_gradient_copies_nearest_layer",
    "C08_reflexive_mirrors",
    "C08_only_its_ghost_layers",
    "C08_idempotent",
    "C08_no_race"
   ],
   "note": ""
  },
  {
   "property": "C09",
   "status": "partial",
   "theorems": [
    "C09_order_iff_self_inverse_partial",
    "C09_face_names",
    "C09_priority_order_refuted",
    "C09_default_order_refuted",
    "C09_unknown_or_missing_tokens_rejected",
    "C09_duplicates_rejected_refuted",
    "C09_shipped_priority_strings_throw"
   ],
   "note": "refuted: the intended order is obtained exactly for self-inverse listings; the default order is the reverse of the documented one; duplicated faces are accepted and leave an indeterminate entry. Rejection of unknown/missing tokens is proved."
  },
  {
   "property": "C10",
   "status": "proved",
   "theorems": [
    "C10_most_specific_name_wins",
    "C10_rejected_iff_not_given",
    "C10_unknown_condition_rejected"
   ],
   "note": "'none is given' includes an explicitly empty most-specific key, as C10_rejected_iff_not_given spells out."
  },
  {
   "property": "C11",
   "status": "proved",
   "theorems": [
    "C11_boundary_update_independent_of_process_grid"
   ],
   "note": "Any order of faces, any mix of conditions; subdomains at least as thick as the ghost layer."
  },
  {
   "property": "C12",
   "status": "proved",
   "theorems": [
    "C12_construction_accepts_exactly",
    "C12_conversions_are_inverse",
    "C12_ideal_gas_law",
    "C12_increasing_and_positive",
    "C12_perfect_gas_is_lawful"
   ],
   "note": "Over R; construction modelled with NaN and infinities."
  },
  {
   "property": "C13",
   "status": "proved",
   "theorems": [
    "C13_round_trips",
    "C13_components",
    "C13_internal_energy",
    "C13_arrays_prim_cons_prim",
    "C13_arrays_cons_prim_cons"
   ],
   "note": "For every lawful equation of state (perfect gas is one: C12_perfect_gas_is_lawful), positive density and pressure/internal energy; array conversions for every range predicate."
  },
  {
   "property": "C14",
   "status": "proved",
   "theorems": [
    "C14_symmetric_odd_homogeneous",
    "C14_zero_at_extrema",
    "C14_sign_and_bound",
    "C14_bound_in_magnitude",
    "C14_values"
   ],
   "note": ""
  },
  {
   "property": "C15",
   "status": "proved",
   "theorems": [
    "C15_faces_average_to_the_cell",
    "C15_constants_preserved",
    "C15_linear_exact",
    "C15_monotone_on_regular_meshes",
    "C15_minmod_monotone_on_any_mesh",
    "C15_van_leer_overshoots_on_stretched_mesh",
    "C15_kernel_range"
   ],
   "note": "Monotonicity outside regular meshes holds for Minmod only; VanLeer overshoot on a stretched mesh is proved."
  },
  {
   "property": "C16",
   "status": "proved",
   "theorems": [
    "C16_solvers_consistent",
    "C16_flux_routines"
   ],
   "note": "For every equation of state satisfying lawful_eos."
  },
  {
   "property": "C17",
   "status": "proved",
   "theorems": [
    "C17_hll_upwinds",
    "C17_hllc_upwinds"
   ],
   "note": "HLLC for strictly supersonic states, HLL also for sonic ones."
  },
  {
   "property": "C18",
   "status": "proved",
   "theorems": [
    "C18_mirror_symmetric"
   ],
   "note": "All three solvers, no exception."
  },
  {
   "property": "C19",
   "status": "proved",
   "theorems": [
    "C19_hllc_keeps_contacts",
    "C19_hllc_stationary_contact",
    "C19_hll_diffuses_contacts"
   ],
   "note": ""
  },
  {
   "property": "C20",
   "status": "partial",
   "theorems": [
    "C20_walls_are_impermeable",
    "C20_closed_box_conserves",
    "C20_gravity_through_the_wall_refuted"
   ],
   "note": "refuted: uniform gravity normal to the wall drives the mass flux rho g dt/2 through it (proved for every such run at rest). Impermeability proved for every run, solver, limiter and process grid when gravity has no component normal to the wall, the mesh is Cartesian and the two ghost widths mirror the cells (regular meshes); conservation in boxes mixing walls and periodic directions proved. Ghost widths that do not mirror (stretched meshes) are excluded by hypothesis."
  },
  {
   "property": "C21",
   "status": "proved",
   "theorems": [
    "C21_mass_balance",
    "C21_energy_balance",
    "C21_momentum_balance"
   ],
   "note": "For arbitrary reconstructed states, every box, every geometry; momentum in Cartesian geometry."
  },
  {
   "property": "C22",
   "status": "proved",
   "theorems": [
    "C22_periodic_runs_conserve"
   ],
   "note": "Cartesian, any process grid, any field, any number of steps and dt; widths periodic in the ghosts (as regular meshes give). Mass and momentum also with pressure fix or user step on."
  },
  {
   "property": "C23",
   "status": "proved",
   "theorems": [
    "C23_uniform_flow_preserved"
   ],
   "note": "Whole runs on any process grid; walls parallel to the flow; the pressure fix must not be triggered by the state."
  },
  {
   "property": "C24",
   "status": "proved",
   "theorems": [
    "C24_uniform_gas_at_rest_stays"
   ],
   "note": "Any geometry, whole runs on any process grid."
  },
  {
   "property": "C25",
   "status": "proved",
   "theorems": [
    "C25_scalar_mass_balance",
    "C25_scalars_in_bounds",
    "C25_uniform_scalar_stays_uniform"
   ],
   "note": "Bounds in every cell after every step; uniformity as long as no density met is zero; conservation of scalar mass where nothing is clamped."
  },
  {
   "property": "C26",
   "status": "proved",
   "theorems": [
    "C26_every_step_of_a_run",
    "C26_time_step",
    "C26_scales_inversely"
   ],
   "note": "All cells including ghosts; ghost widths may be negative but not zero (a ghost cell centred on r = 0 would give an infinite rate)."
  },
  {
   "property": "C27",
   "status": "proved",
   "theorems": [
    "C27_reductions_do_not_depend_on_the_grid"
   ],
   "note": "Any process grid and any order and association of the reductions, over R."
  },
  {
   "property": "C28",
   "status": "partial",
   "theorems": [
    "C28_accesses_stay_inside",
    "C28_runs_complete",
    "C28_one_ghost_layer_reads_outside_refuted",
    "C28_no_ghost_layer_is_rejected"
   ],
   "note": "refuted: one ghost layer is accepted and every run then reads outside the arrays in its first reconstruction; no ghost layer is rejected in the first iteration. Proved: with two or more, no access of a whole run (start, any number of iterations, any branches, moving grid, all setups, gravities, boundary conditions, process grids) leaves its view, and the run completes unless refused. Not covered: buffers of MPI and file output."
  },
  {
   "property": "C29",
   "status": "proved",
   "theorems": [
    "C29_only_energy_of_cold_cells"
   ],
   "note": "Whole step with and without the fix, any state, process grid, solver."
  },
  {
   "property": "C30",
   "status": "partial",
   "theorems": [
    "C30_energy_after_the_fix_partial",
    "C30_fix_takes_the_work_of_gravity_refuted",
    "C30_negative_internal_energy_refuted"
   ],
   "note": "refuted: the fix uses the old kinetic energy with the new momentum; exact formula for what it leaves proved, with a state whose internal energy turns negative."
  },
  {
   "property": "C31",
   "status": "partial",
   "theorems": [
    "C31_uniform_flow_on_even_mesh",
    "C31_shear_is_heated_refuted",
    "C31_uniform_flow_on_stretched_mesh_refuted"
   ],
   "note": "refuted in 2D/3D (shear on even meshes, uniform flow on stretched ones); proved: uniform flow in 1D or on even meshes is left alone."
  },
  {
   "property": "C32",
   "status": "proved",
   "theorems": [
    "C32_uniform",
    "C32_point_mass",
    "C32_internal_mass",
    "C32_mass_of_the_gas",
    "C32_enclosed_mass_increases",
    "C32_radial_splitting_refused"
   ],
   "note": "Uniform, point mass, internal mass (inside any run on any accepted process grid); refusal of radial splitting; mass of the gas on whole-sphere meshes."
  },
  {
   "property": "C33",
   "status": "proved",
   "theorems": [
    "C33_gravity_in_the_update",
    "C33_gravity_in_the_half_step",
    "C33_update_writes_only_its_range"
   ],
   "note": "Update and half step."
  },
  {
   "property": "C34",
   "status": "proved",
   "theorems": [
    "C34_effect_of_the_user_step",
    "C34_nickel_rate"
   ],
   "note": "Effect inside a whole step; positivity, decay, total released energy of the nickel rate."
  },
  {
   "property": "C35",
   "status": "proved",
   "theorems": [
    "C35_any_process_grid",
    "C35_with_cfl_time_steps"
   ],
   "note": "Whole runs, all solvers, limiters, boundary mixes, gravity models, pressure fix and user step, ghosts included; time steps given or chosen by CFL. Grid shift and output are outside the step."
  },
  {
   "property": "C36",
   "status": "proved",
   "theorems": [
    "C36_run_stays_physical",
    "C36_restarted_run",
    "C36_longest_steps",
    "C36_perfect_gas"
   ],
   "note": "Proved for whole runs of the time loop, fresh or restarted (any number of iterations, output schedule, end time, process grid, boundary conditions; ghost cells and output files included), and more than asked: HLL with cfl <= 1/(ndim q) on meshes whose neighbouring widths are in a ratio at most q, HLLC with half of that. Needs of the equation of state that P^2 < 2 rho c^2 e (shown for every perfect gas the program accepts)."
  },
  {
   "property": "C37",
   "status": "proved",
   "theorems": [
    "C37_time_advances_to_the_end"
   ],
   "note": "Any dynamics, any wall-clock behaviour; exact arithmetic (see C46 for doubles)."
  },
  {
   "property": "C38",
   "status": "proved",
   "theorems": [
    "C38_terminates_with_an_output"
   ],
   "note": "Any dynamics and clock; the loop is left after 1..max(1, max_iter - iter) iterations, by exit or exception."
  },
  {
   "property": "C39",
   "status": "proved",
   "theorems": [
    "C39_iteration_outputs"
   ],
   "note": "Also with time outputs: every multiple of the frequency is written."
  },
  {
   "property": "C40",
   "status": "partial",
   "theorems": [
    "C40_scheduled_times",
    "C40_first_output_at_the_start_refuted"
   ],
   "note": "refuted: a first output time not after the start aborts every run; proved for first output times after the start."
  },
  {
   "property": "C41",
   "status": "proved",
   "theorems": [
    "C41_consecutive_ids_and_distinct_names",
    "C41_also_after_a_restart",
    "C41_names_determine_ids"
   ],
   "note": "Ids of a run (also the emergency output) and of its continuation are 0,1,2,...; file names are injective in the id."
  },
  {
   "property": "C42",
   "status": "proved",
   "theorems": [
    "C42_restart_continues_the_run",
    "C42_restart_of_an_interrupted_run"
   ],
   "note": "Restart on any process grid; after an output of the uninterrupted run (ids equal) or after an interruption (ids shifted by at most one). Exact arithmetic, no grid shift; stored states must be physically admissible."
  },
  {
   "property": "C43",
   "status": "partial",
   "theorems": [
    "C43_restart_before_deactivation_partial",
    "C43_wall_comes_back_after_restart_refuted"
   ],
   "note": "refuted: the deactivation of the shift and the replaced outer boundary condition are not in the file; the restarted run has the boundary condition of the parameter file again. Proved: restart equivalence (coordinates, boundary conditions, arrays, files; any process grids) from files written before the deactivation, or if the outer boundary is a null-gradient one from the start."
  },
  {
   "property": "C44",
   "status": "partial",
   "theorems": [
    "C44_no_scheduled_output_is_lost",
    "C44_scheduled_output_skipped_refuted"
   ],
   "note": "refuted: a last step beyond both t_end and the next output time loses that output; proved when t_end is scheduled or was not reached."
  },
  {
   "property": "C45",
   "status": "partial",
   "theorems": [
    "C45_negative_energy_stops_the_run",
    "C45_check_sees_every_negative_value",
    "C45_nan_goes_unnoticed_refuted"
   ],
   "note": "refuted for NaN (never detected); proved for negative energies: whole loop in exact arithmetic on any process grid, and the reduction in binary64 for any schedule of threads and processes."
  },
  {
   "property": "C46",
   "status": "partial",
   "theorems": [
    "C46_ends_exactly_from_the_second_half",
    "C46_within_one_ulp",
    "C46_may_end_before_t_end_refuted"
   ],
   "note": "refuted in general (one ulp short); proved exact from 0 or the second half of the run, and within one ulp otherwise."
  },
  {
   "property": "C47",
   "status": "partial",
   "theorems": [
    "C47_reads_see_latest_partial",
    "C47_shared_memory",
    "C47_stale_after_wrap_refuted"
   ],
   "note": "DualView (arbitrary histories of accesses and stores in either space). Proved for histories with fewer than 2^32 write accesses between transfers, and for all histories when the two memories coincide; refuted beyond: the 32-bit flags wrap."
  },
  {
   "property": "C48",
   "status": "proved",
   "theorems": [
    "C48_values_as_written",
    "C48_rendered"
   ],
   "note": "vendor/inih ini.c and INIReader.cpp modelled byte by byte. Proved for every file whose lines fit the 200-byte buffer and contain no NUL: with any layout (blanks, comments, continuation lines, either separator, last newline missing) the reader returns exactly the written entries, case-insensitively, duplicates joined by newlines, defaults otherwise; and every well-formed configuration, rendered, is read back. Names are looked up without '='; section names of at most 49 bytes; no byte order mark."
  },
  {
   "property": "C49",
   "status": "partial",
   "theorems": [
    "C49_booleans",
    "C49_integers_partial",
    "C49_reals_partial",
    "C49_trailing_text_refuted"
   ],
   "note": "refuted: text after a number is ignored without report (\"1e3\" is the integer 1, \"0x10\" is 0, \"1,5\" is the real 1). Proved: booleans accept exactly the documented spellings; which strings integers accept, exactly; decimal literals give the nearest double, overflow throws. Hexadecimal, inf and nan spellings of reals are modelled but only used by exclusion."
  },
  {
   "property": "C50",
   "status": "partial",
   "theorems": [
    "C50_inert_lines_partial",
    "C50_trailing_blanks_partial",
    "C50_layout_partial",
    "C50_first_bad_line_partial",
    "C50_indentation_refuted",
    "C50_long_lines_refuted",
    "C50_hash_refuted"
   ],
   "note": "refuted: indentation turns a setting into a continuation of the previous value; lines longer than the buffer are silently split; '#' is no inline comment. Proved: empty and comment lines can be inserted at any line boundary of any file, trailing blanks on any line, layouts with the same meaning are equivalent, and the first malformed line is reported."
  },
  {
   "property": "C51",
   "status": "proved",
   "theorems": [
    "C51_names",
    "C51_configuration"
   ],
   "note": "All names accepted by the factories (limiters, solvers, boundary conditions, grid types, user step) and the whole operator construction of main; a restart does not look at the grid type name, so it is not required to be valid there."
  },
  {
   "property": "C52",
   "status": "proved",
   "theorems": [
    "C52_int_cast"
   ],
   "note": "int_cast between any two integer types of any width and signedness."
  },
  {
   "property": "C53",
   "status": "proved",
   "theorems": [
    "C53_well_formed",
    "C53_lists_every_output",
    "C53_references_exist"
   ],
   "note": "The text the writer prints is proved to represent the expected tree of elements, for output prefixes without markup characters (see C72) and printed numbers without quotes; every reference names a dataset of the file with its extents (at most ten passive scalars, as many as the file description declares)."
  },
  {
   "property": "C54",
   "status": "proved",
   "theorems": [
    "C54_coordinates_move_by_one",
    "C54_coordinates_after_many_shifts",
    "C54_geometric_meshes_are_kept",
    "C54_a_shift_moves_every_cell_by_one",
    "C54_other_steps",
    "C54_independent_of_the_process_grid",
    "C54_v1d_decides_alike"
   ],
   "note": "Exact arithmetic. A step with a grid shift: coordinates, all owned cells, every process grid, any number of shifts; the shift criterion is any function of the global fields (and v1d's with positive threshold)."
  },
  {
   "property": "C55",
   "status": "proved",
   "theorems": [
    "C55_unique_root_and_newton_iterates",
    "C55_each_step_reduces_the_error",
    "C55_result_bounds",
    "C55_construction_accepts_exactly"
   ],
   "note": "Real arithmetic (the exponent 1/4 as a real power). Unique root, identification of the result with Newton's method from the larger of the two guesses, one-sidedness, decrease by a quarter and quadratic rate of every step, bound on the result, tight bound when radiation <= 10^10 gas; the constructor's validation."
  },
  {
   "property": "C56",
   "status": "proved",
   "theorems": [
    "C56_broadcast",
    "C56_broadcast_constant",
    "C56_profile_setup",
    "C56_profile_setup_runs"
   ],
   "note": "broadcast of constants and profiles, and the profile setup on every process grid."
  },
  {
   "property": "C57",
   "status": "partial",
   "theorems": [
    "C57_fires_iff_the_window_is_fast_partial",
    "C57_never_misses_a_fast_cell",
    "C57_refuses_windows_beyond_the_last_process",
    "C57_same_on_all_process_grids",
    "C57_window_reaches_too_far_refuted",
    "C57_floor_depends_on_the_process_grid_refuted"
   ],
   "note": "refuted: (1) the window begins at Nx - cell_shift without the ghost offset and so covers cell_shift + Nghost cells; (2) the floor 0 only exists when the first direction is distributed, so a non-positive threshold decides differently on one process. Proved: exact firing condition for positive thresholds, no fast cell among the last cell_shift ones is missed, refusal condition, same decision on all process grids."
  },
  {
   "property": "C58",
   "status": "proved",
   "theorems": [
    "C58_axes_alike"
   ],
   "note": "Reconstruction, half step and update."
  },
  {
   "property": "C59",
   "status": "proved",
   "theorems": [
    "C59_written_field",
    "C59_written_component",
    "C59_written_once",
    "C59_read_field",
    "C59_read_component",
    "C59_other_process_grid"
   ],
   "note": "Row-major hyperslab transfers of the PDI description between left-layout arrays with ghosts and datasets, all fields and vector components, any order of the processes; HDF5 itself is modelled by the selection semantics."
  },
  {
   "property": "C60",
   "status": "proved",
   "theorems": [
    "C60_hll_two_waves",
    "C60_hllc_three_waves",
    "C60_low_mach_acoustic_relations",
    "C60_solver_selected"
   ],
   "note": ""
  },
  {
   "property": "C61",
   "status": "partial",
   "theorems": [
    "C61_half_step",
    "C61_full_step_partial",
    "C61_angular_momentum_created_refuted"
   ],
   "note": "refuted for the full step (spurious torque given exactly, witness with HLL); proved for the half step."
  },
  {
   "property": "C62",
   "status": "partial",
   "theorems": [
    "C62_uniform_state_partial",
    "C62_polar_centrifugal_force_refuted"
   ],
   "note": "refuted for the polar centrifugal term (wrong by cot(theta)/2); radial momentum exact; exact error of the other terms proved."
  },
  {
   "property": "C63",
   "status": "proved",
   "theorems": [
    "C63_reflection_symmetric"
   ],
   "note": "Under admissible reconstructed states (needed by the HLLC denominators)."
  },
  {
   "property": "C64",
   "status": "partial",
   "theorems": [
    "C64_free_fall",
    "C64_free_fall_cools_refuted"
   ],
   "note": "refuted: internal energy decreases by rho|g|^2 dt^2/2 per step; density and acceleration exact."
  },
  {
   "property": "C65",
   "status": "partial",
   "theorems": [
    "C65_step_after_the_end_refuted",
    "C65_restart_before_the_end"
   ],
   "note": "refuted: one step with non-positive dt and an extra file; proved that restarts before t_end never go back."
  },
  {
   "property": "C66",
   "status": "proved",
   "theorems": [
    "C66_counters_do_not_overflow"
   ],
   "note": "Condition iter_freq + max(1,max_iter) <= INT_MAX; example shows overflow without it."
  },
  {
   "property": "C67",
   "status": "partial",
   "theorems": [
    "C67_restart_with_a_consistent_schedule",
    "C67_smaller_time_interval_refuted",
    "C67_smaller_iteration_interval_refuted"
   ],
   "note": "refuted for smaller intervals (abort; an output per iteration until caught up); proved when the stored counter fits the new schedule."
  },
  {
   "property": "C68",
   "status": "partial",
   "theorems": [
    "C68_clock_in_doubles",
    "C68_time_may_stall_refuted"
   ],
   "note": "refuted strictness (stall); proved monotone, below t_end until the last step, at most one ulp beyond."
  },
  {
   "property": "C69",
   "status": "partial",
   "theorems": [
    "C69_switches_partial",
    "C69_unknown_switch_accepted_refuted"
   ],
   "note": "refuted: any value but On / UserDefined silently means off. Proved: the switches are on exactly for these values."
  },
  {
   "property": "C70",
   "status": "partial",
   "theorems": [
    "C70_length_check_partial",
    "C70_wrong_length_unnoticed_refuted"
   ],
   "note": "refuted: the assertion adds the truth value of a comparison to the extent; a profile of wrong length passes and is read out of bounds. Proved: it detects exactly empty profiles."
  },
  {
   "property": "C71",
   "status": "partial",
   "theorems": [
    "C71_outputs_since_the_restart_partial",
    "C71_earlier_outputs_dropped_refuted"
   ],
   "note": "refuted: the record is empty after a restart and the file is truncated. Proved: the index lists exactly the outputs since the restart."
  },
  {
   "property": "C72",
   "status": "partial",
   "theorems": [
    "C72_markup_in_prefix_refuted",
    "C72_plain_prefixes_partial"
   ],
   "note": "refuted: nothing is escaped (witness: a prefix with an ampersand). Proved for prefixes without <, > and & that do not start with a blank."
  },
  {
   "property": "C73",
   "status": "partial",
   "theorems": [
    "C73_round_trip_refuted",
    "C73_radiation_dominated_refuted",
    "C73_round_trips_err_upwards"
   ],
   "note": "refuted: in radiation-dominated states (>= 10^14 times the gas) the recovered temperature is at least 30 times too hot and no message can be printed. Proved positively: temperature to energy/pressure is the physical sum, round trips err upwards only, and come back within the tolerance when radiation <= 10^10 gas. Real arithmetic."
  },
  {
   "property": "C74",
   "status": "proved",
   "theorems": [
    "C74_sound_speed_is_isentropic"
   ],
   "note": "At the temperature found by the solver (never below the exact one, see C55). Real arithmetic."
  },
  {
   "property": "C75",
   "status": "partial",
   "theorems": [
    "C75_setups_write_what_exists",
    "C75_missing_scalar_is_written_refuted",
    "C75_missing_component_is_written_refuted",
    "C75_heating_without_scalar_refuted"
   ],
   "note": "refuted: with the default nfx = 0, or in 1d, several setups and the heating step write outside the arrays in every run; proved: when the variables exist, initialisation is inside."
  },
  {
   "property": "C76",
   "status": "proved",
   "theorems": [
    "C76_contacts_keep_velocity_and_pressure",
    "C76_perfect_gas"
   ],
   "note": "Whole runs, all solvers and limiters, any Cartesian mesh, dimension and process grid; perfect gas (internal energy a function of pressure alone), no sources, no pressure fix, walls only along the flow; densities met are assumed positive, which C36 and C77 prove for whole classes of runs."
  },
  {
   "property": "C77",
   "status": "partial",
   "theorems": [
    "C77_first_order_bounds",
    "C77_limited_bounds",
    "C77_van_leer_negative_density_refuted"
   ],
   "note": "refuted: van Leer reconstruction yields negative half-step face densities at every Courant number. Proved: bounds for first order in any dimension, and in one dimension on regular meshes for minmod, van Albada (Courant number at most 1/2 or densities within a factor 3) and van Leer (factor 3). Multi-dimensional second order and HLL not covered."
  },
  {
   "property": "C78",
   "status": "partial",
   "theorems": [
    "C78_start_does_not_depend_on_the_grid",
    "C78_whole_runs",
    "C78_sedov1d_on_a_regular_line",
    "C78_sedov1d_spherical_refuted",
    "C78_sedov1d_plane_refuted",
    "C78_sedov3d_refuted"
   ],
   "note": "proved for all setups but two (v1d: see C56, C57), with composition to whole runs (C35), and for sedov1d on a regular line; refuted: sedov1d in spherical geometry and in 2D, sedov3d"
  },
  {
   "property": "C79",
   "status": "partial",
   "theorems": [
    "C79_stratified_atmosphere_is_hydrostatic",
    "C79_spherical_atmosphere_is_hydrostatic",
    "C79_rayleigh_taylor3d_layers_are_hydrostatic",
    "C79_gases",
    "C79_upward_gravity_refuted",
    "C79_rayleigh_taylor_refuted"
   ],
   "note": "proved for stratified_atm with g<0, eq_hydro_sphe, both layers of rayleigh_taylor3d; refuted: g>0, and rayleigh_taylor 2D (balanced exactly when the densities are equal)"
  },
  {
   "property": "C80",
   "status": "partial",
   "theorems": [
    "C80_ghosts_continue_the_atmosphere",
    "C80_wind_energy_refuted",
    "C80_wind_momentum_refuted",
    "C80_fast_wind_refuted"
   ],
   "note": "proved for a gas at rest; refuted with a wind: energy, momentum, negative internal energy"
  },
  {
   "property": "C81",
   "status": "partial",
   "theorems": [
    "C81_vortex_is_steady_iff",
    "C81_default_velocity_refuted"
   ],
   "note": "exact characterisation: steady iff rho0=1 and u0=0; refuted for the code's default u0=1"
  },
  {
   "property": "C82",
   "status": "partial",
   "theorems": [
    "C82_sedov1d_energy",
    "C82_sedov2d_energy",
    "C82_sedov2d_resolution_refuted",
    "C82_sedov1d_ghosts_refuted",
    "C82_sedov3d_no_blast_refuted",
    "C82_refused_geometries"
   ],
   "note": "sedov1d on a regular line deposits E1/2 whatever the mesh; sedov2d energy computed in closed form, refuted: grows as n^2; sedov1d with 3 ghost layers and sedov3d without a face at r=1: no blast"
  },
  {
   "property": "C83",
   "status": "partial",
   "theorems": [
    "C83_positive_start",
    "C83_perfect_gas",
    "C83_powers_are_defined",
    "C83_bounds",
    "C83_runs_from_setups_stay_physical",
    "C83_advection_tests",
    "C83_uniform_scalar_refuted",
    "C83_tall_domain_refuted"
   ],
   "note": "proved for all setups (heights limited in the Rayleigh-Taylor setups) with composition to whole runs (C36, C77); refuted: the scalar of rayleigh_taylor, its pressure in tall domains; the radiating gas enters through the hypothesis sound_thermo"
  },
  {
   "property": "C84",
   "status": "proved",
   "theorems": [
    "C84_no_deadlock",
    "C84_executions_end",
    "C84_calls_match",
    "C84_result_of_any_schedule",
    "C84_any_schedule_on_any_process_grid"
   ],
   "note": "Each process is a tree of MPI calls (ModelMPI.v) seeing only its own data; any interleaving; waiting rules from 'returns as soon as its data are there' to 'all partners have arrived'. Proved for every launched run (grid objects as constructed, message sizes within int), including error paths: no reachable deadlock, bounded number of steps, every execution completable, calls match, results equal the simultaneous-update semantics used by the other theorems, and equal on any two process grids. Reductions are exact (real numbers), so no rounding differences between reduction orders."
  },
  {
   "property": "C85",
   "status": "partial",
   "theorems": [
    "C85_errors_are_unanimous",
    "C85_missing_boundary_deadlocks",
    "C85_missing_boundary_refuted"
   ],
   "note": "refuted: a UserDefined boundary condition in a setup without one throws only in processes at that border; whenever some process does not touch the border, a state in which processes wait for ever is reachable. Proved: with boundary conditions that exist all processes return the same verdict or all throw the same exception, in every schedule."
  },
  {
   "property": "C86",
   "status": "partial",
   "theorems": [
    "C86_any_arithmetic",
    "C86_binary64",
    "C86_given_time_steps",
    "C86_nan_refuted",
    "C86_agrees_with_the_exact_model",
    "C86_literals"
   ],
   "note": "Proved for every arithmetic (every record of operations, nothing assumed about rounding): any process grid and any reduction order give the bits of the single-process run when no inverse time step is NaN (-0 cannot be told from 0 by <, so it is excluded too; it cannot arise as a sum of absolute values plus sound speeds). Instance binary64; bridge to the exact model; literals correctly rounded. With given time steps no condition is needed. refuted: with a NaN among the values the maximum depends on the order. Not covered: internal-mass gravity."
  },
  {
   "property": "C87",
   "status": "partial",
   "theorems": [
    "C87_restart_refuted",
    "C87_exact_conversions"
   ],
   "note": "refuted: in binary64 with the perfect gas the conversion P -> E -> P is not the identity, so a restart changes pressure and energy (uniform flow; any process grids; any number of steps before). Proved: for every arithmetic, a restart on any other process grid is bitwise exact when the conversions are exact on the cells of the file."
  },
  {
   "property": "C88",
   "status": "partial",
   "theorems": [
    "C88_uniform_flow",
    "C88_surviving_scalars",
    "C88_binary64",
    "C88_scalars_refuted"
   ],
   "note": "Proved for every arithmetic in which x-x=0 and multiples of 0 are negligible (binary64 is one) and while no number overflows: density, momentum, energy, velocity and pressure keep all bits, the scalars evolve by fx -> clamp(fx*rho/rho). refuted for the scalars: 0.1 in a flow of density 3 changes at the first step."
  },
  {
   "property": "C89",
   "status": "partial",
   "theorems": [
    "C89_the_run_is_the_one_described",
    "C89_other_options_are_ignored",
    "C89_unknown_options_refuted"
   ],
   "note": "proved for all files in the grammar of C48: the run is the one of the entries of the file, through a table of options independent of the order of reading; two files that agree on the options in the table start the same run or fail alike. refuted: an option that does not exist is not reported; inputs/shock_tube1d_sph.ini contains one. The setup v1d is not in the table."
  },
  {
   "property": "C90",
   "status": "partial",
   "theorems": [
    "C90_accepted_files",
    "C90_meaningless_values_refuted",
    "C90_overflow_refuted",
    "C90_backwards_refuted"
   ],
   "note": "proved: every accepted file has gamma > 1, mu > 0, extents >= 0, operators from the tables. refuted: zero cells, no ghosts, exchanged bounds, end before beginning, negative CFL number and iteration count are accepted; a negative CFL number makes the time decrease for the whole run; an extent of about 2^31 is a signed overflow."
  },
  {
   "property": "C91",
   "status": "proved",
   "theorems": [
    "C91_the_file_is_executed",
    "C91_any_process_grid",
    "C91_totals_are_conserved",
    "C91_results_are_physical"
   ],
   "note": "For new runs on the regular grid, default boundary order, without moving grid and operators from the setup header. Grid independence, totals and positivity exclude the two blast setups that look at ranks (C78); positivity: perfect gas, first order, no gravity."
  },
  {
   "property": "C92",
   "status": "partial",
   "theorems": [
    "C92_the_file_holds_the_run",
    "C92_read_on_any_process_grid",
    "C92_eleven_scalars_refuted"
   ],
   "note": "Exact contents of the file on any process grid and reading it back on any other proved; refuted beyond ten passive scalars (only fx0..fx9 are declared). Trusted: PDI/Decl'HDF5 executes the declarations of config.yaml.cpp as documented; attributes about the build left out."
  },
  {
   "property": "C93",
   "status": "partial",
   "theorems": [
    "C93_accepted_iff",
    "C93_same_ghosts_same_mesh",
    "C93_other_mesh_refuted",
    "C93_displaced_fields_refuted"
   ],
   "note": "refuted: with different Nghost a file of another mesh is accepted and its fields are displaced. Proved: exact condition of acceptance; with the same Nghost only the same mesh is accepted."
  },
  {
   "property": "C94",
   "status": "proved",
   "theorems": [
    "C94_restart_from_an_output",
    "C94_any_output_of_a_first_order_gas",
    "C94_restart_after_the_time_limit"
   ],
   "note": "Perfect gas, fixed grid, exact reals, at most ten scalars. Valid densities and energies in the output are a hypothesis (conclusion of C91 for first-order gases, for which the theorem is also stated without it). Bitwise restart is refuted in C87."
  },
  {
   "property": "C95",
   "status": "proved",
   "theorems": [
    "C95_launched_processes_execute_the_file",
    "C95_refused_by_all_processes"
   ],
   "note": "proved for new runs on the regular grid without UserDefined operators (the runs of C91); MPI_Cart_create and MPI_Cart_sub are modelled as barriers; a process on which int overflows at start-up (undefined behaviour) is excluded in the second theorem; a restart is not composed here (C92-C94)"
  },
  {
   "property": "C96",
   "status": "partial",
   "theorems": [
    "C96_processes_execute_the_profiles",
    "C96_any_process_grid",
    "C96_refused_by_all_processes",
    "C96_profiles_of_no_scalars_refuted",
    "C96_meaningful_profiles_refuted"
   ],
   "note": "Proved: coordinates, initial fields, processes in any schedule, any process grid, refusal by all processes of exactly the files whose datasets are missing or have other extents. refuted: profiles of the scalars are demanded also when there are none; meaningless contents (shells without thickness, negative density) are executed. Not composed: restarts of v1d from its own outputs."
  },
  {
   "property": "C97",
   "status": "partial",
   "theorems": [
    "C97_first_order_step",
    "C97_binary64",
    "C97_same_time_step",
    "C97_plane_of_symmetry",
    "C97_walls_hold",
    "C97_walls_leak_refuted",
    "C97_limiters_refuted"
   ],
   "note": "Proved in every sign-symmetric arithmetic, an instance of which is binary64 with a perfect gas: one first-order step with HLL or low-Mach fluxes maps mirror images to mirror images up to the sign of zeros (density, momentum and energy; passive scalars are not covered), equal inverse time steps, self-opposite fluxes at a plane of symmetry, and zero (or NaN) fluxes of mass, tangential momentum and energy through walls. Refuted: HLLC leaks mass by round-off through a wall; the three limiters are not symmetric in binary64, so the property fails with second order."
  },
  {
   "property": "C98",
   "status": "proved",
   "theorems": [
    "C98_closed_form",
    "C98_order_does_not_matter",
    "C98_runs_do_not_depend_on_the_order"
   ],
   "note": "closed form of the ghost cells after the boundary update (all processes, edges and corners, arbitrary old ghost values), independence of the order of the faces, for one update and for whole runs (any geometry, gravity, pair of process grids); conditions UserDefined are not included"
  },
  {
   "property": "C99",
   "status": "partial",
   "theorems": [
    "C99_axes_renamed",
    "C99_symmetric_runs_stay_symmetric",
    "C99_mirror_image_partial",
    "C99_pressure_fix_in_a_mirror_refuted"
   ],
   "note": "renamed axes: whole runs incl. pressure fix, user step, uniform gravity, all conditions, own time steps; corollary: symmetric about a diagonal stays symmetric. Mirror image: partial, whole runs without the pressure fix and as long as the reconstructed states are physical (positive density and pressure; needed because the model divides by zero otherwise). Refuted: with the pressure fix in two dimensions a shear is cooled and its mirror image heated. Cartesian geometry; moving grids not included"
  },
  {
   "property": "C100",
   "status": "proved",
   "theorems": [
    "C100_any_process_grid",
    "C100_restart_continues_the_run",
    "C100_ghost_cells_hold_the_profile",
    "C100_starts_in_the_profile"
   ],
   "note": "whole main loop with user-defined faces; the restart theorem is for gravity that only depends on the mesh (uniform, point mass); the two statements on the profile are for a perfect gas at rest (for moving gas see C80); the order of faces, the other conditions and the process grid are arbitrary"
  },
  {
   "property": "C101",
   "status": "proved",
   "theorems": [
    "C101_the_file_is_executed",
    "C101_missing_conditions_are_refused",
    "C101_without_own_faces",
    "C101_any_process_grid",
    "C101_first_output_is_the_profile",
    "C101_ghost_cells_keep_the_profile"
   ],
   "note": "own_program composes start-up from the parameter file (C89) with the loop of C100; new runs on the regular grid, default order of the faces, no moving grid, no user step from the setup header; exact arithmetic; restarts with user-defined faces are C100"
  },
  {
   "property": "C102",
   "status": "partial",
   "theorems": [
    "C102_one_step",
    "C102_atmosphere_stays_at_rest_refuted",
    "C102_spurious_rates",
    "C102_rates_vanish_with_the_cell_width"
   ],
   "note": "refuted: after every sufficiently short step every cell of the atmosphere is heavier and moves upwards. Proved: the state after one step of any (subsonic) duration in closed form in every owned cell on any process grid, the rates for short steps, and bounds on them that vanish with the cell width. Only the first-order scheme with HLL on even Cartesian cells."
  },
  {
   "property": "C103",
   "status": "partial",
   "theorems": [
    "C103_state_after_any_steps",
    "C103_cooling_law",
    "C103_no_step_after_the_lifetime",
    "C103_falls_to_the_end_refuted"
   ],
   "note": "refuted: every run whose end time lies beyond a finite lifetime (given explicitly) is given up with negative internal energy. Proved: density and velocity are exact and the internal energy is known exactly after any steps, in all cells on any process grid; a logarithmic cooling law for the program's own steps; no step starts after the lifetime; bound on the number of steps."
  },
  {
   "property": "C104",
   "status": "partial",
   "theorems": [
    "C104_hllc_refuted",
    "C104_low_mach_refuted",
    "C104_low_mach_density",
    "C104_perfect_gas"
   ],
   "note": "refuted: with Low Mach at every Courant number, and with HLLC at every Courant number between 3/4 and 1, a run of three cells of positive density and pressure ends with the error of an invalid internal energy in its second iteration, while the same run with HLL never does; proved instead: under Low Mach an iteration from positive states keeps all densities positive up to cfl = 1/(2 ndim q), for every gas with P <= rho c^2 (perfect gases); HLL and HLLC at half the number are in C36"
  },
  {
   "property": "C105",
   "status": "proved",
   "theorems": [
    "C105_whole_runs",
    "C105_restarted_runs",
    "C105_reductions",
    "C105_perfect_gas",
    "C105_radiating_gas"
   ],
   "note": "proved for whole fresh and restarted runs (verdict, iterations, ids, times, files, all arrays) and for perfect gases of any molecular weight and radiating gases; hypotheses state where constants of nature enter: self-gravity needs D l^2 = V^2, radiation needs the unit of pressure, nickel heating the units of length and velocity"
  },
  {
   "property": "C106",
   "status": "proved",
   "theorems": [
    "C106_whole_runs",
    "C106_no_other_runs",
    "C106_start_and_step",
    "C106_rounded_arithmetic",
    "C106_perfect_gas",
    "C106_binary64_range"
   ],
   "note": "Both directions: the shifted run is a run in the new units, and every run in the new units is one. The range of the exponents is not bounded in the rounded instance; C106_binary64_range shows that in binary64 a change of units by 2^-600 loses the kinetic energy to underflow, so for binary64 the statement covers runs without overflow and underflow. Internal-mass gravity (not transcribed operation by operation) and nickel heating (whose times are in days) are excluded."
  },
  {
   "property": "C107",
   "status": "partial",
   "theorems": [
    "C107_same_flow_partial",
    "C107_shorter_steps",
    "C107_pressure_fix_refuted"
   ],
   "note": "refuted with the pressure fix on meshes uneven along an additional axis (C107_pressure_fix_refuted, the energies after one step in closed form). Proved (C107_same_flow_partial): whole runs with given time steps, any nd <= nd', ghost cells included, any process grids, without the fix on any mesh or with it on widths even along the additional axes; in spherical geometry without the fix and with HLLC or Low Mach (HLL needs positive wave speeds there, not assumed); gravity of the internal mass is left out. C107_shorter_steps: the run with more dimensions chooses a strictly shorter time step from the same physical state, stated on one process (any other grid by C27)."
  },
  {
   "property": "C108",
   "status": "proved",
   "theorems": [
    "C108_valid_states",
    "C108_parameter_lines",
    "C108_equal_sizes",
    "C108_blocks_visit_once",
    "C108_empty_blocks",
    "C108_uniform_ball",
    "C108_dual_view_states"
   ],
   "note": "is_valid is called by no source file. The radial gravity test says the function does not work in 1D and 2D; the theorem covers them: it is the grid set up by the test that has no cells there. Real arithmetic for the gravity part; the value of a parameter line is its text (formatting of numbers by the stream is outside the model). The DualView part excludes flags at the end of the 32-bit range, where C47 is refuted."
  },
  {
   "property": "C109",
   "status": "partial",
   "theorems": [
    "C109_layers_stay",
    "C109_hll_refuted",
    "C109_narrower_cell_refuted"
   ],
   "note": "refuted: with HLL (one dimension, Cartesian, first order: every cell beside a jump of density changes in the first step) and with van Leer slopes where a cell is followed by a narrower one (a negative face density); proved for HLLC and Low Mach in both geometries, with or without pressure fix, with first order and Minmod on every mesh and with van Leer and van Albada on meshes of equal widths along each direction, for all runs, in exact real arithmetic"
  }
 ]
}