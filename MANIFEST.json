{
 "claims": [
  {
   "property": "C01",
   "status": "proved",
   "theorems": [
    "C01_charge_conserved",
    "C01_node_receives_cloud_share"
   ],
   "note": "Exact (real) arithmetic. Second theorem: per-node charge equals the geometric cloud share for r >= dr/2."
  },
  {
   "property": "C02",
   "status": "proved",
   "theorems": [
    "C02_local_one_signed_in_bounds",
    "C02_dead_particle_changes_nothing"
   ],
   "note": "Exact (real) arithmetic; closed domain."
  },
  {
   "property": "C03",
   "status": "proved",
   "theorems": [
    "C03_density_is_sum_of_particles",
    "C03_order_independent",
    "C03_threads_independent",
    "C03_total_charge_of_list"
   ],
   "note": "Exact (real) arithmetic; threads perform whole increments atomically, as the property states."
  },
  {
   "property": "C04",
   "status": "proved",
   "theorems": [
    "C04_in_cell_continuity"
   ],
   "note": "Exact (real) arithmetic; r >= dr/2 (what the mover guarantees); both extents at least MNZL=1e-15 (shorter ones are the axial/radial case C06)."
  },
  {
   "property": "C05",
   "status": "partial",
   "theorems": [
    "C05_border_crossing_continuity_partial",
    "C05_particle_list_continuity_partial",
    "C05_corner_crossing_refuted",
    "C05_short_leg_refuted"
   ],
   "note": "Proved for all paths of less than one step whose legs are >= MNZL and which avoid grid nodes; refuted for a path exactly through a node (nothing deposited). Also refuted for paths that avoid nodes but have a leg shorter than MNZL in one direction: both legs are skipped and nothing is deposited."
  },
  {
   "property": "C06",
   "status": "partial",
   "theorems": [
    "C06_axial_continuity",
    "C06_radial_in_cell_continuity_partial",
    "C06_radial_crossing_refuted"
   ],
   "note": "Axial moves and radial moves inside a cell proved; a radial move over a border balances iff dr = 1 (wrong operator precedence in the code)."
  },
  {
   "property": "C07",
   "status": "proved",
   "theorems": [
    "C07_azimuthal_total",
    "C07_azimuthal_per_node",
    "C07_azimuthal_only"
   ],
   "note": "Exact (real) arithmetic."
  },
  {
   "property": "C08",
   "status": "proved",
   "theorems": [
    "C08_divH_unchanged",
    "C08_divH_run",
    "C08_divH_zero_from_start"
   ],
   "note": "Exact real arithmetic. flux of H out of every cell unchanged by the magnetic update given E_phi=0 at the right wall; run version from any conducting state; zero from program start."
  },
  {
   "property": "C09",
   "status": "proved",
   "theorems": [
    "C09_gauss_unchanged",
    "C09_gauss_run",
    "C09_gauss_with_particles_partial"
   ],
   "note": "Residual unchanged for any current that balances the density change, one update and any number of steps, insulating medium (sigma=0, epsilon>0). The _partial theorem combines it with the deposition theorem C05 and inherits C05's restrictions."
  },
  {
   "property": "C10",
   "status": "proved",
   "theorems": [
    "C10_walls_unchanged",
    "C10_walls_zero_from_start"
   ],
   "note": ""
  },
  {
   "property": "C11",
   "status": "proved",
   "theorems": [
    "C11_efield_schedule_independent",
    "C11_hfield_schedule_independent",
    "C11_init_schedule_independent",
    "C11_no_data_race"
   ],
   "note": "Any distribution of iterations to threads, any interleaving of individual loads and stores (sequentially consistent; the loops are shown race free)."
  },
  {
   "property": "C12",
   "status": "partial",
   "theorems": [
    "C12_subluminal",
    "C12_subluminal_run",
    "C12_adaptive_refuted",
    "C12_adaptive_fast_partial"
   ],
   "note": "Proved for the relativistic Boris and the Vay variant (single push and any history). The default adaptive variant reads the uninitialised local use_rel (particles.cpp:1034); with value false it produces superluminal particles and the next push exits: C12_adaptive_refuted. C12_adaptive_fast_partial covers the adaptive variant when its relativistic branch is taken."
  },
  {
   "property": "C13",
   "status": "proved",
   "theorems": [
    "C13_magnetic_no_work",
    "C13_no_fields_no_change",
    "C13_with_rounding"
   ],
   "note": "Components smaller than MNZL=1e-15 are rounded to 0 by the code; C13_with_rounding covers them."
  },
  {
   "property": "C14",
   "status": "proved",
   "theorems": [
    "C14_electric_relativistic",
    "C14_electric_classic",
    "C14_opposite_push_restores",
    "C14_lorentz_midpoint_relativistic",
    "C14_lorentz_midpoint_classic"
   ],
   "note": "Also with magnetic field: midpoint rule of the Lorentz equation, relativistic and classical."
  },
  {
   "property": "C15",
   "status": "partial",
   "theorems": [
    "C15_stays_in_domain_partial",
    "C15_relativistic_particle_partial",
    "C15_refuted",
    "C15_leaves_grid_refuted"
   ],
   "note": "Holds when the particle moves at most dr(1-dr/(4R)) per step: stays on the grid, half a cell from axis and ends, radius only slightly beyond the reflecting radius. The exact claim (half a cell from the outer wall, one cell per step) is false: the wall is tested before the particle is rotated back."
  },
  {
   "property": "C16",
   "status": "partial",
   "theorems": [
    "C16_interpolation_in_bounds_partial",
    "C16_deposits_in_bounds",
    "C16_interpolation_refuted"
   ],
   "note": "Depositions: in bounds for steps of at most 4/5 cell. Interpolation: in bounds inside the domain; a particle slightly beyond the reflecting radius makes H interpolation read past the array (refuted)."
  },
  {
   "property": "C17",
   "status": "partial",
   "theorems": [
    "C17_radius_and_speed_partial",
    "C17_angular_momentum_changed",
    "C17_angular_momentum_refuted"
   ],
   "note": "Radius, z and speed are preserved. The velocity is rotated in the wrong direction: angular momentum changes by 2 y vx (refuted)."
  },
  {
   "property": "C18",
   "status": "partial",
   "theorems": [
    "C18_linear",
    "C18_zero",
    "C18_monotone",
    "C18_uniform_error_partial",
    "C18_uniform_refuted"
   ],
   "note": "Linear, monotone, zero gives zero, relative error at most 3dr/(2r-dr). Exact reproduction of a uniform field is false: wrong cell volumes (refuted)."
  },
  {
   "property": "C19",
   "status": "proved",
   "theorems": [
    "C19_mirrored_digits",
    "C19_terminates",
    "C19_fuel_irrelevant",
    "C19_distinct",
    "C19_equidistributed",
    "C19_base_one_diverges"
   ],
   "note": "Both copies of random_reverse share one model; integers unbounded, arithmetic exact."
  },
  {
   "property": "C20",
   "status": "proved",
   "theorems": [
    "C20_loaded_inside",
    "C20_left_boundary",
    "C20_left_boundary_equal_densities_refuted"
   ],
   "note": "For the left boundary 0 the program always passes; with a positive left boundary and equal densities the formula leaves the domain (finding)."
  },
  {
   "property": "C21",
   "status": "proved",
   "theorems": [
    "C21_total_charge",
    "C21_charge_to_mass",
    "C21_charge_by_radius"
   ],
   "note": ""
  },
  {
   "property": "C22",
   "status": "partial",
   "theorems": [
    "C22_below_sqrt3_partial",
    "C22_moderate_energy_partial",
    "C22_refuted"
   ],
   "note": "False as stated: components are limited one by one, so speeds up to sqrt(3) c occur (C22_refuted). Proved: below sqrt(3) c always, below c for energies up to 0.3 m c^2."
  },
  {
   "property": "C23",
   "status": "partial",
   "theorems": [
    "C23_distinct_in_range",
    "C23_window",
    "C23_count",
    "C23_all_injected_iff",
    "C23_all_injected_refuted",
    "C23_fewer_particles_than_steps",
    "C23_late_start_skips",
    "C23_zero_duration_undefined",
    "C23_binary64_refuted",
    "C23_binary64_successive",
    "C23_binary64_injects"
   ],
   "note": "Distinctness, range, window and counts are proved in exact arithmetic; the last clause, all particles eventually injected, is false unless the number of active steps divides the bunch size (C23_all_injected_iff, C23_all_injected_refuted). In binary64 rounding of the clock makes a particle be injected twice (C23_binary64_refuted), but only in two successive steps, for time steps from 2^-300 to 1 and up to 2^30 steps (C23_binary64_successive)."
  },
  {
   "property": "C24",
   "status": "partial",
   "theorems": [
    "C24_total_charge_partial",
    "C24_charge_to_mass",
    "C24_inside_radius",
    "C24_refuted"
   ],
   "note": "False as stated (C24_refuted: four times the requested charge). Proved: between one and four times the request, and equal to it exactly when no macroparticle is within one cell of the axis."
  },
  {
   "property": "C25",
   "status": "proved",
   "theorems": [
    "C25_order_and_number",
    "C25_never_early",
    "C25_on_time",
    "C25_defined_before_exit",
    "C25_erase_refuted"
   ],
   "note": "Proved for all defined runs. Every long enough run with two or more bunches reads an uninitialised counter when erasing bunches (C25_erase_refuted)."
  },
  {
   "property": "C26",
   "status": "partial",
   "theorems": [
    "C26_number_of_steps",
    "C26_not_earlier",
    "C26_phase_order",
    "C26_binary64_refuted",
    "C26_binary64_partial",
    "C26_binary64_one_more"
   ],
   "note": "Exact arithmetic: the loop ends after exactly the least number of steps, phases in order, for all times and positive steps. In binary64 the full claim is false (a step too small for the clock never ends: refuted); proved there: ends within one step of the exact number for runs below 2^26 steps from time 0."
  },
  {
   "property": "C27",
   "status": "partial",
   "theorems": [
    "C27_exact_step",
    "C27_exact_run",
    "C27_schedule_zero",
    "C27_binary64_refuted",
    "C27_binary64_index_partial",
    "C27_binary64_short_step_partial"
   ],
   "note": "Exact arithmetic: a frame at step n iff schedule divides n, over whole runs. In binary64 refuted with the default time step 1e-13 (step 6 counted as 5); proved there: the index is n or n-1 below 2^26 steps, and exact for short mantissas."
  },
  {
   "property": "C28",
   "status": "proved",
   "theorems": [
    "C28_files",
    "C28_concatenation",
    "C28_row_major",
    "C28_run_succeeds",
    "C28_second_run_refuted"
   ],
   "note": "For field and current probes with files that are empty at the start. Temperature and density probes are not modelled here; macroparticle probes are in C64. A second run into the same directory appends to the first (C28_second_run_refuted)."
  },
  {
   "property": "C29",
   "status": "partial",
   "theorems": [
    "C29_frame_partial",
    "C29_text_partial",
    "C29_refuted",
    "C29_column_partial",
    "C29_dot_partial",
    "C29_dot_on_axis_refuted",
    "C29_row_refuted"
   ],
   "note": "Frames, columns and dots are returned up to the six-digit text form; element-for-element equality is refuted, dots on the axis and rows cannot be read at all (refuted)."
  },
  {
   "property": "C30",
   "status": "partial",
   "theorems": [
    "C30_multiple_partial",
    "C30_refuted"
   ],
   "note": "False: the probe after k other active beam density probes shows (k+2) times the density (proved exactly); refuted for one probe and one particle."
  },
  {
   "property": "C31",
   "status": "proved",
   "theorems": [
    "C31_solves",
    "C31_dominant",
    "C31_unique",
    "C31_zero_pivot"
   ],
   "note": "Full statement, plus uniqueness and the converse (vanishing leading determinant => division by zero). The solver is in eField.cpp."
  },
  {
   "property": "C32",
   "status": "partial",
   "theorems": [
    "C32_dirichlet_sweep",
    "C32_neumann_sweep",
    "C32_all_harmonics",
    "C32_neumann_parallel_refuted",
    "C32_neumann_free_refuted"
   ],
   "note": "Sweep proved for both solvers, all sizes, rhs, harmonics and any value of PI. False for the Neumann solver run with two or more threads: shared variables race and alpha/beta are freed by every thread."
  },
  {
   "property": "C33",
   "status": "proved",
   "theorems": [
    "C33_dft",
    "C33_dft_code_pi",
    "C33_sine",
    "C33_sine_roundtrip",
    "C33_sine_roundtrip_code_pi",
    "C33_order",
    "C33_full_inverse_refuted"
   ],
   "note": "Exact for PI the number pi; explicit error bounds for the decimal constant of the code. Extra finding: the full real transform has no inverse."
  },
  {
   "property": "C34",
   "status": "partial",
   "theorems": [
    "C34_sine",
    "C34_fourier",
    "C34_cosine_refuted",
    "C34_solvers_refuted"
   ],
   "note": "False: the cosine transform writes out of bounds for every n>=3 and hence the Neumann solver; sine transform in bounds exactly when n+1 is a power of two."
  },
  {
   "property": "C35",
   "status": "partial",
   "theorems": [
    "C35_exactly_partial",
    "C35_time_step",
    "C35_no_electrons",
    "C35_grid_refuted",
    "C35_uninitialised_refuted",
    "C35_negative_density_refuted"
   ],
   "note": "The checks decide exactly the conditions of C35_exactly_partial: both light transit limits and the plasma period limit hold, but the axial step is never compared with the Debye length and the radial one only with 50 Debye lengths, so the grid part of the claim is refuted. Acceptance also depends on the uninitialised member number_macro, and a negative electron density passes because comparisons with not-a-number are false."
  },
  {
   "property": "C36",
   "status": "partial",
   "theorems": [
    "C36_partial",
    "C36_defined",
    "C36_order",
    "C36_help_refuted"
   ],
   "note": "Exact description for all argument vectors, no read beyond the vector. Missing: the option --help named in the claim does not exist (refuted)."
  },
  {
   "property": "C37",
   "status": "partial",
   "theorems": [
    "C37_relative_partial",
    "C37_absolute_partial",
    "C37_refuted"
   ],
   "note": "Success iff creatable, exactly the missing directories made, nothing else changed, for all trees and all paths of ordinary names with single slashes. For paths with a trailing slash or double slashes the claim is refuted. Links, name length limits and other processes are not modelled."
  },
  {
   "property": "C38",
   "status": "partial",
   "theorems": [
    "C38_partial",
    "C38_boundary_refuted",
    "C38_buffer_refuted"
   ],
   "note": "The text is right for all times except exactly a minute, an hour, a day (refuted there); the buffer of one byte is always overrun (refuted)."
  },
  {
   "property": "C39",
   "status": "partial",
   "theorems": [
    "C39_partial",
    "C39_documented",
    "C39_blank_refuted",
    "C39_refuted"
   ],
   "note": "Exact value for every text; the documented spellings are right in any case. Other texts are silently false or, if they begin with true, true (refuted); blank texts give an uninitialised value (refuted)."
  },
  {
   "property": "C40",
   "status": "proved",
   "theorems": [
    "C40_gamma",
    "C40_round_trip",
    "C40_round_trip_momentum"
   ],
   "note": ""
  },
  {
   "property": "C41",
   "status": "partial",
   "theorems": [
    "C41_counting_partial",
    "C41_weighted_partial",
    "C41_empty_refuted",
    "C41_rounding_refuted",
    "C41_spread_refuted"
   ],
   "note": "Exact reals: for every cell with particles the temperature is a number, non-negative, and zero for a common velocity, for both compile-time algorithms. Refuted in full: 0/0 in empty cells, a negative value in binary64 for one electron; also zero for two particles with different speeds along one direction."
  },
  {
   "property": "C42",
   "status": "partial",
   "theorems": [
    "C42_count_partial",
    "C42_electrons_partial",
    "C42_ions_refuted",
    "C42_dead_refuted",
    "C42_allocation_refuted",
    "C42_waiting_bunch_refuted"
   ],
   "note": "Sum of density times volume = sum of mass/EL_MASS over all macroparticles, hence the number of electrons. Refuted in full: other species, dead particles counted, row pointer array and reset overflow by one on every grid, waiting bunch particles write column 2^32-1."
  },
  {
   "property": "C43",
   "status": "partial",
   "theorems": [
    "C43_partial",
    "C43_constant_partial",
    "C43_deterministic",
    "C43_last_column_refuted",
    "C43_bicubic_identity",
    "C43_bicubic_border_refuted"
   ],
   "note": "Bounds and constants for every node but those of the last column, whatever the order of threads; determinism. Last column: refuted (stale values). Bicubic: identity on the inner part, stale border refuted."
  },
  {
   "property": "C44",
   "status": "partial",
   "theorems": [
    "C44_bounds_partial",
    "C44_left_layer",
    "C44_outside",
    "C44_maximum_refuted",
    "C44_infinite_refuted",
    "C44_outer_layer_refuted"
   ],
   "note": "Non-negative and zero outside the layers; the maximum holds for the left layer only. Refuted: right layer exceeds the maximum, outer layer is infinite for thin layers."
  },
  {
   "property": "C45",
   "status": "partial",
   "theorems": [
    "C45_partial",
    "C45_unknown_type",
    "C45_text_refuted",
    "C45_none_refuted"
   ],
   "note": "All lists of well-written probe elements in any attribute order, with other nodes between: one probe each in order with the described type and ranges; unknown type refused with status 1. Refuted in full: non-numeric and negative texts accepted, an empty probe list aborts."
  },
  {
   "property": "C46",
   "status": "proved",
   "theorems": [
    "C46_energy_conserved",
    "C46_energy_bounded"
   ],
   "note": "Exact for insulating media; boundedness under the stated time-step limit."
  },
  {
   "property": "C47",
   "status": "proved",
   "theorems": [
    "C47_causality"
   ],
   "note": ""
  },
  {
   "property": "C48",
   "status": "proved",
   "theorems": [
    "C48_tm_independent",
    "C48_te_independent",
    "C48_zero_stays_zero"
   ],
   "note": ""
  },
  {
   "property": "C49",
   "status": "partial",
   "theorems": [
    "C49_vay_electric",
    "C49_vay_perpendicular_no_work",
    "C49_vay_magnetic_refuted"
   ],
   "note": "Electric part exact and result subluminal (C12_subluminal); the magnetic part is wrong: b is multiplied by const1 three times, so the deflection per time step tends to 0 (C49_vay_magnetic_refuted)."
  },
  {
   "property": "C50",
   "status": "partial",
   "theorems": [
    "C50_probe_fits_iff_partial",
    "C50_short_names_partial",
    "C50_refuted"
   ],
   "note": "Exact overflow condition and a sufficient condition on names; the claim for all configurations is refuted."
  },
  {
   "property": "C51",
   "status": "partial",
   "theorems": [
    "C51_unchanged_files_partial",
    "C51_refuted",
    "C51_time_check_never_hits",
    "C51_mpframe_refuted"
   ],
   "note": "True while the data files do not change; refuted after a new run, and for macroparticle frames even without one."
  },
  {
   "property": "C52",
   "status": "partial",
   "theorems": [
    "C52_frames_partial",
    "C52_short_across_refuted",
    "C52_long_refuted",
    "C52_lines_partial",
    "C52_lines_inside_refuted"
   ],
   "note": "True for ranges that end on a file border or lie in one file (frames), or touch two files (columns, rows, dots); refuted otherwise."
  },
  {
   "property": "C53",
   "status": "proved",
   "theorems": [
    "C53_field_updates_in_bounds",
    "C53_initialisation_in_bounds",
    "C53_reads_initialised"
   ],
   "note": "Field updates and initialisation; interpolation and particles are covered by C16."
  },
  {
   "property": "C54",
   "status": "partial",
   "theorems": [
    "C54_refuted"
   ],
   "note": "Refuted: an accepted configuration doubles a field in every step. The positive side, boundedness under the stability condition, is C46_energy_bounded."
  },
  {
   "property": "C55",
   "status": "partial",
   "theorems": [
    "C55_cold_partial",
    "C55_monotone_partial",
    "C55_hot_partial",
    "C55_overrun_refuted",
    "C55_tail_refuted",
    "C55_nan_refuted",
    "C55_units_refuted"
   ],
   "note": "Cold branch: in bounds, 0 <= e <= 81 T, monotone inside the table. Hot branch: in bounds for all random sequences. False in general: one random number reads behind the table, the tail is cut to T, NaN and -1 in the hot branch, and the two branches use different units."
  },
  {
   "property": "C56",
   "status": "partial",
   "theorems": [
    "C56_poisson"
   ],
   "note": "Proved with PI the number pi; for the decimal constant of the code only the sweeps (C32) and the transform error (C33) are covered."
  },
  {
   "property": "C57",
   "status": "proved",
   "theorems": [
    "C57_axial",
    "C57_radial"
   ],
   "note": ""
  },
  {
   "property": "C58",
   "status": "partial",
   "theorems": [
    "C58_partial",
    "C58_unreadable",
    "C58_mass_refuted",
    "C58_notation_refuted",
    "C58_root_refuted",
    "C58_empty_refuted"
   ],
   "note": "All documents that describe a configuration in decimal notation, with or without white space around the texts, are read to it. Refuted in full: real masses and charges cut to integers, scientific notation in integer settings, wrong top element and empty elements are undefined behaviour."
  },
  {
   "property": "C59",
   "status": "partial",
   "theorems": [
    "C59_safe_partial",
    "C59_strict_partial",
    "C59_refuted"
   ],
   "note": "Proved for field reads outside the arrays tolerated (C59_safe_partial), and with such reads counted as undefined behaviour as long as light cannot reach the last half cell at the outer wall (C59_strict_partial). The unrestricted claim is false: C59_refuted. Runs that reach the removal of bunches are excluded (C25 shows undefined behaviour there)."
  },
  {
   "property": "C60",
   "status": "proved",
   "theorems": [
    "C60_no_magnetic_sources",
    "C60_walls"
   ],
   "note": "Every run from the program's start state that ends normally."
  },
  {
   "property": "C61",
   "status": "proved",
   "theorems": [
    "C61_particles_kept",
    "C61_species_kept",
    "C61_absorbed_for_good"
   ],
   "note": "Every number of iterations of the whole main loop."
  },
  {
   "property": "C62",
   "status": "partial",
   "theorems": [
    "C62_beam_density_partial",
    "C62_beam_charge_partial"
   ],
   "note": "Without a probe of the component rho_beam; with one the density is weighted again (C30_refuted)."
  },
  {
   "property": "C63",
   "status": "partial",
   "theorems": [
    "C63_gauss_kept_partial",
    "C63_cold_matter",
    "C63_refuted"
   ],
   "note": "The full claim is false: fields start at zero whatever the charges (C63_refuted, C63_cold_matter). Proved: without a beam, in an insulating medium and while all moves are of the kinds covered by C05 and C06, the defect stays constant (C63_gauss_kept_partial)."
  },
  {
   "property": "C64",
   "status": "partial",
   "theorems": [
    "C64_frames_partial",
    "C64_dead_refuted",
    "C64_truncated_refuted",
    "C64_phi_refuted",
    "C64_axis_refuted"
   ],
   "note": "The components agree on the particles and their order and are the particles of the species in the cells at the n-th dump; but dead particles are shown, the reader drops particles beyond (end_r-start_r)*(end_z-start_z)*fpds, position phi cannot be read, and a particle exactly on the axis is in no frame."
  },
  {
   "property": "C65",
   "status": "partial",
   "theorems": [
    "C65_round_trip",
    "C65_round_trip_binary64",
    "C65_time_of_frame",
    "C65_end_frame",
    "C65_late_start_refuted"
   ],
   "note": "Proved for clocks that start at zero: inverse (exact and binary64), time of the n-th frame in exact arithmetic, frames up to the end time. The tools ignore the start of the clock (refuted for a late start)."
  },
  {
   "property": "C66",
   "status": "partial",
   "theorems": [
    "C66_row_of_node_partial",
    "C66_column_of_node_partial",
    "C66_wall_refuted",
    "C66_round_trip",
    "C66_round_trip_binary64",
    "C66_radius_error"
   ],
   "note": "Exact answer for every node: right in the inner half, one too large in the outer half, and the wall is mapped to a row outside of every array. Round trip proved exactly and in binary64; radius error below one cell."
  },
  {
   "property": "C67",
   "status": "partial",
   "theorems": [
    "C67_plasma_frequency",
    "C67_debye_refuted",
    "C67_debye_partial",
    "C67_passage_time"
   ],
   "note": "Plasma frequency within 0.3 percent, passage time exact; the printed Debye length is below 0.3 of the one the simulation uses (an extra factor 1/sqrt(4 pi))."
  },
  {
   "property": "C68",
   "status": "partial",
   "theorems": [
    "C68_partial",
    "C68_plot_refuted",
    "C68_macro_refuted",
    "C68_nested_refuted",
    "C68_notation_refuted"
   ],
   "note": "All documents that describe a configuration in decimal notation and use no name twice inside a section: both programs read it and agree on everything they share, except the number of macroparticles in debug mode. Refuted in full: no section plot (tools fail), debug number of macroparticles, elements nested deeper, other notations of integers and truth values."
  },
  {
   "property": "C69",
   "status": "partial",
   "theorems": [
    "C69_partial",
    "C69_directory_refuted",
    "C69_absolute_refuted",
    "C69_none_refuted"
   ],
   "note": "All probes, file numbers and working directories, provided result_path is absolute or the configuration file lies in the working directory of the simulation, and data_root and the component are relative. Refuted otherwise: simulation started from another directory, absolute data_root, species called none."
  },
  {
   "property": "C70",
   "status": "proved",
   "theorems": [
    "C70_schedule",
    "C70_function",
    "C70_simulation",
    "C70_safe",
    "C70_uniform_refuted"
   ],
   "note": "C70_schedule: for every arithmetic any two executions of the loop end in the same memory (or both stop early). Bit for bit in double precision for a build without -ffast-math (--enable-ieee); the default build lets the compiler reorder operations. C70_function: every execution computes what the sequential functions of Model/GenSim.v compute. C70_simulation: with real numbers that is the state of Model/Sim.v, so C59-C63 hold for any number of threads (C70_safe). C70_uniform_refuted: without TESTMODE the injection loop shares the generator and two executions differ. The state at the beginning of the loop is a parameter (loading of species is outside); the files written by dump_data are not in the memory; use_rel of the adaptive pusher, uninitialised in the code, is a parameter."
  },
  {
   "property": "C71",
   "status": "partial",
   "theorems": [
    "C71_run_partial",
    "C71_threads_partial",
    "C71_border_refuted",
    "C71_reads_refuted"
   ],
   "note": "Proved for every grid on which ceil((n-2)*d/d)-1 agrees with the comparison with (n-2)*d (border_clear); without it the statement is false (C71_border_refuted). That the fields stay below 2^251 is assumed (for contained runs C79 proves it). Beams with the reproducible generator (TESTMODE), more than a cell away from the wall. The forces come from the n_r x n_z frame, and an eighth of a cell off the walls from elements that exist; nearer it is false (C71_reads_refuted). C71_threads_partial: the same for every number of threads and every interleaving."
  },
  {
   "property": "C72",
   "status": "proved",
   "theorems": [
    "C72_push",
    "C72_pushes",
    "C72_magnetic",
    "C72_run",
    "C72_threads",
    "C72_free_refuted"
   ],
   "note": "For momenta up to the budget [copes] (Lorentz factor about 10^5 for good pow functions; the statement speaks of such a budget). Without a budget a particle on which no field acts is stopped after eight pushes (C72_free_refuted). In whole runs the impulses per step are assumed bounded (pushed_by), fields below 2^251, grids as in C71, each particle of a bunch injected once."
  },
  {
   "property": "C73",
   "status": "proved",
   "theorems": [
    "C73_current"
   ],
   "note": "Oblique moves with clearance (clean_move in Spec/Deposit64.v), summed exactly over the values handed to inc_j_r and inc_j_z; the rounding of += in the array comes on top. Strictly axial and radial moves (below 10^-15 m) are not part of the statement."
  },
  {
   "property": "C74",
   "status": "partial",
   "theorems": [
    "C74_direction",
    "C74_species",
    "C74_radial_refuted",
    "C74_double_refuted"
   ],
   "note": "Exact arithmetic: all moves of less than a cell, at least half a cell off the axis, except purely radial moves over a border, for which the statement is false (C74_radial_refuted, cf. C06). In double precision it is false for clean moves nearly along the axis even with a correctly rounded log (C74_double_refuted: a radial current 20000 times too large and of the wrong sign, although the charge balances as C73 says)."
  },
  {
   "property": "C75",
   "status": "proved",
   "theorems": [
    "C75_node",
    "C75_total",
    "C75_continuity",
    "C75_species",
    "C75_sign_refuted"
   ],
   "note": "Shares for r >= dr/2, totals for every r; errors explicit. C75_species includes the rounding of the additions inc_rho makes, for all bunches of an iteration together. Finding: the sign of the changes (C02) is not kept in double precision (C75_sign_refuted)."
  },
  {
   "property": "C76",
   "status": "proved",
   "theorems": [
    "C76_poynting",
    "C76_run",
    "C76_absorbing",
    "C76_driven",
    "C76_layers",
    "C76_limit_refuted"
   ],
   "note": "Exact arithmetic; the balance is exact for any currents and any medium, the bound needs eps >= 1, sigma >= 0 and the step limit of C46. That the limit is needed is C76_limit_refuted."
  },
  {
   "property": "C77",
   "status": "proved",
   "theorems": [
    "C77_stable",
    "C77_bounded",
    "C77_quiet",
    "C77_conservation_refuted"
   ],
   "note": "IEEE binary64 with round to nearest; the library functions are arbitrary (the solver calls none). The hypotheses bound grid, cells, step, medium and the margin below the step limit (steady). C77_conservation_refuted: that the energy cannot grow at all without currents (C76_absorbing) is false in double precision."
  },
  {
   "property": "C78",
   "status": "partial",
   "theorems": [
    "C78_finite_refuted",
    "C78_stays",
    "C78_enters",
    "C78_run_refuted",
    "C78_short",
    "C78_clear_grid",
    "C78_power_of_two",
    "C78_placed_refuted"
   ],
   "note": "Double precision. The statement is false (C78_finite_refuted on the stock grid, C78_run_refuted for a whole iteration from a legal start, C78_placed_refuted: the move is short); C78_stays and C78_enters are for all configurations. For moves of at most 1/32 of a cell whose ends are in the cells computed for them the currents are numbers and bounded (C78_short), hence for all short moves on grids with consistent borders (C78_clear_grid), in particular cells of power-of-two size (C78_power_of_two). Missing: longer moves."
  },
  {
   "property": "C79",
   "status": "proved",
   "theorems": [
    "C79_run",
    "C79_calm",
    "C79_threads"
   ],
   "note": "Double precision (IEEE binary64), Boris pushers. The hypotheses (contained, Spec/Loop64.v) bound grid, step, medium, starting fields and total charge; that cell numbers agree with borders cannot be dropped (C78_run_refuted). Speeds need no assumption: the pusher stops the run (exit 1) above the speed of light. C79_calm: the field bound assumed by C71 and C72 is a consequence. C79_threads: the same for every number of threads and every interleaving."
  },
  {
   "property": "C80",
   "status": "proved",
   "theorems": [
    "C80_flux",
    "C80_gauss",
    "C80_within",
    "C80_exact_refuted"
   ],
   "note": "Double precision (IEEE binary64). C80_flux and C80_gauss assume bounds on the fields along the run; C80_within derives such bounds from the budget of C77. The balance of charge and current is a hypothesis with an explicit error per step (C73 bounds it per move). C80_exact_refuted: the flux does drift, so exact conservation (C08) does not carry over."
  },
  {
   "property": "C81",
   "status": "proved",
   "theorems": [
    "C81_gauss",
    "C81_short",
    "C81_flux"
   ],
   "note": "Double precision (IEEE binary64). The clean moves, and the bounds on the fields along the run, are hypotheses (moves that are not clean lose charge: C05; bounds on the fields: C77, C79). C81_short needs no bound on the currents. C81_flux holds for every run of the main loop."
  },
  {
   "property": "C82",
   "status": "proved",
   "theorems": [
    "C82_random",
    "C82_loaded",
    "C82_places",
    "C82_weights",
    "C82_velocities",
    "C82_run",
    "C82_close_densities_refuted"
   ],
   "note": "random_reverse, positions, weights, velocities of the deterministic loading in binary64, and C79's conclusion for runs that start from it. C82_close_densities_refuted: with nearly equal densities particles are loaded outside of the tube (a finding about lines 301-304)."
  },
  {
   "property": "C83",
   "status": "proved",
   "theorems": [
    "C83_made",
    "C83_places",
    "C83_weights",
    "C83_beam",
    "C83_run",
    "C83_thin_refuted"
   ],
   "note": "Full statement at binary64 for the deterministic generator; the thin bunch is refuted by a witness. bunchable and fired (Spec/Load64.v) list the ranges. The real counterpart of the constructor is linked by gbunch_load_real."
  },
  {
   "property": "C84",
   "status": "proved",
   "theorems": [
    "C84_scheme",
    "C84_exact",
    "C84_push",
    "C84_classic",
    "C84_classic_run",
    "C84_run",
    "C84_step"
   ],
   "note": "Full statement. Spec/Boris.v writes the scheme with an implicit rotation; C84_exact links the real model to it, C84_push, C84_classic (one push), C84_classic_run and C84_run (any number of pushes), C84_step (in the main loop) the binary64 model. The speed of light and the magnetic constant are those of the program."
  },
  {
   "property": "C85",
   "status": "partial",
   "theorems": [
    "C85_no_force",
    "C85_meridional_partial",
    "C85_run_partial",
    "C85_error_partial",
    "C85_short_refuted",
    "C85_slow_refuted",
    "C85_spin_refuted",
    "C85_inward_refuted",
    "C85_inward_run_refuted"
   ],
   "note": "Proved: a step without fields is the motion alone (C85_no_force); the height is always right, radius and outward velocity are right without motion around the axis (C85_meridional_partial), also over any number of steps (C85_run_partial); away from the axis the radius of one step is wrong only at second order (C85_error_partial). The full statement is false of the code: for every particle that moves around the axis the new radius is too small, with the exact amount (C85_short_refuted); unless it moves towards the axis its outward velocity shrinks where it should grow, by an amount of first order (C85_slow_refuted), and its angular momentum grows, with the exact amount (C85_spin_refuted); if it moves exactly around the axis the program turns it towards the axis (C85_inward_refuted) and lets it move towards the axis in all later steps up to the first wall, whatever the time step (C85_inward_run_refuted). Exact arithmetic only."
  },
  {
   "property": "C86",
   "status": "proved",
   "theorems": [
    "C86_push",
    "C86_run",
    "C86_own_image",
    "C86_no_rotation"
   ],
   "note": "For the complete model of the main loop (Model/Sim.v), every configuration and every state, in exact arithmetic. The reals are not rounded, so equality is exact; the double precision run is not covered."
  }
 ]
}
