{
 "claims": [
  {
   "property": "C01",
   "status": "proved",
   "theorems": [
    "C01_linspace_bins"
   ],
   "note": "exact reals, from the input node; 64-bit sizes"
  },
  {
   "property": "C02",
   "status": "proved",
   "theorems": [
    "C02_logspace_bins"
   ],
   "note": "exact reals, from the input node; 64-bit sizes"
  },
  {
   "property": "C03",
   "status": "proved",
   "theorems": [
    "C03_boundary_bins_binary64",
    "C03_boundary_bins"
   ],
   "note": "for every non-NaN double as compared by IEEE 754, and for reals"
  },
  {
   "property": "C04",
   "status": "proved",
   "theorems": [
    "C04_particle_bins"
   ],
   "note": "bin counts whose product fits in 64 bits"
  },
  {
   "property": "C05",
   "status": "proved",
   "theorems": [
    "C05_linspace_validation",
    "C05_boundaries_validation",
    "C05_boundaries_validation_reals",
    "C05_estimator_bins_abort"
   ],
   "note": "any arithmetic; an estimator's bins abort instead because their constructor is noexcept"
  },
  {
   "property": "C06",
   "status": "proved",
   "theorems": [
    "C06_sphere_distance"
   ],
   "note": "exact reals"
  },
  {
   "property": "C07",
   "status": "proved",
   "theorems": [
    "C07_planex_distance"
   ],
   "note": "exact reals"
  },
  {
   "property": "C08",
   "status": "proved",
   "theorems": [
    "C08_cylinderx_distance"
   ],
   "note": "exact reals"
  },
  {
   "property": "C09",
   "status": "proved",
   "theorems": [
    "C09_side_changes_at_distance"
   ],
   "note": "spheres and x-planes over exact reals"
  },
  {
   "property": "C10",
   "status": "partial",
   "theorems": [
    "C10_cylinder_containment_refuted",
    "C10_cylinder_crossing_refuted",
    "C10_cylinder_containment_partial"
   ],
   "note": "false of the code: containment compares the axis distance with r squared; refuted with a witness, also as a crossing mismatch for every r other than 1; proved for r = 1"
  },
  {
   "property": "C11",
   "status": "proved",
   "theorems": [
    "C11_nearest_surface",
    "C11_nearest_surface_binary64"
   ],
   "note": "exact reals for all surfaces and any storage order; doubles when no distance is NaN"
  },
  {
   "property": "C12",
   "status": "proved",
   "theorems": [
    "C12_flight_stays_in_cell"
   ],
   "note": "exact reals, spheres and x-planes"
  },
  {
   "property": "C13",
   "status": "proved",
   "theorems": [
    "C13_point_location",
    "C13_point_location_order"
   ],
   "note": "any arithmetic"
  },
  {
   "property": "C14",
   "status": "proved",
   "theorems": [
    "C14_directions_are_unit"
   ],
   "note": "exact reals; the generator hypothesis is met by the program's generator (C60)"
  },
  {
   "property": "C15",
   "status": "proved",
   "theorems": [
    "C15_rotation_cosine"
   ],
   "note": "exact reals"
  },
  {
   "property": "C16",
   "status": "proved",
   "theorems": [
    "C16_streaming",
    "C16_streaming_succeeds"
   ],
   "note": "exact reals; indirect effects of perturbations are the subject of C55"
  },
  {
   "property": "C17",
   "status": "proved",
   "theorems": [
    "C17_table_lookup"
   ],
   "note": "exact reals"
  },
  {
   "property": "C18",
   "status": "proved",
   "theorems": [
    "C18_nested_lookup"
   ],
   "note": "exact reals, tables of any depth"
  },
  {
   "property": "C19",
   "status": "proved",
   "theorems": [
    "C19_dataset_row_major"
   ],
   "note": "any arithmetic"
  },
  {
   "property": "C20",
   "status": "proved",
   "theorems": [
    "C20_dataset_to_table"
   ],
   "note": "exact reals"
  },
  {
   "property": "C21",
   "status": "proved",
   "theorems": [
    "C21_total_is_sum",
    "C21_total_reals"
   ],
   "note": "any arithmetic for the sum in the written order; exact reals for its value"
  },
  {
   "property": "C22",
   "status": "proved",
   "theorems": [
    "C22_transfer_probabilities"
   ],
   "note": "exact reals, non-negative data"
  },
  {
   "property": "C23",
   "status": "proved",
   "theorems": [
    "C23_group_lists",
    "C23_rejected"
   ],
   "note": "any arithmetic; the counts are of what the text parses to"
  },
  {
   "property": "C24",
   "status": "proved",
   "theorems": [
    "C24_reaction_choice"
   ],
   "note": "exact reals, non-negative data"
  },
  {
   "property": "C25",
   "status": "proved",
   "theorems": [
    "C25_scatter_groups"
   ],
   "note": "exact reals, non-negative data"
  },
  {
   "property": "C26",
   "status": "proved",
   "theorems": [
    "C26_emitted_neutrons",
    "C26_mean_yield"
   ],
   "note": "exact reals, both data kinds"
  },
  {
   "property": "C27",
   "status": "proved",
   "theorems": [
    "C27_multigroup_secondaries",
    "C27_continuous_secondaries"
   ],
   "note": "exact reals; multigroup and continuous"
  },
  {
   "property": "C28",
   "status": "proved",
   "theorems": [
    "C28_atom_fractions"
   ],
   "note": "exact reals; distinct nuclides with positive fractions"
  },
  {
   "property": "C29",
   "status": "proved",
   "theorems": [
    "C29_material_sums"
   ],
   "note": "exact reals; order of storage irrelevant"
  },
  {
   "property": "C30",
   "status": "proved",
   "theorems": [
    "C30_collided_nuclide"
   ],
   "note": "exact reals"
  },
  {
   "property": "C31",
   "status": "proved",
   "theorems": [
    "C31_multigroup_majorant",
    "C31_no_virtual_collisions"
   ],
   "note": "majorant: any arithmetic; no virtual collisions: exact reals"
  },
  {
   "property": "C32",
   "status": "partial",
   "theorems": [
    "C32_valid_near_temperature_partial",
    "C32_valid_near_temperature_refuted"
   ],
   "note": "False of the code: the relative difference has no absolute value, so an evaluation is accepted at every temperature below its own (refuted with T0=600, T=300). Proved: the documented test at or above T0, and acceptance below."
  },
  {
   "property": "C33",
   "status": "proved",
   "theorems": [
    "C33_free_gas_adjustment"
   ],
   "note": "Real arithmetic. Ratio formula, value one at T=0, at least one, and monotone in T."
  },
  {
   "property": "C34",
   "status": "proved",
   "theorems": [
    "C34_scatter_majorant"
   ],
   "note": "Real arithmetic; the particle's temperature is within the cell's declared upper bound and thermal data do not apply."
  },
  {
   "property": "C35",
   "status": "proved",
   "theorems": [
    "C35_continuous_majorant"
   ],
   "note": "Real arithmetic; the soundness of the tables is the hypothesis named in the statement (total at most the sum of reactions, thermal total at most thermal majorant)."
  },
  {
   "property": "C36",
   "status": "proved",
   "theorems": [
    "C36_reaction_choice",
    "C36_reaction_share",
    "C36_no_reaction"
   ],
   "note": "Real arithmetic, uniform numbers in [0,1). Choice, share of the unit interval, and divergence when all reactions are zero."
  },
  {
   "property": "C37",
   "status": "proved",
   "theorems": [
    "C37_free_gas_collision"
   ],
   "note": "Real arithmetic, uniform numbers in (0,1) as the generator gives them. The nucleus has the sampled speed and cosine; momentum, energy and the centre-of-mass speed are conserved; energy and direction of the outgoing particle are those of the outgoing velocity."
  },
  {
   "property": "C38",
   "status": "proved",
   "theorems": [
    "C38_target_sampling",
    "C38_target_returned"
   ],
   "note": "Real arithmetic, uniform numbers in (0,1)."
  },
  {
   "property": "C39",
   "status": "proved",
   "theorems": [
    "C39_thermal_cutoff"
   ],
   "note": "any arithmetic"
  },
  {
   "property": "C40",
   "status": "partial",
   "theorems": [
    "C40_thermal_grid_partial",
    "C40_highest_temperature_refuted"
   ],
   "note": "exact reals; false at and above the highest of several temperatures, where the code uses the last but one: refuted with a witness, everything else proved"
  },
  {
   "property": "C41",
   "status": "proved",
   "theorems": [
    "C41_energy_nonnegative",
    "C41_ten_attempts"
   ],
   "note": "exact reals for the sign, any arithmetic for the number of attempts"
  },
  {
   "property": "C42",
   "status": "partial",
   "theorems": [
    "C42_thermal_cosine_partial",
    "C42_zero_energy_refuted"
   ],
   "note": "exact reals; an outgoing energy of exactly zero is excluded, there the direction is not a number: refuted with a witness"
  },
  {
   "property": "C43",
   "status": "partial",
   "theorems": [
    "C43_beta_grid_point_partial",
    "C43_beta_grid_point_refuted"
   ],
   "note": "exact reals; the code divides only the lower grid point by the spacing, so the documented probability holds only at unit spacing: refuted with a witness"
  },
  {
   "property": "C44",
   "status": "partial",
   "theorems": [
    "C44_existing_entries_partial",
    "C44_existing_entries_refuted"
   ],
   "note": "exact reals; false for transfers at or above the last tabulated beta, where an index past the end is used: refuted with a witness"
  },
  {
   "property": "C45",
   "status": "proved",
   "theorems": [
    "C45_walk",
    "C45_multigroup"
   ],
   "note": "For every arithmetic: the walk is a chain of events scored one by one, only the last ends it; leak iff void. An event left unset by a multigroup collision without a selected reaction is excluded by the hypothesis no_multigroup, and for real arithmetic with sensible data by C45_multigroup."
  },
  {
   "property": "C46",
   "status": "proved",
   "theorems": [
    "C46_recorded_cell",
    "C46_inside"
   ],
   "note": "C46_inside adds that with surface tracking through spheres and planes the particle stays inside its recorded cell."
  },
  {
   "property": "C47",
   "status": "partial",
   "theorems": [
    "C47_rejection_partial",
    "C47_rejection_refuted"
   ],
   "note": "Refuted for space-dependent temperature (ratio evaluated before the flight); the partial theorem covers cells with one temperature."
  },
  {
   "property": "C48",
   "status": "proved",
   "theorems": [
    "C48_constant_temperature"
   ],
   "note": "Real points; linear fields with zero gradient included."
  },
  {
   "property": "C49",
   "status": "partial",
   "theorems": [
    "C49_plane_crossed",
    "C49_sphere_crossed",
    "C49_step",
    "C49_binary64_refuted"
   ],
   "note": "Proved in exact arithmetic for planes and spheres, also of the transport step itself; refuted in double precision, where the nudge is absorbed by rounding."
  },
  {
   "property": "C50",
   "status": "proved",
   "theorems": [
    "C50_crossings",
    "C50_created"
   ],
   "note": "exact arithmetic; C50_crossings counts the crossings in each bin over the events of the whole family, C50_created ties the estimator to the written surface and bins"
  },
  {
   "property": "C51",
   "status": "proved",
   "theorems": [
    "C51_sums",
    "C51_histories",
    "C51_untouched"
   ],
   "note": "exact arithmetic; scores are pending in a proxy that is separate from the estimators, so nothing is visible before the commit; C51_untouched holds in every arithmetic"
  },
  {
   "property": "C52",
   "status": "proved",
   "theorems": [
    "C52_radicand",
    "C52_statistics",
    "C52_asked",
    "C52_binary64_refuted"
   ],
   "note": "exact arithmetic as stated; C52_binary64_refuted records that in double precision three histories scoring 0.1 print NaN as deviation"
  },
  {
   "property": "C53",
   "status": "proved",
   "theorems": [
    "C53_merge",
    "C53_error",
    "C53_order",
    "C53_lookup"
   ],
   "note": "every arithmetic; matching sets have the same number of bins, as sets copied from one initial set do"
  },
  {
   "property": "C54",
   "status": "proved",
   "theorems": [
    "C54_created",
    "C54_requested",
    "C54_scores"
   ],
   "note": "exact arithmetic for the totals; bins and surface of a sensitivity are those of its estimator"
  },
  {
   "property": "C55",
   "status": "partial",
   "theorems": [
    "C55_collisions_partial",
    "C55_error",
    "C55_surface_refuted"
   ],
   "note": "holds for walks whose flights in the nuclide's materials end in collisions and whose materials have atom density one; C55_error gives the exact error otherwise (one over the total for every flight that ends on a surface, and density minus one times the length), C55_surface_refuted a neutron that leaks with a wrong effect; with delta tracking, in materials whose majorant is their total; every secondary starts again from zero (FixedSource.cpp:65)"
  },
  {
   "property": "C56",
   "status": "proved",
   "theorems": [
    "C56_once",
    "C56_ends"
   ],
   "note": "Every Arith and generator, any schedule; batch size plus threads at most 2^64 (the 64-bit counter would wrap otherwise). C56_ends: a worker given 2N+1 steps has returned. The increment of the counter is one atomic step (std::atomic)."
  },
  {
   "property": "C57",
   "status": "proved",
   "theorems": [
    "C57_result",
    "C57_serial",
    "C57_threads",
    "C57_created",
    "C57_no_threads_refuted"
   ],
   "note": "Exact arithmetic. The merged set is the initial set plus histories 0..N-1 (C57_result); equals the single-threaded run whenever that succeeds (C57_serial); same for any two thread counts and schedules (C57_threads). Estimator names must be unique, at least one thread; C57_no_threads_refuted: threads = 0 is accepted and runs nothing."
  },
  {
   "property": "C58",
   "status": "proved",
   "theorems": [
    "C58_reproducible"
   ],
   "note": "Every Arith and generator: equal seed + index gives the same events whatever the estimators, fuel, batch size and threads."
  },
  {
   "property": "C59",
   "status": "partial",
   "theorems": [
    "C59_streams_refuted",
    "C59_collisions",
    "C59_distinct_partial",
    "C59_lockstep"
   ],
   "note": "False as stated: C59_streams_refuted (seed 2147483647: histories 0 and 1 share a stream). C59_collisions characterises all collisions of a batch of at most 2147483646 histories; C59_distinct_partial: no collision when seed + N <= 2147483647."
  },
  {
   "property": "C60",
   "status": "proved",
   "theorems": [
    "C60_range",
    "C60_injective",
    "C60_uniform",
    "C60_period",
    "C60_every_state"
   ],
   "note": "std::minstd_rand: range, injective step, uniform numbers in (0,1) in exact arithmetic, full period 2147483646 and every state reached from every state."
  },
  {
   "property": "C61",
   "status": "proved",
   "theorems": [
    "C61_members_once",
    "C61_all_members",
    "C61_one_family"
   ],
   "note": "every arithmetic and scoring object"
  },
  {
   "property": "C62",
   "status": "partial",
   "theorems": [
    "C62_interface",
    "C62_repeat_refuted",
    "C62_second",
    "C62_empty"
   ],
   "note": "False as stated: C62_repeat_refuted. C62_second and C62_empty say what a second call does: starts no history, returns the initial estimators."
  },
  {
   "property": "C63",
   "status": "partial",
   "theorems": [
    "C63_initial",
    "C63_program",
    "C63_cycles_refuted"
   ],
   "note": "False of the code: Solve starts no worker. C63_cycles_refuted gives a document whose bank would score; C63_initial: the result is always the initial estimators."
  },
  {
   "property": "C64",
   "status": "proved",
   "theorems": [
    "C64_once",
    "C64_order",
    "C64_empty",
    "C64_progress"
   ],
   "note": "The lock, empty(), back(), pop_back() and the release are separate steps, interleaved arbitrarily."
  },
  {
   "property": "C65",
   "status": "proved",
   "theorems": [
    "C65_particle",
    "C65_direction",
    "C65_zero_direction_refuted"
   ],
   "note": "Directions in exact arithmetic, for non-zero written vectors (C65_zero_direction_refuted otherwise)."
  },
  {
   "property": "C66",
   "status": "proved",
   "theorems": [
    "C66_shared",
    "C66_described",
    "C66_cells",
    "C66_missing"
   ],
   "note": "For documents that follow the schema (well_formed); C66_shared, C66_described and C66_cells for every document that is accepted."
  },
  {
   "property": "C67",
   "status": "partial",
   "theorems": [
    "C67_source_in_void_refuted"
   ],
   "note": "Refuted: undefined behaviour in void, termination outside all cells. Sources in a material: C71."
  },
  {
   "property": "C68",
   "status": "partial",
   "theorems": [
    "C68_temperature_interpolation_partial",
    "C68_lowest_temperature_refuted"
   ],
   "note": "exact reals; proved between the tabulated temperatures, outside them the code extrapolates or yields NaN: refuted with a witness"
  },
  {
   "property": "C69",
   "status": "proved",
   "theorems": [
    "C69_energy_grid_point"
   ],
   "note": "exact reals"
  },
  {
   "property": "C70",
   "status": "proved",
   "theorems": [
    "C70_isotropic_direction"
   ],
   "note": "exact reals"
  },
  {
   "property": "C71",
   "status": "proved",
   "theorems": [
    "C71_transport_never_fails",
    "C71_history_never_fails"
   ],
   "note": ""
  },
  {
   "property": "C72",
   "status": "proved",
   "theorems": [
    "C72_partitions"
   ],
   "note": "All partitions, boundaries and indices, in any arithmetic."
  },
  {
   "property": "C73",
   "status": "proved",
   "theorems": [
    "C73_beta",
    "C73_alpha"
   ],
   "note": "Exact reals; temperatures within the tabulated ones (see C68 for the others)."
  },
  {
   "property": "C74",
   "status": "proved",
   "theorems": [
    "C74_flight",
    "C74_exponential",
    "C74_transparent"
   ],
   "note": "Decision in any arithmetic, law in exact reals."
  },
  {
   "property": "C75",
   "status": "partial",
   "theorems": [
    "C75_defined",
    "C75_reported_partial",
    "C75_fields",
    "C75_abort_refuted",
    "C75_empty_axis_refuted"
   ],
   "note": "Defined for all valid documents with no empty axis; reported only for usable ones: a constructor marked noexcept aborts otherwise (C75_abort_refuted), and an empty axis is undefined behaviour (C75_empty_axis_refuted)."
  },
  {
   "property": "C76",
   "status": "proved",
   "theorems": [
    "C76_report",
    "C76_layout",
    "C76_name"
   ],
   "note": "Any arithmetic; the decimal format of a number is an oracle."
  },
  {
   "property": "C77",
   "status": "partial",
   "theorems": [
    "C77_same",
    "C77_serial",
    "C77_only_output",
    "C77_prefix",
    "C77_first",
    "C77_lost_refuted",
    "C77_silent_refuted",
    "C77_input_refuted"
   ],
   "note": "Determinism in exact reals; crash statements in any arithmetic. Preserving earlier results, reporting an unwritable output and sparing the input are refuted."
  },
  {
   "property": "C78",
   "status": "partial",
   "theorems": [
    "C78_exact",
    "C78_counts",
    "C78_schedule",
    "C78_program",
    "C78_sensitivity_refuted"
   ],
   "note": "Estimators: proved in binary64 for every schedule and number of threads (C78_exact gives the 2^53 limit, C78_counts, C78_schedule, C78_program). Sensitivities: refuted, the sums of rounded effects differ in the last bit between two schedules of a 24-history run (C78_sensitivity_refuted)."
  },
  {
   "property": "C79",
   "status": "partial",
   "theorems": [
    "C79_linspace",
    "C79_logspace",
    "C79_overflow_bin_refuted",
    "C79_outside_refuted",
    "C79_undefined_refuted",
    "C79_not_a_number"
   ],
   "note": "Proved for linspace and logspace elements of non-degenerate width (range, monotonicity, at most one bin from the exact one). Refuted with witnesses: a value below max can land in the overflow bin; a subnormal width can give an index outside the array; an overflowing span or a NaN value is undefined behaviour."
  },
  {
   "property": "C80",
   "status": "proved",
   "theorems": [
    "C80_uniform",
    "C80_close",
    "C80_flight_exact",
    "C80_flight",
    "C80_isotropic"
   ],
   "note": "The bounds on flight lengths and directions hold for every mathematical library of the stated accuracy; a correctly rounded one meets it (Example C80_case)."
  },
  {
   "property": "C81",
   "status": "partial",
   "theorems": [
    "C81_statistics",
    "C81_run",
    "C81_nan_refuted"
   ],
   "note": "Proved while the square of the total number of crossings is at most 2^53. Beyond that refuted: 379625063 histories crossing once each print NaN."
  },
  {
   "property": "C82",
   "status": "partial",
   "theorems": [
    "C82_temperature",
    "C82_bounds_refuted"
   ],
   "note": "The temperature itself: proved. That it stays within the written bounds and is not negative: refuted, neither is checked."
  },
  {
   "property": "C83",
   "status": "proved",
   "theorems": [
    "C83_settings"
   ],
   "note": ""
  },
  {
   "property": "C84",
   "status": "proved",
   "theorems": [
    "C84_uniform",
    "C84_histories",
    "C84_flight",
    "C84_reactions",
    "C84_nuclides"
   ],
   "note": ""
  },
  {
   "property": "C85",
   "status": "proved",
   "theorems": [
    "C85_collision",
    "C85_step",
    "C85_new_numbers"
   ],
   "note": "The counting of numbers is for multigroup collisions; for continuous data the choice of the nuclide and everything before it is covered."
  },
  {
   "property": "C86",
   "status": "proved",
   "theorems": [
    "C86_absorber",
    "C86_attenuation",
    "C86_completes"
   ],
   "note": "Single absorbing region with void behind it, multigroup data, exact reals for the tallies. Attenuation through several regions depends on the joint distribution of successive numbers and is not claimed."
  },
  {
   "property": "C87",
   "status": "partial",
   "theorems": [
    "C87_method",
    "C87_independent_partial",
    "C87_independent_refuted"
   ],
   "note": "False: the tracking method is shared by all problems of the process, so a problem read later changes the result of one read earlier (C87_independent_refuted). C87_method says which method is used after any calls; C87_independent_partial says the problems are independent if the files read since have the same method."
  },
  {
   "property": "C88",
   "status": "partial",
   "theorems": [
    "C88_value",
    "C88_error",
    "C88_untouched_partial",
    "C88_derivative_refuted"
   ],
   "note": "The derivative claim is false of the code (C88_derivative_refuted: printed positive, derivative negative). Proved: the printed sensitivity and deviation are a fixed multiple of those of the count (C88_value), the exact excess over the derivative (C88_error), and zero for nuclides outside the absorber (C88_untouched_partial)."
  },
  {
   "property": "C89",
   "status": "proved",
   "theorems": [
    "C89_double",
    "C89_exact"
   ],
   "note": "Every reason why a worker of a run can be stopped, in double precision with the program's generator (C89_double) and in exact arithmetic with any valid generator (C89_exact), for every schedule. Data with thermal scattering tables are outside the theorem's hypotheses; OutOfFuel stands for histories longer than the modelled number of steps."
  },
  {
   "property": "C90",
   "status": "proved",
   "theorems": [
    "C90_reaction",
    "C90_scatter",
    "C90_fission"
   ],
   "note": "For entries up to 2^900, totals of at least 2^-900 and at most 65536 groups; the shares are exact up to one part in 2^34, which is what rounding can change."
  },
  {
   "property": "C91",
   "status": "proved",
   "theorems": [
    "C91_nuclide",
    "C91_reaction",
    "C91_first_time",
    "C91_summed"
   ],
   "note": "Binary64 with the program's generator: the nuclide hit and the continuous-energy reaction chosen are those of the exact shares up to 2^-34; the retry of the reaction choice is characterised."
  },
  {
   "property": "C92",
   "status": "partial",
   "theorems": [
    "C92_up_partial",
    "C92_down_partial",
    "C92_again",
    "C92_lost_refuted",
    "C92_missed_refuted",
    "C92_twice_refuted"
   ],
   "note": "True for planes near enough, in both directions; a particle short of a plane always meets it again. Refuted in general: one that reaches the plane exactly while flying down is lost, with a document where none of the neutrons is counted behind it, and a document where every neutron is counted twice."
  },
  {
   "property": "C93",
   "status": "partial",
   "theorems": [
    "C93_centre_partial",
    "C93_touching_refuted",
    "C93_through_refuted",
    "C93_twice_refuted"
   ],
   "note": "Proved from the centre of spheres of radius at most 5/4. Refuted in general: a law and two whole runs."
  },
  {
   "property": "C94",
   "status": "proved",
   "theorems": [
    "C94_lookup",
    "C94_beyond_refuted",
    "C94_negative_refuted",
    "C94_nan_refuted"
   ],
   "note": "Limits shown by C94_beyond_refuted, C94_negative_refuted and C94_nan_refuted."
  },
  {
   "property": "C95",
   "status": "proved",
   "theorems": [
    "C95_normalised",
    "C95_rotated",
    "C95_any_number",
    "C95_isotropic",
    "C95_nan_refuted"
   ],
   "note": "Normalising, turning by a scattering cosine, any number of collisions. The computed cosine of a direction with itself can be above one, and then the new direction is not a number."
  },
  {
   "property": "C96",
   "status": "proved",
   "theorems": [
    "C96_probability",
    "C96_step"
   ],
   "note": "The mixture's data must be non-negative doubles up to 2^400, each total at most its majorant, and the exact majorant at least 2^-900."
  },
  {
   "property": "C97",
   "status": "partial",
   "theorems": [
    "C97_order",
    "C97_few",
    "C97_built",
    "C97_exact",
    "C97_place",
    "C97_nuclides_refuted",
    "C97_surfaces_refuted"
   ],
   "note": "True: only the order of addresses matters (C97_order), nothing matters if materials have one nuclide and cells one surface (C97_few), the worlds built differ only in order (C97_exact in exact arithmetic, C97_built in any arithmetic up to the fractions), and the same cell is found for every point (C97_place; C11 and C29 then give the same nearest distance and the same totals in any order). The full claim is false: C97_nuclides_refuted and C97_surfaces_refuted."
  },
  {
   "property": "C98",
   "status": "partial",
   "theorems": [
    "C98_delta_partial",
    "C98_surface_partial",
    "C98_unique",
    "C98_probability",
    "C98_varying_refuted"
   ],
   "note": "proved when the total is constant along the flight; refuted for delta tracking when it varies (C98_varying_refuted), because the total at the start of the flight decides"
  },
  {
   "property": "C99",
   "status": "proved",
   "theorems": [
    "C99_target",
    "C99_collision"
   ],
   "note": "over the reals; each iteration's numbers are independent and uniform on (0,1); at_most bounds the upper probability"
  },
  {
   "property": "C100",
   "status": "proved",
   "theorems": [
    "C100_transport_ends",
    "C100_leaks",
    "C100_history"
   ],
   "note": "over the reals; either absorption with probability at least b in every group of every nuclide, or every non-void cell within one of its own spheres; whole histories where nothing is born by fission"
  },
  {
   "property": "C101",
   "status": "proved",
   "theorems": [
    "C101_statistics",
    "C101_sensitivities"
   ],
   "note": "exact arithmetic; histories drawn independently from a finite distribution"
  },
  {
   "property": "C102",
   "status": "proved",
   "theorems": [
    "C102_collision",
    "C102_yield"
   ],
   "note": "exact arithmetic; multigroup data"
  },
  {
   "property": "C103",
   "status": "proved",
   "theorems": [
    "C103_births"
   ],
   "note": "Joint chance of the number, groups and cosines of the neutrons of a fission in a mixture. With ideal independent random numbers; the children's own streams are seeded from a raw integer of the parent, whose value is not looked at. Requires the spectrum of every fissionable nuclide to be non-zero for the group."
  },
  {
   "property": "C104",
   "status": "proved",
   "theorems": [
    "C104_isotropic",
    "C104_flux",
    "C104_scattered",
    "C104_patches"
   ],
   "note": "Law of directions on all patches of the sphere. With ideal independent random numbers and real arithmetic; the azimuth is measured from axes that depend on the reference only."
  },
  {
   "property": "C105",
   "status": "proved",
   "theorems": [
    "C105_step"
   ],
   "note": "Joint law of distance and outcome of a step, in a mixture with multigroup data, for both tracking methods."
  },
  {
   "property": "C106",
   "status": "proved",
   "theorems": [
    "C106_absorber"
   ],
   "note": "Law of a whole walk in a purely absorbing mixture next to the void, for both tracking methods and any score."
  },
  {
   "property": "C107",
   "status": "proved",
   "theorems": [
    "C107_layers"
   ],
   "note": "Leakage through any number of absorbing layers, for both tracking methods and any score."
  },
  {
   "property": "C108",
   "status": "proved",
   "theorems": [
    "C108_ball",
    "C108_tally"
   ],
   "note": "Leakage of an isotropic point source in an absorbing ball; the direction and the flight use independent random numbers, where the code reseeds."
  },
  {
   "property": "C109",
   "status": "proved",
   "theorems": [
    "C109_plate",
    "C109_captured"
   ],
   "note": "Leakage of an isotropic point source through each face of an absorbing plate; the direction and the flight use independent random numbers, where the code reseeds."
  },
  {
   "property": "C110",
   "status": "proved",
   "theorems": [
    "C110_shells"
   ],
   "note": "Leakage of an isotropic point source through nested absorbing shells; the direction and the flight use independent random numbers, where the code reseeds."
  },
  {
   "property": "C111",
   "status": "proved",
   "theorems": [
    "C111_depth"
   ],
   "note": "Distribution of the cell of capture in layers of absorbers, with independent random numbers."
  },
  {
   "property": "C112",
   "status": "proved",
   "theorems": [
    "C112_independent",
    "C112_ball"
   ],
   "note": "Binomial law of counts of independent histories, with independent random numbers for each history where the code seeds them by number."
  }
 ]
}