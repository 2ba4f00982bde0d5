# What `Print Assumptions` lists

Written by `tools/assumptions.py` from a build. All are axioms of the standard library.

## Closed under the global context

C03_boundary_bins_binary64, C05_boundaries_validation, C05_estimator_bins_abort, C05_linspace_validation, C11_nearest_surface_binary64, C13_point_location, C13_point_location_order, C16_streaming_succeeds, C19_dataset_row_major, C21_total_is_sum, C23_group_lists, C23_rejected, C31_multigroup_majorant, C39_thermal_cutoff, C41_ten_attempts, C45_walk, C46_recorded_cell, C47_rejection_partial, C49_binary64_refuted, C50_created, C51_untouched, C52_asked, C52_binary64_refuted, C53_error, C53_lookup, C53_merge, C53_order, C54_created, C54_requested, C56_ends, C56_once, C57_created, C58_reproducible, C59_collisions, C59_distinct_partial, C59_lockstep, C60_every_state, C60_injective, C60_period, C60_range, C61_all_members, C61_members_once, C61_one_family, C62_second, C63_initial, C63_program, C64_empty, C64_once, C64_order, C64_progress, C65_particle, C66_cells, C66_described, C66_missing, C66_shared, C67_source_in_void_refuted, C72_partitions, C74_flight, C75_defined, C75_fields, C75_reported_partial, C76_layout, C76_name, C76_report, C77_first, C77_only_output, C77_prefix, C78_counts, C78_program, C78_schedule, C78_sensitivity_refuted, C79_not_a_number, C79_outside_refuted, C79_overflow_bin_refuted, C79_undefined_refuted, C81_nan_refuted, C82_temperature, C83_settings, C85_new_numbers, C85_step, C87_independent_partial, C87_method, C92_missed_refuted, C92_twice_refuted, C93_through_refuted, C93_twice_refuted, C97_built, C97_few, C97_nuclides_refuted, C97_order, C97_place, C97_surfaces_refuted

## `ClassicalDedekindReals.sig_forall_dec`, `FunctionalExtensionality.functional_extensionality_dep`

C102_yield, C112_independent, C26_mean_yield, C52_radicand, C95_nan_refuted, C98_probability

## `ClassicalDedekindReals.sig_forall_dec`, `ClassicalDedekindReals.sig_not_dec`, `FunctionalExtensionality.functional_extensionality_dep`

C98_unique

## `ClassicalDedekindReals.sig_forall_dec`, `ClassicalDedekindReals.sig_not_dec`, `Classical_Prop.classic`, `FunctionalExtensionality.functional_extensionality_dep`

C01_linspace_bins, C02_logspace_bins, C03_boundary_bins, C04_particle_bins, C05_boundaries_validation_reals, C06_sphere_distance, C07_planex_distance, C08_cylinderx_distance, C09_side_changes_at_distance, C100_history, C100_leaks, C100_transport_ends, C101_sensitivities, C101_statistics, C102_collision, C103_births, C104_flux, C104_isotropic, C104_patches, C104_scattered, C105_step, C106_absorber, C107_layers, C108_ball, C108_tally, C109_captured, C109_plate, C10_cylinder_containment_partial, C10_cylinder_containment_refuted, C10_cylinder_crossing_refuted, C110_shells, C111_depth, C112_ball, C11_nearest_surface, C12_flight_stays_in_cell, C14_directions_are_unit, C15_rotation_cosine, C16_streaming, C17_table_lookup, C18_nested_lookup, C20_dataset_to_table, C21_total_reals, C22_transfer_probabilities, C24_reaction_choice, C25_scatter_groups, C26_emitted_neutrons, C27_continuous_secondaries, C27_multigroup_secondaries, C28_atom_fractions, C29_material_sums, C30_collided_nuclide, C31_no_virtual_collisions, C32_valid_near_temperature_partial, C32_valid_near_temperature_refuted, C33_free_gas_adjustment, C34_scatter_majorant, C35_continuous_majorant, C36_no_reaction, C36_reaction_choice, C36_reaction_share, C37_free_gas_collision, C38_target_returned, C38_target_sampling, C40_highest_temperature_refuted, C40_thermal_grid_partial, C41_energy_nonnegative, C42_thermal_cosine_partial, C42_zero_energy_refuted, C43_beta_grid_point_partial, C43_beta_grid_point_refuted, C44_existing_entries_partial, C44_existing_entries_refuted, C45_multigroup, C46_inside, C47_rejection_refuted, C48_constant_temperature, C49_plane_crossed, C49_sphere_crossed, C49_step, C50_crossings, C51_histories, C51_sums, C52_statistics, C54_scores, C55_collisions_partial, C55_error, C55_surface_refuted, C57_no_threads_refuted, C57_result, C57_serial, C57_threads, C59_streams_refuted, C60_uniform, C62_empty, C62_interface, C62_repeat_refuted, C63_cycles_refuted, C65_direction, C65_zero_direction_refuted, C68_lowest_temperature_refuted, C68_temperature_interpolation_partial, C69_energy_grid_point, C70_isotropic_direction, C71_history_never_fails, C71_transport_never_fails, C73_alpha, C73_beta, C74_exponential, C74_transparent, C75_abort_refuted, C75_empty_axis_refuted, C77_input_refuted, C77_lost_refuted, C77_same, C77_serial, C77_silent_refuted, C78_exact, C79_linspace, C79_logspace, C80_close, C80_flight, C80_flight_exact, C80_isotropic, C80_uniform, C81_run, C81_statistics, C82_bounds_refuted, C84_flight, C84_histories, C84_nuclides, C84_reactions, C84_uniform, C85_collision, C86_absorber, C86_attenuation, C86_completes, C87_independent_refuted, C88_derivative_refuted, C88_error, C88_untouched_partial, C88_value, C89_double, C89_exact, C90_fission, C90_reaction, C90_scatter, C91_first_time, C91_nuclide, C91_reaction, C91_summed, C92_again, C92_down_partial, C92_lost_refuted, C92_up_partial, C93_centre_partial, C93_touching_refuted, C94_beyond_refuted, C94_lookup, C94_nan_refuted, C94_negative_refuted, C95_any_number, C95_isotropic, C95_normalised, C95_rotated, C96_probability, C96_step, C97_exact, C98_delta_partial, C98_surface_partial, C98_varying_refuted, C99_collision, C99_target
