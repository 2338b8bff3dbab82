# What Print Assumptions lists for each theorem

Generated by tools/mkassumptions.py.

## No axioms (closed under the global context)

* PropMP.v: C02_overflow_raises_partial
* PropRegen.v: C06_index_roundtrip, C06_index_injective
* PropCkpt.v: C64_number
* PropConfig.v: C29_module, C65_name
* PropWhole.v: C69_loaded
* PropSnap.v: C87_unique, C87_names, C87_settings, C88_frames, C88_others, C88_cloud, C88_folders, C88_cloud_folder_refuted, C88_cloud_folder
* PropPyHTInit.v: C96_files_apart
* PropSaveState.v: C99_saved, C99_modes, C99_loaded, C99_round_trip, C99_recomputation, C99_no_recorder
* PropLaw.v: C100_no_electrons
* PropLoadFile.v: C102_alone, C102_schedule, C102_crash, C102_one_process_refuted

## `ClassicalDedekindReals.sig_forall_dec`

* PropMP.v: C02_new, C07_roundtrip_partial
* PropCrossIon.v: C40_read_resets, C40_products, C40_accepted
* PropCkpt.v: C64_nowhere
* PropPyHT.v: C96_element_made
* PropEm.v: C82_charge
* PropSaveState.v: C99_em_refuted, C99_failed_refuted, C99_potentials_refuted
* PropMonitor.v: C104_vectors, C104_vectors_accepted, C104_rows, C104_columns, C104_strict, C104_permissive_partial, C104_first_skipped_refuted, C104_names, C104_missing_name, C104_nothing_lost_refuted

## `ClassicalDedekindReals.sig_forall_dec`, `ClassicalDedekindReals.sig_not_dec`, `Classical_Prop.classic`, `FunctionalExtensionality.functional_extensionality_dep`

* PropPush.v: C20_exact_motion, C20_exact_motion_no_field, C20_magnets
* PropGeom.v: C12_inside, C12_on_track, C14_ellipse_normals
* PropSey.v: C11_split, C11_total, C31_ECLOUD, C31_peak, C31_accurate, C31_cos, C31_flat, C31_mean, C32_code, C32_fraction_refuted, C34_velocities, C46_segment, C46_charge, C46_emitted, C46_yield
* PropImpact.v: C53_ellipse_wall, C10_emission_models, C10_charging_model
* PropFurman.v: C36_events, C36_exclusive, C36_returns, C36_rejects, C37_charge, C38_energy_partial, C38_refuted, C38_kept_refuted, C39_fresh_partial, C39_refuted, C55_energies, C55_yields, C55_normal, C55_grazing, C10_furman_pivi, C10_furman_pivi_chambers
* PropSource.v: C47_photoemission_1, C47_photoemission_2, C58_photoemission_per_segment, C57_energies, C57_fresh_draws, C57_rectangular_refuted, C47_stale_impact_time_refuted, C48_photoemission_1_inside, C48_photoemission_2_inside, C48_photoemission_3_inside
* PropStart.v: C78_photons_1, C78_photons_2
* PropCrossIon.v: C40_recorded_is_added, C40_history, C40_process, C40_equal_size, C40_velocities, C40_new_velocities, C40_exhausted_refuted, C41_refuted, C41_gentle_partial, C60_linear_table, C60_linear_table_total, C60_log_table
* PropSim.v: C42_step, C42_history, C43_early_check_partial, C43_early_check_refuted, C50_no_sub_step_refuted, C61_step_balance, C61_step, C61_history, C61_run, C61_run_step, C61_emission, C61_charging, C61_ellipse, C73_charge, C73_balance, C73_metal, C71_step
* PropForce.v: C80_strong_field, C80_dipole
* PropPyHT.v: C08_reset, C08_passage, C08_passage_slices, C67_same_kicks_refuted, C44_slice, C44_bunch, C45_slices, C45_slices_again, C45_bunch, C45_bunch_again, C45_afterwards, C45_disabled_kick_refuted, C45_long_slice_refuted
* PropWhole.v: C68_same, C68_unrecorded, C68_none, C68_succeeds, C69_continues_partial, C69_refuted, C70_output, C70_balance
* PropSlice.v: C83_interacts, C83_skips, C83_new_passage
* PropErf.v: C84_factor
* PropBE.v: C85_images, C85_nearly_round, C85_exists, C85_nodes, C85_map, C85_round_refuted, C85_tall_refuted, C85_focus_refuted, C86_analytic, C86_sources, C86_saved
* PropExtract.v: C90_yields, C90_file, C90_furman_pivi, C90_spectra, C90_spectra_furman_pivi, C90_harmless_refuted, C91_sigma
* PropEnergy.v: C93_recorded, C93_U_sc_zero, C93_U_sc_refuted
* PropMpi.v: C92_mean, C92_density_refuted, C92_same, C92_pace, C92_pace_schedule
* PropRand.v: C94_emission, C94_parts, C94_sources, C94_step, C94_run
* PropNpPoly.v: C95_inside, C95_first_touch, C95_agree, C95_corner_refuted, C95_no_impact_refuted
* PropChoose.v: C98_chosen, C98_named
* PropLaw.v: C100_rediffused, C100_true_secondary, C100_defaults_refuted, C100_true_density, C100_average, C100_binomial_refuted, C100_choice, C100_choice_average, C100_directions, C100_photoelectrons
* PropMean.v: C101_photoemission_1, C101_photoemission_2, C101_photoemission_3, C101_secondaries, C101_furman_pivi, C101_furman_pivi_bounds, C101_furman_pivi_refuted
* PropMeanCross.v: C101_cross_equal, C101_cross_own

## `ClassicalDedekindReals.sig_forall_dec`, `ClassicalDedekindReals.sig_not_dec`, `FunctionalExtensionality.functional_extensionality_dep`

* PropPush.v: C20_dipole_keeps_speed, C20_strongB_keeps_speed, C20_trackers_agree, C20_trackers_close
* PropGeom.v: C12_crossing_on_wall, C13_first_crossing, C13_longitudinal_refuted, C14_polygon_normals, C14_end_on_wall, C14_end_on_wall_refuted, C15_convex_test, C15_boundary_outside, C15_rectangle, C16_short_edge_rejected, C16_clockwise_rejected, C16_mixed_turns_rejected, C16_accepts, C16_normals_partial, C16_area, C16_closing_edge_refuted, C16_star_refuted, C16_flat_refuted, C51_on_edge, C51_subset
* PropRay.v: C77_test, C77_inside, C77_outside, C77_constant
* PropSey.v: C31_reflected, C34_angle, C34_normal, C52_energies, C52_fresh, C35_table_partial, C35_fraction, C35_spacing_refuted, C46_metal, C46_insulator
* PropImpact.v: C09_untouched, C09_frame, C10_balance, C10_emitted, C10_run, C10_absorber, C10_returns, C53_call_inside, C53_run_inside, C54_histograms
* PropFurman.v: C38_kept
* PropBeam.v: C22_axis, C22_secondary_axis, C24_superposition, C24_linear, C24_empty, C24_nonneg, C24_alone, C24_default_lengths, C24_short_lengths
* PropSource.v: C47_gas_ionisation, C58_same_chamber, C58_every_electron_on_a_segment, C48_gas_inside, C71_gas_positions, C71_gas_energy
* PropSim.v: C50_dipole, C50_strongB, C61_polygon, C61_trackers
* PropSaver.v: C25_samples, C25_balance, C25_file, C26_kept, C25_not_asked, C27_resumed_partial, C27_sample_lost, C27_resume_refuted, C27_one_passage_stops, C27_lifetimes_lost, C27_lifetimes_refuted, C62_passages, C62_energies, C62_lifetimes, C62_balance, C62_detail_partial, C62_detail_refuted, C63_probes_partial, C63_probes_refuted
* PropConfig.v: C29_accepted, C29_sound, C29_values, C29_module_refuted, C30_accepted, C30_override, C30_names, C65_cloud, C65_checked, C65_main, C65_outputs, C65_same_name_refuted, C66_beam, C66_raises, C66_complete
* PropInit.v: C74_read, C74_accepted, C74_machine, C74_secondary, C74_beam_object, C75_parts_partial, C76_files, C76_secondary_partial, C75_unused, C75_histogram_refuted, C75_substeps_refuted, C76_secondary_refuted
* PropEm.v: C82_fields, C82_first, C82_at_rest, C82_needs_interval, C82_elapsed_refuted
* PropErf.v: C84_returns, C84_conj, C84_reflect, C84_axis, C84_far, C84_near
* PropBE.v: C85_free, C85_symmetric, C85_turned, C85_outwards, C86_density, C86_total
* PropExtract.v: C90_absorber
* PropNpPoly.v: C95_same_inside, C95_clockwise_refuted
* PropPyHTInit.v: C96_accepted, C96_settings, C96_extras, C96_twin, C96_replaced, C96_runs, C96_passage, C96_slices, C96_no_output, C96_nothing_written, C96_unnamed, C96_recorder, C96_twin_flags_refuted, C96_twin_file_refuted, C96_two_names_refuted, C96_recording_refuted, C96_named_refuted
* PropOutp.v: C97_names, C97_only, C97_unknown, C97_custom, C97_replaced_refuted, C97_continue_refuted
* PropLaw.v: C100_backscattered, C100_low_energy
* PropMean.v: C101_gas_ionisation
* PropSeyFile.v: C103_short_refuted

## `ClassicalDedekindReals.sig_forall_dec`, `FunctionalExtensionality.functional_extensionality_dep`

* PropFort.v: C17_hist_conserves_weight, C17_below_range_refuted, C18_rho_is_hat_weighted, C18_rho_ignores_outside, C18_adjoint, C18_interp_bilinear_exact, C18_interp_within_node_range, C18_int_field_componentwise
* PropMP.v: C01_clean_small_MPs, C02_capacity_partial, C02_single_at_full_refuted, C03_add_new_MPs, C04_soft_regeneration, C04_no_survivor_refuted, C04_stale_slots_refuted, C07_last_impact_refuted
* PropRegen.v: C05_regeneration, C05_total_charge, C05_returns, C05_no_trigger, C06_cell_contains_mp_partial, C06_size_four_refuted
* PropPush.v: C19_boris_keeps_speed, C19_multipole_keeps_speed, C19_no_field_kick, C19_tracker_frame, C19_exb_drift, C19_parallel_velocity, C20_electron, C20_map_field, C21_harmonic_series, C21_harmonic_series_no_custom, C21_fields_add, C21_coefficients, C21_two_terms_is_quadrupole, C21_one_term_is_uniform, C21_skew_lengths, C21_short_skew_refuted, C21_long_skew_refuted
* PropGeom.v: C12_outside_test, C13_inside_on_track
* PropRay.v: C77_convex
* PropSey.v: C33_specular
* PropImpact.v: C53_polygon_wall, C10_absorber_model, C10_boris_motion, C54_constructor
* PropBeam.v: C22_run, C22_steps, C23_signal, C23_once_per_passage_partial, C23_before_zero_refuted, C49_beam_field, C49_zero, C49_total_field, C56_stop_and_continue
* PropProfile.v: C81_even, C81_any, C81_short_step_refuted
* PropTrig.v: C59_below_threshold, C59_soft_above, C59_async_cleaning_is_enough, C59_async_thins
* PropSource.v: C47_photo_charge, C47_uniform_charge, C47_uniform_density, C48_uniform_inside
* PropStart.v: C79_uniform_charge, C79_uniform_density
* PropCrossIon.v: C41_start
* PropSim.v: C43_apart, C43_soon, C43_answer, C50_cover_partial, C50_free_flight_partial, C50_custom, C50_boris, C72_kick_then_motion, C72_kick_and_drift, C72_refused
* PropForce.v: C80_free, C80_each_piece, C80_field, C80_beams
* PropSaver.v: C25_every_nth, C27_unchanging
* PropCkpt.v: C28_kept, C28_refused, C28_between_partial, C28_no_failure, C28_two_refuted, C28_output_refuted, C28_copy_refuted, C28_every_refuted, C28_no_slash, C64_spaced, C64_due
* PropPyHT.v: C45_bunch_shifted_partial
* PropEm.v: C82_motion
* PropBE.v: C86_file, C86_file_refuted
* PropSnap.v: C87_states, C87_on_time_partial, C87_simulation, C87_one_recorder, C87_single_refuted, C87_crowded_refuted, C89_runs, C89_stops, C89_other_clouds_refuted
* PropEnergy.v: C93_energy, C93_not_configured, C93_zero, C93_scale, C93_uniform, C93_bound
* PropMpi.v: C92_schedule, C92_completes, C92_deadlock
* PropRand.v: C94_regeneration
* PropOutp.v: C97_continue
* PropMean.v: C101_uniform_charge, C101_regeneration, C101_soft_regeneration
* PropSeyFile.v: C103_entries, C103_given, C103_path, C103_nowhere, C103_input_folder, C103_input_folder_mat, C103_other_path, C103_folder_never, C103_folder_refuted, C103_home_refuted, C103_other_table_refuted, C103_descending_refuted

## `Classical_Prop.classic`

* PropSaveState.v: C99_checkpoint
