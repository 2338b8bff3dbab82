{
 "claims": [
  {
   "property": "C01",
   "status": "proved",
   "theorems": [
    "C01_clean_small_MPs"
   ],
   "note": ""
  },
  {
   "property": "C02",
   "status": "partial",
   "theorems": [
    "C02_capacity_partial",
    "C02_new",
    "C02_overflow_raises_partial",
    "C02_single_at_full_refuted"
   ],
   "note": "Holds for every operation sequence except adding a single macroparticle to a full system, where numpy broadcasts silently into an empty slice (refuted by witness)."
  },
  {
   "property": "C03",
   "status": "proved",
   "theorems": [
    "C03_add_new_MPs"
   ],
   "note": ""
  },
  {
   "property": "C04",
   "status": "partial",
   "theorems": [
    "C04_soft_regeneration",
    "C04_no_survivor_refuted",
    "C04_stale_slots_refuted"
   ],
   "note": "Proved when the free slots are empty and somebody survives; witnesses show charge loss when nobody survives and charge creation when stale slots follow an import."
  },
  {
   "property": "C05",
   "status": "proved",
   "theorems": [
    "C05_regeneration",
    "C05_total_charge",
    "C05_returns",
    "C05_no_trigger"
   ],
   "note": ""
  },
  {
   "property": "C06",
   "status": "partial",
   "theorems": [
    "C06_index_roundtrip",
    "C06_index_injective",
    "C06_cell_contains_mp_partial",
    "C06_size_four_refuted"
   ],
   "note": "The index is a bijection on the grid and every MP lies in its cell, except for grid sizes that are multiples of four, for which C06_size_four_refuted gives a collision."
  },
  {
   "property": "C07",
   "status": "partial",
   "theorems": [
    "C07_roundtrip_partial",
    "C07_last_impact_refuted"
   ],
   "note": "Positions, velocities and charges round trip; last impact times are not exported (refuted by witness)."
  },
  {
   "property": "C08",
   "status": "proved",
   "theorems": [
    "C08_reset",
    "C08_passage",
    "C08_passage_slices"
   ],
   "note": "Any history of bunches, slices, resets, flag changes and replacements. Side condition of C08_passage: the histories agree on what is not reset (clock, densities, counters, space-charge state, flags); see C67. Output recorder not modelled here."
  },
  {
   "property": "C09",
   "status": "proved",
   "theorems": [
    "C09_untouched",
    "C09_frame"
   ],
   "note": ""
  },
  {
   "property": "C10",
   "status": "proved",
   "theorems": [
    "C10_furman_pivi",
    "C10_furman_pivi_chambers",
    "C10_emission_models",
    "C10_charging_model",
    "C10_absorber_model",
    "C10_balance",
    "C10_emitted",
    "C10_run",
    "C10_boris_motion",
    "C10_absorber",
    "C10_returns"
   ],
   "note": ""
  },
  {
   "property": "C11",
   "status": "proved",
   "theorems": [
    "C11_split",
    "C11_total"
   ],
   "note": ""
  },
  {
   "property": "C12",
   "status": "proved",
   "theorems": [
    "C12_inside",
    "C12_on_track",
    "C12_crossing_on_wall",
    "C12_outside_test"
   ],
   "note": ""
  },
  {
   "property": "C13",
   "status": "partial",
   "theorems": [
    "C13_inside_on_track",
    "C13_first_crossing",
    "C13_longitudinal_refuted"
   ],
   "note": "Transverse position proved for any chamber and, for convex ones, identified as the rescaled first crossing. The longitudinal coordinate is set to 0 and so leaves the track (refuted by witness)."
  },
  {
   "property": "C14",
   "status": "partial",
   "theorems": [
    "C14_ellipse_normals",
    "C14_polygon_normals",
    "C14_end_on_wall",
    "C14_end_on_wall_refuted"
   ],
   "note": "Proved for ellipses and for convex polygons when the track ends strictly beyond a wall. A track ending exactly on a wall is counted as an impact but gets the zero normal and segment 0 (C14_end_on_wall, for all such tracks)."
  },
  {
   "property": "C15",
   "status": "proved",
   "theorems": [
    "C15_convex_test",
    "C15_boundary_outside",
    "C15_rectangle"
   ],
   "note": ""
  },
  {
   "property": "C16",
   "status": "partial",
   "theorems": [
    "C16_short_edge_rejected",
    "C16_clockwise_rejected",
    "C16_mixed_turns_rejected",
    "C16_accepts",
    "C16_normals_partial",
    "C16_area",
    "C16_closing_edge_refuted",
    "C16_star_refuted",
    "C16_flat_refuted"
   ],
   "note": "Rejections proved as stated for all but the closing edge; witnesses show that a zero-length closing edge, a self-intersecting star and a flat outline are accepted."
  },
  {
   "property": "C17",
   "status": "partial",
   "theorems": [
    "C17_hist_conserves_weight",
    "C17_below_range_refuted"
   ],
   "note": "Samples below the start of the range are written outside the array (refuted by witness); everything else proved."
  },
  {
   "property": "C18",
   "status": "proved",
   "theorems": [
    "C18_rho_is_hat_weighted",
    "C18_rho_ignores_outside",
    "C18_adjoint",
    "C18_interp_bilinear_exact",
    "C18_interp_within_node_range",
    "C18_int_field_componentwise"
   ],
   "note": ""
  },
  {
   "property": "C19",
   "status": "proved",
   "theorems": [
    "C19_boris_keeps_speed",
    "C19_multipole_keeps_speed",
    "C19_no_field_kick",
    "C19_tracker_frame",
    "C19_exb_drift",
    "C19_parallel_velocity"
   ],
   "note": ""
  },
  {
   "property": "C20",
   "status": "proved",
   "theorems": [
    "C20_dipole_keeps_speed",
    "C20_strongB_keeps_speed",
    "C20_electron",
    "C20_trackers_agree",
    "C20_trackers_close",
    "C20_exact_motion",
    "C20_exact_motion_no_field",
    "C20_magnets",
    "C20_map_field"
   ],
   "note": ""
  },
  {
   "property": "C21",
   "status": "partial",
   "theorems": [
    "C21_harmonic_series",
    "C21_harmonic_series_no_custom",
    "C21_fields_add",
    "C21_coefficients",
    "C21_two_terms_is_quadrupole",
    "C21_one_term_is_uniform",
    "C21_skew_lengths",
    "C21_short_skew_refuted",
    "C21_long_skew_refuted"
   ],
   "note": "The series and the factorial normalisation hold when the skew list is absent or as long as the normal list. For other lengths the constructor broadcasts or truncates silently (the two refuted theorems)."
  },
  {
   "property": "C22",
   "status": "proved",
   "theorems": [
    "C22_run",
    "C22_steps",
    "C22_axis",
    "C22_secondary_axis"
   ],
   "note": ""
  },
  {
   "property": "C23",
   "status": "partial",
   "theorems": [
    "C23_signal",
    "C23_once_per_passage_partial",
    "C23_before_zero_refuted"
   ],
   "note": "Proved for every axis (signal exactly when a passage later than all earlier ones is entered); one signal per passage for axes starting at or after time zero. Passages before time zero are never signalled (refuted by witness)."
  },
  {
   "property": "C24",
   "status": "proved",
   "theorems": [
    "C24_superposition",
    "C24_linear",
    "C24_empty",
    "C24_nonneg",
    "C24_alone",
    "C24_default_lengths",
    "C24_short_lengths"
   ],
   "note": ""
  },
  {
   "property": "C25",
   "status": "proved",
   "theorems": [
    "C25_samples",
    "C25_balance",
    "C25_file",
    "C25_every_nth",
    "C25_not_asked"
   ],
   "note": "All step-by-step observables, with any decimation, buffer size and custom observables; also what the file on disk holds. Settings with non-positive bin widths, macroparticles left of the first bin and a restricted list of output keys are excluded (cfg_ok, step_ok)."
  },
  {
   "property": "C26",
   "status": "proved",
   "theorems": [
    "C26_kept"
   ],
   "note": "Also independent of the initial size of the buffers. A size of zero is excluded (the code cannot double an empty array)."
  },
  {
   "property": "C27",
   "status": "partial",
   "theorems": [
    "C27_unchanging",
    "C27_resumed_partial",
    "C27_sample_lost",
    "C27_resume_refuted",
    "C27_one_passage_stops",
    "C27_lifetimes_lost",
    "C27_lifetimes_refuted"
   ],
   "note": "False: the sample of the checkpoint is lost, the passage times are not restored, the space charge energies are not cut (C27_resume_refuted, C27_sample_lost), and an output with one passage cannot be continued (C27_one_passage_stops). Proved: histograms and counters of the passages of a continued run equal those of an uninterrupted one. Lifetime histograms are lost (C27_lifetimes_lost, C27_lifetimes_refuted)."
  },
  {
   "property": "C28",
   "status": "partial",
   "theorems": [
    "C28_kept",
    "C28_refused",
    "C28_between_partial",
    "C28_no_failure",
    "C28_two_refuted",
    "C28_output_refuted",
    "C28_copy_refuted",
    "C28_every_refuted",
    "C28_no_slash"
   ],
   "note": "Proved: at every crash point the checkpoint completed last is in the folder, complete, beside at most one other file; the exact crash points at which a new run refuses it; acceptance when runs are killed between passages and the output is written at every passage; no file operation of an accepted run fails. Refuted: acceptance at every crash point (old checkpoint not yet removed, output half-written, first copy missing, save_mat_every above 1), and a folder written without a final \"/\" is never found again. A write that a crash can interrupt is two operations (truncate, complete); reading a complete output is assumed to succeed."
  },
  {
   "property": "C29",
   "status": "partial",
   "theorems": [
    "C29_module",
    "C29_accepted",
    "C29_sound",
    "C29_values",
    "C29_module_refuted"
   ],
   "note": "The table is generated from default_input_parameters.py by tools/mkconfigtable.py. Acceptance of one file against a section (C29_module), of the four files together (C29_accepted, C29_sound) and the values (C29_values). The values and the completeness need that no imported module has the name of a parameter: C29_module_refuted shows that such a module in the simulation file silently becomes the value. The parameter pi may be given in several files; a later one is ignored."
  },
  {
   "property": "C30",
   "status": "proved",
   "theorems": [
    "C30_accepted",
    "C30_override",
    "C30_names"
   ],
   "note": "C30_accepted and C30_override for every set of keyword arguments with distinct names; C30_names: the configuration holds exactly the parameters of the main input. Overriding the name of the machine or emission file changes the recorded name only, these files have been read by then. Beam parameters are not part of the configuration and cannot be overridden."
  },
  {
   "property": "C31",
   "status": "proved",
   "theorems": [
    "C31_ECLOUD",
    "C31_peak",
    "C31_reflected",
    "C31_accurate",
    "C31_cos",
    "C31_flat",
    "C31_mean"
   ],
   "note": "Real arithmetic; admissible parameters (E >= 0, 0 <= cos <= 1, Emax > 0, s > 1, R0 >= 0, E0 > 0) are hypotheses. The peak statement is about the true-secondary part, as in the code."
  },
  {
   "property": "C32",
   "status": "partial",
   "theorems": [
    "C32_code",
    "C32_fraction_refuted"
   ],
   "note": "The code violates the property: `delta = true_sec` aliases the array, so the reflected part is always zero. Refuted with a witness; C32_code states what the code does."
  },
  {
   "property": "C33",
   "status": "proved",
   "theorems": [
    "C33_specular"
   ],
   "note": ""
  },
  {
   "property": "C34",
   "status": "proved",
   "theorems": [
    "C34_velocities",
    "C34_angle",
    "C34_normal"
   ],
   "note": ""
  },
  {
   "property": "C35",
   "status": "partial",
   "theorems": [
    "C35_table_partial",
    "C35_fraction",
    "C35_spacing_refuted"
   ],
   "note": "Proved for spacings that are multiples of 0.001 eV and energies from the first table energy on; refuted for other spacings, which are accepted but rounded. File lookup: C103."
  },
  {
   "property": "C36",
   "status": "proved",
   "theorems": [
    "C36_events",
    "C36_exclusive",
    "C36_returns",
    "C36_rejects"
   ],
   "note": "Outcome table, sizes, exclusivity, termination of the M_cut loop within 12 rounds for all random streams."
  },
  {
   "property": "C37",
   "status": "proved",
   "theorems": [
    "C37_charge"
   ],
   "note": ""
  },
  {
   "property": "C38",
   "status": "partial",
   "theorems": [
    "C38_energy_partial",
    "C38_refuted",
    "C38_kept",
    "C38_kept_refuted"
   ],
   "note": "Holds for events with one or two emitted electrons and pairwise for any number; false for three or more (C38_refuted). The loop keeps events of two or more electrons that respect the limit (C38_kept); events of one electron may be drawn again because of another event (C38_kept_refuted)."
  },
  {
   "property": "C39",
   "status": "partial",
   "theorems": [
    "C39_fresh_partial",
    "C39_refuted"
   ],
   "note": "New macroparticles always get a fresh velocity; the replaced one does not when no event of the batch emits two or more electrons (C39_refuted)."
  },
  {
   "property": "C40",
   "status": "partial",
   "theorems": [
    "C40_recorded_is_added",
    "C40_read_resets",
    "C40_history",
    "C40_process",
    "C40_equal_size",
    "C40_velocities",
    "C40_new_velocities",
    "C40_products",
    "C40_accepted",
    "C40_exhausted_refuted"
   ],
   "note": "The match of counters and macroparticles is proved while targets are not exhausted; once a target number is negative the recorded number of macroparticles falls without anything being removed (C40_exhausted_refuted)."
  },
  {
   "property": "C41",
   "status": "partial",
   "theorems": [
    "C41_refuted",
    "C41_gentle_partial",
    "C41_start"
   ],
   "note": "False of the code: one call may ionise more particles than the target holds and the number is not clipped (C41_refuted). Proved when the projectiles sweep at most the target area per step."
  },
  {
   "property": "C42",
   "status": "proved",
   "theorems": [
    "C42_step",
    "C42_history"
   ],
   "note": "Any number of clouds, any deposition and field solver on one grid."
  },
  {
   "property": "C43",
   "status": "partial",
   "theorems": [
    "C43_apart",
    "C43_soon",
    "C43_answer",
    "C43_early_check_partial",
    "C43_early_check_refuted"
   ],
   "note": "The decimation rule is proved for the checks. For recomputations themselves the claim is false: a check before the space charge is switched on uses up the slot without recomputing (C43_early_check_refuted), and a forced recomputation does not reset the clock."
  },
  {
   "property": "C44",
   "status": "proved",
   "theorems": [
    "C44_slice",
    "C44_bunch"
   ],
   "note": "Slice of positive length, positive speed. A build-up or reference step that is not positive is taken as an exception."
  },
  {
   "property": "C45",
   "status": "partial",
   "theorems": [
    "C45_slices",
    "C45_slices_again",
    "C45_bunch",
    "C45_bunch_again",
    "C45_afterwards",
    "C45_bunch_shifted_partial",
    "C45_disabled_kick_refuted",
    "C45_long_slice_refuted"
   ],
   "note": "Proved for interacting slices in slice mode, and for whole bunches if PyHEADTAIL (external) resolves negative slice numbers from the end. Refuted: disabled kicks are ignored in the replay; a long slice without interaction shifts the record. If PyHEADTAIL looks up limits at i and i+1 the replay of a bunch is shifted by one slice."
  },
  {
   "property": "C46",
   "status": "proved",
   "theorems": [
    "C46_segment",
    "C46_charge",
    "C46_metal",
    "C46_insulator",
    "C46_emitted",
    "C46_yield"
   ],
   "note": ""
  },
  {
   "property": "C47",
   "status": "partial",
   "theorems": [
    "C47_gas_ionisation",
    "C47_photoemission_1",
    "C47_photoemission_2",
    "C47_photo_charge",
    "C47_uniform_charge",
    "C47_stale_impact_time_refuted",
    "C47_uniform_density"
   ],
   "note": "Gas ionisation, the three photoemission models and the two uniform initial distributions. Refuted part: with lifetime histograms the uniform distribution writes the last impact times to the wrong slots, so a new macroparticle keeps the stale time of its slot."
  },
  {
   "property": "C48",
   "status": "proved",
   "theorems": [
    "C48_gas_inside",
    "C48_photoemission_1_inside",
    "C48_photoemission_2_inside",
    "C48_photoemission_3_inside",
    "C48_uniform_inside"
   ],
   "note": "Models 1 and 2 of photoemission need the origin inside the chamber (the code does not check it); every stream on which the rejection loops stop."
  },
  {
   "property": "C49",
   "status": "proved",
   "theorems": [
    "C49_beam_field",
    "C49_zero",
    "C49_total_field"
   ],
   "note": ""
  },
  {
   "property": "C50",
   "status": "partial",
   "theorems": [
    "C50_cover_partial",
    "C50_free_flight_partial",
    "C50_custom",
    "C50_boris",
    "C50_dipole",
    "C50_strongB",
    "C50_no_sub_step_refuted"
   ],
   "note": "False on non-uniform time axes when the step is at most half the target sub-step: no sub-step is made (C50_no_sub_step_refuted). Proved otherwise."
  },
  {
   "property": "C51",
   "status": "proved",
   "theorems": [
    "C51_on_edge",
    "C51_subset"
   ],
   "note": ""
  },
  {
   "property": "C52",
   "status": "proved",
   "theorems": [
    "C52_energies",
    "C52_fresh"
   ],
   "note": ""
  },
  {
   "property": "C53",
   "status": "proved",
   "theorems": [
    "C53_ellipse_wall",
    "C53_polygon_wall",
    "C53_call_inside",
    "C53_run_inside"
   ],
   "note": ""
  },
  {
   "property": "C54",
   "status": "proved",
   "theorems": [
    "C54_histograms",
    "C54_constructor"
   ],
   "note": ""
  },
  {
   "property": "C55",
   "status": "proved",
   "theorems": [
    "C55_energies",
    "C55_yields",
    "C55_normal",
    "C55_grazing"
   ],
   "note": ""
  },
  {
   "property": "C56",
   "status": "proved",
   "theorems": [
    "C56_stop_and_continue"
   ],
   "note": ""
  },
  {
   "property": "C57",
   "status": "partial",
   "theorems": [
    "C57_energies",
    "C57_fresh_draws",
    "C57_rectangular_refuted"
   ],
   "note": "Holds for all distributions but the rectangular one, which can give negative energies (C57_rectangular_refuted). Velocities are part of C47_photoemission_1, C47_photoemission_2 and C58_photoemission_per_segment (photo_mp)."
  },
  {
   "property": "C58",
   "status": "proved",
   "theorems": [
    "C58_photoemission_per_segment",
    "C58_same_chamber",
    "C58_every_electron_on_a_segment"
   ],
   "note": "Every polygon accepted by the constructor."
  },
  {
   "property": "C59",
   "status": "proved",
   "theorems": [
    "C59_below_threshold",
    "C59_soft_above",
    "C59_async_cleaning_is_enough",
    "C59_async_thins"
   ],
   "note": "Includes the effect of the thinning when at least one macroparticle survives."
  },
  {
   "property": "C60",
   "status": "proved",
   "theorems": [
    "C60_linear_table",
    "C60_linear_table_total",
    "C60_log_table"
   ],
   "note": "Steps must be multiples of 1e-8 because the code rounds the steps to eight decimals."
  },
  {
   "property": "C61",
   "status": "proved",
   "theorems": [
    "C61_step_balance",
    "C61_step",
    "C61_history",
    "C61_run",
    "C61_run_step",
    "C61_emission",
    "C61_charging",
    "C61_ellipse",
    "C61_polygon",
    "C61_trackers"
   ],
   "note": "Hypotheses on the parts (chamber, emission model, trackers) are proved for the ones of the code. The run theorem is without cross ionisation, whose targets may be exhausted (see C41); the step and history theorems include it while targets last. The Furman-Pivi model is covered by C10_furman_pivi (in PropFurman). Rounding and the PyPIC solver are not included."
  },
  {
   "property": "C62",
   "status": "partial",
   "theorems": [
    "C62_passages",
    "C62_energies",
    "C62_lifetimes",
    "C62_balance",
    "C62_detail_partial",
    "C62_detail_refuted"
   ],
   "note": "Proved for the passage, energy, angle, segment and lifetime histograms. The detailed position histogram repeats the previous line when a passage ends with an empty cloud (C62_detail_refuted); correct otherwise (C62_detail_partial)."
  },
  {
   "property": "C63",
   "status": "partial",
   "theorems": [
    "C63_probes_partial",
    "C63_probes_refuted"
   ],
   "note": "False: the last sample is missing (C63_probes_refuted); all the others are right (C63_probes_partial)."
  },
  {
   "property": "C64",
   "status": "proved",
   "theorems": [
    "C64_number",
    "C64_spaced",
    "C64_due",
    "C64_nowhere"
   ],
   "note": "Names, spacing and due passages over any history of runs, each killed at any file operation."
  },
  {
   "property": "C65",
   "status": "partial",
   "theorems": [
    "C65_cloud",
    "C65_checked",
    "C65_main",
    "C65_outputs",
    "C65_name",
    "C65_same_name_refuted"
   ],
   "note": "C65_same_name_refuted: two cloud files with the same base name in different folders write the same output file, without an error. A named main cloud with the name of a cloud file does the same; C65_outputs has both as hypotheses."
  },
  {
   "property": "C66",
   "status": "proved",
   "theorems": [
    "C66_beam",
    "C66_raises",
    "C66_complete"
   ],
   "note": "Values in R. A rest energy of zero and a zero velocity give an error in the model (a warning and inf in the code)."
  },
  {
   "property": "C67",
   "status": "partial",
   "theorems": [
    "C67_same_kicks_refuted"
   ],
   "note": "Refuted: the space-charge field of the end of a passage acts in the first step of the next one. C08_passage gives what holds: equal kicks if the states that are not reset agree."
  },
  {
   "property": "C68",
   "status": "proved",
   "theorems": [
    "C68_same",
    "C68_unrecorded",
    "C68_none",
    "C68_succeeds"
   ],
   "note": ""
  },
  {
   "property": "C69",
   "status": "partial",
   "theorems": [
    "C69_loaded",
    "C69_continues_partial",
    "C69_refuted"
   ],
   "note": "Refuted: the checkpoint is written before the cleaning and regeneration of its step, so these are skipped after loading. Proved (C69_continues_partial) when they had nothing to do. Random generator and cross-ionisation targets are not saved (C69_loaded)."
  },
  {
   "property": "C70",
   "status": "proved",
   "theorems": [
    "C70_output",
    "C70_balance"
   ],
   "note": "Columns with one value per sample; histograms and passage data are covered by C54 and C62."
  },
  {
   "property": "C71",
   "status": "proved",
   "theorems": [
    "C71_step",
    "C71_gas_positions",
    "C71_gas_energy"
   ],
   "note": ""
  },
  {
   "property": "C72",
   "status": "proved",
   "theorems": [
    "C72_kick_then_motion",
    "C72_kick_and_drift",
    "C72_refused"
   ],
   "note": ""
  },
  {
   "property": "C73",
   "status": "proved",
   "theorems": [
    "C73_charge",
    "C73_balance",
    "C73_metal"
   ],
   "note": ""
  },
  {
   "property": "C74",
   "status": "proved",
   "theorems": [
    "C74_read",
    "C74_accepted",
    "C74_machine",
    "C74_beam_object",
    "C74_secondary"
   ],
   "note": "Arguments are compared as values and the constructed objects are records of what they were called with; that the constructors themselves may fail is covered by C16, C51 and C58. An unknown photoemission flag is accepted and gives no photoemission (photo_part)."
  },
  {
   "property": "C75",
   "status": "partial",
   "theorems": [
    "C75_parts_partial",
    "C75_unused",
    "C75_histogram_refuted",
    "C75_substeps_refuted"
   ],
   "note": "Refuted for the histograms of the impact manager (number of bins, largest energy, lifetimes, width of the angles) and for the sub-steps of the multipole tracker, which come from the main settings although a cloud may set its own. t_ON_regen_low must be given and has no effect (C75_unused). Everything else is proved (C75_parts_partial)."
  },
  {
   "property": "C76",
   "status": "partial",
   "theorems": [
    "C76_files",
    "C76_secondary_partial",
    "C76_secondary_refuted"
   ],
   "note": "Refuted for secondary beams: the existence of the file with the suffix is tested with the name of the main beam."
  },
  {
   "property": "C77",
   "status": "proved",
   "theorems": [
    "C77_test",
    "C77_inside",
    "C77_outside",
    "C77_constant",
    "C77_convex"
   ],
   "note": ""
  },
  {
   "property": "C78",
   "status": "proved",
   "theorems": [
    "C78_photons_1",
    "C78_photons_2"
   ],
   "note": ""
  },
  {
   "property": "C79",
   "status": "proved",
   "theorems": [
    "C79_uniform_charge",
    "C79_uniform_density"
   ],
   "note": ""
  },
  {
   "property": "C80",
   "status": "proved",
   "theorems": [
    "C80_free",
    "C80_each_piece",
    "C80_field",
    "C80_strong_field",
    "C80_dipole",
    "C80_beams"
   ],
   "note": ""
  },
  {
   "property": "C81",
   "status": "partial",
   "theorems": [
    "C81_even",
    "C81_any",
    "C81_short_step_refuted"
   ],
   "note": "The time step is that of the file when the steps are equal, and what counts as equal is characterised for all increasing times. The full claim is false: steps shorter than the mean are not noticed, so a file with one short first step is run with that step (C81_short_step_refuted)."
  },
  {
   "property": "C82",
   "status": "partial",
   "theorems": [
    "C82_charge",
    "C82_fields",
    "C82_first",
    "C82_at_rest",
    "C82_motion",
    "C82_needs_interval",
    "C82_elapsed_refuted"
   ],
   "note": "Fields, motion and schedule are proved for every solver and history. The rate of change is taken over Dt_sc whatever time has passed between the recomputations, so it is not the difference quotient when the steps do not divide Dt_sc (C82_elapsed_refuted), and after the first recomputation the potential counts as zero before (C82_first). Checkpoints do not hold the vector potential."
  },
  {
   "property": "C83",
   "status": "proved",
   "theorems": [
    "C83_interacts",
    "C83_skips",
    "C83_new_passage"
   ],
   "note": ""
  },
  {
   "property": "C84",
   "status": "proved",
   "theorems": [
    "C84_returns",
    "C84_conj",
    "C84_reflect",
    "C84_axis",
    "C84_far",
    "C84_factor",
    "C84_near"
   ],
   "note": "Numbers are reals: overflow and rounding of the Fortran double precision are not modelled, and the accuracy with respect to the mathematical function is not claimed."
  },
  {
   "property": "C85",
   "status": "partial",
   "theorems": [
    "C85_free",
    "C85_symmetric",
    "C85_turned",
    "C85_outwards",
    "C85_images",
    "C85_nearly_round",
    "C85_exists",
    "C85_nodes",
    "C85_map",
    "C85_round_refuted",
    "C85_tall_refuted",
    "C85_focus_refuted"
   ],
   "note": "Formula, symmetries and the map are proved. That a map always exists is refuted: beams with equal sizes, chambers taller than wide and nodes at a focus of the chamber give NaN (C85_round_refuted, C85_tall_refuted, C85_focus_refuted); in all other cases it exists (C85_exists). At the last row and column of nodes the interpolation gives zero."
  },
  {
   "property": "C86",
   "status": "partial",
   "theorems": [
    "C86_density",
    "C86_total",
    "C86_analytic",
    "C86_sources",
    "C86_saved",
    "C86_file",
    "C86_file_refuted"
   ],
   "note": "Densities, settings and saved maps are proved. A file whose coordinates are not equally spaced is accepted and its values are used at other places (C86_file_refuted)."
  },
  {
   "property": "C87",
   "status": "partial",
   "theorems": [
    "C87_states",
    "C87_unique",
    "C87_on_time_partial",
    "C87_simulation",
    "C87_one_recorder",
    "C87_names",
    "C87_settings",
    "C87_single_refuted",
    "C87_crowded_refuted"
   ],
   "note": "Schedule, contents and names of the files are proved for all lists of times. Refuted: a file with a single time is ignored (C87_single_refuted), and of two times within one step the second gets the state of a later step (C87_crowded_refuted)."
  },
  {
   "property": "C88",
   "status": "partial",
   "theorems": [
    "C88_frames",
    "C88_others",
    "C88_cloud",
    "C88_folders",
    "C88_cloud_folder_refuted",
    "C88_cloud_folder"
   ],
   "note": "Contents and folders are proved. Refuted for the videos of single clouds: the folder that is made is not the one that is looked for, and the second step fails (C88_cloud_folder_refuted); with a folder name that ends with a slash it works (C88_cloud_folder)."
  },
  {
   "property": "C89",
   "status": "partial",
   "theorems": [
    "C89_runs",
    "C89_stops",
    "C89_other_clouds_refuted"
   ],
   "note": "The run goes on and stops as claimed. With several clouds those after the first do not save the passage at which the run stops (C89_other_clouds_refuted)."
  },
  {
   "property": "C90",
   "status": "partial",
   "theorems": [
    "C90_yields",
    "C90_file",
    "C90_furman_pivi",
    "C90_absorber",
    "C90_spectra",
    "C90_spectra_furman_pivi",
    "C90_harmless_refuted"
   ],
   "note": "Curves and spectra are proved for all models and streams. That the extraction is harmless is refuted: with insulating edges the test impacts leave charge on the wall before the simulation starts (C90_harmless_refuted). It also uses random numbers of the stream of the simulation."
  },
  {
   "property": "C91",
   "status": "proved",
   "theorems": [
    "C91_sigma"
   ],
   "note": "Proved for all tables, energies and streams."
  },
  {
   "property": "C92",
   "status": "partial",
   "theorems": [
    "C92_mean",
    "C92_density_refuted",
    "C92_same",
    "C92_schedule",
    "C92_completes",
    "C92_deadlock",
    "C92_pace",
    "C92_pace_schedule"
   ],
   "note": "Mean, independence of the order, completion, deadlock and pace are proved for all numbers of ranks and interleavings. That the density noted for each cloud is its own one is refuted for the last cloud: it gets the mean over the ranks less the densities of the other clouds (C92_density_refuted)."
  },
  {
   "property": "C93",
   "status": "partial",
   "theorems": [
    "C93_energy",
    "C93_not_configured",
    "C93_zero",
    "C93_scale",
    "C93_uniform",
    "C93_bound",
    "C93_recorded",
    "C93_U_sc_zero",
    "C93_U_sc_refuted"
   ],
   "note": "The electric energy is proved. That the recorded potential energy is the one of the cloud is refuted: the stored number is always 0 (C93_U_sc_zero, C93_U_sc_refuted)."
  },
  {
   "property": "C94",
   "status": "proved",
   "theorems": [
    "C94_emission",
    "C94_parts",
    "C94_sources",
    "C94_regeneration",
    "C94_step",
    "C94_run"
   ],
   "note": ""
  },
  {
   "property": "C95",
   "status": "partial",
   "theorems": [
    "C95_same_inside",
    "C95_inside",
    "C95_first_touch",
    "C95_agree",
    "C95_corner_refuted",
    "C95_clockwise_refuted",
    "C95_no_impact_refuted"
   ],
   "note": "The corner, clockwise and zero-length theorems show that three stronger claims are false."
  },
  {
   "property": "C96",
   "status": "partial",
   "theorems": [
    "C96_element_made",
    "C96_accepted",
    "C96_settings",
    "C96_extras",
    "C96_twin",
    "C96_replaced",
    "C96_runs",
    "C96_passage",
    "C96_slices",
    "C96_no_output",
    "C96_nothing_written",
    "C96_unnamed",
    "C96_recorder",
    "C96_files_apart",
    "C96_twin_flags_refuted",
    "C96_twin_file_refuted",
    "C96_two_names_refuted",
    "C96_recording_refuted",
    "C96_named_refuted"
   ],
   "note": "Five stronger claims are false: attributes set later do not pass to a twin, a cloud and its twin share a file, a name is cut at '__iter', the recorder loses settings such as save_only at the first passage, and a named cloud needs an output file."
  },
  {
   "property": "C97",
   "status": "partial",
   "theorems": [
    "C97_names",
    "C97_only",
    "C97_unknown",
    "C97_custom",
    "C97_replaced_refuted",
    "C97_continue",
    "C97_continue_refuted"
   ],
   "note": "Two stronger claims are false: a custom observable with the name of a standard entry replaces it, and a run with save_only cannot always be continued from its file."
  },
  {
   "property": "C98",
   "status": "proved",
   "theorems": [
    "C98_chosen",
    "C98_named"
   ],
   "note": ""
  },
  {
   "property": "C99",
   "status": "partial",
   "theorems": [
    "C99_saved",
    "C99_modes",
    "C99_em_refuted",
    "C99_failed_refuted",
    "C99_loaded",
    "C99_round_trip",
    "C99_potentials_refuted",
    "C99_checkpoint",
    "C99_recomputation",
    "C99_no_recorder"
   ],
   "note": "Proved: saving leaves the simulation as it was, what the file holds, loading, names, checkpoints, round trip without electromagnetic tracking, exact list of modes. Refuted: electromagnetic mode cannot be saved, a failed save damages the simulation, vector potentials are lost."
  },
  {
   "property": "C100",
   "status": "partial",
   "theorems": [
    "C100_backscattered",
    "C100_rediffused",
    "C100_true_secondary",
    "C100_defaults_refuted",
    "C100_true_density",
    "C100_average",
    "C100_binomial_refuted",
    "C100_choice",
    "C100_choice_average",
    "C100_no_electrons",
    "C100_low_energy",
    "C100_directions",
    "C100_photoelectrons"
   ],
   "note": "Proved: laws and densities of backscattered, rediffused and true secondary electrons, of low-energy secondaries, angles and photoelectrons; densities offered to users. Refuted: default arguments of the distribution functions ignore the surface; the binomial weights are not binomial."
  },
  {
   "property": "C101",
   "status": "partial",
   "theorems": [
    "C101_gas_ionisation",
    "C101_photoemission_1",
    "C101_photoemission_2",
    "C101_photoemission_3",
    "C101_uniform_charge",
    "C101_regeneration",
    "C101_soft_regeneration",
    "C101_secondaries",
    "C101_furman_pivi",
    "C101_furman_pivi_bounds",
    "C101_furman_pivi_refuted",
    "C101_cross_equal",
    "C101_cross_own"
   ],
   "note": "Proved: the averages of the charge added by gas ionisation, photoemission (three models), uniform distribution, regeneration, of the number of macroparticles after a soft regeneration, and of the charge emitted by ECLOUD-type surfaces. For the Furman-Pivi model the exact mean and bounds are proved. Refuted: the Furman-Pivi mean equals the total yield (M_cut)."
  },
  {
   "property": "C102",
   "status": "partial",
   "theorems": [
    "C102_alone",
    "C102_schedule",
    "C102_crash",
    "C102_one_process_refuted"
   ],
   "note": "Proved: result, no trace, any schedule of processes with different process numbers, any crash point. Refuted: two calls with the same process number (threads, shared /tmp)."
  },
  {
   "property": "C103",
   "status": "partial",
   "theorems": [
    "C103_entries",
    "C103_given",
    "C103_path",
    "C103_nowhere",
    "C103_input_folder",
    "C103_input_folder_mat",
    "C103_other_path",
    "C103_folder_never",
    "C103_folder_refuted",
    "C103_home_refuted",
    "C103_other_table_refuted",
    "C103_short_refuted",
    "C103_descending_refuted"
   ],
   "note": "Proved for paths and for the folder of input files; missing entries and missing files are rejected. Refuted: dedicated folder and home directory (the file found is not the one loaded), tables with too few yields or with descending energies are accepted."
  },
  {
   "property": "C104",
   "status": "partial",
   "theorems": [
    "C104_vectors",
    "C104_vectors_accepted",
    "C104_rows",
    "C104_columns",
    "C104_strict",
    "C104_permissive_partial",
    "C104_first_skipped_refuted",
    "C104_names",
    "C104_missing_name",
    "C104_nothing_lost_refuted"
   ],
   "note": "Proved for vectors and matrices, both flags. Refuted: the permissive flag does not skip an unreadable first file, and names that only later files have are lost."
  }
 ]
}