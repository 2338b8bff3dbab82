{"id": "C01", "title": "Cleaning removes exactly the under-threshold macroparticles", "statement": "After clean_small_MPs the live macroparticles are exactly those that were live before and whose charge is at least the cleaning threshold, in the same order and with every attribute unchanged; the total charge lost is the sum of the removed charges and is strictly below (number removed) * threshold when anything is removed; slots past the new count hold zero charge.", "quantifier": "every macroparticle population, array capacity and cleaning threshold", "why_tests_cant": "In-place compaction of eight parallel arrays can misalign attributes only for particular removal patterns; there are exponentially many patterns.", "anchors": ["MP_system.py:MP_system.clean_small_MPs"]}
{"id": "C02", "title": "The live macroparticle count never exceeds the array capacity", "statement": "No sequence of additions and cleanings ever leaves more live macroparticles than N_mp_max; an addition that does not fit raises an error.", "quantifier": "every sequence of add/clean operations from an empty system of any capacity", "why_tests_cant": "The overflow depends on history and on numpy broadcasting of length-one arrays into an empty slice; a test would need the system to be exactly full.", "anchors": ["MP_system.py:MP_system.add_new_MPs"]}
{"id": "C03", "title": "Adding macroparticles appends them and disturbs nothing else", "statement": "When the new macroparticles fit, add_new_MPs makes the live population equal to the old one followed by the new ones in order, with last-impact time as given; total charge grows by exactly the added charge.", "quantifier": "every population and every batch of new macroparticles that fits", "why_tests_cant": "Quantifies over all populations and batches.", "anchors": ["MP_system.py:MP_system.add_new_MPs"]}
{"id": "C04", "title": "Soft regeneration preserves total charge", "statement": "perform_soft_regeneration keeps a subset of the macroparticles in order, rescales all charges by one common factor and leaves the total live charge exactly unchanged; this fails only if no macroparticle survives the random selection.", "quantifier": "every population, target and outcome of the random numbers", "why_tests_cant": "Holds for each of the 2^N random outcomes; the exceptional all-killed outcome is too improbable to appear in tests.", "anchors": ["MP_system.py:MP_system.perform_soft_regeneration"]}
{"id": "C05", "title": "Full regeneration yields equal-size macroparticles inside the chamber", "statement": "After check_for_regeneration triggers, every live macroparticle carries exactly the new reference charge, lies inside the chamber, and total charge is count*reference; per phase-space cell the count is the floor or floor plus one of cell charge over reference charge.", "quantifier": "every population, histogram, reference size and random outcome", "why_tests_cant": "Quantifies over all random outcomes and all cell occupancies.", "anchors": ["MP_system.py:MP_system.check_for_regeneration", "compute_hist.f"]}
{"id": "C06", "title": "Regeneration phase-space cell numbering is invertible", "statement": "The flattened 5-D cell index used to regroup macroparticles decodes to the cell it was computed from, distinct cells have distinct indices, and all indices lie in 1..Nx*Ny*Nvx*Nvy*Nvz.", "quantifier": "every 5-tuple of grid sizes and every cell", "why_tests_cant": "Index arithmetic over five arbitrary sizes.", "anchors": ["MP_system.py:MP_system.check_for_regeneration"]}
{"id": "C07", "title": "Exporting and re-importing the macroparticle state is a round trip", "statement": "init_from_dict(extract_dict()) restores the same live macroparticles with the same positions, velocities, charges (and last impact times).", "quantifier": "every macroparticle state and every target system of sufficient capacity", "why_tests_cant": "The round trip must hold for every state including stale array tails.", "anchors": ["MP_system.py:MP_system.extract_dict", "MP_system.py:MP_system.init_from_dict"]}
{"id": "C08", "title": "The electron cloud is re-initialised identically before every beam passage", "statement": "In PyHEADTAIL coupling, whatever happened during earlier passages, re-initialisation puts the cloud back in the recorded initial state and the initial reference size, so each passage starts from the same cloud.", "quantifier": "every history of operations on the cloud between two re-initialisations", "why_tests_cant": "Quantifies over histories; stale array tails left by history must not leak in.", "anchors": ["PyEC4PyHT.py:Ecloud._reinitialize", "MP_system.py:MP_system.init_from_dict"]}
{"id": "C09", "title": "Macroparticles that did not hit the wall are untouched by impact handling", "statement": "backtrack_and_second_emiss changes no attribute of a macroparticle that is inside the chamber, and new macroparticles are only appended after the existing ones.", "quantifier": "every population, chamber, emission model and random outcome", "why_tests_cant": "Mask based scatter/gather on eight arrays; all masks must be right.", "anchors": ["impact_management_class.py:impact_management.backtrack_and_second_emiss"]}
{"id": "C10", "title": "Charge balance at the wall", "statement": "Over one call of backtrack_and_second_emiss the total charge of the cloud changes by exactly (charge emitted) - (charge impacting), and the reported impacting and emitted charges equal those amounts.", "quantifier": "every population, mask of impacts and emission model outcome", "why_tests_cant": "Conservation must hold for every number of impacts and for every split of emitted charge.", "anchors": ["impact_management_class.py:impact_management.backtrack_and_second_emiss", "sec_emission_model_ECLOUD.py:SEY_model_ECLOUD.impacts_on_surface"]}
{"id": "C11", "title": "Splitting of large secondaries conserves charge and bounds the size", "statement": "For true secondaries the charge emitted is divided evenly over the replaced macroparticle and its clones; pieces sum to the emitted charge, and none exceeds the splitting threshold; elastically reflected macroparticles are never split.", "quantifier": "every emitted charge and positive splitting threshold", "why_tests_cant": "Ceiling arithmetic over all reals.", "anchors": ["sec_emission_model_ECLOUD.py:SEY_model_ECLOUD.impacts_on_surface"]}
{"id": "C12", "title": "Impact positions are inside the chamber (elliptic chamber)", "statement": "For an elliptic chamber every impacting macroparticle is put back at a point strictly inside the ellipse, whatever its previous and current position.", "quantifier": "every semi-axes pair and every pair of start/end points", "why_tests_cant": "Degenerate geometry (tangent, zero discriminant, start outside) occurs on measure-zero inputs tests never hit.", "anchors": ["geom_impact_ellip.py:ellip_cham_geom_object.impact_point_and_normal"]}
{"id": "C13", "title": "Impact positions are inside the chamber (polygonal chamber)", "statement": "For a convex polygonal chamber a macroparticle that starts inside and ends outside is put back at a point inside the chamber on its own track.", "quantifier": "every convex polygon, every start inside and end outside", "why_tests_cant": "All polygons with any number of sides.", "anchors": ["geom_impact_poly_fast_impact.py:polyg_cham_geom_object.impact_point_and_normal", "geom_impact_poly_cython.pyx:impact_point_and_normal", "geom_impact_poly_cython.pyx:is_outside_convex"]}
{"id": "C14", "title": "Wall normals are unit vectors pointing inward and the hit wall is identified", "statement": "Impact handling returns for every impact a unit normal directed into the chamber and the index of a wall segment that the track crosses.", "quantifier": "every chamber and track", "why_tests_cant": "The not-found case is rare numerically but reachable.", "anchors": ["geom_impact_poly_cython.pyx:impact_point_and_normal", "geom_impact_poly_fast_impact.py:polyg_cham_geom_object.impact_point_and_normal", "geom_impact_ellip.py:ellip_cham_geom_object.impact_point_and_normal"]}
{"id": "C15", "title": "Inside/outside test is correct for convex polygons", "statement": "is_outside answers false exactly for the points strictly on the left of every edge, provided the inscribed ellipse given by the user lies in the polygon; boundary points count as outside.", "quantifier": "every polygon and point", "why_tests_cant": "All polygons and all points including boundary points.", "anchors": ["geom_impact_poly_cython.pyx:is_outside_convex", "geom_impact_rect_fast_impact.py:rect_cham_geom_object.is_outside"]}
{"id": "C16", "title": "Chamber validation rejects malformed polygons", "statement": "Constructing a polygonal chamber fails for zero-length edges, clockwise orientation and (when convexity is assumed) for non-convex outlines; an accepted chamber has unit normals on all edges.", "quantifier": "every vertex list", "why_tests_cant": "All vertex lists, including self-intersecting and repeated-vertex ones.", "anchors": ["geom_impact_poly_fast_impact.py:polyg_cham_geom_object.__init__", "geom_impact_poly_fast_impact.py:polyg_cham_geom_object.is_convex"]}
{"id": "C17", "title": "Histogram accumulation conserves weight", "statement": "compute_hist deposits each weight completely, shared linearly between the two bins that surround the sample, without writing outside the histogram, so the sum of the histogram grows by the sum of the weights; samples above the range are put entirely in the last bin.", "quantifier": "every weight vector, binning and initial histogram, samples not below the range start", "why_tests_cant": "All sample positions incl. exact bin edges.", "anchors": ["compute_hist.f:compute_hist", "update_seg_impact.f"]}
{"id": "C18", "title": "Grid deposition conserves charge and is the adjoint of interpolation", "statement": "compute_rho shares each in-grid macroparticle's charge between four nodes with non-negative weights summing to one; int_field uses the same weights, so sum(node charge * node field) equals sum(particle charge * interpolated field); a constant or bilinear field is interpolated exactly.", "quantifier": "every grid and every set of in-grid particles and weights", "why_tests_cant": "All positions within all grids.", "anchors": ["compute_rho.f", "interp_field_for.f"]}
{"id": "C19", "title": "Boris tracking preserves kinetic energy in a pure magnetic field", "statement": "With zero electric field any number of Boris sub-steps in any magnetic field leaves every particle's speed unchanged; with zero magnetic field the velocity changes by exactly (q/m) E dt.", "quantifier": "every field, charge/mass, time step, number of sub-steps and particle", "why_tests_cant": "Unbounded number of steps over the reals.", "anchors": ["boris_step.f:boris_step", "boris_c_function.c:boris_c", "dynamics_Boris_f2py.py:pusher_Boris.step", "dynamics_Boris_multipole.py:pusher_Boris_multipole.stepcustomDt"]}
{"id": "C20", "title": "Strong-field trackers preserve kinetic energy and agree with each other", "statement": "Without electric field the dipole and the generalised strong-B trackers leave the speed unchanged. In a pure vertical dipole field above the zero-field threshold they produce the same positions and velocities: exactly when the rotation angle in the step is at least 1e-4, to a relative 1e-8 below that. In uniform transverse fields the strong-B tracker is the exact solution of the Lorentz equation of motion.", "quantifier": "every field strength, time step, particle state and electric field", "why_tests_cant": "All real inputs.", "anchors": ["dynamics_dipole.py:pusher_dipole_magnet.step", "dynamics_strong_B_generalized.py:pusher_strong_B_generalized.step", "sincc_cosincc_cubsincc.py"]}
{"id": "C21", "title": "Multipole field expansion is the intended harmonic series", "statement": "The field used by the multipole tracker is By + i Bx = sum_n (k_n + i s_n)(x+iy)^n, so a two-term expansion equals the analytic quadrupole map and dipole-only equals a uniform field. Coefficient n is divided by n!, for skew lists of any length.", "quantifier": "every coefficient list and position", "why_tests_cant": "All orders.", "anchors": ["boris_c_function.c:boris_c", "dynamics_Boris_f2py.py:B_quad"]}
{"id": "C22", "title": "The simulation loop visits every time step once and stops", "statement": "run performs exactly Nt-1 steps, advancing the clock through consecutive entries of the time array without ever indexing outside it, with Dt_curr the difference of consecutive times.", "quantifier": "every time array", "why_tests_cant": "All lengths, including empty and length one.", "anchors": ["beam_and_timing.py:beam_and_timing.next_time_step", "beam_and_timing.py:beam_and_timing.end_simulation", "buildup_simulation.py:BuildupSimulation.run"]}
{"id": "C23", "title": "A new bunch passage is signalled exactly once per passage", "statement": "flag_new_bunch_pass is raised at the first step of each passage entered and at no other step; with a non-decreasing clock the number of signals equals the number of distinct passages visited.", "quantifier": "every non-decreasing time array and positive bunch spacing", "why_tests_cant": "All time arrays.", "anchors": ["beam_and_timing.py:beam_and_timing.next_time_step"]}
{"id": "C24", "title": "The longitudinal beam profile is the superposition of all bunches", "statement": "bunch_train4 returns at each time the sum over filling slots of slot charge times the shifted bunch shape (restricted to the window in which it is added), so it is additive in the filling pattern and zero for an empty pattern.", "quantifier": "every filling pattern, bunch spacing and time array", "why_tests_cant": "All patterns.", "anchors": ["beam_and_timing.py:bunch_train4"]}
{"id": "C25", "title": "Decimated step-by-step output loses no impact", "statement": "With output decimation the sums of the saved per-interval accumulators plus the pending accumulator equal the sum of all per-step contributions.", "quantifier": "every sequence of steps and every decimation interval", "why_tests_cant": "All schedules.", "anchors": ["pyecloud_saver.py:pyecloud_saver._stepbystep_data_save"]}
{"id": "C26", "title": "Growing the output buffers preserves recorded samples", "statement": "When the step-by-step buffers are resized every already saved sample is kept at its index and writes never fall outside the buffer.", "quantifier": "every sequence of saves and resizes", "why_tests_cant": "All lengths.", "anchors": ["pyecloud_saver.py:pyecloud_saver._stepbystep_check_for_data_resize"]}
{"id": "C27", "title": "Resuming from a checkpoint restores the saved output", "statement": "After load_from_output each restored observable holds exactly the samples up to the checkpoint time, so a resumed run continues the record without loss or duplication.", "quantifier": "every output history and checkpoint time", "why_tests_cant": "Must hold for each observable and each checkpoint time.", "anchors": ["pyecloud_saver.py:pyecloud_saver.load_from_output"]}
{"id": "C28", "title": "There is always a usable checkpoint after the first", "statement": "At every instant after the first checkpoint completed, whatever the crash point, the checkpoint folder contains a complete checkpoint that a new run accepts.", "quantifier": "every crash point in every sequence of checkpoint writes", "why_tests_cant": "Crash points between file operations are not reachable from unit tests.", "anchors": ["pyecloud_saver.py:pyecloud_saver._checkpoint_save", "buildup_simulation.py:BuildupSimulation.__init__", "buildup_simulation.py:BuildupSimulation.load_checkpoint"]}
{"id": "C29", "title": "Unknown or missing input parameters are rejected", "statement": "Reading an input module succeeds exactly when it defines all mandatory parameters and nothing outside mandatory, optional and super parameters; optional parameters not given get their default; no value is silently overwritten by another module.", "quantifier": "every set of parameter names and values", "why_tests_cant": "All possible parameter files.", "anchors": ["input_parameters_format_specification.py", "parse_beam_file.py", "init.py:read_input_files_and_init_components"]}
{"id": "C30", "title": "Keyword overrides win and typos are detected", "statement": "A keyword argument overrides the value read from file for exactly the parameter it names; a keyword that names no parameter and is not in the ignore list raises.", "quantifier": "every configuration and keyword set", "why_tests_cant": "All keyword sets.", "anchors": ["init.py:read_input_files_and_init_components"]}
{"id": "C31", "title": "Secondary yield curves give valid probabilities", "statement": "For every impact energy and angle the reflected fraction is in [0,1] and the total yield is non-negative and is the sum of the true-secondary and the reflected part; the true-secondary part is largest at the peak energy, where it equals del_max (scaled with the angle when that is requested).", "quantifier": "every energy >= 0, cosine in [0,1] and admissible surface parameters", "why_tests_cant": "All real inputs.", "anchors": ["sec_emission_model_ECLOUD.py:yield_fun2", "sec_emission_model_cos_low_ener.py:yield_fun2", "sec_emission_model_flat_low_ener.py:yield_fun2", "sec_emission_model_accurate_low_ene.py:yield_fun3"]}
{"id": "C32", "title": "Low-energy flat model reflects the stated fraction", "statement": "In the flat low-energy model the reflected part is what lifts the true-secondary curve to the plateau R0, so the reflected fraction is (R0 - true)/R0 on the plateau.", "quantifier": "every energy below the peak", "why_tests_cant": "Aliasing bug visible only by comparing with the intended formula.", "anchors": ["sec_emission_model_flat_low_ener.py:yield_fun2"]}
{"id": "C33", "title": "Elastic reflection is specular", "statement": "An elastically reflected macroparticle keeps its speed, its velocity component along the wall normal changes sign and the tangential component is unchanged.", "quantifier": "every velocity and unit normal", "why_tests_cant": "All directions.", "anchors": ["electron_emission.py:specular_velocity"]}
{"id": "C34", "title": "Secondaries leave the wall inwards with the sampled energy", "statement": "Velocities produced by the angular emission routines have non-negative component along the inward normal and kinetic energy equal to the sampled energy.", "quantifier": "every sampled energy, angle random numbers and unit normal", "why_tests_cant": "All random outcomes.", "anchors": ["electron_emission.py:velocities_angle_cosine_2D", "electron_emission.py:velocities_angle_cosine_3D", "electron_emission.py:_velocities_angle"]}
{"id": "C35", "title": "SEY curve from file is the piecewise linear interpolant", "statement": "Between the first and last tabulated energy the yields returned equal linear interpolation of the table (exact at the nodes); above, the linear extrapolation; negative yields are clipped to zero and the reflected fraction is in [0,1].", "quantifier": "every equally spaced table and every energy", "why_tests_cant": "All energies and tables.", "anchors": ["sec_emission_model_from_file.py:SEY_model_from_file.SEY_values", "sec_emission_model_from_file.py:SEY_model_from_file.interp", "cross_ionization.py:Ionization_Process._interp"]}
{"id": "C36", "title": "Furman-Pivi: each impact is exactly one event type and emission is bounded", "statement": "Each impact is classified as exactly one of backscattered, rediffused, true secondary or absorbed; at most M_cut secondaries are emitted and the rejection loop ends after at most 12 rounds whatever the random numbers.", "quantifier": "every yield triple and random stream", "why_tests_cant": "All random streams.", "anchors": ["sec_emission_model_furman_pivi.py:SEY_model_furman_pivi.SEY_process", "sec_emission_model_furman_pivi.py:SEY_model_furman_pivi.impacts_on_surface"]}
{"id": "C37", "title": "Furman-Pivi: charge balance per event", "statement": "The charge leaving the wall (replaced plus new macroparticles) equals the reported emitted charge, which is the impacting charge times the number of emitted macroparticles.", "quantifier": "every impact set and random outcome", "why_tests_cant": "All random outcomes.", "anchors": ["sec_emission_model_furman_pivi.py:SEY_model_furman_pivi.impacts_on_surface"]}
{"id": "C38", "title": "Furman-Pivi: energy conservation option bounds the emitted energy of every event", "statement": "With conserve_energy the total energy emitted in a true-secondary event does not exceed the impact energy.", "quantifier": "every event multiplicity and random outcome", "why_tests_cant": "Requires events with three or more secondaries and specific energies.", "anchors": ["sec_emission_model_furman_pivi.py:SEY_model_furman_pivi.impacts_on_surface"]}
{"id": "C39", "title": "Furman-Pivi: every emitted secondary gets a fresh emission velocity", "statement": "A macroparticle re-emitted as a true secondary has the velocity drawn from the emission distribution, never its impact velocity.", "quantifier": "every combination of event types in one time step", "why_tests_cant": "Only steps in which no event emits two or more electrons are affected.", "anchors": ["sec_emission_model_furman_pivi.py:SEY_model_furman_pivi.impacts_on_surface"]}
{"id": "C40", "title": "Cross-ionisation bookkeeping matches what was generated", "statement": "The charge and number recorded per cloud equal the charge and number of macroparticles added; reading the counters resets them; with generate_equally all products of a process receive identical charge.", "quantifier": "every process set, projectile population and random outcome", "why_tests_cant": "All histories of generate/save.", "anchors": ["cross_ionization.py:Cross_Ionization.generate", "cross_ionization.py:Cross_Ionization.save_cross_ion_data", "cross_ionization.py:Ionization_Process.generate"]}
{"id": "C41", "title": "Target gas density stays non-negative", "statement": "The number of target particles of a cross-ionisation process never becomes negative.", "quantifier": "every sequence of generate calls", "why_tests_cant": "Depletion only near exhaustion.", "anchors": ["cross_ionization.py:Ionization_Process.generate"]}
{"id": "C42", "title": "Per-cloud charge densities add up to the total", "statement": "With several clouds the densities recorded for each cloud sum to the density used in the field solve, and with one cloud it is that cloud's density.", "quantifier": "every number of clouds and density arrays", "why_tests_cant": "Telescoping over any number of clouds.", "anchors": ["buildup_simulation.py:BuildupSimulation._recompute_cloud_spacecharge", "space_charge_class.py:space_charge.recompute_spchg_efield"]}
{"id": "C43", "title": "Space charge is recomputed at least every Dt_sc and not more often", "statement": "Consecutive recomputations are at least Dt_sc apart, and at any check the time since the last recomputation is below Dt_sc afterwards.", "quantifier": "every non-decreasing sequence of check times", "why_tests_cant": "All schedules.", "anchors": ["space_charge_class.py:space_charge.check_for_recomputation"]}
{"id": "C44", "title": "Slice sub-stepping covers the slice exactly", "statement": "In PyHEADTAIL coupling, cloud steps add up to the slice duration, none exceeds the build-up time step, and each has at least one sub-step whose durations add up to the cloud step.", "quantifier": "every slice duration, build-up step and reference step", "why_tests_cant": "All positive reals.", "anchors": ["PyEC4PyHT.py:Ecloud._track_single_slice"]}
{"id": "C45", "title": "A recorded field map is replayed slice by slice in register", "statement": "When the cloud is replaced by its recorded field map each beam slice is kicked with the field recorded for that slice.", "quantifier": "every number of slices", "why_tests_cant": "Negative indexing and reversal for all lengths; sub-sliced slices break alignment.", "anchors": ["PyEC4PyHT.py:Ecloud.track", "PyEC4PyHT.py:Ecloud._finalize", "Transverse_Efield_map_for_frozen_cloud.py:Transverse_Efield_map.track"]}
{"id": "C46", "title": "Non-uniform SEY with charging keeps charging bounded and consistent", "statement": "Each impact uses the yield parameters of the segment it hit, and the per-segment accumulated charge grows by exactly the impacting minus emitted charge on insulating segments while metallic segments stay neutral.", "quantifier": "every assignment of segments and sequence of impacts", "why_tests_cant": "All sequences.", "anchors": ["sec_emission_model_ECLOUD_nunif.py"]}
{"id": "C47", "title": "Gas ionisation and photoemission generate the requested charge on average bounds", "statement": "The number of macroparticles generated per step is the floor or floor plus one of (charge per step)/(reference size), each with the reference size, so the generated charge differs from the requested charge by less than one reference macroparticle.", "quantifier": "every rate, time step and random outcome", "why_tests_cant": "All reals and random outcomes.", "anchors": ["gas_ionization_class.py:residual_gas_ionization.generate", "gen_photoemission_class.py:photoemission_base.get_number_new_mps"]}
{"id": "C48", "title": "Photoelectrons and ionisation electrons start inside the chamber", "statement": "All newly generated macroparticles lie inside the chamber when generation returns.", "quantifier": "every random stream on which generation terminates", "why_tests_cant": "Rejection loops over arbitrary random streams.", "anchors": ["gas_ionization_class.py:residual_gas_ionization.generate", "gen_photoemission_class.py", "MP_system.py:MP_system.add_uniform_MP_distrib"]}
{"id": "C49", "title": "Beam field is zero when the beam is negligible", "statement": "When the line density is at or below the threshold, or there are no macroparticles, the beam field on the cloud is zero; otherwise it is the map field scaled linearly with the line density.", "quantifier": "every cloud state and line density", "why_tests_cant": "All states.", "anchors": ["beam_and_timing.py:beam_and_timing.get_beam_eletric_field"]}
{"id": "C50", "title": "The performed time step covers the requested interval", "statement": "Tracking sub-steps performed in one time step add up to the current time step, with at least one sub-step.", "quantifier": "every time step and reference step", "why_tests_cant": "All reals.", "anchors": ["buildup_simulation.py:BuildupSimulation._cloud_motion"]}
{"id": "C51", "title": "Chamber compatibility check is exact", "statement": "vertex_is_on_edge answers true exactly for the points of the closed outline of the chamber, and vertexes_are_subset answers true exactly when all vertices of each chamber lie on the outline of the other.", "quantifier": "every pair of accepted chambers and every point", "why_tests_cant": "Vertical, horizontal, oblique and zero-length edges take different branches; all points must be classified.", "anchors": ["geom_impact_poly_fast_impact.py:polyg_cham_geom_object.vertex_is_on_edge", "geom_impact_poly_fast_impact.py:polyg_cham_geom_object.vertexes_are_subset"]}
{"id": "C52", "title": "Energies of true secondaries respect the cut-off", "statement": "Every energy drawn for a true secondary or one of its clones is between 0 and the cut-off E_th; when energy increase is forbidden (switch_no_increase_energy = 2) it is also not above the energy of the impact that produced it.", "quantifier": "every batch of impact energies and every outcome of the random number generators", "why_tests_cant": "The redraw loop runs an unbounded number of rounds; all outcomes must be covered.", "anchors": ["electron_emission.py:sec_energy_hilleret_model2", "sec_emission_model_ECLOUD.py:SEY_model_ECLOUD.impacts_on_surface"]}
{"id": "C53", "title": "Every macroparticle stays inside the chamber", "statement": "After backtrack_and_second_emiss no macroparticle is outside the chamber, provided the positions before the move were inside; hence over any sequence of motion with wall handling, insertion of macroparticles placed inside, cleaning and soft regeneration, all macroparticles remain inside.", "quantifier": "every elliptic and polygonal chamber, every motion, emission model, random outcome and length of history", "why_tests_cant": "It is an invariant of unbounded histories, over all trajectories and chambers.", "anchors": ["impact_management_class.py:impact_management.backtrack_and_second_emiss", "geom_impact_ellip.py:ellip_cham_geom_object.impact_point_and_normal", "geom_impact_poly_fast_impact.py:polyg_cham_geom_object.impact_point_and_normal"]}
{"id": "C54", "title": "Impact histograms account for all charge and energy at the wall", "statement": "Over one call of backtrack_and_second_emiss the position, angle and energy histograms each grow by exactly the charge that hit the wall, the scrubbing histogram by the part of it above the scrubbing threshold, the energy histogram by the energy deposited minus the energy emitted, the lifetime histogram by the charge of impacting macroparticles with a known birth time, and the per-segment histograms by the amounts belonging to each segment; the reported energies and charges of the last step are the same amounts.", "quantifier": "every population, chamber, set of options and emission outcome", "why_tests_cant": "Conservation over all numbers of impacts, histogram grids and options.", "anchors": ["impact_management_class.py:impact_management.backtrack_and_second_emiss", "impact_management_class.py:impact_management.__init__", "compute_hist.f", "update_seg_impact.f"]}
{"id": "C55", "title": "Furman-Pivi: no emitted electron gains energy and yields stay within their limits", "statement": "For valid surface parameters the backscattered and rediffused yields are non-negative and the true secondary yield never exceeds its peak value; at normal incidence the yields are the published functions of the energy and they do not decrease towards grazing incidence (the true secondaries if the peak does not move); every backscattered, rediffused or newly created electron leaves the wall inwards with at most the energy of its impact, and absorbed ones are at rest.", "quantifier": "every impact energy and angle, every random outcome", "why_tests_cant": "All random streams and continuous parameters.", "anchors": ["sec_emission_model_furman_pivi.py:SEY_model_furman_pivi"]}
{"id": "C56", "title": "Stopping at a chosen time and continuing is the same as running through", "statement": "run(t_end_sim=T) followed by run() leaves the simulation in the same state as a single run().", "quantifier": "every time array, stop time, number of beams and behaviour of the single step", "why_tests_cant": "All stop times and step functions.", "anchors": ["buildup_simulation.py:BuildupSimulation.run", "beam_and_timing.py:beam_and_timing.next_time_step"]}
{"id": "C57", "title": "Photoelectrons start with an energy of the chosen distribution and away from the wall", "statement": "Energies drawn for photoelectrons are never negative for the lognormal, Gaussian and Lorentz distributions, equal to the given energy for the mono-energetic one and within the given interval for the rectangular one; the speed of each new macroparticle corresponds to its energy and its velocity does not point into the wall it starts from.", "quantifier": "every distribution, width, centre, angle law, impact point and random stream", "why_tests_cant": "All random streams and parameters.", "anchors": ["electron_emission.py:get_energy_distribution_func", "gen_photoemission_class.py:photoemission_base.gen_energy_and_set_MPs"]}
{"id": "C58", "title": "Photoemission per segment follows the given cumulative distribution", "statement": "With the per-segment model, the number of new macroparticles at each wall segment is the number of uniform draws that fall into the part of [0,1) that the cumulative distribution gives to that segment; each starts next to its segment, inside the chamber, with the inward normal of the segment.", "quantifier": "every polygon, cumulative distribution, request and random stream on which generation returns", "why_tests_cant": "All polygons and draws, including draws on the boundaries between segments.", "anchors": ["geom_impact_poly_fast_impact.py:polyg_cham_photoemission.get_photoelectron_positions", "gen_photoemission_class.py:photoemission_per_segment"]}
{"id": "C59", "title": "Soft and asynchronous regeneration are triggered exactly by their thresholds", "statement": "check_for_soft_regeneration and check_for_async_regeneration leave the cloud untouched when thresholds are not set or the population is not above them. Above the threshold the soft check thins the cloud; the asynchronous check first removes the small macroparticles and thins only when the population is still above the threshold.", "quantifier": "every cloud, thresholds and random stream", "why_tests_cant": "All populations around the thresholds.", "anchors": ["MP_system.py:MP_system.check_for_soft_regeneration", "MP_system.py:MP_system.check_for_async_regeneration"]}
{"id": "C60", "title": "Cross sections follow the table", "statement": "A cross-ionisation process built from an equally spaced table (in the energy or in its logarithm) returns zero outside the table, the tabulated value at its points and the straight line in between; it never raises and is never negative for a table without negative values.", "quantifier": "every table and every energy", "why_tests_cant": "All energies, including those at the edges of the table.", "anchors": ["cross_ionization.py:Ionization_Process.__init__", "cross_ionization.py:Ionization_Process.get_sigma", "cross_ionization.py:Ionization_Process._interp"]}
{"id": "C61", "title": "A simulation step keeps every cloud sound and accounts for its charge", "statement": "If before a step every cloud has its arrays in order, all macroparticles inside the chamber and no negative charge, then so it is after the step, whatever its arguments, beams, sources and emission model, as long as no array was full. The charge of each cloud changes exactly by minus the charge that hit the wall, plus the emitted charge, plus the primary charge, whose number of macroparticles of the reference size matches the sum of the rates of the sources to within one per source, plus the charge produced by cross ionisation. The same holds for a whole run.", "quantifier": "every set of clouds, chamber, emission model, sources, beams, arguments and random streams; every number of steps", "why_tests_cant": "All histories of whole simulation steps.", "anchors": ["buildup_simulation.py:BuildupSimulation.sim_time_step", "buildup_simulation.py:BuildupSimulation.run", "buildup_simulation.py:BuildupSimulation._cloud_motion"]}
{"id": "C62", "title": "Passage and interval histograms account for every step", "statement": "The output holds one row per beam passage and one per energy (or lifetime) histogram interval. Each row of an accumulated histogram is the bin-by-bin sum of what the steps of that passage or interval contributed, the rows plus what is still pending add up to the contributions of all steps, and each row of a position or energy histogram of the cloud is the histogram of the macroparticles present at that moment.", "quantifier": "every configuration, every number and contents of steps", "why_tests_cant": "All histories of steps, passage boundaries and histogram intervals.", "anchors": ["pyecloud_saver.py:pyecloud_saver._pass_by_pass_data_save", "pyecloud_saver.py:pyecloud_saver._energy_cos_and_lifetime_angle_hist_save", "impact_management_class.py:impact_management.reset_impact_hist_tot"]}
{"id": "C63", "title": "Probe densities have one value per saved sample", "statement": "The electron densities at the probes in the output are given for every saved time sample.", "quantifier": "every set of probes, every run", "why_tests_cant": "All numbers of samples and all buffer sizes.", "anchors": ["pyecloud_saver.py:pyecloud_saver._stepbystep_data_save", "pyecloud_saver.py:pyecloud_saver._stepbystep_get_dict"]}
{"id": "C64", "title": "Checkpoints are numbered without gaps and spaced as asked", "statement": "Over any sequence of runs that continue from each other's checkpoints, whatever the points at which they are killed, the checkpoints completed carry the numbers 0, 1, 2, ... without gaps and each is at least checkpoint_DT after the one before. Each run makes a checkpoint at exactly the first passages that are at least checkpoint_DT after the last checkpoint, including that of the run it continues. The number in the name of a checkpoint file is read back as it was written.", "quantifier": "every history of runs and crash points, every sequence of passages", "why_tests_cant": "All histories of runs and crash points.", "anchors": ["pyecloud_saver.py:pyecloud_saver._checkpoint_save", "buildup_simulation.py:BuildupSimulation.load_checkpoint"]}
{"id": "C65", "title": "Additional clouds inherit from the main input and write their own files", "statement": "A cloud file is accepted exactly when it gives all mandatory cloud parameters and nothing that is not a cloud parameter. A parameter that it gives has the value it gives, every other cloud parameter has the value of the main configuration, including keyword overrides. The cloud of the main input takes all its parameters from the main configuration. Clouds with different names write different output files, and none of them writes the main output file of an unnamed main cloud.", "quantifier": "every main configuration, every cloud file and every list of cloud files", "why_tests_cant": "All configurations and all names.", "anchors": ["parse_cloud_file.py:cloud_descr_from_file", "input_parameters_format_specification.py:update_config_dict", "input_parameters_format_specification.py:copy_to_config_dict", "init.py:read_input_files_and_init_components"]}
{"id": "C66", "title": "Energy, velocity and size of a beam follow from its file", "statement": "For every valid beam file the total energy divided by the rest energy is the relativistic factor, and for energies above the rest energy the velocity is between 0 and c and consistent with it. A transverse size that is given is used as it is. A size of -1 is computed from beta function, normalised emittance, dispersion and momentum spread, where the optics that the beam file leaves out are those of the machine file. The file is refused when a needed beta function or emittance is missing.", "quantifier": "every beam file and every machine file", "why_tests_cant": "All files and values.", "anchors": ["parse_beam_file.py:beam_descr_from_fil"]}
{"id": "C67", "title": "The same bunch gets the same kicks in every passage", "statement": "In PyHEADTAIL coupling, a bunch that is sent again through the cloud, which is re-initialised before each passage, is kicked as in the first passage.", "quantifier": "every history of passages and every bunch", "why_tests_cant": "Depends on state that survives the re-initialisation over an unbounded history.", "anchors": ["PyEC4PyHT.py:Ecloud.track", "PyEC4PyHT.py:Ecloud._reinitialize", "buildup_simulation.py:BuildupSimulation.sim_time_step"]}
{"id": "C68", "title": "Recording does not change the physics", "statement": "Recording a cloud, whatever is recorded and how often, changes nothing but the content of the histograms: macroparticles, charge densities, surface charges, space charge, cross-ionisation targets and the use of random numbers are the same after every step with any recorders and histogram settings, and the same as without recorders. A run that goes through without recorders also goes through with well configured ones.", "quantifier": "every run of any number of steps, any clouds, any recorders and histogram settings", "why_tests_cant": "Holds for every run and every output configuration.", "anchors": ["buildup_simulation.py:BuildupSimulation.sim_time_step", "buildup_simulation.py:BuildupSimulation._save_output_data", "pyecloud_saver.py:pyecloud_saver.witness"]}
{"id": "C69", "title": "A run continued from a checkpoint goes on like the uninterrupted one", "statement": "A simulation into which a checkpoint is loaded, with as many clouds, continues exactly like the simulation that wrote it, given the same random numbers and the same cross-ionisation targets.", "quantifier": "every simulation, checkpoint and continuation", "why_tests_cant": "All states at which a checkpoint can be taken and all continuations.", "anchors": ["buildup_simulation.py:BuildupSimulation.load_state", "pyecloud_saver.py:pyecloud_saver._sim_state_single_save", "buildup_simulation.py:BuildupSimulation.sim_time_step"]}
{"id": "C70", "title": "The output of a whole run is the decimated history of the cloud", "statement": "For a cloud with a new recorder, each column of the output is the list of its values for the groups of steps between samples: instantaneous quantities of the cloud when the output was saved, sums over all steps of the group of what each step alone has counted. The numbers of a step balance: charge after is charge before minus impacting plus emitted plus primary plus cross-ionisation charge.", "quantifier": "every run of any number of steps and clouds, any recorder of the cloud", "why_tests_cant": "All runs and all output settings.", "anchors": ["buildup_simulation.py:BuildupSimulation._save_output_data", "pyecloud_saver.py:pyecloud_saver.witness", "impact_management_class.py:impact_management.backtrack_and_second_emiss"]}
{"id": "C71", "title": "Electrons freed from the gas start around the beam that freed them", "statement": "In every step before the end of the ionisation each beam adds its own electrons: a rounding of the charge it frees from the gas over the reference charge, each with the reference charge. Each coordinate is Gaussian around that beam with its size, or uniform over the chamber width with the given probability, and uses a random number of its own; points outside the chamber are drawn again. All electrons that a beam frees in one step share one velocity, whose energy is at most a quarter of the given one.", "quantifier": "every chamber, gas, list of beams, random stream and cloud", "why_tests_cant": "Independence of the coordinates and the effect of redrawing must hold for every stream.", "anchors": ["gas_ionization_class.py:residual_gas_ionization.generate", "buildup_simulation.py:BuildupSimulation._primary_generation"]}
{"id": "C72", "title": "Kick mode of the beam field", "statement": "When the beam field is applied as a kick, the velocities of a cloud change at once by charge over mass times the field of all the beams times the length of the step, and the motion that follows is the one without beams: with no space charge and no magnetic field each macroparticle moves freely with its kicked velocity. The mode is refused without a number of sub-steps.", "quantifier": "every cloud, beam field, space-charge field and step length", "why_tests_cant": "All fields and positions.", "anchors": ["buildup_simulation.py:BuildupSimulation.sim_time_step", "buildup_simulation.py:BuildupSimulation._cloud_motion"]}
{"id": "C73", "title": "Charge on insulating surfaces over a whole run", "statement": "After any run the charge on each edge of a charging wall follows from its initial charge by the impacts of all the steps in order, each step ending with the decay over its length; the impacts and emissions of a step are those it reports. Without decay the charge of the wall changes by exactly what the cloud loses there. Metallic edges keep their charge.", "quantifier": "every run of any number of steps and clouds with a charging wall", "why_tests_cant": "All histories.", "anchors": ["sec_emission_model_ECLOUD_nunif.py:SEY_model_ECLOUD_non_unif_charging", "buildup_simulation.py:BuildupSimulation.sim_time_step", "impact_management_class.py:impact_management.backtrack_and_second_emiss"]}
{"id": "C74", "title": "Which settings start a simulation", "statement": "Reading an input folder gives a simulation exactly when the files can be read and the settings are consistent: a known chamber with its file, a known emission model with no parameter the model does not have, lifetime settings where lifetimes are recorded, a photoemission chamber that fits, a tracker that supports the particles and the field, a number of passages that is a multiple of the saving interval, and a progress path where there are secondary beams. Otherwise it is refused before anything runs. The chamber, the beams and the space charge are then built from those settings.", "quantifier": "every set of input files, keyword arguments and flags", "why_tests_cant": "All combinations of several hundred settings.", "anchors": ["init.py:read_parameter_files_and_init_components", "init.py"]}
{"id": "C75", "title": "Every cloud is built from its own settings", "statement": "Each cloud of a simulation gets macroparticles, an emission model, an impact manager, sources, a recorder, a tracker and initial macroparticles as asked for by its own settings: those in its file if it gives them, or else the main ones. No other setting is used in their place and every setting that must be given has an effect.", "quantifier": "every set of input files with any number of clouds", "why_tests_cant": "All combinations of settings and clouds.", "anchors": ["init.py:read_parameter_files_and_init_components", "parse_cloud_file.py:cloud_descr_from_file"]}
{"id": "C76", "title": "Where files named in the settings are looked for", "statement": "A file named in the settings (chamber, emission curves, profiles of the main and of secondary beams) is the one of this name in the input folder, or the one with the suffix .mat added, or, if neither exists, the name as it is.", "quantifier": "every input folder and every name", "why_tests_cant": "All contents of the folder.", "anchors": ["init.py:read_parameter_files_and_init_components"]}
{"id": "C77", "title": "Inside test of chambers that need not be convex", "statement": "With the convexity requirement switched off, a point is reported inside exactly when it is in the inscribed ellipse or a horizontal ray from it crosses the outline an odd number of times; as long as the inscribed ellipse does not touch the outline, everything reachable from the centre without touching the outline is inside, everything from which one can leave the bounding box without touching the outline is outside, and the answer changes only across the outline; for a strictly convex outline it agrees with the convex test off the outline.", "quantifier": "every accepted list of vertices, every point and every path of segments", "why_tests_cant": "All outlines and all points; a test samples a few chambers.", "anchors": ["geom_impact_poly_fast_impact.py:polyg_cham_geom_object", "geom_impact_poly_cython.pyx:is_outside_nonconvex"]}
{"id": "C78", "title": "Where photoelectrons start", "statement": "Each photoelectron starts where a photon meets the wall. In model 1 a random number compared with the reflected share decides whether the photon is reflected; a photon that is not goes from the centre at a normally distributed angle of the given width, a reflected one goes from the centre in any direction or, with a table of angles, from the given point backwards at an angle of the table. In model 2 every photon starts at the centre, in any direction or at an angle of the table. No two photons share the random number of their direction.", "quantifier": "every chamber, photoemission setting, stream of random numbers and cloud", "why_tests_cant": "The directions depend on every random number drawn.", "anchors": ["photoemission.py:photoemission_1.generate", "photoemission.py:photoemission_2.generate"]}
{"id": "C79", "title": "Where initial macroparticles start", "statement": "Initial macroparticles given by a charge are spread uniformly over the given rectangle, each coordinate by its own random number and redrawn until inside the chamber; those given by a density are drawn once and the ones outside the chamber are left out. All macroparticles of one call start with one common velocity, each component from its own random number.", "quantifier": "every chamber, rectangle, charge or density and stream of random numbers", "why_tests_cant": "The positions depend on every random number drawn.", "anchors": ["MP_system.py:MP_system.add_uniform_MP_distrib", "MP_system.py:MP_system.add_uniform_ele_density"]}
{"id": "C80", "title": "Forces on a macroparticle in a time step", "statement": "In a time step each macroparticle is moved by the electric field of the clouds plus that of the main beam and of every secondary beam, taken at its own position, once per step or again in each piece when this is asked for. Without magnetic field this gives uniformly accelerated pieces; with the trackers for strong magnetic fields and for dipoles it is the exact motion of an electron in these fields. A beam acts with its field map times its charge and its present line density.", "quantifier": "every cloud, beam, field map and number of secondary beams", "why_tests_cant": "All field maps, positions and combinations of beams.", "anchors": ["buildup_simulation.py:BuildupSimulation.sim_time_step", "beam_and_timing.py:beam_and_timing.get_beam_eletric_field"]}
{"id": "C81", "title": "Beam profile read from a file", "statement": "A beam profile read from a file is used with the times and line densities of the file, scaled and with the coasting beam added. If all steps of the file are equal, its step is the time step of the run; otherwise each step of the file is the time step in its turn.", "quantifier": "every list of increasing times and every list of densities", "why_tests_cant": "All time axes; a test tries a few files.", "anchors": ["beam_and_timing.py:beam_and_timing.__init__"]}
{"id": "C82", "title": "Electromagnetic space charge", "statement": "In the electromagnetic mode the clouds act on each macroparticle with the electrostatic field of all clouds minus the rate of change of the vector potential of their currents, and with the matching magnetic field; clouds at rest act as in the electrostatic mode; charge and recorded densities are those of the electrostatic mode.", "quantifier": "every solver, every set of clouds and every sequence of steps with and without recomputation", "why_tests_cant": "All histories of clouds and schedules of recomputations; a test compares a few field maps.", "anchors": ["space_charge_class_electromagnetic.py:space_charge_electromagnetic", "buildup_simulation.py:BuildupSimulation._recompute_cloud_spacecharge", "buildup_simulation.py:BuildupSimulation._cloud_motion"]}
{"id": "C83", "title": "Beam slices and clouds act on each other at the positions of the beam particles", "statement": "In PyHEADTAIL mode, a slice that is marked to interact gives the electrons one time step in the field of exactly its particles, with their line density, mean position and width and a forced recomputation of the space charge, without cleaning or regeneration; its particles, and no others, are then kicked by the field of the cloud after that step. A slice marked not to interact leaves the beam unchanged and the cloud advances as if there were no beam.", "quantifier": "every beam, slice, slice length and reachable state of the cloud, every kick setting and field solver", "why_tests_cant": "Needs all beams and slicings, and the order of field evaluation, cloud step and kick cannot be seen from single results.", "anchors": ["PyEC4PyHT.py:Ecloud._track_single_slice", "PyEC4PyHT.py:DummyBeamTim"]}
{"id": "C84", "title": "Complex error function", "statement": "The complex error function used for the field of a Gaussian beam returns a number for every argument, without dividing by zero or reading memory that was not written. It obeys w(-conj z) = conj w(z) and, in the upper half plane, w(-z) = 2 exp(-z^2) - w(z); on the real axis its real part is exp(-x^2); its value is the continued fraction, or the expansion around a shifted argument, with the number of levels prescribed for the place.", "quantifier": "every real and imaginary part", "why_tests_cant": "All of the complex plane, with a number of terms that depends on the place; a test compares a table of values.", "anchors": ["errfff.f:errf", "BassErsk.py:wfun"]}
{"id": "C85", "title": "Analytic beam field in an elliptic chamber", "statement": "With the analytic option the beam field map holds, at each node, the field of a Gaussian beam in free space plus the field of its images in the elliptic chamber. It is a number for every beam and chamber, is mirrored in both planes everywhere in the chamber, changes its components when beam and place are turned, and the free part points away from the beam.", "quantifier": "every chamber, beam size, number of nodes and of images and every place", "why_tests_cant": "All chambers, beams and places, and symmetry must survive the interpolation between nodes.", "anchors": ["BassErsk.py:BassErsk", "BassErsk.py:ImageTerms", "beam_and_timing.py:beam_and_timing.__init__"]}
{"id": "C86", "title": "Source of the beam field map", "statement": "The field solvers get, on each cell, the charge of a Gaussian beam of unit charge in that cell, at the position and with the sizes of the beam; over a grid these add up to the charge within the grid. Each source of the field map is accepted only with all its settings. A saved map, given as a file, is used as it was when it was saved, and a map from a file is used with its values at its nodes.", "quantifier": "every beam, grid, solver, file and combination of settings", "why_tests_cant": "All combinations of settings and all maps; a test tries a few.", "anchors": ["beam_and_timing.py:beam_and_timing.__init__"]}
{"id": "C87", "title": "States saved at requested times", "statement": "When times are requested for saving the macroparticles of a cloud, or the whole simulation, one numbered file is written for each time that is reached. File k holds the state of the first step at or after the k-th time that follows the step of file k-1, and no other file is written. Files of different clouds and times have different names.", "quantifier": "every list of times, every run and every cloud", "why_tests_cant": "All lists of times against all step sequences; a test tries a few.", "anchors": ["pyecloud_saver.py:pyecloud_saver._MP_state_init", "pyecloud_saver.py:pyecloud_saver._MP_state_save", "pyecloud_saver.py:pyecloud_saver._sim_state_init", "pyecloud_saver.py:pyecloud_saver._sim_state_save"]}
{"id": "C88", "title": "Videos of densities and fields", "statement": "With a video switched on, the file of a passage holds, in order, the pictures and times of exactly the recorded steps since the passage before. The folder of the video is made when it is missing and found at every later step.", "quantifier": "every sequence of steps and passages, every folder name", "why_tests_cant": "All sequences of passages and recorded steps.", "anchors": ["pyecloud_saver.py:pyecloud_saver._rho_video_save", "pyecloud_saver.py:pyecloud_saver._sc_video_save"]}
{"id": "C89", "title": "Log, progress and stop file", "statement": "At the start of every passage the output, a log line and the progress of each cloud are saved, whether or not log and progress files can be written. The run goes on until the first passage at which there is a stop file, and it stops there after saving.", "quantifier": "every run, number of clouds and state of the file system at each passage", "why_tests_cant": "All moments at which the files may appear or become unwritable.", "anchors": ["pyecloud_saver.py:pyecloud_saver.witness", "pyecloud_saver.py:pyecloud_saver._logfile_progressfile_stofile"]}
{"id": "C90", "title": "Extracted secondary emission curves", "statement": "With the option to extract them, the saved yield curves are those of the emission model in use: at each energy and angle the reflected and the true yield up to the random share of reflections, and their sum is exactly the yield of the model (except for the accurate model and the Furman-Pivi model, where it is the mean over the sampled events). In the saved spectra every emitted electron is counted once, reflected electrons at the energy of the impact and true secondaries at allowed energies. The extraction does not change the simulation.", "quantifier": "every emission model and parameters, every grid of energies and angles, every number of test impacts and random stream", "why_tests_cant": "All random streams, energies, angles and parameters.", "anchors": ["impact_management_class.py:impact_management.extract_sey_curves", "impact_management_class.py:impact_management.extract_energy_distributions", "pyecloud_saver.py:pyecloud_saver.start_observing"]}
{"id": "C91", "title": "Extracted cross sections", "statement": "With the option to extract them, the saved interpolated cross section is the one used in the simulation, and the sampled one of every product agrees with it up to the one that corresponds to one product macroparticle for each test projectile.", "quantifier": "every process, table, energy, number of test projectiles and random stream", "why_tests_cant": "All tables, energies and random streams.", "anchors": ["cross_ionization.py:Cross_Ionization._extract_sigma"]}
{"id": "C92", "title": "Simulations that share a communicator", "statement": "When several simulations are given one communicator, at each recomputation of the space charge every one of them continues with the mean of the total charge densities of all of them and with the field of that mean, and nothing else of it changes. The result does not depend on the order in which the processes run; equal simulations end as one simulation without communicator. Simulations with the same time steps and the same schedule never wait for each other forever unless one of them fails; if one of them ends or fails while another one exchanges, the other one never ends. The density recorded for each cloud is its own one.", "quantifier": "every number of processes, every simulation and state, every interleaving of the processes", "why_tests_cant": "All interleavings, numbers of processes and histories.", "anchors": ["space_charge_class.py:space_charge.recompute_spchg_efield", "buildup_simulation.py:BuildupSimulation.sim_time_step"]}
{"id": "C93", "title": "Electric energy of the cloud", "statement": "With a step for the sampling grid given, the recorded electric energy at every output time is the sum over the grid cells of the squared space-charge field in the middle of the bounding rectangle, times the cell area and half the permittivity, in eV; it is never negative, zero for zero field, grows with the square of the field, and is bounded by the largest field. Without that step no energy is available. The potential energy recorded with it is the one of the cloud.", "quantifier": "every field, chamber size, step of the grid and run", "why_tests_cant": "All fields, grids and runs.", "anchors": ["space_charge_class.py:space_charge.get_potential_electric_energy", "space_charge_class.py:space_charge.__init__", "pyecloud_saver.py:pyecloud_saver._stepbystep_data_save"]}
{"id": "C94", "title": "Every random number is used where it is drawn", "statement": "The outcome of an emission, of a source of macroparticles, of a regeneration, of a time step and of a run depends only on the random numbers it takes from the generator: with another generator that returns the same numbers for these calls, the result is the same and the generator is left at the same place. No part uses a number that it then leaves to be drawn again by the next part.", "quantifier": "every generator, position in its sequence, emission model, source, state and run", "why_tests_cant": "All sequences of random numbers and all states; tests use a few seeds.", "anchors": ["sec_emission.py", "sec_emission_model_ECLOUD.py", "sec_emission_model_furman_pivi.py", "electron_emission.py", "gas_ionization_class.py:residual_gas_ionization.generate", "gen_photoemission_class.py", "cross_ionization.py", "MP_system.py:MP_system.check_for_regeneration", "buildup_simulation.py:BuildupSimulation.sim_time_step"]}
{"id": "C95", "title": "The numpy implementation of the polygonal chamber", "statement": "The numpy polygonal chamber finds the same points inside as the compiled one. Tracks that start inside never raise an exception and return points inside the chamber. In a convex chamber each impact is at the first point where the track meets the wall, moved back by the rescaling factor, with the inward unit normal and the number of an edge through it, also when the track ends on the wall. Both implementations return the same points, and the same normals and edges except in corners.", "quantifier": "every accepted outline, rescaling factor and list of tracks", "why_tests_cant": "All outlines and all tracks, including tracks into corners and tracks that end on the wall.", "anchors": ["geom_impact_poly.py:polyg_cham_geom_object", "geom_impact_poly_fast_impact.py:polyg_cham_geom_object", "geom_impact_poly_cython.pyx"]}
{"id": "C96", "title": "Electron clouds in a PyHEADTAIL machine: construction, twins and output files", "statement": "Ecloud(...) succeeds exactly when no argument is given twice, the input files and keyword arguments give consistent settings for one cloud tracked by a Boris pusher, the probes are positions, and slice-by-slice mode has no slicer. The object has the settings that were passed, keyword arguments override the input files, and the five keywords of the coupling do not change the build-up simulation. generate_twin_ecloud_with_shared_space_charge gives an object with the same settings and the same space charge at any time, unless the cloud was replaced by field maps. With an output file, every recorded passage goes into a file of its own, with its number in the name; without one nothing is written. The recorder keeps its settings over the passages.", "quantifier": "all arguments, input files and histories of tracking, finalizing, setting of attributes and replacing", "why_tests_cant": "All combinations of keywords and input files, and histories of any length.", "anchors": ["PyEC4PyHT.py:Ecloud.__init__", "PyEC4PyHT.py:generate_twin_ecloud_with_shared_space_charge", "PyEC4PyHT.py:_reinitialize", "PyEC4PyHT.py:finalize_and_reinitialize", "PyEC4PyHT.py:remove_savers"]}
{"id": "C97", "title": "Entries of the output file: save_only and custom observables", "statement": "The output file has the entries that were asked for and no others. With save_only the run is the same, files are written at the same passages, and each file holds the named entries of the complete output; a name that is no entry stops the run at the first file. Custom observables are recorded at each sample, at each passage or once, whatever their names, and entries that are not custom observables are not affected by them.", "quantifier": "all settings, all names of custom observables, all lists of names, all runs", "why_tests_cant": "Any set of names may be asked for, names may collide, and the entry must hold at every file of runs of any length with buffers that grow.", "anchors": ["pyecloud_saver.py:build_outp_dict", "pyecloud_saver.py:_stepbystep_get_dict", "pyecloud_saver.py:_pass_by_pass_data_save", "pyecloud_saver.py:_stepbystep_data_save", "pyecloud_saver.py:load_from_output"]}
{"id": "C98", "title": "Models chosen by name", "statement": "A simulation uses for each cloud the distribution of emission angles, the energies and angles of photoelectrons, and for the space charge the solver that the settings name, each by its own setting; a name that is not known, a solver that needs a rectangular chamber in another one, or a non-uniform surface model in a chamber that is not a polygon stops the simulation at the start. No angle distribution is ever assumed: without a name in the files or in the call a simulation with emission does not start.", "quantifier": "all input files, keyword arguments, numbers of clouds, names and values of the settings", "why_tests_cant": "Every combination of names, chambers, emission models and clouds must be accepted or refused correctly, including names nobody has tried.", "anchors": ["electron_emission.py:get_angle_dist_func", "electron_emission.py:get_energy_distribution_func", "space_charge_class.py:space_charge.__init__", "gen_photoemission_class.py:photoemission.__init__", "sec_emission_model_ECLOUD.py:SEY_model_ECLOUD.__init__", "sec_emission_model_ECLOUD_nunif.py:SEY_model_ECLOUD_non_unif.__init__", "init.py:read_input_files_and_init_components"]}
{"id": "C99", "title": "Saving and loading states of a simulation", "statement": "Saving a state or a checkpoint leaves the running simulation as it was: the same beams, clouds with their own recorders, solver and potentials. The file holds everything but recorders, factorisation and vector potentials. A simulation that loads it takes over the saved beams, settings and clouds, as many as it has itself, keeps its own recorders, which go on under the new file name, and is then the saved simulation; with more clouds than saved ones loading fails. States can be saved in every accepted mode, a save that fails does not damage the running simulation, and the vector potentials survive.", "quantifier": "all simulations, modes, histories of recomputations and saves, numbers of clouds, file names and failures while writing", "why_tests_cant": "Histories of any length, any number of clouds, and failures at the moment of writing.", "anchors": ["pyecloud_saver.py:_sim_state_single_save", "buildup_simulation.py:load_state", "buildup_simulation.py:load_checkpoint", "space_charge_class_electromagnetic.py:space_charge_electromagnetic"]}
{"id": "C100", "title": "Drawn energies and directions follow the documented laws", "statement": "The energies and directions that the code draws have the documented laws when the random numbers are uniform: of every drawn quantity, the set of random numbers that give at most a value is exactly an interval of the length given by the documented distribution function, and this function has the documented density. Backscattered electrons have a cut Gaussian, rediffused ones a power, true secondaries a cut gamma density, secondaries of low-energy impacts a linear density, the angles the cosine laws, photoelectrons a uniform or a cut Lorentz density. The densities and distribution functions offered to users are those of the drawn energies, also with default arguments and with either choice of the number of electrons.", "quantifier": "all surfaces with sane parameters, impact energies, random numbers, numbers of particles, normals, energy grids and rules of integration", "why_tests_cant": "A law is a statement about all random numbers; tests compare histograms of finitely many draws with a tolerance.", "anchors": ["sec_emission_model_furman_pivi.py:get_energy_backscattered", "sec_emission_model_furman_pivi.py:backscattered_energy_CDF", "sec_emission_model_furman_pivi.py:true_sec_energy_PDF", "sec_emission_model_furman_pivi.py:average_true_sec_energy_PDF", "electron_emission.py:sec_energy_hilleret_model2", "electron_emission.py:velocities_angle_cosine_3D", "electron_emission.py:velocities_angle_cosine_2D", "electron_emission.py:get_energy_distribution_func"]}
{"id": "C101", "title": "On average the requested charge is generated", "statement": "Rounding to whole macroparticles and random choices have no bias: averaged over the random numbers, the charge that gas ionisation, each photoemission model and a uniform initial distribution add is the requested charge, a regeneration of the macroparticles gives back exactly the charge of those within the position cut, a soft one leaves the requested number of macroparticles, and a batch of impacts emits the impacting charges times the total yields of the surface model, also for the Furman-Pivi model. The products of a cross-ionisation process get on average as many particles as there are ionisations.", "quantifier": "all clouds, chambers, surfaces, impacts and settings, and all random numbers other than those averaged over", "why_tests_cant": "An average is a statement about all values of the random numbers; a test averages finitely many runs with a statistical tolerance, which hides a small bias.", "anchors": ["gas_ionization_class.py:residual_gas_ionization.generate", "gen_photoemission_class.py:photoemission_base.get_number_new_mps", "MP_system.py:MP_system.add_uniform_MP_distrib", "MP_system.py:MP_system.perform_soft_regeneration", "MP_system.py:MP_system.check_for_regeneration", "sec_emission_model_ECLOUD.py:SEY_model_ECLOUD.impacts_on_surface", "sec_emission_model_furman_pivi.py:SEY_model_furman_pivi.impacts_on_surface", "cross_ionization.py:Ionization_Process.generate"]}
{"id": "C102", "title": "Reading an input file leaves no trace", "statement": "Reading one of the python input files gives the definitions of its text (with pi available) or raises if the file is missing or raises; in both cases the temporary directory is removed again and every other file and directory is as before, in particular the input file itself. This holds for any number of processes reading at once in any interleaving, and at every moment in between; after all processes have been stopped at any point, a later process that is given one of the left temporary directories still reads correctly and removes it.", "quantifier": "all files, file systems, numbers of processes, schedules, crash points", "why_tests_cant": "Schedules of several processes and crash points are unbounded and not under the control of a test.", "anchors": ["input_parameters_format_specification.py:import_module_from_file", "init.py:read_parameter_files"]}
{"id": "C103", "title": "Which yield table is used", "statement": "A secondary yield table given by name is read from the path, or else from the dedicated folder of the package, the path having precedence; started from a folder of input files, the table in that folder comes first, then the one with '.mat' added. A name found nowhere raises. A table is accepted only if all its entries are there and they make sense together (as many yields as energies, energies in ascending equal steps).", "quantifier": "all names, file systems, tables", "why_tests_cant": "The file system and the table are arbitrary.", "anchors": ["sec_emission_model_from_file.py:SEY_model_from_file.__init__", "init.py:read_input_files_and_init_components"]}
{"id": "C104", "title": "Joining of monitor files", "statement": "Reading a list of monitor files gives, under every name, the data of all files one after the other in the order of the list (along the rows, or along the columns with the transposition flag), whatever their number and lengths. Without the permissive flag a result means that all files were read; with it, files that cannot be read count as not given and leave no partial data. No name that a file has is lost.", "quantifier": "all lists of files, names, arrays, flags", "why_tests_cant": "The number, contents and readability of the files are arbitrary.", "anchors": ["myfilemanager.py:monitorh5_to_dict", "myfilemanager.py:monitorh5list_to_dict"]}
