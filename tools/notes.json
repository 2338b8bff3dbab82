{
 "C02": "Holds for every operation sequence except adding a single macroparticle to a full system, where numpy broadcasts silently into an empty slice (refuted by witness).",
 "C04": "Proved when the free slots are empty and somebody survives; witnesses show charge loss when nobody survives and charge creation when stale slots follow an import.",
 "C07": "Positions, velocities and charges round trip; last impact times are not exported (refuted by witness).",
 "C17": "Samples below the start of the range are written outside the array (refuted by witness); everything else proved.",
 "C06": "The index is a bijection on the grid and every MP lies in its cell, except for grid sizes that are multiples of four, for which C06_size_four_refuted gives a collision.",
 "C21": "The series and the factorial normalisation hold when the skew list is absent or as long as the normal list. For other lengths the constructor broadcasts or truncates silently (the two refuted theorems).",
 "C13": "Transverse position proved for any chamber and, for convex ones, identified as the rescaled first crossing. The longitudinal coordinate is set to 0 and so leaves the track (refuted by witness).",
 "C14": "Proved for ellipses and for convex polygons when the track ends strictly beyond a wall. A track ending exactly on a wall is counted as an impact but gets the zero normal and segment 0 (C14_end_on_wall, for all such tracks).",
 "C16": "Rejections proved as stated for all but the closing edge; witnesses show that a zero-length closing edge, a self-intersecting star and a flat outline are accepted.",
 "C31": "Real arithmetic; admissible parameters (E >= 0, 0 <= cos <= 1, Emax > 0, s > 1, R0 >= 0, E0 > 0) are hypotheses. The peak statement is about the true-secondary part, as in the code.",
 "C32": "The code violates the property: `delta = true_sec` aliases the array, so the reflected part is always zero. Refuted with a witness; C32_code states what the code does.",
 "C35": "Proved for spacings that are multiples of 0.001 eV and energies from the first table energy on; refuted for other spacings, which are accepted but rounded. File lookup: C103.",
 "C36": "Outcome table, sizes, exclusivity, termination of the M_cut loop within 12 rounds for all random streams.",
 "C38": "Holds for events with one or two emitted electrons and pairwise for any number; false for three or more (C38_refuted). The loop keeps events of two or more electrons that respect the limit (C38_kept); events of one electron may be drawn again because of another event (C38_kept_refuted).",
 "C39": "New macroparticles always get a fresh velocity; the replaced one does not when no event of the batch emits two or more electrons (C39_refuted).",
 "C23": "Proved for every axis (signal exactly when a passage later than all earlier ones is entered); one signal per passage for axes starting at or after time zero. Passages before time zero are never signalled (refuted by witness).",
 "C47": "Gas ionisation, the three photoemission models and the two uniform initial distributions. Refuted part: with lifetime histograms the uniform distribution writes the last impact times to the wrong slots, so a new macroparticle keeps the stale time of its slot.",
 "C48": "Models 1 and 2 of photoemission need the origin inside the chamber (the code does not check it); every stream on which the rejection loops stop.",
 "C57": "Holds for all distributions but the rectangular one, which can give negative energies (C57_rectangular_refuted). Velocities are part of C47_photoemission_1, C47_photoemission_2 and C58_photoemission_per_segment (photo_mp).",
 "C58": "Every polygon accepted by the constructor.",
 "C59": "Includes the effect of the thinning when at least one macroparticle survives.",
 "C40": "The match of counters and macroparticles is proved while targets are not exhausted; once a target number is negative the recorded number of macroparticles falls without anything being removed (C40_exhausted_refuted).",
 "C41": "False of the code: one call may ionise more particles than the target holds and the number is not clipped (C41_refuted). Proved when the projectiles sweep at most the target area per step.",
 "C60": "Steps must be multiples of 1e-8 because the code rounds the steps to eight decimals.",
 "C42": "Any number of clouds, any deposition and field solver on one grid.",
 "C43": "The decimation rule is proved for the checks. For recomputations themselves the claim is false: a check before the space charge is switched on uses up the slot without recomputing (C43_early_check_refuted), and a forced recomputation does not reset the clock.",
 "C50": "False on non-uniform time axes when the step is at most half the target sub-step: no sub-step is made (C50_no_sub_step_refuted). Proved otherwise.",
 "C61": "Hypotheses on the parts (chamber, emission model, trackers) are proved for the ones of the code. The run theorem is without cross ionisation, whose targets may be exhausted (see C41); the step and history theorems include it while targets last. The Furman-Pivi model is covered by C10_furman_pivi (in PropFurman). Rounding and the PyPIC solver are not included.",
 "C25": "All step-by-step observables, with any decimation, buffer size and custom observables; also what the file on disk holds. Settings with non-positive bin widths, macroparticles left of the first bin and a restricted list of output keys are excluded (cfg_ok, step_ok).",
 "C26": "Also independent of the initial size of the buffers. A size of zero is excluded (the code cannot double an empty array).",
 "C27": "False: the sample of the checkpoint is lost, the passage times are not restored, the space charge energies are not cut (C27_resume_refuted, C27_sample_lost), and an output with one passage cannot be continued (C27_one_passage_stops). Proved: histograms and counters of the passages of a continued run equal those of an uninterrupted one. Lifetime histograms are lost (C27_lifetimes_lost, C27_lifetimes_refuted).",
 "C62": "Proved for the passage, energy, angle, segment and lifetime histograms. The detailed position histogram repeats the previous line when a passage ends with an empty cloud (C62_detail_refuted); correct otherwise (C62_detail_partial).",
 "C63": "False: the last sample is missing (C63_probes_refuted); all the others are right (C63_probes_partial).",
 "C28": "Proved: at every crash point the checkpoint completed last is in the folder, complete, beside at most one other file; the exact crash points at which a new run refuses it; acceptance when runs are killed between passages and the output is written at every passage; no file operation of an accepted run fails. Refuted: acceptance at every crash point (old checkpoint not yet removed, output half-written, first copy missing, save_mat_every above 1), and a folder written without a final \"/\" is never found again. A write that a crash can interrupt is two operations (truncate, complete); reading a complete output is assumed to succeed.",
 "C64": "Names, spacing and due passages over any history of runs, each killed at any file operation.",
 "C29": "The table is generated from default_input_parameters.py by tools/mkconfigtable.py. Acceptance of one file against a section (C29_module), of the four files together (C29_accepted, C29_sound) and the values (C29_values). The values and the completeness need that no imported module has the name of a parameter: C29_module_refuted shows that such a module in the simulation file silently becomes the value. The parameter pi may be given in several files; a later one is ignored.",
 "C30": "C30_accepted and C30_override for every set of keyword arguments with distinct names; C30_names: the configuration holds exactly the parameters of the main input. Overriding the name of the machine or emission file changes the recorded name only, these files have been read by then. Beam parameters are not part of the configuration and cannot be overridden.",
 "C65": "C65_same_name_refuted: two cloud files with the same base name in different folders write the same output file, without an error. A named main cloud with the name of a cloud file does the same; C65_outputs has both as hypotheses.",
 "C66": "Values in R. A rest energy of zero and a zero velocity give an error in the model (a warning and inf in the code).",
 "C08": "Any history of bunches, slices, resets, flag changes and replacements. Side condition of C08_passage: the histories agree on what is not reset (clock, densities, counters, space-charge state, flags); see C67. Output recorder not modelled here.",
 "C44": "Slice of positive length, positive speed. A build-up or reference step that is not positive is taken as an exception.",
 "C45": "Proved for interacting slices in slice mode, and for whole bunches if PyHEADTAIL (external) resolves negative slice numbers from the end. Refuted: disabled kicks are ignored in the replay; a long slice without interaction shifts the record. If PyHEADTAIL looks up limits at i and i+1 the replay of a bunch is shifted by one slice.",
 "C67": "Refuted: the space-charge field of the end of a passage acts in the first step of the next one. C08_passage gives what holds: equal kicks if the states that are not reset agree.",
 "C69": "Refuted: the checkpoint is written before the cleaning and regeneration of its step, so these are skipped after loading. Proved (C69_continues_partial) when they had nothing to do. Random generator and cross-ionisation targets are not saved (C69_loaded).",
 "C70": "Columns with one value per sample; histograms and passage data are covered by C54 and C62.",
 "C74": "Arguments are compared as values and the constructed objects are records of what they were called with; that the constructors themselves may fail is covered by C16, C51 and C58. An unknown photoemission flag is accepted and gives no photoemission (photo_part).",
 "C75": "Refuted for the histograms of the impact manager (number of bins, largest energy, lifetimes, width of the angles) and for the sub-steps of the multipole tracker, which come from the main settings although a cloud may set its own. t_ON_regen_low must be given and has no effect (C75_unused). Everything else is proved (C75_parts_partial).",
 "C76": "Refuted for secondary beams: the existence of the file with the suffix is tested with the name of the main beam.",
 "C81": "The time step is that of the file when the steps are equal, and what counts as equal is characterised for all increasing times. The full claim is false: steps shorter than the mean are not noticed, so a file with one short first step is run with that step (C81_short_step_refuted).",
 "C82": "Fields, motion and schedule are proved for every solver and history. The rate of change is taken over Dt_sc whatever time has passed between the recomputations, so it is not the difference quotient when the steps do not divide Dt_sc (C82_elapsed_refuted), and after the first recomputation the potential counts as zero before (C82_first). Checkpoints do not hold the vector potential.",
 "C84": "Numbers are reals: overflow and rounding of the Fortran double precision are not modelled, and the accuracy with respect to the mathematical function is not claimed.",
 "C85": "Formula, symmetries and the map are proved. That a map always exists is refuted: beams with equal sizes, chambers taller than wide and nodes at a focus of the chamber give NaN (C85_round_refuted, C85_tall_refuted, C85_focus_refuted); in all other cases it exists (C85_exists). At the last row and column of nodes the interpolation gives zero.",
 "C86": "Densities, settings and saved maps are proved. A file whose coordinates are not equally spaced is accepted and its values are used at other places (C86_file_refuted).",
 "C87": "Schedule, contents and names of the files are proved for all lists of times. Refuted: a file with a single time is ignored (C87_single_refuted), and of two times within one step the second gets the state of a later step (C87_crowded_refuted).",
 "C88": "Contents and folders are proved. Refuted for the videos of single clouds: the folder that is made is not the one that is looked for, and the second step fails (C88_cloud_folder_refuted); with a folder name that ends with a slash it works (C88_cloud_folder).",
 "C89": "The run goes on and stops as claimed. With several clouds those after the first do not save the passage at which the run stops (C89_other_clouds_refuted).",
 "C90": "Curves and spectra are proved for all models and streams. That the extraction is harmless is refuted: with insulating edges the test impacts leave charge on the wall before the simulation starts (C90_harmless_refuted). It also uses random numbers of the stream of the simulation.",
 "C91": "Proved for all tables, energies and streams.",
 "C92": "Mean, independence of the order, completion, deadlock and pace are proved for all numbers of ranks and interleavings. That the density noted for each cloud is its own one is refuted for the last cloud: it gets the mean over the ranks less the densities of the other clouds (C92_density_refuted).",
 "C93": "The electric energy is proved. That the recorded potential energy is the one of the cloud is refuted: the stored number is always 0 (C93_U_sc_zero, C93_U_sc_refuted).",
 "C95": "The corner, clockwise and zero-length theorems show that three stronger claims are false.",
 "C96": "Five stronger claims are false: attributes set later do not pass to a twin, a cloud and its twin share a file, a name is cut at '__iter', the recorder loses settings such as save_only at the first passage, and a named cloud needs an output file.",
 "C97": "Two stronger claims are false: a custom observable with the name of a standard entry replaces it, and a run with save_only cannot always be continued from its file.",
 "C99": "Proved: saving leaves the simulation as it was, what the file holds, loading, names, checkpoints, round trip without electromagnetic tracking, exact list of modes. Refuted: electromagnetic mode cannot be saved, a failed save damages the simulation, vector potentials are lost.",
 "C100": "Proved: laws and densities of backscattered, rediffused and true secondary electrons, of low-energy secondaries, angles and photoelectrons; densities offered to users. Refuted: default arguments of the distribution functions ignore the surface; the binomial weights are not binomial.",
 "C101": "Proved: the averages of the charge added by gas ionisation, photoemission (three models), uniform distribution, regeneration, of the number of macroparticles after a soft regeneration, and of the charge emitted by ECLOUD-type surfaces. For the Furman-Pivi model the exact mean and bounds are proved. Refuted: the Furman-Pivi mean equals the total yield (M_cut).",
 "C102": "Proved: result, no trace, any schedule of processes with different process numbers, any crash point. Refuted: two calls with the same process number (threads, shared /tmp).",
 "C103": "Proved for paths and for the folder of input files; missing entries and missing files are rejected. Refuted: dedicated folder and home directory (the file found is not the one loaded), tables with too few yields or with descending energies are accepted.",
 "C104": "Proved for vectors and matrices, both flags. Refuted: the permissive flag does not skip an unreadable first file, and names that only later files have are lost."
}