# Design of the formal model of PyECLOUD

The code under study is in /repo (pinned commit, read as text). The model is in
`rocq/theories`, logical name `Verif`, for Coq 8.16.1.

## Numbers

Floating-point numbers are modelled as the real numbers `R` of Coq's standard
library. Rounding, overflow, NaN and infinities are *not* modelled, except that
a division whose divisor is zero is guarded and returned as an explicit error
value where the code would produce inf/NaN and where the difference matters for
the property. Integers are `nat`/`Z`. Numpy arrays are lists. Python exceptions
are values (`option`, or a small error type). Random numbers are explicit
arguments of the functions (lists or streams), so a theorem holds for every
outcome. `np.floor` is `Int_part`, Fortran `int()` is truncation towards zero.

## Numpy semantics used

* `a[lo:hi] = v` (slices clipped to the array; length must match unless `v` has
  length one or is a scalar, in which case it is broadcast; otherwise
  `ValueError`): `slice_set`.
* boolean mask selection and mask assignment: `mask_get`, `mask_set`.
* `np.repeat(a, counts)`: `repeat_each`.
* negative indices (Python lists and numpy arrays): `py_nth`.
* in-place aliasing is modelled where the code relies on it (views of the
  macroparticle arrays, `delta = true_sec` in the flat low-energy model).

## Layout

For each area: `X.v` (model, no proofs), `XFacts.v` (lemmas), `PropX.v`
(property theorems only; each closed by `exact lemma`, followed by
`Print Assumptions`, with an `Example` showing that the hypotheses are met).
Small specifications (what the English says) are in `Spec*.v` or at the top of
the Prop file.

| area | model | code |
|---|---|---|
| numpy/number helpers | Num.v | - |
| macroparticle system | MP.v | MP_system.py |
| Fortran kernels | Fort.v | compute_hist.f, compute_rho.f, interp_field_for.f, update_seg_impact.f |
| wall impacts | Impact.v | impact_management_class.py |
| emission models | Sey.v, Furman.v | sec_emission_model_*.py, electron_emission.py |
| geometry | Geom.v, Poly.v, NpPoly.v | geom_impact_*.py, geom_impact_poly_cython.pyx |
| trackers | Push.v | dynamics_*.py, boris_step.f, boris_c_function.c, sincc_cosincc_cubsincc.py |
| timing and beam | Beam.v | beam_and_timing.py |
| output and checkpoint | Saver.v, Ckpt.v | pyecloud_saver.py, buildup_simulation.py |
| configuration | Config.v | input_parameters_format_specification.py, init.py |
| assembly | Init.v | init.py:128-563 |
| sources | Source.v, CrossIon.v | gas_ionization_class.py, gen_photoemission_class.py, cross_ionization.py |
| simulation step | Sim.v | buildup_simulation.py, space_charge_class.py |
| simulations that share a communicator | Mpi.v | space_charge_class.py:175-199, buildup_simulation.py:162-288 |
| electric energy | Energy.v | space_charge_class.py:113-158, 258-268 |
| recorded step, saved states | Whole.v | buildup_simulation.py, pyecloud_saver.py:953-1025 |
| extracted curves | Extract.v | impact_management_class.py:361-474, cross_ionization.py:431-492 |
| states at given times, videos, stop file | Snap.v | pyecloud_saver.py:295-320, 903-1143 |
| PyHEADTAIL coupling | PyHT.v, PyHTInit.v | PyEC4PyHT.py, Transverse_Efield_map_for_frozen_cloud.py |

## Plan per property

* C01, C03 - refinement: arrays with capacity are abstracted to the list of live
  macroparticles; cleaning refines `filter`, adding refines `++`.
* C02 - invariant by induction over operation lists; the single-particle
  broadcast case is expected to refute the unrestricted claim (`_refuted`), the
  remaining cases are proved.
* C04 - refinement to filter-and-scale; algebra for the total.
* C05, C06 - model of the regeneration loop with random streams; index
  arithmetic in `Z`.
* C07 - round trip.
* C08, C67 - histories of operations on the cloud object; a preorder that every
  operation keeps gives the reset, a relation "equal on the live slots" kept by
  every operation in lockstep shows that dead slots do not leak into a passage.
* C09, C10, C11 - model of the mask based impact handling, parametric in the
  emission model; then instantiated with each emission model. The contract of an
  emission model is relative to the wall, because the Furman-Pivi model leaves
  the particles of an absorbed impact at the origin (in PropFurman).
* C12-C16 - real geometry (`nra`/`lra`), induction over edges.
* C17, C18 - induction over samples/particles; bilinear weights.
* C19-C21 - real algebra, induction over sub-steps and multipole order.
* C22, C23, C43, C56 - state machines, induction over steps.
* C24 - induction over the filling pattern.
* C25-C27, C62, C63 - state machine of the recorder with its attributes as a
  dictionary; the specification cuts the list of steps into groups, one
  invariant serves runs from the start and runs continued from a checkpoint. For
  equally spaced steps the groups are exactly every n-th step.
* C28, C64 - file system state machine, crash point = prefix of the operation
  list, histories of runs each killed at any point; the operations inside the
  checkpoint folder are those of the due passages alone.
* C29, C30 - finite maps as association lists over strings; the table of the
  parameters is a generated module (tools/mkconfigtable.py reads
  default_input_parameters.py as text). A file is the list of its definitions.
* C65 - parse_cloud_file.py over the same dictionaries; output names as strings.
* C66 - parse_beam_file.py with numbers in R.
* C31-C35 - real analysis (exp, Rpower, cos, sqrt).
* C36-C39 - model of the Furman-Pivi event loop with random streams.
* C40, C41, C60 - state machine of the ionisation processes, with histories of
  generate/read; table interpolation by real arithmetic.
* C42 - induction over the clouds.
* C44, C50 - rounding arithmetic; the steps are the calls of `sim_time_step` in
  a chain.
* C45 - recording and replay share one list of fields; the slicing of PyHEADTAIL
  is external, so the theorem on whole bunches names what it needs of it.
* C46 - per-segment accounting.
* C57, C58 - primary sources, with C47, C48; refutation by witness.
* C59 - composition of C01 and C04.
* C47, C48 - stochastic rounding, rejection loops with fuel (a result is only
  claimed for runs that terminate).
* C49 - case analysis.
* C61 - invariant over whole steps; the parts (wall, emission, tracker, sources)
  enter through contracts that are proved for each implementation.

* C68, C70 - the histograms are linear in their initial content, so the part added
  by a step is what it leaves in empty histograms; two runs are compared step by
  step modulo the histograms. C70 composes this with C25 and C61.
* C71 - each new electron is traced to the index of the random number it uses,
  through the rounds of redrawing; the step adds the beams one after the other.
* C72 - the kick is a map on velocities; the motion after it is the motion with
  beams that do not act, which is C50.
* C73 - C46 for the single call, carried through the step and the run; the sum
  over edges is exchanged with the sum over impacts for the balance.
* C69 - the loaded state compared with the state at the end of the step; the
  cleaning of a state that needs none is the identity; refutation by witness.
* C74, C75, C76 - each constructor call is a list of arguments that are settings of
  the cloud, of the beam, of the main file or fixed values, bound to the parameters
  of the constructor as Python does; which setting reaches which parameter is then
  a finite table, checked by computation, for all values of the settings.
* C77 - the parity of the crossings of a horizontal ray is shown constant along any
  segment that misses the outline, by telescoping a sign over the edges of the closed
  chain; the far point and the convex case are evaluated directly.
* C78, C79 - each start position is written as a function of the random numbers that
  it uses, and the positions of these numbers in the stream are shown distinct.
* C80 - the field gathered for a cloud is the sum of the fields at each position; the
  trackers turn it into the motion of C19 and C20, in the magnets of C20.
* C81 - the test for equal steps is reduced to a bound on each step by the mean, which
  telescopes; a witness shows that short steps are not noticed.
* C82 - the loop over the clouds is shown to sum the currents of all clouds and to keep
  the potential of the recomputation before; the fields follow for any steps around two
  recomputations, and the tracker adds them to those of magnet and beams (C21).
* C83 - the call for one slice is opened into the passage, the step and the kick; the
  sub-steps of a long slice are chained by induction on their number.
* C84 - the three loops are shown to compute a continued fraction and a nested sum in
  complex arithmetic; all denominators have a positive real part, by induction on the
  level. The accuracy of this approximation is not stated.
* C85 - the image terms are rewritten as Chebyshev polynomials, which removes the branch
  of the inverse hyperbolic cosine; parity of the polynomials gives the symmetry, and
  mirrored cells carry it to the interpolated map. Witnesses for the maps without value.
* C86 - sums of cell charges telescope; the constructor is opened case by case.
* C87 - the steps that serve the requests are specified as a schedule, shown to exist and
  to be the only one by induction on the steps; witnesses for crowded and single times.
* C88 - the buffer after a prefix of steps is a filter of it; folders are a set of names.
* C89 - induction on the steps, with the file system at each passage as an argument.
* C90 - the table is filled by nested loops with the state of the emission model; each
  node is reduced to C31 (mean yields), C11/C34 (clones and velocities) and C17 (bins).
* C91 - sampled numbers are within one of the expected ones (C40), divided by the flux.
* C92 - the ranks are processes with message queues to and from rank 0; an invariant says
  how far each rank is in the current exchange, and every move lowers a count by one, so
  that every interleaving has the same length and the same end. The step of the
  simulation is cut at the exchange; the two parts make up the step of Sim.v. A witness
  with two ranks shows the density noted for the last cloud.
* C93 - sums over the grid; the recorded samples come from the recorder theorem (C70).
* C94 - for each function that draws, by unfolding and by induction over its loops: the
  position never goes back, and the result is the same for two sources that agree between
  the position before and the position after. Then for the step and, by induction, the run.
* C95 - invariant of the search over the edges (smallest crossing so far, last edge that
  holds it), and the plane geometry of C14 for the existence of the first crossing.
* C96 - the constructor is characterised with the theorems of C74; invariant over the
  histories of the object: the recorder and the number in its file name.
* C97 - the invariant of C25 is proved without conditions on the names of the custom
  observables; a run with `save_only` is the run without it, by induction on the steps.
* C98 - the constructors called by the plan of C74, as far as they choose a model by its
  name (`Choose.v`), are compared with a table of names: the choice succeeds exactly with
  the models that the table gives for the settings. The PyPIC solvers are not modelled.
* C99 - the objects of a simulation with their attributes (`SaveState.v`); an attribute can
  be missing, and a save can fail at the file. Saving, loading and loading a checkpoint are
  compared with a description of who holds what. The last sentence of the property is
  refuted three times: a simulation with electromagnetic tracking cannot be saved at all
  unless it was loaded (`state_As` is never set), a failed save leaves neither solver nor
  recorders, and loaded vector potentials are new ones. `pickle` is taken to copy objects.
* C100 - the drawing functions of `Furman.v`, `Sey.v` and `Source.v`, and the density and
  distribution functions of the Furman-Pivi model (`FpDist.v`). A law is stated for a function
  of one uniform random number: it stays in its range and is at most `e` exactly for the
  random numbers up to `F e` (`SpecLaw.v`); `F` is differentiable with the published density.
  `erf` is any function with the derivative of the error function (`ErfReal.v` builds it as an
  integral, so the hypotheses are met), `gammainc` any function with the derivative of the
  incomplete gamma function, `simps` any rule that is homogeneous. True secondaries below a
  probability of 1e-12 are set to zero by the code, and the statement says so. Gaussian and
  lognormal photoelectrons and the rejection loop of the ECLOUD model are drawn by numpy
  and have no law here. Refuted: the default arguments of the distribution functions, and the
  weights of the choice "binomial". The simulation itself always draws Poisson numbers,
  whatever `choice` says.
* C101 - the same model functions (`MP.v`, `Source.v`, `Sey.v`, `Furman.v`). An average over a
  uniform number is the integral of the observed charge over [0, 1) (`SpecMean.v`, Coquelicot's
  Riemann integral), over several independent numbers the iterated integral, over a Poisson
  number the series with the Poisson weights. The number is put at its position of the stream;
  all other numbers of the stream are arbitrary. The theorems ask that the call returns for all
  numbers averaged over. For a regeneration the averaged numbers are those that round the cells.
  Refuted: in the Furman-Pivi model numbers above `M_cut` are drawn again (up to twelve
  times, then cut), so the mean emission is strictly below the total yield. The theorem gives
  the exact mean in closed form, and bounds.
  Cross ionisation (`CrossIon.v`, `MeanCross.v`): over the numbers drawn for a product its mean
  charge is the number of ionisations, whatever was drawn for the products before.
* C102 - `LoadFile.v`: `import_module_from_file` as a small-step machine over a file system
  (directories and the text of files), one step per line that touches it; several calls run
  under an arbitrary schedule, and a crash is the end of the schedule. Running the text is an
  arbitrary function of it that may raise; that it does not write files itself is assumed.
  Proved by an invariant on schedules: each call is where its own steps alone would bring it.
  Refuted: two calls with one process number (threads, machines sharing `/tmp`) disturb each other.
* C103 - `SeyFile.v`: the choice of the file and its entries (`SEY_model_from_file.__init__`),
  with a file system of readable mat files and scipy's `loadmat` (which adds ".mat").
  Proved for paths and for the input folder. Refuted: the constructor finds a file in the
  dedicated folder or the home directory but then loads the name as given, so it raises or even
  takes another file; tables with too few yields or descending energies are accepted.
* C104 - `Monitor.v`: `monitorh5_to_dict` and `monitorh5list_to_dict`, with arrays of up to two
  dimensions and h5py's files as values (not readable, or named groups of named arrays). Induction
  over the list of files. Joining arrays of unequal shapes is an exception, as in current numpy.
  Refuted: the permissive flag does not cover the first file, and names that only later files have
  are dropped.

When the full claim is false of the code, the model proves the negation with a
concrete witness (theorem name ending in `_refuted`) together with the strongest
corrected claim.

## Trusted base

* Coq 8.16.1's kernel. No plugin, no native computation; `vm_compute` is used in
  places and is part of the kernel.
* The axioms that `Print Assumptions` lists. They are printed below each theorem
  during the build, and ASSUMPTIONS.md (generated by tools/mkassumptions.py)
  lists them theorem by theorem. All come from the standard library:
  `ClassicalDedekindReals.sig_forall_dec`, `ClassicalDedekindReals.sig_not_dec`,
  `FunctionalExtensionality.functional_extensionality_dep` (the real numbers)
  and `Classical_Prop.classic` (used by the analysis of the standard library).
  There are no axioms of our own.
* The correspondence between the Python/Fortran/Cython/C text and the Gallina
  definitions. Each definition cites the lines it models and states its
  simplifications. It was checked by reading only.
* tools/mkconfigtable.py, which copies the names and default values of
  default_input_parameters.py into a Coq table.

### Modelled

| file in /repo | what |
|---|---|
| MP_system.py | all operations on the arrays: adding, cleaning, the three regenerations, uniform and density initialisation, dictionaries, reference size |
| impact_management_class.py | construction, `backtrack_and_second_emiss`, all histograms, resets, extraction of curves |
| sec_emission_model_*.py, electron_emission.py | all emission models, energies and angles, splitting |
| geom_impact_ellip.py, geom_impact_poly.py, geom_impact_poly_fast_impact.py, geom_impact_poly_cython.pyx, geom_impact_rect_fast_impact.py | inside test, impact point, normals, constructor checks |
| dynamics_*.py, boris_step.f, boris_c_function.c, boris_cython.pyx | all trackers, sub-stepping, multipole fields |
| compute_hist.f, compute_rho.f, interp_field_for.f, update_seg_impact.f | all |
| beam_and_timing.py | time and density arrays, `next_time_step`, field lookup, sources of the field map |
| BassErsk.py, errfff.f | all |
| gas_ionization_class.py, gen_photoemission_class.py | all generators |
| cross_ionization.py | set-up, tables, `generate`, `save_cross_ion_data` counters, extraction of cross sections |
| space_charge_class.py | schedule of recomputation, density of each cloud, field lookup, mean over a communicator, electric energy |
| space_charge_class_electromagnetic.py | all |
| buildup_simulation.py | `run`, `sim_time_step` and everything it calls, `load_state`, `load_checkpoint` |
| pyecloud_saver.py | recorder, resizing, histograms, probes, continuation, checkpoints and copies, states at given times, videos, log, progress and stop file |
| init.py, input_parameters_format_specification.py, parse_cloud_file.py, parse_beam_file.py | which settings are accepted, what values result, which object is built with which of them |
| PyEC4PyHT.py, Transverse_Efield_map_for_frozen_cloud.py | tracking of a bunch, slicing loop, reset, recording and replay of fields |

### Not modelled

* Floating-point rounding, overflow, NaN and infinities (numbers are reals).
* The Poisson solver (PyPIC) and its grid: a function from a density to a field.
* File formats (.mat, pickle): a file holds a value, or is broken while it is
  being written.
* The slicing, the optics and the bunch of PyHEADTAIL.
* Plots, printing and performance.
* The quality of the random number generator: theorems hold for every stream.
* Numpy views and in-place updates, except where the code relies on them.

## Reading seeded/LOG.jsonl

A line says that after the edit the named proofs no longer went through. It does not say that each
named theorem is false of the edited program: a proof script can break although its statement still
holds.

* Lines with a sentence as `edit` were written by hand. All broken proofs were cut out in turn until
  the files built, so `theorems_failed` are the theorems whose own proof broke or that use a lemma
  whose proof broke (found with `Print Assumptions`).
* Lines with `context` come from automatic edits of single tokens. Only the first broken proof was
  observed (`first_failing`). `theorems_failed` was computed from it: the theorems whose proofs use
  it, found by name in the text, which can list too many. Edits that do not type-check are left out.
* A `note` starting with "equivalent" is a judgement by reading, not a proof.
* Edits that survived because the files built for them did not contain the theorem concerned were
  run again with that file; the second result is the one logged.
