# Formal model of openscm-twolayermodel in Rocq (Coq 8.16.1)

## Layout (rocq/theories)

| file | content |
|---|---|
| `Arith.v` | number-system record (operations only), exceptions as values, Python list/array access |
| `Pint.v` | pint: units as formal products of symbols, dimensions, conversion, quantity arithmetic |
| `Base.v`, `TwoLayer.v`, `Impulse.v`, `Utils.v` | the functions of base.py, constants.py, two_layer_model.py, impulse_response_model.py, utils.py |
| `Scm.v` | scmdata tables, calendar, `_select_timestep`, `run_scenarios` |
| `Table.v` | the table `run_scenarios` returns (union of time axes, NaN padding) |
| `Api.v` | the public calls of both classes and sequences of them |
| `Version.v` | `_version.py` (and what `__init__.py` does with it) |
| `Package.v`, `VersionFile.v` | versioneer.py as used by setup.py: reading and writing `_version.py`, JSON, importing the written file; the text of `_version.py` (generated by tools/gen_version_file.py) |
| `Install.v` | versioneer.py's own installation: `do_setup`, `do_vcs_install`, `scan_setup_py` over a file system, one effect per open or write |
| `Config.v`, `SetupCfg.v` | `get_config_from_root` with the part of Python's configparser it uses (sections, options, continuation lines, comments, basic interpolation); the text of setup.cfg |
| `Interrupt.v` | the setters, `set_drivers`, `reset`, `step`, `run` and `run_scenarios` of both classes as sequences of single writes to the object, which can be interrupted between any two of them (proved equal to the models above when they are not) |
| `Threads.v` | the same methods as programs of atomic reads and writes of attributes, executed by several threads in the order of a schedule (an array element together with its index in one action; the attributes collected by `run_scenarios`, and `get_two_layer_parameters` inside the heat uptake, in one action) |
| `Heap.v` | both classes again over a heap of array and quantity objects, and a process of several models and a caller that may write into its own arrays |
| `Rows.v` | both classes again over rows: drivers with columns assigned to `erf`, array-valued parameters (numpy element by element) |
| `Exact.v` | exact arithmetic (reals plus one non-finite value), unit registries over R |
| `Float.v` | IEEE binary64 (Flocq) as an instance of `Arith`, rounding-error calculus |
| `Spec.v`, `SpecReal.v`, `SpecVersion.v`, `SpecRound.v`, `SpecHeap.v`, `SpecRefine.v`, `SpecExact.v`, `SpecPackage.v`, `SpecStep.v`, `SpecPhysical.v`, `SpecLong.v`, `SpecRows.v`, `SpecRepeat.v`, `SpecInstall.v`, `SpecConfig.v`, `SpecInterrupt.v`, `SpecThreads.v`, `SpecBalance.v`, `SpecFeedback.v`, `SpecSampled.v` | the vocabulary of the property statements: recurrences, ODEs, energy balance, calendar, matching, version strings |
| `Gen*.v` | proofs for every number system |
| `Real*.v`, `Float*.v`, `VersionStr.v`, `PackageProof.v` | proofs in exact arithmetic, in binary64, about strings |
| `Facts*.v` | the property theorems with their proofs, and for each property an `Example` showing that a non-trivial case meets its hypotheses |
| `Properties*.v` | generated from `Facts*.v` (tools/gen_props.py): only the statements, each followed by `Print Assumptions` |
| `Demo.v` | computations with the model (sanity check, no claims) |

`properties.jsonl` is generated by tools/gen_properties.py, `MANIFEST.json` by
tools/gen_props.py, the table of axioms below by tools/assumptions.py.

## Modelling decisions

* **Numbers.** The model is parametric in a record `Arith` of operations (no laws
  except `isnan nan`). Theorems about control flow, state, histories, NaN handling,
  causality and scenarios are proved for *every* `Arith` ("generic"), hence for IEEE
  doubles with any library `exp`. Algebraic and analytic theorems are about the exact
  instance (`Fin r | NaN`, division by zero = NaN). C44 connects the two for binary64; C56 is about binary64 alone.
* **Objects** are records; a method is a function `state -> state * result`; exceptions
  are values, and the state at the moment of the exception is kept, so "an exception
  leaves the object unchanged" and "the object can be used again" are statements one
  can prove or refute.
* **Reachability.** `tl_reachable`/`ir_reachable` are the states produced by a
  successful constructor call followed by any list of public calls (including
  `run_scenarios`), failing ones included.
* **pint.** A unit is a formal product of symbols with rational exponents; a registry
  gives each symbol a dimension vector and a size. Theorems quantify over all
  registries in which a joule is a watt second, year and month are times, kelvin and
  delta_degC have the same dimension and size. pint's treatment of `delta_` symbols in
  additions is modelled because it decides C30.
* **Sharing.** In `TwoLayer.v`/`Impulse.v` arrays are values. `Heap.v` models the array
  objects: `Quantity.to` returns the same array when the units are equal (pint's
  `convert` short cut) and a new one otherwise, `np.zeros_like(...) * np.nan` and
  `values * unit` are new arrays, `Quantity(arr, u)` and `Quantity.ito` work on the given
  array. C52 says when the difference between the two models is visible, C53 how.
  The initial one-NaN `_erf` array of a new model is assumed not to be written by the
  caller, and so are the underscore attributes.
* **Time axis.** `run_scenarios` sees time points as seconds; the year is computed in
  the proleptic Gregorian calendar and proved to be the right one (C35).

## What is modelled, function by function

| source | model |
|---|---|
| base.py `Model._assert_is_pint_quantity_with_units` | `assert_quantity`, `assert_quantity_arr` |
| base.py `TwoLayerVariant.delta_t`, `erf`, `set_drivers` | `tl_set_delta_t`, `tl_set_erf`, `tl_set_drivers` and `ir_...` |
| the same and `_reset`, `_run`, `_step`, `run_scenarios` with array objects | `Heap.v` |
| base.py `_create_ts`, `_select_timestep`, `run_scenarios` | `create_ts`, `select_timestep`, `run_scenarios`, `result_table` |
| base.py `_calculate_geoffroy_helper_parameters` | `geoffroy` |
| base.py `reset`, `run`, `step` | `tl_reset`, `tl_run`, `tl_step` and `ir_...` |
| two_layer_model.py: constructor, defaults, all setters and properties, `_reset`, `_run`, `_step`, `_calculate_next_temp_upper`, `_calculate_next_temp_lower`, `_calculate_next_rndt`, `_get_run_output_tss`, `get_impulse_response_parameters` | `TwoLayer.v` |
| impulse_response_model.py: the same, `_calculate_next_temp`, `get_two_layer_parameters` | `Impulse.v` |
| utils.py `convert_lambda_to_ecs` | `Utils.v` |
| constants.py, errors.py | `Base.v`, `Arith.exn` |
| _version.py: `get_versions`, `get_keywords`, `run_command`, `git_versions_from_keywords`, `git_pieces_from_vcs`, `render*`, `plus_or_dot`, `versions_from_parentdir` | `Version.v` |
| versioneer.py: the same functions (identical text), `git_get_keywords`, `versions_from_file`, `write_to_version_file`, `SHORT_VERSION_PY`, `get_versions`, `get_version`, the version file written by `cmd_build_py` and `cmd_sdist` | `Package.v` |
| versioneer.py: `do_setup`, `do_vcs_install`, `scan_setup_py`, the script's exit status (the outcome of reading setup.cfg and the text LONG_VERSION_PY % {...} are inputs) | `Install.v` |
| versioneer.py: `get_config_from_root` (Python up to 3.11, with `SafeConfigParser` and `readfp`; configparser line by line, checked against Python on random texts; ASCII) | `Config.v` |
| all setters, `set_drivers`, `reset`, `step`, `run`, `run_scenarios`, interrupted between two writes | `Interrupt.v` |
| the same, action by action, in several threads | `Threads.v` |

Not modelled: versioneer.py's `get_root`, the messages of `do_setup`, the cx_Freeze and py2exe commands, file
system errors while writing; setup.py except for its use of versioneer; how Popen decodes output
(its outcomes are inputs of `run_command`). Of Python source text only the written version
file is interpreted (triple-quoted literal with the escapes JSON produces), of JSON only flat
objects of strings, booleans and null; the progress bar, log output, scmdata's reading of files and of
other table types (`_ensure_scenarios_are_scmrun` on an ScmRun is the identity on
values), array-valued parameters of the impulse-response model and in the parameter
conversions (numpy comparisons of arrays), array parameters with a one-dimensional driver,
arrays whose shapes do not fit, drivers assigned to `erf` with more than two dimensions, offset
temperature units, regular-expression characters other than `*` in `driver_var`.
Python-float division by zero raises and numpy division gives inf/nan: the model has the
former where both operands are parameters and the latter where one is an array element
(parameters given as numpy scalars would behave like the latter).
Strings are ASCII in `Version.v` (code points below 256 in `Package.v`); Python's limit on the length of int literals is ignored.

## Assumptions of the binary64 theorems (C44)

`x ** 2` is `x * x`, `x ** 0.5` the correctly rounded square root, float literals
n/d are the quotient of two doubles (n, d < 2^53, correctly rounded), `np.exp` is any
function with relative error at most 2^-52 on the arguments that occur, rounding is to
nearest even, there is one NaN. The rounding of the impulse-response heat uptake is not
covered (it goes through square roots and cancellation); neither is the rounding in unit
conversions (the theorems start from the converted numbers).

## Trusted base

* Coq 8.16.1's kernel (including the virtual machine: `vm_compute` is used for
  computations on literals).
* The axioms listed by `Print Assumptions`, all from the standard library:
  `ClassicalDedekindReals.sig_forall_dec`, `ClassicalDedekindReals.sig_not_dec`,
  `FunctionalExtensionality.functional_extensionality_dep`, `Classical_Prop.classic`
  (they come with `Reals`). No axiom is added; Flocq and RecordUpdate are used without
  axioms of their own.
* That `Arith.v ... Version.v` say what the Python code does (each definition cites the
  lines it models), in particular the model of pint and scmdata, whose sources are not
  part of /repo.

What `Print Assumptions` lists for each theorem:

<!-- BEGIN ASSUMPTIONS -->
| axioms | theorems |
|---|---|
| none (closed under the global context) | `C01_impulse_response_shape`, `C01_impulse_response_success`, `C01_two_layer_shape`, `C02_impulse_response_causality`, `C02_last_driver_inert`, `C02_two_layer_causality`, `C03_impulse_response_history`, `C03_two_layer_fresh`, `C03_two_layer_history`, `C04_impulse_response_keeps_earlier`, `C04_impulse_response_overrun`, `C04_impulse_response_steps`, `C04_two_layer_keeps_earlier`, `C04_two_layer_overrun`, `C04_two_layer_steps`, `C05_impulse_response_no_stale_values`, `C05_two_layer_no_stale_values`, `C06_impulse_response_setters`, `C06_set_drivers`, `C06_two_layer_construction`, `C06_two_layer_setters`, `C07_impulse_response_reset`, `C07_two_layer_reset`, `C08_impulse_response_uncomputed_are_nan`, `C08_two_layer_uncomputed_are_nan`, `C09_impulse_response_run_without_drivers`, `C09_two_layer_run_without_drivers`, `C30_efficacy_one_never_asserts`, `C31_value_error_means_order`, `C32_each_scenario_alone`, `C32_history_irrelevant`, `C32_scenarios_are_separate_runs`, `C32_success_iff_each_succeeds`, `C33_exactly_the_world_rows`, `C33_name_without_star_is_literal`, `C33_nothing_to_run`, `C34_output_rows`, `C34_row_values`, `C35_calendar`, `C35_one_day_counts_as_a_year`, `C35_timestep_choice`, `C35_yearly_gaps`, `C36_elapsed_time_is_ignored`, `C36_missing_points_are_dropped`, `C37_delta_t_afterwards`, `C37_earlier_delta_t_irrelevant`, `C38_type_error`, `C38_unit`, `C42_non_unique_only_if`, `C42_only_climate_model_differs`, `C42_returned_rows_differ`, `C43_driver_named_like_an_output`, `C43_error_is_non_unique_metadata`, `C45_archive`, `C45_archive_total`, `C45_archive_unknown`, `C45_date`, `C45_describe_long_round_trip`, `C45_import_errors`, `C45_import_fails`, `C45_injective`, `C45_old_archive`, `C45_other_styles`, `C45_parent_directory`, `C45_parse`, `C45_parse_unique`, `C45_release`, `C45_render_never_fails`, `C45_tag_v_alone`, `C45_tagged`, `C45_tagged_vs_untagged`, `C45_unknown_style`, `C45_unparseable`, `C45_untagged`, `C45_untagged_injective`, `C50_callers_arrays_untouched`, `C51_impulse_response_interleaving`, `C51_other_models_untouched`, `C51_two_layer_interleaving`, `C52_impulse_response_call_by_value`, `C52_quiet_histories_by_value`, `C52_two_layer_call_by_value`, `C53_impulse_response_converted_driver`, `C53_impulse_response_ito_driver`, `C53_impulse_response_shared_driver`, `C53_two_layer_converted_driver`, `C53_two_layer_ito_driver`, `C53_two_layer_shared_driver`, `C54_returned_table`, `C54_running_again`, `C57_chain`, `C57_file_round_trip`, `C57_import`, `C57_keywords`, `C57_rebuild`, `C57_rewrite_identical`, `C57_setup_as_import`, `C57_tagged_release`, `C63_columns`, `C63_constructor`, `C63_independent`, `C63_ir_columns`, `C63_ir_constructor`, `C63_ir_run`, `C63_missing`, `C63_run`, `C65_again`, `C65_again_writes`, `C65_blank_in_path`, `C65_exit`, `C65_installed`, `C65_interrupted`, `C65_kept`, `C65_longer_name`, `C65_needs_line_end`, `C65_scan`, `C65_staged`, `C65_unconfigured`, `C66_read_back`, `C66_sample`, `C66_sample_once`, `C66_then_installs`, `C66_twice`, `C67_impulse_response_again`, `C67_impulse_response_cut_assignment`, `C67_impulse_response_cut_driver`, `C67_impulse_response_first_driver`, `C67_impulse_response_partial_run`, `C67_impulse_response_scenarios`, `C67_impulse_response_settled`, `C67_two_layer_again`, `C67_two_layer_cut_assignment`, `C67_two_layer_cut_driver`, `C67_two_layer_first_driver`, `C67_two_layer_partial_run`, `C67_two_layer_scenarios`, `C67_two_layer_settled`, `C67_uninterrupted_impulse_response`, `C67_uninterrupted_two_layer`, `C68_alone`, `C68_assign_during_run`, `C68_different_objects`, `C68_different_objects_end`, `C68_impulse_response_assign_during_run`, `C68_impulse_response_one_assignment`, `C68_impulse_response_parameters`, `C68_one_assignment`, `C68_two_layer_parameters` |
| `sig_forall_dec`, `functional_extensionality_dep` | `C41_no_steady_state_above_threshold`, `C69_condition` |
| `sig_forall_dec`, `sig_not_dec`, `classic`, `functional_extensionality_dep` | `C10_forward_euler`, `C10_heat_capacities`, `C10_units_are_consistent`, `C10_zero_depth_is_not_finite`, `C11_efficacy_1_is_top_of_atmosphere`, `C11_energy_balance`, `C11_heat_uptake_is_reported`, `C12_no_heat_is_lost`, `C13_fails_with_state_dependence`, `C13_linear_in_the_forcing`, `C14_linear_in_the_forcing`, `C15_impulse_response_time_shift`, `C15_two_layer_time_shift`, `C16_bounded_under_step_condition`, `C16_fails_without_it`, `C16_monotone_under_step_condition`, `C16_sign_under_step_condition`, `C17_impulse_response_equilibrium`, `C17_impulse_response_heat_uptake`, `C17_impulse_response_heat_uptake_any_efficacy`, `C17_two_layer_equilibrium`, `C18_boxes_are_exact_solutions`, `C19_finer_run_succeeds`, `C19_step_size_does_not_matter`, `C19_two_layer_depends_on_the_step`, `C20_bounded`, `C20_monotone`, `C20_sign`, `C21_helper_parameters`, `C21_impulse_response_parameters`, `C22_round_trip_two_layer`, `C23_round_trip_impulse_response`, `C24_all_outcomes`, `C24_one_layer_and_positive`, `C24_state_dependence_is_refused`, `C25_same_continuous_system`, `C26_deep_temperatures_agree`, `C26_surface_temperatures_agree`, `C27_both_runs_succeed`, `C27_converted_heat_uptake`, `C27_heat_uptake_of_the_equivalent_model`, `C27_heat_uptakes_agree`, `C28_units_do_not_matter`, `C29_heat_uptake`, `C29_heat_uptake_factor`, `C29_other_unit_sizes_are_wrong`, `C29_temperatures`, `C30_kelvin_aborts`, `C30_same_unit`, `C30_which_units_abort`, `C31_constructor`, `C31_reversed_heat_uptake`, `C31_reversed_order_is_wrong`, `C31_same_two_layer_system`, `C31_setters_do_not_check`, `C38_default`, `C38_inverts_itself`, `C38_limit_of_the_impulse_response`, `C38_limit_of_the_warming`, `C38_linear`, `C38_value`, `C39_deep_lower_layer_bound`, `C39_deep_lower_layer_limit`, `C39_no_exchange_is_one_layer`, `C40_efficacy_not_identifiable`, `C40_impulse_response_efficacy`, `C41_limits_are_roots`, `C41_runaway`, `C41_runaway_lower_bound`, `C41_settles_at_the_smallest_root`, `C41_settles_below_threshold`, `C41_steady_states`, `C44_impulse_response_run`, `C44_impulse_response_step`, `C44_two_layer_run`, `C44_two_layer_step`, `C46_impulse_response_similarity`, `C46_two_layer_similarity`, `C47_impulse_response_warming`, `C47_two_layer_warming`, `C48_heat_uptake_formula`, `C49_impulse_response_defaults`, `C49_impulse_response_sensitivity`, `C49_two_layer_defaults`, `C49_two_layer_sensitivity`, `C55_error_of_a_refined_run`, `C55_exact_solution`, `C55_refined_runs`, `C55_smaller_steps_converge`, `C56_impulse_response_leading_zeros`, `C56_impulse_response_order`, `C56_impulse_response_rise`, `C56_impulse_response_sign`, `C56_two_layer_leading_zeros`, `C56_two_layer_sign`, `C58_at_the_limit`, `C58_below_the_limit`, `C58_beyond_the_limit`, `C58_bounded_below_the_limit`, `C58_converges_iff`, `C58_limit_in_parameters`, `C58_resonance`, `C58_response_formula`, `C58_step_response`, `C59_feedback`, `C59_sensitivities`, `C59_slower_warming`, `C59_timescales`, `C60_impulse_response`, `C60_two_layer`, `C60_two_layer_energy_balance`, `C60_two_layer_heat_is_conserved`, `C60_two_layer_heat_uptake`, `C61_every_deep_temperature`, `C61_every_heat_uptake`, `C61_every_surface_temperature`, `C61_forcing_from_deep_temperature`, `C61_forcing_from_heat_uptake`, `C61_forcing_from_surface_temperature`, `C61_impulse_response_every_temperature`, `C61_impulse_response_forcing_from_box_1`, `C61_impulse_response_forcing_from_heat_uptake`, `C61_impulse_response_forcing_from_surface_temperature`, `C61_impulse_response_parameters_from_temperature`, `C61_impulse_response_parameters_from_temperature_and_heat_uptake`, `C61_parameters_from_temperature`, `C61_parameters_from_temperature_and_heat_uptake`, `C62_averages`, `C62_cycles`, `C62_forgets`, `C62_impulse_response_averages`, `C62_impulse_response_cycles`, `C62_impulse_response_forgets`, `C62_impulse_response_heat_uptake`, `C62_impulse_response_ramp`, `C62_impulse_response_settles`, `C62_impulse_response_settles_only_then`, `C62_impulse_response_totals`, `C62_ramp`, `C62_settles`, `C62_settles_only_then`, `C62_totals`, `C64_impulse_response_repeats`, `C64_impulse_response_settles`, `C64_two_layer_repeats`, `C69_balance_error`, `C69_stored_heat`, `C69_uptake_exceeds_storage`, `C69_uptake_total`, `C70_compare`, `C70_forcing_multiplied`, `C70_forcings_added`, `C70_no_tipping`, `C70_range`, `C70_rising`, `C71_exact_solutions`, `C71_impulse_response_binary64`, `C71_impulse_response_converges`, `C71_impulse_response_converges_continuous`, `C71_impulse_response_error`, `C71_impulse_response_heat`, `C71_impulse_response_lags`, `C71_two_layer_binary64`, `C71_two_layer_converges`, `C71_two_layer_converges_continuous`, `C71_two_layer_error`, `C71_two_layer_heat`, `C71_two_layer_heat_converges` |
<!-- END ASSUMPTIONS -->

## Per-property route

"generic" = for every number system; "exact" = over R. No property is out of reach of
the model; none is only partly proved.

| id | setting | route |
|---|---|---|
| C01-C04 | generic | `set_drivers; reset; run` refines a recurrence on lists; induction on the number of steps (GenTL, GenIR, GenRun) |
| C05, C08 | generic | inductive invariants over arbitrary sequences of public calls including failing ones (GenTLHist, GenIRHist) |
| C06, C07, C09 | generic | case analysis of setters, reset and run on every state |
| C10 | exact | refinement of the run to forward Euler of the published ODEs (RealTL); unit bookkeeping by RealUnits |
| C11, C12 | exact | algebra per step, telescoping by induction |
| C13-C15 | exact | induction on steps; the excluded case (a <> 0) is refuted by a concrete run |
| C16, C17, C20 | exact | invariants of the recurrence; convergence by geometric decay in eigen-coordinates (RealEuler, RealBox) |
| C18, C19 | exact | derivatives from the standard library, uniqueness by an integrating factor |
| C21-C24 | exact | algebra with square roots (RealGeo), units carried along (RealConv) |
| C25 | exact | the linear change of variables between boxes and layers, both directions, for forcing that is any function of time (RealEquiv) |
| C26, C27 | exact | the Euler run diagonalises to box recurrences with 1-x for exp(-x); error recursion bounded uniformly in the number of steps |
| C28-C31 | exact + symbolic units | invariance proved, and the exact extent of its failure (C29, C30) characterised |
| C32-C37, C42, C43 | generic | induction over the rows of the scenario table (GenScm, GenMeta, GenLayout) |
| C38-C41 | exact | from C17 and the recurrences; monotone convergence below, divergence above the threshold |
| C44 | binary64 | Flocq; per-step forward error, then a discrete Gronwall argument in the stable norm of the recurrence |
| C45 | strings | string functions of `_version.py`; results of the git subprocess are inputs |
| C46 | exact | substitution in the recurrences |
| C47 | exact | invariants (order of the layers/boxes, below equilibrium), heat uptake from C48 |
| C48 | exact | Geoffroy relations eliminate the square roots |
| C49 | exact | constructors evaluated, limits from C17 |
| C54 | generic | padding and reading back by induction on the axis; the second run repeats the first step by step (GenTable) |
| C55 | exact | error bound of C26 applied to the refined run, exactness of box steps under refinement (C19), modes of the ODE |
| C56 | exact | oddness, monotonicity and zero rules of the binary64 operations (`FloatSym.v`), induction over the steps (`FloatExact.v`) |
| C57 | strings | JSON printing and reading by induction over dictionaries and texts, searches in the concrete file text by computation, chains of rebuilds by induction |
| C58 | exact | eigenmodes of the Euler step (`RealStep.v`): closed forms, geometric sequences, alternating forcing |
| C59 | exact | comparison of one step of the two parameter sets, with the order facts of C16 and C47 |
| C60 | binary64 against exact | every conversion and product in relative error (`FloatPhys.v`), perturbation of the damped recurrences (`FloatPert.v`), then C44 and C55; heat uptakes: one float formula from close temperatures, its coefficients perturbed, then the flux into the layers is linear in the temperatures |
| C61 | exact | each step is inverted for its forcing value; the first five temperatures solved for the coefficients (two exponentials from four terms of their sum) |
| C62 | exact | the layers split into the two modes of C58 and the boxes into themselves; each is a stable first-order filter, a null input has a null output, and ramps, windows, shifts and sums are filtered likewise; the converse inverts the filter |
| C63 | every env | the code over rows (functions of the column) commutes with taking column j: a simulation of every method, carried through call histories; numbers stay numbers in the impulse-response model, so its comparisons have one answer |
| C64 | binary64 | doubles embed into the integers below 2^65, so among 2^130 + 1 states two are equal (pigeonhole) and the deterministic run repeats from there; under a constant forcing a box is monotone in its rounded temperature, so the cycle has one element |
| C65 | text | the files after a complete run have a closed form depending on each old file alone; every prefix of the effects leads to a state with the same closed form (a simulation kept by every effect), so interrupted attempts compose; lines and words characterised by decompositions of the text (`SpecInstall.v`), `str.split`, `in` and line iteration proved equivalent to them |
| C66 | text | a line-by-line simulation between reading the text with and without the section (the section's entries are an inert block in the parser state); the lines of the sample are comments but one; errors persist |
| C67 | generic | write-by-write models counted by a fuel of writes, each proved to agree with the method when not interrupted; for every attribute the invariant that what is shown and what is used agree unless an assignment of it was cut; the state of a run after each write |
| C68 | generic | the methods as programs of atomic actions, proved to be the methods when a thread is alone; an action reads and writes only its part of the state, so threads with disjoint parts commute (induction over the schedule); for a run with assignments, the run is followed with the parameters of the other thread at each of its actions |
| C69 | exact | the uptake is the forcing less a linear loss (C48); per box dt*(q F - T) is the increment of T times the stretched timescale, so the sum telescopes; bounds on x/(1 - exp(-x)) between 1 + x/2 and 1 + x; the stored heat through the returned parameters and Geoffroy's phi |
| C70 | exact | one step is monotone in both temperatures on the range the run stays in, and changes with a and lambda0 by terms of one sign; induction over the run for each comparison |
| C71 | exact | over one step the difference to the exact solution relaxes towards a bounded quantity (mean value theorem on `(y - c) * exp (t/d)`), so the bound is kept; two layers: the two modes and then the deep layer as a box driven by the surface, plus the error of C55 (in binary64: plus that of C60); existence by integrating, uniqueness as in C25; heat: C11, C12 and C69 are linear in the temperatures; continuous forcings: Heine's theorem |
| C50-C53 | generic, heap | heap invariant (separation of result arrays, no dangling references) over all histories; simulation of every method by its by-value counterpart (GenHeap, GenWorld, GenShare) |

## Findings about the code

Behaviour a user may not expect, each the subject of a theorem:

* Impulse-response heat uptake uses `lambda0.magnitude` without converting units: with
  q1, q2 in anything not of the size of delta_degC/(W/m^2) it is off by that factor (C29).
* With an efficacy other than 1 a model whose q are given per kelvin (or in units that
  only cancel dimensionally) raises AssertionError in the middle of the run (C30).
* `d1 < d2` is checked in the constructor only; assigning d1 or d2 later skips it (C31).
* No check of the step size: with a large step the two-layer model oscillates and
  diverges under constant forcing (C16).
* `run()` before any driver is set does one step and succeeds (C09); `run()` after a
  finished run raises IndexError (C04).
* `run_scenarios` overwrites `delta_t` permanently, even when it fails later (C37), takes
  any axis whose years differ by one for yearly, also two points one day apart (C35), and
  closes up gaps of missing values as if the remaining points were adjacent (C36).
* Rows differing only in climate_model clash (C42); a driver variable equal to an output
  name and unit makes the run fail (C43).
* `convert_lambda_to_ecs` divides the forcing by minus lambda, while `lambda0` has the
  opposite sign convention: a positive lambda0 gives a negative ECS (C38).
* `set_drivers`/`erf` keep a reference to the caller's array: writing into it afterwards
  changes the forcing if it was in W/m^2, and only what `model.erf` shows otherwise;
  `driver.ito(...)` silently rescales the forcing of the model (C53).
* Version strings: a tag "v" alone is reported as untagged; tags with '+' can collide; an
  archive with several tags reports the first in dictionary order (1.10 before 1.9); the
  import fails when git describes the tree but cannot date or count commits (C45).
