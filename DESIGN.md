# Formal model of aesop (benjimaclellan/aesop) in Rocq / Coq 8.16.1

This file says what is modelled, how each property of `properties.jsonl` is
proved, and what has to be trusted.  The code in `/repo` is read as text only.

## Method

* Models are small total Gallina functions over `list`, `nat`, `Z`, `Q`, `R`,
  `option` and records.  Each definition carries a comment with file and lines.
  Python exceptions are values (`option`/`result`).  `while` loops use explicit
  fuel; running out of fuel is a distinct value and theorems never treat it as success.
* Random choices, uuids, scipy/pyswarm/cma results, graph similarity, set
  iteration order and component transforms are arguments: every theorem
  quantifies over them.
* Files come in groups: `XModel.v` (definitions only), `XSpec.v` (independent
  specification), `XProofs.v` (lemmas), `XProperties.v` (theorems closed by
  `exact`, `Print Assumptions` under each, non-vacuity `Example`s beside each).

## Multigraph representation

`networkx.MultiDiGraph` keeps `_succ[u][v] = _pred[v][u] = {key: data}`.
The model keeps a node list in insertion order and one flat edge list in which
the edges of one `(u,v)` pair are contiguous and pairs appear in the order in
which the pair was last created.  Adding an edge to an existing pair inserts
after the last edge of the pair; otherwise it is appended.  Removing an edge
deletes it.  Because `_succ[u]` and `_pred[v]` receive a new pair at the same
moment, filtering this list by source (resp. target) gives exactly networkx'
iteration order of out-edges (resp. in-edges), and `graph.edges` is the
concatenation over nodes of the out-edges.  networkx 2.5 (pinned in
requirements.txt) is the reference for `topological_sort` (Kahn with a stack),
`contracted_nodes`, `has_path`, `new_edge_key`.

## Files

One group of files per part of the code.  Every definition of a model cites the
lines it follows and says where it simplifies.

| Model | Code in `/repo` | Properties |
|-------|-----------------|------------|
| `Base` | exceptions as values | all |
| `GraphModel` | `lib/graph.py` (construction, interfaces), networkx 2.5 multigraph, class table of `simulator/fiber/node_types*.py` | C12 |
| `OperatorsModel`, `ScriptModel` | `evolution_operators.py`, `decorators.py`, `custom_library` | C01-C07, C45 |
| `ParamsModel` | `base_classes.py`, parameter tables of all classes, `lib/graph.py:483-669` (extract, distribute, sample, update) | C10, C15, C16, C46, C65 |
| `EvolverModel` | `evolver.py` (three evolvers), `hessian_graph_analysis.py`, `hessian.py` scores | C08, C09, C11, C43, C44, C46 |
| `SaveModel` | `duplicate_and_simplify_graph`, `minimal_save.py` | C13, C14 |
| `LayoutModel` | `optical_system_layout` | C21 |
| `PropagateModel` | `Graph.propagate`, `measure_propagator`, `inspect_state` | C17, C18 |
| `SimulateModel` | noise state machine of `additive_noise.py`, output signals, `evaluator_snr.py` (order of calls) | C19, C20, C47 |
| `HofModel` | hall of fame | C22-C24 |
| `FloatModel`, `FloatArith` | Python comparisons with infinities and NaN | C22-C36 |
| `PopulationModel` | the four population updates | C25, C26, C48 |
| `TopologyModel` | `topology_optimization`, outer loop without speciation | C26, C27, C46, C50 |
| `SpeciationModel`, `DistanceModel` | `speciation.py`, `graph_edit_distance.py` as an argument | C28-C31, C49 |
| `GAModel`, `AdamModel`, `OptimiseModel`, `LoggerModel` | `parameter_optimization.py`, `algorithms/functions.py` | C32-C36, C50 |
| `Complex`, `ArrayModel` | arrays, Fourier transforms, `propagator.py`, `assets/functions.py` | C53 |
| `ComponentModel`, `MoreComponentsModel` | `single_path.py`, `multi_path.py`, `inputs.py` | C37-C42, C51, C52, C54, C61-C64 |
| `DetectorModel` | `filter.py`, `outputs.py` | C41, C55-C57 |
| `NoiseModel` | contents of the noise vectors | C58-C60 |
| `OpticsModel` | all components inside `Graph.propagate` | C65, C66, C96, C97, C98 |
| `EvaluatorModel` | the evaluators of the fibre problem (scores of measured fields, calls on graphs) | C67-C70 |
| `PhaseModel` | `evaluator_phase_sensitivity.py` (both evaluators, derivative by definition) | C71-C73 |
| `SpeciatedModel` | `topology_optimization` with all update rules, speciation set-up, the global manager over several calls | C74, C75 |
| `NoisyModel` | `Graph.propagate` of the components with the noise models of the lasers, noisy signal, amplifier and photodiode | C76 |
| `SearchModel` | set-ups of `run_rfawg.py`, `batch_rfawg.py`, `run_filter_design.py`, `run_noise_suppresion.py` (grid, start graph, library) | C77 |
| `SearchMoreModel` | set-ups of `run_pulse_rep.py` and `run_better_awg.py` | C77 |
| `TransformModel` | `save_transforms` of `Graph.propagate` and the attribute `transform` of the components | C78 |
| `LinewidthModel` | linewidth estimate of `additive_noise.py`, constructor of `PhaseModulator` | C79 |
| `ViewerModel` | `interactive/model.py`: names, layout, curves, table, panels; `interactive/controller.py` table; selection and loading in `interactive/view.py` | C80 |
| `FilesModel` | `lib/functions.py`: `InputOutput` (directories, saving and loading, metadata), `Tee`, `TeeWrapper`; the population files of `topology_optimization.py` | C81, C82 |
| `ScaleModel` | `lib/functions.py`: `scale_units`; `compare` of the pulse repetition, radio frequency and noise suppression evaluators | C83 |
| `PropagatorModel` | `propagator.py` as an object whose attributes are assigned; `Graph.propagate` with it | C84 |
| `SettingsModel` | `NodeType` of `lib/base_classes.py`: constructors, `parameters`, `set_parameter_from_name`, attributes; the parameters, noise model and filter every component class simulates with | C86 |
| `TuningModel` | `parameter_optimization_utils.py`; `logbook_update` of `algorithms/functions.py`; `get_hessian`, `function_wrapper` of `lib/hessian.py` | C87 |
| `TracerModel` | the tracers in `func`, `grad` and `hess` of `initialize_func_grad_hess`, `propagate`, `parameters_optimize`, `parameters_optimize_complete`, `unwrap_arraybox_list`, `PhaseSensitivity.evaluate_graph`, `extract_minimal_graph_info` | C88 |
| `LocalModel` | `scaled_hess` and `parameter_imprecisions` with their extraction, `lha_analysis`, `plot_eigenvectors` of `lib/hessian.py`, `partial_hessian`, `partial_hessian_node`, `binarize_hessian` of `hessian_observations.py` | C89 |
| `BenchModel` | `benchmark_elitism`, `benchmark_selection_rules`, `benchmark_evolvers` with the calls at the ends of their scripts, the names of the update rules, `parse_command_line_args` | C90 |
| `LandscapeModel` | `testing/test_functions.py` | C91 |
| `AverageModel` | `display_log_data` of `scripts/elitism_data_analysis.py` | C92 |
| `SensitivityModel` | `update_graph_hessian_data` of `interactive/model.py`, `graph_hessian_data` and `graph_lha_data` of `interactive/controller.py`, `add_hessian_matrix` and `add_lha_eigenvectors` of `interactive/view.py` | C93 |
| `CompareModel` | lines 88-110 of `scripts/compare_algorithms.py` | C94 |
| `LogPlotModel` | `display_log`, `display_log_comparison` and the colours of `ParameterOptimizationLogger` (`algorithms/functions.py`) | C95 |

## How the properties are proved

| Id | Method |
|----|--------|
| C01 | invariant "a ranking of nodes exists" by induction over operator lists |
| C02 | degree-zero sets preserved; acyclic and finite gives paths |
| C03 | invariant by induction |
| C04 | permutation of protected objects per step |
| C05 | invariant for growth and swap; witness history for remove (`_refuted`) |
| C06 | per-operator frame theorems with explicit before/after multisets |
| C07 | permutation round-trip theorem |
| C08 | the interval of uniform draws that leads to a pair, over Q |
| C09 | invariant over histories; witness for the failing assertion |
| C10 | element-wise implies lexicographic; invariant; `_refuted` witness |
| C11 | weight-sum lemma; `_refuted` witnesses |
| C12 | induction on the edge dictionary |
| C13-C14 | structural and round-trip theorems; sessions satisfy their hypotheses |
| C15-C16 | induction on locations; arithmetic; `_refuted` witnesses with sharing and rounding |
| C17-C18 | unique solution of the data-flow equations, any topological order |
| C19-C20 | case analysis and invariants over call histories with exceptions |
| C21 | row/ancestor invariant, divergence by induction on fuel |
| C22-C24 | invariants over population histories, arbitrary similarity |
| C25-C27 | induction over draws and generations |
| C28-C31, C49 | invariants over speciation histories; real arithmetic for one distance |
| C32-C36, C50 | induction over generations, iterations and trees of questions |
| C37-C42, C51-C64 | algebra over R, Parseval's theorem for the finite transform, shift theorem |
| C43-C45, C48 | list lemmas, corollaries of the step theorems |
| C46 | invariant over sessions (evolve, sample, write, store a Hessian, update) |
| C47 | success characterised by a count per node; stable under operators |
| C65 | per component: success exactly for the allowed settings; C17's solution; session invariant on parameters |
| C66 | Minkowski's inequality per node, cut through the topological order with weights from the best remaining route |
| C67, C68 | shift theorem and Parseval's theorem on the harmonic the evaluator reads; Minkowski's inequality; refutations computed by hand on grids of 3 and 4 samples |
| C69 | sums over samples and over the centred spectrum, bands of the square wave by the integer part |
| C70 | C65 (success, lengths) and C18 (what can be measured) |
| C71 | case analysis; multiset of protected components of a kind kept by every operator (`PhaseRunProofs`) |
| C72 | the detected field is affine in exp(i x) (`LinearProofs` per component, `LinearNetworkProofs` through the network), bounds from C66, invariant over sessions |
| C73 | the differentiated function is constant; witness with two arms |
| C74 | anatomy of one generation (`SpeciatedProofs`), invariant over generations (`SpeciatedRunProofs`) using C28-C31; failures from what the invariant says at generation 0 or 1 |
| C75 | induction over the histories of a process: the left-over manager's representatives are never objects of a later population |
| C76, C77 | per component: what the noise can change; invariants over sessions (classes, detectors, splitters); bounds of C66-C69 on the measured fields |
| C78 | the run with records and the run without compared step by step (`TransformProofs`), C17's solution for the fields that enter, C39 and C61 for what the curves mean |
| C79 | minimiser of a quadratic, inversion of the finite transform, list lemmas |
| C80 | C21 and C14 for the loaded graph, polynomial inequalities for the curves, invariant over histories of events |
| C81 | induction along the path for lookups and directory creation, frame of every operation, then induction over operations and populations; injectivity of file names |
| C82 | induction along the chain of streams, invariant: every log was opened after the stream behind it |
| C83 | the power from the integer part of a third of the logarithm, uniqueness of the order of a number; induction over axis names |
| C84 | induction over assignments; invariant: all saved fields have the length of the initial state; visits of a graph compared for two initial states |
| C85 | inner nodes through the effect of each operator; invariant: every object of the heap is a graph in use with an inner node, every individual is scored, the hall of fame keeps its size |
| C86 | induction over the steps of a program; a step that gives a component no list leaves its copies of the values alone; invariant: lists fit and attributes exist |
| C87 | an action that ends in a call that raises fails from every state; invariant of the evaluations: the graph holds an individual inside the bounds and is otherwise as at the start; induction over rounds |
| C88 | invariant over simulations: a state belongs only to traces of the parameters and of the states before it; separation of the parameter lists for the writes; induction over the calls of an optimiser |
| C89 | simultaneous induction over the two extractions; chain rule; the largest difference by induction over the entries; permuted columns; counterexample by hand |
| C90 | a relation between the planned calls and the loops that composes over loops, with C26/C74, C81 and C82; induction over the uses of options |
| C91 | squares completed by hand; bounds of cosine and exponential; a rational bound of pi by Machin's series; a derivative computed along every line |
| C92 | invariant of the running sum: rows and cells stand for the logs read so far; permutations |
| C93 | induction over the components, pairing the extracted lists with the texts; texts are separated at their last dash; index arithmetic of flattened arrays |
| C94 | what sorted search finds, by induction over the records; the runs that have begun by induction over the runs; reals |
| C95 | invariant over all calls on the log; grouping as a permutation by induction over the rows; division arithmetic for the colours |
| C96 | the equations of the graph (C17): a solution for one setting is turned into one for the other by changing the field on the first connection, with C51 for the pair |
| C97 | normal forms: each component of the first group weights the spectrum and multiplies by a constant or always fails, each of the second weights samples; weights commute; across the groups a witness on two samples |
| C98 | moving a field is a filter, and filters commute (C97); weights of samples are local; two-sample witnesses of C97 against the converses |

## Trusted base

* The kernel of Coq 8.16.1 (`coqc`; `coqchk` accepts all files) and the standard
  library.  No plugin, no other library, no axiom, no `Admitted`.
* The axioms below, all from the standard library.  They come with its real
  numbers: `sig_forall_dec`, `sig_not_dec` (decidability of real comparison),
  `functional_extensionality_dep`, and `classic` where real analysis is used.
* The reading of the Python code: the correspondence of model and code is by
  inspection.  numpy, networkx 2.5, scipy, autograd are modelled from their
  documentation, as far as the code uses them.

### `Print Assumptions` per theorem

<!-- assumptions -->
* **Closed under the global context** (no axioms) — 270 theorems: C01_evolution_keeps_dag, C02_terminals_kept, C03_families_kept, C03_libraries, C04_protected_survive, C05_growth_and_swap_within_ports, C05_remove_ports_refuted, C06_add_parallel, C06_add_series, C06_draws_exist, C06_locations_never_raise, C06_never_raises, C06_remove, C06_swap_edge, C06_swap_node, C07_add_remove_at_end, C07_add_remove_at_start, C07_label_at_end_refuted, C08_default_evolver_uniform, C08_hessian_evolver, C08_nothing_offered_raises, C08_weighted_evolver, C09_chain, C09_failed_assertion_changes_graph, C09_history_is_a_run, C09_one_call, C09_random_graph, C10_assertion_complete_refuted, C10_assertion_exact, C10_bounds_kept, C10_one_call, C10_passed, C11_chances, C11_chances_new, C11_evolve_last_raises, C11_last_generation_raises, C11_late_step_growth_only, C11_late_step_raises, C11_minimal_system_refuted, C11_random_graph_raises, C11_succeeds, C12_init_graph, C12_init_graph_raises, C13_copy, C13_copy_keeps_parameters_refuted, C13_every_session, C14_no_node, C14_resave, C14_round_trip, C14_unknown_class, C14_without_file_independent_refuted, C15_aligned, C15_complete, C15_never_raises, C15_read_then_write, C15_rest_untouched, C15_shared_object_refuted, C15_write_then_read, C16_library_classes, C16_nothing_free, C16_one_value, C16_rounding_refuted, C16_samples_in_bounds, C16_triangle_raises, C17_all_orders, C17_complete, C17_components, C17_components_any_order, C17_propagate, C17_sound, C17_unique, C18_inspect_state, C18_measurable, C18_sink_first, C19_always_restored_refuted, C19_output_noise, C19_output_signal, C19_snr, C20_models_off, C20_models_off_refuted, C20_noisy_repeats, C20_pure_deterministic, C20_pure_draws_nothing, C20_repeats_after_other_propagator_refuted, C20_resample_all_raises, C21_evolution, C21_exact, C21_positions, C21_raises, C22_shape, C23_best, C23_nan_sticks, C24_admission, C24_diverse, C24_diverse_refuted, C24_holds_best, C25_random, C25_roulette, C25_tournament, C25_tournament_best, C25_tournament_size, C25_wheel, C25_wheel_favours_best_refuted, C25_wheel_favours_lower, C25_wheel_needs_scores, C25_wheel_negative_inverted, C25_wheel_raises, C26_elitism_aborts, C26_elitism_error, C26_no_elite, C27_generations, C27_graphs_sound, C27_hall_of_fame, C27_log, C27_one_generation, C28_partition, C29_across_speciation_refuted, C29_sharing, C29_undone, C30_direction, C30_threshold, C31_edit, C31_subpopulation, C31_subpopulation_raises, C32_monotone, C32_nan_refuted, C32_population, C32_returns, C32_start, C32_true_score, C33_double_point, C33_mutation, C33_only_candidates, C33_single_point, C34_asks_inside, C34_finite, C34_inside, C34_nan_refuted, C34_no_iterations, C35_agreement, C35_nothing_free, C35_swarm_refuted, C35_unknown, C36_mean_refuted, C36_misuse, C36_nan_refuted, C36_partial_generation_refuted, C36_rows, C36_third_algorithm_refuted, C36_two_algorithms, C43_edge_scores, C43_no_free_parameter, C43_one_score_per_parameter, C43_parameter_score, C44_hessian_random_graph_raises, C45_evolution_resets_splitters, C46_new_graph_healthy, C46_session_healthy, C47_always_simulatable_refuted, C47_exact, C47_session, C48_offspring_in_bounds_refuted, C48_preferential, C49_candidates, C49_unknown, C50_cheap, C50_cma, C50_same, C64_unknown, C65_parameters, C71_evolved, C73_protected, C74_best_kept_refuted, C74_elitism_aborts, C74_generations, C74_hall_of_fame, C74_log, C74_negative_scores, C74_photo_aborts, C74_random_aborts, C74_rules, C74_subpopulations, C75_plain_after, C75_speciated_after, C75_two_runs, C77_classes, C77_detectors, C77_kept, C80_loaded, C80_names, C80_selection, C80_table, C81_apart, C81_exact, C81_generations, C81_inside, C81_load_dir, C81_lost, C81_metadata, C81_missing, C81_places, C81_reload, C81_roundtrip, C82_flush, C82_print, C82_session, C82_unclosed, C85_direct, C85_evolves, C85_kept, C85_numbers_exist, C85_place, C85_returns, C86_apart, C86_by_name, C86_current, C86_defaults, C86_detector, C86_fixed, C86_loaded, C86_made, C86_moments, C86_noise, C86_short, C87_genetic, C87_genetic_lost, C87_gradient, C87_gradient_fresh, C87_gradient_given, C87_gradient_untuned, C87_hessian, C87_mutation, C87_mutation_any, C87_mutation_short, C87_projection, C87_resampling, C87_resampling_each, C87_untuned, C87_wrong_size, C88_complete, C88_gradient, C88_hessian, C88_method, C88_recovers, C88_scored, C88_sensitivity, C88_sensitivity_states_refuted, C89_node_part_empty, C90_elitism, C90_elitism_script, C90_evolvers, C90_evolvers_script, C90_logs, C90_options, C90_places, C90_rules, C90_rules_script, C90_stray, C92_names, C93_distinct, C93_distinct_refuted, C93_labels, C93_loaded, C95_colours, C95_comparison, C95_comparison_colours, C95_comparison_errors, C95_drawn, C95_groups, C95_own.
* **`ClassicalDedekindReals.sig_forall_dec`** — 2 theorems: C89_component_part, C89_part.
* **`ClassicalDedekindReals.sig_forall_dec`, `FunctionalExtensionality.functional_extensionality_dep`** — 33 theorems: C37_store_defaults, C37_weights_sum, C52_amount, C53_constant_part, C53_step, C53_zero_frequency, C54_impulse_time, C69_noise, C80_drawing, C80_hangs, C84_fresh, C84_history, C84_outcome, C89_binarized, C89_stems_refuted, C89_units, C92_draws, C92_mean, C92_mean_refuted, C92_order, C92_points, C92_raises, C92_short, C93_bars, C93_frame, C93_squares, C94_band, C94_begin, C94_constant_refuted, C94_errors, C94_finish, C94_finish_refuted, C94_points.
* **`ClassicalDedekindReals.sig_forall_dec`, `ClassicalDedekindReals.sig_not_dec`, `FunctionalExtensionality.functional_extensionality_dep`** — 38 theorems: C31_composition_raises, C31_composition_range_refuted, C31_composition_symmetric, C31_composition_unusable, C31_composition_zero, C37_defaults, C37_shares, C38_attained, C38_exact, C38_mismatch, C38_single_input, C39_phase_shifter, C40_inverse, C40_inverse_of_spectrum, C40_masks, C40_parseval, C51_phases, C54_continuous_wave, C54_impulse, C63_bands, C63_outputs, C63_raises, C68_waveforms, C69_filter, C69_filter_scaled, C69_gate, C69_lens, C69_snr, C69_snr_refuted, C74_vector_terminals, C89_analysis, C89_no_parameters, C89_scaled, C89_scales, C91_curvature, C91_samples, C91_sphere_refuted, C91_unusable.
* **`ClassicalDedekindReals.sig_forall_dec`, `ClassicalDedekindReals.sig_not_dec`, `Classical_Prop.classic`, `FunctionalExtensionality.functional_extensionality_dep`** — 142 theorems: C39_attenuator, C39_decibels_add, C39_intensity_modulator, C39_phase_modulator, C40_delay_line, C40_fiber, C40_square_filter, C40_wave_shaper, C41_amplifier_gain, C41_amplifier_saturates, C41_amplifier_unbounded, C41_output_power_refuted, C41_photodiode, C41_photodiode_monotone, C42_fits, C42_misfit, C51_delays, C51_fibers, C51_neutral, C52_delay_shifts, C52_integrated, C54_pulsed_bound, C54_pulsed_peak, C54_pulsed_periodic, C55_bell, C55_butterworth, C55_corner, C55_exp_of_square, C55_raises, C56_bounded, C56_complex, C56_real, C57_reused, C57_stale, C58_added, C58_laser, C58_osnr, C58_shot, C58_vectors, C59_odd, C59_power, C59_zero, C60_order, C61_bound, C61_fine, C61_flat, C61_passive_refuted, C62_bound, C62_delay, C62_passive_refuted, C62_straight, C63_passive_refuted, C64_half, C64_power, C65_exact, C65_session, C65_within_bounds_refuted, C66_bound, C66_passive, C66_session, C67_bounds, C67_errors, C67_rotation, C67_rotation_refuted, C67_target, C68_bounds, C68_delay_refuted, C68_errors, C68_misaligned, C69_filter_bounds, C69_filter_range_refuted, C69_gate_bounds, C70_evaluate, C70_lens, C70_output, C70_pulse, C70_repeatable, C70_wrapped, C71_count, C71_offered_refuted, C71_reading, C71_restored, C71_unprotected_refuted, C72_confined, C72_fringe, C72_laser, C72_limit, C72_score, C72_session, C72_unreached, C73_count, C73_foreign, C73_reading, C73_restored, C73_same, C76_exact, C76_numbers, C76_odd, C76_odd_score, C76_session, C76_silent, C77_better, C77_evaluated, C77_filter, C77_pulse, C77_radio, C77_safe, C77_suppression, C78_cleared, C78_contents, C78_outcome, C78_session, C79_estimate, C79_exact, C79_modulator, C79_scaling, C79_spectrum, C80_transforms, C83_again, C83_compare, C83_compare_raises, C83_fails, C83_names, C83_scaled, C83_spectrum, C83_spectrum_labels_refuted, C83_two, C84_resized, C84_stale, C91_above, C91_corner, C91_minima, C96_moved, C97_frequency, C97_line, C97_mixed_refuted, C97_time, C98_frequency, C98_frequency_local_refuted, C98_periodic, C98_time, C98_time_moved_refuted.
<!-- end assumptions -->

## Simplifications

* Numbers are exact: rationals in the evolver, parameters and optimisers (with
  infinities and NaN where scores are compared), reals in the optics.  Rounding
  and overflow are not modelled.
* Random numbers, uuids, set orders, sorting of ties and results of external
  optimisers are arguments of the model; theorems hold for all of them.
* Python objects are addresses in a store where sharing matters (component
  parameters, populations), values otherwise.
* Graph labels and component ids are natural numbers; only equality is used.
* `scipy.optimize.curve_fit` is a function that returns a minimiser of the squared deviation (C79).
* In the evaluators nan and the infinities of a score are one value (`None`).
* `autograd.grad` is the derivative (`derivable_pt_lim`) of the function of the phase;
  without a derivative there is no outcome.  Values that autograd leaves in a component
  when an evaluation raises are not modelled.
* The labels of the subpopulation scheme are absolute values of Python's remainders, which keeps
  their equality.  The composition distance is an arbitrary function of the two integers whose
  roots are divided.
* The file system is a map from places to directories and files that follows names as POSIX does, without
  links, permissions, full disks or other processes; writing an object gives bytes and perhaps an exception (C81).
  A log is the text written through its own handle (C82).
* A plot is the data of its lines and its labels (C83).
* The window of a propagator is a number and `wl`, a plain attribute, is not assigned; a simulation uses a propagator whose
  last assignment of `n_samples` was accepted (C84).
* Component settings (C86) are the values that are read, not what is computed from them; a parameter name with a number
  is a text and a number; lists are written entry by entry (no `append`); the noise of an amplifier, which reads the
  amplifier when it is sampled, is left out.
* Tracers (C88): a number is known by the levels of the traces it belongs to, and its value is left out; what the components compute is
  an arbitrary function of the tracers of their parameters and inputs that makes none of its own. That autograd numbers its traces
  by depth, evaluates the function once per gradient and removes its own trace from the result is taken from its documentation.
* Local analysis (C89): matrices are lists of rows of real numbers; `np.linalg.eig` and `np.argsort` are functions assumed to return
  eigenvectors as columns and a sorting permutation (the order of equal entries is open); the plot is the list of its lines.
* Averaged logs (C92): tables of exact real numbers with missing cells; pandas' `add` with a fill value and its joining of row labels
  are modelled as documented; the disk is a listing and a log per name.
* Sensitivity panel (C93): the matrix and the result of numpy's `eig` are arguments, the colour map is a function of the vector's number;
  the rounding of colours is left out. The panel is empty in the code as it is, since the calls are commented out.
* Comparison of optimisers (C94): exact real numbers with missing ones; `linspace`, the linear `interp1d` with its search, clipping and bounds,
  and `nanmean`, `nanmin`, `nanmax` are modelled as documented. Logs with one record and times that do not increase are left out, as is the
  first figure of the script (the raw logs).
* Plots of logs (C95): the palette 'Accent' has eight colours and a colour map called with a fraction takes entry `int(8 * fraction)`, as
  documented; `unique` keeps the order of first appearance. Axis labels, legend, title and printed text are left out.
* Functions for trying optimisers (C91): exact real numbers; numpy's functions entry by entry; `eval` looks a name up among the
  twelve functions.
* Benchmarks (C90): every run finds an arbitrary process as in C75, also after a run that raised; what a run prints and which files it
  writes below its directory are arbitrary; the seeds are recorded, not used. The command line is modelled for option names in full and
  values that do not begin with a dash, from the documentation of `argparse`.
* The tuning utilities (C87) evaluate, simulate and resample through arbitrary functions that do not write parameters; the number of
  rounds is given in place of the rates; a list whose distribution raises is not written at all; the order of `list.sort` is arbitrary.
* The laser of `run_pulse_rep.py` starts with its default values; the script locks it at values below its bounds (C77).
* A process (C75) has only calls that returned: what an exception leaves behind is not modelled.
* Components inserted by evolution are unprotected (scripts that set the class attribute
  `PhaseShifter.protected` are not modelled).

## Not modelled

Plotting other than C83, what is printed, the contents of files, figures and their files, ray scheduling, run times,
automatic differentiation; `simulator/fiber/graph.py` (an older copy of
`lib/graph.py` that nothing imports), lines 392-780 of `evolver.py` (comments and an
unfinished `CrossoverMaker` that nothing uses);
`get_scaled_hessian` of `lib/hessian.py`; colours and axes of its plot; the sensitivity plots, widgets and colours of the interactive interface; the scripts
other than the set-ups in `SearchModel` and `SearchMoreModel` and the benchmarks in `BenchModel`; the spectra stored for plots; what plots
make of recorded transforms.

## Findings

Behaviour that the theorems establish and that a reader may not expect:

* Requesting elitism aborts an optimisation (C26).
* The random rule evolves a graph again and again while it has no free parameters, without a limit (C85).
* Setting a parameter by name or in the list does not change the noise of lasers and modulators nor anything a photodiode
  does; loading a saved graph gives photodiodes the default filter and pulsed lasers the default linewidth (C86).
* A laser made with a list that is too short uses its defaults for the missing parameters (C86).
* Genetic tuning and gradient descent of `parameter_optimization_utils.py` cannot return: `logbook_update` is called with a
  keyword it does not have, and the gradient and the Hessian look up a key that is never made (C87).
* Between a gradient and the next plain score a graph cannot be saved; with the phase sensitivity its saved states stay
  tracers after the optimisation (C88).
* The eigenvector plot draws rows of the eigenvector matrix, which are not eigenvectors; the part of the matrix of second derivatives
  for a node is always empty (C89).
* The benchmarks of elitism, selection rules and evolvers cannot give their results: they ask for elites (C90).
* `-v False` on the command line turns verbose output on (C90).
* Averaged logs count runs that ended early as zero, in their values and in the generation (C92).
* The sensitivity panel (switched off) would name parameters of a fibre and an integrated delay line alike, and leave the last
  eigenvectors of graphs with six or more free parameters out of the range shown (C93).
* The condensed comparison of optimisers averages different numbers of runs at its beginning and cuts longer runs off (C94).
* A log made with its own colours cannot be compared with others, since it gets no colour map; nine or more compared logs share colours (C95).
* In a graph with two fibres in series, such as the one of build_redundant_system.py, only the total length has an effect on any output (C96).
* The sphere function is marked beside its minimum; the eggholder and the Gaussian return three values where four are unpacked;
  a comma for a point cuts the range of Beale's function (C91).
* The check of parameter bounds compares lists lexicographically (C10).
* Copying a graph, and every mutation, resets splitter ratios (C13, C45).
* `preferential` update imposes the parent's parameters on all offspring but the last (C48).
* After an exception during propagation the noise switch stays changed (C19).
* A graph whose source feeds two connections raises IndexError when propagated (C47).
* A square filter of width zero is within the bounds and raises ZeroDivisionError (C65).
* A wave shaper whose bins do not fit the grid raises ValueError (C42, C65).
* The split-and-delay line amplifies (its loss has the wrong sign, C62); a
  programmable filter amplifies on coarse grids (C61); a frequency splitter adds its
  inputs without normalisation (C63).
* The photodiode's voltage is complex for even sample counts (C56); the phase noise of
  a linewidth is nan for odd ones (C59).
* The width of the exponential-of-square filter is that of the field; the power is down to a
  quarter there (C55).
* A filter object keeps the mask of its first grid (C57).
* The setter of `window_t` of the propagator always raises; the setter of `n_samples` leaves wavelengths and state as
  they were, so that graphs with continuous lasers or impulses cannot be simulated on the new grid (C84).
* The pulse repetition and radio frequency evaluators clamp the index of a too high
  frequency to the length of the spectrum and then raise IndexError (C67, C68).
* The pulse repetition evaluator does not recognise a delayed target that does not
  repeat with the given period (C67).
* The radio frequency evaluator more than doubles the phase error it is meant to undo
  (C68).
* The filter design evaluator forgets a factor 2 pi: its pass bands are 2 pi times as
  far apart and as wide as intended (C69).
* The signal to noise evaluator averages signed deviations (C69).
* The lens evaluator needs a connection with the label (0, 1, 0) and raises KeyError
  on graphs without it (C70).
* Phase sensitivity: a library that offers phase shifters lets evolution add a second
  one, after which every evaluation raises RuntimeError (C71).  The start graph of
  `scripts/run_phase_sensitivity.py` scores zero for all parameters (C72).
* The second order phase sensitivity of a copied graph is always zero, so
  `scripts/run_derivative_phase_terms.py`, which evolves copies, never finds a better one
  (C73).
* `testing/test_evolver.py:82` constructs PhaseSensitivity with an unprotected shifter,
  which fails its assertion (read; `accepts` in `PhaseModel`).
* Speciation: the combinations with `random` and all photoNEAT rules never return, vectorDIFF only
  on graphs without terminals; the best graph of a generation can be dropped; with negative scores
  sharing favours large species (C74).  `preferential edit distance` exists but cannot be selected.
* After a call with speciation every later call without it in the same process fails (C75);
  `scripts/run_topology_search_varied_params.py` names such a list of rules in a comment.
* With noise on (the default) and an odd number of samples, everything behind a laser is nan (C76).
* The only graphs on which the radio frequency searches can fail contain a square filter of no
  width, which the parameter bounds allow (C77).
* `scripts/run_better_awg.py` passes no amplitude, so that every evaluation of its search raises TypeError (C77).
* Recording transforms raises NameError as soon as a fibre or a phase shifter is in the graph; the
  amplifier's record survives runs without recording and is half of its power gain in dB; losses of
  modulators and filters are not in the records (C78).  Nodes never hold a record, so
  `visualize_transforms` (`lib/graph.py:331-370`), which reads the nodes, has nothing to show
  (read).
* A phase modulator that is given phase noise points and no other parameter forgets the points and has
  no phase noise (C79).
* The viewer never ends on graphs with more than one source, gives a `DelayLine` and an
  `IntegratedDelayLine` the same name, draws connections that stop just short of their second node and
  can never show a transform (C80).
* Saving an object that cannot be pickled destroys what was saved under the name; `save_json` does not make
  directories as `save_object` does; `save_machine_metadata` fails on absolute texts and without an argument
  writes beside the save directories, so that runs overwrite each other's; a shorter second run in a directory
  leaves population files of the first (C81).
* `Tee.flush` closes the log, so that any flush of the output makes the next print raise; an optimisation that
  raises leaves the output redirected to its log (C82).
* Scaling an axis twice makes its label wrong; the spectra in the comparison plots are drawn over sample numbers
  and labelled Hz; `NoiseSuppression.compare` always raises (C83).
* The default lower band edge of the amplifier is below its own lower bound (C16).

## Mutation tests

`seeded/LOG.jsonl` has one line per realistic bug that was put into a copy of the
model: the edit, the claim it breaks, the theorems that no longer compile and the
theorems that were tightened because they had not noticed.
