{
 "claims": [
  {
   "property": "C01",
   "status": "proved",
   "theorems": [
    "C01_evolution_keeps_dag"
   ],
   "note": "All finite operator histories at offered locations."
  },
  {
   "property": "C02",
   "status": "proved",
   "theorems": [
    "C02_terminals_kept"
   ],
   "note": ""
  },
  {
   "property": "C03",
   "status": "proved",
   "theorems": [
    "C03_families_kept",
    "C03_libraries"
   ],
   "note": "C03_libraries discharges the library hypothesis for the default and for custom libraries."
  },
  {
   "property": "C04",
   "status": "proved",
   "theorems": [
    "C04_protected_survive"
   ],
   "note": "As a multiset of component objects, over whole histories."
  },
  {
   "property": "C05",
   "status": "proved",
   "theorems": [
    "C05_growth_and_swap_within_ports",
    "C05_remove_ports_refuted"
   ],
   "note": "Positive part for histories without remove; witness history for remove."
  },
  {
   "property": "C06",
   "status": "proved",
   "theorems": [
    "C06_never_raises",
    "C06_locations_never_raise",
    "C06_add_series",
    "C06_add_parallel",
    "C06_remove",
    "C06_swap_node",
    "C06_swap_edge",
    "C06_draws_exist"
   ],
   "note": ""
  },
  {
   "property": "C07",
   "status": "proved",
   "theorems": [
    "C07_add_remove_at_start",
    "C07_add_remove_at_end",
    "C07_label_at_end_refuted"
   ],
   "note": "Exact at the start of an edge; up to renaming the end node otherwise, with witness that the label is lost."
  },
  {
   "property": "C08",
   "status": "proved",
   "theorems": [
    "C08_default_evolver_uniform",
    "C08_nothing_offered_raises",
    "C08_weighted_evolver",
    "C08_hessian_evolver"
   ],
   "note": "Probability = length of the interval of uniform draws leading to the pair (exact rational arithmetic instead of floats)."
  },
  {
   "property": "C09",
   "status": "proved",
   "theorems": [
    "C09_one_call",
    "C09_chain",
    "C09_history_is_a_run",
    "C09_failed_assertion_changes_graph",
    "C09_random_graph"
   ],
   "note": "Identifiers are draws of a uuid oracle; C09_chain assumes those draws distinct."
  },
  {
   "property": "C10",
   "status": "proved",
   "theorems": [
    "C10_bounds_kept",
    "C10_one_call",
    "C10_assertion_complete_refuted",
    "C10_assertion_exact",
    "C10_passed"
   ],
   "note": "The weakness of the assertion is shown by a witness."
  },
  {
   "property": "C11",
   "status": "proved",
   "theorems": [
    "C11_succeeds",
    "C11_last_generation_raises",
    "C11_minimal_system_refuted",
    "C11_late_step_raises",
    "C11_late_step_growth_only",
    "C11_evolve_last_raises",
    "C11_random_graph_raises",
    "C11_chances",
    "C11_chances_new"
   ],
   "note": "choice level and call level"
  },
  {
   "property": "C12",
   "status": "proved",
   "theorems": [
    "C12_init_graph",
    "C12_init_graph_raises"
   ],
   "note": ""
  },
  {
   "property": "C13",
   "status": "proved",
   "theorems": [
    "C13_copy",
    "C13_every_session",
    "C13_copy_keeps_parameters_refuted"
   ],
   "note": "exact characterisation of the copy, its hypotheses hold for every reachable graph object, plus the witness that a tuned splitter is lost"
  },
  {
   "property": "C14",
   "status": "proved",
   "theorems": [
    "C14_round_trip",
    "C14_resave",
    "C14_unknown_class",
    "C14_no_node",
    "C14_without_file_independent_refuted"
   ],
   "note": "round trip, second save, and the exact failing cases; C13_every_session shows reachable graph objects satisfy the hypotheses"
  },
  {
   "property": "C15",
   "status": "proved",
   "theorems": [
    "C15_aligned",
    "C15_complete",
    "C15_never_raises",
    "C15_read_then_write",
    "C15_write_then_read",
    "C15_rest_untouched",
    "C15_shared_object_refuted"
   ],
   "note": "Parameters are rationals or symbolic values; gradients are not modelled."
  },
  {
   "property": "C16",
   "status": "proved",
   "theorems": [
    "C16_samples_in_bounds",
    "C16_one_value",
    "C16_library_classes",
    "C16_triangle_raises",
    "C16_nothing_free",
    "C16_rounding_refuted"
   ],
   "note": "Exact rationals; random draws are arbitrary fractions in [0,1)."
  },
  {
   "property": "C17",
   "status": "proved",
   "theorems": [
    "C17_sound",
    "C17_complete",
    "C17_unique",
    "C17_all_orders",
    "C17_propagate",
    "C17_components",
    "C17_components_any_order"
   ],
   "note": "signals and component behaviour are abstract; the graph's own visiting order is the model of networkx topological_sort"
  },
  {
   "property": "C18",
   "status": "proved",
   "theorems": [
    "C18_measurable",
    "C18_inspect_state",
    "C18_sink_first"
   ],
   "note": ""
  },
  {
   "property": "C19",
   "status": "proved",
   "theorems": [
    "C19_output_signal",
    "C19_output_noise",
    "C19_snr",
    "C19_always_restored_refuted"
   ],
   "note": "C19_always_restored_refuted is the witness for the raising case"
  },
  {
   "property": "C20",
   "status": "proved",
   "theorems": [
    "C20_pure_deterministic",
    "C20_pure_draws_nothing",
    "C20_noisy_repeats",
    "C20_models_off",
    "C20_models_off_refuted",
    "C20_repeats_after_other_propagator_refuted",
    "C20_resample_all_raises"
   ],
   "note": "the two _refuted theorems are the witnesses for the exceptions named in the statement"
  },
  {
   "property": "C21",
   "status": "proved",
   "theorems": [
    "C21_exact",
    "C21_positions",
    "C21_raises",
    "C21_evolution"
   ],
   "note": "Exact characterisation of termination, positions and errors; stability under evolution."
  },
  {
   "property": "C22",
   "status": "proved",
   "theorems": [
    "C22_shape"
   ],
   "note": "Any similarity function, any scores."
  },
  {
   "property": "C23",
   "status": "proved",
   "theorems": [
    "C23_best",
    "C23_nan_sticks"
   ],
   "note": "NaN-free runs; the exception is characterised by C23_nan_sticks."
  },
  {
   "property": "C24",
   "status": "proved",
   "theorems": [
    "C24_holds_best",
    "C24_diverse",
    "C24_admission",
    "C24_diverse_refuted"
   ],
   "note": "Exact contents for an equivalence; counterexample for a thresholded distance. The similarity measure is a parameter of the model."
  },
  {
   "property": "C25",
   "status": "proved",
   "theorems": [
    "C25_tournament",
    "C25_tournament_best",
    "C25_tournament_size",
    "C25_roulette",
    "C25_wheel",
    "C25_wheel_raises",
    "C25_wheel_needs_scores",
    "C25_wheel_favours_lower",
    "C25_wheel_negative_inverted",
    "C25_wheel_favours_best_refuted",
    "C25_random"
   ],
   "note": "Scores are exact rationals plus infinities and NaN."
  },
  {
   "property": "C26",
   "status": "proved",
   "theorems": [
    "C26_elitism_aborts",
    "C26_elitism_error",
    "C26_no_elite"
   ],
   "note": "Four update rules without speciation. C26_elitism_aborts covers whole runs; C26_elitism_error gives the exception."
  },
  {
   "property": "C27",
   "status": "proved",
   "theorems": [
    "C27_generations",
    "C27_log",
    "C27_hall_of_fame",
    "C27_one_generation",
    "C27_graphs_sound"
   ],
   "note": "Parameter optimisation is an arbitrary function in C27_generations..C27_one_generation; C27_graphs_sound assumes it only does what a session does. Speciation not included."
  },
  {
   "property": "C28",
   "status": "proved",
   "theorems": [
    "C28_partition"
   ],
   "note": "For every manager reached by any history of speciate calls and every set iteration order."
  },
  {
   "property": "C29",
   "status": "proved",
   "theorems": [
    "C29_sharing",
    "C29_undone",
    "C29_across_speciation_refuted"
   ],
   "note": "Exact rational arithmetic instead of floats; the protection exp(-gen*ln2/half_life) is an arbitrary function of the generation. Non-finite scores included. The last sentence is the _refuted witness."
  },
  {
   "property": "C30",
   "status": "proved",
   "theorems": [
    "C30_threshold",
    "C30_direction"
   ],
   "note": "The square root of the population size is an arbitrary positive function."
  },
  {
   "property": "C31",
   "status": "proved",
   "theorems": [
    "C31_subpopulation",
    "C31_subpopulation_raises",
    "C31_edit",
    "C31_composition_symmetric",
    "C31_composition_zero",
    "C31_composition_raises",
    "C31_composition_unusable",
    "C31_composition_range_refuted"
   ],
   "note": "The composition distance is over the real numbers. The graph similarity behind the edit distance is an arbitrary function. The range claim is refuted by the witness as the statement says."
  },
  {
   "property": "C32",
   "status": "proved",
   "theorems": [
    "C32_population",
    "C32_true_score",
    "C32_monotone",
    "C32_start",
    "C32_returns",
    "C32_nan_refuted"
   ],
   "note": "Candidates are Python lists; the sort is any reordering that is ascending without NaN."
  },
  {
   "property": "C33",
   "status": "proved",
   "theorems": [
    "C33_single_point",
    "C33_double_point",
    "C33_mutation",
    "C33_only_candidates"
   ],
   "note": ""
  },
  {
   "property": "C34",
   "status": "proved",
   "theorems": [
    "C34_inside",
    "C34_no_iterations",
    "C34_finite",
    "C34_asks_inside",
    "C34_nan_refuted"
   ],
   "note": "Exact arithmetic with infinities and NaN, no rounding."
  },
  {
   "property": "C35",
   "status": "proved",
   "theorems": [
    "C35_agreement",
    "C35_unknown",
    "C35_nothing_free",
    "C35_swarm_refuted"
   ],
   "note": "External optimisers are arbitrary trees of questions; evaluation is a function of the parameters."
  },
  {
   "property": "C36",
   "status": "proved",
   "theorems": [
    "C36_rows",
    "C36_two_algorithms",
    "C36_misuse",
    "C36_third_algorithm_refuted",
    "C36_partial_generation_refuted",
    "C36_mean_refuted",
    "C36_nan_refuted"
   ],
   "note": "Run-time column left out."
  },
  {
   "property": "C37",
   "status": "proved",
   "theorems": [
    "C37_weights_sum",
    "C37_shares",
    "C37_defaults",
    "C37_store_defaults"
   ],
   "note": "Uses the real-number axioms of the Coq library (excluded middle, functional extensionality, decidability of real comparisons); floating point is idealised to real numbers."
  },
  {
   "property": "C38",
   "status": "proved",
   "theorems": [
    "C38_exact",
    "C38_single_input",
    "C38_attained",
    "C38_mismatch"
   ],
   "note": "Uses the real-number axioms; C38_case is the doubling combiner."
  },
  {
   "property": "C39",
   "status": "proved",
   "theorems": [
    "C39_attenuator",
    "C39_decibels_add",
    "C39_phase_modulator",
    "C39_phase_shifter",
    "C39_intensity_modulator"
   ],
   "note": "Uses the real-number axioms."
  },
  {
   "property": "C40",
   "status": "proved",
   "theorems": [
    "C40_inverse",
    "C40_inverse_of_spectrum",
    "C40_parseval",
    "C40_masks",
    "C40_fiber",
    "C40_delay_line",
    "C40_wave_shaper",
    "C40_square_filter"
   ],
   "note": "Uses the real-number axioms. The programmable filter is not part of this claim."
  },
  {
   "property": "C41",
   "status": "proved",
   "theorems": [
    "C41_photodiode",
    "C41_photodiode_monotone",
    "C41_amplifier_gain",
    "C41_amplifier_saturates",
    "C41_amplifier_unbounded",
    "C41_output_power_refuted"
   ],
   "note": "Uses the real-number axioms. The last theorem is the witness that the configured maximum is not a bound for alpha below one."
  },
  {
   "property": "C42",
   "status": "proved",
   "theorems": [
    "C42_fits",
    "C42_misfit"
   ],
   "note": "Uses the real-number axioms."
  },
  {
   "property": "C43",
   "status": "proved",
   "theorems": [
    "C43_parameter_score",
    "C43_one_score_per_parameter",
    "C43_edge_scores",
    "C43_no_free_parameter"
   ],
   "note": "Exact rationals; as_log=False as used by the evolver."
  },
  {
   "property": "C44",
   "status": "proved",
   "theorems": [
    "C44_hessian_random_graph_raises"
   ],
   "note": ""
  },
  {
   "property": "C45",
   "status": "proved",
   "theorems": [
    "C45_evolution_resets_splitters"
   ],
   "note": ""
  },
  {
   "property": "C46",
   "status": "proved",
   "theorems": [
    "C46_new_graph_healthy",
    "C46_session_healthy"
   ],
   "note": ""
  },
  {
   "property": "C47",
   "status": "proved",
   "theorems": [
    "C47_exact",
    "C47_session",
    "C47_always_simulatable_refuted"
   ],
   "note": "For all graphs, stores, physics that do not raise, noise states with the models their constructors make, and all sessions and histories. The refuted theorem is the IndexError witness."
  },
  {
   "property": "C48",
   "status": "proved",
   "theorems": [
    "C48_preferential",
    "C48_offspring_in_bounds_refuted"
   ],
   "note": "The refuted theorem is the witness of the last sentence."
  },
  {
   "property": "C49",
   "status": "proved",
   "theorems": [
    "C49_candidates",
    "C49_unknown"
   ],
   "note": ""
  },
  {
   "property": "C50",
   "status": "proved",
   "theorems": [
    "C50_same",
    "C50_cma",
    "C50_cheap"
   ],
   "note": ""
  },
  {
   "property": "C51",
   "status": "proved",
   "theorems": [
    "C51_fibers",
    "C51_delays",
    "C51_phases",
    "C51_neutral"
   ],
   "note": "Uses the real-number axioms."
  },
  {
   "property": "C52",
   "status": "proved",
   "theorems": [
    "C52_delay_shifts",
    "C52_amount",
    "C52_integrated"
   ],
   "note": "Uses the real-number axioms."
  },
  {
   "property": "C53",
   "status": "proved",
   "theorems": [
    "C53_zero_frequency",
    "C53_constant_part",
    "C53_step"
   ],
   "note": "Uses the real-number axioms."
  },
  {
   "property": "C54",
   "status": "proved",
   "theorems": [
    "C54_continuous_wave",
    "C54_pulsed_bound",
    "C54_pulsed_periodic",
    "C54_pulsed_peak",
    "C54_impulse",
    "C54_impulse_time"
   ],
   "note": "Uses the real-number axioms."
  },
  {
   "property": "C55",
   "status": "proved",
   "theorems": [
    "C55_butterworth",
    "C55_corner",
    "C55_exp_of_square",
    "C55_raises",
    "C55_bell"
   ],
   "note": "Real arithmetic; a corner frequency of zero is not covered."
  },
  {
   "property": "C56",
   "status": "proved",
   "theorems": [
    "C56_bounded",
    "C56_real",
    "C56_complex"
   ],
   "note": "Real arithmetic; dark current and noise are added by the noise model (C58)."
  },
  {
   "property": "C57",
   "status": "proved",
   "theorems": [
    "C57_reused",
    "C57_stale"
   ],
   "note": ""
  },
  {
   "property": "C58",
   "status": "proved",
   "theorems": [
    "C58_osnr",
    "C58_laser",
    "C58_vectors",
    "C58_added",
    "C58_shot"
   ],
   "note": "Real arithmetic; draws or signals that are zero everywhere (nan in the code) are excluded. Shot noise with a filter uses the filter's own bandwidth (modelled); the theorem is stated for the full bandwidth."
  },
  {
   "property": "C59",
   "status": "proved",
   "theorems": [
    "C59_power",
    "C59_zero",
    "C59_odd"
   ],
   "note": "nan is represented by the absence of a vector."
  },
  {
   "property": "C60",
   "status": "proved",
   "theorems": [
    "C60_order"
   ],
   "note": "Vectors as long as the signal; the ASE array of an amplifier is given."
  },
  {
   "property": "C61",
   "status": "proved",
   "theorems": [
    "C61_bound",
    "C61_fine",
    "C61_flat",
    "C61_passive_refuted"
   ],
   "note": "Over the reals. The refuted statement is passivity on every grid."
  },
  {
   "property": "C62",
   "status": "proved",
   "theorems": [
    "C62_bound",
    "C62_straight",
    "C62_delay",
    "C62_passive_refuted"
   ],
   "note": "Over the reals. The refuted statement is passivity."
  },
  {
   "property": "C63",
   "status": "proved",
   "theorems": [
    "C63_outputs",
    "C63_bands",
    "C63_raises",
    "C63_passive_refuted"
   ],
   "note": "Over the reals."
  },
  {
   "property": "C64",
   "status": "proved",
   "theorems": [
    "C64_power",
    "C64_half",
    "C64_unknown"
   ],
   "note": "Over the reals; without the noise."
  },
  {
   "property": "C65",
   "status": "proved",
   "theorems": [
    "C65_parameters",
    "C65_exact",
    "C65_session",
    "C65_within_bounds_refuted"
   ],
   "note": "Over the reals; without noise. The last theorem is the witness that bounds alone do not suffice."
  },
  {
   "property": "C66",
   "status": "proved",
   "theorems": [
    "C66_bound",
    "C66_passive",
    "C66_session"
   ],
   "note": "Over the reals; without noise. Photodiodes count as zero: their saved array is a voltage."
  },
  {
   "property": "C67",
   "status": "proved",
   "theorems": [
    "C67_errors",
    "C67_bounds",
    "C67_rotation",
    "C67_target",
    "C67_rotation_refuted"
   ],
   "note": "Real numbers instead of floats; nan and inf are one value. The refuted variant drops the hypothesis that the target repeats."
  },
  {
   "property": "C68",
   "status": "proved",
   "theorems": [
    "C68_waveforms",
    "C68_errors",
    "C68_bounds",
    "C68_misaligned",
    "C68_delay_refuted"
   ],
   "note": "Real numbers instead of floats; nan and inf are one value. The two error kinds for the argument are in C68_case."
  },
  {
   "property": "C69",
   "status": "proved",
   "theorems": [
    "C69_filter",
    "C69_filter_bounds",
    "C69_filter_scaled",
    "C69_filter_range_refuted",
    "C69_noise",
    "C69_gate",
    "C69_gate_bounds",
    "C69_lens",
    "C69_snr",
    "C69_snr_refuted"
   ],
   "note": "Real numbers instead of floats; nan and inf are one value. The noise switch of the signal to noise evaluator is in C19."
  },
  {
   "property": "C70",
   "status": "proved",
   "theorems": [
    "C70_evaluate",
    "C70_repeatable",
    "C70_wrapped",
    "C70_output",
    "C70_lens",
    "C70_pulse"
   ],
   "note": "Noise-free simulations; the write of the parameter vector before the simulation is C15."
  },
  {
   "property": "C71",
   "status": "proved",
   "theorems": [
    "C71_count",
    "C71_restored",
    "C71_evolved",
    "C71_reading",
    "C71_offered_refuted",
    "C71_unprotected_refuted"
   ],
   "note": "Automatic differentiation is the exact derivative; a phase shifter has one parameter. A newly inserted component is unprotected (the class attribute set by the script is not modelled)."
  },
  {
   "property": "C72",
   "status": "proved",
   "theorems": [
    "C72_fringe",
    "C72_score",
    "C72_confined",
    "C72_unreached",
    "C72_limit",
    "C72_laser",
    "C72_session"
   ],
   "note": "Noise-free; real numbers instead of floats; power meters (MeasurementDevice) at the measured end."
  },
  {
   "property": "C73",
   "status": "proved",
   "theorems": [
    "C73_foreign",
    "C73_count",
    "C73_restored",
    "C73_same",
    "C73_reading",
    "C73_protected"
   ],
   "note": "Models the scores and the RuntimeError; errors of the simulation itself are not outcomes of this model."
  },
  {
   "property": "C74",
   "status": "proved",
   "theorems": [
    "C74_generations",
    "C74_subpopulations",
    "C74_log",
    "C74_hall_of_fame",
    "C74_elitism_aborts",
    "C74_random_aborts",
    "C74_photo_aborts",
    "C74_vector_terminals",
    "C74_best_kept_refuted",
    "C74_negative_scores",
    "C74_rules"
   ],
   "note": "The refutation shows that the best graph of a generation can be dropped. For the composition scheme no claim is made about which graphs share a species."
  },
  {
   "property": "C75",
   "status": "proved",
   "theorems": [
    "C75_speciated_after",
    "C75_plain_after",
    "C75_two_runs"
   ],
   "note": "Processes in which every earlier call returned; the state after an exception is not modelled."
  },
  {
   "property": "C76",
   "status": "proved",
   "theorems": [
    "C76_exact",
    "C76_numbers",
    "C76_odd",
    "C76_odd_score",
    "C76_silent",
    "C76_session"
   ],
   "note": "The random numbers are arguments of the model; an array with nan or inf is the value None. Real numbers instead of floating point numbers."
  },
  {
   "property": "C77",
   "status": "proved",
   "theorems": [
    "C77_classes",
    "C77_detectors",
    "C77_evaluated",
    "C77_safe",
    "C77_radio",
    "C77_filter",
    "C77_suppression",
    "C77_pulse",
    "C77_better",
    "C77_kept"
   ],
   "note": "Set-ups of six scripts (start graph, library, grid, evaluator); the topology search itself is C74 and C75. A score that is nan or infinite is the value None. The laser of run_pulse_rep.py starts with its default values instead of the locked values of the script. Real numbers instead of floating point numbers."
  },
  {
   "property": "C78",
   "status": "proved",
   "theorems": [
    "C78_outcome",
    "C78_cleared",
    "C78_contents",
    "C78_session"
   ],
   "note": "noise off; the text labels are not modelled"
  },
  {
   "property": "C79",
   "status": "proved",
   "theorems": [
    "C79_estimate",
    "C79_exact",
    "C79_spectrum",
    "C79_scaling",
    "C79_modulator"
   ],
   "note": "curve_fit is an argument that minimises the squared deviation"
  },
  {
   "property": "C80",
   "status": "proved",
   "theorems": [
    "C80_drawing",
    "C80_hangs",
    "C80_names",
    "C80_table",
    "C80_selection",
    "C80_transforms",
    "C80_loaded"
   ],
   "note": "node labels are numbers already; coordinates are exact reals; of the plots only which lines exist and are visible is kept; the sensitivity plots are not modelled"
  },
  {
   "property": "C81",
   "status": "proved",
   "theorems": [
    "C81_roundtrip",
    "C81_exact",
    "C81_lost",
    "C81_inside",
    "C81_reload",
    "C81_apart",
    "C81_metadata",
    "C81_generations",
    "C81_places",
    "C81_missing",
    "C81_load_dir"
   ],
   "note": "names on the path are followed as POSIX does, without links, permissions or other processes; writing and reading of one object are oracles"
  },
  {
   "property": "C82",
   "status": "proved",
   "theorems": [
    "C82_print",
    "C82_session",
    "C82_flush",
    "C82_unclosed"
   ],
   "note": "each log is the text written through its own handle; outside IPython"
  },
  {
   "property": "C83",
   "status": "proved",
   "theorems": [
    "C83_scaled",
    "C83_fails",
    "C83_again",
    "C83_two",
    "C83_names",
    "C83_compare",
    "C83_compare_raises",
    "C83_spectrum",
    "C83_spectrum_labels_refuted"
   ],
   "note": "a plot is the data of its lines and its labels; real numbers, so the rounding of log10, nan and inf are not modelled"
  },
  {
   "property": "C84",
   "status": "proved",
   "theorems": [
    "C84_history",
    "C84_outcome",
    "C84_fresh",
    "C84_resized",
    "C84_stale"
   ],
   "note": ""
  },
  {
   "property": "C85",
   "status": "proved",
   "theorems": [
    "C85_place",
    "C85_kept",
    "C85_direct",
    "C85_evolves",
    "C85_returns",
    "C85_numbers_exist"
   ],
   "note": "the preferential rule and the Hessian evolver are outside the statement (C48, C11)"
  },
  {
   "property": "C86",
   "status": "proved",
   "theorems": [
    "C86_current",
    "C86_detector",
    "C86_noise",
    "C86_fixed",
    "C86_moments",
    "C86_loaded",
    "C86_made",
    "C86_by_name",
    "C86_apart",
    "C86_short",
    "C86_defaults"
   ],
   "note": "Values read by a simulation, not what is computed from them; the samples of the noise of an amplifier, which reads the amplifier itself, are left out."
  },
  {
   "property": "C87",
   "status": "proved",
   "theorems": [
    "C87_genetic",
    "C87_gradient",
    "C87_genetic_lost",
    "C87_resampling",
    "C87_resampling_each",
    "C87_untuned",
    "C87_gradient_fresh",
    "C87_gradient_given",
    "C87_gradient_untuned",
    "C87_projection",
    "C87_hessian",
    "C87_wrong_size",
    "C87_mutation",
    "C87_mutation_any",
    "C87_mutation_short"
   ],
   "note": "Evaluating, simulating and resampling do not write parameters; floor of the rates is a given number; that resampling raises for graphs with a connection is C20_resample_all_raises."
  },
  {
   "property": "C88",
   "status": "proved",
   "theorems": [
    "C88_scored",
    "C88_gradient",
    "C88_hessian",
    "C88_recovers",
    "C88_method",
    "C88_complete",
    "C88_sensitivity",
    "C88_sensitivity_states_refuted"
   ],
   "note": "Numbers are known by the traces they belong to; values are left out. Components are arbitrary functions that make no tracer of their own."
  },
  {
   "property": "C89",
   "status": "proved",
   "theorems": [
    "C89_scales",
    "C89_scaled",
    "C89_units",
    "C89_analysis",
    "C89_no_parameters",
    "C89_stems_refuted",
    "C89_part",
    "C89_binarized",
    "C89_node_part_empty",
    "C89_component_part"
   ],
   "note": "Numbers are real numbers; numpy's eig and argsort are functions that return eigenvectors as columns and a sorting permutation; the matrix of second derivatives is any square matrix of the right size. C89_stems_refuted shows that the plotted rows are not eigenvectors."
  },
  {
   "property": "C90",
   "status": "proved",
   "theorems": [
    "C90_elitism",
    "C90_elitism_script",
    "C90_rules",
    "C90_rules_script",
    "C90_evolvers",
    "C90_logs",
    "C90_evolvers_script",
    "C90_places",
    "C90_options",
    "C90_stray"
   ],
   "note": "Each run is the modelled topology_optimization in an arbitrary setting; the process it finds is one in which only optimisations that returned and other work took place. Directories, files and the redirected output are those of C81 and C82. The command line is modelled for full option names and values that do not begin with a dash."
  },
  {
   "property": "C91",
   "status": "proved",
   "theorems": [
    "C91_minima",
    "C91_sphere_refuted",
    "C91_unusable",
    "C91_samples",
    "C91_above",
    "C91_curvature",
    "C91_corner"
   ],
   "note": "The statement names the exceptions; C91_sphere_refuted gives the one about the marked point of the sphere. Exact real arithmetic. Names of the module that are not functions of this kind (np, TestFunction, rotate_coordinates) are left out of the statement about unknown names."
  },
  {
   "property": "C92",
   "status": "proved",
   "theorems": [
    "C92_points",
    "C92_mean",
    "C92_short",
    "C92_mean_refuted",
    "C92_order",
    "C92_names",
    "C92_draws",
    "C92_raises"
   ],
   "note": "C92_mean_refuted is the case of runs of different length named in the statement. What is on the disk is given by two functions (listing and log); colours, legend and axis labels are not modelled."
  },
  {
   "property": "C93",
   "status": "proved",
   "theorems": [
    "C93_loaded",
    "C93_labels",
    "C93_distinct",
    "C93_distinct_refuted",
    "C93_squares",
    "C93_bars",
    "C93_frame"
   ],
   "note": "C93_distinct_refuted is the case of two kinds of delay line named in the statement. The calls that update the panel are commented out in the code, so the theorems say what they do when called. The matrix and its eigenvectors are arguments; the colour map is a function; fonts, tools and the colour bar are not modelled."
  },
  {
   "property": "C94",
   "status": "proved",
   "theorems": [
    "C94_points",
    "C94_errors",
    "C94_band",
    "C94_begin",
    "C94_constant_refuted",
    "C94_finish",
    "C94_finish_refuted"
   ],
   "note": "The two refuted theorems are the negative parts of the statement: constant runs without a constant line, and a line that does not end at the mean of the last scores. Exact real numbers; scipy interp1d (linear) modelled with its search and its bounds."
  },
  {
   "property": "C95",
   "status": "proved",
   "theorems": [
    "C95_groups",
    "C95_drawn",
    "C95_colours",
    "C95_own",
    "C95_comparison",
    "C95_comparison_errors",
    "C95_comparison_colours"
   ],
   "note": "What a row has in a column is a function given from outside, since the run time is not in the model of the log. Colours are numbers."
  },
  {
   "property": "C96",
   "status": "proved",
   "theorems": [
    "C96_moved"
   ],
   "note": "Noise is off and numbers are real, as in C65. Every setting that a session reaches from a graph satisfies the hypothesis on the settings (C65_parameters)."
  },
  {
   "property": "C97",
   "status": "proved",
   "theorems": [
    "C97_frequency",
    "C97_time",
    "C97_line",
    "C97_mixed_refuted"
   ],
   "note": "Noise is off and numbers are real, as in C65. The witness across the groups has two samples in half a nanosecond."
  },
  {
   "property": "C98",
   "status": "proved",
   "theorems": [
    "C98_frequency",
    "C98_periodic",
    "C98_time",
    "C98_time_moved_refuted",
    "C98_frequency_local_refuted"
   ],
   "note": "Noise is off and numbers are real, as in C65."
  }
 ]
}
