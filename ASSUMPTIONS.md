# What `Print Assumptions` lists for the theorems of MANIFEST.json

This table was generated before the last theorems were added: 213 of the 499 theorems the manifest names are not in it.
For those, run `python3 tools/assumptions.py` on a built tree (it takes more than four minutes) or read the output of
`vcheck`, whose list of axioms covers the whole development.

Generated by `tools/assumptions.py`. "none" means closed under the global context. The full names are
`Coq.Reals.ClassicalDedekindReals.sig_forall_dec`, `Coq.Reals.ClassicalDedekindReals.sig_not_dec`,
`Coq.Logic.FunctionalExtensionality.functional_extensionality_dep` and `Coq.Logic.Classical_Prop.classic`: axioms of the
standard library. Every other axiom `vcheck` counts belongs to libraries that are loaded and is used by no theorem.

| theorem | file | axioms |
|---|---|---|
| C01_all_values_survive_refuted | PropIntParam.v | none |
| C01_int_roundtrip | PropIntParam.v | none |
| C02_size_minimal | PropIntParam.v | none |
| C03_decode | PropIntParam.v | none |
| C03_decode_injective | PropIntParam.v | none |
| C03_wrong_size | PropIntParam.v | none |
| C04_construction | PropParams.v | functional_extensionality_dep, sig_forall_dec |
| C04_rejects | PropParams.v | functional_extensionality_dep, sig_forall_dec |
| C05_binary64_decode_valid | PropParams.v | classic, functional_extensionality_dep, sig_forall_dec, sig_not_dec |
| C05_binary64_reencode_refuted | PropParams.v | classic, functional_extensionality_dep, sig_forall_dec, sig_not_dec |
| C05_exact_roundtrip | PropParams.v | functional_extensionality_dep, sig_forall_dec |
| C06_decode_slices | PropParams.v | none |
| C06_encode_slices | PropParams.v | none |
| C06_exact_roundtrip | PropParams.v | functional_extensionality_dep, sig_forall_dec |
| C06_wrong_size | PropParams.v | none |
| C07_only_in_bounds_refuted | PropParams.v | classic, functional_extensionality_dep, sig_forall_dec, sig_not_dec |
| C07_set_values | PropParams.v | functional_extensionality_dep, sig_forall_dec |
| C08_access | PropParams.v | none |
| C08_check | PropParams.v | none |
| C08_decode | PropParams.v | none |
| C08_encode | PropParams.v | none |
| C08_initialize | PropParams.v | none |
| C08_initialize_n | PropParams.v | none |
| C08_uninitialised | PropParams.v | none |
| C09_reinitialise_breaks_refuted | PropParams.v | classic, functional_extensionality_dep, sig_forall_dec, sig_not_dec |
| C09_second_initialize | PropParams.v | none |
| C09_size_constant | PropParams.v | none |
| C09_size_set_once | PropParams.v | none |
| C10_clone_answers | PropHeap.v | none |
| C10_clone_equal | PropParams.v | none |
| C10_clone_independent | PropHeap.v | none |
| C10_constructed_wf | PropParams.v | none |
| C10_example_clone | PropHeap.v | none |
| C10_independent | PropHeap.v | none |
| C10_value_semantics | PropHeap.v | none |
| C11_in_range | PropRandom.v | none |
| C11_onto | PropRandom.v | none |
| C11_reversed_refuted | PropRandom.v | none |
| C11_undefined | PropRandom.v | none |
| C12_binary64 | PropRandom.v | classic, functional_extensionality_dep, sig_forall_dec, sig_not_dec |
| C12_binary64_upper_refuted | PropRandom.v | classic, functional_extensionality_dep, sig_forall_dec, sig_not_dec |
| C12_exact | PropRandom.v | functional_extensionality_dep, sig_forall_dec |
| C12_vector | PropRandom.v | none |
| C13_binary64 | PropRandom.v | classic, functional_extensionality_dep, sig_forall_dec, sig_not_dec |
| C13_exact | PropRandom.v | functional_extensionality_dep, sig_forall_dec |
| C13_monotone | PropRandom.v | classic, functional_extensionality_dep, sig_forall_dec, sig_not_dec |
| C14_bits_once | PropRandom.v | none |
| C14_glibc_constructor_undefined | PropRandom.v | none |
| C15_add_then_get | PropCache.v | classic, functional_extensionality_dep, sig_forall_dec, sig_not_dec |
| C15_get_returns_last_stored | PropCache.v | classic, functional_extensionality_dep, sig_forall_dec, sig_not_dec |
| C15_is_cached_iff | PropCache.v | classic, functional_extensionality_dep, sig_forall_dec, sig_not_dec |
| C15_read_values_never_evicted | PropCache.v | classic, functional_extensionality_dep, sig_forall_dec, sig_not_dec |
| C16_add | PropCache.v | classic, functional_extensionality_dep, sig_forall_dec, sig_not_dec |
| C16_create | PropCache.v | classic, functional_extensionality_dep, sig_forall_dec, sig_not_dec |
| C16_fails_for_ever | PropCache.v | classic, functional_extensionality_dep, sig_forall_dec, sig_not_dec |
| C16_queries_grow | PropCache.v | classic, functional_extensionality_dep, sig_forall_dec, sig_not_dec |
| C17_flips_exactly | PropMutators.v | none |
| C17_stream | PropMutators.v | none |
| C18_construction_exact | PropMutators.v | functional_extensionality_dep, sig_forall_dec |
| C18_gap_pattern | PropMutators.v | classic, functional_extensionality_dep, sig_forall_dec, sig_not_dec |
| C18_window | PropMutators.v | classic, functional_extensionality_dep, sig_forall_dec, sig_not_dec |
| C18_zero_probability_undefined | PropMutators.v | classic, functional_extensionality_dep, sig_forall_dec, sig_not_dec |
| C19_binary64_range_refuted | PropMutators.v | classic, functional_extensionality_dep, sig_forall_dec, sig_not_dec |
| C19_construction | PropMutators.v | classic, functional_extensionality_dep, sig_forall_dec, sig_not_dec |
| C19_context_applied | PropGATrace.v | functional_extensionality_dep, sig_forall_dec |
| C19_contexts | PropGATrace.v | classic, functional_extensionality_dep, sig_forall_dec, sig_not_dec |
| C19_exact | PropMutators.v | functional_extensionality_dep, sig_forall_dec |
| C19_logged_records | PropGATrace.v | none |
| C19_one_generation | PropMutators.v | classic, functional_extensionality_dep, sig_forall_dec, sig_not_dec |
| C20_bad_sizes | PropIndividual.v | none |
| C20_crossover | PropIndividual.v | none |
| C20_tails_exchanged | PropIndividual.v | none |
| C21_in_step | PropIndividual.v | classic, functional_extensionality_dep, sig_forall_dec, sig_not_dec |
| C21_initialized_refuted | PropIndividual.v | classic, functional_extensionality_dep, sig_forall_dec, sig_not_dec |
| C21_library | PropIndividual.v | classic, functional_extensionality_dep, sig_forall_dec, sig_not_dec |
| C21_library_valid | PropIndividual.v | classic, functional_extensionality_dep, sig_forall_dec, sig_not_dec |
| C21_valid | PropIndividual.v | classic, functional_extensionality_dep, sig_forall_dec, sig_not_dec |
| C22_empty_refuted | PropText.v | classic, functional_extensionality_dep, sig_forall_dec, sig_not_dec |
| C22_population_rejects | PropText.v | classic, functional_extensionality_dep, sig_forall_dec, sig_not_dec |
| C22_population_roundtrip | PropText.v | classic, functional_extensionality_dep, sig_forall_dec, sig_not_dec |
| C22_population_valid | PropText.v | classic, functional_extensionality_dep, sig_forall_dec, sig_not_dec |
| C22_rejects | PropText.v | classic, functional_extensionality_dep, sig_forall_dec, sig_not_dec |
| C22_roundtrip | PropText.v | classic, functional_extensionality_dep, sig_forall_dec, sig_not_dec |
| C22_write | PropText.v | none |
| C23_create | PropGA.v | none |
| C23_minimisation_refused | PropGATrace.v | none |
| C24_best_ever | PropGA.v | classic, functional_extensionality_dep, sig_forall_dec, sig_not_dec |
| C24_initial_parameters_refuted | PropGA.v | classic, functional_extensionality_dep, sig_forall_dec, sig_not_dec |
| C24_library | PropGA.v | classic, functional_extensionality_dep, sig_forall_dec, sig_not_dec |
| C24_returned_is_best | PropGA.v | classic, functional_extensionality_dep, sig_forall_dec, sig_not_dec |
| C25_initial_unchecked_refuted | PropGA.v | classic, functional_extensionality_dep, sig_forall_dec, sig_not_dec |
| C25_population | PropGA.v | classic, functional_extensionality_dep, sig_forall_dec, sig_not_dec |
| C26_elitism | PropGA.v | classic, functional_extensionality_dep, sig_forall_dec, sig_not_dec |
| C27_exact_share | PropSelect.v | functional_extensionality_dep, sig_forall_dec |
| C27_first_reaching | PropSelect.v | none |
| C27_infinite_fitness_refuted | PropSelect.v | classic, functional_extensionality_dep, sig_forall_dec, sig_not_dec |
| C27_never_throws | PropSelect.v | classic, functional_extensionality_dep, sig_forall_dec, sig_not_dec |
| C28_collision_or_other_function_refuted | PropSelect.v | classic, functional_extensionality_dep, sig_forall_dec, sig_not_dec |
| C28_counts | PropSelect.v | classic, functional_extensionality_dep, sig_forall_dec, sig_not_dec |
| C28_right_individuals | PropSelect.v | classic, functional_extensionality_dep, sig_forall_dec, sig_not_dec |
| C29_empty | PropMisc.v | none |
| C29_minimise_takes_nan_refuted | PropMisc.v | none |
| C29_optimization | PropMisc.v | none |
| C29_simple | PropMisc.v | none |
| C30_command_line | PropSettings.v | none |
| C30_get | PropSettings.v | none |
| C30_put_get | PropSettings.v | none |
| C31_dotted_key_refuted | PropSettings.v | none |
| C31_merge | PropSettings.v | none |
| C32_do_tasks | PropParallel.v | none |
| C32_results_in_order | PropParallel.v | none |
| C33_at_most_once | PropPool.v | none |
| C33_no_deadlock | PropPool.v | none |
| C33_results | PropPool.v | none |
| C33_runs_finite | PropPool.v | none |
| C34_never_returns | PropPool.v | none |
| C34_waits_for_ever | PropPool.v | none |
| C35_all_returned | PropPool.v | none |
| C35_early_return | PropPool.v | none |
| C36_fifo | PropQueue.v | none |
| C36_linearizable | PropQueue.v | none |
| C36_mutual_exclusion | PropQueue.v | none |
| C36_no_lost_wakeup | PropQueue.v | none |
| C36_runs_finite | PropQueue.v | none |
| C37_dispatch | PropMpi.v | none |
| C37_no_deadlock | PropMpi.v | none |
| C37_results | PropMpi.v | none |
| C37_runs_finite | PropMpi.v | none |
| C38_one_at_a_time | PropMpi.v | none |
| C38_unfinished_throws | PropMpi.v | none |
| C38_wait_pass | PropMpi.v | none |
| C39_statistics | PropParallel.v | none |
| C40_best | PropParallel.v | none |
| C40_fails_iff | PropParallel.v | none |
| C40_invalid_mpi_burns | PropParallel.v | none |
| C40_one_mpi_pool | PropParallel.v | none |
| C41_history | PropParallel.v | none |
| C41_unregistered_throws | PropParallel.v | none |
| C42_grid | PropSearches.v | classic, functional_extensionality_dep, sig_forall_dec, sig_not_dec |
| C42_grid_values_exact | PropSearches.v | functional_extensionality_dep, sig_forall_dec |
| C42_invalid | PropSearches.v | none |
| C42_overflow_refuted | PropSearches.v | none |
| C42_points_any_arithmetic | PropSearches.v | none |
| C42_points_distinct_exact | PropSearches.v | functional_extensionality_dep, sig_forall_dec |
| C43_best_sample | PropSearches.v | classic, functional_extensionality_dep, sig_forall_dec, sig_not_dec |
| C43_bounds_binary64 | PropSearches.v | classic, functional_extensionality_dep, sig_forall_dec, sig_not_dec |
| C43_bounds_exact | PropSearches.v | functional_extensionality_dep, sig_forall_dec |
| C43_nested | PropSearches.v | classic, functional_extensionality_dep, sig_forall_dec, sig_not_dec |
| C43_no_points | PropSearches.v | classic, functional_extensionality_dep, sig_forall_dec, sig_not_dec |
| C44_coordinates | PropAnnealing.v | classic, functional_extensionality_dep, sig_forall_dec, sig_not_dec |
| C44_may_lose_best_refuted | PropAnnealing.v | classic, functional_extensionality_dep, sig_forall_dec, sig_not_dec |
| C44_run | PropAnnealing.v | classic, functional_extensionality_dep, sig_forall_dec, sig_not_dec |
| C45_exploratory | PropHooke.v | classic, functional_extensionality_dep, sig_forall_dec, sig_not_dec |
| C45_explore | PropHookeRun.v | classic, functional_extensionality_dep, sig_forall_dec, sig_not_dec |
| C45_iteration_limit_refuted | PropHooke.v | classic, functional_extensionality_dep, sig_forall_dec, sig_not_dec |
| C45_never_worse | PropHooke.v | classic, functional_extensionality_dep, sig_forall_dec, sig_not_dec |
| C45_result | PropHookeRun.v | classic, functional_extensionality_dep, sig_forall_dec, sig_not_dec |
| C46_bounds | PropNMBounds.v | functional_extensionality_dep, sig_forall_dec, sig_not_dec |
| C46_center_of_mass | PropNelderMead.v | functional_extensionality_dep, sig_forall_dec, sig_not_dec |
| C46_completes | PropNelderMead.v | none |
| C46_indexes | PropNelderMead.v | classic, functional_extensionality_dep, sig_forall_dec, sig_not_dec |
| C46_indexes_too_few | PropNelderMead.v | none |
| C46_moves | PropNelderMead.v | functional_extensionality_dep, sig_forall_dec, sig_not_dec |
| C46_out_of_bounds_refuted | PropNMBounds.v | classic, functional_extensionality_dep, sig_forall_dec, sig_not_dec |
| C46_process | PropNMPass.v | functional_extensionality_dep, sig_forall_dec, sig_not_dec |
| C46_reduction | PropNelderMead.v | functional_extensionality_dep, sig_forall_dec, sig_not_dec |
| C46_regular_simplex | PropNelderMead.v | functional_extensionality_dep, sig_forall_dec, sig_not_dec |
| C46_returns_worst_vertex | PropNelderMead.v | classic, functional_extensionality_dep, sig_forall_dec, sig_not_dec |
| C46_reuse_refuted | PropNelderMead.v | none |
| C46_worse_than_start_refuted | PropNelderMead.v | classic, functional_extensionality_dep, sig_forall_dec, sig_not_dec |
| C47_clamp_binary64_refuted | PropRosenbrock.v | classic, functional_extensionality_dep, sig_forall_dec, sig_not_dec |
| C47_evaluations | PropRosenbrock.v | none |
| C47_initial_basis | PropRosenbrock.v | functional_extensionality_dep, sig_forall_dec, sig_not_dec |
| C47_invariants | PropRosenbrock.v | functional_extensionality_dep, sig_forall_dec, sig_not_dec |
| C47_move | PropRosenbrock.v | functional_extensionality_dep, sig_forall_dec, sig_not_dec |
| C47_new_basis | PropRosenbrock.v | functional_extensionality_dep, sig_forall_dec, sig_not_dec |
| C47_reach | PropRosenbrock.v | functional_extensionality_dep, sig_forall_dec, sig_not_dec |
| C47_total | PropRosenbrock.v | none |
| C47_worse_refuted | PropRosenbrock.v | functional_extensionality_dep, sig_forall_dec, sig_not_dec |
| C48_commutative | PropDsp.v | classic, functional_extensionality_dep, sig_forall_dec, sig_not_dec |
| C48_definition | PropDsp.v | classic, functional_extensionality_dep, sig_forall_dec, sig_not_dec |
| C48_different_lengths | PropDsp.v | none |
| C48_identity | PropDsp.v | classic, functional_extensionality_dep, sig_forall_dec, sig_not_dec |
| C48_linear | PropDsp.v | classic, functional_extensionality_dep, sig_forall_dec, sig_not_dec |
| C48_shift | PropDsp.v | classic, functional_extensionality_dep, sig_forall_dec, sig_not_dec |
| C49_definition | PropDsp.v | classic, functional_extensionality_dep, sig_forall_dec, sig_not_dec |
| C49_inverse_left | PropDsp.v | classic, functional_extensionality_dep, sig_forall_dec, sig_not_dec |
| C49_inverse_right | PropDsp.v | classic, functional_extensionality_dep, sig_forall_dec, sig_not_dec |
| C49_linear | PropDsp.v | classic, functional_extensionality_dep, sig_forall_dec, sig_not_dec |
| C49_parseval | PropDsp.v | classic, functional_extensionality_dep, sig_forall_dec, sig_not_dec |
| C50_convolution_theorem | PropDsp.v | classic, functional_extensionality_dep, sig_forall_dec, sig_not_dec |
| C50_different_lengths | PropDsp.v | none |
| C50_same_result | PropDsp.v | classic, functional_extensionality_dep, sig_forall_dec, sig_not_dec |
| C51_linear | PropScales.v | functional_extensionality_dep, sig_forall_dec |
| C51_linear_last_binary64_refuted | PropScales.v | classic, functional_extensionality_dep, sig_forall_dec, sig_not_dec |
| C51_linear_nan_refuted | PropScales.v | classic, functional_extensionality_dep, sig_forall_dec, sig_not_dec |
| C51_logarithmic | PropScales.v | functional_extensionality_dep, sig_forall_dec |
| C51_logarithmic_binary64 | PropScales.v | classic, functional_extensionality_dep, sig_forall_dec, sig_not_dec |
| C51_logarithmic_doubles | PropScales.v | functional_extensionality_dep, sig_forall_dec |
| C51_logarithmic_invalid | PropScales.v | none |
| C51_logarithmic_overflow_refuted | PropScales.v | none |
| C51_logarithmic_underflow_refuted | PropScales.v | classic, functional_extensionality_dep, sig_forall_dec, sig_not_dec |
| C52_affine | PropSpline.v | functional_extensionality_dep, sig_forall_dec, sig_not_dec |
| C52_continuously_differentiable | PropSpline.v | classic, functional_extensionality_dep, sig_forall_dec, sig_not_dec |
| C52_initialize | PropSpline.v | none |
| C52_interpolates | PropSpline.v | functional_extensionality_dep, sig_forall_dec, sig_not_dec |
| C52_nan_refuted | PropSpline.v | classic, functional_extensionality_dep, sig_forall_dec, sig_not_dec |
| C52_uninitialised | PropSpline.v | none |
| C53_cache_throws_refuted | PropFastWavelet.v | classic, functional_extensionality_dep, sig_forall_dec, sig_not_dec |
| C53_cache_transparent | PropFastWavelet.v | classic, functional_extensionality_dep, sig_forall_dec, sig_not_dec |
| C53_no_cache | PropFastWavelet.v | classic, functional_extensionality_dep, sig_forall_dec, sig_not_dec |
| C53_scale | PropFastWavelet.v | classic, functional_extensionality_dep, sig_forall_dec, sig_not_dec |
| C53_scales_exact | PropFastWavelet.v | classic, functional_extensionality_dep, sig_forall_dec, sig_not_dec |
| C53_sizes | PropFastWavelet.v | classic, functional_extensionality_dep, sig_forall_dec, sig_not_dec |
| C53_transform | PropFastWavelet.v | classic, functional_extensionality_dep, sig_forall_dec, sig_not_dec |
| C54_end_binary64_refuted | PropWaveletFn.v | classic, functional_extensionality_dep, sig_forall_dec, sig_not_dec |
| C54_few_points | PropWaveletFn.v | none |
| C54_haar | PropWaveletFn.v | functional_extensionality_dep, sig_forall_dec, sig_not_dec |
| C54_haar_binary64 | PropWaveletFn.v | classic, functional_extensionality_dep, sig_forall_dec, sig_not_dec |
| C54_haar_nan_refuted | PropWaveletFn.v | classic, functional_extensionality_dep, sig_forall_dec, sig_not_dec |
| C54_spline_based | PropWaveletFn.v | functional_extensionality_dep, sig_forall_dec, sig_not_dec |
| C55_build | PropCwt.v | none |
| C55_max_changed_refuted | PropCwt.v | none |
| C55_progress | PropCwt.v | classic, functional_extensionality_dep, sig_forall_dec, sig_not_dec |
| C55_scales | PropCwt.v | classic, functional_extensionality_dep, sig_forall_dec, sig_not_dec |
| C55_step_negative | PropCwt.v | none |
| C55_step_zero | PropCwt.v | none |
| C55_total | PropCwt.v | none |
| C55_values | PropCwt.v | classic, functional_extensionality_dep, sig_forall_dec, sig_not_dec |
| C55_windows | PropCwt.v | none |
| C56_array_binary64_refuted | PropTransfer.v | classic, functional_extensionality_dep, sig_forall_dec, sig_not_dec |
| C56_array_exact | PropTransfer.v | functional_extensionality_dep, sig_forall_dec |
| C56_bounds_not_sent | PropTransfer.v | none |
| C56_count_task | PropTransfer.v | classic, functional_extensionality_dep, sig_forall_dec, sig_not_dec |
| C56_decoded | PropTransfer.v | none |
| C56_default_prototype | PropTransfer.v | classic, functional_extensionality_dep, sig_forall_dec, sig_not_dec |
| C56_discrete | PropTransfer.v | none |
| C56_function_state_not_sent | PropTransfer.v | classic, functional_extensionality_dep, sig_forall_dec, sig_not_dec |
| C56_maximum_lost | PropTransfer.v | none |
| C56_not_transferable | PropTransfer.v | classic, functional_extensionality_dep, sig_forall_dec, sig_not_dec |
| C56_optimizers | PropTransfer.v | classic, functional_extensionality_dep, sig_forall_dec, sig_not_dec |
| C56_register | PropTransfer.v | classic, functional_extensionality_dep, sig_forall_dec, sig_not_dec |
| C56_result | PropTransfer.v | classic, functional_extensionality_dep, sig_forall_dec, sig_not_dec |
| C56_stream | PropTransfer.v | classic, functional_extensionality_dep, sig_forall_dec, sig_not_dec |
| C56_task | PropTransfer.v | classic, functional_extensionality_dep, sig_forall_dec, sig_not_dec |
| C56_task_end_to_end | PropTransfer.v | classic, functional_extensionality_dep, sig_forall_dec, sig_not_dec |
| C56_unregistered | PropTransfer.v | classic, functional_extensionality_dep, sig_forall_dec, sig_not_dec |
| C56_value | PropTransfer.v | none |
| C57_meaning | PropMisc.v | classic, functional_extensionality_dep, sig_forall_dec, sig_not_dec |
| C57_non_finite | PropMisc.v | classic, functional_extensionality_dep, sig_forall_dec, sig_not_dec |
| C57_reflexive | PropMisc.v | classic, functional_extensionality_dep, sig_forall_dec, sig_not_dec |
| C57_symmetric | PropMisc.v | classic, functional_extensionality_dep, sig_forall_dec, sig_not_dec |
| C57_transitive_refuted | PropMisc.v | classic, functional_extensionality_dep, sig_forall_dec, sig_not_dec |
| C57_vectors | PropMisc.v | classic, functional_extensionality_dep, sig_forall_dec, sig_not_dec |
| C58_delays | PropMisc.v | none |
| C59_array | PropOptim.v | classic, functional_extensionality_dep, sig_forall_dec, sig_not_dec |
| C59_constraints_guard | PropOptim.v | none |
| C59_maximise_is_minimise_opposite | PropOptim.v | classic, functional_extensionality_dep, sig_forall_dec, sig_not_dec |
| C59_only_admissible_points | PropOptim.v | none |
| C59_result_stored | PropOptim.v | none |
| C60_composite_initial_refuted | PropGA.v | classic, functional_extensionality_dep, sig_forall_dec, sig_not_dec |
| C60_composite_rejected | PropGA.v | none |
| C60_same_meta_same_meaning | PropGA.v | functional_extensionality_dep, sig_forall_dec |
| C60_validation | PropGA.v | classic, functional_extensionality_dep, sig_forall_dec, sig_not_dec |
| C61_evaluations | PropGradient.v | none |
| C61_limit | PropGradient.v | functional_extensionality_dep |
| C61_limit_0_1_refuted | PropGradient.v | none |
| C61_linear_binary64_refuted | PropGradient.v | classic, functional_extensionality_dep, sig_forall_dec, sig_not_dec |
| C61_quadratic | PropGradient.v | functional_extensionality_dep, sig_forall_dec, sig_not_dec |
| C61_start_at_minimum_binary64_refuted | PropGradient.v | classic, functional_extensionality_dep, sig_forall_dec, sig_not_dec |
| C61_stationary_start | PropGradient.v | none |
| C61_throws_only_at_the_start | PropGradient.v | functional_extensionality_dep, sig_forall_dec, sig_not_dec |
| C62_border_refuted | PropSteepest.v | functional_extensionality_dep, sig_forall_dec, sig_not_dec |
| C62_constant_never_ends_refuted | PropSteepest.v | none |
| C62_evaluations | PropSteepest.v | none |
| C62_evaluations_int_abs | PropSteepest.v | classic, functional_extensionality_dep, sig_forall_dec, sig_not_dec |
| C62_golden_section | PropSteepest.v | functional_extensionality_dep, sig_forall_dec, sig_not_dec |
| C62_int_abs_refuted | PropSteepest.v | functional_extensionality_dep, sig_forall_dec, sig_not_dec |
| C62_limit | PropSteepest.v | functional_extensionality_dep |
| C62_line_search_binary64_refuted | PropSteepest.v | classic, functional_extensionality_dep, sig_forall_dec, sig_not_dec |
| C62_linear_never_ends_binary64_refuted | PropSteepest.v | classic, functional_extensionality_dep, sig_forall_dec, sig_not_dec |
| C62_one_iteration_refuted | PropSteepest.v | none |
| C62_perfect_step_binary64_refuted | PropSteepest.v | classic, functional_extensionality_dep, sig_forall_dec, sig_not_dec |
| C62_previous_point_refuted | PropSteepest.v | none |
| C62_start_at_minimum_binary64 | PropSteepest.v | classic, functional_extensionality_dep, sig_forall_dec, sig_not_dec |
| C62_stationary_never_ends_refuted | PropSteepest.v | functional_extensionality_dep, sig_forall_dec, sig_not_dec |
