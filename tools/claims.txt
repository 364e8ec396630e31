C01 | proved | C01_int_roundtrip C01_all_values_survive_refuted | round trip iff min <= v < min+2^k; counterexample for v = max
C02 | proved | C02_size_minimal | least k; undefined outside the stated range
C03 | proved | C03_decode C03_decode_injective C03_wrong_size | for every bit string
C04 | proved | C04_construction C04_rejects C04_binary64 C04_binary64_accepts C04_binary64_maximum_refuted | exact arithmetic (Coq reals), and binary64 (Flocq): the kept value is within the actual precision plus a slack of 2^-53*(4*width + largest magnitude); the maximum of some ranges fails its own CheckConstraints (refutation)
C05 | proved | C05_exact_roundtrip C05_binary64_decode_valid C05_binary64_reencode C05_binary64_reencode_refuted | exact arithmetic, and binary64 (Flocq): validity of decoding, refutation of re-encoding, and the bound on the drift (the same chromosome or the one before it)
C06 | proved | C06_encode_slices C06_decode_slices C06_exact_roundtrip C06_wrong_size C06_binary64 | any arithmetic; round trip in exact arithmetic; in binary64 every value comes back within the actual precision (plus the slack of C04)
C07 | proved | C07_set_values C07_only_in_bounds_refuted C07_binary64 | exact arithmetic; binary64 counterexample, and acceptance of values within the bounds away from the maximum (at the maximum: C04_binary64_maximum_refuted)
C08 | proved | C08_initialize C08_encode C08_decode C08_check C08_uninitialised C08_access C08_initialize_n C08_roundtrip | any arithmetic
C09 | proved | C09_size_constant C09_size_set_once C09_second_initialize C09_reinitialise_breaks_refuted | every call history
C10 | proved | C10_clone_equal C10_constructed_wf C10_value_semantics C10_independent C10_clone_independent C10_clone_answers C10_example_clone | objects in a heap with pointers (Heap.v) behave as separate values (HeapSpec.v) in every history; two misuses of Initialize are outside of the specification
C11 | proved | C11_in_range C11_onto C11_undefined C11_reversed_refuted | every rand() result
C12 | proved | C12_exact C12_vector C12_binary64 C12_binary64_upper_refuted | exact arithmetic; in binary64 the upper bound is refuted
C13 | proved | C13_exact C13_binary64 C13_monotone | 
C14 | proved | C14_bits_once C14_glibc_constructor_undefined | 
C15 | proved | C15_get_returns_last_stored C15_is_cached_iff C15_read_values_never_evicted C15_add_then_get | every call history
C16 | proved | C16_add C16_queries_grow C16_fails_for_ever C16_create | 
C17 | proved | C17_flips_exactly C17_stream | 
C18 | proved | C18_gap_pattern C18_window C18_construction_exact C18_zero_probability_undefined | 
C19 | proved | C19_exact C19_one_generation C19_binary64_range_refuted C19_construction C19_contexts C19_logged_records C19_context_applied C19_binary64 C19_binary64_no_throw | exact arithmetic; refuted in binary64; C19_contexts is the order of context settings and mutations in a whole run of the genetic algorithm; C19_binary64 bounds the error of the doubles and C19_binary64_no_throw says when mutation cannot throw
C20 | proved | C20_tails_exchanged C20_crossover C20_bad_sizes | 
C21 | proved | C21_in_step C21_valid C21_library C21_library_valid C21_initialized_refuted | 
C22 | proved | C22_roundtrip C22_write C22_rejects C22_empty_refuted C22_population_roundtrip C22_population_rejects C22_population_rejects_chromosome C22_population_rejects_garbage C22_population_rejects_negative C22_population_rejects_large C22_population_plus C22_whitespace C22_population_valid C22_unreadable_fitness C22_unreadable_population | Over any printer and reader of doubles; what a printed double is read back as is a hypothesis (reads, unreadable), met in C22_witness.
C23 | proved | C23_create C23_minimisation_refused | every argument tuple
C24 | proved | C24_best_ever C24_returned_is_best C24_library C24_initial_parameters_refuted C24_total C24_total_flip_bit C24_total_linear C24_runs_are_calls C24_any_mutator_calls C24_flip_bit_calls C24_linear_calls C24_int_survives C24_composite_survives C24_composite_alike C24_decoded_survives C24_array_survives_refuted | every run; the returned parameters are refuted when initial parameters were given, and proved when each of them survives its own encoding (C24_returned_is_best takes both; C24_int_survives says which integer parameters do, C24_composite_survives and C24_composite_alike carry it to composites; C24_decoded_survives: so does every array-free object that was decoded from a chromosome, such as the result of an earlier Optimize; witnesses C24_composite_meets, C24_decoded_meets; C24_array_survives_refuted: a decoded array of doubles need not). C24_any_mutator_calls / C24_flip_bit_calls (PropGABestCalls.v): any number of calls on one object with the same objective function, the cache kept, with or without initial parameters; witness C24_calls_witness. C24_total (PropGABest.v) assumes nothing about the run: it ends (C79) and no NaN is met, the objective values being in [0, 2^990]; witness C24_total_witness.
C25 | proved | C25_population C25_initial_unchecked_refuted | every generation after the initial one, and the initial one unless given by parameters that do not survive their own encoding
C26 | proved | C26_elitism C26_best_lost | every generation
C27 | proved | C27_first_reaching C27_never_throws C27_exact_share C27_infinite_fitness_refuted | binary64 as executed for never throwing; exact arithmetic for the shares; an infinite fitness is the exception
C28 | proved | C28_right_individuals C28_counts C28_collision_or_other_function_refuted | every history of calls; collisions and a changed objective function are refuted in general
C29 | proved | C29_simple C29_optimization C29_empty C29_minimise_takes_nan_refuted | every list of values without NaN; NaN refuted when minimising
C30 | proved | C30_command_line C30_get C30_put_get | every command line whose setting names do not end with a dot, every initial tree
C31 | proved | C31_merge C31_dotted_key_refuted | every left tree, every right tree with distinct dot-free keys; dotted keys refuted
C32 | proved | C32_do_tasks C32_results_in_order | Every call of the sequential pool, tasks with arbitrary effects on a shared world.
C33 | proved | C33_results C33_at_most_once C33_no_deadlock C33_runs_finite C33_schedules | Every schedule, any number of workers, tasks and concurrent calls; queues atomic (justified by C36). ThreadWorkerPool::DoTasks additionally refuses pools of fewer than 2 threads.
C34 | proved | C34_never_returns C34_waits_for_ever | Every schedule; std::exception only.
C35 | proved | C35_early_return C35_all_returned | Existence of the bad schedule for every pool size, plus what concurrent calls can still rely on.
C36 | proved | C36_linearizable C36_fifo C36_mutual_exclusion C36_no_lost_wakeup C36_runs_finite C36_schedules | Any number of threads and programs, every interleaving at the level of single mutex and condition variable operations, including spurious wake-ups; thread interruption (pool destructor) and IsEmpty (does not compile when used) are not modelled.
C37 | proved | C37_dispatch C37_results C37_no_deadlock C37_runs_finite C37_schedules | Every order of worker completions, any number of ranks, tasks and messages per result; MPI point-to-point order assumed; tasks that throw in the worker process: C75.
C38 | proved | C38_one_at_a_time C38_unfinished_throws C38_wait_pass | Any history of uses of a chain and any answers of request tests.
C39 | proved | C39_statistics | Any sequence of registrations; int overflow of the counters not modelled.
C40 | proved | C40_best C40_fails_iff C40_one_mpi_pool C40_invalid_mpi_burns | "Never fails" is refuted: exact failure condition proved (hardware_concurrency() = 0 with threads enabled and no usable MPI pool).
C41 | proved | C41_history C41_unregistered_throws | Any history of registrations and look-ups.
C42 | proved | C42_grid C42_points_any_arithmetic C42_grid_values_exact C42_points_distinct_exact C42_invalid C42_overflow_refuted C42_binary64 C42_binary64_bounds_refuted | Any dimension and grid size; the number of points is a C++ size_t: C42_overflow_refuted shows the wrap mod 2^64. C42_binary64 is the grid computed in doubles; C42_binary64_bounds_refuted shows it may miss or exceed the upper bound.
C43 | proved | C43_best_sample C43_bounds_exact C43_bounds_binary64 C43_no_points C43_nested | Any random draws; with a nested optimiser the points are those it returns.
C44 | proved | C44_run C44_coordinates C44_may_lose_best_refuted | Any random draws and any acceptance function.
C45 | proved | C45_never_worse C45_exploratory C45_iteration_limit_refuted C45_explore C45_result C45_process C45_process_unique | The whole run as an explicit process (any arithmetic, any objective) and, for a NaN-free objective, the point it ends in.
C46 | proved | C46_completes C46_returns_worst_vertex C46_worse_than_start_refuted C46_reuse_refuted C46_indexes C46_indexes_too_few C46_regular_simplex C46_moves C46_center_of_mass C46_reduction C46_process C46_bounds C46_out_of_bounds_refuted | The whole run as an explicit relation (C46_process); where the points asked for can lie. Completion and the returned vertex in any arithmetic; geometry in exact reals.
C47 | proved | C47_new_basis C47_initial_basis C47_evaluations C47_total C47_invariants C47_reach C47_move C47_worse_refuted C47_clamp_binary64_refuted | Orthonormal basis, non-zero and bounded steps in exact arithmetic; evaluation count and normal end in any arithmetic; the step bound is refuted for binary64 and the result can be worse than the start.
C48 | proved | C48_definition C48_different_lengths C48_commutative C48_linear C48_identity C48_shift | Exact complex arithmetic, every length.
C49 | proved | C49_definition C49_inverse_left C49_inverse_right C49_linear C49_parseval | Exact complex arithmetic, every length including 0.
C50 | proved | C50_convolution_theorem C50_same_result C50_different_lengths | Exact complex arithmetic over the discrete Fourier transform; the FFTW based transform is external.
C51 | proved | C51_linear C51_linear_last_binary64_refuted C51_linear_nan_refuted C51_logarithmic C51_logarithmic_doubles C51_logarithmic_invalid C51_logarithmic_overflow_refuted C51_logarithmic_binary64 C51_logarithmic_underflow_refuted C51_linear_binary64 | exact arithmetic for the linear scale, with binary64 counterexamples; logarithmic scale also in binary64; C51_linear_binary64 bounds the error of the linear scale in doubles
C52 | proved | C52_initialize C52_uninitialised C52_interpolates C52_continuously_differentiable C52_affine C52_nan_refuted C52_binary64 C52_last_binary64 C52_last_refuted C52_overflow_refuted | C52_binary64 and C52_last_binary64 are for the double precision program and data of moderate size (|x|, |y| at most 2^100, points at least 2^-100 apart); between the training points only finiteness is proved there, because the slope weights are discontinuous in the data.
C53 | proved | C53_scale C53_cache_transparent C53_no_cache C53_scales_exact C53_sizes C53_transform C53_cache_throws_refuted | Exact complex arithmetic with FFTW (external) assumed to compute the discrete Fourier transform for C53_transform; the cache theorems hold in any arithmetic and for any FFTW result.
C54 | proved | C54_haar C54_haar_binary64 C54_haar_nan_refuted C54_spline_based C54_spline_knots C54_few_points C54_end_binary64_refuted | Haar and spline based wavelets
C55 | proved | C55_windows C55_step_zero C55_step_negative C55_total C55_build C55_max_changed_refuted C55_values C55_scales C55_progress | Window structure and totality in any arithmetic; values and scales in exact arithmetic.
C56 | proved | C56_discrete C56_decoded C56_array_exact C56_array_binary64_refuted C56_bounds_not_sent C56_maximum_lost C56_optimizers C56_not_transferable C56_register C56_task C56_task_end_to_end C56_stream C56_function_state_not_sent C56_unregistered C56_default_prototype C56_count_task C56_value C56_result | messages between two ranks with one tag arrive in order (MPI); refuted: arrays in binary64 may change value on transfer, IntParameter maximum is lost, bounds and function state are not transferred
C57 | proved | C57_symmetric C57_reflexive C57_meaning C57_threshold C57_is_zero C57_non_finite C57_vectors C57_transitive_refuted | all doubles, including NaN and infinities
C58 | proved | C58_delays | every history of calls
C59 | proved | C59_maximise_is_minimise_opposite C59_constraints_guard C59_only_admissible_points C59_result_stored C59_array | For every search strategy (a tree of objective queries).
C60 | proved | C60_validation C60_same_meta_same_meaning C60_composite_rejected C60_composite_initial_refuted C60_rejected C60_accepted C60_declarations C60_initial_witness | 
C61 | proved | C61_evaluations C61_limit C61_limit_0_1_refuted C61_stationary_start C61_throws_only_at_the_start C61_quadratic C61_linear_binary64_refuted C61_start_at_minimum_binary64_refuted | Refuted parts are proved as such: no limit for 0/1, no result from a stationary start, NaN for linear functions. pow(x,2) taken as x*x.
C62 | proved | C62_evaluations C62_evaluations_int_abs C62_limit C62_previous_point_refuted C62_one_iteration_refuted C62_golden_section C62_localisation C62_border_refuted C62_stationary_never_ends_refuted C62_constant_never_ends_refuted C62_int_abs_refuted C62_linear_never_ends_binary64_refuted C62_start_at_minimum_binary64 C62_line_search_binary64_refuted C62_perfect_step_binary64_refuted | The expected properties 'returns the best point', 'terminates' and 'exact line search' are refuted by theorems. Both readings of the unqualified abs are modelled.
C63 | proved | C63_reports C63_individuals C63_hits C63_invalid C63_unwatched C63_watching_harmless C63_noted_notes C63_witness C63_individuals_current_refuted C63_stale_invalid_refuted | Two expected readings are refuted by theorems: the statistics shown are those of the population before, and the invalid count leaks from an earlier Optimize. int counters are unbounded.
C64 | proved | C64_runs_finite C64_returns C64_one_more C64_waiting_none C64_alive C64_nothing_after C64_refines C64_clean C64_at_most_once C64_too_late C64_witness C64_witness_clean C64_swallowed_refuted C64_schedules | Queues atomic (C36 covers them); boost's interruption as documented; Perform ends. The proviso is necessary, by a theorem.
C65 | proved | C65_mhat C65_mhat_mean C65_mhat_energy C65_mhat_unit_energy_refuted C65_morlet C65_morlet_energy C65_morlet_mean C65_morlet_zero_mean_refuted C65_haar | Exact arithmetic; the expected normalisation and the Morlet function's zero mean are refuted by theorems.
C66 | proved | C66_refines C66_realises C66_results C66_no_deadlock C66_runs_finite C66_throwing_hangs C66_early_return C66_witness C66_witness_blocked C66_schedules | Two-way refinement between the lock-level pool and the pool on atomic queues (C33-C35). Destruction (C64) stays on atomic queues.
C67 | proved | C67_thread_answers C67_thread_goes_on C67_thread_completes C67_thread_throw C67_sequential_answers C67_mpi_answers C67_mpi_completes C67_ga C67_ga_converse C67_ga_threads C67_ga_threads_complete C67_ga_mpi C67_ga_pools_agree C67_simple C67_simple_complete C67_optimization | One client thread calls the pool, call after call; the objective function depends on its argument alone (its clones compute the same); MPI tasks do not throw and a value survives the transfer.
C68 | proved | C68_process C68_determined C68_first_direction C68_short_steps C68_negative_step_returns | Exact arithmetic, parameters held in an array; the specification (stage, turned, visits) uses none of the model's definitions and determines its result uniquely.
C69 | proved | C69_convolution_error C69_convolution_integers C69_fourier_error C69_inverse_error C69_roundtrip C69_fourier_convolution_error C69_same_result C69_library_roundtrip | The same model as C48-C50, now in binary64 (Flocq) with round-to-nearest; complex products by the textbook formula; what is asked of <cmath> is the record libm (exp(0)=1, cos and sin within eps, asin(1) within 2^-53 of pi/2), shown satisfiable by C69_libm. Real numbers only appear in the statements.
C70 | proved | C70_private C70_bounded C70_planner_exclusive C70_no_deadlock C70_shared C70_sequential C70_schedules | The object's buffers, the mutex and the element-wise copies are modelled, sequentially consistent; fftw_execute is one step and any length-preserving function. C70_sequential ties the single-thread answers to the model used by C50-C52.
C71 | proved | C71_wrong_parameters C71_wrong_function C71_continuous C71_discrete C71_family_kept C71_call C71_nested C71_not_nestable | dynamic_cast is modelled by the kind of the object; classes that implement both interfaces at once are not considered (IParameters is not a virtual base).
C72 | proved | C72_transform C72_morlet C72_morlet_regular C72_mhat C72_mhat_regular C72_mhat_far_refuted | The accuracy of FFTW (accurate) and of exp, cos, sin (wmath, relative_exp) are hypotheses, met by a correctly rounded <cmath> and FourierTransform (C72_example, C72_mhat_example). The shift by half a sample for odd sizes is part of the correlation proved, as in C53.
C73 | proved | C73_square C73_simple_square C73_square_summ C73_difraction C73_table C73_multiminimum C73_multiminimum_refuted C73_clone C73_clone_refuted C73_tester_values C73_tester | Double precision for the first four functions (sin is a hypothesis, met by a correctly rounded sine, C73_sin), real numbers for the last. Two parts of the claim are false and refuted: (0,0) is not the minimum of the last function, and DifractionObjectiveFunction::Clone returns another function.
C74 | proved | C74_save_after_run C74_save_nothing C74_resume C74_missing_file | The expected reading (the population can be saved after Optimize) is false for runs that use up their generations; C74_save_after_run says exactly when. Contents of the file after an exception are not modelled.
C75 | proved | C75_dispatch C75_conservative C75_returns_only_if C75_runs_finite C75_ends C75_throwing_never_returns C75_throwing_waits_for_ever C75_dead C75_refused C75_all_exit C75_exit_last C75_witness_throw C75_witness_refused C75_schedules | One call of DoTasks followed by the destructor; results of at least one message. Whether the MPI run time kills the whole job when one process dies is not modelled (the others go on), nor are calls after a DoTasks that threw.
C76 | proved | C76_refines C76_conservative C76_runs_finite C76_left C76_never_returns C76_dead C76_ends C76_survives C76_witness_nobody C76_witness_left C76_witness_terminate C76_schedules | Queues atomic (C36, C66 cover them); the pool is not destroyed meanwhile (C64 covers destruction).
C77 | proved | C77_conjugate_gradient C77_steepest_descent C77_conjugate_determined C77_descent_determined C77_returns_maximum_refuted | Exact arithmetic; where a difference quotient has the denominator 0 the code gets inf or NaN and the model the real function's value, so nothing is said about such runs. The objective function returns (exceptions: C59); abs is std::abs (the other reading: C62). Witnesses: C77_conjugate_witness, C77_descent_witness.
C78 | proved | C78_private C78_shared C78_check_meaning C78_shared_check C78_any_mixture_refuted C78_wrong_true_refuted C78_wait_free C78_constructed | One step is one statement that uses the object's sample parameter (its int is read or written at once; formally two threads racing on it are undefined behaviour in C++). Refuted: that const calls may be made from two threads. Witnesses: C78_witness, C78_witness_wrong, C78_witness_private.
C79 | proved | C79_completes C79_double C79_int C79_array C79_composite C79_any_mutator C79_flip_bit_mutator C79_linear_mutator C79_calls C79_any_mutator_calls C79_flip_bit_calls C79_linear_calls C79_may_not_finish | No population file (C74). Random objects with bit widths within glibc's and a RAND_MAX for which the constructor is defined (C14). C79_array is for a DoubleParametersArray after SetValues; C80 for one whose values were never set. The library instance models std::sort by insertion sort; C79_completes takes any permutation. C79_may_not_finish refutes termination for objects with undecodable chromosomes. The _calls theorems are for many calls on one object, with or without initial parameters. Witnesses: C79_witness, C79_array_meets, C79_calls_witness.
C80 | proved | C80_program C80_unset_array C80_unset_array_undefined | usePrintStatistics is false in the program, so printStatistics is not modelled; the Random object and rand() as in C79; decimal literals are the nearest doubles. That the result is the best of all evaluated is for hash functions without collisions (C28). Witnesses: C80_unset_meets, C80_undefined_meets; C80_program has no hypothesis but those on the random numbers.
