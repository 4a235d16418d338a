{
 "claims": [
  {
   "property": "C01",
   "status": "proved",
   "theorems": [
    "C01_result_valid",
    "C01_result_valid_for_input"
   ],
   "note": ""
  },
  {
   "property": "C02",
   "status": "partial",
   "theorems": [
    "C02_declared_constraints_hold_partial",
    "C02_all_held_partial",
    "C02_mirrored_order_refuted",
    "C02_optional_choice_refuted"
   ],
   "note": "proved except for order relations with slot.size on the right-hand side, where it is refuted; the unconditional reading for optional choices is refuted"
  },
  {
   "property": "C03",
   "status": "proved",
   "theorems": [
    "C03_parts_consecutive_same_audience"
   ],
   "note": ""
  },
  {
   "property": "C04",
   "status": "proved",
   "theorems": [
    "C04_result_is_best"
   ],
   "note": ""
  },
  {
   "property": "C05",
   "status": "proved",
   "theorems": [
    "C05_never_loses_ground",
    "C05_climb_ends"
   ],
   "note": "ending assumes a random stream that keeps delivering every index (rejection loop in random_swap_neighbor)"
  },
  {
   "property": "C06",
   "status": "partial",
   "theorems": [
    "C06_bound_too_high_refuted",
    "C06_worst_preference_minimal_partial",
    "C06_worst_preference_minimal_all_held_partial",
    "C06_unheld_link_refuted",
    "C06_coarse_levels_refuted"
   ],
   "note": "proved up to level granularity, for assignments that keep tied choices together, when the critical-set bound is true; the full statement when all choices are held, every preference is a level and the bound is true; the three gaps refuted by accepted inputs (C06_unheld_link, C06_coarse_levels, C06_bound_too_high)"
  },
  {
   "property": "C07",
   "status": "partial",
   "theorems": [
    "C07_program_is_assignment_problem_partial",
    "C07_allowed_is_valid",
    "C07_unheld_link_refuted"
   ],
   "note": "points = allowed assignments with equal cost, one point each; 'allowed' also keeps together choices tied through a choice that is not held (strict reading refuted)"
  },
  {
   "property": "C08",
   "status": "partial",
   "theorems": [
    "C08_transitivity_refuted",
    "C08_equality_refuted",
    "C08_score_order_partial"
   ],
   "note": "proved within one scoring mode; transitivity across modes and agreement with == are refuted"
  },
  {
   "property": "C09",
   "status": "partial",
   "theorems": [
    "C09_smaller_worst_preference_wins_partial",
    "C09_smaller_worst_preference_refuted"
   ],
   "note": "proved for preferences up to 2^24; refuted beyond (f32 rounding)"
  },
  {
   "property": "C10",
   "status": "partial",
   "theorems": [
    "C10_default_exponent_partial",
    "C10_invalid_gives_infinite_score",
    "C10_finite_score_means_valid",
    "C10_valid_gives_finite_score_refuted",
    "C10_negative_exponent_refuted",
    "C10_valid_gives_finite_score_partial"
   ],
   "note": "invalid => infinite and finite => valid proved; valid => finite proved for the default exponent 3 and preferences up to 2^32-1 within the stated number of seats (C10_default_exponent_partial), and generally when no power of a preference reaches 2^100 and there are fewer than 2^23 seats; refuted for overflowing powers and for every negative exponent"
  },
  {
   "property": "C11",
   "status": "partial",
   "theorems": [
    "C11_schedulings_valid_partial",
    "C11_release_overflow_refuted"
   ],
   "note": "proved for debug builds and for inputs whose bound sums fit u32; refuted in release builds when sums wrap"
  },
  {
   "property": "C12",
   "status": "partial",
   "theorems": [
    "C12_failure_means_none_exists_partial",
    "C12_search_gives_up_refuted",
    "C12_failure_means_none_exists",
    "C12_self_relation_refuted"
   ],
   "note": "proved in full when no constraint relates a choice to itself and no slot can become overfull by a choice it still needs (e.g. all minima <= 1); without either condition refuted (the search gives up at a rejected complete scheduling instead of backtracking); also proved without them unless the search ends that way"
  },
  {
   "property": "C13",
   "status": "proved",
   "theorems": [
    "C13_critical_sets_are_necessary"
   ],
   "note": ""
  },
  {
   "property": "C14",
   "status": "proved",
   "theorems": [
    "C14_pruning_loses_nothing",
    "C14_analysis_succeeds"
   ],
   "note": ""
  },
  {
   "property": "C15",
   "status": "partial",
   "theorems": [
    "C15_bound_is_true_partial",
    "C15_bound_too_high_refuted"
   ],
   "note": "proved for levels with a critical set at or above them; refuted otherwise"
  },
  {
   "property": "C16",
   "status": "proved",
   "theorems": [
    "C16_groups_are_components"
   ],
   "note": ""
  },
  {
   "property": "C17",
   "status": "proved",
   "theorems": [
    "C17_preprocessing_loses_nothing"
   ],
   "note": ""
  },
  {
   "property": "C18",
   "status": "partial",
   "theorems": [
    "C18_preprocessing_invents_nothing_partial",
    "C18_repeated_constraint_refuted",
    "C18_unattended_refuted",
    "C18_unheld_refuted"
   ],
   "note": "proved when all choices are held and attended and no attendance requirement is stated twice; each of the three conditions is needed: C18_repeated_constraint_refuted, C18_unheld_refuted and C18_unattended_refuted give inputs the claim fails on without it"
  },
  {
   "property": "C19",
   "status": "partial",
   "theorems": [
    "C19_min_le_max_refuted",
    "C19_min_le_max_partial",
    "C19_min_le_max_iff_admissible"
   ],
   "note": "refuted (min 5 max 1 is accepted); proved exactly when: min <= max after processing iff some number is admitted by the declared bounds of all choices with the same audience"
  },
  {
   "property": "C20",
   "status": "proved",
   "theorems": [
    "C20_preferences_mirrored",
    "C20_preferences_general"
   ],
   "note": ""
  },
  {
   "property": "C21",
   "status": "partial",
   "theorems": [
    "C21_levels_partial",
    "C21_levels_normalized_refuted"
   ],
   "note": "sorted, 0 first, max last proved; values are the raw, not the normalized preferences (refuted)"
  },
  {
   "property": "C22",
   "status": "partial",
   "theorems": [
    "C22_components_add_up_partial",
    "C22_accepted_strings_partial",
    "C22_missing_unit_refuted",
    "C22_overflow_refuted",
    "C22_exact_reading_partial",
    "C22_one_time_per_text"
   ],
   "note": "C22_exact_reading_partial says of every string, in debug and release builds, whether it is read, rejected or panics, and what is read; for time strings of at most i32::MAX seconds that is the sum of the components. Numbers without unit, units without number and overflow (debug: panic, release: modulo 2^32) refute the full statement."
  },
  {
   "property": "C23",
   "status": "proved",
   "theorems": [
    "C23_set_arguments_atomic",
    "C23_call_in_a_script",
    "C23_debug_panic_refuted",
    "C23_which_arguments_panic"
   ],
   "note": "atomic for every result; a debug build panics for times over i32::MAX seconds (shown), the options then stay unchanged"
  },
  {
   "property": "C24",
   "status": "partial",
   "theorems": [
    "C24_constraint_names_unambiguous",
    "C24_constraint_names_completed",
    "C24_unknown_names_void",
    "C24_lookup",
    "C24_exact_wins",
    "C24_new_names_create_partial",
    "C24_prefix_name_refuted"
   ],
   "note": "lookup and exact match proved; names inside constraints: in an accepted input none is ambiguous and completing a shortened name changes nothing (C24_constraint_names_*); a constraint naming no object at all is silently void (C24_unknown_names_void); 'a name no object has creates a new object' refuted for names contained in another name"
  },
  {
   "property": "C25",
   "status": "proved",
   "theorems": [
    "C25_registered_objects",
    "C25_rename_refuted",
    "C25_renaming_changes_the_name_only"
   ],
   "note": "for scripts that do not rename objects, as stated; with renaming refuted"
  },
  {
   "property": "C26",
   "status": "partial",
   "theorems": [
    "C26_scheduling_table_written",
    "C26_reads_back_partial",
    "C26_text_determines_scheduling_partial",
    "C26_quotes_refuted",
    "C26_names_refuted"
   ],
   "note": "the text written is proved to be the table; reading it back (and that it determines the scheduling) proved for names without quotation marks; unescaped quotation marks, a slot named 'not scheduled' and a leading ~ are refutations"
  },
  {
   "property": "C27",
   "status": "proved",
   "theorems": [
    "C27_assignment_table_written",
    "C27_incomplete_is_an_error",
    "C27_reads_back_partial"
   ],
   "note": "the table is proved for every valid solution; reading back the text for names without quotation marks"
  },
  {
   "property": "C28",
   "status": "proved",
   "theorems": [
    "C28_neighbours_enumerated"
   ],
   "note": ""
  },
  {
   "property": "C29",
   "status": "partial",
   "theorems": [
    "C29_neighbours_valid_partial",
    "C29_limit_refuted"
   ],
   "note": "feasibility proved (in release builds when the sums fit u32); at most max_neighbors+1 proved, at most max_neighbors refuted"
  },
  {
   "property": "C30",
   "status": "proved",
   "theorems": [
    "C30_swaps_permute",
    "C30_few_choices_no_swap"
   ],
   "note": ""
  },
  {
   "property": "C31",
   "status": "proved",
   "theorems": [
    "C31_riffle_interleaves"
   ],
   "note": ""
  },
  {
   "property": "C32",
   "status": "partial",
   "theorems": [
    "C32_seeds_differ",
    "C32_draw_in_range_partial",
    "C32_every_value_possible",
    "C32_wide_range_refuted",
    "C32_workers_have_their_own_seeds"
   ],
   "note": "seeds: proved; draws: proved for ranges of at most i32::MAX values, wider ranges refuted"
  },
  {
   "property": "C33",
   "status": "proved",
   "theorems": [
    "C33_state_equals_rebuild",
    "C33_state_describes_scheduling",
    "C33_update_never_overflows"
   ],
   "note": ""
  },
  {
   "property": "C34",
   "status": "proved",
   "theorems": [
    "C34_cache_is_transparent"
   ],
   "note": ""
  },
  {
   "property": "C35",
   "status": "proved",
   "theorems": [
    "C35_progress_monotone",
    "C35_progress_ends_at_result"
   ],
   "note": ""
  },
  {
   "property": "C36",
   "status": "proved",
   "theorems": [
    "C36_lines_independent_of_chunking",
    "C36_no_byte_lost",
    "C36_calls_succeed",
    "C36_failed_print_refuted"
   ],
   "note": "for calls that report success; a line whose printing failed is lost (shown)"
  },
  {
   "property": "C37",
   "status": "partial",
   "theorems": [
    "C37_exchanged_sides_partial",
    "C37_mirrored_order_refuted"
   ],
   "note": "proved for == and !=; refuted for order relations"
  },
  {
   "property": "C38",
   "status": "proved",
   "theorems": [
    "C38_range_inclusive",
    "C38_slice_inclusive"
   ],
   "note": ""
  },
  {
   "property": "C39",
   "status": "proved",
   "theorems": [
    "C39_accepted_input_well_formed",
    "C39_validity_check_total"
   ],
   "note": ""
  },
  {
   "property": "C40",
   "status": "partial",
   "theorems": [
    "C40_choice_table_exact_partial",
    "C40_chooser_table_refuted"
   ],
   "note": "choice table exact; chooser table refuted (always empty)"
  },
  {
   "property": "C41",
   "status": "partial",
   "theorems": [
    "C41_max_sum_overflow_refuted",
    "C41_feasibility_check_exact_partial"
   ],
   "note": "exact when per-slot sums fit in u32; refuted otherwise for an accepted input"
  },
  {
   "property": "C42",
   "status": "proved",
   "theorems": [
    "C42_nodes_distinct",
    "C42_edge_ids_unique",
    "C42_accepted_input_has_nodes",
    "C42_node_keys_unique"
   ],
   "note": ""
  },
  {
   "property": "C43",
   "status": "proved",
   "theorems": [
    "C43_observed_cancellation_stops",
    "C43_success_cancels",
    "C43_success_is_returned",
    "C43_success_stops_everyone"
   ],
   "note": ""
  },
  {
   "property": "C44",
   "status": "proved",
   "theorems": [
    "C44_relaxation_steps",
    "C44_call_ends"
   ],
   "note": ""
  },
  {
   "property": "C45",
   "status": "partial",
   "theorems": [
    "C45_tags_literal_partial",
    "C45_fair_tags_accepted",
    "C45_large_tag_refuted"
   ],
   "note": "proved for integers of 32 bits; larger ones are cut (refuted)"
  },
  {
   "property": "C46",
   "status": "proved",
   "theorems": [
    "C46_unsatisfiable_is_true",
    "C46_valid_schedulings_use_every_slot"
   ],
   "note": ""
  },
  {
   "property": "C47",
   "status": "proved",
   "theorems": [
    "C47_bookkeeping_exact",
    "C47_undo_never_underflows"
   ],
   "note": ""
  },
  {
   "property": "C48",
   "status": "proved",
   "theorems": [
    "C48_bounds_are_intersected"
   ],
   "note": ""
  },
  {
   "property": "C49",
   "status": "partial",
   "theorems": [
    "C49_reading_never_panics_partial",
    "C49_huge_integer_refuted"
   ],
   "note": "proved for integers within u32 and fewer than 2^31 choices; a larger integer panics (refuted)"
  },
  {
   "property": "C50",
   "status": "partial",
   "theorems": [
    "C50_solve_never_panics_partial",
    "C50_min_above_max_refuted"
   ],
   "note": "proved for sizes below the machine limits and min <= max; refuted for an accepted input with min > max"
  },
  {
   "property": "C51",
   "status": "proved",
   "theorems": [
    "C51_answer_is_cheapest"
   ],
   "note": ""
  },
  {
   "property": "C52",
   "status": "proved",
   "theorems": [
    "C52_session_never_panics"
   ],
   "note": ""
  },
  {
   "property": "C53",
   "status": "proved",
   "theorems": [
    "C53_workers_never_stuck"
   ],
   "note": ""
  },
  {
   "property": "C54",
   "status": "proved",
   "theorems": [
    "C54_local_optimum"
   ],
   "note": ""
  },
  {
   "property": "C55",
   "status": "proved",
   "theorems": [
    "C55_counters_and_shown_solution"
   ],
   "note": ""
  },
  {
   "property": "C56",
   "status": "proved",
   "theorems": [
    "C56_stop_after_cancellation"
   ],
   "note": ""
  },
  {
   "property": "C57",
   "status": "partial",
   "theorems": [
    "C57_constraints_mean_their_handles_partial",
    "C57_rename_refuted"
   ],
   "note": "restricted like C02 to order relations with the size on the left; the limit to scripts without renames is necessary (refuted otherwise)"
  },
  {
   "property": "C58",
   "status": "partial",
   "theorems": [
    "C58_calls_never_panic_partial",
    "C58_reading_never_panics_partial",
    "C58_huge_integer_refuted",
    "C58_only_long_times_panic_partial",
    "C58_reading_short_times_never_panics_partial"
   ],
   "note": "proved for integers of 32 bits and, in debug builds, times that do not begin with more than 2147483647 seconds (exactly the arguments that panic: C23_which_arguments_panic); a huge integer panics (refuted)"
  },
  {
   "property": "C59",
   "status": "proved",
   "theorems": [
    "C59_reads_are_independent",
    "C59_history_does_not_matter",
    "C59_options_accumulate"
   ],
   "note": ""
  },
  {
   "property": "C60",
   "status": "proved",
   "theorems": [
    "C60_input_is_all_files",
    "C60_success",
    "C60_failure"
   ],
   "note": ""
  },
  {
   "property": "C61",
   "status": "proved",
   "theorems": [
    "C61_active_bar_restored",
    "C61_innermost_bar_active",
    "C61_other_order_refuted"
   ],
   "note": "for nested use as stated; another order is refuted"
  },
  {
   "property": "C62",
   "status": "proved",
   "theorems": [
    "C62_output_describes_valid_solution"
   ],
   "note": "the script engine (Rhai) is an arbitrary function from text to interface calls; input sizes below the u32 limits"
  },
  {
   "property": "C63",
   "status": "proved",
   "theorems": [
    "C63_program_never_panics"
   ],
   "note": "reading not panicking is a hypothesis (see C58)"
  },
  {
   "property": "C64",
   "status": "partial",
   "theorems": [
    "C64_one_slot_exact_partial",
    "C64_coarse_levels_refuted",
    "C64_optional_choice_refuted"
   ],
   "note": "proved for inputs in which every processed preference is one of the levels, and powers that stay below 2^100; without the first the claim is false (C64_coarse_levels_refuted); size hypotheses (roomy); that no choice may be optional is needed (C64_optional_choice_refuted: adding an optional choice makes a session end without solution although there still is one)"
  },
  {
   "property": "C65",
   "status": "partial",
   "theorems": [
    "C65_no_solution_means_no_scheduling_partial",
    "C65_gives_up_refuted"
   ],
   "note": "proved under the conditions of C12 (no constraint relates a choice to itself, no slot becomes overfull by a choice it still needs); without them the claim is false (C65_gives_up_refuted, a whole session that ends without solution although there is one)"
  },
  {
   "property": "C66",
   "status": "proved",
   "theorems": [
    "C66_score_is_cost",
    "C66_cheaper_scores_better"
   ],
   "note": "uses the standard library's real numbers (axioms ClassicalDedekindReals.sig_not_dec, sig_forall_dec, functional_extensionality_dep, Classical_Prop.classic) and Flocq; preferences are converted to f32 first, exact up to 2^24"
  },
  {
   "property": "C67",
   "status": "partial",
   "theorems": [
    "C67_best_score_refuted",
    "C67_best_score_partial"
   ],
   "note": "refuted for exponent 2 in both scoring modes (the solver minimizes sums of (preference+1)^exponent, the score adds preference^exponent); proved when the two are affinely related, as with exponents 0 and 1"
  },
  {
   "property": "C68",
   "status": "proved",
   "theorems": [
    "C68_final_line_reports_result",
    "C68_messages_show_best",
    "C68_score_text"
   ],
   "note": "final line, intermediate messages and score text; the terminal drawing (colours, template) is not modelled; str_float is stated against the exact real value of the binary32 score (Reals axioms for C68_score_text only)."
  },
  {
   "property": "C69",
   "status": "proved",
   "theorems": [
    "C69_full_when_time_is_up",
    "C69_bar_moves_forward",
    "C69_position_is_elapsed_time"
   ],
   "note": "positions set on the bar by track_solver, for every sequence of clock readings."
  },
  {
   "property": "C70",
   "status": "proved",
   "theorems": [
    "C70_more_constraints_fewer_solutions",
    "C70_order_of_constraints_irrelevant"
   ],
   "note": "Constraints as a multiset: stating one twice can matter (C18_repeated_constraint_refuted)."
  },
  {
   "property": "C71",
   "status": "proved",
   "theorems": [
    "C71_solving_ignores_names",
    "C71_names_do_not_matter",
    "C71_partial_names_refuted"
   ],
   "note": "Needs full, distinct names: constraints find objects by parts of names (C71_partial_names_refuted shows that the hypothesis is needed). Error texts agree too, except that a wrong number of preferences is reported with the chooser's own name (same_complaint)."
  },
  {
   "property": "C72",
   "status": "proved",
   "theorems": [
    "C72_relaxing_bounds_keeps_solutions"
   ],
   "note": "build_input and evaluate, any exponent, both modes."
  },
  {
   "property": "C73",
   "status": "proved",
   "theorems": [
    "C73_interleaving_irrelevant",
    "C73_same_iterations_same_result",
    "C73_undisturbed_sessions_agree",
    "C73_seed_from_environment",
    "C73_same_seed_same_result",
    "C73_any_refuted"
   ],
   "note": "Random engines, LP library and clock are functions of the number of requests made so far. The exception (--any with several workers) is part of the property; C73_any_refuted shows it is needed."
  },
  {
   "property": "C74",
   "status": "proved",
   "theorems": [
    "C74_csv_read_completely",
    "C74_separator",
    "C74_rows"
   ],
   "note": "The csv crate is an arbitrary function from file and delimiter to records or errors."
  },
  {
   "property": "C75",
   "status": "proved",
   "theorems": [
    "C75_options_take_effect"
   ],
   "note": "Composition of the script, preparation and session models (program, M_Main.v)."
  },
  {
   "property": "C76",
   "status": "partial",
   "theorems": [
    "C76_one_slot_end_to_end_partial",
    "C76_several_slots_end_to_end_partial",
    "C76_not_the_best_refuted",
    "C76_gives_up_refuted"
   ],
   "note": "Proved for normal scoring; one slot: if every preference is a level and powers stay below 2^100; several slots: under the conditions of C65. Refuted in general, by whole runs: C76_not_the_best_refuted (one slot, a worse solution than possible is output), C76_gives_up_refuted (two slots, nothing is output although a valid solution exists)."
  },
  {
   "property": "C77",
   "status": "proved",
   "theorems": [
    "C77_no_lp_after_the_deadline",
    "C77_search_gives_up",
    "C77_iteration_gives_up",
    "C77_climb_stops",
    "C77_worker_stops"
   ],
   "note": "One theorem per loop that looks at the clock; the deadline passes at an arbitrary request."
  },
  {
   "property": "C78",
   "status": "proved",
   "theorems": [
    "C78_more_work_is_never_worse",
    "C78_more_threads_are_never_worse",
    "C78_any_refuted"
   ],
   "note": "Random streams and clocks are arbitrary functions of a worker's own history; C78_any_refuted shows why --any is excluded from the thread-count statement."
  },
  {
   "property": "C79",
   "status": "proved",
   "theorems": [
    "C79_listing_order_irrelevant",
    "C79_shuffled_inputs_are_as_good",
    "C79_slot_order_matters_for_parts_refuted",
    "C79_choice_order_irrelevant",
    "C79_any_listing_is_as_good"
   ],
   "note": "Scores: for inputs within the machine integers (fits, largest preference below u32::MAX). C79_slot_order_matters_for_parts_refuted shows why slots may be reordered only without multi-part choices."
  },
  {
   "property": "C80",
   "status": "proved",
   "theorems": [
    "C80_only_the_order_matters_for_the_worst",
    "C80_linear_scales"
   ],
   "note": "The comparison of scores is for preferences up to 2^24 (C09)."
  },
  {
   "property": "C81",
   "status": "proved",
   "theorems": [
    "C81_scheduling_table_names_the_parts",
    "C81_assignment_table_names_the_parts",
    "C81_labels_tell_parts_apart"
   ],
   "note": "From the reader to the text; the labels are specified with a decimal reader of their own. Names that are not plain can collide (Example C81_unplain_names)."
  },
  {
   "property": "C82",
   "status": "proved",
   "theorems": [
    "C82_every_session_is_counted",
    "C82_instances_of_one_request",
    "C82_instances_of_a_worker",
    "C82_shown_count",
    "C82_final_line_counts_the_work"
   ],
   "note": "The instrumented functions of M_Effort are proved to be those of M_Flow, M_Search, M_Climb when the counters are erased (P_Effort), and every session of M_Threads has its counted version. Messages of an iteration that panics are not covered."
  },
  {
   "property": "C83",
   "status": "proved",
   "theorems": [
    "C83_shown_depth_is_within_the_shown_maximum",
    "C83_a_finished_search_shows_full_depth"
   ],
   "note": "Beyond the limits it fails: Example C83_beyond_the_limit (257 threads, 65535 choices)."
  },
  {
   "property": "C84",
   "status": "proved",
   "theorems": [
    "C84_over_when_nobody_can_move",
    "C84_a_crash_is_reported",
    "C84_a_crash_disturbs_nobody",
    "C84_program_fails_without_output"
   ],
   "note": "That an iteration does not run forever is a hypothesis of the first theorem (it is C53's conclusion under C53's hypotheses). std::thread::scope is taken to wait for all its threads before it unwinds, as documented."
  },
  {
   "property": "C85",
   "status": "partial",
   "theorems": [
    "C85_tried_schedulings_are_reached",
    "C85_only_scheduling_is_tried_partial",
    "C85_best_out_of_reach_refuted"
   ],
   "note": "Proved: everything a session tries is reached from a delivered scheduling by single moves and swaps; if there is only one valid scheduling, every worker that completed an iteration has tried it. Refuted in general: slots are tried in a fixed order (fullness, then index) and only the order of the choices is random, so on a small input (three choices tied to one slot, two fixed ones) no run whatsoever tries the scheduling that admits the best solution; every session returns a strictly worse score."
  },
  {
   "property": "C86",
   "status": "proved",
   "theorems": [
    "C86_optional_choice_never_hurts",
    "C86_partial_names_refuted"
   ],
   "note": "equivalence of the solution sets for both the scheduling and the whole solution, equality of scores; the need for full names is shown by C86_partial_names_refuted; the claim is about the solutions, not about what a session finds: C64_optional_choice_refuted"
  },
  {
   "property": "C87",
   "status": "proved",
   "theorems": [
    "C87_rejections_name_a_fault",
    "C87_accepted_inputs_have_no_fault"
   ],
   "note": "The messages are modelled literally. 'Not satisfiable' is about arrangements that use every slot, as for C46."
  },
  {
   "property": "C88",
   "status": "proved",
   "theorems": [
    "C88_assignment_not_improvable",
    "C88_result_not_improvable",
    "C88_all_held_not_improvable",
    "C88_program_not_improvable",
    "C88_no_warning_not_improvable"
   ],
   "note": "Assumes that the LP library returns optimal points (C51) and costs that grow strictly with the preference (discharged for exponents of at least 1 by C89)."
  },
  {
   "property": "C89",
   "status": "partial",
   "theorems": [
    "C89_no_warning_no_ties_partial",
    "C89_default_costs_exact",
    "C89_small_exponent_refuted",
    "C89_negative_exponent_refuted",
    "C89_cut_off_refuted"
   ],
   "note": "Proved: without a warning costs grow strictly, for every exponent of at least 1 if powers are correctly rounded, and for exponent 1 and exponents of at least 1.01 with any power function of relative error 2^-52; costs of the default exponent 3 are exact up to 2^17. Refuted: exponents 0.5 (tie) and -1 (order reversed) give no warning; a cost can be cut off without a warning (the test looks at max_preference ^ e, the cost is (preference + 1) ^ e)."
  },
  {
   "property": "C90",
   "status": "proved",
   "theorems": [
    "C90_messages_change_nothing",
    "C90_successful_run",
    "C90_failed_run",
    "C90_files_are_announced"
   ],
   "note": "Messages of debug and trace level are not modelled; the numbers behind 'Solved' are C68 and C82. Reasons of the operating system are placeholders."
  },
  {
   "property": "C91",
   "status": "proved",
   "theorems": [
    "C91_the_last_word_counts",
    "C91_script_and_command_line_agree",
    "C91_defaults_agree",
    "C91_options_in_effect",
    "C91_command_line_forms",
    "C91_forms_are_equivalent",
    "C91_inline_forms_change_nothing_else"
   ],
   "note": "clap is modelled twice: for names and values in separate words (M_Args.v, compared with the script), and with the inline forms --name=value, -nVALUE, -n=VALUE, joined switches and a final -- (M_Inline.v: C91_command_line_forms, C91_forms_are_equivalent, C91_inline_forms_change_nothing_else). Not modelled: the help and version outputs and the text of clap's error messages."
  },
  {
   "property": "C92",
   "status": "proved",
   "theorems": [
    "C92_opposites_exclude_each_other",
    "C92_contradiction_no_output"
   ],
   "note": "Size comparisons are covered with the size on the left (with the integer on the left the code is wrong, see C02 and C37)."
  },
  {
   "property": "C93",
   "status": "proved",
   "theorems": [
    "C93_one_slot_same_worst_preference"
   ],
   "note": "Same side conditions as C76 (sizes, a power function without rounding surprises, preferences within the levels)."
  },
  {
   "property": "C94",
   "status": "proved",
   "theorems": [
    "C94_kept_or_in_place",
    "C94_only_comparisons"
   ],
   "note": "C94_renaming_matters (an Example) shows that the hypothesis is needed: a kept constraint refers to the names at the time it was built. The engine's behaviour for a missing overload is modelled as an error."
  },
  {
   "property": "C95",
   "status": "proved",
   "theorems": [
    "C95_numbers_arrive",
    "C95_objective_is_total_cost",
    "C95_answers_are_read_back"
   ],
   "note": "uses Flocq's results about binary64 (real-number axioms of the standard library). Replaces, for the model's integer objective and integer answers, the reading of the library's floats as exact integers."
  },
  {
   "property": "C96",
   "status": "proved",
   "theorems": [
    "C96_refused_without_effects",
    "C96_exit_codes",
    "C96_exit_codes_of_scripts",
    "C96_end_to_end",
    "C96_long_times_panic",
    "C96_long_times_fail"
   ],
   "note": "C96_refused_without_effects, C96_exit_codes and C96_end_to_end join the command line (C91), the input files (C60), the script (C59, C62) and the solver (C62, C63). The condition on the times is needed: C96_long_times_panic (debug builds, reading the time) and C96_long_times_fail (release builds: --cs-timeout 4000w wraps to a negative limit, the worker panics, exit code 1 for a good input). Which of help text and usage error clap chooses is a parameter; writing to a closed standard output is not modelled."
  },
  {
   "property": "C97",
   "status": "proved",
   "theorems": [
    "C97_negation_is_the_opposite",
    "C97_negation_twice",
    "C97_no_negation",
    "C97_negation_panics",
    "C97_dropped_choices"
   ],
   "note": "Constraint::negation is code of the library that the program itself does not call at the pinned commit. C97_dropped_choices: with dropped choices a constraint and its negation can both hold. C97_negation_panics: exactly the limits without operator panic."
  }
 ]
}