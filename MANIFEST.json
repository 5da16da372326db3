{
 "claims": [
  {
   "property": "C01",
   "status": "proved",
   "theorems": [
    "C01_add_exact",
    "C01_add_group",
    "C01_hamming_metric",
    "C01_dot_bilinear"
   ],
   "note": ""
  },
  {
   "property": "C02",
   "status": "proved",
   "theorems": [
    "C02_to_from",
    "C02_from_to",
    "C02_range"
   ],
   "note": ""
  },
  {
   "property": "C03",
   "status": "proved",
   "theorems": [
    "C03_text",
    "C03_parse",
    "C03_vector_bool"
   ],
   "note": ""
  },
  {
   "property": "C04",
   "status": "proved",
   "theorems": [
    "C04_sparse_flip"
   ],
   "note": ""
  },
  {
   "property": "C05",
   "status": "proved",
   "theorems": [
    "C05_random_weight"
   ],
   "note": ""
  },
  {
   "property": "C06",
   "status": "proved",
   "theorems": [
    "C06_hypercube",
    "C06_hypercube_dimension_0",
    "C06_extended_hypercube"
   ],
   "note": ""
  },
  {
   "property": "C07",
   "status": "proved",
   "theorems": [
    "C07_single_bit_flip"
   ],
   "note": ""
  },
  {
   "property": "C08",
   "status": "proved",
   "theorems": [
    "C08_hamming_sphere",
    "C08_radius_0"
   ],
   "note": ""
  },
  {
   "property": "C09",
   "status": "proved",
   "theorems": [
    "C09_solve"
   ],
   "note": ""
  },
  {
   "property": "C10",
   "status": "proved",
   "theorems": [
    "C10_invert"
   ],
   "note": ""
  },
  {
   "property": "C11",
   "status": "proved",
   "theorems": [
    "C11_echelon_rank",
    "C11_dimension_unique"
   ],
   "note": ""
  },
  {
   "property": "C12",
   "status": "proved",
   "theorems": [
    "C12_linear_surjective_exact",
    "C12_affine_surjective_exact",
    "C12_random_linear_map"
   ],
   "note": ""
  },
  {
   "property": "C13",
   "status": "proved",
   "theorems": [
    "C13_transpose",
    "C13_transpose_involutive",
    "C13_multiply",
    "C13_multiply_bad_size",
    "C13_linear",
    "C13_identity",
    "C13_swap_rows",
    "C13_add_rows",
    "C13_add_columns",
    "C13_set_column"
   ],
   "note": ""
  },
  {
   "property": "C14",
   "status": "proved",
   "theorems": [
    "C14_transvection_involution",
    "C14_invalid_rejected",
    "C14_sequence_inverse",
    "C14_matrix_sequence_inverse",
    "C14_affine_map_bijection",
    "C14_affine_map_invert"
   ],
   "note": ""
  },
  {
   "property": "C15",
   "status": "proved",
   "theorems": [
    "C15_commute_exact",
    "C15_disjoint_exact",
    "C15_disjoint_commute"
   ],
   "note": ""
  },
  {
   "property": "C16",
   "status": "proved",
   "theorems": [
    "C16_random",
    "C16_commuting",
    "C16_unique_source",
    "C16_unique_destination",
    "C16_disjoint",
    "C16_non_commuting",
    "C16_rejection_stops"
   ],
   "note": ""
  },
  {
   "property": "C17",
   "status": "proved",
   "theorems": [
    "C17_map_history",
    "C17_map_sizes",
    "C17_translation_bijection",
    "C17_permutation_bijection",
    "C17_permutation_validity",
    "C17_projection_after_injection",
    "C17_injection_keeps_others",
    "C17_composition",
    "C17_surjective_sound"
   ],
   "note": ""
  },
  {
   "property": "C18",
   "status": "proved",
   "theorems": [
    "C18_composed_maximum",
    "C18_composed_evaluation",
    "C18_size_mismatch"
   ],
   "note": ""
  },
  {
   "property": "C19",
   "status": "proved",
   "theorems": [
    "C19_onemax_maximum",
    "C19_leadingones_maximum",
    "C19_needle_maximum",
    "C19_ridge_maximum",
    "C19_plateau_maximum"
   ],
   "note": ""
  },
  {
   "property": "C20",
   "status": "proved",
   "theorems": [
    "C20_hiff_accepts_powers_of_two",
    "C20_hiff_rejects_others",
    "C20_hiff_maximum"
   ],
   "note": ""
  },
  {
   "property": "C21",
   "status": "proved",
   "theorems": [
    "C21_trap_maximum",
    "C21_jump_maximum",
    "C21_deceptivejump_maximum",
    "C21_fourpeaks_maximum",
    "C21_sixpeaks_maximum"
   ],
   "note": ""
  },
  {
   "property": "C22",
   "status": "proved",
   "theorems": [
    "C22_longpath_structure",
    "C22_longpath_values",
    "C22_longpath_off_path_below",
    "C22_longpath_maximum"
   ],
   "note": ""
  },
  {
   "property": "C23",
   "status": "proved",
   "theorems": [
    "C23_linear_maximum",
    "C23_walsh1_maximum"
   ],
   "note": ""
  },
  {
   "property": "C24",
   "status": "proved",
   "theorems": [
    "C24_onemax_incremental",
    "C24_linear_incremental",
    "C24_walsh1_incremental",
    "C24_ising1_incremental",
    "C24_ising2_incremental",
    "C24_opposite_incremental"
   ],
   "note": ""
  },
  {
   "property": "C25",
   "status": "proved",
   "theorems": [
    "C25_walsh_transforms"
   ],
   "note": ""
  },
  {
   "property": "C26",
   "status": "proved",
   "theorems": [
    "C26_ising1_value",
    "C26_ising2_value",
    "C26_walsh2_value",
    "C26_walsh1_value",
    "C26_walsh_value"
   ],
   "note": ""
  },
  {
   "property": "C27",
   "status": "proved",
   "theorems": [
    "C27_budget",
    "C27_budget_total",
    "C27_negative_budget"
   ],
   "note": ""
  },
  {
   "property": "C28",
   "status": "proved",
   "theorems": [
    "C28_call_counter"
   ],
   "note": ""
  },
  {
   "property": "C29",
   "status": "proved",
   "theorems": [
    "C29_stop_on_target",
    "C29_trigger",
    "C29_trigger_value",
    "C29_stop_on_maximum"
   ],
   "note": ""
  },
  {
   "property": "C30",
   "status": "proved",
   "theorems": [
    "C30_progress_tracker",
    "C30_transparent"
   ],
   "note": ""
  },
  {
   "property": "C31",
   "status": "proved",
   "theorems": [
    "C31_cache"
   ],
   "note": ""
  },
  {
   "property": "C32",
   "status": "proved",
   "theorems": [
    "C32_unpack",
    "C32_full",
    "C32_sized",
    "C32_short"
   ],
   "note": ""
  },
  {
   "property": "C33",
   "status": "proved",
   "theorems": [
    "C33_unpack",
    "C33_precision"
   ],
   "note": ""
  },
  {
   "property": "C34",
   "status": "proved",
   "theorems": [
    "C34_integer_categories",
    "C34_linear_categories"
   ],
   "note": ""
  },
  {
   "property": "C35",
   "status": "proved",
   "theorems": [
    "C35_permutation",
    "C35_all_reached"
   ],
   "note": ""
  },
  {
   "property": "C36",
   "status": "proved",
   "theorems": [
    "C36_adapter",
    "C36_universal",
    "C36_complex"
   ],
   "note": ""
  },
  {
   "property": "C37",
   "status": "proved",
   "theorems": [
    "C37_settled",
    "C37_propose",
    "C37_keep_forget",
    "C37_mutate",
    "C37_map",
    "C37_misuse"
   ],
   "note": ""
  },
  {
   "property": "C38",
   "status": "proved",
   "theorems": [
    "C38_sample",
    "C38_all_sampled",
    "C38_trials",
    "C38_rejection",
    "C38_radius_too_large"
   ],
   "note": ""
  },
  {
   "property": "C39",
   "status": "proved",
   "theorems": [
    "C39_complete_search"
   ],
   "note": ""
  },
  {
   "property": "C40",
   "status": "proved",
   "theorems": [
    "C40_first_ascent_iteration",
    "C40_steepest_ascent_iteration",
    "C40_first_ascent",
    "C40_steepest_ascent"
   ],
   "note": ""
  },
  {
   "property": "C41",
   "status": "proved",
   "theorems": [
    "C41_random_local_search"
   ],
   "note": ""
  },
  {
   "property": "C42",
   "status": "proved",
   "theorems": [
    "C42_restart"
   ],
   "note": ""
  },
  {
   "property": "C43",
   "status": "proved",
   "theorems": [
    "C43_sort",
    "C43_equivalent_bvs",
    "C43_partial_sort",
    "C43_constructor"
   ],
   "note": ""
  },
  {
   "property": "C44",
   "status": "proved",
   "theorems": [
    "C44_plus",
    "C44_plus_constructor",
    "C44_comma"
   ],
   "note": ""
  },
  {
   "property": "C45",
   "status": "proved",
   "theorems": [
    "C45_round",
    "C45_disjoint",
    "C45_select",
    "C45_last",
    "C45_init"
   ],
   "note": ""
  },
  {
   "property": "C46",
   "status": "proved",
   "theorems": [
    "C46_dominates",
    "C46_sizes",
    "C46_strict_order"
   ],
   "note": ""
  },
  {
   "property": "C47",
   "status": "proved",
   "theorems": [
    "C47_fronts",
    "C47_order_independent",
    "C47_first_front"
   ],
   "note": ""
  },
  {
   "property": "C48",
   "status": "proved",
   "theorems": [
    "C48_umda_within",
    "C48_pbil_within",
    "C48_mmas_within",
    "C48_cga_within",
    "C48_bounding",
    "C48_few_bits"
   ],
   "note": ""
  },
  {
   "property": "C49",
   "status": "proved",
   "theorems": [
    "C49_evaluate",
    "C49_random",
    "C49_random_any",
    "C49_planted"
   ],
   "note": ""
  },
  {
   "property": "C50",
   "status": "proved",
   "theorems": [
    "C50_random",
    "C50_solvable",
    "C50_not_loaded",
    "C50_objects"
   ],
   "note": ""
  },
  {
   "property": "C51",
   "status": "proved",
   "theorems": [
    "C51_transvections_generate"
   ],
   "note": ""
  },
  {
   "property": "C52",
   "status": "proved",
   "theorems": [
    "C52_unique_reuse_rejected",
    "C52_commuting_reuse_mixes",
    "C52_zero_keeps"
   ],
   "note": ""
  },
  {
   "property": "C53",
   "status": "proved",
   "theorems": [
    "C53_leadingones_value",
    "C53_ridge_value",
    "C53_plateau_value",
    "C53_jump_value",
    "C53_deceptivejump_value",
    "C53_trap_value",
    "C53_linear_value",
    "C53_fourpeaks_value"
   ],
   "note": ""
  },
  {
   "property": "C54",
   "status": "proved",
   "theorems": [
    "C54_peaks_low_threshold"
   ],
   "note": ""
  },
  {
   "property": "C55",
   "status": "proved",
   "theorems": [
    "C55_repeated_position",
    "C55_repeated_position_ising"
   ],
   "note": ""
  },
  {
   "property": "C56",
   "status": "proved",
   "theorems": [
    "C56_opposite_announces_incremental"
   ],
   "note": ""
  },
  {
   "property": "C57",
   "status": "proved",
   "theorems": [
    "C57_incremental_trigger",
    "C57_incremental_record",
    "C57_reported_vector_misses_target"
   ],
   "note": ""
  },
  {
   "property": "C58",
   "status": "proved",
   "theorems": [
    "C58_value_set",
    "C58_singletons"
   ],
   "note": ""
  },
  {
   "property": "C59",
   "status": "proved",
   "theorems": [
    "C59_loop"
   ],
   "note": ""
  },
  {
   "property": "C60",
   "status": "proved",
   "theorems": [
    "C60_random_search",
    "C60_random_walk",
    "C60_simulated_annealing"
   ],
   "note": ""
  },
  {
   "property": "C61",
   "status": "proved",
   "theorems": [
    "C61_random_walk_shift"
   ],
   "note": ""
  },
  {
   "property": "C62",
   "status": "proved",
   "theorems": [
    "C62_parallel_evaluation"
   ],
   "note": ""
  },
  {
   "property": "C63",
   "status": "proved",
   "theorems": [
    "C63_umda",
    "C63_pbil",
    "C63_mmas",
    "C63_cga"
   ],
   "note": ""
  },
  {
   "property": "C64",
   "status": "proved",
   "theorems": [
    "C64_umda",
    "C64_pbil",
    "C64_nps_pbil",
    "C64_mmas",
    "C64_cga"
   ],
   "note": ""
  },
  {
   "property": "C65",
   "status": "proved",
   "theorems": [
    "C65_nps_pbil_never_learns"
   ],
   "note": ""
  },
  {
   "property": "C66",
   "status": "proved",
   "theorems": [
    "C66_cga_evaluations"
   ],
   "note": ""
  },
  {
   "property": "C67",
   "status": "proved",
   "theorems": [
    "C67_generation",
    "C67_run"
   ],
   "note": ""
  },
  {
   "property": "C68",
   "status": "proved",
   "theorems": [
    "C68_generation",
    "C68_run",
    "C68_sizes"
   ],
   "note": ""
  },
  {
   "property": "C69",
   "status": "proved",
   "theorems": [
    "C69_generation",
    "C69_run"
   ],
   "note": ""
  },
  {
   "property": "C70",
   "status": "proved",
   "theorems": [
    "C70_step",
    "C70_run"
   ],
   "note": ""
  },
  {
   "property": "C71",
   "status": "proved",
   "theorems": [
    "C71_run"
   ],
   "note": ""
  },
  {
   "property": "C72",
   "status": "proved",
   "theorems": [
    "C72_step",
    "C72_run",
    "C72_few_bits"
   ],
   "note": ""
  },
  {
   "property": "C73",
   "status": "proved",
   "theorems": [
    "C73_step",
    "C73_run",
    "C73_one_offspring"
   ],
   "note": ""
  },
  {
   "property": "C74",
   "status": "proved",
   "theorems": [
    "C74_crossovers",
    "C74_sizes"
   ],
   "note": ""
  },
  {
   "property": "C75",
   "status": "proved",
   "theorems": [
    "C75_is_valid",
    "C75_is_identity",
    "C75_is_upper_triangular"
   ],
   "note": ""
  },
  {
   "property": "C76",
   "status": "proved",
   "theorems": [
    "C76_solve_upper_triangular"
   ],
   "note": ""
  },
  {
   "property": "C77",
   "status": "proved",
   "theorems": [
    "C77_save_load",
    "C77_load_sound",
    "C77_blank_line"
   ],
   "note": ""
  },
  {
   "property": "C78",
   "status": "proved",
   "theorems": [
    "C78_nae",
    "C78_load",
    "C78_save_load"
   ],
   "note": ""
  },
  {
   "property": "C79",
   "status": "proved",
   "theorems": [
    "C79_evaluate",
    "C79_preconditions",
    "C79_load",
    "C79_save_load"
   ],
   "note": ""
  },
  {
   "property": "C80",
   "status": "proved",
   "theorems": [
    "C80_value",
    "C80_same_order",
    "C80_symmetries",
    "C80_bounds",
    "C80_small"
   ],
   "note": ""
  },
  {
   "property": "C81",
   "status": "proved",
   "theorems": [
    "C81_value",
    "C81_shape",
    "C81_random"
   ],
   "note": ""
  },
  {
   "property": "C82",
   "status": "proved",
   "theorems": [
    "C82_value",
    "C82_short"
   ],
   "note": ""
  },
  {
   "property": "C83",
   "status": "proved",
   "theorems": [
    "C83_value",
    "C83_sinus",
    "C83_make"
   ],
   "note": ""
  },
  {
   "property": "C84",
   "status": "proved",
   "theorems": [
    "C84_value",
    "C84_composite",
    "C84_stable",
    "C84_one"
   ],
   "note": ""
  },
  {
   "property": "C85",
   "status": "proved",
   "theorems": [
    "C85_value",
    "C85_generate",
    "C85_distances"
   ],
   "note": ""
  },
  {
   "property": "C86",
   "status": "proved",
   "theorems": [
    "C86_value",
    "C86_generate",
    "C86_generate_any",
    "C86_too_many",
    "C86_generate_again"
   ],
   "note": ""
  },
  {
   "property": "C87",
   "status": "proved",
   "theorems": [
    "C87_value"
   ],
   "note": ""
  },
  {
   "property": "C88",
   "status": "proved",
   "theorems": [
    "C88_load",
    "C88_bad_element",
    "C88_no_header",
    "C88_sound",
    "C88_empty"
   ],
   "note": ""
  },
  {
   "property": "C89",
   "status": "proved",
   "theorems": [
    "C89_run",
    "C89_evaluations",
    "C89_comparison"
   ],
   "note": ""
  },
  {
   "property": "C90",
   "status": "proved",
   "theorems": [
    "C90_solutions",
    "C90_last",
    "C90_extremes",
    "C90_single",
    "C90_all",
    "C90_non_dominated"
   ],
   "note": ""
  },
  {
   "property": "C91",
   "status": "proved",
   "theorems": [
    "C91_refused",
    "C91_make",
    "C91_interrupted",
    "C91_second_run"
   ],
   "note": ""
  },
  {
   "property": "C92",
   "status": "proved",
   "theorems": [
    "C92_iteration",
    "C92_initialization",
    "C92_any_vector",
    "C92_determined"
   ],
   "note": ""
  },
  {
   "property": "C93",
   "status": "proved",
   "theorems": [
    "C93_run",
    "C93_make",
    "C93_bad_selection"
   ],
   "note": ""
  },
  {
   "property": "C94",
   "status": "proved",
   "theorems": [
    "C94_iteration",
    "C94_second_iteration",
    "C94_bijection",
    "C94_any_vector"
   ],
   "note": ""
  },
  {
   "property": "C95",
   "status": "proved",
   "theorems": [
    "C95_run",
    "C95_make",
    "C95_misuse"
   ],
   "note": ""
  },
  {
   "property": "C96",
   "status": "proved",
   "theorems": [
    "C96_constant",
    "C96_increasing",
    "C96_decreasing",
    "C96_random",
    "C96_not_reset",
    "C96_refused"
   ],
   "note": ""
  },
  {
   "property": "C97",
   "status": "proved",
   "theorems": [
    "C97_iteration",
    "C97_shares",
    "C97_component"
   ],
   "note": ""
  },
  {
   "property": "C98",
   "status": "proved",
   "theorems": [
    "C98_run",
    "C98_center",
    "C98_make",
    "C98_selection",
    "C98_misuse"
   ],
   "note": ""
  },
  {
   "property": "C99",
   "status": "proved",
   "theorems": [
    "C99_mean",
    "C99_update",
    "C99_difference",
    "C99_bound",
    "C99_display",
    "C99_norms",
    "C99_negative"
   ],
   "note": ""
  },
  {
   "property": "C100",
   "status": "proved",
   "theorems": [
    "C100_sample",
    "C100_herd",
    "C100_unique",
    "C100_error",
    "C100_uniform"
   ],
   "note": ""
  },
  {
   "property": "C101",
   "status": "proved",
   "theorems": [
    "C101_boltzmann",
    "C101_update",
    "C101_synchronous"
   ],
   "note": ""
  },
  {
   "property": "C102",
   "status": "proved",
   "theorems": [
    "C102_iteration",
    "C102_initialization"
   ],
   "note": ""
  },
  {
   "property": "C103",
   "status": "proved",
   "theorems": [
    "C103_run",
    "C103_kinds",
    "C103_make",
    "C103_misuse"
   ],
   "note": ""
  },
  {
   "property": "C104",
   "status": "proved",
   "theorems": [
    "C104_iteration",
    "C104_initialization"
   ],
   "note": ""
  },
  {
   "property": "C105",
   "status": "proved",
   "theorems": [
    "C105_run",
    "C105_kinds",
    "C105_make",
    "C105_misuse"
   ],
   "note": ""
  },
  {
   "property": "C106",
   "status": "proved",
   "theorems": [
    "C106_cut_at_delimiter",
    "C106_join",
    "C106_one_character",
    "C106_empty_delimiter"
   ],
   "note": ""
  },
  {
   "property": "C107",
   "status": "proved",
   "theorems": [
    "C107_grammar",
    "C107_documented_syntax",
    "C107_failures",
    "C107_bad_integer",
    "C107_trailing_semicolon"
   ],
   "note": ""
  },
  {
   "property": "C108",
   "status": "proved",
   "theorems": [
    "C108_variables",
    "C108_wrong_default",
    "C108_complex_variables",
    "C108_mixed_variables",
    "C108_errors"
   ],
   "note": ""
  },
  {
   "property": "C109",
   "status": "proved",
   "theorems": [
    "C109_random_map",
    "C109_made",
    "C109_errors",
    "C109_values",
    "C109_prior_noise_size",
    "C109_known_maximum",
    "C109_maximum",
    "C109_minimize",
    "C109_incremental_evaluation"
   ],
   "note": ""
  },
  {
   "property": "C110",
   "status": "proved",
   "theorems": [
    "C110_report",
    "C110_sequential",
    "C110_cache_hides_updates",
    "C110_target",
    "C110_trigger"
   ],
   "note": ""
  },
  {
   "property": "C111",
   "status": "proved",
   "theorems": [
    "C111_run",
    "C111_ends",
    "C111_results",
    "C111_restart",
    "C111_concrete_description",
    "C111_made",
    "C111_maximizer",
    "C111_errors",
    "C111_information",
    "C111_load"
   ],
   "note": ""
  },
  {
   "property": "C112",
   "status": "proved",
   "theorems": [
    "C112_random_weight",
    "C112_trials",
    "C112_rejection",
    "C112_rejection_ends",
    "C112_neighborhood",
    "C112_nk_neighbors"
   ],
   "note": ""
  },
  {
   "property": "C113",
   "status": "proved",
   "theorems": [
    "C113_random",
    "C113_probability_vector",
    "C113_mimic",
    "C113_uniform_crossover",
    "C113_biased_crossover",
    "C113_standard_bit_mutation"
   ],
   "note": ""
  },
  {
   "property": "C114",
   "status": "proved",
   "theorems": [
    "C114_uniform",
    "C114_non_commuting"
   ],
   "note": ""
  },
  {
   "property": "C115",
   "status": "proved",
   "theorems": [
    "C115_consistent",
    "C115_complete",
    "C115_random"
   ],
   "note": ""
  },
  {
   "property": "C116",
   "status": "proved",
   "theorems": [
    "C116_complete_search"
   ],
   "note": ""
  },
  {
   "property": "C117",
   "status": "proved",
   "theorems": [
    "C117_random_search"
   ],
   "note": ""
  },
  {
   "property": "C118",
   "status": "proved",
   "theorems": [
    "C118_value",
    "C118_maximum",
    "C118_incremental",
    "C118_options",
    "C118_unknown_type",
    "C118_complete_search",
    "C118_decorated_search",
    "C118_peaks_missed"
   ],
   "note": ""
  },
  {
   "property": "C119",
   "status": "proved",
   "theorems": [
    "C119_sum",
    "C119_linear_maximum",
    "C119_walsh1_maximum",
    "C119_linear_exact",
    "C119_walsh1_exact",
    "C119_walsh_exact",
    "C119_maximum_exact",
    "C119_integers",
    "C119_incremental",
    "C119_incremental_drift",
    "C119_infinite_weight",
    "C119_overflow_stays"
   ],
   "note": ""
  },
  {
   "property": "C120",
   "status": "proved",
   "theorems": [
    "C120_one_objective",
    "C120_one_objective_errors",
    "C120_objectives",
    "C120_errors",
    "C120_sizes",
    "C120_deterministic",
    "C120_scalar_functions",
    "C120_mixed_functions",
    "C120_wrong_default",
    "C120_refused",
    "C120_integers"
   ],
   "note": ""
  },
  {
   "property": "C121",
   "status": "proved",
   "theorems": [
    "C121_start",
    "C121_questions",
    "C121_refused",
    "C121_run",
    "C121_success",
    "C121_no_iterations",
    "C121_crossover_probability",
    "C121_expressions"
   ],
   "note": ""
  },
  {
   "property": "C122",
   "status": "proved",
   "theorems": [
    "C122_options",
    "C122_generated",
    "C122_unwritable",
    "C122_save_load",
    "C122_composition",
    "C122_loaded",
    "C122_missing",
    "C122_other_kind",
    "C122_function",
    "C122_bits"
   ],
   "note": ""
  },
  {
   "property": "C123",
   "status": "proved",
   "theorems": [
    "C123_options",
    "C123_generated",
    "C123_function",
    "C123_missing",
    "C123_same_format",
    "C123_progressions",
    "C123_overflow",
    "C123_maxsat",
    "C123_texts",
    "C123_sudoku"
   ],
   "note": ""
  },
  {
   "property": "C124",
   "status": "proved",
   "theorems": [
    "C124_program",
    "C124_ends",
    "C124_climbing",
    "C124_neighborhood",
    "C124_searches",
    "C124_errors"
   ],
   "note": ""
  },
  {
   "property": "C125",
   "status": "proved",
   "theorems": [
    "C125_program",
    "C125_ends",
    "C125_sizes",
    "C125_tournament",
    "C125_options"
   ],
   "note": ""
  },
  {
   "property": "C126",
   "status": "proved",
   "theorems": [
    "C126_program",
    "C126_ends",
    "C126_sizes",
    "C126_options"
   ],
   "note": ""
  },
  {
   "property": "C127",
   "status": "proved",
   "theorems": [
    "C127_program",
    "C127_one_offspring",
    "C127_ends",
    "C127_asserted"
   ],
   "note": ""
  },
  {
   "property": "C128",
   "status": "proved",
   "theorems": [
    "C128_program",
    "C128_ends",
    "C128_endless",
    "C128_solution"
   ],
   "note": ""
  },
  {
   "property": "C129",
   "status": "proved",
   "theorems": [
    "C129_made",
    "C129_incremental",
    "C129_solvable",
    "C129_describe",
    "C129_errors",
    "C129_complete_search",
    "C129_local_search",
    "C129_generated",
    "C129_full_grid"
   ],
   "note": ""
  },
  {
   "property": "C130",
   "status": "proved",
   "theorems": [
    "C130_value",
    "C130_distinct",
    "C130_all_tours",
    "C130_complete_search",
    "C130_program",
    "C130_errors"
   ],
   "note": ""
  },
  {
   "property": "C131",
   "status": "proved",
   "theorems": [
    "C131_spectrum",
    "C131_constant",
    "C131_interrupted",
    "C131_sizes",
    "C131_amplitudes"
   ],
   "note": ""
  },
  {
   "property": "C132",
   "status": "proved",
   "theorems": [
    "C132_ends",
    "C132_quits_at_once",
    "C132_never_ends",
    "C132_size_zero"
   ],
   "note": ""
  },
  {
   "property": "C133",
   "status": "proved",
   "theorems": [
    "C133_program",
    "C133_same",
    "C133_functions"
   ],
   "note": ""
  },
  {
   "property": "C134",
   "status": "proved",
   "theorems": [
    "C134_options",
    "C134_reading",
    "C134_order",
    "C134_wrong",
    "C134_bool",
    "C134_overflow",
    "C134_pages",
    "C134_accessors",
    "C134_print"
   ],
   "note": ""
  },
  {
   "property": "C135",
   "status": "proved",
   "theorems": [
    "C135_words",
    "C135_refused",
    "C135_maximum",
    "C135_local_search",
    "C135_onemax"
   ],
   "note": ""
  },
  {
   "property": "C136",
   "status": "proved",
   "theorems": [
    "C136_words",
    "C136_population",
    "C136_lambda",
    "C136_estimation",
    "C136_defaults"
   ],
   "note": ""
  },
  {
   "property": "C137",
   "status": "proved",
   "theorems": [
    "C137_options",
    "C137_order",
    "C137_wrong",
    "C137_overflow",
    "C137_pages",
    "C137_accessors",
    "C137_print"
   ],
   "note": ""
  },
  {
   "property": "C138",
   "status": "proved",
   "theorems": [
    "C138_refused",
    "C138_mapgen",
    "C138_map",
    "C138_ffgen",
    "C138_function",
    "C138_multi",
    "C138_default_function",
    "C138_linear"
   ],
   "note": ""
  },
  {
   "property": "C139",
   "status": "proved",
   "theorems": [
    "C139_update",
    "C139_function",
    "C139_mixed_function",
    "C139_wrong_default",
    "C139_refused",
    "C139_complete_search",
    "C139_equation"
   ],
   "note": ""
  },
  {
   "property": "C140",
   "status": "proved",
   "theorems": [
    "C140_refused",
    "C140_wrong_default",
    "C140_expressions",
    "C140_mixed_expressions"
   ],
   "note": ""
  },
  {
   "property": "C141",
   "status": "proved",
   "theorems": [
    "C141_refused",
    "C141_update",
    "C141_function",
    "C141_mixed_function",
    "C141_wrong_default",
    "C141_complete_search",
    "C141_equations",
    "C141_others"
   ],
   "note": ""
  },
  {
   "property": "C142",
   "status": "proved",
   "theorems": [
    "C142_refused",
    "C142_update",
    "C142_function",
    "C142_sum",
    "C142_wrong_default",
    "C142_complete_search",
    "C142_equations",
    "C142_others"
   ],
   "note": ""
  },
  {
   "property": "C143",
   "status": "proved",
   "theorems": [
    "C143_seed",
    "C143_same_seed",
    "C143_replay",
    "C143_replay_start",
    "C143_draws",
    "C143_default"
   ],
   "note": ""
  },
  {
   "property": "C144",
   "status": "proved",
   "theorems": [
    "C144_symmetric",
    "C144_strictly_lower_triangular",
    "C144_diagonal",
    "C144_range",
    "C144_dominant_diagonal",
    "C144_lower_storage"
   ],
   "note": ""
  },
  {
   "property": "C145",
   "status": "proved",
   "theorems": [
    "C145_solution",
    "C145_exact",
    "C145_order",
    "C145_missed",
    "C145_low",
    "C145_gomea"
   ],
   "note": ""
  },
  {
   "property": "C146",
   "status": "proved",
   "theorems": [
    "C146_donate",
    "C146_clusters",
    "C146_iteration",
    "C146_run",
    "C146_total"
   ],
   "note": ""
  },
  {
   "property": "C147",
   "status": "proved",
   "theorems": [
    "C147_start",
    "C147_iteration",
    "C147_run",
    "C147_one",
    "C147_goes_on",
    "C147_converged"
   ],
   "note": ""
  },
  {
   "property": "C148",
   "status": "proved",
   "theorems": [
    "C148_order",
    "C148_generate",
    "C148_leaves"
   ],
   "note": ""
  },
  {
   "property": "C149",
   "status": "proved",
   "theorems": [
    "C149_start",
    "C149_tournaments",
    "C149_nearest",
    "C149_replacement",
    "C149_generation",
    "C149_run",
    "C149_empty"
   ],
   "note": ""
  },
  {
   "property": "C150",
   "status": "proved",
   "theorems": [
    "C150_one",
    "C150_multiply",
    "C150_divide",
    "C150_product",
    "C150_quotient",
    "C150_simplify",
    "C150_conversion",
    "C150_score",
    "C150_useless"
   ],
   "note": ""
  },
  {
   "property": "C151",
   "status": "proved",
   "theorems": [
    "C151_others",
    "C151_refused",
    "C151_wrong_default",
    "C151_expressions"
   ],
   "note": ""
  }
 ]
}