(** Model of the command line: lib/hnco/app/hnco-options.hh and lib/hnco/app/hnco-options.cc.

    The tables follow the source, in its order: the long options, the cases of the switch, the
    members with their initializers, the accessors and operator<<.  An enumerator is its
    name without OPTION_, a member its name without the first underscore.  std::atof is any
    function: a double is the text it is read from.  The name of the executable, the texts of
    the help pages and the messages are left out. *)

From Coq Require Import ZArith NArith String Ascii.
From Verif Require Import Base BitVector_Model Text_Model Double Controller_Model Application_Model.
Local Open Scope nat_scope.
Local Open Scope string_scope.
Local Open Scope list_scope.

Inductive value := VInt (z : Z) | VUnsigned (z : Z) | VReal (text : string) | VText (s : string) | VBool (b : bool).

(** What getopt_long returns: a letter, or an enumerator, hnco-options.hh:19-158 *)
Inductive label := Letter (c : ascii) | Code (s : string).
Definition label_eqb (a b : label) : bool :=
  match a, b with
  | Letter c, Letter d => Ascii.eqb c d
  | Code s, Code t => String.eqb s t
  | _, _ => false
  end.

(** hnco-options.cc:13-153: name, required_argument and value *)
Definition long_options : list (string * bool * label) := [
  ("algorithm", true, Code "ALGORITHM"); ("bm-num-gs-cycles", true, Code "BM_NUM_GS_CYCLES");
  ("bm-num-gs-steps", true, Code "BM_NUM_GS_STEPS"); ("bm-reset-mode", true, Code "BM_RESET_MODE");
  ("bm-sampling-mode", true, Code "BM_SAMPLING_MODE"); ("budget", true, Code "BUDGET");
  ("bv-size", true, Code "BV_SIZE"); ("description-path", true, Code "DESCRIPTION_PATH");
  ("ea-crossover-bias", true, Code "EA_CROSSOVER_BIAS");
  ("ea-crossover-probability", true, Code "EA_CROSSOVER_PROBABILITY");
  ("ea-it-initial-hamming-weight", true, Code "EA_IT_INITIAL_HAMMING_WEIGHT");
  ("ea-it-replacement", true, Code "EA_IT_REPLACEMENT"); ("ea-lambda", true, Code "EA_LAMBDA");
  ("ea-mu", true, Code "EA_MU"); ("ea-mutation-rate", true, Code "EA_MUTATION_RATE");
  ("ea-mutation-rate-max", true, Code "EA_MUTATION_RATE_MAX");
  ("ea-mutation-rate-min", true, Code "EA_MUTATION_RATE_MIN"); ("ea-success-ratio", true, Code "EA_SUCCESS_RATIO");
  ("ea-tournament-size", true, Code "EA_TOURNAMENT_SIZE"); ("ea-update-strength", true, Code "EA_UPDATE_STRENGTH");
  ("expression", true, Code "EXPRESSION"); ("fn-name", true, Code "FN_NAME");
  ("fn-num-traps", true, Code "FN_NUM_TRAPS"); ("fn-prefix-length", true, Code "FN_PREFIX_LENGTH");
  ("fn-threshold", true, Code "FN_THRESHOLD");
  ("fp-default-double-precision", true, Code "FP_DEFAULT_DOUBLE_PRECISION");
  ("fp-default-double-rep", true, Code "FP_DEFAULT_DOUBLE_REP");
  ("fp-default-double-size", true, Code "FP_DEFAULT_DOUBLE_SIZE");
  ("fp-default-int-rep", true, Code "FP_DEFAULT_INT_REP"); ("fp-default-long-rep", true, Code "FP_DEFAULT_LONG_REP");
  ("fp-expression", true, Code "FP_EXPRESSION"); ("fp-representations", true, Code "FP_REPRESENTATIONS");
  ("fp-representations-path", true, Code "FP_REPRESENTATIONS_PATH"); ("function", true, Code "FUNCTION");
  ("hea-bound-moment", true, Code "HEA_BOUND_MOMENT");
  ("hea-randomize-bit-order", true, Code "HEA_RANDOMIZE_BIT_ORDER");
  ("hea-reset-period", true, Code "HEA_RESET_PERIOD"); ("learning-rate", true, Code "LEARNING_RATE");
  ("map", true, Code "MAP"); ("map-input-size", true, Code "MAP_INPUT_SIZE"); ("map-path", true, Code "MAP_PATH");
  ("map-ts-length", true, Code "MAP_TS_LENGTH"); ("map-ts-sampling-mode", true, Code "MAP_TS_SAMPLING_MODE");
  ("neighborhood", true, Code "NEIGHBORHOOD"); ("neighborhood-iterator", true, Code "NEIGHBORHOOD_ITERATOR");
  ("noise-stddev", true, Code "NOISE_STDDEV"); ("num-iterations", true, Code "NUM_ITERATIONS");
  ("num-threads", true, Code "NUM_THREADS"); ("path", true, Code "PATH");
  ("pn-mutation-rate", true, Code "PN_MUTATION_RATE"); ("pn-neighborhood", true, Code "PN_NEIGHBORHOOD");
  ("pn-radius", true, Code "PN_RADIUS"); ("population-size", true, Code "POPULATION_SIZE");
  ("pv-log-num-components", true, Code "PV_LOG_NUM_COMPONENTS"); ("radius", true, Code "RADIUS");
  ("ram-crossover-probability", true, Code "RAM_CROSSOVER_PROBABILITY");
  ("ram-latent-space-probability", true, Code "RAM_LATENT_SPACE_PROBABILITY");
  ("ram-ts-length", true, Code "RAM_TS_LENGTH");
  ("ram-ts-length-distribution-parameter", true, Code "RAM_TS_LENGTH_DISTRIBUTION_PARAMETER");
  ("ram-ts-length-increment-period", true, Code "RAM_TS_LENGTH_INCREMENT_PERIOD");
  ("ram-ts-length-lower-bound", true, Code "RAM_TS_LENGTH_LOWER_BOUND");
  ("ram-ts-length-mode", true, Code "RAM_TS_LENGTH_MODE");
  ("ram-ts-length-upper-bound", true, Code "RAM_TS_LENGTH_UPPER_BOUND");
  ("rep-categorical-representation", true, Code "REP_CATEGORICAL_REPRESENTATION");
  ("rep-num-additional-bits", true, Code "REP_NUM_ADDITIONAL_BITS"); ("results-path", true, Code "RESULTS_PATH");
  ("rls-patience", true, Code "RLS_PATIENCE"); ("sa-beta-ratio", true, Code "SA_BETA_RATIO");
  ("sa-initial-acceptance-probability", true, Code "SA_INITIAL_ACCEPTANCE_PROBABILITY");
  ("sa-num-transitions", true, Code "SA_NUM_TRANSITIONS"); ("sa-num-trials", true, Code "SA_NUM_TRIALS");
  ("seed", true, Code "SEED"); ("selection-size", true, Code "SELECTION_SIZE");
  ("solution-path", true, Code "SOLUTION_PATH"); ("target", true, Code "TARGET");
  ("additive-gaussian-noise", false, Code "ADDITIVE_GAUSSIAN_NOISE"); ("bm-log-norm-1", false, Code "BM_LOG_NORM_1");
  ("bm-log-norm-infinite", false, Code "BM_LOG_NORM_INFINITE");
  ("bm-negative-positive-selection", false, Code "BM_NEGATIVE_POSITIVE_SELECTION"); ("cache", false, Code "CACHE");
  ("cache-budget", false, Code "CACHE_BUDGET"); ("concrete-solution", false, Code "CONCRETE_SOLUTION");
  ("ea-allow-no-mutation", false, Code "EA_ALLOW_NO_MUTATION");
  ("ea-it-log-center-fitness", false, Code "EA_IT_LOG_CENTER_FITNESS");
  ("ea-log-mutation-rate", false, Code "EA_LOG_MUTATION_RATE"); ("fn-display", false, Code "FN_DISPLAY");
  ("fn-get-bv-size", false, Code "FN_GET_BV_SIZE"); ("fn-get-maximum", false, Code "FN_GET_MAXIMUM");
  ("fn-has-known-maximum", false, Code "FN_HAS_KNOWN_MAXIMUM");
  ("fn-provides-incremental-evaluation", false, Code "FN_PROVIDES_INCREMENTAL_EVALUATION");
  ("fn-walsh-transform", false, Code "FN_WALSH_TRANSFORM"); ("hea-log-delta-norm", false, Code "HEA_LOG_DELTA_NORM");
  ("hea-log-herding-error", false, Code "HEA_LOG_HERDING_ERROR"); ("hea-log-target", false, Code "HEA_LOG_TARGET");
  ("hea-log-target-norm", false, Code "HEA_LOG_TARGET_NORM");
  ("incremental-evaluation", false, Code "INCREMENTAL_EVALUATION"); ("load-solution", false, Code "LOAD_SOLUTION");
  ("log-improvement", false, Code "LOG_IMPROVEMENT"); ("map-display", false, Code "MAP_DISPLAY");
  ("map-random", false, Code "MAP_RANDOM"); ("map-surjective", false, Code "MAP_SURJECTIVE");
  ("minimize", false, Code "MINIMIZE"); ("mmas-strict", false, Code "MMAS_STRICT");
  ("parsed-modifier", false, Code "PARSED_MODIFIER"); ("pn-allow-no-mutation", false, Code "PN_ALLOW_NO_MUTATION");
  ("print-default-parameters", false, Code "PRINT_DEFAULT_PARAMETERS");
  ("print-description", false, Code "PRINT_DESCRIPTION"); ("print-parameters", false, Code "PRINT_PARAMETERS");
  ("print-results", false, Code "PRINT_RESULTS"); ("print-solution", false, Code "PRINT_SOLUTION");
  ("prior-noise", false, Code "PRIOR_NOISE"); ("pv-log-entropy", false, Code "PV_LOG_ENTROPY");
  ("pv-log-pv", false, Code "PV_LOG_PV"); ("record-evaluation-time", false, Code "RECORD_EVALUATION_TIME");
  ("record-total-time", false, Code "RECORD_TOTAL_TIME"); ("restart", false, Code "RESTART");
  ("rls-strict", false, Code "RLS_STRICT"); ("rw-log-value", false, Code "RW_LOG_VALUE");
  ("save-description", false, Code "SAVE_DESCRIPTION"); ("save-results", false, Code "SAVE_RESULTS");
  ("save-solution", false, Code "SAVE_SOLUTION"); ("stop-on-maximum", false, Code "STOP_ON_MAXIMUM");
  ("version", false, Code "VERSION"); ("help", false, Code "HELP"); ("help-fn", false, Code "HELP_FN");
  ("help-fp", false, Code "HELP_FP"); ("help-rep", false, Code "HELP_REP"); ("help-mod", false, Code "HELP_MOD");
  ("help-ctrl", false, Code "HELP_CTRL"); ("help-pn", false, Code "HELP_PN"); ("help-map", false, Code "HELP_MAP");
  ("help-alg", false, Code "HELP_ALG"); ("help-ls", false, Code "HELP_LS"); ("help-sa", false, Code "HELP_SA");
  ("help-ea", false, Code "HELP_EA"); ("help-eda", false, Code "HELP_EDA"); ("help-hea", false, Code "HELP_HEA");
  ("help-bm", false, Code "HELP_BM")].

(** hnco-options.cc:154 *)
Definition short_options : string := "A:b:s:m:t:F:l:M:N:i:p:x:y:".

(** hnco-options.cc:160-815: a case reads its argument, raises a flag, or prints a page and
    exits. *)
Inductive conversion := Atoi | Atof | Copied | Strtoul | Boolean.
Inductive action := Store (present member : string) (c : conversion) | Raise (member : string) | Stop (page : string).
Definition cases : list (list label * action) := [
  ([Letter "A"; Code "ALGORITHM"], Store "with_algorithm" "algorithm" Atoi);
  ([Code "BM_NUM_GS_CYCLES"], Store "with_bm_num_gs_cycles" "bm_num_gs_cycles" Atoi);
  ([Code "BM_NUM_GS_STEPS"], Store "with_bm_num_gs_steps" "bm_num_gs_steps" Atoi);
  ([Code "BM_RESET_MODE"], Store "with_bm_reset_mode" "bm_reset_mode" Atoi);
  ([Code "BM_SAMPLING_MODE"], Store "with_bm_sampling_mode" "bm_sampling_mode" Atoi);
  ([Letter "b"; Code "BUDGET"], Store "with_budget" "budget" Atoi);
  ([Letter "s"; Code "BV_SIZE"], Store "with_bv_size" "bv_size" Atoi);
  ([Code "DESCRIPTION_PATH"], Store "with_description_path" "description_path" Copied);
  ([Code "EA_CROSSOVER_BIAS"], Store "with_ea_crossover_bias" "ea_crossover_bias" Atof);
  ([Code "EA_CROSSOVER_PROBABILITY"], Store "with_ea_crossover_probability" "ea_crossover_probability" Atof);
  ([Code "EA_IT_INITIAL_HAMMING_WEIGHT"], Store "with_ea_it_initial_hamming_weight" "ea_it_initial_hamming_weight" Atoi);
  ([Code "EA_IT_REPLACEMENT"], Store "with_ea_it_replacement" "ea_it_replacement" Atoi);
  ([Code "EA_LAMBDA"], Store "with_ea_lambda" "ea_lambda" Atoi); ([Code "EA_MU"], Store "with_ea_mu" "ea_mu" Atoi);
  ([Letter "m"; Code "EA_MUTATION_RATE"], Store "with_ea_mutation_rate" "ea_mutation_rate" Atof);
  ([Code "EA_MUTATION_RATE_MAX"], Store "with_ea_mutation_rate_max" "ea_mutation_rate_max" Atof);
  ([Code "EA_MUTATION_RATE_MIN"], Store "with_ea_mutation_rate_min" "ea_mutation_rate_min" Atof);
  ([Code "EA_SUCCESS_RATIO"], Store "with_ea_success_ratio" "ea_success_ratio" Atof);
  ([Code "EA_TOURNAMENT_SIZE"], Store "with_ea_tournament_size" "ea_tournament_size" Atoi);
  ([Code "EA_UPDATE_STRENGTH"], Store "with_ea_update_strength" "ea_update_strength" Atof);
  ([Code "EXPRESSION"], Store "with_expression" "expression" Copied);
  ([Code "FN_NAME"], Store "with_fn_name" "fn_name" Copied);
  ([Code "FN_NUM_TRAPS"], Store "with_fn_num_traps" "fn_num_traps" Atoi);
  ([Code "FN_PREFIX_LENGTH"], Store "with_fn_prefix_length" "fn_prefix_length" Atoi);
  ([Letter "t"; Code "FN_THRESHOLD"], Store "with_fn_threshold" "fn_threshold" Atoi);
  ([Code "FP_DEFAULT_DOUBLE_PRECISION"], Store "with_fp_default_double_precision" "fp_default_double_precision" Atof);
  ([Code "FP_DEFAULT_DOUBLE_REP"], Store "with_fp_default_double_rep" "fp_default_double_rep" Copied);
  ([Code "FP_DEFAULT_DOUBLE_SIZE"], Store "with_fp_default_double_size" "fp_default_double_size" Atoi);
  ([Code "FP_DEFAULT_INT_REP"], Store "with_fp_default_int_rep" "fp_default_int_rep" Copied);
  ([Code "FP_DEFAULT_LONG_REP"], Store "with_fp_default_long_rep" "fp_default_long_rep" Copied);
  ([Code "FP_EXPRESSION"], Store "with_fp_expression" "fp_expression" Copied);
  ([Code "FP_REPRESENTATIONS"], Store "with_fp_representations" "fp_representations" Copied);
  ([Code "FP_REPRESENTATIONS_PATH"], Store "with_fp_representations_path" "fp_representations_path" Copied);
  ([Letter "F"; Code "FUNCTION"], Store "with_function" "function" Atoi);
  ([Code "HEA_BOUND_MOMENT"], Store "with_hea_bound_moment" "hea_bound_moment" Boolean);
  ([Code "HEA_RANDOMIZE_BIT_ORDER"], Store "with_hea_randomize_bit_order" "hea_randomize_bit_order" Boolean);
  ([Code "HEA_RESET_PERIOD"], Store "with_hea_reset_period" "hea_reset_period" Atoi);
  ([Letter "l"; Code "LEARNING_RATE"], Store "with_learning_rate" "learning_rate" Atof);
  ([Letter "M"; Code "MAP"], Store "with_map" "map" Atoi);
  ([Code "MAP_INPUT_SIZE"], Store "with_map_input_size" "map_input_size" Atoi);
  ([Code "MAP_PATH"], Store "with_map_path" "map_path" Copied);
  ([Code "MAP_TS_LENGTH"], Store "with_map_ts_length" "map_ts_length" Atoi);
  ([Code "MAP_TS_SAMPLING_MODE"], Store "with_map_ts_sampling_mode" "map_ts_sampling_mode" Atoi);
  ([Letter "N"; Code "NEIGHBORHOOD"], Store "with_neighborhood" "neighborhood" Atoi);
  ([Code "NEIGHBORHOOD_ITERATOR"], Store "with_neighborhood_iterator" "neighborhood_iterator" Atoi);
  ([Code "NOISE_STDDEV"], Store "with_noise_stddev" "noise_stddev" Atof);
  ([Letter "i"; Code "NUM_ITERATIONS"], Store "with_num_iterations" "num_iterations" Atoi);
  ([Code "NUM_THREADS"], Store "with_num_threads" "num_threads" Atoi);
  ([Letter "p"; Code "PATH"], Store "with_path" "path" Copied);
  ([Code "PN_MUTATION_RATE"], Store "with_pn_mutation_rate" "pn_mutation_rate" Atof);
  ([Code "PN_NEIGHBORHOOD"], Store "with_pn_neighborhood" "pn_neighborhood" Atoi);
  ([Code "PN_RADIUS"], Store "with_pn_radius" "pn_radius" Atoi);
  ([Letter "x"; Code "POPULATION_SIZE"], Store "with_population_size" "population_size" Atoi);
  ([Code "PV_LOG_NUM_COMPONENTS"], Store "with_pv_log_num_components" "pv_log_num_components" Atoi);
  ([Code "RADIUS"], Store "with_radius" "radius" Atoi);
  ([Code "RAM_CROSSOVER_PROBABILITY"], Store "with_ram_crossover_probability" "ram_crossover_probability" Atof);
  ([Code "RAM_LATENT_SPACE_PROBABILITY"], Store "with_ram_latent_space_probability" "ram_latent_space_probability" Atof);
  ([Code "RAM_TS_LENGTH"], Store "with_ram_ts_length" "ram_ts_length" Atoi);
  ([Code "RAM_TS_LENGTH_DISTRIBUTION_PARAMETER"], Store "with_ram_ts_length_distribution_parameter" "ram_ts_length_distribution_parameter" Atof);
  ([Code "RAM_TS_LENGTH_INCREMENT_PERIOD"], Store "with_ram_ts_length_increment_period" "ram_ts_length_increment_period" Atoi);
  ([Code "RAM_TS_LENGTH_LOWER_BOUND"], Store "with_ram_ts_length_lower_bound" "ram_ts_length_lower_bound" Atoi);
  ([Code "RAM_TS_LENGTH_MODE"], Store "with_ram_ts_length_mode" "ram_ts_length_mode" Atoi);
  ([Code "RAM_TS_LENGTH_UPPER_BOUND"], Store "with_ram_ts_length_upper_bound" "ram_ts_length_upper_bound" Atoi);
  ([Code "REP_CATEGORICAL_REPRESENTATION"], Store "with_rep_categorical_representation" "rep_categorical_representation" Atoi);
  ([Code "REP_NUM_ADDITIONAL_BITS"], Store "with_rep_num_additional_bits" "rep_num_additional_bits" Atoi);
  ([Code "RESULTS_PATH"], Store "with_results_path" "results_path" Copied);
  ([Code "RLS_PATIENCE"], Store "with_rls_patience" "rls_patience" Atoi);
  ([Code "SA_BETA_RATIO"], Store "with_sa_beta_ratio" "sa_beta_ratio" Atof);
  ([Code "SA_INITIAL_ACCEPTANCE_PROBABILITY"], Store "with_sa_initial_acceptance_probability" "sa_initial_acceptance_probability" Atof);
  ([Code "SA_NUM_TRANSITIONS"], Store "with_sa_num_transitions" "sa_num_transitions" Atoi);
  ([Code "SA_NUM_TRIALS"], Store "with_sa_num_trials" "sa_num_trials" Atoi);
  ([Code "SEED"], Store "with_seed" "seed" Strtoul);
  ([Letter "y"; Code "SELECTION_SIZE"], Store "with_selection_size" "selection_size" Atoi);
  ([Code "SOLUTION_PATH"], Store "with_solution_path" "solution_path" Copied);
  ([Code "TARGET"], Store "with_target" "target" Atof);
  ([Code "ADDITIVE_GAUSSIAN_NOISE"], Raise "additive_gaussian_noise"); ([Code "BM_LOG_NORM_1"], Raise "bm_log_norm_1");
  ([Code "BM_LOG_NORM_INFINITE"], Raise "bm_log_norm_infinite");
  ([Code "BM_NEGATIVE_POSITIVE_SELECTION"], Raise "bm_negative_positive_selection"); ([Code "CACHE"], Raise "cache");
  ([Code "CACHE_BUDGET"], Raise "cache_budget"); ([Code "CONCRETE_SOLUTION"], Raise "concrete_solution");
  ([Code "EA_ALLOW_NO_MUTATION"], Raise "ea_allow_no_mutation");
  ([Code "EA_IT_LOG_CENTER_FITNESS"], Raise "ea_it_log_center_fitness");
  ([Code "EA_LOG_MUTATION_RATE"], Raise "ea_log_mutation_rate"); ([Code "FN_DISPLAY"], Raise "fn_display");
  ([Code "FN_GET_BV_SIZE"], Raise "fn_get_bv_size"); ([Code "FN_GET_MAXIMUM"], Raise "fn_get_maximum");
  ([Code "FN_HAS_KNOWN_MAXIMUM"], Raise "fn_has_known_maximum");
  ([Code "FN_PROVIDES_INCREMENTAL_EVALUATION"], Raise "fn_provides_incremental_evaluation");
  ([Code "FN_WALSH_TRANSFORM"], Raise "fn_walsh_transform"); ([Code "HEA_LOG_DELTA_NORM"], Raise "hea_log_delta_norm");
  ([Code "HEA_LOG_HERDING_ERROR"], Raise "hea_log_herding_error"); ([Code "HEA_LOG_TARGET"], Raise "hea_log_target");
  ([Code "HEA_LOG_TARGET_NORM"], Raise "hea_log_target_norm");
  ([Code "INCREMENTAL_EVALUATION"], Raise "incremental_evaluation"); ([Code "LOAD_SOLUTION"], Raise "load_solution");
  ([Code "LOG_IMPROVEMENT"], Raise "log_improvement"); ([Code "MAP_DISPLAY"], Raise "map_display");
  ([Code "MAP_RANDOM"], Raise "map_random"); ([Code "MAP_SURJECTIVE"], Raise "map_surjective");
  ([Code "MINIMIZE"], Raise "minimize"); ([Code "MMAS_STRICT"], Raise "mmas_strict");
  ([Code "PARSED_MODIFIER"], Raise "parsed_modifier"); ([Code "PN_ALLOW_NO_MUTATION"], Raise "pn_allow_no_mutation");
  ([Code "PRINT_DEFAULT_PARAMETERS"], Raise "print_default_parameters");
  ([Code "PRINT_DESCRIPTION"], Raise "print_description"); ([Code "PRINT_PARAMETERS"], Raise "print_parameters");
  ([Code "PRINT_RESULTS"], Raise "print_results"); ([Code "PRINT_SOLUTION"], Raise "print_solution");
  ([Code "PRIOR_NOISE"], Raise "prior_noise"); ([Code "PV_LOG_ENTROPY"], Raise "pv_log_entropy");
  ([Code "PV_LOG_PV"], Raise "pv_log_pv"); ([Code "RECORD_EVALUATION_TIME"], Raise "record_evaluation_time");
  ([Code "RECORD_TOTAL_TIME"], Raise "record_total_time"); ([Code "RESTART"], Raise "restart");
  ([Code "RLS_STRICT"], Raise "rls_strict"); ([Code "RW_LOG_VALUE"], Raise "rw_log_value");
  ([Code "SAVE_DESCRIPTION"], Raise "save_description"); ([Code "SAVE_RESULTS"], Raise "save_results");
  ([Code "SAVE_SOLUTION"], Raise "save_solution"); ([Code "STOP_ON_MAXIMUM"], Raise "stop_on_maximum");
  ([Code "HELP"], Stop "help"); ([Code "HELP_FN"], Stop "help_fn"); ([Code "HELP_FP"], Stop "help_fp");
  ([Code "HELP_REP"], Stop "help_rep"); ([Code "HELP_MOD"], Stop "help_mod"); ([Code "HELP_CTRL"], Stop "help_ctrl");
  ([Code "HELP_PN"], Stop "help_pn"); ([Code "HELP_MAP"], Stop "help_map"); ([Code "HELP_ALG"], Stop "help_alg");
  ([Code "HELP_LS"], Stop "help_ls"); ([Code "HELP_SA"], Stop "help_sa"); ([Code "HELP_EA"], Stop "help_ea");
  ([Code "HELP_EDA"], Stop "help_eda"); ([Code "HELP_HEA"], Stop "help_hea"); ([Code "HELP_BM"], Stop "help_bm");
  ([Code "VERSION"], Stop "version")].

(** hnco-options.hh:160-599 *)
Definition members : list (string * option value) := [
  ("algorithm", Some (VInt 100)); ("with_algorithm", Some (VBool false)); ("bm_num_gs_cycles", Some (VInt 1));
  ("with_bm_num_gs_cycles", Some (VBool false)); ("bm_num_gs_steps", Some (VInt 100));
  ("with_bm_num_gs_steps", Some (VBool false)); ("bm_reset_mode", Some (VInt 1));
  ("with_bm_reset_mode", Some (VBool false)); ("bm_sampling_mode", Some (VInt 1));
  ("with_bm_sampling_mode", Some (VBool false)); ("budget", Some (VInt 10000)); ("with_budget", Some (VBool false));
  ("bv_size", Some (VInt 100)); ("with_bv_size", Some (VBool false));
  ("description_path", Some (VText "description.txt")); ("with_description_path", Some (VBool false));
  ("ea_crossover_bias", Some (VReal "0.5")); ("with_ea_crossover_bias", Some (VBool false));
  ("ea_crossover_probability", Some (VReal "0.5")); ("with_ea_crossover_probability", Some (VBool false));
  ("ea_it_initial_hamming_weight", Some (VInt 0)); ("with_ea_it_initial_hamming_weight", Some (VBool false));
  ("ea_it_replacement", Some (VInt 0)); ("with_ea_it_replacement", Some (VBool false)); ("ea_lambda", Some (VInt 100));
  ("with_ea_lambda", Some (VBool false)); ("ea_mu", Some (VInt 10)); ("with_ea_mu", Some (VBool false));
  ("ea_mutation_rate", None); ("with_ea_mutation_rate", Some (VBool false));
  ("ea_mutation_rate_max", Some (VReal "0.5")); ("with_ea_mutation_rate_max", Some (VBool false));
  ("ea_mutation_rate_min", None); ("with_ea_mutation_rate_min", Some (VBool false));
  ("ea_success_ratio", Some (VReal "4")); ("with_ea_success_ratio", Some (VBool false));
  ("ea_tournament_size", Some (VInt 2)); ("with_ea_tournament_size", Some (VBool false));
  ("ea_update_strength", Some (VReal "1.01")); ("with_ea_update_strength", Some (VBool false));
  ("expression", Some (VText "x")); ("with_expression", Some (VBool false)); ("fn_name", None);
  ("with_fn_name", Some (VBool false)); ("fn_num_traps", Some (VInt 10)); ("with_fn_num_traps", Some (VBool false));
  ("fn_prefix_length", Some (VInt 2)); ("with_fn_prefix_length", Some (VBool false)); ("fn_threshold", Some (VInt 10));
  ("with_fn_threshold", Some (VBool false)); ("fp_default_double_precision", None);
  ("with_fp_default_double_precision", Some (VBool false));
  ("fp_default_double_rep", Some (VText "double(0, 1, precision = 1e-3)"));
  ("with_fp_default_double_rep", Some (VBool false)); ("fp_default_double_size", None);
  ("with_fp_default_double_size", Some (VBool false)); ("fp_default_int_rep", Some (VText "int(-10, 10)"));
  ("with_fp_default_int_rep", Some (VBool false)); ("fp_default_long_rep", Some (VText "long(-100, 100)"));
  ("with_fp_default_long_rep", Some (VBool false)); ("fp_expression", None);
  ("with_fp_expression", Some (VBool false)); ("fp_representations", None);
  ("with_fp_representations", Some (VBool false)); ("fp_representations_path", Some (VText "representations.txt"));
  ("with_fp_representations_path", Some (VBool false)); ("function", Some (VInt 0));
  ("with_function", Some (VBool false)); ("hea_bound_moment", Some (VBool true));
  ("with_hea_bound_moment", Some (VBool false)); ("hea_randomize_bit_order", Some (VBool true));
  ("with_hea_randomize_bit_order", Some (VBool false)); ("hea_reset_period", Some (VInt 0));
  ("with_hea_reset_period", Some (VBool false)); ("learning_rate", Some (VReal "0.001"));
  ("with_learning_rate", Some (VBool false)); ("map", Some (VInt 0)); ("with_map", Some (VBool false));
  ("map_input_size", Some (VInt 100)); ("with_map_input_size", Some (VBool false));
  ("map_path", Some (VText "map.txt")); ("with_map_path", Some (VBool false)); ("map_ts_length", Some (VInt 10));
  ("with_map_ts_length", Some (VBool false)); ("map_ts_sampling_mode", Some (VInt 0));
  ("with_map_ts_sampling_mode", Some (VBool false)); ("neighborhood", Some (VInt 0));
  ("with_neighborhood", Some (VBool false)); ("neighborhood_iterator", Some (VInt 0));
  ("with_neighborhood_iterator", Some (VBool false)); ("noise_stddev", Some (VReal "1"));
  ("with_noise_stddev", Some (VBool false)); ("num_iterations", Some (VInt 0));
  ("with_num_iterations", Some (VBool false)); ("num_threads", Some (VInt 1));
  ("with_num_threads", Some (VBool false)); ("path", Some (VText "function.txt")); ("with_path", Some (VBool false));
  ("pn_mutation_rate", None); ("with_pn_mutation_rate", Some (VBool false)); ("pn_neighborhood", Some (VInt 0));
  ("with_pn_neighborhood", Some (VBool false)); ("pn_radius", Some (VInt 2)); ("with_pn_radius", Some (VBool false));
  ("population_size", Some (VInt 10)); ("with_population_size", Some (VBool false));
  ("pv_log_num_components", Some (VInt 5)); ("with_pv_log_num_components", Some (VBool false));
  ("radius", Some (VInt 2)); ("with_radius", Some (VBool false)); ("ram_crossover_probability", Some (VReal "0.1"));
  ("with_ram_crossover_probability", Some (VBool false)); ("ram_latent_space_probability", Some (VReal "0.5"));
  ("with_ram_latent_space_probability", Some (VBool false)); ("ram_ts_length", Some (VInt 10));
  ("with_ram_ts_length", Some (VBool false)); ("ram_ts_length_distribution_parameter", Some (VReal "0.1"));
  ("with_ram_ts_length_distribution_parameter", Some (VBool false));
  ("ram_ts_length_increment_period", Some (VInt 10000)); ("with_ram_ts_length_increment_period", Some (VBool false));
  ("ram_ts_length_lower_bound", Some (VInt 0)); ("with_ram_ts_length_lower_bound", Some (VBool false));
  ("ram_ts_length_mode", Some (VInt 0)); ("with_ram_ts_length_mode", Some (VBool false));
  ("ram_ts_length_upper_bound", Some (VInt 20)); ("with_ram_ts_length_upper_bound", Some (VBool false));
  ("rep_categorical_representation", Some (VInt 0)); ("with_rep_categorical_representation", Some (VBool false));
  ("rep_num_additional_bits", Some (VInt 2)); ("with_rep_num_additional_bits", Some (VBool false));
  ("results_path", Some (VText "results.json")); ("with_results_path", Some (VBool false));
  ("rls_patience", Some (VInt 50)); ("with_rls_patience", Some (VBool false)); ("sa_beta_ratio", Some (VReal "1.2"));
  ("with_sa_beta_ratio", Some (VBool false)); ("sa_initial_acceptance_probability", Some (VReal "0.6"));
  ("with_sa_initial_acceptance_probability", Some (VBool false)); ("sa_num_transitions", Some (VInt 50));
  ("with_sa_num_transitions", Some (VBool false)); ("sa_num_trials", Some (VInt 100));
  ("with_sa_num_trials", Some (VBool false)); ("seed", None); ("with_seed", Some (VBool false));
  ("selection_size", Some (VInt 1)); ("with_selection_size", Some (VBool false));
  ("solution_path", Some (VText "solution.txt")); ("with_solution_path", Some (VBool false)); ("target", None);
  ("with_target", Some (VBool false)); ("additive_gaussian_noise", Some (VBool false));
  ("bm_log_norm_1", Some (VBool false)); ("bm_log_norm_infinite", Some (VBool false));
  ("bm_negative_positive_selection", Some (VBool false)); ("cache", Some (VBool false));
  ("cache_budget", Some (VBool false)); ("concrete_solution", Some (VBool false));
  ("ea_allow_no_mutation", Some (VBool false)); ("ea_it_log_center_fitness", Some (VBool false));
  ("ea_log_mutation_rate", Some (VBool false)); ("fn_display", Some (VBool false));
  ("fn_get_bv_size", Some (VBool false)); ("fn_get_maximum", Some (VBool false));
  ("fn_has_known_maximum", Some (VBool false)); ("fn_provides_incremental_evaluation", Some (VBool false));
  ("fn_walsh_transform", Some (VBool false)); ("hea_log_delta_norm", Some (VBool false));
  ("hea_log_herding_error", Some (VBool false)); ("hea_log_target", Some (VBool false));
  ("hea_log_target_norm", Some (VBool false)); ("incremental_evaluation", Some (VBool false));
  ("load_solution", Some (VBool false)); ("log_improvement", Some (VBool false)); ("map_display", Some (VBool false));
  ("map_random", Some (VBool false)); ("map_surjective", Some (VBool false)); ("minimize", Some (VBool false));
  ("mmas_strict", Some (VBool false)); ("parsed_modifier", Some (VBool false));
  ("pn_allow_no_mutation", Some (VBool false)); ("print_default_parameters", Some (VBool false));
  ("print_description", Some (VBool false)); ("print_parameters", Some (VBool false));
  ("print_results", Some (VBool false)); ("print_solution", Some (VBool false)); ("prior_noise", Some (VBool false));
  ("pv_log_entropy", Some (VBool false)); ("pv_log_pv", Some (VBool false));
  ("record_evaluation_time", Some (VBool false)); ("record_total_time", Some (VBool false));
  ("restart", Some (VBool false)); ("rls_strict", Some (VBool false)); ("rw_log_value", Some (VBool false));
  ("save_description", Some (VBool false)); ("save_results", Some (VBool false));
  ("save_solution", Some (VBool false)); ("stop_on_maximum", Some (VBool false))].

(** hnco-options.hh:657-1296: get_...() returns a member, some only if another one is true;
    with_...() returns a member. *)
Definition getters : list (string * option string * string) := [
  ("algorithm", None, "algorithm"); ("bm_num_gs_cycles", None, "bm_num_gs_cycles");
  ("bm_num_gs_steps", None, "bm_num_gs_steps"); ("bm_reset_mode", None, "bm_reset_mode");
  ("bm_sampling_mode", None, "bm_sampling_mode"); ("budget", None, "budget"); ("bv_size", None, "bv_size");
  ("description_path", None, "description_path"); ("ea_crossover_bias", None, "ea_crossover_bias");
  ("ea_crossover_probability", None, "ea_crossover_probability");
  ("ea_it_initial_hamming_weight", None, "ea_it_initial_hamming_weight");
  ("ea_it_replacement", None, "ea_it_replacement"); ("ea_lambda", None, "ea_lambda"); ("ea_mu", None, "ea_mu");
  ("ea_mutation_rate", Some "with_ea_mutation_rate", "ea_mutation_rate");
  ("ea_mutation_rate_max", None, "ea_mutation_rate_max");
  ("ea_mutation_rate_min", Some "with_ea_mutation_rate_min", "ea_mutation_rate_min");
  ("ea_success_ratio", None, "ea_success_ratio"); ("ea_tournament_size", None, "ea_tournament_size");
  ("ea_update_strength", None, "ea_update_strength"); ("expression", None, "expression");
  ("fn_name", Some "with_fn_name", "fn_name"); ("fn_num_traps", None, "fn_num_traps");
  ("fn_prefix_length", None, "fn_prefix_length"); ("fn_threshold", None, "fn_threshold");
  ("fp_default_double_precision", Some "with_fp_default_double_precision", "fp_default_double_precision");
  ("fp_default_double_rep", None, "fp_default_double_rep");
  ("fp_default_double_size", Some "with_fp_default_double_size", "fp_default_double_size");
  ("fp_default_int_rep", None, "fp_default_int_rep"); ("fp_default_long_rep", None, "fp_default_long_rep");
  ("fp_expression", Some "with_fp_expression", "fp_expression");
  ("fp_representations", Some "with_fp_representations", "fp_representations");
  ("fp_representations_path", None, "fp_representations_path"); ("function", None, "function");
  ("hea_bound_moment", None, "hea_bound_moment"); ("hea_randomize_bit_order", None, "hea_randomize_bit_order");
  ("hea_reset_period", None, "hea_reset_period"); ("learning_rate", None, "learning_rate"); ("map", None, "map");
  ("map_input_size", None, "map_input_size"); ("map_path", None, "map_path"); ("map_ts_length", None, "map_ts_length");
  ("map_ts_sampling_mode", None, "map_ts_sampling_mode"); ("neighborhood", None, "neighborhood");
  ("neighborhood_iterator", None, "neighborhood_iterator"); ("noise_stddev", None, "noise_stddev");
  ("num_iterations", None, "num_iterations"); ("num_threads", None, "num_threads"); ("path", None, "path");
  ("pn_mutation_rate", Some "with_pn_mutation_rate", "pn_mutation_rate"); ("pn_neighborhood", None, "pn_neighborhood");
  ("pn_radius", None, "pn_radius"); ("population_size", None, "population_size");
  ("pv_log_num_components", None, "pv_log_num_components"); ("radius", None, "radius");
  ("ram_crossover_probability", None, "ram_crossover_probability");
  ("ram_latent_space_probability", None, "ram_latent_space_probability"); ("ram_ts_length", None, "ram_ts_length");
  ("ram_ts_length_distribution_parameter", None, "ram_ts_length_distribution_parameter");
  ("ram_ts_length_increment_period", None, "ram_ts_length_increment_period");
  ("ram_ts_length_lower_bound", None, "ram_ts_length_lower_bound"); ("ram_ts_length_mode", None, "ram_ts_length_mode");
  ("ram_ts_length_upper_bound", None, "ram_ts_length_upper_bound");
  ("rep_categorical_representation", None, "rep_categorical_representation");
  ("rep_num_additional_bits", None, "rep_num_additional_bits"); ("results_path", None, "results_path");
  ("rls_patience", None, "rls_patience"); ("sa_beta_ratio", None, "sa_beta_ratio");
  ("sa_initial_acceptance_probability", None, "sa_initial_acceptance_probability");
  ("sa_num_transitions", None, "sa_num_transitions"); ("sa_num_trials", None, "sa_num_trials");
  ("seed", Some "with_seed", "seed"); ("selection_size", None, "selection_size");
  ("solution_path", None, "solution_path"); ("target", Some "with_target", "target")].
Definition presences : list (string * string) := [
  ("algorithm", "with_algorithm"); ("bm_num_gs_cycles", "with_bm_num_gs_cycles");
  ("bm_num_gs_steps", "with_bm_num_gs_steps"); ("bm_reset_mode", "with_bm_reset_mode");
  ("bm_sampling_mode", "with_bm_sampling_mode"); ("budget", "with_budget"); ("bv_size", "with_bv_size");
  ("description_path", "with_description_path"); ("ea_crossover_bias", "with_ea_crossover_bias");
  ("ea_crossover_probability", "with_ea_crossover_probability");
  ("ea_it_initial_hamming_weight", "with_ea_it_initial_hamming_weight");
  ("ea_it_replacement", "with_ea_it_replacement"); ("ea_lambda", "with_ea_lambda"); ("ea_mu", "with_ea_mu");
  ("ea_mutation_rate", "with_ea_mutation_rate"); ("ea_mutation_rate_max", "with_ea_mutation_rate_max");
  ("ea_mutation_rate_min", "with_ea_mutation_rate_min"); ("ea_success_ratio", "with_ea_success_ratio");
  ("ea_tournament_size", "with_ea_tournament_size"); ("ea_update_strength", "with_ea_update_strength");
  ("expression", "with_expression"); ("fn_name", "with_fn_name"); ("fn_num_traps", "with_fn_num_traps");
  ("fn_prefix_length", "with_fn_prefix_length"); ("fn_threshold", "with_fn_threshold");
  ("fp_default_double_precision", "with_fp_default_double_precision");
  ("fp_default_double_rep", "with_fp_default_double_rep"); ("fp_default_double_size", "with_fp_default_double_size");
  ("fp_default_int_rep", "with_fp_default_int_rep"); ("fp_default_long_rep", "with_fp_default_long_rep");
  ("fp_expression", "with_fp_expression"); ("fp_representations", "with_fp_representations");
  ("fp_representations_path", "with_fp_representations_path"); ("function", "with_function");
  ("hea_bound_moment", "with_hea_bound_moment"); ("hea_randomize_bit_order", "with_hea_randomize_bit_order");
  ("hea_reset_period", "with_hea_reset_period"); ("learning_rate", "with_learning_rate"); ("map", "with_map");
  ("map_input_size", "with_map_input_size"); ("map_path", "with_map_path"); ("map_ts_length", "with_map_ts_length");
  ("map_ts_sampling_mode", "with_map_ts_sampling_mode"); ("neighborhood", "with_neighborhood");
  ("neighborhood_iterator", "with_neighborhood_iterator"); ("noise_stddev", "with_noise_stddev");
  ("num_iterations", "with_num_iterations"); ("num_threads", "with_num_threads"); ("path", "with_path");
  ("pn_mutation_rate", "with_pn_mutation_rate"); ("pn_neighborhood", "with_pn_neighborhood");
  ("pn_radius", "with_pn_radius"); ("population_size", "with_population_size");
  ("pv_log_num_components", "with_pv_log_num_components"); ("radius", "with_radius");
  ("ram_crossover_probability", "with_ram_crossover_probability");
  ("ram_latent_space_probability", "with_ram_latent_space_probability"); ("ram_ts_length", "with_ram_ts_length");
  ("ram_ts_length_distribution_parameter", "with_ram_ts_length_distribution_parameter");
  ("ram_ts_length_increment_period", "with_ram_ts_length_increment_period");
  ("ram_ts_length_lower_bound", "with_ram_ts_length_lower_bound"); ("ram_ts_length_mode", "with_ram_ts_length_mode");
  ("ram_ts_length_upper_bound", "with_ram_ts_length_upper_bound");
  ("rep_categorical_representation", "with_rep_categorical_representation");
  ("rep_num_additional_bits", "with_rep_num_additional_bits"); ("results_path", "with_results_path");
  ("rls_patience", "with_rls_patience"); ("sa_beta_ratio", "with_sa_beta_ratio");
  ("sa_initial_acceptance_probability", "with_sa_initial_acceptance_probability");
  ("sa_num_transitions", "with_sa_num_transitions"); ("sa_num_trials", "with_sa_num_trials"); ("seed", "with_seed");
  ("selection_size", "with_selection_size"); ("solution_path", "with_solution_path"); ("target", "with_target");
  ("additive_gaussian_noise", "additive_gaussian_noise"); ("bm_log_norm_1", "bm_log_norm_1");
  ("bm_log_norm_infinite", "bm_log_norm_infinite");
  ("bm_negative_positive_selection", "bm_negative_positive_selection"); ("cache", "cache");
  ("cache_budget", "cache_budget"); ("concrete_solution", "concrete_solution");
  ("ea_allow_no_mutation", "ea_allow_no_mutation"); ("ea_it_log_center_fitness", "ea_it_log_center_fitness");
  ("ea_log_mutation_rate", "ea_log_mutation_rate"); ("fn_display", "fn_display"); ("fn_get_bv_size", "fn_get_bv_size");
  ("fn_get_maximum", "fn_get_maximum"); ("fn_has_known_maximum", "fn_has_known_maximum");
  ("fn_provides_incremental_evaluation", "fn_provides_incremental_evaluation");
  ("fn_walsh_transform", "fn_walsh_transform"); ("hea_log_delta_norm", "hea_log_delta_norm");
  ("hea_log_herding_error", "hea_log_herding_error"); ("hea_log_target", "hea_log_target");
  ("hea_log_target_norm", "hea_log_target_norm"); ("incremental_evaluation", "incremental_evaluation");
  ("load_solution", "load_solution"); ("log_improvement", "log_improvement"); ("map_display", "map_display");
  ("map_random", "map_random"); ("map_surjective", "map_surjective"); ("minimize", "minimize");
  ("mmas_strict", "mmas_strict"); ("parsed_modifier", "parsed_modifier");
  ("pn_allow_no_mutation", "pn_allow_no_mutation"); ("print_default_parameters", "print_default_parameters");
  ("print_description", "print_description"); ("print_parameters", "print_parameters");
  ("print_results", "print_results"); ("print_solution", "print_solution"); ("prior_noise", "prior_noise");
  ("pv_log_entropy", "pv_log_entropy"); ("pv_log_pv", "pv_log_pv");
  ("record_evaluation_time", "record_evaluation_time"); ("record_total_time", "record_total_time");
  ("restart", "restart"); ("rls_strict", "rls_strict"); ("rw_log_value", "rw_log_value");
  ("save_description", "save_description"); ("save_results", "save_results"); ("save_solution", "save_solution");
  ("stop_on_maximum", "stop_on_maximum")].

(** hnco-options.cc:1344-1531: the condition, the name which is printed and the member which is
    printed, none for flags *)
Definition printed_members : list (option string * string * option string) := [
  ((None, "algorithm"), Some "algorithm"); ((None, "bm_num_gs_cycles"), Some "bm_num_gs_cycles");
  ((None, "bm_num_gs_steps"), Some "bm_num_gs_steps"); ((None, "bm_reset_mode"), Some "bm_reset_mode");
  ((None, "bm_sampling_mode"), Some "bm_sampling_mode"); ((None, "budget"), Some "budget");
  ((None, "bv_size"), Some "bv_size"); ((None, "description_path"), Some "description_path");
  ((None, "ea_crossover_bias"), Some "ea_crossover_bias");
  ((None, "ea_crossover_probability"), Some "ea_crossover_probability");
  ((None, "ea_it_initial_hamming_weight"), Some "ea_it_initial_hamming_weight");
  ((None, "ea_it_replacement"), Some "ea_it_replacement"); ((None, "ea_lambda"), Some "ea_lambda");
  ((None, "ea_mu"), Some "ea_mu"); ((Some "with_ea_mutation_rate", "ea_mutation_rate"), Some "ea_mutation_rate");
  ((None, "ea_mutation_rate_max"), Some "ea_mutation_rate_max");
  ((Some "with_ea_mutation_rate_min", "ea_mutation_rate_min"), Some "ea_mutation_rate_min");
  ((None, "ea_success_ratio"), Some "ea_success_ratio"); ((None, "ea_tournament_size"), Some "ea_tournament_size");
  ((None, "ea_update_strength"), Some "ea_update_strength"); ((None, "expression"), Some "expression");
  ((Some "with_fn_name", "fn_name"), Some "fn_name"); ((None, "fn_num_traps"), Some "fn_num_traps");
  ((None, "fn_prefix_length"), Some "fn_prefix_length"); ((None, "fn_threshold"), Some "fn_threshold");
  ((Some "with_fp_default_double_precision", "fp_default_double_precision"), Some "fp_default_double_precision");
  ((None, "fp_default_double_rep"), Some "fp_default_double_rep");
  ((Some "with_fp_default_double_size", "fp_default_double_size"), Some "fp_default_double_size");
  ((None, "fp_default_int_rep"), Some "fp_default_int_rep");
  ((None, "fp_default_long_rep"), Some "fp_default_long_rep");
  ((Some "with_fp_expression", "fp_expression"), Some "fp_expression");
  ((Some "with_fp_representations", "fp_representations"), Some "fp_representations");
  ((None, "fp_representations_path"), Some "fp_representations_path"); ((None, "function"), Some "function");
  ((None, "hea_bound_moment"), Some "hea_bound_moment");
  ((None, "hea_randomize_bit_order"), Some "hea_randomize_bit_order");
  ((None, "hea_reset_period"), Some "hea_reset_period"); ((None, "learning_rate"), Some "learning_rate");
  ((None, "map"), Some "map"); ((None, "map_input_size"), Some "map_input_size");
  ((None, "map_path"), Some "map_path"); ((None, "map_ts_length"), Some "map_ts_length");
  ((None, "map_ts_sampling_mode"), Some "map_ts_sampling_mode"); ((None, "neighborhood"), Some "neighborhood");
  ((None, "neighborhood_iterator"), Some "neighborhood_iterator"); ((None, "noise_stddev"), Some "noise_stddev");
  ((None, "num_iterations"), Some "num_iterations"); ((None, "num_threads"), Some "num_threads");
  ((None, "path"), Some "path"); ((Some "with_pn_mutation_rate", "pn_mutation_rate"), Some "pn_mutation_rate");
  ((None, "pn_neighborhood"), Some "pn_neighborhood"); ((None, "pn_radius"), Some "pn_radius");
  ((None, "population_size"), Some "population_size"); ((None, "pv_log_num_components"), Some "pv_log_num_components");
  ((None, "radius"), Some "radius"); ((None, "ram_crossover_probability"), Some "ram_crossover_probability");
  ((None, "ram_latent_space_probability"), Some "ram_latent_space_probability");
  ((None, "ram_ts_length"), Some "ram_ts_length");
  ((None, "ram_ts_length_distribution_parameter"), Some "ram_ts_length_distribution_parameter");
  ((None, "ram_ts_length_increment_period"), Some "ram_ts_length_increment_period");
  ((None, "ram_ts_length_lower_bound"), Some "ram_ts_length_lower_bound");
  ((None, "ram_ts_length_mode"), Some "ram_ts_length_mode");
  ((None, "ram_ts_length_upper_bound"), Some "ram_ts_length_upper_bound");
  ((None, "rep_categorical_representation"), Some "rep_categorical_representation");
  ((None, "rep_num_additional_bits"), Some "rep_num_additional_bits"); ((None, "results_path"), Some "results_path");
  ((None, "rls_patience"), Some "rls_patience"); ((None, "sa_beta_ratio"), Some "sa_beta_ratio");
  ((None, "sa_initial_acceptance_probability"), Some "sa_initial_acceptance_probability");
  ((None, "sa_num_transitions"), Some "sa_num_transitions"); ((None, "sa_num_trials"), Some "sa_num_trials");
  ((Some "with_seed", "seed"), Some "seed"); ((None, "selection_size"), Some "selection_size");
  ((None, "solution_path"), Some "solution_path"); ((Some "with_target", "target"), Some "target");
  ((Some "additive_gaussian_noise", "additive_gaussian_noise"), None); ((Some "bm_log_norm_1", "bm_log_norm_1"), None);
  ((Some "bm_log_norm_infinite", "bm_log_norm_infinite"), None);
  ((Some "bm_negative_positive_selection", "bm_negative_positive_selection"), None); ((Some "cache", "cache"), None);
  ((Some "cache_budget", "cache_budget"), None); ((Some "concrete_solution", "concrete_solution"), None);
  ((Some "ea_allow_no_mutation", "ea_allow_no_mutation"), None);
  ((Some "ea_it_log_center_fitness", "ea_it_log_center_fitness"), None);
  ((Some "ea_log_mutation_rate", "ea_log_mutation_rate"), None); ((Some "fn_display", "fn_display"), None);
  ((Some "fn_get_bv_size", "fn_get_bv_size"), None); ((Some "fn_get_maximum", "fn_get_maximum"), None);
  ((Some "fn_has_known_maximum", "fn_has_known_maximum"), None);
  ((Some "fn_provides_incremental_evaluation", "fn_provides_incremental_evaluation"), None);
  ((Some "fn_walsh_transform", "fn_walsh_transform"), None); ((Some "hea_log_delta_norm", "hea_log_delta_norm"), None);
  ((Some "hea_log_herding_error", "hea_log_herding_error"), None); ((Some "hea_log_target", "hea_log_target"), None);
  ((Some "hea_log_target_norm", "hea_log_target_norm"), None);
  ((Some "incremental_evaluation", "incremental_evaluation"), None); ((Some "load_solution", "load_solution"), None);
  ((Some "log_improvement", "log_improvement"), None); ((Some "map_display", "map_display"), None);
  ((Some "map_random", "map_random"), None); ((Some "map_surjective", "map_surjective"), None);
  ((Some "minimize", "minimize"), None); ((Some "mmas_strict", "mmas_strict"), None);
  ((Some "parsed_modifier", "parsed_modifier"), None); ((Some "pn_allow_no_mutation", "pn_allow_no_mutation"), None);
  ((Some "print_default_parameters", "print_default_parameters"), None);
  ((Some "print_description", "print_description"), None); ((Some "print_parameters", "print_parameters"), None);
  ((Some "print_results", "print_results"), None); ((Some "print_solution", "print_solution"), None);
  ((Some "prior_noise", "prior_noise"), None); ((Some "pv_log_entropy", "pv_log_entropy"), None);
  ((Some "pv_log_pv", "pv_log_pv"), None); ((Some "record_evaluation_time", "record_evaluation_time"), None);
  ((Some "record_total_time", "record_total_time"), None); ((Some "restart", "restart"), None);
  ((Some "rls_strict", "rls_strict"), None); ((Some "rw_log_value", "rw_log_value"), None);
  ((Some "save_description", "save_description"), None); ((Some "save_results", "save_results"), None);
  ((Some "save_solution", "save_solution"), None); ((Some "stop_on_maximum", "stop_on_maximum"), None)].

(** * The functions of the C library *)

Definition signed (s : string) : bool * string :=
  match s with
  | String c s' => if Ascii.eqb c "-" then (true, s') else if Ascii.eqb c "+" then (false, s') else (false, s)
  | EmptyString => (false, s)
  end.
(** std::atoi: blanks, a sign, digits; 0 without digits, undefined out of the range of int *)
Definition atoi (s : string) : outcome Z :=
  let '(neg, s) := signed (skip is_space s) in
  let v := Z.of_N (digits_value (fst (take is_digit s)) 0) in
  let z := if neg : bool then (- v)%Z else v in
  if int_range z then Ok z else UB.

(** The value of a character as a digit in any base up to 36 *)
Definition any_digit (c : ascii) : option N :=
  let n := N_of_ascii c in
  if ((48 <=? n) && (n <=? 57))%N then Some (n - 48)%N
  else if ((65 <=? n) && (n <=? 90))%N then Some (n - 55)%N
  else if ((97 <=? n) && (n <=? 122))%N then Some (n - 87)%N
  else None.
Definition in_base (base : N) (c : ascii) : bool := match any_digit c with Some d => (d <? base)%N | None => false end.
Fixpoint base_value (base : N) (s : string) (acc : N) : N :=
  match s with
  | EmptyString => acc
  | String c s' => match any_digit c with
                   | Some d => if (d <? base)%N then base_value base s' (base * acc + d)%N else acc
                   | None => acc
                   end
  end.
(** std::strtoul with base 0: decimal, octal after 0 and hexadecimal after 0x; ULONG_MAX when
    it is too large; a minus sign negates the result. *)
Definition strtoul (s : string) : Z :=
  let '(neg, s) := signed (skip is_space s) in
  let v :=
    match s with
    | String "0" (String x (String h s')) =>
        if (Ascii.eqb x "x" || Ascii.eqb x "X") && in_base 16 h then base_value 16 (String h s') 0 else base_value 8 s 0
    | String "0" _ => base_value 8 s 0
    | _ => base_value 10 s 0
    end in
  let v := Z.of_N v in
  if (2 ^ 64 <=? v)%Z then (2 ^ 64 - 1)%Z else if neg : bool then ((- v) mod 2 ^ 64)%Z else v.

(** What a call of getopt_long gives: an option with its argument, or '?' *)
Inductive event := Found (l : label) (arg : string) | Bad.

(** Long options: the one of this name or the only one which it begins *)
Fixpoint prefix_of (a b : string) : bool :=
  match a, b with
  | EmptyString, _ => true
  | String c a', String d b' => Ascii.eqb c d && prefix_of a' b'
  | _, _ => false
  end.
Definition find_long (table : list (string * bool * label)) (name : string) : option (bool * label) :=
  match find (fun '(n, _, _) => String.eqb n name) table with
  | Some (_, a, l) => Some (a, l)
  | None =>
      match filter (fun '(n, _, _) => prefix_of name n) table with
      | [] => None
      | (_, a, l) :: others =>
          if forallb (fun '(_, a', l') => Bool.eqb a a' && label_eqb l l') others then Some (a, l) else None
      end
  end.

(** The name and the value of a word name=value *)
Fixpoint split_equal (s : string) : string * option string :=
  match s with
  | EmptyString => (EmptyString, None)
  | String c s' => if Ascii.eqb c "=" then (EmptyString, Some s') else let '(n, v) := split_equal s' in (String c n, v)
  end.

(** Short options: a colon after the letters which have an argument *)
Fixpoint find_short (shorts : string) (c : ascii) : option bool :=
  match shorts with
  | EmptyString => None
  | String d shorts' =>
      if Ascii.eqb c d && negb (Ascii.eqb c ":") then Some (match shorts' with String e _ => Ascii.eqb e ":" | EmptyString => false end)
      else find_short shorts' c
  end.
(** A word of short options: the events and, maybe, the letter whose argument is the next word *)
Fixpoint cluster (s : string) : list event * option label :=
  match s with
  | EmptyString => ([], None)
  | String c s' =>
      match find_short short_options c with
      | Some true => match s' with EmptyString => ([], Some (Letter c)) | _ => ([Found (Letter c) s'], None) end
      | Some false => let '(es, w) := cluster s' in (Found (Letter c) "" :: es, w)
      | None => let '(es, w) := cluster s' in (Bad :: es, w)
      end
  end.

(** getopt_long, called until it gives -1; the words which are not options are skipped
    (POSIXLY_CORRECT is not set). *)
Fixpoint getopt_long (words : list string) : list event :=
  let with_next (l : label) (rest : list string) :=
    match rest with
    | [] => [Bad]
    | v :: rest' => Found l v :: getopt_long rest'
    end in
  match words with
  | [] => []
  | String c w :: rest =>
      if Ascii.eqb c "-" then
        match w with
        | EmptyString => getopt_long rest
        | String d w' =>
            if Ascii.eqb d "-" then
              match w' with
              | EmptyString => []
              | _ =>
                  let '(name, v) := split_equal w' in
                  match find_long long_options name, v with
                  | Some (true, l), Some v => Found l v :: getopt_long rest
                  | Some (true, l), None => with_next l rest
                  | Some (false, l), None => Found l "" :: getopt_long rest
                  | Some (false, _), Some _ => Bad :: getopt_long rest
                  | None, _ => Bad :: getopt_long rest
                  end
              end
            else
              let '(es, l) := cluster w in
              es ++ match l with None => getopt_long rest | Some l => with_next l rest end
        end
      else getopt_long rest
  | EmptyString :: rest => getopt_long rest
  end.

(** * The options *)

(** The members; None when they have no value *)
Definition options : Type := string -> option value.
Fixpoint initial_in (l : list (string * option value)) (m : string) : option value :=
  match l with
  | [] => None
  | (n, v) :: l' => if String.eqb m n then v else initial_in l' m
  end.
(** hnco-options.hh:652: the options without command line *)
Definition no_options : options := initial_in members.
Definition assign (st : options) (m : string) (v : value) : options := fun n => if String.eqb n m then Some v else st n.

(** hnco-options.cc:8 and the cases; [Throw] for exit(1) *)
Definition convert (c : conversion) (s : string) : outcome value :=
  match c with
  | Atoi => z <- atoi s ;; Ok (VInt z)
  | Atof => Ok (VReal s)
  | Copied => Ok (VText s)
  | Strtoul => Ok (VUnsigned (strtoul s mod 2 ^ 32)%Z)
  | Boolean => if String.eqb s "true" || String.eqb s "false" then Ok (VBool (String.eqb s "true")) else Throw RuntimeError
  end.

Definition case_of (l : label) : option action :=
  match find (fun '(ls, _) => existsb (label_eqb l) ls) cases with Some (_, a) => Some a | None => None end.

(** The object, or the page which is printed and the end of the program *)
Inductive parsed := Parsed (st : options) | Ended (page : option string) (e : ending).

(** hnco-options.cc:156-815 *)
Fixpoint perform (ignore_bad_options : bool) (es : list event) (st : options) : parsed :=
  match es with
  | [] => Parsed st
  | e :: es' =>
      let bad := if ignore_bad_options then perform ignore_bad_options es' st else Ended None (Exit 1) in
      match e with
      | Bad => bad
      | Found l arg =>
          match case_of l with
          | Some (Store present member c) =>
              match convert c arg with
              | Ok v => perform ignore_bad_options es' (assign (assign st present (VBool true)) member v)
              | Throw _ => Ended None (Exit 1)
              | UB => Ended None Undefined
              end
          | Some (Raise member) => perform ignore_bad_options es' (assign st member (VBool true))
          | Some (Stop page) => Ended (Some page) (Exit 0)
          | None => bad
          end
      end
  end.
(** hnco-options.cc:10-816: the words after the name of the executable *)
Definition make_options (ignore_bad_options : bool) (words : list string) : parsed :=
  perform ignore_bad_options (getopt_long words) no_options.

(** get_...() *)
Definition get (st : options) (name : string) : outcome value :=
  match find (fun '(n, _, _) => String.eqb n name) getters with
  | Some (_, None, m) => match st m with Some v => Ok v | None => UB end
  | Some (_, Some present, m) =>
      match st present with
      | Some (VBool true) => match st m with Some v => Ok v | None => UB end
      | Some (VBool false) => Throw RuntimeError
      | _ => UB
      end
  | None => UB
  end.
(** with_...() *)
Definition with_option (st : options) (name : string) : outcome bool :=
  match find (fun '(n, _) => String.eqb n name) presences with
  | Some (_, m) => match st m with Some (VBool b) => Ok b | _ => UB end
  | None => UB
  end.

(** hnco-options.cc:1344-1531: the names and the values which are printed *)
Definition print_options (st : options) : list (string * option value) :=
  flat_map (fun '(present, name, member) =>
    match present with
    | Some p => match st p with Some (VBool true) => [(name, match member with Some m => st m | None => None end)] | _ => [] end
    | None => [(name, match member with Some m => st m | None => None end)]
    end) printed_members.
