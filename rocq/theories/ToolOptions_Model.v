(** Model of the command lines of mapgen, ffgen and hnco-mo: app/mapgen-options.hh and .cc,
    app/ffgen-options.hh and .cc, lib/hnco/multiobjective/app/hnco-mo-options.hh and .cc.

    As in Options_Model, the tables follow the sources in their order: the long options, the
    short options, the cases of the switch, the members with their initializers, the accessors
    and operator<<.  An enumerator is its name without OPTION_, a member its name without the
    first underscore; a double is the text which it is read from.  The name of the executable,
    the texts of the help pages and the messages are left out. *)

From Coq Require Import ZArith NArith String Ascii.
From Verif Require Import Base BitVector_Model Text_Model Double Controller_Model Application_Model Options_Model.
Local Open Scope nat_scope.
Local Open Scope string_scope.
Local Open Scope list_scope.

(** app/mapgen-options.cc:13-25 *)
Definition mapgen_long_options : list (string * bool * label) := [
  ("input-size", true, Code "INPUT_SIZE"); ("map", true, Code "MAP"); ("output-size", true, Code "OUTPUT_SIZE");
  ("path", true, Code "PATH"); ("seed", true, Code "SEED"); ("ts-length", true, Code "TS_LENGTH");
  ("ts-sampling-mode", true, Code "TS_SAMPLING_MODE"); ("surjective", false, Code "SURJECTIVE");
  ("version", false, Code "VERSION"); ("help", false, Code "HELP")].
(** app/mapgen-options.cc:26 *)
Definition mapgen_short_options : string := "x:M:y:p:".
(** app/mapgen-options.cc:32-83 *)
Definition mapgen_cases : list (list label * action) := [
  ([Letter "x"; Code "INPUT_SIZE"], Store "with_input_size" "input_size" Atoi);
  ([Letter "M"; Code "MAP"], Store "with_map" "map" Atoi);
  ([Letter "y"; Code "OUTPUT_SIZE"], Store "with_output_size" "output_size" Atoi);
  ([Letter "p"; Code "PATH"], Store "with_path" "path" Copied); ([Code "SEED"], Store "with_seed" "seed" Atoi);
  ([Code "TS_LENGTH"], Store "with_ts_length" "ts_length" Atoi);
  ([Code "TS_SAMPLING_MODE"], Store "with_ts_sampling_mode" "ts_sampling_mode" Atoi);
  ([Code "SURJECTIVE"], Raise "surjective"); ([Code "HELP"], Stop "help"); ([Code "VERSION"], Stop "version")].
(** app/mapgen-options.hh:32-61 *)
Definition mapgen_members : list (string * option value) := [
  ("input_size", Some (VInt 100)); ("with_input_size", Some (VBool false)); ("map", Some (VInt 1));
  ("with_map", Some (VBool false)); ("output_size", Some (VInt 100)); ("with_output_size", Some (VBool false));
  ("path", Some (VText "map.txt")); ("with_path", Some (VBool false)); ("seed", None);
  ("with_seed", Some (VBool false)); ("ts_length", Some (VInt 10)); ("with_ts_length", Some (VBool false));
  ("ts_sampling_mode", Some (VInt 0)); ("with_ts_sampling_mode", Some (VBool false)); ("surjective", Some (VBool false))].
(** app/mapgen-options.hh:77-123 *)
Definition mapgen_getters : list (string * option string * string) := [
  ("input_size", None, "input_size"); ("map", None, "map"); ("output_size", None, "output_size");
  ("path", None, "path"); ("seed", Some "with_seed", "seed"); ("ts_length", None, "ts_length");
  ("ts_sampling_mode", None, "ts_sampling_mode")].
Definition mapgen_presences : list (string * string) := [
  ("input_size", "with_input_size"); ("map", "with_map"); ("output_size", "with_output_size"); ("path", "with_path");
  ("seed", "with_seed"); ("ts_length", "with_ts_length"); ("ts_sampling_mode", "with_ts_sampling_mode");
  ("surjective", "surjective")].
(** app/mapgen-options.cc:132-150 *)
Definition mapgen_printed_members : list (option string * string * option string) := [
  ((None, "input_size"), Some "input_size"); ((None, "map"), Some "map"); ((None, "output_size"), Some "output_size");
  ((None, "path"), Some "path"); ((Some "with_seed", "seed"), Some "seed"); ((None, "ts_length"), Some "ts_length");
  ((None, "ts_sampling_mode"), Some "ts_sampling_mode"); ((Some "surjective", "surjective"), None)].

(** app/ffgen-options.cc:13-43 *)
Definition ffgen_long_options : list (string * bool * label) := [
  ("bv-size", true, Code "BV_SIZE"); ("coupling-constant", true, Code "COUPLING_CONSTANT");
  ("ep-upper-bound", true, Code "EP_UPPER_BOUND"); ("field-constant", true, Code "FIELD_CONSTANT");
  ("function", true, Code "FUNCTION"); ("lin-distance", true, Code "LIN_DISTANCE");
  ("lin-generator", true, Code "LIN_GENERATOR"); ("lin-initial-weight", true, Code "LIN_INITIAL_WEIGHT");
  ("lin-ratio", true, Code "LIN_RATIO"); ("ms-num-clauses", true, Code "MS_NUM_CLAUSES");
  ("ms-num-literals-per-clause", true, Code "MS_NUM_LITERALS_PER_CLAUSE"); ("nk-k", true, Code "NK_K");
  ("nn1-generator", true, Code "NN1_GENERATOR"); ("nn2-generator", true, Code "NN2_GENERATOR");
  ("nn2-num-columns", true, Code "NN2_NUM_COLUMNS"); ("nn2-num-rows", true, Code "NN2_NUM_ROWS");
  ("part-upper-bound", true, Code "PART_UPPER_BOUND"); ("path", true, Code "PATH"); ("seed", true, Code "SEED");
  ("stddev", true, Code "STDDEV"); ("sudoku-num-empty-cells", true, Code "SUDOKU_NUM_EMPTY_CELLS");
  ("walsh2-generator", true, Code "WALSH2_GENERATOR"); ("walsh2-ising-alpha", true, Code "WALSH2_ISING_ALPHA");
  ("walsh-num-features", true, Code "WALSH_NUM_FEATURES"); ("ms-planted-solution", false, Code "MS_PLANTED_SOLUTION");
  ("periodic-boundary-conditions", false, Code "PERIODIC_BOUNDARY_CONDITIONS"); ("version", false, Code "VERSION");
  ("help", false, Code "HELP")].
(** app/ffgen-options.cc:44 *)
Definition ffgen_short_options : string := "s:F:p:".
(** app/ffgen-options.cc:50-189 *)
Definition ffgen_cases : list (list label * action) := [
  ([Letter "s"; Code "BV_SIZE"], Store "with_bv_size" "bv_size" Atoi);
  ([Code "COUPLING_CONSTANT"], Store "with_coupling_constant" "coupling_constant" Atof);
  ([Code "EP_UPPER_BOUND"], Store "with_ep_upper_bound" "ep_upper_bound" Atof);
  ([Code "FIELD_CONSTANT"], Store "with_field_constant" "field_constant" Atof);
  ([Letter "F"; Code "FUNCTION"], Store "with_function" "function" Atoi);
  ([Code "LIN_DISTANCE"], Store "with_lin_distance" "lin_distance" Atof);
  ([Code "LIN_GENERATOR"], Store "with_lin_generator" "lin_generator" Atoi);
  ([Code "LIN_INITIAL_WEIGHT"], Store "with_lin_initial_weight" "lin_initial_weight" Atof);
  ([Code "LIN_RATIO"], Store "with_lin_ratio" "lin_ratio" Atof);
  ([Code "MS_NUM_CLAUSES"], Store "with_ms_num_clauses" "ms_num_clauses" Atoi);
  ([Code "MS_NUM_LITERALS_PER_CLAUSE"], Store "with_ms_num_literals_per_clause" "ms_num_literals_per_clause" Atoi);
  ([Code "NK_K"], Store "with_nk_k" "nk_k" Atoi);
  ([Code "NN1_GENERATOR"], Store "with_nn1_generator" "nn1_generator" Atoi);
  ([Code "NN2_GENERATOR"], Store "with_nn2_generator" "nn2_generator" Atoi);
  ([Code "NN2_NUM_COLUMNS"], Store "with_nn2_num_columns" "nn2_num_columns" Atoi);
  ([Code "NN2_NUM_ROWS"], Store "with_nn2_num_rows" "nn2_num_rows" Atoi);
  ([Code "PART_UPPER_BOUND"], Store "with_part_upper_bound" "part_upper_bound" Atoi);
  ([Letter "p"; Code "PATH"], Store "with_path" "path" Copied); ([Code "SEED"], Store "with_seed" "seed" Atoi);
  ([Code "STDDEV"], Store "with_stddev" "stddev" Atof);
  ([Code "SUDOKU_NUM_EMPTY_CELLS"], Store "with_sudoku_num_empty_cells" "sudoku_num_empty_cells" Atoi);
  ([Code "WALSH2_GENERATOR"], Store "with_walsh2_generator" "walsh2_generator" Atoi);
  ([Code "WALSH2_ISING_ALPHA"], Store "with_walsh2_ising_alpha" "walsh2_ising_alpha" Atof);
  ([Code "WALSH_NUM_FEATURES"], Store "with_walsh_num_features" "walsh_num_features" Atoi);
  ([Code "MS_PLANTED_SOLUTION"], Raise "ms_planted_solution");
  ([Code "PERIODIC_BOUNDARY_CONDITIONS"], Raise "periodic_boundary_conditions"); ([Code "HELP"], Stop "help");
  ([Code "VERSION"], Stop "version")].
(** app/ffgen-options.hh:50-150 *)
Definition ffgen_members : list (string * option value) := [
  ("bv_size", Some (VInt 100)); ("with_bv_size", Some (VBool false)); ("coupling_constant", Some (VReal "1"));
  ("with_coupling_constant", Some (VBool false)); ("ep_upper_bound", Some (VReal "1"));
  ("with_ep_upper_bound", Some (VBool false)); ("field_constant", Some (VReal "1"));
  ("with_field_constant", Some (VBool false)); ("function", Some (VInt 1)); ("with_function", Some (VBool false));
  ("lin_distance", Some (VReal "1")); ("with_lin_distance", Some (VBool false)); ("lin_generator", Some (VInt 0));
  ("with_lin_generator", Some (VBool false)); ("lin_initial_weight", Some (VReal "1"));
  ("with_lin_initial_weight", Some (VBool false)); ("lin_ratio", Some (VReal "2"));
  ("with_lin_ratio", Some (VBool false)); ("ms_num_clauses", Some (VInt 100));
  ("with_ms_num_clauses", Some (VBool false)); ("ms_num_literals_per_clause", Some (VInt 3));
  ("with_ms_num_literals_per_clause", Some (VBool false)); ("nk_k", Some (VInt 3)); ("with_nk_k", Some (VBool false));
  ("nn1_generator", Some (VInt 0)); ("with_nn1_generator", Some (VBool false)); ("nn2_generator", Some (VInt 0));
  ("with_nn2_generator", Some (VBool false)); ("nn2_num_columns", Some (VInt 10));
  ("with_nn2_num_columns", Some (VBool false)); ("nn2_num_rows", Some (VInt 10));
  ("with_nn2_num_rows", Some (VBool false)); ("part_upper_bound", Some (VInt 100));
  ("with_part_upper_bound", Some (VBool false)); ("path", Some (VText "function.txt"));
  ("with_path", Some (VBool false)); ("seed", None); ("with_seed", Some (VBool false)); ("stddev", Some (VReal "1"));
  ("with_stddev", Some (VBool false)); ("sudoku_num_empty_cells", Some (VInt 10));
  ("with_sudoku_num_empty_cells", Some (VBool false)); ("walsh2_generator", Some (VInt 0));
  ("with_walsh2_generator", Some (VBool false)); ("walsh2_ising_alpha", Some (VReal "2"));
  ("with_walsh2_ising_alpha", Some (VBool false)); ("walsh_num_features", Some (VInt 100));
  ("with_walsh_num_features", Some (VBool false)); ("ms_planted_solution", Some (VBool false));
  ("periodic_boundary_conditions", Some (VBool false))].
(** app/ffgen-options.hh:166-317 *)
Definition ffgen_getters : list (string * option string * string) := [
  ("bv_size", None, "bv_size"); ("coupling_constant", None, "coupling_constant");
  ("ep_upper_bound", None, "ep_upper_bound"); ("field_constant", None, "field_constant");
  ("function", None, "function"); ("lin_distance", None, "lin_distance"); ("lin_generator", None, "lin_generator");
  ("lin_initial_weight", None, "lin_initial_weight"); ("lin_ratio", None, "lin_ratio");
  ("ms_num_clauses", None, "ms_num_clauses"); ("ms_num_literals_per_clause", None, "ms_num_literals_per_clause");
  ("nk_k", None, "nk_k"); ("nn1_generator", None, "nn1_generator"); ("nn2_generator", None, "nn2_generator");
  ("nn2_num_columns", None, "nn2_num_columns"); ("nn2_num_rows", None, "nn2_num_rows");
  ("part_upper_bound", None, "part_upper_bound"); ("path", None, "path"); ("seed", Some "with_seed", "seed");
  ("stddev", None, "stddev"); ("sudoku_num_empty_cells", None, "sudoku_num_empty_cells");
  ("walsh2_generator", None, "walsh2_generator"); ("walsh2_ising_alpha", None, "walsh2_ising_alpha");
  ("walsh_num_features", None, "walsh_num_features")].
Definition ffgen_presences : list (string * string) := [
  ("bv_size", "with_bv_size"); ("coupling_constant", "with_coupling_constant");
  ("ep_upper_bound", "with_ep_upper_bound"); ("field_constant", "with_field_constant"); ("function", "with_function");
  ("lin_distance", "with_lin_distance"); ("lin_generator", "with_lin_generator");
  ("lin_initial_weight", "with_lin_initial_weight"); ("lin_ratio", "with_lin_ratio");
  ("ms_num_clauses", "with_ms_num_clauses"); ("ms_num_literals_per_clause", "with_ms_num_literals_per_clause");
  ("nk_k", "with_nk_k"); ("nn1_generator", "with_nn1_generator"); ("nn2_generator", "with_nn2_generator");
  ("nn2_num_columns", "with_nn2_num_columns"); ("nn2_num_rows", "with_nn2_num_rows");
  ("part_upper_bound", "with_part_upper_bound"); ("path", "with_path"); ("seed", "with_seed");
  ("stddev", "with_stddev"); ("sudoku_num_empty_cells", "with_sudoku_num_empty_cells");
  ("walsh2_generator", "with_walsh2_generator"); ("walsh2_ising_alpha", "with_walsh2_ising_alpha");
  ("walsh_num_features", "with_walsh_num_features"); ("ms_planted_solution", "ms_planted_solution");
  ("periodic_boundary_conditions", "periodic_boundary_conditions")].
(** app/ffgen-options.cc:310-347 *)
Definition ffgen_printed_members : list (option string * string * option string) := [
  ((None, "bv_size"), Some "bv_size"); ((None, "coupling_constant"), Some "coupling_constant");
  ((None, "ep_upper_bound"), Some "ep_upper_bound"); ((None, "field_constant"), Some "field_constant");
  ((None, "function"), Some "function"); ((None, "lin_distance"), Some "lin_distance");
  ((None, "lin_generator"), Some "lin_generator"); ((None, "lin_initial_weight"), Some "lin_initial_weight");
  ((None, "lin_ratio"), Some "lin_ratio"); ((None, "ms_num_clauses"), Some "ms_num_clauses");
  ((None, "ms_num_literals_per_clause"), Some "ms_num_literals_per_clause"); ((None, "nk_k"), Some "nk_k");
  ((None, "nn1_generator"), Some "nn1_generator"); ((None, "nn2_generator"), Some "nn2_generator");
  ((None, "nn2_num_columns"), Some "nn2_num_columns"); ((None, "nn2_num_rows"), Some "nn2_num_rows");
  ((None, "part_upper_bound"), Some "part_upper_bound"); ((None, "path"), Some "path");
  ((Some "with_seed", "seed"), Some "seed"); ((None, "stddev"), Some "stddev");
  ((None, "sudoku_num_empty_cells"), Some "sudoku_num_empty_cells");
  ((None, "walsh2_generator"), Some "walsh2_generator"); ((None, "walsh2_ising_alpha"), Some "walsh2_ising_alpha");
  ((None, "walsh_num_features"), Some "walsh_num_features");
  ((Some "ms_planted_solution", "ms_planted_solution"), None);
  ((Some "periodic_boundary_conditions", "periodic_boundary_conditions"), None)].

(** lib/hnco/multiobjective/app/hnco-mo-options.cc:13-52 *)
Definition hnco_mo_long_options : list (string * bool * label) := [
  ("algorithm", true, Code "ALGORITHM"); ("bv-size", true, Code "BV_SIZE");
  ("ea-crossover-probability", true, Code "EA_CROSSOVER_PROBABILITY"); ("ea-mu", true, Code "EA_MU");
  ("ea-mutation-rate", true, Code "EA_MUTATION_RATE"); ("ea-tournament-size", true, Code "EA_TOURNAMENT_SIZE");
  ("fn-name", true, Code "FN_NAME"); ("fp-default-double-precision", true, Code "FP_DEFAULT_DOUBLE_PRECISION");
  ("fp-default-double-rep", true, Code "FP_DEFAULT_DOUBLE_REP");
  ("fp-default-double-size", true, Code "FP_DEFAULT_DOUBLE_SIZE");
  ("fp-default-int-rep", true, Code "FP_DEFAULT_INT_REP"); ("fp-default-long-rep", true, Code "FP_DEFAULT_LONG_REP");
  ("fp-expression", true, Code "FP_EXPRESSION"); ("fp-representations", true, Code "FP_REPRESENTATIONS");
  ("fp-representations-path", true, Code "FP_REPRESENTATIONS_PATH"); ("function", true, Code "FUNCTION");
  ("num-iterations", true, Code "NUM_ITERATIONS"); ("num-threads", true, Code "NUM_THREADS");
  ("path", true, Code "PATH"); ("rep-categorical-representation", true, Code "REP_CATEGORICAL_REPRESENTATION");
  ("rep-num-additional-bits", true, Code "REP_NUM_ADDITIONAL_BITS"); ("seed", true, Code "SEED");
  ("ea-allow-no-mutation", false, Code "EA_ALLOW_NO_MUTATION"); ("fn-display", false, Code "FN_DISPLAY");
  ("fn-get-bv-size", false, Code "FN_GET_BV_SIZE"); ("fn-get-output-size", false, Code "FN_GET_OUTPUT_SIZE");
  ("print-default-parameters", false, Code "PRINT_DEFAULT_PARAMETERS");
  ("print-description", false, Code "PRINT_DESCRIPTION"); ("print-parameters", false, Code "PRINT_PARAMETERS");
  ("print-pareto-front", false, Code "PRINT_PARETO_FRONT"); ("version", false, Code "VERSION");
  ("help", false, Code "HELP"); ("help-fn", false, Code "HELP_FN"); ("help-fp", false, Code "HELP_FP");
  ("help-rep", false, Code "HELP_REP"); ("help-alg", false, Code "HELP_ALG"); ("help-ea", false, Code "HELP_EA")].
(** lib/hnco/multiobjective/app/hnco-mo-options.cc:53 *)
Definition hnco_mo_short_options : string := "A:s:m:F:i:p:".
(** lib/hnco/multiobjective/app/hnco-mo-options.cc:59-235 *)
Definition hnco_mo_cases : list (list label * action) := [
  ([Letter "A"; Code "ALGORITHM"], Store "with_algorithm" "algorithm" Atoi);
  ([Letter "s"; Code "BV_SIZE"], Store "with_bv_size" "bv_size" Atoi);
  ([Code "EA_CROSSOVER_PROBABILITY"], Store "with_ea_crossover_probability" "ea_crossover_probability" Atof);
  ([Code "EA_MU"], Store "with_ea_mu" "ea_mu" Atoi);
  ([Letter "m"; Code "EA_MUTATION_RATE"], Store "with_ea_mutation_rate" "ea_mutation_rate" Atof);
  ([Code "EA_TOURNAMENT_SIZE"], Store "with_ea_tournament_size" "ea_tournament_size" Atoi);
  ([Code "FN_NAME"], Store "with_fn_name" "fn_name" Copied);
  ([Code "FP_DEFAULT_DOUBLE_PRECISION"], Store "with_fp_default_double_precision" "fp_default_double_precision" Atof);
  ([Code "FP_DEFAULT_DOUBLE_REP"], Store "with_fp_default_double_rep" "fp_default_double_rep" Copied);
  ([Code "FP_DEFAULT_DOUBLE_SIZE"], Store "with_fp_default_double_size" "fp_default_double_size" Atoi);
  ([Code "FP_DEFAULT_INT_REP"], Store "with_fp_default_int_rep" "fp_default_int_rep" Copied);
  ([Code "FP_DEFAULT_LONG_REP"], Store "with_fp_default_long_rep" "fp_default_long_rep" Copied);
  ([Code "FP_EXPRESSION"], Store "with_fp_expression" "fp_expression" Copied);
  ([Code "FP_REPRESENTATIONS"], Store "with_fp_representations" "fp_representations" Copied);
  ([Code "FP_REPRESENTATIONS_PATH"], Store "with_fp_representations_path" "fp_representations_path" Copied);
  ([Letter "F"; Code "FUNCTION"], Store "with_function" "function" Atoi);
  ([Letter "i"; Code "NUM_ITERATIONS"], Store "with_num_iterations" "num_iterations" Atoi);
  ([Code "NUM_THREADS"], Store "with_num_threads" "num_threads" Atoi);
  ([Letter "p"; Code "PATH"], Store "with_path" "path" Copied);
  ([Code "REP_CATEGORICAL_REPRESENTATION"], Store "with_rep_categorical_representation" "rep_categorical_representation" Atoi);
  ([Code "REP_NUM_ADDITIONAL_BITS"], Store "with_rep_num_additional_bits" "rep_num_additional_bits" Atoi);
  ([Code "SEED"], Store "with_seed" "seed" Strtoul); ([Code "EA_ALLOW_NO_MUTATION"], Raise "ea_allow_no_mutation");
  ([Code "FN_DISPLAY"], Raise "fn_display"); ([Code "FN_GET_BV_SIZE"], Raise "fn_get_bv_size");
  ([Code "FN_GET_OUTPUT_SIZE"], Raise "fn_get_output_size");
  ([Code "PRINT_DEFAULT_PARAMETERS"], Raise "print_default_parameters");
  ([Code "PRINT_DESCRIPTION"], Raise "print_description"); ([Code "PRINT_PARAMETERS"], Raise "print_parameters");
  ([Code "PRINT_PARETO_FRONT"], Raise "print_pareto_front"); ([Code "HELP"], Stop "help");
  ([Code "HELP_FN"], Stop "help_fn"); ([Code "HELP_FP"], Stop "help_fp"); ([Code "HELP_REP"], Stop "help_rep");
  ([Code "HELP_ALG"], Stop "help_alg"); ([Code "HELP_EA"], Stop "help_ea"); ([Code "VERSION"], Stop "version")].
(** lib/hnco/multiobjective/app/hnco-mo-options.hh:60-170 *)
Definition hnco_mo_members : list (string * option value) := [
  ("algorithm", Some (VInt 100)); ("with_algorithm", Some (VBool false)); ("bv_size", Some (VInt 100));
  ("with_bv_size", Some (VBool false)); ("ea_crossover_probability", Some (VReal "0.8"));
  ("with_ea_crossover_probability", Some (VBool false)); ("ea_mu", Some (VInt 100));
  ("with_ea_mu", Some (VBool false)); ("ea_mutation_rate", None); ("with_ea_mutation_rate", Some (VBool false));
  ("ea_tournament_size", Some (VInt 2)); ("with_ea_tournament_size", Some (VBool false)); ("fn_name", None);
  ("with_fn_name", Some (VBool false)); ("fp_default_double_precision", None);
  ("with_fp_default_double_precision", Some (VBool false));
  ("fp_default_double_rep", Some (VText "double(0, 1, precision = 1e-3)"));
  ("with_fp_default_double_rep", Some (VBool false)); ("fp_default_double_size", None);
  ("with_fp_default_double_size", Some (VBool false)); ("fp_default_int_rep", Some (VText "int(-10, 10)"));
  ("with_fp_default_int_rep", Some (VBool false)); ("fp_default_long_rep", Some (VText "long(-100, 100)"));
  ("with_fp_default_long_rep", Some (VBool false)); ("fp_expression", None);
  ("with_fp_expression", Some (VBool false)); ("fp_representations", None);
  ("with_fp_representations", Some (VBool false)); ("fp_representations_path", Some (VText "representations.txt"));
  ("with_fp_representations_path", Some (VBool false)); ("function", Some (VInt 180));
  ("with_function", Some (VBool false)); ("num_iterations", Some (VInt 100));
  ("with_num_iterations", Some (VBool false)); ("num_threads", Some (VInt 1));
  ("with_num_threads", Some (VBool false)); ("path", Some (VText "function.txt")); ("with_path", Some (VBool false));
  ("rep_categorical_representation", Some (VInt 0)); ("with_rep_categorical_representation", Some (VBool false));
  ("rep_num_additional_bits", Some (VInt 2)); ("with_rep_num_additional_bits", Some (VBool false)); ("seed", None);
  ("with_seed", Some (VBool false)); ("ea_allow_no_mutation", Some (VBool false)); ("fn_display", Some (VBool false));
  ("fn_get_bv_size", Some (VBool false)); ("fn_get_output_size", Some (VBool false));
  ("print_default_parameters", Some (VBool false)); ("print_description", Some (VBool false));
  ("print_parameters", Some (VBool false)); ("print_pareto_front", Some (VBool false))].
(** lib/hnco/multiobjective/app/hnco-mo-options.hh:201-388 *)
Definition hnco_mo_getters : list (string * option string * string) := [
  ("algorithm", None, "algorithm"); ("bv_size", None, "bv_size");
  ("ea_crossover_probability", None, "ea_crossover_probability"); ("ea_mu", None, "ea_mu");
  ("ea_mutation_rate", Some "with_ea_mutation_rate", "ea_mutation_rate");
  ("ea_tournament_size", None, "ea_tournament_size"); ("fn_name", Some "with_fn_name", "fn_name");
  ("fp_default_double_precision", Some "with_fp_default_double_precision", "fp_default_double_precision");
  ("fp_default_double_rep", None, "fp_default_double_rep");
  ("fp_default_double_size", Some "with_fp_default_double_size", "fp_default_double_size");
  ("fp_default_int_rep", None, "fp_default_int_rep"); ("fp_default_long_rep", None, "fp_default_long_rep");
  ("fp_expression", Some "with_fp_expression", "fp_expression");
  ("fp_representations", Some "with_fp_representations", "fp_representations");
  ("fp_representations_path", None, "fp_representations_path"); ("function", None, "function");
  ("num_iterations", None, "num_iterations"); ("num_threads", None, "num_threads"); ("path", None, "path");
  ("rep_categorical_representation", None, "rep_categorical_representation");
  ("rep_num_additional_bits", None, "rep_num_additional_bits"); ("seed", Some "with_seed", "seed")].
Definition hnco_mo_presences : list (string * string) := [
  ("algorithm", "with_algorithm"); ("bv_size", "with_bv_size");
  ("ea_crossover_probability", "with_ea_crossover_probability"); ("ea_mu", "with_ea_mu");
  ("ea_mutation_rate", "with_ea_mutation_rate"); ("ea_tournament_size", "with_ea_tournament_size");
  ("fn_name", "with_fn_name"); ("fp_default_double_precision", "with_fp_default_double_precision");
  ("fp_default_double_rep", "with_fp_default_double_rep"); ("fp_default_double_size", "with_fp_default_double_size");
  ("fp_default_int_rep", "with_fp_default_int_rep"); ("fp_default_long_rep", "with_fp_default_long_rep");
  ("fp_expression", "with_fp_expression"); ("fp_representations", "with_fp_representations");
  ("fp_representations_path", "with_fp_representations_path"); ("function", "with_function");
  ("num_iterations", "with_num_iterations"); ("num_threads", "with_num_threads"); ("path", "with_path");
  ("rep_categorical_representation", "with_rep_categorical_representation");
  ("rep_num_additional_bits", "with_rep_num_additional_bits"); ("seed", "with_seed");
  ("ea_allow_no_mutation", "ea_allow_no_mutation"); ("fn_display", "fn_display"); ("fn_get_bv_size", "fn_get_bv_size");
  ("fn_get_output_size", "fn_get_output_size"); ("print_default_parameters", "print_default_parameters");
  ("print_description", "print_description"); ("print_parameters", "print_parameters");
  ("print_pareto_front", "print_pareto_front")].
(** lib/hnco/multiobjective/app/hnco-mo-options.cc:383-436 *)
Definition hnco_mo_printed_members : list (option string * string * option string) := [
  ((None, "algorithm"), Some "algorithm"); ((None, "bv_size"), Some "bv_size");
  ((None, "ea_crossover_probability"), Some "ea_crossover_probability"); ((None, "ea_mu"), Some "ea_mu");
  ((Some "with_ea_mutation_rate", "ea_mutation_rate"), Some "ea_mutation_rate");
  ((None, "ea_tournament_size"), Some "ea_tournament_size"); ((Some "with_fn_name", "fn_name"), Some "fn_name");
  ((Some "with_fp_default_double_precision", "fp_default_double_precision"), Some "fp_default_double_precision");
  ((None, "fp_default_double_rep"), Some "fp_default_double_rep");
  ((Some "with_fp_default_double_size", "fp_default_double_size"), Some "fp_default_double_size");
  ((None, "fp_default_int_rep"), Some "fp_default_int_rep");
  ((None, "fp_default_long_rep"), Some "fp_default_long_rep");
  ((Some "with_fp_expression", "fp_expression"), Some "fp_expression");
  ((Some "with_fp_representations", "fp_representations"), Some "fp_representations");
  ((None, "fp_representations_path"), Some "fp_representations_path"); ((None, "function"), Some "function");
  ((None, "num_iterations"), Some "num_iterations"); ((None, "num_threads"), Some "num_threads");
  ((None, "path"), Some "path"); ((None, "rep_categorical_representation"), Some "rep_categorical_representation");
  ((None, "rep_num_additional_bits"), Some "rep_num_additional_bits"); ((Some "with_seed", "seed"), Some "seed");
  ((Some "ea_allow_no_mutation", "ea_allow_no_mutation"), None); ((Some "fn_display", "fn_display"), None);
  ((Some "fn_get_bv_size", "fn_get_bv_size"), None); ((Some "fn_get_output_size", "fn_get_output_size"), None);
  ((Some "print_default_parameters", "print_default_parameters"), None);
  ((Some "print_description", "print_description"), None); ((Some "print_parameters", "print_parameters"), None);
  ((Some "print_pareto_front", "print_pareto_front"), None)].

(** The programs and their tables *)
Inductive tool := Mapgen | Ffgen | HncoMo.
Definition long_options (t : tool) : list (string * bool * label) :=
  match t with Mapgen => mapgen_long_options | Ffgen => ffgen_long_options | HncoMo => hnco_mo_long_options end.
Definition short_options (t : tool) : string :=
  match t with Mapgen => mapgen_short_options | Ffgen => ffgen_short_options | HncoMo => hnco_mo_short_options end.
Definition cases (t : tool) : list (list label * action) :=
  match t with Mapgen => mapgen_cases | Ffgen => ffgen_cases | HncoMo => hnco_mo_cases end.
Definition members (t : tool) : list (string * option value) :=
  match t with Mapgen => mapgen_members | Ffgen => ffgen_members | HncoMo => hnco_mo_members end.
Definition getters (t : tool) : list (string * option string * string) :=
  match t with Mapgen => mapgen_getters | Ffgen => ffgen_getters | HncoMo => hnco_mo_getters end.
Definition presences (t : tool) : list (string * string) :=
  match t with Mapgen => mapgen_presences | Ffgen => ffgen_presences | HncoMo => hnco_mo_presences end.
Definition printed_members (t : tool) : list (option string * string * option string) :=
  match t with Mapgen => mapgen_printed_members | Ffgen => ffgen_printed_members | HncoMo => hnco_mo_printed_members end.

(** A word of short options: the events and, maybe, the letter whose argument is the next word *)
Fixpoint cluster (t : tool) (s : string) : list event * option label :=
  match s with
  | EmptyString => ([], None)
  | String c s' =>
      match find_short (short_options t) c with
      | Some true => match s' with EmptyString => ([], Some (Letter c)) | _ => ([Found (Letter c) s'], None) end
      | Some false => let '(es, w) := cluster t s' in (Found (Letter c) "" :: es, w)
      | None => let '(es, w) := cluster t s' in (Bad :: es, w)
      end
  end.


(** getopt_long, called until it gives -1; the words which are not options are skipped
    (POSIXLY_CORRECT is not set). *)
Fixpoint getopt_long (t : tool) (words : list string) : list event :=
  let with_next (l : label) (rest : list string) :=
    match rest with
    | [] => [Bad]
    | v :: rest' => Found l v :: getopt_long t rest'
    end in
  match words with
  | [] => []
  | String c w :: rest =>
      if Ascii.eqb c "-" then
        match w with
        | EmptyString => getopt_long t rest
        | String d w' =>
            if Ascii.eqb d "-" then
              match w' with
              | EmptyString => []
              | _ =>
                  let '(name, v) := split_equal w' in
                  match find_long (long_options t) name, v with
                  | Some (true, l), Some v => Found l v :: getopt_long t rest
                  | Some (true, l), None => with_next l rest
                  | Some (false, l), None => Found l "" :: getopt_long t rest
                  | Some (false, _), Some _ => Bad :: getopt_long t rest
                  | None, _ => Bad :: getopt_long t rest
                  end
              end
            else
              let '(es, l) := cluster t w in
              es ++ match l with None => getopt_long t rest | Some l => with_next l rest end
        end
      else getopt_long t rest
  | EmptyString :: rest => getopt_long t rest
  end.

(** app/mapgen-options.hh:72, app/ffgen-options.hh:161, hnco-mo-options.hh:196: the options without command line *)
Definition no_options (t : tool) : options := initial_in (members t).
Definition case_of (t : tool) (l : label) : option action :=
  match find (fun '(ls, _) => existsb (label_eqb l) ls) (cases t) with Some (_, a) => Some a | None => None end.

(** app/mapgen-options.cc:27-90, app/ffgen-options.cc:45-196, hnco-mo-options.cc:54-242 *)
Fixpoint perform (t : tool) (ignore_bad_options : bool) (es : list event) (st : options) : parsed :=
  match es with
  | [] => Parsed st
  | e :: es' =>
      let bad := if ignore_bad_options then perform t ignore_bad_options es' st else Ended None (Exit 1) in
      match e with
      | Bad => bad
      | Found l arg =>
          match case_of t l with
          | Some (Store present member c) =>
              match convert c arg with
              | Ok v => perform t ignore_bad_options es' (assign (assign st present (VBool true)) member v)
              | Throw _ => Ended None (Exit 1)
              | UB => Ended None Undefined
              end
          | Some (Raise member) => perform t ignore_bad_options es' (assign st member (VBool true))
          | Some (Stop page) => Ended (Some page) (Exit 0)
          | None => bad
          end
      end
  end.
(** app/mapgen-options.cc:10-91, app/ffgen-options.cc:10-197, hnco-mo-options.cc:10-243: the words after
    the name of the executable *)
Definition make_options (t : tool) (ignore_bad_options : bool) (words : list string) : parsed :=
  perform t ignore_bad_options (getopt_long t words) (no_options t).

(** get_...() *)
Definition get (t : tool) (st : options) (name : string) : outcome value :=
  match find (fun '(n, _, _) => String.eqb n name) (getters t) with
  | Some (_, None, m) => match st m with Some v => Ok v | None => UB end
  | Some (_, Some present, m) =>
      match st present with
      | Some (VBool true) => match st m with Some v => Ok v | None => UB end
      | Some (VBool false) => Throw RuntimeError
      | _ => UB
      end
  | None => UB
  end.
(** with_...() *)
Definition with_option (t : tool) (st : options) (name : string) : outcome bool :=
  match find (fun '(n, _) => String.eqb n name) (presences t) with
  | Some (_, m) => match st m with Some (VBool b) => Ok b | _ => UB end
  | None => UB
  end.

(** app/mapgen-options.cc:132-150, app/ffgen-options.cc:310-347, hnco-mo-options.cc:383-436: the names and the values which are printed *)
Definition print_options (t : tool) (st : options) : list (string * option value) :=
  flat_map (fun '(present, name, member) =>
    match present with
    | Some p => match st p with Some (VBool true) => [(name, match member with Some m => st m | None => None end)] | _ => [] end
    | None => [(name, match member with Some m => st m | None => None end)]
    end) (printed_members t).
