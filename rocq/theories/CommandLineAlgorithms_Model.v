(** Model of the options of the algorithms with populations and of those which estimate
    distributions, as algorithm-factory.cc reads them, and of hnco with these algorithms. *)

From Coq Require Import ZArith QArith String.
From Verif Require Import Base BitVector_Model Application_Model AlgorithmMachine_Model PopulationMachine_Model EstimationMachine_Model Options_Model CommandLine_Model.
Local Open Scope nat_scope.
Local Open Scope string_scope.
Local Open Scope list_scope.

(** What is outside of the program, or not modelled: exact numbers instead of doubles, std::pow,
    random numbers given the seed, sorts, logarithm and logistic function, whether assertions are
    compiled, contents of members which are not initialised, and the other algorithms *)
Record surroundings := mk_surroundings {
  su_number : string -> Q;
  su_power : Q -> Q -> Q;
  su_population : option Z -> population_draws;
  su_estimation : option Z -> estimation_draws;
  su_sort : (nat -> nat -> bool) -> list nat -> list nat;
  su_partial_sort : nat -> (nat -> nat -> bool) -> list nat -> list nat;
  su_log : Q -> Q;
  su_logistic : Q -> Q;
  su_debug : bool;
  su_garbage : Q;
  su_time : Z;
  su_bounds : nat * nat;
  su_algorithm : options -> nat -> outcome machine }.

(** hnco-options.hh: bool options with a value *)
Definition bool_of (st : options) (name : string) : bool := match get st name with Ok (VBool b) => b | _ => false end.

(** algorithm-factory.cc:201-419; self-adjusting-one-plus-one-ea.cc:38 for the coefficient *)
Definition populations_options (U : surroundings) (st : options) : population_options :=
  let number name := su_number U (real_from st name) in
  mk_population_options
    (int_of st "ea_mu")
    (int_of st "ea_lambda")
    (int_of st "ea_tournament_size")
    (number "ea_crossover_bias")
    (int_of st "population_size")
    (int_of st "selection_size")
    (number "learning_rate")
    (if flag_of st "ea_mutation_rate" then Some (number "ea_mutation_rate") else None)
    (if flag_of st "ea_mutation_rate_min" then Some (number "ea_mutation_rate_min") else None)
    (number "ea_mutation_rate_max")
    (number "ea_update_strength")
    (su_power U (number "ea_update_strength") (number "ea_success_ratio"))
    (flag_of st "mmas_strict").

(** algorithm-factory.cc:270-291, 371-411, 442-535 *)
Definition estimations_options (U : surroundings) (st : options) : estimation_options :=
  let number name := su_number U (real_from st name) in
  mk_estimation_options
    (int_of st "ea_it_replacement")
    (int_of st "ea_it_initial_hamming_weight")
    (int_of st "ram_ts_length_mode")
    (int_of st "ram_ts_length")
    (int_of st "ram_ts_length_lower_bound")
    (int_of st "ram_ts_length_upper_bound")
    (int_of st "ram_ts_length_increment_period")
    (number "ram_ts_length_distribution_parameter")
    (number "ram_crossover_probability")
    (number "ram_latent_space_probability")
    (bool_of st "hea_bound_moment")
    (bool_of st "hea_randomize_bit_order")
    (int_of st "hea_reset_period")
    (int_of st "bm_num_gs_steps")
    (int_of st "bm_num_gs_cycles")
    (int_of st "bm_reset_mode")
    (int_of st "bm_sampling_mode")
    (flag_of st "bm_negative_positive_selection").

(** algorithm-factory.cc:200-535 *)
Definition more_algorithms (E : environment) (U : surroundings) (st : options) : nat -> outcome machine :=
  let o := algorithms_options E st in
  let po := populations_options U st in
  make_population_algorithm o po (su_population U (seed_option st)) (su_sort U) (su_partial_sort U) (su_debug U) (en_iterations E) (su_garbage U) (su_bounds U)
    (make_estimation_algorithm o po (estimations_options U st) (su_estimation U (seed_option st)) (su_sort U) (su_log U) (su_logistic U) (en_iterations E) (su_garbage U) (su_time U)
       (su_algorithm U st)).

(** hnco with these algorithms *)
Definition with_algorithms (E : environment) (U : surroundings) : environment :=
  mk_environment (en_double E) (en_small E) (en_solution E) (en_map E) (en_weights E) (en_expression E) (en_noise E) (en_random E) (en_function E)
    (more_algorithms E U) (en_other E) (en_neighbors E) (en_iterations E) (en_garbage E).
