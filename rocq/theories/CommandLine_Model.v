(** Model of hnco, from the words of its command line: app/hnco.cc:31-44, and the options which
    lib/hnco/app/application.cc, decorated-function-factory.cc, function-factory.cc and
    algorithm-factory.cc read.

    What is outside of the program is in [environment]: the doubles which texts denote, the
    files, the random numbers given the seed, and what is not modelled.  The accessors of
    options with a default value do not throw (C134_accessors): the values which are read here
    after a failure are those of no run. *)

From Coq Require Import ZArith String.
From Verif Require Import Base BitVector_Model Map_Model Neighborhood_Model Double Controller_Model Decorator_Model FunctionFactory_Model
  Application_Model AlgorithmMachine_Model Options_Model.
Local Open Scope nat_scope.
Local Open Scope string_scope.
Local Open Scope list_scope.

(** The random numbers of a run *)
Record random_numbers := mk_random_numbers { ra_map : map_draws; ra_flips : nat -> list nat; ra_algorithm : algo_draws }.

Record environment := mk_environment {
  en_double : string -> dbl;  (** std::atof *)
  en_small : dbl -> nat -> bool;  (** p < 1 / sqrt(n), neighborhood.hh:285 *)
  en_solution : string -> outcome bv;  (** files, by their paths *)
  en_map : string -> Z -> outcome hmap;
  en_weights : string -> outcome (list Z);
  en_expression : string -> option (dbl -> dbl);  (** parsed-modifier.hh:45 *)
  en_noise : dbl -> nat -> dbl -> dbl;  (** modifier.hh:161, given the standard deviation *)
  en_random : option Z -> random_numbers;  (** given the seed *)
  en_function : options -> Z -> option (outcome func);  (** the functions which are not modelled *)
  en_algorithm : options -> nat -> outcome machine;  (** the algorithms which are not modelled *)
  en_other : options -> option (list output * ending);  (** displays, see [other_flags] *)
  en_neighbors : nat;  (** bounds and garbage, see make_algorithm *)
  en_iterations : nat;
  en_garbage : Z }.

(** Accessors *)
Definition int_of (st : options) (name : string) : Z := match get st name with Ok (VInt z) => z | _ => 0%Z end.
Definition text_from (st : options) (name : string) : string := match get st name with Ok (VText s) => s | _ => "" end.
Definition real_from (st : options) (name : string) : string := match get st name with Ok (VReal s) => s | _ => "" end.
Definition flag_of (st : options) (name : string) : bool := match with_option st name with Ok b => b | _ => false end.

(** application.cc: the conditions of init, load_solution, print_information, make_algorithm,
    print_results and manage_solution *)
Definition application_options (E : environment) (st : options) : app_options :=
  mk_app_options
    (flag_of st "print_default_parameters")
    (int_of st "num_threads")
    (if flag_of st "load_solution" then Some (en_solution E (text_from st "solution_path")) else None)
    (flag_of st "fn_has_known_maximum")
    (flag_of st "fn_get_maximum")
    (flag_of st "fn_get_bv_size")
    (flag_of st "fn_provides_incremental_evaluation")
    (flag_of st "restart")
    (flag_of st "print_results")
    (flag_of st "save_results")
    (flag_of st "concrete_solution")
    (flag_of st "print_solution")
    (flag_of st "save_solution")
    (flag_of st "print_description")
    (flag_of st "save_description").

(** decorated-function-factory.cc:256-311 *)
Definition controllers_options (E : environment) (st : options) : controller_options :=
  mk_controller_options
    (int_of st "budget")
    (flag_of st "cache")
    (flag_of st "cache_budget")
    (flag_of st "stop_on_maximum")
    (if flag_of st "target" then Some (en_double E (real_from st "target")) else None)
    (flag_of st "log_improvement").

(** decorated-function-factory.cc:57-151 *)
Definition maps_options (st : options) : map_options :=
  mk_map_options (int_of st "map") (flag_of st "map_random") (int_of st "map_input_size") (flag_of st "map_surjective") (int_of st "map_ts_length")
    (int_of st "map_ts_sampling_mode").

(** decorated-function-factory.cc:154-187; the mutation rate is inside of [ra_flips]. *)
Definition prior_noise_neighborhood (st : options) : option nh_kind :=
  match int_of st "pn_neighborhood" with
  | 0%Z => Some SingleBitFlip
  | 1%Z => Some (StandardBitMutation false false)
  | 2%Z => Some (HammingBall (Z.to_nat (int_of st "pn_radius")))
  | 3%Z => Some (HammingSphere (Z.to_nat (int_of st "pn_radius")))
  | _ => None
  end.

(** decorated-function-factory.cc:214-253 *)
Definition modifiers_options (E : environment) (st : options) : modifier_options :=
  mk_modifier_options
    (int_of st "bv_size")
    (maps_options st)
    (if flag_of st "prior_noise" then Some (prior_noise_neighborhood st) else None)
    (if flag_of st "parsed_modifier" then Some (en_expression E (text_from st "expression")) else None)
    (flag_of st "minimize")
    (if flag_of st "additive_gaussian_noise" then Some (en_noise E (en_double E (real_from st "noise_stddev"))) else None).

(** function-factory.cc:35-164 *)
Definition functions_options (E : environment) (st : options) : fn_options :=
  mk_fn_options (int_of st "function") (int_of st "bv_size") (int_of st "fn_threshold") (int_of st "fn_num_traps") (int_of st "fn_prefix_length")
    (en_weights E (text_from st "path")) (en_function E st).

(** algorithm-factory.cc:40-230 *)
Definition algorithms_options (E : environment) (st : options) : algo_options :=
  mk_algo_options
    (int_of st "algorithm")
    (int_of st "num_iterations")
    (flag_of st "incremental_evaluation")
    (int_of st "neighborhood")
    (int_of st "neighborhood_iterator")
    (int_of st "radius")
    (flag_of st "ea_allow_no_mutation")
    (if flag_of st "ea_mutation_rate" then Some (en_small E (en_double E (real_from st "ea_mutation_rate"))) else None)
    (int_of st "rls_patience")
    (flag_of st "rls_strict")
    (int_of st "sa_num_trials").

(** application.cc:55-59 *)
Definition seed_option (st : options) : option Z :=
  if flag_of st "seed" then match get st "seed" with Ok (VUnsigned z) => Some z | _ => None end else None.

(** All the options which are read *)
Record settings := mk_settings {
  se_application : app_options;
  se_controllers : controller_options;
  se_modifiers : modifier_options;
  se_function : fn_options;
  se_algorithm : algo_options;
  se_seed : option Z;
  se_map_path : string }.
Definition settings_of (E : environment) (st : options) : settings :=
  mk_settings (application_options E st) (controllers_options E st) (modifiers_options E st) (functions_options E st) (algorithms_options E st)
    (seed_option st) (text_from st "map_path").

(** application.cc:317-326, with what the factories give *)
Definition run_settings (E : environment) (st : options) (se : settings) (fuel : nat) : option (list output * ending) :=
  let ra := en_random E (se_seed se) in
  program (se_application se) (se_controllers se)
    (make_function_modifier (se_modifiers se)
       (mk_modifier_draws (ra_map ra) (en_map E (se_map_path se) (mp_kind (mo_map (se_modifiers se)))) (ra_flips ra))
       (FunctionFactory_Model.make_function (se_function se)))
    (make_algorithm (se_algorithm se) (ra_algorithm ra) (en_neighbors E) (en_iterations E) (en_garbage E) (en_algorithm E st)) fuel.

(** The flags whose effects are not in [program]: displays, the Walsh transform
    (WalshProgram_Model) and the options themselves *)
Definition other_flags : list string := ["fn_walsh_transform"; "fn_display"; "map_display"; "print_parameters"].

(** hnco.cc:31-44.  When the options end the program, a page of the help may be printed. *)
Definition hnco (E : environment) (words : list string) (fuel : nat) : option (list output * ending) :=
  match make_options false words with
  | Ended _ e => Some ([], e)
  | Parsed st => if existsb (flag_of st) other_flags then en_other E st else run_settings E st (settings_of E st) fuel
  end.
