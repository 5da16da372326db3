(** Vocabulary of the statements about the command line and the algorithms with populations or
    distributions. *)

From Coq Require Import ZArith QArith String.
From Verif Require Import Base Decorator_Model FunctionFactory_Model Application_Model AlgorithmMachine_Model PopulationMachine_Model EstimationMachine_Model Options_Model Options_Spec CommandLine_Model CommandLine_Spec CommandLineAlgorithms_Model.
Local Open Scope nat_scope.
Local Open Scope string_scope.
Local Open Scope list_scope.

Section Says.
  Context (U : surroundings) (items : list item).
  Local Notation asked := (asked items).
  Local Notation "name 'is' z" := (int_is items name z) (at level 70).
  (** The number which is written last, else that of the help *)
  Let number (name : string) : Q := su_number U (text_of items name).

  Definition population_says (po : population_options) : Prop :=
    "ea-mu" is po_mu po /\
    "ea-lambda" is po_lambda po /\
    "ea-tournament-size" is po_tournament_size po /\
    po_crossover_bias po = number "ea-crossover-bias" /\
    "population-size" is po_population_size po /\
    "selection-size" is po_selection_size po /\
    po_learning_rate po = number "learning-rate" /\
    po_mutation_rate po = (if asked "ea-mutation-rate" then Some (number "ea-mutation-rate") else None) /\
    po_mutation_rate_min po = (if asked "ea-mutation-rate-min" then Some (number "ea-mutation-rate-min") else None) /\
    po_mutation_rate_max po = number "ea-mutation-rate-max" /\
    po_update_strength po = number "ea-update-strength" /\
    po_coefficient po = su_power U (number "ea-update-strength") (number "ea-success-ratio") /\
    po_mmas_strict po = asked "mmas-strict".

  Definition estimation_says (eo : estimation_options) : Prop :=
    "ea-it-replacement" is eo_replacement eo /\
    "ea-it-initial-hamming-weight" is eo_weight eo /\
    "ram-ts-length-mode" is eo_length_mode eo /\
    "ram-ts-length" is eo_length eo /\
    "ram-ts-length-lower-bound" is eo_length_lower eo /\
    "ram-ts-length-upper-bound" is eo_length_upper eo /\
    "ram-ts-length-increment-period" is eo_length_period eo /\
    eo_length_parameter eo = number "ram-ts-length-distribution-parameter" /\
    eo_crossover_probability eo = number "ram-crossover-probability" /\
    eo_latent_probability eo = number "ram-latent-space-probability" /\
    text_of items "hea-bound-moment" = (if eo_bound_moment eo then "true" else "false") /\
    text_of items "hea-randomize-bit-order" = (if eo_random_order eo then "true" else "false") /\
    "hea-reset-period" is eo_reset_period eo /\
    "bm-num-gs-steps" is eo_num_steps eo /\
    "bm-num-gs-cycles" is eo_num_cycles eo /\
    "bm-reset-mode" is eo_reset_mode eo /\
    "bm-sampling-mode" is eo_sampling_mode eo /\
    eo_negative eo = asked "bm-negative-positive-selection".
End Says.

(** The run of the program with these settings *)
Definition full_run (E : environment) (U : surroundings) (st : options) (se : settings) (po : population_options) (eo : estimation_options) (fuel : nat) :=
  let ra := en_random E (se_seed se) in
  let ao := se_algorithm se in
  program (se_application se) (se_controllers se)
    (make_function_modifier (se_modifiers se)
       (mk_modifier_draws (ra_map ra) (en_map E (se_map_path se) (mp_kind (mo_map (se_modifiers se)))) (ra_flips ra))
       (FunctionFactory_Model.make_function (se_function se)))
    (make_algorithm ao (ra_algorithm ra) (en_neighbors E) (en_iterations E) (en_garbage E)
       (make_population_algorithm ao po (su_population U (se_seed se)) (su_sort U) (su_partial_sort U) (su_debug U) (en_iterations E) (su_garbage U) (su_bounds U)
          (make_estimation_algorithm ao po eo (su_estimation U (se_seed se)) (su_sort U) (su_log U) (su_logistic U) (en_iterations E) (su_garbage U) (su_time U)
             (su_algorithm U st)))) fuel.
