(** Proofs about the command line and the algorithms with populations or distributions. *)

From Coq Require Import ZArith QArith String Lia.
From Verif Require Import Base BaseLemmas Decorator_Model FunctionFactory_Model Application_Model AlgorithmMachine_Model PopulationMachine_Model EstimationMachine_Model
  Options_Model Options_Spec Options_Proofs CommandLine_Model CommandLine_Spec CommandLine_Proofs CommandLineAlgorithms_Model CommandLineAlgorithms_Spec.
Local Open Scope nat_scope.
Local Open Scope string_scope.
Local Open Scope list_scope.

Lemma bool_said st items name b : facts st items -> existsb (fun p => String.eqb (p_name p) name && (match p_type p with TBool => true | _ => false end && has_default p)) documented = true ->
  text_of items name = (if b : bool then "true" else "false") -> bool_of st (underscored name) = b.
Proof.
  intros F H W. apply exists_named in H as (p & D & N & H). apply andb_prop in H as [H1 H2]. assert (T : p_type p = TBool) by (destruct (p_type p); congruence).
  unfold bool_of. rewrite (value_said st items name p (VBool b)); auto; rewrite T; [discriminate|rewrite W; constructor].
Qed.

Lemma population_said U st items po : facts st items -> population_says U items po -> populations_options U st = po.
Proof.
  intros F H. destruct po. unfold population_says in H. cbn - [text_of] in H. destruct H as (H1 & H2 & H3 & -> & H4 & H5 & -> & -> & -> & -> & -> & -> & ->).
  assert (RD : forall name, existsb (fun p => String.eqb (p_name p) name && match p_type p with TReal => true | _ => false end) documented = true ->
    match default_text name with None => false | _ => true end = true -> real_from st (underscored name) = text_of items name).
  { intros name X Y. apply real_said; [exact F|exact X|]. right. intros K. now rewrite K in Y. }
  unfold populations_options.
  rewrite (int_said st items "ea-mu" _ F eq_refl H1 : int_of st "ea_mu" = _), (int_said st items "ea-lambda" _ F eq_refl H2 : int_of st "ea_lambda" = _),
    (int_said st items "ea-tournament-size" _ F eq_refl H3 : int_of st "ea_tournament_size" = _), (int_said st items "population-size" _ F eq_refl H4 : int_of st "population_size" = _),
    (int_said st items "selection-size" _ F eq_refl H5 : int_of st "selection_size" = _),
    (RD "ea-crossover-bias" eq_refl eq_refl : real_from st "ea_crossover_bias" = _), (RD "learning-rate" eq_refl eq_refl : real_from st "learning_rate" = _),
    (RD "ea-mutation-rate-max" eq_refl eq_refl : real_from st "ea_mutation_rate_max" = _), (RD "ea-update-strength" eq_refl eq_refl : real_from st "ea_update_strength" = _),
    (RD "ea-success-ratio" eq_refl eq_refl : real_from st "ea_success_ratio" = _),
    (flag_said st items "ea-mutation-rate" F eq_refl : flag_of st "ea_mutation_rate" = _), (flag_said st items "ea-mutation-rate-min" F eq_refl : flag_of st "ea_mutation_rate_min" = _),
    (flag_said st items "mmas-strict" F eq_refl : flag_of st "mmas_strict" = _).
  f_equal.
  - destruct (asked items "ea-mutation-rate") eqn:A; [|reflexivity]. now rewrite (real_said st items "ea-mutation-rate" F eq_refl (or_introl A) : real_from st "ea_mutation_rate" = _).
  - destruct (asked items "ea-mutation-rate-min") eqn:A; [|reflexivity]. now rewrite (real_said st items "ea-mutation-rate-min" F eq_refl (or_introl A) : real_from st "ea_mutation_rate_min" = _).
Qed.

Lemma estimation_said U st items eo : facts st items -> estimation_says U items eo -> estimations_options U st = eo.
Proof.
  intros F H. destruct eo. unfold estimation_says in H. cbn - [text_of] in H.
  destruct H as (H1 & H2 & H3 & H4 & H5 & H6 & H7 & -> & -> & -> & H8 & H9 & H10 & H11 & H12 & H13 & H14 & ->).
  assert (RD : forall name, existsb (fun p => String.eqb (p_name p) name && match p_type p with TReal => true | _ => false end) documented = true ->
    match default_text name with None => false | _ => true end = true -> real_from st (underscored name) = text_of items name).
  { intros name X Y. apply real_said; [exact F|exact X|]. right. intros K. now rewrite K in Y. }
  unfold estimations_options.
  rewrite (int_said st items "ea-it-replacement" _ F eq_refl H1 : int_of st "ea_it_replacement" = _),
    (int_said st items "ea-it-initial-hamming-weight" _ F eq_refl H2 : int_of st "ea_it_initial_hamming_weight" = _),
    (int_said st items "ram-ts-length-mode" _ F eq_refl H3 : int_of st "ram_ts_length_mode" = _), (int_said st items "ram-ts-length" _ F eq_refl H4 : int_of st "ram_ts_length" = _),
    (int_said st items "ram-ts-length-lower-bound" _ F eq_refl H5 : int_of st "ram_ts_length_lower_bound" = _),
    (int_said st items "ram-ts-length-upper-bound" _ F eq_refl H6 : int_of st "ram_ts_length_upper_bound" = _),
    (int_said st items "ram-ts-length-increment-period" _ F eq_refl H7 : int_of st "ram_ts_length_increment_period" = _),
    (RD "ram-ts-length-distribution-parameter" eq_refl eq_refl : real_from st "ram_ts_length_distribution_parameter" = _),
    (RD "ram-crossover-probability" eq_refl eq_refl : real_from st "ram_crossover_probability" = _),
    (RD "ram-latent-space-probability" eq_refl eq_refl : real_from st "ram_latent_space_probability" = _),
    (bool_said st items "hea-bound-moment" _ F eq_refl H8 : bool_of st "hea_bound_moment" = _),
    (bool_said st items "hea-randomize-bit-order" _ F eq_refl H9 : bool_of st "hea_randomize_bit_order" = _),
    (int_said st items "hea-reset-period" _ F eq_refl H10 : int_of st "hea_reset_period" = _), (int_said st items "bm-num-gs-steps" _ F eq_refl H11 : int_of st "bm_num_gs_steps" = _),
    (int_said st items "bm-num-gs-cycles" _ F eq_refl H12 : int_of st "bm_num_gs_cycles" = _), (int_said st items "bm-reset-mode" _ F eq_refl H13 : int_of st "bm_reset_mode" = _),
    (int_said st items "bm-sampling-mode" _ F eq_refl H14 : int_of st "bm_sampling_mode" = _),
    (flag_said st items "bm-negative-positive-selection" F eq_refl : flag_of st "bm_negative_positive_selection" = _).
  reflexivity.
Qed.

Lemma full_theorem E U items wordss tail : Forall2 writes items wordss -> values_written items -> (tail = [] \/ exists l, tail = "--" :: l) -> no_display items ->
  exists st, make_options false (concat wordss ++ tail) = Parsed st /\
    forall se po eo fuel, say E items st se -> population_says U items po -> estimation_says U items eo ->
      hnco (with_algorithms E U) (concat wordss ++ tail) fuel = full_run E U st se po eo fuel.
Proof.
  intros W V T N. destruct (words_theorem (with_algorithms E U) items wordss tail W V T N) as (st & M & H). exists st. split; [exact M|].
  intros se po eo fuel S1 S2 S3. destruct (facts_hold items wordss tail W V T) as (st' & M' & F). assert (st' = st) as -> by congruence.
  rewrite (H se fuel S1). pose proof (settings_said E st items se F S1) as X. unfold run_settings, full_run, with_algorithms. cbn [en_random en_map en_neighbors en_iterations en_garbage en_algorithm].
  unfold more_algorithms. rewrite (population_said U st items po F S2), (estimation_said U st items eo F S3). rewrite <- X. reflexivity.
Qed.
