(** Model of the information-theoretic EA, of UMDA with random affine maps, of the herding
    evolutionary algorithm, of the Boltzmann machine PBIL and of MIMIC, which the application makes
    from its options, as it runs them: lib/hnco/app/algorithm-factory.cc. *)

From Coq Require Import ZArith QArith.
From Verif Require Import Base BitVector_Model Neighborhood_Model Population_Model Application_Model Algorithm_Model PopAlgorithm_Model
  ProbabilityVector_Model ItEa_Model RamUmda_Model WalshMoment_Model WalshEda_Model Mimic_Model AlgorithmMachine_Model PopulationMachine_Model.
Local Open Scope nat_scope.

(** The other options, lib/hnco/app/hnco-options.hh; real numbers are exact. *)
Record estimation_options := mk_estimation_options {
  eo_replacement : Z;
  eo_weight : Z;
  eo_length_mode : Z;
  eo_length : Z;
  eo_length_lower : Z;
  eo_length_upper : Z;
  eo_length_period : Z;
  eo_length_parameter : Q;
  eo_crossover_probability : Q;
  eo_latent_probability : Q;
  eo_bound_moment : bool;
  eo_random_order : bool;
  eo_reset_period : Z;
  eo_num_steps : Z;
  eo_num_cycles : Z;
  eo_reset_mode : Z;
  eo_sampling_mode : Z;
  eo_negative : bool }.

(** The values of the enumerations: it-ea.hh:19-32, ram-umda.hh:38-53, bm-pbil.hh:50-85.  Other
    reset modes are the same as no reset. *)
Definition replacement_of (z : Z) : replacement :=
  if (z =? 0)%Z then Elitist else if (z =? 1)%Z then NonElitist else if (z =? 2)%Z then MlUpdate
  else if (z =? 3)%Z then IncrementalMlUpdate else if (z =? 4)%Z then NoReplacement else OtherReplacement.
Definition length_mode_of (z : Z) : length_mode :=
  if (z =? 0)%Z then LengthConstant else if (z =? 1)%Z then LengthIncreasing else if (z =? 2)%Z then LengthDecreasing
  else if (z =? 3)%Z then LengthUniform else if (z =? 4)%Z then LengthGeometric else if (z =? 5)%Z then LengthReverseGeometric else LengthOther.
Definition sampling_mode_of (z : Z) : sampling_mode :=
  if (z =? 0)%Z then Asynchronous else if (z =? 1)%Z then FullScan else if (z =? 2)%Z then Synchronous else OtherSampling.
Definition reset_mode_of (z : Z) : reset_mode := if (z =? 1)%Z then EachIteration else if (z =? 2)%Z then EachVector else NoReset.

(** The random numbers of the run number k of maximize: bits of the first vector, numbers for the
    first vector of given weight, bits of the first population and of the first state of the Gibbs sampler,
    first permutation; and for the iteration t: mutations, shuffles before sorts, coins and pick of the
    update of the center; lengths of maps with uniform and geometric distributions, bits and
    transvections of maps, uniform numbers for sampling in both spaces, for crossover and for
    latent space, coins of the crossover; orders of bits; and those of Gibbs sampling. *)
Record estimation_draws := mk_estimation_draws {
  ed_bit : nat -> nat -> bool;
  ed_weight : nat -> nat -> Q;
  ed_bits : nat -> nat -> nat -> bool;
  ed_state : nat -> nat -> bool;
  ed_first_permutation : nat -> list nat -> list nat;
  ed_mutations : nat -> nat -> nat -> draws;
  ed_shuffle : nat -> nat -> list nat -> list nat;
  ed_coin : nat -> nat -> nat -> bool;
  ed_pick : nat -> nat -> nat -> nat -> nat;
  ed_flip : nat -> nat -> bool;
  ed_length : nat -> nat -> Z;
  ed_geometric : nat -> nat -> nat;
  ed_map_bits : nat -> nat -> nat -> bool;
  ed_map_indices : nat -> nat -> list nat;
  ed_uniform : nat -> nat -> nat -> nat -> Q;
  ed_uniform2 : nat -> nat -> nat -> nat -> Q;
  ed_crossover : nat -> nat -> nat -> Q;
  ed_latent : nat -> nat -> nat -> Q;
  ed_coins : nat -> nat -> nat -> nat -> bool;
  ed_order : nat -> nat -> nat -> list nat -> list nat;
  ed_gibbs : nat -> bm_draws }.

(** algorithm-factory.cc:270-291 and it-ea.hh:42-43.  A negative weight violates an
    assertion of bv_random, as does a weight larger than n. *)
Definition it_settings (o : algo_options) (po : population_options) (eo : estimation_options) (n : nat) : it_params :=
  let rate := (1 / inject_Z (Z.of_nat n))%Q in
  mk_it_params (ip_selection (it_default n)) (po_learning_rate po) (rate_or rate (po_mutation_rate po)) (rate_or rate (po_mutation_rate_min po)) (po_mutation_rate_max po)
    (if (eo_weight eo <? 0)%Z then S n else Z.to_nat (eo_weight eo)) (replacement_of (eo_replacement eo)) (ao_allow_no_mutation o).

(** algorithm-factory.cc:377-382 and 399-404 *)
Definition length_settings (eo : estimation_options) : length_config :=
  mk_length_config (length_mode_of (eo_length_mode eo)) (eo_length_lower eo) (eo_length_upper eo) (eo_length_period eo) (eo_length_parameter eo).

(** algorithm-factory.cc:448-453, 469-474 and hea.hh:175 *)
Definition he_settings (po : population_options) (eo : estimation_options) (n : nat) : he_params :=
  mk_he_params (1 / inject_Z (Z.of_nat n))%Q (Z.to_nat (po_selection_size po)) (Z.to_nat (eo_reset_period eo)) (po_learning_rate po) (eo_bound_moment eo) (eo_random_order eo).

(** algorithm-factory.cc:491-501 and 513-523 *)
Definition bm_settings (po : population_options) (eo : estimation_options) : bm_params :=
  mk_bm_params (Z.to_nat (po_selection_size po)) (po_learning_rate po) (Z.to_nat (eo_num_steps eo)) (Z.to_nat (eo_num_cycles eo)) (eo_negative eo)
    (sampling_mode_of (eo_sampling_mode eo)) (reset_mode_of (eo_reset_mode eo)).

Section Factory.
  (** [srt] is std::sort, [lg] std::log and [logistic] the logistic function; [fuel] bounds
      the number of iterations explored; [garbage] and [time] are the contents of members which
      the constructors leave uninitialised. *)
  Context (o : algo_options) (po : population_options) (eo : estimation_options) (ed : estimation_draws).
  Context (srt : (nat -> nat -> bool) -> list nat -> list nat) (lg logistic : Q -> Q).
  Context (fuel : nat) (garbage : Q) (time : Z).
  (** What the factory makes for the types of algorithms which are not modelled *)
  Context (others : nat -> outcome machine).

  (** Hea<Herding>: algorithm-factory.cc:442-461 and 463-482 *)
  Definition make_hea (k : kind) (n : nat) : outcome machine :=
    size <- population_size (po_population_size po) ;;
    m <- he_make k n size time ;;
    a <- alg_make n m ;;
    Ok (algorithm_machine
          (fun j f => loop (he_init f (ed_bit ed j)) (he_iterate k f (he_settings po eo n) (ed_order ed j) (ed_shuffle ed j) srt) (ao_num_iterations o) fuel)
          (fun s => s) a).

  (** BmPbil<GibbsSampler>: algorithm-factory.cc:484-504 and 506-526 *)
  Definition make_bm_pbil (k : kind) (n : nat) : outcome machine :=
    size <- population_size (po_population_size po) ;;
    m <- bm_make k n size ;;
    a <- alg_make n m ;;
    Ok (algorithm_machine
          (fun j f => loop (bm_init f (ed_bit ed j) (ed_state ed j)) (bm_iterate logistic k f n (bm_settings po eo) (ed_gibbs ed j) srt) (ao_num_iterations o) fuel)
          (fun s => s) a).

  (** algorithm-factory.cc:270-291, 371-411, 442-535 *)
  Definition make_estimation_algorithm (n : nat) : outcome machine :=
    let t := ao_algorithm o in
    let num := ao_num_iterations o in
    let selection := Z.to_nat (po_selection_size po) in
    if (t =? 340)%Z then
      size <- population_size (po_population_size po) ;;
      m <- it_make n size garbage ;;
      p <- it_set_selection m (it_settings o po eo n) selection ;;
      a <- alg_make n m ;;
      Ok (algorithm_machine
            (fun k f => loop (it_init f p (ed_bit ed k) (ed_weight ed k))
                          (it_iterate f n p (small_rate n) (ed_mutations ed k) (ed_shuffle ed k) srt (ed_coin ed k) (ed_pick ed k) (ed_flip ed k)) num fuel)
            (fun s => s) a)
    else if ((t =? 610) || (t =? 612))%Z then
      size <- population_size (po_population_size po) ;;
      m <- ram_make size n (eo_length eo) ;;
      a <- alg_make n m ;;
      Ok (algorithm_machine
            (fun k f => loop (ram_init f (ed_bit ed k) (ed_bits ed k))
                          (if (t =? 612)%Z
                           then ram2_iterate f n selection (length_settings eo) (ed_length ed k) (ed_geometric ed k) (ed_map_bits ed k) (ed_map_indices ed k) (ed_uniform ed k) (ed_shuffle ed k) srt
                                  (ed_crossover ed k) (ed_latent ed k) (ed_uniform2 ed k) (ed_coins ed k) (eo_crossover_probability eo) (eo_latent_probability eo)
                           else ram_iterate f n selection (length_settings eo) (ed_length ed k) (ed_geometric ed k) (ed_map_bits ed k) (ed_map_indices ed k) (ed_uniform ed k) (ed_shuffle ed k) srt)
                          num fuel)
            (fun s => s) a)
    else if (t =? 900)%Z then make_hea Full n
    else if (t =? 901)%Z then make_hea Triangular n
    else if (t =? 1000)%Z then make_bm_pbil Full n
    else if (t =? 1001)%Z then make_bm_pbil Triangular n
    else if (t =? 1100)%Z then
      size <- population_size (po_population_size po) ;;
      m <- mimic_make size n ;;
      a <- alg_make n m ;;
      Ok (algorithm_machine
            (fun k f => loop (mimic_init selection f (ed_bit ed k) (ed_first_permutation ed k))
                          (mimic_iterate lg n selection f (ed_uniform ed k) (ed_shuffle ed k) srt) num fuel)
            (fun s => s) a)
    else others n.
End Factory.
