(** Model of the algorithms with populations or probability vectors which the application
    makes from its options, as it runs them: lib/hnco/app/algorithm-factory.cc. *)

From Coq Require Import ZArith QArith.
From Verif Require Import Base BitVector_Model Neighborhood_Model Population_Model Application_Model Algorithm_Model PopAlgorithm_Model
  ProbabilityVector_Model EvolutionaryAlgorithm_Model AlgorithmMachine_Model.
Local Open Scope nat_scope.

(** The options, lib/hnco/app/hnco-options.hh; real numbers are exact, and
    [po_coefficient] is pow(_update_strength, _success_ratio)
    (self-adjusting-one-plus-one-ea.cc:38). *)
Record population_options := mk_population_options {
  po_mu : Z;
  po_lambda : Z;
  po_tournament_size : Z;
  po_crossover_bias : Q;
  po_population_size : Z;
  po_selection_size : Z;
  po_learning_rate : Q;
  po_mutation_rate : option Q;
  po_mutation_rate_min : option Q;
  po_mutation_rate_max : Q;
  po_update_strength : Q;
  po_coefficient : Q;
  po_mmas_strict : bool }.

(** The random numbers of the run number k of maximize: bits of the first vector and of
    the first population, shuffles before the first generation, and for the iteration t: parents drawn,
    mutations, shuffles before sorts, shuffles of the tournaments, crossovers and their coins, uniform
    numbers for sampling, the number which decides the mutation rate, the radius and the
    choices among the best. *)
Record population_draws := mk_population_draws {
  pd_bit : nat -> nat -> bool;
  pd_bits : nat -> nat -> nat -> bool;
  pd_first_shuffle : nat -> list nat -> list nat;
  pd_first_tournament : nat -> list nat -> list nat;
  pd_parents : nat -> nat -> nat -> nat -> nat -> nat;
  pd_mutations : nat -> nat -> nat -> draws;
  pd_shuffle : nat -> nat -> list nat -> list nat;
  pd_shuffle2 : nat -> nat -> list nat -> list nat;
  pd_tournament1 : nat -> nat -> nat -> list nat -> list nat;
  pd_tournament2 : nat -> nat -> nat -> list nat -> list nat;
  pd_cross : nat -> nat -> nat -> bool;
  pd_coins : nat -> nat -> nat -> nat -> bool;
  pd_uniform : nat -> nat -> nat -> nat -> Q;
  pd_decide : nat -> nat -> Q;
  pd_radius : nat -> nat -> nat;
  pd_best1 : nat -> nat -> nat -> nat -> nat;
  pd_best2 : nat -> nat -> nat -> nat -> nat }.

(** Conversion of an int to the size of a std::vector: std::length_error if it is negative
    (population.hh:54) *)
Definition vector_size (z : Z) : outcome nat := if (z <? 0)%Z then Throw OtherException else Ok (Z.to_nat z).
(** population.hh:53-61: the size is converted, then checked *)
Definition population_size (z : Z) : outcome nat := k <- vector_size z ;; _ <- ensureb (0 <? k) ;; Ok k.

(** p < 1 / std::sqrt(n) (neighborhood.hh:285), exactly *)
Definition small_rate (n : nat) (p : Q) : bool := qltb p 0 || qltb (p * p * inject_Z (Z.of_nat n)) 1.
(** The default mutation rate, 1 / n: mu-plus-lambda-ea.hh:101, mu-comma-lambda-ea.hh:101,
    genetic-algorithm.hh:122, self-adjusting-one-plus-one-ea.hh:121 *)
Definition rate_or (def : Q) (r : option Q) : Q := match r with Some p => p | None => def end.
Definition mutation_rate (po : population_options) (n : nat) : Q := rate_or (1 / inject_Z (Z.of_nat n)) (po_mutation_rate po).

(** self-adjusting-one-plus-one-ea.hh:118-124 and algorithm-factory.cc:200-219; evaluation
    is not incremental *)
Definition saea_settings (o : algo_options) (po : population_options) (n : nat) : saea_parameters :=
  mk_saea_parameters (mutation_rate po n) (rate_or (1 / inject_Z (Z.of_nat (n * n))) (po_mutation_rate_min po)) (po_mutation_rate_max po)
    (po_update_strength po) (po_coefficient po) (ao_allow_no_mutation o) false.

(** The comparison of MMAS: mmas.hh:55 and algorithm-factory.cc:415-416 *)
Definition mmas_compare (po : population_options) : Z -> Z -> bool :=
  if po_mmas_strict po then (fun a b => b <? a)%Z else (fun a b => b <=? a)%Z.

Section Factory.
  (** [srt] and [psrt] are std::sort and std::partial_sort; [debug] tells whether assertions
      are compiled (compact-ga.cc:58 evaluates in an assertion); [fuel] bounds the number
      of iterations explored; [garbage] and [bounds] are the contents of members which the
      constructors leave uninitialised. *)
  Context (o : algo_options) (po : population_options) (pd : population_draws).
  Context (srt : (nat -> nat -> bool) -> list nat -> list nat) (psrt : nat -> (nat -> nat -> bool) -> list nat -> list nat).
  Context (debug : bool) (fuel : nat) (garbage : Q) (bounds : nat * nat).
  (** What the factory makes for the types of algorithms which are not modelled *)
  Context (others : nat -> outcome machine).

  (** algorithm-factory.cc:200-419.  For the type 450 lambda is the option for mu. *)
  Definition make_population_algorithm (n : nat) : outcome machine :=
    let t := ao_algorithm o in
    let num := ao_num_iterations o in
    let small := small_rate n (mutation_rate po n) in
    let allow := ao_allow_no_mutation o in
    let selection := Z.to_nat (po_selection_size po) in
    if (t =? 301)%Z then
      if ao_incremental o then others n else
      m <- saea_make n garbage ;;
      a <- alg_make n m ;;
      Ok (algorithm_machine
            (fun k f => loop (saea_init f (saea_settings o po n) (small_rate n) (pd_bit pd k))
                          (saea_iterate f (saea_settings o po n) (small_rate n) (fun i => pd_mutations pd k i 0)) num fuel) saea_finalize a)
    else if (t =? 310)%Z then
      mu <- population_size (po_mu po) ;;
      lambda <- population_size (po_lambda po) ;;
      m <- mupl_make n mu lambda ;;
      a <- alg_make n m ;;
      Ok (algorithm_machine
            (fun k f => loop (mupl_init f small allow (pd_bits pd k) (pd_first_shuffle pd k) srt)
                          (mupl_iterate f (pd_parents pd k) (pd_mutations pd k) (pd_shuffle pd k) psrt) num fuel) (fun s => s) a)
    else if (t =? 320)%Z then
      mu <- population_size (po_mu po) ;;
      lambda <- population_size (po_lambda po) ;;
      m <- mucl_make n mu lambda ;;
      a <- alg_make n m ;;
      Ok (algorithm_machine
            (fun k f => loop (mucl_init f small allow (pd_bits pd k) (pd_bit pd k))
                          (mucl_iterate f (pd_parents pd k) (pd_mutations pd k) (pd_shuffle pd k) psrt) num fuel) (fun s => s) a)
    else if (t =? 330)%Z then
      lambda <- population_size (po_lambda po) ;;
      m <- trea_make n lambda garbage ;;
      a <- alg_make n m ;;
      Ok (algorithm_machine
            (fun k f => loop (trea_init f (rate_or (tr_min n) (po_mutation_rate po)) allow (pd_bit pd k))
                          (trea_iterate f n (small_rate n) (pd_mutations pd k) (pd_shuffle pd k) srt (pd_decide pd k)) num fuel) (fun s => s) a)
    else if (t =? 400)%Z then
      mu <- population_size (po_mu po) ;;
      m <- ga_make n mu bounds ;;
      a <- alg_make n m ;;
      Ok (algorithm_machine
            (fun k f => loop (ga_init f (Z.to_nat (po_tournament_size po)) small allow (pd_bits pd k) (pd_first_tournament pd k) (pd_first_shuffle pd k) srt)
                          (ga_iterate f (pd_cross pd k) (pd_coins pd k) (pd_tournament1 pd k) (pd_tournament2 pd k) (pd_mutations pd k) (pd_shuffle pd k) psrt)
                          num fuel) (fun s => s) a)
    else if (t =? 450)%Z then
      lambda <- population_size (po_mu po) ;;
      m <- llga_make n lambda ;;
      a <- alg_make n m ;;
      Ok (algorithm_machine
            (fun k f => loop (llga_init f (po_crossover_bias po) (pd_bit pd k))
                          (llga_iterate f (pd_radius pd k) (pd_mutations pd k) (pd_coins pd k) (pd_shuffle pd k) (pd_shuffle2 pd k) srt
                             (pd_best1 pd k) (pd_best2 pd k)) num fuel) (fun s => s) a)
    else if (t =? 500)%Z then
      size <- population_size (po_population_size po) ;;
      m <- eda_make size n ;;
      a <- alg_make n m ;;
      Ok (algorithm_machine
            (fun k f => loop (eda_init f (pd_bit pd k)) (pbil_iterate f n selection (po_learning_rate po) (pd_uniform pd k) (pd_shuffle pd k) srt) num fuel)
            (fun s => s) a)
    else if (t =? 501)%Z then
      size <- population_size (po_population_size po) ;;
      m <- eda_make size n ;;
      a <- alg_make n m ;;
      Ok (algorithm_machine
            (fun k f => loop (eda_init f (pd_bit pd k)) (nps_iterate f n selection (po_learning_rate po) (pd_uniform pd k) (pd_shuffle pd k) srt) num fuel)
            (fun s => s) a)
    else if (t =? 600)%Z then
      size <- population_size (po_population_size po) ;;
      m <- eda_make size n ;;
      a <- alg_make n m ;;
      Ok (algorithm_machine
            (fun k f => loop (eda_init f (pd_bit pd k)) (umda_iterate f n selection (pd_uniform pd k) (pd_shuffle pd k) srt) num fuel)
            (fun s => s) a)
    else if (t =? 700)%Z then
      a <- alg_make n (sampler_make n) ;;
      Ok (algorithm_machine
            (fun k f => loop (cga_init f (pd_bit pd k)) (cga_iterate f n (po_learning_rate po) (pd_uniform pd k) debug) num fuel) (fun s => s) a)
    else if (t =? 800)%Z then
      a <- alg_make n (sampler_make n) ;;
      Ok (algorithm_machine
            (fun k f => loop (mmas_init f n (po_learning_rate po) (pd_bit pd k))
                          (mmas_iterate f n (po_learning_rate po) (pd_uniform pd k) (mmas_compare po)) num fuel) (fun s => s) a)
    else others n.
End Factory.
