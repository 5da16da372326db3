(** Vocabulary of the statements about the information-theoretic EA, UMDA with random
    affine maps, the herding evolutionary algorithm, Boltzmann machine PBIL and MIMIC run by the
    application. *)

From Coq Require Import ZArith QArith.
From Verif Require Import Base BitVector_Model BitVector_Spec Map_Spec Neighborhood_Model Neighborhood_Spec Double Controller_Model Controller_Spec Decorator_Model
  Application_Model Application_Spec Search_Spec Algorithm_Model Algorithm_Spec EvolutionaryAlgorithm_Spec
  WalshEda_Model AlgorithmMachine_Model PopulationMachine_Model EstimationMachine_Model AlgorithmMachine_Spec.
Local Open Scope nat_scope.

(** The types of algorithms: information-theoretic EA, both UMDA with random affine maps, herding
    evolutionary algorithms and Boltzmann machine PBIL with full and triangular moments, MIMIC *)
Definition estimation_algorithms : list Z := [340; 610; 612; 900; 901; 1000; 1001; 1100]%Z.

(** The given rate, or 1 / n *)
Definition given_or_inverse (n : nat) (r : option Q) : Q := match r with Some p => p | None => (1 / inject_Z (Z.of_nat n))%Q end.

(** The options are accepted, for vectors of size [n]. *)
Definition estimation_options_ok (o : algo_options) (po : population_options) (eo : estimation_options) (n : nat) : Prop :=
  let t := ao_algorithm o in
  In t estimation_algorithms /\ (0 < po_population_size po)%Z /\
  (t = 340%Z -> (1 <= po_selection_size po < po_population_size po)%Z /\
     (given_or_inverse n (po_mutation_rate_min po) <= po_mutation_rate_max po)%Q /\
     (0 <= eo_replacement eo <= 4)%Z /\ (eo_replacement eo = 4 -> 0 <= eo_weight eo <= Z.of_nat n)%Z) /\
  (In t [610; 612]%Z -> 2 <= n /\ (1 <= po_selection_size po <= po_population_size po)%Z /\
     (0 <= eo_length_mode eo <= 5)%Z /\ (0 <= eo_length eo)%Z /\ (0 <= eo_length_lower eo <= eo_length_upper eo)%Z /\
     (0 < eo_length_period eo)%Z /\ (0 < eo_length_parameter eo < 1)%Q) /\
  (In t [900; 901]%Z -> (po_selection_size po <= po_population_size po)%Z /\ (0 <= po_learning_rate po <= 1)%Q /\
     (eo_bound_moment eo = true -> 2 <= n)) /\
  (In t [1000; 1001]%Z -> (1 <= po_selection_size po <= po_population_size po)%Z /\ (0 <= eo_sampling_mode eo <= 2)%Z /\
     (eo_sampling_mode eo = 2 -> t = 1000)%Z) /\
  (t = 1100%Z -> 1 <= po_selection_size po < po_population_size po)%Z.

(** The random numbers of the first run are in their ranges. *)
Definition estimation_draws_ok (eo : estimation_options) (ed : estimation_draws) (n : nat) : Prop :=
  fair_mutations n (ed_mutations ed 0) /\ (forall t, shuffles (ed_shuffle ed 0 t)) /\ fair_picks (ed_pick ed 0) /\
  (forall i, 0 <= ed_weight ed 0 i < 1)%Q /\
  (forall t, eo_length_lower eo <= ed_length ed 0 t <= eo_length_upper eo)%Z /\ (forall t, Forall (fun k => k < n) (ed_map_indices ed 0 t)) /\
  (forall t i, shuffles (ed_order ed 0 t i)) /\ shuffles (ed_first_permutation ed 0) /\
  (forall t i c, d_choose (ed_gibbs ed 0) t i c < n) /\ (forall t i c, shuffles (d_shuffle (ed_gibbs ed 0) t i c)) /\ (forall t, shuffles (d_sort (ed_gibbs ed 0) t)).

(** Numbers read two by two: how many pairs are made of different numbers *)
Fixpoint distinct_pairs (l : list nat) : nat :=
  match l with
  | i :: j :: l' => (if i =? j then 0 else 1) + distinct_pairs l'
  | _ => 0
  end.
(** The random numbers for mutations and for transvections are not exhausted. *)
Definition estimation_draws_last (eo : estimation_options) (ed : estimation_draws) (n : nat) : Prop :=
  (forall t k, plenty n (ed_mutations ed 0 t k)) /\
  (forall t, Z.max (eo_length eo) (eo_length_upper eo) <= Z.of_nat (distinct_pairs (ed_map_indices ed 0 t)))%Z.

(** The options on which every algorithm depends, for vectors of size [n]: the default mutation
    rates are 1 / n. *)
Definition same_estimation_options (t : Z) (n : nat) (po : population_options) (eo : estimation_options) (po' : population_options) (eo' : estimation_options) : Prop :=
  (In t estimation_algorithms -> po_population_size po = po_population_size po' /\ po_selection_size po = po_selection_size po') /\
  (t = 340%Z -> po_learning_rate po = po_learning_rate po' /\
     given_or_inverse n (po_mutation_rate po) = given_or_inverse n (po_mutation_rate po') /\
     given_or_inverse n (po_mutation_rate_min po) = given_or_inverse n (po_mutation_rate_min po') /\ po_mutation_rate_max po = po_mutation_rate_max po' /\
     eo_weight eo = eo_weight eo' /\ eo_replacement eo = eo_replacement eo') /\
  (In t [610; 612]%Z -> eo_length_mode eo = eo_length_mode eo' /\ eo_length eo = eo_length eo' /\ eo_length_lower eo = eo_length_lower eo' /\
     eo_length_upper eo = eo_length_upper eo' /\ eo_length_period eo = eo_length_period eo' /\ eo_length_parameter eo = eo_length_parameter eo') /\
  (t = 612%Z -> eo_crossover_probability eo = eo_crossover_probability eo' /\ eo_latent_probability eo = eo_latent_probability eo') /\
  (In t [900; 901]%Z -> po_learning_rate po = po_learning_rate po' /\ eo_bound_moment eo = eo_bound_moment eo' /\
     eo_random_order eo = eo_random_order eo' /\ eo_reset_period eo = eo_reset_period eo') /\
  (In t [1000; 1001]%Z -> po_learning_rate po = po_learning_rate po' /\ eo_num_steps eo = eo_num_steps eo' /\ eo_num_cycles eo = eo_num_cycles eo' /\
     eo_negative eo = eo_negative eo' /\ eo_sampling_mode eo = eo_sampling_mode eo' /\ eo_reset_mode eo = eo_reset_mode eo').

(** The least and the greatest numbers of calls in an iteration: with maximum likelihood update
    the information-theoretic EA evaluates its center again in every iteration; with
    incremental update, in the iterations where it moves. *)
Definition least_calls (o : algo_options) (po : population_options) (eo : estimation_options) : Z :=
  (po_population_size po + if (ao_algorithm o =? 340) && (eo_replacement eo =? 2) then 1 else 0)%Z.
Definition most_calls (o : algo_options) (po : population_options) (eo : estimation_options) : Z :=
  (po_population_size po + if (ao_algorithm o =? 340) && ((eo_replacement eo =? 2) || (eo_replacement eo =? 3)) then 1 else 0)%Z.

(** How such an algorithm ends, with the results, the solution, and whether the target
    has been reached.  All the iterations are done, and the solution is the best vector
    evaluated; or the budget is exhausted and the last vectors evaluated, less than a
    population, have not been compared with the solution; or the target is reached. *)
Inductive estimation_ends (o : algo_options) (po : population_options) (eo : estimation_options) (co : controller_options) (target : option dbl)
  (f : bv -> dbl) (n : nat) : results -> bv -> bool -> Prop :=
| estimation_done T r x : Forall (fun y => length y = n) T -> (0 < ao_num_iterations o)%Z ->
    (1 + ao_num_iterations o * least_calls o po eo <= Z.of_nat (length T) <= 1 + ao_num_iterations o * most_calls o po eo)%Z ->
    misses target f T -> within_budget co T -> best_of f T x -> tallies co f T r -> rs_value r = Some (f x) ->
    estimation_ends o po eo co target f n r x false
| estimation_cut T1 T2 r x : Forall (fun y => length y = n) (T1 ++ T2) -> (0 < co_budget co <= Z.of_nat (length (T1 ++ T2)))%Z ->
    (co_cache co = false -> co_budget co = Z.of_nat (length (T1 ++ T2))) -> misses target f (T1 ++ T2) -> tallies co f (T1 ++ T2) r ->
    (Z.of_nat (length T2) < po_population_size po)%Z -> best_of f T1 x -> estimation_ends o po eo co target f n r x false
| estimation_reached T r x t : Forall (fun y => length y = n) (T ++ [x]) -> target = Some t -> misses target f T -> dge (f x) t = true ->
    within_budget co (T ++ [x]) -> tallies co f (T ++ [x]) r -> rs_value r = Some (f x) -> estimation_ends o po eo co target f n r x true.
