(** Vocabulary of the statements about the population algorithms run by the application. *)

From Coq Require Import ZArith QArith.
From Verif Require Import Base BitVector_Model BitVector_Spec Map_Model Map_Spec Representation_Spec Neighborhood_Model Neighborhood_Spec
  Population_Model Population_Spec Double Controller_Model Controller_Spec Decorator_Model
  Application_Model Application_Spec Search_Spec Algorithm_Model Algorithm_Spec PopAlgorithm_Spec EvolutionaryAlgorithm_Model EvolutionaryAlgorithm_Spec
  AlgorithmMachine_Model AlgorithmMachine_Spec PopulationMachine_Model.
Local Open Scope nat_scope.

(** The types of algorithms: self-adjusting (1+1) EA, (mu+lambda) EA, (mu,lambda) EA, two-rate
    (1+lambda) EA, genetic algorithm, PBIL, NPS-PBIL, UMDA, compact GA and MMAS *)
Definition population_algorithms : list Z := [301; 310; 320; 330; 400; 500; 501; 600; 700; 800]%Z.

(** The options are accepted, for vectors of size [n]. *)
Definition population_options_ok (o : algo_options) (po : population_options) (n : nat) : Prop :=
  let t := ao_algorithm o in
  In t population_algorithms /\
  (t = 301%Z -> ao_incremental o = false) /\
  (t = 310%Z -> 0 < po_mu po /\ 0 < po_lambda po)%Z /\
  (t = 320%Z -> 0 < po_mu po <= po_lambda po)%Z /\
  (t = 330%Z -> (0 < po_lambda po)%Z /\ 8 <= n /\
     forall p, po_mutation_rate po = Some p -> (2 / inject_Z (Z.of_nat n) <= p <= 1 # 4)%Q) /\
  (t = 400%Z -> 2 <= po_tournament_size po < po_mu po)%Z /\
  (In t [500; 501; 600]%Z -> 0 < po_selection_size po <= po_population_size po)%Z /\
  (In t [500; 501; 600; 700; 800]%Z -> 2 <= n).

(** The random numbers of the first run are in their ranges; and those for mutations are
    not exhausted. *)
Definition population_draws_ok (pd : population_draws) (n : nat) : Prop :=
  shuffles (pd_first_shuffle pd 0) /\ shuffles (pd_first_tournament pd 0) /\
  (forall t, fair_picks (pd_parents pd 0 t)) /\
  fair_mutations n (pd_mutations pd 0) /\
  (forall t, shuffles (pd_shuffle pd 0 t)) /\
  (forall t k, shuffles (pd_tournament1 pd 0 t k)) /\ (forall t k, shuffles (pd_tournament2 pd 0 t k)).
Definition population_draws_last (pd : population_draws) (n : nat) : Prop := forall t k, plenty n (pd_mutations pd 0 t k).

(** The given rate, or the default one *)
Definition given_or (def : Q) (r : option Q) : Q := match r with Some p => p | None => def end.

(** The options on which every algorithm depends, for vectors of size [n].  The default mutation
    rate is 1 / n, or 2 / n in the two-rate EA; the default least one is 1 / n^2 in the
    self-adjusting EA.  The (1+(lambda,lambda)) GA, of type 450, takes lambda from mu. *)
Definition same_population_options (t : Z) (n : nat) (a b : population_options) : Prop :=
  let inverse k := (1 / inject_Z (Z.of_nat k))%Q in
  (In t [301; 310; 320; 400]%Z -> given_or (inverse n) (po_mutation_rate a) = given_or (inverse n) (po_mutation_rate b)) /\
  (t = 330%Z -> given_or (2 / inject_Z (Z.of_nat n)) (po_mutation_rate a) = given_or (2 / inject_Z (Z.of_nat n)) (po_mutation_rate b)) /\
  (t = 301%Z -> given_or (inverse (n * n)) (po_mutation_rate_min a) = given_or (inverse (n * n)) (po_mutation_rate_min b) /\
     po_mutation_rate_max a = po_mutation_rate_max b /\ po_update_strength a = po_update_strength b /\ po_coefficient a = po_coefficient b) /\
  (In t [310; 320; 400; 450]%Z -> po_mu a = po_mu b) /\
  (In t [310; 320; 330]%Z -> po_lambda a = po_lambda b) /\
  (t = 400%Z -> po_tournament_size a = po_tournament_size b) /\
  (t = 450%Z -> po_crossover_bias a = po_crossover_bias b) /\
  (In t [500; 501; 600]%Z -> po_population_size a = po_population_size b /\ po_selection_size a = po_selection_size b) /\
  (In t [500; 501; 700; 800]%Z -> po_learning_rate a = po_learning_rate b) /\
  (t = 800%Z -> po_mmas_strict a = po_mmas_strict b).

(** The number of calls before the first iteration, and in every iteration.  The (mu+lambda) EA
    and the genetic algorithm begin with a population, the others with a vector.  Compact GA
    evaluates its candidates twice if assertions are compiled. *)
Definition starts_with_population (o : algo_options) : bool := ((ao_algorithm o =? 310) || (ao_algorithm o =? 400))%Z.
Definition first_generation (o : algo_options) (po : population_options) : Z := if starts_with_population o then po_mu po else 1%Z.
Definition generation_calls (o : algo_options) (po : population_options) (debug : bool) : Z :=
  let t := ao_algorithm o in
  if ((t =? 310) || (t =? 320) || (t =? 330))%Z then po_lambda po
  else if (t =? 400)%Z then po_mu po
  else if ((t =? 500) || (t =? 501) || (t =? 600))%Z then po_population_size po
  else if (t =? 700)%Z then (if debug then 4%Z else 2%Z)
  else 1%Z.
(** The number of candidates of a generation *)
Definition generation_size (o : algo_options) (po : population_options) : Z := generation_calls o po false.

(** How a population algorithm ends, with the results, the solution, and whether the target
    has been reached.  All the generations are done, and the solution is the best vector
    evaluated; or the budget is exhausted and the last vectors evaluated, less than a
    generation, have not been compared with the solution; or, in the algorithms which begin with a
    population, the budget is exhausted before the end of the first evaluation, and the
    solution is the zero vector; or the target is reached. *)
Inductive population_ends (o : algo_options) (po : population_options) (debug : bool) (co : controller_options) (target : option dbl)
  (f : bv -> dbl) (n : nat) : results -> bv -> bool -> Prop :=
| generations_done T r x : Forall (fun y => length y = n) T -> (0 < ao_num_iterations o)%Z ->
    Z.of_nat (length T) = (first_generation o po + ao_num_iterations o * generation_calls o po debug)%Z ->
    misses target f T -> within_budget co T -> best_of f T x -> tallies co f T r -> rs_value r = Some (f x) ->
    population_ends o po debug co target f n r x false
| generation_cut T1 T2 r x : Forall (fun y => length y = n) (T1 ++ T2) -> (0 < co_budget co <= Z.of_nat (length (T1 ++ T2)))%Z ->
    (co_cache co = false -> co_budget co = Z.of_nat (length (T1 ++ T2))) -> misses target f (T1 ++ T2) -> tallies co f (T1 ++ T2) r ->
    (Z.of_nat (length T2) < generation_size o po)%Z -> best_of f T1 x -> population_ends o po debug co target f n r x false
| population_cut T r : Forall (fun y => length y = n) T -> (0 < co_budget co <= Z.of_nat (length T))%Z ->
    (co_cache co = false -> co_budget co = Z.of_nat (length T)) -> misses target f T -> tallies co f T r ->
    starts_with_population o = true -> (Z.of_nat (length T) < po_mu po)%Z -> population_ends o po debug co target f n r (repeat false n) false
| population_reached T r x t : Forall (fun y => length y = n) (T ++ [x]) -> target = Some t -> misses target f T -> dge (f x) t = true ->
    within_budget co (T ++ [x]) -> tallies co f (T ++ [x]) r -> rs_value r = Some (f x) -> population_ends o po debug co target f n r x true.
