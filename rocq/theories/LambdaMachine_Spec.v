(** Vocabulary of the statements about the (1+(lambda,lambda)) GA run by the application. *)

From Coq Require Import ZArith QArith.
From Verif Require Import Base BitVector_Model BitVector_Spec Map_Spec Neighborhood_Model Neighborhood_Spec Double Controller_Model Controller_Spec Decorator_Model
  Application_Model Application_Spec Search_Spec Algorithm_Model Algorithm_Spec EvolutionaryAlgorithm_Spec
  AlgorithmMachine_Model AlgorithmMachine_Spec PopulationMachine_Model.
Local Open Scope nat_scope.

(** The options are accepted, for vectors of size [n]: lambda is the option for mu. *)
Definition lambda_options_ok (o : algo_options) (po : population_options) (n : nat) : Prop :=
  ao_algorithm o = 450%Z /\ (0 < po_mu po <= Z.of_nat n)%Z /\ (0 < po_crossover_bias po < 1)%Q.

(** The random numbers of the first run are in their ranges; and those for mutations are
    not exhausted. *)
Definition lambda_draws_ok (pd : population_draws) (n : nat) : Prop :=
  (forall t, pd_radius pd 0 t <= n) /\ fair_mutations n (pd_mutations pd 0) /\ (forall t, shuffles (pd_shuffle pd 0 t)) /\ (forall t, shuffles (pd_shuffle2 pd 0 t)) /\
  fair_picks (pd_best1 pd 0) /\ fair_picks (pd_best2 pd 0).
Definition lambda_draws_last (pd : population_draws) (n : nat) : Prop := forall t k, plenty n (pd_mutations pd 0 t k).

(** The solution is one of the vectors evaluated, and not worse than the first one. *)
Definition no_worse (f : bv -> dbl) (T : list bv) (x : bv) : Prop :=
  In x T /\ dle (f (hd [] T)) (f x) = true.

(** The vectors do not have all the same value. *)
Definition varied (f : bv -> dbl) (L : list bv) : Prop := exists y z, In y L /\ In z L /\ f y <> f z.
(** The mutants of the iteration number [k], when all the iterations before are done *)
Definition mutants (lambda : Z) (k : nat) (T : list bv) : list bv :=
  firstn (Z.to_nat lambda) (skipn (1 + k * (2 * Z.to_nat lambda)) T).

(** How the (1+(lambda,lambda)) GA ends, with the results, the solution, and whether the
    target has been reached: all the iterations are done, each with 2 lambda calls, and the mutants
    of none had all the same value; or the budget is exhausted, or the target is reached. *)
Inductive lambda_ends (o : algo_options) (po : population_options) (co : controller_options) (target : option dbl)
  (f : bv -> dbl) (n : nat) : results -> bv -> bool -> Prop :=
| lambda_done T r x : Forall (fun y => length y = n) T -> (0 < ao_num_iterations o)%Z ->
    Z.of_nat (length T) = (1 + ao_num_iterations o * (2 * po_mu po))%Z ->
    (forall k, (Z.of_nat k < ao_num_iterations o)%Z -> varied f (mutants (po_mu po) k T)) ->
    misses target f T -> within_budget co T -> no_worse f T x -> tallies co f T r -> lambda_ends o po co target f n r x false
| lambda_cut T r x : Forall (fun y => length y = n) T -> (0 < co_budget co <= Z.of_nat (length T))%Z ->
    (co_cache co = false -> co_budget co = Z.of_nat (length T)) -> misses target f T -> tallies co f T r ->
    no_worse f T x -> lambda_ends o po co target f n r x false
| lambda_reached T r x t : Forall (fun y => length y = n) (T ++ [x]) -> target = Some t -> misses target f T -> dge (f x) t = true ->
    within_budget co (T ++ [x]) -> tallies co f (T ++ [x]) r -> rs_value r = Some (f x) -> lambda_ends o po co target f n r x true.

(** The program has evaluated [size] vectors with the same value in a row. *)
Definition same_values (f : bv -> dbl) (n : nat) (target : option dbl) (size : Z) : Prop :=
  exists T L, Forall (fun y => length y = n) (T ++ L) /\ misses target f (T ++ L) /\ Z.of_nat (length L) = size /\ forall y z, In y L -> In z L -> f y = f z.
