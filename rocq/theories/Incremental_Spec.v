(** Vocabulary of the statements about incremental evaluation in the application. *)

From Coq Require Import ZArith.
From Verif Require Import Base BitVector_Model BitVector_Spec Double Controller_Model Controller_Spec AlgorithmMachine_Model.
Local Open Scope nat_scope.

(** A call which asks for the value of [y], a vector of size [n]: that of evaluate, or that of
    evaluate_incrementally, given another vector, its value, and the positions where they
    differ. *)
Inductive asks_for (n : nat) (f : bv -> dbl) : request -> bv -> Prop :=
| asks_value y : length y = n -> asks_for n f (REval y) y
| asks_increment x y : length x = n -> length y = n -> asks_for n f (RInc x (f x) (diffs n x y)) y.

(** From the state [s], the function gives the values of [f], incrementally or not. *)
Definition answers_rightly {S} (o : fobj S) (s : S) (n : nat) (f : bv -> dbl) : Prop :=
  forall qs ys, Forall2 (asks_for n f) qs ys -> map res (calls o s qs) = map (fun y => Ok (RValue (f y))) ys.

(** The same options, with or without incremental evaluation *)
Definition with_incremental (b : bool) (o : algo_options) : algo_options :=
  mk_algo_options (ao_algorithm o) (ao_num_iterations o) b (ao_neighborhood o) (ao_neighborhood_iterator o) (ao_radius o)
    (ao_allow_no_mutation o) (ao_mutation_rate o) (ao_rls_patience o) (ao_rls_strict o) (ao_sa_num_trials o).
