(** Vocabulary of the statements about the application for several objectives. *)

From Coq Require Import ZArith.
From Verif Require Import Base BitVector_Spec Representation_Spec Map_Spec Pareto_Spec Nsga2_Model Nsga2_Spec MultiApplication_Model.
Local Open Scope nat_scope.

(** The random numbers and library functions are possible ones, for vectors of size [n]. *)
Definition possible (n : nat) (d : mo_draws) : Prop :=
  sorts (md_srt d) /\ visits (md_first d) /\ visits (md_last d) /\ visits (md_print d) /\ shuffles (md_sh d) /\
  fair_breeding n (md_breeding d) /\ forall t, fair_generation n (md_generations d t).

(** No question is asked. *)
Definition no_question (op : mo_options) : Prop :=
  mo_print_default op = false /\ (1 <= mo_threads op)%Z /\ mo_ask_size op = false /\ mo_ask_outputs op = false /\ mo_ask_display op = false.

(** The warning printed if the size of the function is not the one given by the options *)
Definition warned (op : mo_options) (n : nat) : list mo_output :=
  if (Z.of_nat n =? mo_bv_size op)%Z then [] else [MoWarning (mo_bv_size op) (Z.of_nat n)].

(** Then the parameters if asked *)
Definition announced (op : mo_options) (n : nat) : list mo_output :=
  warned op n ++ if mo_print_parameters op then [MoParameters] else [].

(** The solutions, as they are printed: the descriptions, then the objectives *)
Definition printed (op : mo_options) (value : list bool -> list Z) (solutions : list (list bool)) : list mo_output :=
  (if mo_print_description op then map (fun x => MoDescription (value x) x) solutions else []) ++
  (if mo_print_front op then map (fun x => MoFront (value x)) solutions else []).

(** The solutions [xs] of a run which evaluated the vectors [T], with the population size [mu] and [m] objectives *)
Definition good_solutions (m mu : nat) (value : list bool -> list Z) (T xs : list (list bool)) : Prop :=
  0 < length xs <= mu /\
  (forall x, In x xs -> In x T) /\
  (forall x y, In x xs -> In y xs -> ~ pareto_better (value x) (value y)) /\
  (forall x y, In x xs -> In y (skipn (length T - mu) T) -> ~ pareto_better (value y) (value x)) /\
  (2 * m <= mu -> forall k y, k < m -> In y T -> exists x, In x xs /\ (nth k (value x) 0 <= nth k (value y) 0)%Z).
