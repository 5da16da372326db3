(** Vocabulary of hBOA. *)

From Coq Require Import List Permutation.
From Verif Require Import Base Double Forest_Model Forest_Spec Pyramid_Spec Hboa_Model.
Import ListNotations.

(** The values are those of the solutions, which have the right size; the selection is a
    permutation of their indices. *)
Definition hboa_sound (n : nat) (f : list bool -> outcome dbl) (g : hboa) : Prop :=
  Forall2 (fun x v => length x = n /\ f x = Ok v) (h_solutions g) (h_fitnesses g) /\
  Permutation (h_selection g) (seq 0 (length (h_solutions g))).

(** The number of bits where the vectors differ *)
Definition differences (x y : list bool) : nat := length (filter (fun i => xorb (nth i x false) (nth i y false)) (seq 0 (length x))).

(** A value stays the same or becomes greater. *)
Definition grows (v w : dbl) : Prop := v = w \/ dlt v w = true.

(** Whatever solutions are selected, the order of the trees is that of std::sort. *)
Definition sorts_trees (n : nat) (draws : nat -> hboa_draws) : Prop :=
  forall t selected, sorted_order n (build_forest n selected (hd_choices (draws t))) (hd_order (draws t)).
