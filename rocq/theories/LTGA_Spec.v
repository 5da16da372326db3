(** Vocabulary of the Linkage Tree Genetic Algorithm. *)

From Coq Require Import List Permutation.
From Verif Require Import Base Double Pyramid_Model Pyramid_Spec LTGA_Model.
Import ListNotations.

(** A shuffle is a permutation. *)
Definition shuffles (shuffle : nat -> list (list bool) -> list (list bool)) : Prop := forall t l, Permutation l (shuffle t l).

(** The population is made of pairs of solutions, the first of which is counted and is not
    worse than the second, which is not counted. *)
Definition paired (f : list bool -> outcome dbl) (population : list (list bool * bool)) : Prop :=
  exists pairs, population = concat (map (fun '(a, b) => [(a, true); (b, false)]) pairs) /\
    forall a b, In (a, b) pairs -> exists v w, f a = Ok v /\ f b = Ok w /\ dlt v w = false.

(** What is always true: the solutions have the right size, the values remembered are
    theirs, and they are paired. *)
Definition ltga_sound (n : nat) (f : list bool -> outcome dbl) (g : ltga) : Prop :=
  (forall x, In x (g_solutions g) -> length x = n /\ f x = Ok (g_fitnesses g x)) /\ paired f (g_population g).

(** Two lists have the same elements. *)
Definition same_elements (l m : list (list bool)) : Prop := forall x, In x l <-> In x m.

(** The solution [y] is no worse than the solution [x]. *)
Definition improved (f : list bool -> outcome dbl) (x y : list bool) : Prop :=
  exists v w, f x = Ok v /\ f y = Ok w /\ no_worse v w.
