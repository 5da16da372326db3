(** Vocabulary for the statements about Pareto dominance and fronts. *)

From Coq Require Import ZArith Permutation.
From Verif Require Import Base.
Local Open Scope nat_scope.

(** No worse everywhere and better somewhere, for minimization. *)
Definition pareto_better (a b : list Z) : Prop :=
  (forall i, i < length a -> (nth i a 0 <= nth i b 0)%Z) /\
  (exists i, i < length a /\ (nth i a 0 < nth i b 0)%Z).

(** Values of a population: vectors of a common size. *)
Definition same_sizes (m : nat) (values : list (list Z)) : Prop := Forall (fun v => length v = m) values.

(** Peeling: [peeled k i] holds when individual [i] is in one of the fronts 0 ... k-1,
    front k being the individuals that no individual outside the fronts 0 ... k-1
    dominates. *)
Fixpoint peeled (values : list (list Z)) (k i : nat) : Prop :=
  match k with
  | 0 => False
  | S k' =>
      peeled values k' i \/
      forall j, j < length values -> ~ peeled values k' j -> ~ pareto_better (nth j values []) (nth i values [])
  end.

(** Individual [i] belongs to front [k]. *)
Definition in_front (values : list (list Z)) (k i : nat) : Prop := ~ peeled values k i /\ peeled values (S k) i.

(** A visit of a set, whatever its order, meets each element once. *)
Definition visits (ord : nat -> nat -> list nat -> list nat) : Prop := forall front k l, Permutation l (ord front k l).
