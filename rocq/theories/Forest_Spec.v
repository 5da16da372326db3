(** Vocabulary of the Bayesian networks of hBOA. *)

From Coq Require Import List Permutation Sorted.
From Verif Require Import Base Forest_Model.
Import ListNotations.

(** The bit [u] is tested somewhere in the tree. *)
Fixpoint tests (t : tree) (u : nat) : Prop :=
  match t with
  | Leaf _ => False
  | Node index zero one => u = index \/ tests zero u \/ tests one u
  end.

(** The bits tested by the tree for the vector [x], and the solutions of the leaf it reaches *)
Fixpoint tested (t : tree) (x : list bool) : list nat :=
  match t with
  | Leaf _ => []
  | Node index zero one => index :: tested (if nth index x false then one else zero) x
  end.
Fixpoint reached (t : tree) (x : list bool) : list (list bool) :=
  match t with
  | Leaf solutions => solutions
  | Node index zero one => reached (if nth index x false then one else zero) x
  end.

(** The vectors [s] and [x] have the same bits at the given places. *)
Definition agree (places : list nat) (x s : list bool) : bool :=
  forallb (fun u => Bool.eqb (nth u s false) (nth u x false)) places.

(** The order of the trees: all of them, by increasing number of trees they depend on *)
Definition sorted_order (n : nat) (fo : forest) (ordering : list nat) : Prop :=
  Permutation ordering (seq 0 n) /\ StronglySorted (fun a b => length (fo_prev fo a) <= length (fo_prev fo b)) ordering.

(** [u] is before [t] in the list. *)
Definition before (u t : nat) (l : list nat) : Prop := exists l1 l2 l3, l = l1 ++ u :: l2 ++ t :: l3.
