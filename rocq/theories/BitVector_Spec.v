(** Mathematical vocabulary used in the statements about bit vectors.
    Nothing here refers to the model's functions. *)

From Verif Require Import Base.
From Coq Require Import NArith.

(** The positions at which a vector is 1. *)
Definition ones (x : list bool) : list nat :=
  filter (fun i => nth i x false) (seq 0 (length x)).

(** Number of ones. *)
Definition weight (x : list bool) : nat := length (ones x).

(** The all-zero vector of size [n]. *)
Definition zerov (n : nat) : list bool := repeat false n.

(** The vector of size [n] with a single 1, at position [i]. *)
Definition unitv (n i : nat) : list bool := map (fun j => j =? i) (seq 0 n).

(** Positions where two vectors of size [n] differ. *)
Definition diffs (n : nat) (x y : list bool) : list nat :=
  filter (fun i => xorb (nth i x false) (nth i y false)) (seq 0 n).

(** The number denoted by a vector, least significant bit first. *)
Fixpoint value_lsb (x : list bool) : N :=
  match x with
  | [] => 0
  | b :: t => (if b then 1 else 0) + 2 * value_lsb t
  end%N.
