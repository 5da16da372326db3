(** Vocabulary of the statements about the functions over categories and permutations made by
    the application.  Nothing here refers to the model's functions. *)

From Coq Require Import ZArith NArith String Ascii Permutation Sorted.
From Verif Require Import Base BitVector_Spec Text_Model Double Representation_Spec Collection_Spec Sudoku_Spec.
Local Open Scope list_scope.
Local Open Scope nat_scope.

(** The first nine lines of the text begin with the rows of the problem. *)
Definition written (text : string) (inst : list (list ascii)) : Prop :=
  problem inst /\ forall i j, i < 9 -> j < 9 -> String.get j (nth i (split_lines text) ""%string) = Some (cell dot inst i j).

(** The bits of a cell: 4 for the integer representation, 15 for the linear one. *)
Definition cell_bits (kind : Z) : nat := if (kind =? 0)%Z then 4 else 15.

(** The category read from the bits of a cell: their value modulo 9, or the exclusive or of the
    positions, from 1, of the ones, modulo 9. *)
Definition category (kind : Z) (p : list bool) : nat :=
  N.to_nat ((if (kind =? 0)%Z then value_lsb p else xor_indices p) mod 9).

(** The categories of the empty cells, in reading order *)
Definition filling (kind : Z) (inst : list (list ascii)) (x : list bool) : list nat :=
  map (fun k => category kind (slice x (k * cell_bits kind) (cell_bits kind))) (seq 0 (List.length (empty_cells inst))).

(** The empty cells of the problem can be filled so that the grid is solved. *)
Definition solvable (inst : list (list ascii)) : Prop :=
  exists g, solved g /\ forall i j, i < 9 -> j < 9 -> cell dot inst i j <> dot -> g i j = digit_of (cell dot inst i j).

(** An integer, in units of 2^-1074 *)
Definition integer (z : Z) : dbl := DFin (z * 2 ^ 1074).

(** * Traveling salesman *)

(** The key of the city [i], on [w] bits, the lowest first *)
Definition key (w : nat) (x : list bool) (i : nat) : N := value_lsb (slice x (i * w) w).

(** A tour of [n] cities in the order of their keys *)
Definition tour_by_keys (n w : nat) (x : list bool) (p : list nat) : Prop :=
  Permutation p (seq 0 n) /\ StronglySorted (fun i j => (key w x i <= key w x j)%N) p.

Definition distinct_keys (n w : nat) (x : list bool) : Prop := forall i j, i < n -> j < n -> key w x i = key w x j -> i = j.

(** The length of the shortest tours *)
Definition shortest (n : nat) (d : list (list Z)) (l : Z) : Prop :=
  (exists p, Permutation p (seq 0 n) /\ tour_length d p = l) /\ forall p, Permutation p (seq 0 n) -> (l <= tour_length d p)%Z.
