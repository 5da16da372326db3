(** Vocabulary of the statements about sudoku. Nothing here refers to the model's
    functions. *)

From Coq Require Import ZArith Ascii Permutation.
From Verif Require Import Base.

Definition grid {A} (b : list (list A)) : Prop := length b = 9 /\ Forall (fun r => length r = 9) b.
Definition cell {A} (d : A) (b : list (list A)) (i j : nat) : A := nth j (nth i b []) d.

(** Rows, columns and blocks *)
Definition rows : list (list (nat * nat)) := map (fun i => map (fun j => (i, j)) (seq 0 9)) (seq 0 9).
Definition columns : list (list (nat * nat)) := map (fun j => map (fun i => (i, j)) (seq 0 9)) (seq 0 9).
Definition blocks : list (list (nat * nat)) :=
  map (fun '(a, b) => map (fun '(i, j) => (3 * a + i, 3 * b + j)) (list_prod (seq 0 3) (seq 0 3)))
    (list_prod (seq 0 3) (seq 0 3)).
Definition units := rows ++ columns ++ blocks.

Definition digits_of (g : nat -> nat -> nat) (u : list (nat * nat)) : list nat := map (fun '(i, j) => g i j) u.

(** Each row, column and block contains the digits from 1 to 9. *)
Definition solved (g : nat -> nat -> nat) : Prop := forall u, In u units -> Permutation (digits_of g u) (seq 1 9).

(** Sum over units and digits of the difference between the number of occurrences of the
    digit in the unit and 1 *)
Definition sumZ (l : list Z) : Z := fold_right Z.add 0%Z l.
Definition unit_defects (l : list nat) : Z :=
  sumZ (map (fun k => Z.abs (Z.of_nat (count_occ Nat.eq_dec l k) - 1)) (seq 1 9)).
Definition defects (g : nat -> nat -> nat) : Z := sumZ (map (fun u => unit_defects (digits_of g u)) units).

(** A problem is a grid of dots and digits. *)
Definition dot : ascii := "."%char.
Definition digit_of (c : ascii) : nat := nat_of_ascii c - 48.
Definition problem (inst : list (list ascii)) : Prop :=
  grid inst /\ forall i j, i < 9 -> j < 9 -> cell dot inst i j = dot \/ 49 <= nat_of_ascii (cell dot inst i j) <= 57.

(** The empty cells in reading order *)
Definition empty_cells (inst : list (list ascii)) : list (nat * nat) :=
  filter (fun '(i, j) => Ascii.eqb (cell dot inst i j) dot) (list_prod (seq 0 9) (seq 0 9)).

(** [g] is the problem in which the empty cells have been filled with the digits x + 1. *)
Definition completes (inst : list (list ascii)) (x : list nat) (g : nat -> nat -> nat) : Prop :=
  (forall i j, i < 9 -> j < 9 -> cell dot inst i j <> dot -> g i j = digit_of (cell dot inst i j)) /\
  map (fun '(i, j) => g i j) (empty_cells inst) = map (fun v => v + 1) x.
