(** Vocabulary of the statements about MAX-SAT instances. Nothing here refers to the
    model's functions. *)

From Coq Require Import ZArith.
From Verif Require Import Base.

(** A literal is a non null integer: variable number l when l > 0, the negation of
    variable number -l when l < 0. Variable v is component v - 1 of the bit vector. *)
Definition literal_holds (x : list bool) (l : Z) : Prop :=
  ((0 < l)%Z /\ nth_error x (Z.abs_nat l - 1) = Some true) \/
  ((l < 0)%Z /\ nth_error x (Z.abs_nat l - 1) = Some false).

(** A disjunction of literals *)
Definition clause_holds (x : list bool) (c : list Z) : Prop := exists l, In l c /\ literal_holds x l.

(** Some literals are true, some are false. *)
Definition not_all_equal (x : list bool) (c : list Z) : Prop :=
  (exists l, In l c /\ literal_holds x l) /\ (exists l, In l c /\ ~ literal_holds x l).

(** [k] elements of the list satisfy [P]. *)
Inductive counts {A} (P : A -> Prop) : list A -> nat -> Prop :=
| counts_nil : counts P [] 0
| counts_yes a l k : P a -> counts P l k -> counts P (a :: l) (S k)
| counts_no a l k : ~ P a -> counts P l k -> counts P (a :: l) k.

(** A literal on [n] variables *)
Definition literal_of (n : nat) (l : Z) : Prop := l <> 0%Z /\ Z.abs_nat l <= n.

(** A conjunction of clauses on [n] variables *)
Definition expression_of (n : nat) (e : list (list Z)) : Prop := Forall (Forall (literal_of n)) e.

(** A clause on [k] distinct variables out of [n], in order *)
Definition clause_of (n k : nat) (c : list Z) : Prop :=
  length c = k /\ Forall (literal_of n) c /\
  forall i j l m, i < j -> nth_error c i = Some l -> nth_error c j = Some m -> Z.abs_nat l < Z.abs_nat m.

(** The literals of the clause are positive where the coins say so. *)
Definition signs_drawn (coin : nat -> bool) (c : list Z) : Prop :=
  forall t l, nth_error c t = Some l -> ((0 < l)%Z <-> coin t = true).
