(** Vocabulary of the scores of hBOA. *)

From Coq Require Import List.
From Verif Require Import Base Fraction_Model.
Import ListNotations.
Local Open Scope nat_scope.

(** The product of the numbers from [k], each of them to the power in the list; 0 and 1 do
    not count. *)
Fixpoint powers (k : nat) (l : list nat) : nat :=
  match l with
  | [] => 1
  | c :: l => (if k <? 2 then 1 else k ^ c) * powers (S k) l
  end.

(** The fraction stands for a / b. *)
Definition stands_for (fr : fraction) (a b : nat) : Prop :=
  length (fr_upper fr) = length (fr_lower fr) /\ powers 0 (fr_upper fr) = a /\ powers 0 (fr_lower fr) = b.

(** How many turns a conversion takes, at most *)
Definition turns (fr : fraction) : nat :=
  length (fr_upper fr) + length (fr_lower fr) + list_sum (fr_upper fr) + list_sum (fr_lower fr) + 1.
