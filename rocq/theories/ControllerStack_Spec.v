(** Vocabulary about the controllers put around a function by the application. *)

From Coq Require Import ZArith.
From Verif Require Import Base BitVector_Model Double Controller_Model Controller_Spec Decorator_Model.
Local Open Scope nat_scope.

(** The first list is the second one with some elements removed. *)
Inductive subsequence {A} : list A -> list A -> Prop :=
| sub_nil : subsequence [] []
| sub_keep a l k : subsequence l k -> subsequence (a :: l) (a :: k)
| sub_skip a l k : subsequence l k -> subsequence l (a :: k).

(** The budget of the controllers, if any *)
Definition budget_of (m : middle) : option Z :=
  match m with
  | MidNone | MidCache => None
  | MidBudget b | MidBudgetOfCache b | MidCacheOfBudget b => Some b
  end.

(** The state reached after the requests [rs], the function being [o] *)
Definition controlled {S} (m : middle) (target : option dbl) (n : nat) (o : fobj S) (s : S) (rs : list request) :=
  run (controlled_obj m target (logged o)) (controlled_init m n ([], s)) rs.

Section Observers.
  Context {S : Type} {m : middle} (st : option (bv * dbl) * middle_state m (improvement * (nat * (list request * S)))).
  (** What the tracker reports, and what the function has received *)
  Definition reported : improvement := fst (middle_inner m (snd st)).
  Definition reported_total : nat := fst (snd (middle_inner m (snd st))).
  Definition received : list request := fst (snd (snd (middle_inner m (snd st)))).
End Observers.

(** The different elements of a list, in the order of their first occurrences *)
Definition first_occurrences (xs : list bv) : list bv :=
  fold_left (fun acc x => if in_dec bv_eq_dec x acc then acc else acc ++ [x]) xs [].

(** From the state [s], evaluate always gives [f], for vectors of size [n]. *)
Definition total {S} (o : fobj S) (s : S) (n : nat) (f : bv -> dbl) : Prop :=
  forall xs, Forall (fun x => length x = n) xs -> map res (calls o s (map REval xs)) = map (fun x => Ok (RValue (f x))) xs.

(** A result seen through the target *)
Definition seen_through (target : option dbl) (a : outcome reply) : outcome reply :=
  match target, a with
  | Some t, Ok (RValue v) => if dge v t then Throw TargetReached else a
  | _, _ => a
  end.

Definition has_cache (m : middle) : bool :=
  match m with MidCache | MidBudgetOfCache _ | MidCacheOfBudget _ => true | _ => false end.

(** Requests made by a population evaluated in parallel *)
Definition parallel (r : request) : Prop := match r with RSafe _ | RUpdate _ _ => True | _ => False end.

(** The result of evaluate number [j] (from 0), for [x], when only evaluate is called, for
    the vectors [xs] in order: with a cache inside the budget, or without cache, each call
    counts; with a cache outside, a call counts if it is the first one for its vector, and
    only the first vectors have a value. *)
Definition sequential_result (m : middle) (f : bv -> dbl) (xs : list bv) (j : nat) (x : bv) : outcome reply :=
  match m with
  | MidNone | MidCache => Ok (RValue (f x))
  | MidBudget b | MidBudgetOfCache b => if (Z.of_nat j <? b)%Z then Ok (RValue (f x)) else Throw LastEvaluation
  | MidCacheOfBudget b =>
      let seen := first_occurrences (firstn j xs) in
      if (Z.of_nat (length seen) <? b)%Z || (if in_dec bv_eq_dec x (firstn (Z.to_nat b) seen) then true else false)
      then Ok (RValue (f x)) else Throw LastEvaluation
  end.

