(** What it means that an algorithm gives back the best vector it has evaluated. *)

From Coq Require Import ZArith NArith.
From Verif Require Import Base BitVector_Model BitVector_Spec Double Controller_Model Controller_Spec Decorator_Model Application_Model.
Local Open Scope nat_scope.

(** [hears A E st]: after the beginning of maximize, the algorithm is in the state [st] and
    the answers to its calls of evaluate are [E], vectors with their values. *)
Inductive hears (A : machine) : list (bv * dbl) -> ma_state A -> Prop :=
| hears_begin : hears A [] (ma_begin A (ma_init A))
| hears_silent E st : hears A E st -> ma_next A st = MSilent -> hears A E (ma_after A st (Ok RVoid))
| hears_value E st x v : hears A E st -> ma_next A st = MCall (REval x) -> hears A (E ++ [(x, v)]) (ma_after A st (Ok (RValue v)))
| hears_exception E st q e : hears A E st -> ma_next A st = MCall q -> hears A E (ma_after A st (Throw e)).

(** The solution is the first best vector whose value is known, if the values are numbers. *)
Definition keeps_best (A : machine) : Prop := forall E st, hears A E st -> E <> [] ->
  Forall (fun p => is_nan (snd p) = false) E ->
  exists k, best_record E k (fst (ma_solution A (ma_finalize A st))) (snd (ma_solution A (ma_finalize A st))).

(** Vectors with their values *)
Definition valued (f : bv -> dbl) (xs : list bv) : list (bv * dbl) := map (fun x => (x, f x)) xs.

(** The values of vectors of size [n] are numbers. *)
Definition numbers (n : nat) (f : bv -> dbl) : Prop := forall x, length x = n -> is_nan (f x) = false.

(** The vectors of size [i] in the order of the numbers of which they are the binary
    writing, the first bit being the lowest. *)
Definition counting_order (i : nat) (L : list bv) : Prop :=
  NoDup L /\ (forall x, In x L <-> length x = i) /\ (forall k, k < 2 ^ i -> value_lsb (nth k L []) = N.of_nat k).

(** The number of evaluations which the budget allows, among [total]; a budget which is not
    positive is no budget. *)
Definition allowed (co : controller_options) (total : nat) : nat :=
  if (0 <? co_budget co)%Z then Nat.min (Z.to_nat (co_budget co)) total else total.

(** How the search in the order [L] ends, when [b] evaluations are allowed.  [missed]: no
    value reaches the target, and the result is the first best vector.  [reached]: it is the
    first vector which reaches the target, the last one to be evaluated. *)
Inductive search_ends (f : bv -> dbl) (target : option dbl) (L : list bv) (b : nat) : results -> bv -> bool -> Prop :=
| missed r k x : (forall t y, target = Some t -> In y (firstn b L) -> dge (f y) t = false) ->
    best_record (valued f (firstn b L)) k x (f x) ->
    rs_value r = Some (f x) -> rs_num r = k + 1 -> rs_total r = b -> search_ends f target L b r x false
| reached r t k x : target = Some t -> k < b -> nth_error L k = Some x -> dge (f x) t = true ->
    (forall y, In y (firstn k L) -> dge (f y) t = false) ->
    rs_value r = Some (f x) -> rs_num r = k + 1 -> rs_total r = k + 1 -> search_ends f target L b r x true.

(** The vectors of size [i] which are drawn, [bits j] giving the bits of the vector number
    [j]: the [m] first ones. *)
Definition drawn_vectors (bits : nat -> nat -> bool) (i m : nat) : list bv := map (fun j => map (bits j) (seq 0 i)) (seq 0 m).
