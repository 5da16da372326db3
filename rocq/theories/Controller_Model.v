(** Model of function objects and controllers:
    lib/hnco/functions/function.hh, decorator.hh,
    lib/hnco/functions/controllers/controller.{hh,cc}.

    A function object is a state machine: a request (a call of one of its four
    evaluation methods) changes its state and gives a reply or an exception.
    Counters of type int are natural numbers (no overflow). *)

From Coq Require Import ZArith.
From Verif Require Import Base BitVector_Model Double.
Local Open Scope nat_scope.

(** Calls of Function::evaluate, evaluate_incrementally, update and
    evaluate_safely, function.hh:85-111 *)
Inductive request : Type :=
| REval (x : bv)
| RInc (x : bv) (value : dbl) (flipped : list nat)
| RUpdate (x : bv) (value : dbl)
| RSafe (x : bv).

(** update returns nothing *)
Inductive reply : Type := RValue (v : dbl) | RVoid.

Definition fobj (S : Type) : Type := S -> request -> S * outcome reply.

(** Sequence of calls on the same object.  A call which throws leaves the object
    usable: the history goes on. *)
Fixpoint run {S : Type} (o : fobj S) (s : S) (rs : list request) : S :=
  match rs with
  | [] => s
  | r :: rs' => run o (fst (o s r)) rs'
  end.

(** function.hh:74-111: an ordinary function which implements evaluate only, given
    by [f] *)
Definition plain (f : bv -> outcome dbl) : fobj unit := fun s r =>
  match r with
  | REval x | RSafe x => (tt, v <- f x ;; Ok (RValue v))
  | RInc _ _ _ => (tt, Throw RuntimeError)
  | RUpdate _ _ => (tt, Ok RVoid)
  end.

(** A function which implements evaluate_incrementally too. *)
Definition plain_inc (f : bv -> outcome dbl) (inc : bv -> dbl -> list nat -> outcome dbl) : fobj unit := fun s r =>
  match r with
  | REval x | RSafe x => (tt, v <- f x ;; Ok (RValue v))
  | RInc x v l => (tt, v <- inc x v l ;; Ok (RValue v))
  | RUpdate _ _ => (tt, Ok RVoid)
  end.

Section Controllers.
Context {S : Type} (o : fobj S).

(** ** StopOnTarget, controller.cc:30-63; evaluate_safely is that of Controller,
    controller.hh:78.  The member _trigger is None before the first trigger. *)
Definition stop_on_target (target : dbl) : fobj (option (bv * dbl) * S) := fun '(tr, s) r =>
  let '(s', a) := o s r in
  match r, a with
  | REval x, Ok (RValue v) =>
      if dge v target then ((Some (x, v), s'), Throw TargetReached) else ((tr, s'), a)
  | RInc x _ _, Ok (RValue v) =>
      if dge v target then ((Some (x, v), s'), Throw TargetReached) else ((tr, s'), a)
  | RUpdate x v, Ok _ =>
      if dge v target then ((Some (x, v), s'), Throw TargetReached) else ((tr, s'), a)
  | _, _ => ((tr, s'), a)
  end.

(** ** CallCounter, controller.cc:65-86 *)
Definition call_counter : fobj (nat * S) := fun '(n, s) r =>
  let '(s', a) := o s r in
  match r, a with
  | RSafe _, _ => ((n, s'), a)
  | _, Ok _ => ((n + 1, s'), a)
  | _, _ => ((n, s'), a)
  end.

(** ** OnBudgetFunction, controller.cc:88-110 *)
Definition on_budget (budget : Z) : fobj (nat * S) := fun '(n, s) r =>
  match r with
  | RSafe _ => call_counter (n, s) r
  | _ => if (Z.of_nat n =? budget)%Z then ((n, s), Throw LastEvaluation) else call_counter (n, s) r
  end.
End Controllers.

(** ** ProgressTracker, controller.cc:112-163.  The number and the value of the
    last improvement, and its bit vector, which is meaningful only when
    [record] (_record_bit_vector) is set.  The value is not initialised by the
    constructor (None).  Times and logs are not modelled. *)
Record improvement := mk_improvement {
  imp_num : nat;
  imp_bv : bv;
  imp_value : option dbl }.

(** controller.hh:294-301 *)
Definition tracker_make (n : nat) : improvement := mk_improvement 0 (repeat false n) None.

(** controller.cc:153-163 *)
Definition update_details (record : bool) (num_calls : nat) (x : bv) (v : dbl) (i : improvement) : improvement :=
  mk_improvement num_calls (if record then x else imp_bv i) (Some v).

(** controller.cc:142-151 *)
Definition update_last_improvement (record : bool) (num_calls : nat) (x : bv) (v : dbl) (i : improvement) : outcome improvement :=
  if num_calls =? 1 then Ok (update_details record num_calls x v i)
  else match imp_value i with
  | None => UB
  | Some best =>
      if dgt v best then
        _ <- assertb (1 <? num_calls) ;; Ok (update_details record num_calls x v i)
      else Ok i
  end.

Definition progress_tracker {S : Type} (o : fobj S) (record : bool) : fobj (improvement * (nat * S)) := fun '(i, st) r =>
  let '(st', a) := call_counter o st r in
  match r, a with
  | REval x, Ok (RValue v) | RInc x _ _, Ok (RValue v) =>
      match update_last_improvement record (fst st') x v i with
      | Ok i' => ((i', st'), a)
      | _ => ((i, st'), UB)
      end
  | RUpdate x v, Ok _ =>
      match update_last_improvement record (fst st') x v i with
      | Ok i' => ((i', st'), a)
      | _ => ((i, st'), UB)
      end
  | _, _ => ((i, st'), a)
  end.

(** ** Cache, controller.hh:369-414, controller.cc:171-191.  The unordered map is an
    association list; [cache_size] is the size of _key. *)
Record cache_state := mk_cache {
  cache_size : nat;
  cache_map : list (bv * dbl);
  cache_evaluations : nat;
  cache_lookups : nat }.

(** controller.hh:389-393 *)
Definition cache_make (n : nat) : cache_state := mk_cache n [] 0 0.

Definition bv_eq_dec : forall x y : bv, {x = y} + {x <> y} := list_eq_dec Bool.bool_dec.

Fixpoint cache_find (m : list (bv * dbl)) (x : bv) : option dbl :=
  match m with
  | [] => None
  | (y, v) :: m' => if bv_eq_dec x y then Some v else cache_find m' x
  end.

(** evaluate_incrementally and update are those of Function
    (function.hh:91-95, 111); evaluate_safely is that of Controller. *)
Definition cache {S : Type} (o : fobj S) : fobj (cache_state * S) := fun '(c, s) r =>
  match r with
  | REval x =>
      if length x =? cache_size c then
        let n := cache_evaluations c + 1 in
        match cache_find (cache_map c) x with
        | None =>
            let '(s', a) := o s (REval x) in
            match a with
            | Ok (RValue v) =>
                ((mk_cache (cache_size c) ((x, v) :: cache_map c) n (cache_lookups c), s'), a)
            | _ => ((mk_cache (cache_size c) (cache_map c) n (cache_lookups c), s'), a)
            end
        | Some v =>
            ((mk_cache (cache_size c) (cache_map c) n (cache_lookups c + 1), s), Ok (RValue v))
        end
      else ((c, s), UB)
  | RSafe x => let '(s', a) := o s r in ((c, s'), a)
  | RInc _ _ _ => ((c, s), Throw RuntimeError)
  | RUpdate _ _ => ((c, s), Ok RVoid)
  end.

(** controller.hh:412 *)
Definition lookup_ratio (c : cache_state) : nat * nat := (cache_lookups c, cache_evaluations c).
