(** Vocabulary for statements about histories of calls. *)

From Coq Require Import ZArith.
From Verif Require Import Base BitVector_Model Double Controller_Model.
Local Open Scope nat_scope.

(** A call: state before, request, outcome, state after. *)
Record call (S : Type) := mk_call { before : S; req : request; res : outcome reply; after : S }.
Arguments mk_call {S}.
Arguments before {S}.
Arguments req {S}.
Arguments res {S}.
Arguments after {S}.

(** All the calls of a history. *)
Fixpoint calls {S : Type} (o : fobj S) (s : S) (rs : list request) : list (call S) :=
  match rs with
  | [] => []
  | r :: rs' => let '(s', a) := o s r in mk_call s r a s' :: calls o s' rs'
  end.

(** Calls of evaluate, evaluate_incrementally and update: all but
    evaluate_safely. *)
Definition counts (r : request) : bool := match r with RSafe _ => false | _ => true end.

Definition returned {A : Type} (a : outcome A) : bool := match a with Ok _ => true | _ => false end.

(** Number of such calls which returned normally. *)
Definition completed {S : Type} (l : list (call S)) : nat :=
  length (filter (fun c => counts (req c) && returned (res c)) l).

(** Vectors and values of the evaluations which returned normally, in order. *)
Definition evaluation (r : request) (a : outcome reply) : list (bv * dbl) :=
  match r, a with
  | REval x, Ok (RValue v) => [(x, v)]
  | RInc x _ _, Ok (RValue v) => [(x, v)]
  | RUpdate x v, Ok _ => [(x, v)]
  | _, _ => []
  end.
Definition evaluations {S : Type} (l : list (call S)) : list (bv * dbl) :=
  flat_map (fun c => evaluation (req c) (res c)) l.

(** A function object respects the types of the methods: update returns nothing
    and the others return a value. *)
Definition typed {S : Type} (o : fobj S) : Prop :=
  forall s r p, snd (o s r) = Ok p ->
    match r with RUpdate _ _ => p = RVoid | _ => exists v, p = RValue v end.

(** A function object together with the list of the requests it received. *)
Definition logged {S : Type} (o : fobj S) : fobj (list request * S) := fun '(log, s) r =>
  let '(s', a) := o s r in ((log ++ [r], s'), a).

(** Vectors given to evaluate. *)
Definition evaluated (rs : list request) : list bv :=
  flat_map (fun r => match r with REval x => [x] | _ => [] end) rs.

(** Evaluations of the decorated function which reach the target. *)
Definition reaching {S} (target : dbl) (l : list (call S)) : list (bv * dbl) :=
  filter (fun p => dge (snd p) target) (evaluations l).

(** Evaluation number [k] (from 0), of [x] with value [v], is the first best one.
    Values which are not numbers are ignored. *)
Definition best_record (E : list (bv * dbl)) (k : nat) (x : bv) (v : dbl) : Prop :=
  nth_error E k = Some (x, v) /\
  (forall j y w, nth_error E j = Some (y, w) -> is_nan w = true \/ dle w v = true) /\
  (forall j y w, j < k -> nth_error E j = Some (y, w) -> is_nan w = true \/ dlt w v = true).

(** The outcome of evaluate is given by [f]: it does not depend on the state of
    the object. *)
Definition deterministic {S} (o : fobj S) (f : bv -> outcome dbl) : Prop :=
  forall s x, snd (o s (REval x)) = (v <- f x ;; Ok (RValue v)).

(** All vectors given to evaluate are of size [n]. *)
Definition well_sized (n : nat) (rs : list request) : Prop := forall x, In (REval x) rs -> length x = n.
