(** Properties of controllers: C27-C31, C57. *)

From Coq Require Import ZArith.
From Verif Require Import Base BitVector_Model BitVector_Spec Double Function_Spec
  Controller_Model Controller_Spec Controller_Proofs.
Local Open Scope nat_scope.

(** The function of the examples: the number of ones. *)
Definition count_ones : bv -> outcome dbl := fun x => Ok (DFin (Z.of_nat (weight x))).
Definition xs : list bv := [[true; false]; [true; true]; [false; false]; [true; true]].

(** ** C27: budget controller.  At every call of every history, with [done] the
    number of counted calls (all but evaluate_safely) which have returned so far:
    the counter is [done], at most [b]; once it is [b] counted calls raise
    LastEvaluation and change nothing; before, the call is that of the decorated
    function. *)
Theorem C27_budget {S} (o : fobj S) (b : nat) s rs k c :
  nth_error (calls (on_budget o (Z.of_nat b)) (0, s) rs) k = Some c ->
  let done := completed (firstn k (calls (on_budget o (Z.of_nat b)) (0, s) rs)) in
  done <= b /\ fst (before c) = done /\
  (counts (req c) = true -> done = b -> res c = Throw LastEvaluation /\ after c = before c) /\
  (counts (req c) = false \/ done < b ->
     (snd (after c), res c) = o (snd (before c)) (req c) /\
     fst (after c) = fst (before c) + (if counts (req c) && returned (res c) then 1 else 0)).
Proof. exact (on_budget_spec o b s rs k c). Qed.
Print Assumptions C27_budget.

(** In any history at most [b] counted calls return, and the decorated function
    has received a part of the requests of which at most [b] counted ones
    returned. *)
Theorem C27_budget_total {S} (o : fobj S) (b : nat) s rs :
  completed (calls (on_budget o (Z.of_nat b)) (0, s) rs) <= b /\
  exists inner, snd (run (on_budget o (Z.of_nat b)) (0, s) rs) = run o s inner /\
    incl inner rs /\ completed (calls o s inner) <= b.
Proof. exact (conj (on_budget_total o b s rs) (on_budget_inner o b s rs)). Qed.
Print Assumptions C27_budget_total.

(** A negative budget is no limit at all. *)
Theorem C27_negative_budget {S} (o : fobj S) b s rs : (b < 0)%Z ->
  map res (calls (on_budget o b) (0, s) rs) = map res (calls o s rs) /\
  snd (run (on_budget o b) (0, s) rs) = run o s rs.
Proof. exact (on_budget_negative o b s rs). Qed.
Print Assumptions C27_negative_budget.

Example C27_case : map res (calls (on_budget (plain count_ones) 2) (0, tt) (map REval xs)) =
  [Ok (RValue (DFin 1)); Ok (RValue (DFin 2)); Throw LastEvaluation; Throw LastEvaluation].
Proof. reflexivity. Qed.

(** ** C28: the counter is the number of counted calls which returned, and the
    controller forwards everything. *)
Theorem C28_call_counter {S} (o : fobj S) s rs :
  fst (run (call_counter o) (0, s) rs) = completed (calls (call_counter o) (0, s) rs) /\
  snd (run (call_counter o) (0, s) rs) = run o s rs /\
  map res (calls (call_counter o) (0, s) rs) = map res (calls o s rs).
Proof. exact (call_counter_counts o s 0 rs). Qed.
Print Assumptions C28_call_counter.

Example C28_case : fst (run (call_counter (plain count_ones)) (0, tt)
  [REval [true]; RSafe [true]; RInc [true] DNaN []; RUpdate [true] DNaN]) = 2.
Proof. reflexivity. Qed.

(** ** C29: at every call of every history, TargetReached is raised by the
    controller exactly when the call is an evaluation (or an update) whose value
    is at least the target; that vector and value are then the trigger, and the
    call is that of the decorated function otherwise. *)
Theorem C29_stop_on_target {S} (o : fobj S) target tr s rs k c :
  nth_error (calls (stop_on_target o target) (tr, s) rs) k = Some c ->
  let inner := o (snd (before c)) (req c) in
  snd (after c) = fst inner /\
  match evaluation (req c) (snd inner) with
  | [(x, v)] =>
      if dge v target then res c = Throw TargetReached /\ fst (after c) = Some (x, v)
      else res c = snd inner /\ fst (after c) = fst (before c)
  | _ => res c = snd inner /\ fst (after c) = fst (before c)
  end.
Proof. exact (stop_on_target_spec o target tr s rs k c). Qed.
Print Assumptions C29_stop_on_target.

(** After any history the trigger is the last evaluation which reached the
    target, if any. *)
Theorem C29_trigger {S} (o : fobj S) target s rs :
  fst (run (stop_on_target o target) (None, s) rs) =
    match rev (reaching target (calls o s rs)) with [] => None | p :: _ => Some p end.
Proof. exact (proj2 (stop_on_target_trigger o target s rs)). Qed.
Print Assumptions C29_trigger.

(** When only evaluate is called on a deterministic function, the trigger is a
    vector given to evaluate, its value by the function, and the value is at least
    the target. *)
Theorem C29_trigger_value {S} (o : fobj S) f target s xs x v : deterministic o f ->
  fst (run (stop_on_target o target) (None, s) (map REval xs)) = Some (x, v) ->
  In x xs /\ f x = Ok v /\ dge v target = true.
Proof. exact (stop_on_target_value o f target s xs x v). Qed.
Print Assumptions C29_trigger_value.

(** With the maximum of the function as the target (StopOnMaximum), the trigger is
    a maximizer. *)
Theorem C29_stop_on_maximum {S} (o : fobj S) (f : bv -> Z) maximum s xs x v :
  deterministic o (fun x => Ok (DFin (f x))) ->
  (forall y, (f y <= maximum)%Z) ->
  fst (run (stop_on_target o (DFin maximum)) (None, s) (map REval xs)) = Some (x, v) ->
  v = DFin maximum /\ f x = maximum.
Proof. exact (stop_on_maximum o f maximum s xs x v). Qed.
Print Assumptions C29_stop_on_maximum.

Example C29_case : fst (run (stop_on_target (plain count_ones) (DFin 2)) (None, tt) (map REval xs)) = Some ([true; true], DFin 2).
Proof. reflexivity. Qed.
Example C29_case_nan : map res (calls (stop_on_target (plain count_ones) DNaN) (None, tt) [REval [true]]) = [Ok (RValue (DFin 1))].
Proof. reflexivity. Qed.

(** ** C30: the record after any history [E] of evaluations: the first best one;
    if the first value is not a number, the record stays there. *)
Theorem C30_progress_tracker {S} (o : fobj S) record size s rs : typed o ->
  let E := evaluations (calls o s rs) in
  let st := run (progress_tracker o record) (tracker_make size, (0, s)) rs in
  fst (snd st) = length E /\
  match E with
  | [] => fst st = tracker_make size
  | (x0, v0) :: _ =>
      exists k x v, imp_num (fst st) = k + 1 /\ imp_value (fst st) = Some v /\
      imp_bv (fst st) = (if record then x else repeat false size) /\
      (if is_nan v0 then k = 0 /\ x = x0 /\ v = v0 else is_nan v = false /\ best_record E k x v)
  end.
Proof. exact (tracker_spec o record size s rs). Qed.
Print Assumptions C30_progress_tracker.

(** The tracker forwards everything; in particular it adds no failure. *)
Theorem C30_transparent {S} (o : fobj S) record size s rs : typed o ->
  map res (calls (progress_tracker o record) (tracker_make size, (0, s)) rs) = map res (calls o s rs) /\
  snd (snd (run (progress_tracker o record) (tracker_make size, (0, s)) rs)) = run o s rs.
Proof. exact (tracker_transparent o record size s rs). Qed.
Print Assumptions C30_transparent.

Example C30_case_typed : typed (plain count_ones).
Proof. intros [] [x|x v l|x v|x] p; cbn; intros [= <-]; eauto. Qed.
Example C30_case : fst (run (progress_tracker (plain count_ones) true) (tracker_make 2, (0, tt)) (map REval xs)) =
  mk_improvement 2 [true; true] (Some (DFin 2)).
Proof. reflexivity. Qed.

(** ** C31: every evaluation through the cache has the outcome given by the
    function; the function receives exactly the vectors given to the cache, each
    once if it does not fail on them; the lookup ratio is the number of hits over
    the number of calls. *)
Theorem C31_cache {S} (o : fobj S) n f s rs : deterministic o f -> well_sized n rs ->
  let st := run (cache (logged o)) (cache_make n, ([], s)) rs in
  let asked := evaluated rs in
  let sent := evaluated (fst (snd st)) in
  (forall k cl x, nth_error (calls (cache (logged o)) (cache_make n, ([], s)) rs) k = Some cl -> req cl = REval x ->
     res cl = (v <- f x ;; Ok (RValue v))) /\
  (forall x, In x sent <-> In x asked) /\
  ((forall x, In x asked -> exists v, f x = Ok v) -> NoDup sent) /\
  lookup_ratio (fst st) = (length asked - length sent, length asked).
Proof. exact (cache_spec o n f s rs). Qed.
Print Assumptions C31_cache.

Example C31_case : deterministic (plain count_ones) count_ones /\ well_sized 2 (map REval xs).
Proof. split; [intros s x; reflexivity|]. intros x. unfold xs. cbn. intros H; repeat (destruct H as [H|H]; [injection H as <-; reflexivity|]); destruct H. Qed.
Example C31_case_values : lookup_ratio (fst (run (cache (logged (plain count_ones))) (cache_make 2, ([], tt)) (map REval xs))) = (1, 4).
Proof. reflexivity. Qed.

(** ** C57: an incremental evaluation which reaches the target pairs, in the
    trigger, the vector before the flips with the value after them; the progress
    tracker does the same when it records an improvement. *)
Theorem C57_incremental_trigger {S} (o : fobj S) (f : bv -> dbl) target tr s x flipped :
  snd (o s (RInc x (f x) flipped)) = Ok (RValue (f (flipped_at x flipped))) ->
  dge (f (flipped_at x flipped)) target = true ->
  fst (fst (stop_on_target o target (tr, s) (RInc x (f x) flipped))) = Some (x, f (flipped_at x flipped)).
Proof. exact (incremental_trigger o f target tr s x flipped). Qed.
Print Assumptions C57_incremental_trigger.

Theorem C57_incremental_record {S} (o : fobj S) (f : bv -> dbl) n s x flipped b :
  snd (o s (RInc x (f x) flipped)) = Ok (RValue (f (flipped_at x flipped))) ->
  0 < n -> imp_value b = Some (f x) ->
  dlt (f x) (f (flipped_at x flipped)) = true ->
  fst (fst (progress_tracker o true (b, (n, s)) (RInc x (f x) flipped))) =
    mk_improvement (n + 1) x (Some (f (flipped_at x flipped))).
Proof. exact (incremental_record o f n s x flipped b). Qed.
Print Assumptions C57_incremental_record.

(** So the reported solution of a successful incremental search need not reach the
    target: the number of ones, all ones but the first, flipping the first. *)
Theorem C57_reported_vector_misses_target n : 0 < n ->
  let f x := DFin (Z.of_nat (weight x)) in
  let o := plain_inc (fun x => Ok (f x)) (fun x _ l => Ok (f (flipped_at x l))) in
  let target := DFin (Z.of_nat n) in
  exists x v, length x = n /\
  fst (run (stop_on_target o target) (None, tt) [REval x; RInc x (f x) [0]]) = Some (x, v) /\
  dge v target = true /\ f x <> v /\ dge (f x) target = false.
Proof. exact (reported_vector_misses_target n). Qed.
Print Assumptions C57_reported_vector_misses_target.
