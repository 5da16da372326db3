(** Model of the complete search and of the random search as the application runs them,
    with values of type double: lib/hnco/algorithms/complete-search.cc and
    random-search.cc, with algorithm.cc and iterative-algorithm.cc. *)

From Coq Require Import ZArith.
From Verif Require Import Base BitVector_Model Iterator_Model Double Controller_Model Application_Model.
Local Open Scope nat_scope.

(** algorithm.cc:52-59 *)
Definition update_pair (x : bv) (v : dbl) (sol : bv * dbl) : bv * dbl := if dgt v (snd sol) then (x, v) else sol.

(** The iterator, the solution, and whether the solution has not been set yet *)
Record complete_state := mk_complete { co_iterator : hc_state; co_solution : bv * dbl; co_first : bool }.

(** complete-search.cc:30-44 and algorithm.cc:44-50 and 68-74: the next vector is evaluated,
    then it is the solution (line 40) or it updates it (line 43).  The size is that of the
    solution (algorithm.hh:152). *)
Definition complete_search_machine (n : nat) : machine :=
  mk_machine complete_state
    (mk_complete (hc_make n) (repeat false n, DFin 0) true)
    (fun st => mk_complete (hc_make (length (fst (co_solution st)))) (co_solution st) true)
    (fun st =>
       if hc_has_next (co_iterator st) then
         match hc_next (co_iterator st) with Ok (x, _) => MCall (REval x) | Throw e => MThrow e | UB => MUndefined end
       else if co_first st then MThrow RuntimeError else MReturn)
    (fun st a =>
       match hc_next (co_iterator st), a with
       | Ok (x, it), Ok (RValue v) =>
           mk_complete it (if co_first st then (x, v) else update_pair x v (co_solution st)) false
       | Ok (x, it), _ => mk_complete it (co_solution st) (co_first st)
       | _, _ => st
       end)
    (fun st => st)
    co_solution.

(** The number of calls of bv_random, that of evaluations in the run of maximize, the
    solution and the candidate.  [num] is the number of iterations and [bits k] the bits of
    the call number k of bv_random.  random-search.cc:27-41, iterative-algorithm.cc:27-57 and
    algorithm.cc:28-35: random_solution overwrites the vector of the solution before its
    evaluation. *)
Record random_state := mk_random { rn_draws : nat; rn_calls : nat; rn_solution : bv * dbl; rn_candidate : bv }.
Definition random_search_machine (n : nat) (num : Z) (bits : nat -> nat -> bool) : machine :=
  mk_machine random_state
    (mk_random 0 0 (repeat false n, DFin 0) (repeat false n))
    (fun st =>
       mk_random (rn_draws st + 1) 0 (bv_random (fst (rn_solution st)) (bits (rn_draws st)), snd (rn_solution st)) (rn_candidate st))
    (fun st =>
       if rn_calls st =? 0 then MCall (REval (fst (rn_solution st)))
       else if ((0 <? num) && (num <=? Z.of_nat (rn_calls st - 1)))%Z then MReturn
       else MCall (REval (bv_random (rn_candidate st) (bits (rn_draws st)))))
    (fun st a =>
       match a with
       | Ok (RValue v) =>
           if rn_calls st =? 0 then mk_random (rn_draws st) 1 (fst (rn_solution st), v) (rn_candidate st)
           else
             let x := bv_random (rn_candidate st) (bits (rn_draws st)) in
             mk_random (rn_draws st + 1) (rn_calls st + 1) (update_pair x v (rn_solution st)) x
       | _ =>
           if rn_calls st =? 0 then st
           else mk_random (rn_draws st + 1) (rn_calls st) (rn_solution st) (bv_random (rn_candidate st) (bits (rn_draws st)))
       end)
    (fun st => st)
    rn_solution.

(** Constructors, algorithm.hh:113-118 *)
Definition make_complete_search (n : nat) : outcome machine :=
  _ <- ensureb (0 <? n) ;; Ok (complete_search_machine n).
Definition make_random_search (num : Z) (bits : nat -> nat -> bool) (n : nat) : outcome machine :=
  _ <- ensureb (0 <? n) ;; Ok (random_search_machine n num bits).
