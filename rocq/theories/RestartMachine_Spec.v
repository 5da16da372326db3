(** Vocabulary of the statements about algorithms which are restarted. *)

From Coq Require Import ZArith.
From Verif Require Import Base BitVector_Model Map_Model Neighborhood_Model Double Controller_Model Decorator_Model
  Application_Model Application_Spec Search_Spec Algorithm_Model Algorithm_Spec AlgorithmMachine_Model AlgorithmMachine_Spec.
Local Open Scope nat_scope.

(** The algorithm at the beginning of a run: what its previous runs have left, nothing
    being evaluated yet. *)
Definition afresh {X} (s : alg X) : alg X := mk_alg [] (a_sol s) (a_last s) (a_mem s).

(** Complete runs, one after the other, on a function with the values [g]: for every one of
    them, the vectors it has evaluated, and its solution with its value. *)
Inductive complete_runs {X} (run : nat -> objective -> act (alg X) unit) (fin : alg X -> alg X) (g : bv -> Z) (s : alg X) :
  list (list bv * (bv * Z)) -> alg X -> Prop :=
| no_run : complete_runs run fin g s [] s
| one_more_run l s1 s2 : complete_runs run fin g s l s1 -> run (length l) (endless g) (afresh s1) = (Ret tt, s2) ->
    complete_runs run fin g s (l ++ [(a_trace s2, a_sol (fin s2))]) (fin s2).

(** The vectors of complete runs *)
Definition past (l : list (list bv * (bv * Z))) : list bv := concat (map fst l).

(** [x] is the solution kept by restarts, given the solutions of the complete runs: the
    first of the best ones or, if there is none, the vector without ones. *)
Definition kept (n : nat) (l : list (list bv * (bv * Z))) (x : bv) : Prop :=
  (l = [] /\ x = repeat false n) \/
  exists l1 T v l2, l = l1 ++ (T, (x, v)) :: l2 /\ (forall U y u, In (U, (y, u)) l1 -> (u < v)%Z) /\ (forall U y u, In (U, (y, u)) l2 -> (u <= v)%Z).

(** How the program ends, when it runs again and again the algorithm [run], finalized by
    [fin], from the state [s], on a function with the values [g], or [f] as doubles: never
    because the algorithm returns. *)
Inductive restart_ends {X} (ap : app_options) (co : controller_options) (m : option hmap) (i : nat) (target : option dbl)
  (f : bv -> dbl) (g : bv -> Z) (run : nat -> objective -> act (alg X) unit) (fin : alg X -> alg X) (s : alg X) : list output * ending -> Prop :=
| restart_by_budget l s1 s' r x : complete_runs run fin g s l s1 ->
    run (length l) (stopping g (length (a_trace s')) LastEvaluation) (afresh s1) = (Exc LastEvaluation, s') ->
    misses target f (past l ++ a_trace s') -> tallies co f (past l ++ a_trace s') r ->
    rs_success r = (match co_stop_on_maximum co, co_target co with false, None => None | _, _ => Some false end) ->
    (0 < co_budget co <= Z.of_nat (length (past l ++ a_trace s')))%Z ->
    (co_cache co = false -> co_budget co = Z.of_nat (length (past l ++ a_trace s'))) ->
    kept i l x -> restart_ends ap co m i target f g run fin s (report ap co m i r x false)
| restart_by_target l s1 s' r x t : complete_runs run fin g s l s1 ->
    run (length l) (stopping g (length (a_trace s')) TargetReached) (afresh s1) = (Exc TargetReached, s') ->
    misses target f (past l ++ a_trace s') ->
    a_trace (snd (run (length l) (stopping g (length (a_trace s') + 1) TargetReached) (afresh s1))) = a_trace s' ++ [x] ->
    target = Some t -> dge (f x) t = true -> within_budget co ((past l ++ a_trace s') ++ [x]) -> tallies co f ((past l ++ a_trace s') ++ [x]) r ->
    rs_value r = Some (f x) ->
    rs_success r = (match co_stop_on_maximum co, co_target co with false, None => None | _, _ => Some true end) ->
    restart_ends ap co m i target f g run fin s (report ap co m i r x true)
| restart_by_exception l s1 s' e : complete_runs run fin g s l s1 -> run (length l) (endless g) (afresh s1) = (Exc e, s') ->
    misses target f (past l ++ a_trace s') -> restart_ends ap co m i target f g run fin s ([], ending_of e)
| restart_by_undefined l s1 s' : complete_runs run fin g s l s1 -> run (length l) (endless g) (afresh s1) = (Bad, s') ->
    misses target f (past l ++ a_trace s') -> restart_ends ap co m i target f g run fin s ([], Undefined).

(** The program goes on, explored for [fuel] steps: the target has not been reached, the
    budget is not exhausted; and the current run goes on further than explored, or there have
    been many runs and calls. *)
Inductive restart_goes_on {X} (co : controller_options) (target : option dbl) (f : bv -> dbl) (g : bv -> Z)
  (run : nat -> objective -> act (alg X) unit) (fin : alg X -> alg X) (s : alg X) (fuel : nat) : Prop :=
| run_goes_on l s1 s' : complete_runs run fin g s l s1 -> run (length l) (endless g) (afresh s1) = (Pending, s') ->
    misses target f (past l ++ a_trace s') -> within_budget co (past l ++ a_trace s') -> restart_goes_on co target f g run fin s fuel
| many_steps l s1 w : complete_runs run fin g s l s1 -> misses target f (past l ++ w) -> within_budget co (past l ++ w) ->
    fuel <= 2 * length l + length (past l ++ w) + 1 -> restart_goes_on co target f g run fin s fuel.

(** * Local searches *)

(** The random numbers of the run number k, as those of a single run *)
Definition run_draws (d : algo_draws) (k : nat) : algo_draws :=
  mk_algo_draws (fun _ => ad_first d k) (fun _ => ad_trial_bits d k) (fun _ => ad_trials d k) (fun _ => ad_moves d k) (fun _ => ad_pick d k)
    (fun _ => ad_accept d k) (ad_vectors d).

(** A complete run of a local search: the vectors it has evaluated, and its solution, which
    is one of the best of them *)
Definition search_run (o : algo_options) (f : bv -> dbl) (n : nat) (p : list bv * bv) : Prop :=
  Forall (fun y => length y = n) (fst p) /\ best_of f (fst p) (snd p) /\ stops_itself o f n (fst p) (snd p).

(** [x] is the solution of the first of the best complete runs or, if there is none, the
    vector without ones. *)
Definition first_best_run (f : bv -> dbl) (n : nat) (L : list (list bv * bv)) (x : bv) : Prop :=
  (L = [] /\ x = repeat false n) \/
  exists L1 T L2, L = L1 ++ (T, x) :: L2 /\
    (forall U y, In (U, y) L1 -> dlt (f y) (f x) = true) /\ (forall U y, In (U, y) L2 -> dle (f y) (f x) = true).

(** How a local search which is restarted ends, with the results, the solution, and whether
    the target has been reached.  [L] are the complete runs and [T] the vectors which have
    been given values in the last run. *)
Inductive local_restarts_end (o : algo_options) (co : controller_options) (target : option dbl) (f : bv -> dbl) (n : nat) : results -> bv -> bool -> Prop :=
| restarts_out_of_budget L T W r x : Forall (search_run o f n) L -> Forall (fun y => length y = n) T -> W = concat (map fst L) ++ T ->
    (0 < co_budget co <= Z.of_nat (length W))%Z -> (co_cache co = false -> co_budget co = Z.of_nat (length W)) ->
    misses target f W -> tallies co f W r -> first_best_run f n L x -> local_restarts_end o co target f n r x false
| restarts_reached L T W r x t : Forall (search_run o f n) L -> Forall (fun y => length y = n) (T ++ [x]) -> W = concat (map fst L) ++ T ->
    target = Some t -> misses target f W -> dge (f x) t = true -> within_budget co (W ++ [x]) -> tallies co f (W ++ [x]) r ->
    rs_value r = Some (f x) -> local_restarts_end o co target f n r x true.
