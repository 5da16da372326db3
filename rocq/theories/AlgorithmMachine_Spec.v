(** Vocabulary of the statements about the algorithms run by the application. *)

From Coq Require Import ZArith.
From Verif Require Import Base BitVector_Model BitVector_Spec Map_Model Map_Spec Neighborhood_Model Double Controller_Model Controller_Spec
  Decorator_Model Application_Model Application_Spec Search_Spec Neighborhood_Spec Algorithm_Model Algorithm_Spec AlgorithmMachine_Model.
Local Open Scope nat_scope.

(** The random numbers are enough to choose a neighbor of any vector of size [n]. *)
Definition plenty (n : nat) (d : draws) : Prop := forall h, length (nh_origin h) = n -> length (nh_candidate h) = n -> nh_propose h d <> None.

(** The functions which an algorithm may be given: with the values [g], the evaluation
    number [k] throws [e], or none does. *)
Definition stopping (g : bv -> Z) (k : nat) (e : exn) : objective :=
  mk_objective g (fun c => if c <? k then None else Some e) false (fun _ v _ => v).
Definition endless (g : bv -> Z) : objective := mk_objective g (fun _ => None) false (fun _ v _ => v).

(** The values of vectors of size [i] are finite doubles, and [g] gives them in units of
    2^-1074. *)
Definition finite_values (i : nat) (f : bv -> dbl) (g : bv -> Z) : Prop := forall x, length x = i -> f x = DFin (g x).

(** The results after the vectors [T] have been given values by the controllers: the best
    value, and the number of evaluations.  Without cache, every call of the algorithm is an
    evaluation. *)
Definition tallies (co : controller_options) (f : bv -> dbl) (T : list bv) (r : results) : Prop :=
  rs_total r <= length T /\ (co_cache co = false -> rs_total r = length T) /\
  (T <> [] -> 0 < rs_total r /\
     exists k x, best_record (valued f T) k x (f x) /\ rs_value r = Some (f x) /\ (co_cache co = false -> rs_num r = k + 1)).

(** No vector of the list reaches the target. *)
Definition misses (target : option dbl) (f : bv -> dbl) (T : list bv) : Prop := forall t x, target = Some t -> In x T -> dge (f x) t = false.

(** Without cache, the calls which are answered are within the budget. *)
Definition within_budget (co : controller_options) (T : list bv) : Prop :=
  co_cache co = false -> (0 < co_budget co)%Z -> (Z.of_nat (length T) <= co_budget co)%Z.

(** How the program ends, when it runs the algorithm [run], finalized by [fin], from the
    state [s], on a function with the values [g], or [f] as doubles.  The algorithm does
    what it does with a function which it is given in advance, with the same values, and
    which stops when the budget is exhausted or the target is reached. *)
Inductive program_ends {X} (ap : app_options) (co : controller_options) (m : option hmap) (i : nat) (target : option dbl)
  (f : bv -> dbl) (g : bv -> Z) (run : objective -> act (alg X) unit) (fin : alg X -> alg X) (s : alg X) :
  option (list output * ending) -> Prop :=
| by_return s' r :
    run (endless g) s = (Ret tt, s') -> misses target f (a_trace s') -> within_budget co (a_trace s') -> tallies co f (a_trace s') r ->
    rs_success r = (match co_stop_on_maximum co, co_target co with false, None => None | _, _ => Some false end) ->
    program_ends ap co m i target f g run fin s (Some (report ap co m i r (fst (a_sol (fin s'))) false))
| by_budget s' r :
    run (stopping g (length (a_trace s')) LastEvaluation) s = (Exc LastEvaluation, s') -> misses target f (a_trace s') -> tallies co f (a_trace s') r ->
    rs_success r = (match co_stop_on_maximum co, co_target co with false, None => None | _, _ => Some false end) ->
    (0 < co_budget co <= Z.of_nat (length (a_trace s')))%Z -> (co_cache co = false -> co_budget co = Z.of_nat (length (a_trace s'))) ->
    program_ends ap co m i target f g run fin s (Some (report ap co m i r (fst (a_sol (fin s'))) false))
| by_target s' x r t :
    run (stopping g (length (a_trace s')) TargetReached) s = (Exc TargetReached, s') -> misses target f (a_trace s') ->
    a_trace (snd (run (stopping g (length (a_trace s') + 1) TargetReached) s)) = a_trace s' ++ [x] ->
    target = Some t -> dge (f x) t = true -> within_budget co (a_trace s' ++ [x]) -> tallies co f (a_trace s' ++ [x]) r -> rs_value r = Some (f x) ->
    rs_success r = (match co_stop_on_maximum co, co_target co with false, None => None | _, _ => Some true end) ->
    program_ends ap co m i target f g run fin s (Some (report ap co m i r x true))
| by_exception s' e :
    run (endless g) s = (Exc e, s') -> misses target f (a_trace s') -> program_ends ap co m i target f g run fin s (Some ([], ending_of e))
| by_undefined s' :
    run (endless g) s = (Bad, s') -> misses target f (a_trace s') -> program_ends ap co m i target f g run fin s (Some ([], Undefined))
| goes_on s' :
    run (endless g) s = (Pending, s') -> misses target f (a_trace s') -> within_budget co (a_trace s') ->
    program_ends ap co m i target f g run fin s None.

(** * Local searches *)

(** The numbers of bits which the neighborhood may flip: with standard bit mutation none only
    if it is allowed and the mutation rate is given and small. *)
Definition may_flip (o : algo_options) (n k : nat) : Prop :=
  (ao_neighborhood o = 0%Z /\ k = 1) \/
  (ao_neighborhood o = 1%Z /\ (0 < k \/ ao_allow_no_mutation o = true /\ exists small, ao_mutation_rate o = Some small /\ small n = true)) \/
  (ao_neighborhood o = 2%Z /\ 1 <= k /\ (Z.of_nat k <= ao_radius o)%Z) \/
  (ao_neighborhood o = 3%Z /\ Z.of_nat k = ao_radius o).

(** The options are accepted, for vectors of size [n]; incremental evaluation is not asked. *)
Definition neighborhood_ok (o : algo_options) (n : nat) : Prop :=
  ao_neighborhood o = 0%Z \/ ao_neighborhood o = 1%Z \/ (2 <= ao_neighborhood o <= 3 /\ 1 <= ao_radius o <= Z.of_nat n)%Z.
Definition iterator_ok (o : algo_options) (n : nat) : Prop :=
  ao_neighborhood_iterator o = 0%Z \/ (ao_neighborhood_iterator o = 1 /\ 1 <= ao_radius o <= Z.of_nat n)%Z.
Definition local_searches : list Z := [20; 100; 150; 160; 200; 300]%Z.
Definition climber (o : algo_options) : bool := ((ao_algorithm o =? 150) || (ao_algorithm o =? 160))%Z.
Definition options_ok (o : algo_options) (n : nat) : Prop :=
  In (ao_algorithm o) local_searches /\
  (climber o = true -> iterator_ok o n) /\
  (In (ao_algorithm o) [20; 100; 200]%Z -> neighborhood_ok o n) /\
  (In (ao_algorithm o) [20; 100; 300]%Z -> ao_incremental o = false).

(** The random numbers are in their ranges, for vectors of size [n]: the radius matters for
    Hamming balls only; and they are not exhausted. *)
Definition bounding_kind (o : algo_options) : nh_kind :=
  if ((ao_neighborhood o =? 2) && negb (ao_algorithm o =? 300))%Z then HammingBall (Z.to_nat (ao_radius o)) else SingleBitFlip.
Definition draws_ok (o : algo_options) (d : algo_draws) (n : nat) : Prop :=
  (forall i, in_bounds (bounding_kind o) n (ad_moves d 0 i)) /\
  (forall i, in_bounds (bounding_kind o) n (ad_trials d 0 i)) /\
  (forall i, in_range (ad_pick d 0 i)).
Definition draws_last (d : algo_draws) (n : nat) : Prop := (forall i, plenty n (ad_moves d 0 i)) /\ (forall i, plenty n (ad_trials d 0 i)).

(** The calls before the first iteration: one for the first vector and, in simulated
    annealing, two for every trial *)
Definition first_calls (o : algo_options) : nat := if (ao_algorithm o =? 200)%Z then 1 + 2 * Z.to_nat (ao_sa_num_trials o) else 1.
(** The distance of the neighbors which hill climbing explores *)
Definition climbing_radius (o : algo_options) : nat := if (ao_neighborhood_iterator o =? 0)%Z then 1 else Z.to_nat (ao_radius o).

(** [x] is one of the vectors and none has a greater value. *)
Definition best_of (f : bv -> dbl) (T : list bv) (x : bv) : Prop := In x T /\ forall y, In y T -> dle (f y) (f x) = true.

(** Why the algorithm returns after the evaluation of [T], its solution being [x]: the
    number of iterations which was asked is done; or the patience of random local search is
    exhausted, the last vectors having been rejected; or hill climbing has found a local
    maximum. *)
Inductive stops_itself (o : algo_options) (f : bv -> dbl) (n : nat) (T : list bv) (x : bv) : Prop :=
| by_iterations : (0 < ao_num_iterations o)%Z ->
    (climber o = false -> Z.of_nat (length T) = (Z.of_nat (first_calls o) + ao_num_iterations o)%Z) -> stops_itself o f n T x
| by_patience T1 T2 : ao_algorithm o = 100%Z -> (0 < ao_rls_patience o)%Z -> T = T1 ++ T2 -> T1 <> [] -> Z.of_nat (length T2) = ao_rls_patience o ->
    (forall y, In y T2 -> (if ao_rls_strict o then dle (f y) (f x) else dlt (f y) (f x)) = true) -> stops_itself o f n T x
| by_local_maximum : climber o = true -> (forall y, neighbor n (climbing_radius o) x y -> dle (f y) (f x) = true) -> stops_itself o f n T x.

(** How a local search ends, with the results, the solution, and whether the target has
    been reached.  [T] are the vectors which have been given values before the end.  Out of
    budget, the solution of steepest ascent hill climbing may not be the best one. *)
Inductive local_search_ends (o : algo_options) (co : controller_options) (target : option dbl) (f : bv -> dbl) (n : nat) : results -> bv -> bool -> Prop :=
| search_stopped T r x : Forall (fun y => length y = n) T -> stops_itself o f n T x -> misses target f T -> within_budget co T ->
    best_of f T x -> tallies co f T r -> rs_value r = Some (f x) -> local_search_ends o co target f n r x false
| search_out_of_budget T r x : Forall (fun y => length y = n) T -> (0 < co_budget co <= Z.of_nat (length T))%Z ->
    (co_cache co = false -> co_budget co = Z.of_nat (length T)) -> misses target f T -> In x T ->
    (ao_algorithm o <> 150%Z -> best_of f T x /\ rs_value r = Some (f x)) -> tallies co f T r -> local_search_ends o co target f n r x false
| search_reached T r x t : Forall (fun y => length y = n) (T ++ [x]) -> target = Some t -> misses target f T -> dge (f x) t = true ->
    within_budget co (T ++ [x]) -> tallies co f (T ++ [x]) r -> rs_value r = Some (f x) -> local_search_ends o co target f n r x true.
