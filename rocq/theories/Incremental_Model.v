(** Model of random local search and the (1+1) EA run by the application with incremental
    evaluation: lib/hnco/algorithms/local-search/random-local-search.cc,
    evolutionary-algorithms/one-plus-one-ea.hh, made by
    lib/hnco/app/algorithm-factory.cc:128-144 and 187-199.

    The algorithms are those of [Algorithm_Model], one call of the function at a time: a call
    is either that of the initialization or that of an iteration. *)

From Coq Require Import ZArith.
From Verif Require Import Base BitVector_Model Neighborhood_Model Double Controller_Model Application_Model
  Algorithm_Model EvolutionaryAlgorithm_Model AlgorithmMachine_Model.
Local Open Scope nat_scope.

(** A function which answers its next call by [v], and one which throws *)
Definition answering (v : Z) : objective := mk_objective (fun _ => v) (fun _ => None) true (fun _ _ _ => v).
Definition refusing : objective := mk_objective (fun _ => 0%Z) (fun _ => Some LastEvaluation) true (fun _ v _ => v).

(** The number of runs of maximize, the algorithm before its next call and how its last step
    ended; the vectors evaluated in this run ([a_trace]) count the steps. *)
Record inc_state := mk_inc { ic_runs : nat; ic_alg : alg rls; ic_res : res unit }.

Section Incremental.
  (** [setup] changes the neighborhood at the beginning of maximize; [first k] and [moves k] are
      the random numbers of the run number k; [fuel] bounds the number of iterations explored;
      [provides] tells if the function provides incremental evaluation. *)
  Context (setup : nh -> nh) (p : rls_parameters) (first : nat -> nat -> bool) (moves : nat -> nat -> draws)
    (num : Z) (fuel : nat) (fin : alg rls -> alg rls) (made : alg rls) (provides : bool).

  (** The number of the next iteration *)
  Definition ic_iteration (st : inc_state) : nat := length (a_trace (ic_alg st)) - 1.

  (** iterative-algorithm.cc:29-35: initialization, or the next iteration *)
  Definition ic_step (f : objective) (st : inc_state) : res unit * alg rls :=
    match a_trace (ic_alg st) with
    | [] => (_ <~ rls_init f (RandomStart (first (ic_runs st - 1))) ;; amodify (put_last false)) (ic_alg st)
    | _ => rls_iterate f p (moves (ic_runs st - 1)) (ic_iteration st) (ic_alg st)
    end.
  (** The algorithm when it makes its next call *)
  Definition ic_waiting (st : inc_state) : alg rls := snd (ic_step refusing st).

  (** local-search-algorithm.hh:57-67 and random-local-search.cc:41-51, 60-61 and 90-94: the call *)
  Definition ic_request (st : inc_state) : request :=
    let s := ic_waiting st in
    let h := rls_nh (a_mem s) in
    match a_trace (ic_alg st) with
    | [] => REval (fst (a_sol s))
    | _ => if p_incremental p && provides then RInc (nh_origin h) (DFin (snd (a_sol s))) (nh_flipped h)
           else REval (nh_candidate h)
    end.

  Definition ic_move (r : res unit) : move :=
    match r with Ret _ => MReturn | Exc e => MThrow e | Bad => MUndefined | Pending => MSilent end.
  Definition ic_next (st : inc_state) : move :=
    match ic_res st with
    | Ret _ =>
        let i := ic_iteration st in
        match a_trace (ic_alg st) with
        | [] => MCall (ic_request st)
        | _ =>
            if fuel <=? i then MSilent
            else if ((0 <? num) && (num <=? Z.of_nat i))%Z then MReturn
            else if a_last (ic_alg st) then MReturn
            else match rls_propose (moves (ic_runs st - 1) i) (ic_alg st) with
                 | (Ret _, _) => MCall (ic_request st)
                 | (r, _) => ic_move r
                 end
        end
    | r => ic_move r
    end.
  Definition ic_after (st : inc_state) (a : outcome reply) : inc_state :=
    match a with
    | Ok (RValue v) => let '(r, s) := ic_step (answering (units v)) st in mk_inc (ic_runs st) s r
    | Ok RVoid => st
    | _ => mk_inc (ic_runs st) (ic_waiting st) (ic_res st)
    end.

  Definition incremental_machine : machine :=
    mk_machine inc_state
      (mk_inc 0 made (Ret tt))
      (fun st => let s := ic_alg st in
         mk_inc (ic_runs st + 1) (mk_alg [] (a_sol s) (a_last s) (mk_rls (rls_failures (a_mem s)) (setup (rls_nh (a_mem s))))) (Ret tt))
      ic_next
      ic_after
      (fun st => mk_inc (ic_runs st) (fin (ic_alg st)) (ic_res st))
      (fun st => (fst (a_sol (ic_alg st)), DFin (snd (a_sol (ic_alg st))))).
End Incremental.

(** algorithm-factory.cc:128-144 and 187-199: random local search and the (1+1) EA; other
    types are not modelled here. *)
Definition make_incremental (o : algo_options) (d : algo_draws) (fuel : nat) (garbage : Z) (provides : bool) (n : nat) : outcome machine :=
  let num := ao_num_iterations o in
  if (ao_algorithm o =? 100)%Z then
    h <- make_neighborhood o n ;;
    a <- alg_make n (mk_rls garbage h) ;;
    let p := mk_rls_parameters (p_compare (rls_settings o)) (p_patience (rls_settings o)) (ao_incremental o) in
    Ok (incremental_machine (fun h => h) p (ad_first d) (ad_moves d) num fuel rls_finalize a provides)
  else if (ao_algorithm o =? 300)%Z then
    e <- op_make n garbage ;;
    let small := match ao_mutation_rate o with Some small => small n | None => 1 <? n end in
    let p := mk_rls_parameters (fun a b => b <=? a)%Z 0 (ao_incremental o) in
    Ok (incremental_machine (fun h => nh_set_allow_no_mutation (nh_set_mutation_rate h small) (ao_allow_no_mutation o))
          p (ad_first d) (ad_moves d) num fuel (fun s => op_rls (op_finalize (mk_opoea (op_sol e) s))) (op_rls e) provides)
  else Throw RuntimeError.
