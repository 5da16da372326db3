(** Model of the algorithms which the application makes from its options, as it runs them:
    lib/hnco/app/algorithm-factory.cc.

    The algorithms are those of [Algorithm_Model] and [EvolutionaryAlgorithm_Model], written
    as programs which evaluate a function given in advance.  Here they meet a function
    which has a state and answers one call at a time. *)

From Coq Require Import ZArith.
From Verif Require Import Base BitVector_Model Iterator_Model Neighborhood_Model Double Algorithm_Model EvolutionaryAlgorithm_Model
  Controller_Model Application_Model Search_Model.
Local Open Scope nat_scope.

(** * Running an algorithm call by call *)

(** The value which has been given for a vector *)
Fixpoint lookup (heard : list (bv * Z)) (x : bv) : Z :=
  match heard with
  | [] => 0%Z
  | (y, v) :: heard' => if bv_eqb x y then v else lookup heard' x
  end.

(** A function known by the values it has given, which stops at its call number [k];
    evaluation is not incremental. *)
Definition told (heard : list (bv * Z)) (k : nat) : objective :=
  mk_objective (lookup heard) (fun c => if c <? k then None else Some LastEvaluation) false (fun _ v _ => v).

(** The value of a finite double, in units of 2^-1074; other doubles are not modelled. *)
Definition units (v : dbl) : Z := match v with DFin z => z | _ => 0%Z end.

Section Replay.
  (** [run k] is the run number k of maximize, [fin] is finalize, [made] is the algorithm
      when it is made. *)
  Context {X : Type} (run : nat -> objective -> act (alg X) unit) (fin : alg X -> alg X) (made : alg X).

  (** The number of runs of maximize, the algorithm at the beginning of the current one or
      between runs, whether maximize is running, and the values heard since its beginning *)
  Record replay_state := mk_replay { rp_runs : nat; rp_base : alg X; rp_running : bool; rp_heard : list (bv * Z) }.

  (** The run of maximize with the values heard so far, up to its call number [k] *)
  Definition replay (st : replay_state) (k : nat) : res unit * alg X :=
    run (rp_runs st - 1) (told (rp_heard st) k) (rp_base st).
  (** The algorithm when it waits for the answer to its next call, or after its run *)
  Definition rp_current (st : replay_state) : alg X :=
    if rp_running st then snd (replay st (length (rp_heard st))) else rp_base st.

  (** The next call is the one which follows those heard. *)
  Definition rp_next (st : replay_state) : move :=
    let '(r, s) := replay st (length (rp_heard st) + 1) in
    match nth_error (a_trace s) (length (rp_heard st)) with
    | Some x => MCall (REval x)
    | None =>
        match r with
        | Ret _ => MReturn
        | Exc e => MThrow e
        | Bad => MUndefined
        | Pending => MSilent
        end
    end.

  (** algorithm.hh:46-163 *)
  Definition algorithm_machine : machine :=
    mk_machine replay_state
      (mk_replay 0 made false [])
      (fun st => let s := rp_current st in mk_replay (rp_runs st + 1) (mk_alg [] (a_sol s) (a_last s) (a_mem s)) true [])
      rp_next
      (fun st a =>
         match rp_next st, a with
         | MCall (REval x), Ok (RValue v) => mk_replay (rp_runs st) (rp_base st) (rp_running st) (rp_heard st ++ [(x, units v)])
         | _, _ => st
         end)
      (fun st => mk_replay (rp_runs st) (fin (rp_current st)) false [])
      (fun st => let s := rp_current st in (fst (a_sol s), DFin (snd (a_sol s)))).
End Replay.

(** * The factory *)

(** The options, lib/hnco/app/hnco-options.hh.  The mutation rate is seen through the test
    p < 1 / sqrt(n) (neighborhood.hh:285). *)
Record algo_options := mk_algo_options {
  ao_algorithm : Z;
  ao_num_iterations : Z;
  ao_incremental : bool;
  ao_neighborhood : Z;
  ao_neighborhood_iterator : Z;
  ao_radius : Z;
  ao_allow_no_mutation : bool;
  ao_mutation_rate : option (nat -> bool);
  ao_rls_patience : Z;
  ao_rls_strict : bool;
  ao_sa_num_trials : Z }.

(** The random numbers of the run number k of maximize: the bits of the first vector, those
    of the trials of simulated annealing, the choices of neighbors in its trials and in the
    iterations, the choices among the best neighbors and the acceptance of worse vectors.
    [ad_vectors] are the vectors of random search, in all its runs. *)
Record algo_draws := mk_algo_draws {
  ad_first : nat -> nat -> bool;
  ad_trial_bits : nat -> nat -> nat -> bool;
  ad_trials : nat -> nat -> draws;
  ad_moves : nat -> nat -> draws;
  ad_pick : nat -> nat -> nat -> nat -> nat;
  ad_accept : nat -> nat -> bool;
  ad_vectors : nat -> nat -> bool }.

(** algorithm-factory.cc:40-68.  The classes check the radius by assertions
    (neighborhood.hh:318-324 and 350-356). *)
Definition make_neighborhood (o : algo_options) (n : nat) : outcome nh :=
  if (ao_neighborhood o =? 0)%Z then nh_make SingleBitFlip n
  else if (ao_neighborhood o =? 1)%Z then
    h <- nh_make (StandardBitMutation false false) n ;;
    let h := nh_set_allow_no_mutation h (ao_allow_no_mutation o) in
    Ok (match ao_mutation_rate o with Some small => nh_set_mutation_rate h (small n) | None => h end)
  else if (ao_neighborhood o =? 2)%Z then nh_make (HammingBall (Z.to_nat (ao_radius o))) n
  else if (ao_neighborhood o =? 3)%Z then nh_make (HammingSphere (Z.to_nat (ao_radius o))) n
  else Throw RuntimeError.

(** algorithm-factory.cc:77-91 and neighborhood-iterator.cc:72-80: with a negative radius,
    the constructor of std::vector throws std::length_error before the assertions.  [index] is
    the content of a member left uninitialised (neighborhood-iterator.hh:60). *)
Definition make_neighborhood_iterator (o : algo_options) (index n : nat) : outcome nit :=
  if (ao_neighborhood_iterator o =? 0)%Z then Ok (NSingle (mk_sb (repeat false n) true index))
  else if (ao_neighborhood_iterator o =? 1)%Z then
    if (ao_radius o <? 0)%Z then Throw OtherException
    else s <- hs_make n (Z.to_nat (ao_radius o)) ;; Ok (NSphere s)
  else Throw RuntimeError.

(** random-local-search.hh:50 and algorithm-factory.cc:137-141 *)
Definition rls_settings (o : algo_options) : rls_parameters :=
  mk_rls_parameters (if ao_rls_strict o then (fun a b => b <? a)%Z else (fun a b => b <=? a)%Z) (ao_rls_patience o) false.

(** The case labels of algorithm-factory.cc:97-559 which are not modelled below *)
Definition other_types : list Z :=
  [30; 301; 310; 320; 330; 340; 400; 450; 500; 501; 600; 610; 612; 700; 800; 900; 901; 1000; 1001; 1100; 1110; 1200; 1250; 1300]%Z.

(** algorithm-factory.cc:94-560; the default mutation rate of the (1+1) EA is 1/n, smaller
    than 1/sqrt(n) if n > 1 (one-plus-one-ea.hh:80-84).  [fuel] bounds the number of iterations explored;
    [neighbors] bounds the number of neighbors explored by one iteration of hill climbing;
    [garbage] is the content of members which the constructors leave uninitialised.
    Algorithms of other types, and incremental evaluation, are not modelled here:
    [others] gives what the factory makes then. *)
Definition make_algorithm (o : algo_options) (d : algo_draws) (neighbors fuel : nat) (garbage : Z) (others : nat -> outcome machine) (n : nat) : outcome machine :=
  let t := ao_algorithm o in
  let num := ao_num_iterations o in
  if existsb (Z.eqb t) other_types then others n
  else if (t =? 0)%Z then make_complete_search n
  else if (t =? 10)%Z then make_random_search num (ad_vectors d) n
  else if (t =? 20)%Z then
    if ao_incremental o then others n else
    h <- make_neighborhood o n ;;
    a <- alg_make n (mk_rw garbage h) ;;
    Ok (algorithm_machine (fun k f => loop (rw_init f (RandomStart (ad_first d k))) (rw_iterate f false (ad_moves d k)) num fuel) (fun s => s) a)
  else if (t =? 100)%Z then
    if ao_incremental o then others n else
    h <- make_neighborhood o n ;;
    a <- alg_make n (mk_rls garbage h) ;;
    Ok (algorithm_machine (fun k f => loop (rls_init f (RandomStart (ad_first d k))) (rls_iterate f (rls_settings o) (ad_moves d k)) num fuel) rls_finalize a)
  else if (t =? 150)%Z then
    t <- make_neighborhood_iterator o (Z.to_nat garbage) n ;;
    a <- alg_make n (sahc_make n t) ;;
    Ok (algorithm_machine (fun k f => loop (sahc_init f (RandomStart (ad_first d k))) (steepest_iterate f (ad_pick d k) neighbors) num fuel) (fun s => s) a)
  else if (t =? 160)%Z then
    t <- make_neighborhood_iterator o (Z.to_nat garbage) n ;;
    a <- alg_make n t ;;
    Ok (algorithm_machine (fun k f => loop (hc_alg_init f (RandomStart (ad_first d k))) (first_iterate f neighbors) num fuel) (fun s => s) a)
  else if (t =? 200)%Z then
    h <- make_neighborhood o n ;;
    a <- alg_make n (mk_sa garbage h) ;;
    Ok (algorithm_machine
          (fun k f => loop (sa_init f n (RandomStart (ad_first d k)) (ad_trial_bits d k) (ad_trials d k) (Z.to_nat (ao_sa_num_trials o)))
                        (sa_iterate f (ad_moves d k) (ad_accept d k)) num fuel) (fun s => s) a)
  else if (t =? 300)%Z then
    if ao_incremental o then others n else
    p <- op_make n garbage ;;
    let small := match ao_mutation_rate o with Some small => small n | None => 1 <? n end in
    Ok (algorithm_machine
          (fun k f s =>
             let '(r, p) := op_maximize f small (ao_allow_no_mutation o) false (ad_first d k) (ad_moves d k) num fuel (mk_opoea (op_sol p) s) in
             (r, op_rls p))
          (fun s => op_rls (op_finalize (mk_opoea (op_sol p) s))) (op_rls p))
  else Throw RuntimeError.
