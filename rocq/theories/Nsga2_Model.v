(** Model of multiobjective algorithms: lib/hnco/multiobjective/algorithms/population.{hh,cc},
    iterative-algorithm.{hh,cc} and nsga2.{hh,cc}. Values are exact numbers (see
    DESIGN.md). Populations are evaluated by a single function, as Nsga2 does.
    Logging is not modelled. *)

From Verif Require Import Base BitVector_Model Neighborhood_Model Algorithm_Model Population_Model PopAlgorithm_Model
  EvolutionaryAlgorithm_Model Pareto_Model.

(** population.hh:36-49 *)
Record mpop := mk_mpop { m_bvs : list bv; m_values : list (list Z) }.

(** population.hh:59-69; the vectors are built before the sizes are checked *)
Definition mpop_make (size n m : nat) : outcome mpop :=
  _ <- ensureb (0 <? size) ;;
  _ <- ensureb (0 <? n) ;;
  _ <- ensureb (0 <? m) ;;
  Ok (mk_mpop (repeat (repeat false n) size) (repeat (repeat 0%Z m) size)).

(** population.hh:100-109; resize to a smaller size *)
Definition mpop_shrink (p : mpop) (size : nat) : outcome mpop :=
  _ <- assertb (0 <? size) ;;
  if length (m_bvs p) <? size then Ok p
  else Ok (mk_mpop (firstn size (m_bvs p)) (firstn size (m_values p))).

(** population.cc:31-35; [bits i] are the bits drawn for vector i *)
Definition mpop_random (bits : nat -> nat -> bool) (p : mpop) : mpop :=
  mk_mpop (map (fun i => bv_random (nth i (m_bvs p) []) (bits i)) (seq 0 (length (m_bvs p)))) (m_values p).

(** The function given to minimize: evaluation number c (counting from 0) throws [e] when
    [mo_stop c = Some e], otherwise it gives the value of the vector. [mo_outputs] is
    get_output_size(). *)
Record mobjective := mk_mobjective { mo_value : bv -> list Z; mo_stop : nat -> option exn; mo_outputs : nat }.

(** Crowding distances: doubles, either finite and exact, or infinite *)
Inductive cdist := Dist (d : Z) | Infinite.
Definition dist_add (a : cdist) (d : Z) : cdist := match a with Dist x => Dist (x + d) | Infinite => Infinite end.
Definition dist_gt (a b : cdist) : bool :=
  match a, b with
  | Infinite, Dist _ => true
  | Dist x, Dist y => (y <? x)%Z
  | _, Infinite => false
  end.

(** operator<: nsga2.hh:56-63 *)
Definition pair_lt (a b : nat * cdist) : bool :=
  (fst a <? fst b) || ((fst a =? fst b) && dist_gt (snd a) (snd b)).

(** Members: nsga2.hh:81-106; _pareto_front_computation has no state between two calls *)
Record nsga2 := mk_nsga2 {
  ns_parents : mpop; ns_offs : mpop; ns_full : mpop; ns_solutions : mpop; ns_mut : nh;
  ns_fronts : list nat; ns_dists : list cdist; ns_perm : list nat;
  ns_pairs : list (nat * cdist); ns_sel : tournament }.

(** Constructor: nsga2.hh:143-157 and algorithm.hh:85-91; [garbage] are the uninitialised bounds
    of the tournament selection *)
Definition nsga2_make (n m mu : nat) (garbage : nat * nat) : outcome nsga2 :=
  _ <- ensureb (0 <? n) ;;
  _ <- ensureb (0 <? m) ;;
  parents <- mpop_make mu n m ;;
  offs <- mpop_make mu n m ;;
  full <- mpop_make (2 * mu) n m ;;
  solutions <- mpop_make mu n m ;;
  h <- nh_make (StandardBitMutation false false) n ;;
  let pairs := repeat (0, Dist 0) mu in
  t <- tournament_make (m_bvs parents) pairs garbage ;;
  Ok (mk_nsga2 parents offs full solutions h (repeat 0 (2 * mu)) (repeat (Dist 0) (2 * mu)) (repeat 0 (2 * mu)) pairs t).

(** ** Crowding distances *)

Section Crowding.
  (** std::sort *)
  Variable srt : (nat -> nat -> bool) -> list nat -> list nat.
  Variable values : list (list Z).

  Definition objective_at (i k : nat) : outcome Z := v <- vget values i ;; vget v k.
  (** The comparison of nsga2.cc:100; the model reads 0 out of range *)
  Definition by_objective (k i j : nat) : bool := (nth k (nth i values []) 0 <? nth k (nth j values []) 0)%Z.

  (** One objective, on the slice of the permutation between start and stop: nsga2.cc:100-110 *)
  Definition crowd_objective (s : list nat * list cdist) (k : nat) : outcome (list nat * list cdist) :=
    let '(slice, dists) := s in
    let slice := srt (by_objective k) slice in
    first <- vget slice 0 ;;
    dists <- vset dists first Infinite ;;
    last <- vget slice (length slice - 1) ;;
    dists <- vset dists last Infinite ;;
    dists <- (if 3 <=? length slice then
      foldM (fun dists p =>
        next <- vget slice (p + 1) ;; a <- objective_at next k ;;
        prev <- vget slice (p - 1) ;; b <- objective_at prev k ;;
        _ <- assertb (0 <=? a - b)%Z ;;
        i <- vget slice p ;;
        d <- vget dists i ;;
        vset dists i (dist_add d (a - b))) (seq 1 (length slice - 2)) dists
     else Ok dists) ;;
    Ok (slice, dists).

  Variable fronts : list nat.
  Definition in_this_front (front i : nat) : bool := nth i fronts 0 =? front.

  (** One front: nsga2.cc:96-112. The state is the permutation, the distances and start.
      [m] is num_objectives. *)
  Definition crowd_front (m : nat) (s : list nat * list cdist * nat) (front : nat) : outcome (list nat * list cdist * nat) :=
    let '(perm, dists, start) := s in
    i <- vget perm start ;;
    f <- vget fronts i ;;
    _ <- assertb (f =? front) ;;
    let stop := start + 1 + prefix_length (in_this_front front) (skipn (start + 1) perm) in
    '(slice, dists) <- foldM crowd_objective (seq 0 m) (firstn (stop - start) (skipn start perm), dists) ;;
    Ok (firstn start perm ++ slice ++ skipn stop perm, dists, stop).

  (** Sort last front by decreasing crowding distance: nsga2.cc:115-122 *)
  Definition sort_last (last_front : nat) (dists : list cdist) (perm : list nat) : outcome (list nat) :=
    let start := prefix_length (fun i => negb (in_this_front last_front i)) perm in
    _ <- assertb (start <? length perm) ;;
    let stop := start + 1 + prefix_length (in_this_front last_front) (skipn (start + 1) perm) in
    let slice := srt (fun i j => dist_gt (nth i dists (Dist 0)) (nth j dists (Dist 0))) (firstn (stop - start) (skipn start perm)) in
    Ok (firstn start perm ++ slice ++ skipn stop perm).

  (** nsga2.cc:83-122; [sh] is std::shuffle, [size] is population_size, [m] is num_objectives *)
  Definition rank_individuals (sh : list nat -> list nat) (size m : nat) (perm : list nat) (dists : list cdist)
      : outcome (list nat * list cdist) :=
    let perm := srt (fun i j => nth i fronts 0 <? nth j fronts 0) (sh (identity (length perm))) in
    _ <- assertb (0 <? size) ;;
    k <- vget perm (size - 1) ;;
    last_front <- vget fronts k ;;
    '(perm, dists, _) <- foldM (crowd_front m) (seq 0 (last_front + 1)) (perm, repeat (Dist 0) (length dists), 0) ;;
    perm <- sort_last last_front dists perm ;;
    Ok (perm, dists).
End Crowding.

(** ** Moving individuals *)

(** std::swap of the bit vectors and of the values at [i] and [j] *)
Definition mpop_swap (p : mpop) (i : nat) (q : mpop) (j : nat) : outcome (mpop * mpop) :=
  '(pb, qb) <- swap_at (m_bvs p) i (m_bvs q) j ;;
  '(pv, qv) <- swap_at (m_values p) i (m_values q) j ;;
  Ok (mk_mpop pb pv, mk_mpop qb qv).

(** Build full population: nsga2.cc:73-79 *)
Definition build_full (size : nat) (parents offs full : mpop) : outcome (mpop * mpop * mpop) :=
  foldM (fun '(parents, offs, full) i =>
    '(parents, full) <- mpop_swap parents i full i ;;
    '(offs, full) <- mpop_swap offs i full (size + i) ;;
    Ok (parents, offs, full)) (seq 0 size) (parents, offs, full).

(** Build parent population: nsga2.cc:124-131 *)
Definition build_parents (size : nat) (perm fronts : list nat) (dists : list cdist) (parents full : mpop)
    (pairs : list (nat * cdist)) : outcome (mpop * mpop * list (nat * cdist)) :=
  foldM (fun '(parents, full, pairs) i =>
    index <- vget perm i ;;
    '(parents, full) <- mpop_swap parents i full index ;;
    f <- vget fronts index ;;
    d <- vget dists index ;;
    pairs <- vset pairs i (f, d) ;;
    Ok (parents, full, pairs)) (seq 0 size) (parents, full, pairs).

(** ** Offsprings *)

(** A computation that may not have returned yet *)
Definition obind {A B} (o : option (outcome A)) (k : A -> option (outcome B)) : option (outcome B) :=
  match o with
  | None => None
  | Some (Ok a) => k a
  | Some (Throw e) => Some (Throw e)
  | Some UB => Some UB
  end.

(** Offspring [k]: nsga2.cc:55-60 and 136-141, on the tournament selection, the mutation and the
    offsprings. [cross] is the result of _do_crossover, [coin] those of the crossover, [sh1] and
    [sh2] the shuffles available to the selections. The order of evaluation of the arguments of
    recombine is not specified by C++: the first one is evaluated first here. *)
Definition breed_one {T} (better : T -> T -> bool) (values : list T) (parents : list bv)
    (cross : bool) (coin : nat -> bool) (sh1 sh2 : list nat -> list nat) (d : draws)
    (s : tournament * nh * list bv) (k : nat) : option (outcome (tournament * nh * list bv)) :=
  let '(t, h, offs) := s in
  obind (Some (
    if cross then
      '(x, t) <- tournament_select better parents values sh1 t ;;
      '(y, t) <- tournament_select better parents values sh2 t ;;
      z <- vget offs k ;;
      z <- uniform_crossover coin x y z ;;
      offs <- vset offs k z ;;
      Ok (t, offs)
    else
      '(x, t) <- tournament_select better parents values sh1 t ;;
      offs <- vset offs k x ;;
      Ok (t, offs))) (fun r =>
  obind (Some (vget (snd r) k)) (fun x =>
  obind (nh_mutate h x d) (fun hz =>
  Some (offs <- vset (snd r) k (snd hz) ;; Ok (fst r, fst hz, offs))))).

(** The random numbers used for offsprings *)
Record breeding := mk_breeding {
  b_cross : nat -> bool; b_coin : nat -> nat -> bool; b_sh1 : nat -> list nat -> list nat; b_sh2 : nat -> list nat -> list nat;
  b_draws : nat -> draws }.

Fixpoint breed {T} (better : T -> T -> bool) (values : list T) (parents : list bv) (b : breeding) (l : list nat)
    (s : tournament * nh * list bv) : option (outcome (tournament * nh * list bv)) :=
  match l with
  | [] => Some (Ok s)
  | k :: l' =>
      obind (breed_one better values parents (b_cross b k) (b_coin b k) (b_sh1 b k) (b_sh2 b k) (b_draws b k) s k)
        (breed better values parents b l')
  end.

(** ** The algorithm *)

(** State: the members, and the vectors evaluated so far (not in the code) *)
Record mstate := mk_mstate { ms_trace : list bv; ms_mem : nsga2 }.
Definition ms_put (m : nsga2) (s : mstate) : mstate := mk_mstate (ms_trace s) m.

Definition ms_do {A} (f : nsga2 -> option (outcome (A * nsga2))) : act mstate A := fun s =>
  match f (ms_mem s) with
  | None => (Pending, s)
  | Some (Ok (a, m)) => (Ret a, ms_put m s)
  | Some (Throw e) => (Exc e, s)
  | Some UB => (Bad, s)
  end.

(** function->evaluate(x, value) *)
Definition mo_evaluate (o : mobjective) (x : bv) : act mstate (list Z) := fun s =>
  match mo_stop o (length (ms_trace s)) with
  | Some e => (Exc e, s)
  | None => (Ret (mo_value o x), mk_mstate (ms_trace s ++ [x]) (ms_mem s))
  end.

(** Population::evaluate: population.cc:37-44, for the population selected by [get] and [put] *)
Definition eval_mpop (get : nsga2 -> mpop) (put : mpop -> nsga2 -> nsga2) (o : mobjective) : act mstate unit :=
  p <~ aget (fun s => get (ms_mem s)) ;;
  _ <~ aassert (length (m_bvs p) =? length (m_values p)) ;;
  afor (fun i =>
    p <~ aget (fun s => get (ms_mem s)) ;;
    b <~ lift (vget (m_bvs p) i) ;;
    v <~ mo_evaluate o b ;;
    ms_do (fun m => Some (vs <- vset (m_values (get m)) i v ;; Ok (tt, put (mk_mpop (m_bvs (get m)) vs) m))))
    (seq 0 (length (m_bvs p))).

Definition put_ns_parents (p : mpop) (m : nsga2) : nsga2 :=
  mk_nsga2 p (ns_offs m) (ns_full m) (ns_solutions m) (ns_mut m) (ns_fronts m) (ns_dists m) (ns_perm m) (ns_pairs m) (ns_sel m).
Definition put_ns_offs (p : mpop) (m : nsga2) : nsga2 :=
  mk_nsga2 (ns_parents m) p (ns_full m) (ns_solutions m) (ns_mut m) (ns_fronts m) (ns_dists m) (ns_perm m) (ns_pairs m) (ns_sel m).

(** Parameters of init: tournament size, mutation rate less than 1 / sqrt(n), _allow_no_mutation *)
Record nsga2_parameters := mk_nsga2_parameters { np_tournament_size : nat; np_small : bool; np_allow : bool }.

(** Before the evaluation: nsga2.cc:36-43 (the permutation is not reset when this throws); [bits] are the random bits of the parents *)
Definition nsga2_setup (p : nsga2_parameters) (bits : nat -> nat -> bool) (m : nsga2) : option (outcome (unit * nsga2)) :=
  Some (t <- set_tournament_size (m_bvs (ns_parents m)) (ns_sel m) (np_tournament_size p) ;;
        let h := nh_set_allow_no_mutation (nh_set_mutation_rate (ns_mut m) (np_small p)) (np_allow p) in
        Ok (tt, mk_nsga2 (mpop_random bits (ns_parents m)) (ns_offs m) (ns_full m) (ns_solutions m) h (ns_fronts m) (ns_dists m)
                  (identity (length (ns_perm m))) (ns_pairs m) t)).

(** The first offsprings: nsga2.cc:46-61; [ord] gives the orders in which sets are visited, [sh]
    is the shuffle at the beginning of the selection, [garbage] the uninitialised bounds of the
    local selection *)
Definition nsga2_first (p : nsga2_parameters) (ord : nat -> nat -> list nat -> list nat) (sh : list nat -> list nat) (garbage : nat * nat)
    (b : breeding) (m : nsga2) : option (outcome (unit * nsga2)) :=
  let parents := ns_parents m in
  let size := length (m_bvs parents) in
  obind (compute_fronts (m_values parents) ord size (repeat 0 size)) (fun fronts =>
  obind (Some (t <- tournament_make (m_bvs parents) fronts garbage ;;
               t <- set_tournament_size (m_bvs parents) t (np_tournament_size p) ;;
               Ok (tournament_init sh t))) (fun t =>
  obind (breed Nat.ltb fronts (m_bvs parents) b (seq 0 (length (m_bvs (ns_offs m)))) (t, ns_mut m, m_bvs (ns_offs m))) (fun r =>
  let '(_, h, bs) := r in
  Some (Ok (tt, mk_nsga2 parents (mk_mpop bs (m_values (ns_offs m))) (ns_full m) (ns_solutions m) h (ns_fronts m) (ns_dists m)
                  (ns_perm m) (ns_pairs m) (ns_sel m)))))).

(** nsga2.cc:33-63 *)
Definition nsga2_init (o : mobjective) (p : nsga2_parameters) (bits : nat -> nat -> bool) (ord : nat -> nat -> list nat -> list nat)
    (sh : list nat -> list nat) (garbage : nat * nat) (b : breeding) : act mstate unit :=
  _ <~ ms_do (nsga2_setup p bits) ;;
  _ <~ eval_mpop ns_parents put_ns_parents o ;;
  ms_do (nsga2_first p ord sh garbage b).

(** The random numbers of an iteration: visits of sets, shuffle of the permutation, shuffle at the
    beginning of the selection, offsprings *)
Record generation_draws := mk_generation_draws {
  g_ord : nat -> nat -> list nat -> list nat; g_sh : list nat -> list nat; g_sel : list nat -> list nat; g_breeding : breeding }.

(** After the evaluation of the offsprings: nsga2.cc:73-142. [outputs] is num_objectives. *)
Definition nsga2_renew (srt : (nat -> nat -> bool) -> list nat -> list nat) (outputs : nat) (g : generation_draws) (m : nsga2)
    : option (outcome (unit * nsga2)) :=
  let size := length (m_bvs (ns_parents m)) in
  obind (Some (build_full size (ns_parents m) (ns_offs m) (ns_full m))) (fun r =>
  let '(parents, offs, full) := r in
  obind (compute_fronts (m_values full) (g_ord g) (length (m_bvs full)) (ns_fronts m)) (fun fronts =>
  obind (Some (rank_individuals srt (m_values full) fronts (g_sh g) size outputs (ns_perm m) (ns_dists m))) (fun r =>
  let '(perm, dists) := r in
  obind (Some (build_parents size perm fronts dists parents full (ns_pairs m))) (fun r =>
  let '(parents, full, pairs) := r in
  obind (breed pair_lt pairs (m_bvs parents) (g_breeding g) (seq 0 (length (m_bvs offs)))
           (tournament_init (g_sel g) (ns_sel m), ns_mut m, m_bvs offs)) (fun r =>
  let '(t, h, bs) := r in
  Some (Ok (tt, mk_nsga2 parents (mk_mpop bs (m_values offs)) full (ns_solutions m) h fronts dists perm pairs t))))))).

(** nsga2.cc:65-144 *)
Definition nsga2_iterate (o : mobjective) (srt : (nat -> nat -> bool) -> list nat -> list nat) (g : nat -> generation_draws) (t : nat)
    : act mstate unit :=
  _ <~ eval_mpop ns_offs put_ns_offs o ;;
  ms_do (nsga2_renew srt (mo_outputs o) (g t)).

(** nsga2.cc:146-163 *)
Definition nsga2_collect (ord : nat -> nat -> list nat -> list nat) (m : nsga2) : option (outcome (unit * nsga2)) :=
  let parents := ns_parents m in
  let size := length (m_bvs parents) in
  obind (compute_fronts (m_values parents) ord size (repeat 0 size)) (fun fronts =>
  Some (
    '(sol, index) <- foldM (fun '(sol, index) i =>
        f <- vget fronts i ;;
        if f =? 0 then
          b <- vget (m_bvs parents) i ;;
          bs <- vset (m_bvs sol) index b ;;
          v <- vget (m_values parents) i ;;
          vs <- vset (m_values sol) index v ;;
          Ok (mk_mpop bs vs, index + 1)
        else Ok (sol, index)) (seq 0 size) (ns_solutions m, 0) ;;
    sol <- mpop_shrink sol index ;;
    Ok (tt, mk_nsga2 parents (ns_offs m) (ns_full m) sol (ns_mut m) (ns_fronts m) (ns_dists m) (ns_perm m) (ns_pairs m) (ns_sel m)))).

(** IterativeAlgorithm::loop: iterative-algorithm.cc:27-40, from iteration [i]. _last_iteration is
    never set by Nsga2. *)
Fixpoint mo_iterations (iterate : nat -> act mstate unit) (i count : nat) : act mstate unit :=
  match count with
  | 0 => aret tt
  | S count' => _ <~ iterate i ;; mo_iterations iterate (i + 1) count'
  end.

(** minimize: iterative-algorithm.cc:42-47; [num] is _num_iterations *)
Definition nsga2_minimize (o : mobjective) (srt : (nat -> nat -> bool) -> list nat -> list nat) (p : nsga2_parameters)
    (bits : nat -> nat -> bool) (ord : nat -> nat -> list nat -> list nat) (sh : list nat -> list nat) (garbage : nat * nat) (b : breeding)
    (g : nat -> generation_draws) (ord' : nat -> nat -> list nat -> list nat) (num : Z) : act mstate unit :=
  _ <~ nsga2_init o p bits ord sh garbage b ;;
  _ <~ mo_iterations (nsga2_iterate o srt g) 0 (Z.to_nat num) ;;
  ms_do (nsga2_collect ord').
