(** Model of evolutionary algorithms: lib/hnco/algorithms/evolutionary-algorithms/.

    Populations are evaluated sequentially (a single function), see
    [pop_evaluate_in_parallel] for the other case. Mutation rates are exact
    rationals; the comparison of the rate with 1 / sqrt(n), which chooses the way bits
    are sampled (neighborhoods/neighborhood.hh:282-287), is the argument [small].
    Logging is not modelled. *)

From Coq Require Import QArith.
From Verif Require Import Base BitVector_Model Neighborhood_Model Algorithm_Model Population_Model PopAlgorithm_Model ProbabilityVector_Model.
Local Open Scope nat_scope.

(** * Crossover *)

(** UniformCrossover::recombine: crossover.cc:29-41; [coin i] is the i-th result of
    Generator::bernoulli. *)
Definition uniform_crossover (coin : nat -> bool) (parent1 parent2 offspring : bv) : outcome bv :=
  _ <- assertb (length offspring =? length parent1) ;;
  _ <- assertb (length offspring =? length parent2) ;;
  foldM (fun z i => b <- (if coin i then vget parent1 i else vget parent2 i) ;; vset z i b)
    (seq 0 (length offspring)) offspring.

(** BiasedCrossover::recombine: crossover.cc:44-56; [coin i] is the i-th result of
    _bernoulli_dist. *)
Definition biased_crossover (coin : nat -> bool) (parent1 parent2 offspring : bv) : outcome bv :=
  _ <- assertb (length offspring =? length parent1) ;;
  _ <- assertb (length offspring =? length parent2) ;;
  foldM (fun z i => b <- (if coin i then vget parent2 i else vget parent1 i) ;; vset z i b)
    (seq 0 (length offspring)) offspring.

(** BiasedCrossover::set_bias: crossover.hh:99-104 *)
Definition set_bias (b : Q) : outcome Q :=
  _ <- assertb (qltb 0 b) ;; _ <- assertb (qltb b 1) ;; Ok b.

(** * Parents and offsprings *)

(** The members _parents, _offsprings and _mutation (mu-plus-lambda-ea.hh:45-60,
    mu-comma-lambda-ea.hh:45-60, genetic-algorithm.hh:57-76), and what differs:
    the pool of the plus selection or the tournament selection. *)
Record ea (Y : Type) := mk_ea { ea_parents : population; ea_offs : population; ea_mut : nh; ea_extra : Y }.
Arguments mk_ea {Y}.
Arguments ea_parents {Y}.
Arguments ea_offs {Y}.
Arguments ea_mut {Y}.
Arguments ea_extra {Y}.

Section Reproduction.
  Context {Y : Type}.
  Definition put_parents (p : population) (m : ea Y) : ea Y := mk_ea p (ea_offs m) (ea_mut m) (ea_extra m).
  Definition put_offs (p : population) (m : ea Y) : ea Y := mk_ea (ea_parents m) p (ea_mut m) (ea_extra m).
  Definition put_mut (h : nh) (m : ea Y) : ea Y := mk_ea (ea_parents m) (ea_offs m) h (ea_extra m).
  Definition put_extra (y : Y) (m : ea Y) : ea Y := mk_ea (ea_parents m) (ea_offs m) (ea_mut m) y.

  (** _mutation.set_mutation_rate(...); _mutation.set_allow_no_mutation(...);
      mu-plus-lambda-ea.cc:34-35, mu-comma-lambda-ea.cc:34-35, genetic-algorithm.cc:38-39 *)
  Definition set_mutation (small allow : bool) : act (alg (ea Y)) unit :=
    amodify (fun s => put_mem (put_mut (nh_set_allow_no_mutation (nh_set_mutation_rate (ea_mut (a_mem s)) small) allow) (a_mem s)) s).

  (** offspring = x, where offspring is _offsprings.bvs[k] *)
  Definition set_offspring (k : nat) (x : bv) : act (alg (ea Y)) unit :=
    on_mem (fun m => bs <- vset (p_bvs (ea_offs m)) k x ;;
      Ok (tt, put_offs (mk_pop bs (p_values (ea_offs m)) (p_perm (ea_offs m))) m)).

  (** _mutation.mutate(offspring) *)
  Definition mutate_offspring (k : nat) (d : draws) : act (alg (ea Y)) unit :=
    m <~ aget a_mem ;;
    x <~ lift (vget (p_bvs (ea_offs m)) k) ;;
    match nh_mutate (ea_mut m) x d with
    | None => fun s => (Pending, s)
    | Some o =>
        r <~ lift o ;;
        _ <~ set_offspring k (snd r) ;;
        amodify (fun s => put_mem (put_mut (fst r) (a_mem s)) s)
    end.

  (** _parents.random(); _parents.evaluate(_function); _parents.sort();
      set_solution(_parents.get_best_bv(), _parents.get_best_value());
      mu-plus-lambda-ea.cc:37-42, genetic-algorithm.cc:41-46 *)
  Definition random_parents (bits : nat -> nat -> bool) : act (alg (ea Y)) unit :=
    amodify (fun s => put_mem (put_parents (pop_random bits (ea_parents (a_mem s))) (a_mem s)) s).
  Definition start_parents (o : objective) (bits : nat -> nat -> bool) (sh : list nat -> list nat)
      (srt : (nat -> nat -> bool) -> list nat -> list nat) : act (alg (ea Y)) unit :=
    _ <~ random_parents bits ;;
    _ <~ eval_pop ea_parents put_parents o ;;
    _ <~ sort_pop ea_parents put_parents sh srt ;;
    p <~ aget (fun s => ea_parents (a_mem s)) ;;
    b <~ lift (best_bv p 0) ;;
    v <~ lift (best_value p 0) ;;
    set_solution b v.

  (** offspring = _parents.bvs[_select_parent(Generator::engine)]; [j] is the number
      drawn *)
  Definition copy_parent (k j : nat) : act (alg (ea Y)) unit :=
    p <~ aget (fun s => ea_parents (a_mem s)) ;;
    x <~ lift (vget (p_bvs p) j) ;;
    set_offspring k x.

  (** The loops of mu-plus-lambda-ea.cc:49-53 and mu-comma-lambda-ea.cc:49-53;
      [pick k lo hi] is the number drawn for offspring k *)
  Definition make_offsprings (pick : nat -> nat -> nat -> nat) (d : nat -> draws) : act (alg (ea Y)) unit :=
    m <~ aget a_mem ;;
    afor (fun k =>
      _ <~ copy_parent k (pick k 0 (pop_size (ea_parents m) - 1)) ;;
      mutate_offspring k (d k)) (seq 0 (pop_size (ea_offs m))).
End Reproduction.

(** * (mu+lambda) EA *)

(** Constructor: mu-plus-lambda-ea.hh:94-101; [_rejection_sampling] and
    [_allow_no_mutation] of a new StandardBitMutation are false *)
Definition mupl_make (n mu lambda : nat) : outcome (ea population) :=
  parents <- pop_make mu n ;;
  offs <- pop_make lambda n ;;
  pool <- plus_make parents offs ;;
  h <- nh_make (StandardBitMutation false false) n ;;
  Ok (mk_ea parents offs h pool).

(** mu-plus-lambda-ea.cc:31-43 *)
Definition mupl_init (o : objective) (small allow : bool) (bits : nat -> nat -> bool) (sh : list nat -> list nat)
    (srt : (nat -> nat -> bool) -> list nat -> list nat) : act (alg (ea population)) unit :=
  _ <~ set_mutation small allow ;;
  start_parents o bits sh srt.

(** mu-plus-lambda-ea.cc:46-64; the random numbers of iteration [t] are given by
    [pick t], [d t] and [shs t] *)
Definition mupl_iterate (o : objective) (pick : nat -> nat -> nat -> nat -> nat) (d : nat -> nat -> draws)
    (shs : nat -> list nat -> list nat) (psrt : nat -> (nat -> nat -> bool) -> list nat -> list nat) (t : nat)
    : act (alg (ea population)) unit :=
  _ <~ make_offsprings (pick t) (d t) ;;
  _ <~ eval_pop ea_offs put_offs o ;;
  _ <~ on_mem (fun m => '(ps, os, pool) <- plus_select (shs t) psrt (ea_parents m) (ea_offs m) (ea_extra m) ;;
         Ok (tt, mk_ea ps os (ea_mut m) pool)) ;;
  update_with_best ea_parents.

(** * (mu,lambda) EA *)

(** Constructor: mu-comma-lambda-ea.hh:94-101 *)
Definition mucl_make (n mu lambda : nat) : outcome (ea unit) :=
  parents <- pop_make mu n ;;
  offs <- pop_make lambda n ;;
  _ <- comma_make parents offs ;;
  h <- nh_make (StandardBitMutation false false) n ;;
  Ok (mk_ea parents offs h tt).

(** mu-comma-lambda-ea.cc:31-43 *)
Definition mucl_init (o : objective) (small allow : bool) (bits : nat -> nat -> bool) (bit : nat -> bool) : act (alg (ea unit)) unit :=
  _ <~ set_mutation small allow ;;
  _ <~ random_parents bits ;;
  random_solution o bit.

(** _comma_selection.select() *)
Definition comma_replace {Y} (sh : list nat -> list nat) (psrt : nat -> (nat -> nat -> bool) -> list nat -> list nat) : act (alg (ea Y)) unit :=
  on_mem (fun m => '(ps, os) <- comma_select sh psrt (ea_parents m) (ea_offs m) ;;
    Ok (tt, mk_ea ps os (ea_mut m) (ea_extra m))).

(** mu-comma-lambda-ea.cc:46-64 *)
Definition mucl_iterate (o : objective) (pick : nat -> nat -> nat -> nat -> nat) (d : nat -> nat -> draws)
    (shs : nat -> list nat -> list nat) (psrt : nat -> (nat -> nat -> bool) -> list nat -> list nat) (t : nat)
    : act (alg (ea unit)) unit :=
  _ <~ make_offsprings (pick t) (d t) ;;
  _ <~ eval_pop ea_offs put_offs o ;;
  _ <~ comma_replace (shs t) psrt ;;
  update_with_best ea_parents.

(** * Genetic algorithm *)

(** Constructor: genetic-algorithm.hh:115-122; [garbage] are the uninitialised bounds
    of the tournament selection *)
Definition ga_make (n mu : nat) (garbage : nat * nat) : outcome (ea tournament) :=
  parents <- pop_make mu n ;;
  offs <- pop_make mu n ;;
  _ <- comma_make parents offs ;;
  t <- tournament_make (p_bvs parents) (p_values parents) garbage ;;
  h <- nh_make (StandardBitMutation false false) n ;;
  Ok (mk_ea parents offs h t).

(** genetic-algorithm.cc:30-47 and random-selection.cc:38-43 *)
Definition ga_init (o : objective) (tsize : nat) (small allow : bool) (bits : nat -> nat -> bool) (sh0 sh : list nat -> list nat)
    (srt : (nat -> nat -> bool) -> list nat -> list nat) : act (alg (ea tournament)) unit :=
  _ <~ on_mem (fun m => t <- set_tournament_size (p_bvs (ea_parents m)) (ea_extra m) tsize ;;
         Ok (tt, put_extra (tournament_init sh0 t) m)) ;;
  _ <~ set_mutation small allow ;;
  start_parents o bits sh srt.

(** _tournament_selection.select(); random-selection.cc:45-49 *)
Definition select_parent (sh : list nat -> list nat) : act (alg (ea tournament)) bv :=
  on_mem (fun m =>
    '(b, t) <- tournament_select (fun v w => (w <? v)%Z) (p_bvs (ea_parents m)) (p_values (ea_parents m)) sh (ea_extra m) ;;
    Ok (b, put_extra t m)).

(** genetic-algorithm.cc:53-64, offspring number [k]: [cross] is the result of
    _do_crossover, [coin] those of the crossover, [sh1] and [sh2] the shuffles
    available to the two selections. The order of evaluation of the two arguments of
    recombine is not specified by C++: the first one is evaluated first here. *)
Definition ga_offspring (cross : bool) (coin : nat -> bool) (sh1 sh2 : list nat -> list nat) (d : draws) (k : nat)
    : act (alg (ea tournament)) unit :=
  _ <~ (if cross then
          x <~ select_parent sh1 ;;
          y <~ select_parent sh2 ;;
          p <~ aget (fun s => ea_offs (a_mem s)) ;;
          z <~ lift (vget (p_bvs p) k) ;;
          z <~ lift (uniform_crossover coin x y z) ;;
          set_offspring k z
        else
          x <~ select_parent sh1 ;;
          set_offspring k x) ;;
  mutate_offspring k d.

(** genetic-algorithm.cc:50-75 *)
Definition ga_iterate (o : objective) (cross : nat -> nat -> bool) (coin : nat -> nat -> nat -> bool)
    (sh1 sh2 : nat -> nat -> list nat -> list nat) (d : nat -> nat -> draws)
    (shs : nat -> list nat -> list nat) (psrt : nat -> (nat -> nat -> bool) -> list nat -> list nat) (t : nat)
    : act (alg (ea tournament)) unit :=
  m <~ aget a_mem ;;
  _ <~ afor (fun k => ga_offspring (cross t k) (coin t k) (sh1 t k) (sh2 t k) (d t k) k) (seq 0 (pop_size (ea_offs m))) ;;
  _ <~ eval_pop ea_offs put_offs o ;;
  _ <~ comma_replace (shs t) psrt ;;
  update_with_best ea_parents.

(** * (1+(lambda,lambda)) GA *)

(** The members of one-plus-lambda-comma-lambda-ga.hh:51-66; _offsprings, _mutation
    and _parent *)
Record llga := mk_llga { ll_offs : population; ll_mut : nh; ll_parent : bv }.
Definition ll_put (p : population) (m : llga) : llga := mk_llga p (ll_mut m) (ll_parent m).

(** Constructor: one-plus-lambda-comma-lambda-ga.hh:102-114 *)
Definition llga_make (n lambda : nat) : outcome llga :=
  p <- pop_make lambda n ;;
  h <- nh_make (HammingSphere 1) n ;;
  _ <- assertb (0 <? n) ;;
  _ <- assertb (0 <? lambda) ;;
  _ <- assertb (lambda <=? n) ;;
  Ok (mk_llga p h (repeat false n)).

(** one-plus-lambda-comma-lambda-ga.cc:30-37; [bias] is _crossover_bias, by default
    1 / lambda *)
Definition llga_init (o : objective) (bias : Q) (bit : nat -> bool) : act (alg llga) unit :=
  _ <~ lift (set_bias bias) ;;
  random_solution o bit.

Definition ll_set_offspring (k : nat) (x : bv) : act (alg llga) unit :=
  on_mem (fun m => bs <- vset (p_bvs (ll_offs m)) k x ;;
    Ok (tt, ll_put (mk_pop bs (p_values (ll_offs m)) (p_perm (ll_offs m))) m)).

(** _mutation.map(_solution.first, offspring) *)
Definition ll_mutate (k : nat) (d : draws) : act (alg llga) unit :=
  x <~ aget (fun s => fst (a_sol s)) ;;
  m <~ aget a_mem ;;
  z <~ lift (vget (p_bvs (ll_offs m)) k) ;;
  match nh_map (ll_mut m) x z d with
  | None => fun s => (Pending, s)
  | Some o =>
      r <~ lift o ;;
      _ <~ ll_set_offspring k (snd r) ;;
      amodify (fun s => put_mem (mk_llga (ll_offs (a_mem s)) (fst r) (ll_parent (a_mem s))) s)
  end.

(** int n = 0; while (get_best_value(n) == value && n < get_size()) n++;
    one-plus-lambda-comma-lambda-ga.cc:55-58 and 71-73.  [fuel] bounds the number of
    increments; it is never exhausted when it is larger than the size. *)
Fixpoint count_best (p : population) (value : Z) (fuel n : nat) : outcome nat :=
  match fuel with
  | 0 => UB
  | S fuel' =>
      v <- best_value p n ;;
      if (v =? value)%Z && (n <? pop_size p) then count_best p value fuel' (n + 1) else Ok n
  end.

(** value, n and the choice of a best offspring *)
Definition choose_best (pick : nat -> nat -> nat) (value : Z) (p : population) : outcome bv :=
  n <- count_best p value (pop_size p + 2) 0 ;;
  _ <- assertb (0 <? n) ;;
  best_bv p (pick 0 (n - 1)).

(** one-plus-lambda-comma-lambda-ga.cc:40-79; [radius t] is the number drawn with
    _radius_dist *)
Definition llga_iterate (o : objective) (radius : nat -> nat) (d : nat -> nat -> draws) (coin : nat -> nat -> nat -> bool)
    (sh1 sh2 : nat -> list nat -> list nat) (srt : (nat -> nat -> bool) -> list nat -> list nat)
    (pick1 pick2 : nat -> nat -> nat -> nat) (t : nat) : act (alg llga) unit :=
  _ <~ amodify (fun s => put_mem (mk_llga (ll_offs (a_mem s)) (nh_set_radius (ll_mut (a_mem s)) (radius t)) (ll_parent (a_mem s))) s) ;;
  m <~ aget a_mem ;;
  let size := pop_size (ll_offs m) in
  _ <~ afor (fun k => ll_mutate k (d t k)) (seq 0 size) ;;
  _ <~ eval_pop ll_offs ll_put o ;;
  _ <~ sort_pop ll_offs ll_put (sh1 t) srt ;;
  p <~ aget (fun s => ll_offs (a_mem s)) ;;
  value <~ lift (best_value p 0) ;;
  parent <~ lift (choose_best (pick1 t) value p) ;;
  _ <~ amodify (fun s => put_mem (mk_llga (ll_offs (a_mem s)) (ll_mut (a_mem s)) parent) s) ;;
  _ <~ afor (fun k =>
         x <~ aget (fun s => fst (a_sol s)) ;;
         m <~ aget a_mem ;;
         z <~ lift (vget (p_bvs (ll_offs m)) k) ;;
         z <~ lift (biased_crossover (coin t k) x (ll_parent m) z) ;;
         ll_set_offspring k z) (seq 0 size) ;;
  _ <~ eval_pop ll_offs ll_put o ;;
  _ <~ sort_pop ll_offs ll_put (sh2 t) srt ;;
  p <~ aget (fun s => ll_offs (a_mem s)) ;;
  value <~ lift (best_value p 0) ;;
  cur <~ aget (fun s => snd (a_sol s)) ;;
  if (cur <=? value)%Z then
    x <~ lift (choose_best (pick2 t) value p) ;;
    amodify (put_sol (x, value))
  else aret tt.

(** * Self-adjusting (1+1) EA *)

(** The members _mutation and _mutation_rate and the parameters
    self-adjusting-one-plus-one-ea.hh:44-76; [sp_coefficient] is
    pow(_update_strength, _success_ratio) *)
Record saea := mk_saea { sx_nh : nh; sx_rate : Q }.
Record saea_parameters := mk_saea_parameters {
  sp_init : Q; sp_min : Q; sp_max : Q; sp_strength : Q; sp_coefficient : Q; sp_allow : bool; sp_incremental : bool }.

(** set_mutation_rate; [small] tells whether a rate is less than 1 / sqrt(n) *)
Definition set_rate (small : Q -> bool) (p : Q) : act (alg saea) unit :=
  amodify (fun s => put_mem (mk_saea (nh_set_mutation_rate (sx_nh (a_mem s)) (small p)) p) s).

(** self-adjusting-one-plus-one-ea.hh:118-124 *)
Definition saea_make (n : nat) (garbage : Q) : outcome saea :=
  h <- nh_make (StandardBitMutation false false) n ;;
  Ok (mk_saea h garbage).

(** self-adjusting-one-plus-one-ea.cc:32-43 *)
Definition saea_init (o : objective) (p : saea_parameters) (small : Q -> bool) (bit : nat -> bool) : act (alg saea) unit :=
  _ <~ set_rate small (sp_init p) ;;
  _ <~ amodify (fun s => put_mem (mk_saea (nh_set_allow_no_mutation (sx_nh (a_mem s)) (sp_allow p)) (sx_rate (a_mem s))) s) ;;
  _ <~ random_solution o bit ;;
  amodify (fun s => put_mem (mk_saea (nh_set_origin (sx_nh (a_mem s)) (fst (a_sol s))) (sx_rate (a_mem s))) s).

Definition saea_propose (d : draws) : act (alg saea) unit := fun s =>
  match nh_propose (sx_nh (a_mem s)) d with
  | None => (Pending, s)
  | Some (Ok h) => (Ret tt, put_mem (mk_saea h (sx_rate (a_mem s))) s)
  | Some (Throw e) => (Exc e, s)
  | Some UB => (Bad, s)
  end.

(** self-adjusting-one-plus-one-ea.cc:45-102; the functions iterate_full and
    iterate_incremental share their end *)
Definition saea_iterate (o : objective) (p : saea_parameters) (small : Q -> bool) (d : nat -> draws) (i : nat) : act (alg saea) unit :=
  _ <~ saea_propose (d i) ;;
  h <~ aget (fun s => sx_nh (a_mem s)) ;;
  cur <~ aget (fun s => snd (a_sol s)) ;;
  v <~ (if sp_incremental p && o_provides o
        then evaluate_incrementally o (nh_origin h) cur (nh_flipped h) (nh_candidate h)
        else evaluate o (nh_candidate h)) ;;
  rate <~ aget (fun s => sx_rate (a_mem s)) ;;
  if (cur <=? v)%Z then
    _ <~ on_mem (fun m => h <- nh_keep (sx_nh m) ;; Ok (tt, mk_saea h (sx_rate m))) ;;
    _ <~ amodify (fun s => put_sol (fst (a_sol s), v) s) ;;
    set_rate small (qmin (rate * sp_coefficient p) (sp_max p))
  else
    _ <~ on_mem (fun m => h <- nh_forget (sx_nh m) ;; Ok (tt, mk_saea h (sx_rate m))) ;;
    set_rate small (qmax (rate / sp_strength p) (sp_min p)).

(** self-adjusting-one-plus-one-ea.cc:104-109 *)
Definition saea_finalize (s : alg saea) : alg saea := put_sol (nh_origin (sx_nh (a_mem s)), snd (a_sol s)) s.

(** * Two-rate (1+lambda) EA *)

(** The members two-rate-one-plus-lambda-ea.hh:74-78 *)
Record trea := mk_trea { tr_pop : population; tr_nh : nh; tr_rate : Q }.
Definition tr_put (p : population) (m : trea) : trea := mk_trea p (tr_nh m) (tr_rate m).
Definition tr_set_rate (small : Q -> bool) (p : Q) : act (alg trea) unit :=
  amodify (fun s => put_mem (mk_trea (tr_pop (a_mem s)) (nh_set_mutation_rate (tr_nh (a_mem s)) (small p)) (tr_rate (a_mem s))) s).
Definition tr_keep_rate (p : Q) : act (alg trea) unit :=
  amodify (fun s => put_mem (mk_trea (tr_pop (a_mem s)) (tr_nh (a_mem s)) p) s).

(** _mutation_rate_min and _mutation_rate_max: two-rate-one-plus-lambda-ea.hh:51, 89 *)
Definition tr_min (n : nat) : Q := (2 / inject_Z (Z.of_nat n))%Q.
Definition tr_max : Q := (1 # 4)%Q.

(** Constructor: two-rate-one-plus-lambda-ea.hh:46-52 *)
Definition trea_make (n size : nat) (garbage : Q) : outcome trea :=
  p <- pop_make size n ;;
  h <- nh_make (StandardBitMutation false false) n ;;
  Ok (mk_trea p h garbage).

(** two-rate-one-plus-lambda-ea.cc:30-37 *)
Definition trea_init (o : objective) (init : Q) (allow : bool) (bit : nat -> bool) : act (alg trea) unit :=
  _ <~ random_solution o bit ;;
  _ <~ tr_keep_rate init ;;
  amodify (fun s => put_mem (mk_trea (tr_pop (a_mem s)) (nh_set_allow_no_mutation (tr_nh (a_mem s)) allow) (tr_rate (a_mem s))) s).

(** _mutation_operator.map(_solution.first, _population.bvs[k]) *)
Definition tr_mutate (k : nat) (d : draws) : act (alg trea) unit :=
  x <~ aget (fun s => fst (a_sol s)) ;;
  m <~ aget a_mem ;;
  z <~ lift (vget (p_bvs (tr_pop m)) k) ;;
  match nh_map (tr_nh m) x z d with
  | None => fun s => (Pending, s)
  | Some o =>
      r <~ lift o ;;
      _ <~ on_mem (fun m => bs <- vset (p_bvs (tr_pop m)) k (snd r) ;;
             Ok (tt, tr_put (mk_pop bs (p_values (tr_pop m)) (p_perm (tr_pop m))) m)) ;;
      amodify (fun s => put_mem (mk_trea (tr_pop (a_mem s)) (fst r) (tr_rate (a_mem s))) s)
  end.

(** std::clamp(v, lo, hi): undefined if hi < lo *)
Definition clamp (v lo hi : Q) : outcome Q :=
  if qltb hi lo then UB else Ok (if qltb v lo then lo else if qltb hi v then hi else v).

(** two-rate-one-plus-lambda-ea.cc:39-78; [u t] is the result of Generator::uniform *)
Definition trea_iterate (o : objective) (n : nat) (small : Q -> bool) (d : nat -> nat -> draws) (sh : nat -> list nat -> list nat)
    (srt : (nat -> nat -> bool) -> list nat -> list nat) (u : nat -> Q) (t : nat) : act (alg trea) unit :=
  m <~ aget a_mem ;;
  let lambda := pop_size (tr_pop m) in
  let mid := lambda / 2 in
  let low := (tr_rate m / 2)%Q in
  let high := (tr_rate m * 2)%Q in
  _ <~ tr_set_rate small low ;;
  _ <~ afor (fun k => tr_mutate k (d t k)) (seq 0 mid) ;;
  _ <~ tr_set_rate small high ;;
  _ <~ afor (fun k => tr_mutate k (d t k)) (seq mid (lambda - mid)) ;;
  _ <~ eval_pop tr_pop tr_put o ;;
  _ <~ sort_pop tr_pop tr_put (sh t) srt ;;
  _ <~ update_with_best tr_pop ;;
  if qltb (u t) (1 # 4) then tr_keep_rate (qmax low (tr_min n))
  else if qltb (u t) (1 # 2) then tr_keep_rate (qmin high tr_max)
  else
    p <~ aget (fun s => tr_pop (a_mem s)) ;;
    best <~ lift (best_index p 0) ;;
    r <~ lift (clamp (if best <? mid then low else high) (tr_min n) tr_max) ;;
    tr_keep_rate r.

(** * (1+1) EA *)

(** one-plus-one-ea.hh:46-74: its own _solution and the random local search _rls,
    with its neighborhood; by default the local search starts from a random vector
    and accepts equal values (random-local-search.hh:49, local-search-algorithm.hh:48) *)
Record opoea := mk_opoea { op_sol : bv * Z; op_rls : alg rls }.

(** one-plus-one-ea.hh:79-83; [garbage] is the uninitialised number of failures *)
Definition op_make (n : nat) (garbage : Z) : outcome opoea :=
  _ <- ensureb (0 <? n) ;;
  h <- nh_make (StandardBitMutation false false) n ;;
  a <- alg_make n (mk_rls garbage h) ;;
  Ok (mk_opoea (repeat false n, 0%Z) a).

(** one-plus-one-ea.hh:86-94 *)
Definition op_maximize (o : objective) (small allow incremental : bool) (bit : nat -> bool) (d : nat -> draws) (num : Z) (fuel : nat)
    (p : opoea) : res unit * opoea :=
  let m := a_mem (op_rls p) in
  let h := nh_set_allow_no_mutation (nh_set_mutation_rate (rls_nh m) small) allow in
  let '(r, s) := loop (rls_init o (RandomStart bit)) (rls_iterate o (mk_rls_parameters (fun a b => b <=? a)%Z 0 incremental) d) num fuel
                   (put_mem (mk_rls (rls_failures m) h) (op_rls p)) in
  (r, mk_opoea (op_sol p) s).

(** one-plus-one-ea.hh:97-100 *)
Definition op_finalize (p : opoea) : opoea := let s := rls_finalize (op_rls p) in mk_opoea (a_sol s) s.
