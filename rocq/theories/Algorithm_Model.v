(** Model of the basic algorithms: lib/hnco/algorithms/algorithm.{hh,cc},
    iterative-algorithm.cc, complete-search.cc, random-search.cc, local-search/ and
    decorators/restart.cc.

    Values of functions are finite doubles, modelled by integers: only their order
    matters here. *)

From Verif Require Import Base BitVector_Model Iterator_Model Neighborhood_Model.

(** Result of a member function of an algorithm.  Contrary to [outcome], the
    state reached is always known, also when an exception goes through.  [Pending]
    means that the call has not returned yet. *)
Inductive res (A : Type) : Type := Ret (a : A) | Exc (e : exn) | Bad | Pending.
Arguments Ret {A} a.
Arguments Exc {A} e.
Arguments Bad {A}.
Arguments Pending {A}.

Definition of_outcome {A} (o : outcome A) : res A :=
  match o with Ok a => Ret a | Throw e => Exc e | UB => Bad end.
Definition of_option {A} (o : option (outcome A)) : res A :=
  match o with None => Pending | Some o => of_outcome o end.

(** Actions on a state *)
Definition act (S A : Type) : Type := S -> res A * S.
Definition aret {S A} (a : A) : act S A := fun s => (Ret a, s).
Definition abind {S A B} (m : act S A) (k : A -> act S B) : act S B :=
  fun s => match m s with
           | (Ret a, s') => k a s'
           | (Exc e, s') => (Exc e, s')
           | (Bad, s') => (Bad, s')
           | (Pending, s') => (Pending, s')
           end.
Notation "x <~ m ;; k" := (abind m (fun x => k)) (at level 61, m at next level, right associativity).
Definition amodify {S} (f : S -> S) : act S unit := fun s => (Ret tt, f s).
Definition aget {S A} (f : S -> A) : act S A := fun s => (Ret (f s), s).
Definition aassert {S} (b : bool) : act S unit := fun s => (if b then Ret tt else Bad, s).
Definition athrow {S A} (e : exn) : act S A := fun s => (Exc e, s).

(** The function given to maximize, seen by the algorithm: evaluation number c
    (counting from 0) throws [e] when [o_stop c = Some e], otherwise it returns the
    value of the vector.  [o_inc] is evaluate_incrementally, [o_provides] is
    provides_incremental_evaluation. *)
Record objective := mk_objective {
  o_value : bv -> Z;
  o_stop : nat -> option exn;
  o_provides : bool;
  o_inc : bv -> Z -> list nat -> Z
}.

(** State of an algorithm: _solution (algorithm.hh:60), _last_iteration
    (iterative-algorithm.hh:40), the members of the class [X], and the vectors
    evaluated so far (not in the code). *)
Record alg (X : Type) := mk_alg { a_trace : list bv; a_sol : bv * Z; a_last : bool; a_mem : X }.
Arguments mk_alg {X}.
Arguments a_trace {X}.
Arguments a_sol {X}.
Arguments a_last {X}.
Arguments a_mem {X}.

Section Core.
  Context {X : Type}.

  Definition put_sol (v : bv * Z) (s : alg X) : alg X := mk_alg (a_trace s) v (a_last s) (a_mem s).
  Definition put_last (b : bool) (s : alg X) : alg X := mk_alg (a_trace s) (a_sol s) b (a_mem s).
  Definition put_mem (m : X) (s : alg X) : alg X := mk_alg (a_trace s) (a_sol s) (a_last s) m.
  Definition put_trace (x : bv) (s : alg X) : alg X := mk_alg (a_trace s ++ [x]) (a_sol s) (a_last s) (a_mem s).

  (** algorithm.hh:113-118: constructor *)
  Definition alg_make (n : nat) (m : X) : outcome (alg X) :=
    _ <- ensureb (0 <? n) ;;
    Ok (mk_alg [] (repeat false n, 0%Z) false m).

  (** _function->evaluate(x) *)
  Definition evaluate (o : objective) (x : bv) : act (alg X) Z := fun s =>
    match o_stop o (length (a_trace s)) with
    | Some e => (Exc e, s)
    | None => (Ret (o_value o x), put_trace x s)
    end.

  (** _function->evaluate_incrementally(x, v, flipped_bits); [y] is the flipped
      vector, for the trace only *)
  Definition evaluate_incrementally (o : objective) (x : bv) (v : Z) (l : list nat) (y : bv) : act (alg X) Z := fun s =>
    match o_stop o (length (a_trace s)) with
    | Some e => (Exc e, s)
    | None => (Ret (o_inc o x v l), put_trace y s)
    end.

  (** algorithm.cc:28-35; [bit] gives the random bits.  The vector is overwritten
      before the evaluation. *)
  Definition random_solution (o : objective) (bit : nat -> bool) : act (alg X) unit :=
    _ <~ amodify (fun s => put_sol (bv_random (fst (a_sol s)) bit, snd (a_sol s)) s) ;;
    x <~ aget (fun s => fst (a_sol s)) ;;
    v <~ evaluate o x ;;
    amodify (put_sol (x, v)).

  (** algorithm.cc:37-42 *)
  Definition set_solution (x : bv) (v : Z) : act (alg X) unit := amodify (put_sol (x, v)).
  (** algorithm.cc:44-50 *)
  Definition set_solution_eval (o : objective) (x : bv) : act (alg X) unit :=
    v <~ evaluate o x ;; set_solution x v.

  (** algorithm.cc:52-59 and 61-66 *)
  Definition update_solution (x : bv) (v : Z) : act (alg X) unit := fun s =>
    if (snd (a_sol s) <? v)%Z then (Ret tt, put_sol (x, v) s) else (Ret tt, s).
  (** algorithm.cc:68-74 *)
  Definition update_solution_eval (o : objective) (x : bv) : act (alg X) unit :=
    v <~ evaluate o x ;; update_solution x v.

  (** iterative-algorithm.cc:32-48: iteration number [i] is about to start; [fuel]
      bounds the number of iterations explored.  Logging is not modelled. *)
  Fixpoint loop_from (iterate : nat -> act (alg X) unit) (num : Z) (i fuel : nat) : act (alg X) unit :=
    match fuel with
    | 0 => fun s => (Pending, s)
    | S fuel' => fun s =>
        if ((0 <? num) && (num <=? Z.of_nat i))%Z then (Ret tt, s)
        else if a_last s then (Ret tt, s)
        else (_ <~ iterate i ;; loop_from iterate num (i + 1) fuel') s
    end.

  (** iterative-algorithm.cc:27-57 *)
  Definition loop (init : act (alg X) unit) (iterate : nat -> act (alg X) unit) (num : Z) (fuel : nat) : act (alg X) unit :=
    _ <~ init ;;
    _ <~ amodify (put_last false) ;;
    loop_from iterate num 0 fuel.
End Core.

(** * Complete search *)

(** complete-search.cc:42-43 *)
Fixpoint complete_loop (o : objective) (fuel : nat) (it : hc_state) : act (alg unit) unit :=
  match fuel with
  | 0 => fun s => (Pending, s)
  | S fuel' => fun s =>
      if hc_has_next it then
        match hc_next it with
        | Ok (x, it') => (_ <~ update_solution_eval o x ;; complete_loop o fuel' it') s
        | _ => (Bad, s)
        end
      else (Ret tt, s)
  end.

(** complete-search.cc:30-44 *)
Definition complete_search (o : objective) (n fuel : nat) : act (alg unit) unit := fun s =>
  let it := hc_make n in
  if hc_has_next it then
    match hc_next it with
    | Ok (x, it') => (_ <~ set_solution_eval o x ;; complete_loop o fuel it') s
    | _ => (Bad, s)
    end
  else (Exc RuntimeError, s).

(** * Random search *)

(** random-search.cc:27-33 *)
Definition rs_init (o : objective) (bit : nat -> bool) : act (alg bv) unit := random_solution o bit.

(** random-search.cc:36-41; the member is _candidate *)
Definition rs_iterate (o : objective) (bits : nat -> nat -> bool) (i : nat) : act (alg bv) unit :=
  _ <~ amodify (fun s => put_mem (bv_random (a_mem s) (bits i)) s) ;;
  x <~ aget a_mem ;;
  update_solution_eval o x.

(** * Local search *)

(** local-search-algorithm.hh:48 and 38: _random_initialization (with the bits
    drawn) or _starting_point *)
Inductive start := RandomStart (bit : nat -> bool) | StartAt (x : bv).

(** local-search-algorithm.hh:57-65, without set_origin *)
Definition start_solution {X} (o : objective) (st : start) : act (alg X) unit :=
  match st with RandomStart bit => random_solution o bit | StartAt x => set_solution_eval o x end.

(** ** Hill climbing *)

(** The neighborhood iterators *)
Inductive nit := NSingle (s : sb_state) | NSphere (s : hs_state).
Definition nit_init (t : nit) : nit := match t with NSingle s => NSingle (sb_init s) | NSphere s => NSphere (hs_init s) end.
Definition nit_set_origin (t : nit) (x : bv) : outcome nit :=
  match t with
  | NSingle s => s' <- sb_set_origin s x ;; Ok (NSingle s')
  | NSphere s => s' <- hs_set_origin s x ;; Ok (NSphere s')
  end.
Definition nit_has_next (t : nit) : outcome bool :=
  match t with NSingle s => Ok (sb_has_next s) | NSphere s => hs_has_next s end.
Definition nit_next (t : nit) : outcome (bv * nit) :=
  match t with
  | NSingle s => '(x, s') <- sb_next s ;; Ok (x, NSingle s')
  | NSphere s => '(x, s') <- hs_next s ;; Ok (x, NSphere s')
  end.

(** An action on the member, which may fail *)
Definition on_mem {X A} (f : X -> outcome (A * X)) : act (alg X) A := fun s =>
  match f (a_mem s) with
  | Ok (a, m) => (Ret a, put_mem m s)
  | Throw e => (Exc e, s)
  | UB => (Bad, s)
  end.

(** local-search-algorithm.hh:57-67; the member is *_neighborhood *)
Definition hc_alg_init (o : objective) (st : start) : act (alg nit) unit :=
  _ <~ start_solution o st ;;
  x <~ aget (fun s => fst (a_sol s)) ;;
  on_mem (fun t => t' <- nit_set_origin t x ;; Ok (tt, t')).

(** first-ascent-hill-climbing.cc:40-48; true when a better neighbor was found.
    [fuel] bounds the number of neighbors explored. *)
Fixpoint first_loop (o : objective) (fuel : nat) : act (alg nit) bool :=
  match fuel with
  | 0 => fun s => (Pending, s)
  | S fuel' =>
      h <~ on_mem (fun t => h <- nit_has_next t ;; Ok (h, t)) ;;
      if (h : bool) then
        x <~ on_mem nit_next ;;
        v <~ evaluate o x ;;
        cur <~ aget (fun s => snd (a_sol s)) ;;
        if (cur <? v)%Z then
          _ <~ amodify (put_sol (x, v)) ;; aret true
        else first_loop o fuel'
      else aret false
  end.

(** first-ascent-hill-climbing.cc:33-51 *)
Definition first_iterate (o : objective) (fuel : nat) (i : nat) : act (alg nit) unit :=
  _ <~ amodify (fun s => put_mem (nit_init (a_mem s)) s) ;;
  found <~ first_loop o fuel ;;
  if (found : bool) then aret tt else amodify (put_last true).

(** The members of steepest ascent: *_neighborhood and _candidates; [index] is the
    number of candidates stored, a local variable. *)
Record sahc := mk_sahc { sa_nit : nit; sa_cands : list bv }.
Definition on_nit {A} (f : nit -> outcome (A * nit)) : act (alg sahc) A :=
  on_mem (fun m => '(a, t) <- f (sa_nit m) ;; Ok (a, mk_sahc t (sa_cands m))).
Definition store_candidate (x : bv) (index : nat) : act (alg sahc) nat :=
  on_mem (fun m => c <- vset (sa_cands m) index x ;; Ok (index + 1, mk_sahc (sa_nit m) c)).

(** steepest-ascent-hill-climbing.hh:48-50: _candidates has n elements *)
Definition sahc_make (n : nat) (t : nit) : sahc := mk_sahc t (repeat (repeat false n) n).

Definition sahc_init (o : objective) (st : start) : act (alg sahc) unit :=
  _ <~ start_solution o st ;;
  x <~ aget (fun s => fst (a_sol s)) ;;
  on_nit (fun t => t' <- nit_set_origin t x ;; Ok (tt, t')).

(** steepest-ascent-hill-climbing.cc:52-63 *)
Fixpoint steepest_loop (o : objective) (fuel : nat) (best : Z) (index : nat) : act (alg sahc) (Z * nat) :=
  match fuel with
  | 0 => fun s => (Pending, s)
  | S fuel' =>
      h <~ on_nit (fun t => h <- nit_has_next t ;; Ok (h, t)) ;;
      if (h : bool) then
        x <~ on_nit nit_next ;;
        v <~ evaluate o x ;;
        if (best <? v)%Z then
          i <~ store_candidate x 0 ;; steepest_loop o fuel' v i
        else if (v =? best)%Z then
          size <~ aget (fun s => length (sa_cands (a_mem s))) ;;
          if index <? size then i <~ store_candidate x index ;; steepest_loop o fuel' best i
          else steepest_loop o fuel' best index
        else steepest_loop o fuel' best index
      else aret (best, index)
  end.

(** steepest-ascent-hill-climbing.cc:36-76; [pick i lo hi] is the number drawn at
    iteration i *)
Definition steepest_iterate (o : objective) (pick : nat -> nat -> nat -> nat) (fuel : nat) (i : nat) : act (alg sahc) unit :=
  _ <~ on_nit (fun t => Ok (tt, nit_init t)) ;;
  h <~ on_nit (fun t => h <- nit_has_next t ;; Ok (h, t)) ;;
  _ <~ aassert h ;;
  x <~ on_nit nit_next ;;
  v <~ evaluate o x ;;
  index <~ store_candidate x 0 ;;
  r <~ steepest_loop o fuel v index ;;
  let (best, index) := r : Z * nat in
  size <~ aget (fun s => length (sa_cands (a_mem s))) ;;
  _ <~ aassert ((1 <=? index) && (index <=? size)) ;;
  cur <~ aget (fun s => snd (a_sol s)) ;;
  if (cur <? best)%Z then
    y <~ on_mem (fun m => y <- vget (sa_cands m) (pick i 0 (index - 1)) ;; Ok (y, m)) ;;
    _ <~ amodify (put_sol (y, best)) ;;
    on_nit (fun t => t' <- nit_set_origin t y ;; Ok (tt, t'))
  else amodify (put_last true).

(** ** Random local search *)

(** random-local-search.hh:42-58: _num_failures, *_neighborhood and the parameters
    _compare, _patience, _incremental_evaluation *)
Record rls := mk_rls { rls_failures : Z; rls_nh : nh }.
Record rls_parameters := mk_rls_parameters { p_compare : Z -> Z -> bool; p_patience : Z; p_incremental : bool }.

Definition rls_propose (d : draws) : act (alg rls) unit := fun s =>
  match nh_propose (rls_nh (a_mem s)) d with
  | None => (Pending, s)
  | Some (Ok h) => (Ret tt, put_mem (mk_rls (rls_failures (a_mem s)) h) s)
  | Some (Throw e) => (Exc e, s)
  | Some UB => (Bad, s)
  end.

(** random-local-search.cc:33-38 *)
Definition rls_init (o : objective) (st : start) : act (alg rls) unit :=
  _ <~ start_solution o st ;;
  _ <~ amodify (fun s => put_mem (mk_rls (rls_failures (a_mem s)) (nh_set_origin (rls_nh (a_mem s)) (fst (a_sol s)))) s) ;;
  amodify (fun s => put_mem (mk_rls 0 (rls_nh (a_mem s))) s).

(** random-local-search.cc:63-79 and 96-112: the two functions share their end *)
Definition rls_decide (p : rls_parameters) (v : Z) : act (alg rls) unit :=
  cur <~ aget (fun s => snd (a_sol s)) ;;
  _ <~ (if p_compare p v cur then
          _ <~ on_mem (fun m => h <- nh_keep (rls_nh m) ;; Ok (tt, mk_rls (rls_failures m) h)) ;;
          _ <~ amodify (fun s => put_sol (fst (a_sol s), v) s) ;;
          amodify (fun s => put_mem (mk_rls 0 (rls_nh (a_mem s))) s)
        else
          _ <~ on_mem (fun m => h <- nh_forget (rls_nh m) ;; Ok (tt, mk_rls (rls_failures m) h)) ;;
          amodify (fun s => put_mem (mk_rls (rls_failures (a_mem s) + 1) (rls_nh (a_mem s))) s)) ;;
  f <~ aget (fun s => rls_failures (a_mem s)) ;;
  if ((0 <? p_patience p) && (f =? p_patience p))%Z then
    _ <~ amodify (fun s => put_sol (nh_origin (rls_nh (a_mem s)), snd (a_sol s)) s) ;;
    amodify (put_last true)
  else aret tt.

(** random-local-search.cc:41-114 *)
Definition rls_iterate (o : objective) (p : rls_parameters) (d : nat -> draws) (i : nat) : act (alg rls) unit :=
  _ <~ rls_propose (d i) ;;
  h <~ aget (fun s => rls_nh (a_mem s)) ;;
  cur <~ aget (fun s => snd (a_sol s)) ;;
  v <~ (if p_incremental p && o_provides o
        then evaluate_incrementally o (nh_origin h) cur (nh_flipped h) (nh_candidate h)
        else evaluate o (nh_candidate h)) ;;
  rls_decide p v.

(** random-local-search.cc:117-124 *)
Definition rls_finalize (s : alg rls) : alg rls := put_sol (nh_origin (rls_nh (a_mem s)), snd (a_sol s)) s.

(** ** Random walk *)

(** random-walk.hh:47: _value, which the constructor and init leave uninitialised *)
Record rw := mk_rw { rw_value : Z; rw_nh : nh }.

Definition rw_propose (d : draws) : act (alg rw) unit := fun s =>
  match nh_propose (rw_nh (a_mem s)) d with
  | None => (Pending, s)
  | Some (Ok h) => (Ret tt, put_mem (mk_rw (rw_value (a_mem s)) h) s)
  | Some (Throw e) => (Exc e, s)
  | Some UB => (Bad, s)
  end.

Definition rw_init (o : objective) (st : start) : act (alg rw) unit :=
  _ <~ start_solution o st ;;
  amodify (fun s => put_mem (mk_rw (rw_value (a_mem s)) (nh_set_origin (rw_nh (a_mem s)) (fst (a_sol s)))) s).

(** random-walk.cc:32-70 *)
Definition rw_iterate (o : objective) (incremental : bool) (d : nat -> draws) (i : nat) : act (alg rw) unit :=
  _ <~ rw_propose (d i) ;;
  m <~ aget a_mem ;;
  v <~ (if incremental && o_provides o
        then evaluate_incrementally o (nh_origin (rw_nh m)) (rw_value m) (nh_flipped (rw_nh m)) (nh_candidate (rw_nh m))
        else evaluate o (nh_candidate (rw_nh m))) ;;
  _ <~ amodify (fun s => put_mem (mk_rw v (rw_nh (a_mem s))) s) ;;
  _ <~ on_mem (fun m => h <- nh_keep (rw_nh m) ;; Ok (tt, mk_rw (rw_value m) h)) ;;
  h <~ aget (fun s => rw_nh (a_mem s)) ;;
  update_solution (nh_candidate h) v.

(** ** Simulated annealing *)

(** simulated-annealing.hh:48-54: _current_value and *_neighborhood.  _beta and
    _transitions only decide whether a worse candidate is accepted: the decision is
    an argument. *)
Record sa := mk_sa { sa_current : Z; sa_nh : nh }.

Definition sa_propose (d : draws) : act (alg sa) unit := fun s =>
  match nh_propose (sa_nh (a_mem s)) d with
  | None => (Pending, s)
  | Some (Ok h) => (Ret tt, put_mem (mk_sa (sa_current (a_mem s)) h) s)
  | Some (Throw e) => (Exc e, s)
  | Some UB => (Bad, s)
  end.
Definition sa_origin (x : bv) : act (alg sa) unit :=
  amodify (fun s => put_mem (mk_sa (sa_current (a_mem s)) (nh_set_origin (sa_nh (a_mem s)) x)) s).
Definition sa_keep : act (alg sa) unit := on_mem (fun m => h <- nh_keep (sa_nh m) ;; Ok (tt, mk_sa (sa_current m) h)).
Definition sa_forget : act (alg sa) unit := on_mem (fun m => h <- nh_forget (sa_nh m) ;; Ok (tt, mk_sa (sa_current m) h)).

(** simulated-annealing.cc:43-56; trial number [i], [trials] being left; the local
    vector bv has size [n] *)
Fixpoint beta_trials (o : objective) (n : nat) (bits : nat -> nat -> bool) (d : nat -> draws) (trials i : nat) : act (alg sa) unit :=
  match trials with
  | 0 => aret tt
  | S trials' =>
      let x := bv_random (repeat false n) (bits i) in
      a <~ evaluate o x ;;
      _ <~ update_solution x a ;;
      _ <~ sa_origin x ;;
      _ <~ sa_propose (d i) ;;
      y <~ aget (fun s => nh_candidate (sa_nh (a_mem s))) ;;
      b <~ evaluate o y ;;
      _ <~ update_solution y b ;;
      _ <~ sa_forget ;;
      beta_trials o n bits d trials' (i + 1)
  end.

(** simulated-annealing.cc:64-75 *)
Definition sa_init (o : objective) (n : nat) (st : start) (bits : nat -> nat -> bool) (d : nat -> draws) (trials : nat) : act (alg sa) unit :=
  _ <~ start_solution o st ;;
  _ <~ beta_trials o n bits d trials 0 ;;
  x <~ aget (fun s => fst (a_sol s)) ;;
  _ <~ sa_origin x ;;
  amodify (fun s => put_mem (mk_sa (snd (a_sol s)) (sa_nh (a_mem s))) s).

(** simulated-annealing.cc:78-112; [accept i] tells whether
    Generator::uniform() < exp((value - _current_value) * _beta) *)
Definition sa_iterate (o : objective) (d : nat -> draws) (accept : nat -> bool) (i : nat) : act (alg sa) unit :=
  _ <~ sa_propose (d i) ;;
  y <~ aget (fun s => nh_candidate (sa_nh (a_mem s))) ;;
  v <~ evaluate o y ;;
  cur <~ aget (fun s => sa_current (a_mem s)) ;;
  if (cur <=? v)%Z then
    _ <~ sa_keep ;;
    _ <~ amodify (fun s => put_mem (mk_sa v (sa_nh (a_mem s))) s) ;;
    x <~ aget (fun s => nh_origin (sa_nh (a_mem s))) ;;
    update_solution x v
  else if accept i then
    _ <~ sa_keep ;;
    amodify (fun s => put_mem (mk_sa v (sa_nh (a_mem s))) s)
  else sa_forget.

(** * Restart *)

(** restart.cc:28-37; the decorated algorithm is seen through what its run number
    [i] (maximize followed by finalize) gives: a solution or an exception. *)
Definition restart_iterate (runs : nat -> res (bv * Z)) (i : nat) : act (alg unit) unit := fun s =>
  match runs i with
  | Ret r => if i =? 0 then (Ret tt, put_sol r s) else update_solution (fst r) (snd r) s
  | Exc e => (Exc e, s)
  | Bad => (Bad, s)
  | Pending => (Pending, s)
  end.

(** restart.cc:39-52 *)
Fixpoint restart_from (runs : nat -> res (bv * Z)) (num : Z) (i fuel : nat) : act (alg unit) unit :=
  match fuel with
  | 0 => fun s => (Pending, s)
  | S fuel' => fun s =>
      if ((0 <? num) && (num <=? Z.of_nat i))%Z then (Ret tt, s)
      else (_ <~ restart_iterate runs i ;; restart_from runs num (i + 1) fuel') s
  end.
Definition restart (runs : nat -> res (bv * Z)) (num : Z) (fuel : nat) : act (alg unit) unit := restart_from runs num 0 fuel.
