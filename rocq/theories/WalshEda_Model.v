(** Model of the herding evolutionary algorithm and of the Boltzmann machine PBIL:
    lib/hnco/algorithms/walsh-moment/hea.hh and bm-pbil.hh. Both are templates over the
    kind of moments, which is an argument. *)

From Coq Require Import QArith.
From Verif Require Import Base BitVector_Model Neighborhood_Model Algorithm_Model Population_Model PopAlgorithm_Model
  ProbabilityVector_Model WalshMoment_Model.
Local Open Scope nat_scope.

(** _selection.init(); for ... _selection.add(...): hea.hh:125-127, bm-pbil.hh:173-175,
    180-182, 187-189. [bvs i] is the i-th vector added. *)
Definition moment_sum (m : moment) (bvs : nat -> outcome bv) (count : nat) : outcome moment :=
  foldM (fun m i => b <- bvs i ;; moment_add m b) (seq 0 count) (moment_init m).

(** * Herding evolutionary algorithm *)

(** Parameters: hea.hh:64-74, and _randomize_bit_order: herding.hh:59 and 115. A negative
    reset period is the same as zero, a negative selection size too. *)
Record he_params := mk_he_params {
  hp_margin : Q;
  hp_selection : nat;
  hp_period : nat;
  hp_rate : Q;
  hp_bound : bool;
  hp_random : bool
}.
(** Default values: hea.hh:64-74 and 175; herding.hh:59 and 115. *)
Definition he_default (n : nat) : he_params :=
  mk_he_params (1 / inject_Z (Z.of_nat n))%Q 1 0 (1 # 10000)%Q true true.

(** Members: hea.hh:46-53, without those which are only logged. *)
Record hea := mk_hea { he_pop : population; he_target : moment; he_selected : moment; he_herding : herding }.
Definition he_put (p : population) (m : hea) : hea := mk_hea p (he_target m) (he_selected m) (he_herding m).

(** Constructor: hea.hh:169-176; [garbage] is the uninitialized time of the herding. The
    constructor of the base class, which comes first, refuses empty vectors. *)
Definition he_make (k : kind) (n size : nat) (garbage : Z) : outcome hea :=
  _ <- ensureb (0 <? n) ;;
  t <- moment_make k n ;;
  s <- moment_make k n ;;
  p <- pop_make size n ;;
  h <- herding_make k n garbage ;;
  Ok (mk_hea p t s h).

Section Hea.
  Variables (k : kind) (o : objective) (p : he_params).
  (** [shb t i] shuffles the bit order of the sample [i] of the iteration [t] and [shs t]
      shuffles the population before it is sorted. *)
  Variables (shb : nat -> nat -> list nat -> list nat) (shs : nat -> list nat -> list nat).
  Variable srt : (nat -> nat -> bool) -> list nat -> list nat.

  (** init: hea.hh:93-98. *)
  Definition he_init (bit : nat -> bool) : act (alg hea) unit :=
    _ <~ random_solution o bit ;;
    amodify (fun s => let m := a_mem s in
      put_mem (mk_hea (he_pop m) (moment_init (he_target m)) (he_selected m) (herding_init (he_herding m))) s).

  (** Reset: hea.hh:102-105. *)
  Definition he_reset (t : nat) (h : herding) : herding :=
    if 0 <? hp_period p then if t mod hp_period p =? 0 then herding_init h else h else h.

  (** Reset and sampling: hea.hh:102-108. *)
  Definition he_sample (t : nat) (m : hea) : outcome (unit * hea) :=
    '(bs, h) <- foldM (fun s i =>
        let '(bs, h) := s in
        b <- vget bs i ;;
        '(b, h) <- herding_sample k (hp_random p) (shb t i) (he_target m) b h ;;
        bs <- vset bs i b ;;
        Ok (bs, h)) (seq 0 (pop_size (he_pop m))) (p_bvs (he_pop m), he_reset t (he_herding m)) ;;
    Ok (tt, mk_hea (mk_pop bs (p_values (he_pop m)) (p_perm (he_pop m))) (he_target m) (he_selected m) h).

  (** Learning: hea.hh:125-133. *)
  Definition he_learn (m : hea) : outcome (unit * hea) :=
    s <- moment_sum (he_selected m) (best_bv (he_pop m)) (hp_selection p) ;;
    s <- (if 1 <? hp_selection p then moment_average k (hp_selection p) s else Ok s) ;;
    t <- moment_update k s (hp_rate p) (he_target m) ;;
    t <- (if hp_bound p then moment_bound k (hp_margin p) t else Ok t) ;;
    Ok (tt, mk_hea (he_pop m) t s (he_herding m)).

  (** iterate: hea.hh:101-134, without the values which are only logged. *)
  Definition he_iterate (t : nat) : act (alg hea) unit :=
    _ <~ on_mem (he_sample t) ;;
    _ <~ eval_pop he_pop he_put o ;;
    _ <~ sort_pop he_pop he_put (shs t) srt ;;
    _ <~ update_with_best he_pop ;;
    on_mem he_learn.
End Hea.

(** * Boltzmann machine PBIL *)

(** SamplingMode and ResetMode: bm-pbil.hh:50-85; [OtherSampling] is any other number; any other
    reset mode is the same as [NoReset]. *)
Inductive sampling_mode := Asynchronous | FullScan | Synchronous | OtherSampling.
Inductive reset_mode := NoReset | EachIteration | EachVector.

(** Parameters: bm-pbil.hh:109-122. Negative numbers of steps or cycles are the same as
    zero. *)
Record bm_params := mk_bm_params {
  bp_selection : nat;
  bp_rate : Q;
  bp_steps : nat;
  bp_cycles : nat;
  bp_negative : bool;
  bp_sampling : sampling_mode;
  bp_reset : reset_mode
}.
Definition bm_default : bm_params := mk_bm_params 1 (1 # 1000)%Q 100 1 false Asynchronous NoReset.

(** Members: bm-pbil.hh:88-103, with the state of the Gibbs sampler. *)
Record bmpbil := mk_bm { bm_pop : population; bm_model : moment; bm_state : bv; bm_all : moment; bm_best : moment; bm_worst : moment; bm_perm : list nat }.
Definition bm_put (p : population) (m : bmpbil) : bmpbil := mk_bm p (bm_model m) (bm_state m) (bm_all m) (bm_best m) (bm_worst m) (bm_perm m).

(** Constructor: bm-pbil.hh:251-260. The constructor of the base class, which comes first,
    refuses empty vectors. *)
Definition bm_make (k : kind) (n size : nat) : outcome bmpbil :=
  _ <- ensureb (0 <? n) ;;
  p <- pop_make size n ;;
  z <- moment_make k n ;;
  Ok (mk_bm p z (repeat false n) z z z (repeat 0 n)).

(** The random numbers: for the iteration [t], the individual [i] and the step or cycle
    [c] of its sampling, the component [d_choose t i c], the shuffle [d_shuffle t i c] and
    the numbers [d_uniform t i c j] between 0 and 1; the bits of the state drawn at
    the start of an iteration and for an individual; the shuffle before the sort. *)
Record bm_draws := mk_bm_draws {
  d_choose : nat -> nat -> nat -> nat;
  d_shuffle : nat -> nat -> nat -> list nat -> list nat;
  d_uniform : nat -> nat -> nat -> nat -> Q;
  d_iteration : nat -> nat -> bool;
  d_vector : nat -> nat -> nat -> bool;
  d_sort : nat -> list nat -> list nat
}.

Section BmPbil.
  Variables (logistic : Q -> Q) (k : kind) (o : objective) (n : nat) (p : bm_params) (d : bm_draws).
  Variable srt : (nat -> nat -> bool) -> list nat -> list nat.

  (** sample_asynchronous, sample_asynchronous_full_scan and sample_synchronous:
      bm-pbil.hh:229-247; the state is the one of the Gibbs sampler and _permutation. *)
  Definition sample_asynchronous (m : moment) (t i : nat) (s : bv * list nat) : outcome (bv * list nat) :=
    foldM (fun s c =>
      x <- gibbs_update logistic m (d_choose d t i c) (d_uniform d t i c 0) (fst s) ;;
      Ok (x, snd s)) (seq 0 (bp_steps p)) s.
  Definition sample_full_scan (m : moment) (t i : nat) (s : bv * list nat) : outcome (bv * list nat) :=
    foldM (fun s c =>
      let perm := d_shuffle d t i c (identity (length (snd s))) in
      x <- foldM (fun x j => b <- vget perm j ;; gibbs_update logistic m b (d_uniform d t i c j) x) (seq 0 (length perm)) (fst s) ;;
      Ok (x, perm)) (seq 0 (bp_cycles p)) s.
  Definition sample_synchronous (m : moment) (t i : nat) (s : bv * list nat) : outcome (bv * list nat) :=
    foldM (fun s c =>
      x <- gibbs_update_sync logistic n m (d_uniform d t i c) (fst s) ;;
      Ok (x, snd s)) (seq 0 (bp_cycles p)) s.
  (** sample: bm-pbil.hh:211-226. The vector is the new state. *)
  Definition bm_sample (m : moment) (t i : nat) (s : bv * list nat) : outcome (bv * list nat) :=
    match bp_sampling p with
    | Asynchronous => sample_asynchronous m t i s
    | FullScan => sample_full_scan m t i s
    | Synchronous => sample_synchronous m t i s
    | OtherSampling => Throw RuntimeError
    end.

  (** init: bm-pbil.hh:141-147. *)
  Definition bm_init (bit gbit : nat -> bool) : act (alg bmpbil) unit :=
    _ <~ random_solution o bit ;;
    amodify (fun s => let m := a_mem s in
      put_mem (mk_bm (bm_pop m) (moment_init (bm_model m)) (bv_random (bm_state m) gbit) (bm_all m) (bm_best m) (bm_worst m) (bm_perm m)) s).

  (** Sampling of the population: bm-pbil.hh:151-159. If it throws, the state is
      kept as it was before it. *)
  Definition bm_sample_all (t : nat) (m : bmpbil) : outcome (unit * bmpbil) :=
    let x := match bp_reset p with EachIteration => bv_random (bm_state m) (d_iteration d t) | _ => bm_state m end in
    '(bs, (x, perm)) <- foldM (fun s i =>
        let '(bs, (x, perm)) := s in
        let x := match bp_reset p with EachVector => bv_random x (d_vector d t i) | _ => x end in
        _ <- vget bs i ;;
        '(x, perm) <- bm_sample (bm_model m) t i (x, perm) ;;
        bs <- vset bs i x ;;
        Ok (bs, (x, perm))) (seq 0 (pop_size (bm_pop m))) (p_bvs (bm_pop m), (x, bm_perm m)) ;;
    Ok (tt, mk_bm (mk_pop bs (p_values (bm_pop m)) (p_perm (bm_pop m))) (bm_model m) x (bm_all m) (bm_best m) (bm_worst m) perm).

  (** Learning: bm-pbil.hh:172-192. *)
  Definition bm_learn (m : bmpbil) : outcome (unit * bmpbil) :=
    b <- moment_sum (bm_best m) (best_bv (bm_pop m)) (bp_selection p) ;;
    b <- moment_average k (bp_selection p) b ;;
    if bp_negative p then
      w <- moment_sum (bm_worst m) (worst_bv (bm_pop m)) (bp_selection p) ;;
      w <- moment_average k (bp_selection p) w ;;
      q <- moment_update2 k b w (bp_rate p) (bm_model m) ;;
      Ok (tt, mk_bm (bm_pop m) q (bm_state m) (bm_all m) b w (bm_perm m))
    else
      a <- moment_sum (bm_all m) (vget (p_bvs (bm_pop m))) (pop_size (bm_pop m)) ;;
      a <- moment_average k (pop_size (bm_pop m)) a ;;
      q <- moment_update2 k b a (bp_rate p) (bm_model m) ;;
      Ok (tt, mk_bm (bm_pop m) q (bm_state m) a b (bm_worst m) (bm_perm m)).

  (** iterate: bm-pbil.hh:150-194. *)
  Definition bm_iterate (t : nat) : act (alg bmpbil) unit :=
    _ <~ on_mem (bm_sample_all t) ;;
    _ <~ eval_pop bm_pop bm_put o ;;
    _ <~ sort_pop bm_pop bm_put (d_sort d t) srt ;;
    _ <~ update_with_best bm_pop ;;
    on_mem bm_learn.
End BmPbil.
