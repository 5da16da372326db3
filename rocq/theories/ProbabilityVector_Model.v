(** Model of probability vectors and of the algorithms of
    lib/hnco/algorithms/probability-vector: PBIL, NPS-PBIL, UMDA, MMAS and
    compact GA. Probabilities are exact rational numbers; bounding by min and
    max is the same on doubles. *)

From Coq Require Import QArith.
From Verif Require Import Base BitVector_Model Neighborhood_Model Algorithm_Model Population_Model PopAlgorithm_Model.
Local Open Scope nat_scope.

Definition qltb (a b : Q) : bool := negb (Qle_bool b a).
(** std::min(a, b) and std::max(a, b) *)
Definition qmin (a b : Q) : Q := if qltb b a then b else a.
Definition qmax (a b : Q) : Q := if qltb a b then b else a.

(** pv_sample: probability-vector.cc:45-56. [u] gives the successive values of
    Generator::uniform. *)
Definition pv_sample (pv : list Q) (x : bv) (u : nat -> Q) : outcome bv :=
  _ <- assertb (length x =? length pv) ;;
  Ok (map (fun i => qltb (u i) (nth i pv 0%Q)) (seq 0 (length x))).

(** pv_uniform and pv_init: probability-vector.hh:55 and 62. *)
Definition pv_uniform (pv : list Q) : list Q := repeat (1 # 2)%Q (length pv).
Definition pv_init (pv : list Q) : list Q := repeat 0%Q (length pv).

(** pv_add: probability-vector.cc:58-66. *)
Definition pv_add (pv : list Q) (x : bv) : outcome (list Q) :=
  _ <- assertb (length x =? length pv) ;;
  Ok (map2 (fun p b => if b : bool then p + 1 else p)%Q pv x).

(** pv_average: probability-vector.cc:76-81. A count of zero gives NaN in the code;
    it is not modelled ([UB]). *)
Definition pv_average (pv : list Q) (count : nat) : outcome (list Q) :=
  if 0 <? count then Ok (map (fun p => p / inject_Z (Z.of_nat count))%Q pv) else UB.

Definition bit_q (b : bool) : Q := if b then 1%Q else 0%Q.

(** pv_update(pv, x, rate): probability-vector.hh:96-103; [x] is a probability
    vector or a bit vector (then given by [bit_q]). *)
Definition pv_update (pv x : list Q) (rate : Q) : outcome (list Q) :=
  _ <- assertb (length x =? length pv) ;;
  Ok (map2 (fun p a => p + rate * (a - p))%Q pv x).

(** pv_update(pv, x, y, rate): probability-vector.cc:83-91. *)
Definition pv_update2 (pv x y : list Q) (rate : Q) : outcome (list Q) :=
  _ <- assertb (length x =? length pv) ;;
  _ <- assertb (length y =? length pv) ;;
  Ok (map2 Qplus pv (map2 (fun a b => rate * (a - b))%Q x y)).

(** pv_bound: probability-vector.cc:93-100. *)
Definition pv_bound (pv : list Q) (lower upper : Q) : list Q :=
  map (fun p => qmax lower (qmin upper p)) pv.

(** _lower_bound and _upper_bound: pv-algorithm.hh:76-80. *)
Definition lower_bound (n : nat) : Q := (1 / inject_Z (Z.of_nat n))%Q.
Definition upper_bound (n : nat) : Q := (1 - 1 / inject_Z (Z.of_nat n))%Q.

(** Members of the algorithms: _pv (pv-algorithm.hh:38) and _population (pbil.hh:47,
    umda.hh:47, nps-pbil.hh:48). The temporary vectors _mean, _mean_best and
    _mean_worst are reset before use and are not kept. *)
Record eda := mk_eda { e_pv : list Q; e_pop : population }.
Definition e_put (p : population) (m : eda) : eda := mk_eda (e_pv m) p.

(** Constructors: pbil.hh:79-82, umda.hh:73-75, nps-pbil.hh:83-87. *)
Definition eda_make (size n : nat) : outcome eda :=
  p <- pop_make size n ;; Ok (mk_eda (repeat 0%Q n) p).

Section Eda.
  Variables (o : objective) (n selection : nat) (rate : Q).
  (** Random numbers of the iteration [t]: uniform draws for individual [k] and bit
      [i], and the shuffle of the sort. *)
  Variables (u : nat -> nat -> nat -> Q) (shs : nat -> list nat -> list nat).
  Variable srt : (nat -> nat -> bool) -> list nat -> list nat.

  (** init: pbil.cc:29-36, umda.cc:29-36, nps-pbil.cc:28-35. *)
  Definition eda_init (bit : nat -> bool) : act (alg eda) unit :=
    _ <~ random_solution o bit ;;
    amodify (fun s => put_mem (mk_eda (pv_uniform (e_pv (a_mem s))) (e_pop (a_mem s))) s).

  (** Sampling: pbil.cc:42-43, umda.cc:42-43, nps-pbil.cc:41-42. *)
  Definition eda_sample (t : nat) : act (alg eda) unit :=
    on_mem (fun m =>
      bs <- foldM (fun bs k => b <- vget bs k ;; b' <- pv_sample (e_pv m) b (u t k) ;; vset bs k b')
              (seq 0 (pop_size (e_pop m))) (p_bvs (e_pop m)) ;;
      Ok (tt, mk_eda (e_pv m) (mk_pop bs (p_values (e_pop m)) (p_perm (e_pop m))))).

  (** Average of the selected individuals: pbil.cc:55-58, umda.cc:55-58,
      nps-pbil.cc:54-57 and 59-62 (which also calls get_best_bv). *)
  Definition mean_of_best (p : population) (size : nat) : outcome (list Q) :=
    m <- foldM (fun m i => b <- best_bv p i ;; pv_add m b) (seq 0 selection) (repeat 0%Q size) ;;
    pv_average m selection.

  (** The part common to the three iterations: pbil.cc:42-53, umda.cc:42-53,
      nps-pbil.cc:41-52. *)
  Definition eda_generation (t : nat) : act (alg eda) unit :=
    _ <~ eda_sample t ;;
    _ <~ eval_pop e_pop e_put o ;;
    _ <~ sort_pop e_pop e_put (shs t) srt ;;
    update_with_best e_pop.

  Definition eda_learn (learn : eda -> outcome (list Q)) : act (alg eda) unit :=
    on_mem (fun m =>
      pv <- learn m ;;
      Ok (tt, mk_eda (pv_bound pv (lower_bound n) (upper_bound n)) (e_pop m))).

  (** Umda::iterate: umda.cc:39-61. *)
  Definition umda_iterate (t : nat) : act (alg eda) unit :=
    _ <~ eda_generation t ;;
    eda_learn (fun m => mean_of_best (e_pop m) (length (e_pv m))).

  (** Pbil::iterate: pbil.cc:39-63. *)
  Definition pbil_iterate (t : nat) : act (alg eda) unit :=
    _ <~ eda_generation t ;;
    eda_learn (fun m => mean <- mean_of_best (e_pop m) n ;; pv_update (e_pv m) mean rate).

  (** NpsPbil::iterate: nps-pbil.cc:38-67. *)
  Definition nps_iterate (t : nat) : act (alg eda) unit :=
    _ <~ eda_generation t ;;
    eda_learn (fun m =>
      best <- mean_of_best (e_pop m) n ;;
      worst <- mean_of_best (e_pop m) n ;;
      pv_update2 (e_pv m) best worst rate).
End Eda.

(** ** MMAS and compact GA *)

(** Members: _pv and the sampled vectors _x (mmas.hh:48) or _candidates
    (compact-ga.hh:46). *)
Record sampler := mk_sampler { sm_pv : list Q; sm_x : bv; sm_y : bv }.
Definition sampler_make (n : nat) : sampler := mk_sampler (repeat 0%Q n) (repeat false n) (repeat false n).

Section Sampler.
  Variables (o : objective) (n : nat) (rate : Q) (u : nat -> nat -> nat -> Q).

  (** pv_update(_pv, _solution.first, _learning_rate); pv_bound(...): mmas.cc:37-38
      and 52-53. *)
  Definition mmas_learn : act (alg sampler) unit :=
    x <~ aget (fun s => fst (a_sol s)) ;;
    on_mem (fun m =>
      pv <- pv_update (sm_pv m) (map bit_q x) rate ;;
      Ok (tt, mk_sampler (pv_bound pv (lower_bound n) (upper_bound n)) (sm_x m) (sm_y m))).

  (** Mmas::init: mmas.cc:28-39. *)
  Definition mmas_init (bit : nat -> bool) : act (alg sampler) unit :=
    _ <~ random_solution o bit ;;
    _ <~ amodify (fun s => put_mem (mk_sampler (pv_uniform (sm_pv (a_mem s))) (sm_x (a_mem s)) (sm_y (a_mem s))) s) ;;
    mmas_learn.

  (** Mmas::iterate: mmas.cc:41-54. [cmp] is _compare. *)
  Definition mmas_iterate (cmp : Z -> Z -> bool) (t : nat) : act (alg sampler) unit :=
    _ <~ on_mem (fun m => x <- pv_sample (sm_pv m) (sm_x m) (u t 0) ;; Ok (tt, mk_sampler (sm_pv m) x (sm_y m))) ;;
    x <~ aget (fun s => sm_x (a_mem s)) ;;
    v <~ evaluate o x ;;
    best <~ aget (fun s => snd (a_sol s)) ;;
    _ <~ (if cmp v best then set_solution x v else aret tt) ;;
    mmas_learn.

  (** CompactGa::init: compact-ga.cc:31-38. *)
  Definition cga_init (bit : nat -> bool) : act (alg sampler) unit :=
    _ <~ random_solution o bit ;;
    amodify (fun s => put_mem (mk_sampler (pv_uniform (sm_pv (a_mem s))) (sm_x (a_mem s)) (sm_y (a_mem s))) s).

  (** The update: compact-ga.cc:61-67. *)
  Definition cga_update (pv : list Q) (best worst : bv) : list Q :=
    map (fun i =>
      let p := nth i pv 0%Q in
      let b := nth i best false in
      if xorb b (nth i worst false) then if b then (p + rate)%Q else (p - rate)%Q else p)
      (seq 0 (length pv)).

  (** CompactGa::iterate: compact-ga.cc:40-70. [debug]: whether assertions are
      compiled, since the assertion on line 58 evaluates the two candidates again. *)
  Definition cga_iterate (debug : bool) (t : nat) : act (alg sampler) unit :=
    _ <~ on_mem (fun m => x <- pv_sample (sm_pv m) (sm_x m) (u t 0) ;; Ok (tt, mk_sampler (sm_pv m) x (sm_y m))) ;;
    _ <~ on_mem (fun m => y <- pv_sample (sm_pv m) (sm_y m) (u t 1) ;; Ok (tt, mk_sampler (sm_pv m) (sm_x m) y)) ;;
    x <~ aget (fun s => sm_x (a_mem s)) ;;
    y <~ aget (fun s => sm_y (a_mem s)) ;;
    v0 <~ evaluate o x ;;
    v1 <~ evaluate o y ;;
    let swap := (v0 <? v1)%Z in
    let best := if swap then y else x in
    let worst := if swap then x else y in
    _ <~ update_solution best (if swap then v1 else v0) ;;
    _ <~ (if debug then b <~ evaluate o best ;; w <~ evaluate o worst ;; aassert (w <=? b)%Z else aret tt) ;;
    on_mem (fun m => Ok (tt, mk_sampler (pv_bound (cga_update (sm_pv m) best worst) (lower_bound n) (upper_bound n)) (sm_x m) (sm_y m))).
End Sampler.
