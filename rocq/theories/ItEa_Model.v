(** Model of the information-theoretic evolutionary algorithm:
    lib/hnco/algorithms/evolutionary-algorithms/it-ea.hh and it-ea.cc.
    Mutation rates and likelihoods are exact rational numbers. Populations are evaluated
    sequentially. Logging is not modelled. *)

From Coq Require Import QArith.
From Verif Require Import Base BitVector_Model Neighborhood_Model Algorithm_Model Population_Model PopAlgorithm_Model
  ProbabilityVector_Model EvolutionaryAlgorithm_Model Mimic_Model.
Local Open Scope nat_scope.

(** Replacement: it-ea.hh:19-32; [OtherReplacement] is any other integer. *)
Inductive replacement := Elitist | NonElitist | MlUpdate | IncrementalMlUpdate | NoReplacement | OtherReplacement.

(** Parameters: it-ea.hh:100-115. The initial Hamming weight is a natural number (a
    negative one violates an assertion of bv_random). *)
Record it_params := mk_it_params { ip_selection : nat; ip_learning : Q; ip_init : Q; ip_min : Q; ip_max : Q; ip_weight : nat;
  ip_replacement : replacement; ip_allow : bool }.
(** Default values: it-ea.hh:42-43 and 100-115. *)
Definition it_default (n : nat) : it_params :=
  mk_it_params 1 (1 # 100)%Q (1 / inject_Z (Z.of_nat n))%Q (1 / inject_Z (Z.of_nat n))%Q (1 # 2)%Q 0 Elitist false.

(** Members: it-ea.hh:84-94. The likelihoods are overwritten before they are read and
    are not kept. *)
Record itea := mk_itea { it_pop : population; it_masks : list bv; it_nh : nh; it_center : bv * Z; it_rate : Q }.
Definition it_put (p : population) (m : itea) : itea := mk_itea p (it_masks m) (it_nh m) (it_center m) (it_rate m).
Definition put_masks (l : list bv) (m : itea) : itea := mk_itea (it_pop m) l (it_nh m) (it_center m) (it_rate m).
Definition put_nh (h : nh) (m : itea) : itea := mk_itea (it_pop m) (it_masks m) h (it_center m) (it_rate m).
Definition put_center (c : bv * Z) (m : itea) : itea := mk_itea (it_pop m) (it_masks m) (it_nh m) c (it_rate m).
Definition put_rate (q : Q) (m : itea) : itea := mk_itea (it_pop m) (it_masks m) (it_nh m) (it_center m) q.

(** Constructor: it-ea.hh:35-44; [garbage] is the value of the uninitialised rate *)
Definition it_make (n size : nat) (garbage : Q) : outcome itea :=
  p <- pop_make size n ;;
  h <- nh_make (StandardBitMutation false false) n ;;
  Ok (mk_itea p (repeat (repeat false n) size) h (repeat false n, 0%Z) garbage).

(** set_selection_size: it-ea.hh:51-55. *)
Definition it_set_selection (m : itea) (p : it_params) (k : nat) : outcome it_params :=
  _ <- assertb (1 <=? k) ;;
  _ <- assertb (k <? pop_size (it_pop m)) ;;
  Ok (mk_it_params k (ip_learning p) (ip_init p) (ip_min p) (ip_max p) (ip_weight p) (ip_replacement p) (ip_allow p)).

(** std::max_element: index of the first largest element *)
Fixpoint max_from (best : Q) (at_ i : nat) (l : list Q) : nat :=
  match l with
  | [] => at_
  | x :: l' => if qltb best x then max_from x i (S i) l' else max_from best at_ (S i) l'
  end.
Definition max_element (l : list Q) : nat :=
  match l with [] => 0 | x :: l' => max_from x 0 1 l' end.

(** sample_from_arg: it-ea.cc:12-31; [op] is std::min_element or std::max_element and
    [pick lo hi] the number drawn in an interval *)
Definition sample_from_arg (op : list Q -> nat) (pick : nat -> nat -> nat) (values : list Q) : outcome nat :=
  let index := op values in
  _ <- assertb (index <? length values) ;;
  value <- vget values index ;;
  let candidates := filter (fun i => Qeq_bool (nth i values 0%Q) value) (seq 0 (length values)) in
  _ <- assertb (1 <=? length candidates) ;;
  if 1 <? length candidates then
    let index := pick 0 (length candidates - 1) in
    _ <- assertb (index <? length candidates) ;;
    vget candidates index
  else Ok index.

(** The equivalence class of the last selected individual: it-ea.cc:206-215. The result
    is None when equivalent_individuals is false, otherwise its range and c. *)
Definition equivalence_class (selection : nat) (p : population) : outcome (option (nat * nat * Q)) :=
  _ <- assertb (1 <=? selection) ;; (* get_best_value asserts a valid index *)
  let index := selection - 1 in
  v <- best_value p index ;;
  w <- best_value p (index + 1) ;;
  if (v =? w)%Z then
    '(lo, hi) <- get_equivalent_bvs p index ;;
    let c := (inject_Z (Z.of_nat index - Z.of_nat lo + 1) / inject_Z (Z.of_nat hi - Z.of_nat lo))%Q in
    _ <- assertb (Qle_bool 0 c && Qle_bool c 1) ;;
    Ok (Some (lo, hi, c))
  else Ok None.

(** compute_masks: it-ea.cc:48-58. *)
Definition compute_masks (selection : nat) (cls : option (nat * nat * Q)) (center : bv) (p : population) (masks : list bv) : outcome (list bv) :=
  foldM (fun masks k =>
    b <- best_bv p k ;;
    m <- vget masks k ;;
    m <- bv_add3 m center b ;;
    vset masks k m) (seq 0 (match cls with Some (_, hi, _) => hi | None => selection end)) masks.

(** The loops it-ea.cc:66-83, 117-128 and 168-176: [add a c k] adds to [a] the
    contribution of the individual [k] with the weight [c]. *)
Definition weighted {A} (selection : nat) (cls : option (nat * nat * Q)) (add : A -> Q -> nat -> outcome A) (a : A) : outcome A :=
  match cls with
  | Some (lo, hi, c) =>
      a <- foldM (fun a k => add a 1%Q k) (seq 0 lo) a ;;
      foldM (fun a k => add a c k) (seq lo (hi - lo)) a
  | None => foldM (fun a k => add a 1%Q k) (seq 0 selection) a
  end.

(** _likelihoods[i] += c * bv[i] for all i *)
Definition add_bits (n : nat) (l : list Q) (c : Q) (x : bv) : outcome (list Q) :=
  _ <- assertb (n <=? length x) ;;
  Ok (map2 (fun a (b : bool) => (a + c * (if b then 1 else 0))%Q) l x).

Section ItEa.
  Variables (o : objective) (n : nat) (pr : it_params).
  (** [small] tells whether a rate is less than 1 / sqrt(n); draws of the iteration [t]:
      mutations, shuffle, coins of the update of the center, pick of a component *)
  Variables (small : Q -> bool) (d : nat -> nat -> draws) (shs : nat -> list nat -> list nat).
  Variable srt : (nat -> nat -> bool) -> list nat -> list nat.
  Variables (coin : nat -> nat -> bool) (pick : nat -> nat -> nat -> nat) (flip : nat -> bool).

  (** init: it-ea.cc:33-46; [bit] and [u] are the draws of the first vector. *)
  Definition it_init (bit : nat -> bool) (u : nat -> Q) : act (alg itea) unit :=
    _ <~ (match ip_replacement pr with
          | NoReplacement =>
              x <~ aget (fun s => fst (a_sol s)) ;;
              r <~ lift (bv_random_weight x (ip_weight pr) u) ;;
              _ <~ amodify (fun s => put_sol (fst r, snd (a_sol s)) s) ;;
              v <~ evaluate o (fst r) ;;
              amodify (put_sol (fst r, v))
          | _ => random_solution o bit
          end) ;;
    amodify (fun s => put_mem (put_nh (nh_set_allow_no_mutation (it_nh (a_mem s)) (ip_allow pr))
                                (put_rate (ip_init pr) (put_center (a_sol s) (a_mem s)))) s).

  (** _center.second = _function->evaluate(_center.first); update_solution(_center) *)
  Definition evaluate_center : act (alg itea) unit :=
    c <~ aget (fun s => it_center (a_mem s)) ;;
    v <~ evaluate o (fst c) ;;
    _ <~ amodify (fun s => put_mem (put_center (fst c, v) (a_mem s)) s) ;;
    update_solution (fst c) v.

  (** ml_update: it-ea.cc:60-109. *)
  Definition ml_update (cls : option (nat * nat * Q)) (t : nat) : act (alg itea) unit :=
    _ <~ on_mem (fun m =>
      l <- weighted (ip_selection pr) cls (fun l c k => b <- best_bv (it_pop m) k ;; add_bits n l c b) (repeat 0%Q n) ;;
      _ <- assertb (n <=? length (fst (it_center m))) ;;
      let less := qltb (it_rate m) (1 # 2) in
      let sel := inject_Z (Z.of_nat (ip_selection pr)) in
      let bits := map (fun i =>
        if qltb sel (2 * nth i l 0%Q) then less
        else if qltb (2 * nth i l 0%Q) sel then negb less
        else coin t i) (seq 0 n) in
      Ok (tt, put_center (bits ++ skipn n (fst (it_center m)), snd (it_center m)) m)) ;;
    evaluate_center.

  (** bv_flip(_center.first, i), then the evaluation: it-ea.cc:135-137, 140-142,
      150-152 and 155-157 *)
  Definition flip_center (i : nat) : act (alg itea) unit :=
    _ <~ on_mem (fun m => x <- bv_flip (fst (it_center m)) i ;; Ok (tt, put_center (x, snd (it_center m)) m)) ;;
    evaluate_center.

  (** incremental_ml_update: it-ea.cc:111-161. *)
  Definition incremental_ml_update (cls : option (nat * nat * Q)) (t : nat) : act (alg itea) unit :=
    m <~ aget a_mem ;;
    l <~ lift (weighted (ip_selection pr) cls (fun l c k => x <- vget (it_masks m) k ;; add_bits n l c x) (repeat 0%Q n)) ;;
    let sel := inject_Z (Z.of_nat (ip_selection pr)) in
    let less := qltb (it_rate m) (1 # 2) in
    i <~ lift (sample_from_arg (if less then max_element else min_element) (pick t) l) ;;
    _ <~ aassert (i <? length l) ;;
    v <~ lift (vget l i) ;;
    if (if less then qltb sel (2 * v) else qltb (2 * v) sel) then flip_center i
    else if Qeq_bool (2 * v) sel then (if flip t then flip_center i else aret tt)
    else aret tt.

  (** igo_update: it-ea.cc:163-183. *)
  Definition igo_update (cls : option (nat * nat * Q)) : act (alg itea) unit :=
    on_mem (fun m =>
      target <- weighted (ip_selection pr) cls (fun a c k => x <- vget (it_masks m) k ;; Ok (a + c * inject_Z (Z.of_nat (bv_hamming_weight x)))%Q) 0%Q ;;
      _ <- assertb (0 <? ip_selection pr * n) ;;
      let target := (target / inject_Z (Z.of_nat (ip_selection pr * n)))%Q in
      q <- clamp (it_rate m + ip_learning pr * (target - it_rate m))%Q (ip_min pr) (ip_max pr) ;;
      Ok (tt, put_rate q m)).

  (** _mutation_operator.map(_center.first, _population.bvs[k]): it-ea.cc:192-196. *)
  Definition it_mutate (k : nat) (dr : draws) : act (alg itea) unit :=
    m <~ aget a_mem ;;
    z <~ lift (vget (p_bvs (it_pop m)) k) ;;
    match nh_map (it_nh m) (fst (it_center m)) z dr with
    | None => fun s => (Pending, s)
    | Some r =>
        r <~ lift r ;;
        on_mem (fun m =>
          bs <- vset (p_bvs (it_pop m)) k (snd r) ;;
          Ok (tt, put_nh (fst r) (it_put (mk_pop bs (p_values (it_pop m)) (p_perm (it_pop m))) m)))
    end.

  (** it-ea.cc:219-246. *)
  Definition replace_center (cls : option (nat * nat * Q)) (t : nat) : act (alg itea) unit :=
    match ip_replacement pr with
    | Elitist =>
        on_mem (fun m =>
          v <- best_value (it_pop m) 0 ;;
          if (snd (it_center m) <=? v)%Z then
            b <- best_bv (it_pop m) 0 ;;
            Ok (tt, put_center (b, v) m)
          else Ok (tt, m))
    | NonElitist =>
        on_mem (fun m =>
          b <- best_bv (it_pop m) 0 ;;
          v <- best_value (it_pop m) 0 ;;
          Ok (tt, put_center (b, v) m))
    | MlUpdate => ml_update cls t
    | IncrementalMlUpdate => incremental_ml_update cls t
    | NoReplacement => aret tt
    | OtherReplacement => athrow RuntimeError
    end.

  (** iterate: it-ea.cc:185-249. *)
  Definition it_iterate (t : nat) : act (alg itea) unit :=
    s0 <~ aget (fun s => (snd (a_sol s), a_mem s)) ;;
    _ <~ aassert (snd (it_center (snd s0)) <=? fst s0)%Z ;;
    _ <~ amodify (fun s => put_mem (put_nh (nh_set_mutation_rate (it_nh (a_mem s)) (small (it_rate (a_mem s)))) (a_mem s)) s) ;;
    _ <~ afor (fun k => it_mutate k (d t k)) (seq 0 (pop_size (it_pop (snd s0)))) ;;
    _ <~ (_ <~ eval_pop it_pop it_put o ;; _ <~ sort_pop it_pop it_put (shs t) srt ;; update_with_best it_pop) ;;
    m <~ aget a_mem ;;
    cls <~ lift (equivalence_class (ip_selection pr) (it_pop m)) ;;
    _ <~ on_mem (fun m =>
      masks <- compute_masks (ip_selection pr) cls (fst (it_center m)) (it_pop m) (it_masks m) ;;
      Ok (tt, put_masks masks m)) ;;
    _ <~ replace_center cls t ;;
    igo_update cls.
End ItEa.
