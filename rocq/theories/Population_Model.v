(** Model of populations, replacement selections and tournament selection.
    Values are exact numbers (see DESIGN.md). *)

From Verif Require Import Base BitVector_Model.

(** Population: lib/hnco/algorithms/population.hh:38-46. *)
Record population := mk_pop { p_bvs : list bv; p_values : list Z; p_perm : list nat }.

(** perm_identity: lib/hnco/permutation.hh:47-51. *)
Definition identity (n : nat) : list nat := seq 0 n.

(** Population::Population: population.hh:53-61. The vectors are built before
    the sizes are checked; sizes are naturals here. *)
Definition pop_make (size n : nat) : outcome population :=
  _ <- ensureb (0 <? size) ;;
  _ <- ensureb (0 <? n) ;;
  Ok (mk_pop (repeat (repeat false n) size) (repeat 0%Z size) (identity size)).

(** Population::get_size: population.hh:68. *)
Definition pop_size (p : population) : nat := length (p_bvs p).

(** Population::get_bv_size: population.hh:70. *)
Definition pop_bv_size (p : population) : outcome nat := b <- vget (p_bvs p) 0 ;; Ok (length b).

(** The comparison of population.hh:91: [values[i] > values[j]]. The model
    reads 0 out of range; the permutations met are valid. *)
Definition by_value (values : list Z) (i j : nat) : bool := (nth j values 0 <? nth i values 0)%Z.

Section Sorting.
  (** [sh] is perm_shuffle (lib/hnco/permutation.hh:54, std::shuffle);
      [srt] is std::sort and [psrt k] is std::partial_sort with middle
      [begin + k], both given the comparison. *)
  Variable sh : list nat -> list nat.
  Variable srt : (nat -> nat -> bool) -> list nat -> list nat.
  Variable psrt : nat -> (nat -> nat -> bool) -> list nat -> list nat.

  (** Population::sort: population.hh:89-93. *)
  Definition pop_sort (p : population) : population :=
    mk_pop (p_bvs p) (p_values p) (srt (by_value (p_values p)) (sh (p_perm p))).

  (** Population::partial_sort: population.hh:100-105. [begin() + k] beyond
      the end is undefined. *)
  Definition pop_partial_sort (p : population) (k : nat) : outcome population :=
    _ <- assertb (0 <? k) ;;
    _ <- assertb (k <=? length (p_perm p)) ;;
    Ok (mk_pop (p_bvs p) (p_values p) (psrt k (by_value (p_values p)) (sh (p_perm p)))).
End Sorting.

(** Length of the longest prefix whose elements satisfy [f]. *)
Fixpoint prefix_length {A} (f : A -> bool) (l : list A) : nat :=
  match l with
  | [] => 0
  | a :: t => if f a then S (prefix_length f t) else 0
  end.

(** std::equal_range on a range partitioned with respect to the comparison:
    the first position that does not precede [v], and the first position
    preceded by [v]. The binary searches are those of the standard library;
    on a partitioned range they give the partition points. *)
Definition equal_range (lt : nat -> nat -> bool) (l : list nat) (v : nat) : nat * nat :=
  (prefix_length (fun e => lt e v) l, prefix_length (fun e => negb (lt v e)) l).

(** Population::get_equivalent_bvs: population.cc:71-81. *)
Definition get_equivalent_bvs (p : population) (index : nat) : outcome (nat * nat) :=
  _ <- assertb (index <? length (p_perm p)) ;;
  v <- vget (p_perm p) index ;;
  Ok (equal_range (by_value (p_values p)) (p_perm p) v).

(** Population::get_best_index(int): population.hh:182-185. *)
Definition best_index (p : population) (i : nat) : outcome nat :=
  _ <- assertb (i <? length (p_perm p)) ;; vget (p_perm p) i.

(** Population::get_best_bv(int): population.hh:136-139, also 130 for [i] = 0. *)
Definition best_bv (p : population) (i : nat) : outcome bv :=
  k <- best_index p i ;; vget (p_bvs p) k.

(** Population::get_worst_bv: population.hh:145; a negative index fails the
    assertion of get_best_bv. *)
Definition worst_bv (p : population) (i : nat) : outcome bv :=
  _ <- assertb (i <? pop_size p) ;; best_bv p (pop_size p - 1 - i).

(** Population::get_best_value(int): population.hh:162-165, also 156. *)
Definition best_value (p : population) (i : nat) : outcome Z :=
  k <- best_index p i ;; vget (p_values p) k.

(** Population::random: population.cc:35-40. [bits i] are the bits drawn for
    the [i]-th bit vector. *)
Definition pop_random (bits : nat -> nat -> bool) (p : population) : population :=
  mk_pop (map (fun i => bv_random (nth i (p_bvs p) []) (bits i)) (seq 0 (pop_size p)))
         (p_values p) (p_perm p).

(** Population::evaluate: population.cc:42-50, with a function that neither
    throws nor counts (the algorithms use [eval_pop] of PopAlgorithm_Model.v
    instead, which does both). *)
Definition pop_evaluate (f : bv -> Z) (p : population) : outcome population :=
  _ <- assertb (length (p_bvs p) =? length (p_values p)) ;;
  vs <- foldM (fun vs i => b <- vget (p_bvs p) i ;; vset vs i (f b)) (seq 0 (pop_size p)) (p_values p) ;;
  Ok (mk_pop (p_bvs p) vs (p_perm p)).

(** Population::evaluate_in_parallel: population.cc:52-69. OpenMP may run the
    iterations of the loop in any order [schedule], on any threads:
    [thread i] runs iteration [i]. [fns] are the functions, one per thread.
    The second component lists the calls fns[0]->update(bv, value), in order. *)
Definition pop_evaluate_in_parallel (fns : list (bv -> Z)) (thread : nat -> nat) (schedule : list nat)
    (p : population) : outcome (population * list (bv * Z)) :=
  _ <- assertb (length (p_bvs p) =? length (p_values p)) ;;
  _ <- assertb (0 <? length fns) ;;
  vs <- foldM (fun vs i =>
          _ <- assertb (thread i <? length fns) ;;
          fn <- vget fns (thread i) ;;
          b <- vget (p_bvs p) i ;;
          vset vs i (fn b)) schedule (p_values p) ;;
  updates <- foldM (fun us i => b <- vget (p_bvs p) i ;; v <- vget vs i ;; Ok (us ++ [(b, v)]))
               (seq 0 (pop_size p)) [] ;;
  Ok (mk_pop (p_bvs p) vs (p_perm p), updates).

(** std::swap(l1[i], l2[j]) *)
Definition swap_at {A} (l1 : list A) (i : nat) (l2 : list A) (j : nat) : outcome (list A * list A) :=
  a <- vget l1 i ;;
  b <- vget l2 j ;;
  l1' <- vset l1 i b ;;
  l2' <- vset l2 j a ;;
  Ok (l1', l2').

(** Body of the loops of selection.hh:64-67 and 117-120: the [i]-th best of
    the second population goes to place [i] of the first, by swap. *)
Definition take_best (s : population * population) (i : nat) : outcome (population * population) :=
  let '(parents, source) := s in
  v <- best_value source i ;;
  vs <- vset (p_values parents) i v ;;
  k <- best_index source i ;;
  '(pb, sb) <- swap_at (p_bvs parents) i (p_bvs source) k ;;
  Ok (mk_pop pb vs (p_perm parents), mk_pop sb (p_values source) (p_perm source)).

(** Body of the loops of selection.hh:107-110 and 112-115: individual [i]
    goes to place [offset + i] of the pool, by swap. *)
Definition give (offset : nat) (s : population * population) (i : nat) : outcome (population * population) :=
  let '(pool, source) := s in
  v <- vget (p_values source) i ;;
  vs <- vset (p_values pool) (offset + i) v ;;
  '(pb, sb) <- swap_at (p_bvs pool) (offset + i) (p_bvs source) i ;;
  Ok (mk_pop pb vs (p_perm pool), mk_pop sb (p_values source) (p_perm source)).

(** perm_identity(parents.permutation) *)
Definition reset_perm (p : population) : population :=
  mk_pop (p_bvs p) (p_values p) (identity (length (p_perm p))).

(** CommaSelection::CommaSelection: selection.hh:53-59. *)
Definition comma_make (parents offsprings : population) : outcome unit :=
  ensureb (pop_size parents <=? pop_size offsprings).

(** PlusSelection::PlusSelection: selection.hh:96-103; the pool. *)
Definition plus_make (parents offsprings : population) : outcome population :=
  n <- pop_bv_size parents ;;
  pool <- pop_make (pop_size parents + pop_size offsprings) n ;;
  m <- pop_bv_size offsprings ;;
  _ <- ensureb (m =? n) ;;
  Ok pool.

Section Selection.
  Variable sh : list nat -> list nat.
  Variable psrt : nat -> (nat -> nat -> bool) -> list nat -> list nat.

  (** CommaSelection::select: selection.hh:62-69. *)
  Definition comma_select (parents offsprings : population) : outcome (population * population) :=
    offsprings <- pop_partial_sort sh psrt offsprings (pop_size parents) ;;
    '(parents, offsprings) <- foldM take_best (seq 0 (pop_size parents)) (parents, offsprings) ;;
    Ok (reset_perm parents, offsprings).

  (** PlusSelection::select: selection.hh:106-122. *)
  Definition plus_select (parents offsprings pool : population)
      : outcome (population * population * population) :=
    '(pool, parents) <- foldM (give 0) (seq 0 (pop_size parents)) (pool, parents) ;;
    '(pool, offsprings) <- foldM (give (pop_size parents)) (seq 0 (pop_size offsprings)) (pool, offsprings) ;;
    pool <- pop_partial_sort sh psrt pool (pop_size parents) ;;
    '(parents, pool) <- foldM take_best (seq 0 (pop_size parents)) (parents, pool) ;;
    Ok (reset_perm parents, offsprings, pool).
End Selection.

(** TournamentSelection: lib/hnco/multiobjective/algorithms/random-selection.hh:42-72.
    The references to the bit vectors and values are arguments of [select]. *)
Record tournament := mk_tournament { t_perm : list nat; t_start : nat; t_stop : nat; t_size : nat }.

(** Constructor: random-selection.hh:77-85. [_start] and [_stop] are left
    uninitialized: [garbage]. *)
Definition tournament_make {T} (bvs : list bv) (values : list T) (garbage : nat * nat) : outcome tournament :=
  _ <- ensureb (length bvs =? length values) ;;
  Ok (mk_tournament (identity (length bvs)) (fst garbage) (snd garbage) 2).

(** set_tournament_size: random-selection.hh:121-125. *)
Definition set_tournament_size (bvs : list bv) (t : tournament) (n : nat) : outcome tournament :=
  _ <- ensureb ((2 <=? n) && (n <? length bvs)) ;;
  Ok (mk_tournament (t_perm t) (t_start t) (t_stop t) n).

(** init: random-selection.hh:88-92. *)
Definition tournament_init (sh : list nat -> list nat) (t : tournament) : tournament :=
  mk_tournament (sh (t_perm t)) 0 (t_size t) (t_size t).

(** select: random-selection.hh:95-114. [better] is the comparison functor. *)
Definition tournament_select {T} (better : T -> T -> bool) (bvs : list bv) (values : list T)
    (sh : list nat -> list nat) (t : tournament) : outcome (bv * tournament) :=
  _ <- assertb ((2 <=? t_stop t) && (t_stop t <? length bvs + 1)) ;;
  k <- vget (t_perm t) (t_start t) ;;
  v <- vget values k ;;
  '(winner, _) <- foldM (fun (s : nat * T) challenger =>
      k <- vget (t_perm t) challenger ;;
      v <- vget values k ;;
      Ok (if better v (snd s) then (challenger, v) else s))
    (seq (S (t_start t)) (t_stop t - S (t_start t))) (t_start t, v) ;;
  let t' := mk_tournament (t_perm t) (t_stop t) (t_stop t + t_size t) (t_size t) in
  let t' := if length bvs <? t_stop t' then tournament_init sh t' else t' in
  k <- vget (t_perm t') winner ;;
  b <- vget bvs k ;;
  Ok (b, t').
