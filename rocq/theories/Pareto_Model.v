(** Model of Pareto dominance and of the computation of Pareto fronts. *)

From Verif Require Import Base.

(** dominates: lib/hnco/multiobjective/functions/value.hh:51-62. Values are
    exact numbers; the sign of the difference of two finite doubles is that
    of the exact difference. *)
Fixpoint dominates_loop (a b : list Z) (result : bool) : bool :=
  match a, b with
  | x :: a', y :: b' =>
      let diff := (x - y)%Z in
      if (0 <? diff)%Z then false
      else if (diff <? 0)%Z then dominates_loop a' b' true
      else dominates_loop a' b' result
  | _, _ => result
  end.
Definition dominates (a b : list Z) : outcome bool :=
  _ <- assertb (length a =? length b) ;;
  Ok (dominates_loop a b false).

(** v[i] dominates v[j]. *)
Definition dominates_at (values : list (list Z)) (i j : nat) : outcome bool :=
  a <- vget values i ;; b <- vget values j ;; dominates a b.

(** is_non_dominated: lib/hnco/multiobjective/algorithms/pareto-front-computation.hh:67-73.
    [set] lists the unordered set in the order in which it is visited. *)
Fixpoint is_non_dominated (values : list (list Z)) (set : list nat) (i : nat) : outcome bool :=
  match set with
  | [] => Ok true
  | j :: rest =>
      d <- dominates_at values j i ;;
      if d then Ok false else is_non_dominated values rest i
  end.

(** The loop of pareto-front-computation.hh:101-104. *)
Definition collect_dominated (values : list (list Z)) (set : list nat) (i : nat) : outcome (list nat) :=
  foldM (fun acc j => d <- dominates_at values i j ;; Ok (if d then acc ++ [j] else acc)) set [].

(** std::unordered_set<int>: count, erase, insert, on a list of the elements. *)
Definition set_count (set : list nat) (j : nat) : nat := length (filter (Nat.eqb j) set).
Definition set_erase (set : list nat) (j : nat) : list nat := filter (fun k => negb (Nat.eqb j k)) set.

(** Body of the loop over the pool: pareto-front-computation.hh:98-115. The
    state is the set and the next pool. [ord k set] is the order in which the
    set is visited: [k] tells the visits of a front apart (two for each element
    of the pool, and 0 for the last one), so any order at each visit. *)
Definition pool_step (values : list (list Z)) (ord : nat -> list nat -> list nat)
    (s : list nat * list nat) (i : nat) : outcome (list nat * list nat) :=
  let '(set, next) := s in
  free <- is_non_dominated values (ord (2 * i + 1) set) i ;;
  if free then
    dominated <- collect_dominated values (ord (2 * i + 2) set) i ;;
    '(set, next) <- foldM (fun (s : list nat * list nat) j =>
        _ <- assertb (set_count (fst s) j =? 1) ;;
        Ok (set_erase (fst s) j, snd s ++ [j])) dominated (set, next) ;;
    _ <- assertb (set_count set i =? 0) ;;
    Ok (i :: set, next)
  else Ok (set, next ++ [i]).

(** The while loop: pareto-front-computation.hh:95-120. [None]: not finished
    after [fuel] fronts. *)
Fixpoint fronts_loop (values : list (list Z)) (ord : nat -> nat -> list nat -> list nat)
    (fuel front : nat) (pool : list nat) (fronts : list nat) {struct fuel} : option (outcome (list nat)) :=
  match pool with
  | [] => Some (Ok fronts)
  | _ =>
      match fuel with
      | 0 => None
      | S fuel' =>
          match
            ('(set, next) <- foldM (pool_step values (ord front)) pool ([], []) ;;
             fronts' <- foldM (fun fs i => vset fs i front) (ord front 0 set) fronts ;;
             Ok (next, fronts'))
          with
          | Ok (next, fronts') => fronts_loop values ord fuel' (S front) next fronts'
          | Throw e => Some (Throw e)
          | UB => Some UB
          end
      end
  end.

(** compute: pareto-front-computation.hh:89-121. *)
Definition compute_fronts (values : list (list Z)) (ord : nat -> nat -> list nat -> list nat)
    (fuel : nat) (fronts : list nat) : option (outcome (list nat)) :=
  if length fronts =? length values
  then fronts_loop values ord fuel 0 (seq 0 (length values)) fronts
  else Some UB.
