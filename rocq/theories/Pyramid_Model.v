(** Model of the Parameter-less Population Pyramid, in the configuration of hnco:
    lib/fast-efficient-p3/Population.cpp (donate, improve, add, rebuild_tree) and
    Pyramid.cpp, with the options of lib/hnco/algorithms/fast-efficient-p3/p3.cc:55-68.

    The function is an argument, whose values are floats (see Wrapper_Model for the
    conversion); it may throw.  Random numbers are arguments.  The counters of successes,
    ties, failures and donations are not modelled. *)

From Verif Require Import Base Double.
Local Open Scope nat_scope.

(** * Crossover *)

(** Population.cpp:287-292, and 315-317 for the way back: the genes of the cluster are
    exchanged, one after the other; the first component tells if one of them changed. *)
Definition exchange (cluster : list nat) (solution source : list bool) : outcome (bool * list bool * list bool) :=
  foldM (fun '(changed, solution, source) index =>
    a <- vget solution index ;;
    b <- vget source index ;;
    solution <- vset solution index b ;;
    source <- vset source index a ;;
    Ok (changed || negb (Bool.eqb a b), solution, source)) cluster (false, solution, source).

(** Population::donate, Population.cpp:283-321: if it changed, the solution, its fitness,
    and the source *)
Definition donate (f : list bool -> outcome dbl) (solution : list bool) (fitness : dbl) (source : list bool) (cluster : list nat) : outcome (bool * list bool * dbl * list bool) :=
  '(changed, solution, source) <- exchange cluster solution source ;;
  if changed : bool then
    new_fitness <- f solution ;;
    if dle fitness new_fitness then
      source <- foldM (fun source index => b <- vget solution index ;; vset source index b) cluster source ;;
      Ok (changed, solution, new_fitness, source)
    else
      '(_, solution, source) <- exchange cluster solution source ;;
      Ok (changed, solution, fitness, source)
  else Ok (changed, solution, fitness, source).

(** Population::improve, Population.cpp:325-360, with one donor for each cluster
    (stop_after_one: donate_until_different is 0). The donor of the k-th cluster is drawn
    among all the solutions: options is a permutation of their indices. *)
Fixpoint improve (f : list bool -> outcome dbl) (donor : nat -> nat) (clusters : list (list nat)) (solutions : list (list bool)) (solution : list bool) (fitness : dbl) : outcome (list (list bool) * list bool * dbl) :=
  match clusters with
  | [] => Ok (solutions, solution, fitness)
  | cluster :: clusters =>
      let working := donor (length clusters) mod length solutions in
      source <- vget solutions working ;;
      '(_, solution, fitness, source) <- donate f solution fitness source cluster ;;
      solutions <- vset solutions working source ;;
      improve f donor clusters solutions solution fitness
  end.

(** * Linkage tree *)

(** Population.cpp:121-202. Simplified: which two usable clusters are joined is an
    argument (it depends on the distances, floats computed from the solutions and from
    random numbers). They are different, and replaced with the new cluster. *)
Definition take {A : Type} (i : nat) (l : list A) : list A := firstn i l ++ skipn (S i) l.
Fixpoint link (steps : nat) (picks : nat -> nat * nat) (usable clusters : list (list nat)) : list (list nat) :=
  match steps with
  | 0 => clusters
  | S steps =>
      let '(i, j) := picks steps in
      let i := i mod length usable in
      let first := nth i usable [] in
      let usable := take i usable in
      let j := j mod length usable in
      let second := nth j usable [] in
      let usable := take j usable in
      link steps picks (usable ++ [first ++ second]) (clusters ++ [first ++ second])
  end.

(** What rebuild_tree draws or computes: the order of the single genes, the clusters
    joined, and those which are useful *)
Record tree_draws := mk_tree_draws {
  td_order : list nat;
  td_picks : nat -> nat * nat;
  td_useful : list nat -> bool }.

(** Population::rebuild_tree, Population.cpp:95-237, for n genes: the single genes, in
    the drawn order, then the joined clusters; the last one is removed, and those which
    are not useful; least_linked_first (391-395) reverses the order. *)
Definition rebuild_tree (n : nat) (d : tree_draws) : list (list nat) :=
  let singles := map (fun i => [i]) (td_order d) in
  let clusters := link (n - 1) (td_picks d) singles singles in
  rev (filter (td_useful d) (removelast clusters)).

(** * Pyramid *)

(** A population: its solutions and its clusters, in the order of their use *)
Record population := mk_population {
  p_solutions : list (list bool);
  p_clusters : list (list nat) }.

(** The levels, the solutions already in the pyramid (an unordered set), and the number of
    times random numbers have been drawn *)
Record pyramid := mk_pyramid {
  y_levels : list population;
  y_seen : list (list bool);
  y_time : nat }.

Definition pyramid_make : pyramid := mk_pyramid [] [] 0.

Definition seen_dec : forall x y : list bool, {x = y} + {x <> y} := list_eq_dec Bool.bool_dec.

Section Pyramid.
  Context (n : nat) (f : list bool -> outcome dbl) (trees : nat -> tree_draws) (donors : nat -> nat -> nat).

  (** Pyramid::add_unique, Pyramid.cpp:31-51, where wait_until_k_modeled is 0 and
      prevent_duplicates is 1 *)
  Definition add_unique (solution : list bool) (level : nat) (p : pyramid) : outcome pyramid :=
    if in_dec seen_dec solution (y_seen p) then Ok p
    else
      let levels := if length (y_levels p) =? level then y_levels p ++ [mk_population [] []] else y_levels p in
      pop <- vget levels level ;;
      levels <- vset levels level (mk_population (p_solutions pop ++ [solution]) (rebuild_tree n (trees (y_time p)))) ;;
      Ok (mk_pyramid levels (solution :: y_seen p) (y_time p + 1)).

  (** The loop of Pyramid::climb, Pyramid.cpp:17-26, where only_add_improvements is 1; the
      number of levels grows during the loop: [fuel] bounds its number of turns. *)
  Fixpoint climb_from (fuel level : nat) (p : pyramid) (solution : list bool) (fitness : dbl) : outcome (pyramid * list bool * dbl) :=
    if level <? length (y_levels p) then
      match fuel with
      | 0 => UB
      | S fuel =>
          pop <- vget (y_levels p) level ;;
          '(solutions, solution, new_fitness) <- improve f (donors (y_time p)) (p_clusters pop) (p_solutions pop) solution fitness ;;
          levels <- vset (y_levels p) level (mk_population solutions (p_clusters pop)) ;;
          let p := mk_pyramid levels (y_seen p) (y_time p + 1) in
          p <- (if dlt fitness new_fitness then add_unique solution (level + 1) p else Ok p) ;;
          climb_from fuel (level + 1) p solution new_fitness
      end
    else Ok (p, solution, fitness).

  (** Pyramid.cpp:14-27 *)
  Definition climb (p : pyramid) (solution : list bool) (fitness : dbl) : outcome (pyramid * list bool * dbl) :=
    p <- add_unique solution 0 p ;;
    climb_from (length (y_levels p) + 1) 0 p solution fitness.

  (** Pyramid::iterate, Pyramid.cpp:54-65, where the hill climber is no_action
      (HillCimb.cpp:102-104); [x] is the random vector. *)
  Definition iterate (p : pyramid) (x : list bool) : outcome (pyramid * list bool * dbl) :=
    fitness <- f x ;;
    climb p x fitness.

  (** The loop of p3.cc:76, for the random vectors [xs] *)
  Definition iterations (xs : list (list bool)) : outcome pyramid :=
    foldM (fun p x => '(p, _, _) <- iterate p x ;; Ok p) xs pyramid_make.
End Pyramid.
