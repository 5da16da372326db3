(** Model of the Linkage Tree Genetic Algorithm, in the configuration of hnco:
    lib/fast-efficient-p3/LTGA.cpp, with the options of
    lib/hnco/algorithms/fast-efficient-p3/ltga.cc:54-67; crossover and the linkage tree are
    those of Pyramid_Model.

    The function is an argument, and may throw. Random numbers and shuffles are arguments,
    indexed by the number of times they have been used. The counters and the meta data
    (LTGA.cpp:75-83) are not modelled. *)

From Verif Require Import Base Double Pyramid_Model.
Local Open Scope nat_scope.

(** LTGA.h:33-37: the solutions of the population, with whether each one is counted when the
    linkage tree is built (use_in_tree); their values, an unordered_map (0 by default); the
    set of the solutions of the last generation *)
Record ltga := mk_ltga {
  g_population : list (list bool * bool);
  g_fitnesses : list bool -> dbl;
  g_set : list (list bool);
  g_time : nat }.

Definition g_solutions (g : ltga) : list (list bool) := map fst (g_population g).

(** std::unordered_map::operator[] on the left of an assignment *)
Definition fset (m : list bool -> dbl) (x : list bool) (v : dbl) : list bool -> dbl := fun y => if seen_dec y x then v else m y.

(** LTGA::binary_insert, LTGA.cpp:41-56, after the shuffle, where disable_binary_insert is false
    (ltga.cc:54) *)
Fixpoint binary_insert (fitnesses : list bool -> dbl) (solutions : list (list bool)) : list (list bool * bool) :=
  match solutions with
  | a :: b :: solutions =>
      (if dlt (fitnesses a) (fitnesses b) then [(b, true); (a, false)] else [(a, true); (b, false)]) ++ binary_insert fitnesses solutions
  | _ => []
  end.

(** Equality of two std::unordered_set *)
Definition contains (l : list (list bool)) (x : list bool) : bool := if in_dec seen_dec x l then true else false.
Definition same_set (l m : list (list bool)) : bool := forallb (contains m) l && forallb (contains l) m.

Section LTGA.
  Context (n : nat) (f : list bool -> outcome dbl) (trees : nat -> tree_draws) (donors : nat -> nat -> nat -> nat)
    (shuffle : nat -> list (list bool) -> list (list bool)).

  (** LTGA::LTGA, LTGA.cpp:12-37; [xs] are the random vectors; the hill climber does nothing. *)
  Definition ltga_make (xs : list (list bool)) : outcome ltga :=
    fitnesses <- foldM (fun m x => v <- f x ;; Ok (fset m x v)) xs (fun _ => DFin 0) ;;
    Ok (mk_ltga (binary_insert fitnesses (shuffle 0 xs)) fitnesses [] 1).

  (** LTGA.cpp:66-72: the solutions of the population, the values and the offspring *)
  Definition offspring_loop (t : nat) (clusters : list (list nat)) (indices : list nat) (solutions : list (list bool)) (fitnesses : list bool -> dbl) :=
    foldM (fun '(solutions, fitnesses, offspring) i =>
      solution <- vget solutions i ;;
      '(solutions, solution, fitness) <- improve f (donors t i) clusters solutions solution (fitnesses solution) ;;
      Ok (solutions, fset fitnesses solution fitness, offspring ++ [solution])) indices (solutions, fitnesses, []).

  (** LTGA::generation, LTGA.cpp:59-86 *)
  Definition generation (g : ltga) : outcome ltga :=
    let clusters := rebuild_tree n (trees (g_time g)) in
    '(_, fitnesses, offspring) <- offspring_loop (g_time g) clusters (seq 0 (length (g_population g))) (g_solutions g) (g_fitnesses g) ;;
    Ok (mk_ltga (binary_insert fitnesses (shuffle (g_time g) offspring)) fitnesses (g_set g) (g_time g + 1)).

  (** LTGA::iterate, LTGA.cpp:90-101; the boolean tells to go on. *)
  Definition ltga_iterate (g : ltga) : outcome (ltga * bool) :=
    g <- generation g ;;
    if same_set (g_solutions g) (g_set g) then Ok (g, false)
    else Ok (mk_ltga (g_population g) (g_fitnesses g) (g_solutions g) (g_time g), true).

  (** The loop of ltga.cc:77, at most [fuel] times; None means that it goes on. *)
  Fixpoint ltga_loop (fuel : nat) (g : ltga) : outcome (option ltga) :=
    match fuel with
    | 0 => Ok None
    | S fuel =>
        '(g, continue) <- ltga_iterate g ;;
        if continue : bool then ltga_loop fuel g else Ok (Some g)
    end.

  Definition ltga_run (fuel : nat) (xs : list (list bool)) : outcome (option ltga) :=
    g <- ltga_make xs ;;
    ltga_loop fuel g.
End LTGA.
