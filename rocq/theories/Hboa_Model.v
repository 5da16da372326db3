(** Model of hBOA, in the configuration of hnco: lib/fast-efficient-p3/HBOA.cpp, class HBOA,
    with the options of lib/hnco/algorithms/fast-efficient-p3/hboa.cc:54-59; the networks are
    those of Forest_Model.

    The function is an argument, and may throw; its values stand for those of
    Middle_Layer::evaluate, which are floats. What is drawn, the splits chosen and the
    orders of the trees are arguments, for each generation. *)

From Verif Require Import Base Double Forest_Model.
Local Open Scope nat_scope.

(** HBOA.h:140-149 *)
Record hboa := mk_hboa {
  h_solutions : list (list bool);
  h_fitnesses : list dbl;
  h_selection : list nat;
  h_generations : nat }.

(** What is drawn or chosen during one generation: the tournaments, the splits, the order
    of the trees, the bits of each new solution, and the sample for each replacement *)
Record hboa_draws := mk_hboa_draws {
  hd_first : nat -> nat;
  hd_second : nat -> nat;
  hd_choices : list choice;
  hd_order : list nat;
  hd_coins : nat -> nat -> nat -> nat -> bool;
  hd_sample : nat -> nat -> nat }.

(** Util.cpp, hamming_distance *)
Fixpoint hamming (x y : list bool) : nat :=
  match x, y with
  | a :: x, b :: y => (if Bool.eqb a b then 0 else 1) + hamming x y
  | _, _ => 0
  end.

(** std::swap of two elements *)
Definition swap_at (l : list nat) (i j : nat) : outcome (list nat) :=
  a <- vget l i ;;
  b <- vget l j ;;
  l <- vset l i b ;;
  vset l j a.

(** std::uniform_int_distribution between [a] and [b], which requires a <= b *)
Definition uniform (a b draw : nat) : outcome nat :=
  _ <- assertb (a <=? b) ;;
  Ok (a + draw mod (b - a + 1)).

Section HBOA.
  Context (n : nat) (f : list bool -> outcome dbl) (draws : nat -> hboa_draws).

  (** HBOA.cpp:479-482, for the size of the population *)
  Definition rtr_size (pop_size : nat) : nat :=
    let r := Nat.min n (pop_size / 20) in
    if r =? 0 then 1 else r.

  (** HBOA::HBOA, HBOA.cpp:458-484; [xs] are the random vectors; the hill climber does
      nothing. *)
  Definition hboa_make (xs : list (list bool)) : outcome hboa :=
    fitnesses <- foldM (fun l x => v <- f x ;; Ok (l ++ [v])) xs [] ;;
    Ok (mk_hboa xs fitnesses (seq 0 (length xs)) 0).

  (** HBOA.cpp:489-501: the solutions which are added to the model *)
  Definition select (g : hboa) (d : hboa_draws) : outcome (list (list bool)) :=
    _ <- assertb (negb (length (h_solutions g) =? 0)) ;;
    foldM (fun l i =>
      x <- uniform 0 (length (h_solutions g) - 1) (hd_first d i) ;;
      y <- uniform 0 (length (h_solutions g) - 1) (hd_second d i) ;;
      fx <- vget (h_fitnesses g) x ;;
      fy <- vget (h_fitnesses g) y ;;
      s <- vget (h_solutions g) (if dlt fx fy then y else x) ;;
      Ok (l ++ [s])) (seq 0 (length (h_solutions g))) [].

  (** HBOA::rtr_nearest, HBOA.cpp:527-544: the selection, and the choice (None for -1) with
      its distance *)
  Definition rtr_nearest (sample : nat -> nat) (solutions : list (list bool)) (solution : list bool) (selection : list nat) : outcome (list nat * option (nat * nat)) :=
    foldM (fun '(selection, best) i =>
      index <- uniform i (length selection - 1) (sample i) ;;
      selection <- swap_at selection i index ;;
      k <- vget selection i ;;
      s <- vget solutions k ;;
      let new_dist := hamming s solution in
      let distance := match best with Some (_, distance) => distance | None => n + 1 end in
      Ok (selection, if new_dist <? distance then Some (k, new_dist) else best)) (seq 0 (rtr_size (length solutions))) (selection, None).

  (** HBOA.cpp:509-519: one new solution; [x] is the vector which holds it. *)
  Definition replace_one (d : hboa_draws) (fo : forest) (st : list (list bool) * list dbl * list nat * list bool) (i : nat) :=
    let '(solutions, fitnesses, selection, x) := st in
    x <- generate (hd_coins d i) fo (hd_order d) x ;;
    fitness <- f x ;;
    '(selection, best) <- rtr_nearest (hd_sample d i) solutions x selection ;;
    match best with
    | None => UB
    | Some (choice, _) =>
        old <- vget fitnesses choice ;;
        if dlt old fitness then
          solutions <- vset solutions choice x ;;
          fitnesses <- vset fitnesses choice fitness ;;
          Ok (solutions, fitnesses, selection, x)
        else Ok (solutions, fitnesses, selection, x)
    end.

  (** HBOA::iterate, HBOA.cpp:486-523; the boolean tells to go on. *)
  Definition hboa_iterate (g : hboa) : outcome (hboa * bool) :=
    let d := draws (h_generations g) in
    selected <- select g d ;;
    let fo := build_forest n selected (hd_choices d) in
    '(solutions, fitnesses, selection, _) <-
      foldM (replace_one d fo) (seq 0 (length (h_solutions g))) (h_solutions g, h_fitnesses g, h_selection g, repeat false n) ;;
    Ok (mk_hboa solutions fitnesses selection (h_generations g + 1), h_generations g + 1 <? n).

  (** The loop of hboa.cc:67, at most [fuel] times; None means that it goes on. *)
  Fixpoint hboa_loop (fuel : nat) (g : hboa) : outcome (option hboa) :=
    match fuel with
    | 0 => Ok None
    | S fuel =>
        '(g, continue) <- hboa_iterate g ;;
        if continue : bool then hboa_loop fuel g else Ok (Some g)
    end.
  Definition hboa_run (fuel : nat) (xs : list (list bool)) : outcome (option hboa) :=
    g <- hboa_make xs ;;
    hboa_loop fuel g.
End HBOA.
