(** Model of the scores of hBOA: lib/fast-efficient-p3/HBOA.cpp, class Factorial_Fraction,
    and the scores of the splits of class Bayesian_Tree. *)

From Verif Require Import Base.
Local Open Scope nat_scope.

(** HBOA.h:40-43: how often each number appears in the numerator and in the denominator *)
Record fraction := mk_fraction { fr_upper : list nat; fr_lower : list nat }.
Definition fr_one : fraction := mk_fraction [] [].

(** std::vector::resize(k, 0) *)
Definition resize (l : list nat) (k : nat) : list nat := firstn k (l ++ repeat 0 (k - length l)).

(** Factorial_Fraction::safe_size, HBOA.cpp:114-119 *)
Definition safe_size (fr : fraction) (n : nat) : fraction :=
  if length (fr_upper fr) <=? n then mk_fraction (resize (fr_upper fr) (n + 1)) (resize (fr_lower fr) (n + 1)) else fr.

(** l[i] += k *)
Definition bump (l : list nat) (i k : nat) : outcome (list nat) :=
  c <- vget l i ;;
  vset l i (c + k).

(** Factorial_Fraction::mul_by_factorial, HBOA.cpp:14-20 *)
Definition mul_by_factorial (fr : fraction) (n : nat) : outcome fraction :=
  let fr := safe_size fr n in
  upper <- foldM (fun l i => bump l i 1) (seq 2 (n - 1)) (fr_upper fr) ;;
  Ok (mk_fraction upper (fr_lower fr)).

(** Factorial_Fraction::div_by_factorial, HBOA.cpp:23-29 *)
Definition div_by_factorial (fr : fraction) (n : nat) : outcome fraction :=
  let fr := safe_size fr n in
  lower <- foldM (fun l i => bump l i 1) (seq 2 (n - 1)) (fr_lower fr) ;;
  Ok (mk_fraction (fr_upper fr) lower).

(** Factorial_Fraction::simplify, HBOA.cpp:33-40 *)
Definition simplify (fr : fraction) : outcome fraction :=
  '(upper, lower) <- foldM (fun '(upper, lower) i =>
    u <- vget upper i ;;
    l <- vget lower i ;;
    let extra := Nat.min u l in
    upper <- vset upper i (u - extra) ;;
    lower <- vset lower i (l - extra) ;;
    Ok (upper, lower)) (seq 2 (length (fr_upper fr) - 2)) (fr_upper fr, fr_lower fr) ;;
  Ok (mk_fraction upper lower).

(** Factorial_Fraction::operator*, HBOA.cpp:122-133 *)
Definition fr_times (lhs rhs : fraction) : outcome fraction :=
  let result := safe_size lhs (length (fr_upper rhs)) in
  '(upper, lower) <- foldM (fun '(upper, lower) i =>
    u <- vget (fr_upper rhs) i ;;
    upper <- bump upper i u ;;
    l <- vget (fr_lower rhs) i ;;
    lower <- bump lower i l ;;
    Ok (upper, lower)) (seq 2 (length (fr_upper rhs) - 2)) (fr_upper result, fr_lower result) ;;
  Ok (mk_fraction upper lower).

(** Factorial_Fraction::operator/, HBOA.cpp:136-148 *)
Definition fr_over (lhs rhs : fraction) : outcome fraction :=
  let result := safe_size lhs (length (fr_upper rhs)) in
  '(upper, lower) <- foldM (fun '(upper, lower) i =>
    l <- vget (fr_lower rhs) i ;;
    upper <- bump upper i l ;;
    u <- vget (fr_upper rhs) i ;;
    lower <- bump lower i u ;;
    Ok (upper, lower)) (seq 2 (length (fr_upper rhs) - 2)) (fr_upper result, fr_lower result) ;;
  Ok (mk_fraction upper lower).

(** Factorial_Fraction::operator double, HBOA.cpp:43-90. Simplified: the result is an exact
    rational number, kept as a numerator and a denominator (a double is rounded after each
    operation); the three loops are one, as the first one ends with one side exhausted, the
    second one exhausts the top and the third one the bottom. At most [fuel] turns. *)
Record conversion := mk_conversion { cv_num : nat; cv_den : nat; cv_t : nat; cv_b : nat; cv_top : list nat; cv_bot : list nat }.

Definition one_top (s : conversion) : outcome conversion :=
  let '(mk_conversion num den t b top bot) := s in
  c <- vget top t ;;
  if c =? 0 then Ok (mk_conversion num den (t + 1) b top bot)
  else top <- vset top t (c - 1) ;; Ok (mk_conversion (num * t) den t b top bot).
Definition one_bottom (s : conversion) : outcome conversion :=
  let '(mk_conversion num den t b top bot) := s in
  c <- vget bot b ;;
  if c =? 0 then Ok (mk_conversion num den t (b + 1) top bot)
  else bot <- vset bot b (c - 1) ;; Ok (mk_conversion num (den * b) t b top bot).

Fixpoint convert (fuel : nat) (s : conversion) : outcome (option (nat * nat)) :=
  match fuel with
  | 0 => Ok None
  | S fuel =>
      if (cv_t s <? length (cv_top s)) && (cv_b s <? length (cv_bot s)) then
        s <- (if cv_den s <? cv_num s then one_bottom s else one_top s) ;; convert fuel s
      else if cv_t s <? length (cv_top s) then s <- one_top s ;; convert fuel s
      else if cv_b s <? length (cv_bot s) then s <- one_bottom s ;; convert fuel s
      else Ok (Some (cv_num s, cv_den s))
  end.
Definition to_real (fuel : nat) (fr : fraction) : outcome (option (nat * nat)) :=
  convert fuel (mk_conversion 1 1 2 2 (fr_upper fr) (fr_lower fr)).

(** Bayesian_Tree::bde_fraction, HBOA.cpp:271-283, of a leaf, with the counts of add_solution
    (210-221) *)
Definition count (p : list bool -> bool) (solutions : list (list bool)) : nat := length (filter p solutions).
Definition bde_fraction (solutions : list (list bool)) (index : nat) : outcome fraction :=
  fr <- div_by_factorial fr_one (length solutions + 1) ;;
  fr <- mul_by_factorial fr (count (fun s => negb (nth index s false)) solutions) ;;
  mul_by_factorial fr (count (fun s => nth index s false) solutions).

(** Bayesian_Tree::splitless_bde, HBOA.cpp:286-302; the counts are in the order of the
    array. *)
Definition splitless_bde (solutions : list (list bool)) (index new_index : nat) : outcome fraction :=
  let splitcount a b := count (fun s => Bool.eqb (nth new_index s false) a && Bool.eqb (nth index s false) b) solutions in
  fr <- div_by_factorial fr_one (splitcount false false + splitcount false true + 1) ;;
  fr <- div_by_factorial fr (splitcount true false + splitcount true true + 1) ;;
  foldM mul_by_factorial [splitcount false false; splitcount false true; splitcount true false; splitcount true true] fr.

(** The score of a split, HBOA.cpp:420-437 (build_options) *)
Definition split_score (solutions : list (list bool)) (index new_index : nat) : outcome fraction :=
  initial <- bde_fraction solutions index ;;
  with_split <- splitless_bde solutions index new_index ;;
  result <- fr_over initial with_split ;;
  simplify result.
