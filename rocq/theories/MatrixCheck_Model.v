(** Model of the checks of lib/hnco/algorithms/walsh-moment/matrix.hh. The type of the
    elements and its comparisons are arguments: [eqb] is ==, [ltb] is <. They may be those
    of the doubles, which do not order NaN. The access to an element which does not exist
    is undefined. *)

From Verif Require Import Base.
Local Open Scope nat_scope.

Section Checks.
  Context {T : Type} (eqb ltb : T -> T -> bool) (zero : T).

  (** A[i][j] *)
  Definition element (a : list (list T)) (i j : nat) : outcome T :=
    r <- vget a i ;; vget r j.

  (** The loop of the checks: the first index which does not pass ends it with false. *)
  Fixpoint check_each (test : nat -> outcome bool) (l : list nat) : outcome bool :=
    match l with
    | [] => Ok true
    | i :: l => b <- test i ;; if b : bool then check_each test l else Ok false
    end.

  (** matrix.hh:32-42 *)
  Definition matrix_is_symmetric (a : list (list T)) : outcome bool :=
    check_each (fun i => check_each (fun j =>
      x <- element a i j ;; y <- element a j i ;; Ok (eqb x y)) (seq 0 i)) (seq 0 (length a)).

  (** matrix.hh:45-55 *)
  Definition matrix_is_strictly_lower_triangular (a : list (list T)) : outcome bool :=
    check_each (fun i => check_each (fun j =>
      x <- element a i j ;; Ok (eqb x zero)) (seq i (length a - i))) (seq 0 (length a)).

  (** matrix.hh:58-66 *)
  Definition matrix_has_diagonal (a : list (list T)) (d : T) : outcome bool :=
    check_each (fun i => x <- element a i i ;; Ok (eqb x d)) (seq 0 (length a)).

  (** matrix.hh:69-81 *)
  Definition matrix_has_range (a : list (list T)) (inf sup : T) : outcome bool :=
    check_each (fun i => check_each (fun j =>
      x <- element a i j ;;
      if ltb x inf then Ok false else
      if ltb sup x then Ok false else Ok true) (seq 0 i)) (seq 0 (length a)).

  (** matrix.hh:84-94. The element is compared with itself. *)
  Definition matrix_has_dominant_diagonal (a : list (list T)) : outcome bool :=
    check_each (fun i => check_each (fun j =>
      x <- element a i j ;; y <- element a i j ;;
      if ltb y x then Ok false else Ok true) (seq 0 i)) (seq 0 (length a)).
End Checks.
