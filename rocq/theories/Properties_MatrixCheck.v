(** Properties of the checks of matrices: C144. *)

From Coq Require Import ZArith Lia.
From Verif Require Import Base BaseLemmas MatrixCheck_Model MatrixCheck_Spec.
Local Open Scope nat_scope.

Section Lemmas.
  Context {T : Type}.
  Implicit Types a : list (list T).

  Lemma element_Ok a i j v : element a i j = Ok v <-> holds_at a i j v.
  Proof.
    unfold element, holds_at, vget. destruct (nth_error a i) as [r|] eqn:E; cbn [bind].
    - destruct (nth_error r j) eqn:F; split.
      + intros H. inversion H; subst. exists r. now split.
      + intros (s & P1 & P2). inversion P1; subst. rewrite F in P2. now inversion P2.
      + discriminate.
      + intros (s & P1 & P2). inversion P1; subst. rewrite F in P2. discriminate.
    - split; [discriminate|]. intros (s & P1 & _). discriminate.
  Qed.
  Lemma holds_fun a i j v w : holds_at a i j v -> holds_at a i j w -> v = w.
  Proof. rewrite <- !element_Ok. congruence. Qed.
  Lemma holds_row a i j v : holds_at a i j v -> i < length a.
  Proof. intros (r & P & _). apply nth_error_Some. congruence. Qed.
  Lemma square_holds a i j : square a -> i < length a -> j < length a -> exists v, element a i j = Ok v.
  Proof.
    intros SQ I J. destruct (nth_error a i) as [r|] eqn:E; [|apply nth_error_None in E; lia].
    assert (L : length r = length a) by (apply nth_error_In in E; now apply (proj1 (Forall_forall _ _) SQ)).
    destruct (nth_error r j) as [v|] eqn:F; [|apply nth_error_None in F; lia].
    exists v. apply element_Ok. now exists r.
  Qed.
  Lemma square_col a i j v : square a -> holds_at a i j v -> j < length a.
  Proof.
    intros SQ (r & P1 & P2). apply nth_error_In in P1. rewrite <- (proj1 (Forall_forall _ _) SQ _ P1).
    apply nth_error_Some. congruence.
  Qed.
  Lemma square_lower a : square a -> has_lower_part a.
  Proof.
    intros SQ i r P. assert (i < length a) by (apply nth_error_Some; congruence).
    apply nth_error_In in P. rewrite (proj1 (Forall_forall _ _) SQ _ P). lia.
  Qed.
  Lemma lower_holds a i j : has_lower_part a -> i < length a -> j < i -> exists v, element a i j = Ok v.
  Proof.
    intros LP I J. destruct (nth_error a i) as [r|] eqn:E; [|apply nth_error_None in E; lia].
    pose proof (LP _ _ E). destruct (nth_error r j) as [v|] eqn:F; [|apply nth_error_None in F; lia].
    exists v. apply element_Ok. now exists r.
  Qed.

  Lemma check_each_spec test l (P : nat -> Prop) :
    (forall i, In i l -> exists b, test i = Ok b /\ (b = true <-> P i)) ->
    exists b, check_each test l = Ok b /\ (b = true <-> forall i, In i l -> P i).
  Proof.
    induction l as [|i l IH]; intros H.
    - exists true. split; [reflexivity|]. split; [intros _ j []|reflexivity].
    - destruct (H i) as (b & E & B); [now left|]. cbn [check_each]. rewrite E. cbn [bind]. destruct b.
      + destruct IH as (c & F & C); [intros; apply H; now right|]. exists c. split; [exact F|]. rewrite C. split.
        * intros G j [<-|J]; [now apply B|now apply G].
        * intros G j J. apply G. now right.
      + exists false. split; [reflexivity|]. split; [discriminate|]. intros G. apply B. apply G. now left.
  Qed.
  Lemma check_rows test a (cols : nat -> list nat) (P : nat -> nat -> Prop) :
    (forall i j, i < length a -> In j (cols i) -> exists b, test i j = Ok b /\ (b = true <-> P i j)) ->
    exists b, check_each (fun i => check_each (test i) (cols i)) (seq 0 (length a)) = Ok b /\
      (b = true <-> forall i j, i < length a -> In j (cols i) -> P i j).
  Proof.
    intros H. destruct (check_each_spec (fun i => check_each (test i) (cols i)) (seq 0 (length a)) (fun i => forall j, In j (cols i) -> P i j)) as (b & E & B).
    - intros i I. apply in_seq in I. apply check_each_spec. intros j J. apply H; [lia|exact J].
    - exists b. split; [exact E|]. rewrite B. split; intros G i.
      + intros j I J. apply G; [apply in_seq; lia|exact J].
      + intros I j J. apply in_seq in I. apply G; [lia|exact J].
  Qed.
End Lemmas.

(** ** C144. The checks of matrices *)

(** Square matrices: the check answers true if and only if every two elements placed
    symmetrically are equal. *)
Theorem C144_symmetric (T : Type) (eqb : T -> T -> bool) (a : list (list T)) : (forall x y, eqb x y = eqb y x) -> square a ->
  exists b, matrix_is_symmetric eqb a = Ok b /\
    (b = true <-> forall i j x y, i <> j -> holds_at a i j x -> holds_at a j i y -> eqb x y = true).
Proof.
  intros SYM SQ. unfold matrix_is_symmetric.
  destruct (check_rows (fun i j => x <- element a i j ;; y <- element a j i ;; Ok (eqb x y)) a (seq 0)
    (fun i j => forall x y, holds_at a i j x -> holds_at a j i y -> eqb x y = true)) as (b & E & B).
  - intros i j I J. apply in_seq in J.
    destruct (square_holds a i j SQ) as (x & X); [lia..|]. destruct (square_holds a j i SQ) as (y & Y); [lia..|].
    rewrite X, Y. cbn [bind]. exists (eqb x y). split; [reflexivity|]. apply element_Ok in X, Y. split.
    + intros H x' y' X' Y'. now rewrite (holds_fun _ _ _ _ _ X' X), (holds_fun _ _ _ _ _ Y' Y).
    + intros H. now apply H.
  - exists b. split; [exact E|]. rewrite B. split; intros H i j.
    + intros x y NE X Y. destruct (Nat.lt_trichotomy i j) as [LT|[EQ|GT]]; [|congruence|].
      * rewrite SYM. apply (H j i); [now apply holds_row in Y|apply in_seq; lia|exact Y|exact X].
      * apply (H i j); [now apply holds_row in X|apply in_seq; lia|exact X|exact Y].
    + intros I J x y X Y. apply in_seq in J. apply (H i j); [lia|exact X|exact Y].
Qed.
Print Assumptions C144_symmetric.

(** Square matrices: the check answers true if and only if every element on the diagonal
    or after it is zero. *)
Theorem C144_strictly_lower_triangular (T : Type) (eqb : T -> T -> bool) (zero : T) (a : list (list T)) : square a ->
  exists b, matrix_is_strictly_lower_triangular eqb zero a = Ok b /\
    (b = true <-> forall i j x, i <= j -> holds_at a i j x -> eqb x zero = true).
Proof.
  intros SQ. unfold matrix_is_strictly_lower_triangular.
  destruct (check_rows (fun i j => x <- element a i j ;; Ok (eqb x zero)) a (fun i => seq i (length a - i))
    (fun i j => forall x, holds_at a i j x -> eqb x zero = true)) as (b & E & B).
  - intros i j I J. apply in_seq in J. destruct (square_holds a i j SQ) as (x & X); [lia..|].
    rewrite X. cbn [bind]. exists (eqb x zero). split; [reflexivity|]. apply element_Ok in X. split.
    + intros H x' X'. now rewrite (holds_fun _ _ _ _ _ X' X).
    + intros H. now apply H.
  - exists b. split; [exact E|]. rewrite B. split; intros H i j.
    + intros x LE X. pose proof (holds_row _ _ _ _ X). pose proof (square_col _ _ _ _ SQ X).
      apply (H i j); [lia|apply in_seq; lia|exact X].
    + intros I J x X. apply in_seq in J. apply (H i j); [lia|exact X].
Qed.
Print Assumptions C144_strictly_lower_triangular.

(** Square matrices: the check answers true if and only if every diagonal element is the
    given one. *)
Theorem C144_diagonal (T : Type) (eqb : T -> T -> bool) (a : list (list T)) (d : T) : square a ->
  exists b, matrix_has_diagonal eqb a d = Ok b /\ (b = true <-> forall i x, holds_at a i i x -> eqb x d = true).
Proof.
  intros SQ. unfold matrix_has_diagonal.
  destruct (check_each_spec (fun i => x <- element a i i ;; Ok (eqb x d)) (seq 0 (length a)) (fun i => forall x, holds_at a i i x -> eqb x d = true)) as (b & E & B).
  - intros i I. apply in_seq in I. destruct (square_holds a i i SQ) as (x & X); [lia..|].
    rewrite X. cbn [bind]. exists (eqb x d). split; [reflexivity|]. apply element_Ok in X. split.
    + intros H x' X'. now rewrite (holds_fun _ _ _ _ _ X' X).
    + intros H. now apply H.
  - exists b. split; [exact E|]. rewrite B. split; intros H i.
    + intros x X. apply (H i); [apply in_seq; apply holds_row in X; lia|exact X].
    + intros _ x X. now apply (H i).
Qed.
Print Assumptions C144_diagonal.

(** Matrices with a lower part, square or not: the check answers true if and only if no
    element before the diagonal is less than the first bound or greater than the second.
    It says nothing about the other elements. *)
Theorem C144_range (T : Type) (ltb : T -> T -> bool) (a : list (list T)) (inf sup : T) : has_lower_part a ->
  exists b, matrix_has_range ltb a inf sup = Ok b /\
    (b = true <-> forall i j x, j < i -> holds_at a i j x -> ltb x inf = false /\ ltb sup x = false).
Proof.
  intros LP. unfold matrix_has_range.
  destruct (check_rows (fun i j => x <- element a i j ;; if ltb x inf then Ok false else if ltb sup x then Ok false else Ok true) a (seq 0)
    (fun i j => forall x, holds_at a i j x -> ltb x inf = false /\ ltb sup x = false)) as (b & E & B).
  - intros i j I J. apply in_seq in J. destruct (lower_holds a i j LP) as (x & X); [lia..|].
    rewrite X. cbn [bind]. apply element_Ok in X.
    destruct (ltb x inf) eqn:A1; [exists false|destruct (ltb sup x) eqn:A2; [exists false|exists true]]; (split; [reflexivity|split]); try discriminate.
    + intros H. destruct (H _ X). congruence.
    + intros H. destruct (H _ X). congruence.
    + intros _ x' X'. rewrite (holds_fun _ _ _ _ _ X' X). now split.
    + reflexivity.
  - exists b. split; [exact E|]. rewrite B. split; intros H i j.
    + intros x LT X. apply (H i j); [now apply holds_row in X|apply in_seq; lia|exact X].
    + intros I J x X. apply in_seq in J. apply (H i j); [lia|exact X].
Qed.
Print Assumptions C144_range.

(** The check of a dominant diagonal answers true for every matrix with a lower part: it
    compares each element with itself. *)
Theorem C144_dominant_diagonal (T : Type) (ltb : T -> T -> bool) (a : list (list T)) : (forall x, ltb x x = false) -> has_lower_part a ->
  matrix_has_dominant_diagonal ltb a = Ok true.
Proof.
  intros IRR LP. unfold matrix_has_dominant_diagonal.
  destruct (check_rows (fun i j => x <- element a i j ;; y <- element a i j ;; if ltb y x then Ok false else Ok true) a (seq 0) (fun _ _ => True)) as (b & E & B).
  - intros i j I J. apply in_seq in J. destruct (lower_holds a i j LP) as (x & X); [lia..|].
    rewrite X. cbn [bind]. rewrite IRR. exists true. now split.
  - rewrite E. f_equal. apply B. now intros.
Qed.
Print Assumptions C144_dominant_diagonal.

(** Matrices stored by their lower part can be given to the last two checks, but not to
    the first three, unless they are too small for those to read an element. *)
Theorem C144_lower_storage (T : Type) (eqb : T -> T -> bool) (zero d : T) (a : list (list T)) : only_lower_part a ->
  has_lower_part a /\
  (length a < 2 -> matrix_is_symmetric eqb a = Ok true) /\ (2 <= length a -> matrix_is_symmetric eqb a = UB) /\
  (a <> [] -> matrix_is_strictly_lower_triangular eqb zero a = UB /\ matrix_has_diagonal eqb a d = UB).
Proof.
  intros LP. split; [|split; [|split]].
  - intros i r E. now rewrite (LP _ _ E).
  - destruct a as [|r [|s a]]; cbn [length]; [reflexivity|reflexivity|lia].
  - destruct a as [|r [|s a]]; cbn [length]; [lia|lia|]. intros _.
    pose proof (LP 0 r eq_refl) as L0. pose proof (LP 1 s eq_refl) as L1.
    destruct r as [|? ?]; [|discriminate]. destruct s as [|x [|? ?]]; [discriminate| |discriminate].
    unfold matrix_is_symmetric. cbn [length seq check_each bind]. reflexivity.
  - destruct a as [|r a]; [congruence|]. intros _. pose proof (LP 0 r eq_refl) as L0. destruct r; [|discriminate].
    split; reflexivity.
Qed.
Print Assumptions C144_lower_storage.

(** On integers, the checks of a matrix which is symmetric, has ones on its diagonal, and
    whose diagonal is not dominant; and of a matrix stored by its lower part. *)
Example C144_case : let a := [[1; 5; 0]; [5; 1; -2]; [0; -2; 1]]%Z in let l := [[]; [5]; [0; -2]]%Z in
  square a /\ only_lower_part l /\
  matrix_is_symmetric Z.eqb a = Ok true /\ matrix_is_symmetric Z.eqb [[1; 2]; [3; 1]]%Z = Ok false /\
  matrix_is_strictly_lower_triangular Z.eqb 0%Z a = Ok false /\
  matrix_is_strictly_lower_triangular Z.eqb 0%Z [[0; 0]; [7; 0]]%Z = Ok true /\
  matrix_has_diagonal Z.eqb a 1%Z = Ok true /\ matrix_has_diagonal Z.eqb [[1; 0]; [0; 2]]%Z 1%Z = Ok false /\
  matrix_has_range Z.ltb a (-2)%Z 5%Z = Ok true /\ matrix_has_range Z.ltb a (-1)%Z 5%Z = Ok false /\
  matrix_has_range Z.ltb l (-2)%Z 4%Z = Ok false /\ matrix_has_range Z.ltb [[9; 9]; [1; 9]]%Z 0%Z 1%Z = Ok true /\
  matrix_has_dominant_diagonal Z.ltb a = Ok true /\ matrix_is_symmetric Z.eqb l = UB.
Proof.
  cbn zeta. split; [repeat constructor|]. split.
  - intros [|[|[|i]]] r E; cbn in E; try (inversion E; reflexivity). now destruct i.
  - repeat split; vm_compute; reflexivity.
Qed.

(** The hypotheses on the comparisons are met by those of the integers. *)
Example C144_hypotheses : (forall x y, Z.eqb x y = Z.eqb y x) /\ (forall x, Z.ltb x x = false).
Proof. split; [apply Z.eqb_sym|apply Z.ltb_irrefl]. Qed.
