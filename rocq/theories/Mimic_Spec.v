(** Vocabulary for the statements about MIMIC. Selected individuals are lists of
    vectors with their values. *)

From Coq Require Import QArith Permutation.
From Verif Require Import Base BitVector_Model Algorithm_Model Population_Model Population_Spec ProbabilityVector_Spec.
Local Open Scope nat_scope.

Definition ratio (a b : nat) : Q := (inject_Z (Z.of_nat a) / inject_Z (Z.of_nat b))%Q.

(** Number of individuals with bit [i] equal to [a]; with also bit [j] equal to [b]. *)
Definition having (i : nat) (a : bool) (l : list (bv * Z)) : nat :=
  length (filter (fun y => eqb (nth i (fst y) false) a) l).
Definition having2 (i : nat) (a : bool) (j : nat) (b : bool) (l : list (bv * Z)) : nat :=
  length (filter (fun y => eqb (nth i (fst y) false) a && eqb (nth j (fst y) false) b) l).

(** Frequency of bit [j] set given that bit [i] is equal to [a]; 1/2 if this never happens. *)
Definition conditional (i : nat) (a : bool) (j : nat) (l : list (bv * Z)) : Q :=
  match having i a l with 0 => (1 # 2)%Q | c => ratio (having2 i a j true l) c end.

(** Empirical conditional entropy of bit [j] given bit [i], times the number of
    individuals; [lg] is the logarithm. *)
Definition entropy_term (lg : Q -> Q) (i : nat) (a : bool) (j : nat) (b : bool) (l : list (bv * Z)) : Q :=
  match having2 i a j b l with 0 => 0%Q | c => (inject_Z (Z.of_nat c) * lg (ratio (having i a l) c))%Q end.
Definition conditional_entropy (lg : Q -> Q) (i j : nat) (l : list (bv * Z)) : Q :=
  (entropy_term lg i false j false l + entropy_term lg i false j true l +
   (entropy_term lg i true j false l + entropy_term lg i true j true l))%Q.

(** Distance of a probability to the nearest of 0 and 1: [d] is min(p, 1 - p). *)
Definition uncertainty (p : Q) : Q := if Qlt_le_dec (1 # 2) p then (1 - p)%Q else p.

(** The chain learned from the individuals [kept]: [perm] orders the components; the
    first one has the least uncertainty; each next one has the least entropy, given the
    previous one, among those which remain; the parameters are the clamped conditional
    frequencies, given that the previous component is zero, [p0], or one, [p1]. *)
Record chain (lg : Q -> Q) (n : nat) (kept : list (bv * Z)) (perm : list nat) (p0 p1 : list Q) : Prop := {
  chain_perm : Permutation (seq 0 n) perm;
  chain_p0 : length p0 = n;
  chain_p1 : length p1 = n;
  chain_root : forall j, j < n -> (uncertainty (frequency (nth 0 perm 0%nat) kept) <= uncertainty (frequency j kept))%Q;
  chain_next : forall i j, 0 < i < n -> i <= j < n ->
    (conditional_entropy lg (nth (i - 1) perm 0%nat) (nth i perm 0%nat) kept <=
     conditional_entropy lg (nth (i - 1) perm 0%nat) (nth j perm 0%nat) kept)%Q;
  chain_first : forall p, p = p0 \/ p = p1 ->
    clamped (ratio 1 n) (1 - ratio 1 n) (frequency (nth 0 perm 0%nat) kept) (nth 0 p 0%Q);
  chain_zero : forall i, 0 < i < n ->
    clamped (ratio 1 n) (1 - ratio 1 n) (conditional (nth (i - 1) perm 0%nat) false (nth i perm 0%nat) kept) (nth i p0 0%Q);
  chain_one : forall i, 0 < i < n ->
    clamped (ratio 1 n) (1 - ratio 1 n) (conditional (nth (i - 1) perm 0%nat) true (nth i perm 0%nat) kept) (nth i p1 0%Q)
}.

(** The vector [x] of size [n] is drawn along the chain. *)
Definition drawn_along (n : nat) (perm : list nat) (p0 p1 : list Q) (u : nat -> Q) (x : list bool) : Prop :=
  length x = n /\
  (nth (nth 0 perm 0%nat) x false = true <-> (u 0%nat < nth 0 p1 0)%Q) /\
  forall i, 0 < i < n ->
    let p := if nth (nth (i - 1) perm 0%nat) x false then nth i p1 0%Q else nth i p0 0%Q in
    (nth (nth i perm 0%nat) x false = true <-> (u i < p)%Q).
