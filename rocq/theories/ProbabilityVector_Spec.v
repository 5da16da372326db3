(** Vocabulary for the statements about probability vectors. *)

From Coq Require Import QArith.
From Verif Require Import Base BitVector_Model Algorithm_Model Population_Model Population_Spec ProbabilityVector_Model.
Local Open Scope nat_scope.

(** [r] is [p] clamped to the interval [lo, hi]. *)
Definition clamped (lo hi p r : Q) : Prop :=
  ((p < lo -> r == lo) /\ (lo <= p <= hi -> r == p) /\ (hi < p -> r == hi))%Q.

(** A probability within the bounds of the algorithms of dimension [n]. *)
Definition within (n : nat) (p : Q) : Prop :=
  let d := inject_Z (Z.of_nat n) in (1 / d <= p <= 1 - 1 / d)%Q.

(** Number of individuals of a list with bit [i] set, and its ratio to the length. *)
Definition ones_at (i : nat) (l : list (bv * Z)) : nat := length (filter (fun y => nth i (fst y) false) l).
Definition frequency (i : nat) (l : list (bv * Z)) : Q :=
  (inject_Z (Z.of_nat (ones_at i l)) / inject_Z (Z.of_nat (length l)))%Q.

(** The vector [x] of size [n] is drawn with the probabilities [pv]: each bit is one if
    and only if the uniform number drawn for it is less than its probability. *)
Definition drawn (n : nat) (pv : list Q) (u : nat -> Q) (x : list bool) : Prop :=
  length x = n /\ forall i, i < n -> (nth i x false = true <-> (u i < nth i pv 0)%Q).

(** One iteration of a population-based algorithm: [size] vectors are drawn with the
    probabilities and evaluated; probability [i] becomes the clamped value of
    [target p kept], where [p] is the former one and [kept] are [selection] best
    individuals. *)
Definition learns (target : nat -> Q -> list (bv * Z) -> Q) (o : objective) (n size selection : nat) (u : nat -> nat -> Q)
    (s s' : alg eda) : Prop :=
  exists sampled kept,
    length sampled = size /\
    (forall k, k < size -> drawn n (e_pv (a_mem s)) (u k) (nth k sampled [])) /\
    a_trace s' = a_trace s ++ sampled /\
    best_of selection kept (map (fun x => (x, o_value o x)) sampled) /\
    length (e_pv (a_mem s')) = n /\
    forall i, i < n ->
      clamped (1 / inject_Z (Z.of_nat n)) (1 - 1 / inject_Z (Z.of_nat n))
        (target i (nth i (e_pv (a_mem s)) 0%Q) kept) (nth i (e_pv (a_mem s')) 0%Q).
