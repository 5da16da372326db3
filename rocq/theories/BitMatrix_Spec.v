(** Mathematical vocabulary for bit matrices (lists of rows over GF(2)). *)

From Verif Require Import Base BitVector_Spec.

(** An [nr] x [nc] matrix with at least one row and one column. *)
Definition is_matrix (nr nc : nat) (A : list (list bool)) : Prop :=
  0 < nr /\ 0 < nc /\ length A = nr /\ Forall (fun row => length row = nc) A.

(** Entry (i, j). *)
Definition entry (A : list (list bool)) (i j : nat) : bool := nth j (nth i A []) false.

(** Sum of f 0, ..., f (n-1) in GF(2). *)
Definition gf2_sum (n : nat) (f : nat -> bool) : bool :=
  fold_right xorb false (map f (seq 0 n)).

(** Matrix times column vector. *)
Definition mat_vec (A : list (list bool)) (x : list bool) : list bool :=
  map (fun row => gf2_sum (length x) (fun j => nth j row false && nth j x false)) A.

(** The [n] x [n] identity matrix. *)
Definition identity_matrix (n : nat) : list (list bool) := map (unitv n) (seq 0 n).

(** [B] is a two-sided inverse of the square matrix [A]. *)
Definition inverse_of (n : nat) (A B : list (list bool)) : Prop :=
  is_matrix n n B /\
  forall x, length x = n -> mat_vec A (mat_vec B x) = x /\ mat_vec B (mat_vec A x) = x.

Definition invertible (n : nat) (A : list (list bool)) : Prop := exists B, inverse_of n A B.

(** The vector space of size-[n] vectors generated by a list of vectors. *)
Inductive span (n : nat) (L : list (list bool)) : list bool -> Prop :=
| span_zero : span n L (zerov n)
| span_add r x : In r L -> span n L x -> span n L (map2 xorb r x).

(** Sum of the vectors of [L] selected by the coefficients [c]. *)
Fixpoint lin_comb (n : nat) (c : list bool) (L : list (list bool)) : list bool :=
  match c, L with
  | b :: c', r :: L' => if b then map2 xorb r (lin_comb n c' L') else lin_comb n c' L'
  | _, _ => zerov n
  end.

(** No non-trivial combination is zero. *)
Definition independent (n : nat) (L : list (list bool)) : Prop :=
  forall c, length c = length L -> lin_comb n c L = zerov n -> c = zerov (length L).

(** The space generated by [L] has dimension [d]: it has a basis of [d] vectors. *)
Definition dimension (n : nat) (L : list (list bool)) (d : nat) : Prop :=
  exists B, length B = d /\ independent n B /\ Forall (fun r => length r = n) B /\
    forall x, span n B x <-> span n L x.

(** Row echelon form: leading ones at strictly increasing columns [piv], then
    zero rows. *)
Definition echelon (nr nc : nat) (A : list (list bool)) (piv : list nat) : Prop :=
  length piv <= nr /\
  (forall a b, a < b < length piv -> nth a piv 0 < nth b piv 0) /\
  (forall k, k < length piv -> nth k piv 0 < nc /\ entry A k (nth k piv 0) = true /\
     forall c, c < nth k piv 0 -> entry A k c = false) /\
  (forall k c, length piv <= k < nr -> entry A k c = false).
