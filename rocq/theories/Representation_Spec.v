(** Vocabulary for the statements about representations. *)

From Coq Require Import ZArith NArith QArith Permutation Sorted.
From Verif Require Import Base BitVector_Spec Representation_Model.
Local Open Scope nat_scope.

(** [n] consecutive bits from position [start]. *)
Definition slice (x : list bool) (start n : nat) : list bool := firstn n (skipn start x).

(** Number read with the most significant bit first. *)
Definition value_msb (p : list bool) : N := value_lsb (rev p).

(** The representation decodes its slice, and nothing else, with [dec]; it does not
    fail. *)
Definition decodes {D : Type} (r : rep D) (dec : list bool -> D) : Prop :=
  0 < rep_size r /\
  forall x start, start + rep_size r <= length x ->
    rep_unpack r x start = Ok (dec (slice x start (rep_size r))).

(** std::sort: for a strict weak order, a permutation in which no element is
    greater than a later one. *)
Definition strict_weak_order {A : Type} (lt : A -> A -> bool) : Prop :=
  (forall a, lt a a = false) /\
  (forall a b c, lt a b = true -> lt b c = true -> lt a c = true) /\
  (forall a b c, lt a b = false -> lt b c = false -> lt a c = false).
Definition sorts {A : Type} (srt : (A -> A -> bool) -> list A -> list A) : Prop :=
  forall lt l, strict_weak_order lt ->
    Permutation l (srt lt l) /\ StronglySorted (fun a b => lt b a = false) (srt lt l).

(** Pieces of the sizes of the representations. *)
Definition pieces_of {D : Type} (reps : list (rep D)) (ps : list (list bool)) : Prop :=
  Forall2 (fun r p => length p = rep_size r) reps ps.

(** Each piece decoded by its decoder. *)
Definition decode_all {D : Type} (decs : list (list bool -> D)) (ps : list (list bool)) : list D :=
  map2 (fun dec p => dec p) decs ps.

(** Arguments accepted by the constructors of the dyadic integers: a non-empty
    interval whose number of elements fits the type, and a computed size which fits
    it too. *)
Definition dint_args (w : nat) (lg : Z -> nat) (lower upper : Z) : Prop :=
  (lower < upper)%Z /\ (upper - lower + 1 <= int_max w)%Z /\ 0 < lg (upper - lower + 1)%Z < w.

(** 2^n *)
Definition qpow2 (n : nat) : Q := inject_Z (2 ^ Z.of_nat n).

(** The category read from the bits: exclusive or of j + 1 for the positions j of
    the ones. *)
Definition xor_indices (p : list bool) : N := fold_right N.lxor 0%N (map (fun j => N.of_nat (j + 1)) (ones p)).

(** Value decoded for element [i] from the bits [p] of the representation. *)
Definition element_value (r : permrep) (p : list bool) (i : nat) : N := value_lsb (slice p (i * pr_element r) (pr_element r)).
