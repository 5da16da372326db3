(** Vocabulary for the statements about populations and selections. *)

From Coq Require Import ZArith Permutation.
From Verif Require Import Base BitVector_Model Representation_Spec Map_Spec Population_Model.
Local Open Scope nat_scope.

(** std::partial_sort with middle [k], for a strict weak order: a permutation
    whose first [k] elements are not greater than any later element. *)
Definition partially_sorts {A : Type} (psrt : nat -> (A -> A -> bool) -> list A -> list A) : Prop :=
  forall k lt l, strict_weak_order lt -> k <= length l ->
    Permutation l (psrt k lt l) /\
    forall i j a b, i < k -> i < j -> nth_error (psrt k lt l) i = Some a -> nth_error (psrt k lt l) j = Some b ->
      lt b a = false.

(** Populations of [size] vectors of [n] bits, as built and kept by the library. *)
Definition well_formed (size n : nat) (p : population) : Prop :=
  0 < size /\ 0 < n /\
  length (p_bvs p) = size /\ Forall (fun x => length x = n) (p_bvs p) /\
  length (p_values p) = size /\ Permutation (seq 0 size) (p_perm p).

(** The individuals of a population with their values. *)
Definition individuals (p : population) : list (bv * Z) := combine (p_bvs p) (p_values p).

(** [kept] holds [mu] best elements of [pool]: as multisets, [pool] is [kept]
    plus elements that are no better than those kept. *)
Definition best_of (mu : nat) (kept pool : list (bv * Z)) : Prop :=
  length kept = mu /\
  exists rest, Permutation pool (kept ++ rest) /\
    forall a b, In a kept -> In b rest -> (snd b <= snd a)%Z.

(** Later elements have no greater values. *)
Definition non_increasing (l : list (bv * Z)) : Prop :=
  forall i j a b, i < j -> nth_error l i = Some a -> nth_error l j = Some b -> (snd b <= snd a)%Z.

(** The tournament selection over [size] individuals is in a round: initialized and
    about to read the slice [start, stop) of a permutation. *)
Definition in_round (size : nat) (t : tournament) : Prop :=
  2 <= t_size t /\ t_stop t = t_start t + t_size t /\ t_stop t <= size /\
  Permutation (seq 0 size) (t_perm t).

(** The individuals of a slice of the permutation. *)
Definition slice_of (t : tournament) : list nat :=
  firstn (t_stop t - t_start t) (skipn (t_start t) (t_perm t)).

(** [k] is a best individual among those of [l]. *)
Definition best_among {T : Type} (better : T -> T -> bool) (values : list T) (l : list nat) (k : nat) : Prop :=
  In k l /\ forall j a b, In j l -> nth_error values j = Some a -> nth_error values k = Some b -> better a b = false.

(** [m] successive selections; [shs i] is the shuffle available to the [i]-th one. *)
Fixpoint selections {T : Type} (better : T -> T -> bool) (bvs : list bv) (values : list T)
    (shs : nat -> list nat -> list nat) (m : nat) (t : tournament) : outcome (list bv * tournament) :=
  match m with
  | 0 => Ok ([], t)
  | S m' =>
      '(bs, t) <- selections better bvs values shs m' t ;;
      '(b, t) <- tournament_select better bvs values (shs m') t ;;
      Ok (bs ++ [b], t)
  end.
