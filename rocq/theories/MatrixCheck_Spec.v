(** Vocabulary of the checks of matrices. *)

From Coq Require Import List.
Import ListNotations.

(** The element in row [i] and column [j] is [v]. *)
Definition holds_at {T : Type} (a : list (list T)) (i j : nat) (v : T) : Prop :=
  exists r, nth_error a i = Some r /\ nth_error r j = Some v.

(** As many columns as rows, in every row *)
Definition square {T : Type} (a : list (list T)) : Prop :=
  Forall (fun r => length r = length a) a.

(** Row [i] has at least the [i] elements before the diagonal: square matrices, and
    matrices stored by their lower part, are so. *)
Definition has_lower_part {T : Type} (a : list (list T)) : Prop :=
  forall i r, nth_error a i = Some r -> i <= length r.

(** Row [i] has exactly the [i] elements before the diagonal. *)
Definition only_lower_part {T : Type} (a : list (list T)) : Prop :=
  forall i r, nth_error a i = Some r -> length r = i.
