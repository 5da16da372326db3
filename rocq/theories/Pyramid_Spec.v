(** Vocabulary of the Parameter-less Population Pyramid. *)

From Coq Require Import List.
From Verif Require Import Base Double Pyramid_Model.
Import ListNotations.

(** The vector [z] is made of the genes of [y] in the cluster and of those of [x]
    elsewhere. *)
Definition crossed (cluster : list nat) (x y z : list bool) : Prop :=
  length z = length x /\ forall i, nth_error z i = if in_dec Nat.eq_dec i cluster then nth_error y i else nth_error x i.

(** A set of genes out of [n] *)
Definition genes (n : nat) (cluster : list nat) : Prop := NoDup cluster /\ forall i, In i cluster -> i < n.

(** All the solutions of the pyramid, level after level *)
Definition solutions_of (p : pyramid) : list (list bool) := concat (map p_solutions (y_levels p)).

(** The pyramid [q] contains the pyramid [p]: solutions have been added to the end of its
    levels, and levels after the last one. *)
Definition extends (p q : pyramid) : Prop :=
  length (y_levels p) <= length (y_levels q) /\
  forall l pop, nth_error (y_levels p) l = Some pop ->
    exists pop' more, nth_error (y_levels q) l = Some pop' /\ p_solutions pop' = p_solutions pop ++ more.

(** The orders of the genes are permutations. *)
Definition orders (n : nat) (trees : nat -> tree_draws) : Prop :=
  forall t, NoDup (td_order (trees t)) /\ forall i, In i (td_order (trees t)) <-> i < n.

(** An outcome which is either a result, or an exception thrown by the function for a
    vector of the right size; in particular it is not undefined *)
Definition ends {A : Type} (n : nat) (f : list bool -> outcome dbl) (r : outcome A) (P : A -> Prop) : Prop :=
  match r with
  | Ok a => P a
  | Throw e => exists y, length y = n /\ f y = Throw e
  | UB => False
  end.

(** What is always true of a pyramid *)
Record sound (n : nat) (f : list bool -> outcome dbl) (p : pyramid) : Prop := mk_sound {
  (** its solutions are different vectors of the right size, which have been evaluated *)
  sound_distinct : NoDup (solutions_of p);
  sound_values : forall x, In x (solutions_of p) -> length x = n /\ exists v, f x = Ok v;
  (** it remembers exactly them *)
  sound_seen : forall x, In x (y_seen p) <-> In x (solutions_of p);
  (** its levels are not empty, and their clusters are sets of genes *)
  sound_levels : forall pop, In pop (y_levels p) -> p_solutions pop <> [] /\ Forall (genes n) (p_clusters pop);
  (** a solution above the first level is strictly better than another solution *)
  sound_above : forall l pop y, nth_error (y_levels p) (S l) = Some pop -> In y (p_solutions pop) ->
    exists z v w, In z (solutions_of p) /\ f z = Ok v /\ f y = Ok w /\ dlt v w = true }.

(** The value [w] is the value [v], or a greater or equal one (the two are different when
    [v] is not a number). *)
Definition no_worse (v w : dbl) : Prop := v = w \/ dle v w = true.

(** A set of genes which is neither empty nor the set of all the [n] genes *)
Definition proper (n : nat) (cluster : list nat) : Prop :=
  genes n cluster /\ cluster <> [] /\ exists i, i < n /\ ~ In i cluster.
