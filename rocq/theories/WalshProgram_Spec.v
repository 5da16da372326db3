(** The spectrum of a function. *)

From Coq Require Import ZArith QArith Sorted.
From Verif Require Import Base BitVector_Spec Function_Spec.
Local Close Scope Q_scope.
Local Open Scope nat_scope.

(** The features of size [n] which are not empty, and the absolute values of their coefficients *)
Definition feature (n : nat) (u : list bool) : Prop := length u = n /\ 0 < weight u.
Definition strength (n : nat) (g : list bool -> Z) (u : list bool) : Z := Z.abs (walsh_coefficient n g u).

(** [norm] is the greatest one. *)
Definition greatest_strength (n : nat) (g : list bool -> Z) (norm : Z) : Prop :=
  (exists u, feature n u /\ strength n g u = norm) /\ forall u, feature n u -> (strength n g u <= norm)%Z.

(** The features whose amplitude, relative to the greatest one, is greater than 1e-10, by
    decreasing amplitudes: their weights and amplitudes *)
Definition is_spectrum (n : nat) (g : list bool -> Z) (l : list (nat * Q)) : Prop :=
  exists norm us, greatest_strength n g norm /\ (0 < norm)%Z /\
    NoDup us /\ (forall u, In u us <-> feature n u /\ (norm < 10 ^ 10 * strength n g u)%Z) /\
    StronglySorted (fun u v => (strength n g v <= strength n g u)%Z) us /\
    Forall2 (fun u p => fst p = weight u /\ (snd p == inject_Z (strength n g u) / inject_Z norm)%Q) us l.

Definition constant (n : nat) (g : list bool -> Z) : Prop := forall x y, length x = n -> length y = n -> g x = g y.
