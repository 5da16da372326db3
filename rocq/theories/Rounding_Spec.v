(** Doubles (IEEE 754 binary64), as multiples of 2^-1074. *)

From Coq Require Import ZArith.
From Verif Require Import Base Double.
Local Open Scope Z_scope.

(** The numbers with 53 significant bits, without a bound on the exponent *)
Definition format (z : Z) : Prop := exists m e, 0 <= e /\ Z.abs m < 2 ^ 53 /\ z = m * 2 ^ e.

(** The significand and the exponent of a number *)
Definition canonical (m e : Z) : Prop := (e = 0 /\ Z.abs m < 2 ^ 53) \/ (0 < e /\ 2 ^ 52 <= Z.abs m < 2 ^ 53).

(** [r] is the nearest number to [z]; if another one is as near as [r], then the significand
    of [r] is even. *)
Definition nearest_even (z r : Z) : Prop :=
  format r /\ (forall y, format y -> Z.abs (r - z) <= Z.abs (y - z)) /\
  (forall y, format y -> y <> r -> Z.abs (y - z) = Z.abs (r - z) ->
     exists m e, canonical m e /\ r = m * 2 ^ e /\ Z.even m = true).

(** The finite doubles: 2^1024 is 2^2098 multiples of 2^-1074. *)
Definition finite_double (d : dbl) : Prop := exists z, d = DFin z /\ format z /\ Z.abs z < 2 ^ 2098.

(** The value [v] is a double: a finite one or an infinity. *)
Definition number (v : dbl) : Prop := finite_double v \/ v = DPosInf \/ v = DNegInf.

(** Multiples of 2^a; the sum of the absolute values of the numbers [l], in this unit, is at
    most 2^53, and the sum does not overflow. *)
Definition small_multiples (a : Z) (l : list Z) : Prop :=
  0 <= a /\ (forall z, In z l -> (2 ^ a | z)) /\
  fold_right (fun z s => Z.abs z + s) 0 l <= 2 ^ 53 * 2 ^ a /\ fold_right (fun z s => Z.abs z + s) 0 l < 2 ^ 2098.

(** The double equal to the integer [k] *)
Definition of_integer (k : Z) : dbl := DFin (k * 2 ^ 1074).
