(** Vocabulary of the algorithms which call other libraries. *)

From Coq Require Import List ZArith Bool.
From Verif Require Import Base BitVector_Model Double Controller_Model.
Import ListNotations.

(** Starting from state [s] the function evaluates the vectors [xs] in this order, with
    values [vs], and ends in state [t]. *)
Inductive evaluates {S : Type} (o : fobj S) : S -> list bv -> list dbl -> S -> Prop :=
| evaluates_nil s : evaluates o s [] [] s
| evaluates_cons s x v s' xs vs t : o s (REval x) = (s', Ok (RValue v)) -> evaluates o s' xs vs t ->
    evaluates o s (x :: xs) (v :: vs) t.

(** Each vector of [xs] is the one asked for after the values of the preceding ones. *)
Definition asked {X : Type} (asks : list dbl -> option X) (xs : list X) (answers : list dbl) : Prop :=
  forall i x, nth_error xs i = Some x -> asks (firstn i answers) = Some x.

(** The vector [x] is the first one of greatest value in [xs], whose values are [vs], and
    [v] is its value. Values which are not numbers are not compared. *)
Definition first_best {X : Type} (xs : list X) (vs : list dbl) (x : X) (v : dbl) : Prop :=
  exists i, nth_error xs i = Some x /\ nth_error vs i = Some v /\ is_nan v = false /\
    (forall j w, nth_error vs j = Some w -> is_nan w = false -> dle w v = true) /\
    (forall j w, j < i -> nth_error vs j = Some w -> is_nan w = false -> dlt w v = true).

(** The bits as the characters 0 and 1 *)
Definition chars_of (x : bv) : list Z := map (fun b : bool => if b then 1%Z else 0%Z) x.

(** The least int, -2^31, in units of 2^-1074 *)
Definition lowest : dbl := DFin (- 2 ^ 31 * 2 ^ 1074).

(** ** Numbers of single precision *)
Local Open Scope Z_scope.

(** The numbers with 24 significant bits which are multiples of 2^-149, without a bound
    on the exponent, in units of 2^-1074 *)
Definition single (z : Z) : Prop := exists m e, 925 <= e /\ Z.abs m < 2 ^ 24 /\ z = m * 2 ^ e.

(** The significand and the exponent of a number *)
Definition single_canonical (m e : Z) : Prop := (e = 925 /\ Z.abs m < 2 ^ 24) \/ (925 < e /\ 2 ^ 23 <= Z.abs m < 2 ^ 24).

(** [r] is the nearest such number to [z]; if another one is as near as [r], then the
    significand of [r] is even. *)
Definition nearest_single (z r : Z) : Prop :=
  single r /\ (forall y, single y -> Z.abs (r - z) <= Z.abs (y - z)) /\
  (forall y, single y -> y <> r -> Z.abs (y - z) = Z.abs (r - z) ->
     exists m e, single_canonical m e /\ r = m * 2 ^ e /\ Z.even m = true).

(** The value is one of a float: not a number, an infinity, or a number of single
    precision less than 2^128. *)
Definition is_float (d : dbl) : Prop :=
  match d with DFin z => single z /\ Z.abs z < 2 ^ 1202 | _ => True end.

(** The conversion of a double into a float: the nearest number, or an infinity if it is
    too large. *)
Definition converts (d f : dbl) : Prop :=
  match d with
  | DFin z => exists r, nearest_single z r /\
      (Z.abs r < 2 ^ 1202 -> f = DFin r) /\ (2 ^ 1202 <= r -> f = DPosInf) /\ (r <= - 2 ^ 1202 -> f = DNegInf)
  | _ => f = d
  end.
