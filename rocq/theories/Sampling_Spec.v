(** Counting the draws which give a result.  A uniform number of [0, 1) is one of the
    [N] multiples of 1/N, all equally likely; a sequence of [L] independent draws is one of
    all the sequences of length [L], all equally likely.  The probability of an event is the
    number of the sequences for which it holds divided by the number of sequences. *)

From Coq Require Import QArith.
From Verif Require Import Base.
Local Open Scope nat_scope.

(** All the sequences of [L] elements of [l] *)
Fixpoint sequences {A} (l : list A) (L : nat) : list (list A) :=
  match L with
  | 0 => [[]]
  | S L' => flat_map (fun a => map (cons a) (sequences l L')) l
  end.
(** The number of elements for which [P] holds *)
Definition tally {A} (P : A -> bool) (l : list A) : nat := length (filter P l).
Definition grid (N : nat) : list Q := map (fun j => Qmake (Z.of_nat j) (Pos.of_nat N)) (seq 0 N).
(** The draws of a sequence *)
Definition drawn (us : list Q) (i : nat) : Q := nth i us 0%Q.
(** [N] is fine enough for probabilities with denominators up to [n]. *)
Definition fine (N n : nat) : Prop := 0 < N /\ forall j, 1 <= j <= n -> Nat.divide j N.

(** The number of subsets of size [k] *)
Fixpoint binom (n k : nat) : nat :=
  match n, k with
  | _, 0 => 1
  | 0, S _ => 0
  | S n', S k' => binom n' k' + binom n' k
  end.

(** The call returned this value. *)
Definition returned {A} (eqd : forall a b : A, {a = b} + {a <> b}) (o : outcome A) (a : A) : bool :=
  match o with Ok b => if eqd b a then true else false | _ => false end.
Definition returned' {A} (eqd : forall a b : A, {a = b} + {a <> b}) (o : option A) (a : A) : bool :=
  match o with Some b => if eqd b a then true else false | None => false end.
(** A generator drawing values until it can return has exhausted the draws. *)
Definition pending {A} (o : option A) : bool := match o with None => true | _ => false end.
Definition bits_dec : forall a b : list bool, {a = b} + {a <> b} := list_eq_dec Bool.bool_dec.
Definition indices_dec : forall a b : list nat, {a = b} + {a <> b} := list_eq_dec Nat.eq_dec.
(** A coin which shows true [a] times out of [a + b] *)
Definition coin (a b : nat) : list bool := repeat true a ++ repeat false b.
(** Draws [r j] with two ranks: those of rank [i] are the sequence, the other ones are given. *)
Definition site_draws (i : nat) (us : list Q) (others : nat -> nat -> Q) (r j : nat) : Q := if r =? i then drawn us j else others r j.

(** Product *)
Definition product (l : list nat) : nat := fold_right Nat.mul 1 l.

(** Chances, out of [N], of the bit of rank [i] of a vector drawn along the chain [perm]: its
    probability to be 1 is a1_i / N if the previous bit is 1 (and for the first one), else a0_i / N. *)
Definition chain_chance (N : nat) (perm a0 a1 : list nat) (y : list bool) (i : nat) : nat :=
  let a := if i =? 0 then nth 0 a1 0 else if nth (nth (i - 1) perm 0) y false then nth i a1 0 else nth i a0 0 in
  if nth (nth i perm 0) y false then a else N - a.

(** The numerators of probabilities with denominator [N] *)
Definition over (N : nat) (ps : list nat) : list Q := map (fun a => Qmake (Z.of_nat a) (Pos.of_nat N)) ps.

(** The call has returned these indices. *)
Definition bits_are (l : list nat) (o : option (outcome (list nat))) : bool := match o with Some r => returned indices_dec r l | None => false end.

(** The uniform numbers and the indices drawn by a call *)
Definition source (N n L : nat) : list (list Q * list nat) := list_prod (sequences (grid N) n) (sequences (seq 0 n) L).
