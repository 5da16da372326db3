(** Vocabulary for statements about functions on bit vectors. *)

From Coq Require Import ZArith.
From Verif Require Import Base BitVector_Spec.
Local Open Scope nat_scope.

(** [v] is the maximum of the evaluation [ev] over the vectors of size [n]: every
    evaluation succeeds, is at most [v], and [v] is attained. *)
Definition is_maximum (n : nat) (ev : list bool -> outcome Z) (v : Z) : Prop :=
  (forall x, length x = n -> exists r, ev x = Ok r /\ (r <= v)%Z) /\
  exists x, length x = n /\ ev x = Ok v.

(** The maximizers are exactly the vectors of the list. *)
Definition maximizers (n : nat) (ev : list bool -> outcome Z) (v : Z) (L : list (list bool)) : Prop :=
  forall x, length x = n -> (ev x = Ok v <-> In x L).

Definition onesv (n : nat) : list bool := repeat true n.

(** [x] with the bits at the positions of [l] flipped. *)
Definition flipped_at (x : list bool) (l : list nat) : list bool :=
  map (fun i => if in_dec Nat.eq_dec i l then negb (nth i x false) else nth i x false) (seq 0 (length x)).

(** Sum of a list of integers. *)
Definition zsum (l : list Z) : Z := fold_right Z.add 0%Z l.

(** Hierarchical if-and-only-if of a vector of size 2^d: one for each bit, plus,
    recursively, the size of each block whose bits are all equal. *)
Definition uniform (x : list bool) : Prop := x = repeat true (length x) \/ x = repeat false (length x).

Definition uniformb (x : list bool) : bool := forallb (fun b => b) x || forallb negb x.

Fixpoint hiff_value (d : nat) (x : list bool) : nat :=
  match d with
  | 0 => 1
  | S d' =>
      hiff_value d' (firstn (2 ^ d') x) + hiff_value d' (skipn (2 ^ d') x) +
      (if uniformb x then 2 ^ d else 0)
  end.

(** The k-long path over m blocks of k bits (Horn, Goldberg and Deb; Jansen). *)
Fixpoint long_path (k m : nat) : list (list bool) :=
  match m with
  | 0 => [[]]
  | S m' =>
      let p := long_path k m' in
      map (fun x => repeat false k ++ x) p ++
      map (fun i => repeat false (k - i) ++ repeat true i ++ last p []) (seq 1 (k - 1)) ++
      map (fun x => repeat true k ++ x) (rev p)
  end.

(** Number of positions where two vectors differ. *)
Definition distance (x y : list bool) : nat := weight (map2 xorb x y).

(** Value of a spin: +1 for a zero, -1 for a one, that is (-1)^b. *)
Definition spin (b : bool) : Z := if b then (-1)%Z else 1%Z.

(** Sum of [f i] for [i] in [0, n). *)
Definition sum_n (n : nat) (f : nat -> Z) : Z := zsum (map f (seq 0 n)).

(** Walsh function (-1)^(x.u). *)
Definition walsh_sign (u x : list bool) : Z := if Nat.odd (weight (map2 andb x u)) then (-1)%Z else 1%Z.

(** All vectors of size [n]. *)
Fixpoint hypercube (n : nat) : list (list bool) :=
  match n with
  | 0 => [[]]
  | S n' => map (cons false) (hypercube n') ++ map (cons true) (hypercube n')
  end.

(** Walsh coefficient (times 2^n) of a function. *)
Definition walsh_coefficient (n : nat) (f : list bool -> Z) (u : list bool) : Z :=
  zsum (map (fun x => walsh_sign u x * f x)%Z (hypercube n)).

(** Incremental evaluation is right on [x] and the flipped positions [l]. *)
Definition incremental_right (ev : list bool -> outcome Z) (inc : list bool -> Z -> list nat -> outcome Z)
    (x : list bool) (l : list nat) : Prop :=
  exists v w, ev x = Ok v /\ inc x v l = Ok w /\ ev (flipped_at x l) = Ok w.

(** Positions given to incremental evaluation: distinct and in range. *)
Definition positions (n : nat) (l : list nat) : Prop := NoDup l /\ Forall (fun i => i < n) l.

(** Rectangular array with [nr] rows and [nc] columns, and its entries. *)
Definition grid (nr nc : nat) (m : list (list Z)) : Prop := length m = nr /\ Forall (fun row => length row = nc) m.
Definition entry (m : list (list Z)) (i j : nat) : Z := nth j (nth i m []) 0%Z.
