(** Properties C01-C05: bit vectors. *)

From Coq Require Import NArith QArith String Ascii.
From Verif Require Import Base BitVector_Model BitVector_Spec BitVector_Proofs.
Local Close Scope Q_scope.
Local Open Scope nat_scope.
Local Open Scope list_scope.

(** C01: addition is bitwise exclusive or, defined exactly on equal sizes. *)
Theorem C01_add_exact : forall x y : list bool,
  (length x = length y ->
     exists z, bv_add x y = Ok z /\ length z = length x /\
       forall i, nth i z false = xorb (nth i x false) (nth i y false)) /\
  (length x <> length y -> bv_add x y = UB).
Proof. exact bv_add_exact. Qed.
Print Assumptions C01_add_exact.

(** C01: group laws, and the three-operand overload. *)
Theorem C01_add_group : forall n (x y z : list bool),
  length x = n -> length y = n -> length z = n ->
  bv_add x y = bv_add y x /\
  bind (bv_add x y) (fun s => bv_add s z) = bind (bv_add y z) (fun s => bv_add x s) /\
  bv_add x (zerov n) = Ok x /\
  bv_add x x = Ok (zerov n) /\
  bv_add3 z x y = bv_add x y.
Proof. exact bv_add_group. Qed.
Print Assumptions C01_add_group.

(** C01: the Hamming distance counts the differing positions and is a metric. *)
Theorem C01_hamming_metric : forall n (x y z : list bool),
  length x = n -> length y = n -> length z = n ->
  exists dxy dyz dxz,
    bv_hamming_distance x y = Ok dxy /\ bv_hamming_distance y z = Ok dyz /\
    bv_hamming_distance x z = Ok dxz /\
    dxy = length (diffs n x y) /\
    (dxy = 0 <-> x = y) /\
    bv_hamming_distance y x = Ok dxy /\
    dxz <= dxy + dyz /\
    (exists s, bv_add x y = Ok s /\ bv_hamming_weight s = dxy) /\
    bv_hamming_weight x = length (ones x).
Proof. exact bv_distance_metric. Qed.
Print Assumptions C01_hamming_metric.

(** C01: the dot product is the parity of the common ones and is bilinear. *)
Theorem C01_dot_bilinear : forall n (x y z : list bool),
  length x = n -> length y = n -> length z = n ->
  exists xy xz,
    bv_dot_product x y = Ok xy /\ bv_dot_product x z = Ok xz /\
    bv_dot_product y x = Ok xy /\
    xy = Nat.odd (length (filter (fun i => nth i x false && nth i y false) (seq 0 n))) /\
    bind (bv_add y z) (fun s => bv_dot_product x s) = Ok (xorb xy xz).
Proof. exact bv_dot_bilinear. Qed.
Print Assumptions C01_dot_bilinear.

Example C01_case :
  bv_add [true; false; true] [true; true; false] = Ok [false; true; true] /\
  bv_hamming_distance [true; false; true] [true; true; false] = Ok 2 /\
  bv_dot_product [true; false; true] [true; true; false] = Ok true /\
  bv_add [true] [true; true] = UB.
Proof. vm_compute. auto. Qed.

(** C02: vector -> integer -> vector. *)
Theorem C02_to_from : forall x out : list bool,
  length x <= 64 -> length out = length x ->
  exists u, bv_to_size_type x = Ok u /\ u = value_lsb x /\ (u < 2 ^ N.of_nat (length x))%N /\
    bv_from_size_type out u = Ok x.
Proof. exact bv_size_type_round_trip. Qed.
Print Assumptions C02_to_from.

(** C02: integer -> vector -> integer; higher bits of the integer are dropped. *)
Theorem C02_from_to : forall (out : list bool) (u : N),
  length out <= 64 ->
  exists x, bv_from_size_type out u = Ok x /\ length x = length out /\
    (forall i, i < length out -> nth i x false = N.testbit u (N.of_nat i)) /\
    bv_to_size_type x = Ok (u mod 2 ^ N.of_nat (length out))%N /\
    ((u < 2 ^ N.of_nat (length out))%N -> bv_to_size_type x = Ok u).
Proof. exact size_type_bv_round_trip. Qed.
Print Assumptions C02_from_to.

(** C02: ranged overload, and rejected inputs. *)
Theorem C02_range : forall (x : list bool) start stop,
  (start < stop <= length x -> stop - start <= 64 ->
     bv_to_size_type_range x start stop = Ok (value_lsb (firstn (stop - start) (skipn start x)))) /\
  (~ (start < stop <= length x) \/ 64 < stop - start -> bv_to_size_type_range x start stop = UB) /\
  (64 < length x -> bv_to_size_type x = UB /\ forall u, bv_from_size_type x u = UB).
Proof. exact bv_size_type_ranged. Qed.
Print Assumptions C02_range.

Example C02_case :
  bv_to_size_type [false; true; true; true] = Ok 14%N /\
  bv_from_size_type [false; false; false; false] 14%N = Ok [false; true; true; true] /\
  bv_to_size_type_range [true; false; true; true] 1 4 = Ok 6%N /\
  bv_to_size_type (repeat true 64) = Ok (2 ^ 64 - 1)%N.
Proof. vm_compute. auto. Qed.

(** C03: printing then parsing, from a string or from a line of a stream. *)
Theorem C03_text : forall x : list bool,
  bv_from_string (bv_display x) = x /\
  (forall rest, bv_from_stream (bv_display x ++ String newline rest) = x) /\
  bv_from_stream (bv_display x) = x /\
  String.length (bv_display x) = length x.
Proof. exact bv_text_round_trip. Qed.
Print Assumptions C03_text.

(** C03: parsing then printing a text made of 0s and 1s. *)
Theorem C03_parse : forall s : string,
  (forall c, In c (list_ascii_of_string s) -> (Ascii.eqb c "0" || Ascii.eqb c "1") = true) ->
  bv_display (bv_from_string s) = s.
Proof. exact bv_display_from_string. Qed.
Print Assumptions C03_parse.

(** C03: conversion to vector<bool> and back. *)
Theorem C03_vector_bool : forall x y z : list bool,
  length y = length x -> length z = length x ->
  exists w, bv_to_vector_bool y x = Ok w /\ bv_from_vector_bool z w = Ok x /\
    bv_hamming_weight_vb w = bv_hamming_weight x.
Proof. exact bv_vector_bool_round_trip. Qed.
Print Assumptions C03_vector_bool.

Example C03_case :
  bv_display [true; false; true] = "101"%string /\
  bv_from_stream ("101" ++ String newline "rest") = [true; false; true].
Proof. vm_compute. auto. Qed.

(** C04: flipping at a sparse bit vector. *)
Theorem C04_sparse_flip : forall (x : list bool) (l : list nat),
  ((forall i, i + 1 < length l -> nth i l 0 <= nth (i + 1) l 0) /\ (forall i, In i l -> i < length x) ->
     exists y, bv_flip_sbv x l = Ok y /\ length y = length x /\
       (forall j, nth j y false = xorb (nth j x false) (Nat.odd (count_occ Nat.eq_dec l j))) /\
       (NoDup l -> forall j, nth j y false <> nth j x false <-> In j l) /\
       bv_flip_sbv y l = Ok x) /\
  (~ ((forall i, i + 1 < length l -> nth i l 0 <= nth (i + 1) l 0) /\ (forall i, In i l -> i < length x)) ->
     bv_flip_sbv x l = UB).
Proof. exact bv_flip_exact. Qed.
Print Assumptions C04_sparse_flip.

Example C04_case :
  bv_flip_sbv [true; false; true; false] [0; 2; 3] = Ok [false; false; false; true] /\
  bv_flip_sbv [true; false] [1; 0] = UB /\ bv_flip_sbv [true; false] [1; 2] = UB.
Proof. vm_compute. auto. Qed.

(** C05: random vector of prescribed weight. *)
Theorem C05_random_weight : forall (x : list bool) k (u : nat -> Q),
  (forall i, (0 <= u i)%Q /\ (u i < 1)%Q) ->
  (k <= length x ->
     exists r c, bv_random_weight x k u = Ok (r, c) /\ length r = length x /\ length (ones r) = k) /\
  (length x < k -> bv_random_weight x k u = UB).
Proof. exact bv_random_weight_exact. Qed.
Print Assumptions C05_random_weight.

Example C05_case :
  bv_random_weight (zerov 5) 2 (fun i => nth i [9#10; 1#10; 8#10; 7#10; 0]%Q 0%Q)
  = Ok ([false; true; false; false; true], 5).
Proof. vm_compute. auto. Qed.
