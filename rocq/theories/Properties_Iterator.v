(** Properties C06-C08: iterators. *)

From Verif Require Import Base BitVector_Model BitVector_Spec Iterator_Model Iterator_Proofs.
From Coq Require Import NArith.

(** C06: from any state, after init(), a HypercubeIterator of dimension n > 0
    yields all vectors of size n once each in counting order. *)
Theorem C06_hypercube : forall n s,
  0 < n -> length (hc_current s) = n ->
  exists s' l,
    (forall fuel, 2 ^ n < fuel ->
       drain (fun s => Ok (hc_has_next s)) hc_next fuel (hc_init s) = Ok (l, s', true)) /\
    length l = 2 ^ n /\ NoDup l /\ (forall x, In x l <-> length x = n) /\
    (forall k, k < 2 ^ n -> value_lsb (nth k l []) = N.of_nat k).
Proof. exact hypercube_enumerates. Qed.
Print Assumptions C06_hypercube.

(** C06: in dimension 0 it yields nothing. *)
Theorem C06_hypercube_dimension_0 : forall s, length (hc_current s) = 0 ->
  hc_has_next (hc_init s) = false /\ hc_next (hc_init s) = UB.
Proof. exact hypercube_empty. Qed.
Print Assumptions C06_hypercube_dimension_0.

(** C06: the extended iterator does the same for every n, including 0. *)
Theorem C06_extended_hypercube : forall n s,
  length (hc_current s) = n ->
  exists s' l,
    (forall fuel, 2 ^ n < fuel ->
       drain (fun s => Ok (ehc_has_next s)) ehc_next fuel (hc_init s) = Ok (l, s', true)) /\
    length l = 2 ^ n /\ NoDup l /\ (forall x, In x l <-> length x = n) /\
    (forall k, k < 2 ^ n -> value_lsb (nth k l []) = N.of_nat k).
Proof. exact extended_hypercube_enumerates. Qed.
Print Assumptions C06_extended_hypercube.

Example C06_case :
  drain (fun s => Ok (hc_has_next s)) hc_next 10 (hc_make 2)
  = Ok ([[false; false]; [true; false]; [false; true]; [true; true]], mk_hc [true; true] false, true) /\
  drain (fun s => Ok (ehc_has_next s)) ehc_next 10 (hc_make 0) = Ok ([[]], mk_hc [] false, true).
Proof. vm_compute. auto. Qed.

(** C07: after set_origin(x) and init(), the k-th vector returned differs from
    x at position k only; n vectors are returned. *)
Theorem C07_single_bit_flip : forall n x s s0,
  sb_set_origin s x = Ok s0 -> length x = n ->
  exists s' l,
    (forall fuel, n < fuel ->
       drain (fun s => Ok (sb_has_next s)) sb_next fuel (sb_init s0) = Ok (l, s', true)) /\
    length l = n /\
    (forall k, k < n -> length (nth k l []) = n /\ diffs n x (nth k l []) = [k]) /\
    (forall y, In y l <-> length y = n /\ length (diffs n x y) = 1) /\ NoDup l.
Proof. exact single_bit_flip_enumerates. Qed.
Print Assumptions C07_single_bit_flip.

Example C07_case :
  exists s0, sb_set_origin (mk_sb [false; false; false] false 2) [true; false; true] = Ok s0 /\
  drain (fun s => Ok (sb_has_next s)) sb_next 10 (sb_init s0)
  = Ok ([[false; false; true]; [true; true; true]; [true; false; false]], mk_sb [true; false; false] false 2, true).
Proof. eexists. vm_compute. auto. Qed.

(** C08: whatever was done before with the iterator, after set_origin(x) and
    init() it returns the vectors at distance r of x, each once. *)
Theorem C08_hamming_sphere : forall n r x s1 s2,
  hs_reachable n r s1 ->
  hs_set_origin s1 x = Ok s2 ->
  0 < r ->
  exists s' l,
    (forall fuel, length l < fuel -> drain hs_has_next hs_next fuel (hs_init s2) = Ok (l, s', true)) /\
    NoDup l /\
    (forall y, In y l <-> length y = n /\ length (diffs n x y) = r).
Proof. exact hamming_sphere_enumerates. Qed.
Print Assumptions C08_hamming_sphere.

(** C08: with radius 0 nothing is returned. *)
Theorem C08_radius_0 : forall s, hs_radius s = 0 -> hs_has_next s = Ok false.
Proof. exact hamming_sphere_radius_0. Qed.
Print Assumptions C08_radius_0.

Example C08_case :
  exists s1 s2, hs_reachable 3 2 s1 /\ hs_set_origin s1 [true; false; false] = Ok s2 /\
  drain hs_has_next hs_next 10 (hs_init s2)
  = Ok ([[false; true; false]; [false; false; true]; [true; true; true]],
        mk_hs [true; true; true] false 2 [1; 2], true).
Proof. do 2 eexists. split; [apply hs_reach_make; vm_compute; reflexivity|]. vm_compute. auto. Qed.
