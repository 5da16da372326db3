(** Properties of representations and adapters: C32-C36, C58. *)

From Coq Require Import ZArith NArith QArith Permutation Sorted.
From Verif Require Import Base BitVector_Spec Map_Spec Representation_Model Representation_Spec Representation_Proofs Adapter_Proofs.
Local Open Scope nat_scope.

(** ceil(log2) without rounding error, for the examples. *)
Definition exact_lg (z : Z) : nat := Z.to_nat (Z.log2_up z).

(** ** C32: dyadic integers.  Whatever the constructor and the size it computed, a
    slice is decoded to lower + k 2^(exact - size), clamped to the interval, where k
    is the number read from the bits. *)
Theorem C32_unpack w lg sz lower upper size precision d : w <= 64 ->
  dint_sized w lg lower upper size = Ok d \/ dint_full w lg lower upper = Ok d \/
  dint_precision w lg sz lower upper precision = Ok d ->
  exists dec, decodes (dint_rep d) dec /\
  forall p, length p = di_size d ->
    (lower <= dec p <= upper)%Z /\
    dec p = Z.min upper (lower + Z.of_N (value_lsb p) * 2 ^ Z.of_nat (di_exact d - di_size d)).
Proof.
  exact (fun W H => let C := dint_constructors w lg sz lower upper size precision d W H in
    dint_unpack_exact d lower upper (proj1 C) (proj1 (proj2 C)) (proj1 (proj2 (proj2 C)))).
Qed.
Print Assumptions C32_unpack.

(** At full precision, when the computed size is enough, the constructor succeeds
    and every integer of the interval is reached. *)
Theorem C32_full w lg lower upper : w <= 64 -> dint_args w lg lower upper ->
  (upper - lower + 1 <= 2 ^ Z.of_nat (lg (upper - lower + 1)))%Z ->
  exists d dec, dint_full w lg lower upper = Ok d /\ rep_size (dint_rep d) = lg (upper - lower + 1)%Z /\ decodes (dint_rep d) dec /\
  forall z, (lower <= z <= upper)%Z -> exists p, length p = rep_size (dint_rep d) /\ dec p = z.
Proof. exact (dint_full_onto w lg lower upper). Qed.
Print Assumptions C32_full.

(** With a given size, the constructor keeps at most the full precision. *)
Theorem C32_sized w lg lower upper size : dint_args w lg lower upper -> 0 < size < w ->
  let e := lg (upper - lower + 1)%Z in
  dint_sized w lg lower upper size = Ok (mk_dint (Nat.min size e) e lower upper).
Proof. exact (dint_sized_Ok w lg lower upper size). Qed.
Print Assumptions C32_sized.

(** If rounding made the computed size too small, the upper bound is out of
    reach. *)
Theorem C32_short w lg lower upper d : w <= 64 -> dint_full w lg lower upper = Ok d ->
  (2 ^ Z.of_nat (lg (upper - lower + 1)) < upper - lower + 1)%Z ->
  exists dec, decodes (dint_rep d) dec /\ forall p, length p = di_size d -> (dec p < upper)%Z.
Proof. exact (dint_full_short w lg lower upper d). Qed.
Print Assumptions C32_short.

Example C32_case : dint_args 32 exact_lg (-3) 10 /\ (10 - -3 + 1 <= 2 ^ Z.of_nat (exact_lg (10 - -3 + 1)))%Z.
Proof. cbv. repeat split; auto; intros; discriminate || lia. Qed.
Example C32_case_value : dint_full 32 exact_lg (-3) 10 = Ok (mk_dint 4 4 (-3) 10) /\
  dint_unpack (mk_dint 4 4 (-3) 10) [false; true; false; true; false] 1 = Ok 2%Z /\
  dint_unpack (mk_dint 4 4 (-3) 10) [true; true; true; true] 0 = Ok 10%Z /\
  dint_unpack (mk_dint 2 4 (-3) 10) [false; true] 0 = Ok 5%Z.
Proof. repeat split. Qed.

(** ** C33: dyadic floats.  In exact arithmetic the value decoded from a slice is
    lower + (upper - lower) k / 2^size, where k is read with the most significant
    bit first; it lies in [lower, upper), and values are ordered like the k. *)
Theorem C33_unpack lower upper size : (lower < upper)%Q -> 0 < size ->
  exists d dec, dfloat_make lower upper size = Ok d /\ rep_size (dfloat_rep d) = size /\ decodes (dfloat_rep d) dec /\
  (forall p, length p = size ->
    (lower <= dec p < upper)%Q /\
    (dec p == lower + (upper - lower) * (inject_Z (Z.of_N (value_msb p)) / qpow2 size))%Q) /\
  (forall p q, length p = size -> length q = size -> ((dec p < dec q)%Q <-> (value_msb p < value_msb q)%N)) /\
  (forall p q, length p = size -> length q = size -> (dec p == dec q)%Q -> p = q).
Proof. exact (dfloat_exact lower upper size). Qed.
Print Assumptions C33_unpack.

(** The constructor with a precision: when the computed size is enough, two
    consecutive values differ by at most the precision. *)
Theorem C33_precision sz lower upper precision : (lower < upper)%Q -> (0 < precision)%Q ->
  let size := sz ((upper - lower) / precision)%Q in
  0 < size -> ((upper - lower) / precision <= qpow2 size)%Q ->
  dfloat_precision sz lower upper precision = dfloat_make lower upper size /\
  ((upper - lower) / qpow2 size <= precision)%Q.
Proof. exact (dfloat_precision_exact sz lower upper precision). Qed.
Print Assumptions C33_precision.

Example C33_case : exists d, dfloat_make (-1) 1 3 = Ok d /\
  exists v, dfloat_unpack d [true; false; true; true] 1 = Ok v /\ (v == -1 # 4)%Q.
Proof. eexists. split; [reflexivity|]. eexists. split; reflexivity. Qed.

(** ** C34: categories. *)
Theorem C34_integer_categories w n : w <= 64 -> 1 < n -> n < 2 ^ w ->
  exists r dec, intcat_make w n = Ok r /\ rep_size (intcat_rep r) = Nat.log2_up n /\ decodes (intcat_rep r) dec /\
  (forall p, (dec p < N.of_nat n)%N /\ dec p = (value_lsb p mod N.of_nat n)%N) /\
  (forall c, (c < N.of_nat n)%N -> exists p, length p = rep_size (intcat_rep r) /\ dec p = c).
Proof. exact (intcat_exact w n). Qed.
Print Assumptions C34_integer_categories.

(** The linear representation decodes a slice to the exclusive or of j + 1 for the
    positions j of its ones, modulo the number of categories. *)
Theorem C34_linear_categories w n : 0 < w <= 64 -> 1 < n -> n <= 2 ^ (w - 1) ->
  exists r dec, lincat_make w n = Ok r /\ rep_size (lincat_rep r) = 2 ^ Nat.log2_up n - 1 /\ decodes (lincat_rep r) dec /\
  (forall p, (dec p < N.of_nat n)%N /\ dec p = (xor_indices p mod N.of_nat n)%N) /\
  (forall c, (c < N.of_nat n)%N -> exists p, length p = rep_size (lincat_rep r) /\ dec p = c).
Proof. exact (lincat_exact w n). Qed.
Print Assumptions C34_linear_categories.

Example C34_case : exists r, lincat_make 32 5 = Ok r /\ rep_size (lincat_rep r) = 7 /\
  lincat_unpack r [true; false; true; true; false; false; false] 0 = Ok 1%N /\
  exists r', intcat_make 64 5 = Ok r' /\ intcat_unpack r' [true; true; true] 0 = Ok 2%N.
Proof. eexists. split; [reflexivity|]. split; [reflexivity|]. split; [reflexivity|]. eexists. split; reflexivity. Qed.

(** ** C35: permutations.  Whatever the shuffle and the sort, a slice is decoded to
    a permutation of the elements, in the order of the values read from the bits. *)
Theorem C35_permutation sh srt lg n additional : shuffles sh -> sorts srt -> 0 < n -> 0 < additional ->
  lg (Z.of_nat n) + additional <= 31 ->
  exists r dec, permrep_make lg n additional = Ok r /\ rep_size (permrep_rep sh srt r) = n * (lg (Z.of_nat n) + additional) /\
  decodes (permrep_rep sh srt r) dec /\
  forall p, length p = rep_size (permrep_rep sh srt r) -> Permutation (dec p) (seq 0 n) /\
    StronglySorted (fun i j => (element_value r p i <= element_value r p j)%N) (dec p).
Proof. exact (permrep_exact sh srt lg n additional). Qed.
Print Assumptions C35_permutation.

(** Every permutation is reached, by bits which give it whatever the shuffle and the
    sort, as soon as the elements can have distinct values. *)
Theorem C35_all_reached r q : 0 < pr_element r <= 31 -> pr_num r <= 2 ^ pr_element r -> Permutation q (seq 0 (pr_num r)) ->
  exists x, length x = pr_size r /\
  forall sh srt perm, shuffles sh -> sorts srt -> length perm = pr_num r -> permrep_unpack sh srt r perm x 0 = Ok q.
Proof. exact (permrep_onto r q). Qed.
Print Assumptions C35_all_reached.

(** A sort for the example. *)
Definition insertion_sort (lt : nat -> nat -> bool) (l : list nat) : list nat := fold_right (ins lt) [] l.
Example C35_case : sorts insertion_sort /\ shuffles (@rev nat) /\
  exists r, permrep_make exact_lg 3 1 = Ok r /\
  permrep_unpack (@rev nat) insertion_sort r [0; 0; 0] [false; true; false; false; false; false; true; false; false] 0 = Ok [1; 2; 0].
Proof.
  split; [exact insertion_sorts|]. split; [exact (@Permutation_rev nat)|]. eexists. split; reflexivity.
Qed.

(** ** C36: adapters.  Variable number i is decoded from piece number i of the bit
    vector, whatever the other pieces are; every vector of the right size is cut in
    such pieces, in exactly one way. *)
Theorem C36_adapter {D V} (reps : list (rep D)) decs (f : list D -> outcome V) : Forall2 decodes reps decs ->
  (forall ps, pieces_of reps ps ->
     length (concat ps) = total_size reps /\ adapter_evaluate reps f (concat ps) = f (decode_all decs ps)) /\
  (forall x, length x = total_size reps ->
     exists ps, pieces_of reps ps /\ concat ps = x /\ forall qs, pieces_of reps qs -> concat qs = x -> qs = ps).
Proof. exact (adapter_Ok reps decs f). Qed.
Print Assumptions C36_adapter.

(** The same for universal functions, with their six groups of variables. *)
Theorem C36_universal {I F C K P V} nb (ri : list (rep I)) (rf : list (rep F)) (rc : list (rep C)) (rk : list (rep K)) (rp : list (rep P))
    di df dc dk dp (f : list bool -> list I -> list F -> list C -> list K -> list P -> outcome V) :
  Forall2 decodes ri di -> Forall2 decodes rf df -> Forall2 decodes rc dc -> Forall2 decodes rk dk -> Forall2 decodes rp dp ->
  forall b pi pf pc pk pp, length b = nb ->
  pieces_of ri pi -> pieces_of rf pf -> pieces_of rc pc -> pieces_of rk pk -> pieces_of rp pp ->
  universal_evaluate nb ri rf rc rk rp f (b ++ concat pi ++ concat pf ++ concat pc ++ concat pk ++ concat pp) =
    f b (decode_all di pi) (decode_all df pf) (decode_all dc pc) (decode_all dk pk) (decode_all dp pp).
Proof. exact (universal_Ok nb ri rf rc rk rp di df dc dk dp f). Qed.
Print Assumptions C36_universal.

(** A complex number is decoded from two consecutive slices. *)
Theorem C36_complex {D} (re im : rep D) d1 d2 : decodes re d1 -> decodes im d2 ->
  decodes (complex_rep re im) (fun p => (d1 (firstn (rep_size re) p), d2 (skipn (rep_size re) p))).
Proof. exact (complex_decodes re im d1 d2). Qed.
Print Assumptions C36_complex.

Example C36_case : exists dec, Forall2 decodes [dint_rep (mk_dint 2 2 0 2); dint_rep (mk_dint 1 1 5 6)] dec /\
  adapter_evaluate [dint_rep (mk_dint 2 2 0 2); dint_rep (mk_dint 1 1 5 6)] (fun vs => Ok vs) [false; true; true] = Ok [2; 6]%Z.
Proof.
  exists [dint_decode (mk_dint 2 2 0 2); dint_decode (mk_dint 1 1 5 6)]. split; [|reflexivity].
  repeat constructor; try apply dint_decodes; unfold dint_ok; cbn; lia.
Qed.

(** ** C58: value sets.  Whatever the sort, a slice is decoded to one of the values
    and, when the computed size is enough, every value is reached. *)
Theorem C58_value_set w lg values sorted : w <= 64 -> Permutation values sorted -> 1 < length values ->
  let n := Z.of_nat (length values) in
  (n <= int_max w)%Z -> 0 < lg n < w ->
  exists v, valueset_make w lg sorted = Ok v /\
  exists dec, decodes (valueset_rep v) dec /\
    (forall p, In (dec p) values) /\
    ((n <= 2 ^ Z.of_nat (lg n))%Z -> forall a, In a values -> exists p, length p = rep_size (valueset_rep v) /\ dec p = a).
Proof. exact (valueset_Ok w lg values sorted). Qed.
Print Assumptions C58_value_set.

(** Sets of one value are refused, as are one-element intervals and one category:
    the constructor's assertion fails, or unpack's. *)
Theorem C58_singletons w lg a : valueset_make w lg [a] = UB /\ dint_count w lg 1 = UB /\
  lincat_make w 1 = UB /\ forall r x start, intcat_make w 1 = Ok r -> intcat_unpack r x start = UB.
Proof. exact (singletons w lg a). Qed.
Print Assumptions C58_singletons.

Example C58_case : exists v, valueset_make 32 exact_lg [1; 4; 4; 9; 16]%Z = Ok v /\ valueset_unpack v [true; true; false] 0 = Ok 9%Z.
Proof. eexists. split; reflexivity. Qed.
