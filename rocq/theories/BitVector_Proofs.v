From Coq Require Import NArith QArith String Ascii.
From Verif Require Import Base BaseLemmas BitVector_Model BitVector_Spec GF2.
From Coq Require Import Lqa.
Local Close Scope Q_scope.
Local Open Scope nat_scope.
Local Open Scope list_scope.

(** * Addition, weight, distance, dot product *)

Lemma bv_add_Ok x y : length x = length y -> bv_add x y = Ok (vxor x y).
Proof. intros H. unfold bv_add. rewrite H, Nat.eqb_refl. reflexivity. Qed.

Lemma bv_add_UB x y : length x <> length y -> bv_add x y = UB.
Proof. intros H. unfold bv_add. apply Nat.eqb_neq in H. rewrite H. reflexivity. Qed.

Lemma bv_add3_Ok d x y : length d = length x -> length d = length y -> bv_add3 d x y = Ok (vxor x y).
Proof. intros H1 H2. unfold bv_add3. rewrite <- H1, <- H2, Nat.eqb_refl. reflexivity. Qed.

Lemma fold_count {A} (f : A -> bool) (g : nat -> A -> nat) l acc :
  (forall k a, g k a = if f a then k + 1 else k) ->
  fold_left g l acc = acc + length (filter f l).
Proof.
  intros Hg. revert acc; induction l as [|a l IH]; intros acc; simpl; auto.
  rewrite IH, Hg. destruct (f a); simpl; lia.
Qed.

Lemma weight_filter x : weight x = length (filter (fun b => b) x).
Proof. induction x as [|[] x IH]; auto; rewrite weight_cons; simpl; lia. Qed.

Lemma bv_hamming_weight_spec x : bv_hamming_weight x = weight x.
Proof.
  unfold bv_hamming_weight. rewrite weight_filter, (fold_count (fun b => b)); auto.
  intros k [|]; simpl; auto.
Qed.

Lemma bv_hamming_weight_vb_spec x : bv_hamming_weight_vb x = weight x.
Proof.
  unfold bv_hamming_weight_vb. rewrite weight_filter, (fold_count (fun b => b)); auto.
Qed.

Lemma filter_combine_weight (f : bool -> bool -> bool) x y :
  length (filter (fun p => f (fst p) (snd p)) (combine x y)) = weight (map2 f x y).
Proof.
  revert y; induction x as [|a x IH]; intros [|b y]; simpl; auto.
  rewrite weight_cons, <- IH. destruct (f a b); simpl; auto.
Qed.

Lemma bv_hamming_distance_Ok x y : length x = length y ->
  bv_hamming_distance x y = Ok (weight (vxor x y)).
Proof.
  intros H. unfold bv_hamming_distance. rewrite H, Nat.eqb_refl. simpl. f_equal.
  rewrite (fold_count (fun p => xorb (fst p) (snd p))).
  - apply (filter_combine_weight xorb).
  - intros k [[] []]; auto.
Qed.

Lemma odd_weight x : Nat.odd (weight x) = xsum (length x) (fun i => nth i x false).
Proof.
  induction x as [|b x IH] using rev_ind; auto.
  rewrite weight_app, app_length, Nat.odd_add, IH. simpl. rewrite Nat.add_1_r. simpl.
  f_equal.
  - apply xsum_ext. intros i Hi. now rewrite app_nth1.
  - rewrite app_nth2, Nat.sub_diag by lia. simpl. now destruct b.
Qed.

Lemma bv_dot_product_Ok x y : length x = length y -> bv_dot_product x y = Ok (dot x y).
Proof.
  intros H. unfold bv_dot_product. rewrite H, Nat.eqb_refl. simpl. f_equal.
  rewrite (fold_count (fun p => fst p && snd p)) by auto. simpl.
  rewrite (filter_combine_weight andb), odd_weight.
  rewrite (dot_xsum (length y)); auto. rewrite length_map2, H, Nat.min_id.
  apply xsum_ext. intros i Hi. apply nth_map2; lia.
Qed.

Theorem bv_add_group n x y z :
  length x = n -> length y = n -> length z = n ->
  bv_add x y = bv_add y x /\
  bind (bv_add x y) (fun s => bv_add s z) = bind (bv_add y z) (fun s => bv_add x s) /\
  bv_add x (zerov n) = Ok x /\
  bv_add x x = Ok (zerov n) /\
  bv_add3 z x y = bv_add x y.
Proof.
  intros Hx Hy Hz.
  assert (length (zerov n) = n) by apply length_zerov.
  rewrite !bv_add_Ok by lia. rewrite bv_add3_Ok by lia. simpl.
  assert (length (vxor x y) = n) by now apply length_vxor.
  assert (length (vxor y z) = n) by now apply length_vxor.
  rewrite !bv_add_Ok by lia.
  repeat split; f_equal.
  - apply vxor_comm.
  - apply vxor_assoc.
  - now apply vxor_zero_r.
  - rewrite vxor_nilpotent. congruence.
Qed.

Theorem bv_add_exact x y :
  (length x = length y ->
     exists z, bv_add x y = Ok z /\ length z = length x /\
       forall i, nth i z false = xorb (nth i x false) (nth i y false)) /\
  (length x <> length y -> bv_add x y = UB).
Proof.
  split; intros H.
  - exists (vxor x y). split; [now apply bv_add_Ok|]. split; [now apply length_vxor|].
    intros i. now apply (nth_vxor (length x)).
  - now apply bv_add_UB.
Qed.

Theorem bv_distance_metric n x y z :
  length x = n -> length y = n -> length z = n ->
  exists dxy dyz dxz,
    bv_hamming_distance x y = Ok dxy /\ bv_hamming_distance y z = Ok dyz /\
    bv_hamming_distance x z = Ok dxz /\
    dxy = length (diffs n x y) /\
    (dxy = 0 <-> x = y) /\
    bv_hamming_distance y x = Ok dxy /\
    dxz <= dxy + dyz /\
    (exists s, bv_add x y = Ok s /\ bv_hamming_weight s = dxy) /\
    bv_hamming_weight x = length (ones x).
Proof.
  intros Hx Hy Hz. rewrite !bv_hamming_distance_Ok by lia.
  assert (length (vxor x y) = n) by now apply length_vxor.
  assert (length (vxor y z) = n) by now apply length_vxor.
  exists (weight (vxor x y)), (weight (vxor y z)), (weight (vxor x z)).
  repeat split; auto.
  - now rewrite (diffs_vxor n).
  - intros E. apply weight_zero_iff in E. apply (vxor_eq_zero n); auto. congruence.
  - intros ->. rewrite vxor_nilpotent. apply weight_zero_iff. now rewrite length_zerov.
  - now rewrite vxor_comm.
  - replace (vxor x z) with (vxor (vxor x y) (vxor y z)).
    + apply weight_vxor_le. lia.
    + rewrite <- vxor_assoc, (vxor_cancel n x y); auto.
  - exists (vxor x y). split; [apply bv_add_Ok; lia|]. apply bv_hamming_weight_spec.
  - apply bv_hamming_weight_spec.
Qed.

Theorem bv_dot_bilinear n x y z :
  length x = n -> length y = n -> length z = n ->
  exists xy xz,
    bv_dot_product x y = Ok xy /\ bv_dot_product x z = Ok xz /\
    bv_dot_product y x = Ok xy /\
    xy = Nat.odd (length (filter (fun i => nth i x false && nth i y false) (seq 0 n))) /\
    bind (bv_add y z) (fun s => bv_dot_product x s) = Ok (xorb xy xz).
Proof.
  intros Hx Hy Hz. rewrite !bv_dot_product_Ok, bv_add_Ok by lia. simpl.
  exists (dot x y), (dot x z). repeat split; auto.
  - now rewrite dot_comm.
  - rewrite (dot_xsum n); auto. clear - n. induction n; simpl xsum; auto.
    rewrite IHn. rewrite seq_S, filter_app, app_length, Nat.odd_add. f_equal.
    simpl. destruct (nth n x false && nth n y false); auto.
  - rewrite bv_dot_product_Ok.
    + f_equal. now apply (dot_vxor_r n).
    + rewrite (length_vxor n); auto.
Qed.

(** * Integer conversion *)

Lemma value_lsb_lt x : (value_lsb x < 2 ^ N.of_nat (length x))%N.
Proof.
  induction x as [|b x IH]; cbn [value_lsb length]; [cbn; lia|].
  rewrite Nat2N.inj_succ, N.pow_succ_r'. destruct b; lia.
Qed.

Lemma wrap64_pow k : (k < 64)%N -> wrap64 (2 ^ k) = (2 ^ k)%N.
Proof. intros H. unfold wrap64. apply N.mod_small. apply N.pow_lt_mono_r; lia. Qed.

Lemma lor_disjoint_pow r k : (r < 2 ^ k)%N -> N.lor r (2 ^ k) = (r + 2 ^ k)%N.
Proof.
  intros H.
  assert (N.land r (2 ^ k) = 0%N) as E.
  { apply N.bits_inj_0. intros i. rewrite N.land_spec, N.pow2_bits_eqb.
    destruct (N.eqb_spec k i) as [->|Hne]; [|now rewrite andb_false_r].
    rewrite <- (N.mod_small r (2 ^ i)) by auto. rewrite N.mod_pow2_bits_high by lia. auto. }
  rewrite N.add_nocarry_lxor, N.lxor_lor; auto.
Qed.

Lemma to_size_loop_spec x r m k :
  (r < 2 ^ k)%N -> ((k < 64)%N -> m = 2 ^ k)%N -> (k + N.of_nat (length x) <= 64)%N ->
  to_size_loop x r m = (r + 2 ^ k * value_lsb x)%N.
Proof.
  revert r m k; induction x as [|b x IH]; intros r m k Hr Hm Hk; cbn [to_size_loop value_lsb].
  - lia.
  - cbn [length] in Hk. assert (k < 64)%N as Hk' by lia. rewrite (Hm Hk').
    assert (2 ^ N.succ k = 2 * 2 ^ k)%N as E by apply N.pow_succ_r'.
    rewrite (IH _ _ (N.succ k)).
    + destruct b; [rewrite lor_disjoint_pow by auto|]; rewrite E; lia.
    + rewrite E. destruct b; [rewrite lor_disjoint_pow by auto|]; lia.
    + intros Hs. rewrite N.shiftl_mul_pow2, <- N.pow_add_r.
      replace (k + 1)%N with (N.succ k) by lia. now apply wrap64_pow.
    + lia.
Qed.

Lemma bv_to_size_type_Ok x : length x <= 64 -> bv_to_size_type x = Ok (value_lsb x).
Proof.
  intros H. unfold bv_to_size_type, size_bits. apply Nat.leb_le in H as H'. rewrite H'.
  cbn [assertb bind]. f_equal. rewrite (to_size_loop_spec _ _ _ 0).
  - lia.
  - reflexivity.
  - auto.
  - lia.
Qed.

Lemma value_lsb_testbit x i : N.testbit (value_lsb x) (N.of_nat i) = nth i x false.
Proof.
  revert i; induction x as [|b x IH]; intros i; cbn [value_lsb].
  - rewrite N.bits_0. destruct i; auto.
  - destruct i as [|i]; cbn [nth].
    + change (N.of_nat 0) with 0%N. destruct b.
      * rewrite N.add_comm. apply N.testbit_odd_0.
      * rewrite N.add_0_l. apply N.testbit_even_0.
    + rewrite Nat2N.inj_succ. destruct b.
      * rewrite N.add_comm, N.testbit_odd_succ by lia. apply IH.
      * rewrite N.add_0_l, N.testbit_even_succ by lia. apply IH.
Qed.

Lemma land_pow_testbit u k : negb (N.land u (2 ^ k) =? 0)%N = N.testbit u k.
Proof.
  destruct (N.testbit u k) eqn:E.
  - apply negb_true_iff, N.eqb_neq. intros H.
    assert (N.testbit (N.land u (2 ^ k)) k = false) as F by now rewrite H, N.bits_0.
    rewrite N.land_spec, E, N.pow2_bits_true in F. discriminate.
  - apply negb_false_iff, N.eqb_eq, N.bits_inj_0. intros i.
    rewrite N.land_spec, N.pow2_bits_eqb. destruct (N.eqb_spec k i) as [->|]; [now rewrite E|apply andb_false_r].
Qed.

Lemma from_size_loop_spec n u m k :
  ((k < 64)%N -> m = 2 ^ k)%N -> (k + N.of_nat n <= 64)%N ->
  from_size_loop n u m = map (fun i => N.testbit u (k + N.of_nat i)) (seq 0 n).
Proof.
  revert m k; induction n as [|n IH]; intros m k Hm Hk; cbn [from_size_loop seq map]; auto.
  assert (k < 64)%N as Hk' by lia. rewrite (Hm Hk'). f_equal.
  - rewrite land_pow_testbit. f_equal. lia.
  - rewrite (IH _ (N.succ k)).
    + rewrite <- seq_shift, map_map. apply map_ext. intros i. f_equal. lia.
    + intros Hs. rewrite N.shiftl_mul_pow2, <- N.pow_add_r.
      replace (k + 1)%N with (N.succ k) by lia. now apply wrap64_pow.
    + lia.
Qed.

Lemma bv_from_size_type_Ok x u : length x <= 64 ->
  bv_from_size_type x u = Ok (map (fun i => N.testbit u (N.of_nat i)) (seq 0 (length x))).
Proof.
  intros H. unfold bv_from_size_type, size_bits. apply Nat.leb_le in H as H'. rewrite H'.
  cbn [assertb bind]. f_equal. rewrite (from_size_loop_spec _ _ _ 0); auto; lia.
Qed.

Lemma nth_map_seq {A} (f : nat -> A) n i d : i < n -> nth i (map f (seq 0 n)) d = f i.
Proof.
  intros H. rewrite nth_indep with (d' := f 0) by (rewrite map_length, seq_length; auto).
  rewrite map_nth, seq_nth; auto.
Qed.

Lemma value_lsb_of_bits n u :
  value_lsb (map (fun i => N.testbit u (N.of_nat i)) (seq 0 n)) = (u mod 2 ^ N.of_nat n)%N.
Proof.
  apply N.bits_inj. intros i. rewrite <- (N2Nat.id i). set (j := N.to_nat i). clearbody j.
  rewrite value_lsb_testbit. destruct (Nat.lt_ge_cases j n) as [Hj|Hj].
  - rewrite (nth_map_seq (fun i => N.testbit u (N.of_nat i))) by auto. rewrite N.mod_pow2_bits_low; auto. lia.
  - rewrite nth_overflow by (rewrite map_length, seq_length; auto).
    rewrite N.mod_pow2_bits_high; auto. lia.
Qed.

Theorem bv_size_type_round_trip x out :
  length x <= 64 -> length out = length x ->
  exists u, bv_to_size_type x = Ok u /\ u = value_lsb x /\ (u < 2 ^ N.of_nat (length x))%N /\
    bv_from_size_type out u = Ok x.
Proof.
  intros H Ho. exists (value_lsb x). rewrite bv_to_size_type_Ok by auto.
  repeat split; auto using value_lsb_lt.
  rewrite bv_from_size_type_Ok by lia. f_equal. apply (bv_ext (length x)); auto.
  - rewrite map_length, seq_length. auto.
  - intros i Hi. rewrite Ho, (nth_map_seq (fun i => N.testbit (value_lsb x) (N.of_nat i))) by auto.
    apply value_lsb_testbit.
Qed.

Theorem size_type_bv_round_trip out u :
  length out <= 64 ->
  exists x, bv_from_size_type out u = Ok x /\ length x = length out /\
    (forall i, i < length out -> nth i x false = N.testbit u (N.of_nat i)) /\
    bv_to_size_type x = Ok (u mod 2 ^ N.of_nat (length out))%N /\
    ((u < 2 ^ N.of_nat (length out))%N -> bv_to_size_type x = Ok u).
Proof.
  intros H. eexists. rewrite bv_from_size_type_Ok by auto. split; [reflexivity|].
  assert (length (map (fun i => N.testbit u (N.of_nat i)) (seq 0 (length out))) = length out) as E
      by now rewrite map_length, seq_length.
  split; [auto|]. split; [intros i Hi; now apply (nth_map_seq (fun i => N.testbit u (N.of_nat i)))|].
  rewrite bv_to_size_type_Ok by lia. rewrite value_lsb_of_bits. split; auto.
  intros Hu. rewrite N.mod_small; auto.
Qed.

Theorem bv_size_type_ranged x start stop :
  (start < stop <= length x -> stop - start <= 64 ->
     bv_to_size_type_range x start stop = Ok (value_lsb (firstn (stop - start) (skipn start x)))) /\
  (~ (start < stop <= length x) \/ 64 < stop - start -> bv_to_size_type_range x start stop = UB) /\
  (64 < length x -> bv_to_size_type x = UB /\ forall u, bv_from_size_type x u = UB).
Proof.
  split; [|split].
  - intros [H1 H2] H3. unfold bv_to_size_type_range, size_bits.
    replace (start <? length x) with true by (symmetry; apply Nat.ltb_lt; lia).
    replace (start + 1 <=? stop) with true by (symmetry; apply Nat.leb_le; lia).
    replace (stop <? length x + 1) with true by (symmetry; apply Nat.ltb_lt; lia).
    replace (stop - start <=? 64) with true by (symmetry; apply Nat.leb_le; lia).
    cbn [assertb bind andb]. f_equal.
    rewrite (to_size_loop_spec _ _ _ 0); auto; try lia.
    rewrite firstn_length, skipn_length. lia.
  - intros H. unfold bv_to_size_type_range, size_bits.
    destruct (Nat.ltb_spec start (length x)); cbn [assertb bind]; auto.
    destruct (Nat.leb_spec (start + 1) stop); cbn [assertb bind andb]; auto.
    destruct (Nat.ltb_spec stop (length x + 1)); cbn [assertb bind andb]; auto.
    destruct (Nat.leb_spec (stop - start) 64); cbn [assertb bind andb]; auto. lia.
  - intros H. unfold bv_to_size_type, bv_from_size_type, size_bits.
    destruct (Nat.leb_spec (length x) 64); try lia. auto.
Qed.

(** * Text *)

Lemma bv_from_string_display x : bv_from_string (bv_display x) = x.
Proof. induction x as [|[] x IH]; cbn; rewrite ?IH; auto. Qed.

Definition bit_char (c : ascii) : bool := Ascii.eqb c "0" || Ascii.eqb c "1".

Lemma bv_display_from_string s :
  (forall c, In c (list_ascii_of_string s) -> bit_char c = true) ->
  bv_display (bv_from_string s) = s.
Proof.
  induction s as [|c s IH]; cbn; intros H; auto. rewrite IH; auto. f_equal.
  specialize (H c (or_introl eq_refl)). unfold bit_char in H.
  destruct (Ascii.eqb_spec c "0"); auto. destruct (Ascii.eqb_spec c "1"); auto. discriminate.
Qed.

Lemma line_of_display x rest :
  line_of (bv_display x ++ String newline rest)%string = (bv_display x, rest).
Proof. induction x as [|[] x IH]; cbn in *; rewrite ?IH; auto. Qed.

Lemma line_of_display_eof x : line_of (bv_display x) = (bv_display x, EmptyString).
Proof. induction x as [|[] x IH]; cbn; rewrite ?IH; auto. Qed.

Theorem bv_text_round_trip x :
  bv_from_string (bv_display x) = x /\
  (forall rest, bv_from_stream (bv_display x ++ String newline rest) = x) /\
  bv_from_stream (bv_display x) = x /\
  String.length (bv_display x) = length x.
Proof.
  split; [apply bv_from_string_display|]. split; [|split].
  - intros rest. unfold bv_from_stream, getline. rewrite line_of_display.
    destruct (bv_display x ++ String newline rest)%string eqn:E.
    + destruct x as [|[] x]; discriminate.
    + apply bv_from_string_display.
  - unfold bv_from_stream, getline. rewrite line_of_display_eof.
    destruct (bv_display x) eqn:E.
    + destruct x as [|[] x]; auto; discriminate.
    + rewrite <- E. apply bv_from_string_display.
  - induction x; cbn; auto.
Qed.

Theorem bv_vector_bool_round_trip x y z :
  length y = length x -> length z = length x ->
  exists w, bv_to_vector_bool y x = Ok w /\ bv_from_vector_bool z w = Ok x /\ bv_hamming_weight_vb w = bv_hamming_weight x.
Proof.
  intros Hy Hz. unfold bv_to_vector_bool, bv_from_vector_bool. rewrite Hy, Nat.eqb_refl. cbn.
  assert (map (fun b : bool => if b then true else false) x = x) as E.
  { rewrite <- (map_id x) at 2. apply map_ext. intros []; auto. }
  rewrite E. exists x. rewrite Hz, Nat.eqb_refl. cbn. rewrite E. repeat split; auto.
  now rewrite bv_hamming_weight_vb_spec, bv_hamming_weight_spec.
Qed.

(** * Sparse flips *)

Definition flip1 (x : bv) (i : nat) : bv := upd x i (negb (nth i x false)).

Lemma length_flip1 x i : length (flip1 x i) = length x.
Proof. apply length_upd. Qed.

Lemma bv_flip_Ok x i : i < length x -> bv_flip x i = Ok (flip1 x i).
Proof.
  intros H. unfold bv_flip. rewrite (vget_Ok x i false) by auto. cbn.
  rewrite vset_Ok by auto. unfold flip1, bit_flip, bit_flip_if. now rewrite xorb_true_r.
Qed.

Lemma bv_flip_UB x i : length x <= i -> bv_flip x i = UB.
Proof. intros H. unfold bv_flip. now rewrite vget_UB. Qed.

Lemma nth_flip1 x i j : i < length x -> nth j (flip1 x i) false = xorb (nth j x false) (j =? i).
Proof.
  intros H. unfold flip1. rewrite nth_upd. apply Nat.ltb_lt in H. rewrite H, andb_true_r.
  destruct (Nat.eqb_spec j i) as [->|]; now destruct (nth _ x false).
Qed.

Definition flips (x : bv) (l : list nat) : bv := fold_left flip1 l x.

Lemma length_flips x l : length (flips x l) = length x.
Proof. unfold flips. revert x; induction l as [|i l IH]; cbn; intros; auto. rewrite IH. apply length_flip1. Qed.

Lemma foldM_bv_flip x l : Forall (fun i => i < length x) l -> foldM bv_flip l x = Ok (flips x l).
Proof.
  revert x; induction l as [|i l IH]; intros x H; cbn [foldM]; auto. inversion H; subst.
  rewrite bv_flip_Ok by auto. cbn [bind]. apply (IH (flip1 x i)). rewrite length_flip1. auto.
Qed.

Definition times (l : list nat) (j : nat) : nat := count_occ Nat.eq_dec l j.

Lemma nth_flips x l j : Forall (fun i => i < length x) l ->
  nth j (flips x l) false = xorb (nth j x false) (Nat.odd (times l j)).
Proof.
  unfold times. revert x; induction l as [|i l IH]; intros x H; cbn [flips fold_left count_occ].
  - cbn. now rewrite xorb_false_r.
  - inversion H; subst. change (fold_left flip1 l (flip1 x i)) with (flips (flip1 x i) l).
    rewrite IH by (rewrite length_flip1; auto). rewrite nth_flip1 by auto.
    destruct (Nat.eq_dec i j) as [->|Hne].
    + rewrite Nat.eqb_refl, Nat.odd_succ, <- Nat.negb_odd.
      destruct (nth j x false), (Nat.odd _); auto.
    + replace (j =? i) with false by (symmetry; apply Nat.eqb_neq; auto). now rewrite xorb_false_r.
Qed.

Lemma sbv_is_valid_Forall l n : sbv_is_valid l n = true -> Forall (fun i => i < n) l.
Proof.
  unfold sbv_is_valid. intros H. apply andb_true_iff in H as [_ H]. apply Forall_forall.
  intros i Hi. rewrite forallb_forall in H. now apply Nat.ltb_lt, H.
Qed.

Lemma bv_flip_sbv_Ok x l : sbv_is_valid l (length x) = true -> bv_flip_sbv x l = Ok (flips x l).
Proof.
  intros H. unfold bv_flip_sbv. rewrite H. cbn. apply foldM_bv_flip. now apply sbv_is_valid_Forall.
Qed.

Lemma flips_involutive x l : Forall (fun i => i < length x) l -> flips (flips x l) l = x.
Proof.
  intros H. apply (bv_ext (length x)); rewrite ?length_flips; auto. intros j Hj.
  rewrite nth_flips by (rewrite length_flips; auto). rewrite nth_flips by auto.
  now destruct (nth j x false), (Nat.odd _).
Qed.

Lemma is_sorted_adj l :
  is_sorted l = true <-> forall i, i + 1 < length l -> nth i l 0 <= nth (i + 1) l 0.
Proof.
  induction l as [|a [|b t] IH]; cbn [is_sorted].
  - split; auto. cbn. lia.
  - split; auto. cbn. lia.
  - rewrite andb_true_iff, IH, Nat.leb_le. split.
    + intros [H1 H2] [|i] Hi; [exact H1|]. apply (H2 i). cbn [length] in *. lia.
    + intros H. split; [apply (H 0); cbn; lia|]. intros i Hi. apply (H (S i)). cbn [length] in *. lia.
Qed.

Lemma sbv_is_valid_iff l n : sbv_is_valid l n = true <->
  (forall i, i + 1 < length l -> nth i l 0 <= nth (i + 1) l 0) /\ (forall i, In i l -> i < n).
Proof.
  unfold sbv_is_valid. rewrite andb_true_iff, is_sorted_adj, forallb_forall.
  split; intros [H1 H2]; split; auto; intros i Hi; specialize (H2 i Hi); now apply Nat.ltb_lt in H2 || apply Nat.ltb_lt.
Qed.

Theorem bv_flip_exact x l :
  ((forall i, i + 1 < length l -> nth i l 0 <= nth (i + 1) l 0) /\ (forall i, In i l -> i < length x) ->
     exists y, bv_flip_sbv x l = Ok y /\ length y = length x /\
       (forall j, nth j y false = xorb (nth j x false) (Nat.odd (count_occ Nat.eq_dec l j))) /\
       (NoDup l -> forall j, nth j y false <> nth j x false <-> In j l) /\
       bv_flip_sbv y l = Ok x) /\
  (~ ((forall i, i + 1 < length l -> nth i l 0 <= nth (i + 1) l 0) /\ (forall i, In i l -> i < length x)) ->
     bv_flip_sbv x l = UB).
Proof.
  rewrite <- sbv_is_valid_iff. split.
  - intros H. exists (flips x l). rewrite bv_flip_sbv_Ok by auto.
    pose proof (sbv_is_valid_Forall _ _ H) as HF.
    split; [auto|]. split; [apply length_flips|]. split; [|split].
    + intros j. now apply nth_flips.
    + intros ND j. rewrite nth_flips by auto. unfold times. rewrite (NoDup_count_occ' Nat.eq_dec) in ND.
      destruct (in_dec Nat.eq_dec j l) as [Hj|Hj].
      * rewrite ND by auto. split; auto. intros _. now destruct (nth j x false).
      * rewrite (proj1 (count_occ_not_In Nat.eq_dec l j)) by auto. rewrite xorb_false_r. tauto.
    + rewrite bv_flip_sbv_Ok by (rewrite length_flips; auto). f_equal. now apply flips_involutive.
  - intros H. unfold bv_flip_sbv. destruct (sbv_is_valid l (length x)); [contradiction H; auto|auto].
Qed.

(** * Random vector of given weight *)

Lemma bv_random_weight_loop_spec x k u c :
  (forall i, (0 <= u i)%Q /\ (u i < 1)%Q) ->
  k <= length x ->
  exists r c', bv_random_weight_loop x k (length x) u c = Ok (r, c') /\ length r = length x /\ weight r = k.
Proof.
  intros Hu. revert k c; induction x as [|b x IH]; intros k c Hk; cbn [bv_random_weight_loop length] in *.
  - exists [], c. repeat split; auto. cbn. lia.
  - destruct (Nat.ltb_spec 0 k) as [Hk0|Hk0]; cbn [Nat.ltb Nat.leb assertb bind].
    + destruct (Qle_bool (Z.of_nat k # Pos.of_nat (S (length x))) (u c)) eqn:E; cbn [negb].
      * (* drawn value above p: p < 1, hence k <= length x *)
        assert (k <= length x) as Hk'.
        { apply Qle_bool_iff in E. destruct (Hu c) as [_ Hc].
          destruct (Nat.eq_dec k (S (length x))) as [->|]; [|lia]. exfalso.
          assert (Z.of_nat (S (length x)) # Pos.of_nat (S (length x)) == 1)%Q as E1.
          { unfold Qeq. cbn [Qnum Qden]. rewrite <- (positive_nat_Z (Pos.of_nat _)), Nat2Pos.id by lia. lia. }
          rewrite E1 in E. lra. }
        replace (S (length x) - 1) with (length x) by lia. destruct (IH k (c + 1) Hk') as (r & c' & Er & Hl & Hw). rewrite Er. cbn [bind].
        exists (false :: r), c'. repeat split; cbn [length]; auto; rewrite weight_cons; auto.
      * replace (S (length x) - 1) with (length x) by lia. destruct (IH (k - 1) (c + 1) ltac:(lia)) as (r & c' & Er & Hl & Hw). rewrite Er. cbn [bind].
        exists (true :: r), c'. repeat split; cbn [length]; auto; rewrite weight_cons, Hw; lia.
    + assert (k = 0) as -> by lia.
      (* n is not decremented any more, but it is not read again either *)
      assert (forall n c, bv_random_weight_loop x 0 n u c = Ok (zerov (length x), c)) as G.
      { clear. induction x as [|b x IH]; intros n c; cbn; auto. now rewrite IH. }
      rewrite G. cbn [bind]. exists (false :: zerov (length x)), c. repeat split; cbn [length]; auto.
      * now rewrite length_zerov.
      * rewrite weight_cons. apply weight_zero_iff. now rewrite length_zerov.
Qed.

Theorem bv_random_weight_exact x k u :
  (forall i, (0 <= u i)%Q /\ (u i < 1)%Q) ->
  (k <= length x ->
     exists r c, bv_random_weight x k u = Ok (r, c) /\ length r = length x /\ length (ones r) = k) /\
  (length x < k -> bv_random_weight x k u = UB).
Proof.
  intros Hu. unfold bv_random_weight. split; intros H.
  - apply Nat.leb_le in H as H'. rewrite H'. cbn [assertb bind]. now apply bv_random_weight_loop_spec.
  - apply Nat.leb_gt in H. now rewrite H.
Qed.
