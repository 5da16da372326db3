(** Proofs about representations and adapters. *)

From Coq Require Import ZArith NArith QArith Permutation Sorted.
From Verif Require Import Base BaseLemmas BitVector_Model BitVector_Spec GF2 BitVector_Proofs Iterator_Model Iterator_Proofs
  BitMatrix_Model BitMatrix_Spec BitMatrix_Pure BitMatrix_Proofs Map_Model Map_Spec Map_Proofs
  Representation_Model Representation_Spec.
Local Open Scope nat_scope.

Lemma assertb_true b : b = true -> assertb b = Ok tt.
Proof. now intros ->. Qed.

Ltac ok_assert :=
  rewrite assertb_true by (rewrite ?andb_true_iff, ?Nat.ltb_lt, ?Nat.leb_le, ?Nat.eqb_eq, ?Z.ltb_lt, ?Z.leb_le; lia);
  cbn [bind].

Lemma slice_length x start n : start + n <= length x -> length (slice x start n) = n.
Proof. intros H. unfold slice. rewrite firstn_length, skipn_length. lia. Qed.

Lemma range_Ok x start n : 0 < n <= 64 -> start + n <= length x ->
  bv_to_size_type_range x start (start + n) = Ok (value_lsb (slice x start n)).
Proof.
  intros Hn H. rewrite (proj1 (bv_size_type_ranged x start (start + n))) by lia.
  unfold slice. now replace (start + n - start) with n by lia.
Qed.

(** * Dyadic integers *)

Definition dint_ok (d : dint) : Prop :=
  0 < di_size d <= di_exact d /\ di_exact d < 64 /\ (di_lower d < di_upper d)%Z.

Definition dint_decode (d : dint) (p : bv) : Z :=
  Z.min (di_upper d) (di_lower d + Z.of_N (value_lsb p) * 2 ^ Z.of_nat (di_exact d - di_size d)).

Theorem dint_decodes d : dint_ok d -> decodes (dint_rep d) (dint_decode d).
Proof.
  intros ([H1 H2] & H3 & H4). split; [exact H1|]. cbn [dint_rep rep_size rep_unpack]. intros x start H.
  unfold dint_unpack. rewrite range_Ok by lia. cbn [bind].
  set (p := slice x start (di_size d)). assert (Lp : length p = di_size d) by (apply slice_length; assumption).
  pose proof (value_lsb_lt p) as Vp. rewrite Lp in Vp. set (k := di_exact d - di_size d).
  set (u1 := if di_size d <? di_exact d then _ else _).
  assert (Eu : Z.of_N u1 = (Z.of_N (value_lsb p) * 2 ^ Z.of_nat k)%Z).
  { unfold u1. destruct (Nat.ltb_spec (di_size d) (di_exact d)).
    - unfold wrap64. rewrite N.shiftl_mul_pow2. rewrite N.mod_small.
      + rewrite N2Z.inj_mul, N2Z.inj_pow, nat_N_Z. reflexivity.
      + apply N.lt_le_trans with (2 ^ N.of_nat (di_size d) * 2 ^ N.of_nat k)%N.
        * apply N.mul_lt_mono_pos_r; [|assumption]. apply N.neq_0_lt_0, N.pow_nonzero. lia.
        * rewrite <- N.pow_add_r. apply N.pow_le_mono_r; lia.
    - replace k with 0 by lia. cbn. lia. }
  unfold dint_decode. fold k. rewrite <- Eu. clearbody u1. clear Eu Vp.
  rewrite assertb_true.
  - cbn [bind]. f_equal. destruct (N.ltb_spec (Z.to_N (di_upper d - di_lower d)) u1) as [L|L].
    + rewrite Z2N.id by lia. destruct (Z.ltb_spec (di_upper d) (di_lower d + (di_upper d - di_lower d))); lia.
    + destruct (Z.ltb_spec (di_upper d) (di_lower d + Z.of_N u1)); lia.
  - apply Z.leb_le. lia.
Qed.

Lemma dint_decode_range d p : dint_ok d -> (di_lower d <= dint_decode d p <= di_upper d)%Z.
Proof.
  intros (_ & _ & H). unfold dint_decode.
  assert (0 <= Z.of_N (value_lsb p) * 2 ^ Z.of_nat (di_exact d - di_size d))%Z by (apply Z.mul_nonneg_nonneg; [lia|apply Z.pow_nonneg; lia]).
  lia.
Qed.

(** bits of a number *)
Definition bitsN (n : nat) (u : N) : bv := map (fun i => N.testbit u (N.of_nat i)) (seq 0 n).

Lemma bitsN_length n u : length (bitsN n u) = n.
Proof. unfold bitsN. now rewrite map_length, seq_length. Qed.

Lemma bitsN_value n u : (u < 2 ^ N.of_nat n)%N -> value_lsb (bitsN n u) = u.
Proof. intros H. unfold bitsN. rewrite value_lsb_of_bits. now apply N.mod_small. Qed.

Lemma dint_decode_onto d z : dint_ok d -> di_size d = di_exact d ->
  (di_upper d - di_lower d + 1 <= 2 ^ Z.of_nat (di_exact d))%Z ->
  (di_lower d <= z <= di_upper d)%Z ->
  exists p, length p = di_size d /\ dint_decode d p = z.
Proof.
  intros (_ & _ & H) Hs He Hz. exists (bitsN (di_size d) (Z.to_N (z - di_lower d))). split; [apply bitsN_length|].
  unfold dint_decode. rewrite bitsN_value.
  - rewrite Hs, Nat.sub_diag. rewrite Z2N.id by lia. cbn. lia.
  - rewrite Hs. apply N2Z.inj_lt. rewrite N2Z.inj_pow, nat_N_Z, Z2N.id by lia. lia.
Qed.

Lemma dint_decode_short d p : dint_ok d -> length p = di_size d ->
  (2 ^ Z.of_nat (di_exact d) < di_upper d - di_lower d + 1)%Z ->
  (dint_decode d p < di_upper d)%Z.
Proof.
  intros ([H1 H2] & H3 & H4) Lp He. unfold dint_decode. pose proof (value_lsb_lt p) as V. rewrite Lp in V.
  apply N2Z.inj_lt in V. rewrite N2Z.inj_pow, nat_N_Z in V.
  change (Z.of_N 2) with 2%Z in V.
  assert (E : (2 ^ Z.of_nat (di_exact d) = 2 ^ Z.of_nat (di_size d) * 2 ^ Z.of_nat (di_exact d - di_size d))%Z).
  { rewrite <- Z.pow_add_r by lia. f_equal. lia. }
  assert (P : (0 < 2 ^ Z.of_nat (di_exact d - di_size d))%Z) by (apply Z.pow_pos_nonneg; lia).
  assert (Z.of_N (value_lsb p) * 2 ^ Z.of_nat (di_exact d - di_size d) < 2 ^ Z.of_nat (di_exact d))%Z.
  { rewrite E. apply Z.mul_lt_mono_pos_r; lia. }
  lia.
Qed.

Lemma exact_size_Ok w lg lower upper : dint_args w lg lower upper ->
  exact_size w lg lower upper = Ok (lg (upper - lower + 1)%Z).
Proof.
  intros (H1 & H2 & H3). unfold exact_size. ok_assert.
  assert (D : difference_is_safe w lower upper = Ok true).
  { unfold difference_is_safe. ok_assert.
    destruct (Z.ltb_spec lower 0), (Z.ltb_spec upper 0); cbn [andb]; auto; try lia.
    - destruct (Z.leb_spec 0 lower); [lia|]. cbn [andb assertb bind]. destruct (Z.leb_spec 0 upper); [|lia]. cbn [assertb bind].
      ok_assert. f_equal. apply Z.leb_le. lia.
    - destruct (Z.leb_spec 0 lower), (Z.leb_spec 0 upper); try lia. reflexivity. }
  rewrite D. cbn [bind assertb]. do 3 ok_assert. reflexivity.
Qed.

Lemma exact_size_inv w lg lower upper e : w <= 64 -> exact_size w lg lower upper = Ok e ->
  (lower < upper)%Z /\ e = lg (upper - lower + 1)%Z /\ 0 < e < 64.
Proof.
  intros Hw. unfold exact_size. destruct (Z.ltb_spec lower upper); [|discriminate]. cbn [assertb bind].
  destruct (difference_is_safe w lower upper) as [[]| |]; cbn [assertb bind]; try discriminate.
  destruct (_ <=? int_max w)%Z; cbn [assertb bind]; try discriminate.
  destruct (Nat.ltb_spec 0 (lg (upper - lower + 1)%Z)); cbn [assertb bind]; try discriminate.
  destruct (Nat.ltb_spec (lg (upper - lower + 1)%Z) w); cbn [assertb bind]; try discriminate.
  intros E. apply Ok_inj in E. subst e. repeat split; lia.
Qed.

(** Whatever the constructor, and the rounding in it, the result is fit for use. *)
Theorem dint_constructors w lg sz lower upper size precision d : w <= 64 ->
  dint_sized w lg lower upper size = Ok d \/ dint_full w lg lower upper = Ok d \/
  dint_precision w lg sz lower upper precision = Ok d ->
  dint_ok d /\ di_lower d = lower /\ di_upper d = upper /\ di_exact d = lg (upper - lower + 1)%Z.
Proof.
  intros Hw [E|[E|E]].
  - unfold dint_sized in E. destruct (Nat.ltb_spec 0 size); [|discriminate]. cbn [assertb bind] in E.
    destruct (Nat.ltb_spec size w); [|discriminate]. cbn [assertb bind] in E.
    destruct (exact_size w lg lower upper) as [e| |] eqn:Ee; try discriminate. apply exact_size_inv in Ee as (A & -> & B); [|assumption].
    apply Ok_inj in E. subst d. unfold dint_ok. cbn [di_size di_exact di_lower di_upper].
    set (e := lg (upper - lower + 1)%Z) in *. clearbody e. destruct (Nat.ltb_spec e size); repeat split; lia.
  - unfold dint_full in E. destruct (exact_size w lg lower upper) as [e| |] eqn:Ee; try discriminate. apply exact_size_inv in Ee as (A & -> & B); [|assumption].
    apply Ok_inj in E. subst d. unfold dint_ok. cbn [di_size di_exact di_lower di_upper].
    set (e := lg (upper - lower + 1)%Z) in *. clearbody e. repeat split; lia.
  - unfold dint_precision in E. destruct (precision <? 1)%Z; [discriminate|].
    destruct (exact_size w lg lower upper) as [e| |] eqn:Ee; try discriminate. apply exact_size_inv in Ee as (A & -> & B); [|assumption].
    apply Ok_inj in E. subst d. unfold dint_ok. cbn [di_size di_exact di_lower di_upper].
    set (e := lg (upper - lower + 1)%Z) in *. clearbody e. repeat split; try lia.
Qed.

Theorem dint_full_Ok w lg lower upper : dint_args w lg lower upper ->
  let e := lg (upper - lower + 1)%Z in dint_full w lg lower upper = Ok (mk_dint e e lower upper).
Proof. intros H. unfold dint_full. rewrite exact_size_Ok by assumption. reflexivity. Qed.

Theorem dint_sized_Ok w lg lower upper size : dint_args w lg lower upper -> 0 < size < w ->
  let e := lg (upper - lower + 1)%Z in dint_sized w lg lower upper size = Ok (mk_dint (Nat.min size e) e lower upper).
Proof.
  intros H Hs e. unfold dint_sized. do 2 ok_assert. rewrite exact_size_Ok by assumption. cbn [bind]. fold e.
  do 2 f_equal. destruct (Nat.ltb_spec e size); lia.
Qed.

(** * Most significant bit *)

Lemma msb_log2 w n : 0 < n < 2 ^ w -> msb w n = Nat.log2 n.
Proof.
  induction w as [|w IH]; intros H; [cbn in H; lia|]. cbn [msb].
  destruct (Nat.testbit n w) eqn:E.
  - symmetry. apply Nat.log2_unique; [lia|]. split; [|lia].
    destruct (Nat.le_gt_cases (2 ^ w) n) as [L|L]; [assumption|]. exfalso.
    rewrite Nat.bits_above_log2 in E; [discriminate|]. apply Nat.log2_lt_pow2; lia.
  - apply IH. split; [lia|]. destruct (Nat.le_gt_cases (2 ^ w) n) as [L|L]; [|assumption]. exfalso.
    assert (Nat.log2 n = w) by (apply Nat.log2_unique; lia).
    rewrite <- H0, Nat.bit_log2 in E; [discriminate|lia].
Qed.

Lemma filter_le1_In {A} (f : A -> bool) l a b : NoDup l -> length (filter f l) = 1 -> In a l -> In b l -> f a = true -> f b = true -> a = b.
Proof.
  intros N L Ha Hb Fa Fb. assert (Ia : In a (filter f l)) by (apply filter_In; auto).
  assert (Ib : In b (filter f l)) by (apply filter_In; auto).
  destruct (filter f l) as [|c [|d t]]; cbn in L; try lia. destruct Ia as [<-|[]], Ib as [<-|[]]. reflexivity.
Qed.

Lemma bit_count_pow2 w n : 0 < n < 2 ^ w -> (bit_count w n = 1 <-> n = 2 ^ Nat.log2 n).
Proof.
  intros H. assert (Lw : Nat.log2 n < w) by (apply Nat.log2_lt_pow2; lia). split.
  - intros E. apply Nat.bits_inj. intros i. rewrite Nat.pow2_bits_eqb. destruct (Nat.eqb_spec (Nat.log2 n) i) as [<-|Ne].
    + apply Nat.bit_log2. lia.
    + destruct (Nat.testbit n i) eqn:T; [|reflexivity]. exfalso. apply Ne.
      assert (i <= Nat.log2 n). { destruct (Nat.le_gt_cases i (Nat.log2 n)); [assumption|]. rewrite Nat.bits_above_log2 in T by assumption. discriminate. }
      apply (filter_le1_In (Nat.testbit n) (seq 0 w)); [apply seq_NoDup|exact E|apply in_seq; lia|apply in_seq; lia| |assumption].
      apply Nat.bit_log2. lia.
  - intros E. unfold bit_count. set (k := Nat.log2 n) in *. rewrite E. clearbody k.
    replace w with (k + (1 + (w - k - 1))) by lia. rewrite !seq_app, !filter_app, !app_length. cbn [Nat.add seq].
    assert (Z0 : forall l, (forall i, In i l -> i <> k) -> filter (Nat.testbit (2 ^ k)) l = []).
    { intros l Hl. induction l as [|a l IHl]; [reflexivity|]. cbn [filter]. rewrite Nat.pow2_bits_eqb.
      destruct (Nat.eqb_spec k a) as [->|]; [exfalso; apply (Hl a); cbn; auto|]. apply IHl. intros i Hi. apply Hl. cbn. auto. }
    rewrite (Z0 (seq 0 k)) by (intros i Hi; apply in_seq in Hi; lia).
    rewrite (Z0 (seq (k + 1) (w - k - 1))) by (intros i Hi; apply in_seq in Hi; lia).
    cbn [filter]. rewrite Nat.pow2_bits_eqb, Nat.eqb_refl. reflexivity.
Qed.

Lemma category_bits w n : 1 < n -> n < 2 ^ w -> let s := (if bit_count w n =? 1 then msb w n else msb w n + 1) in
  s = Nat.log2_up n /\ 0 < s <= w /\ n <= 2 ^ s.
Proof.
  intros H1 Hw s. assert (Lw : Nat.log2 n < w) by (apply Nat.log2_lt_pow2; lia).
  assert (s = Nat.log2_up n) as E.
  { unfold s. rewrite msb_log2 by lia. destruct (Nat.eqb_spec (bit_count w n) 1) as [B|B].
    - apply bit_count_pow2 in B; [|lia]. rewrite B at 2. rewrite Nat.log2_up_pow2 by lia. reflexivity.
    - destruct (Nat.log2_log2_up_exact n ltac:(lia)) as [D _]. pose proof (Nat.le_log2_up_succ_log2 n).
      pose proof (Nat.le_log2_log2_up n). destruct (Nat.eq_dec (Nat.log2 n) (Nat.log2_up n)) as [Q|Q]; [|lia].
      exfalso. apply B. apply bit_count_pow2; [lia|]. destruct (D Q) as [b Hb]. rewrite Hb at 2. rewrite Nat.log2_pow2 by lia. assumption. }
  split; [assumption|]. split.
  - split; [rewrite E; apply Nat.log2_up_pos; lia|]. unfold s. rewrite msb_log2 by lia. destruct (_ =? 1); lia.
  - rewrite E. apply Nat.log2_up_spec. lia.
Qed.

(** * Integer categorical representation *)

Definition intcat_decode (r : intcat) (p : bv) : N := (value_lsb p mod N.of_nat (ic_num r))%N.

Theorem intcat_make_Ok w n : w <= 64 -> 1 < n -> n < 2 ^ w -> exists r, intcat_make w n = Ok r /\ ic_num r = n /\ ic_size r = Nat.log2_up n /\
  decodes (intcat_rep r) (intcat_decode r) /\
  forall c, (c < N.of_nat n)%N -> exists p, length p = ic_size r /\ intcat_decode r p = c.
Proof.
  intros W H1 Hw. destruct (category_bits w n H1 Hw) as (A & B & C).
  unfold intcat_make. ok_assert.
  assert (msb w n < w). { rewrite msb_log2 by lia. apply Nat.log2_lt_pow2; lia. }
  ok_assert. eexists. split; [reflexivity|]. cbn [ic_num ic_size]. set (s := if _ =? 1 then _ else _) in *. clearbody s. 
  split; [reflexivity|]. split; [assumption|]. split.
  - split; [cbn; lia|]. cbn [intcat_rep rep_size rep_unpack ic_size ic_num]. intros x start Hx. unfold intcat_unpack. cbn [ic_size ic_num].
    do 3 ok_assert. rewrite range_Ok by lia. reflexivity.
  - intros c Hc. assert (Hc' : (c < 2 ^ N.of_nat s)%N) by (rewrite <- pow2_of_nat; lia).
    exists (bitsN s c). split; [apply bitsN_length|]. unfold intcat_decode. cbn [ic_num]. rewrite bitsN_value by assumption.
    apply N.mod_small. assumption.
Qed.

(** * Dyadic floats *)

Lemma length_dyadic_lengths n x : length (dyadic_lengths n x) = n.
Proof. revert x; induction n as [|n IH]; intros x; cbn; auto. Qed.

Lemma value_msb_cons b p : value_msb (b :: p) = ((if b then 2 ^ N.of_nat (length p) else 0) + value_msb p)%N.
Proof.
  unfold value_msb. cbn [rev]. generalize (rev_length p). generalize (rev p). intros l <-.
  induction l as [|a l IH]; cbn [value_lsb app length].
  - destruct b; reflexivity.
  - rewrite IH, Nat2N.inj_succ, N.pow_succ_r'. destruct b; lia.
Qed.

Lemma value_msb_lt p : (value_msb p < 2 ^ N.of_nat (length p))%N.
Proof. unfold value_msb. rewrite <- rev_length. apply value_lsb_lt. Qed.

Lemma qpow2_S n : (qpow2 (S n) == 2 * qpow2 n)%Q.
Proof.
  unfold qpow2. rewrite Nat2Z.inj_succ, Z.pow_succ_r by lia. now rewrite inject_Z_mult.
Qed.

Lemma qpow2_pos n : (0 < qpow2 n)%Q.
Proof. unfold qpow2. change 0%Q with (inject_Z 0). rewrite <- Zlt_Qlt. apply Z.pow_pos_nonneg; lia. Qed.

Lemma dyadic_sum_spec p : forall x acc,
  (dyadic_sum p (dyadic_lengths (length p) x) acc == acc + 2 * x * (inject_Z (Z.of_N (value_msb p)) / qpow2 (length p)))%Q.
Proof.
  induction p as [|b p IH]; intros x acc.
  - cbn. field. discriminate.
  - cbn [length dyadic_lengths dyadic_sum]. rewrite IH, value_msb_cons, qpow2_S.
    rewrite N2Z.inj_add, inject_Z_plus. pose proof (qpow2_pos (length p)) as P.
    assert (Q : inject_Z (Z.of_N (if b then 2 ^ N.of_nat (length p) else 0)) == if b then qpow2 (length p) else 0).
    { destruct b; [|reflexivity]. unfold qpow2. rewrite N2Z.inj_pow, nat_N_Z. reflexivity. }
    rewrite Q. destruct b; field; intros E; rewrite E in P; now apply Qlt_irrefl in P.
Qed.

Definition dfloat_decode (d : dfloat) (p : bv) : Q :=
  (df_lower d + df_length d * dyadic_sum p (df_lengths d) 0)%Q.

Lemma dfloat_decodes lower upper size : 0 < size ->
  let d := mk_dfloat (dyadic_lengths size (1 # 2)) lower (upper - lower) in
  decodes (dfloat_rep d) (dfloat_decode d) /\
  forall p, length p = size ->
    (dfloat_decode d p == lower + (upper - lower) * (inject_Z (Z.of_N (value_msb p)) / qpow2 size))%Q.
Proof.
  intros Hs d. split.
  - unfold decodes. cbn [dfloat_rep rep_size rep_unpack d df_lengths]. rewrite length_dyadic_lengths. split; [assumption|].
    intros x start H. unfold dfloat_unpack, d. cbn [df_lengths df_lower df_length]. rewrite length_dyadic_lengths.
    do 2 ok_assert. reflexivity.
  - intros p <-. unfold dfloat_decode, d. cbn [df_lengths df_lower df_length]. rewrite dyadic_sum_spec. ring.
Qed.

Lemma dfloat_lt lower upper size p q : (lower < upper)%Q -> length p = size -> length q = size -> 0 < size ->
  let d := mk_dfloat (dyadic_lengths size (1 # 2)) lower (upper - lower) in
  ((dfloat_decode d p < dfloat_decode d q)%Q <-> (value_msb p < value_msb q)%N).
Proof.
  intros Hl Hp Hq Hs d. destruct (dfloat_decodes lower upper size Hs) as [_ F]. fold d in F.
  rewrite (F p Hp), (F q Hq). pose proof (qpow2_pos size) as P.
  assert (L : (0 < upper - lower)%Q) by (apply -> Qlt_minus_iff; assumption).
  rewrite Qplus_lt_r, Qmult_lt_l by assumption.
  unfold Qdiv. rewrite Qmult_lt_r by (now apply Qinv_lt_0_compat).
  rewrite <- Zlt_Qlt. lia.
Qed.

Lemma dfloat_range lower upper size p : (lower < upper)%Q -> length p = size -> 0 < size ->
  let d := mk_dfloat (dyadic_lengths size (1 # 2)) lower (upper - lower) in
  (lower <= dfloat_decode d p < upper)%Q.
Proof.
  intros Hl Hp Hs d. destruct (dfloat_decodes lower upper size Hs) as [_ F]. fold d in F. rewrite (F p Hp).
  pose proof (qpow2_pos size) as P. assert (L : (0 < upper - lower)%Q) by (apply -> Qlt_minus_iff; assumption).
  set (t := (inject_Z (Z.of_N (value_msb p)) / qpow2 size)%Q).
  assert (T : (0 <= t < 1)%Q).
  { unfold t. split.
    - apply Qle_shift_div_l; [assumption|]. rewrite Qmult_0_l. change 0%Q with (inject_Z 0). rewrite <- Zle_Qle. lia.
    - apply Qlt_shift_div_r; [assumption|]. rewrite Qmult_1_l. unfold qpow2. rewrite <- Zlt_Qlt.
      pose proof (value_msb_lt p) as V. rewrite Hp in V. apply N2Z.inj_lt in V. now rewrite N2Z.inj_pow, nat_N_Z in V. }
  clearbody t. destruct T as [T1 T2]. split.
  - rewrite <- (Qplus_0_r lower) at 1. apply Qplus_le_r. apply Qmult_le_0_compat; [apply Qlt_le_weak|]; assumption.
  - apply Qlt_le_trans with (lower + (upper - lower) * 1)%Q.
    + apply Qplus_lt_r. now apply Qmult_lt_l.
    + ring_simplify. apply Qle_refl.
Qed.

Lemma value_msb_inj n p q : length p = n -> length q = n -> value_msb p = value_msb q -> p = q.
Proof.
  intros Hp Hq E. unfold value_msb in E. apply (value_lsb_inj n) in E; rewrite ?rev_length; auto.
  rewrite <- (rev_involutive p), <- (rev_involutive q). now rewrite E.
Qed.

Lemma qlt_assert a b : (a < b)%Q -> assertb (negb (Qle_bool b a)) = Ok tt.
Proof.
  intros H. apply assertb_true. apply negb_true_iff. apply not_true_is_false. rewrite Qle_bool_iff. now apply Qlt_not_le.
Qed.

Theorem dfloat_make_Ok lower upper size : (lower < upper)%Q -> 0 < size ->
  dfloat_make lower upper size = Ok (mk_dfloat (dyadic_lengths size (1 # 2)) lower (upper - lower)).
Proof. intros H Hs. unfold dfloat_make. rewrite qlt_assert by assumption. cbn [bind]. ok_assert. reflexivity. Qed.

Theorem dfloat_precision_Ok sz lower upper precision : (lower < upper)%Q -> (0 < precision)%Q ->
  let size := sz ((upper - lower) / precision)%Q in
  0 < size -> ((upper - lower) / precision <= qpow2 size)%Q ->
  dfloat_precision sz lower upper precision = Ok (mk_dfloat (dyadic_lengths size (1 # 2)) lower (upper - lower)) /\
  ((upper - lower) / qpow2 size <= precision)%Q.
Proof.
  intros H Hp size Hs Hl. split.
  - unfold dfloat_precision. rewrite !qlt_assert by assumption. cbn [bind]. fold size. ok_assert. reflexivity.
  - pose proof (qpow2_pos size) as P. apply Qle_shift_div_r; [assumption|].
    apply (Qmult_le_r _ _ precision) in Hl; [|assumption]. unfold Qdiv in Hl. rewrite <- Qmult_assoc, (Qmult_comm (/ precision)) in Hl.
    rewrite Qmult_inv_r in Hl by (intros E; rewrite E in Hp; now apply Qlt_irrefl in Hp).
    rewrite Qmult_1_r, Qmult_comm in Hl. exact Hl.
Qed.

(** * Complex numbers *)

Lemma skipn_add {A} n m (l : list A) : skipn n (skipn m l) = skipn (m + n) l.
Proof.
  revert l; induction m as [|m IH]; intros l; [reflexivity|]. destruct l as [|a l]; [now rewrite !skipn_nil|]. apply IH.
Qed.

Lemma slice_app_l x start a b : slice x start (a + b) = slice x start a ++ slice x (start + a) b.
Proof. unfold slice. rewrite firstn_add. f_equal. now rewrite skipn_add. Qed.

Theorem complex_decodes {D} (re im : rep D) d1 d2 : decodes re d1 -> decodes im d2 ->
  decodes (complex_rep re im) (fun p => (d1 (firstn (rep_size re) p), d2 (skipn (rep_size re) p))).
Proof.
  intros [H1 H2] [H3 H4]. split; cbn [complex_rep rep_size rep_unpack]; [lia|]. intros x start H.
  ok_assert. rewrite H2, H4 by lia. cbn [bind]. rewrite slice_app_l.
  assert (L : length (slice x start (rep_size re)) = rep_size re) by (apply slice_length; lia).
  rewrite firstn_app, skipn_app, L, Nat.sub_diag, firstn_O, app_nil_r.
  rewrite (firstn_all2 (slice _ _ _)) by lia. rewrite (skipn_all2 (slice x start _)) by lia. reflexivity.
Qed.
