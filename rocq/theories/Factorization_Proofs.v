(** Proofs about factorization. *)

From Coq Require Import ZArith NArith QArith String Ascii.
From Verif Require Import Base BaseLemmas BitVector_Model BitVector_Spec Function_Spec Sums BitVector_Proofs.
From Verif Require Import Text_Model Text_Proofs Collection_Model Collection_Spec Labs_Proofs Collection_Proofs.
Local Open Scope list_scope.
Local Open Scope nat_scope.

(** * Number of binary digits *)

Lemma pos_size_bounds p : (2 ^ Z.of_nat (Pos.size_nat p - 1) <= Zpos p < 2 ^ Z.of_nat (Pos.size_nat p))%Z /\ 0 < Pos.size_nat p.
Proof.
  induction p as [p [IH Hp]|p [IH Hp]|]; cbn [Pos.size_nat]; [| |cbn; lia];
    (split; [|lia]); replace (S (Pos.size_nat p) - 1) with (S (Pos.size_nat p - 1)) by lia;
    rewrite !Nat2Z.inj_succ, !Z.pow_succ_r by lia; lia.
Qed.

Lemma size_bounds n : (0 < n)%Z -> (2 ^ Z.of_nat (size_in_base2 n - 1) <= n < 2 ^ Z.of_nat (size_in_base2 n))%Z /\ 0 < size_in_base2 n.
Proof.
  intros H. destruct n as [|p|p]; [lia| |lia]. unfold size_in_base2. cbn [Z.eqb Z.abs Z.to_N N.size_nat].
  apply pos_size_bounds.
Qed.

Lemma size_upper n : (0 <= n)%Z -> (n < 2 ^ Z.of_nat (size_in_base2 n))%Z.
Proof. intros H. destruct (Z.eq_dec n 0) as [->|]; [cbn; lia|]. apply size_bounds. lia. Qed.

Lemma high_bit n i m : (0 <= n < 2 ^ Z.of_nat m)%Z -> m <= i -> Z.testbit n (Z.of_nat i) = false.
Proof.
  intros [H0 H] L. destruct (Z.eq_dec n 0) as [->|]; [apply Z.bits_0|]. apply Z.bits_above_log2; [assumption|].
  apply Z.log2_lt_pow2; [lia|]. apply Z.lt_le_trans with (2 ^ Z.of_nat m)%Z; [assumption|]. apply Z.pow_le_mono_r; lia.
Qed.

(** * Values *)

Lemma ranks_value test l : forall r, ranks test l r = (r + sum_over l (fun i => if test i then Z.of_nat (i + 1) else 0))%Z.
Proof.
  induction l as [|a l IH]; intros r; [rewrite sum_nil; cbn; lia|]. unfold ranks in *. cbn [fold_left]. rewrite IH, sum_cons.
  destruct (test a); lia.
Qed.

Lemma sum_n_split a b f : a <= b -> sum_n b f = (sum_n a f + sum_over (seq a (b - a)) f)%Z.
Proof.
  intros L. unfold sum_n. change (zsum (map ?f (seq 0 ?n))) with (sum_over (seq 0 n) f). rewrite <- sum_app, <- seq_app.
  do 2 f_equal. lia.
Qed.

Lemma digit_distance_more a b m m' : (0 <= a < 2 ^ Z.of_nat m)%Z -> (0 <= b < 2 ^ Z.of_nat m)%Z -> m <= m' ->
  digit_distance m' a b = digit_distance m a b.
Proof.
  intros A B L. unfold digit_distance at 1. rewrite (sum_n_split m m') by assumption. fold (digit_distance m a b).
  rewrite sum_zero; [lia|]. intros i Hi. apply in_seq in Hi. rewrite !(high_bit _ i m) by (assumption || lia). reflexivity.
Qed.

Lemma digit_distance_enough a b m m' : (0 <= a < 2 ^ Z.of_nat m)%Z -> (0 <= b < 2 ^ Z.of_nat m)%Z ->
  (0 <= a < 2 ^ Z.of_nat m')%Z -> (0 <= b < 2 ^ Z.of_nat m')%Z -> digit_distance m a b = digit_distance m' a b.
Proof.
  intros A B A' B'. destruct (Nat.le_ge_cases m m') as [L|L].
  - symmetry. now apply digit_distance_more.
  - now apply digit_distance_more.
Qed.

Lemma digit_distance_nonneg m a b : (0 <= digit_distance m a b)%Z.
Proof.
  unfold digit_distance. induction m as [|m IH]; [reflexivity|]. rewrite sum_n_S. destruct (Bool.eqb _ _); lia.
Qed.

Lemma digit_distance_zero m a b : (0 <= a < 2 ^ Z.of_nat m)%Z -> (0 <= b < 2 ^ Z.of_nat m)%Z -> (digit_distance m a b = 0%Z <-> a = b).
Proof.
  intros A B. split.
  - intros H. assert (E : forall i, i < m -> Z.testbit a (Z.of_nat i) = Z.testbit b (Z.of_nat i)).
    { clear A B. revert H. induction m as [|m IH]; intros H i Hi; [lia|]. unfold digit_distance in H. rewrite sum_n_S in H.
      fold (digit_distance m a b) in H. assert (P := digit_distance_nonneg m a b).
      destruct (Bool.eqb (Z.testbit a (Z.of_nat m)) (Z.testbit b (Z.of_nat m))) eqn:Q; [|lia].
      apply Bool.eqb_prop in Q. destruct (Nat.eq_dec i m) as [->|Ne]; [assumption|]. apply IH; lia. }
    apply Z.bits_inj'. intros i Hi. rewrite <- (Z2Nat.id i) by assumption.
    destruct (Nat.lt_ge_cases (Z.to_nat i) m) as [L|L]; [now apply E|]. now rewrite !(high_bit _ _ m).
  - intros ->. unfold digit_distance. apply sum_zero. intros i _. now rewrite Bool.eqb_reflx.
Qed.

Lemma evaluate_loops n p nsize psize : nsize = size_in_base2 n -> psize = size_in_base2 p -> (0 <= n)%Z -> (0 <= p)%Z ->
  let low := Nat.min nsize psize in
  let high := Nat.max nsize psize in
  let pbit i := Z.testbit p (Z.of_nat i) in
  let nbit i := Z.testbit n (Z.of_nat i) in
  let r := ranks (fun i => negb (Bool.eqb (pbit i) (nbit i))) (seq 0 low) 0%Z in
  (if high =? psize then ranks pbit (seq low (high - low)) r else ranks nbit (seq low (high - low)) r) = digit_distance high p n.
Proof.
  intros En Ep Hn Hp low high pbit nbit r. assert (Bn := size_upper n Hn). assert (Bp := size_upper p Hp).
  rewrite <- En in Bn. rewrite <- Ep in Bp. unfold digit_distance. rewrite (sum_n_split low high) by (unfold low, high; lia).
  assert (R : r = sum_n low (fun i => if Bool.eqb (Z.testbit p (Z.of_nat i)) (Z.testbit n (Z.of_nat i)) then 0 else Z.of_nat (i + 1))%Z).
  { unfold r. rewrite ranks_value, Z.add_0_l. apply sum_ext. intros i _. unfold pbit, nbit. now destruct (Bool.eqb _ _). }
  rewrite <- R. destruct (Nat.eqb_spec high psize) as [E|E]; rewrite ranks_value; f_equal; apply sum_ext;
    intros i Hi; apply in_seq in Hi; unfold pbit, nbit.
  - rewrite (high_bit n i nsize) by lia. destruct (Z.testbit p (Z.of_nat i)); reflexivity.
  - rewrite (high_bit p i psize) by lia. destruct (Z.testbit n (Z.of_nat i)); reflexivity.
Qed.

(** * Conversions *)

Lemma value_msb_snoc l b : value_msb (l ++ [b]) = (2 * value_msb l + (if b then 1 else 0))%Z.
Proof. unfold value_msb. rewrite rev_app_distr. cbn [rev app value_lsb]. destruct b; lia. Qed.

Lemma firstn_snoc {A} (l : list A) n d : n < len l -> firstn (S n) l = firstn n l ++ [nth n l d].
Proof.
  revert l; induction n as [|n IH]; intros [|a l] L; cbn in L; try lia; [reflexivity|]. cbn [firstn nth app].
  now rewrite <- IH by lia.
Qed.

Lemma nth_skipn {A} (l : list A) a i d : nth i (skipn a l) d = nth (a + i) l d.
Proof. revert l; induction a as [|a IH]; intros [|b l]; cbn [skipn Nat.add nth]; auto. now destruct i. Qed.

Lemma binary_number_Ok x first size : first + size <= len x ->
  binary_number x first size = Ok (value_msb (firstn size (skipn first x))).
Proof.
  intros L. unfold binary_number.
  destruct (foldM_seq_inv (fun acc i => b <- vget x (first + i) ;; Ok (2 * acc + (if (b : bool) then 1 else 0))%Z)
    (fun i acc => acc = value_msb (firstn i (skipn first x))) 0 size 0%Z) as [r [E Hr]].
  - reflexivity.
  - intros i acc Hi ->. cbn [Nat.add] in *. rewrite (vget_Ok x (first + i) false) by lia. cbn [bind]. eexists. split; [reflexivity|].
    rewrite Nat.add_1_r, (firstn_snoc _ i false) by (rewrite skipn_length; lia). rewrite value_msb_snoc, nth_skipn. reflexivity.
  - rewrite E. now rewrite Hr.
Qed.

Lemma value_msb_bound x : (0 <= value_msb x < 2 ^ Z.of_nat (len x))%Z.
Proof.
  unfold value_msb. assert (B := value_lsb_bound8 (rev x)). rewrite rev_length in B. split; [lia|].
  apply N2Z.inj_lt in B. rewrite N2Z.inj_pow, nat_N_Z in B. exact B.
Qed.

Lemma value_msb_any n v : (0 <= v < 2 ^ Z.of_nat n)%Z -> exists x, len x = n /\ value_msb x = v.
Proof.
  intros H. assert (G : forall n v, (v < 2 ^ N.of_nat n)%N -> exists x, len x = n /\ value_lsb x = v).
  { clear. induction n as [|n IH]; intros v H; [exists []; cbn in *; split; [reflexivity|lia]|].
    rewrite Nat2N.inj_succ, N.pow_succ_r' in H. destruct (IH (N.div2 v)) as [x [L V]].
    - rewrite N.div2_div. apply N.div_lt_upper_bound; lia.
    - exists (N.odd v :: x). split; [cbn; lia|]. cbn [value_lsb]. rewrite V.
      rewrite (N.div2_odd v) at 3. destruct (N.odd v); cbn [N.b2n]; lia. }
  destruct (G n (Z.to_N v)) as [x [L V]].
  - apply N2Z.inj_lt. rewrite N2Z.inj_pow, nat_N_Z, Z2N.id by lia. lia.
  - exists (rev x). split; [now rewrite rev_length|]. unfold value_msb. rewrite rev_involutive, V, Z2N.id; lia.
Qed.

(** * The object *)

Lemma set_number_sizes second s f : set_number second s = Ok f ->
  mpz_set_str10 s = Some (f_number f) /\ f_number_size f = size_in_base2 (f_number f) /\
  2 * f_first_size f = f_number_size f + f_number_size f mod 2 /\ f_second_size f = f_number_size f - 1 /\ f_second f = second.
Proof.
  unfold set_number. destruct (mpz_set_str10 s) as [n|]; [|discriminate]. intros H. apply Ok_inj in H. subst f.
  cbn [f_number f_number_size f_first_size f_second_size f_second]. split; [reflexivity|]. split; [reflexivity|].
  split; [|split; reflexivity]. set (k := size_in_base2 n). assert (D := Nat.div_mod k 2 ltac:(lia)).
  destruct (Nat.even k) eqn:E.
  - apply Nat.even_spec in E. destruct E as [m E]. rewrite E in *. rewrite (Nat.mul_comm 2 m), Nat.mod_mul, Nat.div_mul by lia. lia.
  - assert (M : k mod 2 = 1).
    { assert (k mod 2 < 2) by (apply Nat.mod_upper_bound; lia). destruct (Nat.eq_dec (k mod 2) 1); [assumption|].
      assert (k = 2 * (k / 2)) by lia. assert (Nat.even k = true) by (apply Nat.even_spec; exists (k / 2); lia). congruence. }
    lia.
Qed.

(** The factors encoded by a vector *)
Definition factor1 (f : factorization) (x : bv) : Z := value_msb (firstn (f_first_size f) x).
Definition factor2 (f : factorization) (x : bv) : Z := value_msb (skipn (f_first_size f) x).

Lemma convert_factors f x : len x = f_first_size f + f_second_size f -> 0 < f_second_size f ->
  convert f x = Ok (factor1 f x, factor2 f x).
Proof.
  intros L P. unfold convert. rewrite L, Nat.eqb_refl. cbn [assertb bind]. rewrite !binary_number_Ok by lia. cbn [bind skipn].
  destruct (Nat.eqb_spec (f_second_size f) 0); [lia|]. unfold factor1, factor2.
  rewrite (firstn_all2 (skipn (f_first_size f) x)); [reflexivity|]. rewrite skipn_length. lia.
Qed.

Lemma evaluate_product f x a b : (0 <= f_number f)%Z -> f_number_size f = size_in_base2 (f_number f) ->
  convert f x = Ok (a, b) -> (0 <= a)%Z -> (0 <= b)%Z ->
  exists f', factorization_evaluate f x =
    Ok ((- digit_distance (Nat.max (f_number_size f) (size_in_base2 (a * b))) (a * b) (f_number f))%Z, f') /\
  f_number f' = f_number f /\ f_number_size f' = f_number_size f /\ f_first_size f' = f_first_size f /\
  f_second_size f' = f_second_size f /\ f_second f' = b.
Proof.
  intros Hn En C Ha Hb. unfold factorization_evaluate. rewrite C. cbn [bind].
  destruct (Z.leb_spec 0 a); [|lia]. destruct (Z.leb_spec 0 b); [|lia]. cbn [assertb bind].
  rewrite (evaluate_loops (f_number f) (a * b) (f_number_size f) _ En eq_refl Hn) by (apply Z.mul_nonneg_nonneg; lia).
  eexists. split; [reflexivity|]. repeat split.
Qed.

Section Number.
  Variables (f : factorization) (n : Z).
  Hypothesis FN : f_number f = n.
  Hypothesis FS : f_number_size f = size_in_base2 n.
  Hypothesis F1 : 2 * f_first_size f = f_number_size f + f_number_size f mod 2.
  Hypothesis F2 : f_second_size f = f_number_size f - 1.
  Hypothesis N2 : (2 <= n)%Z.

  Lemma size_two : 2 <= f_number_size f.
  Proof.
    rewrite FS. destruct (size_bounds n) as [[_ B] P]; [lia|]. destruct (size_in_base2 n) as [|[|k]]; [lia| |lia].
    cbn in B. lia.
  Qed.

  Lemma number_bounds : (2 ^ Z.of_nat (f_second_size f) <= n < 2 ^ Z.of_nat (f_number_size f))%Z.
  Proof. rewrite F2, FS. apply size_bounds. lia. Qed.

  Lemma evaluate_value x : len x = f_first_size f + f_second_size f ->
    exists v f', factorization_evaluate f x = Ok (v, f') /\
    (forall m, n < 2 ^ Z.of_nat m -> factor1 f x * factor2 f x < 2 ^ Z.of_nat m ->
      v = - digit_distance m (factor1 f x * factor2 f x) n)%Z /\
    f_number f' = n /\ f_number_size f' = f_number_size f /\ f_first_size f' = f_first_size f /\ f_second_size f' = f_second_size f.
  Proof.
    intros L. assert (S2 := size_two). assert (C := convert_factors f x L ltac:(lia)).
    assert (P1 : (0 <= factor1 f x)%Z) by apply value_msb_bound. assert (P2 : (0 <= factor2 f x)%Z) by apply value_msb_bound.
    assert (P : (0 <= factor1 f x * factor2 f x)%Z) by (apply Z.mul_nonneg_nonneg; assumption).
    destruct (evaluate_product f x _ _ ltac:(rewrite FN; lia) ltac:(now rewrite FN) C P1 P2) as [f' [E [A [B [D [G _]]]]]].
    eexists. exists f'. split; [exact E|]. rewrite FN in *. split; [|repeat split; assumption].
    intros m Hm Hm'. f_equal. assert (Bn := size_upper n ltac:(lia)). assert (Bp := size_upper _ P). rewrite <- FS in Bn.
    apply digit_distance_enough; try (split; [assumption || lia|]); try assumption.
    - eapply Z.lt_le_trans; [exact Bp|]. apply Z.pow_le_mono_r; lia.
    - eapply Z.lt_le_trans; [exact Bn|]. apply Z.pow_le_mono_r; lia.
  Qed.

  Lemma evaluate_zero x : len x = f_first_size f + f_second_size f ->
    exists v f', factorization_evaluate f x = Ok (v, f') /\ (v <= 0)%Z /\ (v = 0 <-> factor1 f x * factor2 f x = n)%Z.
  Proof.
    intros L. destruct (evaluate_value x L) as [v [f' [E [V _]]]]. exists v, f'. split; [assumption|].
    assert (P1 : (0 <= factor1 f x)%Z) by apply value_msb_bound. assert (P2 : (0 <= factor2 f x)%Z) by apply value_msb_bound.
    assert (P : (0 <= factor1 f x * factor2 f x)%Z) by (apply Z.mul_nonneg_nonneg; assumption).
    assert (Bp := size_upper _ P). set (p := (factor1 f x * factor2 f x)%Z) in *.
    set (m := Nat.max (size_in_base2 n) (size_in_base2 p)).
    assert (Hn : (n < 2 ^ Z.of_nat m)%Z).
    { eapply Z.lt_le_trans; [apply size_upper; lia|]. apply Z.pow_le_mono_r; unfold m; lia. }
    assert (Hp : (p < 2 ^ Z.of_nat m)%Z).
    { eapply Z.lt_le_trans; [exact Bp|]. apply Z.pow_le_mono_r; unfold m; lia. }
    rewrite (V m) by assumption. assert (D := digit_distance_nonneg m p n). split; [lia|].
    rewrite <- (digit_distance_zero m p n) by lia. lia.
  Qed.

  (** The factors are smaller than the number. *)
  Lemma factors_small x : len x = f_first_size f + f_second_size f -> (factor1 f x < n /\ factor2 f x < n)%Z.
  Proof.
    intros L. assert (S2 := size_two). assert (B := number_bounds).
    assert (B1 := value_msb_bound (firstn (f_first_size f) x)). assert (B2 := value_msb_bound (skipn (f_first_size f) x)).
    rewrite firstn_length, Nat.min_l in B1 by lia. rewrite skipn_length in B2. fold (factor1 f x) in B1. fold (factor2 f x) in B2.
    assert (M : f_number_size f mod 2 < 2) by (apply Nat.mod_upper_bound; lia).
    split.
    - apply Z.lt_le_trans with (2 ^ Z.of_nat (f_first_size f))%Z; [lia|].
      apply Z.le_trans with (2 ^ Z.of_nat (f_second_size f))%Z; [|lia]. apply Z.pow_le_mono_r; [lia|].
      assert (D := Nat.div_mod (f_number_size f) 2 ltac:(lia)).
      destruct (Nat.eq_dec (f_number_size f) 2) as [E|E]; [rewrite E in F1; cbn in F1; lia|lia].
    - replace (len x - f_first_size f) with (f_second_size f) in B2 by lia. lia.
  Qed.

  Lemma zero_iff_composite :
    (exists x v f', len x = f_first_size f + f_second_size f /\ factorization_evaluate f x = Ok (v, f') /\ v = 0%Z) <-> composite n.
  Proof.
    split.
    - intros [x [v [f' [L [E V]]]]]. destruct (evaluate_zero x L) as [v' [f'' [E' [_ Z]]]]. rewrite E in E'. apply Ok_inj in E'.
      injection E' as <- <-. apply Z in V. destruct (factors_small x L) as [S1 S2].
      assert (P1 : (0 <= factor1 f x)%Z) by apply value_msb_bound. assert (P2 : (0 <= factor2 f x)%Z) by apply value_msb_bound.
      exists (factor1 f x), (factor2 f x). split; [|split; [|assumption]].
      + destruct (Z.eq_dec (factor1 f x) 0) as [Q|Q]; [rewrite Q in V; lia|].
        destruct (Z.eq_dec (factor1 f x) 1) as [Q'|Q']; [rewrite Q' in V; lia|lia].
      + destruct (Z.eq_dec (factor2 f x) 0) as [Q|Q]; [rewrite Q in V; lia|].
        destruct (Z.eq_dec (factor2 f x) 1) as [Q'|Q']; [rewrite Q' in V; lia|lia].
    - intros C. assert (C' : exists a b, (1 < a /\ a <= b /\ a * b = n)%Z).
      { destruct C as [a [b [A [B E]]]]. destruct (Z_le_gt_dec a b); [exists a, b|exists b, a]; lia. }
      destruct C' as [a [b [A [B E]]]]. assert (Bn := number_bounds). assert (S2 := size_two).
      assert (Ba : (a < 2 ^ Z.of_nat (f_first_size f))%Z).
      { destruct (Z_lt_le_dec a (2 ^ Z.of_nat (f_first_size f))) as [|G]; [assumption|exfalso].
        assert (H : (2 ^ Z.of_nat (f_number_size f) <= a * b)%Z); [|lia].
        apply Z.le_trans with (2 ^ Z.of_nat (f_first_size f) * 2 ^ Z.of_nat (f_first_size f))%Z.
        - rewrite <- Z.pow_add_r by lia. apply Z.pow_le_mono_r; lia.
        - apply Z.mul_le_mono_nonneg; lia. }
      assert (Bb : (b < 2 ^ Z.of_nat (f_second_size f))%Z).
      { destruct (Z_lt_le_dec b (2 ^ Z.of_nat (f_second_size f))) as [|G]; [assumption|exfalso].
        assert (H : (2 * b <= a * b)%Z) by (apply Z.mul_le_mono_nonneg_r; lia).
        assert (K : (2 ^ Z.of_nat (f_number_size f) = 2 * 2 ^ Z.of_nat (f_second_size f))%Z).
        { rewrite F2. rewrite <- Z.pow_succ_r by lia. f_equal. lia. }
        lia. }
      destruct (value_msb_any (f_first_size f) a) as [x1 [L1 V1]]; [lia|].
      destruct (value_msb_any (f_second_size f) b) as [x2 [L2 V2]]; [lia|].
      assert (L : len (x1 ++ x2) = f_first_size f + f_second_size f) by (rewrite app_length; lia).
      destruct (evaluate_zero (x1 ++ x2) L) as [v [f' [Ev [_ Z]]]]. exists (x1 ++ x2), v, f'. split; [assumption|]. split; [assumption|].
      apply Z. unfold factor1, factor2. rewrite <- L1, firstn_app, Nat.sub_diag, firstn_all, firstn_O, app_nil_r.
      rewrite skipn_app, Nat.sub_diag, skipn_all. cbn [skipn app]. now rewrite V1, V2.
  Qed.
End Number.

(** Numbers with one binary digit: the second factor is that of the previous evaluation. *)
Lemma evaluate_one f b : f_number f = 1%Z -> f_number_size f = 1 -> f_first_size f = 1 -> f_second_size f = 0 -> (0 <= f_second f)%Z ->
  exists v f', factorization_evaluate f [b] = Ok (v, f') /\ (v = 0 <-> b = true /\ f_second f = 1)%Z.
Proof.
  intros N S F1 F2 P. assert (C : convert f [b] = Ok (if b then 1 else 0, f_second f)%Z).
  { unfold convert. rewrite F1, F2. cbn [List.length Nat.eqb Nat.add assertb bind]. destruct b; reflexivity. }
  set (a := (if b then 1 else 0)%Z) in *. assert (A : (0 <= a)%Z) by (destruct b; cbn; lia).
  destruct (evaluate_product f [b] a (f_second f) ltac:(rewrite N; lia) ltac:(rewrite N, S; reflexivity) C A P) as [f' [E _]].
  eexists. exists f'. split; [exact E|]. rewrite N, S. assert (Q : (0 <= a * f_second f)%Z) by (apply Z.mul_nonneg_nonneg; assumption).
  set (m := Nat.max 1 (size_in_base2 (a * f_second f))).
  assert (B1 : (0 <= 1 < 2 ^ Z.of_nat m)%Z).
  { split; [lia|]. apply Z.lt_le_trans with (2 ^ Z.of_nat 1)%Z; [cbn; lia|]. apply Z.pow_le_mono_r; unfold m; lia. }
  assert (Bp : (0 <= a * f_second f < 2 ^ Z.of_nat m)%Z).
  { split; [assumption|]. eapply Z.lt_le_trans; [apply size_upper; assumption|]. apply Z.pow_le_mono_r; unfold m; lia. }
  assert (D := digit_distance_zero m _ _ Bp B1). unfold a in *. clear a. destruct b; rewrite ?Z.mul_1_l, ?Z.mul_0_l in *.
  - split; [intros K; split; [reflexivity|]; apply D; lia|]. intros [_ K]. apply D in K. lia.
  - split; [intros K|intros [K _]; discriminate]. exfalso. assert (0 = 1)%Z by (apply D; lia). lia.
Qed.

(** * Reading the number *)

Lemma every_char_all P s : every_char P s = all_chars P s.
Proof. induction s; cbn; auto. Qed.

Lemma without_spaces_digits s : all_chars is_digit s = true -> without_spaces s = s.
Proof.
  induction s as [|c s IH]; [reflexivity|]. cbn [all_chars without_spaces]. intros H. apply andb_true_iff in H. destruct H as [H1 H2].
  rewrite (digit_not_space c H1). now rewrite IH.
Qed.

Lemma mpz_show n : mpz_set_str10 (show_N n) = Some (Z.of_N n).
Proof.
  destruct (show_N_exact n) as [Ne [D V]]. unfold mpz_set_str10.
  assert (T : take (fun c => negb (Ascii.eqb c zero)) (show_N n) = (show_N n, EmptyString)).
  { rewrite <- (append_nil_r (show_N n)) at 1. apply take_app; [|reflexivity].
    apply (all_chars_impl is_digit); [|assumption]. intros c Hc. rewrite (digit_not_char zero c Hc) by reflexivity. reflexivity. }
  rewrite T. cbn [fst]. destruct (show_N n) as [|c s] eqn:E; [congruence|]. cbn [all_chars] in D.
  assert (D' := D). apply andb_true_iff in D. destruct D as [D1 D2]. cbn [skip]. rewrite (digit_not_space c D1).
  rewrite (digit_not_char "-"%char c D1) by reflexivity. rewrite D1. cbn [andb]. rewrite every_char_all.
  rewrite (all_chars_impl is_digit (fun c => is_digit c || is_space c)).
  - rewrite without_spaces_digits by (cbn [all_chars]; exact D'). now rewrite V.
  - intros d Hd. now rewrite Hd.
  - cbn [all_chars]. exact D'.
Qed.

Lemma set_number_show second n : exists f, set_number second (show_N n) = Ok f /\ f_number f = Z.of_N n.
Proof. unfold set_number. rewrite mpz_show. eexists. split; reflexivity. Qed.
