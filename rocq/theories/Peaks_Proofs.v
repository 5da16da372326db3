(** Proofs about FourPeaks and SixPeaks. *)

From Coq Require Import ZArith.
From Verif Require Import Base BaseLemmas BitVector_Model BitVector_Spec GF2 BitVector_Proofs Theory_Model Function_Spec Theory_Proofs.
Local Open Scope nat_scope.

Lemma head_le x b : head x b <= length x.
Proof. induction x as [|c x IH]; cbn; [lia|]. destruct (Bool.eqb c b); lia. Qed.

Lemma head_nth x b i d : i < head x b -> nth i x d = b.
Proof.
  revert i; induction x as [|c x IH]; intros i H; cbn in *; [lia|].
  destruct (Bool.eqb c b) eqn:E; [|lia]. apply eqb_prop in E. destruct i; [assumption|]. apply IH. lia.
Qed.

Lemma head_run h b r : (r = [] \/ exists t, r = negb b :: t) -> head (repeat b h ++ r) b = h.
Proof.
  intros H. induction h as [|h IH]; cbn [repeat app head].
  - destruct H as [->|[t ->]]; [reflexivity|]. cbn. destruct b; reflexivity.
  - rewrite eqb_reflx. now rewrite IH.
Qed.

Lemma rev_repeat {A} (a : A) n : rev (repeat a n) = repeat a n.
Proof.
  induction n; cbn; [reflexivity|]. rewrite IHn. clear.
  induction n; cbn; [reflexivity|]. now rewrite IHn.
Qed.

Lemma tail_run t b r : (r = [] \/ exists l, r = l ++ [negb b]) -> tail (r ++ repeat b t) b = t.
Proof.
  intros H. unfold tail. rewrite rev_app_distr, rev_repeat. apply head_run.
  destruct H as [->|[l ->]]; [auto|]. right. rewrite rev_app_distr. cbn. eauto.
Qed.

Lemma tail_le x b : tail x b <= length x.
Proof. unfold tail. rewrite <- rev_length. apply head_le. Qed.

Lemma tail_nth x b i d : i < length x -> length x - tail x b <= i -> nth i x d = b.
Proof.
  intros Hi H. pose proof (tail_le x b). rewrite <- (rev_involutive x). rewrite rev_nth by (rewrite rev_length; lia).
  apply head_nth. rewrite rev_length. unfold tail in *. lia.
Qed.

Lemma head_tail_sum x b : head x b + tail x (negb b) <= length x.
Proof.
  destruct (Nat.le_gt_cases (head x b + tail x (negb b)) (length x)) as [|H]; [assumption|exfalso].
  pose proof (head_le x b). pose proof (tail_le x (negb b)).
  assert (A := head_nth x b (length x - tail x (negb b)) true ltac:(lia)).
  assert (B := tail_nth x (negb b) (length x - tail x (negb b)) true ltac:(lia) ltac:(lia)).
  rewrite A in B. destruct b; discriminate.
Qed.

Lemma head_tail_shape x b : head x b + tail x (negb b) = length x ->
  x = repeat b (head x b) ++ repeat (negb b) (tail x (negb b)).
Proof.
  intros H. apply (nth_ext_len true); [rewrite app_length, !repeat_length; lia|].
  intros i Hi. destruct (Nat.lt_ge_cases i (head x b)).
  - rewrite app_nth1 by (rewrite repeat_length; lia). rewrite nth_repeat_lt by assumption.
    now apply head_nth.
  - rewrite app_nth2 by (rewrite repeat_length; lia). rewrite repeat_length, nth_repeat_lt by lia.
    apply tail_nth; lia.
Qed.

Lemma head_excl x b : 0 < head x b -> head x (negb b) = 0.
Proof.
  destruct x as [|c x]; cbn; [lia|]. destruct c, b; cbn; lia.
Qed.

Lemma tail_excl x b : 0 < tail x b -> tail x (negb b) = 0.
Proof. apply head_excl. Qed.

Lemma head_blocks a c b : head (repeat b a ++ repeat (negb b) c) b = a.
Proof. apply head_run. destruct c; cbn; eauto. Qed.

Lemma tail_blocks a c b : tail (repeat b a ++ repeat (negb b) c) (negb b) = c.
Proof.
  apply tail_run. rewrite negb_involutive. destruct a as [|a]; [auto|right].
  exists (repeat b a). replace (S a) with (a + 1) by lia. rewrite repeat_app. reflexivity.
Qed.

(** The two optima 1^(n-s) 0^s and 1^s 0^(n-s), and their complements. *)
Definition peak (b : bool) (n s : nat) : list bool := repeat b (n - s) ++ repeat (negb b) s.

Lemma length_peak b n s : s <= n -> length (peak b n s) = n.
Proof. intros. unfold peak. rewrite app_length, !repeat_length. lia. Qed.

Lemma peaks_make_inv n t m : peaks_make n t = Ok m -> (-1 <= t)%Z ->
  exists s, t = (Z.of_nat s - 1)%Z /\ 2 * s <= n /\ m = (2 * Z.of_nat n - Z.of_nat s)%Z.
Proof.
  unfold peaks_make. destruct (Z.ltb_spec (Z.quot (Z.of_nat n) 2 - 1) t) as [|H]; [discriminate|].
  intros E Ht. apply Ok_inj in E. exists (Z.to_nat (t + 1)). 
  rewrite Z.quot_div_nonneg in H by lia.
  assert (2 * (Z.of_nat n / 2) <= Z.of_nat n)%Z by (apply Z.mul_div_le; lia).
  repeat split; lia.
Qed.

(** Reward obtained on the side (b, negb b). *)
Lemma peak_side n s x b : length x = n -> 2 * s <= n -> s <= head x b -> s <= tail x (negb b) ->
  Nat.max (head x b) (tail x (negb b)) <= n - s /\
  (Nat.max (head x b) (tail x (negb b)) = n - s <-> x = peak b n s \/ x = peak b n (n - s)).
Proof.
  intros Hx Hs Hh Ht. pose proof (head_tail_sum x b) as S. split; [lia|]. split.
  - intros M.
    assert (E : head x b + tail x (negb b) = length x) by lia. apply head_tail_shape in E as Ex.
    destruct (Nat.eq_dec (head x b) (n - s)) as [Eh|Eh].
    + left. unfold peak. rewrite Ex. f_equal; f_equal; lia.
    + right. unfold peak. replace (n - (n - s)) with s by lia. rewrite Ex. f_equal; f_equal; lia.
  - unfold peak. intros [E|E]; rewrite E, head_blocks, tail_blocks; lia.
Qed.

Lemma fourpeaks_cases n s x : length x = n -> 2 * s <= n ->
  let t := (Z.of_nat s - 1)%Z in
  fourpeaks_evaluate t x =
    Z.of_nat (Nat.max (head x true) (tail x false) + (if (s <=? head x true) && (s <=? tail x false) then n else 0)).
Proof.
  intros Hx Hs. cbn zeta. unfold fourpeaks_evaluate. rewrite Hx.
  destruct (Z.ltb_spec (Z.of_nat s - 1) (Z.of_nat (head x true))), (Nat.leb_spec s (head x true)); try lia;
  destruct (Z.ltb_spec (Z.of_nat s - 1) (Z.of_nat (tail x false))), (Nat.leb_spec s (tail x false)); cbn [andb]; lia.
Qed.

Theorem fourpeaks_max n t m : peaks_make n t = Ok m -> (-1 <= t)%Z ->
  is_maximum n (fun x => Ok (fourpeaks_evaluate t x)) m /\
  exists s, Z.of_nat s = (t + 1)%Z /\
    maximizers n (fun x => Ok (fourpeaks_evaluate t x)) m [repeat true (n - s) ++ repeat false s; repeat true s ++ repeat false (n - s)].
Proof.
  intros Hm Ht. destruct (peaks_make_inv n t m Hm Ht) as (s & Es & Hs & Em).
  assert (C : forall x, length x = n -> (fourpeaks_evaluate t x <= m)%Z /\
     (fourpeaks_evaluate t x = m <-> x = peak true n s \/ x = peak true n (n - s))).
  { intros x Hx. rewrite Es, (fourpeaks_cases n s x Hx Hs).
    pose proof (head_le x true). pose proof (tail_le x false).
    destruct (Nat.leb_spec s (head x true)) as [Ha|Ha]; [destruct (Nat.leb_spec s (tail x false)) as [Hb|Hb]|]; cbn [andb].
    - destruct (peak_side n s x true Hx Hs Ha Hb) as [A B]. cbn [negb] in A, B. split; [lia|].
      rewrite <- B. lia.
    - split; [lia|]. split; [lia|]. unfold peak. intros [E|E]; exfalso; apply (f_equal (fun y => tail y false)) in E;
        change false with (negb true) in E; rewrite tail_blocks in E; cbn [negb] in E; lia.
    - split; [lia|]. split; [lia|]. unfold peak. intros [E|E]; exfalso; apply (f_equal (fun y => head y true)) in E;
        rewrite head_blocks in E; lia. }
  split; [split|].
  - intros x Hx. eexists. split; [reflexivity|]. now apply C.
  - exists (peak true n s). split; [apply length_peak; lia|]. f_equal. apply C; [apply length_peak; lia|auto].
  - exists s. split; [lia|]. intros x Hx. destruct (C x Hx) as [_ D]. cbn [In].
    replace (repeat true s ++ repeat false (n - s)) with (peak true n (n - s)) by (unfold peak; cbn [negb]; do 2 f_equal; lia).
    split.
    + intros E. apply Ok_inj in E. apply D in E. unfold peak in *. cbn [negb] in *. intuition.
    + intros E. f_equal. apply D. unfold peak in *. cbn [negb] in *. intuition.
Qed.

Theorem sixpeaks_max n t m : peaks_make n t = Ok m -> (-1 <= t)%Z ->
  is_maximum n (fun x => Ok (sixpeaks_evaluate t x)) m /\
  exists s, Z.of_nat s = (t + 1)%Z /\
    maximizers n (fun x => Ok (sixpeaks_evaluate t x)) m
      [repeat true (n - s) ++ repeat false s; repeat true s ++ repeat false (n - s);
       repeat false (n - s) ++ repeat true s; repeat false s ++ repeat true (n - s)].
Proof.
  intros Hm Ht. destruct (peaks_make_inv n t m Hm Ht) as (s & Es & Hs & Em).
  assert (V : forall x, length x = n -> sixpeaks_evaluate t x =
    Z.of_nat (Nat.max (Nat.max (head x false) (head x true)) (Nat.max (tail x false) (tail x true)) +
      (if (s <=? head x false) && (s <=? tail x true) || (s <=? head x true) && (s <=? tail x false) then n else 0))).
  { intros x Hx. unfold sixpeaks_evaluate. rewrite Es, Hx.
    assert (L : forall a, (Z.of_nat s - 1 <? Z.of_nat a)%Z = (s <=? a)).
    { intros a. destruct (Z.ltb_spec (Z.of_nat s - 1) (Z.of_nat a)), (Nat.leb_spec s a); lia || reflexivity. }
    rewrite !L. destruct (_ || _); lia. }
  assert (C : forall x, length x = n -> (sixpeaks_evaluate t x <= m)%Z /\
     (sixpeaks_evaluate t x = m <-> (x = peak true n s \/ x = peak true n (n - s)) \/ (x = peak false n s \/ x = peak false n (n - s)))).
  { intros x Hx. rewrite (V x Hx).
    pose proof (head_le x true). pose proof (tail_le x false). pose proof (head_le x false). pose proof (tail_le x true).
    destruct (Nat.eq_dec s 0) as [E0|E0].
    - subst s. cbn [Nat.leb andb orb].
      assert (A1 := head_tail_sum x true). assert (A2 := head_tail_sum x false). cbn [negb] in A1, A2.
      assert (P1 : x = peak true n 0 -> head x true = n).
      { intros E. rewrite E. unfold peak. rewrite head_blocks. lia. }
      assert (P2 : x = peak true n (n - 0) -> tail x false = n).
      { intros E. rewrite E. unfold peak. change false with (negb true). rewrite tail_blocks. lia. }
      split; [lia|]. split.
      + intros E. assert (M : head x false = n \/ head x true = n \/ tail x false = n \/ tail x true = n) by lia.
        assert (Ex1 := head_tail_shape x true). cbn [negb] in Ex1. rewrite Hx in Ex1.
        assert (Ex2 := head_tail_shape x false). cbn [negb] in Ex2. rewrite Hx in Ex2.
        unfold peak; cbn [negb]. destruct M as [M|[M|[M|M]]].
        * right. left. rewrite Ex2 by lia. f_equal; f_equal; lia.
        * left. left. rewrite Ex1 by lia. f_equal; f_equal; lia.
        * left. right. rewrite Ex1 by lia. f_equal; f_equal; lia.
        * right. right. rewrite Ex2 by lia. f_equal; f_equal; lia.
      + assert (P3 : x = peak false n 0 -> head x false = n).
        { intros E. rewrite E. unfold peak. rewrite head_blocks. lia. }
        assert (P4 : x = peak false n (n - 0) -> tail x true = n).
        { intros E. rewrite E. unfold peak. change true with (negb false). rewrite tail_blocks. lia. }
        intros [[E|E]|[E|E]]; [apply P1 in E|apply P2 in E|apply P3 in E|apply P4 in E]; lia.
    - assert (Q : forall b, head x b < s \/ tail x (negb b) < s -> x <> peak b n s /\ x <> peak b n (n - s)).
      { intros b Hb. unfold peak. split; intros E; assert (F1 := f_equal (fun y => head y b) E);
          assert (F2 := f_equal (fun y => tail y (negb b)) E); cbn beta in F1, F2; rewrite head_blocks in F1; rewrite tail_blocks in F2; lia. }
      assert (S1 := Q true). assert (S2 := Q false). cbn [negb] in S1, S2.
      destruct (Nat.leb_spec s (head x false)) as [Ha|Ha]; [destruct (Nat.leb_spec s (tail x true)) as [Hb|Hb]|]; cbn [andb orb].
      + destruct (peak_side n s x false Hx Hs Ha Hb) as [A B]. cbn [negb] in A, B.
        assert (X1 := head_excl x false ltac:(lia)). assert (X2 := tail_excl x true ltac:(lia)). cbn [negb] in X1, X2.
        split; [lia|]. rewrite <- B. assert (S1' := S1 ltac:(lia)). intuition lia.
      + destruct (Nat.leb_spec s (head x true)) as [Hc|Hc]; [destruct (Nat.leb_spec s (tail x false)) as [Hd|Hd]|]; cbn [andb].
        * exfalso. assert (X1 := head_excl x false ltac:(lia)). cbn [negb] in X1. lia.
        * split; [lia|]. assert (S1' := S1 ltac:(lia)). assert (S2' := S2 ltac:(lia)). intuition lia.
        * split; [lia|]. assert (S1' := S1 ltac:(lia)). assert (S2' := S2 ltac:(lia)). intuition lia.
      + destruct (Nat.leb_spec s (head x true)) as [Hc|Hc]; [destruct (Nat.leb_spec s (tail x false)) as [Hd|Hd]|]; cbn [andb].
        * destruct (peak_side n s x true Hx Hs Hc Hd) as [A B]. cbn [negb] in A, B.
          assert (X1 := head_excl x true ltac:(lia)). assert (X2 := tail_excl x false ltac:(lia)). cbn [negb] in X1, X2.
          split; [lia|]. rewrite <- B. assert (S2' := S2 ltac:(lia)). intuition lia.
        * split; [lia|]. assert (S1' := S1 ltac:(lia)). assert (S2' := S2 ltac:(lia)). intuition lia.
        * split; [lia|]. assert (S1' := S1 ltac:(lia)). assert (S2' := S2 ltac:(lia)). intuition lia. }
  split; [split|].
  - intros x Hx. eexists. split; [reflexivity|]. now apply C.
  - exists (peak true n s). split; [apply length_peak; lia|]. f_equal. apply C; [apply length_peak; lia|auto].
  - exists s. split; [lia|]. intros x Hx. destruct (C x Hx) as [_ D]. cbn [In].
    replace (repeat true s ++ repeat false (n - s)) with (peak true n (n - s)) by (unfold peak; cbn [negb]; do 2 f_equal; lia).
    replace (repeat false s ++ repeat true (n - s)) with (peak false n (n - s)) by (unfold peak; cbn [negb]; do 2 f_equal; lia).
    split.
    + intros E. apply Ok_inj in E. apply D in E. unfold peak in *. cbn [negb] in *. intuition.
    + intros E. f_equal. apply D. unfold peak in *. cbn [negb] in *. intuition.
Qed.

(** Thresholds below -1 are accepted, and then the announced maximum is never
    attained: the maximum is 2n. *)
Theorem peaks_low_threshold n t : (t < -1)%Z ->
  peaks_make n t = Ok (2 * Z.of_nat n - t - 1)%Z /\ (2 * Z.of_nat n < 2 * Z.of_nat n - t - 1)%Z /\
  is_maximum n (fun x => Ok (fourpeaks_evaluate t x)) (2 * Z.of_nat n) /\
  is_maximum n (fun x => Ok (sixpeaks_evaluate t x)) (2 * Z.of_nat n).
Proof.
  intros Ht. split; [|split; [lia|]].
  { unfold peaks_make. destruct (Z.ltb_spec (Z.quot (Z.of_nat n) 2 - 1) t); [|reflexivity].
    assert (0 <= Z.quot (Z.of_nat n) 2)%Z by (apply Z.quot_pos; lia). lia. }
  split; split.
  - intros x Hx. eexists. split; [reflexivity|]. unfold fourpeaks_evaluate. rewrite Hx.
    pose proof (head_le x true). pose proof (tail_le x false). destruct (_ && _); lia.
  - exists (repeat true n). split; [apply repeat_length|]. unfold fourpeaks_evaluate. rewrite repeat_length.
    assert (E : head (repeat true n) true = n).
    { rewrite <- (app_nil_r (repeat true n)). apply head_run. auto. }
    rewrite E. pose proof (tail_le (repeat true n) false) as T. rewrite repeat_length in T.
    destruct (Z.ltb_spec t (Z.of_nat n)), (Z.ltb_spec t (Z.of_nat (tail (repeat true n) false))); cbn [andb]; f_equal; lia.
  - intros x Hx. eexists. split; [reflexivity|]. unfold sixpeaks_evaluate. rewrite Hx.
    pose proof (head_le x true). pose proof (tail_le x false).
    pose proof (head_le x false). pose proof (tail_le x true). destruct (_ || _); lia.
  - exists (repeat true n). split; [apply repeat_length|]. unfold sixpeaks_evaluate. rewrite repeat_length.
    assert (E : head (repeat true n) true = n).
    { rewrite <- (app_nil_r (repeat true n)). apply head_run. auto. }
    rewrite E. pose proof (tail_le (repeat true n) false) as T. rewrite repeat_length in T.
    pose proof (tail_le (repeat true n) true) as T'. rewrite repeat_length in T'.
    pose proof (head_le (repeat true n) false) as T''. rewrite repeat_length in T''.
    destruct (Z.ltb_spec t (Z.of_nat n)), (Z.ltb_spec t (Z.of_nat (tail (repeat true n) false))); try lia.
    cbn [andb]. rewrite orb_true_r. f_equal; lia.
Qed.

Theorem fourpeaks_value t x a b :
  (exists u, x = repeat true a ++ false :: u) -> (exists u, x = u ++ true :: repeat false b) ->
  fourpeaks_evaluate t x =
    (Z.of_nat (Nat.max a b) +
     (if (t <? Z.of_nat a)%Z && (t <? Z.of_nat b)%Z then Z.of_nat (length x) else 0))%Z.
Proof.
  intros [u Hu] [v Hv].
  assert (A : head x true = a) by (rewrite Hu; apply head_run; right; exists u; reflexivity).
  assert (B : tail x false = b).
  { rewrite Hv. change (true :: repeat false b) with ([true] ++ repeat false b). rewrite app_assoc. apply tail_run.
    right. exists v. reflexivity. }
  unfold fourpeaks_evaluate. rewrite A, B, <- Nat2Z.inj_max. destruct (_ && _); lia.
Qed.
