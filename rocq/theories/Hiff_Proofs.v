(** Proofs about HIFF. *)

From Coq Require Import ZArith.
From Verif Require Import Base BaseLemmas BitVector_Model BitVector_Spec GF2 BitVector_Proofs Theory_Model Function_Spec Theory_Proofs.
Local Open Scope nat_scope.

Lemma uniformb_uniform x : uniformb x = true <-> uniform x.
Proof.
  unfold uniformb, uniform. rewrite orb_true_iff, forallb_id_ones, forallb_negb_zero. tauto.
Qed.

Lemma block_uniform_Ok x off s : 0 < s -> off + s <= length x ->
  block_uniform x off s = Ok (uniformb (firstn s (skipn off x))).
Proof.
  intros Hs H. unfold block_uniform. rewrite (vget_Ok x off false) by lia. cbn [bind].
  destruct (Nat.leb_spec (off + s) (length x)); [|lia]. cbn [assertb bind]. f_equal.
  assert (L : length (firstn s (skipn off x)) = s) by (rewrite firstn_length_le; [reflexivity|rewrite skipn_length; lia]).
  assert (E : nth off x false = nth 0 (firstn s (skipn off x)) false).
  { rewrite <- (firstn_skipn off x) at 1. rewrite app_nth2; rewrite firstn_length_le by lia; [|lia].
    rewrite Nat.sub_diag. rewrite <- (firstn_skipn s (skipn off x)) at 1. rewrite app_nth1; [reflexivity|lia]. }
  rewrite E. clear E. destruct (firstn s (skipn off x)) as [|b t]; [cbn in L; lia|].
  unfold uniformb. cbn [nth forallb]. rewrite Bool.eqb_reflx. destruct b; cbn [negb andb orb].
  - rewrite orb_false_r. clear. induction t as [|[|] t IH]; cbn; auto.
  - clear. induction t as [|[|] t IH]; cbn; auto.
Qed.

(** Contribution of [k] consecutive blocks of size [s]. *)
Fixpoint lsum (s k : nat) (x : list bool) : nat :=
  match k with
  | 0 => 0
  | S k' => (if uniformb (firstn s x) then s else 0) + lsum s k' (skipn s x)
  end.

Lemma hiff_level_Ok x s k off r last : 0 < s -> off + k * s <= length x ->
  hiff_level x k off s r last =
    Ok (r + lsum s k (skipn off x), last && (lsum s k (skipn off x) =? 0)).
Proof.
  intros Hs. revert off r last; induction k as [|k IH]; intros off r last H; cbn [hiff_level lsum].
  - cbn. now rewrite Nat.add_0_r, andb_true_r.
  - cbn in H. rewrite block_uniform_Ok by lia. cbn [bind]. rewrite skipn_skipn_add.
    destruct (uniformb _); rewrite IH by lia; f_equal; f_equal; try lia.
    destruct (Nat.eqb_spec (s + lsum s k (skipn (off + s) x)) 0); [lia|]. now rewrite andb_false_r.
Qed.

(** The sum of levels without early exit. *)
Fixpoint levels_sum (x : list bool) (levels nb s : nat) : nat :=
  match levels with
  | 0 => 0
  | S l => lsum s nb x + levels_sum x l (nb / 2) (s * 2)
  end.

Lemma uniformb_app x y : uniformb (x ++ y) = true -> uniformb x = true.
Proof.
  unfold uniformb. rewrite !forallb_app, !orb_true_iff, !andb_true_iff. tauto.
Qed.

Lemma lsum_zero_double s k x : length x = 2 * k * s -> lsum s (2 * k) x = 0 -> lsum (s * 2) k x = 0.
Proof.
  revert x; induction k as [|k IH]; intros x Hx H; [reflexivity|].
  replace (2 * S k) with (S (S (2 * k))) in H by lia. cbn [lsum] in H |- *.
  assert (H1 : (if uniformb (firstn s x) then s else 0) = 0) by lia.
  assert (H2 : lsum s (2 * k) (skipn s (skipn s x)) = 0) by lia.
  rewrite skipn_skipn_add in H2. replace (s + s) with (s * 2) in H2 by lia.
  rewrite (IH (skipn (s * 2) x)); [|rewrite skipn_length; lia|assumption].
  destruct (uniformb (firstn (s * 2) x)) eqn:E; [|reflexivity].
  assert (uniformb (firstn s x) = true) as E1.
  { apply (uniformb_app (firstn s x) (firstn s (skipn s x))). rewrite <- E. f_equal.
    replace (s * 2) with (s + s) by lia. symmetry. apply firstn_add. }
  rewrite E1 in H1. lia.
Qed.

Lemma levels_sum_zero x l nb s e : nb = 2 ^ e -> l <= e + 1 -> length x = nb * s -> lsum s nb x = 0 ->
  levels_sum x l nb s = 0.
Proof.
  revert nb s e; induction l as [|l IH]; intros nb s e He Hl Hx H; [reflexivity|].
  cbn [levels_sum]. rewrite H. destruct l as [|l]; [reflexivity|].
  destruct e as [|e]; [lia|].
  assert (En : nb = 2 * 2 ^ e) by (rewrite He; reflexivity).
  assert (Eh : nb / 2 = 2 ^ e) by (rewrite En, Nat.mul_comm; apply Nat.div_mul; lia).
  rewrite Eh. apply (IH _ _ e); [reflexivity|lia|rewrite Hx, En; ring|].
  apply lsum_zero_double; [rewrite Hx, En; ring|]. rewrite <- En. assumption.
Qed.

Lemma hiff_loop_Ok x l nb s r e : 0 < s -> nb = 2 ^ e -> l <= e + 1 -> length x = nb * s ->
  hiff_loop x l nb s r = Ok (r + levels_sum x l nb s).
Proof.
  revert nb s r e; induction l as [|l IH]; intros nb s r e Hs He Hl Hx; cbn [hiff_loop levels_sum].
  - now rewrite Nat.add_0_r.
  - rewrite hiff_level_Ok by lia. cbn [bind andb skipn].
    destruct (Nat.eqb_spec (lsum s nb x) 0) as [Z0|Z0].
    + assert (A := levels_sum_zero x (S l) nb s e He Hl Hx Z0). cbn [levels_sum] in A. f_equal. lia.
    + destruct l as [|l]; [cbn [hiff_loop levels_sum]; f_equal; lia|]. destruct e as [|e]; [lia|].
      assert (En : nb = 2 * 2 ^ e) by (rewrite He; reflexivity).
      assert (Eh : nb / 2 = 2 ^ e) by (rewrite En, Nat.mul_comm; apply Nat.div_mul; lia).
      rewrite Eh. rewrite (IH _ _ _ e); [f_equal; lia|lia|reflexivity|lia|rewrite Hx, En; ring].
Qed.

Lemma lsum_app s k1 k2 x y : length x = k1 * s -> lsum s (k1 + k2) (x ++ y) = lsum s k1 x + lsum s k2 y.
Proof.
  revert x; induction k1 as [|k1 IH]; intros x Hx; cbn [plus lsum].
  - destruct x; [reflexivity|discriminate].
  - cbn in Hx. rewrite firstn_app, skipn_app. replace (s - length x) with 0 by lia.
    cbn [firstn skipn]. rewrite app_nil_r, IH by (rewrite skipn_length; lia). lia.
Qed.

(** Levels sum of a vector of size 2^d = s * 2^e, split in two halves. *)
Lemma levels_sum_split l s e x y : l <= S e -> length x = 2 ^ e * s -> length y = 2 ^ e * s ->
  levels_sum (x ++ y) l (2 ^ S e) s = levels_sum x l (2 ^ e) s + levels_sum y l (2 ^ e) s.
Proof.
  revert s e x y; induction l as [|l IH]; intros s e x y Hl Hx Hy; cbn [levels_sum]; [reflexivity|].
  replace (2 ^ S e) with (2 ^ e + 2 ^ e) by (cbn; lia).
  rewrite lsum_app by assumption.
  replace ((2 ^ e + 2 ^ e) / 2) with (2 ^ e) by (replace (2 ^ e + 2 ^ e) with (2 ^ e * 2) by lia; now rewrite Nat.div_mul).
  destruct l as [|l]; [cbn; lia|]. destruct e as [|e]; [lia|].
  rewrite IH.
  - replace (2 ^ S e / 2) with (2 ^ e) by (replace (2 ^ S e) with (2 ^ e * 2) by (cbn; lia); now rewrite Nat.div_mul). lia.
  - lia.
  - rewrite Hx. cbn. ring.
  - rewrite Hy. cbn. ring.
Qed.

Lemma levels_sum_last x l s e : l = S e ->
  levels_sum x (S l) (2 ^ S e) s = levels_sum x l (2 ^ S e) s + lsum (s * 2 ^ S e) 1 x.
Proof.
  revert s e; induction l as [|l IH]; intros s e E; [discriminate|]. injection E as E. subst l.
  cbn [levels_sum]. 
  replace (2 ^ S e / 2) with (2 ^ e) by (replace (2 ^ S e) with (2 ^ e * 2) by (cbn; lia); now rewrite Nat.div_mul).
  destruct e as [|e].
  - cbn [levels_sum Nat.pow]. cbn [Nat.mul Nat.add]. rewrite !Nat.add_0_r. reflexivity.
  - specialize (IH (s * 2) e eq_refl). cbn [levels_sum] in IH. cbn [levels_sum]. rewrite IH.
    replace (s * 2 * 2 ^ S e) with (s * 2 ^ S (S e)) by (cbn; ring). lia.
Qed.

Lemma levels_sum_hiff d x : length x = 2 ^ d -> levels_sum x (S d) (2 ^ d) 1 = hiff_value d x.
Proof.
  revert x; induction d as [|d IH]; intros x Hx.
  - destruct x as [|b [|c t]]; try discriminate. destruct b; reflexivity.
  - rewrite levels_sum_last by reflexivity.
    assert (L1 : length (firstn (2 ^ d) x) = 2 ^ d) by (rewrite firstn_length_le; [reflexivity|cbn in Hx; lia]).
    assert (L2 : length (skipn (2 ^ d) x) = 2 ^ d) by (rewrite skipn_length; cbn in Hx; lia).
    rewrite <- (firstn_skipn (2 ^ d) x) at 1.
    rewrite levels_sum_split by lia. rewrite !IH by assumption. cbn [hiff_value lsum]. f_equal.
    rewrite Nat.mul_1_l, Nat.add_0_r, firstn_all2 by lia. reflexivity.
Qed.

Theorem hiff_evaluate_value d x : length x = 2 ^ d ->
  hiff_evaluate (2 ^ d) d x = Ok (Z.of_nat (hiff_value d x)).
Proof.
  intros H. unfold hiff_evaluate. rewrite (hiff_loop_Ok x (d + 1) (2 ^ d) 1 0 d); [|lia|reflexivity|lia|lia].
  cbn [bind]. rewrite Nat.add_1_r, levels_sum_hiff by assumption. reflexivity.
Qed.

(** Maximum of the recursive definition. *)
Lemma uniform_app_halves a x y : length x = a -> length y = a -> uniform (x ++ y) -> uniform x /\ uniform y.
Proof.
  intros Hx Hy. unfold uniform. rewrite app_length, Hx, Hy, !repeat_app. intros [H|H].
  - apply app_inj_len in H as [H1 H2]; [auto|now rewrite repeat_length].
  - apply app_inj_len in H as [H1 H2]; [auto|now rewrite repeat_length].
Qed.

Lemma hiff_value_max d x : length x = 2 ^ d ->
  hiff_value d x <= (d + 1) * 2 ^ d /\ (hiff_value d x = (d + 1) * 2 ^ d <-> uniform x).
Proof.
  revert x; induction d as [|d IH]; intros x Hx.
  - destruct x as [|b [|c t]]; try discriminate. cbn. split; [lia|]. split; [|auto].
    intros _. destruct b; [left|right]; reflexivity.
  - assert (L1 : length (firstn (2 ^ d) x) = 2 ^ d) by (rewrite firstn_length_le; [reflexivity|cbn in Hx; lia]).
    assert (L2 : length (skipn (2 ^ d) x) = 2 ^ d) by (rewrite skipn_length; cbn in Hx; lia).
    destruct (IH _ L1) as [A A']. destruct (IH _ L2) as [B B'].
    cbn [hiff_value]. assert (P : 0 < 2 ^ d) by (apply Nat.neq_0_lt_0, Nat.pow_nonzero; lia).
    assert (E : (S d + 1) * 2 ^ S d = (d + 1) * 2 ^ d + (d + 1) * 2 ^ d + 2 ^ S d) by (cbn; ring).
    assert (Q : 2 ^ S d = 2 * 2 ^ d) by reflexivity.
    destruct (uniformb x) eqn:U.
    + apply uniformb_uniform in U. split; [lia|]. split; [auto|intros _].
      rewrite <- (firstn_skipn (2 ^ d) x) in U. destruct (uniform_app_halves (2 ^ d) _ _ L1 L2 U) as [U1 U2].
      apply A' in U1. apply B' in U2. lia.
    + split; [lia|]. split; [lia|]. intros H. apply uniformb_uniform in H. congruence.
Qed.

(** * The constructor *)

Lemma hiff_make_pow d : d < 32 -> hiff_make (2 ^ d) = Ok d.
Proof.
  intros Hd. unfold hiff_make. assert (P : 0 < 2 ^ d) by (apply Nat.neq_0_lt_0, Nat.pow_nonzero; lia).
  apply Nat.ltb_lt in P. rewrite P. cbn [assertb bind].
  assert (F : filter (Nat.testbit (2 ^ d)) (seq 0 32) = filter (Nat.eqb d) (seq 0 32)).
  { apply filter_ext. intros i. apply Nat.pow2_bits_eqb. }
  rewrite F. clear - Hd. 
  do 32 (destruct d as [|d]; [reflexivity|]). lia.
Qed.

Lemma bits_inj_width w n m : n < 2 ^ w -> m < 2 ^ w ->
  (forall i, i < w -> Nat.testbit n i = Nat.testbit m i) -> n = m.
Proof.
  intros Hn Hm H. apply Nat.bits_inj. intros i.
  destruct (Nat.lt_ge_cases i w) as [Hlt|Hge]; [auto|].
  assert (B : forall a, a < 2 ^ w -> Nat.testbit a i = false).
  { intros a Ha. destruct (Nat.eq_dec a 0) as [->|]; [apply Nat.bits_0|].
    apply Nat.bits_above_log2. apply Nat.log2_lt_pow2; [lia|].
    apply Nat.lt_le_trans with (2 ^ w); [lia|]. apply Nat.pow_le_mono_r; lia. }
  rewrite !B; auto.
Qed.

Theorem hiff_make_spec n d : 0 < n -> (Z.of_nat n < 2 ^ 32)%Z -> (hiff_make n = Ok d <-> n = 2 ^ d).
Proof.
  intros Hn Hb.
  assert (Hw : exists w, w = 32 /\ n < 2 ^ w).
  { exists 32. split; [reflexivity|]. apply Nat2Z.inj_lt. rewrite Nat2Z.inj_pow. exact Hb. }
  destruct Hw as (w & Ew & Hw). split.
  - unfold hiff_make. destruct (Nat.ltb_spec 0 n); [|lia]. cbn [assertb bind]. rewrite <- Ew.
    destruct (filter (Nat.testbit n) (seq 0 w)) as [|d' [|? ?]] eqn:F; try discriminate.
    intros E. apply Ok_inj in E. subst d'.
    assert (I : forall i, In i (filter (Nat.testbit n) (seq 0 w)) <-> i = d).
    { intros i. rewrite F. cbn. intuition. }
    assert (D : d < w). { specialize (proj2 (I d) eq_refl). rewrite filter_In, in_seq. lia. }
    apply (bits_inj_width w); [assumption|apply Nat.pow_lt_mono_r; lia|].
    intros i Hi. rewrite Nat.pow2_bits_eqb. specialize (I i). rewrite filter_In, in_seq in I.
    destruct (Nat.eqb_spec d i) as [->|Hd].
    + tauto.
    + destruct (Nat.testbit n i); [|reflexivity]. exfalso. apply Hd. symmetry. apply I. split; [lia|reflexivity].
  - intros ->. apply hiff_make_pow. rewrite <- Ew. apply (Nat.pow_lt_mono_r_iff 2); lia.
Qed.

Theorem hiff_make_throws n : 0 < n -> (Z.of_nat n < 2 ^ 32)%Z -> (forall d, n <> 2 ^ d) ->
  hiff_make n = Throw RuntimeError.
Proof.
  intros Hn Hb H. destruct (hiff_make n) as [d|e|] eqn:E.
  - exfalso. apply (H d). now apply hiff_make_spec.
  - revert E. unfold hiff_make. destruct (0 <? n); [|discriminate]. cbn [assertb bind].
    destruct (filter _ _) as [|? [|? ?]]; congruence.
  - revert E. unfold hiff_make. destruct (Nat.ltb_spec 0 n); [|lia]. cbn [assertb bind].
    destruct (filter _ _) as [|? [|? ?]]; congruence.
Qed.

Theorem hiff_max n d : 0 < n -> (Z.of_nat n < 2 ^ 32)%Z -> hiff_make n = Ok d ->
  is_maximum n (hiff_evaluate n d) (hiff_maximum n d) /\ 
  maximizers n (hiff_evaluate n d) (hiff_maximum n d) [repeat false n; onesv n] /\
  (forall x, length x = n -> hiff_evaluate n d x = Ok (Z.of_nat (hiff_value d x))).
Proof.
  intros Hn Hb Hm. apply hiff_make_spec in Hm; [|assumption|assumption]. clear Hb Hn. subst n.
  unfold hiff_maximum, is_maximum, maximizers. split; [split|split].
  - intros x Hx. rewrite hiff_evaluate_value by assumption. eexists. split; [reflexivity|].
    apply Nat2Z.inj_le. now apply hiff_value_max.
  - exists (onesv (2 ^ d)). split; [apply repeat_length|].
    rewrite hiff_evaluate_value by apply repeat_length. do 2 f_equal. apply hiff_value_max; [apply repeat_length|].
    left. unfold onesv. now rewrite repeat_length.
  - intros x Hx. rewrite hiff_evaluate_value by assumption. destruct (hiff_value_max d x Hx) as [_ M].
    unfold uniform in M. rewrite Hx in M. cbn [In]. unfold onesv. split.
    + intros E. apply Ok_inj in E. apply Nat2Z.inj in E. apply M in E. intuition.
    + intros [E|[E|[]]]; do 2 f_equal; apply M; auto.
  - apply hiff_evaluate_value.
Qed.
