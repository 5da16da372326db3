(** Proofs about low autocorrelation binary sequences. *)

From Coq Require Import ZArith QArith.
From Verif Require Import Base BaseLemmas BitVector_Model Function_Spec Sums Collection_Model Collection_Spec.
Local Open Scope nat_scope.

Lemma nth_sign x i : i < List.length x -> vget (map (fun b : bool => if b then 1%Z else (-1)%Z) x) i = Ok (sign (nth i x false)).
Proof.
  intros H. rewrite (vget_Ok _ _ (sign false)) by (rewrite map_length; lia). now rewrite (map_nth sign).
Qed.

Lemma autocorrelation_Ok n x : List.length x = n -> labs_autocorrelation n x = Ok (energy x).
Proof.
  intros <-. unfold labs_autocorrelation. rewrite Nat.eqb_refl. cbn [assertb bind].
  rewrite (foldM_add _ (fun k => correlation x k * correlation x k)%Z).
  - unfold energy, sum_n. fold (sum_over (seq 1 (len x - 1)) (fun k => correlation x k * correlation x k)%Z).
    rewrite sum_seq_shift. f_equal. unfold sum_over. rewrite Z.add_0_l. f_equal. apply map_ext.
    intros a. now rewrite Nat.add_comm.
  - intros k E Hk. apply in_seq in Hk.
    rewrite (foldM_add _ (fun i => sign (nth i x false) * sign (nth (i + k) x false))%Z).
    + reflexivity.
    + intros i C Hi. apply in_seq in Hi. rewrite !nth_sign by lia. reflexivity.
Qed.

Lemma sum_n_ext n f g : (forall i, i < n -> f i = g i) -> sum_n n f = sum_n n g.
Proof. intros H. apply sum_ext. intros i Hi. apply in_seq in Hi. apply H. lia. Qed.

Lemma energy_ext x y : List.length x = List.length y ->
  (forall k, 0 < k < List.length x -> (correlation x k * correlation x k = correlation y k * correlation y k)%Z) ->
  energy x = energy y.
Proof. intros L H. unfold energy. rewrite <- L. apply sum_n_ext. intros i Hi. apply H. lia. Qed.

Lemma sign_negb b : sign (negb b) = (- sign b)%Z.
Proof. now destruct b. Qed.

Lemma energy_complement x : energy (complement x) = energy x.
Proof.
  apply energy_ext; [apply map_length|]. intros k Hk. unfold complement in *. rewrite map_length in Hk.
  replace (correlation (map negb x) k) with (correlation x k); [reflexivity|].
  unfold correlation. rewrite map_length. apply sum_n_ext. intros i Hi.
  rewrite !(nth_indep (map negb x) false (negb false)) by (rewrite map_length; lia).
  rewrite !map_nth, !sign_negb. lia.
Qed.

Lemma sum_n_S n f : sum_n (S n) f = (sum_n n f + f n)%Z.
Proof.
  unfold sum_n. change (zsum (map ?f (seq 0 ?n))) with (sum_over (seq 0 n) f). rewrite seq_S, sum_app. cbn [Nat.add].
  rewrite sum_cons, sum_nil. lia.
Qed.

Lemma sum_n_S_first n f : sum_n (S n) f = (f 0%nat + sum_n n (fun i => f (S i)))%Z.
Proof. unfold sum_n. cbn [seq map]. now rewrite <- seq_shift, map_map. Qed.

Lemma sum_n_rev n f : sum_n n f = sum_n n (fun i => f (n - 1 - i)).
Proof.
  induction n as [|n IH]; [reflexivity|]. rewrite sum_n_S, sum_n_S_first, IH.
  replace (S n - 1 - 0) with n by lia. rewrite Z.add_comm. f_equal. apply sum_n_ext. intros i Hi. f_equal. lia.
Qed.

Lemma energy_rev x : energy (rev x) = energy x.
Proof.
  apply energy_ext; [apply rev_length|]. intros k Hk. rewrite rev_length in Hk.
  replace (correlation (rev x) k) with (correlation x k); [reflexivity|].
  unfold correlation. rewrite rev_length, sum_n_rev. apply sum_n_ext. intros i Hi.
  rewrite !rev_nth by lia. rewrite Z.mul_comm. f_equal; f_equal; f_equal; lia.
Qed.

Definition parity (i : nat) : Z := if Nat.odd i then (-1)%Z else 1%Z.

Lemma nth_alternate x i : i < List.length x -> sign (nth i (alternate x) false) = (parity i * sign (nth i x false))%Z.
Proof.
  intros H. unfold alternate. rewrite (nth_map2 _ _ _ _ false false false) by (rewrite ?map_length, ?seq_length; lia).
  rewrite (nth_indep _ false (Nat.odd 0)) by (rewrite map_length, seq_length; lia). rewrite map_nth, seq_nth by lia.
  cbn [Nat.add]. unfold parity. destruct (Nat.odd i), (nth i x false); reflexivity.
Qed.

Lemma parity_add i k : (parity i * parity (i + k) = parity k)%Z.
Proof. unfold parity. rewrite Nat.odd_add. destruct (Nat.odd i), (Nat.odd k); reflexivity. Qed.

Lemma length_alternate x : List.length (alternate x) = List.length x.
Proof. unfold alternate. apply length_map2_eq; [now rewrite map_length, seq_length|reflexivity]. Qed.

Lemma energy_alternate x : energy (alternate x) = energy x.
Proof.
  apply energy_ext; [apply length_alternate|]. intros k Hk. rewrite length_alternate in Hk.
  replace (correlation (alternate x) k) with (parity k * correlation x k)%Z.
  - unfold parity. destruct (Nat.odd k); lia.
  - unfold correlation, sum_n. rewrite length_alternate.
    change (parity k * sum_over (seq 0 (len x - k)) (fun i => sign (nth i x false) * sign (nth (i + k) x false)) =
      sum_over (seq 0 (len x - k)) (fun i => sign (nth i (alternate x) false) * sign (nth (i + k) (alternate x) false)))%Z.
    rewrite <- sum_scale. apply sum_ext. intros i Hi. apply in_seq in Hi. rewrite !nth_alternate by lia.
    rewrite <- (parity_add i k). lia.
Qed.

(** * Bounds *)

Lemma sign_cases b : sign b = 1%Z \/ sign b = (-1)%Z.
Proof. destruct b; auto. Qed.

Lemma sign_sum_odd n f : (forall i, i < n -> f i = 1%Z \/ f i = (-1)%Z) -> Z.odd (sum_n n f) = Nat.odd n.
Proof.
  induction n as [|n IH]; intros H; [reflexivity|]. rewrite sum_n_S, Z.odd_add, IH by (intros; apply H; lia).
  rewrite Nat.odd_succ, <- Nat.negb_odd. destruct (H n) as [-> | ->]; [lia| |]; now destruct (Nat.odd n).
Qed.

Lemma sign_sum_bound n f : (forall i, i < n -> f i = 1%Z \/ f i = (-1)%Z) -> (Z.abs (sum_n n f) <= Z.of_nat n)%Z.
Proof.
  induction n as [|n IH]; intros H; [cbn; lia|]. rewrite sum_n_S.
  assert (B : (Z.abs (sum_n n f) <= Z.of_nat n)%Z) by (apply IH; intros; apply H; lia).
  destruct (H n) as [-> | ->]; lia.
Qed.

Lemma products x k i : (sign (nth i x false) * sign (nth (i + k) x false) = 1 \/
  sign (nth i x false) * sign (nth (i + k) x false) = -1)%Z.
Proof. destruct (sign_cases (nth i x false)) as [-> | ->], (sign_cases (nth (i + k) x false)) as [-> | ->]; auto. Qed.

Lemma correlation_odd x k : Z.odd (correlation x k) = Nat.odd (List.length x - k).
Proof. apply sign_sum_odd. intros. apply products. Qed.

Lemma correlation_bound x k : (Z.abs (correlation x k) <= Z.of_nat (List.length x - k))%Z.
Proof. apply sign_sum_bound. intros. apply products. Qed.

Lemma sum_n_le n f g : (forall i, i < n -> (f i <= g i)%Z) -> (sum_n n f <= sum_n n g)%Z.
Proof.
  induction n as [|n IH]; intros H; [reflexivity|]. rewrite !sum_n_S.
  specialize (IH (fun i Hi => H i ltac:(lia))). specialize (H n ltac:(lia)). lia.
Qed.

Lemma sum_n_odd_count n : sum_n (n - 1) (fun k => if Nat.odd (n - (k + 1)) then 1 else 0)%Z = Z.of_nat (n / 2).
Proof.
  rewrite sum_n_rev. destruct n as [|n]; [reflexivity|]. replace (S n - 1) with n by lia.
  rewrite (sum_n_ext n _ (fun k => if Nat.odd (k + 1) then 1 else 0)%Z).
  - induction n as [|n IH]; [reflexivity|]. rewrite sum_n_S, IH, Nat.add_1_r.
    destruct (Nat.Even_or_Odd n) as [[m E]|[m E]]; subst n.
    + replace (Nat.odd (S (2 * m))) with true by (symmetry; apply Nat.odd_spec; exists m; lia).
      replace (S (2 * m) / 2) with m by (apply (Nat.div_unique _ _ _ 1); lia).
      replace (S (S (2 * m)) / 2) with (m + 1) by (apply (Nat.div_unique _ _ _ 0); lia). lia.
    + replace (Nat.odd (S (2 * m + 1))) with false.
      2: { symmetry. rewrite <- Nat.negb_even. replace (Nat.even (S (2 * m + 1))) with true; [reflexivity|].
        symmetry. apply Nat.even_spec. exists (m + 1). lia. }
      replace (S (2 * m + 1) / 2) with (m + 1) by (apply (Nat.div_unique _ _ _ 0); lia).
      replace (S (S (2 * m + 1)) / 2) with (m + 1) by (apply (Nat.div_unique _ _ _ 1); lia). lia.
  - intros i Hi. now replace (S n - (n - 1 - i + 1)) with (i + 1) by lia.
Qed.

Lemma energy_lower x : (Z.of_nat (List.length x / 2) <= energy x)%Z.
Proof.
  rewrite <- sum_n_odd_count. apply sum_n_le. intros k Hk.
  destruct (Nat.odd (len x - (k + 1))) eqn:E; [|apply Z.square_nonneg].
  rewrite <- correlation_odd in E. destruct (Z.eq_dec (correlation x (k + 1)) 0) as [H0|H0].
  - now rewrite H0 in E.
  - generalize (Z.square_nonneg (correlation x (k + 1))). intros.
    destruct (Z.eq_dec (correlation x (k + 1) * correlation x (k + 1)) 0) as [H1|H1]; [|lia].
    apply Z.mul_eq_0 in H1. tauto.
Qed.

Lemma energy_upper x : (energy x <= sum_n (List.length x - 1) (fun k => Z.of_nat (k + 1) * Z.of_nat (k + 1)))%Z.
Proof.
  rewrite (sum_n_rev _ (fun k => Z.of_nat (k + 1) * Z.of_nat (k + 1))%Z). apply sum_n_le. intros k Hk.
  assert (B := correlation_bound x (k + 1)). replace (len x - 1 - 1 - k + 1) with (len x - (k + 1)) by lia.
  rewrite <- (Z.abs_square (correlation x (k + 1))). apply Z.mul_le_mono_nonneg; lia.
Qed.

Lemma energy_constant n b : energy (repeat b n) = sum_n (n - 1) (fun k => Z.of_nat (k + 1) * Z.of_nat (k + 1))%Z.
Proof.
  rewrite (sum_n_rev _ (fun k => Z.of_nat (k + 1) * Z.of_nat (k + 1))%Z). unfold energy. rewrite repeat_length.
  apply sum_n_ext. intros k Hk.
  replace (correlation (repeat b n) (k + 1)) with (Z.of_nat (n - (k + 1))); [|].
  - f_equal; f_equal; lia.
  - unfold correlation. rewrite repeat_length. rewrite (sum_n_ext _ _ (fun _ => 1%Z)).
    + clear. induction (n - (k + 1)) as [|m IH]; [reflexivity|]. rewrite sum_n_S, <- IH. lia.
    + intros i Hi. rewrite !nth_repeat_lt by lia. now destruct b.
Qed.

(** * Evaluation *)

Lemma labs_plain n x : List.length x = n -> labs_evaluate false n x = Ok (LValue (inject_Z (- energy x))).
Proof.
  intros L. unfold labs_evaluate. rewrite L, Nat.eqb_refl. cbn [assertb bind]. rewrite autocorrelation_Ok by assumption.
  reflexivity.
Qed.

Lemma energy_pos x : 2 <= List.length x -> (0 < energy x)%Z.
Proof.
  intros H. assert (B := energy_lower x). assert (1 <= len x / 2) by (apply Nat.div_le_lower_bound; lia). lia.
Qed.

Lemma labs_merit n x : 2 <= n -> List.length x = n -> (0 < energy x)%Z /\
  labs_evaluate true n x = Ok (LValue (inject_Z (Z.of_nat n * Z.of_nat n) / inject_Z (2 * energy x))).
Proof.
  intros N L. assert (P : (0 < energy x)%Z) by (apply energy_pos; lia). split; [assumption|].
  unfold labs_evaluate. rewrite L, Nat.eqb_refl. cbn [assertb bind]. rewrite autocorrelation_Ok by assumption.
  cbn [bind]. destruct (2 * energy x)%Z eqn:E; [lia|reflexivity|lia].
Qed.

Lemma labs_small b : labs_evaluate true 1 [b] = Ok LInfinite /\ labs_evaluate true 0 [] = Ok LNaN.
Proof. split; reflexivity. Qed.

Lemma labs_wrong_size merit n x : List.length x <> n -> labs_evaluate merit n x = UB.
Proof. intros H. unfold labs_evaluate. apply Nat.eqb_neq in H. now rewrite H. Qed.

Lemma merit_order n x y : 2 <= n -> List.length x = n -> List.length y = n ->
  (inject_Z (Z.of_nat n * Z.of_nat n) / inject_Z (2 * energy x) < inject_Z (Z.of_nat n * Z.of_nat n) / inject_Z (2 * energy y))%Q
  <-> (energy y < energy x)%Z.
Proof.
  intros N Lx Ly. assert (Px := energy_pos x ltac:(lia)). assert (Py := energy_pos y ltac:(lia)).
  destruct (2 * energy x)%Z as [|p|p] eqn:Ex; [lia| |lia]. destruct (2 * energy y)%Z as [|q|q] eqn:Ey; [lia| |lia].
  unfold Qlt, Qdiv, Qmult, Qinv, inject_Z. cbn [Qnum Qden]. rewrite !Pos.mul_1_l.
  assert (Np : (0 < Z.of_nat n * Z.of_nat n)%Z) by (apply Z.mul_pos_pos; lia).
  rewrite !Z.mul_1_r. rewrite <- Z.mul_lt_mono_pos_l by assumption. lia.
Qed.
