(** Proofs about Walsh moments. *)

From Coq Require Import QArith Qabs Qfield Lqa Permutation.
From Verif Require Import Base BaseLemmas BitVector_Model BitVector_Spec BitVector_Proofs Representation_Spec Map_Spec Algorithm_Model
  Population_Model Population_Proofs ProbabilityVector_Model ProbabilityVector_Spec ProbabilityVector_Proofs EvolutionaryAlgorithm_Model
  Mimic_Proofs ItEa_Spec ItEa_Proofs WalshMoment_Model WalshMoment_Spec.
Local Open Scope nat_scope.

(** * Entries *)

Definition width (k : kind) (n i : nat) : nat := match k with Triangular => i | Full => n end.

Lemma get1_Ok k n m i : shaped k n m -> i < n -> get1 m i = Ok (mom1 m i).
Proof. intros (S1 & S2 & S3) H. unfold get1, mom1. apply vget_Ok. lia. Qed.

Lemma get2_Ok k n m i j : shaped k n m -> i < n -> j < width k n i -> get2 m i j = Ok (mom2 m i j).
Proof.
  intros (S1 & S2 & S3) H J. unfold get2, mom2. rewrite (vget_Ok _ _ []) by lia. cbn [bind]. apply vget_Ok. rewrite S3 by assumption. exact J.
Qed.

Lemma set1_Ok k n m i v : shaped k n m -> i < n -> exists m', set1 m i v = Ok m' /\ shaped k n m' /\
  (forall a, mom1 m' a = if a =? i then v else mom1 m a) /\ (forall a b, mom2 m' a b = mom2 m a b).
Proof.
  intros (S1 & S2 & S3) H. unfold set1. rewrite vset_Ok by lia. cbn [bind]. eexists. split; [reflexivity|]. split; [|split].
  - unfold shaped; cbn [first_moment second_moment]. rewrite length_upd. auto.
  - intros a. unfold mom1; cbn [first_moment]. destruct (Nat.eqb_spec a i) as [->|NE]; [apply nth_upd_eq; lia|now apply nth_upd_neq].
  - reflexivity.
Qed.

Lemma set2_Ok k n m i j v : shaped k n m -> i < n -> j < width k n i -> exists m', set2 m i j v = Ok m' /\ shaped k n m' /\
  first_moment m' = first_moment m /\ (forall a b, mom2 m' a b = if (a =? i) && (b =? j) then v else mom2 m a b).
Proof.
  intros (S1 & S2 & S3) H J. unfold set2. rewrite (vget_Ok _ _ []) by lia. cbn [bind]. pose proof (S3 i H) as L. fold (width k n i) in L.
  rewrite vset_Ok by lia. cbn [bind]. rewrite vset_Ok by lia. cbn [bind]. eexists. split; [reflexivity|]. split; [|split].
  - unfold shaped; cbn [first_moment second_moment]. rewrite length_upd. split; [assumption|]. split; [assumption|]. intros a A.
    destruct (Nat.eq_dec a i) as [->|NE]; [rewrite nth_upd_eq by lia; rewrite length_upd; auto|rewrite nth_upd_neq by assumption; auto].
  - reflexivity.
  - intros a b. unfold mom2; cbn [second_moment]. destruct (Nat.eqb_spec a i) as [->|NE]; cbn [andb]; [|now rewrite nth_upd_neq by assumption].
    rewrite nth_upd_eq by lia. destruct (Nat.eqb_spec b j) as [->|NE]; [apply nth_upd_eq; lia|now apply nth_upd_neq].
Qed.

Lemma mom1_first m m' i : first_moment m' = first_moment m -> mom1 m' i = mom1 m i.
Proof. unfold mom1. now intros ->. Qed.

(** * The common loops *)

Section Map.
  Variables (k : kind) (n : nat) (mirror check : bool) (f1 : nat -> Q -> outcome Q) (f2 : nat -> nat -> Q -> outcome Q).
  Variables (g1 : nat -> Q) (g2 : nat -> nat -> Q) (m : moment).
  Hypothesis SH : shaped k n m.
  Hypothesis MK : mirror = true -> k = Full.
  Hypothesis F1 : forall i, i < n -> f1 i (mom1 m i) = Ok (g1 i) /\ (check = true -> in_unit (g1 i) = true).
  Hypothesis F2 : forall i j, j < i < n -> f2 i j (mom2 m i j) = Ok (g2 i j) /\ (check = true -> in_unit (g2 i j) = true).

  (** Rows before [i] are done, the row [i] up to [j]; first moments before [e]. *)
  Definition map_inv (e i j : nat) (m' : moment) : Prop :=
    shaped k n m' /\
    (forall a, a < n -> mom1 m' a = if a <? e then g1 a else mom1 m a) /\
    (forall a b, b < a < n -> mom2 m' a b = if (a <? i) || ((a =? i) && (b <? j)) then g2 a b else mom2 m a b) /\
    (mirror = true -> forall a b, b < a < n -> (a <? i) || ((a =? i) && (b <? j)) = true -> mom2 m' b a = g2 a b) /\
    (mirror = false -> forall a b, a <= b -> mom2 m' a b = mom2 m a b).

  Lemma map_inner i m' : i < n -> map_inv (i + 1) i 0 m' ->
    exists m2, foldM (fun m j =>
      a <- get2 m i j ;;
      v <- f2 i j a ;;
      m <- set2 m i j v ;;
      _ <- assertb (negb check || in_unit v) ;;
      if mirror then set2 m j i v else Ok m) (seq 0 i) m' = Ok m2 /\ map_inv (i + 1) i i m2.
  Proof.
    intros Hi I0. apply (foldM_upto (map_inv (i + 1) i)); [assumption|]. clear m' I0. intros j m' Hj (I1 & I2 & I3 & I4 & I5).
    assert (W : j < width k n i) by (unfold width; destruct k; lia).
    rewrite (get2_Ok k n m' i j I1 Hi W). cbn [bind]. rewrite (I3 i j) by lia.
    assert (E0 : (i <? i) || ((i =? i) && (j <? j)) = false) by (rewrite Nat.ltb_irrefl, Nat.eqb_refl, Nat.ltb_irrefl; reflexivity).
    rewrite E0. destruct (F2 i j) as (E1 & E2); [lia|]. rewrite E1. cbn [bind].
    destruct (set2_Ok k n m' i j (g2 i j) I1 Hi W) as (m1 & E3 & S1 & FM1 & M1). rewrite E3. cbn [bind].
    assert (A : negb check || in_unit (g2 i j) = true). { destruct check; cbn; auto. }
    rewrite A. cbn [assertb bind].
    assert (STEP : forall a b, b < a < n -> mom2 m1 a b = (if (a <? i) || ((a =? i) && (b <? S j)) then g2 a b else mom2 m a b)).
    { intros a b AB. rewrite M1. destruct (Nat.eqb_spec a i) as [->|NA]; cbn [andb].
      - rewrite Nat.ltb_irrefl; cbn [orb]. destruct (Nat.eqb_spec b j) as [->|NB].
        + now replace (j <? S j) with true by (symmetry; apply Nat.ltb_lt; lia).
        + rewrite (I3 i b AB), Nat.ltb_irrefl, Nat.eqb_refl; cbn [orb andb].
          now replace (b <? S j) with (b <? j) by (destruct (Nat.ltb_spec b j), (Nat.ltb_spec b (S j)); auto; lia).
      - rewrite (I3 a b AB). destruct (Nat.eqb_spec a i); [contradiction|]. reflexivity. }
    destruct mirror eqn:MI.
    - pose proof (MK eq_refl) as KF. destruct (set2_Ok k n m1 j i (g2 i j) S1) as (m2 & E4 & S2 & FM2 & M2); [lia|rewrite KF; unfold width; lia|].
      exists m2. split; [assumption|]. split; [assumption|]. split; [|split; [|split]].
      + intros a Ha. rewrite (mom1_first m1 m2 a FM2), (mom1_first m' m1 a FM1). now apply I2.
      + intros a b AB. rewrite M2. destruct (Nat.eqb_spec a j) as [->|NA]; cbn [andb]; [|now apply STEP].
        destruct (Nat.eqb_spec b i); [lia|]. now apply STEP.
      + intros _ a b AB C. rewrite M2. destruct (Nat.eqb_spec b j) as [->|NB]; cbn [andb].
        * destruct (Nat.eqb_spec a i) as [EA|NA]; [now rewrite EA|]. rewrite M1.
          replace ((j =? i) && (a =? j)) with false by (symmetry; apply andb_false_iff; left; apply Nat.eqb_neq; lia).
          apply I4; auto. destruct (Nat.ltb_spec a i); cbn [orb] in *; [reflexivity|]. try (apply Nat.eqb_neq in NA; rewrite NA in C); discriminate.
        * rewrite M1. replace ((b =? i) && (a =? j)) with false.
          2:{ symmetry. destruct (Nat.eqb_spec b i), (Nat.eqb_spec a j); auto. lia. }
          apply I4; auto. destruct (Nat.ltb_spec a i); cbn [orb] in *; [reflexivity|]. destruct (Nat.eqb_spec a i); [|discriminate]. cbn [andb] in *.
          apply Nat.ltb_lt in C. apply Nat.ltb_lt. lia.
      + intros MF; exfalso; congruence.
    - exists m1. split; [reflexivity|]. split; [assumption|]. split; [|split; [|split]].
      + intros a Ha. rewrite (mom1_first m' m1 a FM1). now apply I2.
      + exact STEP.
      + intros MF; exfalso; congruence.
      + intros _ a b AB. rewrite M1. replace ((a =? i) && (b =? j)) with false; [now apply I5|].
        symmetry. destruct (Nat.eqb_spec a i), (Nat.eqb_spec b j); auto. lia.
  Qed.

  Lemma moment_map_Ok : exists m', moment_map mirror check f1 f2 m = Ok m' /\ shaped k n m' /\
    (forall i, i < n -> mom1 m' i = g1 i) /\ (forall i j, j < i < n -> mom2 m' i j = g2 i j) /\
    (mirror = true -> forall i j, j < i < n -> mom2 m' j i = g2 i j) /\
    (mirror = false -> forall i j, i <= j -> mom2 m' i j = mom2 m i j).
  Proof.
    unfold moment_map. pose proof SH as (L1 & _). rewrite L1.
    destruct (foldM_upto (fun i m' => map_inv i i 0 m') (fun m i =>
      a <- get1 m i ;;
      v <- f1 i a ;;
      m <- set1 m i v ;;
      _ <- assertb (negb check || in_unit v) ;;
      foldM (fun m j =>
        a <- get2 m i j ;;
        v <- f2 i j a ;;
        m <- set2 m i j v ;;
        _ <- assertb (negb check || in_unit v) ;;
        if mirror then set2 m j i v else Ok m) (seq 0 i) m) n m) as (m' & E & (I1 & I2 & I3 & I4 & I5)).
    - split; [exact SH|]. split; [reflexivity|]. split; [|split].
      + intros a b AB. cbn [Nat.ltb Nat.leb orb]. now rewrite andb_false_r.
      + intros _ a b AB. cbn [Nat.ltb Nat.leb orb]. rewrite andb_false_r. discriminate.
      + reflexivity.
    - intros i m' Hi (I1 & I2 & I3 & I4 & I5). rewrite (get1_Ok k n m' i I1 Hi). cbn [bind]. rewrite (I2 i Hi), Nat.ltb_irrefl.
      destruct (F1 i Hi) as (E1 & E2). rewrite E1. cbn [bind]. destruct (set1_Ok k n m' i (g1 i) I1 Hi) as (m1 & E3 & S1 & M1 & M2). rewrite E3. cbn [bind].
      assert (A : negb check || in_unit (g1 i) = true). { destruct check; cbn; auto. } rewrite A. cbn [assertb bind].
      destruct (map_inner i m1 Hi) as (m2 & E4 & (J1 & J2 & J3 & J4 & J5)).
      + split; [assumption|]. split; [|split; [|split]].
        * intros a Ha. rewrite M1. destruct (Nat.eqb_spec a i) as [->|NE]; [now replace (i <? i + 1) with true by (symmetry; apply Nat.ltb_lt; lia)|].
          rewrite (I2 a Ha). now replace (a <? i + 1) with (a <? i) by (destruct (Nat.ltb_spec a i), (Nat.ltb_spec a (i + 1)); auto; lia).
        * intros a b AB. rewrite M2. now apply I3.
        * intros MI a b AB C. rewrite M2. now apply I4.
        * intros MI a b AB. rewrite M2. now apply I5.
      + exists m2. split; [assumption|].
        assert (SAME : forall a b, b < a -> (a <? S i) || ((a =? S i) && (b <? 0)) = (a <? i) || ((a =? i) && (b <? i))).
        { intros a b AB. rewrite andb_false_r, orb_false_r. destruct (Nat.ltb_spec a (S i)), (Nat.ltb_spec a i), (Nat.eqb_spec a i), (Nat.ltb_spec b i); auto; lia. }
        split; [assumption|]. split; [|split; [|split]].
        * intros a Ha. rewrite (J2 a Ha). now rewrite Nat.add_1_r.
        * intros a b AB. rewrite (J3 a b AB), SAME by lia. reflexivity.
        * intros MI a b AB C. apply J4; auto. now rewrite <- SAME by lia.
        * exact J5.
    - exists m'. split; [assumption|]. split; [assumption|]. split; [|split; [|split]].
      + intros i Hi. rewrite (I2 i Hi). now replace (i <? n) with true by (symmetry; now apply Nat.ltb_lt).
      + intros i j IJ. rewrite (I3 i j IJ). now replace (i <? n) with true by (symmetry; apply Nat.ltb_lt; lia).
      + intros MI i j IJ. apply I4; auto. now replace (i <? n) with true by (symmetry; apply Nat.ltb_lt; lia).
      + exact I5.
  Qed.
End Map.

(** * Operations *)

Lemma make_Ok k n : 0 < n -> moment_make k n = Ok (zero_moment k n).
Proof. intros H. unfold moment_make. apply Nat.ltb_lt in H. now rewrite H. Qed.

Lemma zero_shaped k n : shaped k n (zero_moment k n).
Proof.
  unfold shaped, zero_moment; cbn [first_moment second_moment]. rewrite repeat_length, map_length, seq_length. split; [reflexivity|]. split; [reflexivity|].
  intros i Hi. rewrite (nth_map_lt _ _ i [] 0) by now rewrite seq_length. rewrite seq_nth by assumption. rewrite repeat_length. reflexivity.
Qed.

Lemma nth_zeros {A} (l : list A) i : nth i (map (fun _ => 0%Q) l) 0%Q = 0%Q.
Proof. revert i; induction l as [|a l IH]; intros [|i]; cbn; auto. Qed.

Lemma init_shaped k n m : shaped k n m -> shaped k n (moment_init m).
Proof.
  intros (S1 & S2 & S3). unfold shaped, moment_init; cbn [first_moment second_moment]. rewrite !map_length. split; [assumption|]. split; [assumption|].
  intros i Hi. rewrite (nth_map_lt _ _ i [] []) by lia. rewrite map_length. now apply S3.
Qed.
Lemma init_mom1 m i : mom1 (moment_init m) i = 0%Q. Proof. apply nth_zeros. Qed.
Lemma init_mom2 m i j : mom2 (moment_init m) i j = 0%Q.
Proof.
  unfold mom2, moment_init; cbn [second_moment]. destruct (Nat.ltb_spec i (length (second_moment m))).
  - rewrite (nth_map_lt _ _ i [] []) by lia. apply nth_zeros.
  - rewrite (nth_overflow _ ([] : list Q)) by (rewrite map_length; lia). destruct j; reflexivity.
Qed.
Lemma zero_mom1 k n i : mom1 (zero_moment k n) i = 0%Q.
Proof. unfold mom1, zero_moment; cbn [first_moment]. destruct (Nat.ltb_spec i n); [now rewrite nth_repeat_lt|now rewrite nth_overflow by (rewrite repeat_length; lia)]. Qed.
Lemma nth_repeat_zero i n : nth i (repeat 0%Q n) 0%Q = 0%Q.
Proof. destruct (Nat.ltb_spec i n); [now rewrite nth_repeat_lt|now rewrite nth_overflow by (rewrite repeat_length; lia)]. Qed.
Lemma zero_mom2 k n i j : mom2 (zero_moment k n) i j = 0%Q.
Proof.
  unfold mom2, zero_moment; cbn [second_moment]. destruct (Nat.ltb_spec i n).
  - rewrite (nth_map_lt _ _ i [] 0) by now rewrite seq_length. apply nth_repeat_zero.
  - rewrite (nth_overflow _ ([] : list Q)) by (rewrite map_length, seq_length; lia). destruct j; reflexivity.
Qed.

Lemma sign_pm b : sign b = 1%Q \/ sign b = (-1)%Q. Proof. destruct b; cbn; auto. Qed.
Lemma sign_sq b : (sign b * sign b == 1)%Q. Proof. destruct b; reflexivity. Qed.

Lemma add_Ok k n m x : shaped k n m -> length x = n -> exists m', moment_add m x = Ok m' /\ shaped k n m' /\
  (forall i, i < n -> (mom1 m' i == mom1 m i + sign_at i x)%Q) /\
  (forall i j, j < i < n -> (mom2 m' i j == mom2 m i j + sign_at i x * sign_at j x)%Q).
Proof.
  intros SH L. unfold moment_add. pose proof SH as (S1 & _). rewrite S1, L, Nat.eqb_refl. cbn [assertb bind].
  destruct (moment_map_Ok k n false false
    (fun i a => b <- vget x i ;; Ok (if b : bool then a - 1 else a + 1)%Q)
    (fun i j a => b <- vget x i ;; c <- vget x j ;; Ok (if (b : bool) then (if (c : bool) then a + 1 else a - 1) else (if (c : bool) then a - 1 else a + 1))%Q)
    (fun i => if nth i x false then mom1 m i - 1 else mom1 m i + 1)%Q
    (fun i j => if nth i x false then (if nth j x false then mom2 m i j + 1 else mom2 m i j - 1) else (if nth j x false then mom2 m i j - 1 else mom2 m i j + 1))%Q
    m SH) as (m' & E & SH' & G1 & G2 & _).
  - discriminate.
  - intros i Hi. rewrite (vget_Ok _ _ false) by lia. split; [reflexivity|discriminate].
  - intros i j Hi. rewrite !(vget_Ok _ _ false) by lia. split; [reflexivity|discriminate].
  - exists m'. split; [assumption|]. split; [assumption|]. unfold sign_at. split.
    + intros i Hi. rewrite (G1 i Hi). destruct (nth i x false); cbn [sign]; lra.
    + intros i j Hi. rewrite (G2 i j Hi). destruct (nth i x false), (nth j x false); cbn [sign]; lra.
Qed.

Lemma add_all_Ok k n bs : forall m, shaped k n m -> Forall (fun x => length x = n) bs -> exists m', foldM moment_add bs m = Ok m' /\ shaped k n m' /\
  (forall i, i < n -> (mom1 m' i == mom1 m i + total (sign_at i) bs)%Q) /\
  (forall i j, j < i < n -> (mom2 m' i j == mom2 m i j + total (fun x => sign_at i x * sign_at j x) bs)%Q).
Proof.
  induction bs as [|x bs IH]; intros m SH F; cbn [foldM].
  - exists m. split; [reflexivity|]. split; [assumption|]. split; intros; rewrite total_nil; lra.
  - inversion_clear F as [|? ? L F']. destruct (add_Ok k n m x SH L) as (m1 & E1 & S1 & A1 & A2). rewrite E1. cbn [bind].
    destruct (IH m1 S1 F') as (m2 & E2 & S2 & B1 & B2). exists m2. split; [assumption|]. split; [assumption|]. split.
    + intros i Hi. rewrite (B1 i Hi), (A1 i Hi), total_cons. lra.
    + intros i j Hi. rewrite (B2 i j Hi), (A2 i j Hi), total_cons. lra.
Qed.

Lemma symmetric_check n m : shaped Full n m -> (forall i j, j < i < n -> (mom2 m i j == mom2 m j i)%Q) -> matrix_is_symmetric (second_moment m) = Ok true.
Proof.
  intros (S1 & S2 & S3) H. unfold matrix_is_symmetric. rewrite S2.
  match goal with |- foldM ?f _ _ = _ => destruct (foldM_upto (fun _ ok => ok = true) f n true) as (ok & E & ->); auto end.
  intros i ok Hi ->.
  match goal with |- exists s', foldM ?f _ _ = _ /\ _ => apply (foldM_upto (fun _ ok => ok = true) f i true); auto end.
  intros j ok Hj ->. rewrite !(vget_Ok _ _ []) by lia. cbn [bind]. rewrite (vget_Ok _ _ 0%Q) by (rewrite S3; lia). cbn [bind]. rewrite (vget_Ok _ _ 0%Q) by (rewrite S3; lia). cbn [bind].
  exists true. split; [|reflexivity]. f_equal. apply Qeq_bool_iff. apply H. lia.
Qed.

Lemma mirror_symmetric n m g : (forall i j, j < i < n -> mom2 m i j = g i j) -> (forall i j, j < i < n -> mom2 m j i = g i j) -> symmetric n m.
Proof.
  intros H1 H2 i j Hi Hj. destruct (Nat.lt_trichotomy i j) as [L|[->|L]]; [|reflexivity|].
  - rewrite (H1 j i) by lia. rewrite (H2 j i) by lia. reflexivity.
  - rewrite (H1 i j) by lia. rewrite (H2 i j) by lia. reflexivity.
Qed.

Lemma check_symmetric_Ok k n m : shaped k n m -> (k = Full -> symmetric n m) -> check_symmetric k m = Ok m.
Proof.
  intros SH SY. unfold check_symmetric. destruct k; [reflexivity|]. rewrite (symmetric_check n m SH); [reflexivity|].
  intros i j Hi. apply SY; auto; lia.
Qed.

(** All the operations which mirror *)
Lemma mirrored_map_Ok k n check f1 f2 g1 g2 m : shaped k n m ->
  (forall i, i < n -> f1 i (mom1 m i) = Ok (g1 i) /\ (check = true -> in_unit (g1 i) = true)) ->
  (forall i j, j < i < n -> f2 i j (mom2 m i j) = Ok (g2 i j) /\ (check = true -> in_unit (g2 i j) = true)) ->
  exists m', moment_map (mirrored k) check f1 f2 m = Ok m' /\ holds k n m' g1 g2 /\ (forall i, i < n -> mom1 m' i = g1 i) /\ (forall i j, j < i < n -> mom2 m' i j = g2 i j).
Proof.
  intros SH F1 F2. destruct (moment_map_Ok k n (mirrored k) check f1 f2 g1 g2 m SH) as (m' & E & SH' & G1 & G2 & G3 & _); auto.
  - destruct k; cbn; congruence.
  - exists m'. split; [assumption|]. split; [|split; assumption]. split; [assumption|]. split; [intros i Hi; now rewrite G1|]. split; [intros i j Hi; now rewrite G2|].
    intros ->. apply (mirror_symmetric n m' g2); auto.
Qed.

Lemma in_unit_iff v : in_unit v = true <-> (-1 <= v <= 1)%Q.
Proof. unfold in_unit. rewrite andb_true_iff, !Qle_bool_iff. reflexivity. Qed.

Lemma average_Ok k n m count : shaped k n m -> 0 < count ->
  all_entries (in_interval (- inject_Z (Z.of_nat count)) (inject_Z (Z.of_nat count))) n m ->
  exists m', moment_average k count m = Ok m' /\ holds k n m' (fun i => mom1 m i / inject_Z (Z.of_nat count))%Q (fun i j => mom2 m i j / inject_Z (Z.of_nat count))%Q.
Proof.
  intros SH C (A1 & A2). unfold moment_average. assert (CT : (0 <? count) = true) by now apply Nat.ltb_lt. rewrite CT.
  assert (P : (0 < inject_Z (Z.of_nat count))%Q) by (change 0%Q with (inject_Z 0); rewrite <- Zlt_Qlt; lia).
  assert (U : forall q, in_interval (- inject_Z (Z.of_nat count)) (inject_Z (Z.of_nat count)) q -> in_unit (q / inject_Z (Z.of_nat count)) = true).
  { intros q (Q1 & Q2). apply in_unit_iff. split; [apply Qle_shift_div_l|apply Qle_shift_div_r]; auto; lra. }
  destruct (mirrored_map_Ok k n true (fun _ a => Ok (a / inject_Z (Z.of_nat count))%Q) (fun _ _ a => Ok (a / inject_Z (Z.of_nat count))%Q)
    (fun i => mom1 m i / inject_Z (Z.of_nat count))%Q (fun i j => mom2 m i j / inject_Z (Z.of_nat count))%Q m SH) as (m' & E & H & _); auto.
  rewrite E. cbn [bind]. exists m'. split; [|assumption]. apply (check_symmetric_Ok k n); apply H.
Qed.

(** The mean of the moments of a list of vectors *)
Lemma total_sign_bound n (f : list bool -> Q) bs : (forall x, f x == 1 \/ f x == -1)%Q -> n = length bs -> in_interval (- inject_Z (Z.of_nat n)) (inject_Z (Z.of_nat n)) (total f bs).
Proof.
  intros F ->. unfold in_interval. induction bs as [|x bs IH]; [rewrite total_nil; cbn [length]; change (inject_Z (Z.of_nat 0)) with 0%Q; lra|].
  rewrite total_cons. cbn [length]. rewrite Nat2Z.inj_succ, <- Z.add_1_r, inject_Z_plus. change (inject_Z 1) with 1%Q. destruct (F x) as [->| ->]; lra.
Qed.
Lemma sign_at_pm i x : (sign_at i x == 1 \/ sign_at i x == -1)%Q.
Proof. unfold sign_at. destruct (nth i x false); cbn [sign]; [right|left]; reflexivity. Qed.
Lemma sign_at2_pm i j x : (sign_at i x * sign_at j x == 1 \/ sign_at i x * sign_at j x == -1)%Q.
Proof. unfold sign_at. destruct (nth i x false), (nth j x false); cbn [sign]; [left|right|right|left]; reflexivity. Qed.

Lemma mean_Ok k n m bs : shaped k n m -> Forall (fun x => length x = n) bs -> bs <> [] ->
  exists m', (m1 <- foldM moment_add bs (moment_init m) ;; moment_average k (length bs) m1) = Ok m' /\
    holds k n m' (fun i => mean (sign_at i) bs) (fun i j => mean (fun x => sign_at i x * sign_at j x)%Q bs).
Proof.
  intros SH F NE. destruct (add_all_Ok k n bs (moment_init m) (init_shaped k n m SH) F) as (m1 & E1 & S1 & A1 & A2). rewrite E1. cbn [bind].
  destruct (average_Ok k n m1 (length bs) S1) as (m2 & E2 & H2).
  - destruct bs; [congruence|cbn; lia].
  - split; intros; unfold in_interval.
    + rewrite (A1 i) by assumption. rewrite init_mom1, Qplus_0_l. apply (total_sign_bound (length bs) (sign_at i) bs); auto. apply sign_at_pm.
    + rewrite (A2 i j) by assumption. rewrite init_mom2, Qplus_0_l. apply (total_sign_bound (length bs) (fun x => sign_at i x * sign_at j x)%Q bs); auto. apply sign_at2_pm.
  - exists m2. split; [assumption|]. destruct H2 as (B1 & B2 & B3 & B4). split; [assumption|]. split; [|split; [|assumption]].
    + intros i Hi. rewrite (B2 i Hi), (A1 i Hi), init_mom1, Qplus_0_l. reflexivity.
    + intros i j Hi. rewrite (B3 i j Hi), (A2 i j Hi), init_mom2, Qplus_0_l. reflexivity.
Qed.

Lemma convex_unit a b r : (0 <= r <= 1 -> -1 <= a <= 1 -> -1 <= b <= 1 -> -1 <= a + r * (b - a) <= 1)%Q.
Proof.
  intros R A B. assert (E : (a + r * (b - a) == (1 - r) * a + r * b)%Q) by ring. rewrite E.
  assert (H1 : (0 <= (1 - r) * (1 - a))%Q) by (apply Qmult_le_0_compat; lra).
  assert (H2 : (0 <= r * (1 - b))%Q) by (apply Qmult_le_0_compat; lra).
  assert (H3 : (0 <= (1 - r) * (1 + a))%Q) by (apply Qmult_le_0_compat; lra).
  assert (H4 : (0 <= r * (1 + b))%Q) by (apply Qmult_le_0_compat; lra). lra.
Qed.

Lemma update_Ok k n tm rate m : shaped k n m -> shaped k n tm -> all_entries (in_interval (-1) 1) n m -> all_entries (in_interval (-1) 1) n tm -> (0 <= rate <= 1)%Q ->
  exists m', moment_update k tm rate m = Ok m' /\
    holds k n m' (fun i => mom1 m i + rate * (mom1 tm i - mom1 m i))%Q (fun i j => mom2 m i j + rate * (mom2 tm i j - mom2 m i j))%Q /\
    all_entries (in_interval (-1) 1) n m'.
Proof.
  intros SH ST (A1 & A2) (B1 & B2) R. unfold moment_update. pose proof SH as (L & _). pose proof ST as (LT & _). rewrite L, LT, Nat.eqb_refl. cbn [assertb bind].
  destruct (mirrored_map_Ok k n true (fun i a => b <- get1 tm i ;; Ok (a + rate * (b - a))%Q) (fun i j a => b <- get2 tm i j ;; Ok (a + rate * (b - a))%Q)
    (fun i => mom1 m i + rate * (mom1 tm i - mom1 m i))%Q (fun i j => mom2 m i j + rate * (mom2 tm i j - mom2 m i j))%Q m SH) as (m' & E & H & _).
  - intros i Hi. rewrite (get1_Ok k n tm i ST Hi). split; [reflexivity|]. intros _. apply in_unit_iff. apply convex_unit; [assumption|apply A1; assumption|apply B1; assumption].
  - intros i j Hi. rewrite (get2_Ok k n tm i j ST); [|lia|unfold width; destruct k; lia]. split; [reflexivity|]. intros _. apply in_unit_iff. apply convex_unit; [assumption|apply A2; assumption|apply B2; assumption].
  - rewrite E. cbn [bind]. exists m'. split; [|split; [assumption|]].
    + apply (check_symmetric_Ok k n); apply H.
    + destruct H as (_ & H1 & H2 & _). unfold in_interval. split.
      * intros i Hi. rewrite (H1 i Hi). apply convex_unit; [assumption|apply A1; assumption|apply B1; assumption].
      * intros i j Hi. rewrite (H2 i j Hi). apply convex_unit; [assumption|apply A2; assumption|apply B2; assumption].
Qed.

Lemma update2_Ok k n tm1 tm2 rate m : shaped k n m -> shaped k n tm1 -> shaped k n tm2 ->
  exists m', moment_update2 k tm1 tm2 rate m = Ok m' /\
    holds k n m' (fun i => mom1 m i + rate * (mom1 tm1 i - mom1 tm2 i))%Q (fun i j => mom2 m i j + rate * (mom2 tm1 i j - mom2 tm2 i j))%Q.
Proof.
  intros SH S1 S2. unfold moment_update2. pose proof SH as (L & _). pose proof S1 as (L1 & _). pose proof S2 as (L2 & _). rewrite L, L1, L2, Nat.eqb_refl. cbn [assertb bind].
  destruct (mirrored_map_Ok k n false (fun i a => b <- get1 tm1 i ;; c <- get1 tm2 i ;; Ok (a + rate * (b - c))%Q) (fun i j a => b <- get2 tm1 i j ;; c <- get2 tm2 i j ;; Ok (a + rate * (b - c))%Q)
    (fun i => mom1 m i + rate * (mom1 tm1 i - mom1 tm2 i))%Q (fun i j => mom2 m i j + rate * (mom2 tm1 i j - mom2 tm2 i j))%Q m SH) as (m' & E & H & _).
  - intros i Hi. rewrite (get1_Ok k n tm1 i S1 Hi), (get1_Ok k n tm2 i S2 Hi). split; [reflexivity|discriminate].
  - intros i j Hi. rewrite (get2_Ok k n tm1 i j S1), (get2_Ok k n tm2 i j S2); try lia; try (unfold width; destruct k; lia). split; [reflexivity|discriminate].
  - eauto.
Qed.

Lemma difference_Ok k n tm1 tm2 lambda m : shaped k n m -> shaped k n tm1 -> shaped k n tm2 ->
  exists m', scaled_difference k lambda tm1 tm2 m = Ok m' /\
    holds k n m' (fun i => lambda * mom1 tm1 i - mom1 tm2 i)%Q (fun i j => lambda * mom2 tm1 i j - mom2 tm2 i j)%Q.
Proof.
  intros SH S1 S2. unfold scaled_difference. pose proof SH as (L & _). pose proof S1 as (L1 & _). pose proof S2 as (L2 & _). rewrite L, L1, L2, Nat.eqb_refl. cbn [assertb bind].
  destruct (mirrored_map_Ok k n false (fun i _ => b <- get1 tm1 i ;; c <- get1 tm2 i ;; Ok (lambda * b - c)%Q) (fun i j _ => b <- get2 tm1 i j ;; c <- get2 tm2 i j ;; Ok (lambda * b - c)%Q)
    (fun i => lambda * mom1 tm1 i - mom1 tm2 i)%Q (fun i j => lambda * mom2 tm1 i j - mom2 tm2 i j)%Q m SH) as (m' & E & H & _).
  - intros i Hi. rewrite (get1_Ok k n tm1 i S1 Hi), (get1_Ok k n tm2 i S2 Hi). split; [reflexivity|discriminate].
  - intros i j Hi. rewrite (get2_Ok k n tm1 i j S1), (get2_Ok k n tm2 i j S2); try lia; try (unfold width; destruct k; lia). split; [reflexivity|discriminate].
  - eauto.
Qed.

Definition clampq (lo hi v : Q) : Q := if qltb v lo then lo else if qltb hi v then hi else v.
Lemma clampq_clamped lo hi v : (lo <= hi)%Q -> clamped lo hi v (clampq lo hi v) /\ (lo <= clampq lo hi v <= hi)%Q.
Proof.
  intros H. unfold clamped, clampq. destruct (qltb v lo) eqn:E1; [apply qltb_lt in E1|apply qltb_ge in E1; destruct (qltb hi v) eqn:E2; [apply qltb_lt in E2|apply qltb_ge in E2]];
    repeat split; intros; try lra.
Qed.

Lemma bound_Ok k n margin m : shaped k n m -> (0 <= margin < 1)%Q ->
  exists m', moment_bound k margin m = Ok m' /\ shaped k n m' /\ (k = Full -> symmetric n m') /\
    (forall i, i < n -> clamped (margin - 1) (1 - margin) (mom1 m i) (mom1 m' i)) /\
    (forall i j, j < i < n -> clamped (margin - 1) (1 - margin) (mom2 m i j) (mom2 m' i j)) /\
    all_entries (in_interval (margin - 1) (1 - margin)) n m'.
Proof.
  intros SH MG. unfold moment_bound. assert (B1 : Qle_bool 0 margin && Qle_bool margin 1 = true). { apply andb_true_iff. rewrite !Qle_bool_iff. lra. }
  assert (B2 : qltb (margin - 1) (1 - margin) = true) by (apply qltb_lt; lra). rewrite B1, B2. cbn [assertb bind].
  assert (CL : forall v, clamp v (margin - 1) (1 - margin) = Ok (clampq (margin - 1) (1 - margin) v)).
  { intros v. unfold clamp. assert (B3 : qltb (1 - margin) (margin - 1) = false) by (apply qltb_ge; lra). now rewrite B3. }
  assert (IU : forall v, in_unit (clampq (margin - 1) (1 - margin) v) = true). { intros v. apply in_unit_iff. destruct (clampq_clamped (margin - 1) (1 - margin) v); lra. }
  destruct (mirrored_map_Ok k n true (fun _ a => clamp a (margin - 1) (1 - margin)) (fun _ _ a => clamp a (margin - 1) (1 - margin))
    (fun i => clampq (margin - 1) (1 - margin) (mom1 m i)) (fun i j => clampq (margin - 1) (1 - margin) (mom2 m i j)) m SH) as (m' & E & H & G1 & G2); auto.
  exists m'. split; [assumption|]. split; [apply H|]. split; [apply H|]. assert (LE : (margin - 1 <= 1 - margin)%Q) by lra.
  split; [|split; [|split]]; intros; rewrite ?G1, ?G2 by lia; now apply clampq_clamped.
Qed.

Lemma bound_UB k margin m : ~ (0 <= margin < 1)%Q -> moment_bound k margin m = UB.
Proof.
  intros H. unfold moment_bound. destruct (Qle_bool 0 margin && Qle_bool margin 1) eqn:B; [|reflexivity]. cbn [assertb bind].
  apply andb_true_iff in B. rewrite !Qle_bool_iff in B. assert (B2 : qltb (margin - 1) (1 - margin) = false) by (apply qltb_ge; lra). now rewrite B2.
Qed.
