(** Proofs about partitions, products and summation cancellation. *)

From Coq Require Import ZArith NArith QArith Qabs Setoid Morphisms.
From Verif Require Import Base BaseLemmas BitVector_Model BitVector_Spec Function_Spec Sums.
From Verif Require Import Text_Model Collection_Model Collection_Spec.
Local Open Scope nat_scope.

Lemma foldM_eq {St A} (f g : St -> A -> outcome St) l : (forall s a, In a l -> f s a = g s a) -> forall s, foldM f l s = foldM g l s.
Proof.
  induction l as [|a l IH]; intros H s; [reflexivity|]. cbn [foldM]. rewrite (H s a) by now left.
  destruct (g s a); cbn [bind]; auto. apply IH. intros; apply H; now right.
Qed.

Lemma vget_here {A} (p l : list A) a : vget (p ++ a :: l) (len p) = Ok a.
Proof. unfold vget. rewrite nth_error_app2, Nat.sub_diag by lia. reflexivity. Qed.

(** A loop over the indices of two lists *)
Lemma foldM_combine_from {St A B} (g : St -> B -> A -> outcome St) l : forall (m : list B) pl (pm : list B) st,
  len pl = len pm -> len l <= len m ->
  foldM (fun st i => b <- vget (pm ++ m) i ;; a <- vget (pl ++ l) i ;; g st b a) (seq (len pl) (len l)) st =
  foldM (fun st p => g st (snd p) (fst p)) (combine l m) st.
Proof.
  induction l as [|a l IH]; intros m pl pm st E L; [reflexivity|]. destruct m as [|b m]; [cbn in L; lia|].
  cbn [List.length seq foldM combine fst snd]. rewrite E at 1. rewrite vget_here. cbn [bind]. rewrite vget_here. cbn [bind].
  destruct (g st b a) as [s'| |]; cbn [bind]; auto.
  specialize (IH m (pl ++ [a]) (pm ++ [b]) s'). rewrite !app_length in IH. cbn [List.length] in IH, L.
  rewrite Nat.add_1_r in IH. rewrite <- IH by lia. apply foldM_eq. intros. now rewrite <- !app_assoc.
Qed.

Lemma foldM_combine {St A B} (g : St -> B -> A -> outcome St) (l : list A) (m : list B) st : len l <= len m ->
  foldM (fun st i => b <- vget m i ;; a <- vget l i ;; g st b a) (seq 0 (len l)) st =
  foldM (fun st p => g st (snd p) (fst p)) (combine l m) st.
Proof. intros L. apply (foldM_combine_from g l m [] [] st); [reflexivity|assumption]. Qed.

(** * Partition *)

Definition max_int : Z := (2 ^ 31 - 1)%Z.

Definition partition_step (st : Z * Z) (b : bool) (a : Z) : outcome (Z * Z) :=
  let '(sum0, sum1) := st in
  if b then r <- int_result (sum1 + a)%Z ;; Ok (sum0, r) else r <- int_result (sum0 + a)%Z ;; Ok (r, sum1).

Lemma partition_loop numbers s : len s = len numbers ->
  partition_evaluate numbers s =
  bind (foldM (fun st p => partition_step st (snd p) (fst p)) (combine numbers s) (0%Z, 0%Z)) (fun p =>
    d <- int_result (snd p - fst p)%Z ;; a <- int_result (Z.abs d) ;; Ok (- a)%Z).
Proof.
  intros L. unfold partition_evaluate. rewrite L, Nat.eqb_refl. cbn [assertb bind].
  rewrite <- (foldM_combine partition_step) by lia.
  rewrite (foldM_eq _ (fun st i => b <- vget s i ;; a <- vget numbers i ;; partition_step st b a)).
  - destruct (foldM _ _ _) as [[p q]| |]; reflexivity.
  - intros [p q] i _. unfold partition_step. destruct (vget s i); cbn [bind]; auto.
Qed.

Lemma int_result_Ok z : (- 2 ^ 31 <= z < 2 ^ 31)%Z -> int_result z = Ok z.
Proof.
  intros H. unfold int_result, int_range. destruct (Z.leb_spec (- 2 ^ 31) z); [|lia]. destruct (Z.ltb_spec z (2 ^ 31)); [|lia].
  reflexivity.
Qed.

Lemma int_result_UB z : (2 ^ 31 <= z)%Z -> int_result z = UB.
Proof.
  intros H. unfold int_result, int_range. destruct (Z.ltb_spec z (2 ^ 31)); [lia|]. now rewrite andb_false_r.
Qed.

Lemma partition_steps ps : Forall (fun p => 0 <= fst p)%Z ps -> forall a0 a1,
  (0 <= a0 < 2 ^ 31)%Z -> (0 <= a1 < 2 ^ 31)%Z ->
  let S0 := zsum (map fst (filter (fun p : Z * bool => Bool.eqb (snd p) false) ps)) in
  let S1 := zsum (map fst (filter (fun p : Z * bool => Bool.eqb (snd p) true) ps)) in
  (0 <= S0)%Z /\ (0 <= S1)%Z /\
  ((a0 + S0 < 2 ^ 31 /\ a1 + S1 < 2 ^ 31)%Z ->
    foldM (fun st p => partition_step st (snd p) (fst p)) ps (a0, a1) = Ok (a0 + S0, a1 + S1)%Z) /\
  ((2 ^ 31 <= a0 + S0 \/ 2 ^ 31 <= a1 + S1)%Z ->
    foldM (fun st p => partition_step st (snd p) (fst p)) ps (a0, a1) = UB).
Proof.
  induction 1 as [|[z b] ps Hz H IH]; intros a0 a1 H0 H1 S0 S1.
  - subst S0 S1. cbn. repeat split; try lia. intros _. now rewrite !Z.add_0_r.
  - cbn [fst] in Hz.
    assert (P : (0 <= zsum (map fst (filter (fun p : Z * bool => Bool.eqb (snd p) false) ps)))%Z /\
                (0 <= zsum (map fst (filter (fun p : Z * bool => Bool.eqb (snd p) true) ps)))%Z).
    { destruct (IH 0 0)%Z as [P0 [P1 _]]; try lia; auto. }
    destruct b; subst S0 S1; cbn [filter snd Bool.eqb map fst zsum fold_right foldM partition_step] in *;
      fold (zsum (map fst (filter (fun p : Z * bool => Bool.eqb (snd p) false) ps)));
      fold (zsum (map fst (filter (fun p : Z * bool => Bool.eqb (snd p) true) ps)));
      set (S0 := zsum (map fst (filter (fun p : Z * bool => Bool.eqb (snd p) false) ps))) in *;
      set (S1 := zsum (map fst (filter (fun p : Z * bool => Bool.eqb (snd p) true) ps))) in *.
    + split; [lia|]. split; [lia|]. destruct (Z_lt_le_dec (a1 + z) (2 ^ 31)) as [B|B].
      * rewrite (int_result_Ok (a1 + z)) by lia. cbn [bind]. destruct (IH a0 (a1 + z)%Z) as [_ [_ [K1 K2]]]; try lia.
        split; intros HH.
        -- rewrite K1 by lia. do 2 f_equal. lia.
        -- apply K2. lia.
      * rewrite (int_result_UB (a1 + z)) by lia. cbn [bind]. split; intros HH; [lia|reflexivity].
    + split; [lia|]. split; [lia|]. destruct (Z_lt_le_dec (a0 + z) (2 ^ 31)) as [B|B].
      * rewrite (int_result_Ok (a0 + z)) by lia. cbn [bind]. destruct (IH (a0 + z)%Z a1) as [_ [_ [K1 K2]]]; try lia.
        split; intros HH.
        -- rewrite K1 by lia. do 2 f_equal. lia.
        -- apply K2. lia.
      * rewrite (int_result_UB (a0 + z)) by lia. cbn [bind]. split; intros HH; [lia|reflexivity].
Qed.

Lemma combine_nonneg numbers (s : list bool) : Forall (fun a => 0 <= a)%Z numbers -> Forall (fun p => 0 <= fst p)%Z (combine numbers s).
Proof.
  intros H. revert s; induction H; intros [|b s]; cbn; constructor; auto.
Qed.

Lemma partition_value numbers s : Forall (fun a => 0 <= a)%Z numbers -> len s = len numbers ->
  (zsum (part false numbers s) < 2 ^ 31)%Z -> (zsum (part true numbers s) < 2 ^ 31)%Z ->
  partition_evaluate numbers s = Ok (- Z.abs (zsum (part true numbers s) - zsum (part false numbers s)))%Z.
Proof.
  intros P L B0 B1. rewrite partition_loop by assumption.
  destruct (partition_steps (combine numbers s) (combine_nonneg numbers s P) 0 0) as [P0 [P1 [K _]]]; try lia.
  unfold part in *. rewrite K by lia. cbn [bind fst snd]. rewrite !Z.add_0_l.
  rewrite int_result_Ok by lia. cbn [bind]. rewrite int_result_Ok by lia. reflexivity.
Qed.

Lemma partition_overflow numbers s : Forall (fun a => 0 <= a)%Z numbers -> len s = len numbers ->
  (2 ^ 31 <= zsum (part false numbers s) \/ 2 ^ 31 <= zsum (part true numbers s))%Z ->
  partition_evaluate numbers s = UB.
Proof.
  intros P L B. rewrite partition_loop by assumption.
  destruct (partition_steps (combine numbers s) (combine_nonneg numbers s P) 0 0) as [P0 [P1 [_ K]]]; try lia.
  unfold part in *. rewrite K by lia. reflexivity.
Qed.

Lemma partition_swap ps : forall a0 a1,
  foldM (fun st p => partition_step st (snd p) (fst p)) (map (fun p => (fst p, negb (snd p))) ps) (a1, a0) =
  bind (foldM (fun st p => partition_step st (snd p) (fst p)) ps (a0, a1)) (fun p => Ok (snd p, fst p)).
Proof.
  induction ps as [|[z b] ps IH]; intros a0 a1; [reflexivity|]. cbn [map foldM fst snd].
  destruct b; cbn [negb partition_step].
  - destruct (int_result (a1 + z)); cbn [bind]; auto.
  - destruct (int_result (a0 + z)); cbn [bind]; auto.
Qed.

Lemma combine_complement {A} (l : list A) x : combine l (complement x) = map (fun p => (fst p, negb (snd p))) (combine l x).
Proof. revert x; induction l as [|a l IH]; intros [|b x]; cbn; auto. now rewrite <- IH. Qed.

Lemma length_complement x : len (complement x) = len x.
Proof. apply map_length. Qed.

Lemma partition_complement numbers s : partition_evaluate numbers (complement s) = partition_evaluate numbers s.
Proof.
  destruct (Nat.eq_dec (len s) (len numbers)) as [L|L].
  - rewrite !partition_loop by (rewrite ?length_complement; assumption).
    rewrite combine_complement, partition_swap.
    destruct (foldM _ _ _) as [[p q]| |]; cbn [bind fst snd]; auto.
    unfold int_result, int_range.
    destruct (Z.leb_spec (- 2 ^ 31) (p - q)), (Z.ltb_spec (p - q) (2 ^ 31)),
      (Z.leb_spec (- 2 ^ 31) (q - p)), (Z.ltb_spec (q - p) (2 ^ 31)); cbn [andb bind]; try lia; auto;
    destruct (Z.leb_spec (- 2 ^ 31) (Z.abs (p - q))), (Z.ltb_spec (Z.abs (p - q)) (2 ^ 31)); cbn [andb bind]; try lia; auto;
    destruct (Z.leb_spec (- 2 ^ 31) (Z.abs (q - p))), (Z.ltb_spec (Z.abs (q - p)) (2 ^ 31)); cbn [andb bind]; try lia; auto.
    f_equal. lia.
  - unfold partition_evaluate. rewrite length_complement. apply Nat.eqb_neq in L. now rewrite L.
Qed.

Lemma part_total numbers s : len s = len numbers -> (zsum (part false numbers s) + zsum (part true numbers s) = zsum numbers)%Z.
Proof.
  unfold part. revert s; induction numbers as [|a l IH]; intros [|b s] L; try discriminate; [reflexivity|].
  cbn [combine filter snd]. specialize (IH s ltac:(cbn in L; lia)). unfold zsum in *.
  destruct b; cbn [Bool.eqb map fst fold_right]; lia.
Qed.

Lemma partition_parity numbers s v : Forall (fun a => 0 <= a)%Z numbers -> partition_evaluate numbers s = Ok v ->
  (v <= 0)%Z /\ Z.odd v = Z.odd (zsum numbers) /\
  (v = 0%Z <-> zsum (part true numbers s) = zsum (part false numbers s)).
Proof.
  intros P H. destruct (Nat.eq_dec (len s) (len numbers)) as [L|L].
  2: { unfold partition_evaluate in H. apply Nat.eqb_neq in L. now rewrite L in H. }
  assert (B : (zsum (part false numbers s) < 2 ^ 31 /\ zsum (part true numbers s) < 2 ^ 31)%Z).
  { destruct (Z_lt_le_dec (zsum (part false numbers s)) (2 ^ 31)), (Z_lt_le_dec (zsum (part true numbers s)) (2 ^ 31));
      auto; rewrite partition_overflow in H by (auto; lia); discriminate. }
  rewrite partition_value in H by tauto. apply Ok_inj in H. subst v. rewrite <- (part_total numbers s L).
  split; [lia|]. split; [|lia]. rewrite Z.odd_opp.
  destruct (Z.abs_eq_or_opp (zsum (part true numbers s) - zsum (part false numbers s))) as [-> | ->];
    rewrite ?Z.odd_opp, Z.odd_sub, Z.odd_add; apply xorb_comm.
Qed.

Lemma partition_random_Ok n ub draw : 0 < n -> (0 < ub)%Z -> (forall i, 1 <= draw i <= ub)%Z ->
  exists l, partition_random n ub draw = Ok l /\ len l = n /\ Forall (fun a => 1 <= a <= ub)%Z l.
Proof.
  intros N U D. exists (map draw (seq 0 n)). unfold partition_random.
  destruct (Nat.ltb_spec 0 n); [|lia]. destruct (Z.ltb_spec 0 ub); [|lia]. cbn [assertb bind].
  split; [reflexivity|]. split; [now rewrite map_length, seq_length|]. apply Forall_forall.
  intros a Ha. apply in_map_iff in Ha. destruct Ha as [i [<- _]]. apply D.
Qed.

Lemma partition_random_any n ub l : 0 < n -> (0 < ub)%Z -> len l = n -> Forall (fun a => 1 <= a <= ub)%Z l ->
  exists draw, (forall i, 1 <= draw i <= ub)%Z /\ partition_random n ub draw = Ok l.
Proof.
  intros N U L F. exists (fun i => nth i l 1%Z). split.
  - intros i. destruct (Nat.lt_ge_cases i (len l)) as [H|H].
    + rewrite Forall_forall in F. apply F, nth_In, H.
    + rewrite nth_overflow by assumption. lia.
  - unfold partition_random. destruct (Nat.ltb_spec 0 n); [|lia]. destruct (Z.ltb_spec 0 ub); [|lia]. cbn [assertb bind].
    f_equal. apply (nth_ext_len 0%Z); rewrite map_length, seq_length; [now rewrite L|].
    intros i Hi. rewrite (nth_indep _ 0%Z (nth 0 l 1%Z)) by (rewrite map_length, seq_length; lia).
    rewrite (map_nth (fun i => nth i l 1%Z)), seq_nth by lia. apply nth_indep. lia.
Qed.

(** * Equal products *)

Lemma qprod_cons a l : (qprod (a :: l) == a * qprod l)%Q.
Proof. reflexivity. Qed.

Lemma products_steps ps : forall p0 p1, exists r0 r1,
  foldM (fun st p => let '(p0, p1) := st in Ok (if snd p : bool then (p0, p1 * fst p)%Q else (p0 * fst p, p1)%Q)) ps (p0, p1) = Ok (r0, r1) /\
  (r0 == p0 * qprod (map fst (filter (fun p => Bool.eqb (snd p) false) ps)))%Q /\
  (r1 == p1 * qprod (map fst (filter (fun p => Bool.eqb (snd p) true) ps)))%Q.
Proof.
  induction ps as [|[a b] ps IH]; intros p0 p1.
  - exists p0, p1. cbn. split; [reflexivity|]. now rewrite !Qmult_1_r.
  - cbn [foldM bind]. destruct b; cbn [snd fst].
    + destruct (IH p0 (p1 * a)%Q) as [r0 [r1 [E [E0 E1]]]]. exists r0, r1. split; [exact E|].
      cbn [filter snd Bool.eqb map fst]. split; [exact E0|]. rewrite E1, qprod_cons. ring.
    + destruct (IH (p0 * a)%Q p1) as [r0 [r1 [E [E0 E1]]]]. exists r0, r1. split; [exact E|].
      cbn [filter snd Bool.eqb map fst]. split; [|exact E1]. rewrite E0, qprod_cons. ring.
Qed.

Lemma equal_products_value numbers s : len numbers <= len s ->
  exists r, equal_products_evaluate numbers s = Ok r /\
  (r == - Qabs (qprod (part true numbers s) - qprod (part false numbers s)))%Q.
Proof.
  intros L. unfold equal_products_evaluate.
  rewrite (foldM_eq _ (fun st i => b <- vget s i ;; a <- vget numbers i ;;
    (fun st (b : bool) a => let '(p0, p1) := st in Ok (if b then (p0, p1 * a)%Q else (p0 * a, p1)%Q)) st b a)).
  2: { intros [p q] i _. reflexivity. }
  rewrite (foldM_combine (fun st (b : bool) a => let '(p0, p1) := st in Ok (if b then (p0, p1 * a)%Q else (p0 * a, p1)%Q))) by assumption.
  destruct (products_steps (combine numbers s) 1 1) as [r0 [r1 [E [E0 E1]]]].
  rewrite E. cbn [bind]. eexists. split; [reflexivity|]. unfold part. rewrite E0, E1, !Qmult_1_l. reflexivity.
Qed.

Lemma foldM_bad_at {St} (f : St -> nat -> outcome St) i : forall n a s, a <= i < a + n ->
  (forall s j, a <= j < i -> exists s', f s j = Ok s') -> (forall s, f s i = UB) -> foldM f (seq a n) s = UB.
Proof.
  induction n as [|n IH]; intros a s R H1 H2; [lia|]. cbn [seq foldM]. destruct (Nat.eq_dec a i) as [->|Ne].
  - now rewrite H2.
  - destruct (H1 s a) as [s' Es]; [lia|]. rewrite Es. cbn [bind]. apply IH; [lia| |assumption]. intros; apply H1; lia.
Qed.

Lemma equal_products_short numbers s : len s < len numbers -> equal_products_evaluate numbers s = UB.
Proof.
  intros L. unfold equal_products_evaluate. rewrite (foldM_bad_at _ (len s)); [reflexivity|lia| |].
  - intros [p q] j Hj. rewrite (vget_Ok s j false), (vget_Ok numbers j 0%Q) by lia. cbn [bind]. eauto.
  - intros [p q]. now rewrite vget_UB by lia.
Qed.

Lemma part_complement b {A} (l : list A) x : part b l (complement x) = part (negb b) l x.
Proof.
  unfold part. rewrite combine_complement. induction (combine l x) as [|[a c] ps IH]; [reflexivity|].
  cbn [map filter snd fst]. destruct b, c; cbn [negb Bool.eqb map fst]; rewrite ?IH; reflexivity.
Qed.

Lemma equal_products_complement numbers s : len numbers <= len s ->
  exists r r', equal_products_evaluate numbers s = Ok r /\ equal_products_evaluate numbers (complement s) = Ok r' /\ (r == r')%Q.
Proof.
  intros L. destruct (equal_products_value numbers s L) as [r [E Er]].
  destruct (equal_products_value numbers (complement s)) as [r' [E' Er']]; [now rewrite length_complement|].
  exists r, r'. split; [assumption|]. split; [assumption|]. rewrite Er, Er', !part_complement. cbn [negb].
  rewrite Qabs_Qminus. reflexivity.
Qed.

Lemma Qabs_0_iff a : (Qabs a == 0)%Q <-> (a == 0)%Q.
Proof.
  split; intros H; [|rewrite H; reflexivity]. apply Qle_antisym.
  - rewrite <- H. apply Qle_Qabs.
  - rewrite <- (Qopp_involutive a). change 0%Q with (- 0)%Q. apply Qopp_le_compat. rewrite <- H, <- Qabs_opp. apply Qle_Qabs.
Qed.

Lemma equal_products_max numbers s r : equal_products_evaluate numbers s = Ok r ->
  (r <= 0)%Q /\ ((r == 0)%Q <-> (qprod (part true numbers s) == qprod (part false numbers s))%Q).
Proof.
  intros H. destruct (Nat.le_gt_cases (len numbers) (len s)) as [L|L].
  2: { rewrite equal_products_short in H by assumption. discriminate. }
  destruct (equal_products_value numbers s L) as [r' [E Er]]. rewrite E in H. apply Ok_inj in H. subst r'.
  split.
  - rewrite Er. change 0%Q with (- 0)%Q. apply Qopp_le_compat, Qabs_nonneg.
  - rewrite Er. split; intros K.
    + assert (A : (Qabs (qprod (part true numbers s) - qprod (part false numbers s)) == 0)%Q).
      { rewrite <- (Qopp_involutive (Qabs _)), K. reflexivity. }
      apply (proj1 (Qabs_0_iff _)) in A. rewrite <- (Qplus_0_l (qprod (part false numbers s))), <- A. ring.
    + rewrite K. unfold Qminus. rewrite Qplus_opp_r. reflexivity.
Qed.

(** * Summation cancellation *)

Lemma value_lsb_bound8 l : (value_lsb l < 2 ^ N.of_nat (len l))%N.
Proof.
  induction l as [|b l IH]; [reflexivity|]. cbn [value_lsb List.length]. rewrite Nat2N.inj_succ, N.pow_succ_r'. destruct b; lia.
Qed.

Lemma bits_loop one x l : forall p r base, x = p ++ l -> foldM (fun st j => let '(r, base) := st in
      b <- vget x j ;; Ok (if Bool.eqb b one then (r + base, 2 * base)%Z else (r, 2 * base)%Z)) (seq (len p) (len l)) (r, base) =
  Ok (r + base * Z.of_N (value_lsb (map (fun b => Bool.eqb b one) l)), base * 2 ^ Z.of_nat (len l))%Z.
Proof.
  induction l as [|b l IH]; intros p r base E.
  - cbn. do 2 f_equal; lia.
  - cbn [List.length seq foldM map value_lsb]. rewrite E, vget_here, <- E. cbn [bind].
    specialize (IH (p ++ [b])). rewrite app_length in IH. cbn [List.length] in IH. rewrite Nat.add_1_r in IH.
    assert (E' : x = (p ++ [b]) ++ l) by (rewrite <- app_assoc; exact E).
    rewrite Nat2Z.inj_succ, Z.pow_succ_r by lia.
    destruct (Bool.eqb b one); rewrite IH by exact E'; do 2 f_equal; lia.
Qed.

Lemma bits_value x offset one : offset + 9 <= len x ->
  cancellation_bits x offset one = Ok (Z.of_N (value_lsb (map (fun b => Bool.eqb b one) (firstn 8 (skipn (offset + 1) x))))).
Proof.
  intros L. unfold cancellation_bits.
  set (l := firstn 8 (skipn (offset + 1) x)). assert (Ll : len l = 8) by (unfold l; rewrite firstn_length, skipn_length; lia).
  assert (V : forall j, j < offset + 9 -> vget x j = vget (firstn (offset + 1) x ++ l) j).
  { intros j Hj. unfold l. rewrite <- firstn_add. rewrite !(vget_Ok _ _ false) by (rewrite ?firstn_length; lia).
    f_equal. rewrite <- (firstn_skipn (offset + 1 + 8) x) at 1. rewrite app_nth1 by (rewrite firstn_length; lia). reflexivity. }
  rewrite (foldM_eq _ (fun st j => let '(r, base) := st in
      b <- vget (firstn (offset + 1) x ++ l) j ;; Ok (if Bool.eqb b one then (r + base, 2 * base)%Z else (r, 2 * base)%Z))).
  2: { intros [r base] j Hj. apply in_seq in Hj. rewrite V by lia. destruct (vget _ j); cbn [bind]; auto. now destruct (Bool.eqb a one). }
  assert (G := bits_loop one (firstn (offset + 1) x ++ l) l (firstn (offset + 1) x) 0 1 eq_refl).
  rewrite Ll in G. replace (len (firstn (offset + 1) x)) with (offset + 1) in G by (rewrite firstn_length; lia).
  rewrite G. cbn [bind]. f_equal. lia.
Qed.

Lemma map_eqb_true l : map (fun b => Bool.eqb b true) l = l.
Proof. induction l as [|[|] l IH]; cbn; now rewrite ?IH. Qed.

Lemma value_lsb_negb l : (value_lsb (map (fun b => Bool.eqb b false) l) + value_lsb l = 2 ^ N.of_nat (len l) - 1)%N.
Proof.
  induction l as [|b l IH]; [reflexivity|]. cbn [map value_lsb List.length]. rewrite Nat2N.inj_succ, N.pow_succ_r'.
  assert (0 < 2 ^ N.of_nat (len l))%N by (apply N.neq_0_lt_0, N.pow_nonzero; lia).
  destruct b; cbn [Bool.eqb]; lia.
Qed.

Lemma block_signed9 x offset : offset + 9 <= len x ->
  exists t, firstn 9 (skipn offset x) = nth offset x false :: t /\ t = firstn 8 (skipn (offset + 1) x).
Proof.
  intros L. exists (firstn 8 (skipn (offset + 1) x)). split; [|reflexivity].
  rewrite <- (firstn_skipn offset x) at 2. rewrite app_nth2 by (rewrite firstn_length; lia).
  rewrite firstn_length, Nat.min_l, Nat.sub_diag by lia.
  assert (E : skipn (offset + 1) x = tl (skipn offset x)).
  { clear L. revert x; induction offset as [|o IH]; intros [|b x]; auto. cbn [Nat.add skipn]. apply IH. }
  rewrite E. destruct (skipn offset x) as [|b t] eqn:S; [|reflexivity].
  assert (Q := f_equal (@List.length _) S). rewrite skipn_length in Q. cbn in Q. lia.
Qed.

Lemma convert_Ok size x : 9 * size <= len x -> cancellation_convert size x = Ok (hundredths size x).
Proof.
  intros L. unfold cancellation_convert. destruct (Nat.leb_spec (9 * size) (len x)); [|lia]. cbn [assertb bind].
  destruct (foldM_seq_inv (fun buffer i =>
    let offset := 9 * i in
    sign <- vget x offset ;;
    tmp <- (if negb sign then
              r <- cancellation_bits x offset true ;;
              _ <- assertb (0 <=? r)%Z ;; _ <- assertb (r <=? 255)%Z ;;
              Ok (inject_Z r / 100)%Q
            else
              r <- cancellation_bits x offset false ;;
              let r := (r + 1)%Z in
              _ <- assertb (1 <=? r)%Z ;; _ <- assertb (r <=? 256)%Z ;;
              Ok (inject_Z (- r) / 100)%Q) ;;
    vset buffer i tmp)
    (fun i buffer => len buffer = size /\ forall j, j < i -> nth j buffer 0%Q = nth j (hundredths size x) 0%Q)
    0 size (repeat 0%Q size)) as [b [E [Lb Hb]]].
  - split; [apply repeat_length|]. intros; lia.
  - intros i b Hi [Lb Hb]. cbn zeta. cbn [Nat.add] in *.
    rewrite (vget_Ok x (9 * i) false) by lia. cbn [bind].
    assert (H9 : 9 * i + 9 <= len x) by lia.
    assert (L8 : len (firstn 8 (skipn (9 * i + 1) x)) = 8) by (rewrite firstn_length, skipn_length; lia).
    assert (B8 := value_lsb_bound8 (firstn 8 (skipn (9 * i + 1) x))). rewrite L8 in B8.
    assert (N8 := value_lsb_negb (firstn 8 (skipn (9 * i + 1) x))). rewrite L8 in N8.
    change (2 ^ N.of_nat 8)%N with 256%N in *.
    exists (upd b i (nth i (hundredths size x) 0%Q)).
    assert (Eh : nth i (hundredths size x) 0%Q = (inject_Z (signed9 (firstn 9 (skipn (9 * i) x))) / 100)%Q).
    { unfold hundredths. rewrite (nth_indep _ 0%Q (inject_Z (signed9 (firstn 9 (skipn (9 * 0) x))) / 100)%Q)
        by (rewrite map_length, seq_length; lia).
      rewrite (map_nth (fun i => (inject_Z (signed9 (firstn 9 (skipn (9 * i) x))) / 100)%Q)), seq_nth by lia. reflexivity. }
    split.
    + rewrite Eh. destruct (block_signed9 x (9 * i) H9) as [t [-> ->]]. unfold signed9.
      destruct (nth (9 * i) x false); cbn [negb]; rewrite bits_value by assumption; cbn [bind].
      * set (v := value_lsb (firstn 8 (skipn (9 * i + 1) x))) in *.
        set (w := value_lsb (map (fun b => Bool.eqb b false) (firstn 8 (skipn (9 * i + 1) x)))) in *.
        destruct (Z.leb_spec 1 (Z.of_N w + 1)); [|lia]. destruct (Z.leb_spec (Z.of_N w + 1) 256); [|lia]. cbn [assertb bind].
        replace (- (Z.of_N w + 1))%Z with (Z.of_N v - 256)%Z by lia. apply vset_Ok. lia.
      * rewrite map_eqb_true. set (v := value_lsb (firstn 8 (skipn (9 * i + 1) x))) in *.
        destruct (Z.leb_spec 0 (Z.of_N v)); [|lia]. destruct (Z.leb_spec (Z.of_N v) 255); [|lia]. cbn [assertb bind].
        rewrite Z.sub_0_r. apply vset_Ok. lia.
    + split; [now rewrite length_upd|]. intros j Hj. destruct (Nat.eq_dec j i) as [->|Ne].
      * apply nth_upd_eq. lia.
      * rewrite nth_upd_neq by assumption. apply Hb. lia.
  - refine (eq_trans E _). f_equal. apply (nth_ext_len 0%Q).
    + unfold hundredths. now rewrite map_length, seq_length.
    + intros i Hi. apply Hb. lia.
Qed.

Lemma cancellation_short size x : len x < 9 * size -> cancellation_evaluate size x = UB.
Proof.
  intros L. unfold cancellation_evaluate, cancellation_convert. destruct (Nat.leb_spec (9 * size) (len x)); [lia|]. reflexivity.
Qed.

Lemma qsum_cons a l : qsum (a :: l) = (a + qsum l)%Q.
Proof. reflexivity. Qed.

Lemma fold_left_abs l : forall acc, (fold_left (fun acc a => acc + Qabs a) l acc == acc + qsum (map Qabs l))%Q.
Proof.
  induction l as [|a l IH]; intros acc; cbn [fold_left map]; [change (qsum []) with 0%Q; ring|]. rewrite IH, qsum_cons. ring.
Qed.

Lemma minus_sum_abs_value l : (minus_sum_abs l == - qsum (map Qabs l))%Q.
Proof. unfold minus_sum_abs. rewrite fold_left_abs. ring. Qed.

Lemma qsum_nonneg l : Forall (fun a => 0 <= a)%Q l -> (0 <= qsum l)%Q /\ ((qsum l == 0)%Q <-> Forall (fun a => a == 0)%Q l).
Proof.
  induction 1 as [|a l Ha H [IH1 IH2]]; [split; [apply Qle_refl|split; [constructor|reflexivity]]|]. cbn [qsum fold_right].
  fold (qsum l). split.
  - rewrite <- (Qplus_0_l 0). apply Qplus_le_compat; assumption.
  - split; intros K.
    + assert (A : (a == 0)%Q).
      { apply Qle_antisym; [|assumption]. rewrite <- K. rewrite <- (Qplus_0_r a) at 1. apply Qplus_le_compat; [apply Qle_refl|assumption]. }
      constructor; [assumption|]. apply IH2. rewrite <- K, A. ring.
    + apply Forall_cons_iff in K. destruct K as [K1 K2]. apply IH2 in K2. rewrite K1, K2. ring.
Qed.

Lemma abs_nonneg l : Forall (fun a => 0 <= a)%Q (map Qabs l).
Proof. apply Forall_forall. intros a Ha. apply in_map_iff in Ha. destruct Ha as [b [<- _]]. apply Qabs_nonneg. Qed.

Lemma minus_sum_abs_max l : (minus_sum_abs l <= 0)%Q /\ ((minus_sum_abs l == 0)%Q <-> Forall (fun a => a == 0)%Q l).
Proof.
  destruct (qsum_nonneg (map Qabs l) (abs_nonneg l)) as [P Z]. rewrite minus_sum_abs_value. split.
  - change 0%Q with (- 0)%Q. now apply Qopp_le_compat.
  - assert (E : (- qsum (map Qabs l) == 0)%Q <-> (qsum (map Qabs l) == 0)%Q).
    { split; intros K; [rewrite <- (Qopp_involutive (qsum _)), K|rewrite K]; reflexivity. }
    rewrite E, Z. rewrite !Forall_forall. split; intros K a Ha.
    + apply Qabs_0_iff, K, in_map, Ha.
    + apply in_map_iff in Ha. destruct Ha as [b [<- Hb]]. apply Qabs_0_iff, K, Hb.
Qed.

Lemma partial_sums_zero l : forall acc, (acc == 0)%Q -> (Forall (fun a => a == 0)%Q (partial_sums acc l) <-> Forall (fun a => a == 0)%Q l).
Proof.
  induction l as [|a l IH]; intros acc H; [split; constructor|]. cbn [partial_sums]. rewrite !Forall_cons_iff.
  assert (E : (acc + a == 0)%Q <-> (a == 0)%Q).
  { split; intros K.
    - rewrite <- K, H. ring.
    - rewrite H, K. reflexivity. }
  split; intros [K1 K2].
  - split; [now apply E|]. now apply (IH (acc + a)%Q).
  - apply E in K1. split; [assumption|]. now apply (IH (acc + a)%Q).
Qed.

Lemma partial_sums_value l : forall acc, Forall2 Qeq (partial_sums acc l) (map (fun i => acc + qsum (firstn (i + 1) l))%Q (seq 0 (len l))).
Proof.
  induction l as [|a l IH]; intros acc; [constructor|]. cbn [partial_sums List.length seq map]. constructor.
  - cbn. ring.
  - rewrite <- seq_shift, map_map. specialize (IH (acc + a)%Q).
    assert (G : forall s, Forall2 Qeq (map (fun i => acc + a + qsum (firstn (i + 1) l))%Q s)
      (map (fun i => acc + qsum (firstn (S i + 1) (a :: l)))%Q s)).
    { induction s as [|i s IHs]; cbn [map]; constructor; [|assumption]. cbn [Nat.add firstn qsum fold_right].
      fold (qsum (firstn (i + 1) l)). ring. }
    specialize (G (seq 0 (len l))). revert IH G.
    generalize (partial_sums (acc + a) l), (map (fun i => acc + a + qsum (firstn (i + 1) l))%Q (seq 0 (len l))),
      (map (fun i => acc + qsum (firstn (S i + 1) (a :: l)))%Q (seq 0 (len l))).
    intros l1 l2 l3 H. revert l3. induction H; intros l3 G; inversion G; subst; constructor; auto. now rewrite H.
Qed.

Lemma length_hundredths size x : len (hundredths size x) = size.
Proof. unfold hundredths. now rewrite map_length, seq_length. Qed.

Lemma cancellation_value size x : 9 * size <= len x -> exists r, cancellation_evaluate size x = Ok r /\
  (r == - qsum (map (fun i => Qabs (qsum (firstn (i + 1) (hundredths size x)))) (seq 0 size)))%Q.
Proof.
  intros L. unfold cancellation_evaluate. rewrite convert_Ok by assumption. cbn [bind]. eexists. split; [reflexivity|].
  rewrite minus_sum_abs_value. apply Qopp_comp. assert (G := partial_sums_value (hundredths size x) 0).
  rewrite length_hundredths in G. revert G. generalize (seq 0 size) as s. generalize (partial_sums 0 (hundredths size x)) as l.
  induction l as [|a l IH]; intros s G; destruct s as [|i s]; inversion G; subst; [reflexivity|].
  cbn [map]. rewrite !qsum_cons. apply Qplus_comp; [|apply IH; assumption].
  rewrite H2, Qplus_0_l. reflexivity.
Qed.

Lemma value_lsb_zero l : value_lsb l = 0%N <-> l = repeat false (len l).
Proof.
  induction l as [|b l IH]; [split; reflexivity|]. cbn [value_lsb List.length repeat]. split; intros H.
  - destruct b; [lia|]. f_equal. apply IH. lia.
  - injection H as -> H. apply IH in H. rewrite H. reflexivity.
Qed.

Lemma signed9_zero x : len x = 9 -> signed9 x = 0%Z <-> x = repeat false 9.
Proof.
  destruct x as [|s t]; [discriminate|]. intros L. cbn in L. assert (Lt : len t = 8) by lia. cbn [signed9].
  assert (B := value_lsb_bound8 t). rewrite Lt in B. change (2 ^ N.of_nat 8)%N with 256%N in B. split; intros H.
  - destruct s; [lia|]. assert (E : value_lsb t = 0%N) by lia. apply value_lsb_zero in E. rewrite Lt in E. now rewrite E.
  - change (repeat false 9) with (false :: repeat false 8) in H. injection H as -> H.
    rewrite (proj2 (value_lsb_zero t)); [reflexivity|]. now rewrite Lt.
Qed.

Lemma hundredth_zero z : (inject_Z z / 100 == 0)%Q <-> z = 0%Z.
Proof. unfold Qeq, Qdiv, Qmult, Qinv, inject_Z. cbn [Qnum Qden]. lia. Qed.

Lemma hundredths_zero size x : len x = 9 * size -> (Forall (fun a => a == 0)%Q (hundredths size x) <-> x = zerov (9 * size)).
Proof.
  intros L. unfold zerov. split; intros H.
  - apply (nth_ext_len false); [now rewrite repeat_length|]. intros i Hi. rewrite nth_repeat_lt by lia.
    rewrite Forall_forall in H.
    assert (D := Nat.div_mod i 9 ltac:(lia)). assert (M := Nat.mod_upper_bound i 9 ltac:(lia)).
    set (q := i / 9) in *. set (m := i mod 9) in *. assert (Hq : q < size) by lia.
    specialize (H (inject_Z (signed9 (firstn 9 (skipn (9 * q) x))) / 100)%Q).
    assert (S0 : signed9 (firstn 9 (skipn (9 * q) x)) = 0%Z).
    { apply hundredth_zero. apply H. unfold hundredths. apply in_map_iff. exists q. split; [reflexivity|]. apply in_seq. lia. }
    apply signed9_zero in S0; [|rewrite firstn_length, skipn_length; lia].
    assert (E := f_equal (fun l => nth m l false) S0). cbn beta in E. rewrite nth_repeat_lt in E by lia.
    refine (eq_trans _ E). rewrite D. clear - L Hq M. rewrite <- (firstn_skipn (9 * q) x) at 1.
    rewrite app_nth2 by (rewrite firstn_length; lia). rewrite firstn_length, Nat.min_l by lia.
    replace (9 * q + m - 9 * q) with m by lia. rewrite <- (firstn_skipn 9 (skipn (9 * q) x)) at 1.
    rewrite app_nth1 by (rewrite firstn_length, skipn_length; lia). reflexivity.
  - subst x. clear L. apply Forall_forall. intros a Ha. unfold hundredths in Ha. apply in_map_iff in Ha. destruct Ha as [i [<- Hi]].
    apply in_seq in Hi. apply hundredth_zero, signed9_zero; [rewrite firstn_length, skipn_length, repeat_length; lia|].
    apply (nth_ext_len false); [rewrite firstn_length, skipn_length, !repeat_length; lia|].
    intros j Hj. rewrite firstn_length, skipn_length, repeat_length in Hj. rewrite (nth_repeat_lt false false 9) by lia.
    assert (G : forall (b : bool) l, In b (firstn 9 (skipn (9 * i) l)) -> In b l).
    { intros b l Hb. rewrite <- (firstn_skipn (9 * i) l). apply in_or_app. right.
      rewrite <- (firstn_skipn 9 (skipn (9 * i) l)). apply in_or_app. now left. }
    assert (I := nth_In (firstn 9 (skipn (9 * i) (repeat false (9 * size)))) false (n := j)).
    rewrite firstn_length, skipn_length, repeat_length in I. specialize (I ltac:(lia)). apply G in I.
    now apply repeat_spec in I.
Qed.

Lemma cancellation_max size x : len x = 9 * size -> exists r, cancellation_evaluate size x = Ok r /\
  (r <= 0)%Q /\ ((r == 0)%Q <-> x = zerov (9 * size)).
Proof.
  intros L. unfold cancellation_evaluate. rewrite convert_Ok by lia. cbn [bind]. eexists. split; [reflexivity|].
  destruct (minus_sum_abs_max (partial_sums 0 (hundredths size x))) as [M Z]. split; [exact M|].
  rewrite Z, partial_sums_zero by reflexivity. now apply hundredths_zero.
Qed.

(** * With the sine *)

Lemma sinus_loop sn l : forall pre p, foldM (fun buffer i =>
      p <- vget buffer (i - 1) ;;
      a <- vget buffer i ;;
      vset buffer i (a + sn p)%Q) (seq (len (pre ++ [p])) (len l)) ((pre ++ [p]) ++ l) = Ok ((pre ++ [p]) ++ sinus_terms sn p l).
Proof.
  induction l as [|a l IH]; intros pre p; [reflexivity|]. cbn [List.length seq foldM sinus_terms].
  rewrite app_length at 1. cbn [List.length]. replace (len pre + 1 - 1) with (len pre) by lia.
  rewrite <- (app_assoc pre) at 1. cbn [app]. rewrite vget_here. cbn [bind]. rewrite vget_here. cbn [bind].
  rewrite vset_Ok by (rewrite !app_length; cbn; lia). cbn [bind].
  assert (U : upd ((pre ++ [p]) ++ a :: l) (len (pre ++ [p])) (a + sn p)%Q = ((pre ++ [p]) ++ [(a + sn p)%Q]) ++ l).
  { clear. induction (pre ++ [p]) as [|x q IHq]; [reflexivity|]. cbn [app List.length upd]. now rewrite IHq. }
  rewrite U. specialize (IH (pre ++ [p]) (a + sn p)%Q). rewrite app_length in IH at 1. cbn [List.length] in IH.
  rewrite Nat.add_1_r in IH. rewrite IH. now rewrite <- app_assoc.
Qed.

Lemma sinus_value sn size x : 9 * size <= len x ->
  exists r, sinus_cancellation_evaluate sn size x = Ok r /\
  (r == - qsum (map Qabs (sinus_sequence sn (hundredths size x))))%Q.
Proof.
  intros L. unfold sinus_cancellation_evaluate. rewrite convert_Ok by assumption. cbn [bind].
  assert (F : foldM (fun buffer i => p <- vget buffer (i - 1) ;; a <- vget buffer i ;; vset buffer i (a + sn p)%Q)
    (seq 1 (len (hundredths size x) - 1)) (hundredths size x) = Ok (sinus_sequence sn (hundredths size x))).
  { destruct (hundredths size x) as [|a l]; [reflexivity|]. cbn [List.length sinus_sequence]. rewrite Nat.sub_succ, Nat.sub_0_r.
    exact (sinus_loop sn l [] a). }
  rewrite F. cbn [bind]. eexists. split; [reflexivity|]. apply minus_sum_abs_value.
Qed.

Lemma sinus_terms_zero sn l : (forall a, (a == 0)%Q -> (sn a == 0)%Q) -> forall p, (p == 0)%Q ->
  (Forall (fun a => a == 0)%Q (sinus_terms sn p l) <-> Forall (fun a => a == 0)%Q l).
Proof.
  intros S. induction l as [|a l IH]; intros p P; [split; constructor|]. cbn [sinus_terms]. rewrite !Forall_cons_iff.
  specialize (S p P).
  assert (E : (a + sn p == 0)%Q <-> (a == 0)%Q).
  { split; intros K; [rewrite <- K, S; ring|rewrite K, S; reflexivity]. }
  split; intros [K1 K2].
  - split; [now apply E|]. now apply (IH (a + sn p)%Q).
  - apply E in K1. split; [assumption|]. now apply (IH (a + sn p)%Q).
Qed.

Lemma sinus_max sn size x : (forall a, (a == 0)%Q -> (sn a == 0)%Q) -> len x = 9 * size ->
  exists r, sinus_cancellation_evaluate sn size x = Ok r /\ (r <= 0)%Q /\ ((r == 0)%Q <-> x = zerov (9 * size)).
Proof.
  intros S L. destruct (sinus_value sn size x) as [r [E V]]; [lia|]. exists r. split; [assumption|].
  destruct (minus_sum_abs_max (sinus_sequence sn (hundredths size x))) as [M Z]. rewrite minus_sum_abs_value in M, Z.
  rewrite V. split; [exact M|]. rewrite Z, <- hundredths_zero by assumption.
  destruct (hundredths size x) as [|a l]; [reflexivity|]. cbn [sinus_sequence]. rewrite !Forall_cons_iff.
  split; intros [K1 K2]; (split; [assumption|]); now apply (sinus_terms_zero sn l S a K1).
Qed.
