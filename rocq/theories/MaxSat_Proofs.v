(** Proofs about MAX-SAT: evaluation and random instances. *)

From Coq Require Import ZArith QArith Lqa Sorted.
From Verif Require Import Base BaseLemmas BitVector_Model BitVector_Spec GF2 BitVector_Proofs SortedLemmas Map_Spec
  MaxSat_Model MaxSat_Spec.
Local Close Scope Q_scope.
Local Open Scope nat_scope.
Local Open Scope list_scope.

(** * Counting *)

Lemma counts_le {A} (P : A -> Prop) l k : counts P l k -> k <= length l.
Proof. induction 1; cbn; lia. Qed.

Lemma counts_all {A} (P : A -> Prop) l k : counts P l k -> (k = length l <-> Forall P l).
Proof.
  induction 1 as [|a l k Ha H IH|a l k Ha H IH]; cbn.
  - split; auto.
  - split; [intros E; constructor; auto; apply IH; lia|]. intros F. inversion F; subst. f_equal. now apply IH.
  - split; [|intros F; inversion F; contradiction]. apply counts_le in H. lia.
Qed.

Lemma counts_fun {A} (P : A -> Prop) l k k' : counts P l k -> counts P l k' -> k = k'.
Proof.
  intros H. revert k'. induction H as [|a l k Ha H IH|a l k Ha H IH]; intros k' H'; inversion H'; subst;
    try contradiction; auto.
Qed.

Lemma counts_ext {A} (P R : A -> Prop) l k :
  (forall a, In a l -> (P a <-> R a)) -> counts P l k -> counts R l k.
Proof.
  intros E H. induction H as [|a l k Ha H IH|a l k Ha H IH]; constructor;
    try (apply E; [now left|assumption]); try (apply IH; intros; apply E; now right).
  intros Hr. apply Ha. apply E; [now left|assumption].
Qed.

(** A counting loop *)
Lemma count_loop {A} (P : A -> Prop) (f : A -> outcome bool) l m :
  (forall a, In a l -> exists b, f a = Ok b /\ (b = true <-> P a)) ->
  exists k, foldM (fun r a => b <- f a ;; Ok (if (b : bool) then r + 1 else r)) l m = Ok (m + k) /\ counts P l k.
Proof.
  revert m; induction l as [|a l IH]; intros m H; cbn [foldM].
  - exists 0. rewrite Nat.add_0_r. split; [reflexivity|constructor].
  - destruct (H a (or_introl eq_refl)) as (b & E & Hb). rewrite E. cbn [bind].
    destruct b.
    + destruct (IH (m + 1)) as (k & Ek & Hk); [intros; apply H; now right|].
      exists (S k). rewrite Ek. split; [f_equal; lia|]. apply counts_yes; tauto.
    + destruct (IH m) as (k & Ek & Hk); [intros; apply H; now right|].
      exists k. rewrite Ek. split; [f_equal; lia|]. apply counts_no; auto.
      intros Ha. apply Hb in Ha. discriminate.
Qed.

(** * Evaluation *)

Lemma literal_true_exact x l : literal_of (length x) l ->
  exists b, literal_true x l = Ok b /\ (b = true <-> literal_holds x l).
Proof.
  intros (H0 & Hl). unfold literal_true, literal_holds.
  destruct (Z.ltb_spec 0 l) as [Hp|Hp].
  - replace (Z.to_nat (l - 1)) with (Z.abs_nat l - 1) by lia.
    exists (nth (Z.abs_nat l - 1) x false). rewrite (vget_Ok _ _ false) by lia. split; [reflexivity|].
    rewrite (nth_error_nth' x false) by lia. split.
    + intros ->. left. auto.
    + intros [[_ E]|[E _]]; [now apply Some_inj in E|lia].
  - destruct (Z.ltb_spec l 0) as [Hn|]; [|lia].
    replace (Z.to_nat (- l - 1)) with (Z.abs_nat l - 1) by lia.
    exists (negb (nth (Z.abs_nat l - 1) x false)). rewrite (vget_Ok _ _ false) by lia. split; [reflexivity|].
    rewrite (nth_error_nth' x false) by lia. split.
    + intros E. right. split; auto. f_equal. now apply negb_true_iff.
    + intros [[E _]|[_ E]]; [lia|]. apply Some_inj in E. now rewrite E.
Qed.

Lemma clause_true_exact x c : Forall (literal_of (length x)) c ->
  exists b, clause_true x c = Ok b /\ (b = true <-> clause_holds x c).
Proof.
  induction 1 as [|l c Hl Hc IH]; cbn [clause_true].
  - exists false. split; [reflexivity|]. split; [discriminate|]. intros (l & [] & _).
  - destruct (literal_true_exact x l Hl) as (b & E & Hb). rewrite E. cbn [bind]. destruct b.
    + exists true. split; [reflexivity|]. split; auto. intros _. exists l. split; [now left|]. now apply Hb.
    + destruct IH as (b & Eb & IH). exists b. split; [exact Eb|]. rewrite IH. split.
      * intros (m & Hm & Hh). exists m. split; [now right|assumption].
      * intros (m & [<-|Hm] & Hh); [apply Hb in Hh; discriminate|]. exists m. auto.
Qed.

Theorem maxsat_evaluate_exact e x : expression_of (length x) e ->
  exists k, maxsat_evaluate e x = Ok k /\ counts (clause_holds x) e k /\ k <= length e /\
            (k = length e <-> Forall (clause_holds x) e).
Proof.
  intros H. unfold maxsat_evaluate.
  destruct (count_loop (clause_holds x) (clause_true x) e 0) as (k & E & Hk).
  { intros c Hc. apply clause_true_exact. unfold expression_of in H. rewrite Forall_forall in H. auto. }
  exists k. split; [exact E|]. split; [exact Hk|]. split; [now apply counts_le in Hk|now apply counts_all].
Qed.

Theorem nae_evaluate_exact e x : expression_of (length x) e -> Forall (fun c => length c = 3) e ->
  exists k, nae_evaluate e x = Ok k /\ counts (not_all_equal x) e k /\ k <= length e /\
            (k = length e <-> Forall (not_all_equal x) e).
Proof.
  intros H H3. unfold nae_evaluate.
  pose (f := fun clause => t <- foldM (fun t lit => b <- literal_true x lit ;; Ok (if (b : bool) then t + 1 else t)) clause 0 ;;
               Ok (negb (t =? 0) && negb (t =? 3))).
  assert (forall l m, foldM (fun result clause =>
    t <- foldM (fun t lit => b <- literal_true x lit ;; Ok (if (b : bool) then t + 1 else t)) clause 0 ;;
    Ok (if negb (t =? 0) && negb (t =? 3) then result + 1 else result)) l m =
    foldM (fun r c => b <- f c ;; Ok (if (b : bool) then r + 1 else r)) l m) as G.
  { induction l as [|c l IH]; intros m; cbn [foldM]; auto. unfold f at 1.
    destruct (foldM _ c 0); cbn [bind]; auto. }
  rewrite G.
  destruct (count_loop (not_all_equal x) f e 0) as (k & E & Hk).
  { intros c Hc. unfold expression_of in H. rewrite Forall_forall in H, H3. specialize (H _ Hc). specialize (H3 _ Hc).
    unfold f. destruct (count_loop (literal_holds x) (literal_true x) c 0) as (t & Et & Ht).
    { intros l Hl. rewrite Forall_forall in H. apply literal_true_exact; auto. }
    rewrite Et. cbn [bind]. exists (negb (t =? 0) && negb (t =? 3)). split; [reflexivity|].
    cbn [Nat.add]. rewrite andb_true_iff, !negb_true_iff, !Nat.eqb_neq. clear - Ht H3.
    unfold not_all_equal.
    assert (t <> 0 <-> exists l, In l c /\ literal_holds x l) as H0.
    { clear H3. induction Ht as [|a l k Ha H IH|a l k Ha H IH].
      - split; [lia|]. intros (l & [] & _).
      - split; [|lia]. intros _. exists a. split; [now left|assumption].
      - rewrite IH. split; intros (b & Hb & Hl); [exists b; split; [now right|assumption]|].
        destruct Hb as [<-|Hb]; [contradiction|]. exists b. auto. }
    assert (t <> length c <-> exists l, In l c /\ ~ literal_holds x l) as H1.
    { clear H3 H0. induction Ht as [|a l k Ha H IH|a l k Ha H IH]; cbn [length].
      - split; [lia|]. intros (l & [] & _).
      - assert (S k <> S (length l) <-> k <> length l) as -> by lia. rewrite IH.
        split; intros (b & Hb & Hl); [exists b; split; [now right|assumption]|].
        destruct Hb as [<-|Hb]; [contradiction|]. exists b. auto.
      - apply counts_le in H. split; [|lia]. intros _. exists a. split; [now left|assumption]. }
    rewrite H3 in H1. tauto. }
  exists k. split; [exact E|]. split; [exact Hk|]. split; [now apply counts_le in Hk|now apply counts_all].
Qed.

(** Complementing the bit vector complements the literals. *)
Lemma literal_holds_negate x l : literal_of (length x) l ->
  (literal_holds (map negb x) l <-> ~ literal_holds x l).
Proof.
  intros (H0 & Hl). unfold literal_holds. rewrite nth_error_map.
  rewrite (nth_error_nth' x false) by lia. cbn [option_map]. set (b := nth _ x false).
  destruct (Z.lt_total l 0) as [H|[H|H]]; [|lia|]; destruct b; cbn [negb];
    (split; [intros [[A B]|[A B]] [[C D]|[C D]]; solve [lia|discriminate]
            |intros N; first [left; split; [lia|reflexivity] | right; split; [lia|reflexivity]
                             | exfalso; apply N; first [left; split; [lia|reflexivity]|right; split; [lia|reflexivity]]]]).
Qed.

Theorem nae_evaluate_complement e x : expression_of (length x) e -> Forall (fun c => length c = 3) e ->
  nae_evaluate e (map negb x) = nae_evaluate e x.
Proof.
  intros H H3.
  destruct (nae_evaluate_exact e x H H3) as (k & E & Hk & _).
  destruct (nae_evaluate_exact e (map negb x)) as (k' & E' & Hk' & _); [now rewrite map_length|assumption|].
  rewrite E, E'. f_equal. apply (counts_fun _ _ _ _ Hk'). revert Hk. apply counts_ext.
  intros c Hc. unfold expression_of in H. rewrite Forall_forall in H. specialize (H _ Hc). rewrite Forall_forall in H.
  unfold not_all_equal. split; intros ((l & Hl & Al) & (m & Hm & Am)); (split; [exists m|exists l]; (split; [assumption|])).
  - apply literal_holds_negate; auto.
  - intros N. apply literal_holds_negate in N; auto.
  - destruct (literal_true_exact x m (H m Hm)) as (b & _ & Hb). destruct b; [tauto|].
    exfalso. apply Am. apply literal_holds_negate; auto. intros N. apply Hb in N. discriminate.
  - intros N. apply literal_holds_negate in Al; auto.
Qed.

(** * Random masks: any mask of the given weight can be drawn *)

Definition mask_draw (N : nat) (b : bool) : Q := if b then 0%Q else (Z.of_nat (N - 1) # Pos.of_nat N)%Q.

Lemma mask_draw_range N b : 0 < N -> (0 <= mask_draw N b)%Q /\ (mask_draw N b < 1)%Q.
Proof.
  intros HN. unfold mask_draw. destruct b; [split; lra|]. unfold Qle, Qlt. cbn [Qnum Qden].
  rewrite <- (positive_nat_Z (Pos.of_nat N)), Nat2Pos.id by lia. lia.
Qed.

Lemma weight_le r : weight r <= length r.
Proof.
  unfold weight, ones. rewrite <- (seq_length (length r) 0) at 2. generalize (seq 0 (length r)). intros l.
  induction l as [|a l IH]; cbn; [lia|]. destruct (nth a r false); cbn; lia.
Qed.

Lemma bv_random_weight_loop_any N x r u c :
  0 < N -> length r = length x -> length x <= N ->
  (forall i, i < length r -> u (c + i) = mask_draw N (nth i r false)) ->
  exists c', bv_random_weight_loop x (weight r) (length x) u c = Ok (r, c').
Proof.
  intros HN. revert r c. induction x as [|a x IH]; intros r c Hl HxN Hu.
  - destruct r; [|discriminate]. eexists. reflexivity.
  - destruct r as [|b r]; [discriminate|]. cbn [length] in *. cbn [bv_random_weight_loop].
    destruct (Nat.ltb_spec 0 (weight (b :: r))) as [Hw|Hw].
    + cbn [Nat.ltb Nat.leb assertb bind].
      assert (u c = mask_draw N b) as Ec by (rewrite <- (Nat.add_0_r c), Hu; [reflexivity|lia]).
      replace (S (length x) - 1) with (length x) by lia.
      destruct (IH r (c + 1)) as (c' & E); [lia|lia|intros i Hi; replace (c + 1 + i) with (c + S i) by lia; now rewrite Hu by lia|].
      rewrite Ec. rewrite weight_cons. rewrite weight_cons in Hw.
      destruct b; unfold mask_draw; cbn [Nat.add].
      * assert (Qle_bool (Z.of_nat (S (weight r)) # Pos.of_nat (S (length x))) 0 = false) as ->.
        { apply not_true_is_false. intros F. apply Qle_bool_iff in F. unfold Qle in F. cbn [Qnum Qden] in F. lia. }
        cbn [negb]. replace (S (weight r) - 1) with (weight r) by lia. rewrite E. cbn [bind]. eauto.
      * assert (Qle_bool (Z.of_nat (weight r) # Pos.of_nat (S (length x))) (Z.of_nat (N - 1) # Pos.of_nat N) = true) as ->.
        { apply Qle_bool_iff. unfold Qle. cbn [Qnum Qden].
          rewrite <- (positive_nat_Z (Pos.of_nat N)), <- (positive_nat_Z (Pos.of_nat (S _))), !Nat2Pos.id by lia.
          pose proof (weight_le r) as Hr. rewrite <- !Nat2Z.inj_mul. apply inj_le.
          transitivity (length x * N); [apply Nat.mul_le_mono_r; lia|].
          destruct N as [|N]; [lia|]. replace (S N - 1) with N by lia.
          rewrite !Nat.mul_succ_r, Nat.mul_comm. lia. }
        cbn [negb]. rewrite E. cbn [bind]. eauto.
    + assert (weight (b :: r) = 0) as E0 by lia. rewrite E0.
      apply weight_zero_iff in E0. 
      assert (forall y n c, bv_random_weight_loop y 0 n u c = Ok (zerov (length y), c)) as G.
      { clear. induction y as [|b y IH]; intros n c; cbn; auto. now rewrite IH. }
      rewrite G. cbn [bind]. exists c. f_equal. f_equal. rewrite E0. cbn [length]. replace (length r) with (length x) by lia. reflexivity.
Qed.

Theorem bv_random_weight_any x r : length r = length x ->
  exists u c, (forall i, (0 <= u i)%Q /\ (u i < 1)%Q) /\ bv_random_weight x (weight r) u = Ok (r, c).
Proof.
  intros Hl.
  exists (fun i => mask_draw (S (length x)) (nth i r false)).
  destruct (bv_random_weight_loop_any (S (length x)) x r (fun i => mask_draw (S (length x)) (nth i r false)) 0)
    as (c & E); auto; [lia|].
  exists c. split; [intros i; apply mask_draw_range; lia|].
  unfold bv_random_weight. pose proof (weight_le r). rewrite (proj2 (Nat.leb_le (weight r) (length x))) by lia. exact E.
Qed.

(** * Random clauses *)

Definition sign (b : bool) (j : nat) : Z := if b then Z.of_nat (j + 1) else (- Z.of_nat (j + 1))%Z.
Fixpoint signs (coin : nat -> bool) (t : nat) (js : list nat) : list Z :=
  match js with
  | [] => []
  | j :: js => sign (coin t) j :: signs coin (t + 1) js
  end.

Lemma length_signs coin t js : length (signs coin t js) = length js.
Proof. revert t; induction js; intros; cbn; auto. Qed.

Lemma signs_snoc coin t js j : signs coin t (js ++ [j]) = signs coin t js ++ [sign (coin (t + length js)) j].
Proof.
  revert t; induction js as [|a js IH]; intros t; cbn; [now rewrite Nat.add_0_r|].
  rewrite IH. do 4 f_equal. f_equal. lia.
Qed.

Lemma nth_signs coin t js i l : nth_error (signs coin t js) i = Some l ->
  exists j, nth_error js i = Some j /\ l = sign (coin (t + i)) j.
Proof.
  revert t i; induction js as [|a js IH]; intros t [|i]; cbn; try discriminate.
  - intros E. injection E as <-. exists a. now rewrite Nat.add_0_r.
  - intros E. apply IH in E as (j & E & ->). exists j. split; auto. do 2 f_equal. lia.
Qed.

Lemma upd_app_length {A} (l : list A) a b r : upd (l ++ a :: r) (length l) b = l ++ b :: r.
Proof. induction l; cbn; congruence. Qed.

Lemma random_literals_exact k x coin : length (ones x) = k ->
  random_literals k x coin = Ok (signs coin 0 (ones x), k).
Proof.
  intros Hk. unfold random_literals.
  destruct (foldM_seq_inv (fun '(clause, count) j =>
    b <- vget x j ;;
    if (b : bool) then
      clause <- vset clause count (if coin count then Z.of_nat (j + 1) else - Z.of_nat (j + 1))%Z ;;
      Ok (clause, count + 1)
    else Ok (clause, count))
    (fun i st => let js := filter (fun j => nth j x false) (seq 0 i) in
       st = (signs coin 0 js ++ repeat 0%Z (k - length js), length js)) 0 (length x) (repeat 0%Z k, 0))
    as (st & E & Hst).
  - cbn. now rewrite Nat.sub_0_r.
  - intros i st Hi ->. rewrite (vget_Ok _ _ false) by lia. cbn [bind].
    rewrite Nat.add_1_r, seq_S, filter_app. cbn [filter Nat.add].
    destruct (nth i x false) eqn:Ei; [|rewrite app_nil_r; eauto].
    set (js := filter _ (seq 0 i)).
    assert (length js < k) as Hlt.
    { subst k js. unfold ones. rewrite (seq_split_at 0 (length x) i), filter_app, app_length by lia. cbn [filter Nat.add].
      replace (0 + i) with i by lia. rewrite Ei. cbn [length]. rewrite ?Nat.sub_0_r. lia. }
    rewrite vset_Ok by (rewrite app_length, length_signs, repeat_length; lia). cbn [bind].
    eexists. split; [reflexivity|]. rewrite app_length. cbn [length].
    f_equal. rewrite signs_snoc. replace (k - length js) with (S (k - (length js + 1))) by lia. cbn [repeat].
    pose proof (upd_app_length (signs coin 0 js) 0%Z (sign (coin (length js)) i) (repeat 0%Z (k - (length js + 1)))) as U.
    rewrite length_signs in U.
    replace (if coin (length js) then Z.of_nat (S i) else (- Z.of_nat (S i))%Z) with (sign (coin (length js)) i)
      by (unfold sign; now rewrite Nat.add_1_r).
    refine (eq_trans U _). rewrite <- app_assoc. reflexivity.
  - refine (eq_trans E _). rewrite Hst. cbn [Nat.add]. fold (ones x). rewrite Hk, Nat.sub_diag. cbn [repeat]. now rewrite app_nil_r.
Qed.

Lemma random_clause_exact k x coin : length (ones x) = k ->
  random_clause k x coin = Ok (signs coin 0 (ones x)).
Proof.
  intros H. unfold random_clause. rewrite random_literals_exact by auto. cbn [bind].
  rewrite bv_hamming_weight_spec. unfold weight. rewrite H, Nat.eqb_refl. reflexivity.
Qed.

Lemma abs_sign b j : Z.abs_nat (sign b j) = j + 1.
Proof. unfold sign. destruct b; lia. Qed.

Lemma increasing_nth l i j a b : increasing l -> i < j -> nth_error l i = Some a -> nth_error l j = Some b -> a < b.
Proof.
  intros H. revert i j. induction H as [|c l H IH HF]; intros [|i] [|j] Hij; cbn; try lia; try discriminate.
  - intros E E'. injection E as ->. rewrite Forall_forall in HF. apply HF. now apply nth_error_In in E'.
  - intros E E'. apply (IH i j); auto. lia.
Qed.

Lemma increasing_ones x : increasing (ones x).
Proof. apply increasing_filter, increasing_seq. Qed.

Lemma ones_lt x i : In i (ones x) -> i < length x.
Proof. unfold ones. rewrite filter_In, in_seq. lia. Qed.

Lemma signs_clause_of n k coin x : length x = n -> length (ones x) = k ->
  clause_of n k (signs coin 0 (ones x)) /\ signs_drawn coin (signs coin 0 (ones x)).
Proof.
  intros Hn Hk. split; [split; [now rewrite length_signs|split]|].
  - apply Forall_forall. intros l Hl. apply In_nth_error in Hl as (t & Hl).
    apply nth_signs in Hl as (j & Ej & ->). apply nth_error_In, ones_lt in Ej.
    split; [unfold sign; destruct (coin _); lia|rewrite abs_sign; lia].
  - intros i j l m Hij El Em. apply nth_signs in El as (a & Ea & ->). apply nth_signs in Em as (b & Eb & ->).
    rewrite !abs_sign. pose proof (increasing_nth _ _ _ _ _ (increasing_ones x) Hij Ea Eb). lia.
  - intros t l El. apply nth_signs in El as (j & Ej & ->). cbn [Nat.add]. unfold sign.
    destruct (coin t); [|split; [lia|discriminate]]. split; [auto|lia].
Qed.

(** Every clause on k distinct variables, in order, can be drawn. *)
Lemma clause_of_signs n k c : clause_of n k c ->
  exists x coin, length x = n /\ length (ones x) = k /\ signs coin 0 (ones x) = c.
Proof.
  intros (Hk & Hv & Hi).
  set (V := map (fun l => Z.abs_nat l - 1) c).
  assert (increasing V) as HV.
  { assert (forall c, Forall (literal_of n) c ->
        (forall i j l m, i < j -> nth_error c i = Some l -> nth_error c j = Some m -> Z.abs_nat l < Z.abs_nat m) ->
        increasing (map (fun l => Z.abs_nat l - 1) c)) as G; [|apply G; auto].
    clear. induction c as [|l c IH]; intros Hv Hi; cbn; constructor.
    - apply IH; [now inversion Hv|]. intros i j a b Hij. apply (Hi (S i) (S j)). lia.
    - inversion Hv as [|? ? Hl Hc]; subst. apply Forall_forall. intros a Ha. apply in_map_iff in Ha as (m & <- & Hm).
      apply In_nth_error in Hm as (j & Ej). specialize (Hi 0 (S j) l m ltac:(lia) eq_refl Ej).
      destruct Hl as [Hl _]. lia. }
  set (x := map (fun j => existsb (Nat.eqb j) V) (seq 0 n)).
  assert (length x = n) as Hx by (unfold x; now rewrite map_length, seq_length).
  assert (ones x = V) as Ho.
  { apply increasing_ext; [apply increasing_ones|assumption|]. intros j. unfold ones. rewrite filter_In, in_seq, Hx.
    split.
    - intros (Hj & E). unfold x in E. rewrite (nth_indep _ false (existsb (Nat.eqb 0) V)) in E
        by (rewrite map_length, seq_length; lia).
      rewrite (map_nth (fun j => existsb (Nat.eqb j) V)), seq_nth in E by lia. cbn [Nat.add] in E.
      apply existsb_exists in E as (v & Hin & E). apply Nat.eqb_eq in E. now rewrite E.
    - intros Hj. assert (j < n) as Hjn.
      { unfold V in Hj. apply in_map_iff in Hj as (l & <- & Hl). rewrite Forall_forall in Hv.
        destruct (Hv _ Hl). lia. }
      split; [lia|]. unfold x. rewrite (nth_indep _ false (existsb (Nat.eqb 0) V)) by (rewrite map_length, seq_length; lia).
      rewrite (map_nth (fun j => existsb (Nat.eqb j) V)), seq_nth by lia. cbn [Nat.add].
      apply existsb_exists. exists j. now rewrite Nat.eqb_refl. }
  exists x, (fun t => Z.ltb 0 (nth t c 0%Z)). split; [assumption|]. split; [rewrite Ho; unfold V; now rewrite map_length|].
  rewrite Ho. unfold V.
  assert (forall c' t, Forall (literal_of n) c' -> (forall i, nth i c' 0%Z = nth (t + i) c 0%Z) ->
     signs (fun t => Z.ltb 0 (nth t c 0%Z)) t (map (fun l => Z.abs_nat l - 1) c') = c') as G.
  { clear. induction c' as [|l c' IH]; intros t Hv E; cbn; auto. inversion Hv as [|? ? (H0 & _) Hv']; subst. f_equal.
    - rewrite <- (Nat.add_0_r t), <- E. cbn. unfold sign. destruct (Z.ltb_spec 0 l); lia.
    - apply IH; auto. intros i. replace (t + 1 + i) with (t + S i) by lia. now rewrite <- E. }
  apply G; auto.
Qed.

(** * Random instances *)

Definition drawn_uniformly (u : nat -> nat -> Q) : Prop := forall i j, (0 <= u i j)%Q /\ (u i j < 1)%Q.

Theorem maxsat_random_exact n k c u coin :
  0 < k -> k <= n -> 0 < c -> drawn_uniformly u ->
  exists e, maxsat_random n k c u coin = Ok e /\ length e = c /\
            forall i cl, nth_error e i = Some cl -> clause_of n k cl /\ signs_drawn (coin i) cl.
Proof.
  intros Hk Hkn Hc Hu. unfold maxsat_random.
  rewrite !(fun a b => proj2 (Nat.ltb_lt a b)) by lia. rewrite (proj2 (Nat.leb_le k n)) by lia. cbn [assertb bind].
  destruct (foldM_seq_inv (fun '(e, x) i =>
      '(x, _) <- bv_random_weight x k (u i) ;;
      clause <- random_clause k x (coin i) ;;
      Ok (e ++ [clause], x))
    (fun i '(e, x) => length e = i /\ length x = n /\
       forall i cl, nth_error e i = Some cl -> clause_of n k cl /\ signs_drawn (coin i) cl)
    0 c ([], repeat false n)) as ([e x] & E & Hl & _ & He).
  - split; [reflexivity|]. split; [apply repeat_length|]. intros [|i] cl; discriminate.
  - intros i [e x] Hi (Hl & Hx & He).
    destruct (proj1 (bv_random_weight_exact x k (u i) (Hu i)) ltac:(lia)) as (r & d & E & Hr & Hw).
    rewrite E. cbn [bind]. rewrite random_clause_exact by assumption. cbn [bind].
    eexists. split; [reflexivity|]. split; [rewrite app_length; cbn; lia|]. split; [lia|].
    intros j cl Ej. destruct (Nat.lt_ge_cases j (length e)) as [Hj|Hj].
    + rewrite nth_error_app1 in Ej by lia. auto.
    + rewrite nth_error_app2 in Ej by lia. destruct (j - length e) as [|m] eqn:Em; cbn in Ej; [|destruct m; discriminate].
      injection Ej as <-. replace j with i by lia. apply signs_clause_of; auto; congruence.
  - rewrite E. cbn [bind]. exists e. auto.
Qed.

Theorem maxsat_random_any n k e :
  0 < k -> k <= n -> 0 < length e -> Forall (clause_of n k) e ->
  exists u coin, drawn_uniformly u /\ maxsat_random n k (length e) u coin = Ok e.
Proof.
  intros Hk Hkn Hc He.
  assert (forall i, exists uc : (nat -> Q) * (nat -> bool),
     (forall j, (0 <= fst uc j)%Q /\ (fst uc j < 1)%Q) /\
     (i < length e -> exists r d, length r = n /\ length (ones r) = k /\
        (forall x, length x = n -> exists d, bv_random_weight x k (fst uc) = Ok (r, d)) /\
        nth_error e i = Some (signs (snd uc) 0 (ones r)) /\ d = 0)) as H.
  { intros i. destruct (Nat.lt_ge_cases i (length e)) as [Hi|Hi].
    - destruct (nth_error e i) as [cl|] eqn:Ei; [|apply nth_error_None in Ei; lia].
      rewrite Forall_forall in He. destruct (clause_of_signs n k cl) as (r & coin & Hr & Hw & Es).
      { apply He. now apply nth_error_In in Ei. }
      exists (fun j => mask_draw (S n) (nth j r false), coin). cbn [fst snd].
      split; [intros j; apply mask_draw_range; lia|]. intros _. exists r, 0. split; [assumption|]. split; [assumption|].
      split; [|now rewrite Es].
      intros x Hx. unfold bv_random_weight. rewrite (proj2 (Nat.leb_le k (length x))) by lia. cbn [assertb bind].
      replace k with (weight r) by exact Hw. apply (bv_random_weight_loop_any (S n)); auto; lia.
    - exists (fun _ => 0%Q, fun _ => true). cbn. split; [intros; lra|lia]. }
  (* the draws of each clause, gathered *)
  assert (forall m, exists u coin, drawn_uniformly u /\
     forall i, i < m -> i < length e -> exists r, length r = n /\ length (ones r) = k /\
        (forall x, length x = n -> exists d, bv_random_weight x k (u i) = Ok (r, d)) /\
        nth_error e i = Some (signs (coin i) 0 (ones r))) as G.
  { induction m as [|m (u & coin & Hu & IH)].
    - exists (fun _ _ => 0%Q), (fun _ _ => true). split; [intros i j; lra|lia].
    - destruct (H m) as ((um & cm) & Hum & Hm). cbn [fst snd] in *.
      exists (fun i => if i =? m then um else u i), (fun i => if i =? m then cm else coin i).
      split; [intros i j; cbn; destruct (i =? m); auto|].
      intros i Hi Hie. cbn. destruct (Nat.eqb_spec i m) as [->|Hne]; [|apply IH; lia].
      destruct (Hm Hie) as (r & d & ? & ? & ? & ? & ?). exists r. auto. }
  destruct (G (length e)) as (u & coin & Hu & HG). exists u, coin. split; [assumption|].
  unfold maxsat_random. rewrite !(fun a b => proj2 (Nat.ltb_lt a b)) by lia. rewrite (proj2 (Nat.leb_le k n)) by lia. cbn [assertb bind].
  destruct (foldM_seq_inv (fun '(e, x) i =>
      '(x, _) <- bv_random_weight x k (u i) ;;
      clause <- random_clause k x (coin i) ;;
      Ok (e ++ [clause], x))
    (fun i '(e', x) => length x = n /\ e' = firstn i e) 0 (length e) ([], repeat false n)) as ([e' x] & E & _ & He').
  - split; [apply repeat_length|reflexivity].
  - intros i [e' x] Hi (Hx & ->). destruct (HG i ltac:(lia) ltac:(lia)) as (r & Hr & Hw & Hd & Hn).
    destruct (Hd x Hx) as (d & ->). cbn [bind]. rewrite random_clause_exact by assumption. cbn [bind].
    eexists. split; [reflexivity|]. split; [assumption|]. rewrite firstn_add. f_equal.
    clear - Hn. revert Hn. generalize (signs (coin i) 0 (ones r)) as cl. revert i. induction e as [|a e IH]; intros [|i] cl; cbn; try discriminate.
    + intros E. now injection E as ->.
    + apply IH.
  - rewrite E. cbn [bind]. rewrite He'. cbn [Nat.add]. now rewrite firstn_all.
Qed.

(** ** Planted solution *)

Lemma literal_holds_opposite x l : literal_of (length x) l -> ~ literal_holds x l -> literal_holds x (- l).
Proof.
  intros (H0 & Hl) N. unfold literal_holds in *. replace (Z.abs_nat (- l)) with (Z.abs_nat l) by lia.
  rewrite (nth_error_nth' x false) in * by lia.
  destruct (Z.lt_total l 0) as [H|[H|H]]; [|lia|]; destruct (nth _ x false).
  - left. split; [lia|reflexivity].
  - exfalso. apply N. right. auto.
  - exfalso. apply N. left. auto.
  - right. split; [lia|reflexivity].
Qed.

Definition pick_each (pick : nat -> nat -> nat -> nat) : Prop := forall i, in_range (pick i).

Lemma plant_exact solution k pick cl :
  0 < k -> in_range pick -> clause_of (length solution) k cl ->
  exists cl', plant solution pick cl = Ok cl' /\ clause_of (length solution) k cl' /\ clause_holds solution cl' /\
    (clause_holds solution cl -> cl' = cl) /\
    (~ clause_holds solution cl -> exists t l, t < k /\ nth_error cl t = Some l /\ cl' = upd cl t (- l)%Z).
Proof.
  intros Hk Hp H. pose proof H as (Hl & Hv & Hi). unfold plant.
  destruct (clause_true_exact solution cl Hv) as (b & E & Hb). rewrite E. cbn [bind]. destruct b.
  - exists cl. split; [reflexivity|]. split; [assumption|]. split; [now apply Hb|]. split; auto.
    intros N. exfalso. apply N. now apply Hb.
  - assert (~ clause_holds solution cl) as N by (intros N; apply Hb in N; discriminate).
    set (t := pick 0 (length cl - 1)). assert (t < length cl) as Ht by (specialize (Hp 0 (length cl - 1) ltac:(lia)); lia).
    rewrite (vget_Ok _ _ 0%Z) by lia. cbn [bind]. rewrite vset_Ok by lia. set (l := nth t cl 0%Z).
    assert (nth_error cl t = Some l) as El by (apply nth_error_nth'; lia).
    assert (literal_of (length solution) l) as Hlit.
    { rewrite Forall_forall in Hv. apply Hv. now apply nth_error_In in El. }
    assert (forall i, nth_error (upd cl t (- l)%Z) i = if i =? t then Some (- l)%Z else nth_error cl i) as Eu.
    { intros i. rewrite nth_error_upd. rewrite (proj2 (Nat.ltb_lt t (length cl))) by lia. now rewrite andb_true_r. }
    exists (upd cl t (- l)%Z). split; [reflexivity|]. split; [|split].
    + split; [now rewrite length_upd|]. split.
      * apply Forall_forall. intros m Hm. apply In_upd in Hm as [->|Hm].
        -- destruct Hlit. split; lia.
        -- rewrite Forall_forall in Hv. auto.
      * intros i j a b Hij. rewrite !Eu.
        destruct (Nat.eqb_spec i t) as [->|Hit]; destruct (Nat.eqb_spec j t) as [->|Hjt]; try lia; intros Ea Eb.
        -- injection Ea as <-. specialize (Hi _ _ _ _ Hij El Eb). lia.
        -- injection Eb as <-. specialize (Hi _ _ _ _ Hij Ea El). lia.
        -- eauto.
    + exists (- l)%Z. split.
      * apply (nth_error_In _ t). now rewrite Eu, Nat.eqb_refl.
      * apply literal_holds_opposite; auto. intros Hh. apply N. exists l. split; auto. now apply nth_error_In in El.
    + split; [contradiction|]. intros _. exists t, l. split; [lia|]. auto.
Qed.

Theorem maxsat_planted_exact solution k c u coin pick :
  0 < k -> k <= length solution -> 0 < c -> drawn_uniformly u -> pick_each pick ->
  exists e, maxsat_planted solution k c u coin pick = Ok e /\ length e = c /\
            Forall (clause_of (length solution) k) e /\
            Forall (clause_holds solution) e /\
            maxsat_evaluate e solution = Ok c /\
            exists e0, maxsat_random (length solution) k c u coin = Ok e0 /\
              forall i cl0 cl, nth_error e0 i = Some cl0 -> nth_error e i = Some cl ->
                (clause_holds solution cl0 -> cl = cl0) /\
                (~ clause_holds solution cl0 -> exists t l, t < k /\ nth_error cl0 t = Some l /\ cl = upd cl0 t (- l)%Z).
Proof.
  intros Hk Hkn Hc Hu Hp. set (n := length solution) in *.
  destruct (maxsat_random_exact n k c u coin Hk Hkn Hc Hu) as (e0 & E0 & Hl0 & He0).
  pose proof E0 as E0'. unfold maxsat_random in E0'.
  rewrite !(fun a b => proj2 (Nat.ltb_lt a b)) in E0' by lia. rewrite (proj2 (Nat.leb_le k n)) in E0' by lia. cbn [assertb bind] in E0'.
  unfold maxsat_planted.
  rewrite !(fun a b => proj2 (Nat.ltb_lt a b)) by lia. fold n. rewrite (proj2 (Nat.leb_le k n)) by lia. cbn [assertb bind].
  set (f0 := fun '(e, x) i =>
      '(x, _) <- bv_random_weight x k (u i) ;;
      clause <- random_clause k x (coin i) ;;
      Ok (e ++ [clause], x)) in *.
  set (f := fun '(e, x) i =>
      '(x, _) <- bv_random_weight x k (u i) ;;
      clause <- random_clause k x (coin i) ;;
      clause <- plant solution (pick i) clause ;;
      Ok (e ++ [clause], x)).
  pose (R := fun cl0 cl => clause_of n k cl /\ clause_holds solution cl /\
     (clause_holds solution cl0 -> cl = cl0) /\
     (~ clause_holds solution cl0 -> exists t l, t < k /\ nth_error cl0 t = Some l /\ cl = upd cl0 t (- l)%Z)).
  assert (forall m, exists e0 e x, foldM f0 (seq 0 m) ([], repeat false n) = Ok (e0, x) /\
     foldM f (seq 0 m) ([], repeat false n) = Ok (e, x) /\ length x = n /\ Forall2 R e0 e) as G.
  { induction m as [|m (a0 & a & x & Ea0 & Ea & Hx & HR)].
    - exists [], [], (repeat false n). repeat split; auto. apply repeat_length.
    - rewrite seq_S, !foldM_app, Ea0, Ea. cbn [bind foldM Nat.add].
      destruct (proj1 (bv_random_weight_exact x k (u m) (Hu m)) ltac:(lia)) as (r & d & Er & Hr & Hw).
      destruct (signs_clause_of n k (coin m) r) as (Hcl & _); [congruence|assumption|].
      destruct (plant_exact solution k (pick m) _ Hk (Hp m) Hcl) as (cl & Ecl & Hcl' & Hh & H1 & H2).
      unfold f0, f. rewrite Er. cbn [bind]. rewrite random_clause_exact by assumption. cbn [bind].
      rewrite Ecl. cbn [bind]. do 3 eexists. split; [reflexivity|]. split; [reflexivity|]. split; [congruence|].
      apply Forall2_app; auto. constructor; [|constructor]. split; [assumption|]. split; [assumption|]. split; assumption. }
  destruct (G c) as (a0 & e & x & Ea0 & Ea & Hx & HR).
  rewrite Ea0 in E0'. cbn [bind] in E0'. apply Ok_inj in E0'. subst a0.
  rewrite Ea. cbn [bind].
  assert (length e = c) as Hle by (rewrite <- Hl0; clear - HR; induction HR; cbn; congruence).
  assert (Forall (clause_of n k) e) as Hcl.
  { clear - HR. induction HR as [|? ? ? ? H]; constructor; auto. apply H. }
  assert (Forall (clause_holds solution) e) as Hh.
  { clear - HR. induction HR as [|? ? ? ? H]; constructor; auto. apply H. }
  assert (maxsat_evaluate e solution = Ok c) as Ev.
  { destruct (maxsat_evaluate_exact e solution) as (v & Ev & _ & _ & Hv).
    - apply Forall_forall. intros cl Hin. rewrite Forall_forall in Hcl. now destruct (Hcl _ Hin) as (_ & ? & _).
    - rewrite Ev. f_equal. rewrite <- Hle. now apply Hv. }
  rewrite Ev. cbn [bind]. rewrite Hle, Nat.eqb_refl. cbn [assertb bind].
  exists e. split; [reflexivity|]. split; [assumption|]. split; [assumption|]. split; [assumption|]. split; [exact Ev|].
  exists e0. split; [assumption|]. clear - HR. induction HR as [|? ? ? ? H HR IH]; intros [|i] cl0 cl; cbn; try discriminate.
  - intros A B. injection A as <-. injection B as <-. split; apply H.
  - apply IH.
Qed.
