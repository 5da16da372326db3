(** Proofs about the distributions of samples. *)

From Coq Require Import QArith Sorted Permutation.
From Verif Require Import Base BaseLemmas BitVector_Model BitVector_Spec GF2 SortedLemmas Neighborhood_Model Neighborhood_Spec Neighborhood_Proofs Sampling_Spec.
Local Open Scope nat_scope.

(** * Tallies *)

Lemma tally_ext {A} (P Q : A -> bool) l : (forall a, In a l -> P a = Q a) -> tally P l = tally Q l.
Proof. intros H. unfold tally. now rewrite (filter_ext_in P Q l H). Qed.
Lemma tally_nil {A} (P : A -> bool) : tally P [] = 0.
Proof. reflexivity. Qed.
Lemma tally_cons {A} (P : A -> bool) a l : tally P (a :: l) = (if P a then 1 else 0) + tally P l.
Proof. unfold tally. cbn. destruct (P a); reflexivity. Qed.
Lemma tally_app {A} (P : A -> bool) l k : tally P (l ++ k) = tally P l + tally P k.
Proof. unfold tally. now rewrite filter_app, app_length. Qed.
Lemma tally_map {A B} (f : A -> B) P l : tally P (map f l) = tally (fun a => P (f a)) l.
Proof. induction l as [|a l IH]; [reflexivity|]. cbn [map]. now rewrite !tally_cons, IH. Qed.
Lemma tally_true {A} (l : list A) : tally (fun _ => true) l = length l.
Proof. induction l; [reflexivity|]. rewrite tally_cons. cbn. now rewrite IHl. Qed.
Lemma tally_false {A} (P : A -> bool) (l : list A) : (forall a, In a l -> P a = false) -> tally P l = 0.
Proof. induction l as [|a l IH]; intros H; [reflexivity|]. rewrite tally_cons, (H a) by now left. apply IH. intros. apply H. now right. Qed.
Lemma tally_negb {A} (P : A -> bool) l : tally (fun a => negb (P a)) l + tally P l = length l.
Proof. induction l as [|a l IH]; [reflexivity|]. rewrite !tally_cons. cbn [length]. destruct (P a); cbn; lia. Qed.

Lemma sequences_length {A} (l : list A) L : length (sequences l L) = length l ^ L.
Proof.
  induction L as [|L IH]; [reflexivity|]. cbn [sequences Nat.pow]. rewrite <- IH. generalize (sequences l L). intros s. clear.
  induction l as [|a l IH]; [reflexivity|]. cbn [flat_map length]. rewrite app_length, map_length, IH. lia.
Qed.
Lemma in_sequences {A} (l : list A) L s : In s (sequences l L) <-> length s = L /\ Forall (fun a => In a l) s.
Proof.
  revert s. induction L as [|L IH]; intros s; cbn [sequences].
  - split; [intros [<-|[]]; auto|]. intros [H _]. destruct s; [now left|discriminate].
  - rewrite in_flat_map. split.
    + intros (a & Ha & (s' & <- & H)%in_map_iff). apply IH in H as [H1 H2]. cbn. auto.
    + intros [H1 H2]. destruct s as [|a s]; [discriminate|]. inversion H2; subst. exists a. split; [auto|]. apply in_map, IH. auto.
Qed.

(** The first draw decides between two continuations. *)
Lemma tally_choice {A} (f : A -> bool) (P P1 P2 : list A -> bool) l L :
  (forall a s, In a l -> In s (sequences l L) -> P (a :: s) = if f a then P1 s else P2 s) ->
  tally P (sequences l (S L)) = tally f l * tally P1 (sequences l L) + tally (fun a => negb (f a)) l * tally P2 (sequences l L).
Proof.
  cbn [sequences]. generalize (sequences l L). intros S0. induction l as [|a l IH]; intros H; [reflexivity|].
  cbn [flat_map]. rewrite tally_app, IH, !tally_cons by (intros; apply H; [now right|assumption]). rewrite tally_map.
  assert (E : tally (fun s => P (a :: s)) S0 = if f a then tally P1 S0 else tally P2 S0).
  { destruct (f a) eqn:F; apply tally_ext; intros s Hs; rewrite (H a s) by (auto; now left); now rewrite F. }
  rewrite E. destruct (f a); cbn [negb]; ring.
Qed.
(** The first draw does not matter. *)
Lemma tally_skip {A} (P P1 : list A -> bool) l L : (forall a s, In a l -> P (a :: s) = P1 s) ->
  tally P (sequences l (S L)) = length l * tally P1 (sequences l L).
Proof.
  intros H. rewrite (tally_choice (fun _ => true) P P1 P1 l L); [|auto]. rewrite tally_true, (tally_false (fun _ => negb true)) by auto. lia.
Qed.

(** * Uniform numbers *)

Lemma grid_length N : length (grid N) = N.
Proof. unfold grid. now rewrite map_length, seq_length. Qed.

Lemma tally_below n N : n <= N -> tally (fun j => j <? n) (seq 0 N) = n.
Proof.
  intros H. replace N with (n + (N - n)) by lia. rewrite seq_app, tally_app.
  rewrite (tally_ext _ (fun _ => true)), tally_true, seq_length.
  - rewrite tally_false; [lia|]. intros a Ha. apply in_seq in Ha. apply Nat.ltb_ge. lia.
  - intros a Ha. apply in_seq in Ha. apply Nat.ltb_lt. lia.
Qed.

Lemma tally_grid N q m k : 0 < N -> 0 < m -> N = m * q -> k <= m ->
  tally (fun u => negb (Qle_bool (Qmake (Z.of_nat k) (Pos.of_nat m)) u)) (grid N) = k * q.
Proof.
  intros HN Hm E Hk. unfold grid. rewrite tally_map.
  rewrite (tally_ext _ (fun j => j <? k * q)); [apply tally_below; rewrite E; nia|].
  intros j _. unfold Qle_bool. cbn [Qnum Qden].
  assert (P : forall a, 0 < a -> Z.pos (Pos.of_nat a) = Z.of_nat a) by (intros a Ha; rewrite <- (Nat2Pos.id a) at 2 by lia; now rewrite positive_nat_Z).
  rewrite !P by auto. destruct (Z.leb_spec (Z.of_nat k * Z.of_nat N) (Z.of_nat j * Z.of_nat m)) as [H|H], (Nat.ltb_spec j (k * q)) as [K|K]; auto; exfalso.
  - assert (H' : k * N <= j * m) by lia. rewrite E in H'. nia.
  - assert (H' : j * m < k * N) by lia. rewrite E in H'. nia.
Qed.

(** * Binomial coefficients *)

Lemma binom_0 n : binom n 0 = 1.
Proof. destruct n; reflexivity. Qed.
Lemma binom_over n : forall k, n < k -> binom n k = 0.
Proof. induction n as [|n IH]; intros [|k] H; try lia; [reflexivity|]. cbn [binom]. rewrite !IH by lia. reflexivity. Qed.
Lemma binom_absorb n : forall k, S k * binom (S n) (S k) = S n * binom n k.
Proof.
  induction n as [|n IH]; intros k.
  - destruct k as [|k]; [reflexivity|]. cbn [binom]. rewrite !Nat.mul_0_r. reflexivity.
  - change (binom (S (S n)) (S k)) with (binom (S n) k + binom (S n) (S k)). destruct k as [|k].
    + rewrite binom_0. specialize (IH 0). rewrite binom_0 in IH. lia.
    + pose proof (IH (S k)) as H1. pose proof (IH k) as H2.
      change (binom (S n) (S k)) with (binom n k + binom n (S k)) in *.
      rewrite Nat.mul_add_distr_l. rewrite H1. lia.
Qed.
Lemma binom_absorb' n k : k <= n -> (S n - k) * binom (S n) k = S n * binom n k.
Proof.
  intros H. destruct k as [|k]; [rewrite !binom_0; lia|].
  pose proof (binom_absorb n k) as H1. rewrite Nat.mul_sub_distr_r, H1.
  change (binom (S n) (S k)) with (binom n k + binom n (S k)). rewrite Nat.mul_add_distr_l. lia.
Qed.

(** * Vectors of a given weight *)

Lemma weight_loop_ext x : forall k n u v c, (forall i, c <= i -> u i = v i) -> bv_random_weight_loop x k n u c = bv_random_weight_loop x k n v c.
Proof.
  induction x as [|b x IH]; intros k n u v c H; [reflexivity|]. cbn [bv_random_weight_loop].
  rewrite (H c) by lia. rewrite (IH (k - 1) (n - 1) u v (c + 1)), (IH k (n - 1) u v (c + 1)), (IH k n u v c); auto; intros; apply H; lia.
Qed.
Lemma weight_loop_0 x : forall n u c, bv_random_weight_loop x 0 n u c = Ok (repeat false (length x), c).
Proof. induction x as [|b x IH]; intros n u c; [reflexivity|]. cbn [bv_random_weight_loop]. cbn [Nat.ltb Nat.leb]. rewrite IH. reflexivity. Qed.

Lemma weight_0 r : weight r = 0 -> r = repeat false (length r).
Proof. apply weight_zero_iff. Qed.

Definition weight_hit (r : bv) (o : outcome (bv * nat)) : bool := match o with Ok (r', _) => if bits_dec r' r then true else false | _ => false end.

Lemma bits_dec_refl r : (if bits_dec r r then true else false) = true.
Proof. destruct (bits_dec r r); [reflexivity|contradiction]. Qed.

Lemma weight_hit_cons b b' r o : weight_hit (b :: r) ('(r', c') <- o ;; Ok (b' :: r', c')) = if Bool.eqb b b' then weight_hit r o else false.
Proof.
  destruct o as [[r' c']|e|]; cbn [weight_hit bind]; [|destruct (Bool.eqb b b'); reflexivity..].
  destruct (bits_dec (b' :: r') (b :: r)) as [E|E], (Bool.eqb b b') eqn:B; auto.
  - injection E as _ E. subst. destruct (bits_dec r r); congruence.
  - injection E as E _. subst. rewrite Bool.eqb_reflx in B. discriminate.
  - apply Bool.eqb_prop in B. subst. destruct (bits_dec r' r) as [F|F]; [subst; contradiction|reflexivity].
Qed.

Lemma fine_less N n m : fine N n -> m <= n -> fine N m.
Proof. intros [H1 H2] H. split; [auto|]. intros j Hj. apply H2. lia. Qed.

Lemma weight_loop_count N x : forall k c L r, fine N (length x) -> length x <= L -> length r = length x -> weight r = k ->
  tally (fun us => weight_hit r (bv_random_weight_loop x k (length x) (fun i => drawn us (i - c)) c)) (sequences (grid N) L) * binom (length x) k = N ^ L.
Proof.
  induction x as [|b x IH]; intros k c L r HF HL Hr Hk.
  - destruct r; [|discriminate]. cbn in Hk. subst k. cbn [length binom bv_random_weight_loop weight_hit].
    rewrite (tally_ext _ (fun _ => true)) by reflexivity. rewrite tally_true, sequences_length, grid_length. lia.
  - destruct r as [|b' r]; [discriminate|]. cbn [length] in Hr. destruct k as [|k].
    + rewrite binom_0. rewrite (tally_ext _ (fun _ => true)); [rewrite tally_true, sequences_length, grid_length; lia|].
      intros us _. rewrite weight_loop_0. cbn [weight_hit]. apply weight_0 in Hk. rewrite Hk. replace (length (b' :: r)) with (length (b :: x)) by (cbn; lia). apply bits_dec_refl.
    + destruct L as [|L]; [cbn in HL; lia|]. set (m := length x) in *. change (length (b :: x)) with (S m) in *.
      assert (Hw : weight (b' :: r) <= S m) by (pose proof (weight_le (b' :: r)) as W; cbn [length] in W; lia).
      destruct HF as [HN HF]. destruct (HF (S m)) as [q Hq]; [lia|].
      rewrite (tally_choice (fun a => negb (Qle_bool (Qmake (Z.of_nat (S k)) (Pos.of_nat (S m))) a)) _
        (fun s => if Bool.eqb b' true then weight_hit r (bv_random_weight_loop x k m (fun i => drawn s (i - (c + 1))) (c + 1)) else false)
        (fun s => if Bool.eqb b' false then weight_hit r (bv_random_weight_loop x (S k) m (fun i => drawn s (i - (c + 1))) (c + 1)) else false)).
      2:{ intros a s _ _. cbn [bv_random_weight_loop]. replace (0 <? S k) with true by reflexivity. replace (0 <? S m) with true by reflexivity. cbn [assertb bind].
          rewrite Nat.sub_diag. cbn [drawn nth]. replace (S k - 1) with k by lia. replace (S m - 1) with m by lia.
          rewrite !(weight_loop_ext x _ m (fun i => drawn (a :: s) (i - c)) (fun i => drawn s (i - (c + 1))) (c + 1)).
          2,3: intros i Hi; unfold drawn; replace (i - c) with (S (i - (c + 1))) by lia; reflexivity.
          destruct (negb _); rewrite weight_hit_cons; reflexivity. }
      pose proof (tally_negb (fun a => negb (Qle_bool (Qmake (Z.of_nat (S k)) (Pos.of_nat (S m))) a)) (grid N)) as TN.
      rewrite (tally_grid N q (S m) (S k)) in * by (auto; lia). rewrite grid_length in TN.
      rewrite weight_cons in Hk, Hw. cbn [Nat.pow].
      destruct b'; cbn [Bool.eqb].
      * rewrite (tally_false (fun _ => false)) by auto. specialize (IH k (c + 1) L r). rewrite <- IH; [|split; auto; intros; apply HF; lia|cbn in HL; lia|lia|lia].
        pose proof (binom_absorb m k) as B. set (t := tally _ _). set (b1 := binom (S m) (S k)) in *. set (b2 := binom m k) in *.
        rewrite Hq. replace ((S k * q * t + _ * 0) * b1) with (q * t * (S k * b1)) by ring. rewrite B. ring.
      * rewrite (tally_false (fun _ => false)) by auto. assert (S k <= m) by (pose proof (weight_le r); lia).
        specialize (IH (S k) (c + 1) L r). rewrite <- IH; [|split; auto; intros; apply HF; lia|cbn in HL; lia|lia|lia].
        pose proof (binom_absorb' m (S k)) as B. set (t := tally (fun us => weight_hit _ _) _). set (b1 := binom (S m) (S k)) in *. set (b2 := binom m (S k)) in *.
        set (t2 := tally _ (grid N)) in *. assert (T2 : t2 = (S m - S k) * q) by (rewrite Nat.mul_sub_distr_r; lia). rewrite T2.
        rewrite Hq. replace ((S k * q * 0 + (S m - S k) * q * t) * b1) with (q * t * ((S m - S k) * b1)) by ring. rewrite B by lia. ring.
Qed.

Lemma returned_weight r o : returned bits_dec (p <- o ;; Ok (fst p)) r = weight_hit r o.
Proof. destruct o as [[r' c]|e|]; reflexivity. Qed.

Lemma random_weight_count N x k L r : fine N (length x) -> length x <= L -> length r = length x -> weight r = k ->
  tally (fun us => returned bits_dec (p <- bv_random_weight x k (drawn us) ;; Ok (fst p)) r) (sequences (grid N) L) * binom (length x) k = N ^ L.
Proof.
  intros HF HL Hr Hk. rewrite <- (weight_loop_count N x k 0 L r HF HL Hr Hk). f_equal. apply tally_ext. intros us _.
  rewrite returned_weight. unfold bv_random_weight. assert (k <= length x) by (pose proof (weight_le r); lia).
  replace (k <=? length x) with true by (symmetry; now apply Nat.leb_le). cbn [assertb bind].
  f_equal. apply weight_loop_ext. intros i _. now rewrite Nat.sub_0_r.
Qed.

(** * Subsets by trials *)

Lemma trials_loop_ext m : forall u v i k, (forall j, i <= j -> u j = v j) -> trials_loop u m i k = trials_loop v m i k.
Proof.
  induction m as [|m IH]; intros u v i k H; [reflexivity|]. cbn [trials_loop]. rewrite (H i) by lia.
  rewrite (IH u v (i + 1) (k - 1)%Z), (IH u v (i + 1) k); auto; intros; apply H; lia.
Qed.

Definition trials_hit (l : list nat) (p : list nat * Z) : bool := (if indices_dec (fst p) l then true else false) && (snd p =? 0)%Z.
Lemma trials_hit_cons i l (p : list nat * Z) : trials_hit (i :: l) (let (l', k') := p in (i :: l', k')) = trials_hit l p.
Proof.
  destruct p as [l' k']. unfold trials_hit. cbn [fst snd]. destruct (indices_dec (i :: l') (i :: l)) as [E|E], (indices_dec l' l) as [F|F]; auto; exfalso; congruence.
Qed.
Lemma trials_hit_other i l (p : list nat * Z) : hd_error l <> Some i -> trials_hit l (let (l', k') := p in (i :: l', k')) = false.
Proof. intros H. destruct p as [l' k']. unfold trials_hit. cbn [fst snd]. destruct (indices_dec (i :: l') l) as [E|E]; [subst; contradiction|reflexivity]. Qed.
Lemma trials_miss m : forall u i k l, In i l -> trials_hit l (trials_loop u m (i + 1) k) = false.
Proof.
  intros u i k l H. assert (G : forall j k, i < j -> ~ In i (fst (trials_loop u m j k))).
  { clear H l k. induction m as [|m IH]; intros j k Hj; [intros []|]. cbn [trials_loop]. destruct (negb _).
    - specialize (IH (j + 1) (k - 1)%Z ltac:(lia)). destruct (trials_loop u m (j + 1) (k - 1)) as [l' k']. cbn [fst] in *. intros [E|E]; [lia|contradiction].
    - apply IH. lia. }
  specialize (G (i + 1) k ltac:(lia)). unfold trials_hit. destruct (indices_dec _ l) as [E|E]; [rewrite E in G; contradiction|reflexivity].
Qed.

Lemma trials_count N m : forall k i L l, fine N m -> m <= L -> StronglySorted lt l -> Forall (fun j => i <= j < i + m) l -> length l = k ->
  tally (fun us => trials_hit l (trials_loop (fun j => drawn us (j - i)) m i (Z.of_nat k))) (sequences (grid N) L) * binom m k = N ^ L.
Proof.
  induction m as [|m IH]; intros k i L l HF HL HS HI Hk.
  - destruct l as [|j l]; [|inversion HI; lia]. cbn in Hk. subst k. cbn [trials_loop binom].
    rewrite (tally_ext _ (fun _ => true)) by reflexivity. rewrite tally_true, sequences_length, grid_length. lia.
  - destruct L as [|L]; [lia|]. destruct HF as [HN HF]. destruct (HF (S m)) as [q Hq]; [lia|].
    assert (HkS : k <= S m).
    { assert (incl l (seq i (S m))) as C. { intros j Hj. rewrite Forall_forall in HI. specialize (HI j Hj). apply in_seq. lia. }
      apply NoDup_incl_length in C; [rewrite seq_length in C; lia|]. clear - HS. induction HS as [|a l HS IH HF]; constructor; auto. intros Ha. rewrite Forall_forall in HF. specialize (HF a Ha). lia. }
    set (inside := match l with j :: _ => j =? i | [] => false end). set (p := Qmake (Z.of_nat k) (Pos.of_nat (S m))).
    rewrite (tally_choice (fun a => negb (Qle_bool p a)) _
      (fun s => if inside then trials_hit (tl l) (trials_loop (fun j => drawn s (j - (i + 1))) m (i + 1) (Z.of_nat k - 1)) else false)
      (fun s => if inside then false else trials_hit l (trials_loop (fun j => drawn s (j - (i + 1))) m (i + 1) (Z.of_nat k)))).
    2:{ intros a s _ _. cbn [trials_loop]. rewrite Nat.sub_diag. cbn [drawn nth]. fold p.
        rewrite !(trials_loop_ext m (fun j => drawn (a :: s) (j - i)) (fun j => drawn s (j - (i + 1))) (i + 1)).
        2,3: intros j Hj; unfold drawn; replace (j - i) with (S (j - (i + 1))) by lia; reflexivity.
        destruct (negb _).
        - subst inside. destruct l as [|j l]; [now rewrite trials_hit_other by discriminate|]. destruct (Nat.eqb_spec j i) as [->|E]; [apply trials_hit_cons|].
          apply trials_hit_other. cbn. congruence.
        - subst inside. destruct l as [|j l]; [reflexivity|]. destruct (Nat.eqb_spec j i) as [->|E]; [|reflexivity]. apply trials_miss. now left. }
    pose proof (tally_negb (fun a => negb (Qle_bool p a)) (grid N)) as TN. subst p.
    rewrite (tally_grid N q (S m) k) in * by (auto; lia). rewrite grid_length in TN. cbn [Nat.pow].
    assert (T2 : tally (fun a => negb (negb (Qle_bool (Qmake (Z.of_nat k) (Pos.of_nat (S m))) a))) (grid N) = (S m - k) * q) by (rewrite Nat.mul_sub_distr_r; lia).
    rewrite T2. clear TN T2. destruct inside eqn:EI; subst inside.
    + destruct l as [|j l]; [discriminate|]. apply Nat.eqb_eq in EI. subst j. cbn [tl]. destruct k as [|k]; [discriminate|]. injection Hk as Hk.
      subst k. apply StronglySorted_inv in HS as [HS' HF']. pose proof (Forall_inv_tail HI) as HI'.
      rewrite (tally_false (fun _ => false)) by auto. replace (Z.of_nat (S (length l)) - 1)%Z with (Z.of_nat (length l)) by lia.
      rewrite <- (IH (length l) (i + 1) L l); [|split; auto; intros; apply HF; lia|lia|auto| |auto].
      * pose proof (binom_absorb m (length l)) as B. set (t := tally _ _). set (b1 := binom (S m) _) in *. set (b2 := binom m _) in *. set (k := length l) in *.
        rewrite Hq. replace ((S k * q * t + _ * 0) * b1) with (q * t * (S k * b1)) by ring. rewrite B. ring.
      * rewrite Forall_forall in *. intros j Hj. specialize (HF' j Hj). specialize (HI' j Hj). lia.
    + assert (HI' : Forall (fun j => i + 1 <= j < i + 1 + m) l).
      { destruct l as [|j l]; [constructor|]. apply Nat.eqb_neq in EI. pose proof (Forall_inv HI) as HI1. pose proof (Forall_inv_tail HI) as HI2. cbn beta in HI1. apply StronglySorted_inv in HS as [HS' HF']. constructor; [lia|].
        rewrite Forall_forall in *. intros x Hx. specialize (HF' x Hx). specialize (HI2 x Hx). lia. }
      assert (k <= m).
      { assert (incl l (seq (i + 1) m)) as C. { intros j Hj. rewrite Forall_forall in HI'. specialize (HI' j Hj). apply in_seq. lia. }
        apply NoDup_incl_length in C; [rewrite seq_length in C; lia|]. clear - HS. induction HS as [|a l HS IH HF]; constructor; auto. intros Ha. rewrite Forall_forall in HF. specialize (HF a Ha). lia. }
      rewrite (tally_false (fun _ => false)) by auto.
      rewrite <- (IH k (i + 1) L l); [|split; auto; intros; apply HF; lia|lia|auto|auto|auto].
      pose proof (binom_absorb' m k) as B. set (t := tally _ _). set (b1 := binom (S m) _) in *. set (b2 := binom m _) in *.
      rewrite Hq. replace ((k * q * 0 + (S m - k) * q * t) * b1) with (q * t * ((S m - k) * b1)) by ring. rewrite B by lia. ring.
Qed.

Lemma bernoulli_trials_count N n k L l ix ch bn co : fine N n -> n <= L -> index_set n l -> length l = k ->
  tally (fun us => returned indices_dec (bernoulli_trials n k (mk_draws (drawn us) ix ch bn co)) l) (sequences (grid N) L) * binom n k = N ^ L.
Proof.
  intros HF HL [HS HI] Hk. rewrite <- (trials_count N n k 0 L l HF HL HS); [|apply Forall_impl with (2 := HI); intros; lia|auto].
  f_equal. apply tally_ext. intros us _. unfold bernoulli_trials. cbn [d_uniform].
  rewrite (trials_loop_ext n (drawn us) (fun j => drawn us (j - 0))) by (intros; now rewrite Nat.sub_0_r).
  unfold trials_hit. destruct (trials_loop _ n 0 (Z.of_nat k)) as [l' k']. cbn [fst snd]. destruct (k' =? 0)%Z; cbn; [now rewrite Bool.andb_true_r|now rewrite Bool.andb_false_r].
Qed.

(** * Subsets by rejection *)

Lemma tally_sum {A} (P : list A -> bool) l L : tally P (sequences l (S L)) = list_sum (map (fun a => tally (fun s => P (a :: s)) (sequences l L)) l).
Proof.
  cbn [sequences]. generalize (sequences l L). intros S0. induction l as [|a l IH]; [reflexivity|].
  cbn [flat_map map]. rewrite tally_app, tally_map, IH. reflexivity.
Qed.

(** Number of sequences of [L] draws which complete [a] indices of a set by its [t] other ones *)
Fixpoint completions (n L t a : nat) : nat :=
  match L with
  | 0 => match t with 0 => 1 | S _ => 0 end
  | S L' => match t with 0 => n ^ L | S t' => a * completions n L' t a + t * completions n L' t' (S a) end
  end.
(** Number of sequences of [L] draws with fewer than [t] indices besides [a] known ones *)
Fixpoint shortages (n L t a : nat) : nat :=
  match L with
  | 0 => match t with 0 => 0 | S _ => 1 end
  | S L' => match t with 0 => 0 | S t' => a * shortages n L' t a + (n - a) * shortages n L' t' (S a) end
  end.

Definition memb (l : list nat) (i : nat) : bool := existsb (Nat.eqb i) l.
Lemma memb_In l i : memb l i = true <-> In i l.
Proof. unfold memb. rewrite existsb_exists. split; [intros (j & H & ->%Nat.eqb_eq); auto|]. intros H. exists i. split; [auto|apply Nat.eqb_refl]. Qed.

Lemma tally_memb n l : NoDup l -> Forall (fun i => i < n) l -> tally (memb l) (seq 0 n) = length l.
Proof.
  intros N F. unfold tally. apply Permutation_length. apply NoDup_Permutation; [apply NoDup_filter, seq_NoDup|auto|].
  intros i. rewrite filter_In, memb_In, in_seq. rewrite Forall_forall in F. split; [tauto|]. intros H. specialize (F i H). split; [lia|auto].
Qed.

(** Three cases for the first draw *)
Lemma sum_three (acc l : list nat) (A B C : nat) (s : list nat) :
  (forall i, In i acc -> In i l) ->
  list_sum (map (fun i => if memb acc i then A else if memb l i then B else C) s) = tally (memb acc) s * A + (tally (memb l) s - tally (memb acc) s) * B + (length s - tally (memb l) s) * C.
Proof.
  intros H. assert (G : forall s, tally (memb acc) s <= tally (memb l) s <= length s).
  { clear s. induction s as [|i s IH]; [cbn; lia|]. rewrite !tally_cons. cbn [length]. destruct (memb acc i) eqn:X.
    - apply memb_In, H, memb_In in X. rewrite X. lia.
    - destruct (memb l i); lia. }
  induction s as [|i s IH]; [reflexivity|]. cbn [map list_sum fold_right]. change (fold_right Nat.add 0) with list_sum. rewrite IH, !tally_cons. cbn [length].
  specialize (G s). destruct (memb acc i) eqn:X.
  - assert (Y : memb l i = true) by now apply memb_In, H, memb_In. rewrite Y.
    replace (1 + tally (memb l) s - (1 + tally (memb acc) s)) with (tally (memb l) s - tally (memb acc) s) by lia.
    replace (S (length s) - (1 + tally (memb l) s)) with (length s - tally (memb l) s) by lia. ring.
  - destruct (memb l i).
    + replace (1 + tally (memb l) s - (0 + tally (memb acc) s)) with (1 + (tally (memb l) s - tally (memb acc) s)) by lia.
      replace (S (length s) - (1 + tally (memb l) s)) with (length s - tally (memb l) s) by lia. ring.
    + replace (0 + tally (memb l) s - (0 + tally (memb acc) s)) with (tally (memb l) s - tally (memb acc) s) by lia.
      replace (S (length s) - (0 + tally (memb l) s)) with (1 + (length s - tally (memb l) s)) by lia. ring.
Qed.

Definition set_hit (l : list nat) (o : option (list nat)) : bool := match o with Some l' => if indices_dec (sort_ints l') l then true else false | None => false end.

Lemma rejection_keeps dr : forall todo acc l i, rejection_loop dr todo acc = Some l -> In i acc -> In i l.
Proof.
  induction dr as [|j dr IH]; intros todo acc l i E H.
  - destruct todo; [|discriminate]. cbn in E. apply Some_inj in E. now subst.
  - destruct todo; [cbn in E; apply Some_inj in E; now subst|]. rewrite rejection_unfold in E. destruct (existsb _ acc); [now apply (IH _ _ _ _ E)|].
    apply (IH _ _ _ _ E). apply in_or_app. now left.
Qed.
Lemma rejection_outside dr todo acc l i : In i acc -> ~ In i l -> set_hit l (rejection_loop dr todo acc) = false.
Proof.
  intros H K. unfold set_hit. destruct (rejection_loop dr todo acc) as [l'|] eqn:E; [|reflexivity]. destruct (indices_dec (sort_ints l') l) as [F|F]; [|reflexivity].
  exfalso. apply K. rewrite <- F. apply (Permutation_in _ (sort_ints_perm l')). apply (rejection_keeps _ _ _ _ _ E H).
Qed.

Lemma rejection_stop dr acc : rejection_loop dr 0 acc = Some acc.
Proof. destruct dr; reflexivity. Qed.

Lemma list_sum_ext {A} (f g : A -> nat) l : (forall a, In a l -> f a = g a) -> list_sum (map f l) = list_sum (map g l).
Proof. intros H. f_equal. now apply map_ext_in. Qed.

Lemma rejection_count n l : increasing l -> Forall (fun i => i < n) l -> forall L t acc, NoDup acc -> incl acc l -> length l = length acc + t ->
  tally (fun dr => set_hit l (rejection_loop dr t acc)) (sequences (seq 0 n) L) = completions n L t (length acc).
Proof.
  intros HI HF. induction L as [|L IH]; intros t acc N I E.
  - destruct t as [|t].
    + cbn [sequences completions]. rewrite tally_cons, tally_nil. rewrite rejection_stop.
      enough (H : sort_ints acc = l) by (cbn [set_hit]; rewrite H; destruct (indices_dec l l); [reflexivity|contradiction]).
      apply increasing_ext; [now apply sort_ints_increasing|auto|]. intros i. split; intros H.
      * apply I. now apply (Permutation_in _ (Permutation_sym (sort_ints_perm acc))).
      * apply (Permutation_in _ (sort_ints_perm acc)). revert i H. change (incl l acc). apply NoDup_length_incl; auto. lia.
    + cbn [sequences completions]. rewrite tally_cons, tally_nil. reflexivity.
  - destruct t as [|t].
    + cbn [completions]. rewrite (tally_ext _ (fun _ => true)); [now rewrite tally_true, sequences_length, seq_length|].
      intros dr _. rewrite rejection_stop.
      enough (H : sort_ints acc = l) by (cbn [set_hit]; rewrite H; destruct (indices_dec l l); [reflexivity|contradiction]).
      apply increasing_ext; [now apply sort_ints_increasing|auto|]. intros i. split; intros H.
      * apply I. now apply (Permutation_in _ (Permutation_sym (sort_ints_perm acc))).
      * apply (Permutation_in _ (sort_ints_perm acc)). revert i H. change (incl l acc). apply NoDup_length_incl; auto. lia.
    + rewrite tally_sum.
      rewrite (list_sum_ext _ (fun i => if memb acc i then completions n L (S t) (length acc) else if memb l i then completions n L t (S (length acc)) else 0)).
      2:{ intros i _. destruct (memb acc i) eqn:X.
          - rewrite <- (IH (S t) acc N I E). apply tally_ext. intros dr _. rewrite rejection_unfold. fold (memb acc i). now rewrite X.
          - assert (X' : ~ In i acc) by (rewrite <- memb_In; congruence). destruct (memb l i) eqn:Y.
            + apply memb_In in Y. replace (S (length acc)) with (length (acc ++ [i])) by (rewrite app_length; cbn; lia). rewrite <- IH.
              * apply tally_ext. intros dr _. rewrite rejection_unfold. fold (memb acc i). now rewrite X.
              * apply (Permutation_NoDup (Permutation_cons_append acc i)). now constructor.
              * apply incl_app; [auto|]. now intros j [<-|[]].
              * rewrite app_length. cbn. lia.
            + apply tally_false. intros dr _. rewrite rejection_unfold. fold (memb acc i). rewrite X. apply (rejection_outside _ _ _ _ i).
              * apply in_or_app. right. now left.
              * rewrite <- memb_In. congruence. }
      rewrite sum_three by exact I. cbn [completions].
      rewrite (tally_memb n acc), (tally_memb n l); auto.
      * rewrite E. replace (length acc + S t - length acc) with (S t) by lia. lia.
      * now apply increasing_NoDup.
      * rewrite Forall_forall in *. auto.
Qed.

Lemma shortage_count n : forall L t acc, NoDup acc -> Forall (fun i => i < n) acc ->
  tally (fun dr => pending (rejection_loop dr t acc)) (sequences (seq 0 n) L) = shortages n L t (length acc).
Proof.
  induction L as [|L IH]; intros t acc N F.
  - cbn [sequences shortages]. rewrite tally_cons, tally_nil. destruct t; reflexivity.
  - destruct t as [|t].
    + cbn [shortages]. apply tally_false. intros dr _. now rewrite rejection_stop.
    + rewrite tally_sum.
      rewrite (list_sum_ext _ (fun i => if memb acc i then shortages n L (S t) (length acc) else if memb (seq 0 n) i then shortages n L t (S (length acc)) else 0)).
      2:{ intros i Hi. destruct (memb acc i) eqn:X.
          - rewrite <- (IH (S t) acc N F). apply tally_ext. intros dr _. rewrite rejection_unfold. fold (memb acc i). now rewrite X.
          - assert (X' : ~ In i acc) by (rewrite <- memb_In; congruence).
            replace (memb (seq 0 n) i) with true by (symmetry; now apply memb_In).
            replace (S (length acc)) with (length (acc ++ [i])) by (rewrite app_length; cbn; lia). rewrite <- IH.
            + apply tally_ext. intros dr _. rewrite rejection_unfold. fold (memb acc i). now rewrite X.
            + apply (Permutation_NoDup (Permutation_cons_append acc i)). now constructor.
            + apply Forall_app. split; [auto|]. constructor; [|constructor]. apply in_seq in Hi. lia. }
      rewrite sum_three by (intros i Hi; rewrite Forall_forall in F; specialize (F i Hi); apply in_seq; lia). cbn [shortages].
      rewrite (tally_memb n acc), (tally_memb n (seq 0 n)), seq_length; auto; [lia|apply seq_NoDup|].
      rewrite Forall_forall. intros i Hi. apply in_seq in Hi. lia.
Qed.

Lemma binom_pos n : forall k, k <= n -> 1 <= binom n k.
Proof. induction n as [|n IH]; intros [|k] H; cbn [binom]; try lia. specialize (IH k ltac:(lia)). lia. Qed.

Lemma shortages_bound n : forall L t a, a + S t <= n -> shortages n L (S t) a <= binom (n - a) t * (a + t) ^ L.
Proof.
  induction L as [|L IH]; intros t a H; cbn [shortages Nat.pow].
  - pose proof (binom_pos (n - a) t ltac:(lia)). lia.
  - pose proof (IH t a H) as H1. destruct t as [|t].
    + assert (Z : shortages n L 0 (S a) = 0) by (destruct L; reflexivity). rewrite Z, Nat.mul_0_r, !Nat.add_0_r in *.
      apply (Nat.mul_le_mono_l _ _ a) in H1. lia.
    + pose proof (IH t (S a) ltac:(lia)) as H2. replace (S a + t) with (a + S t) in H2 by lia. set (K := (a + S t) ^ L) in *.
      pose proof (binom_absorb (n - S a) t) as B. replace (S (n - S a)) with (n - a) in B by lia.
      apply (Nat.mul_le_mono_l _ _ a) in H1. apply (Nat.mul_le_mono_l _ _ (n - a)) in H2. rewrite !Nat.mul_assoc in H2. rewrite <- B in H2.
      set (b1 := binom (n - a) (S t)) in *. replace (b1 * ((a + S t) * K)) with (a * (b1 * K) + S t * b1 * K) by ring. lia.
Qed.

Lemma rejection_sampling_count n k L u ch bn co l : index_set n l -> length l = k ->
  tally (fun dr => returned' indices_dec (rejection_sampling k (mk_draws u dr ch bn co)) l) (sequences (seq 0 n) L) = completions n L k 0.
Proof.
  intros [HS HI] Hk. change (completions n L k 0) with (completions n L k (length (@nil nat))). rewrite <- (rejection_count n l HS HI L k []); [|constructor|intros i []|auto]. apply tally_ext. intros dr _.
  unfold rejection_sampling, set_hit. cbn [d_index]. destruct (rejection_loop dr k []); reflexivity.
Qed.
Lemma rejection_sampling_pending n k L u ch bn co : 1 <= k <= n ->
  tally (fun dr => pending (rejection_sampling k (mk_draws u dr ch bn co))) (sequences (seq 0 n) L) <= binom n (k - 1) * (k - 1) ^ L.
Proof.
  intros Hk. pose proof (shortages_bound n L (k - 1) 0 ltac:(lia)) as B. replace (S (k - 1)) with k in B by lia. rewrite Nat.sub_0_r in B.
  change (0 + (k - 1)) with (k - 1) in B. rewrite <- B. change (shortages n L k 0) with (shortages n L k (length (@nil nat))). rewrite <- (shortage_count n L k []) by constructor. apply Nat.eq_le_incl. apply tally_ext. intros dr _.
  unfold rejection_sampling. cbn [d_index]. destruct (rejection_loop dr k []); reflexivity.
Qed.
