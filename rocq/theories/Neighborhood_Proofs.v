(** Proofs about neighborhoods. *)

From Coq Require Import QArith Sorted Permutation Lqa.
From Verif Require Import Base BaseLemmas BitVector_Model BitVector_Spec GF2 BitVector_Proofs SortedLemmas Iterator_Proofs Neighborhood_Model Neighborhood_Spec.
Local Open Scope nat_scope.

(** * Bernoulli trials *)

Lemma Qfrac_full m : 0 < m -> (Z.of_nat m # Pos.of_nat m == 1)%Q.
Proof. intros H. unfold Qeq. cbn [Qnum Qden]. rewrite <- (positive_nat_Z (Pos.of_nat _)), Nat2Pos.id by lia. lia. Qed.

Lemma trials_spec u m i k : (forall j, 0 <= u j < 1)%Q -> k <= m ->
  exists l, trials_loop u m i (Z.of_nat k) = (l, 0%Z) /\ length l = k /\ increasing l /\ Forall (fun j => i <= j < i + m) l.
Proof.
  intros Hu. revert i k; induction m as [|m IH]; intros i k Hk.
  - exists []. assert (k = 0) as -> by lia. repeat split; auto; constructor.
  - cbn [trials_loop]. destruct (Qle_bool (Z.of_nat k # Pos.of_nat (S m)) (u i)) eqn:E; cbn [negb].
    + apply Qle_bool_iff in E. assert (k <= m) as Hk'.
      { destruct (Nat.eq_dec k (S m)) as [->|]; [|lia]. exfalso. rewrite Qfrac_full in E by lia. destruct (Hu i). lra. }
      destruct (IH (i + 1) k Hk') as (l & E1 & E2 & E3 & E4). exists l. repeat split; auto.
      eapply Forall_impl; [|apply E4]. cbn. intros; lia.
    + destruct k as [|k].
      { exfalso. destruct (Hu i) as [U _]. apply Bool.not_true_iff_false in E. apply E. apply Qle_bool_iff. apply (Qle_trans _ 0); [unfold Qle; cbn [Qnum Qden]; lia|exact U]. }
      replace (Z.of_nat (S k) - 1)%Z with (Z.of_nat k) by lia. destruct (IH (i + 1) k ltac:(lia)) as (l & E1 & E2 & E3 & E4). rewrite E1.
      exists (i :: l). repeat split; cbn [length]; auto.
      * constructor; auto. eapply Forall_impl; [|apply E4]. cbn. intros; lia.
      * constructor; [lia|]. eapply Forall_impl; [|apply E4]. cbn. intros; lia.
Qed.

Lemma trials_too_many u m i k : (forall j, u j < 1)%Q -> m < k ->
  snd (trials_loop u m i (Z.of_nat k)) <> 0%Z.
Proof.
  intros Hu. revert i k; induction m as [|m IH]; intros i k Hk; cbn [trials_loop].
  - cbn. lia.
  - destruct (Qle_bool (Z.of_nat k # Pos.of_nat (S m)) (u i)) eqn:E; cbn [negb].
    + apply Qle_bool_iff in E. exfalso. specialize (Hu i). assert (1 <= Z.of_nat k # Pos.of_nat (S m))%Q; [|lra].
      rewrite <- (Qfrac_full (S m)) by lia. unfold Qle. cbn [Qnum Qden]. apply Z.mul_le_mono_nonneg_r; lia.
    + replace (Z.of_nat k - 1)%Z with (Z.of_nat (k - 1)) by lia. specialize (IH (i + 1) (k - 1) ltac:(lia)).
      destruct (trials_loop u m (i + 1) (Z.of_nat (k - 1))). exact IH.
Qed.

(** Draws which lead to a given set. *)
Definition steer (n : nat) (l : list nat) (i : nat) : Q :=
  if existsb (Nat.eqb i) l then 0%Q
  else Z.of_nat (length (filter (fun j => i <=? j) l)) # Pos.of_nat (n - i).

Lemma existsb_eqb i l : existsb (Nat.eqb i) l = true <-> In i l.
Proof.
  rewrite existsb_exists. split; [intros (x & H1 & H2); apply Nat.eqb_eq in H2; now subst|].
  intros H. exists i. split; auto. apply Nat.eqb_refl.
Qed.

Lemma filter_all {A} (f : A -> bool) l : Forall (fun a => f a = true) l -> filter f l = l.
Proof. induction 1; cbn; [reflexivity|]. now rewrite H, IHForall. Qed.

Lemma increasing_bound l a b : increasing l -> Forall (fun j => a <= j < b) l -> length l <= b - a.
Proof.
  intros I F. apply increasing_NoDup in I. assert (incl l (seq a (b - a))).
  { intros j Hj. rewrite Forall_forall in F. specialize (F j Hj). apply in_seq. lia. }
  apply NoDup_incl_length in H; auto. now rewrite seq_length in H.
Qed.

Lemma trials_steer n u m i l : i + m = n -> increasing l -> Forall (fun j => i <= j < n) l ->
  (forall j, i <= j < n -> u j = if existsb (Nat.eqb j) l then 0%Q else Z.of_nat (length (filter (fun a => j <=? a) l)) # Pos.of_nat (n - j)) ->
  trials_loop u m i (Z.of_nat (length l)) = (l, 0%Z).
Proof.
  revert i l; induction m as [|m IH]; intros i l Hn I F Hu.
  - destruct l as [|j l]; [reflexivity|]. inversion F; subst. lia.
  - cbn [trials_loop]. rewrite (Hu i) by lia. destruct (existsb (Nat.eqb i) l) eqn:E.
    + apply existsb_eqb in E. destruct l as [|j l]; [destruct E|].
      assert (j = i).
      { inversion I; subst. inversion F; subst. destruct E as [E|E]; auto. rewrite Forall_forall in H2. specialize (H2 i E). lia. }
      subst j. inversion I; subst. inversion F; subst.
      replace (Qle_bool (Z.of_nat (length (i :: l)) # Pos.of_nat (S m)) 0) with false.
      2: { symmetry. apply Bool.not_true_iff_false. rewrite Qle_bool_iff. unfold Qle. cbn [Qnum Qden length]. lia. }
      cbn [negb]. replace (Z.of_nat (length (i :: l)) - 1)%Z with (Z.of_nat (length l)) by (cbn [length]; lia).
      rewrite IH; auto; [lia| |].
      * rewrite Forall_forall in *. intros j Hj. specialize (H2 j Hj). specialize (H4 j Hj). lia.
      * intros j Hj. rewrite (Hu j) by lia. cbn [existsb]. replace (j =? i) with false by (symmetry; apply Nat.eqb_neq; lia). cbn [orb filter].
        replace (j <=? i) with false by (symmetry; apply Nat.leb_gt; lia). reflexivity.
    + rewrite filter_all by (eapply Forall_impl; [|apply F]; cbn; intros; apply Nat.leb_le; lia).
      replace (n - i) with (S m) by lia. rewrite (proj2 (Qle_bool_iff _ _)) by apply Qle_refl. cbn [negb].
      apply IH; auto; [lia| |].
      * rewrite Forall_forall in *. intros j Hj. specialize (F j Hj). enough (j <> i) by lia. intros ->.
        assert (existsb (Nat.eqb i) l = true) by now apply existsb_eqb. congruence.
      * intros j Hj. apply Hu. lia.
Qed.

Lemma steer_range n l : increasing l -> Forall (fun j => j < n) l -> forall i, (0 <= (if i <? n then steer n l i else 0) < 1)%Q.
Proof.
  intros I F i. destruct (Nat.ltb_spec i n) as [H|H]; [|lra]. unfold steer. destruct (existsb (Nat.eqb i) l) eqn:E; [lra|].
  split; [unfold Qle; cbn [Qnum Qden]; lia|].
  assert (L : length (filter (fun j => i <=? j) l) < n - i).
  { assert (length (filter (fun j => i <=? j) l) <= n - (i + 1)); [|lia]. apply increasing_bound; [now apply increasing_filter|].
    apply Forall_forall. intros j Hj. apply filter_In in Hj as [J1 J2]. apply Nat.leb_le in J2. rewrite Forall_forall in F. specialize (F j J1).
    assert (j <> i); [|lia]. intros ->. assert (existsb (Nat.eqb i) l = true) by now apply existsb_eqb. congruence. }
  unfold Qlt. cbn [Qnum Qden]. rewrite <- (positive_nat_Z (Pos.of_nat _)), Nat2Pos.id by lia. lia.
Qed.

(** * Rejection sampling *)

Lemma insert_int_perm a l : Permutation (a :: l) (insert_int a l).
Proof. induction l as [|b l IH]; cbn; [reflexivity|]. destruct (a <=? b); [reflexivity|]. rewrite perm_swap. now constructor. Qed.

Lemma sort_ints_perm l : Permutation l (sort_ints l).
Proof. induction l as [|a l IH]; cbn; [reflexivity|]. rewrite <- insert_int_perm. now constructor. Qed.

Lemma insert_int_increasing a l : increasing l -> ~ In a l -> increasing (insert_int a l).
Proof.
  intros I. induction I as [|b l I IH F]; intros H; cbn; [repeat constructor|].
  destruct (Nat.leb_spec a b) as [L|L].
  - assert (a < b). { cbn in H. lia. } constructor; [constructor; auto|]. constructor; auto. eapply Forall_impl; [|apply F]. cbn; intros; lia.
  - constructor. + apply IH. cbn in H. tauto. + apply (Permutation_Forall (insert_int_perm a l)). now constructor.
Qed.

Lemma sort_ints_increasing l : NoDup l -> increasing (sort_ints l).
Proof.
  induction 1 as [|a l H N IH]; cbn; [constructor|]. apply insert_int_increasing; auto. intros H'. apply H.
  apply (Permutation_in a (Permutation_sym (sort_ints_perm l)) H').
Qed.

Lemma sort_ints_id l : increasing l -> sort_ints l = l.
Proof.
  intros I. apply increasing_ext; auto.
  - apply sort_ints_increasing. now apply increasing_NoDup.
  - intros x. split; apply Permutation_in; [symmetry|]; apply sort_ints_perm.
Qed.

Lemma rejection_unfold dr todo acc :
  rejection_loop dr (S todo) acc =
  match dr with
  | [] => None
  | i :: dr' => if existsb (Nat.eqb i) acc then rejection_loop dr' (S todo) acc else rejection_loop dr' todo (acc ++ [i])
  end.
Proof. destruct dr; reflexivity. Qed.

Lemma rejection_loop_spec n dr : forall todo acc l, rejection_loop dr todo acc = Some l ->
  Forall (fun i => i < n) dr -> NoDup acc -> Forall (fun i => i < n) acc ->
  NoDup l /\ Forall (fun i => i < n) l /\ length l = length acc + todo.
Proof.
  induction dr as [|i dr IH]; intros todo acc l E F N A.
  - destruct todo; [|rewrite rejection_unfold in E; discriminate]. cbn in E. apply Some_inj in E. subst l. repeat split; auto.
  - destruct todo as [|todo]; [cbn in E; apply Some_inj in E; subst l; repeat split; auto|].
    rewrite rejection_unfold in E. inversion F; subst. destruct (existsb (Nat.eqb i) acc) eqn:X.
    + apply IH in E; auto.
    + apply IH in E; auto.
      * rewrite app_length in E. cbn in E. repeat split; try tauto; lia.
      * apply (Permutation_NoDup (Permutation_cons_append acc i)). constructor; auto. intros H. apply existsb_eqb in H. congruence.
      * apply Forall_app. split; auto.
Qed.

Lemma rejection_direct l : forall acc rest, NoDup (acc ++ l) -> rejection_loop (l ++ rest) (length l) acc = Some (acc ++ l).
Proof.
  induction l as [|i l IH]; intros acc rest N; [cbn; destruct rest; now rewrite app_nil_r|].
  cbn [length app]. rewrite rejection_unfold. destruct (existsb (Nat.eqb i) acc) eqn:X.
  - apply existsb_eqb in X. exfalso. apply NoDup_remove_2 in N. apply N. apply in_or_app. now left.
  - rewrite IH; [now rewrite <- app_assoc|]. now rewrite <- app_assoc.
Qed.

(** The loop returns as soon as the draws contain enough distinct indices. *)
Lemma rejection_returns dr : forall todo acc, NoDup acc -> length acc + todo <= length (nodup Nat.eq_dec (acc ++ dr)) ->
  exists l, rejection_loop dr todo acc = Some l.
Proof.
  induction dr as [|i dr IH]; intros todo acc N L.
  - rewrite app_nil_r, nodup_fixed_point in L by auto. assert (todo = 0) as -> by lia. eexists; reflexivity.
  - destruct todo as [|todo]; [eexists; reflexivity|]. rewrite rejection_unfold. destruct (existsb (Nat.eqb i) acc) eqn:X.
    + apply existsb_eqb in X. apply IH; auto. etransitivity; [apply L|]. apply NoDup_incl_length; [apply NoDup_nodup|].
      intros x Hx. apply nodup_In in Hx. apply nodup_In. apply in_app_or in Hx. apply in_or_app. destruct Hx as [|[<-|]]; auto.
    + assert (~ In i acc) by (intros H; apply existsb_eqb in H; congruence). apply IH.
      * apply (Permutation_NoDup (Permutation_cons_append acc i)). now constructor.
      * rewrite app_length. cbn [length]. rewrite <- app_assoc. cbn [app]. lia.
Qed.

Lemma rejection_spec n k d l : rejection_sampling k d = Some l -> Forall (fun i => i < n) (d_index d) ->
  increasing l /\ Forall (fun i => i < n) l /\ length l = k.
Proof.
  unfold rejection_sampling. destruct (rejection_loop (d_index d) k []) as [a|] eqn:E; [|discriminate]. intros H F. apply Some_inj in H. subst l.
  destruct (rejection_loop_spec n _ _ _ _ E F (NoDup_nil _) (Forall_nil _)) as (A & B & C).
  split; [now apply sort_ints_increasing|]. split; [now apply (Permutation_Forall (sort_ints_perm a))|].
  now rewrite <- (Permutation_length (sort_ints_perm a)).
Qed.

Lemma rejection_reaches l d : increasing l -> d_index d = l -> rejection_sampling (length l) d = Some l.
Proof.
  intros I E. unfold rejection_sampling. rewrite E. rewrite <- (app_nil_r l) at 1. rewrite rejection_direct; cbn [app].
  - now rewrite sort_ints_id.
  - now apply increasing_NoDup.
Qed.

(** * Bernoulli process *)

Lemma pass_spec m : forall i coins l rest, process_pass coins m i = Some (l, rest) ->
  increasing l /\ Forall (fun j => i <= j < i + m) l /\ length coins = m + length rest.
Proof.
  induction m as [|m IH]; intros i coins l rest E; cbn in E.
  - apply Some_inj in E. injection E as <- <-. repeat split; constructor.
  - destruct coins as [|c coins]; [discriminate|]. destruct (process_pass coins m (i + 1)) as [[l' r']|] eqn:E'; [|discriminate].
    apply Some_inj in E. destruct (IH _ _ _ _ E') as (A & B & C). injection E as <- <-.
    assert (Forall (fun j => i < j < i + S m) l'). { eapply Forall_impl; [|apply B]. cbn; intros; lia. }
    destruct c; repeat split; cbn [length]; auto; try lia.
    + constructor; auto. eapply Forall_impl; [|apply H]. cbn; intros; lia.
    + constructor; [lia|]. eapply Forall_impl; [|apply H]. cbn; intros; lia.
    + eapply Forall_impl; [|apply H]. cbn; intros; lia.
Qed.

Lemma process_loop_spec fuel n : forall coins l, process_loop fuel coins n [] = Some l ->
  increasing l /\ Forall (fun j => j < n) l /\ 0 < length l.
Proof.
  induction fuel as [|fuel IH]; intros coins l E; [discriminate|]. cbn in E.
  destruct (process_pass coins n 0) as [[a rest]|] eqn:P; [|discriminate]. destruct (pass_spec _ _ _ _ _ P) as (A & B & C).
  destruct a as [|i a]; [now apply IH in E|]. apply Some_inj in E. subst l. split; auto. split; [|cbn; lia].
  eapply Forall_impl; [|apply B]. cbn; intros; lia.
Qed.

Lemma pass_reaches m : forall i rest l, increasing l -> Forall (fun j => i <= j < i + m) l ->
  process_pass (map (fun j => existsb (Nat.eqb j) l) (seq i m) ++ rest) m i = Some (l, rest).
Proof.
  induction m as [|m IH]; intros i rest l I F; cbn.
  - destruct l; [reflexivity|]. inversion F. lia.
  - destruct (existsb (Nat.eqb i) l) eqn:X.
    + apply existsb_eqb in X. destruct l as [|j l]; [destruct X|].
      assert (j = i). { inversion I; subst. inversion F; subst. destruct X as [X|X]; auto. rewrite Forall_forall in H2. specialize (H2 i X). lia. }
      subst j. inversion I; subst. inversion F; subst.
      rewrite (map_ext_in _ (fun j => existsb (Nat.eqb j) l)).
      * replace (S i) with (i + 1) by lia. rewrite IH; auto. rewrite Forall_forall in *. intros j Hj. specialize (H2 j Hj). specialize (H4 j Hj). lia.
      * intros j Hj. apply in_seq in Hj. cbn. replace (j =? i) with false by (symmetry; apply Nat.eqb_neq; lia). reflexivity.
    + replace (S i) with (i + 1) by lia. rewrite IH; auto. rewrite Forall_forall in *. intros j Hj. specialize (F j Hj). enough (j <> i) by lia. intros ->.
      apply existsb_eqb in Hj. congruence.
Qed.

Lemma binomial_loop_spec n dr k : binomial_loop dr = Some k -> Forall (fun k => k <= n) dr -> 0 < k <= n.
Proof.
  induction dr as [|a dr IH]; [discriminate|]. cbn. intros E F. inversion F; subst. destruct (Nat.eqb_spec a 0); auto. apply Some_inj in E. subst. lia.
Qed.

(** * Sampling *)

Definition nh_ok (n : nat) (s : nh) : Prop :=
  0 < n /\ length (nh_origin s) = n /\ length (nh_candidate s) = n /\
  match nh_class s with
  | SingleBitFlip => length (nh_flipped s) = 1
  | StandardBitMutation _ _ => True
  | HammingBall r => 1 <= r <= n
  | HammingSphere r => r <= n
  end.

Theorem sample_exact n s d o : nh_ok n s -> in_bounds (nh_class s) n d -> sample_bits s d = Some o ->
  exists l, o = Ok l /\ index_set n l /\ flip_count (nh_class s) n (length l).
Proof.
  intros (N0 & HO & HC & K) (U & I & C & B) E. unfold sample_bits in E. rewrite HC in E.
  assert (T : forall k, k <= n -> exists l, bernoulli_trials n k d = Ok l /\ index_set n l /\ length l = k).
  { intros k Hk. destruct (trials_spec (d_uniform d) n 0 k U Hk) as (l & E1 & E2 & E3 & E4). exists l. unfold bernoulli_trials. rewrite E1. cbn.
    repeat split; auto. eapply Forall_impl; [|apply E4]. cbn; intros; lia. }
  assert (R : forall k l, rejection_sampling k d = Some l -> index_set n l /\ length l = k).
  { intros k l H. destruct (rejection_spec n k d l H I) as (A1 & A2 & A3). split; [split|]; auto. }
  destruct (nh_class s) as [|rej allow|r|r].
  - destruct (d_index d) as [|i rest]; [discriminate|]. apply Some_inj in E. subst o. rewrite K. cbn [Nat.eqb assertb bind].
    destruct (nh_flipped s) as [|a [|? ?]]; try discriminate. exists [i]. cbn. repeat split; auto; repeat constructor. now inversion I.
  - destruct rej.
    + destruct (if allow then hd_error (d_binomial d) else binomial_loop (d_binomial d)) as [k|] eqn:EB; [|discriminate].
      destruct (rejection_sampling k d) as [l|] eqn:ER; [|discriminate]. apply Some_inj in E. subst o. exists l. destruct (R _ _ ER) as [A1 A2].
      split; [reflexivity|]. split; auto. cbn. destruct allow; [now left|]. right. rewrite A2. now apply (binomial_loop_spec n) in EB.
    + destruct (bernoulli_process n d) as [l|] eqn:EP; [|discriminate]. apply Some_inj in E. subst o. exists l.
      destruct (process_loop_spec _ _ _ _ EP) as (A1 & A2 & A3). repeat split; auto. cbn. now right.
  - assert ((0 <? d_choose d) && (d_choose d <=? n) = true) as G. { apply andb_true_iff. rewrite Nat.ltb_lt, Nat.leb_le. lia. }
    rewrite G in E. destruct (below_sqrt (d_choose d) n).
    + destruct (rejection_sampling (d_choose d) d) as [l|] eqn:ER; [|discriminate]. apply Some_inj in E. subst o. exists l. destruct (R _ _ ER) as [A1 A2].
      repeat split; try apply A1; cbn; lia.
    + apply Some_inj in E. subst o. destruct (T (d_choose d) ltac:(lia)) as (l & -> & A1 & A2). exists l. repeat split; try apply A1; cbn; lia.
  - destruct (below_sqrt r n).
    + destruct (rejection_sampling r d) as [l|] eqn:ER; [|discriminate]. apply Some_inj in E. subst o. exists l. destruct (R _ _ ER) as [A1 A2].
      repeat split; try apply A1; auto.
    + apply Some_inj in E. subst o. destruct (T r K) as (l & -> & A1 & A2). exists l. repeat split; try apply A1; auto.
Qed.

(** Every allowed set of positions is sampled by some draws. *)
Theorem sample_reaches n s l : nh_ok n s -> index_set n l -> flip_count (nh_class s) n (length l) ->
  exists d, in_bounds (nh_class s) n d /\ sample_bits s d = Some (Ok l).
Proof.
  intros (N0 & HO & HC & K) [I F] C.
  assert (L : length l <= n). { rewrite <- (Nat.sub_0_r n). apply increasing_bound; auto. eapply Forall_impl; [|apply F]. cbn; intros; lia. }
  set (u := fun i => if i <? n then steer n l i else 0%Q).
  set (d := mk_draws u l (length l) [length l] (map (fun j => existsb (Nat.eqb j) l) (seq 0 n))).
  exists d. split.
  - split; [now apply steer_range|]. split; [exact F|]. split; [destruct (nh_class s); cbn in *; auto|]. repeat constructor. exact L.
  - assert (T : bernoulli_trials n (length l) d = Ok l).
    { unfold bernoulli_trials. cbn [d_uniform d]. rewrite (trials_steer n); auto.
      - eapply Forall_impl; [|apply F]. cbn; intros; lia.
      - intros j Hj. unfold u. replace (j <? n) with true by (symmetry; apply Nat.ltb_lt; lia). reflexivity. }
    assert (R : rejection_sampling (length l) d = Some l) by now apply rejection_reaches.
    unfold sample_bits. rewrite HC. destruct (nh_class s) as [|rej allow|r|r].
    + cbn in C. destruct l as [|i [|? ?]]; try discriminate. cbn [d_index d]. rewrite K. cbn [Nat.eqb assertb bind].
      destruct (nh_flipped s) as [|a [|? ?]]; try discriminate. reflexivity.
    + cbn in C. destruct rej.
      * assert ((if allow then hd_error (d_binomial d) else binomial_loop (d_binomial d)) = Some (length l)) as ->.
        { cbn. destruct allow; [reflexivity|]. destruct C as [[_ C]|C]; [discriminate|]. destruct (Nat.eqb_spec (length l) 0); [lia|reflexivity]. }
        now rewrite R.
      * assert (0 < length l) by (destruct C as [[C _]|C]; [discriminate|assumption]).
        unfold bernoulli_process. cbn [d_coins d process_loop].
        rewrite <- (app_nil_r (map _ _)). rewrite pass_reaches; auto; [destruct l; [cbn in *; lia|reflexivity]|].
        eapply Forall_impl; [|apply F]. cbn; intros; lia.
    + cbn in C. cbn [d_choose d]. assert ((0 <? length l) && (length l <=? n) = true) as ->. { apply andb_true_iff. rewrite Nat.ltb_lt, Nat.leb_le. lia. }
      rewrite R, T. now destruct (below_sqrt (length l) n).
    + cbn in C. subst r. rewrite R, T. now destruct (below_sqrt (length l) n).
Qed.

(** * Protocol *)

Lemma bv_eqb_eq x y : bv_eqb x y = true <-> x = y.
Proof.
  revert y; induction x as [|a x IH]; intros [|b y]; cbn; try (split; congruence).
  rewrite andb_true_iff, IH, Bool.eqb_true_iff. split; [intros [-> ->]; reflexivity|intros H; now injection H].
Qed.
Lemma bv_eqb_refl x : bv_eqb x x = true.
Proof. now apply bv_eqb_eq. Qed.

Lemma index_set_flip n x l : length x = n -> index_set n l ->
  bv_flip_sbv x l = Ok (flips x l) /\ diffs n x (flips x l) = l /\ flips (flips x l) l = x /\ length (flips x l) = n.
Proof.
  intros Hx [I F]. assert (F' : forall i, In i l -> i < n) by now apply Forall_forall.
  split; [apply bv_flip_sbv_Ok; rewrite Hx; now apply increasing_valid|]. split; [now apply diffs_flips|].
  split; [apply flips_involutive; now rewrite Hx|]. now rewrite length_flips.
Qed.

Definition phase_inv (n : nat) (s : nh) (p : phase) : Prop :=
  match p with
  | Settled => nh_candidate s = nh_origin s
  | Proposed => index_set n (nh_flipped s) /\ flips (nh_origin s) (nh_flipped s) = nh_candidate s
  end.

Lemma with_sample_inv {A} n s d (k : list nat -> outcome A) o : nh_ok n s -> in_bounds (nh_class s) n d -> with_sample s d k = Some o ->
  exists l, sample_bits s d = Some (Ok l) /\ o = k l /\ index_set n l /\ flip_count (nh_class s) n (length l).
Proof.
  intros OK B. unfold with_sample. destruct (sample_bits s d) as [o'|] eqn:E; [|discriminate]. intros H. apply Some_inj in H.
  destruct (sample_exact n s d o' OK B E) as (l & -> & A1 & A2). exists l. cbn in H. auto.
Qed.

Theorem propose_exact n s d o : nh_ok n s -> nh_candidate s = nh_origin s -> in_bounds (nh_class s) n d -> nh_propose s d = Some o ->
  exists l, sample_bits s d = Some (Ok l) /\ index_set n l /\ flip_count (nh_class s) n (length l) /\
    o = Ok (mk_nh (nh_class s) (nh_origin s) (flips (nh_origin s) l) l).
Proof.
  intros OK E B H. unfold nh_propose in H. rewrite E, bv_eqb_refl in H.
  destruct (with_sample_inv n s d _ o OK B H) as (l & E1 & E2 & A1 & A2). exists l. repeat split; try apply A1; auto.
  destruct OK as (_ & HO & _). destruct (index_set_flip n (nh_origin s) l HO A1) as (F1 & _). rewrite F1 in E2. exact E2.
Qed.

Theorem mutate_exact n s x d o : nh_ok n s -> length x = n -> in_bounds (nh_class s) n d -> nh_mutate s x d = Some o ->
  exists l, sample_bits s d = Some (Ok l) /\ index_set n l /\ flip_count (nh_class s) n (length l) /\
    o = Ok (mk_nh (nh_class s) (nh_origin s) (nh_candidate s) l, flips x l).
Proof.
  intros OK Hx B H. unfold nh_mutate in H. pose proof OK as (_ & HO & _). rewrite Hx, HO, Nat.eqb_refl in H.
  destruct (with_sample_inv n s d _ o OK B H) as (l & E1 & E2 & A1 & A2). exists l. repeat split; try apply A1; auto.
  destruct (index_set_flip n x l Hx A1) as (F1 & _). rewrite F1 in E2. exact E2.
Qed.

Lemma map_is_mutate s x y d : length y = length (nh_origin s) -> nh_map s x y d = nh_mutate s x d.
Proof. intros H. unfold nh_map, nh_mutate. rewrite H, Nat.eqb_refl, andb_true_r. reflexivity. Qed.

Lemma sample_size n s d l : nh_ok n s -> in_bounds (nh_class s) n d -> sample_bits s d = Some (Ok l) ->
  nh_ok n (mk_nh (nh_class s) (nh_origin s) (nh_candidate s) l).
Proof.
  intros OK B E. destruct (sample_exact n s d _ OK B E) as (l' & E' & A1 & A2). apply Ok_inj in E'. subst l'.
  destruct OK as (N0 & HO & HC & K). repeat split; cbn [nh_class nh_origin nh_candidate nh_flipped]; auto.
  destruct (nh_class s); auto.
Qed.

Lemma keep_exact n s : nh_ok n s -> phase_inv n s Proposed ->
  nh_keep s = Ok (mk_nh (nh_class s) (nh_candidate s) (nh_candidate s) (nh_flipped s)).
Proof.
  intros (N0 & HO & HC & K) [I E]. unfold nh_keep. destruct (index_set_flip n _ _ HO I) as (F1 & _). rewrite F1. cbn [bind].
  rewrite E, bv_eqb_refl. reflexivity.
Qed.
Lemma forget_exact n s : nh_ok n s -> phase_inv n s Proposed ->
  nh_forget s = Ok (mk_nh (nh_class s) (nh_origin s) (nh_origin s) (nh_flipped s)).
Proof.
  intros (N0 & HO & HC & K) [I E]. unfold nh_forget. destruct (index_set_flip n _ _ HC I) as (F1 & _). rewrite F1. cbn [bind].
  destruct (index_set_flip n _ _ HO I) as (_ & _ & F3 & _). rewrite E in F3. rewrite F3, bv_eqb_refl. reflexivity.
Qed.

Theorem reachable_inv n s p : nh_reachable n s p -> nh_ok n s /\ phase_inv n s p.
Proof.
  induction 1 as [kd s E|s p x _ [OK IH] Hx|s d s' _ [OK IH] B E|s s' _ [OK IH] E|s s' _ [OK IH] E|s x d s' y _ [OK IH] B E|s x z d s' y _ [OK IH] B E
    |s p r _ [OK IH] Hr|s p b _ [OK IH]|s p b _ [OK IH]].
  - unfold nh_make in E. destruct (Nat.ltb_spec 0 n); [|discriminate]. cbn [assertb bind] in E.
    destruct kd as [|rej al|r|r].
    + apply Ok_inj in E. subst s. repeat split; cbn; rewrite ?repeat_length; auto.
    + apply Ok_inj in E. subst s. repeat split; cbn; rewrite ?repeat_length; auto.
    + destruct (Nat.ltb_spec 0 r); [|discriminate]. destruct (Nat.leb_spec r n); [|discriminate]. apply Ok_inj in E. subst s. repeat split; cbn; rewrite ?repeat_length; auto.
    + destruct (Nat.ltb_spec 0 r); [|discriminate]. destruct (Nat.leb_spec r n); [|discriminate]. apply Ok_inj in E. subst s. repeat split; cbn; rewrite ?repeat_length; auto.
  - destruct OK as (N0 & HO & HC & K). repeat split; auto.
  - destruct (propose_exact n s d _ OK IH B E) as (l & E1 & A1 & A2 & E2). apply Ok_inj in E2. subst s'.
    destruct (sample_size n s d l OK B E1) as (B1 & B2 & B3 & B4). destruct (index_set_flip n _ l B2 A1) as (_ & _ & _ & F4). cbn [nh_origin] in F4. split; [|split; auto]. split; [|split; [|split]]; auto.
  - rewrite (keep_exact n s OK IH) in E. apply Ok_inj in E. subst s'. destruct OK as (N0 & HO & HC & K). repeat split; auto.
  - rewrite (forget_exact n s OK IH) in E. apply Ok_inj in E. subst s'. destruct OK as (N0 & HO & HC & K). repeat split; auto.
  - assert (length x = n) as Hx. { pose proof OK as (_ & HO & _). unfold nh_mutate in E. destruct (Nat.eqb_spec (length x) (length (nh_origin s))); [lia|discriminate]. }
    destruct (mutate_exact n s x d _ OK Hx B E) as (l & E1 & A1 & A2 & E2). apply Ok_inj in E2. injection E2 as -> ->. split; [now apply (sample_size n s d)|exact IH].
  - unfold nh_map in E. destruct ((length x =? length (nh_origin s)) && (length z =? length (nh_origin s))) eqn:G; [|discriminate].
    apply andb_true_iff in G as [G1 G2]. apply Nat.eqb_eq in G1, G2. pose proof OK as (_ & HO & _).
    assert (E' : nh_mutate s x d = Some (Ok (s', y))). { unfold nh_mutate. rewrite G1, Nat.eqb_refl. exact E. }
    destruct (mutate_exact n s x d _ OK ltac:(lia) B E') as (l & E1 & A1 & A2 & E2). apply Ok_inj in E2. injection E2 as -> ->. split; [now apply (sample_size n s d)|exact IH].
  - unfold nh_set_radius. destruct OK as (N0 & HO & HC & K). destruct (nh_class s) eqn:EK; (split; [|exact IH]); repeat split; cbn; rewrite ?EK; auto; try apply K.
  - unfold nh_set_mutation_rate. destruct OK as (N0 & HO & HC & K). destruct (nh_class s) eqn:EK; (split; [|exact IH]); repeat split; cbn; rewrite ?EK; auto; try apply K.
  - unfold nh_set_allow_no_mutation. destruct OK as (N0 & HO & HC & K). destruct (nh_class s) eqn:EK; (split; [|exact IH]); repeat split; cbn; rewrite ?EK; auto; try apply K.
Qed.

(** * Final forms *)

Theorem propose_final n s d o : nh_reachable n s Settled -> in_bounds (nh_class s) n d -> nh_propose s d = Some o ->
  exists s', o = Ok s' /\ nh_origin s' = nh_origin s /\ diffs n (nh_origin s') (nh_candidate s') = nh_flipped s' /\
    index_set n (nh_flipped s') /\ flip_count (nh_class s) n (length (nh_flipped s')).
Proof.
  intros R B E. destruct (reachable_inv n s _ R) as [OK IH]. destruct (propose_exact n s d o OK IH B E) as (l & _ & A1 & A2 & ->).
  eexists. split; [reflexivity|]. cbn. destruct OK as (_ & HO & _). destruct (index_set_flip n _ l HO A1) as (_ & F2 & _). repeat split; try apply A1; auto.
Qed.

Theorem proposed_final n s : nh_reachable n s Proposed ->
  diffs n (nh_origin s) (nh_candidate s) = nh_flipped s /\
  (exists s', nh_keep s = Ok s' /\ nh_origin s' = nh_candidate s /\ nh_candidate s' = nh_candidate s) /\
  (exists s', nh_forget s = Ok s' /\ nh_origin s' = nh_origin s /\ nh_candidate s' = nh_origin s).
Proof.
  intros R. destruct (reachable_inv n s _ R) as [OK IH]. split.
  - destruct OK as (_ & HO & _), IH as [I <-]. now apply index_set_flip.
  - rewrite (keep_exact n s OK IH), (forget_exact n s OK IH). split; eexists; (split; [reflexivity|]); auto.
Qed.

Theorem mutate_final n s p x d o : nh_reachable n s p -> in_bounds (nh_class s) n d -> length x = n -> nh_mutate s x d = Some o ->
  exists s' y, o = Ok (s', y) /\ nh_origin s' = nh_origin s /\ nh_candidate s' = nh_candidate s /\
    diffs n x y = nh_flipped s' /\ length y = n /\ flip_count (nh_class s) n (length (nh_flipped s')).
Proof.
  intros R B Hx E. destruct (reachable_inv n s _ R) as [OK _]. destruct (mutate_exact n s x d o OK Hx B E) as (l & _ & A1 & A2 & ->).
  eexists _, _. split; [reflexivity|]. cbn. destruct (index_set_flip n x l Hx A1) as (_ & F2 & _ & F4). repeat split; auto.
Qed.

Theorem misuse n s x d s' y : nh_reachable n s Proposed -> in_bounds (nh_class s) n d -> nh_mutate s x d = Some (Ok (s', y)) ->
  nh_flipped s' <> nh_flipped s -> nh_keep s' = UB /\ nh_forget s' = UB.
Proof.
  intros R B E D. destruct (reachable_inv n s _ R) as [OK [I IH]].
  assert (length x = n) as Hx. { pose proof OK as (_ & HO & _). unfold nh_mutate in E. destruct (Nat.eqb_spec (length x) (length (nh_origin s))); [lia|discriminate]. }
  destruct (mutate_exact n s x d _ OK Hx B E) as (l & _ & A1 & A2 & E2). apply Ok_inj in E2. injection E2 as -> ->. cbn [nh_flipped] in D.
  destruct OK as (_ & HO & HC & _). unfold nh_keep, nh_forget. cbn [nh_origin nh_candidate nh_flipped].
  destruct (index_set_flip n _ l HO A1) as (F1 & F2 & F3 & _). destruct (index_set_flip n _ l HC A1) as (G1 & G2 & G3 & _). rewrite F1, G1. cbn [bind].
  destruct (index_set_flip n _ _ HO I) as (_ & I2 & _). rewrite IH in I2. split.
  - destruct (bv_eqb (nh_candidate s) (flips (nh_origin s) l)) eqn:X; [|reflexivity]. apply bv_eqb_eq in X. rewrite <- X in F2. congruence.
  - destruct (bv_eqb (flips (nh_candidate s) l) (nh_origin s)) eqn:X; [|reflexivity]. apply bv_eqb_eq in X. rewrite <- X, G3 in F2. congruence.
Qed.

Theorem rejection_terminates k d : k <= length (nodup Nat.eq_dec (d_index d)) -> exists l, rejection_sampling k d = Some l.
Proof.
  intros H. unfold rejection_sampling. destruct (rejection_returns (d_index d) k [] (NoDup_nil _) H) as [l ->]. now exists (sort_ints l).
Qed.

Theorem radius_too_large n s r d : nh_reachable n s Settled -> nh_class s = HammingSphere r ->
  in_bounds (nh_class s) n d -> forall r', n < r' -> nh_propose (nh_set_radius s r') d = Some UB.
Proof.
  intros R K B r' Hr. destruct (reachable_inv n s _ R) as [(N0 & HO & HC & _) IH]. cbn in IH. unfold nh_propose, nh_set_radius. rewrite K. cbn [nh_candidate nh_origin].
  rewrite IH, bv_eqb_refl. unfold with_sample, sample_bits. cbn [nh_class nh_candidate]. rewrite HO.
  assert (below_sqrt r' n = false) as ->. { apply Nat.ltb_ge. destruct r'; [lia|]. cbn. lia. }
  unfold bernoulli_trials. destruct (trials_loop (d_uniform d) n 0 (Z.of_nat r')) as [l k] eqn:E.
  assert (k <> 0%Z). { pose proof (trials_too_many (d_uniform d) n 0 r' (fun j => proj2 (proj1 B j)) Hr) as T. now rewrite E in T. }
  apply Z.eqb_neq in H. rewrite H. reflexivity.
Qed.

Theorem bernoulli_trials_exact n k d : (forall i, 0 <= d_uniform d i < 1)%Q -> k <= n ->
  exists l, bernoulli_trials n k d = Ok l /\ index_set n l /\ length l = k.
Proof.
  intros U Hk. destruct (trials_spec (d_uniform d) n 0 k U Hk) as (l & E1 & E2 & E3 & E4). exists l. unfold bernoulli_trials. rewrite E1. cbn.
  repeat split; auto. eapply Forall_impl; [|apply E4]. cbn; intros; lia.
Qed.

Theorem rejection_exact n k d : Forall (fun i => i < n) (d_index d) ->
  (forall l, rejection_sampling k d = Some l -> index_set n l /\ length l = k) /\
  (k <= length (nodup Nat.eq_dec (d_index d)) -> exists l, rejection_sampling k d = Some l).
Proof.
  intros F. split; [|apply rejection_terminates]. intros l H. destruct (rejection_spec n k d l H F) as (A & B & C). repeat split; auto.
Qed.
