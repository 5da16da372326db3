(** Proofs about probability vectors and the algorithms based on them. *)

From Coq Require Import QArith Qfield Lqa Permutation.
From Verif Require Import Base BaseLemmas BitVector_Model BitVector_Spec BitVector_Proofs Representation_Spec Map_Spec Algorithm_Model Algorithm_Spec Algorithm_Proofs
  Population_Model Population_Spec Population_Proofs PopAlgorithm_Model PopAlgorithm_Spec PopAlgorithm_Proofs ProbabilityVector_Model ProbabilityVector_Spec.
Local Open Scope nat_scope.

Lemma qltb_lt a b : qltb a b = true <-> (a < b)%Q.
Proof.
  unfold qltb. rewrite negb_true_iff. split; intros H.
  - apply Qnot_le_lt. intros C. apply Qle_bool_iff in C. congruence.
  - destruct (Qle_bool b a) eqn:E; [|reflexivity]. apply Qle_bool_iff in E. exfalso. apply (Qlt_not_le _ _ H E).
Qed.
Lemma qltb_ge a b : qltb a b = false <-> (b <= a)%Q.
Proof.
  unfold qltb. rewrite negb_false_iff. apply Qle_bool_iff.
Qed.

Lemma bound_clamped lo hi p : (lo <= hi)%Q -> clamped lo hi p (qmax lo (qmin hi p)).
Proof.
  intros H. unfold clamped, qmax, qmin.
  destruct (qltb p hi) eqn:E1; [apply qltb_lt in E1|apply qltb_ge in E1].
  - destruct (qltb lo p) eqn:E2; [apply qltb_lt in E2|apply qltb_ge in E2]; repeat split; intros; lra.
  - destruct (qltb lo hi) eqn:E2; [apply qltb_lt in E2|apply qltb_ge in E2]; repeat split; intros; lra.
Qed.

Lemma clamped_in lo hi p r : (lo <= hi)%Q -> clamped lo hi p r -> (lo <= r <= hi)%Q.
Proof.
  intros H (A & B & C). destruct (Qlt_le_dec p lo) as [L|L]; [rewrite (A L); lra|].
  destruct (Qlt_le_dec hi p) as [M|M]; [rewrite (C M); lra|]. rewrite B; lra.
Qed.

Lemma clamped_ext lo hi p p' r : (p == p')%Q -> clamped lo hi p r -> clamped lo hi p' r.
Proof. intros E (A & B & C). repeat split; intros H; [rewrite A; lra|rewrite B; lra|rewrite C; lra]. Qed.

Lemma half_between n : 2 <= n -> (1 / inject_Z (Z.of_nat n) <= 1 # 2 <= 1 - 1 / inject_Z (Z.of_nat n))%Q.
Proof.
  intros H.
  assert (L : (1 / inject_Z (Z.of_nat n) <= 1 # 2)%Q).
  { assert (P : (0 < inject_Z (Z.of_nat n))%Q). { change 0%Q with (inject_Z 0). rewrite <- Zlt_Qlt. lia. }
    apply Qle_shift_div_r; [exact P|]. assert (Q : (inject_Z 2 <= inject_Z (Z.of_nat n))%Q). { rewrite <- Zle_Qle. lia. }
    change (inject_Z 2) with 2%Q in Q. lra. }
  split; [exact L|]. lra.
Qed.

Lemma nth_pv_bound pv n i : i < length pv ->
  nth i (pv_bound pv (lower_bound n) (upper_bound n)) 0%Q = qmax (lower_bound n) (qmin (upper_bound n) (nth i pv 0%Q)).
Proof.
  intros H. unfold pv_bound. set (f := fun p => _). rewrite (nth_indep _ 0%Q (f 0%Q)) by (rewrite map_length; lia). apply map_nth.
Qed.

Lemma bound_nth_clamped pv n i : 2 <= n -> i < length pv ->
  clamped (1 / inject_Z (Z.of_nat n)) (1 - 1 / inject_Z (Z.of_nat n)) (nth i pv 0%Q) (nth i (pv_bound pv (lower_bound n) (upper_bound n)) 0%Q).
Proof. intros Hn H. rewrite nth_pv_bound by assumption. apply bound_clamped. pose proof (half_between n Hn). unfold lower_bound, upper_bound. lra. Qed.

Lemma bound_within pv n : 2 <= n -> Forall (within n) (pv_bound pv (lower_bound n) (upper_bound n)).
Proof.
  intros Hn. apply Forall_forall. intros p Hp. unfold pv_bound in Hp. apply in_map_iff in Hp as (q & <- & _).
  eapply clamped_in; [|apply bound_clamped]; pose proof (half_between n Hn); unfold lower_bound, upper_bound; lra.
Qed.

Lemma length_pv_bound pv a b : length (pv_bound pv a b) = length pv.
Proof. apply map_length. Qed.

(** * Sampling *)

Lemma pv_sample_Ok n pv x u : length pv = n -> length x = n ->
  exists y, pv_sample pv x u = Ok y /\ drawn n pv u y.
Proof.
  intros L1 L2. unfold pv_sample. rewrite (proj2 (Nat.eqb_eq (length x) (length pv))) by congruence. cbn [assertb bind].
  eexists. split; [reflexivity|]. split; [now rewrite map_length, seq_length|]. intros i Hi.
  set (g := fun i => qltb (u i) (nth i pv 0%Q)). rewrite (nth_indep _ false (g 0)) by (rewrite map_length, seq_length; lia).
  rewrite map_nth, seq_nth by lia. unfold g. cbn [Nat.add]. apply qltb_lt.
Qed.

Lemma sample_all_Ok size n pv u bs : length pv = n -> length bs = size -> Forall (fun x => length x = n) bs ->
  exists bs', foldM (fun bs k => b <- vget bs k ;; b' <- pv_sample pv b (u k) ;; vset bs k b') (seq 0 size) bs = Ok bs' /\
    length bs' = size /\ (forall k, k < size -> drawn n pv (u k) (nth k bs' [])).
Proof.
  intros LP LB FB.
  destruct (foldM_upto (fun k bs' => length bs' = size /\ Forall (fun x => length x = n) bs' /\ forall j, j < k -> drawn n pv (u j) (nth j bs' []))
    (fun bs k => b <- vget bs k ;; b' <- pv_sample pv b (u k) ;; vset bs k b') size bs) as (bs' & E & H1 & H2 & H3).
  - repeat split; auto; lia.
  - intros k b Hk (H1 & H2 & H3). rewrite (vget_nth b k []) by lia. cbn [bind].
    destruct (pv_sample_Ok n pv (nth k b []) (u k) LP (Forall_nth_len H2 k ltac:(lia))) as (y & -> & D). cbn [bind].
    rewrite (vset_Ok b k) by lia. eexists. split; [reflexivity|]. split; [now rewrite length_upd|]. split; [apply Forall_upd; auto; apply D|].
    intros j Hj. destruct (Nat.eq_dec j k) as [->|]; [rewrite nth_upd_eq by lia; exact D|]. rewrite nth_upd_neq by assumption. apply H3. lia.
  - exists bs'. auto.
Qed.

(** * Averages *)

Lemma ones_at_app i l l' : ones_at i (l ++ l') = ones_at i l + ones_at i l'.
Proof. unfold ones_at. now rewrite filter_app, app_length. Qed.

Lemma mean_Ok size n selection p : well_formed size n p -> 0 < selection <= size ->
  exists m, mean_of_best selection p n = Ok m /\ length m = n /\
    forall i, i < n -> (nth i m 0 == frequency i (map (at_index p) (firstn selection (p_perm p))))%Q.
Proof.
  intros W Hsel. pose proof (perm_seq_length _ _ (wf_perm W)) as LP. pose proof W as (W1 & W2 & W3 & W4 & W5 & W6). unfold mean_of_best.
  destruct (foldM_upto (fun k m => length m = n /\ forall i, i < n -> (nth i m 0 == inject_Z (Z.of_nat (ones_at i (map (at_index p) (firstn k (p_perm p))))))%Q)
    (fun m i => b <- best_bv p i ;; pv_add m b) selection (repeat 0%Q n)) as (m & E & L & H).
  - split; [apply repeat_length|]. intros i Hi. cbn [firstn map]. rewrite nth_repeat_lt by lia. reflexivity.
  - intros k m Hk (L & H). pose proof (perm_seq_nth _ _ k (wf_perm W) ltac:(lia)) as K. unfold best_bv. rewrite (best_index_Ok W) by lia. cbn [bind].
    rewrite (vget_nth (p_bvs p) _ []) by lia. cbn [bind]. set (b := nth (nth k (p_perm p) 0) (p_bvs p) []).
    assert (LB : length b = n) by (apply (Forall_nth_len W4); lia).
    unfold pv_add. rewrite (proj2 (Nat.eqb_eq (length b) (length m))) by congruence. cbn [assertb bind]. eexists. split; [reflexivity|].
    split; [now apply length_map2_eq|]. intros i Hi. rewrite (nth_map2 _ m b i 0%Q false) by lia.
    rewrite <- Nat.add_1_r, (firstn_S_nth k _ 0) by lia. rewrite map_app, ones_at_app. cbn [map].
    specialize (H i Hi).
    assert (O : ones_at i [at_index p (nth k (p_perm p) 0)] = if nth i b false then 1 else 0).
    { unfold ones_at. cbn [filter]. unfold at_index at 1. cbn [fst]. fold b. now destruct (nth i b false). }
    rewrite O, Nat2Z.inj_add, inject_Z_plus. destruct (nth i b false); rewrite H; [change (inject_Z (Z.of_nat 1)) with 1%Q|change (inject_Z (Z.of_nat 0)) with 0%Q]; ring.
  - rewrite E. cbn [bind]. unfold pv_average. rewrite (proj2 (Nat.ltb_lt 0 selection)) by lia. eexists. split; [reflexivity|].
    split; [now rewrite map_length|]. intros i Hi. set (g := fun q => _). rewrite (nth_indep _ 0%Q (g 0%Q)) by (rewrite map_length; lia). rewrite map_nth.
    unfold g, frequency. rewrite H by assumption. rewrite map_length, firstn_length_le by lia. reflexivity.
Qed.

(** * Generations *)

Definition eda_sized (size n : nat) (m : eda) : Prop := well_formed size n (e_pop m) /\ length (e_pv m) = n.

Lemma e_get_put p m : e_pop (e_put p m) = p. Proof. reflexivity. Qed.
Lemma e_put_put p q m : e_put p (e_put q m) = e_put p m. Proof. reflexivity. Qed.
Lemma e_put_get m : e_put (e_pop m) m = m. Proof. now destruct m. Qed.

Section Eda.
  Variables (o : objective) (n size selection : nat) (rate : Q).
  Variables (u : nat -> nat -> nat -> Q) (shs : nat -> list nat -> list nat).
  Variable srt : (nat -> nat -> bool) -> list nat -> list nat.
  Hypothesis HSH : forall t, shuffles (shs t).
  Hypothesis HSO : sorts srt.
  Hypothesis HSEL : 0 < selection <= size.

  (** A generation: the population is sampled, evaluated and sorted. *)
  Lemma generation_wp t (s : alg eda) : eda_sized size n (a_mem s) -> top_of o (a_trace s) (a_sol s) ->
    wp (eda_generation o u shs srt t)
      (fun _ s' => exists sampled,
         length sampled = size /\ (forall k, k < size -> drawn n (e_pv (a_mem s)) (u t k) (nth k sampled [])) /\
         a_trace s' = a_trace s ++ sampled /\ top_of o (a_trace s') (a_sol s') /\ a_last s' = a_last s /\
         eda_sized size n (a_mem s') /\ e_pv (a_mem s') = e_pv (a_mem s) /\
         best_of selection (map (at_index (e_pop (a_mem s'))) (firstn selection (p_perm (e_pop (a_mem s'))))) (map (fun x => (x, o_value o x)) sampled))
      (fun e s' => lagging o size s' /\ e_pv (a_mem s') = e_pv (a_mem s) /\ eda_sized size n (a_mem s') /\ (exists e', e = Some e' /\ o_stop o (length (a_trace s')) = Some e')) s.
  Proof.
    intros [W LP] TO. pose proof W as (W1 & W2 & W3 & W4 & W5 & W6). unfold eda_generation. apply wp_bind.
    destruct (sample_all_Ok size n (e_pv (a_mem s)) (u t) (p_bvs (e_pop (a_mem s))) LP W3 W4) as (bs & E & LB & D).
    eapply wp_on_mem; [unfold pop_size; rewrite W3, E; cbn [bind]; reflexivity|].
    set (m1 := mk_eda _ _). set (s1 := put_mem m1 s).
    assert (WB : well_formed size n (e_pop m1)).
    { unfold well_formed; cbn. repeat split; auto. apply Forall_forall. intros x Hx. apply (In_nth _ _ []) in Hx as (k & Hk & <-). apply D. lia. }
    apply wp_bind. eapply wp_mono; [apply (eval_pop_wp e_pop e_put e_get_put e_put_put e_put_get o size n s1 WB)| |].
    2:{ cbn [s1 m1 put_mem a_mem a_trace a_sol a_last e_pop e_put e_pv p_bvs p_perm]. intros e s' (k & vs & e' & K & LV & -> & ST & ->).
        cbn [put_mem a_mem a_trace a_sol a_last e_pop e_put e_pv]. split; [|split; [reflexivity|split]].
        - exists (a_trace s), (firstn k bs). split; [reflexivity|]. split; [rewrite firstn_length; lia|exact TO].
        - split; [|exact LP]. cbn [e_pop]. unfold well_formed in *; cbn in *. tauto.
        - exists e'. split; [reflexivity|]. now rewrite app_length, firstn_length_le by lia. }
    cbn [s1 m1 put_mem a_mem a_trace a_sol a_last e_pop e_put e_pv p_bvs p_perm]. intros _ s' ->.
    set (p0 := mk_pop bs (map (o_value o) bs) (p_perm (e_pop (a_mem s)))).
    assert (W0 : well_formed size n p0).
    { unfold well_formed in *; cbn in *. rewrite map_length. tauto. }
    pose proof (sort_wf _ _ _ _ _ (HSH t) HSO W0) as WS.
    eapply (sort_update_wp e_pop e_put e_get_put o (shs t) srt size n p0 _ (a_trace s)); try reflexivity; auto.
    cbn [a_trace a_sol a_last a_mem e_pv e_pop e_put]. intros sol TS _ _. exists bs. split; [assumption|]. split; [assumption|].
    split; [reflexivity|]. split; [assumption|]. split; [reflexivity|]. split; [split; assumption|]. split; [reflexivity|].
    apply (selected_best selection size n _ (map (fun x => (x, o_value o x)) bs) WS); [lia| |].
    - intros i j Hi Hj. apply (sort_values (shs t) srt size n p0 i j); auto; lia.
    - unfold individuals. cbn [pop_sort p_bvs p_values p0].
      assert (C : forall l, combine l (map (o_value o) l) = map (fun x => (x, o_value o x)) l). { induction l as [|a l IHl]; cbn; [reflexivity|]. now rewrite IHl. }
      rewrite C. apply Permutation_refl.
  Qed.

  (** Learning: any rule *)
  Lemma learn_wp target (learn : eda -> outcome (list Q)) t (s : alg eda) : 2 <= n ->
    (forall m, eda_sized size n m -> exists pv, learn m = Ok pv /\ length pv = n /\
       forall i, i < n -> (nth i pv 0 == target i (nth i (e_pv m) 0) (map (at_index (e_pop m)) (firstn selection (p_perm (e_pop m)))))%Q) ->
    eda_sized size n (a_mem s) -> top_of o (a_trace s) (a_sol s) ->
    wp (_ <~ eda_generation o u shs srt t ;; eda_learn n learn)
      (fun _ s' => learns target o n size selection (u t) s s' /\ top_of o (a_trace s') (a_sol s') /\
         eda_sized size n (a_mem s') /\ a_last s' = a_last s /\ Forall (within n) (e_pv (a_mem s')))
      (fun e s' => lagging o size s' /\ e_pv (a_mem s') = e_pv (a_mem s) /\ eda_sized size n (a_mem s') /\ (exists e', e = Some e' /\ o_stop o (length (a_trace s')) = Some e')) s.
  Proof.
    intros Hn HL SZ TO. apply wp_bind. eapply wp_mono; [apply (generation_wp t s SZ TO)| |auto]. cbn beta.
    intros _ s1 (sampled & S1 & S2 & S3 & S4 & S5 & S6 & S7 & S8). destruct (HL _ S6) as (pv & P1 & P2 & P3).
    unfold eda_learn. eapply wp_on_mem; [rewrite P1; cbn [bind]; reflexivity|].
    cbn [put_mem a_mem a_trace a_sol a_last e_pop e_pv]. split.
    - exists sampled, (map (at_index (e_pop (a_mem s1))) (firstn selection (p_perm (e_pop (a_mem s1))))). cbn [put_mem a_mem a_trace a_sol a_last e_pop e_pv].
      split; [assumption|]. split; [assumption|]. split; [assumption|]. split; [assumption|]. split; [now rewrite length_pv_bound|].
      intros i Hi. eapply clamped_ext; [|apply bound_nth_clamped; [assumption|lia]]. rewrite <- S7. now apply P3.
    - split; [assumption|]. split; [|split; [assumption|now apply bound_within]]. split; [apply S6|]. cbn [e_pv]. now rewrite length_pv_bound.
  Qed.

  Lemma umda_learn_Ok m : eda_sized size n m -> exists pv, mean_of_best selection (e_pop m) (length (e_pv m)) = Ok pv /\ length pv = n /\
    forall i, i < n -> (nth i pv 0 == (fun i _ => frequency i) i (nth i (e_pv m) 0) (map (at_index (e_pop m)) (firstn selection (p_perm (e_pop m)))))%Q.
  Proof. intros [W L]. rewrite L. apply (mean_Ok size n selection _ W HSEL). Qed.

  Definition pbil_target i p kept : Q := (p + rate * (frequency i kept - p))%Q.
  Lemma pbil_learn_Ok m : eda_sized size n m -> exists pv, (mean <- mean_of_best selection (e_pop m) n ;; pv_update (e_pv m) mean rate) = Ok pv /\ length pv = n /\
    forall i, i < n -> (nth i pv 0 == pbil_target i (nth i (e_pv m) 0) (map (at_index (e_pop m)) (firstn selection (p_perm (e_pop m)))))%Q.
  Proof.
    intros [W L]. destruct (mean_Ok size n selection _ W HSEL) as (mean & -> & LM & HM). cbn [bind]. unfold pv_update.
    rewrite (proj2 (Nat.eqb_eq (length mean) (length (e_pv m)))) by congruence. cbn [assertb bind]. eexists. split; [reflexivity|].
    split; [now apply length_map2_eq|]. intros i Hi. rewrite (nth_map2 _ (e_pv m) mean i 0%Q 0%Q) by lia. rewrite (HM i Hi). reflexivity.
  Qed.

  Lemma nps_learn_Ok m : eda_sized size n m -> exists pv, (best <- mean_of_best selection (e_pop m) n ;; worst <- mean_of_best selection (e_pop m) n ;; pv_update2 (e_pv m) best worst rate) = Ok pv /\ length pv = n /\
    forall i, i < n -> (nth i pv 0 == (fun _ p _ => p) i (nth i (e_pv m) 0) (map (at_index (e_pop m)) (firstn selection (p_perm (e_pop m)))))%Q.
  Proof.
    intros [W L]. destruct (mean_Ok size n selection _ W HSEL) as (mean & -> & LM & HM). cbn [bind]. unfold pv_update2.
    rewrite (proj2 (Nat.eqb_eq (length mean) (length (e_pv m)))) by congruence. cbn [assertb bind]. eexists. split; [reflexivity|].
    assert (L2 : length (map2 (fun a b : Q => rate * (a - b))%Q mean mean) = n) by now apply length_map2_eq.
    split; [now apply length_map2_eq|]. intros i Hi. rewrite (nth_map2 Qplus (e_pv m) _ i 0%Q 0%Q) by lia. rewrite (nth_map2 _ mean mean i 0%Q 0%Q) by lia. ring.
  Qed.

  Lemma random_solution_wp {X} bit (s : alg X) : a_trace s = [] -> length (fst (a_sol s)) = n ->
    wp (random_solution o bit)
      (fun _ s' => top_of o (a_trace s') (a_sol s') /\ length (fst (a_sol s')) = n /\ length (a_trace s') = 1 /\ a_mem s' = a_mem s)
      (fun e s' => (exists e', e = Some e' /\ o_stop o (length (a_trace s')) = Some e') /\ a_trace s' = []) s.
  Proof.
    intros T L. eapply wp_mono; [apply (start_wp o n (RandomStart bit) s I T L)| |].
    - intros _ s' (B & B1 & B2 & _ & B4). split; [|split; [assumption|split; [now rewrite B2|assumption]]]. destruct B as [B B'].
      apply first_best_max in B as [C1 C2]. split; [assumption|]. split; [assumption|]. intros y Hy. rewrite B'. now apply C2.
    - intros e s' (Q1 & Q2 & Q3 & _). split; [|assumption]. destruct e as [e|]; [|congruence]. exists e. rewrite Q3. auto.
  Qed.

  (** Runs *)
  Lemma eda_run target learn (P : Q -> Prop) bit num fuel (s : alg eda) : 2 <= n ->
    P (1 # 2)%Q -> (forall i p q kept, i < n -> P p -> clamped (1 / inject_Z (Z.of_nat n)) (1 - 1 / inject_Z (Z.of_nat n)) (target i p kept) q -> P q) ->
    (forall m, eda_sized size n m -> exists pv, learn m = Ok pv /\ length pv = n /\
       forall i, i < n -> (nth i pv 0 == target i (nth i (e_pv m) 0) (map (at_index (e_pop m)) (firstn selection (p_perm (e_pop m)))))%Q) ->
    eda_sized size n (a_mem s) -> a_trace s = [] -> length (fst (a_sol s)) = n ->
    let '(r, s') := loop (eda_init o bit) (fun t => _ <~ eda_generation o u shs srt t ;; eda_learn n learn) num fuel s in
    run_top o size r s' /\ (a_trace s' = [] \/ (length (e_pv (a_mem s')) = n /\ Forall P (e_pv (a_mem s')))).
  Proof.
    intros Hn P0 PS HL SZ T LS. pose proof SZ as [(W1 & _) LP].
    pose proof (run_generic o size (fun s' => eda_sized size n (a_mem s') /\ Forall P (e_pv (a_mem s')))
      (fun s' => length (e_pv (a_mem s')) = n /\ Forall P (e_pv (a_mem s')))
      (eda_init o bit) (fun t => _ <~ eda_generation o u shs srt t ;; eda_learn n learn) num fuel s W1) as R.
    destruct (loop _ _ _ _ _) as [r s']. match type of R with _ -> _ -> _ -> ?D => enough D as (G1 & G2 & _) by (split; assumption); apply R end.
    - unfold eda_init. apply wp_bind. eapply wp_mono; [apply (random_solution_wp bit s T LS)| |].
      + cbn beta. intros _ s1 (T1 & _ & _ & M1). apply wp_modify. cbn [put_mem put_last a_mem a_trace a_sol a_last e_pv e_pop]. rewrite M1.
        split; [assumption|]. split; [split; [apply SZ|]|]; cbn [e_pv]; unfold pv_uniform; [now rewrite repeat_length|].
        apply Forall_forall. intros p Hp. apply repeat_spec in Hp as ->. assumption.
      + cbn beta. intros e s1 (E1 & E2). split; [assumption|]. now left.
    - intros s1 [[_ H] H2]. auto.
    - intros i s1 (SZ1 & F1) TO LA. eapply wp_mono; [apply (learn_wp target learn i s1 Hn HL SZ1 TO)| |].
      + cbn beta. intros _ s2 ((sampled & kept & _ & _ & _ & _ & L5 & L6) & L7 & L8 & _). split; [assumption|]. split; [assumption|].
        apply Forall_forall. intros q Hq. apply (In_nth _ _ 0%Q) in Hq as (j & Hj & <-). rewrite L5 in Hj. eapply PS; [exact Hj| |apply (L6 j Hj)].
        rewrite Forall_forall in F1. apply F1, nth_In. destruct SZ1 as [_ ->]. exact Hj.
      + cbn beta. intros e s2 (L1 & L2 & L3 & (e' & -> & L4)). split; [assumption|]. split; [|assumption]. rewrite L2. split; [apply SZ1|assumption].
  Qed.

  Lemma clamped_within (target : nat -> Q -> list (bv * Z) -> Q) i p q kept : 2 <= n ->
    clamped (1 / inject_Z (Z.of_nat n)) (1 - 1 / inject_Z (Z.of_nat n)) (target i p kept) q -> within n q.
  Proof. intros Hn C. eapply clamped_in; [|exact C]. pose proof (half_between n Hn). lra. Qed.

  Definition eda_done (P : Q -> Prop) (x : res unit * alg eda) : Prop :=
    let '(r, s') := x in run_top o size r s' /\ (a_trace s' = [] \/ (length (e_pv (a_mem s')) = n /\ Forall P (e_pv (a_mem s')))).

  Lemma umda_run bit num fuel s : 2 <= n -> eda_sized size n (a_mem s) -> a_trace s = [] -> length (fst (a_sol s)) = n ->
    eda_done (within n) (loop (eda_init o bit) (umda_iterate o n selection u shs srt) num fuel s).
  Proof.
    intros Hn SZ T L. refine (eda_run (fun i _ => frequency i) (fun m => mean_of_best selection (e_pop m) (length (e_pv m))) (within n) bit num fuel s Hn (half_between n Hn) _ umda_learn_Ok SZ T L).
    intros i p q kept _ _ C. now apply (clamped_within (fun i _ => frequency i) i p q kept).
  Qed.
  Lemma pbil_run bit num fuel s : 2 <= n -> eda_sized size n (a_mem s) -> a_trace s = [] -> length (fst (a_sol s)) = n ->
    eda_done (within n) (loop (eda_init o bit) (pbil_iterate o n selection rate u shs srt) num fuel s).
  Proof.
    intros Hn SZ T L. refine (eda_run pbil_target (fun m => mean <- mean_of_best selection (e_pop m) n ;; pv_update (e_pv m) mean rate) (within n) bit num fuel s Hn (half_between n Hn) _ pbil_learn_Ok SZ T L).
    intros i p q kept _ _ C. now apply (clamped_within pbil_target i p q kept).
  Qed.
  Lemma nps_run bit num fuel s : 2 <= n -> eda_sized size n (a_mem s) -> a_trace s = [] -> length (fst (a_sol s)) = n ->
    eda_done (fun p => p == 1 # 2)%Q (loop (eda_init o bit) (nps_iterate o n selection rate u shs srt) num fuel s).
  Proof.
    intros Hn SZ T L. refine (eda_run (fun _ p _ => p) (fun m => best <- mean_of_best selection (e_pop m) n ;; worst <- mean_of_best selection (e_pop m) n ;; pv_update2 (e_pv m) best worst rate) (fun p => p == 1 # 2)%Q bit num fuel s Hn (Qeq_refl _) _ nps_learn_Ok SZ T L).
    intros i p q kept _ HP (_ & C & _). rewrite C; [assumption|]. rewrite HP. apply half_between. assumption.
  Qed.
End Eda.

(** * MMAS and compact GA *)

Definition sampler_sized (n : nat) (m : sampler) : Prop := length (sm_pv m) = n /\ length (sm_x m) = n /\ length (sm_y m) = n.

Section Sampler.
  Variables (o : objective) (n : nat) (rate : Q) (u : nat -> nat -> nat -> Q).
  Hypothesis Hn : 2 <= n.

  (** [pv'] has the clamped values of [target i pv_i] *)
  Definition moved (target : nat -> Q -> Q) (pv pv' : list Q) : Prop :=
    length pv' = n /\ forall i, i < n ->
      clamped (1 / inject_Z (Z.of_nat n)) (1 - 1 / inject_Z (Z.of_nat n)) (target i (nth i pv 0%Q)) (nth i pv' 0%Q).

  Lemma moved_within target pv pv' : moved target pv pv' -> Forall (within n) pv'.
  Proof.
    intros [L H]. apply Forall_forall. intros q Hq. apply (In_nth _ _ 0%Q) in Hq as (j & Hj & <-). rewrite L in Hj.
    eapply clamped_in; [|exact (H j Hj)]. pose proof (half_between n Hn). lra.
  Qed.

  Definition mmas_target (x : bv) i p : Q := (p + rate * (bit_q (nth i x false) - p))%Q.

  Lemma mmas_learn_wp (s : alg sampler) (Q : unit -> alg sampler -> Prop) E : sampler_sized n (a_mem s) -> length (fst (a_sol s)) = n ->
    (forall pv, moved (mmas_target (fst (a_sol s))) (sm_pv (a_mem s)) pv -> Q tt (put_mem (mk_sampler pv (sm_x (a_mem s)) (sm_y (a_mem s))) s)) ->
    wp (mmas_learn n rate) Q E s.
  Proof.
    intros (S1 & S2 & S3) LS H. unfold mmas_learn. apply wp_bind, wp_get. eapply wp_on_mem.
    { unfold pv_update. rewrite map_length. rewrite (proj2 (Nat.eqb_eq (length (fst (a_sol s))) (length (sm_pv (a_mem s))))) by congruence. cbn [assertb bind]. reflexivity. }
    assert (L : length (map2 (fun p a => p + rate * (a - p))%Q (sm_pv (a_mem s)) (map bit_q (fst (a_sol s)))) = n).
    { apply length_map2_eq; [assumption|]. now rewrite map_length. }
    apply H. split; [now rewrite length_pv_bound|]. intros i Hi. eapply clamped_ext; [|apply bound_nth_clamped; [assumption|lia]].
    rewrite (nth_map2 _ _ _ i 0%Q 0%Q) by (rewrite ?map_length; lia). unfold mmas_target.
    rewrite (nth_indep (map bit_q _) 0%Q (bit_q false)) by (rewrite map_length; lia). rewrite map_nth. reflexivity.
  Qed.

  Definition sampler_inv (s : alg sampler) : Prop :=
    sampler_sized n (a_mem s) /\ length (fst (a_sol s)) = n.

  (** One iteration of MMAS *)
  Lemma mmas_iterate_wp cmp t (s : alg sampler) : ascending cmp -> sampler_inv s -> top_of o (a_trace s) (a_sol s) ->
    wp (mmas_iterate o n rate u cmp t)
      (fun _ s' => exists x, drawn n (sm_pv (a_mem s)) (u t 0) x /\ a_trace s' = a_trace s ++ [x] /\
         a_sol s' = (if cmp (o_value o x) (snd (a_sol s)) then (x, o_value o x) else a_sol s) /\
         moved (mmas_target (fst (a_sol s'))) (sm_pv (a_mem s)) (sm_pv (a_mem s')) /\
         top_of o (a_trace s') (a_sol s') /\ sampler_inv s' /\ a_last s' = a_last s)
      (fun e s' => top_of o (a_trace s') (a_sol s') /\ sm_pv (a_mem s') = sm_pv (a_mem s) /\ (exists e', e = Some e' /\ o_stop o (length (a_trace s')) = Some e')) s.
  Proof.
    intros HC [(S1 & S2 & S3) LS] TO. unfold mmas_iterate. apply wp_bind.
    destruct (pv_sample_Ok n (sm_pv (a_mem s)) (sm_x (a_mem s)) (u t 0) S1 S2) as (x & EX & D).
    eapply wp_on_mem; [rewrite EX; cbn [bind]; reflexivity|]. apply wp_bind, wp_get. cbn [put_mem a_mem sm_x]. apply wp_bind, wp_evaluate.
    { cbn. intros e He. split; [exact TO|]. split; [reflexivity|]. eauto. }
    apply wp_bind, wp_get. cbn [put_mem put_trace a_sol]. apply wp_bind.
    assert (TA : top_of o (a_trace s ++ [x]) (if cmp (o_value o x) (snd (a_sol s)) then (x, o_value o x) else a_sol s)).
    { destruct TO as (T1 & T2 & T3). destruct (cmp (o_value o x) (snd (a_sol s))) eqn:C; apply HC in C.
      - split; [apply in_or_app; right; now left|]. split; [reflexivity|]. cbn. intros y Hy. apply in_app_or in Hy as [Hy|[<-|[]]]; [specialize (T3 y Hy)|]; lia.
      - split; [apply in_or_app; now left|]. split; [assumption|]. intros y Hy. apply in_app_or in Hy as [Hy|[<-|[]]]; auto. }
    assert (TL : length (fst (if cmp (o_value o x) (snd (a_sol s)) then (x, o_value o x) else a_sol s)) = n).
    { destruct (cmp _ _); [apply D|assumption]. }
    set (sol' := if cmp (o_value o x) (snd (a_sol s)) then _ else _) in *.
    assert (FIN : wp (mmas_learn n rate) (fun _ s' => exists x, drawn n (sm_pv (a_mem s)) (u t 0) x /\ a_trace s' = a_trace s ++ [x] /\
         a_sol s' = (if cmp (o_value o x) (snd (a_sol s)) then (x, o_value o x) else a_sol s) /\
         moved (mmas_target (fst (a_sol s'))) (sm_pv (a_mem s)) (sm_pv (a_mem s')) /\
         top_of o (a_trace s') (a_sol s') /\ sampler_inv s' /\ a_last s' = a_last s)
      (fun e s' => top_of o (a_trace s') (a_sol s') /\ sm_pv (a_mem s') = sm_pv (a_mem s) /\ (exists e', e = Some e' /\ o_stop o (length (a_trace s')) = Some e'))
      (mk_alg (a_trace s ++ [x]) sol' (a_last s) (mk_sampler (sm_pv (a_mem s)) x (sm_y (a_mem s))))).
    { apply mmas_learn_wp; [split; [assumption|split; [apply D|assumption]]|assumption|]. cbn [a_sol a_mem sm_pv sm_x sm_y]. intros pv M.
      exists x. cbn [put_mem a_sol a_mem a_trace a_last sm_pv sm_x sm_y]. split; [assumption|]. split; [reflexivity|]. split; [reflexivity|]. split; [assumption|].
      split; [assumption|]. split; [|reflexivity]. split; [|assumption]. split; [apply M|]. split; [apply D|assumption]. }
    destruct (cmp (o_value o x) (snd (a_sol s))); [apply wp_modify|apply wp_ret]; exact FIN.
  Qed.

  Lemma mmas_init_wp bit (s : alg sampler) : a_trace s = [] -> sampler_inv s ->
    wp (mmas_init o n rate bit)
      (fun _ s' => top_of o (a_trace s') (a_sol s') /\ sampler_inv s' /\
         moved (fun i _ => mmas_target (fst (a_sol s')) i (1 # 2)%Q) (sm_pv (a_mem s)) (sm_pv (a_mem s')))
      (fun e s' => (exists e', e = Some e' /\ o_stop o (length (a_trace s')) = Some e') /\ a_trace s' = []) s.
  Proof.
    intros T [(S1 & S2 & S3) LS]. unfold mmas_init. apply wp_bind. eapply wp_mono; [apply (random_solution_wp o n bit s T LS)| |auto].
    cbn beta. intros _ s1 (T1 & L1 & _ & M1). apply wp_bind, wp_modify. rewrite M1. apply mmas_learn_wp.
    - unfold sampler_sized, pv_uniform. cbn. rewrite repeat_length. auto.
    - exact L1.
    - cbn [put_mem a_sol a_mem a_trace a_last sm_pv sm_x sm_y]. intros pv M. split; [assumption|]. split.
      + split; [|assumption]. split; [apply M|auto].
      + destruct M as [M1' M2]. split; [assumption|]. intros i Hi. specialize (M2 i Hi). unfold pv_uniform in M2. rewrite nth_repeat_lt in M2 by lia. exact M2.
  Qed.

  Lemma mmas_run cmp bit num fuel (s : alg sampler) : ascending cmp -> a_trace s = [] -> sampler_inv s ->
    let '(r, s') := loop (mmas_init o n rate bit) (mmas_iterate o n rate u cmp) num fuel s in
    run_top o 1 r s' /\ (a_trace s' = [] \/ (length (sm_pv (a_mem s')) = n /\ Forall (within n) (sm_pv (a_mem s')))).
  Proof.
    intros HC T SZ.
    pose proof (run_generic o 1 (fun s' => sampler_inv s' /\ Forall (within n) (sm_pv (a_mem s')))
      (fun s' => length (sm_pv (a_mem s')) = n /\ Forall (within n) (sm_pv (a_mem s')))
      (mmas_init o n rate bit) (mmas_iterate o n rate u cmp) num fuel s ltac:(lia)) as R.
    destruct (loop _ _ _ _ _) as [r s']. match type of R with _ -> _ -> _ -> ?D => enough D as (G1 & G2 & _) by (split; assumption); apply R end.
    - eapply wp_mono; [apply (mmas_init_wp bit s T SZ)| |].
      + cbn beta. intros _ s1 (H1 & H2 & H3). apply moved_within in H3. auto.
      + cbn beta. intros e s1 (H1 & H2). auto.
    - intros s1 [[(H1 & _) _] H2]. auto.
    - intros i s1 (SZ1 & F1) TO LA. eapply wp_mono; [apply (mmas_iterate_wp cmp i s1 HC SZ1 TO)| |].
      + cbn beta. intros _ s2 (x & _ & _ & _ & H4 & H5 & H6 & _). apply moved_within in H4. auto.
      + cbn beta. intros e s2 (H1 & H2 & (e' & -> & H3)). split; [apply lagging_top; [lia|assumption]|]. rewrite H2. split; [|assumption]. split; [apply SZ1|assumption].
  Qed.

  (** Compact GA *)
  Definition cga_target (best worst : bv) i p : Q :=
    match nth i best false, nth i worst false with
    | true, false => (p + rate)%Q
    | false, true => (p - rate)%Q
    | _, _ => p
    end.

  Lemma cga_update_moved pv best worst : length pv = n -> moved (cga_target best worst) pv (pv_bound (cga_update rate pv best worst) (lower_bound n) (upper_bound n)).
  Proof.
    intros L. assert (LU : length (cga_update rate pv best worst) = n). { unfold cga_update. now rewrite map_length, seq_length. }
    split; [now rewrite length_pv_bound|]. intros i Hi. eapply clamped_ext; [|apply bound_nth_clamped; [assumption|lia]].
    unfold cga_update. set (g := fun i => _). rewrite (nth_indep _ 0%Q (g 0)) by (rewrite map_length, seq_length; lia). rewrite map_nth, seq_nth by lia. unfold g, cga_target.
    cbn [Nat.add]. destruct (nth i best false), (nth i worst false); reflexivity.
  Qed.

  Definition cga_winner (x y : bv) : bv := if (o_value o x <? o_value o y)%Z then y else x.
  Definition cga_loser (x y : bv) : bv := if (o_value o x <? o_value o y)%Z then x else y.

  Lemma cga_iterate_wp debug t (s : alg sampler) : sampler_inv s -> top_of o (a_trace s) (a_sol s) ->
    wp (cga_iterate o n rate u debug t)
      (fun _ s' => exists x y, drawn n (sm_pv (a_mem s)) (u t 0) x /\ drawn n (sm_pv (a_mem s)) (u t 1) y /\
         a_trace s' = a_trace s ++ [x; y] ++ (if debug then [cga_winner x y; cga_loser x y] else []) /\
         moved (cga_target (cga_winner x y) (cga_loser x y)) (sm_pv (a_mem s)) (sm_pv (a_mem s')) /\
         top_of o (a_trace s') (a_sol s') /\ sampler_inv s' /\ a_last s' = a_last s)
      (fun e s' => lagging o 2 s' /\ sm_pv (a_mem s') = sm_pv (a_mem s) /\ (exists e', e = Some e' /\ o_stop o (length (a_trace s')) = Some e')) s.
  Proof.
    intros [(S1 & S2 & S3) LS] TO. unfold cga_iterate.
    destruct (pv_sample_Ok n (sm_pv (a_mem s)) (sm_x (a_mem s)) (u t 0) S1 S2) as (x & EX & DX).
    destruct (pv_sample_Ok n (sm_pv (a_mem s)) (sm_y (a_mem s)) (u t 1) S1 S3) as (y & EY & DY).
    apply wp_bind. eapply wp_on_mem; [rewrite EX; cbn [bind]; reflexivity|].
    apply wp_bind. eapply wp_on_mem; [cbn [put_mem a_mem sm_pv sm_y sm_x]; rewrite EY; cbn [bind]; reflexivity|].
    apply wp_bind, wp_get, wp_bind, wp_get. cbn [put_mem a_mem sm_pv sm_y sm_x].
    apply wp_bind, wp_evaluate.
    { cbn. intros e He. split; [apply lagging_top; [lia|assumption]|]. split; [reflexivity|]. eauto. }
    apply wp_bind, wp_evaluate.
    { cbn. intros e He. split; [|split; [reflexivity|eauto]]. exists (a_trace s), [x]. auto. }
    cbn zeta. fold (cga_winner x y) (cga_loser x y).
    assert (WV : (if (o_value o x <? o_value o y)%Z then o_value o y else o_value o x) = o_value o (cga_winner x y)).
    { unfold cga_winner. now destruct (_ <? _)%Z. }
    rewrite WV.
    assert (WI : In (cga_winner x y) [x; y]). { unfold cga_winner. destruct (_ <? _)%Z; [right|]; now left. }
    assert (LI : In (cga_loser x y) [x; y]). { unfold cga_loser. destruct (_ <? _)%Z; [|right]; now left. }
    assert (WM : forall z, In z [x; y] -> (o_value o z <= o_value o (cga_winner x y))%Z).
    { unfold cga_winner. destruct (Z.ltb_spec (o_value o x) (o_value o y)); intros z [<-|[<-|[]]]; lia. }
    assert (WL : length (cga_winner x y) = n). { destruct WI as [<-|[<-|[]]]; [apply DX|apply DY]. }
    pose proof (top_of_update o (a_trace s) [x; y] (a_sol s) (cga_winner x y) TO WI WM) as TU.
    set (sol' := if (snd (a_sol s) <? o_value o (cga_winner x y))%Z then _ else _) in TU.
    assert (SM : (o_value o (cga_winner x y) <= snd sol')%Z). { apply TU. apply in_or_app. now right. }
    assert (LS' : length (fst sol') = n). { unfold sol'. destruct (snd (a_sol s) <? o_value o (cga_winner x y))%Z; [exact WL|exact LS]. }
    apply wp_bind. set (m1 := mk_sampler (sm_pv (a_mem s)) x y).
    match goal with |- wp _ _ ?EE _ => assert (UP : forall Q : unit -> alg sampler -> Prop, Q tt (mk_alg (a_trace s ++ [x; y]) sol' (a_last s) m1) ->
      wp (update_solution (cga_winner x y) (o_value o (cga_winner x y))) Q EE (put_trace y (put_trace x (put_mem m1 s)))) end.
    { intros Q HQ. unfold wp, update_solution. unfold sol' in HQ. cbn [put_trace put_mem a_sol].
      destruct (snd (a_sol s) <? o_value o (cga_winner x y))%Z; unfold put_sol, put_trace, put_mem; cbn [a_sol a_trace a_last a_mem]; rewrite <- app_assoc; exact HQ. }
    apply UP. clear UP.
    assert (FIN : forall T, (forall z, In z T -> In z [x; y]) -> forall (E : option exn -> alg sampler -> Prop),
      wp (on_mem (fun m => Ok (tt, mk_sampler (pv_bound (cga_update rate (sm_pv m) (cga_winner x y) (cga_loser x y)) (lower_bound n) (upper_bound n)) (sm_x m) (sm_y m))))
      (fun _ s' => a_trace s' = (a_trace s ++ [x; y]) ++ T /\
         moved (cga_target (cga_winner x y) (cga_loser x y)) (sm_pv (a_mem s)) (sm_pv (a_mem s')) /\
         top_of o (a_trace s') (a_sol s') /\ sampler_inv s' /\ a_last s' = a_last s) E
      (mk_alg ((a_trace s ++ [x; y]) ++ T) sol' (a_last s) m1)).
    { intros T HT EE. eapply wp_on_mem; [reflexivity|]. cbn [put_mem a_sol a_trace a_last a_mem sm_pv sm_x sm_y m1]. split; [reflexivity|].
      pose proof (cga_update_moved (sm_pv (a_mem s)) (cga_winner x y) (cga_loser x y) S1) as M. split; [exact M|].
      split; [|split; [|reflexivity]].
      - apply top_of_same; [assumption|]. intros z Hz. apply HT in Hz. specialize (WM z Hz). lia.
      - split; [|assumption]. split; [apply M|]. split; [apply DX|apply DY]. }
    destruct debug.
    - apply wp_bind, wp_bind, wp_evaluate.
      { cbn. intros e He. split; [apply lagging_top; [lia|assumption]|]. split; [reflexivity|]. eauto. }
      apply wp_bind, wp_evaluate.
      { cbn. intros e He. split; [|split; [reflexivity|eauto]]. apply lagging_top; [lia|]. cbn. apply top_of_same; [assumption|]. intros z [<-|[]]. exact SM. }
      apply wp_assert.
      { apply Z.leb_le. apply WM. exact LI. }
      assert (TT : forall z, In z [cga_winner x y; cga_loser x y] -> In z [x; y]). { intros z [<-|[<-|[]]]; assumption. }
      unfold put_trace. cbn [a_sol a_trace a_last a_mem]. rewrite <- (app_assoc (a_trace s ++ [x; y])). cbn [app].
      eapply wp_mono; [apply (FIN _ TT)| |intros e s' H; exact H].
      cbn beta. intros _ s' H. exists x, y. rewrite <- app_assoc in H. auto.
    - apply wp_bind, wp_ret. pose proof (FIN [] ltac:(intros z [])) as F0. rewrite !app_nil_r in F0.
      eapply wp_mono; [apply F0| |intros e s' H; exact H].
      cbn beta. intros _ s' H. exists x, y. auto.
  Qed.

  Lemma cga_run debug bit num fuel (s : alg sampler) : a_trace s = [] -> sampler_inv s ->
    let '(r, s') := loop (cga_init o bit) (cga_iterate o n rate u debug) num fuel s in
    run_top o 2 r s' /\ (a_trace s' = [] \/ (length (sm_pv (a_mem s')) = n /\ Forall (within n) (sm_pv (a_mem s')))).
  Proof.
    intros T [(S1 & S2 & S3) LS].
    pose proof (run_generic o 2 (fun s' => sampler_inv s' /\ Forall (within n) (sm_pv (a_mem s')))
      (fun s' => length (sm_pv (a_mem s')) = n /\ Forall (within n) (sm_pv (a_mem s')))
      (cga_init o bit) (cga_iterate o n rate u debug) num fuel s ltac:(lia)) as R.
    destruct (loop _ _ _ _ _) as [r s']. match type of R with _ -> _ -> _ -> ?D => enough D as (G1 & G2 & _) by (split; assumption); apply R end.
    - unfold cga_init. apply wp_bind. eapply wp_mono; [apply (random_solution_wp o n bit s T LS)| |].
      + cbn beta. intros _ s1 (H1 & H2 & _ & M1). apply wp_modify. rewrite M1. split; [assumption|]. split.
        * split; [|exact H2]. unfold sampler_sized, pv_uniform. cbn. rewrite repeat_length. auto.
        * cbn. apply Forall_forall. intros p Hp. apply repeat_spec in Hp as ->. apply half_between. assumption.
      + cbn beta. intros e s1 (H1 & H2). auto.
    - intros s1 [[(H1 & _) _] H2]. auto.
    - intros i s1 (SZ1 & F1) TO LA. eapply wp_mono; [apply (cga_iterate_wp debug i s1 SZ1 TO)| |].
      + cbn beta. intros _ s2 (x & y & _ & _ & _ & H4 & H5 & H6 & _). apply moved_within in H4. auto.
      + cbn beta. intros e s2 (H1 & H2 & (e' & -> & H3)). split; [assumption|]. rewrite H2. split; [|assumption]. split; [apply SZ1|assumption].
  Qed.
End Sampler.
