(** Proofs about random local search, random walk, random search and simulated
    annealing. *)

From Coq Require Import QArith.
From Verif Require Import Base BaseLemmas BitVector_Model BitVector_Spec BitVector_Proofs Neighborhood_Model Neighborhood_Spec Neighborhood_Proofs
  Algorithm_Model Algorithm_Spec Algorithm_Proofs HillClimbing_Proofs.
Local Open Scope nat_scope.

(** * The neighborhood protocol *)

Lemma propose_ok n h d : nh_reachable n h Settled -> in_bounds (nh_class h) n d ->
  match nh_propose h d with
  | None => True
  | Some (Ok h') => nh_reachable n h' Proposed /\ nh_class h' = nh_class h /\ nh_origin h' = nh_origin h /\ length (nh_candidate h') = n /\
      diffs n (nh_origin h') (nh_candidate h') = nh_flipped h'
  | _ => False
  end.
Proof.
  intros R B. destruct (nh_propose h d) as [ou|] eqn:E; [|auto]. destruct (reachable_inv n h _ R) as [OK IH].
  destruct (propose_exact n h d ou OK IH B E) as (l & _ & A1 & A2 & ->). destruct OK as (_ & HO & _).
  destruct (index_set_flip n _ l HO A1) as (_ & F2 & _ & F4). cbn. split; [eapply reach_propose; eauto|]. auto.
Qed.

Lemma keep_ok n h : nh_reachable n h Proposed ->
  exists h', nh_keep h = Ok h' /\ nh_reachable n h' Settled /\ nh_class h' = nh_class h /\ nh_origin h' = nh_candidate h /\ nh_candidate h' = nh_candidate h.
Proof.
  intros R. destruct (reachable_inv n h _ R) as [OK IH]. pose proof (keep_exact n h OK IH) as K. eexists. split; [exact K|].
  split; [eapply reach_keep; eauto|]. auto.
Qed.

Lemma forget_ok n h : nh_reachable n h Proposed ->
  exists h', nh_forget h = Ok h' /\ nh_reachable n h' Settled /\ nh_class h' = nh_class h /\ nh_origin h' = nh_origin h.
Proof.
  intros R. destruct (reachable_inv n h _ R) as [OK IH]. pose proof (forget_exact n h OK IH) as K. eexists. split; [exact K|].
  split; [eapply reach_forget; eauto|]. auto.
Qed.

Lemma reach_length n h p : nh_reachable n h p -> length (nh_origin h) = n.
Proof. intros R. now destruct (reachable_inv n h _ R) as [(_ & H & _) _]. Qed.

(** * Random local search *)

(** What holds at any time after the first evaluation. *)
Definition rls_at o n p0 kd ph (s : alg rls) : Prop :=
  nh_reachable n (rls_nh (a_mem s)) ph /\ nh_class (rls_nh (a_mem s)) = kd /\
  snd (a_sol s) = o_value o (nh_origin (rls_nh (a_mem s))) /\ In (nh_origin (rls_nh (a_mem s))) (a_trace s) /\
  (ascending (p_compare p0) -> forall y, In y (a_trace s) -> (o_value o y <= snd (a_sol s))%Z).

(** The value evaluated, fully or incrementally. *)
Lemma rls_value_wp o n p h cur (Q : Z -> alg rls -> Prop) (E : option exn -> alg rls -> Prop) s :
  (p_incremental p && o_provides o = true -> right_increments n o) ->
  length (nh_origin h) = n -> length (nh_candidate h) = n -> diffs n (nh_origin h) (nh_candidate h) = nh_flipped h -> cur = o_value o (nh_origin h) ->
  (forall e, o_stop o (length (a_trace s)) = Some e -> E (Some e) s) ->
  Q (o_value o (nh_candidate h)) (put_trace (nh_candidate h) s) ->
  wp (if p_incremental p && o_provides o
      then evaluate_incrementally o (nh_origin h) cur (nh_flipped h) (nh_candidate h)
      else evaluate o (nh_candidate h)) Q E s.
Proof.
  intros RI L1 L2 D -> HE HQ. destruct (p_incremental p && o_provides o); [|now apply wp_evaluate].
  unfold wp, evaluate_incrementally. destruct (o_stop o (length (a_trace s))) as [e|] eqn:ST; [now apply HE|].
  rewrite <- D, (RI eq_refl) by assumption. exact HQ.
Qed.

(** Between iterations *)
Definition rls_between o n p kd (s : alg rls) : Prop :=
  rls_at o n p kd Settled s /\ rejected_suffix o (p_compare p) (snd (a_sol s)) (rls_failures (a_mem s)) (a_trace s) /\
  (if a_last s then (0 < p_patience p)%Z /\ rls_failures (a_mem s) = p_patience p /\ fst (a_sol s) = nh_origin (rls_nh (a_mem s))
   else (0 < p_patience p -> rls_failures (a_mem s) < p_patience p)%Z).

(** When a call is left by an exception, or is not over yet *)
Definition rls_left o n p kd (e : option exn) (s : alg rls) : Prop :=
  (exists ph, rls_at o n p kd ph s) /\ match e with Some e => thrown_by o e | None => True end.

Lemma rls_iterate_ok o n p kd d i s : (p_incremental p && o_provides o = true -> right_increments n o) -> in_bounds kd n (d i) ->
  rls_between o n p kd s -> a_last s = false ->
  wp (rls_iterate o p d i) (fun _ => rls_between o n p kd) (rls_left o n p kd) s.
Proof.
  intros RI IB ((R & K & V & TI & TM) & (T1 & T2 & TE & TN & TL & TR) & PA) LA. rewrite LA in PA. unfold rls_iterate. apply wp_bind.
  rewrite <- K in IB. pose proof (propose_ok n _ (d i) R IB) as P. unfold wp, rls_propose. destruct (nh_propose (rls_nh (a_mem s)) (d i)) as [[h|e|]|]; try contradiction.
  2:{ split; [|exact I]. exists Settled. repeat split; auto. }
  destruct P as (P1 & P2 & P3 & P4 & P5).
  match goal with |- match ?m ?s with _ => _ end => change (wp m (fun _ => rls_between o n p kd) (rls_left o n p kd) s) end.
  assert (A : rls_at o n p kd Proposed (put_mem (mk_rls (rls_failures (a_mem s)) h) s)).
  { unfold rls_at. cbn [put_mem a_mem a_sol a_trace rls_nh]. rewrite P3. repeat split; auto. congruence. }
  apply wp_bind, wp_get, wp_bind, wp_get. cbn [put_mem a_mem a_sol a_trace rls_nh]. apply wp_bind.
  pose proof (reach_length n h _ P1) as LO.
  eapply rls_value_wp; [exact RI|exact LO|exact P4|exact P5|now rewrite P3| |].
  { intros e He. split; [exists Proposed; exact A|]. eexists; exact He. }
  destruct A as (_ & A2 & A3 & A4 & A5). cbn [put_mem a_mem a_sol a_trace rls_nh] in A2, A3, A4, A5.
  unfold rls_decide. apply wp_bind, wp_get. cbn [put_mem put_trace a_mem a_sol a_trace a_last rls_nh rls_failures].
  apply wp_bind. destruct (p_compare p (o_value o (nh_candidate h)) (snd (a_sol s))) eqn:CMP.
  - destruct (keep_ok n h P1) as (h' & K1 & K2 & K3 & K4 & K5).
    apply wp_bind. eapply wp_on_mem; [cbn [put_mem put_trace a_mem rls_nh rls_failures]; now rewrite K1|]. apply wp_bind, wp_modify, wp_modify.
    cbn [put_mem put_trace put_sol a_mem a_sol a_trace a_last rls_nh rls_failures fst snd]. apply wp_bind, wp_get.
    assert (B : forall l x, (fst (a_sol s) = x \/ x = nh_origin h') -> rls_at o n p kd Settled (mk_alg (a_trace s ++ [nh_candidate h]) (x, o_value o (nh_candidate h)) l (mk_rls 0 h'))).
    { intros l x _. unfold rls_at. cbn [a_mem a_sol a_trace rls_nh snd]. rewrite K4. split; [assumption|]. split; [congruence|]. split; [reflexivity|].
      split; [apply in_or_app; right; now left|]. intros AS y Hy. apply in_app_or in Hy as [Hy|[<-|[]]]; [|lia].
      specialize (A5 AS y Hy). apply AS in CMP. lia. }
    assert (S : forall x, rejected_suffix o (p_compare p) (o_value o (nh_candidate h)) 0 (a_trace s ++ [x])).
    { intros x. exists (a_trace s ++ [x]), []. rewrite app_nil_r. repeat split; auto; [now destruct (a_trace s)|intros y []]. }
    cbn [put_mem put_trace put_sol a_mem a_sol a_trace a_last rls_nh rls_failures fst snd].
    destruct ((0 <? p_patience p)%Z && (0 =? p_patience p)%Z) eqn:G.
    + exfalso. apply andb_true_iff in G as [G1 G2]. apply Z.ltb_lt in G1. apply Z.eqb_eq in G2. lia.
    + apply wp_ret. split; [apply B; now left|]. cbn [put_mem put_trace put_sol a_mem a_sol a_trace a_last rls_nh rls_failures fst snd]. split; [apply S|]. rewrite LA. auto.
  - destruct (forget_ok n h P1) as (h' & K1 & K2 & K3 & K4).
    apply wp_bind. eapply wp_on_mem; [cbn [put_mem put_trace a_mem rls_nh rls_failures]; now rewrite K1|]. apply wp_modify.
    cbn [put_mem put_trace put_sol a_mem a_sol a_trace a_last rls_nh rls_failures fst snd]. apply wp_bind, wp_get.
    assert (B : forall l x, rls_at o n p kd Settled (mk_alg (a_trace s ++ [nh_candidate h]) (x, snd (a_sol s)) l (mk_rls (rls_failures (a_mem s) + 1) h'))).
    { intros l x. unfold rls_at. cbn [a_mem a_sol a_trace rls_nh snd]. rewrite K4, P3. split; [assumption|]. split; [congruence|]. split; [congruence|].
      split; [apply in_or_app; now left|]. intros AS y Hy. apply in_app_or in Hy as [Hy|[<-|[]]]; [now apply A5|]. now apply AS in CMP. }
    assert (S : rejected_suffix o (p_compare p) (snd (a_sol s)) (rls_failures (a_mem s) + 1) (a_trace s ++ [nh_candidate h])).
    { exists T1, (T2 ++ [nh_candidate h]). rewrite TE, <- app_assoc. repeat split; auto.
      - rewrite app_length. cbn. lia.
      - intros y Hy. apply in_app_or in Hy as [Hy|[<-|[]]]; auto. }
    cbn [put_mem put_trace put_sol a_mem a_sol a_trace a_last rls_nh rls_failures fst snd].
    destruct ((0 <? p_patience p)%Z && (rls_failures (a_mem s) + 1 =? p_patience p)%Z) eqn:G.
    + apply wp_bind, wp_modify, wp_modify. apply andb_true_iff in G as [G1 G2]. apply Z.ltb_lt in G1. apply Z.eqb_eq in G2.
      split; [apply B|]. cbn [put_mem put_trace put_sol put_last a_mem a_sol a_trace a_last rls_nh rls_failures fst snd]. split; [exact S|]. auto.
    + apply wp_ret. split.
      { exact (B (a_last s) (fst (a_sol s))). }
      cbn [put_mem put_trace put_sol put_last a_mem a_sol a_trace a_last rls_nh rls_failures fst snd]. split; [exact S|]. rewrite LA. intros PP. specialize (PA PP).
      apply andb_false_iff in G as [G|G]; [apply Z.ltb_ge in G; lia|]. apply Z.eqb_neq in G. lia.
Qed.

Theorem rls_run_from o n p h ph f0 st d num fuel s0 : nh_reachable n h ph -> start_sized n st ->
  (p_incremental p && o_provides o = true -> right_increments n o) -> (forall i, in_bounds (nh_class h) n (d i)) ->
  begun n (mk_rls f0 h) s0 ->
  let '(res, s') := loop (rls_init o st) (rls_iterate o p d) num fuel s0 in
  (a_trace s' <> [] -> consistent o (rls_finalize s') /\
     (ascending (p_compare p) -> forall y, In y (a_trace s') -> (o_value o y <= snd (a_sol (rls_finalize s')))%Z)) /\
  match res with
  | Ret _ => a_trace s' <> [] /\
      (a_last s' = true -> (0 < p_patience p)%Z /\ rls_finalize s' = s' /\ rejected_suffix o (p_compare p) (snd (a_sol s')) (p_patience p) (a_trace s')) /\
      (a_last s' = false -> (0 < num)%Z) /\
      nh_reachable n (rls_nh (a_mem s')) Settled /\ nh_class (rls_nh (a_mem s')) = nh_class h
  | Exc e => thrown_by o e
  | Bad => False
  | Pending => True
  end.
Proof.
  intros R ST RI IB (G1 & G2 & G3).
  assert (W : wp (loop (rls_init o st) (rls_iterate o p d) num fuel)
    (fun _ s' => exists k : nat, rls_between o n p (nh_class h) s' /\ (a_last s' = true \/ (0 < num <= Z.of_nat k)%Z))
    (fun e s' => match e with Some e => thrown_by o e | None => True end /\ (a_trace s' = [] \/ exists ph, rls_at o n p (nh_class h) ph s')) s0).
  { unfold loop, rls_init. apply wp_bind, wp_bind. eapply wp_mono; [apply (start_wp o n st s0 ST); auto| |].
    2:{ intros e s' (Q1 & Q2 & Q3 & _). destruct e as [e|]; [|congruence]. split; [now exists 0|]. now left. }
    cbn beta. intros _ s1 (B1 & L1 & T1 & LA1 & M1). rewrite G3 in M1. apply wp_bind, wp_modify, wp_modify. apply wp_bind, wp_modify. rewrite M1.
    cbn [put_mem put_last a_mem a_sol a_trace a_last rls_nh rls_failures fst snd].
    eapply wp_mono; [apply (loop_from_wp (rls_iterate o p d) (fun _ => rls_between o n p (nh_class h)) (rls_left o n p (nh_class h)))| |].
    - intros i s H LA. now apply rls_iterate_ok.
    - intros i s H. split; [|exact I]. exists Settled. apply H.
    - destruct B1 as [B1 B2]. apply first_best_max in B1 as [B1 B3]. split; [|split].
      + unfold rls_at. cbn. split; [eapply reach_origin; eauto|]. repeat split; auto. intros _ y Hy. rewrite B2. now apply B3.
      + exists (a_trace s1), []. cbn. rewrite app_nil_r. repeat split; auto; [now rewrite T1|intros y []].
      + cbn. auto.
    - cbn. auto.
    - cbn. intros e s' [H1 H2]. destruct e; auto. }
  apply wp_result in W.
  assert (FIN : forall ph' s', rls_at o n p (nh_class h) ph' s' -> consistent o (rls_finalize s') /\
     (ascending (p_compare p) -> forall y, In y (a_trace s') -> (o_value o y <= snd (a_sol (rls_finalize s')))%Z)).
  { intros ph' s' (A1 & A2 & A3 & A4 & A5). split; [split|]; cbn; auto. }
  destruct (loop _ _ _ _ _) as [[a|e| |] s'].
  - destruct W as (k & (W1 & W2 & W3) & W4). split; [intros _; apply (FIN _ _ W1)|]. split.
    { destruct W1 as (_ & _ & _ & W1 & _). intros C. rewrite C in W1. destruct W1. }
    split.
    + intros LA. rewrite LA in W3. destruct W3 as (W3 & W5 & W6). rewrite W5 in W2. split; [assumption|]. split; [|assumption].
      unfold rls_finalize. rewrite <- W6. destruct s' as [? [? ?] ? ?]; reflexivity.
    + split; [intros LA; destruct W4 as [W4|W4]; [congruence|lia]|]. split; apply W1.
  - destruct W as [W1 W2]. split; [|exact W1]. intros TN. destruct W2 as [W2|[ph' W2]]; [congruence|]. now apply (FIN ph').
  - split; [|exact W]. contradiction.
  - destruct W as [_ W2]. split; [|exact I]. intros TN. destruct W2 as [W2|[ph' W2]]; [congruence|]. now apply (FIN ph').
Qed.

Theorem rls_run o n p h ph f0 st d num fuel s : 0 < n -> nh_reachable n h ph -> start_sized n st ->
  (p_incremental p && o_provides o = true -> right_increments n o) -> (forall i, in_bounds (nh_class h) n (d i)) ->
  alg_make n (mk_rls f0 h) = Ok s ->
  let '(res, s') := loop (rls_init o st) (rls_iterate o p d) num fuel s in
  (a_trace s' <> [] -> consistent o (rls_finalize s') /\
     (ascending (p_compare p) -> forall y, In y (a_trace s') -> (o_value o y <= snd (a_sol (rls_finalize s')))%Z)) /\
  match res with
  | Ret _ => a_trace s' <> [] /\
      (a_last s' = true -> (0 < p_patience p)%Z /\ rls_finalize s' = s' /\ rejected_suffix o (p_compare p) (snd (a_sol s')) (p_patience p) (a_trace s')) /\
      (a_last s' = false -> (0 < num)%Z)
  | Exc e => thrown_by o e
  | Bad => False
  | Pending => True
  end.
Proof.
  intros _ R ST RI IB E. pose proof (rls_run_from o n p h ph f0 st d num fuel s R ST RI IB (begun_make _ _ _ E)) as H.
  destruct (loop _ _ _ _ _) as [[a|e| |] s']; auto. destruct H as (H1 & H2 & H3 & H4 & _). auto.
Qed.

(** * Random search *)

(** What an exception leaves *)
Definition best_left {X} o (e : option exn) (s : alg X) : Prop :=
  best o s /\ match e with Some e => o_stop o (length (a_trace s)) = Some e | None => True end.

Lemma best_nonempty {X} o (s : alg X) : best o s -> a_trace s <> [].
Proof. intros [(L1 & L2 & E & _) _] C. rewrite C in E. now destruct L1. Qed.

Lemma update_wp {X} o x (Q : unit -> alg X -> Prop) E s : best o s ->
  (forall s', best o s' -> a_trace s' = a_trace s ++ [x] -> a_mem s' = a_mem s -> a_last s' = a_last s -> (snd (a_sol s) <= snd (a_sol s'))%Z -> (o_value o x <= snd (a_sol s'))%Z -> Q tt s') ->
  wp (update_solution x (o_value o x)) Q E (put_trace x s).
Proof.
  intros B H. eapply wp_mono; [apply (update_best o s x B)| |]; cbn; [|contradiction]. intros [] s' (A1 & A2 & A3 & A4 & A5 & A6). auto.
Qed.

Theorem random_search_run o n c bit bits num fuel s : 0 < n -> alg_make n c = Ok s ->
  let '(res, s') := loop (rs_init o bit) (rs_iterate o bits) num fuel s in run_best o res s'.
Proof.
  intros Hn E. unfold alg_make in E. apply Nat.ltb_lt in Hn as Hn'. rewrite Hn' in E. cbn [ensureb bind] in E. apply Ok_inj in E. subst s.
  set (s0 := mk_alg _ _ _ _).
  assert (W : wp (loop (rs_init o bit) (rs_iterate o bits) num fuel)
    (fun _ s' => best o s')
    (fun e s' => (best o s' \/ a_trace s' = []) /\ match e with Some e => o_stop o (length (a_trace s')) = Some e | None => True end) s0).
  { unfold loop, rs_init. apply wp_bind. eapply wp_mono; [apply (start_wp o n (RandomStart bit) s0); cbn; auto; apply repeat_length| |].
    2:{ intros e s' (Q1 & Q2 & Q3 & _). destruct e as [e|]; [|congruence]. split; [now right|]. now rewrite Q3. }
    cbn beta. intros _ s1 (B1 & _). apply wp_bind, wp_modify.
    eapply wp_mono; [apply (loop_from_wp (rs_iterate o bits) (fun _ s => best o s) (best_left o))| |].
    - intros i s B _. unfold rs_iterate. apply wp_bind, wp_modify, wp_bind, wp_get. unfold update_solution_eval. apply wp_bind, wp_evaluate.
      + intros e He. split; [exact B|exact He].
      + apply update_wp; [exact B|]. auto.
    - intros i s B. split; [exact B|exact I].
    - exact B1.
    - cbn beta. intros _ s' (k & H & _). exact H.
    - intros e s' [H1 H2]. split; [now left|exact H2]. }
  apply wp_result in W. destruct (loop _ _ _ _ _) as [[a|e| |] s']; unfold run_best.
  - split; auto. now apply best_nonempty with (o := o).
  - destruct W as [[W|W] W2]; split; auto; congruence.
  - contradiction.
  - destruct W as [[W|W] W2]; split; auto; congruence.
Qed.

(** * Random walk *)

Lemma rw_propose_wp n d (Q : unit -> alg rw -> Prop) (E : option exn -> alg rw -> Prop) s :
  nh_reachable n (rw_nh (a_mem s)) Settled -> in_bounds (nh_class (rw_nh (a_mem s))) n d -> E None s ->
  (forall h, nh_reachable n h Proposed -> nh_class h = nh_class (rw_nh (a_mem s)) -> nh_origin h = nh_origin (rw_nh (a_mem s)) -> length (nh_candidate h) = n ->
     diffs n (nh_origin h) (nh_candidate h) = nh_flipped h -> Q tt (put_mem (mk_rw (rw_value (a_mem s)) h) s)) ->
  wp (rw_propose d) Q E s.
Proof.
  intros R B HE HQ. pose proof (propose_ok n _ d R B) as P. unfold wp, rw_propose. destruct (nh_propose _ d) as [[h|e|]|]; try contradiction; [|exact HE].
  destruct P as (P1 & P2 & P3 & P4 & P5). auto.
Qed.

Theorem random_walk_from o n h ph v0 st inc d num fuel s0 : nh_reachable n h ph -> start_sized n st ->
  inc && o_provides o = false -> (forall i, in_bounds (nh_class h) n (d i)) -> begun n (mk_rw v0 h) s0 ->
  let '(res, s') := loop (rw_init o st) (rw_iterate o inc d) num fuel s0 in run_best o res s' /\
    (res = Ret tt -> nh_reachable n (rw_nh (a_mem s')) Settled /\ nh_class (rw_nh (a_mem s')) = nh_class h).
Proof.
  intros R ST INC IB (G1 & G2 & G3).
  set (J := fun s : alg rw => best o s /\ nh_reachable n (rw_nh (a_mem s)) Settled /\ nh_class (rw_nh (a_mem s)) = nh_class h).
  assert (W : wp (loop (rw_init o st) (rw_iterate o inc d) num fuel)
    (fun _ s' => J s')
    (fun e s' => (best o s' \/ a_trace s' = []) /\ match e with Some e => o_stop o (length (a_trace s')) = Some e | None => True end) s0).
  { unfold loop, rw_init. apply wp_bind, wp_bind. eapply wp_mono; [apply (start_wp o n st s0 ST); auto| |].
    2:{ intros e s' (Q1 & Q2 & Q3 & _). destruct e as [e|]; [|congruence]. split; [now right|]. now rewrite Q3. }
    cbn beta. intros _ s1 (B1 & L1 & _ & _ & M1). rewrite G3 in M1. apply wp_modify, wp_bind, wp_modify.
    eapply wp_mono; [apply (loop_from_wp (rw_iterate o inc d) (fun _ s => J s) (best_left o))| |].
    - intros i s (B & R1 & C1) _. unfold rw_iterate. rewrite INC. apply wp_bind. apply (rw_propose_wp n); auto.
      { now rewrite C1. }
      { split; [exact B|exact I]. }
      intros h1 H1 H2 H3 H4 H5. apply wp_bind, wp_get, wp_bind, wp_evaluate.
      { intros e He. split; [exact B|exact He]. }
      apply wp_bind, wp_modify, wp_bind. cbn [put_mem put_trace a_mem rw_nh rw_value].
      destruct (keep_ok n h1 H1) as (h2 & K1 & K2 & K3 & K4 & K5).
      eapply wp_on_mem; [cbn [put_mem put_trace a_mem rw_nh rw_value]; now rewrite K1|].
      apply wp_bind, wp_get. cbn [put_mem put_trace a_mem rw_nh rw_value]. rewrite K5.
      set (s2 := mk_alg (a_trace s) (a_sol s) (a_last s) (mk_rw (o_value o (nh_candidate h1)) h2)).
      apply (update_wp o (nh_candidate h1) (fun _ s => J s) _ s2); [exact B|]. intros s' B' _ M' _ _ _. unfold J. rewrite M'. cbn. split; [exact B'|]. split; [exact K2|congruence].
    - intros i s (B & _). split; [exact B|exact I].
    - split; [exact B1|]. cbn. rewrite M1. cbn. split; [eapply reach_origin; eauto|reflexivity].
    - cbn beta. intros _ s' (k & H & _). exact H.
    - intros e s' [H1 H2]. split; [now left|exact H2]. }
  apply wp_result in W. destruct (loop _ _ _ _ _) as [[a|e| |] s']; unfold run_best.
  - destruct W as (W & W1 & W2). split; [|auto]. split; auto. now apply best_nonempty with (o := o).
  - split; [|discriminate]. destruct W as [[W|W] W2]; split; auto; congruence.
  - contradiction.
  - split; [|discriminate]. destruct W as [[W|W] W2]; split; auto; congruence.
Qed.

Theorem random_walk_run o n h ph v0 st inc d num fuel s : 0 < n -> nh_reachable n h ph -> start_sized n st ->
  inc && o_provides o = false -> (forall i, in_bounds (nh_class h) n (d i)) -> alg_make n (mk_rw v0 h) = Ok s ->
  let '(res, s') := loop (rw_init o st) (rw_iterate o inc d) num fuel s in run_best o res s'.
Proof.
  intros _ R ST INC IB E. pose proof (random_walk_from o n h ph v0 st inc d num fuel s R ST INC IB (begun_make _ _ _ E)) as H.
  destruct (loop _ _ _ _ _) as [res s']. apply H.
Qed.

(** With incremental evaluation, the values of all vectors but the first one are
    shifted. *)
Definition shift_inv o v0 (s : alg rw) : Prop :=
  exists x0 T, a_trace s = x0 :: T /\ rw_value (a_mem s) = (o_value o (last T x0) + (v0 - o_value o x0))%Z /\
    first_best_of snd ((x0, o_value o x0) :: map (fun y => (y, o_value o y + (v0 - o_value o x0))%Z) T) (a_sol s).

Lemma last_cons {A} (l : list A) a d : last (l ++ [a]) d = a.
Proof. apply last_last. Qed.

Theorem random_walk_shift o n h ph v0 st d num fuel s : 0 < n -> nh_reachable n h ph -> start_sized n st ->
  o_provides o = true -> additive_increments n o -> (forall i, in_bounds (nh_class h) n (d i)) -> alg_make n (mk_rw v0 h) = Ok s ->
  let '(res, s') := loop (rw_init o st) (rw_iterate o true d) num fuel s in
  res <> Bad /\
  forall x0 T, a_trace s' = x0 :: T ->
    rw_value (a_mem s') = (o_value o (last T x0) + (v0 - o_value o x0))%Z /\
    first_best_of snd ((x0, o_value o x0) :: map (fun y => (y, o_value o y + (v0 - o_value o x0))%Z) T) (a_sol s').
Proof.
  intros Hn R ST PR AI IB E. unfold alg_make in E. apply Nat.ltb_lt in Hn as Hn'. rewrite Hn' in E. cbn [ensureb bind] in E. apply Ok_inj in E. subst s.
  set (s0 := mk_alg _ _ _ _).
  set (J := fun s : alg rw => shift_inv o v0 s /\ nh_reachable n (rw_nh (a_mem s)) Settled /\ nh_class (rw_nh (a_mem s)) = nh_class h /\
    nh_origin (rw_nh (a_mem s)) = last (a_trace s) []).
  assert (W : wp (loop (rw_init o st) (rw_iterate o true d) num fuel)
    (fun _ s' => shift_inv o v0 s') (fun e s' => shift_inv o v0 s' \/ a_trace s' = []) s0).
  { unfold loop, rw_init. apply wp_bind, wp_bind. eapply wp_mono; [apply (start_wp o n st s0 ST); cbn; auto; apply repeat_length| |].
    2:{ intros e s' (Q1 & Q2 & Q3 & _). now right. }
    cbn beta. intros _ s1 (B1 & L1 & T1 & _ & M1). cbn in M1. apply wp_modify, wp_bind, wp_modify.
    eapply wp_mono; [apply (loop_from_wp (rw_iterate o true d) (fun _ s => J s) (fun _ s => shift_inv o v0 s))| |].
    - intros i s (B & R1 & C1 & O1) _. unfold rw_iterate. rewrite PR. cbn [andb]. apply wp_bind. apply (rw_propose_wp n); auto.
      { now rewrite C1. }
      intros h1 H1 H2 H3 H4 H5. apply wp_bind, wp_get, wp_bind. cbn [put_mem put_trace a_mem rw_nh rw_value].
      unfold wp at 1, evaluate_incrementally. cbn [put_mem a_trace]. destruct (o_stop o (length (a_trace s))) as [e|]; [exact B|].
      apply wp_bind, wp_modify, wp_bind. cbn [put_mem put_trace a_mem rw_nh rw_value].
      destruct (keep_ok n h1 H1) as (h2 & K1 & K2 & K3 & K4 & K5).
      eapply wp_on_mem; [cbn [put_mem put_trace a_mem rw_nh rw_value]; now rewrite K1|].
      apply wp_bind, wp_get. cbn [put_mem put_trace a_mem rw_nh rw_value]. rewrite K5.
      pose proof (reach_length n h1 _ H1) as LO. rewrite <- H5, (AI _ _ _ LO H4).
      destruct B as (x0 & T & B1' & B2 & B3). rewrite H3, O1, B1', B2.
      assert (LE : last (x0 :: T) [] = last T x0). { clear. revert x0. induction T as [|a T IH]; intros x0; [reflexivity|]. change (last (x0 :: a :: T) []) with (last (a :: T) []). rewrite IH. clear. revert a. induction T as [|b T IH]; intros a; [reflexivity|]. cbn. cbn in IH. destruct T; [reflexivity|]. apply (IH a). }
      rewrite LE. set (v := (_ + _)%Z). assert (V : v = (o_value o (nh_candidate h1) + (v0 - o_value o x0))%Z) by (unfold v; lia). clearbody v.
      unfold wp, update_solution. cbn [put_mem put_trace a_sol].
      assert (N : nh_reachable n h2 Settled /\ nh_class h2 = nh_class h /\ nh_origin h2 = last (a_trace s ++ [nh_candidate h1]) []).
      { split; [exact K2|]. split; [congruence|]. now rewrite last_last. }
      destruct (Z.ltb_spec (snd (a_sol s)) v) as [LT|GE].
      + split; [|exact N]. exists x0, (T ++ [nh_candidate h1]). cbn [put_mem put_trace put_sol a_sol a_trace a_mem rw_value]. rewrite B1', last_last. split; [reflexivity|]. split; [exact V|].
        rewrite map_app. cbn [map]. rewrite <- V. rewrite app_comm_cons. now apply first_best_better with (r := a_sol s).
      + split; [|exact N]. exists x0, (T ++ [nh_candidate h1]). cbn [put_mem put_trace put_sol a_sol a_trace a_mem rw_value]. rewrite B1', last_last. split; [reflexivity|]. split; [exact V|].
        rewrite map_app. cbn [map]. rewrite <- V. rewrite app_comm_cons. apply first_best_worse; [exact B3|exact GE].
    - intros i s (B & _). exact B.
    - split; [|cbn; rewrite M1; cbn; split; [eapply reach_origin; eauto|split; [reflexivity|now rewrite T1]]].
      exists (fst (a_sol s1)), []. cbn. rewrite M1. split; [exact T1|]. split; [cbn; lia|]. destruct B1 as [_ B1]. rewrite <- B1, <- surjective_pairing. apply first_best_one.
    - cbn beta. intros _ s' (k & (H & _) & _). exact H.
    - intros e s' H. now left. }
  apply wp_result in W. assert (F : forall s', shift_inv o v0 s' \/ a_trace s' = [] -> forall x0 T, a_trace s' = x0 :: T ->
    rw_value (a_mem s') = (o_value o (last T x0) + (v0 - o_value o x0))%Z /\
    first_best_of snd ((x0, o_value o x0) :: map (fun y => (y, o_value o y + (v0 - o_value o x0))%Z) T) (a_sol s')).
  { intros s' [(x0' & T' & E1 & E2)|C] x0 T ET; [|congruence]. rewrite ET in E1. injection E1 as <- <-. exact E2. }
  destruct (loop _ _ _ _ _) as [[a|e| |] s']; (split; [try discriminate; contradiction|]); auto. contradiction.
Qed.

(** * Simulated annealing *)

Lemma sa_propose_wp n d (Q : unit -> alg sa -> Prop) (E : option exn -> alg sa -> Prop) s :
  nh_reachable n (sa_nh (a_mem s)) Settled -> in_bounds (nh_class (sa_nh (a_mem s))) n d -> E None s ->
  (forall h, nh_reachable n h Proposed -> nh_class h = nh_class (sa_nh (a_mem s)) -> nh_origin h = nh_origin (sa_nh (a_mem s)) -> length (nh_candidate h) = n ->
     Q tt (put_mem (mk_sa (sa_current (a_mem s)) h) s)) ->
  wp (sa_propose d) Q E s.
Proof.
  intros R B HE HQ. pose proof (propose_ok n _ d R B) as P. unfold wp, sa_propose. destruct (nh_propose _ d) as [[h|e|]|]; try contradiction; [|exact HE].
  destruct P as (P1 & P2 & P3 & P4 & P5). auto.
Qed.

Lemma update_wp' {X} o x (Q : unit -> alg X -> Prop) E (s sT : alg X) : best o s -> a_trace sT = a_trace s ++ [x] -> a_sol sT = a_sol s ->
  (forall s', best o s' -> a_trace s' = a_trace s ++ [x] -> a_mem s' = a_mem sT -> a_last s' = a_last sT -> (snd (a_sol s) <= snd (a_sol s'))%Z -> (o_value o x <= snd (a_sol s'))%Z -> Q tt s') ->
  wp (update_solution x (o_value o x)) Q E sT.
Proof.
  intros B HT HS H. destruct sT as [t so l m]. cbn in *. subst t so.
  change (mk_alg (a_trace s ++ [x]) (a_sol s) l m) with (put_trace x (mk_alg (a_trace s) (a_sol s) l m)). apply update_wp; [exact B|]. cbn. auto.
Qed.

Definition sa_at o n kd ph (s : alg sa) : Prop :=
  best o s /\ nh_reachable n (sa_nh (a_mem s)) ph /\ nh_class (sa_nh (a_mem s)) = kd /\ Forall (fun y => length y = n) (a_trace s).

Lemma Forall_app_intro {A} (P : A -> Prop) l x : Forall P l -> P x -> Forall P (l ++ [x]).
Proof. intros. apply Forall_app. auto. Qed.

Lemma beta_trials_ok o n kd bits d trials : (forall i, in_bounds kd n (d i)) -> forall i s ph, sa_at o n kd ph s ->
  wp (beta_trials o n bits d trials i) (fun _ s' => exists ph, sa_at o n kd ph s') (best_left o) s.
Proof.
  intros IB. induction trials as [|trials IH]; intros i s ph (B & R & C & F); cbn [beta_trials].
  - apply wp_ret. exists ph. split; auto.
  - cbv zeta. set (x := bv_random _ _). assert (LX : length x = n) by (unfold x; rewrite length_bv_random; apply repeat_length).
    apply wp_bind, wp_evaluate; [intros e He; split; auto|]. apply wp_bind, update_wp; [exact B|]. intros s1 B1 T1 M1 _ _ _.
    apply wp_bind, wp_modify, wp_bind. rewrite M1. apply (sa_propose_wp n).
    { cbn. eapply reach_origin; eauto. }
    { cbn. rewrite C. apply IB. }
    { split; [exact B1|exact I]. }
    intros h1 H1 H2 H3 H4. cbn [put_mem a_mem sa_nh sa_current]. apply wp_bind, wp_get. cbn [put_mem a_mem sa_nh sa_current].
    apply wp_bind, wp_evaluate; [intros e He; split; auto|]. apply wp_bind. eapply (update_wp' o _ _ _ s1); [exact B1|reflexivity|reflexivity|].
    cbn [put_mem put_trace a_mem]. intros s2 B2 T2 M2 _ _ _. apply wp_bind.
    destruct (forget_ok n h1 H1) as (h2 & K1 & K2 & K3 & K4).
    eapply wp_on_mem; [rewrite M2; cbn [sa_nh]; now rewrite K1|]. apply (IH _ _ Settled). split; [exact B2|]. cbn. split; [exact K2|]. cbn in H2. split; [congruence|].
    rewrite T2, T1. repeat apply Forall_app_intro; auto.
Qed.

Lemma sa_iterate_ok o n kd d accept i s : in_bounds kd n (d i) -> sa_at o n kd Settled s /\ (sa_current (a_mem s) <= snd (a_sol s))%Z ->
  wp (sa_iterate o d accept i) (fun _ s' => sa_at o n kd Settled s' /\ (sa_current (a_mem s') <= snd (a_sol s'))%Z) (best_left o) s.
Proof.
  intros IB ((B & R & C & F) & LE). unfold sa_iterate. apply wp_bind, (sa_propose_wp n); [exact R|now rewrite C|split; [exact B|exact I]|].
  intros h1 H1 H2 H3 H4. apply wp_bind, wp_get. cbn [put_mem a_mem sa_nh sa_current].
  apply wp_bind, wp_evaluate; [intros e He; split; auto|]. apply wp_bind, wp_get. cbn [put_mem put_trace a_mem sa_nh sa_current].
  destruct (keep_ok n h1 H1) as (h2 & K1 & K2 & K3 & K4 & K5). destruct (forget_ok n h1 H1) as (h3 & F1 & F2 & F3 & F4).
  assert (W : (o_value o (nh_candidate h1) < sa_current (a_mem s))%Z -> forall l (m : sa), best o (mk_alg (a_trace s ++ [nh_candidate h1]) (a_sol s) l m)).
  { intros LT l m. destruct B as [B1 B2]. split; [|exact B2]. cbn. apply first_best_worse; [exact B1|]. rewrite <- B2. lia. }
  destruct (Z.leb_spec (sa_current (a_mem s)) (o_value o (nh_candidate h1))) as [GE|LT]; [|destruct (accept i)].
  - apply wp_bind. eapply wp_on_mem; [cbn [put_mem put_trace a_mem sa_nh]; now rewrite K1|]. apply wp_bind, wp_modify, wp_bind, wp_get.
    cbn [put_mem put_trace a_mem sa_nh sa_current]. rewrite K4. eapply (update_wp' o _ _ _ s); [exact B|reflexivity|reflexivity|].
    cbn [put_mem put_trace a_mem]. intros s2 B2 T2 M2 _ _ V2. unfold sa_at. rewrite M2. cbn. split; [|exact V2]. split; [exact B2|]. split; [exact K2|]. split; [congruence|]. rewrite T2. now apply Forall_app_intro; auto.
  - apply wp_bind. eapply wp_on_mem; [cbn [put_mem put_trace a_mem sa_nh]; now rewrite K1|]. apply wp_modify.
    cbn [put_mem put_trace a_mem a_sol sa_nh sa_current]. split; [|lia]. split; [apply (W LT)|]. cbn. split; [exact K2|]. split; [congruence|]. now apply Forall_app_intro; auto.
  - eapply wp_on_mem; [cbn [put_mem put_trace a_mem sa_nh]; now rewrite F1|].
    cbn [put_mem put_trace a_mem a_sol sa_nh sa_current]. split; [|lia]. split; [apply (W LT)|]. cbn. split; [exact F2|]. split; [congruence|]. now apply Forall_app_intro; auto.
Qed.

Theorem simulated_annealing_from o n h ph c0 st bits d0 d trials accept num fuel s0 : nh_reachable n h ph -> start_sized n st ->
  (forall i, in_bounds (nh_class h) n (d0 i)) -> (forall i, in_bounds (nh_class h) n (d i)) -> begun n (mk_sa c0 h) s0 ->
  let '(res, s') := loop (sa_init o n st bits d0 trials) (sa_iterate o d accept) num fuel s0 in run_best o res s' /\
    (res = Ret tt -> nh_reachable n (sa_nh (a_mem s')) Settled /\ nh_class (sa_nh (a_mem s')) = nh_class h).
Proof.
  intros R ST IB0 IB (G1 & G2 & G3).
  assert (W : wp (loop (sa_init o n st bits d0 trials) (sa_iterate o d accept) num fuel)
    (fun _ s' => sa_at o n (nh_class h) Settled s')
    (fun e s' => (best o s' \/ a_trace s' = []) /\ match e with Some e => o_stop o (length (a_trace s')) = Some e | None => True end) s0).
  { unfold loop, sa_init. apply wp_bind, wp_bind. eapply wp_mono; [apply (start_wp o n st s0 ST); auto| |].
    2:{ intros e s' (Q1 & Q2 & Q3 & _). destruct e as [e|]; [|congruence]. split; [now right|]. now rewrite Q3. }
    cbn beta. intros _ s1 (B1 & L1 & T1 & _ & M1). rewrite G3 in M1. apply wp_bind.
    eapply wp_mono; [apply (beta_trials_ok o n (nh_class h) bits d0 trials IB0 0 s1 ph)| |].
    - split; [exact B1|]. rewrite M1, T1. repeat split; auto.
    - cbn beta. intros _ s2 (ph2 & B2 & R2 & C2 & F2). apply wp_bind, wp_get, wp_bind, wp_modify, wp_modify, wp_bind, wp_modify.
      cbn [put_mem put_last a_mem a_sol sa_nh sa_current].
      eapply wp_mono; [apply (loop_from_wp (sa_iterate o d accept) (fun _ s => sa_at o n (nh_class h) Settled s /\ (sa_current (a_mem s) <= snd (a_sol s))%Z) (best_left o))| |].
      + intros i s H _. now apply sa_iterate_ok.
      + intros i s H. split; [apply H|exact I].
      + cbn. split; [|lia]. split; [exact B2|]. cbn. split; [eapply reach_origin; eauto|auto].
        destruct B2 as [B2 _]. apply first_best_max in B2 as [B2 _]. rewrite Forall_forall in F2. auto.
      + cbn beta. intros _ s' (k & (H & _) & _). exact H.
      + intros e s' [H1 H2]. split; [now left|exact H2].
    - intros e s' [H1 H2]. split; [now left|exact H2]. }
  apply wp_result in W. destruct (loop _ _ _ _ _) as [[a|e| |] s']; unfold run_best.
  - destruct W as (W & W1 & W2 & _). split; [|auto]. split; auto. now apply best_nonempty with (o := o).
  - split; [|discriminate]. destruct W as [[W|W] W2]; split; auto; congruence.
  - contradiction.
  - split; [|discriminate]. destruct W as [[W|W] W2]; split; auto; congruence.
Qed.

Theorem simulated_annealing_run o n h ph c0 st bits d0 d trials accept num fuel s : 0 < n -> nh_reachable n h ph -> start_sized n st ->
  (forall i, in_bounds (nh_class h) n (d0 i)) -> (forall i, in_bounds (nh_class h) n (d i)) -> alg_make n (mk_sa c0 h) = Ok s ->
  let '(res, s') := loop (sa_init o n st bits d0 trials) (sa_iterate o d accept) num fuel s in run_best o res s'.
Proof.
  intros _ R ST IB0 IB E. pose proof (simulated_annealing_from o n h ph c0 st bits d0 d trials accept num fuel s R ST IB0 IB (begun_make _ _ _ E)) as H.
  destruct (loop _ _ _ _ _) as [res s']. apply H.
Qed.
