(** Proofs about evolutionary algorithms with a single parent. *)

From Coq Require Import QArith Lqa Permutation.
From Verif Require Import Base BaseLemmas BitVector_Model BitVector_Spec GF2 BitVector_Proofs Iterator_Proofs Representation_Spec Map_Spec
  Neighborhood_Model Neighborhood_Spec Neighborhood_Proofs Algorithm_Model Algorithm_Spec Algorithm_Proofs HillClimbing_Proofs LocalSearch_Proofs
  Population_Model Population_Spec Population_Proofs PopAlgorithm_Model PopAlgorithm_Spec PopAlgorithm_Proofs
  ProbabilityVector_Model ProbabilityVector_Proofs EvolutionaryAlgorithm_Model EvolutionaryAlgorithm_Spec EvolutionaryAlgorithm_Proofs.
Local Open Scope nat_scope.

(** * Self-adjusting (1+1) EA *)

Definition allows (allow : bool) (h : nh) : Prop := exists rejection, nh_class h = StandardBitMutation rejection allow.

Lemma allows_rate allow h b : allows allow h -> allows allow (nh_set_mutation_rate h b).
Proof. intros (x & E). unfold allows, nh_set_mutation_rate. rewrite E. cbn. eauto. Qed.

Lemma allows_standard allow h : allows allow h -> standard h.
Proof. intros (x & E). unfold standard. eauto. Qed.

Section SelfAdjusting.
  Variable o : objective.
  Variable n : nat.
  Variable p : saea_parameters.
  Variable small : Q -> bool.
  Variable d : nat -> draws.
  Hypothesis DR : forall t, in_bounds (StandardBitMutation false false) n (d t).
  Hypothesis RI : sp_incremental p && o_provides o = true -> right_increments n o.

  (** At any time after the first evaluation *)
  Definition saea_at ph (s : alg saea) : Prop :=
    nh_reachable n (sx_nh (a_mem s)) ph /\ allows (sp_allow p) (sx_nh (a_mem s)) /\
    top_of o (a_trace s) (nh_origin (sx_nh (a_mem s)), snd (a_sol s)).

  Lemma saea_value_wp h cur (Q : Z -> alg saea -> Prop) (E : option exn -> alg saea -> Prop) s :
    length (nh_origin h) = n -> length (nh_candidate h) = n -> diffs n (nh_origin h) (nh_candidate h) = nh_flipped h -> cur = o_value o (nh_origin h) ->
    (forall e, o_stop o (length (a_trace s)) = Some e -> E (Some e) s) ->
    Q (o_value o (nh_candidate h)) (put_trace (nh_candidate h) s) ->
    wp (if sp_incremental p && o_provides o
        then evaluate_incrementally o (nh_origin h) cur (nh_flipped h) (nh_candidate h)
        else evaluate o (nh_candidate h)) Q E s.
  Proof.
    intros L1 L2 D -> HE HQ. destruct (sp_incremental p && o_provides o); [|now apply wp_evaluate].
    unfold wp, evaluate_incrementally. destruct (o_stop o (length (a_trace s))) as [e|] eqn:ST; [now apply HE|].
    rewrite <- D, (RI eq_refl) by assumption. exact HQ.
  Qed.

  Lemma standard_rate h b : standard h -> standard (nh_set_mutation_rate h b).
  Proof. intros (x & y & E). unfold standard, nh_set_mutation_rate. rewrite E. cbn. eauto. Qed.
  Lemma standard_allow h b : standard h -> standard (nh_set_allow_no_mutation h b).
  Proof. intros (x & y & E). unfold standard, nh_set_allow_no_mutation. rewrite E. cbn. eauto. Qed.
  Lemma rate_origin h b : nh_origin (nh_set_mutation_rate h b) = nh_origin h.
  Proof. unfold nh_set_mutation_rate. now destruct (nh_class h). Qed.

  Lemma saea_iterate_wp i (s : alg saea) : saea_at Settled s ->
    wp (saea_iterate o p small d i)
      (fun _ s' => saea_at Settled s' /\ a_last s' = a_last s /\ exists y,
         mutant (nh_class (sx_nh (a_mem s))) n (nh_origin (sx_nh (a_mem s))) y /\ a_trace s' = a_trace s ++ [y] /\
         if (snd (a_sol s) <=? o_value o y)%Z
         then nh_origin (sx_nh (a_mem s')) = y /\ sx_rate (a_mem s') = qmin (sx_rate (a_mem s) * sp_coefficient p) (sp_max p)
         else nh_origin (sx_nh (a_mem s')) = nh_origin (sx_nh (a_mem s)) /\ sx_rate (a_mem s') = qmax (sx_rate (a_mem s) / sp_strength p) (sp_min p))
      (fun e s' => (exists ph, saea_at ph s') /\ a_trace s' = a_trace s /\ sx_rate (a_mem s') = sx_rate (a_mem s) /\
         match e with Some e => o_stop o (length (a_trace s')) = Some e | None => True end) s.
  Proof.
    intros (R & ST & TO). unfold saea_iterate. apply wp_bind.
    pose proof (standard_bounds n _ _ (allows_standard _ _ ST) (DR i)) as IB.
    destruct (reachable_inv n _ _ R) as [OK IH].
    unfold wp at 1, saea_propose. destruct (nh_propose (sx_nh (a_mem s)) (d i)) as [ou|] eqn:EP.
    2:{ split; [exists Settled; split; [|split]; assumption|]. auto. }
    destruct (propose_exact n _ (d i) ou OK IH IB EP) as (l & _ & A1 & A2 & ->). destruct OK as (_ & HO & _).
    destruct (index_set_flip n _ l HO A1) as (_ & F2 & _ & F4).
    pose proof (reach_propose n _ (d i) _ R IB EP) as RP.
    set (h := mk_nh _ _ _ _) in *.
    assert (LO : length (nh_origin h) = n) by exact HO. assert (LC : length (nh_candidate h) = n) by exact F4.
    assert (DF : diffs n (nh_origin h) (nh_candidate h) = nh_flipped h) by exact F2.
    assert (PO : nh_origin h = nh_origin (sx_nh (a_mem s))) by reflexivity.
    assert (SH : allows (sp_allow p) h) by exact ST.
    assert (MU : mutant (nh_class (sx_nh (a_mem s))) n (nh_origin (sx_nh (a_mem s))) (nh_candidate h)).
    { split; [exact LC|]. rewrite <- PO, DF. exact A2. }
    clearbody h. clear EP.
    refine (_ : wp _ _ (fun e s' => (exists ph, saea_at ph s') /\ a_trace s' = a_trace s /\ sx_rate (a_mem s') = sx_rate (a_mem s) /\
         match e with Some e => o_stop o (length (a_trace s')) = Some e | None => True end) _).
    destruct TO as (T1 & T2 & T3). cbn [fst snd] in T1, T2, T3.
    apply wp_bind, wp_get, wp_bind, wp_get. cbn [put_mem a_mem a_sol a_trace sx_nh sx_rate]. apply wp_bind.
    eapply saea_value_wp; [exact LO|exact LC|exact DF|now rewrite PO| |].
    { intros e He. split; [|cbn; auto]. exists Proposed. split; [exact RP|]. split; [assumption|]. cbn. rewrite PO. split; auto. }
    apply wp_bind, wp_get. cbn [put_trace put_mem a_mem sx_rate]. destruct (Z.leb_spec (snd (a_sol s)) (o_value o (nh_candidate h))) as [C|C].
    - destruct (keep_ok n h RP) as (h' & K1 & K2 & K3 & K4 & K5).
      apply wp_bind. eapply wp_on_mem; [cbn [put_mem put_trace a_mem sx_nh sx_rate]; now rewrite K1|]. apply wp_bind, wp_modify. unfold set_rate. apply wp_modify.
      cbn [put_mem put_trace put_sol a_mem a_sol a_trace a_last sx_nh sx_rate fst snd].
      split; [|split; [reflexivity|]].
      + split; [apply reach_rate; exact K2|]. split; [apply allows_rate; unfold allows; cbn [a_mem sx_nh]; rewrite K3; exact SH|].
        cbn [put_mem put_sol a_mem a_sol a_trace sx_nh snd]. rewrite rate_origin. rewrite K4. split; [apply in_or_app; right; now left|]. split; [reflexivity|]. cbn [snd].
        intros y Hy. apply in_app_or in Hy as [Hy|[<-|[]]]; [|lia]. specialize (T3 y Hy). lia.
      + exists (nh_candidate h). split; [assumption|]. split; [reflexivity|]. rewrite (proj2 (Z.leb_le (snd (a_sol s)) (o_value o (nh_candidate h))) C).
        cbn [put_mem put_sol a_mem a_sol a_trace sx_nh sx_rate snd]. rewrite rate_origin. auto.
    - destruct (forget_ok n h RP) as (h' & K1 & K2 & K3 & K4).
      apply wp_bind. eapply wp_on_mem; [cbn [put_mem put_trace a_mem sx_nh sx_rate]; now rewrite K1|]. unfold set_rate. apply wp_modify.
      cbn [put_mem put_trace put_sol a_mem a_sol a_trace a_last sx_nh sx_rate fst snd].
      split; [|split; [reflexivity|]].
      + split; [apply reach_rate; exact K2|]. split; [apply allows_rate; unfold allows; cbn [a_mem sx_nh]; rewrite K3; exact SH|].
        cbn [put_mem put_sol a_mem a_sol a_trace sx_nh snd]. rewrite rate_origin. rewrite K4, PO. split; [apply in_or_app; now left|]. split; [exact T2|]. cbn [snd].
        intros y Hy. apply in_app_or in Hy as [Hy|[<-|[]]]; [auto|apply Z.lt_le_incl; exact C].
      + exists (nh_candidate h). split; [assumption|]. split; [reflexivity|]. rewrite (proj2 (Z.leb_gt (snd (a_sol s)) (o_value o (nh_candidate h))) C).
        cbn [put_mem put_sol a_mem a_sol a_trace sx_nh sx_rate snd]. rewrite rate_origin, K4. auto.
  Qed.
End SelfAdjusting.

(** Rates *)
Lemma qmin_spec a b : qmin a b = if Qlt_le_dec b a then b else a.
Proof.
  unfold qmin. destruct (qltb b a) eqn:E, (Qlt_le_dec b a); try reflexivity; exfalso.
  - apply qltb_lt in E. lra.
  - apply qltb_ge in E. lra.
Qed.
Lemma qmax_spec a b : qmax a b = if Qlt_le_dec a b then b else a.
Proof.
  unfold qmax. destruct (qltb a b) eqn:E, (Qlt_le_dec a b); try reflexivity; exfalso.
  - apply qltb_lt in E. lra.
  - apply qltb_ge in E. lra.
Qed.

Definition rate_within (p : saea_parameters) (q : Q) : Prop := (sp_min p <= q <= sp_max p)%Q.

Lemma rate_up p q : (0 <= sp_min p)%Q -> (1 <= sp_coefficient p)%Q -> rate_within p q -> rate_within p (qmin (q * sp_coefficient p) (sp_max p)).
Proof.
  intros H1 H2 [H3 H4]. rewrite qmin_spec. assert (q <= q * sp_coefficient p)%Q.
  { setoid_replace q with (q * 1)%Q at 1 by ring. rewrite !(Qmult_comm q). apply Qmult_le_compat_r; lra. }
  unfold rate_within. destruct (Qlt_le_dec _ _); lra.
Qed.

Lemma rate_down p q : (0 <= sp_min p)%Q -> (1 <= sp_strength p)%Q -> rate_within p q -> rate_within p (qmax (q / sp_strength p) (sp_min p)).
Proof.
  intros H1 H2 [H3 H4]. rewrite qmax_spec. assert (q / sp_strength p <= q)%Q.
  { apply Qle_shift_div_r; [lra|]. setoid_replace q with (q * 1)%Q at 1 by ring. rewrite !(Qmult_comm q). apply Qmult_le_compat_r; lra. }
  unfold rate_within. destruct (Qlt_le_dec _ _); lra.
Qed.

Section SelfAdjustingRun.
  Variable o : objective.
  Variable n : nat.
  Variable p : saea_parameters.
  Variable small : Q -> bool.
  Variable d : nat -> draws.
  Hypothesis DR : forall t, in_bounds (StandardBitMutation false false) n (d t).
  Hypothesis RI : sp_incremental p && o_provides o = true -> right_increments n o.
  (** What holds of rates *)
  Variable P : Q -> Prop.
  Hypothesis P_init : P (sp_init p).
  Hypothesis P_up : forall q, P q -> P (qmin (q * sp_coefficient p) (sp_max p)).
  Hypothesis P_down : forall q, P q -> P (qmax (q / sp_strength p) (sp_min p)).

  Lemma saea_init_wp bit (s : alg saea) : nh_reachable n (sx_nh (a_mem s)) Settled -> standard (sx_nh (a_mem s)) ->
    a_trace s = [] -> length (fst (a_sol s)) = n ->
    wp (saea_init o p small bit) (fun _ s' => saea_at o n p Settled (put_last false s') /\ sx_rate (a_mem s') = sp_init p)
      (fun e s' => a_trace s' = [] /\ sx_rate (a_mem s') = sp_init p /\ match e with Some e => o_stop o (length (a_trace s')) = Some e | None => True end /\ e <> None) s.
  Proof.
    intros R ST T L. unfold saea_init. apply wp_bind. unfold set_rate at 1. apply wp_modify. apply wp_bind, wp_modify. apply wp_bind.
    eapply wp_mono; [apply (start_wp o n (RandomStart bit)); [exact I|exact T|exact L]| |].
    2:{ cbn beta. intros e s1 (Q1 & Q2 & Q3 & Q4 & _). rewrite Q4. cbn [put_mem a_mem sx_rate]. split; [exact Q3|]. split; [reflexivity|]. rewrite Q3. cbn [length]. split; [|assumption]. destruct e; [auto|exact I]. }
    cbn beta. intros _ s1 (B1 & L1 & T1 & LA1 & M1). cbn [put_mem a_mem sx_rate sx_nh] in M1. apply wp_modify. rewrite M1.
    cbn [put_mem put_last a_mem a_sol a_trace a_last sx_nh sx_rate fst snd].
    destruct B1 as [B1 B2]. apply first_best_max in B1 as [B1 B3]. split; [|reflexivity]. split; [|split].
    - cbn. eapply reach_origin; [apply reach_allow, reach_rate; exact R|assumption].
    - destruct ST as (a & b & ST). unfold allows. cbn. unfold nh_set_allow_no_mutation, nh_set_mutation_rate. rewrite ST. cbn. eauto.
    - cbn. split; [exact B1|]. split; [exact B2|]. cbn [snd]. intros y Hy. rewrite B2. now apply B3.
  Qed.

  Lemma saea_run bit num fuel (s : alg saea) : nh_reachable n (sx_nh (a_mem s)) Settled -> standard (sx_nh (a_mem s)) ->
    a_trace s = [] -> length (fst (a_sol s)) = n ->
    let '(r, s') := loop (saea_init o p small bit) (saea_iterate o p small d) num fuel s in
    run_top o 1 r (saea_finalize s') /\ P (sx_rate (a_mem s')) /\ (forall u, r = Ret u -> a_last s' = true \/ (0 < num)%Z).
  Proof.
    intros R ST T L.
    set (left := fun (e : option exn) (s' : alg saea) => P (sx_rate (a_mem s')) /\ ((a_trace s' = [] /\ e <> None) \/ exists ph, saea_at o n p ph s') /\ match e with Some e => o_stop o (length (a_trace s')) = Some e | None => True end).
    assert (W : wp (loop (saea_init o p small bit) (saea_iterate o p small d) num fuel)
      (fun _ s' => (saea_at o n p Settled s' /\ P (sx_rate (a_mem s'))) /\ (a_last s' = true \/ (0 < num)%Z)) left s).
    { unfold loop. apply wp_bind. eapply wp_mono; [now apply (saea_init_wp bit s)| |].
      2:{ cbn beta. intros e s1 (Q1 & Q2 & Q3 & Q4). unfold left. rewrite Q2. split; [exact P_init|]. split; [auto|]. exact Q3. }
      cbn beta. intros _ s1 (B1 & B2). apply wp_bind, wp_modify.
      eapply wp_mono; [apply (loop_from_wp (saea_iterate o p small d) (fun _ s => saea_at o n p Settled s /\ P (sx_rate (a_mem s))) left)| |].
      - intros i s2 (H1 & H2) LA. eapply wp_mono; [apply (saea_iterate_wp o n p small d DR RI i s2 H1)| |].
        + cbn beta. intros _ s3 (G1 & _ & y & _ & _ & G2). split; [assumption|].
          destruct (snd (a_sol s2) <=? o_value o y)%Z; destruct G2 as [_ ->]; auto.
        + cbn beta. intros e s3 ((ph & G1) & G2 & G3 & G4). unfold left. rewrite G3. split; [assumption|]. split; [right; eauto|assumption].
      - intros i s2 (H1 & H2). split; [assumption|]. split; [right; eauto|exact I].
      - split; [exact B1|]. cbn [put_last a_mem]. rewrite B2. exact P_init.
      - cbn. intros _ s2 (k & H & H2). split; [exact H|]. destruct H2; [auto|right; lia].
      - auto. }
    assert (FIN : forall ph s', saea_at o n p ph s' -> lagging o 1 (saea_finalize s')).
    { intros ph s' (_ & _ & H). apply lagging_top; [lia|exact H]. }
    apply wp_result in W. destruct (loop _ _ _ _ _) as [[u|e| |] s']; cbn [run_top].
    - destruct W as ((W1 & W2) & W3). split; [apply W1|]. split; [assumption|auto].
    - destruct W as (W1 & W2 & W3). split; [|split; [assumption|discriminate]]. split; [exact W3|]. destruct W2 as [[W2 _]|[ph W2]]; [left; exact W2|right; eauto].
    - contradiction.
    - destruct W as (W1 & W2 & W3). split; [|split; [assumption|discriminate]]. destruct W2 as [[_ W2]|[ph W2]]; [congruence|eauto].
  Qed.
End SelfAdjustingRun.

(** * (1+1) EA *)

Lemma opoea_run o n garbage small allow incremental bit d num fuel p :
  op_make n garbage = Ok p -> (incremental && o_provides o = true -> right_increments n o) ->
  (forall t, in_bounds (StandardBitMutation false false) n (d t)) ->
  let '(r, p') := op_maximize o small allow incremental bit d num fuel p in
  op_sol p' = (repeat false n, 0%Z) /\
  (a_trace (op_rls p') <> [] -> top_of o (a_trace (op_rls p')) (op_sol (op_finalize p'))) /\
  match r with
  | Ret _ => a_trace (op_rls p') <> [] /\ (0 < num)%Z
  | Exc e => thrown_by o e
  | Bad => False
  | Pending => True
  end.
Proof.
  intros E RI DR. unfold op_make in E. destruct (ensureb (0 <? n)) as [en| |]; try discriminate. cbn [bind] in E. clear en. destruct (nh_make (StandardBitMutation false false) n) as [h| |] eqn:EH; try discriminate. cbn [bind] in E.
  assert (N : 0 < n). { unfold nh_make in EH. destruct (Nat.ltb_spec 0 n); [assumption|discriminate]. }
  unfold alg_make in E. rewrite (proj2 (Nat.ltb_lt 0 n) N) in E. cbn [ensureb bind] in E. apply Ok_inj in E. subst p.
  unfold op_maximize. cbn [op_rls op_sol a_mem rls_nh rls_failures put_mem a_trace a_sol a_last].
  set (h' := nh_set_allow_no_mutation (nh_set_mutation_rate h small) allow).
  assert (R : nh_reachable n h' Settled). { apply reach_allow, reach_rate. eapply reach_make. exact EH. }
  assert (ST : standard h'). { apply standard_allow, standard_rate. unfold nh_make in EH. rewrite (proj2 (Nat.ltb_lt 0 n) N) in EH. cbn [assertb bind] in EH. apply Ok_inj in EH. subst h. unfold standard. cbn. eauto. }
  set (pp := mk_rls_parameters _ _ _).
  assert (EA : alg_make n (mk_rls garbage h') = Ok (mk_alg [] (repeat false n, 0%Z) false (mk_rls garbage h'))). { unfold alg_make. rewrite (proj2 (Nat.ltb_lt 0 n) N). reflexivity. }
  pose proof (rls_run o n pp h' Settled garbage (RandomStart bit) d num fuel _ N R I RI (fun t => standard_bounds n h' (d t) ST (DR t)) EA) as W.
  change (put_mem _ _) with (mk_alg [] (repeat false n, 0%Z) false (mk_rls garbage h')).
  destruct (loop _ _ _ _ _) as [r s']. cbn [op_sol op_rls]. destruct W as [W1 W2]. split; [reflexivity|]. split.
  - intros NE. destruct (W1 NE) as [[C1 C2] C3]. split; [exact C1|]. split; [exact C2|]. apply C3. intros a b. cbn. rewrite Z.leb_le, Z.leb_gt. lia.
  - destruct r; auto. destruct W2 as (W2 & W3 & W4). split; [assumption|]. destruct (a_last s'); [|auto]. destruct (W3 eq_refl) as [W5 _]. cbn in W5. lia.
Qed.

(** * Two-rate (1+lambda) EA *)

Lemma wp_returns {St A} (m : act St A) a s' (Q : A -> St -> Prop) E s : m s = (Ret a, s') -> Q a s' -> wp m Q E s.
Proof. intros H HQ. unfold wp. now rewrite H. Qed.

Lemma tr_put_get (m : trea) : tr_put (tr_pop m) m = m.
Proof. now destruct m. Qed.

Lemma weaker_mutant rej allow n x y : mutant (StandardBitMutation rej allow) n x y -> mutant (StandardBitMutation true allow) n x y.
Proof. intros [H1 H2]. split; [assumption|]. cbn in *. destruct H2 as [[_ H2]|H2]; auto. Qed.

(** The place of a best individual after a sort *)
Lemma sorted_index o sh srt size n p : shuffles sh -> sorts srt -> well_formed size n p -> evaluated o p ->
  let p' := pop_sort sh srt p in
  exists k, best_index p' 0 = Ok k /\ k < size /\ forall y, In y (p_bvs p) -> (o_value o y <= o_value o (nth k (p_bvs p) []))%Z.
Proof.
  intros Hs Hr W EV p'. pose proof (sort_wf _ _ _ _ _ Hs Hr W) as W'. fold p' in W'. assert (S0 : 0 < size) by apply W.
  exists (nth 0 (p_perm p') 0). rewrite (best_index_Ok W') by assumption. split; [reflexivity|]. split; [apply perm_seq_nth; [apply W'|assumption]|].
  destruct (sorted_best o sh srt size n p Hs Hr W EV) as (b & B1 & _ & _ & _ & B4). fold p' in B1.
  rewrite (best_bv_Ok W') in B1 by assumption. apply Ok_inj in B1. change (p_bvs p') with (p_bvs p) in B1. rewrite B1. exact B4.
Qed.

Section TwoRate.
  Variable o : objective.
  Variables n lambda : nat.
  Variable allow : bool.
  Variable small : Q -> bool.
  Variable d : nat -> nat -> draws.
  Variable sh : nat -> list nat -> list nat.
  Variable srt : (nat -> nat -> bool) -> list nat -> list nat.
  Variable u : nat -> Q.
  Hypothesis DR : fair_mutations n d.
  Hypothesis SH : forall t, shuffles (sh t).
  Hypothesis SR : sorts srt.

  Definition tr_stage (s0 : alg trea) (k : nat) (s : alg trea) : Prop :=
    exists bs h, s = mk_alg (a_trace s0) (a_sol s0) (a_last s0)
        (mk_trea (mk_pop bs (p_values (tr_pop (a_mem s0))) (p_perm (tr_pop (a_mem s0)))) h (tr_rate (a_mem s0))) /\
      length bs = lambda /\ Forall (fun x => length x = n) bs /\ nh_reachable n h Settled /\ allows allow h /\
      forall j, j < k -> mutant (StandardBitMutation true allow) n (fst (a_sol s0)) (nth j bs []).

  Lemma tr_set_rate_wp s0 k q s (Q : unit -> alg trea -> Prop) E : tr_stage s0 k s -> (forall s', tr_stage s0 k s' -> Q tt s') -> wp (tr_set_rate small q) Q E s.
  Proof.
    intros (bs & h & -> & L1 & L2 & L3 & L4 & L5) H. unfold tr_set_rate. apply wp_modify. apply H. eexists bs, _. split; [reflexivity|].
    cbn [a_mem tr_nh]. split; [assumption|]. split; [assumption|]. split; [apply reach_rate; assumption|]. split; [apply allows_rate; assumption|assumption].
  Qed.

  Definition tr_left (s0 : alg trea) (e : option exn) (s : alg trea) : Prop :=
    e = None /\ a_trace s = a_trace s0 /\ a_sol s = a_sol s0 /\ tr_rate (a_mem s) = tr_rate (a_mem s0).

  Lemma tr_mutate_wp s0 k dr s : k < lambda -> length (fst (a_sol s0)) = n -> in_bounds (StandardBitMutation false false) n dr -> tr_stage s0 k s ->
    wp (tr_mutate k dr) (fun _ s' => tr_stage s0 (k + 1) s') (tr_left s0) s.
  Proof.
    intros K LS B (bs & h & -> & L1 & L2 & L3 & (rej & L4) & L5). unfold tr_mutate. apply wp_bind, wp_get. apply wp_bind, wp_get. cbn [a_mem a_sol tr_pop tr_nh p_bvs].
    apply wp_bind. eapply wp_lift; [apply (vget_nth bs k []); lia|].
    destruct (reachable_inv n h _ L3) as [OK _]. assert (B' : in_bounds (nh_class h) n dr) by (rewrite L4; exact B).
    rewrite map_is_mutate. 2:{ destruct OK as (_ & -> & _). apply (Forall_nth_len L2). lia. }
    destruct (nh_mutate h (fst (a_sol s0)) dr) as [r|] eqn:EM.
    2:{ cbn. repeat split; reflexivity. }
    destruct (mutate_exact n h _ dr r OK LS B' EM) as (l & E1 & A1 & A2 & ->). destruct (index_set_flip n _ l LS A1) as (_ & F2 & _ & F4).
    apply wp_bind. eapply wp_lift; [reflexivity|]. cbn [fst snd]. apply wp_bind. eapply wp_on_mem.
    { cbn [a_mem tr_pop p_bvs p_values p_perm]. rewrite (vset_Ok bs k) by lia. reflexivity. }
    apply wp_modify. eexists (upd bs k (flips (fst (a_sol s0)) l)), _. split; [reflexivity|]. split; [now rewrite length_upd|]. split; [apply Forall_upd; assumption|].
    split; [exact (reach_mutate n h _ dr _ _ L3 B' EM)|]. split; [exists rej; exact L4|].
    intros j Hj. destruct (Nat.eq_dec j k) as [->|NE].
    - rewrite nth_upd_eq by lia. apply (weaker_mutant rej). split; [assumption|]. rewrite F2, <- L4. exact A2.
    - rewrite nth_upd_neq by assumption. apply L5. lia.
  Qed.

  Lemma trea_made_wp (s0 : alg trea) t m low high : well_formed lambda n (tr_pop (a_mem s0)) -> nh_reachable n (tr_nh (a_mem s0)) Settled -> allows allow (tr_nh (a_mem s0)) ->
    length (fst (a_sol s0)) = n -> m <= lambda ->
    forall (Q : unit -> alg trea -> Prop) (E : option exn -> alg trea -> Prop) k,
    (forall s, tr_stage s0 lambda s -> wp k Q E s) -> (forall e s, tr_left s0 e s -> E e s) ->
    wp (_ <~ tr_set_rate small low ;; _ <~ afor (fun k => tr_mutate k (d t k)) (seq 0 m) ;; _ <~ tr_set_rate small high ;;
        _ <~ afor (fun k => tr_mutate k (d t k)) (seq m (lambda - m)) ;; k) Q E s0.
  Proof.
    intros (W1 & W2 & W3 & W4 & W5 & W6) R AL LS HM Q E k HK HE.
    assert (S0 : tr_stage s0 0 s0).
    { exists (p_bvs (tr_pop (a_mem s0))), (tr_nh (a_mem s0)). split; [|repeat split; auto; lia]. destruct s0 as [T sol last [[bs vs pm] h y]]. reflexivity. }
    apply wp_bind. apply (tr_set_rate_wp s0 0 _ _ _ _ S0). intros s1 S1. apply wp_bind.
    eapply wp_mono; [apply (wp_afor (fun k => tr_mutate k (d t k)) (tr_stage s0) (tr_left s0) m 0 s1 S1)| |exact HE].
    { intros i s Hi H. apply tr_mutate_wp; auto. lia. }
    cbn beta. cbn [Nat.add]. intros _ s2 S2. apply wp_bind. apply (tr_set_rate_wp s0 m _ _ _ _ S2). intros s3 S3. apply wp_bind.
    eapply wp_mono; [apply (wp_afor (fun k => tr_mutate k (d t k)) (tr_stage s0) (tr_left s0) (lambda - m) m s3 S3)| |exact HE].
    { intros i s Hi H. apply tr_mutate_wp; auto. lia. }
    cbn beta. intros _ s4 S4. apply HK. replace lambda with (m + (lambda - m)) at 1 by lia. exact S4.
  Qed.

  Definition trea_inv (s : alg trea) : Prop :=
    well_formed lambda n (tr_pop (a_mem s)) /\ nh_reachable n (tr_nh (a_mem s)) Settled /\ allows allow (tr_nh (a_mem s)) /\ length (fst (a_sol s)) = n.

  Lemma trea_iterate_wp t (s : alg trea) : trea_inv s -> top_of o (a_trace s) (a_sol s) -> (8 <= n \/ (u t < 1 # 2)%Q) ->
    wp (trea_iterate o n small d sh srt u t)
      (fun _ s' => trea_inv s' /\ top_of o (a_trace s') (a_sol s') /\ two_rate_step o n lambda allow (u t) s s')
      (fun e s' => (exists post, a_trace s' = a_trace s ++ post /\ length post < lambda) /\ a_sol s' = a_sol s /\ tr_rate (a_mem s') = tr_rate (a_mem s) /\
         match e with Some e => o_stop o (length (a_trace s')) = Some e | None => True end) s.
  Proof.
    intros (W & R & AL & LS) TO N8. unfold trea_iterate. apply wp_bind, wp_get. unfold pop_size. assert (length (p_bvs (tr_pop (a_mem s))) = lambda) as -> by apply W.
    assert (L0 : 0 < lambda) by apply W.
    set (mid := lambda / 2). assert (HM : mid <= lambda). { unfold mid. apply Nat.div_le_upper_bound; lia. }
    set (low := (tr_rate (a_mem s) / 2)%Q). set (high := (tr_rate (a_mem s) * 2)%Q). cbv zeta.
    apply (trea_made_wp s t mid low high W R AL LS HM).
    2:{ intros e s1 (-> & E1 & E2 & E3). split; [exists []; rewrite app_nil_r; auto|]. auto. }
    intros s1 (bs & h & -> & L1 & L2 & L3 & L4 & L5). apply wp_bind.
    pose proof W as (W1 & W2 & W3 & W4 & W5 & W6).
    assert (WB : well_formed lambda n (mk_pop bs (p_values (tr_pop (a_mem s))) (p_perm (tr_pop (a_mem s))))). { unfold well_formed. cbn [p_bvs p_values p_perm]. auto 10. }
    eapply wp_mono; [apply (eval_pop_wp tr_pop tr_put ltac:(reflexivity) ltac:(reflexivity) tr_put_get o lambda n); exact WB| |].
    2:{ cbn beta. cbn [a_mem tr_pop p_bvs p_perm a_trace a_sol a_last]. intros e s2 (k & vs & e' & K & LV & -> & E & ->). cbn [a_trace a_sol a_mem tr_put tr_rate]. split.
        - exists (firstn k bs). split; [reflexivity|]. rewrite firstn_length. lia.
        - split; [reflexivity|]. split; [reflexivity|]. rewrite app_length, firstn_length_le by lia. exact E. }
    cbn beta. cbn [a_mem tr_pop p_bvs p_perm a_trace a_sol a_last]. intros _ s2 ->. unfold tr_put at 1. cbn [tr_nh tr_rate].
    set (p0 := mk_pop bs (map (o_value o) bs) (p_perm (tr_pop (a_mem s)))).
    assert (W0 : well_formed lambda n p0). { unfold well_formed, p0. cbn [p_bvs p_values p_perm]. rewrite map_length. auto 10. }
    assert (EV : evaluated o p0) by reflexivity.
    destruct (sorted_index o (sh t) srt lambda n p0 (SH t) SR W0 EV) as (best & I1 & I2 & I3).
    destruct (sorted_best o (sh t) srt lambda n p0 (SH t) SR W0 EV) as (b & B1 & B2 & B3 & BL & B4).
    pose proof (sort_wf (sh t) srt lambda n p0 (SH t) SR W0) as WS.
    apply wp_bind. unfold sort_pop, on_pop. eapply wp_on_mem; [reflexivity|]. cbn [put_mem a_mem a_trace a_sol a_last tr_pop tr_put tr_nh tr_rate].
    apply wp_bind. unfold update_with_best. apply wp_bind, wp_get. cbn [a_mem tr_pop]. apply wp_bind. eapply wp_lift; [exact B1|]. apply wp_bind. eapply wp_lift; [exact B2|].
    pose proof (top_of_update o (a_trace s) bs (a_sol s) b TO B3 B4) as TU.
    set (sol := if (snd (a_sol s) <? o_value o b)%Z then (b, o_value o b) else a_sol s) in *.
    assert (LSOL : length (fst sol) = n). { unfold sol. destruct (_ <? _)%Z; assumption. }
    assert (US : update_solution b (o_value o b) (mk_alg (a_trace s ++ bs) (a_sol s) (a_last s) (mk_trea (pop_sort (sh t) srt p0) h (tr_rate (a_mem s)))) =
      (Ret tt, mk_alg (a_trace s ++ bs) sol (a_last s) (mk_trea (pop_sort (sh t) srt p0) h (tr_rate (a_mem s))))).
    { unfold update_solution, sol. cbn [a_sol]. destruct (_ <? _)%Z; reflexivity. }
    eapply wp_returns; [exact US|]. clear US.
    assert (FIN : forall rate', half_rates n (tr_rate (a_mem s)) (u t) best lambda rate' ->
      let s' := mk_alg (a_trace s ++ bs) sol (a_last s) (mk_trea (pop_sort (sh t) srt p0) h rate') in
      trea_inv s' /\ top_of o (a_trace s') (a_sol s') /\ two_rate_step o n lambda allow (u t) s s').
    { intros rate' HR s'. split; [split; [exact WS|split; [exact L3|split; [exact L4|exact LSOL]]]|]. split; [exact TU|].
      exists bs, best. split; [assumption|]. split; [|split; [reflexivity|split; [assumption|split; [assumption|exact HR]]]].
      intros y Hy. apply (In_nth _ _ []) in Hy as (j & Hj & <-). apply L5. lia. }
    assert (LE8 : 8 <= n -> (tr_min n <= tr_max)%Q).
    { intros H. unfold tr_min, tr_max. apply Qle_shift_div_r.
      - change 0%Q with (inject_Z 0). rewrite <- Zlt_Qlt. lia.
      - assert (inject_Z 8 <= inject_Z (Z.of_nat n))%Q. { rewrite <- Zle_Qle. lia. } change (inject_Z 8) with 8%Q in *. lra. }
    destruct (qltb (u t) (1 # 4)) eqn:U1; [apply qltb_lt in U1|apply qltb_ge in U1].
    - unfold tr_keep_rate. apply wp_modify. apply FIN. rewrite qmax_spec. repeat split; intros; first [lra|reflexivity].
    - destruct (qltb (u t) (1 # 2)) eqn:U2; [apply qltb_lt in U2|apply qltb_ge in U2].
      + unfold tr_keep_rate. apply wp_modify. apply FIN. rewrite qmin_spec. repeat split; intros; first [lra|reflexivity].
      + destruct N8 as [N8|N8]; [|lra]. specialize (LE8 N8).
        apply wp_bind, wp_get. cbn [a_mem tr_pop]. apply wp_bind. eapply wp_lift; [exact I1|].
        set (r := if best <? mid then low else high).
        apply wp_bind. eapply wp_lift. { unfold clamp. assert (qltb tr_max (tr_min n) = false) as -> by now apply qltb_ge. reflexivity. }
        unfold tr_keep_rate. apply wp_modify. apply FIN. repeat split; intros; try lra.
        change r0 with r. change (2 / inject_Z (Z.of_nat n))%Q with (tr_min n). change (1 # 4)%Q with tr_max.
        assert (X1 : forall a b, qltb a b = if Qlt_le_dec a b then true else false).
        { intros a c. destruct (qltb a c) eqn:E, (Qlt_le_dec a c); try reflexivity; exfalso; [apply qltb_lt in E|apply qltb_ge in E]; lra. }
        rewrite !X1. destruct (Qlt_le_dec r (tr_min n)); [reflexivity|]. destruct (Qlt_le_dec tr_max r); reflexivity.
  Qed.
End TwoRate.

Lemma two_rate_bounds n rate u best lambda rate' : 8 <= n -> (tr_min n <= rate <= 1 # 4)%Q -> half_rates n rate u best lambda rate' -> (tr_min n <= rate' <= 1 # 4)%Q.
Proof.
  intros N H (H1 & H2 & H3). change (2 / inject_Z (Z.of_nat n))%Q with (tr_min n) in *.
  assert (P : (0 <= tr_min n)%Q).
  { unfold tr_min. apply Qle_shift_div_l.
    - change 0%Q with (inject_Z 0). rewrite <- Zlt_Qlt. lia.
    - lra. }
  assert (D : (rate / 2 == rate * (1 # 2))%Q) by (unfold Qdiv; reflexivity).
  destruct (Qlt_le_dec u (1 # 4)) as [U1|U1].
  - specialize (H1 U1). destruct (Qlt_le_dec (rate / 2) (tr_min n)); lra.
  - destruct (Qlt_le_dec u (1 # 2)) as [U2|U2].
    + specialize (H2 U1 U2). destruct (Qlt_le_dec (1 # 4) (rate * 2)); lra.
    + specialize (H3 U2). cbv zeta in H3. destruct (best <? lambda / 2).
      * destruct (Qlt_le_dec (rate / 2) (tr_min n)); [lra|]. destruct (Qlt_le_dec (1 # 4) (rate / 2)); lra.
      * destruct (Qlt_le_dec (rate * 2) (tr_min n)); [lra|]. destruct (Qlt_le_dec (1 # 4) (rate * 2)); lra.
Qed.

Lemma trea_init_wp o n lambda allow init bit (s : alg trea) : (tr_min n <= init <= 1 # 4)%Q ->
  well_formed lambda n (tr_pop (a_mem s)) -> nh_reachable n (tr_nh (a_mem s)) Settled -> standard (tr_nh (a_mem s)) ->
  a_trace s = [] -> length (fst (a_sol s)) = n ->
  wp (trea_init o init allow bit) (fun _ s' => top_of o (a_trace s') (a_sol s') /\ trea_inv n lambda allow (put_last false s') /\ (tr_min n <= tr_rate (a_mem (put_last false s')) <= 1 # 4)%Q)
    (fun e s' => (exists e', e = Some e' /\ o_stop o (length (a_trace s')) = Some e') /\ (a_trace s' = [] \/ lagging o lambda s' /\ (tr_min n <= tr_rate (a_mem s') <= 1 # 4)%Q)) s.
Proof.
  intros HI W R ST T L. unfold trea_init. apply wp_bind. eapply wp_mono; [apply (random_solution_wp o n bit s T L)| |].
  - cbn beta. intros _ s1 (H1 & H2 & H3 & H4). apply wp_bind. unfold tr_keep_rate. apply wp_modify. apply wp_modify. split; [assumption|].
    unfold trea_inv. cbn [put_mem put_last a_mem a_sol tr_pop tr_nh tr_rate]. rewrite H4. split; [|assumption]. split; [assumption|]. split; [apply reach_allow; assumption|].
    split; [|assumption]. destruct ST as (a & b & ST). exists a. unfold nh_set_allow_no_mutation. now rewrite ST.
  - cbn beta. intros e s1 (E1 & E2). auto.
Qed.

Lemma trea_run o n lambda allow init small d sh srt u bit num fuel (s : alg trea) :
  8 <= n -> fair_mutations n d -> (forall t, shuffles (sh t)) -> sorts srt -> (tr_min n <= init <= 1 # 4)%Q ->
  well_formed lambda n (tr_pop (a_mem s)) -> nh_reachable n (tr_nh (a_mem s)) Settled -> standard (tr_nh (a_mem s)) ->
  a_trace s = [] -> length (fst (a_sol s)) = n ->
  let '(r, s') := loop (trea_init o init allow bit) (trea_iterate o n small d sh srt u) num fuel s in
  run_top o lambda r s' /\ (a_trace s' = [] \/ (tr_min n <= tr_rate (a_mem s') <= 1 # 4)%Q).
Proof.
  intros N8 DR SH SR HI W R ST T L. assert (LB : 0 < lambda) by apply W.
  pose proof (run_generic o lambda (fun s => trea_inv n lambda allow s /\ (tr_min n <= tr_rate (a_mem s) <= 1 # 4)%Q) (fun s => (tr_min n <= tr_rate (a_mem s) <= 1 # 4)%Q)
    (trea_init o init allow bit) (trea_iterate o n small d sh srt u) num fuel s LB) as G.
  destruct (loop _ _ _ _ _) as [r s']. match type of G with _ -> _ -> _ -> ?D => enough D as (R1 & R2 & _) by (split; assumption); apply G end.
  - now apply trea_init_wp.
  - intros s1 (_ & H). exact H.
  - intros i s1 (J1 & J2) TO LA. eapply wp_mono; [apply (trea_iterate_wp o n lambda allow small d sh srt u DR SH SR i s1 J1 TO (or_introl N8))| |].
    + cbn beta. intros _ s2 (H1 & H2 & (Lx & best & _ & _ & _ & _ & _ & H3)). split; [assumption|]. split; [assumption|]. exact (two_rate_bounds n _ _ _ _ _ N8 J2 H3).
    + cbn beta. intros e s2 ((post & E1 & E2) & E3 & E4 & E5). split; [|split; [now rewrite E4|assumption]]. exists (a_trace s1), post. rewrite E3. auto.
Qed.

(** Partial correctness *)
Definition if_returns {St A} (m : act St A) (Q : A -> St -> Prop) (s : St) : Prop := match m s with (Ret a, s') => Q a s' | _ => True end.
Lemma ir_bind {St A B} (m : act St A) (k : A -> act St B) Q s : if_returns m (fun a s' => if_returns (k a) Q s') s -> if_returns (abind m k) Q s.
Proof. unfold if_returns, abind. destruct (m s) as [[a|e| |] s']; auto. Qed.
Lemma ir_any {St A B} (m : act St A) (k : A -> act St B) Q s : (forall a s', if_returns (k a) Q s') -> if_returns (abind m k) Q s.
Proof. intros H. apply ir_bind. unfold if_returns at 1. destruct (m s) as [[a|e| |] s']; auto. Qed.

Lemma trea_few_bits o n small d sh srt u t s : 0 < n < 8 -> (1 # 2 <= u t)%Q -> if_returns (trea_iterate o n small d sh srt u t) (fun _ _ => False) s.
Proof.
  intros N U. unfold trea_iterate. apply ir_bind. unfold if_returns at 1, aget. do 7 (apply ir_any; intros ? ?).
  assert (qltb (u t) (1 # 4) = false) as -> by (apply qltb_ge; lra). assert (qltb (u t) (1 # 2) = false) as -> by (apply qltb_ge; lra).
  do 2 (apply ir_any; intros ? ?). apply ir_bind. unfold if_returns at 1, lift, clamp.
  assert (qltb tr_max (tr_min n) = true) as ->; [|exact I]. apply qltb_lt. unfold tr_min, tr_max. apply Qlt_shift_div_l.
  - change 0%Q with (inject_Z 0). rewrite <- Zlt_Qlt. lia.
  - assert (inject_Z (Z.of_nat n) < inject_Z 8)%Q. { rewrite <- Zlt_Qlt. lia. } change (inject_Z 8) with 8%Q in *. lra.
Qed.
