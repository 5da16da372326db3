(** Proofs about the (1+(lambda,lambda)) GA. *)

From Coq Require Import QArith Permutation.
From Verif Require Import Base BaseLemmas BitVector_Model BitVector_Spec GF2 BitVector_Proofs Iterator_Proofs Representation_Spec Map_Spec
  Neighborhood_Model Neighborhood_Spec Neighborhood_Proofs Algorithm_Model Algorithm_Spec Algorithm_Proofs
  Population_Model Population_Spec Population_Proofs PopAlgorithm_Model PopAlgorithm_Spec PopAlgorithm_Proofs
  ProbabilityVector_Model ProbabilityVector_Proofs EvolutionaryAlgorithm_Model EvolutionaryAlgorithm_Spec EvolutionaryAlgorithm_Proofs.
Local Open Scope nat_scope.

(** * Calls that may end badly *)

Definition oc {St A} (m : act St A) (Q : A -> St -> Prop) (E : option exn -> St -> Prop) (B : St -> Prop) (s : St) : Prop :=
  match m s with
  | (Ret a, s') => Q a s'
  | (Exc e, s') => E (Some e) s'
  | (Pending, s') => E None s'
  | (Bad, s') => B s'
  end.

Lemma oc_bind {St A C} (m : act St A) (k : A -> act St C) Q E B s : oc m (fun a s' => oc (k a) Q E B s') E B s -> oc (abind m k) Q E B s.
Proof. unfold oc, abind. destruct (m s) as [[a|e| |] s']; auto. Qed.

Lemma oc_wp {St A} (m : act St A) Q E B s : wp m Q E s -> oc m Q E B s.
Proof. intros H. apply wp_result in H. unfold oc. destruct (m s) as [[a|e| |] s']; auto. contradiction. Qed.

Lemma oc_mono {St A} (m : act St A) (Q Q' : A -> St -> Prop) (E E' : option exn -> St -> Prop) (B B' : St -> Prop) s :
  oc m Q E B s -> (forall a s', Q a s' -> Q' a s') -> (forall e s', E e s' -> E' e s') -> (forall s', B s' -> B' s') -> oc m Q' E' B' s.
Proof. unfold oc. destruct (m s) as [[a|e| |] s']; auto. Qed.

Lemma oc_ub {St A} (m : outcome A) (Q : A -> St -> Prop) E (B : St -> Prop) s : m = UB -> B s -> oc (lift m) Q E B s.
Proof. intros -> H. exact H. Qed.

Lemma loop_from_oc {X} (iterate : nat -> act (alg X) unit) (I : nat -> alg X -> Prop) (E : option exn -> alg X -> Prop) (B : alg X -> Prop) num fuel :
  (forall i s, I i s -> a_last s = false -> oc (iterate i) (fun _ s' => I (i + 1) s') E B s) ->
  (forall i s, I i s -> E None s) ->
  forall i s, I i s -> oc (loop_from iterate num i fuel) (fun _ s' => exists k, I k s') E B s.
Proof.
  intros HI HE. induction fuel as [|fuel IH]; intros i s H; cbn [loop_from].
  - unfold oc. eauto.
  - unfold oc. destruct ((0 <? num)%Z && (num <=? Z.of_nat i)%Z); [eauto|]. destruct (a_last s) eqn:LA; [eauto|].
    change (oc (_ <~ iterate i ;; loop_from iterate num (i + 1) fuel) (fun _ s' => exists k, I k s') E B s).
    apply oc_bind. eapply oc_mono; [apply HI; eassumption| | |]; auto.
Qed.

(** * Choice among the best *)

Lemma count_best_cases size n p v : well_formed size n p ->
  let val j := nth (nth j (p_perm p) 0) (p_values p) 0%Z in
  forall fuel k, k <= size -> size - k < fuel -> (forall j, j < k -> val j = v) ->
  (exists m, count_best p v fuel k = Ok m /\ m < size /\ (forall j, j < m -> val j = v) /\ val m <> v) \/
  (count_best p v fuel k = UB /\ forall j, j < size -> val j = v).
Proof.
  intros W val. induction fuel as [|fuel IH]; intros k Hk Hf HV; [lia|]. cbn [count_best].
  destruct (Nat.eq_dec k size) as [->|NE].
  - right. split; [|assumption]. unfold best_value, best_index. pose proof (perm_seq_length _ _ (wf_perm W)) as ->. rewrite Nat.ltb_irrefl. reflexivity.
  - rewrite (best_value_Ok W) by lia. cbn [bind]. fold (val k). unfold pop_size. assert (length (p_bvs p) = size) as -> by apply W.
    rewrite (proj2 (Nat.ltb_lt k size)) by lia. destruct (Z.eqb_spec (val k) v) as [EQ|NQ]; cbn [andb].
    + apply IH; [lia|lia|]. intros j Hj. destruct (Nat.eq_dec j k) as [->|]; [assumption|]. apply HV. lia.
    + left. exists k. split; [reflexivity|]. split; [lia|]. auto.
Qed.

Lemma choose_best_cases o sh srt size n pick p b : shuffles sh -> sorts srt -> well_formed size n p -> evaluated o p ->
  (forall lo hi, lo <= hi -> lo <= pick lo hi <= hi) ->
  In b (p_bvs p) -> (forall y, In y (p_bvs p) -> (o_value o y <= o_value o b)%Z) ->
  let p' := pop_sort sh srt p in
  (exists x, choose_best pick (o_value o b) p' = Ok x /\ In x (p_bvs p) /\ length x = n /\ o_value o x = o_value o b /\
     exists z, In z (p_bvs p) /\ (o_value o z < o_value o b)%Z) \/
  (choose_best pick (o_value o b) p' = UB /\ forall y z, In y (p_bvs p) -> In z (p_bvs p) -> o_value o y = o_value o z).
Proof.
  intros HS HR W EV PK IB MX p'. pose proof (sort_wf _ _ _ _ _ HS HR W) as W'. fold p' in W'.
  pose proof W as (W1 & W2 & W3 & W4 & W5 & W6).
  assert (P : forall j, j < size -> nth j (p_perm p') 0 < size). { intros j Hj. apply perm_seq_nth; [apply W'|assumption]. }
  assert (V : forall j, j < size -> nth (nth j (p_perm p') 0) (p_values p') 0%Z = o_value o (nth (nth j (p_perm p') 0) (p_bvs p) [])).
  { intros j Hj. change (p_values p') with (p_values p). rewrite EV. rewrite (nth_indep _ 0%Z (o_value o [])) by (rewrite map_length, W3; auto). apply map_nth. }
  assert (ALL : forall y, In y (p_bvs p) -> exists j, j < size /\ y = nth (nth j (p_perm p') 0) (p_bvs p) []).
  { intros y Hy. apply (In_nth _ _ []) in Hy as (i & Hi & <-). rewrite W3 in Hi. assert (In i (p_perm p')) as J. { apply (Permutation_in _ (wf_perm W')), in_seq. lia. }
    apply (In_nth _ _ 0) in J as (j & Hj & <-). rewrite (perm_seq_length _ _ (wf_perm W')) in Hj. eauto. }
  assert (V0 : nth (nth 0 (p_perm p') 0) (p_values p') 0%Z = o_value o b).
  { destruct (ALL b IB) as (j & Hj & Ej). rewrite V by lia. apply Z.le_antisymm; [apply MX, nth_In; rewrite W3; auto|].
    destruct j as [|j]; [rewrite <- Ej; lia|]. rewrite Ej, <- (V (S j)), <- (V 0) by lia. exact (sort_values sh srt size n p 0 (S j) HS HR W ltac:(lia)). }
  unfold choose_best. destruct (count_best_cases size n p' (o_value o b) W' (pop_size p' + 2) 0) as [(m & E & M1 & M2 & M3)|(E & M)]; [lia| | | |].
  - unfold pop_size. change (p_bvs p') with (p_bvs p). lia.
  - lia.
  - left. rewrite E. cbn [bind]. assert (M0 : 0 < m). { destruct m; [congruence|lia]. } rewrite (proj2 (Nat.ltb_lt 0 m) M0). cbn [assertb bind].
    specialize (PK 0 (m - 1) ltac:(lia)). rewrite (best_bv_Ok W') by lia. change (p_bvs p') with (p_bvs p).
    eexists. split; [reflexivity|]. split; [apply nth_In; rewrite W3; apply P; lia|]. split; [apply (Forall_nth_len W4); rewrite ?W3; apply P; lia|].
    split; [rewrite <- V by lia; apply M2; lia|]. exists (nth (nth m (p_perm p') 0) (p_bvs p) []). assert (I : In (nth (nth m (p_perm p') 0) (p_bvs p) []) (p_bvs p)) by (apply nth_In; rewrite W3; apply P; lia).
    split; [exact I|]. specialize (MX _ I). rewrite (V m) in M3 by lia. lia.
  - right. rewrite E. split; [reflexivity|]. intros y z Hy Hz. destruct (ALL y Hy) as (j & Hj & ->), (ALL z Hz) as (k & Hk & ->). rewrite <- !V by assumption. rewrite !M by assumption. reflexivity.
Qed.

Lemma ll_put_get (m : llga) : ll_put (ll_offs m) m = m.
Proof. now destruct m. Qed.

Section LambdaLambda.
  Variable o : objective.
  Variables n lambda : nat.
  Variable radius : nat -> nat.
  Variable d : nat -> nat -> draws.
  Variable coin : nat -> nat -> nat -> bool.
  Variables sh1 sh2 : nat -> list nat -> list nat.
  Variable srt : (nat -> nat -> bool) -> list nat -> list nat.
  Variables pick1 pick2 : nat -> nat -> nat -> nat.
  Hypothesis RD : forall t, radius t <= n.
  Hypothesis DR : fair_mutations n d.
  Hypothesis SH1 : forall t, shuffles (sh1 t).
  Hypothesis SH2 : forall t, shuffles (sh2 t).
  Hypothesis SR : sorts srt.
  Hypothesis PK1 : fair_picks pick1.
  Hypothesis PK2 : fair_picks pick2.

  Definition ll_stage (s0 : alg llga) r (P : list bool -> Prop) (k : nat) (s : alg llga) : Prop :=
    exists bs h, s = mk_alg (a_trace s0) (a_sol s0) (a_last s0)
        (mk_llga (mk_pop bs (p_values (ll_offs (a_mem s0))) (p_perm (ll_offs (a_mem s0)))) h (ll_parent (a_mem s0))) /\
      length bs = lambda /\ Forall (fun x => length x = n) bs /\ nh_reachable n h Settled /\ nh_class h = HammingSphere r /\
      forall j, j < k -> P (nth j bs []).

  Definition ll_left (s0 : alg llga) (e : option exn) (s : alg llga) : Prop :=
    e = None /\ a_trace s = a_trace s0 /\ a_sol s = a_sol s0.

  Lemma ll_mutate_wp s0 r k dr s : k < lambda -> length (fst (a_sol s0)) = n -> in_bounds (HammingSphere r) n dr ->
    ll_stage s0 r (mutant (HammingSphere r) n (fst (a_sol s0))) k s ->
    wp (ll_mutate k dr) (fun _ s' => ll_stage s0 r (mutant (HammingSphere r) n (fst (a_sol s0))) (k + 1) s') (ll_left s0) s.
  Proof.
    intros K LS B (bs & h & -> & L1 & L2 & L3 & L4 & L5). unfold ll_mutate. apply wp_bind, wp_get. apply wp_bind, wp_get. cbn [a_mem a_sol ll_offs ll_mut p_bvs].
    apply wp_bind. eapply wp_lift; [apply (vget_nth bs k []); lia|].
    destruct (reachable_inv n h _ L3) as [OK _]. assert (B' : in_bounds (nh_class h) n dr) by (rewrite L4; exact B).
    rewrite map_is_mutate. 2:{ destruct OK as (_ & -> & _). apply (Forall_nth_len L2). lia. }
    destruct (nh_mutate h (fst (a_sol s0)) dr) as [x|] eqn:EM.
    2:{ cbn. repeat split; reflexivity. }
    destruct (mutate_exact n h _ dr x OK LS B' EM) as (l & E1 & A1 & A2 & ->). destruct (index_set_flip n _ l LS A1) as (_ & F2 & _ & F4).
    apply wp_bind. eapply wp_lift; [reflexivity|]. cbn [fst snd]. apply wp_bind. eapply wp_on_mem.
    { cbn [a_mem ll_offs p_bvs p_values p_perm]. rewrite (vset_Ok bs k) by lia. reflexivity. }
    apply wp_modify. eexists (upd bs k (flips (fst (a_sol s0)) l)), _. split; [reflexivity|]. split; [now rewrite length_upd|]. split; [apply Forall_upd; assumption|].
    split; [exact (reach_mutate n h _ dr _ _ L3 B' EM)|]. split; [exact L4|].
    intros j Hj. destruct (Nat.eq_dec j k) as [->|NE].
    - rewrite nth_upd_eq by lia. split; [assumption|]. rewrite F2, <- L4. exact A2.
    - rewrite nth_upd_neq by assumption. apply L5. lia.
  Qed.

  Definition ll_cross (c : nat -> bool) (k : nat) : act (alg llga) unit :=
    x <~ aget (fun s => fst (a_sol s)) ;;
    m <~ aget a_mem ;;
    z <~ lift (vget (p_bvs (ll_offs m)) k) ;;
    z <~ lift (biased_crossover c x (ll_parent m) z) ;;
    ll_set_offspring k z.

  Lemma ll_cross_wp s0 r k c s : k < lambda -> length (fst (a_sol s0)) = n -> length (ll_parent (a_mem s0)) = n ->
    ll_stage s0 r (mixes n (fst (a_sol s0)) (ll_parent (a_mem s0))) k s ->
    wp (ll_cross c k) (fun _ s' => ll_stage s0 r (mixes n (fst (a_sol s0)) (ll_parent (a_mem s0))) (k + 1) s') (ll_left s0) s.
  Proof.
    intros K LS LP (bs & h & -> & L1 & L2 & L3 & L4 & L5). unfold ll_cross. apply wp_bind, wp_get. apply wp_bind, wp_get. cbn [a_mem a_sol ll_offs ll_mut ll_parent p_bvs].
    apply wp_bind. eapply wp_lift; [apply (vget_nth bs k []); lia|].
    destruct (biased_Ok c (fst (a_sol s0)) (ll_parent (a_mem s0)) (nth k bs []) n LS LP) as (z & E & LZ & HZ). { apply (Forall_nth_len L2). lia. }
    apply wp_bind. eapply wp_lift; [exact E|]. eapply wp_on_mem.
    { cbn [a_mem ll_offs p_bvs p_values p_perm]. rewrite (vset_Ok bs k) by lia. reflexivity. }
    exists (upd bs k z), h. split; [reflexivity|]. split; [now rewrite length_upd|]. split; [apply Forall_upd; assumption|]. split; [assumption|]. split; [assumption|].
    intros j Hj. destruct (Nat.eq_dec j k) as [->|NE].
    - rewrite nth_upd_eq by lia. split; [assumption|]. intros i Hi. rewrite HZ by assumption. destruct (c i); auto.
    - rewrite nth_upd_neq by assumption. apply L5. lia.
  Qed.

  Definition ll_inv (s : alg llga) : Prop :=
    well_formed lambda n (ll_offs (a_mem s)) /\ nh_reachable n (ll_mut (a_mem s)) Settled /\
    (exists r, nh_class (ll_mut (a_mem s)) = HammingSphere r) /\ length (fst (a_sol s)) = n.

  Definition same_values (L : list (list bool)) : Prop := forall y z, In y L -> In z L -> o_value o y = o_value o z.

  Lemma llga_iterate_oc t (s : alg llga) : ll_inv s ->
    oc (llga_iterate o radius d coin sh1 sh2 srt pick1 pick2 t)
      (fun _ s' => ll_inv s' /\ llga_step o n lambda (radius t) s s')
      (fun e s' => (exists post, a_trace s' = a_trace s ++ post /\ length post < 2 * lambda) /\ a_sol s' = a_sol s /\
         match e with Some e => o_stop o (length (a_trace s')) = Some e | None => True end)
      (fun s' => a_sol s' = a_sol s /\ (exists post, a_trace s' = a_trace s ++ post) /\ all_equal o lambda (a_trace s')) s.
  Proof.
    intros (W & R & (r0 & HR) & LS). assert (L0 : 0 < lambda) by apply W. unfold llga_iterate.
    apply oc_bind, oc_wp, wp_modify. apply oc_bind, oc_wp, wp_get. cbn [put_mem a_mem ll_offs ll_mut ll_parent]. cbv zeta.
    unfold pop_size. pose proof W as (W1 & W2 & W3 & W4 & W5 & W6). rewrite W3.
    set (s0 := mk_alg (a_trace s) (a_sol s) (a_last s) (mk_llga (ll_offs (a_mem s)) (nh_set_radius (ll_mut (a_mem s)) (radius t)) (ll_parent (a_mem s)))).
    set (P := mutant (HammingSphere (radius t)) n (fst (a_sol s))).
    assert (S0 : ll_stage s0 (radius t) P 0 s0).
    { exists (p_bvs (ll_offs (a_mem s))), (nh_set_radius (ll_mut (a_mem s)) (radius t)). split; [unfold s0; cbn [a_mem ll_offs ll_parent a_trace a_sol a_last]; now destruct (ll_offs (a_mem s))|].
      split; [assumption|]. split; [assumption|]. split; [apply reach_radius; auto|]. split; [unfold nh_set_radius; now rewrite HR|lia]. }
    apply oc_bind, oc_wp. eapply wp_mono; [apply (wp_afor (fun k => ll_mutate k (d t k)) (ll_stage s0 (radius t) P) (ll_left s0) lambda 0 _ S0)| |].
    { intros i s1 Hi H. apply ll_mutate_wp; auto; [lia|]. exact (DR t i). }
    2:{ intros e s1 (-> & E1 & E2). split; [exists []; rewrite app_nil_r; split; [exact E1|cbn; lia]|]. split; [exact E2|exact I]. }
    cbn beta. cbn [Nat.add]. intros _ s1 (bs & h & -> & L1 & L2 & L3 & L4 & L5). unfold s0. clear S0 s0. cbn [a_trace a_sol a_last a_mem ll_offs ll_parent].
    set (s1 := mk_alg (a_trace s) (a_sol s) (a_last s) (mk_llga (mk_pop bs (p_values (ll_offs (a_mem s))) (p_perm (ll_offs (a_mem s)))) h (ll_parent (a_mem s)))).
    assert (WB : well_formed lambda n (mk_pop bs (p_values (ll_offs (a_mem s))) (p_perm (ll_offs (a_mem s))))). { unfold well_formed. cbn [p_bvs p_values p_perm]. auto 10. }
    apply oc_bind, oc_wp. eapply wp_mono; [apply (eval_pop_wp ll_offs ll_put ltac:(reflexivity) ltac:(reflexivity) ll_put_get o lambda n); exact WB| |].
    2:{ unfold s1. cbn beta. cbn [a_mem ll_offs p_bvs p_perm a_trace a_sol a_last]. intros e s2 (k & vs & e' & K & LV & -> & E & ->). cbn [a_trace a_sol]. split.
        - exists (firstn k bs). split; [reflexivity|]. rewrite firstn_length. lia.
        - split; [reflexivity|]. rewrite app_length, firstn_length_le by lia. exact E. }
    unfold s1. clear s1. cbn beta. cbn [a_mem ll_offs p_bvs p_perm a_trace a_sol a_last]. intros _ s2 ->. unfold ll_put at 1. cbn [ll_mut ll_parent].
    set (p0 := mk_pop bs (map (o_value o) bs) (p_perm (ll_offs (a_mem s)))).
    assert (W0 : well_formed lambda n p0). { unfold well_formed, p0. cbn [p_bvs p_values p_perm]. rewrite map_length. auto 10. }
    assert (EV : evaluated o p0) by reflexivity.
    destruct (sorted_best o (sh1 t) srt lambda n p0 (SH1 t) SR W0 EV) as (b & B1 & B2 & B3 & BL & B4).
    pose proof (sort_wf (sh1 t) srt lambda n p0 (SH1 t) SR W0) as WS.
    apply oc_bind, oc_wp. unfold sort_pop at 1, on_pop at 1. eapply wp_on_mem; [reflexivity|]. cbn [put_mem a_mem a_trace a_sol a_last ll_offs ll_put ll_mut ll_parent].
    apply oc_bind, oc_wp, wp_get. cbn [a_mem ll_offs]. apply oc_bind, oc_wp. eapply wp_lift; [exact B2|].
    apply oc_bind. destruct (choose_best_cases o (sh1 t) srt lambda n (pick1 t) p0 b (SH1 t) SR W0 EV (PK1 t) B3 B4) as [(x & EC & X1 & X2 & X3 & y & Y1 & Y2)|(EC & SV)].
    2:{ eapply oc_ub; [exact EC|]. cbn [put_mem a_sol a_trace]. split; [reflexivity|]. split; [eauto|]. exists (a_trace s), bs. auto. }
    apply oc_wp. eapply wp_lift; [exact EC|]. apply oc_bind, oc_wp, wp_modify. cbn [put_mem a_mem a_trace a_sol a_last ll_offs ll_mut ll_parent].
    set (s2 := mk_alg (a_trace s ++ bs) (a_sol s) (a_last s) (mk_llga (pop_sort (sh1 t) srt p0) h x)).
    assert (S2 : ll_stage s2 (radius t) (mixes n (fst (a_sol s2)) (ll_parent (a_mem s2))) 0 s2).
    { exists bs, h. split; [reflexivity|]. split; [assumption|]. split; [assumption|]. split; [assumption|]. split; [assumption|lia]. }
    apply oc_bind, oc_wp. eapply wp_mono; [apply (wp_afor (fun k => ll_cross (coin t k) k) (ll_stage s2 (radius t) (mixes n (fst (a_sol s2)) (ll_parent (a_mem s2)))) (ll_left s2) lambda 0 _ S2)| |].
    { intros i s3 Hi H. apply ll_cross_wp; auto. lia. }
    2:{ intros e s3 (-> & E1 & E2). split; [exists bs; split; [exact E1|lia]|]. split; [exact E2|exact I]. }
    cbn beta. cbn [Nat.add]. intros _ s3 (cs & h' & -> & C1 & C2 & C3 & C4 & C5). unfold s2 in *. clear S2 s2. cbn [a_trace a_sol a_last a_mem ll_offs ll_parent] in *.
    change (p_values (pop_sort (sh1 t) srt p0)) with (p_values p0). set (pm := p_perm (pop_sort (sh1 t) srt p0)) in *.
    assert (WC : well_formed lambda n (mk_pop cs (p_values p0) pm)).
    { destruct WS as (_ & _ & _ & _ & _ & P2). destruct W0 as (_ & _ & _ & _ & W05 & _). unfold well_formed. cbn [p_bvs p_values p_perm]. auto 10. }
    apply oc_bind, oc_wp. eapply wp_mono; [apply (eval_pop_wp ll_offs ll_put ltac:(reflexivity) ltac:(reflexivity) ll_put_get o lambda n); exact WC| |].
    2:{ cbn beta. cbn [a_mem ll_offs p_bvs p_perm a_trace a_sol a_last]. intros e s3 (k & vs & e' & K & LV & -> & E & ->). cbn [a_trace a_sol]. split.
        - exists (bs ++ firstn k cs). split; [now rewrite app_assoc|]. rewrite app_length, firstn_length. lia.
        - split; [reflexivity|]. rewrite app_length, firstn_length_le by lia. exact E. }
    cbn beta. cbn [a_mem ll_offs p_bvs p_perm a_trace a_sol a_last]. intros _ s3 ->. unfold ll_put at 1. cbn [ll_mut ll_parent].
    set (p1 := mk_pop cs (map (o_value o) cs) pm).
    assert (W1' : well_formed lambda n p1). { destruct WC as (_ & _ & _ & _ & _ & P2). unfold well_formed, p1. cbn [p_bvs p_values p_perm] in *. rewrite map_length. auto 10. }
    assert (EV1 : evaluated o p1) by reflexivity.
    destruct (sorted_best o (sh2 t) srt lambda n p1 (SH2 t) SR W1' EV1) as (c & D1 & D2 & D3 & DL & D4).
    pose proof (sort_wf (sh2 t) srt lambda n p1 (SH2 t) SR W1') as WS1.
    apply oc_bind, oc_wp. unfold sort_pop, on_pop. eapply wp_on_mem; [reflexivity|]. cbn [put_mem a_mem a_trace a_sol a_last ll_offs ll_put ll_mut ll_parent].
    apply oc_bind, oc_wp, wp_get. cbn [a_mem ll_offs]. apply oc_bind, oc_wp. eapply wp_lift; [exact D2|]. apply oc_bind, oc_wp, wp_get. cbn [put_mem a_sol a_mem ll_offs ll_put ll_mut ll_parent a_trace a_last].
    assert (STEP : forall c', In c' cs -> o_value o c' = o_value o c -> forall s', a_trace s' = (a_trace s ++ bs) ++ cs ->
       (if (snd (a_sol s) <=? o_value o c')%Z then a_sol s' = (c', o_value o c') /\ (exists y, In y cs /\ (o_value o y < o_value o c')%Z) else a_sol s' = a_sol s) ->
       llga_step o n lambda (radius t) s s').
    { intros c' Q1 Q2 s' Q3 Q4. exists bs, x, cs. split; [assumption|]. split.
      { intros z Hz. apply (In_nth _ _ []) in Hz as (j & Hj & <-). rewrite L1 in Hj. exact (L5 j Hj). }
      split; [exact X1|]. split; [intros z Hz; rewrite X3; now apply B4|]. split; [exists y; rewrite X3; auto|]. split; [assumption|]. split.
      { intros z Hz. apply (In_nth _ _ []) in Hz as (j & Hj & <-). rewrite C1 in Hj. exact (C5 j Hj). }
      split; [now rewrite app_assoc|]. exists c'. split; [assumption|]. split; [|assumption]. intros z Hz. rewrite Q2. now apply D4. }
    destruct (snd (a_sol s) <=? o_value o c)%Z eqn:CMP.
    - apply oc_bind. destruct (choose_best_cases o (sh2 t) srt lambda n (pick2 t) p1 c (SH2 t) SR W1' EV1 (PK2 t) D3 D4) as [(x' & EC' & X1' & X2' & X3' & y' & Y1' & Y2')|(EC' & SV)].
      2:{ eapply oc_ub; [exact EC'|]. cbn [put_mem a_sol a_trace]. split; [reflexivity|]. split; [exists (bs ++ cs); now rewrite app_assoc|]. exists (a_trace s ++ bs), cs. auto. }
      apply oc_wp. eapply wp_lift; [exact EC'|]. apply oc_wp, wp_modify. split.
      + split; [exact WS1|]. split; [exact C3|]. split; [eauto|exact X2'].
      + apply (STEP x' X1' X3'); [reflexivity|]. rewrite X3', CMP. cbn [put_sol a_sol]. split; [reflexivity|]. eauto.
    - apply oc_wp, wp_ret. split.
      + split; [exact WS1|]. split; [exact C3|]. split; [eauto|exact LS].
      + apply (STEP c D3 eq_refl); [reflexivity|]. rewrite CMP. reflexivity.
  Qed.
End LambdaLambda.

(** What a run maintains: the solution was evaluated, with its value, and is not worse
    than the first vector evaluated. *)
Definition ll_kept (o : objective) (s : alg llga) : Prop :=
  In (fst (a_sol s)) (a_trace s) /\ snd (a_sol s) = o_value o (fst (a_sol s)) /\ (o_value o (hd [] (a_trace s)) <= snd (a_sol s))%Z.

Lemma hd_app {A} (x : A) l l' y : In y l -> hd x (l ++ l') = hd x l.
Proof. destruct l; [contradiction|reflexivity]. Qed.

Lemma kept_more o (s s' : alg llga) post : ll_kept o s -> a_trace s' = a_trace s ++ post -> a_sol s' = a_sol s -> ll_kept o s'.
Proof.
  intros (H1 & H2 & H3) E1 E2. unfold ll_kept. rewrite E1, E2, (hd_app [] _ _ _ H1). split; [apply in_or_app; auto|]. auto.
Qed.

Lemma kept_step o n lambda r s s' : ll_kept o s -> llga_step o n lambda r s s' -> ll_kept o s'.
Proof.
  intros (H1 & H2 & H3) (M & p & C & _ & _ & _ & _ & _ & _ & _ & T & c & C1 & _ & H). unfold ll_kept. rewrite T, (hd_app [] _ _ _ H1).
  destruct (snd (a_sol s) <=? o_value o c)%Z eqn:CMP.
  - destruct H as (-> & _). apply Z.leb_le in CMP. cbn [fst snd]. split; [rewrite !in_app_iff; auto|]. split; [reflexivity|lia].
  - rewrite H. split; [rewrite !in_app_iff; auto|]. auto.
Qed.

Lemma llga_run o n lambda radius d coin sh1 sh2 srt pick1 pick2 bias bit num fuel (s : alg llga) :
  (forall t, radius t <= n) -> fair_mutations n d -> (forall t, shuffles (sh1 t)) -> (forall t, shuffles (sh2 t)) -> sorts srt -> fair_picks pick1 -> fair_picks pick2 ->
  (0 < bias < 1)%Q -> well_formed lambda n (ll_offs (a_mem s)) -> nh_reachable n (ll_mut (a_mem s)) Settled ->
  (exists r, nh_class (ll_mut (a_mem s)) = HammingSphere r) -> a_trace s = [] -> length (fst (a_sol s)) = n ->
  let '(r, s') := loop (llga_init o bias bit) (llga_iterate o radius d coin sh1 sh2 srt pick1 pick2) num fuel s in
  (a_trace s' = [] \/ ll_kept o s') /\
  match r with
  | Ret _ => a_trace s' <> []
  | Exc e => o_stop o (length (a_trace s')) = Some e
  | Bad => all_equal o lambda (a_trace s')
  | Pending => True
  end.
Proof.
  intros RD DR H1 H2 SR P1 P2 BI W R HR T L.
  assert (G : oc (loop (llga_init o bias bit) (llga_iterate o radius d coin sh1 sh2 srt pick1 pick2) num fuel)
    (fun _ s' => ll_kept o s') (fun e s' => (a_trace s' = [] \/ ll_kept o s') /\ match e with Some e => o_stop o (length (a_trace s')) = Some e | None => True end)
    (fun s' => ll_kept o s' /\ all_equal o lambda (a_trace s')) s).
  { unfold loop. apply oc_bind. unfold llga_init. apply oc_bind, oc_wp. eapply wp_lift.
    { unfold set_bias. assert (qltb 0 bias = true) as -> by (apply qltb_lt; tauto). assert (qltb bias 1 = true) as -> by (apply qltb_lt; tauto). reflexivity. }
    apply oc_wp. eapply wp_mono; [apply (random_solution_wp o n bit s T L)| |].
    2:{ cbn beta. intros e s1 ((e' & -> & E1) & E2). split; [left|exact E1]. exact E2. }
    cbn beta. intros _ s1 (A1 & A2 & A3 & A4). apply oc_bind, oc_wp, wp_modify.
    assert (K1 : ll_kept o s1).
    { destruct A1 as (Q1 & Q2 & Q3). split; [assumption|]. split; [assumption|]. apply Q3. destruct (a_trace s1); [contradiction|left; reflexivity]. }
    eapply oc_mono; [apply (loop_from_oc (llga_iterate o radius d coin sh1 sh2 srt pick1 pick2) (fun _ s => ll_inv n lambda s /\ ll_kept o s)
      (fun e s' => (a_trace s' = [] \/ ll_kept o s') /\ match e with Some e => o_stop o (length (a_trace s')) = Some e | None => True end)
      (fun s' => ll_kept o s' /\ all_equal o lambda (a_trace s')))| | |].
    - intros i s2 (J1 & J2) _. eapply oc_mono; [apply (llga_iterate_oc o n lambda radius d coin sh1 sh2 srt pick1 pick2 RD DR H1 H2 SR P1 P2 i s2 J1)| | |]; cbn beta.
      + intros _ s3 (K & ST). split; [assumption|]. exact (kept_step _ _ _ _ _ _ J2 ST).
      + intros e s3 ((post & E1 & _) & E2 & E3). split; [right|assumption]. exact (kept_more _ _ _ _ J2 E1 E2).
      + intros s3 (E1 & (post & E2) & E3). split; [|assumption]. exact (kept_more _ _ _ _ J2 E2 E1).
    - intros i s2 (J1 & J2). auto.
    - cbn beta. split; [|exact K1]. split; [cbn [put_last a_mem]; now rewrite A4|]. cbn [put_last a_mem a_sol]. rewrite A4. auto.
    - cbn beta. intros _ s2 (k & _ & H). exact H.
    - auto.
    - auto. }
  unfold oc in G. destruct (loop _ _ _ _ _) as [[u|e| |] s']; [|tauto|tauto|tauto].
  split; [tauto|]. destruct G as (G & _). intros E. rewrite E in G. contradiction.
Qed.
