(** The programs which run the (1+(lambda,lambda)) GA. *)

From Coq Require Import ZArith QArith Lia.
From Verif Require Import Base BaseLemmas BitVector_Model BitVector_Spec BitVector_Proofs Map_Model Map_Spec Representation_Spec Neighborhood_Model Neighborhood_Spec
  Population_Model Population_Spec Double Controller_Model Controller_Spec Decorator_Model Decorator_Spec ControllerStack_Spec Application_Model Application_Spec Search_Model Search_Spec
  Algorithm_Model Algorithm_Spec Algorithm_Proofs PopAlgorithm_Model PopAlgorithm_Spec EvolutionaryAlgorithm_Model EvolutionaryAlgorithm_Spec LambdaLambda_Proofs
  PopAlgorithm_Proofs ProbabilityVector_Model ProbabilityVector_Proofs Properties_EvolutionaryAlgorithm AlgorithmMachine_Model AlgorithmMachine_Spec AlgorithmMachine_Proofs AlgorithmRuns_Proofs AlgorithmPrograms_Proofs
  PopulationMachine_Model PopulationRuns_Proofs PopulationCosts_Proofs PopulationPrograms_Proofs LambdaMachine_Spec.
Local Open Scope nat_scope.

(** * It only knows its function by its calls *)

Lemma own_biased_crossover c x y z : own_outcome (biased_crossover c x y z).
Proof. unfold biased_crossover. own_more. Qed.
Lemma own_count_best p v fuel : forall n, own_outcome (count_best p v fuel n).
Proof.
  induction fuel as [|fuel IH]; intros n; cbn [count_best]; [own_more|]. apply own_bind; [apply own_best_value|]. intros w. destruct (_ && _); [apply IH|apply own_ok].
Qed.
Lemma own_choose_best pick v p : own_outcome (choose_best pick v p).
Proof.
  unfold choose_best. apply own_bind; [apply own_count_best|]. intros n. apply own_bind; [own_more|]. intros _. apply own_best_bv.
Qed.
Lemma silent_ll_set k x : silent (ll_set_offspring k x).
Proof. apply silent_on_mem. intros. own_more. Qed.
Lemma silent_ll_mutate k d : silent (ll_mutate k d).
Proof.
  unfold ll_mutate. apply silent_bind; [apply silent_get|]. intros x. apply silent_bind; [apply silent_get|]. intros m.
  apply silent_bind; [apply silent_lift, own_vget|]. intros z. destruct (nh_map (ll_mut m) x z d) as [r|] eqn:E; [|apply silent_pending].
  apply silent_bind; [exact (silent_lift r (own_map _ _ _ _ _ E))|]. intros []. apply silent_bind; [apply silent_ll_set|]. intros _. apply silent_modify. reflexivity.
Qed.
Definition ad_llga bias bit radius d coin sh1 sh2 srt pick1 pick2 num fuel :
  adaptive (fun o => loop (llga_init o bias bit) (llga_iterate o radius d coin sh1 sh2 srt pick1 pick2) num fuel).
Proof.
  apply (ad_loop (fun o => llga_init o bias bit) (fun o => llga_iterate o radius d coin sh1 sh2 srt pick1 pick2)).
  - unfold llga_init. apply ad_bind; [apply ad_silent, silent_lift; unfold set_bias; own_more|intros _]. apply ad_random.
  - intros i. unfold llga_iterate. apply ad_bind; [apply ad_silent, silent_modify; reflexivity|intros _]. apply ad_bind; [apply ad_silent, silent_get|intros m]. cbv zeta.
    apply ad_bind; [apply ad_silent, silent_afor; intros; apply silent_ll_mutate|intros _]. apply ad_bind; [apply ad_eval_pop|intros _].
    apply ad_bind; [apply ad_silent, silent_sort|intros _]. apply ad_bind; [apply ad_silent, silent_get|intros p].
    apply ad_bind; [apply ad_silent, silent_lift, own_best_value|intros v]. apply ad_bind; [apply ad_silent, silent_lift, own_choose_best|intros x].
    apply ad_bind; [apply ad_silent, silent_modify; reflexivity|intros _]. apply ad_bind.
    { apply ad_silent, silent_afor. intros k. apply silent_bind; [apply silent_get|]. intros y. apply silent_bind; [apply silent_get|]. intros m'.
      apply silent_bind; [apply silent_lift, own_vget|]. intros z. apply silent_bind; [apply silent_lift, own_biased_crossover|]. intros z'. apply silent_ll_set. }
    intros _. apply ad_bind; [apply ad_eval_pop|intros _]. apply ad_silent. apply silent_bind; [apply silent_sort|]. intros _. apply silent_bind; [apply silent_get|]. intros p'.
    apply silent_bind; [apply silent_lift, own_best_value|]. intros v'. apply silent_bind; [apply silent_get|]. intros cur. destruct (cur <=? v')%Z; [|apply silent_ret].
    apply silent_bind; [apply silent_lift, own_choose_best|]. intros y. apply silent_modify. reflexivity.
Defined.

(** * The number of its calls *)

Local Notation T := (fun _ => True).
Definition ll_sized n lambda (m : llga) : Prop := pop_sized n lambda (ll_offs m) /\ nh_sized n (ll_mut m) /\ length (ll_parent m) = n.
Lemma ll_sized_put n lambda m p : ll_sized n lambda m -> pop_sized n lambda p -> ll_sized n lambda (ll_put p m).
Proof. intros (H1 & H2 & H3) H. split; [exact H|]. split; assumption. Qed.
Lemma radius_sized n h r : nh_sized n h -> nh_sized n (nh_set_radius h r).
Proof. intros [S1 S2]. unfold nh_set_radius. destruct (nh_class h); split; assumption. Qed.
Lemma biased_sized n c x y z z' : length z = n -> biased_crossover c x y z = Ok z' -> length z' = n.
Proof.
  intros Lz. unfold biased_crossover. destruct (assertb _); try discriminate. cbn [bind]. destruct (assertb _); try discriminate. cbn [bind].
  apply (fold_sized (fun z => length z = n)); [|exact Lz]. intros s i s' Ls. destruct (c i); destruct (vget _ i); try discriminate; cbn [bind]; unfold vset;
    (destruct (i <? length s); [|discriminate]); intros E; apply Ok_inj in E as <-; now rewrite length_upd.
Qed.
Lemma choose_sized n lambda p pick v x : pop_sized n lambda p -> choose_best pick v p = Ok x -> length x = n.
Proof.
  intros S. unfold choose_best. destruct (count_best _ _ _ _); try discriminate. cbn [bind]. destruct (assertb _); try discriminate. cbn [bind]. now apply (sized_best n lambda).
Qed.
Section Costs.
  Context (n lambda : nat) (L : Prop).
  Local Notation costs m k P := (costs n L (ll_sized n lambda) m k P).
  Lemma costs_ll_set k x : length x = n -> costs (ll_set_offspring k x) 0 T.
  Proof.
    intros Lx. apply costs_on_mem. intros m a m' Rm. destruct (vset (p_bvs (ll_offs m)) k x) as [bs| |] eqn:E; try discriminate. cbn [bind]. intros E'. apply Ok_inj in E'. injection E' as _ <-.
    split; [|exact I]. apply ll_sized_put; [exact Rm|]. destruct Rm as ([O1 O2] & _). apply (sized_vset n) in E; auto. destruct E. split; cbn; congruence.
  Qed.
  Lemma costs_ll_mutate k d : (L -> plenty n d) -> costs (ll_mutate k d) 0 T.
  Proof.
    intros PL. unfold ll_mutate. apply costs_quiet with (P := fun x => length x = n); [apply costs_get; intros s F; apply F|]. intros x Lx.
    apply costs_quiet with (P := ll_sized n lambda); [apply costs_get; intros s F; apply F|]. intros m Rm.
    apply costs_quiet with (P := fun x => length x = n); [apply costs_lift; intros z; apply (sized_vget n lambda); apply Rm|]. intros z Lz.
    assert (Sm : nh_sized n (ll_mut m)) by apply Rm. destruct (map_sized n (ll_mut m) x z d Sm) as [M1 M2].
    destruct (nh_map (ll_mut m) x z d) as [r|]; [|apply costs_pending; intros l; now apply (M1 (PL l))].
    apply costs_quiet with (P := fun r => nh_sized n (fst r) /\ length (snd r) = n); [apply costs_lift; intros [h y] ->; now apply M2|]. intros [h y] [Sh Ly].
    apply costs_quiet with (P := T); [now apply costs_ll_set|]. intros _ _. apply costs_put_mem; [|exact I]. intros s (_ & _ & F1 & F2 & F3).
    split; [exact F1|]. split; [exact Sh|exact F3].
  Qed.
  Lemma costs_ll_eval o : costs (eval_pop ll_offs ll_put o) lambda T.
  Proof. apply costs_eval_pop; [intros m H; apply H|intros; now apply ll_sized_put]. Qed.
  Lemma costs_ll_sort sh srt : costs (sort_pop ll_offs ll_put sh srt) 0 T.
  Proof. apply (costs_sort_pop n L (ll_sized n lambda) ll_offs ll_put lambda); [intros m H; apply H|intros; now apply ll_sized_put]. Qed.
  Lemma costs_llga o bias bit radius d coin sh1 sh2 srt pick1 pick2 : (L -> forall t k, plenty n (d t k)) ->
    costs (llga_init o bias bit) 1 T /\ forall i, costs (llga_iterate o radius d coin sh1 sh2 srt pick1 pick2 i) (lambda + lambda) T.
  Proof.
    intros PL. split.
    - unfold llga_init. apply costs_quiet with (P := T); [now apply costs_lift|]. intros _ _. apply costs_random_solution.
    - intros i. unfold llga_iterate. apply costs_quiet with (P := T).
      { apply costs_put_mem; [|exact I]. intros s (_ & _ & F1 & F2 & F3). split; [exact F1|]. split; [now apply radius_sized|exact F3]. }
      intros _ _. apply costs_quiet with (P := T); [now apply costs_get|]. intros m _. cbv zeta.
      apply costs_quiet with (P := T); [apply costs_afor_quiet; intros k _; apply costs_ll_mutate; auto|]. intros _ _.
      apply costs_bind with (P := T); [apply costs_ll_eval|]. intros _ _. apply costs_quiet with (P := T); [apply costs_ll_sort|]. intros _ _.
      apply costs_quiet with (P := pop_sized n lambda); [apply costs_get; intros s (_ & _ & F); apply F|]. intros p Sp.
      apply costs_quiet with (P := T); [now apply costs_lift|]. intros v _.
      apply costs_quiet with (P := fun x => length x = n); [apply costs_lift; intros x; now apply (choose_sized n lambda)|]. intros x Lx.
      apply costs_quiet with (P := T).
      { apply costs_put_mem; [|exact I]. intros s (_ & _ & F1 & F2 & F3). split; [exact F1|]. split; [exact F2|exact Lx]. }
      intros _ _. apply costs_quiet with (P := T).
      { apply costs_afor_quiet. intros k _. apply costs_quiet with (P := T); [now apply costs_get|]. intros y _.
        apply costs_quiet with (P := ll_sized n lambda); [apply costs_get; intros s F; apply F|]. intros m' Rm.
        apply costs_quiet with (P := fun x => length x = n); [apply costs_lift; intros z; apply (sized_vget n lambda); apply Rm|]. intros z Lz.
        apply costs_quiet with (P := fun x => length x = n); [apply costs_lift; intros z'; now apply biased_sized|]. intros z' Lz'. now apply costs_ll_set. }
      intros _ _. apply costs_last with (P := T); [apply costs_ll_eval|]. intros _ _. apply costs_quiet with (P := T); [apply costs_ll_sort|]. intros _ _.
      apply costs_quiet with (P := pop_sized n lambda); [apply costs_get; intros s (_ & _ & F); apply F|]. intros p' Sp'.
      apply costs_quiet with (P := T); [now apply costs_lift|]. intros v' _. apply costs_quiet with (P := T); [now apply costs_get|]. intros cur _.
      destruct (cur <=? v')%Z; [|now apply costs_ret].
      apply costs_quiet with (P := fun x => length x = n); [apply costs_lift; intros y; now apply (choose_sized n lambda)|]. intros y Ly.
      apply (costs_put_sol n L (ll_sized n lambda) (fun _ => (y, v'))); auto.
  Qed.
End Costs.

(** * The mutants of an iteration *)

Lemma mutants_here lambda k T M C : Z.of_nat (length T) = (1 + Z.of_nat k * (2 * lambda))%Z -> (0 <= lambda)%Z -> length M = Z.to_nat lambda -> mutants lambda k (T ++ M ++ C) = M.
Proof.
  intros LT L0 LM. unfold mutants. assert (E : 1 + k * (2 * Z.to_nat lambda) = length T).
  { apply Nat2Z.inj. rewrite LT, Nat2Z.inj_add, Nat2Z.inj_mul, Nat2Z.inj_mul, Z2Nat.id by exact L0. reflexivity. }
  rewrite E, skipn_app, skipn_all, Nat.sub_diag. cbn [app skipn]. rewrite <- LM, firstn_app, firstn_all, Nat.sub_diag. cbn [firstn]. apply app_nil_r.
Qed.
Lemma mutants_before lambda j T T' : j * (2 * Z.to_nat lambda) + 2 * Z.to_nat lambda < length T -> mutants lambda j (T ++ T') = mutants lambda j T.
Proof.
  intros H. unfold mutants. rewrite skipn_app, firstn_app. rewrite skipn_length.
  replace (Z.to_nat lambda - (length T - (1 + j * (2 * Z.to_nat lambda)))) with 0 by lia. cbn [firstn]. apply app_nil_r.
Qed.
Definition varied_by (o : objective) (L : list bv) : Prop := exists y z, In y L /\ In z L /\ o_value o y <> o_value o z.
Definition ll_varied (o : objective) (lambda k : nat) (s : alg llga) : Prop :=
  length (a_trace s) = 1 + k * (2 * lambda) /\ forall j, j < k -> varied_by o (mutants (Z.of_nat lambda) j (a_trace s)).
Lemma varied_step o n lambda k r s s' : 0 < lambda -> ll_varied o lambda k s -> llga_step o n lambda r s s' -> ll_varied o lambda (k + 1) s'.
Proof.
  intros L0 (H1 & H2) (M & p & C & LM & _ & I1 & _ & (y & I2 & V) & LC & _ & T & _). split.
  - rewrite T, !app_length, H1. lia.
  - intros j Hj. rewrite T. destruct (Nat.eq_dec j k) as [->|NE].
    + rewrite mutants_here; [|lia|lia|lia]. exists y, p. split; [exact I2|]. split; [exact I1|lia].
    + rewrite mutants_before; [apply H2; lia|]. rewrite H1, Nat2Z.id. assert (j * (2 * lambda) + 2 * lambda <= k * (2 * lambda)); [|lia].
      replace (j * (2 * lambda) + 2 * lambda) with ((j + 1) * (2 * lambda)) by lia. apply Nat.mul_le_mono_r. lia.
Qed.
Lemma llga_varied o n lambda radius d coin sh1 sh2 srt pick1 pick2 bias bit num fuel m s0 u s :
  (forall t, radius t <= n) -> fair_mutations n d -> (forall t, shuffles (sh1 t)) -> (forall t, shuffles (sh2 t)) -> sorts srt ->
  fair_picks pick1 -> fair_picks pick2 -> (0 < bias < 1)%Q -> 0 < lambda ->
  llga_make n lambda = Ok m -> alg_make n m = Ok s0 ->
  loop (llga_init o bias bit) (llga_iterate o radius d coin sh1 sh2 srt pick1 pick2) num fuel s0 = (Ret u, s) -> exists k, ll_varied o lambda k s.
Proof.
  intros RD DR H1 H2 SR P1 P2 BI L0 E1 E2. destruct (llga_start _ _ _ _ E1 E2) as (W & R & HR & T & L).
  assert (G : oc (loop (llga_init o bias bit) (llga_iterate o radius d coin sh1 sh2 srt pick1 pick2) num fuel)
    (fun _ s' => exists k, ll_varied o lambda k s') (fun _ _ => True) (fun _ => True) s0).
  { unfold loop. apply oc_bind. unfold llga_init. apply oc_bind, oc_wp. eapply wp_lift.
    { unfold set_bias. assert (qltb 0 bias = true) as -> by (apply qltb_lt; tauto). assert (qltb bias 1 = true) as -> by (apply qltb_lt; tauto). reflexivity. }
    apply oc_wp. eapply wp_mono; [apply (random_solution_wp o n bit s0 T L)| |]; [|auto].
    cbn beta. intros _ s1 (A1 & A2 & A3 & A4). apply oc_bind, oc_wp, wp_modify.
    eapply oc_mono; [apply (loop_from_oc (llga_iterate o radius d coin sh1 sh2 srt pick1 pick2) (fun k s => ll_inv n lambda s /\ ll_varied o lambda k s) (fun _ _ => True) (fun _ => True))| | |].
    - intros i s2 (J1 & J2) _. eapply oc_mono; [apply (llga_iterate_oc o n lambda radius d coin sh1 sh2 srt pick1 pick2 RD DR H1 H2 SR P1 P2 i s2 J1)| | |]; cbn beta; auto.
      intros _ s3 (K & ST). split; [assumption|]. exact (varied_step _ _ _ _ _ _ _ L0 J2 ST).
    - auto.
    - cbn beta. split; [unfold ll_inv; cbn [put_last a_mem a_sol]; rewrite A4; auto|]. split; [exact A3|intros j Hj; lia].
    - cbn beta. intros _ s2 (k & _ & H). eauto.
    - auto.
    - auto. }
  intros E. unfold oc in G. rewrite E in G. exact G.
Qed.

(** * Its programs *)

Section Programs.
  Context (ap : app_options) (co : controller_options) (m : option hmap) (F : func) (mid : middle) (target : option dbl) (i n : nat) (f : bv -> dbl) (g : bv -> Z).
  Context (o : algo_options) (d : algo_draws) (po : population_options) (pd : population_draws).
  Context (srt : (nat -> nat -> bool) -> list nat -> list nat) (psrt : nat -> (nat -> nat -> bool) -> list nat -> list nat).
  Context (debug : bool) (neighbors iterations : nat) (garbage : Z) (garbage' : Q) (bounds : nat * nat) (others : nat -> outcome machine).
  Context (N : 0 < i) (OK : lambda_options_ok o po i) (DO : lambda_draws_ok pd i) (SR : sorts srt).
  Context (HO : optimizes ap) (HR : ap_restart ap = false) (HC : make_function_controller co F = Ok (mid, target)).
  Context (HM : map_fits m i n) (HK : kind_known m) (HF : fp_size (f_props F) = i) (HT : total (f_obj F) (f_init F) i f) (HV : finite_values i f g).
  Local Notation num := (ao_num_iterations o).
  Local Notation factory := (make_algorithm o d neighbors iterations garbage (make_population_algorithm o po pd srt psrt debug iterations garbage' bounds others)).

  Lemma lambda_program : exists N, forall fuel, N < fuel ->
    let p := program ap co (Ok (Some (m, F))) factory fuel in
    (exists r x success, p = Some (report ap co m i r x success) /\
       rs_success r = (match co_stop_on_maximum co, co_target co with false, None => None | _, _ => Some success end) /\
       lambda_ends o po co target f i r x success) \/
    (p = Some ([], Undefined) /\ same_values f i target (po_mu po)) \/
    (p = None /\
       (lambda_draws_last pd i -> (num <= 0 \/ Z.of_nat iterations <= num)%Z /\
          (co_cache co = false -> (0 < co_budget co)%Z -> (1 + Z.of_nat iterations * (2 * po_mu po) <= co_budget co)%Z))).
  Proof.
    destruct OK as (T & OM & OB). destruct (population_sized (po_mu po)) as (E1 & P1 & Z1); [lia|]. set (lambda := Z.to_nat (po_mu po)) in *.
    destruct (pop_making i lambda N P1) as (pp & Ep). assert (Sp := proj1 (pop_made i lambda pp Ep)).
    assert (Eh : exists h, nh_make (HammingSphere 1) i = Ok h).
    { unfold nh_make. destruct (Nat.ltb_spec 0 i); [|lia]. cbn [assertb bind]. destruct (Nat.leb_spec 1 i); [|lia]. eexists. reflexivity. }
    destruct Eh as (h & Eh).
    assert (Em : llga_make i lambda = Ok (mk_llga pp h (repeat false i))).
    { unfold llga_make. rewrite Ep. cbn [bind]. rewrite Eh. cbn [bind]. destruct (Nat.ltb_spec 0 i); [|lia]. cbn [assertb bind]. destruct (Nat.ltb_spec 0 lambda); [|lia]. cbn [assertb bind].
      destruct (Nat.leb_spec lambda i); [reflexivity|lia]. }
    destruct DO as (D1 & D2 & D3 & D4 & D5 & D6).
    set (run := fun k ob => loop (llga_init ob (po_crossover_bias po) (pd_bit pd k))
                 (llga_iterate ob (pd_radius pd k) (pd_mutations pd k) (pd_coins pd k) (pd_shuffle pd k) (pd_shuffle2 pd k) srt (pd_best1 pd k) (pd_best2 pd k)) num iterations).
    set (s0 := mk_alg [] (repeat false i, 0%Z) false (mk_llga pp h (repeat false i))).
    assert (F0 : fits i (ll_sized i lambda) s0).
    { apply made_fits. split; [exact Sp|]. split; [exact (made_nh i _ h Eh)|apply repeat_length]. }
    assert (LP : forall ob, let '(r, s') := run 0 ob s0 in
      fits i (ll_sized i lambda) s' /\ match r with
        | Ret _ => (0 < num)%Z /\ Z.of_nat (length (a_trace s')) = (1 + num * (2 * po_mu po))%Z
        | Pending => lambda_draws_last pd i -> (num <= 0 \/ Z.of_nat iterations <= num)%Z /\ Z.of_nat (length (a_trace s')) = (1 + Z.of_nat iterations * (2 * po_mu po))%Z
        | _ => True
        end).
    { intros ob. destruct (costs_llga i lambda (lambda_draws_last pd i) ob (po_crossover_bias po) (pd_bit pd 0) (pd_radius pd 0) (pd_mutations pd 0) (pd_coins pd 0) (pd_shuffle pd 0) (pd_shuffle2 pd 0) srt
        (pd_best1 pd 0) (pd_best2 pd 0) (fun l => l)) as [CI CT].
      pose proof (costs_loop i _ (ll_sized i lambda) _ _ num iterations 1 (lambda + lambda) CI CT s0 F0) as H. unfold run. destruct (loop _ _ _ _ _) as [[[]|e| |] s']; destruct H as [H1 H2]; (split; [exact H1|]); auto.
      - destruct H2 as [H2 H3]. split; [exact H2|]. rewrite H3. replace (Z.of_nat (lambda + lambda)) with (2 * po_mu po)%Z by lia. reflexivity.
      - intros l. destruct (H2 l) as [H3 H4]. split; [exact H3|]. rewrite H4. cbn [s0 a_trace length]. replace (2 * po_mu po)%Z with (Z.of_nat (lambda + lambda)) by lia. rewrite <- Nat2Z.inj_mul. lia. }
    assert (RK : forall ob, let '(r, s) := run 0 ob s0 in
      (a_trace s = [] \/ (In (fst (a_sol s)) (a_trace s) /\ (o_value ob (hd [] (a_trace s)) <= o_value ob (fst (a_sol s)))%Z)) /\
      match r with Ret _ => a_trace s <> [] | Exc e => o_stop ob (length (a_trace s)) = Some e | Bad => all_equal ob lambda (a_trace s) | Pending => True end).
    { intros ob. pose proof (C73_run ob i lambda (pd_radius pd 0) (pd_mutations pd 0) (pd_coins pd 0) _ _ srt _ _ (po_crossover_bias po) (pd_bit pd 0) num iterations _ _ D1 D2 D3 D4 SR D5 D6 OB Em (made_alg i _ N)) as H.
      unfold run, s0. destruct (loop _ _ _ _ _) as [r s]. destruct H as [[H|(H1 & H2 & H3)] H4]; (split; [|exact H4]); [now left|right]. rewrite <- H2. auto. }
    assert (VA : forall s', run 0 (endless g) s0 = (Ret tt, s') -> Z.of_nat (length (a_trace s')) = (1 + num * (2 * po_mu po))%Z -> Forall (fun x => length x = i) (a_trace s') ->
      forall k, (Z.of_nat k < num)%Z -> varied f (mutants (po_mu po) k (a_trace s'))).
    { intros s' ER LT FT k Hk.
      destruct (llga_varied (endless g) i lambda (pd_radius pd 0) (pd_mutations pd 0) (pd_coins pd 0) _ _ srt _ _ (po_crossover_bias po) (pd_bit pd 0) num iterations _ _ tt s' D1 D2 D3 D4 SR D5 D6 OB P1 Em (made_alg i _ N) ER) as (K & V1 & V2).
      assert (EK : k < K).
      { apply Nat2Z.inj_lt. rewrite V1 in LT. assert (EQ : (Z.of_nat K * (2 * po_mu po) = num * (2 * po_mu po))%Z) by (rewrite Nat2Z.inj_add, Nat2Z.inj_mul, Nat2Z.inj_mul, Z1 in LT; lia).
        apply Z.mul_reg_r in EQ; lia. }
      rewrite Z1 in V2. destruct (V2 k EK) as (y & z & I1 & I2 & V). exists y, z. split; [exact I1|]. split; [exact I2|].
      assert (IT : forall x, In x (mutants (po_mu po) k (a_trace s')) -> length x = i).
      { intros x Hx. rewrite Forall_forall in FT. apply FT. unfold mutants in Hx. rewrite <- (firstn_skipn (1 + k * (2 * Z.to_nat (po_mu po))) (a_trace s')). apply in_app_iff. right.
        rewrite <- (firstn_skipn (Z.to_nat (po_mu po)) (skipn (1 + k * (2 * Z.to_nat (po_mu po))) (a_trace s'))). apply in_app_iff. now left. }
      rewrite (HV y), (HV z) by auto. cbn [endless o_value] in V. congruence. }
    assert (NW : forall ob s, o_value ob = g -> Forall (fun x => length x = i) (a_trace s) -> In (fst (a_sol s)) (a_trace s) -> (o_value ob (hd [] (a_trace s)) <= o_value ob (fst (a_sol (X := llga) s)))%Z ->
      no_worse f (a_trace s) (fst (a_sol s))).
    { intros ob s V A B C. split; [exact B|]. rewrite Forall_forall in A. rewrite (HV (fst (a_sol s))) by auto. rewrite HV; [rewrite V in C; now apply Z.leb_le|].
      apply A. destruct (a_trace s); [destruct B|left; reflexivity]. }
    assert (EF : factory (fp_size (f_props F)) = Ok (algorithm_machine run (fun s => s) s0)).
    { rewrite HF. cbv beta. unfold make_algorithm, make_population_algorithm. cbv zeta. rewrite T. cbn [existsb other_types Z.eqb Pos.eqb orb]. rewrite E1. cbn [bind]. rewrite Em. cbn [bind]. rewrite made_alg by exact N. reflexivity. }
    exists (length (a_trace (snd (run 0 (endless g) s0)))). intros fuel HFu p.
    assert (PE : program_ends ap co m i target f g (run 0) (fun s => s) s0 p).
    { apply (algorithm_program ap co m F _ mid target i n f g run (fun s => s) s0); auto; [apply ad_llga|].
      intros ob _. specialize (LP ob). destruct (run 0 ob s0) as [r s]. destruct LP as [FS _]. cbn [snd]. split; apply FS. }
    clearbody p. destruct PE as [s' r ER HMi HW HTa HS|s' r ER HMi HTa HS HB HB'|s' x r t ER HMi EX ET HG HWx HTa HRs HS|s' e ER HMi|s' ER HMi|s' ER HMi HW].
    - left. specialize (LP (endless g)). specialize (RK (endless g)). rewrite ER in *. destruct LP as ((F1 & _) & L1 & L2). destruct RK as [[K|(K1 & K2)] K3]; [contradiction|].
      exists r, (fst (a_sol s')), false. split; [reflexivity|]. split; [exact HS|]. apply (lambda_done o po co target f i (a_trace s')); auto. now apply (NW (endless g)).
    - left. set (ob := stopping g (length (a_trace s')) LastEvaluation) in *. specialize (LP ob). specialize (RK ob). rewrite ER in *. destruct LP as ((F1 & _) & _).
      exists r, (fst (a_sol s')), false. split; [reflexivity|]. split; [exact HS|]. destruct RK as [[K|(K1 & K2)] _]; [rewrite K in HB; cbn in HB; lia|].
      apply (lambda_cut o po co target f i (a_trace s')); auto. now apply (NW ob).
    - left. exists r, x, true. split; [reflexivity|]. split; [exact HS|]. specialize (LP (stopping g (length (a_trace s') + 1) TargetReached)).
      destruct (run 0 (stopping g (length (a_trace s') + 1) TargetReached) s0) as [r1 s1]. cbn [snd] in EX. destruct LP as ((F1 & _) & _). rewrite EX in F1.
      now apply (lambda_reached o po co target f i (a_trace s') r x t).
    - exfalso. specialize (RK (endless g)). rewrite ER in RK. destruct RK as [_ K]. discriminate.
    - right. left. split; [reflexivity|]. specialize (LP (endless g)). specialize (RK (endless g)). rewrite ER in *. destruct LP as ((F1 & _) & _).
      destruct RK as [_ (T1 & L & E & LL & K)]. rewrite E in *. exists T1, L. split; [exact F1|]. split; [exact HMi|]. split; [now rewrite LL|].
      intros y z Hy Hz. apply Forall_app in F1 as [_ F1]. rewrite Forall_forall in F1. rewrite (HV y), (HV z) by auto. now rewrite (K y z Hy Hz : g y = g z).
    - right. right. split; [reflexivity|]. intros l. specialize (LP (endless g)). rewrite ER in LP. destruct LP as [_ LP]. destruct (LP l) as [L1 L2]. split; [exact L1|].
      intros Hc Hb. specialize (HW Hc Hb). lia.
  Qed.
End Programs.
