(** The programs which run local searches. *)

From Coq Require Import ZArith.
From Verif Require Import Base BaseLemmas BitVector_Model BitVector_Spec BitVector_Proofs Map_Model Map_Spec Iterator_Model Neighborhood_Model Neighborhood_Spec Double
  Controller_Model Controller_Spec Decorator_Model Decorator_Spec ControllerStack_Spec Application_Model Application_Spec Search_Model Search_Spec
  Algorithm_Model Algorithm_Spec Algorithm_Proofs HillClimbing_Proofs LocalSearch_Proofs EvolutionaryAlgorithm_Model
  AlgorithmMachine_Model AlgorithmMachine_Spec AlgorithmMachine_Proofs AlgorithmRuns_Proofs.
Local Open Scope nat_scope.

(** * Counting calls *)

Lemma spends_start {X} C o st : spends (X := X) C (start_solution o st) 1.
Proof.
  destruct st as [bit|x]; cbn [start_solution].
  - unfold random_solution. apply spends_quiet; [apply spends_modify; reflexivity|]. intros _. apply spends_quiet; [apply spends_get|]. intros x.
    apply (spends_bind C _ _ 1 0); [apply spends_evaluate|]. intros v. apply spends_modify; reflexivity.
  - unfold set_solution_eval, set_solution. apply (spends_bind C _ _ 1 0); [apply spends_evaluate|]. intros v. apply spends_modify; reflexivity.
Qed.

Lemma spends_rls_init o st : spends False (rls_init o st) 1.
Proof.
  unfold rls_init. apply (spends_bind False _ _ 1 0); [apply spends_start|]. intros _. apply spends_quiet; [apply spends_modify; reflexivity|].
  intros _. apply spends_modify; reflexivity.
Qed.
Lemma spends_rls o p d i : p_incremental p = false -> spends False (rls_iterate o p d i) 1.
Proof.
  intros HP. unfold rls_iterate. apply spends_quiet; [apply (spends_propose False rls_nh (fun h m => mk_rls (rls_failures m) h))|]. intros _.
  apply spends_quiet; [apply spends_get|]. intros h. apply spends_quiet; [apply spends_get|]. intros cur. rewrite HP. cbn [andb].
  apply (spends_bind False _ _ 1 0); [apply spends_evaluate|]. intros v. unfold rls_decide.
  apply spends_quiet; [apply spends_get|]. intros cur'. apply spends_quiet.
  - destruct (p_compare p v cur').
    + apply spends_quiet; [apply spends_on_mem|]. intros _. apply spends_quiet; [apply spends_modify; reflexivity|]. intros _. apply spends_modify; reflexivity.
    + apply spends_quiet; [apply spends_on_mem|]. intros _. apply spends_modify; reflexivity.
  - intros _. apply spends_quiet; [apply spends_get|]. intros k. destruct (_ && _)%Z; [|apply spends_ret].
    apply spends_quiet; [apply spends_modify; reflexivity|]. intros _. apply spends_modify; [reflexivity|intros []].
Qed.

Lemma spends_rw_init o st : spends False (rw_init o st) 1.
Proof. unfold rw_init. apply (spends_bind False _ _ 1 0); [apply spends_start|]. intros _. apply spends_modify; reflexivity. Qed.
Lemma spends_rw o d i : spends True (rw_iterate o false d i) 1.
Proof.
  unfold rw_iterate. apply spends_quiet; [apply (spends_propose True rw_nh (fun h m => mk_rw (rw_value m) h))|]. intros _.
  apply spends_quiet; [apply spends_get|]. intros m. cbn [andb]. apply (spends_bind True _ _ 1 0); [apply spends_evaluate|]. intros v.
  apply spends_quiet; [apply spends_modify; reflexivity|]. intros _. apply spends_quiet; [apply spends_on_mem|]. intros _.
  apply spends_quiet; [apply spends_get|]. intros h. apply spends_update.
Qed.

Lemma spends_beta o n bits d trials : forall i, spends False (beta_trials o n bits d trials i) (2 * trials).
Proof.
  induction trials as [|trials IH]; intros i; cbn [beta_trials]; [apply spends_ret|]. cbv zeta.
  replace (2 * S trials) with (1 + (1 + 2 * trials)) by lia. apply spends_bind; [apply spends_evaluate|]. intros a.
  apply spends_quiet; [apply spends_update|]. intros _. apply spends_quiet; [apply spends_modify; reflexivity|]. intros _.
  apply spends_quiet; [apply (spends_propose False sa_nh (fun h m => mk_sa (sa_current m) h))|]. intros _.
  apply spends_quiet; [apply spends_get|]. intros y. apply spends_bind; [apply spends_evaluate|]. intros b.
  apply spends_quiet; [apply spends_update|]. intros _. apply spends_quiet; [apply spends_on_mem|]. intros _. apply IH.
Qed.
Lemma spends_sa_init o n st bits d trials : spends False (sa_init o n st bits d trials) (1 + 2 * trials).
Proof.
  unfold sa_init. apply spends_bind; [apply spends_start|]. intros _. replace (2 * trials) with (2 * trials + 0) by lia.
  apply spends_bind; [apply spends_beta|]. intros _. apply spends_quiet; [apply spends_get|]. intros x.
  apply spends_quiet; [apply spends_modify; reflexivity|]. intros _. apply spends_modify; reflexivity.
Qed.
Lemma spends_sa o d accept i : spends True (sa_iterate o d accept i) 1.
Proof.
  unfold sa_iterate. apply spends_quiet; [apply (spends_propose True sa_nh (fun h m => mk_sa (sa_current m) h))|]. intros _.
  apply spends_quiet; [apply spends_get|]. intros y. apply (spends_bind True _ _ 1 0); [apply spends_evaluate|]. intros v.
  apply spends_quiet; [apply spends_get|]. intros cur. destruct (cur <=? v)%Z.
  - apply spends_quiet; [apply spends_on_mem|]. intros _. apply spends_quiet; [apply spends_modify; reflexivity|]. intros _.
    apply spends_quiet; [apply spends_get|]. intros x. apply spends_update.
  - destruct (accept i); [|apply spends_on_mem]. apply spends_quiet; [apply spends_on_mem|]. intros _. apply spends_modify; reflexivity.
Qed.

(** * How the program ends *)

Section Ends.
  Context {X : Type} (ap : app_options) (co : controller_options) (m : option hmap) (i : nat) (target : option dbl) (f : bv -> dbl) (g : bv -> Z).
  Context (run : objective -> act (alg X) unit) (fin : alg X -> alg X) (s0 : alg X) (o : algo_options) (iterations : nat) (enough : Prop).
  Context (HV : finite_values i f g).
  Local Notation sol s := (fst (a_sol (fin s))).

  (** What is known of every run *)
  Definition run_known : Prop := forall ob, o_provides ob = false -> o_value ob = g ->
    let '(r, s) := run ob s0 in
    Forall (fun x => length x = i) (a_trace s) /\
    (a_trace s <> [] -> In (sol s) (a_trace s) /\ (ao_algorithm o <> 150%Z -> forall y, In y (a_trace s) -> (g y <= g (sol s))%Z)) /\
    match r with
    | Ret _ => a_trace s <> [] /\ (forall y, In y (a_trace s) -> (g y <= g (sol s))%Z) /\ stops_itself o f i (a_trace s) (sol s) /\ snd (a_sol (fin s)) = g (sol s)
    | Exc e => thrown_by ob e
    | Bad => False
    | Pending => climber o = false /\
        (enough -> (ao_num_iterations o <= 0 \/ Z.of_nat iterations <= ao_num_iterations o)%Z /\ length (a_trace s) = first_calls o + iterations)
    end.

  Lemma greatest_best T x : Forall (fun x => length x = i) T -> In x T -> (forall y, In y T -> (g y <= g x)%Z) -> best_of f T x.
  Proof.
    intros F Hx H. rewrite Forall_forall in F. split; [assumption|]. intros y Hy. rewrite (HV y), (HV x) by auto. cbn. apply Z.leb_le. auto.
  Qed.
  Lemma best_value T r x : Forall (fun x => length x = i) T -> best_of f T x -> tallies co f T r -> rs_value r = Some (f x).
  Proof.
    intros F [Hx B] (_ & _ & Ta). destruct Ta as (_ & k & z & (R1 & R2 & _) & -> & _); [now destruct T|]. f_equal. rewrite Forall_forall in F.
    apply nth_error_In, in_map_iff in R1 as (z' & Ez & Hz). injection Ez as -> _. specialize (B z Hz).
    destruct (In_nth_error (valued f T) (x, f x)) as (j & Ej); [apply in_map_iff; eauto|]. specialize (R2 _ _ _ Ej).
    rewrite (HV x), (HV z) in * by auto. cbn in B, R2. destruct R2 as [R2|R2]; [discriminate|]. apply Z.leb_le in B, R2. f_equal. lia.
  Qed.

  Lemma search_ends_spec p : run_known -> program_ends ap co m i target f g run fin s0 p ->
    (exists r x success, p = Some (report ap co m i r x success) /\
       rs_success r = (match co_stop_on_maximum co, co_target co with false, None => None | _, _ => Some success end) /\
       local_search_ends o co target f i r x success) \/
    (p = None /\ climber o = false /\
       (enough -> (ao_num_iterations o <= 0 \/ Z.of_nat iterations <= ao_num_iterations o)%Z /\
          (co_cache co = false -> (0 < co_budget co)%Z -> (Z.of_nat (first_calls o + iterations) <= co_budget co)%Z))).
  Proof.
    intros RK H. destruct H as [s' r ER HM HW HT HS|s' r ER HM HT HS HB HB'|s' x r t ER HM EX ET HG HWx HT HR HS|s' e ER HM|s' ER HM|s' ER HM HW].
    - left. specialize (RK (endless g) eq_refl eq_refl). rewrite ER in RK. destruct RK as (F & K1 & K2 & K3 & K4 & _). destruct (K1 K2) as [K5 _].
      pose proof (greatest_best _ _ F K5 K3) as B. exists r, (sol s'), false. split; [reflexivity|]. split; [exact HS|].
      apply (search_stopped o co target f i (a_trace s')); auto. now apply (best_value (a_trace s')).
    - left. specialize (RK (stopping g (length (a_trace s')) LastEvaluation) eq_refl eq_refl). rewrite ER in RK. destruct RK as (F & K1 & _).
      destruct K1 as [K1 K2]; [destruct (a_trace s'); [cbn in HB; lia|discriminate]|].
      exists r, (sol s'), false. split; [reflexivity|]. split; [exact HS|]. apply (search_out_of_budget o co target f i (a_trace s')); auto.
      intros N. pose proof (greatest_best _ _ F K1 (K2 N)) as B. split; [exact B|]. now apply (best_value (a_trace s')).
    - left. exists r, x, true. split; [reflexivity|]. split; [exact HS|].
      specialize (RK (stopping g (length (a_trace s') + 1) TargetReached) eq_refl eq_refl).
      destruct (run (stopping g (length (a_trace s') + 1) TargetReached) s0) as [r1 s1]. cbn [snd] in EX. destruct RK as (F & _). rewrite EX in F.
      now apply (search_reached o co target f i (a_trace s') r x t).
    - exfalso. specialize (RK (endless g) eq_refl eq_refl). rewrite ER in RK. destruct RK as (_ & _ & c & K). discriminate.
    - exfalso. specialize (RK (endless g) eq_refl eq_refl). rewrite ER in RK. exact (proj2 (proj2 RK)).
    - right. specialize (RK (endless g) eq_refl eq_refl). rewrite ER in RK. destruct RK as (_ & _ & K1 & K2). split; [reflexivity|]. split; [assumption|].
      intros E. destruct (K2 E) as [K3 K4]. split; [assumption|]. intros Hc Hb. specialize (HW Hc Hb). now rewrite K4 in HW.
  Qed.
End Ends.

(** * The algorithms *)

Lemma bounds_any kd n d : in_bounds kd n d -> forall kd', (forall r, kd' <> HammingBall r) -> in_bounds kd' n d.
Proof. intros (H1 & H2 & _ & H3) kd' H. unfold in_bounds. repeat split; auto; try (apply H1). destruct kd'; auto. now destruct (H r). Qed.

Lemma neighborhood_made o n : neighborhood_ok o n -> 0 < n -> exists h, make_neighborhood o n = Ok h /\ nh_reachable n h Settled /\ nh_sized n h /\
  (ao_algorithm o <> 300%Z -> forall d, in_bounds (bounding_kind o) n d -> in_bounds (nh_class h) n d).
Proof.
  intros NO N. unfold make_neighborhood. destruct (Z.eqb_spec (ao_neighborhood o) 0) as [E0|E0].
  { assert (E : nh_make SingleBitFlip n = Ok (mk_nh SingleBitFlip (repeat false n) (repeat false n) [0])).
    { unfold nh_make. now destruct (Nat.ltb_spec 0 n); [|lia]. }
    rewrite E. eexists. split; [reflexivity|]. split; [now apply reach_make in E|]. split; [split; apply repeat_length|]. intros _ d B. now apply (bounds_any (bounding_kind o)). }
  destruct (Z.eqb_spec (ao_neighborhood o) 1) as [E1|E1].
  { assert (E : nh_make (StandardBitMutation false false) n = Ok (mk_nh (StandardBitMutation false false) (repeat false n) (repeat false n) [])).
    { unfold nh_make. now destruct (Nat.ltb_spec 0 n); [|lia]. }
    rewrite E. cbn [bind]. eexists. split; [reflexivity|]. apply reach_make in E. split.
    { destruct (ao_mutation_rate o); [apply reach_rate|]; now apply reach_allow. }
    split; [destruct (ao_mutation_rate o); split; apply repeat_length|]. intros _ d B. apply (bounds_any (bounding_kind o)); [assumption|].
    destruct (ao_mutation_rate o); discriminate. }
  destruct NO as [NO|[NO|[NO NR]]]; try lia.
  assert (R : (0 <? Z.to_nat (ao_radius o)) = true /\ (Z.to_nat (ao_radius o) <=? n) = true) by (split; [apply Nat.ltb_lt|apply Nat.leb_le]; lia).
  destruct R as [R1 R2].
  destruct (Z.eqb_spec (ao_neighborhood o) 2) as [E2|E2].
  - assert (E : nh_make (HammingBall (Z.to_nat (ao_radius o))) n = Ok (mk_nh (HammingBall (Z.to_nat (ao_radius o))) (repeat false n) (repeat false n) [])).
    { unfold nh_make. destruct (Nat.ltb_spec 0 n); [|lia]. cbn [assertb bind]. now rewrite R1, R2. }
    rewrite E. eexists. split; [reflexivity|]. split; [now apply reach_make in E|]. split; [split; apply repeat_length|]. intros T d.
    unfold bounding_kind. rewrite E2. cbn [Z.eqb Pos.eqb andb]. destruct (Z.eqb_spec (ao_algorithm o) 300); [contradiction|]. cbn [negb]. auto.
  - destruct (Z.eqb_spec (ao_neighborhood o) 3) as [E3|E3]; [|lia].
    assert (E : nh_make (HammingSphere (Z.to_nat (ao_radius o))) n = Ok (mk_nh (HammingSphere (Z.to_nat (ao_radius o))) (repeat false n) (repeat false n) [])).
    { unfold nh_make. destruct (Nat.ltb_spec 0 n); [|lia]. cbn [assertb bind]. now rewrite R1, R2. }
    rewrite E. eexists. split; [reflexivity|]. split; [now apply reach_make in E|]. split; [split; apply repeat_length|]. intros _ d B. now apply (bounds_any (bounding_kind o)).
Qed.

Lemma iterator_made o index n : iterator_ok o n -> exists t, make_neighborhood_iterator o index n = Ok t /\ nit_reachable n (climbing_radius o) t /\ nit_sized n t.
Proof.
  intros IO. unfold make_neighborhood_iterator, climbing_radius. destruct (Z.eqb_spec (ao_neighborhood_iterator o) 0) as [E0|E0].
  - eexists. split; [reflexivity|]. split; [split; [apply repeat_length|reflexivity]|apply repeat_length].
  - destruct IO as [IO|[IO IR]]; [lia|]. rewrite IO. cbn [Z.eqb Pos.eqb]. destruct (Z.ltb_spec (ao_radius o) 0); [lia|].
    assert (R2 : (Z.to_nat (ao_radius o) <=? n) = true) by (apply Nat.leb_le; lia). unfold hs_make. rewrite R2. cbn [assertb bind].
    eexists. split; [reflexivity|]. split; [|apply repeat_length]. split; [|lia]. apply hs_reach_make. unfold hs_make. now rewrite R2.
Qed.

(** * The programs *)

Lemma made_alg {X} n (x : X) : 0 < n -> alg_make n x = Ok (mk_alg [] (repeat false n, 0%Z) false x).
Proof. intros N. unfold alg_make. now destruct (Nat.ltb_spec 0 n); [|lia]. Qed.
Lemma made_fits {X} n (R : X -> Prop) x : R x -> fits n R (mk_alg [] (repeat false n, 0%Z) false x).
Proof. intros H. repeat split; [constructor|apply repeat_length|exact H]. Qed.

Lemma begun_fits {X} n (R : X -> Prop) x s : R x -> begun n x s -> fits n R s.
Proof. intros H (G1 & G2 & G3). split; [rewrite G1; constructor|]. split; [exact G2|now rewrite G3]. Qed.
Lemma made_begun {X} n (x : X) : begun n x (mk_alg [] (repeat false n, 0%Z) false x).
Proof. split; [reflexivity|]. split; [apply repeat_length|reflexivity]. Qed.

Section Known.
  Context (o : algo_options) (d : algo_draws) (f : bv -> dbl) (g : bv -> Z) (i iterations : nat) (N : 0 < i) (HV : finite_values i f g) (OK : options_ok o i) (DO : draws_ok o d i).
  Local Notation num := (ao_num_iterations o).
  Local Notation start := (RandomStart (ad_first d 0)).

  Lemma first_best_known (T : list bv) sol : first_best g T sol -> In (fst sol) T /\ forall y, In y T -> (g y <= g (fst sol))%Z.
  Proof.
    intros [(L1 & L2 & E & F1 & F2) _]. rewrite E. rewrite Forall_forall in F1, F2. split; [apply in_or_app; right; now left|].
    intros y Hy. apply in_app_or in Hy as [Hy|[<-|Hy]]; [specialize (F1 y Hy); lia|lia|auto].
  Qed.

  Lemma known_rw h ph garbage s0 : ao_algorithm o = 20%Z -> nh_reachable i h ph -> nh_sized i h -> (forall t, in_bounds (nh_class h) i (ad_moves d 0 t)) ->
    begun i (mk_rw garbage h) s0 ->
    run_known i f g (fun ob => loop (rw_init ob start) (rw_iterate ob false (ad_moves d 0)) num iterations) (fun s => s) s0 o iterations (draws_last d i).
  Proof.
    intros T R S B BG ob P V.
    destruct (keeps_rw i (draws_last d i) ob start (ad_moves d 0) I (fun l => proj1 l)) as [K1 K2].
    assert (F := begun_fits i (rw_sized i) (mk_rw garbage h) s0 S BG).
    pose proof (fits_loop i _ _ _ _ num iterations K1 K2 _ F) as FL.
    pose proof (loop_ends i _ _ True _ _ num iterations 1 K1 K2 (spends_rw_init ob start) (spends_rw ob (ad_moves d 0)) _ F) as LE.
    pose proof (random_walk_from ob i h ph garbage start false (ad_moves d 0) num iterations _ R I eq_refl B BG) as RR. rewrite (proj1 BG) in LE.
    destruct (loop _ _ _ _ _) as [r s]. cbn [snd a_trace length Nat.add] in *. unfold run_best in RR. rewrite V in RR. destruct RR as [[RB RR] _]. destruct FL as (F1 & F2 & F3).
    split; [exact F1|]. split; [intros NE; destruct (first_best_known _ _ (RB NE)); auto|].
    destruct r as [u|e| |]; auto.
    - split; [exact RR|]. split; [apply first_best_known; auto|]. split; [|exact (proj2 (RB RR))]. destruct LE as [LE|[_ LE]]; [|now destruct LE]. apply by_iterations; [apply LE|].
      intros _. unfold first_calls. rewrite T. cbn [Z.eqb Pos.eqb]. apply LE.
    - exists (length (a_trace s)). exact RR.
    - unfold climber, first_calls. rewrite T. split; [reflexivity|]. exact LE.
  Qed.

  Lemma known_sa h ph garbage s0 : ao_algorithm o = 200%Z -> nh_reachable i h ph -> nh_sized i h -> (forall t, in_bounds (nh_class h) i (ad_moves d 0 t)) ->
    (forall t, in_bounds (nh_class h) i (ad_trials d 0 t)) -> begun i (mk_sa garbage h) s0 ->
    run_known i f g (fun ob => loop (sa_init ob i start (ad_trial_bits d 0) (ad_trials d 0) (Z.to_nat (ao_sa_num_trials o))) (sa_iterate ob (ad_moves d 0) (ad_accept d 0)) num iterations)
      (fun s => s) s0 o iterations (draws_last d i).
  Proof.
    intros T R S B B0 BG ob P V.
    destruct (keeps_sa i (draws_last d i) ob start (ad_trial_bits d 0) (ad_trials d 0) (Z.to_nat (ao_sa_num_trials o)) (ad_moves d 0) (ad_accept d 0) I (fun l => proj2 l) (fun l => proj1 l)) as [K1 K2].
    assert (F := begun_fits i (sa_sized i) (mk_sa garbage h) s0 S BG).
    pose proof (fits_loop i _ _ _ _ num iterations K1 K2 _ F) as FL.
    pose proof (loop_ends i _ _ True _ _ num iterations _ K1 K2 (spends_sa_init ob i start (ad_trial_bits d 0) (ad_trials d 0) (Z.to_nat (ao_sa_num_trials o))) (spends_sa ob (ad_moves d 0) (ad_accept d 0)) _ F) as LE.
    pose proof (simulated_annealing_from ob i h ph garbage start (ad_trial_bits d 0) (ad_trials d 0) (ad_moves d 0) (Z.to_nat (ao_sa_num_trials o)) (ad_accept d 0) num iterations _ R I B0 B BG) as RR. rewrite (proj1 BG) in LE.
    destruct (loop _ _ _ _ _) as [r s]. cbn [snd a_trace length] in *. unfold run_best in RR. rewrite V in RR. destruct RR as [[RB RR] _]. destruct FL as (F1 & F2 & F3).
    split; [exact F1|]. split; [intros NE; destruct (first_best_known _ _ (RB NE)); auto|].
    destruct r as [u|e| |]; auto.
    - split; [exact RR|]. split; [apply first_best_known; auto|]. split; [|exact (proj2 (RB RR))]. destruct LE as [LE|[_ LE]]; [|now destruct LE]. apply by_iterations; [apply LE|].
      intros _. unfold first_calls. rewrite T. change (200 =? 200)%Z with true. cbv iota. apply LE.
    - exists (length (a_trace s)). exact RR.
    - unfold climber, first_calls. rewrite T. split; [reflexivity|]. exact LE.
  Qed.

  (** Random local search and the (1+1) EA *)
  Lemma known_local (p : rls_parameters) h ph garbage s0 : (ao_algorithm o = 100%Z \/ ao_algorithm o = 300%Z) -> nh_reachable i h ph -> nh_sized i h ->
    (forall t, in_bounds (nh_class h) i (ad_moves d 0 t)) ->
    p_incremental p = false -> ascending (p_compare p) ->
    (forall x T, (0 < p_patience p)%Z -> Forall (fun y => length y = i) T -> length x = i ->
       rejected_suffix (endless g) (p_compare p) (g x) (p_patience p) T -> stops_itself o f i T x) -> begun i (mk_rls garbage h) s0 ->
    run_known i f g (fun ob => loop (rls_init ob start) (rls_iterate ob p (ad_moves d 0)) num iterations) rls_finalize s0 o iterations (draws_last d i).
  Proof.
    intros T R S B HP AC RE BG ob P V.
    destruct (keeps_rls i (draws_last d i) ob start p (ad_moves d 0) I HP (fun l => proj1 l)) as [K1 K2].
    assert (F := begun_fits i (rls_sized i) (mk_rls garbage h) s0 S BG).
    pose proof (fits_loop i _ _ _ _ num iterations K1 K2 _ F) as FL.
    pose proof (loop_ends i _ _ False _ _ num iterations 1 K1 K2 (spends_rls_init ob start) (fun t => spends_rls ob p (ad_moves d 0) t HP) _ F) as LE.
    assert (NI : p_incremental p && o_provides ob = true -> right_increments i ob) by (rewrite HP; discriminate).
    pose proof (rls_run_from ob i p h ph garbage start (ad_moves d 0) num iterations _ R I NI B BG) as RR. rewrite (proj1 BG) in LE.
    destruct (loop _ _ _ _ _) as [r s]. cbn [snd a_trace length Nat.add] in *. destruct RR as [RB RR]. destruct FL as (F1 & F2 & F3).
    assert (FC : first_calls o = 1) by (unfold first_calls; destruct T as [T|T]; rewrite T; reflexivity).
    assert (CL : climber o = false) by (unfold climber; destruct T as [T|T]; rewrite T; reflexivity).
    assert (BE : a_trace s <> [] -> In (fst (a_sol (rls_finalize s))) (a_trace s) /\ forall y, In y (a_trace s) -> (g y <= g (fst (a_sol (rls_finalize s))))%Z).
    { intros NE. destruct (RB NE) as [[C1 C2] C3]. specialize (C3 AC). rewrite C2, V in C3. auto. }
    split; [exact F1|]. split; [intros NE; destruct (BE NE); auto|].
    destruct r as [u|e| |]; auto.
    - destruct RR as (NE & RL & _). split; [exact NE|]. split; [now apply BE|]. split; [|destruct (RB NE) as [[C1 C2] _]; now rewrite C2, V]. destruct LE as [LE|[LE _]].
      + apply by_iterations; [apply LE|]. intros _. rewrite FC. apply LE.
      + destruct (RL LE) as (PP & EF & RS). rewrite EF in *. apply RE; auto.
        destruct (RB NE) as [[C1 C2] _]. rewrite C2, V in RS. destruct RS as (T1 & T2 & H1 & H2 & H3 & H4). exists T1, T2. repeat split; auto.
        intros y Hy. specialize (H4 y Hy). now rewrite V in H4.
    - split; [exact CL|]. rewrite FC. exact LE.
  Qed.

  (** Hill climbing *)
  Lemma climbed x T b : climber o = true -> length x = i -> (b = true -> local_maximum g i (climbing_radius o) x) -> ((num <= 0)%Z -> b = true) -> stops_itself o f i T x.
  Proof.
    intros C Lx HL HN. destruct b.
    - apply by_local_maximum; [assumption|]. intros y Hy. pose proof (HL eq_refl y Hy) as H. rewrite (HV y), (HV x); [cbn; now apply Z.leb_le|assumption|apply Hy].
    - apply by_iterations; [|congruence]. destruct (Z.ltb_spec 0 num); [assumption|]. specialize (HN H). discriminate.
  Qed.

  Context (neighbors : nat) (NB : 2 ^ i < neighbors) (IT : climber o = true -> 2 ^ i + 1 < iterations).

  Lemma known_first t s0 : ao_algorithm o = 160%Z -> nit_reachable i (climbing_radius o) t -> nit_sized i t -> begun i t s0 ->
    run_known i f g (fun ob => loop (hc_alg_init ob start) (first_iterate ob neighbors) num iterations) (fun s => s) s0 o iterations (draws_last d i).
  Proof.
    intros T R S BG ob P V. assert (CL : climber o = true) by (unfold climber; rewrite T; reflexivity).
    destruct (keeps_first i ob start neighbors I) as [K1 K2].
    pose proof (fits_loop i _ _ _ _ num iterations K1 K2 _ (begun_fits i (nit_sized i) t s0 S BG)) as FL.
    pose proof (first_ascent_from ob i _ t start num neighbors iterations _ R I NB (IT CL) BG) as RR.
    destruct (loop _ _ _ _ _) as [r s]. cbn [snd] in *. unfold best in RR. rewrite V in RR. destruct FL as (F1 & F2 & F3).
    split; [exact F1|]. destruct r as [u|e| |]; try contradiction.
    - destruct RR as [(R1 & R2 & R3 & R4) _]. destruct (first_best_known _ _ R1) as [B1 B2]. split; [auto|]. split; [intros E; now rewrite E in B1|]. split; [exact B2|]. split; [|exact (proj2 R1)].
      now apply (climbed _ _ (a_last s)).
    - destruct RR as [R1 R2]. split; [intros NE; destruct (first_best_known _ _ (R2 NE)); auto|exact R1].
  Qed.

  Lemma known_steepest c s0 : ao_algorithm o = 150%Z -> nit_reachable i (climbing_radius o) (sa_nit c) -> length (sa_cands c) = i -> sahc_sized i c -> begun i c s0 ->
    run_known i f g (fun ob => loop (sahc_init ob start) (steepest_iterate ob (ad_pick d 0) neighbors) num iterations) (fun s => s) s0 o iterations (draws_last d i).
  Proof.
    intros T R LC S BG ob P V. assert (CL : climber o = true) by (unfold climber; rewrite T; reflexivity).
    destruct (keeps_steepest i ob start (ad_pick d 0) neighbors I) as [K1 K2].
    pose proof (fits_loop i _ _ _ _ num iterations K1 K2 _ (begun_fits i (sahc_sized i) c s0 S BG)) as FL. destruct DO as (_ & _ & D3).
    pose proof (steepest_ascent_from ob i _ c start (ad_pick d 0) num neighbors iterations _ N R LC I D3 NB (IT CL) BG) as RR.
    destruct (loop _ _ _ _ _) as [r s]. cbn [snd] in *. rewrite V in RR. destruct FL as (F1 & F2 & F3).
    split; [exact F1|]. destruct r as [u|e| |]; try contradiction.
    - destruct RR as [([[C1 C2] C3] & R2 & R3 & R4) _]. rewrite C2, V in C3. split; [auto|]. split; [intros E; now rewrite E in C1|]. split; [exact C3|]. split; [|now rewrite C2, V].
      now apply (climbed _ _ (a_last s)).
    - destruct RR as [R1 R2]. split; [|exact R1]. intros NE. destruct (R2 NE) as [C1 _]. split; [exact C1|]. now intros [].
  Qed.
End Known.

(** All the local searches *)
Theorem local_search_program ap co m F mid target i n f g o d neighbors iterations garbage others : 0 < i -> options_ok o i -> draws_ok o d i ->
  2 ^ i < neighbors -> (climber o = true -> 2 ^ i + 1 < iterations) ->
  optimizes ap -> ap_restart ap = false -> make_function_controller co F = Ok (mid, target) ->
  map_fits m i n -> kind_known m -> fp_size (f_props F) = i -> total (f_obj F) (f_init F) i f -> finite_values i f g ->
  exists N, forall fuel, N < fuel ->
  let p := program ap co (Ok (Some (m, F))) (make_algorithm o d neighbors iterations garbage others) fuel in
  (exists r x success, p = Some (report ap co m i r x success) /\
     rs_success r = (match co_stop_on_maximum co, co_target co with false, None => None | _, _ => Some success end) /\
     local_search_ends o co target f i r x success) \/
  (p = None /\ climber o = false /\
     (draws_last d i -> (ao_num_iterations o <= 0 \/ Z.of_nat iterations <= ao_num_iterations o)%Z /\
        (co_cache co = false -> (0 < co_budget co)%Z -> (Z.of_nat (first_calls o + iterations) <= co_budget co)%Z))).
Proof.
  intros N OK DO NB IT HO HR HC HM HK HF HT HV.
  assert (G : forall X (run : nat -> objective -> act (alg X) unit) fin s0, adaptive (run 0) -> a_trace s0 = [] ->
    run_known i f g (run 0) fin s0 o iterations (draws_last d i) ->
    (forall ob, o_provides ob = false -> Forall (fun x => length x = i) (a_trace (snd (run 0 ob s0))) /\ length (fst (a_sol (fin (snd (run 0 ob s0))))) = i) ->
    make_algorithm o d neighbors iterations garbage others i = Ok (algorithm_machine run fin s0) ->
    exists N, forall fuel, N < fuel ->
    let p := program ap co (Ok (Some (m, F))) (make_algorithm o d neighbors iterations garbage others) fuel in
    (exists r x success, p = Some (report ap co m i r x success) /\
       rs_success r = (match co_stop_on_maximum co, co_target co with false, None => None | _, _ => Some success end) /\
       local_search_ends o co target f i r x success) \/
    (p = None /\ climber o = false /\
       (draws_last d i -> (ao_num_iterations o <= 0 \/ Z.of_nat iterations <= ao_num_iterations o)%Z /\
          (co_cache co = false -> (0 < co_budget co)%Z -> (Z.of_nat (first_calls o + iterations) <= co_budget co)%Z)))).
  { intros X run fin s0 AD T0 RK SZ EF. exists (length (a_trace (snd (run 0 (endless g) s0)))). intros fuel HFu p.
    apply (search_ends_spec ap co m i target f g (run 0) fin s0 o iterations (draws_last d i) HV p RK).
    rewrite <- HF in EF. apply (algorithm_program ap co m F _ mid target i n f g run fin s0); auto. }
  pose proof OK as (OT & OI & ON & OC).
  assert (FN : forall s : alg rls, rls_sized i (a_mem s) -> length (fst (a_sol (rls_finalize s))) = i) by (intros s [S _]; exact S).
  destruct OT as [T|[T|[T|[T|[T|[T|[]]]]]]]; symmetry in T.
  - destruct (neighborhood_made o i) as (h & E & R & S & B); [apply ON; rewrite T; cbn; auto|assumption|].
    apply (G rw (fun k ob => loop (rw_init ob (RandomStart (ad_first d k))) (rw_iterate ob false (ad_moves d k)) (ao_num_iterations o) iterations)
      (fun s => s) (mk_alg [] (repeat false i, 0%Z) false (mk_rw garbage h))); [apply ad_rw|reflexivity| | |].
    + apply known_rw with (h := h) (ph := Settled) (garbage := garbage); auto using @made_begun. intros t. apply B; [rewrite T; discriminate|apply DO].
    + intros ob P. destruct (keeps_rw i False ob (RandomStart (ad_first d 0)) (ad_moves d 0) I (fun l => match l with end)) as [K1 K2].
      destruct (fits_loop i _ _ _ _ (ao_num_iterations o) iterations K1 K2 _ (made_fits i (rw_sized i) (mk_rw garbage h) S)) as (F1 & F2 & _). auto.
    + unfold make_algorithm. rewrite T. cbn [existsb other_types Z.eqb Pos.eqb orb]. rewrite OC by (rewrite T; cbn; auto). rewrite E. cbn [bind]. rewrite made_alg by assumption. reflexivity.
  - destruct (neighborhood_made o i) as (h & E & R & S & B); [apply ON; rewrite T; cbn; auto|assumption|]. destruct DO as (D1 & D2 & D3).
    apply (G rls (fun k ob => loop (rls_init ob (RandomStart (ad_first d k))) (rls_iterate ob (rls_settings o) (ad_moves d k)) (ao_num_iterations o) iterations)
      rls_finalize (mk_alg [] (repeat false i, 0%Z) false (mk_rls garbage h))); [apply ad_rls|reflexivity| | |].
    + apply known_local with (h := h) (ph := Settled) (garbage := garbage); auto using @made_begun.
      * intros t. apply B; [rewrite T; discriminate|apply D1].
      * unfold rls_settings. cbn. intros a b. destruct (ao_rls_strict o); split; intros H; rewrite ?Z.ltb_lt, ?Z.ltb_ge, ?Z.leb_le, ?Z.leb_gt in H; lia.
      * intros x L PP FL Lx (T1 & T2 & -> & NE & LT & RJ). cbn [rls_settings p_patience p_compare] in *. apply (by_patience o f i _ x T1 T2); auto.
        intros y Hy. specialize (RJ y Hy). cbn [endless o_value] in RJ. rewrite Forall_forall in FL. rewrite (HV y), (HV x) by (auto using in_or_app).
        destruct (ao_rls_strict o); cbn; [now apply Z.leb_le, Z.ltb_ge|now apply Z.ltb_lt, Z.leb_gt].
    + intros ob P. destruct (keeps_rls i False ob (RandomStart (ad_first d 0)) (rls_settings o) (ad_moves d 0) I eq_refl (fun l => match l with end)) as [K1 K2].
      destruct (fits_loop i _ _ _ _ (ao_num_iterations o) iterations K1 K2 _ (made_fits i (rls_sized i) (mk_rls garbage h) S)) as (F1 & F2 & F3). auto.
    + unfold make_algorithm. rewrite T. cbn [existsb other_types Z.eqb Pos.eqb orb]. rewrite OC by (rewrite T; cbn; auto). rewrite E. cbn [bind]. rewrite made_alg by assumption. reflexivity.
  - destruct (iterator_made o (Z.to_nat garbage) i) as (t & E & R & S); [apply OI; unfold climber; rewrite T; reflexivity|].
    apply (G sahc (fun k ob => loop (sahc_init ob (RandomStart (ad_first d k))) (steepest_iterate ob (ad_pick d k) neighbors) (ao_num_iterations o) iterations)
      (fun s => s) (mk_alg [] (repeat false i, 0%Z) false (sahc_make i t))); [apply ad_steepest|reflexivity| | |].
    + apply known_steepest with (c := sahc_make i t); auto using @made_begun; [apply repeat_length|]. split; [exact S|].
      cbn. apply Forall_forall. intros x Hx. apply repeat_spec in Hx. subst x. apply repeat_length.
    + intros ob P. destruct (keeps_steepest i ob (RandomStart (ad_first d 0)) (ad_pick d 0) neighbors I) as [K1 K2].
      assert (S' : sahc_sized i (sahc_make i t)).
      { split; [exact S|]. cbn. apply Forall_forall. intros x Hx. apply repeat_spec in Hx. subst x. apply repeat_length. }
      destruct (fits_loop i _ _ _ _ (ao_num_iterations o) iterations K1 K2 _ (made_fits i (sahc_sized i) _ S')) as (F1 & F2 & _). auto.
    + unfold make_algorithm. rewrite T. cbn [existsb other_types Z.eqb Pos.eqb orb]. rewrite E. cbn [bind]. rewrite made_alg by assumption. reflexivity.
  - destruct (iterator_made o (Z.to_nat garbage) i) as (t & E & R & S); [apply OI; unfold climber; rewrite T; reflexivity|].
    apply (G nit (fun k ob => loop (hc_alg_init ob (RandomStart (ad_first d k))) (first_iterate ob neighbors) (ao_num_iterations o) iterations)
      (fun s => s) (mk_alg [] (repeat false i, 0%Z) false t)); [apply ad_first_ascent|reflexivity|apply known_first with (t := t); auto using @made_begun| |].
    + intros ob P. destruct (keeps_first i ob (RandomStart (ad_first d 0)) neighbors I) as [K1 K2].
      destruct (fits_loop i _ _ _ _ (ao_num_iterations o) iterations K1 K2 _ (made_fits i (nit_sized i) t S)) as (F1 & F2 & _). auto.
    + unfold make_algorithm. rewrite T. cbn [existsb other_types Z.eqb Pos.eqb orb]. rewrite E. cbn [bind]. rewrite made_alg by assumption. reflexivity.
  - destruct (neighborhood_made o i) as (h & E & R & S & B); [apply ON; rewrite T; cbn; auto|assumption|].
    apply (G sa (fun k ob => loop (sa_init ob i (RandomStart (ad_first d k)) (ad_trial_bits d k) (ad_trials d k) (Z.to_nat (ao_sa_num_trials o)))
        (sa_iterate ob (ad_moves d k) (ad_accept d k)) (ao_num_iterations o) iterations)
      (fun s => s) (mk_alg [] (repeat false i, 0%Z) false (mk_sa garbage h))); [apply ad_sa|reflexivity| | |].
    + apply known_sa with (h := h) (ph := Settled) (garbage := garbage); auto using @made_begun; intros t; (apply B; [rewrite T; discriminate|apply DO]).
    + intros ob P. destruct (keeps_sa i False ob (RandomStart (ad_first d 0)) (ad_trial_bits d 0) (ad_trials d 0) (Z.to_nat (ao_sa_num_trials o)) (ad_moves d 0) (ad_accept d 0) I
        (fun l => match l with end) (fun l => match l with end)) as [K1 K2].
      destruct (fits_loop i _ _ _ _ (ao_num_iterations o) iterations K1 K2 _ (made_fits i (sa_sized i) (mk_sa garbage h) S)) as (F1 & F2 & _). auto.
    + unfold make_algorithm. rewrite T. cbn [existsb other_types Z.eqb Pos.eqb orb]. rewrite E. cbn [bind]. rewrite made_alg by assumption. reflexivity.
  - assert (E : op_make i garbage = Ok (mk_opoea (repeat false i, 0%Z) (mk_alg [] (repeat false i, 0%Z) false (mk_rls garbage
      (mk_nh (StandardBitMutation false false) (repeat false i) (repeat false i) []))))).
    { unfold op_make, nh_make. destruct (Nat.ltb_spec 0 i); [|lia]. cbn [ensureb assertb bind]. rewrite made_alg by assumption. reflexivity. }
    set (h0 := mk_nh (StandardBitMutation false false) (repeat false i) (repeat false i) []) in *.
    assert (Rh : nh_reachable i h0 Settled) by (apply (reach_make i (StandardBitMutation false false)); unfold nh_make; destruct (Nat.ltb_spec 0 i); [reflexivity|lia]).
    set (small := match ao_mutation_rate o with Some small => small i | None => 1 <? i end).
    set (h := nh_set_allow_no_mutation (nh_set_mutation_rate h0 small) (ao_allow_no_mutation o)).
    assert (S : nh_sized i h) by (split; apply repeat_length).
    set (q := mk_rls_parameters (fun a b => b <=? a)%Z 0 false). destruct DO as (D1 & D2 & D3).
    set (s0 := mk_alg [] (repeat false i, 0%Z) false (mk_rls garbage h0)) in *.
    assert (ER : forall ob, (let '(r, p) := op_maximize ob small (ao_allow_no_mutation o) false (ad_first d 0) (ad_moves d 0) (ao_num_iterations o) iterations (mk_opoea (repeat false i, 0%Z) s0) in (r, op_rls p))
      = loop (rls_init ob (RandomStart (ad_first d 0))) (rls_iterate ob q (ad_moves d 0)) (ao_num_iterations o) iterations (mk_alg [] (repeat false i, 0%Z) false (mk_rls garbage h))).
    { intros ob. unfold op_maximize. cbv zeta.
      match goal with |- (let '(r, p) := (let '(r0, s) := ?e in _) in _) = ?e' => change e with e'; destruct e' end. reflexivity. }
    apply (G rls (fun k ob s => let '(r, p) := op_maximize ob small (ao_allow_no_mutation o) false (ad_first d k) (ad_moves d k) (ao_num_iterations o) iterations
        (mk_opoea (repeat false i, 0%Z) s) in (r, op_rls p)) (fun s => op_rls (op_finalize (mk_opoea (repeat false i, 0%Z) s))) s0); [apply ad_op|reflexivity| | |].
    + assert (K : run_known i f g (fun ob => loop (rls_init ob (RandomStart (ad_first d 0))) (rls_iterate ob q (ad_moves d 0)) (ao_num_iterations o) iterations) rls_finalize
        (mk_alg [] (repeat false i, 0%Z) false (mk_rls garbage h)) o iterations (draws_last d i)).
      { apply known_local with (h := h) (ph := Settled) (garbage := garbage); auto using @made_begun.
        - apply reach_allow, reach_rate. exact Rh.
        - intros t. apply (bounds_any (bounding_kind o)); [apply D1|]. unfold h, nh_set_mutation_rate, nh_set_allow_no_mutation. destruct small; discriminate.
        - intros a b. cbn. split; intros H; [now apply Z.leb_le in H|apply Z.leb_gt in H; lia].
        - cbn. intros; lia. }
      intros ob P V. specialize (K ob P V). cbv beta. rewrite ER. exact K.
    + intros ob P. cbv beta. rewrite ER.
      destruct (keeps_rls i False ob (RandomStart (ad_first d 0)) q (ad_moves d 0) I eq_refl (fun l => match l with end)) as [K1 K2].
      destruct (fits_loop i _ _ _ _ (ao_num_iterations o) iterations K1 K2 _ (made_fits i (rls_sized i) (mk_rls garbage h) S)) as (F1 & F2 & F3). split; [exact F1|]. cbn [op_finalize op_rls]. now apply FN.
    + unfold make_algorithm. rewrite T. cbn [existsb other_types Z.eqb Pos.eqb orb]. rewrite OC by (rewrite T; cbn; auto). rewrite E. reflexivity.
Qed.
