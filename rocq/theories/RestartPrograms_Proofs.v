(** The programs which restart local searches. *)

From Coq Require Import ZArith.
From Verif Require Import Base BaseLemmas BitVector_Model BitVector_Spec BitVector_Proofs Map_Model Map_Spec Iterator_Model Neighborhood_Model Neighborhood_Spec Double
  Controller_Model Controller_Spec Decorator_Model Decorator_Spec ControllerStack_Spec Application_Model Application_Spec Search_Model Search_Spec
  Algorithm_Model Algorithm_Spec Algorithm_Proofs HillClimbing_Proofs LocalSearch_Proofs EvolutionaryAlgorithm_Model
  AlgorithmMachine_Model AlgorithmMachine_Spec AlgorithmMachine_Proofs AlgorithmRuns_Proofs AlgorithmPrograms_Proofs RestartMachine_Spec RestartMachine_Proofs.
Local Open Scope nat_scope.

Section Runs.
  Context {X : Type} (o : algo_options) (d : algo_draws) (i iterations : nat) (f : bv -> dbl) (g : bv -> Z) (HV : finite_values i f g).
  Context (run : nat -> objective -> act (alg X) unit) (fin : alg X -> alg X) (s0 : alg X) (I : alg X -> Prop) (I0 : I s0).
  Context (STEP : forall j s, I s -> run_known i f g (run j) fin (afresh s) o iterations (draws_last (run_draws d j) i) /\
    forall s', run j (endless g) (afresh s) = (Ret tt, s') -> I (fin s')).
  Local Notation runs_of := (complete_runs run fin g s0).
  Local Notation L l := (map (fun p : list bv * (bv * Z) => (fst p, fst (snd p))) l).

  Lemma runs_inv l s1 : runs_of l s1 -> I s1 /\ Forall (search_run o f i) (L l) /\ (forall T x v, In (T, (x, v)) l -> v = g x /\ T <> [] /\ length x = i).
  Proof.
    induction 1 as [|l s1 s2 H (IH1 & IH2 & IH3) E]; [split; [exact I0|]; split; [constructor|intros ? ? ? []]|].
    destruct (STEP (length l) s1 IH1) as [RK NX]. split; [now apply NX|]. specialize (RK (endless g) eq_refl eq_refl). rewrite E in RK.
    destruct RK as (F & K1 & K2 & K3 & K4 & K5). destruct (K1 K2) as [K6 _]. split.
    - rewrite map_app. apply Forall_app. split; [exact IH2|]. constructor; [|constructor]. cbn [fst snd]. split; [exact F|]. split; [|exact K4].
      now apply (greatest_best i f g).
    - intros T x v Hi. apply in_app_or in Hi as [Hi|[Hi|[]]]; [now apply (IH3 T x v)|]. injection Hi as <- E2.
      rewrite E2 in *. cbn [fst snd] in *. split; [exact K5|]. split; [exact K2|]. rewrite Forall_forall in F. auto.
  Qed.

  Lemma past_L l : past l = concat (map fst (L l)).
  Proof. unfold past. rewrite map_map. reflexivity. Qed.

  Lemma kept_first l s1 x : runs_of l s1 -> kept i l x -> first_best_run f i (L l) x.
  Proof.
    intros H [[-> ->]|(l1 & T & v & l2 & -> & H1 & H2)]; [now left|right]. destruct (runs_inv _ _ H) as (_ & _ & K).
    destruct (K T x v) as (-> & _ & Lx); [apply in_or_app; right; now left|].
    exists (L l1), T, (L l2). split; [now rewrite map_app|]. split; intros U y Hy; apply in_map_iff in Hy as ([U' [y' u]] & E & Hy); cbn [fst snd] in E; injection E as -> ->.
    - destruct (K U y u) as (-> & _ & Ly); [apply in_or_app; now left|]. rewrite (HV x Lx), (HV y Ly). cbn. apply Z.ltb_lt. now apply (H1 U y).
    - destruct (K U y u) as (-> & _ & Ly); [apply in_or_app; right; now right|]. rewrite (HV x Lx), (HV y Ly). cbn. apply Z.leb_le. now apply (H2 U y).
  Qed.

  Lemma many_vectors l s1 : runs_of l s1 -> length l <= length (past l).
  Proof.
    intros H. destruct (runs_inv _ _ H) as (_ & _ & K). clear H. induction l as [|[T [x v]] l IH]; [cbn; lia|].
    unfold past in *. cbn. rewrite app_length. destruct (K T x v) as (_ & N & _); [now left|].
    assert (length l <= length (concat (map fst l))) by (apply IH; intros; now apply (K T0 x0 v0); right). destruct T; [contradiction|cbn; lia].
  Qed.

  Context (ap : app_options) (co : controller_options) (m : option hmap) (target : option dbl).

  Lemma restarts_spec p : restart_ends ap co m i target f g run fin s0 p -> exists r x success, p = report ap co m i r x success /\
    rs_success r = (match co_stop_on_maximum co, co_target co with false, None => None | _, _ => Some success end) /\
    local_restarts_end o co target f i r x success.
  Proof.
    intros [l s1 s' r x H ER Mi TA HS B1 B2 HK|l s1 s' r x t H ER Mi EX ET HG WB TA RV HS|l s1 s' e H ER Mi|l s1 s' H ER Mi];
      destruct (runs_inv l s1 H) as (J & FS & _); destruct (STEP (length l) s1 J) as [RK _].
    - exists r, x, false. split; [reflexivity|]. split; [exact HS|].
      specialize (RK (stopping g (length (a_trace s')) LastEvaluation) eq_refl eq_refl). rewrite ER in RK. destruct RK as (F & _).
      rewrite past_L in *. apply (restarts_out_of_budget o co target f i (L l) (a_trace s') (concat (map fst (L l)) ++ a_trace s') r x); auto; now apply (kept_first l s1).
    - exists r, x, true. split; [reflexivity|]. split; [exact HS|].
      specialize (RK (stopping g (length (a_trace s') + 1) TargetReached) eq_refl eq_refl).
      destruct (run (length l) (stopping g (length (a_trace s') + 1) TargetReached) (afresh s1)) as [r1 s2]. cbn [snd] in EX. destruct RK as (F & _). rewrite EX in F.
      rewrite past_L in *. now apply (restarts_reached o co target f i (L l) (a_trace s') (concat (map fst (L l)) ++ a_trace s') r x t).
    - exfalso. specialize (RK (endless g) eq_refl eq_refl). rewrite ER in RK. destruct RK as (_ & _ & c & K). discriminate.
    - exfalso. specialize (RK (endless g) eq_refl eq_refl). rewrite ER in RK. exact (proj2 (proj2 RK)).
  Qed.

  Lemma goes_on_spec fuel : restart_goes_on co target f g run fin s0 fuel -> co_cache co = false -> (0 < co_budget co)%Z ->
    climber o = true \/ ((forall k, draws_last (run_draws d k) i) /\ (co_budget co <= Z.of_nat iterations)%Z) ->
    (Z.of_nat fuel <= 3 * co_budget co + 1)%Z.
  Proof.
    intros [l s1 s' H ER Mi WB|l s1 w H Mi WB Fu] Hc Hb HE; specialize (WB Hc Hb).
    - exfalso. destruct (runs_inv l s1 H) as (J & _ & _); destruct (STEP (length l) s1 J) as [RK _].
      specialize (RK (endless g) eq_refl eq_refl). rewrite ER in RK. destruct RK as (_ & _ & C & E). destruct HE as [HE|[HE1 HE2]]; [congruence|].
      destruct (E (HE1 _)) as [_ E2]. rewrite app_length, E2 in WB. unfold first_calls in WB. destruct (ao_algorithm o =? 200)%Z; lia.
    - pose proof (many_vectors l s1 H). rewrite app_length in *. lia.
  Qed.
End Runs.

(** All the local searches *)
Theorem local_restarts_program ap co m F mid target i n f g o d neighbors iterations garbage others : 0 < i -> options_ok o i -> (forall k, draws_ok o (run_draws d k) i) ->
  2 ^ i < neighbors -> (climber o = true -> 2 ^ i + 1 < iterations) ->
  optimizes ap -> ap_restart ap = true -> make_function_controller co F = Ok (mid, target) ->
  map_fits m i n -> kind_known m -> fp_size (f_props F) = i -> total (f_obj F) (f_init F) i f -> finite_values i f g ->
  forall fuel, match program ap co (Ok (Some (m, F))) (make_algorithm o d neighbors iterations garbage others) fuel with
  | Some p => exists r x success, p = report ap co m i r x success /\
     rs_success r = (match co_stop_on_maximum co, co_target co with false, None => None | _, _ => Some success end) /\
     local_restarts_end o co target f i r x success
  | None => co_cache co = false -> (0 < co_budget co)%Z ->
      climber o = true \/ ((forall k, draws_last (run_draws d k) i) /\ (co_budget co <= Z.of_nat iterations)%Z) ->
      (Z.of_nat fuel <= 3 * co_budget co + 1)%Z
  end.
Proof.
  intros N OK DO NB IT HO HR HC HM HK HF HT HV fuel.
  assert (G : forall X (run : nat -> objective -> act (alg X) unit) fin s0 (I : alg X -> Prop), (forall j, adaptive (run j)) -> a_trace s0 = [] -> I s0 ->
    (forall j s, I s -> run_known i f g (run j) fin (afresh s) o iterations (draws_last (run_draws d j) i) /\
       (forall ob, o_provides ob = false -> Forall (fun x => length x = i) (a_trace (snd (run j ob (afresh s)))) /\ length (fst (a_sol (fin (snd (run j ob (afresh s)))))) = i) /\
       forall s', run j (endless g) (afresh s) = (Ret tt, s') -> I (fin s')) ->
    make_algorithm o d neighbors iterations garbage others i = Ok (algorithm_machine run fin s0) ->
    match program ap co (Ok (Some (m, F))) (make_algorithm o d neighbors iterations garbage others) fuel with
    | Some p => exists r x success, p = report ap co m i r x success /\
       rs_success r = (match co_stop_on_maximum co, co_target co with false, None => None | _, _ => Some success end) /\
       local_restarts_end o co target f i r x success
    | None => co_cache co = false -> (0 < co_budget co)%Z ->
        climber o = true \/ ((forall k, draws_last (run_draws d k) i) /\ (co_budget co <= Z.of_nat iterations)%Z) ->
        (Z.of_nat fuel <= 3 * co_budget co + 1)%Z
    end).
  { intros X run fin s0 I AD T0 I0 STEP EF. rewrite <- HF in EF.
    assert (STEP' : forall j s, I s -> run_known i f g (run j) fin (afresh s) o iterations (draws_last (run_draws d j) i) /\
      forall s', run j (endless g) (afresh s) = (Ret tt, s') -> I (fin s')) by (intros j s H; now destruct (STEP j s H) as (? & _ & ?)).
    assert (SZ : forall l s1, complete_runs run fin g s0 l s1 -> forall ob, o_provides ob = false ->
      Forall (fun x => length x = i) (a_trace (snd (run (length l) ob (afresh s1)))) /\ length (fst (a_sol (fin (snd (run (length l) ob (afresh s1)))))) = i).
    { intros l s1 H. destruct (runs_inv o d i iterations f g HV run fin s0 I I0 STEP' l s1 H) as (J & _). now destruct (STEP (length l) s1 J) as (_ & S1 & _). }
    pose proof (restart_program ap co m F _ mid target i n f g run fin s0 AD T0 SZ EF HO HR HC HM HK HF HT HV fuel) as RP.
    destruct (program _ _ _ _ fuel) as [p|].
    - exact (restarts_spec o d i iterations f g HV run fin s0 I I0 STEP' ap co m target p RP).
    - exact (goes_on_spec o d i iterations f g HV run fin s0 I I0 STEP' co target fuel RP). }
  pose proof OK as (OT & OI & ON & OC).
  destruct OT as [T|[T|[T|[T|[T|[T|[]]]]]]]; symmetry in T.
  - destruct (neighborhood_made o i) as (h & E & R & S & B); [apply ON; rewrite T; cbn; auto|assumption|]. rewrite T in B. specialize (B ltac:(lia)).
    apply (G rw (fun k ob => loop (rw_init ob (RandomStart (ad_first d k))) (rw_iterate ob false (ad_moves d k)) (ao_num_iterations o) iterations)
      (fun s => s) (mk_alg [] (repeat false i, 0%Z) false (mk_rw garbage h))
      (fun s => length (fst (a_sol s)) = i /\ exists ph h' gb, a_mem s = mk_rw gb h' /\ nh_reachable i h' ph /\ nh_sized i h' /\ nh_class h' = nh_class h));
      [intros j; apply ad_rw|reflexivity| | |].
    + split; [apply repeat_length|]. exists Settled, h, garbage. auto.
    + intros j s (Ls & ph & h' & gb & Em & Rh & Sh & Ch).
      assert (BG : begun i (mk_rw gb h') (afresh s)) by (split; [reflexivity|split; [exact Ls|exact Em]]).
      assert (Bd : forall t, in_bounds (nh_class h') i (ad_moves d j t)) by (intros t; rewrite Ch; apply B, (DO j)).
      assert (FL : forall ob, fits i (rw_sized i) (snd (loop (rw_init ob (RandomStart (ad_first d j))) (rw_iterate ob false (ad_moves d j)) (ao_num_iterations o) iterations (afresh s)))).
      { intros ob. destruct (keeps_rw i False ob (RandomStart (ad_first d j)) (ad_moves d j) I (fun l => match l with end)) as [K1 K2].
        exact (fits_loop i _ _ _ _ (ao_num_iterations o) iterations K1 K2 _ (begun_fits i (rw_sized i) (mk_rw gb h') _ Sh BG)). }
      split; [|split].
      * apply (known_rw o (run_draws d j)) with (h := h') (ph := ph) (garbage := gb); auto.
      * intros ob _. destruct (FL ob) as (F1 & F2 & _). auto.
      * intros s' ES. specialize (FL (endless g)). rewrite ES in FL. destruct FL as (_ & F2 & F3). split; [exact F2|].
        pose proof (random_walk_from (endless g) i h' ph gb (RandomStart (ad_first d j)) false (ad_moves d j) (ao_num_iterations o) iterations _ Rh I eq_refl Bd BG) as RR.
        rewrite ES in RR. destruct RR as [_ RR]. destruct (RR eq_refl) as [R1 R2]. exists Settled, (rw_nh (a_mem s')), (rw_value (a_mem s')).
        split; [now destruct (a_mem s')|]. split; [exact R1|]. split; [exact F3|congruence].
    + unfold make_algorithm. rewrite T. cbn [existsb other_types Z.eqb Pos.eqb orb]. rewrite OC by (rewrite T; cbn; auto). rewrite E. cbn [bind]. rewrite made_alg by assumption. reflexivity.
  - destruct (neighborhood_made o i) as (h & E & R & S & B); [apply ON; rewrite T; cbn; auto|assumption|]. rewrite T in B. specialize (B ltac:(lia)).
    apply (G rls (fun k ob => loop (rls_init ob (RandomStart (ad_first d k))) (rls_iterate ob (rls_settings o) (ad_moves d k)) (ao_num_iterations o) iterations)
      rls_finalize (mk_alg [] (repeat false i, 0%Z) false (mk_rls garbage h))
      (fun s => length (fst (a_sol s)) = i /\ exists ph h' gb, a_mem s = mk_rls gb h' /\ nh_reachable i h' ph /\ nh_sized i h' /\ nh_class h' = nh_class h));
      [intros j; apply ad_rls|reflexivity| | |].
    + split; [apply repeat_length|]. exists Settled, h, garbage. auto.
    + intros j s (Ls & ph & h' & gb & Em & Rh & Sh & Ch).
      assert (BG : begun i (mk_rls gb h') (afresh s)) by (split; [reflexivity|split; [exact Ls|exact Em]]).
      assert (Bd : forall t, in_bounds (nh_class h') i (ad_moves d j t)) by (intros t; rewrite Ch; apply B, (DO j)).
      assert (FL : forall ob, fits i (rls_sized i) (snd (loop (rls_init ob (RandomStart (ad_first d j))) (rls_iterate ob (rls_settings o) (ad_moves d j)) (ao_num_iterations o) iterations (afresh s)))).
      { intros ob. destruct (keeps_rls i False ob (RandomStart (ad_first d j)) (rls_settings o) (ad_moves d j) I eq_refl (fun l => match l with end)) as [K1 K2].
        exact (fits_loop i _ _ _ _ (ao_num_iterations o) iterations K1 K2 _ (begun_fits i (rls_sized i) (mk_rls gb h') _ Sh BG)). }
      split; [|split].
      * apply (known_local o (run_draws d j)) with (h := h') (ph := ph) (garbage := gb); auto.
        -- unfold rls_settings. cbn. intros a b. destruct (ao_rls_strict o); split; intros H; rewrite ?Z.ltb_lt, ?Z.ltb_ge, ?Z.leb_le, ?Z.leb_gt in H; lia.
        -- intros x L PP FF Lx (T1 & T2 & -> & NE & LT & RJ). cbn [rls_settings p_patience p_compare] in *. apply (by_patience o f i _ x T1 T2); auto.
           intros y Hy. specialize (RJ y Hy). cbn [endless o_value] in RJ. rewrite Forall_forall in FF. rewrite (HV y), (HV x) by (auto using in_or_app).
           destruct (ao_rls_strict o); cbn; [now apply Z.leb_le, Z.ltb_ge|now apply Z.ltb_lt, Z.leb_gt].
      * intros ob _. destruct (FL ob) as (F1 & F2 & F3 & _). split; [exact F1|exact F3].
      * intros s' ES. specialize (FL (endless g)). rewrite ES in FL. destruct FL as (_ & F2 & F3). split; [exact (proj1 F3)|].
        pose proof (rls_run_from (endless g) i (rls_settings o) h' ph gb (RandomStart (ad_first d j)) (ad_moves d j) (ao_num_iterations o) iterations _ Rh I
          (fun e => match Bool.diff_false_true e with end) Bd BG) as RR.
        rewrite ES in RR. destruct RR as (_ & _ & _ & _ & R1 & R2). exists Settled, (rls_nh (a_mem s')), (rls_failures (a_mem s')).
        split; [cbn; now destruct (a_mem s')|]. split; [exact R1|]. split; [exact F3|congruence].
    + unfold make_algorithm. rewrite T. cbn [existsb other_types Z.eqb Pos.eqb orb]. rewrite OC by (rewrite T; cbn; auto). rewrite E. cbn [bind]. rewrite made_alg by assumption. reflexivity.
  - destruct (iterator_made o (Z.to_nat garbage) i) as (t & E & R & S); [apply OI; unfold climber; rewrite T; reflexivity|].
    assert (CL : climber o = true) by (unfold climber; rewrite T; reflexivity).
    apply (G sahc (fun k ob => loop (sahc_init ob (RandomStart (ad_first d k))) (steepest_iterate ob (ad_pick d k) neighbors) (ao_num_iterations o) iterations)
      (fun s => s) (mk_alg [] (repeat false i, 0%Z) false (sahc_make i t))
      (fun s => length (fst (a_sol s)) = i /\ nit_reachable i (climbing_radius o) (sa_nit (a_mem s)) /\ length (sa_cands (a_mem s)) = i /\ sahc_sized i (a_mem s)));
      [intros j; apply ad_steepest|reflexivity| | |].
    + split; [apply repeat_length|]. split; [exact R|]. split; [apply repeat_length|]. split; [exact S|]. cbn. apply Forall_forall. intros x Hx. apply repeat_spec in Hx. subst x. apply repeat_length.
    + intros j s (Ls & Rt & Lc & Sz).
      assert (BG : begun i (a_mem s) (afresh s)) by (split; [reflexivity|split; [exact Ls|reflexivity]]).
      assert (FL : forall ob, fits i (sahc_sized i) (snd (loop (sahc_init ob (RandomStart (ad_first d j))) (steepest_iterate ob (ad_pick d j) neighbors) (ao_num_iterations o) iterations (afresh s)))).
      { intros ob. destruct (keeps_steepest i ob (RandomStart (ad_first d j)) (ad_pick d j) neighbors I) as [K1 K2].
        exact (fits_loop i _ _ _ _ (ao_num_iterations o) iterations K1 K2 _ (begun_fits i (sahc_sized i) (a_mem s) _ Sz BG)). }
      split; [|split].
      * apply (known_steepest o (run_draws d j)) with (c := a_mem s); auto.
      * intros ob _. destruct (FL ob) as (F1 & F2 & F3). auto.
      * intros s' ES. specialize (FL (endless g)). rewrite ES in FL. destruct FL as (_ & F2 & F3). split; [exact F2|].
        pose proof (steepest_ascent_from (endless g) i _ (a_mem s) (RandomStart (ad_first d j)) (ad_pick d j) (ao_num_iterations o) neighbors iterations _ N Rt Lc I
          (fun t => proj2 (proj2 (DO j)) t) NB (IT CL) BG) as RR.
        rewrite ES in RR. destruct RR as (_ & R1 & R2). auto.
    + unfold make_algorithm. rewrite T. cbn [existsb other_types Z.eqb Pos.eqb orb]. rewrite E. cbn [bind]. rewrite made_alg by assumption. reflexivity.
  - destruct (iterator_made o (Z.to_nat garbage) i) as (t & E & R & S); [apply OI; unfold climber; rewrite T; reflexivity|].
    assert (CL : climber o = true) by (unfold climber; rewrite T; reflexivity).
    apply (G nit (fun k ob => loop (hc_alg_init ob (RandomStart (ad_first d k))) (first_iterate ob neighbors) (ao_num_iterations o) iterations)
      (fun s => s) (mk_alg [] (repeat false i, 0%Z) false t)
      (fun s => length (fst (a_sol s)) = i /\ nit_reachable i (climbing_radius o) (a_mem s) /\ nit_sized i (a_mem s)));
      [intros j; apply ad_first_ascent|reflexivity| | |].
    + split; [apply repeat_length|]. auto.
    + intros j s (Ls & Rt & Sz).
      assert (BG : begun i (a_mem s) (afresh s)) by (split; [reflexivity|split; [exact Ls|reflexivity]]).
      assert (FL : forall ob, fits i (nit_sized i) (snd (loop (hc_alg_init ob (RandomStart (ad_first d j))) (first_iterate ob neighbors) (ao_num_iterations o) iterations (afresh s)))).
      { intros ob. destruct (keeps_first i ob (RandomStart (ad_first d j)) neighbors I) as [K1 K2].
        exact (fits_loop i _ _ _ _ (ao_num_iterations o) iterations K1 K2 _ (begun_fits i (nit_sized i) (a_mem s) _ Sz BG)). }
      split; [|split].
      * apply (known_first o (run_draws d j)) with (t := a_mem s); auto.
      * intros ob _. destruct (FL ob) as (F1 & F2 & F3). auto.
      * intros s' ES. specialize (FL (endless g)). rewrite ES in FL. destruct FL as (_ & F2 & F3). split; [exact F2|].
        pose proof (first_ascent_from (endless g) i _ (a_mem s) (RandomStart (ad_first d j)) (ao_num_iterations o) neighbors iterations _ Rt I NB (IT CL) BG) as RR.
        rewrite ES in RR. destruct RR as (_ & R1). auto.
    + unfold make_algorithm. rewrite T. cbn [existsb other_types Z.eqb Pos.eqb orb]. rewrite E. cbn [bind]. rewrite made_alg by assumption. reflexivity.
  - destruct (neighborhood_made o i) as (h & E & R & S & B); [apply ON; rewrite T; cbn; auto|assumption|]. rewrite T in B. specialize (B ltac:(lia)).
    apply (G sa (fun k ob => loop (sa_init ob i (RandomStart (ad_first d k)) (ad_trial_bits d k) (ad_trials d k) (Z.to_nat (ao_sa_num_trials o)))
        (sa_iterate ob (ad_moves d k) (ad_accept d k)) (ao_num_iterations o) iterations)
      (fun s => s) (mk_alg [] (repeat false i, 0%Z) false (mk_sa garbage h))
      (fun s => length (fst (a_sol s)) = i /\ exists ph h' gb, a_mem s = mk_sa gb h' /\ nh_reachable i h' ph /\ nh_sized i h' /\ nh_class h' = nh_class h));
      [intros j; apply ad_sa|reflexivity| | |].
    + split; [apply repeat_length|]. exists Settled, h, garbage. auto.
    + intros j s (Ls & ph & h' & gb & Em & Rh & Sh & Ch).
      assert (BG : begun i (mk_sa gb h') (afresh s)) by (split; [reflexivity|split; [exact Ls|exact Em]]).
      assert (Bd : forall t, in_bounds (nh_class h') i (ad_moves d j t)) by (intros t; rewrite Ch; apply B, (DO j)).
      assert (Bt : forall t, in_bounds (nh_class h') i (ad_trials d j t)) by (intros t; rewrite Ch; apply B, (DO j)).
      assert (FL : forall ob, fits i (sa_sized i) (snd (loop (sa_init ob i (RandomStart (ad_first d j)) (ad_trial_bits d j) (ad_trials d j) (Z.to_nat (ao_sa_num_trials o)))
        (sa_iterate ob (ad_moves d j) (ad_accept d j)) (ao_num_iterations o) iterations (afresh s)))).
      { intros ob. destruct (keeps_sa i False ob (RandomStart (ad_first d j)) (ad_trial_bits d j) (ad_trials d j) (Z.to_nat (ao_sa_num_trials o)) (ad_moves d j) (ad_accept d j) I
          (fun l => match l with end) (fun l => match l with end)) as [K1 K2].
        exact (fits_loop i _ _ _ _ (ao_num_iterations o) iterations K1 K2 _ (begun_fits i (sa_sized i) (mk_sa gb h') _ Sh BG)). }
      split; [|split].
      * apply (known_sa o (run_draws d j)) with (h := h') (ph := ph) (garbage := gb); auto.
      * intros ob _. destruct (FL ob) as (F1 & F2 & _). auto.
      * intros s' ES. specialize (FL (endless g)). rewrite ES in FL. destruct FL as (_ & F2 & F3). split; [exact F2|].
        pose proof (simulated_annealing_from (endless g) i h' ph gb (RandomStart (ad_first d j)) (ad_trial_bits d j) (ad_trials d j) (ad_moves d j) (Z.to_nat (ao_sa_num_trials o))
          (ad_accept d j) (ao_num_iterations o) iterations _ Rh I Bt Bd BG) as RR.
        rewrite ES in RR. destruct RR as [_ RR]. destruct (RR eq_refl) as [R1 R2]. exists Settled, (sa_nh (a_mem s')), (sa_current (a_mem s')).
        split; [now destruct (a_mem s')|]. split; [exact R1|]. split; [exact F3|congruence].
    + unfold make_algorithm. rewrite T. cbn [existsb other_types Z.eqb Pos.eqb orb]. rewrite E. cbn [bind]. rewrite made_alg by assumption. reflexivity.
  - assert (E : op_make i garbage = Ok (mk_opoea (repeat false i, 0%Z) (mk_alg [] (repeat false i, 0%Z) false (mk_rls garbage
      (mk_nh (StandardBitMutation false false) (repeat false i) (repeat false i) []))))).
    { unfold op_make, nh_make. destruct (Nat.ltb_spec 0 i); [|lia]. cbn [ensureb assertb bind]. rewrite made_alg by assumption. reflexivity. }
    set (h0 := mk_nh (StandardBitMutation false false) (repeat false i) (repeat false i) []) in *.
    assert (Rh0 : nh_reachable i h0 Settled) by (apply (reach_make i (StandardBitMutation false false)); unfold nh_make; destruct (Nat.ltb_spec 0 i); [reflexivity|lia]).
    set (small := match ao_mutation_rate o with Some small => small i | None => 1 <? i end).
    set (q := mk_rls_parameters (fun a b => b <=? a)%Z 0 false).
    set (s0 := mk_alg [] (repeat false i, 0%Z) false (mk_rls garbage h0)) in *.
    set (again := fun s : alg rls => put_mem (mk_rls (rls_failures (a_mem s)) (nh_set_allow_no_mutation (nh_set_mutation_rate (rls_nh (a_mem s)) small) (ao_allow_no_mutation o))) (afresh s)).
    assert (ER : forall j ob s, (let '(r, p) := op_maximize ob small (ao_allow_no_mutation o) false (ad_first d j) (ad_moves d j) (ao_num_iterations o) iterations (mk_opoea (repeat false i, 0%Z) (afresh s)) in (r, op_rls p))
      = loop (rls_init ob (RandomStart (ad_first d j))) (rls_iterate ob q (ad_moves d j)) (ao_num_iterations o) iterations (again s)).
    { intros j ob s. unfold op_maximize. cbv zeta. fold q. change (a_mem (op_rls (mk_opoea (repeat false i, 0%Z) (afresh s)))) with (a_mem s). fold (again s).
      change (put_mem _ (op_rls _)) with (again s). destruct (loop _ _ _ _ (again s)). reflexivity. }
    apply (G rls (fun k ob s => let '(r, p) := op_maximize ob small (ao_allow_no_mutation o) false (ad_first d k) (ad_moves d k) (ao_num_iterations o) iterations
        (mk_opoea (repeat false i, 0%Z) s) in (r, op_rls p)) (fun s => op_rls (op_finalize (mk_opoea (repeat false i, 0%Z) s))) s0
      (fun s => length (fst (a_sol s)) = i /\ exists ph h' gb, a_mem s = mk_rls gb h' /\ nh_reachable i h' ph /\ nh_sized i h' /\ exists re al, nh_class h' = StandardBitMutation re al));
      [intros j; apply ad_op|reflexivity| | |].
    + split; [apply repeat_length|]. exists Settled, h0, garbage. split; [reflexivity|]. split; [exact Rh0|]. split; [split; apply repeat_length|]. exists false, false. reflexivity.
    + intros j s (Ls & ph & h1 & gb & Em & Rh1 & Sh1 & re & al & Ch).
      set (h' := nh_set_allow_no_mutation (nh_set_mutation_rate h1 small) (ao_allow_no_mutation o)).
      assert (Rh : nh_reachable i h' ph) by (apply reach_allow, reach_rate; exact Rh1).
      assert (Ch' : nh_class h' = StandardBitMutation (if small then true else re) (ao_allow_no_mutation o)).
      { unfold h', nh_set_mutation_rate. rewrite Ch. reflexivity. }
      assert (Sh : nh_sized i h').
      { destruct Sh1. unfold h', nh_set_mutation_rate. rewrite Ch. split; assumption. }
      assert (BG : begun i (mk_rls gb h') (again s)).
      { split; [reflexivity|]. split; [exact Ls|]. unfold again. rewrite Em. reflexivity. }
      assert (Bd : forall t, in_bounds (nh_class h') i (ad_moves d j t)).
      { intros t. rewrite Ch'. apply (bounds_any (bounding_kind o)); [apply (DO j)|discriminate]. }
      assert (FL : forall ob, fits i (rls_sized i) (snd (loop (rls_init ob (RandomStart (ad_first d j))) (rls_iterate ob q (ad_moves d j)) (ao_num_iterations o) iterations (again s)))).
      { intros ob. destruct (keeps_rls i False ob (RandomStart (ad_first d j)) q (ad_moves d j) I eq_refl (fun l => match l with end)) as [K1 K2].
        exact (fits_loop i _ _ _ _ (ao_num_iterations o) iterations K1 K2 _ (begun_fits i (rls_sized i) (mk_rls gb h') _ Sh BG)). }
      split; [|split].
      * assert (K : run_known i f g (fun ob => loop (rls_init ob (RandomStart (ad_first d j))) (rls_iterate ob q (ad_moves d j)) (ao_num_iterations o) iterations) rls_finalize
          (again s) o iterations (draws_last (run_draws d j) i)).
        { apply (known_local o (run_draws d j)) with (h := h') (ph := ph) (garbage := gb); auto.
          - intros a b. cbn. split; intros H; [now apply Z.leb_le in H|apply Z.leb_gt in H; lia].
          - cbn. intros; lia. }
        intros ob P V. specialize (K ob P V). rewrite ER. exact K.
      * intros ob _. rewrite ER. destruct (FL ob) as (F1 & F2 & F3 & _). split; [exact F1|exact F3].
      * intros s' ES. rewrite ER in ES. specialize (FL (endless g)). rewrite ES in FL. destruct FL as (_ & F2 & F3). split; [exact (proj1 F3)|].
        pose proof (rls_run_from (endless g) i q h' ph gb (RandomStart (ad_first d j)) (ad_moves d j) (ao_num_iterations o) iterations _ Rh I
          (fun e => match Bool.diff_false_true e with end) Bd BG) as RR.
        rewrite ES in RR. destruct RR as (_ & _ & _ & _ & R1 & R2). exists Settled, (rls_nh (a_mem s')), (rls_failures (a_mem s')).
        split; [cbn; now destruct (a_mem s')|]. split; [exact R1|]. split; [exact F3|]. rewrite R2, Ch'. eauto.
    + unfold make_algorithm. rewrite T. cbn [existsb other_types Z.eqb Pos.eqb orb]. rewrite OC by (rewrite T; cbn; auto). rewrite E. reflexivity.
Qed.
