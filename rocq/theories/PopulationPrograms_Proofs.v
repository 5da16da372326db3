(** The programs which run population algorithms. *)

From Coq Require Import ZArith QArith.
From Verif Require Import Base BaseLemmas BitVector_Model BitVector_Spec BitVector_Proofs Map_Model Map_Spec Representation_Spec Neighborhood_Model Neighborhood_Spec
  Population_Model Population_Spec Double Controller_Model Controller_Spec Decorator_Model Decorator_Spec ControllerStack_Spec Application_Model Application_Spec Search_Model Search_Spec
  Algorithm_Model Algorithm_Spec Algorithm_Proofs PopAlgorithm_Model PopAlgorithm_Spec ProbabilityVector_Model EvolutionaryAlgorithm_Model EvolutionaryAlgorithm_Spec SelfAdjusting_Proofs
  Properties_EvolutionaryAlgorithm Properties_ProbabilityVector
  AlgorithmMachine_Model AlgorithmMachine_Spec AlgorithmMachine_Proofs AlgorithmRuns_Proofs AlgorithmPrograms_Proofs
  PopulationMachine_Model PopulationMachine_Spec PopulationRuns_Proofs PopulationCosts_Proofs.
Local Open Scope nat_scope.

Section Ends.
  Context {X : Type} (ap : app_options) (co : controller_options) (m : option hmap) (i : nat) (target : option dbl) (f : bv -> dbl) (g : bv -> Z).
  Context (run : objective -> act (alg X) unit) (fin : alg X -> alg X) (s0 : alg X) (o : algo_options) (po : population_options) (debug : bool) (iterations : nat) (enough : Prop).
  Context (HV : finite_values i f g).
  Context (first per lag early : nat).
  Context (HF : first_generation o po = Z.of_nat first) (HP : generation_calls o po debug = Z.of_nat per) (HL : generation_size o po = Z.of_nat lag).
  Context (HE : 0 < early -> starts_with_population o = true /\ po_mu po = Z.of_nat early).

  (** What is known of every run *)
  Definition population_known : Prop := forall ob, o_provides ob = false -> o_value ob = g ->
    let '(r, s) := run ob s0 in
    Forall (fun x => length x = i) (a_trace s) /\ a_trace (fin s) = a_trace s /\
    (too_early ob i early r (fin s) \/ run_top ob lag r (fin s)) /\
    match r with
    | Ret _ => (0 < ao_num_iterations o)%Z /\ Z.of_nat (length (a_trace s)) = (Z.of_nat first + ao_num_iterations o * Z.of_nat per)%Z
    | Pending => enough -> (ao_num_iterations o <= 0 \/ Z.of_nat iterations <= ao_num_iterations o)%Z /\ length (a_trace s) = first + iterations * per
    | _ => True
    end.

  Lemma top_best ob T sol : o_value ob = g -> Forall (fun x => length x = i) T -> top_of ob T sol -> AlgorithmMachine_Spec.best_of f T (fst sol).
  Proof.
    intros V F (H1 & H2 & H3). rewrite V in *. apply (greatest_best i f g HV); auto. intros y Hy. rewrite <- H2. auto.
  Qed.

  Lemma population_ends_spec p : population_known -> program_ends ap co m i target f g run fin s0 p ->
    (exists r x success, p = Some (report ap co m i r x success) /\
       rs_success r = (match co_stop_on_maximum co, co_target co with false, None => None | _, _ => Some success end) /\
       population_ends o po debug co target f i r x success) \/
    (p = None /\
       (enough -> (ao_num_iterations o <= 0 \/ Z.of_nat iterations <= ao_num_iterations o)%Z /\
          (co_cache co = false -> (0 < co_budget co)%Z -> (first_generation o po + Z.of_nat iterations * generation_calls o po debug <= co_budget co)%Z))).
  Proof.
    intros RK H. destruct H as [s' r ER HM HW HT HS|s' r ER HM HT HS HB HB'|s' x r t ER HM EX ET HG HWx HT HR HS|s' e ER HM|s' ER HM|s' ER HM HW].
    - left. specialize (RK (endless g) eq_refl eq_refl). rewrite ER in RK. destruct RK as (F & FT & [(e & K & _)|K] & K2 & K3); [discriminate|].
      cbn [run_top] in K. rewrite FT in K. pose proof (top_best (endless g) _ _ eq_refl F K) as B. exists r, (fst (a_sol (fin s'))), false. split; [reflexivity|]. split; [exact HS|].
      apply (generations_done o po debug co target f i (a_trace s')); auto; [now rewrite HF, HP|]. now apply (best_value co i f g HV (a_trace s')).
    - left. specialize (RK (stopping g (length (a_trace s')) LastEvaluation) eq_refl eq_refl). rewrite ER in RK. destruct RK as (F & FT & K & _).
      exists r, (fst (a_sol (fin s'))), false. split; [reflexivity|]. split; [exact HS|].
      destruct K as [(e & _ & _ & KL & KS)|[_ [K|(T1 & T2 & ET & LT & K)]]]; rewrite FT in *.
      + destruct HE as [HE1 HE2]; [lia|]. rewrite KS. apply (population_cut o po debug co target f i (a_trace s')); auto. rewrite HE2. lia.
      + rewrite K in HB. cbn in HB. lia.
      + rewrite ET in *. apply (generation_cut o po debug co target f i T1 T2); auto; [rewrite HL; lia|]. apply Forall_app in F as [F _].
        now apply (top_best (stopping g (length (T1 ++ T2)) LastEvaluation)).
    - left. exists r, x, true. split; [reflexivity|]. split; [exact HS|].
      specialize (RK (stopping g (length (a_trace s') + 1) TargetReached) eq_refl eq_refl).
      destruct (run (stopping g (length (a_trace s') + 1) TargetReached) s0) as [r1 s1]. cbn [snd] in EX. destruct RK as (F & _). rewrite EX in F.
      now apply (population_reached o po debug co target f i (a_trace s') r x t).
    - exfalso. specialize (RK (endless g) eq_refl eq_refl). rewrite ER in RK. destruct RK as (_ & _ & [(e' & _ & K & _)|[K _]] & _); discriminate.
    - exfalso. specialize (RK (endless g) eq_refl eq_refl). rewrite ER in RK. destruct RK as (_ & _ & [(e' & K & _)|K] & _); [discriminate|exact K].
    - right. specialize (RK (endless g) eq_refl eq_refl). rewrite ER in RK. destruct RK as (_ & _ & _ & K2). split; [reflexivity|].
      intros E. destruct (K2 E) as [K3 K4]. split; [assumption|]. intros Hc Hb. specialize (HW Hc Hb). rewrite K4 in HW. rewrite HF, HP. lia.
  Qed.
End Ends.

(** * The algorithms *)

Lemma population_sized z : (0 < z)%Z -> population_size z = Ok (Z.to_nat z) /\ 0 < Z.to_nat z /\ Z.of_nat (Z.to_nat z) = z.
Proof.
  intros H. unfold population_size, vector_size. destruct (Z.ltb_spec z 0); [lia|]. cbn [bind]. destruct (Nat.ltb_spec 0 (Z.to_nat z)); [|lia]. repeat split; lia.
Qed.
Lemma pop_making n k : 0 < n -> 0 < k -> exists p, pop_make k n = Ok p.
Proof. intros N K. unfold pop_make. destruct (Nat.ltb_spec 0 k); [|lia]. destruct (Nat.ltb_spec 0 n); [|lia]. eexists. reflexivity. Qed.
Lemma sized_first n k p : pop_sized n k p -> 0 < k -> pop_bv_size p = Ok n.
Proof. intros [H1 H2] K. unfold pop_bv_size. destruct (p_bvs p) as [|x l]; [cbn in H1; lia|]. inversion H2. cbn. congruence. Qed.
Lemma nh_making n : 0 < n -> exists h, nh_make (StandardBitMutation false false) n = Ok h.
Proof. intros N. unfold nh_make. destruct (Nat.ltb_spec 0 n); [|lia]. eexists. reflexivity. Qed.

Section Programs.
  Context (ap : app_options) (co : controller_options) (m : option hmap) (F : func) (mid : middle) (target : option dbl) (i n : nat) (f : bv -> dbl) (g : bv -> Z).
  Context (o : algo_options) (d : algo_draws) (po : population_options) (pd : population_draws).
  Context (srt : (nat -> nat -> bool) -> list nat -> list nat) (psrt : nat -> (nat -> nat -> bool) -> list nat -> list nat).
  Context (debug : bool) (neighbors iterations : nat) (garbage : Z) (garbage' : Q) (bounds : nat * nat) (others : nat -> outcome machine).
  Context (N : 0 < i) (OK : population_options_ok o po i) (DO : population_draws_ok pd i) (SR : sorts srt) (PS : partially_sorts psrt).
  Context (HO : optimizes ap) (HR : ap_restart ap = false) (HC : make_function_controller co F = Ok (mid, target)).
  Context (HM : map_fits m i n) (HK : kind_known m) (HF : fp_size (f_props F) = i) (HT : total (f_obj F) (f_init F) i f) (HV : finite_values i f g).
  Local Notation num := (ao_num_iterations o).
  Local Notation factory := (make_algorithm o d neighbors iterations garbage (make_population_algorithm o po pd srt psrt debug iterations garbage' bounds others)).

  Definition population_program_ends : Prop :=
    exists N, forall fuel, N < fuel ->
    let p := program ap co (Ok (Some (m, F))) factory fuel in
    (exists r x success, p = Some (report ap co m i r x success) /\
       rs_success r = (match co_stop_on_maximum co, co_target co with false, None => None | _, _ => Some success end) /\
       population_ends o po debug co target f i r x success) \/
    (p = None /\
       (population_draws_last pd i -> (num <= 0 \/ Z.of_nat iterations <= num)%Z /\
          (co_cache co = false -> (0 < co_budget co)%Z -> (first_generation o po + Z.of_nat iterations * generation_calls o po debug <= co_budget co)%Z))).

  (** From the facts about the first calls, one iteration and a run *)
  Lemma generational {X} (R : X -> Prop) (init : nat -> objective -> act (alg X) unit) (iterate : nat -> objective -> nat -> act (alg X) unit)
    (fin : alg X -> alg X) (x : X) (first per lag early : nat) :
    adaptive (fun ob => loop (init 0 ob) (iterate 0 ob) num iterations) -> R x ->
    (forall ob, costs i (population_draws_last pd i) R (init 0 ob) first (fun _ => True)) ->
    (forall ob t, costs i (population_draws_last pd i) R (iterate 0 ob t) per (fun _ => True)) ->
    (forall s, fits i R s -> a_trace (fin s) = a_trace s /\ length (fst (a_sol (fin s))) = i) ->
    (forall ob, o_provides ob = false -> let '(r, s) := loop (init 0 ob) (iterate 0 ob) num iterations (mk_alg [] (repeat false i, 0%Z) false x) in
       too_early ob i early r (fin s) \/ run_top ob lag r (fin s)) ->
    first_generation o po = Z.of_nat first -> generation_calls o po debug = Z.of_nat per -> generation_size o po = Z.of_nat lag ->
    (0 < early -> starts_with_population o = true /\ po_mu po = Z.of_nat early) ->
    factory i = Ok (algorithm_machine (fun k ob => loop (init k ob) (iterate k ob) num iterations) fin (mk_alg [] (repeat false i, 0%Z) false x)) ->
    population_program_ends.
  Proof.
    intros AD Rx CI CT FN RT H1 H2 H3 H4 EF. set (s0 := mk_alg [] (repeat false i, 0%Z) false x) in *.
    pose proof (made_fits i R x Rx) as F0. fold s0 in F0.
    assert (LP : forall ob, let '(r, s') := loop (init 0 ob) (iterate 0 ob) num iterations s0 in
      fits i R s' /\ match r with
        | Ret _ => (0 < num)%Z /\ Z.of_nat (length (a_trace s')) = (Z.of_nat first + num * Z.of_nat per)%Z
        | Pending => population_draws_last pd i -> (num <= 0 \/ Z.of_nat iterations <= num)%Z /\ length (a_trace s') = first + iterations * per
        | _ => True
        end).
    { intros ob. exact (costs_loop i _ R (init 0 ob) (iterate 0 ob) num iterations first per (CI ob) (CT ob) s0 F0). }
    exists (length (a_trace (snd (loop (init 0 (endless g)) (iterate 0 (endless g)) num iterations s0)))). intros fuel HFu p.
    apply (population_ends_spec ap co m i target f g (fun ob => loop (init 0 ob) (iterate 0 ob) num iterations) fin s0 o po debug iterations (population_draws_last pd i) HV
      first per lag early H1 H2 H3 H4 p).
    - intros ob P V. specialize (RT ob P). specialize (LP ob). destruct (loop _ _ _ _ _) as [r s]. destruct LP as [FS LP]. pose proof FS as (F1 & _).
      split; [exact F1|]. split; [apply (FN s FS)|]. split; [exact RT|]. destruct r; auto.
    - rewrite <- HF in EF. apply (algorithm_program ap co m F _ mid target i n f g (fun k ob => loop (init k ob) (iterate k ob) num iterations) fin s0); auto.
      intros ob P. specialize (LP ob). destruct (loop _ _ _ _ _) as [r s]. destruct LP as [FS _]. cbn [snd]. split; [apply FS|apply (FN s FS)].
  Qed.

  Lemma plain_fin {X} (R : X -> Prop) s : fits i R s -> a_trace s = a_trace s /\ length (fst (a_sol s)) = i.
  Proof. intros (_ & F2 & _). auto. Qed.
  Ltac made := cbv beta; unfold make_algorithm, make_population_algorithm; cbv zeta.

  Lemma mupl_program : ao_algorithm o = 310%Z -> population_program_ends.
  Proof.
    intros T. destruct OK as (_ & _ & O & _). destruct (O T) as [O1 O2]. destruct (population_sized _ O1) as (E1 & P1 & Z1). destruct (population_sized _ O2) as (E2 & P2 & Z2).
    set (mu := Z.to_nat (po_mu po)) in *. set (lambda := Z.to_nat (po_lambda po)) in *.
    destruct (pop_making i mu N P1) as (pp & Ep). destruct (pop_making i lambda N P2) as (qq & Eq). destruct (nh_making i N) as (h & Eh).
    assert (Sp := proj1 (pop_made i mu pp Ep)). assert (Sq := proj1 (pop_made i lambda qq Eq)).
    assert (Ek : exists k, plus_make pp qq = Ok k /\ pop_sized i (mu + lambda) k).
    { unfold plus_make. rewrite (sized_first i mu pp Sp P1), (sized_first i lambda qq Sq P2). cbn [bind]. unfold pop_size. rewrite (proj1 Sp), (proj1 Sq).
      destruct (pop_making i (mu + lambda) N ltac:(lia)) as (k & Ek). rewrite Ek. cbn [bind]. rewrite Nat.eqb_refl. exists k. split; [reflexivity|]. apply (pop_made i (mu + lambda) k Ek). }
    destruct Ek as (k & Ek & Sk).
    assert (Em : mupl_make i mu lambda = Ok (mk_ea pp qq h k)) by (unfold mupl_make; rewrite Ep, Eq; cbn [bind]; rewrite Ek; cbn [bind]; rewrite Eh; reflexivity).
    destruct DO as (D1 & D2 & D3 & D4 & D5 & D6 & D7).
    eapply (generational (ea_sized i mu lambda (pop_sized i (mu + lambda)))
      (fun k ob => mupl_init ob (small_rate i (mutation_rate po i)) (ao_allow_no_mutation o) (pd_bits pd k) (pd_first_shuffle pd k) srt)
      (fun k ob => mupl_iterate ob (pd_parents pd k) (pd_mutations pd k) (pd_shuffle pd k) psrt) (fun s => s) (mk_ea pp qq h k) mu lambda lambda mu).
    - apply ad_mupl.
    - split; [exact Sp|]. split; [exact Sq|]. split; [exact (made_nh i _ h Eh)|exact Sk].
    - intros ob. exact (proj1 (costs_mupl i mu lambda _ ob _ _ _ _ _ (pd_parents pd 0) (pd_mutations pd 0) (pd_shuffle pd 0) psrt (fun l => l))).
    - intros ob. exact (proj2 (costs_mupl i mu lambda _ ob false false (pd_bits pd 0) (fun l => l) srt (pd_parents pd 0) (pd_mutations pd 0) (pd_shuffle pd 0) psrt (fun l => l))).
    - apply plain_fin.
    - intros ob P. exact (C67_run ob i mu lambda _ _ _ _ _ _ _ _ _ num iterations _ _ D3 D4 D5 PS D1 SR Em (made_alg i _ N)).
    - unfold first_generation, starts_with_population. rewrite T. auto.
    - unfold generation_calls. rewrite T. auto.
    - unfold generation_size, generation_calls. rewrite T. auto.
    - unfold starts_with_population. rewrite T. auto.
    - made. rewrite T. cbn [existsb other_types Z.eqb Pos.eqb orb]. rewrite E1, E2. cbn [bind]. rewrite Em. cbn [bind]. rewrite made_alg by exact N. reflexivity.
  Qed.

  Lemma mucl_program : ao_algorithm o = 320%Z -> population_program_ends.
  Proof.
    intros T. destruct OK as (_ & _ & _ & O & _). destruct (O T) as [O1 O2]. destruct (population_sized _ O1) as (E1 & P1 & Z1).
    destruct (population_sized (po_lambda po)) as (E2 & P2 & Z2); [lia|].
    set (mu := Z.to_nat (po_mu po)) in *. set (lambda := Z.to_nat (po_lambda po)) in *.
    destruct (pop_making i mu N P1) as (pp & Ep). destruct (pop_making i lambda N P2) as (qq & Eq). destruct (nh_making i N) as (h & Eh).
    assert (Sp := proj1 (pop_made i mu pp Ep)). assert (Sq := proj1 (pop_made i lambda qq Eq)).
    assert (Em : mucl_make i mu lambda = Ok (mk_ea pp qq h tt)).
    { unfold mucl_make. rewrite Ep, Eq. cbn [bind]. unfold comma_make, pop_size. rewrite (proj1 Sp), (proj1 Sq). destruct (Nat.leb_spec mu lambda); [|lia]. cbn [ensureb bind]. rewrite Eh. reflexivity. }
    destruct DO as (D1 & D2 & D3 & D4 & D5 & D6 & D7).
    eapply (generational (ea_sized i mu lambda (fun _ => True))
      (fun k ob => mucl_init ob (small_rate i (mutation_rate po i)) (ao_allow_no_mutation o) (pd_bits pd k) (pd_bit pd k))
      (fun k ob => mucl_iterate ob (pd_parents pd k) (pd_mutations pd k) (pd_shuffle pd k) psrt) (fun s => s) (mk_ea pp qq h tt) 1 lambda lambda 0).
    - apply ad_mucl.
    - split; [exact Sp|]. split; [exact Sq|]. split; [exact (made_nh i _ h Eh)|exact I].
    - intros ob. exact (proj1 (costs_mucl i mu lambda _ ob _ _ _ _ (pd_parents pd 0) (pd_mutations pd 0) (pd_shuffle pd 0) psrt (fun l => l))).
    - intros ob. exact (proj2 (costs_mucl i mu lambda _ ob false false (pd_bits pd 0) (pd_bit pd 0) (pd_parents pd 0) (pd_mutations pd 0) (pd_shuffle pd 0) psrt (fun l => l))).
    - apply plain_fin.
    - intros ob P. pose proof (C68_run ob i mu lambda _ _ _ _ (small_rate i (mutation_rate po i)) (ao_allow_no_mutation o) (pd_bits pd 0) (pd_bit pd 0) num iterations _ _ D3 D4 D5 PS Em (made_alg i _ N)) as RR.
      destruct (loop _ _ _ _ _). now right.
    - unfold first_generation, starts_with_population. rewrite T. auto.
    - unfold generation_calls. rewrite T. auto.
    - unfold generation_size, generation_calls. rewrite T. auto.
    - lia.
    - made. rewrite T. cbn [existsb other_types Z.eqb Pos.eqb orb]. rewrite E1, E2. cbn [bind]. rewrite Em. cbn [bind]. rewrite made_alg by exact N. reflexivity.
  Qed.

  Lemma trea_program : ao_algorithm o = 330%Z -> population_program_ends.
  Proof.
    intros T. destruct OK as (_ & _ & _ & _ & O & _). destruct (O T) as (O1 & O2 & O3). destruct (population_sized _ O1) as (E1 & P1 & Z1).
    set (lambda := Z.to_nat (po_lambda po)) in *.
    destruct (pop_making i lambda N P1) as (pp & Ep). destruct (nh_making i N) as (h & Eh). assert (Sp := proj1 (pop_made i lambda pp Ep)).
    assert (Em : trea_make i lambda garbage' = Ok (mk_trea pp h garbage')) by (unfold trea_make; rewrite Ep; cbn [bind]; rewrite Eh; reflexivity).
    assert (RI : (2 / inject_Z (Z.of_nat i) <= rate_or (tr_min i) (po_mutation_rate po) <= 1 # 4)%Q).
    { unfold rate_or. destruct (po_mutation_rate po) as [q|]; [now apply O3|]. split; [apply Qle_refl|]. unfold tr_min.
      apply Qle_shift_div_r; [change 0%Q with (inject_Z 0); rewrite <- Zlt_Qlt; lia|].
      apply Qle_trans with ((1 # 4) * inject_Z 8)%Q; [discriminate|]. apply Qmult_le_l; [reflexivity|]. rewrite <- Zle_Qle. lia. }
    destruct DO as (D1 & D2 & D3 & D4 & D5 & D6 & D7).
    eapply (generational (trea_sized i lambda)
      (fun k ob => trea_init ob (rate_or (tr_min i) (po_mutation_rate po)) (ao_allow_no_mutation o) (pd_bit pd k))
      (fun k ob => trea_iterate ob i (small_rate i) (pd_mutations pd k) (pd_shuffle pd k) srt (pd_decide pd k)) (fun s => s) (mk_trea pp h garbage') 1 lambda lambda 0).
    - apply ad_trea.
    - split; [exact Sp|exact (made_nh i _ h Eh)].
    - intros ob. exact (proj1 (costs_trea i lambda _ ob _ _ _ (small_rate i) (pd_mutations pd 0) (pd_shuffle pd 0) srt (pd_decide pd 0) (fun l => l))).
    - intros ob. exact (proj2 (costs_trea i lambda _ ob 1%Q false (pd_bit pd 0) (small_rate i) (pd_mutations pd 0) (pd_shuffle pd 0) srt (pd_decide pd 0) (fun l => l))).
    - apply plain_fin.
    - intros ob P. pose proof (C72_run ob i lambda (ao_allow_no_mutation o) _ (small_rate i) _ _ _ (pd_decide pd 0) (pd_bit pd 0) _ num iterations _ _ O2 D4 D5 SR RI Em (made_alg i _ N)) as RR.
      destruct (loop _ _ _ _ _). right. apply RR.
    - unfold first_generation, starts_with_population. rewrite T. auto.
    - unfold generation_calls. rewrite T. auto.
    - unfold generation_size, generation_calls. rewrite T. auto.
    - lia.
    - made. rewrite T. cbn [existsb other_types Z.eqb Pos.eqb orb]. rewrite E1. cbn [bind]. rewrite Em. cbn [bind]. rewrite made_alg by exact N. reflexivity.
  Qed.

  Lemma ga_program : ao_algorithm o = 400%Z -> population_program_ends.
  Proof.
    intros T. destruct OK as (_ & _ & _ & _ & _ & O & _). specialize (O T). destruct (population_sized (po_mu po)) as (E1 & P1 & Z1); [lia|].
    set (mu := Z.to_nat (po_mu po)) in *.
    destruct (pop_making i mu N P1) as (pp & Ep). destruct (nh_making i N) as (h & Eh). assert (Sp := proj1 (pop_made i mu pp Ep)).
    assert (Em : exists x, ga_make i mu bounds = Ok (mk_ea pp pp h x)).
    { unfold ga_make. rewrite Ep. cbn [bind]. unfold comma_make, pop_size. rewrite Nat.leb_refl. cbn [ensureb bind].
      assert (Ev : length (p_bvs pp) =? length (p_values pp) = true).
      { apply Nat.eqb_eq. revert Ep. unfold pop_make. destruct (0 <? mu); [|discriminate]. destruct (0 <? i); [|discriminate]. cbn [ensureb bind]. intros E. apply Ok_inj in E as <-. cbn. now rewrite !repeat_length. }
      unfold tournament_make. rewrite Ev. cbn [ensureb bind]. rewrite Eh. eexists. reflexivity. }
    destruct Em as (x & Em). destruct DO as (D1 & D2 & D3 & D4 & D5 & D6 & D7).
    eapply (generational (ea_sized i mu mu (fun _ => True))
      (fun k ob => ga_init ob (Z.to_nat (po_tournament_size po)) (small_rate i (mutation_rate po i)) (ao_allow_no_mutation o) (pd_bits pd k) (pd_first_tournament pd k) (pd_first_shuffle pd k) srt)
      (fun k ob => ga_iterate ob (pd_cross pd k) (pd_coins pd k) (pd_tournament1 pd k) (pd_tournament2 pd k) (pd_mutations pd k) (pd_shuffle pd k) psrt) (fun s => s) (mk_ea pp pp h x) mu mu mu mu).
    - apply ad_ga.
    - split; [exact Sp|]. split; [exact Sp|]. split; [exact (made_nh i _ h Eh)|exact I].
    - intros ob. exact (proj1 (costs_ga i mu _ ob _ _ _ _ _ _ _ (pd_cross pd 0) (pd_coins pd 0) (pd_tournament1 pd 0) (pd_tournament2 pd 0) (pd_mutations pd 0) (pd_shuffle pd 0) psrt (fun l => l))).
    - intros ob. exact (proj2 (costs_ga i mu _ ob 2 false false (pd_bits pd 0) (fun l => l) (fun l => l) srt (pd_cross pd 0) (pd_coins pd 0) (pd_tournament1 pd 0) (pd_tournament2 pd 0) (pd_mutations pd 0) (pd_shuffle pd 0) psrt (fun l => l))).
    - apply plain_fin.
    - intros ob P. pose proof (C69_run ob i mu (pd_cross pd 0) (pd_coins pd 0) _ _ _ _ _ (Z.to_nat (po_tournament_size po)) (small_rate i (mutation_rate po i)) (ao_allow_no_mutation o) (pd_bits pd 0)
        _ _ _ _ num iterations _ _ D6 D7 D4 D5 PS D2 D1 SR Em (made_alg i _ N)) as RR.
      assert (B : (2 <=? Z.to_nat (po_tournament_size po)) && (Z.to_nat (po_tournament_size po) <? mu) = true).
      { apply andb_true_intro. split; [apply Nat.leb_le|apply Nat.ltb_lt]; lia. }
      rewrite B in RR. exact RR.
    - unfold first_generation, starts_with_population. rewrite T. auto.
    - unfold generation_calls. rewrite T. auto.
    - unfold generation_size, generation_calls. rewrite T. auto.
    - unfold starts_with_population. rewrite T. auto.
    - made. rewrite T. cbn [existsb other_types Z.eqb Pos.eqb orb]. rewrite E1. cbn [bind]. rewrite Em. cbn [bind]. rewrite made_alg by exact N. reflexivity.
  Qed.

  Lemma saea_program : ao_algorithm o = 301%Z -> population_program_ends.
  Proof.
    intros T. destruct OK as (_ & O & _). specialize (O T). destruct (nh_making i N) as (h & Eh).
    assert (Em : saea_make i garbage' = Ok (mk_saea h garbage')) by (unfold saea_make; rewrite Eh; reflexivity).
    destruct DO as (D1 & D2 & D3 & D4 & D5 & D6 & D7).
    eapply (generational (saea_sized i)
      (fun k ob => saea_init ob (saea_settings o po i) (small_rate i) (pd_bit pd k))
      (fun k ob => saea_iterate ob (saea_settings o po i) (small_rate i) (fun t => pd_mutations pd k t 0)) saea_finalize (mk_saea h garbage') 1 1 1 0).
    - now apply ad_saea.
    - exact (made_nh i _ h Eh).
    - intros ob. exact (proj1 (costs_saea i _ ob (saea_settings o po i) (small_rate i) (pd_bit pd 0) (fun t => pd_mutations pd 0 t 0) eq_refl (fun l t => l t 0))).
    - intros ob. exact (proj2 (costs_saea i _ ob (saea_settings o po i) (small_rate i) (pd_bit pd 0) (fun t => pd_mutations pd 0 t 0) eq_refl (fun l t => l t 0))).
    - intros s (F1 & F2 & [F3 F4]). split; [reflexivity|]. exact F3.
    - intros ob P. destruct (saea_start _ _ _ _ Em (made_alg i _ N)) as (R & ST & T0 & L0).
      pose proof (saea_run ob i (saea_settings o po i) (small_rate i) (fun t => pd_mutations pd 0 t 0) (fun t => D4 t 0) ltac:(discriminate) (fun _ => True) I (fun _ _ => I) (fun _ _ => I)
        (pd_bit pd 0) num iterations _ R ST T0 L0) as RR.
      destruct (loop _ _ _ _ _). right. apply RR.
    - unfold first_generation, starts_with_population. rewrite T. auto.
    - unfold generation_calls. rewrite T. auto.
    - unfold generation_size, generation_calls. rewrite T. auto.
    - lia.
    - made. rewrite T. cbn [existsb other_types Z.eqb Pos.eqb orb]. rewrite O. rewrite Em. cbn [bind]. rewrite made_alg by exact N. reflexivity.
  Qed.

  Lemma eda_made k p : pop_make k i = Ok p -> eda_make k i = Ok (mk_eda (repeat 0%Q i) p).
  Proof. intros E. unfold eda_make. now rewrite E. Qed.
  Lemma pbil_program : ao_algorithm o = 500%Z -> population_program_ends.
  Proof.
    intros T. destruct OK as (_ & _ & _ & _ & _ & _ & O & O'). rewrite T in O, O'. specialize (O ltac:(cbn; auto)). specialize (O' ltac:(cbn; auto)).
    destruct (population_sized (po_population_size po)) as (E1 & P1 & Z1); [lia|]. set (size := Z.to_nat (po_population_size po)) in *.
    destruct (pop_making i size N P1) as (pp & Ep). assert (Sp := proj1 (pop_made i size pp Ep)). pose proof (eda_made size pp Ep) as Em.
    assert (SS : 0 < Z.to_nat (po_selection_size po) <= size) by lia. destruct DO as (D1 & D2 & D3 & D4 & D5 & D6 & D7).
    eapply (generational (eda_sized i size) (fun k ob => eda_init ob (pd_bit pd k))
      (fun k ob => pbil_iterate ob i (Z.to_nat (po_selection_size po)) (po_learning_rate po) (pd_uniform pd k) (pd_shuffle pd k) srt) (fun s => s) (mk_eda (repeat 0%Q i) pp) 1 size size 0).
    - apply ad_pbil.
    - exact Sp.
    - intros ob. apply costs_eda_init.
    - intros ob t. apply costs_eda.
    - apply plain_fin.
    - intros ob P. pose proof (C64_pbil ob i size (Z.to_nat (po_selection_size po)) (po_learning_rate po) (pd_uniform pd 0) _ srt (pd_bit pd 0) num iterations _ _ O' SS D5 SR Em (made_alg i _ N)) as RR.
      destruct (loop _ _ _ _ _). now right.
    - unfold first_generation, starts_with_population. rewrite T. auto.
    - unfold generation_calls. rewrite T. auto.
    - unfold generation_size, generation_calls. rewrite T. auto.
    - lia.
    - made. rewrite T. cbn [existsb other_types Z.eqb Pos.eqb orb]. rewrite E1. cbn [bind]. rewrite Em. cbn [bind]. rewrite made_alg by exact N. reflexivity.
  Qed.
  Lemma nps_program : ao_algorithm o = 501%Z -> population_program_ends.
  Proof.
    intros T. destruct OK as (_ & _ & _ & _ & _ & _ & O & O'). rewrite T in O, O'. specialize (O ltac:(cbn; auto)). specialize (O' ltac:(cbn; auto)).
    destruct (population_sized (po_population_size po)) as (E1 & P1 & Z1); [lia|]. set (size := Z.to_nat (po_population_size po)) in *.
    destruct (pop_making i size N P1) as (pp & Ep). assert (Sp := proj1 (pop_made i size pp Ep)). pose proof (eda_made size pp Ep) as Em.
    assert (SS : 0 < Z.to_nat (po_selection_size po) <= size) by lia. destruct DO as (D1 & D2 & D3 & D4 & D5 & D6 & D7).
    eapply (generational (eda_sized i size) (fun k ob => eda_init ob (pd_bit pd k))
      (fun k ob => nps_iterate ob i (Z.to_nat (po_selection_size po)) (po_learning_rate po) (pd_uniform pd k) (pd_shuffle pd k) srt) (fun s => s) (mk_eda (repeat 0%Q i) pp) 1 size size 0).
    - apply ad_nps.
    - exact Sp.
    - intros ob. apply costs_eda_init.
    - intros ob t. apply costs_eda.
    - apply plain_fin.
    - intros ob P. pose proof (C64_nps_pbil ob i size (Z.to_nat (po_selection_size po)) (po_learning_rate po) (pd_uniform pd 0) _ srt (pd_bit pd 0) num iterations _ _ O' SS D5 SR Em (made_alg i _ N)) as RR.
      destruct (loop _ _ _ _ _). now right.
    - unfold first_generation, starts_with_population. rewrite T. auto.
    - unfold generation_calls. rewrite T. auto.
    - unfold generation_size, generation_calls. rewrite T. auto.
    - lia.
    - made. rewrite T. cbn [existsb other_types Z.eqb Pos.eqb orb]. rewrite E1. cbn [bind]. rewrite Em. cbn [bind]. rewrite made_alg by exact N. reflexivity.
  Qed.
  Lemma umda_program : ao_algorithm o = 600%Z -> population_program_ends.
  Proof.
    intros T. destruct OK as (_ & _ & _ & _ & _ & _ & O & O'). rewrite T in O, O'. specialize (O ltac:(cbn; auto)). specialize (O' ltac:(cbn; auto)).
    destruct (population_sized (po_population_size po)) as (E1 & P1 & Z1); [lia|]. set (size := Z.to_nat (po_population_size po)) in *.
    destruct (pop_making i size N P1) as (pp & Ep). assert (Sp := proj1 (pop_made i size pp Ep)). pose proof (eda_made size pp Ep) as Em.
    assert (SS : 0 < Z.to_nat (po_selection_size po) <= size) by lia. destruct DO as (D1 & D2 & D3 & D4 & D5 & D6 & D7).
    eapply (generational (eda_sized i size) (fun k ob => eda_init ob (pd_bit pd k))
      (fun k ob => umda_iterate ob i (Z.to_nat (po_selection_size po)) (pd_uniform pd k) (pd_shuffle pd k) srt) (fun s => s) (mk_eda (repeat 0%Q i) pp) 1 size size 0).
    - apply ad_umda.
    - exact Sp.
    - intros ob. apply costs_eda_init.
    - intros ob t. apply (costs_eda i size _ ob (Z.to_nat (po_selection_size po)) 0%Q (pd_uniform pd 0)).
    - apply plain_fin.
    - intros ob P. pose proof (C64_umda ob i size (Z.to_nat (po_selection_size po)) (pd_uniform pd 0) _ srt (pd_bit pd 0) num iterations _ _ O' SS D5 SR Em (made_alg i _ N)) as RR.
      destruct (loop _ _ _ _ _). now right.
    - unfold first_generation, starts_with_population. rewrite T. auto.
    - unfold generation_calls. rewrite T. auto.
    - unfold generation_size, generation_calls. rewrite T. auto.
    - lia.
    - made. rewrite T. cbn [existsb other_types Z.eqb Pos.eqb orb]. rewrite E1. cbn [bind]. rewrite Em. cbn [bind]. rewrite made_alg by exact N. reflexivity.
  Qed.

  Lemma sampler_made : sampler_sized i (sampler_make i).
  Proof. split; apply repeat_length. Qed.
  Lemma cga_program : ao_algorithm o = 700%Z -> population_program_ends.
  Proof.
    intros T. destruct OK as (_ & _ & _ & _ & _ & _ & _ & O'). rewrite T in O'. specialize (O' ltac:(cbn; auto)).
    eapply (generational (sampler_sized i) (fun k ob => cga_init ob (pd_bit pd k))
      (fun k ob => cga_iterate ob i (po_learning_rate po) (pd_uniform pd k) debug) (fun s => s) (sampler_make i) 1 (if debug then 4 else 2) 2 0).
    - apply ad_cga.
    - exact sampler_made.
    - intros ob. exact (proj1 (costs_cga i _ ob (po_learning_rate po) (pd_uniform pd 0) debug (pd_bit pd 0))).
    - intros ob. exact (proj2 (costs_cga i _ ob (po_learning_rate po) (pd_uniform pd 0) debug (pd_bit pd 0))).
    - apply plain_fin.
    - intros ob P. pose proof (C64_cga ob i (po_learning_rate po) (pd_uniform pd 0) debug (pd_bit pd 0) num iterations _ O' (made_alg i _ N)) as RR.
      destruct (loop _ _ _ _ _). now right.
    - unfold first_generation, starts_with_population. rewrite T. auto.
    - unfold generation_calls. rewrite T. now destruct debug.
    - unfold generation_size, generation_calls. rewrite T. auto.
    - lia.
    - made. rewrite T. cbn [existsb other_types Z.eqb Pos.eqb orb]. rewrite made_alg by exact N. reflexivity.
  Qed.
  Lemma mmas_program : ao_algorithm o = 800%Z -> population_program_ends.
  Proof.
    intros T. destruct OK as (_ & _ & _ & _ & _ & _ & _ & O'). rewrite T in O'. specialize (O' ltac:(cbn; auto 10)).
    assert (AC : ascending (mmas_compare po)).
    { unfold mmas_compare. intros a b. destruct (po_mmas_strict po); split; intros H; rewrite ?Z.ltb_lt, ?Z.ltb_ge, ?Z.leb_le, ?Z.leb_gt in H; lia. }
    eapply (generational (sampler_sized i) (fun k ob => mmas_init ob i (po_learning_rate po) (pd_bit pd k))
      (fun k ob => mmas_iterate ob i (po_learning_rate po) (pd_uniform pd k) (mmas_compare po)) (fun s => s) (sampler_make i) 1 1 1 0).
    - apply ad_mmas.
    - exact sampler_made.
    - intros ob. exact (proj1 (costs_mmas i _ ob (po_learning_rate po) (pd_uniform pd 0) (mmas_compare po) (pd_bit pd 0))).
    - intros ob. exact (proj2 (costs_mmas i _ ob (po_learning_rate po) (pd_uniform pd 0) (mmas_compare po) (pd_bit pd 0))).
    - apply plain_fin.
    - intros ob P. pose proof (C64_mmas ob i (po_learning_rate po) (pd_uniform pd 0) (mmas_compare po) (pd_bit pd 0) num iterations _ O' AC (made_alg i _ N)) as RR.
      destruct (loop _ _ _ _ _). now right.
    - unfold first_generation, starts_with_population. rewrite T. auto.
    - unfold generation_calls. rewrite T. auto.
    - unfold generation_size, generation_calls. rewrite T. auto.
    - lia.
    - made. rewrite T. cbn [existsb other_types Z.eqb Pos.eqb orb]. rewrite made_alg by exact N. reflexivity.
  Qed.

  Theorem population_program : population_program_ends.
  Proof.
    pose proof OK as [OT _]. destruct OT as [T|[T|[T|[T|[T|[T|[T|[T|[T|[T|[]]]]]]]]]]]; symmetry in T; revert T;
      [exact saea_program|exact mupl_program|exact mucl_program|exact trea_program|exact ga_program|exact pbil_program|exact nps_program|exact umda_program|exact cga_program|exact mmas_program].
  Qed.
End Programs.
