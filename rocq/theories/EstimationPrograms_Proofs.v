(** The programs which run the information-theoretic EA, UMDA with random affine maps, the
    herding evolutionary algorithm, Boltzmann machine PBIL and MIMIC. *)

From Coq Require Import ZArith QArith.
From Verif Require Import Base BaseLemmas BitVector_Model BitVector_Spec BitVector_Proofs Map_Model Map_Spec Representation_Spec Neighborhood_Model Neighborhood_Spec
  Population_Model Population_Spec Double Controller_Model Controller_Spec Decorator_Model Decorator_Spec ControllerStack_Spec Application_Model Application_Spec Search_Model Search_Spec
  Algorithm_Model Algorithm_Spec Algorithm_Proofs PopAlgorithm_Model PopAlgorithm_Spec ProbabilityVector_Model EvolutionaryAlgorithm_Model EvolutionaryAlgorithm_Spec
  ItEa_Model ItEa_Spec RamUmda_Model RamUmda_Spec WalshMoment_Model WalshMoment_Proofs WalshEda_Model WalshEda_Spec Mimic_Model
  Properties_ItEa Properties_RamUmda Properties_WalshEda Properties_Mimic
  AlgorithmMachine_Model AlgorithmMachine_Spec AlgorithmMachine_Proofs AlgorithmRuns_Proofs AlgorithmPrograms_Proofs
  PopulationMachine_Model PopulationCosts_Proofs PopulationPrograms_Proofs EstimationMachine_Model EstimationMachine_Spec EstimationRuns_Proofs EstimationCosts_Proofs.
Local Open Scope nat_scope.

Section Ends.
  Context {X : Type} (ap : app_options) (co : controller_options) (m : option hmap) (i : nat) (target : option dbl) (f : bv -> dbl) (g : bv -> Z).
  Context (run : objective -> act (alg X) unit) (s0 : alg X) (o : algo_options) (po : population_options) (eo : estimation_options) (iterations : nat) (enough : Prop).
  Context (HV : finite_values i f g).
  Context (size least most : nat).
  Context (HZ : po_population_size po = Z.of_nat size) (HL : least_calls o po eo = Z.of_nat least) (HM : most_calls o po eo = Z.of_nat most).

  (** What is known of every run *)
  Definition estimation_known : Prop := forall ob, o_provides ob = false -> o_value ob = g ->
    let '(r, s) := run ob s0 in
    Forall (fun x => length x = i) (a_trace s) /\ run_top ob size r s /\
    match r with
    | Ret _ => (0 < ao_num_iterations o)%Z /\ (1 + ao_num_iterations o * Z.of_nat least <= Z.of_nat (length (a_trace s)) <= 1 + ao_num_iterations o * Z.of_nat most)%Z
    | Pending => enough -> (ao_num_iterations o <= 0 \/ Z.of_nat iterations <= ao_num_iterations o)%Z /\ 1 + iterations * least <= length (a_trace s)
    | _ => True
    end.

  Lemma estimation_ends_spec p : estimation_known -> program_ends ap co m i target f g run (fun s => s) s0 p ->
    (exists r x success, p = Some (report ap co m i r x success) /\
       rs_success r = (match co_stop_on_maximum co, co_target co with false, None => None | _, _ => Some success end) /\
       estimation_ends o po eo co target f i r x success) \/
    (p = None /\
       (enough -> (ao_num_iterations o <= 0 \/ Z.of_nat iterations <= ao_num_iterations o)%Z /\
          (co_cache co = false -> (0 < co_budget co)%Z -> (1 + Z.of_nat iterations * least_calls o po eo <= co_budget co)%Z))).
  Proof.
    intros RK H. destruct H as [s' r ER HMi HW HT HS|s' r ER HMi HT HS HB HB'|s' x r t ER HMi EX ET HG HWx HT HR HS|s' e ER HMi|s' ER HMi|s' ER HMi HW].
    - left. specialize (RK (endless g) eq_refl eq_refl). rewrite ER in RK. destruct RK as (F & K & K2 & K3).
      cbn [run_top] in K. pose proof (top_best i f g HV (endless g) _ _ eq_refl F K) as B. exists r, (fst (a_sol s')), false. split; [reflexivity|]. split; [exact HS|].
      apply (estimation_done o po eo co target f i (a_trace s')); auto; [now rewrite HL, HM|]. now apply (best_value co i f g HV (a_trace s')).
    - left. specialize (RK (stopping g (length (a_trace s')) LastEvaluation) eq_refl eq_refl). rewrite ER in RK. destruct RK as (F & K & _).
      exists r, (fst (a_sol s')), false. split; [reflexivity|]. split; [exact HS|].
      destruct K as [_ [K|(T1 & T2 & ET & LT & K)]].
      + rewrite K in HB. cbn in HB. lia.
      + rewrite ET in *. apply (estimation_cut o po eo co target f i T1 T2); auto; [rewrite HZ; lia|]. apply Forall_app in F as [F _].
        now apply (top_best i f g HV (stopping g (length (T1 ++ T2)) LastEvaluation)).
    - left. exists r, x, true. split; [reflexivity|]. split; [exact HS|].
      specialize (RK (stopping g (length (a_trace s') + 1) TargetReached) eq_refl eq_refl).
      destruct (run (stopping g (length (a_trace s') + 1) TargetReached) s0) as [r1 s1]. cbn [snd] in EX. destruct RK as (F & _). rewrite EX in F.
      now apply (estimation_reached o po eo co target f i (a_trace s') r x t).
    - exfalso. specialize (RK (endless g) eq_refl eq_refl). rewrite ER in RK. destruct RK as (_ & [K _] & _); discriminate.
    - exfalso. specialize (RK (endless g) eq_refl eq_refl). rewrite ER in RK. destruct RK as (_ & K & _); exact K.
    - right. specialize (RK (endless g) eq_refl eq_refl). rewrite ER in RK. destruct RK as (_ & _ & K2). split; [reflexivity|].
      intros E. destruct (K2 E) as [K3 K4]. split; [assumption|]. intros Hc Hb. specialize (HW Hc Hb). rewrite HL. lia.
  Qed.
End Ends.

(** * The algorithms *)

Lemma replacement_known z : (0 <= z <= 4)%Z -> replacement_of z <> OtherReplacement.
Proof. intros H. unfold replacement_of. repeat match goal with |- context [(?a =? ?b)%Z] => destruct (Z.eqb_spec a b); [discriminate|] end. lia. Qed.
Lemma length_mode_known z : (0 <= z <= 5)%Z -> length_mode_of z <> LengthOther.
Proof. intros H. unfold length_mode_of. repeat match goal with |- context [(?a =? ?b)%Z] => destruct (Z.eqb_spec a b); [discriminate|] end. lia. Qed.
Lemma sampling_known z : (0 <= z <= 2)%Z -> sampling_mode_of z <> OtherSampling.
Proof. intros H. unfold sampling_mode_of. repeat match goal with |- context [(?a =? ?b)%Z] => destruct (Z.eqb_spec a b); [discriminate|] end. lia. Qed.
Lemma inverse_margin i : 2 <= i -> (0 <= 1 / inject_Z (Z.of_nat i) < 1)%Q.
Proof.
  intros H. assert (P : (0 < inject_Z (Z.of_nat i))%Q) by (change 0%Q with (inject_Z 0); rewrite <- Zlt_Qlt; lia). split.
  - apply Qle_shift_div_l; [exact P|]. rewrite Qmult_0_l. discriminate.
  - apply Qlt_shift_div_r; [exact P|]. rewrite Qmult_1_l. change 1%Q with (inject_Z 1). rewrite <- Zlt_Qlt. lia.
Qed.

Section Programs.
  Context (ap : app_options) (co : controller_options) (m : option hmap) (F : func) (mid : middle) (target : option dbl) (i n : nat) (f : bv -> dbl) (g : bv -> Z).
  Context (o : algo_options) (d : algo_draws) (po : population_options) (pd : population_draws) (eo : estimation_options) (ed : estimation_draws).
  Context (srt : (nat -> nat -> bool) -> list nat -> list nat) (psrt : nat -> (nat -> nat -> bool) -> list nat -> list nat) (lg logistic : Q -> Q).
  Context (debug : bool) (neighbors iterations : nat) (garbage : Z) (garbage' : Q) (time : Z) (bounds : nat * nat) (others : nat -> outcome machine).
  Context (N : 0 < i) (OK : estimation_options_ok o po eo i) (DO : estimation_draws_ok eo ed i) (SR : sorts srt).
  Context (LG : forall x, (1 <= x)%Q -> (0 <= lg x)%Q) (LS : forall a b, (a == b)%Q -> (logistic a == logistic b)%Q).
  Context (HO : optimizes ap) (HR : ap_restart ap = false) (HC : make_function_controller co F = Ok (mid, target)).
  Context (HM : map_fits m i n) (HK : kind_known m) (HF : fp_size (f_props F) = i) (HT : ControllerStack_Spec.total (f_obj F) (f_init F) i f) (HV : finite_values i f g).
  Local Notation num := (ao_num_iterations o).
  Local Notation factory := (make_algorithm o d neighbors iterations garbage (make_population_algorithm o po pd srt psrt debug iterations garbage' bounds
    (make_estimation_algorithm o po eo ed srt lg logistic iterations garbage' time others))).

  Definition estimation_program_ends : Prop :=
    exists N, forall fuel, N < fuel ->
    let p := program ap co (Ok (Some (m, F))) factory fuel in
    (exists r x success, p = Some (report ap co m i r x success) /\
       rs_success r = (match co_stop_on_maximum co, co_target co with false, None => None | _, _ => Some success end) /\
       estimation_ends o po eo co target f i r x success) \/
    (p = None /\
       (estimation_draws_last eo ed i -> (num <= 0 \/ Z.of_nat iterations <= num)%Z /\
          (co_cache co = false -> (0 < co_budget co)%Z -> (1 + Z.of_nat iterations * least_calls o po eo <= co_budget co)%Z))).

  (** From the facts about the first call, one iteration and a run *)
  Lemma estimates {X} (R : X -> Prop) (init : nat -> objective -> act (alg X) unit) (iterate : nat -> objective -> nat -> act (alg X) unit) (x : X) (size least most : nat) :
    adaptive (fun ob => loop (init 0 ob) (iterate 0 ob) num iterations) -> R x ->
    (forall ob, costs i (estimation_draws_last eo ed i) R (init 0 ob) 1 (fun _ => True)) ->
    (forall ob t, costs_in i (estimation_draws_last eo ed i) R (iterate 0 ob t) least most (fun _ => True)) ->
    (forall ob, o_provides ob = false -> let '(r, s) := loop (init 0 ob) (iterate 0 ob) num iterations (mk_alg [] (repeat false i, 0%Z) false x) in run_top ob size r s) ->
    po_population_size po = Z.of_nat size -> least_calls o po eo = Z.of_nat least -> most_calls o po eo = Z.of_nat most ->
    factory i = Ok (algorithm_machine (fun k ob => loop (init k ob) (iterate k ob) num iterations) (fun s => s) (mk_alg [] (repeat false i, 0%Z) false x)) ->
    estimation_program_ends.
  Proof.
    intros AD Rx CI CT RT H1 H2 H3 EF. set (s0 := mk_alg [] (repeat false i, 0%Z) false x) in *.
    pose proof (made_fits i R x Rx) as F0. fold s0 in F0.
    assert (LP : forall ob, let '(r, s') := loop (init 0 ob) (iterate 0 ob) num iterations s0 in
      fits i R s' /\ match r with
        | Ret _ => (0 < num)%Z /\ (1 + num * Z.of_nat least <= Z.of_nat (length (a_trace s')) <= 1 + num * Z.of_nat most)%Z
        | Pending => estimation_draws_last eo ed i -> (num <= 0 \/ Z.of_nat iterations <= num)%Z /\ 1 + iterations * least <= length (a_trace s')
        | _ => True
        end).
    { intros ob. exact (within_loop i _ R (init 0 ob) (iterate 0 ob) num iterations 1 least most (CI ob) (CT ob) s0 F0). }
    exists (length (a_trace (snd (loop (init 0 (endless g)) (iterate 0 (endless g)) num iterations s0)))). intros fuel HFu p.
    apply (estimation_ends_spec ap co m i target f g (fun ob => loop (init 0 ob) (iterate 0 ob) num iterations) s0 o po eo iterations (estimation_draws_last eo ed i) HV
      size least most H1 H2 H3 p).
    - intros ob P V. specialize (RT ob P). specialize (LP ob). destruct (loop _ _ _ _ _) as [r s]. destruct LP as [FS LP]. pose proof FS as (F1 & _).
      split; [exact F1|]. split; [exact RT|]. destruct r; auto.
    - rewrite <- HF in EF. apply (algorithm_program ap co m F _ mid target i n f g (fun k ob => loop (init k ob) (iterate k ob) num iterations) (fun s => s) s0); auto.
      intros ob P. specialize (LP ob). destruct (loop _ _ _ _ _) as [r s]. destruct LP as [FS _]. cbn [snd]. split; [apply FS|apply FS].
  Qed.
  Ltac made := cbv beta; unfold make_algorithm, make_population_algorithm, make_estimation_algorithm; cbv zeta.

  Lemma plain_least size : po_population_size po = Z.of_nat size -> ao_algorithm o <> 340%Z -> least_calls o po eo = Z.of_nat size /\ most_calls o po eo = Z.of_nat size.
  Proof. intros Z1 T. unfold least_calls, most_calls. destruct (Z.eqb_spec (ao_algorithm o) 340); [contradiction|]. cbn [andb]. lia. Qed.

  Lemma it_program : ao_algorithm o = 340%Z -> estimation_program_ends.
  Proof.
    intros T. destruct OK as (_ & OS & O & _). destruct (O T) as (O1 & O2 & O3 & O4). destruct (population_sized _ OS) as (E1 & P1 & Z1).
    set (size := Z.to_nat (po_population_size po)) in *. destruct (pop_making i size N P1) as (pp & Ep). assert (Sp := proj1 (pop_made i size pp Ep)). destruct (nh_making i N) as (h & Eh).
    set (x := mk_itea pp (repeat (repeat false i) size) h (repeat false i, 0%Z) garbage').
    assert (Em : it_make i size garbage' = Ok x) by (unfold it_make; rewrite Ep; cbn [bind]; rewrite Eh; reflexivity).
    set (q := it_settings o po eo i). set (selection := Z.to_nat (po_selection_size po)).
    set (p := mk_it_params selection (ip_learning q) (ip_init q) (ip_min q) (ip_max q) (ip_weight q) (ip_replacement q) (ip_allow q)).
    assert (Es : it_set_selection x q selection = Ok p).
    { unfold it_set_selection, x, pop_size. cbn [it_pop]. rewrite (proj1 Sp). destruct (Nat.leb_spec 1 selection); [|unfold selection in *; lia].
      destruct (Nat.ltb_spec selection size); [reflexivity|unfold selection, size in *; lia]. }
    assert (AD : it_admissible size i p).
    { unfold it_admissible, p, q. cbn [ip_selection ip_min ip_max ip_weight ip_replacement it_settings]. split; [unfold selection, size; lia|]. split.
      - unfold rate_or, given_or_inverse in *. destruct (po_mutation_rate_min po); exact O2.
      - split; [now apply replacement_known|]. intros E. assert (E4 : eo_replacement eo = 4%Z).
        { revert E. unfold replacement_of. destruct (Z.eqb_spec (eo_replacement eo) 0); [discriminate|]. destruct (Z.eqb_spec (eo_replacement eo) 1); [discriminate|].
          destruct (Z.eqb_spec (eo_replacement eo) 2); [discriminate|]. destruct (Z.eqb_spec (eo_replacement eo) 3); [discriminate|]. lia. }
        specialize (O4 E4). destruct (Z.ltb_spec (eo_weight eo) 0); lia. }
    destruct DO as (D1 & D2 & D3 & D4 & _).
    eapply (estimates (itea_sized i size) (fun k ob => it_init ob p (ed_bit ed k) (ed_weight ed k))
      (fun k ob => it_iterate ob i p (small_rate i) (ed_mutations ed k) (ed_shuffle ed k) srt (ed_coin ed k) (ed_pick ed k) (ed_flip ed k)) x size
      (size + match ip_replacement p with MlUpdate => 1 | _ => 0 end) (size + match ip_replacement p with MlUpdate | IncrementalMlUpdate => 1 | _ => 0 end)).
    - apply ad_it.
    - split; [exact Sp|]. split; [exact (made_nh i _ h Eh)|apply repeat_length].
    - intros ob. apply costs_it_init.
    - intros ob t. apply costs_it. intros [l _]. exact l.
    - intros ob P. pose proof (C98_run ob i size p (small_rate i) (ed_mutations ed 0) (ed_shuffle ed 0) srt (ed_coin ed 0) (ed_pick ed 0) (ed_flip ed 0) (ed_bit ed 0) (ed_weight ed 0)
        num iterations garbage' x _ AD D1 D2 SR D3 D4 Em (made_alg i _ N)) as RR. destruct (loop _ _ _ _ _). apply RR.
    - now symmetry.
    - unfold least_calls. rewrite T. cbn [Z.eqb Pos.eqb andb]. unfold p, q. cbn [ip_replacement it_settings]. unfold replacement_of.
      destruct (Z.eqb_spec (eo_replacement eo) 0) as [->|]; [cbn; lia|]. destruct (Z.eqb_spec (eo_replacement eo) 1) as [->|]; [cbn; lia|].
      destruct (Z.eqb_spec (eo_replacement eo) 2); [lia|]. destruct (Z.eqb_spec (eo_replacement eo) 3); [lia|]. destruct (Z.eqb_spec (eo_replacement eo) 4); lia.
    - unfold most_calls. rewrite T. cbn [Z.eqb Pos.eqb andb]. unfold p, q. cbn [ip_replacement it_settings]. unfold replacement_of.
      destruct (Z.eqb_spec (eo_replacement eo) 0) as [->|]; [cbn; lia|]. destruct (Z.eqb_spec (eo_replacement eo) 1) as [->|]; [cbn; lia|].
      destruct (Z.eqb_spec (eo_replacement eo) 2); [cbn [orb]; lia|]. destruct (Z.eqb_spec (eo_replacement eo) 3); [cbn [orb]; lia|]. destruct (Z.eqb_spec (eo_replacement eo) 4); cbn [orb]; lia.
    - made. rewrite T. cbn [existsb other_types Z.eqb Pos.eqb orb]. rewrite E1. cbn [bind]. fold size. rewrite Em. cbn [bind]. fold q selection. rewrite Es. cbn [bind]. rewrite made_alg by exact N. reflexivity.
  Qed.

  Lemma ram_program : In (ao_algorithm o) [610; 612]%Z -> estimation_program_ends.
  Proof.
    intros T. destruct OK as (_ & OS & _ & O & _). destruct (O T) as (O1 & O2 & O3 & O4 & O5 & O6 & O7). destruct (population_sized _ OS) as (E1 & P1 & Z1).
    set (size := Z.to_nat (po_population_size po)) in *. destruct (pop_making i size N P1) as (pp & Ep). assert (Sp := proj1 (pop_made i size pp Ep)).
    set (x := mk_ram pp pp (repeat 0%Q i) (repeat 0%Q i) (eo_length eo)).
    assert (Em : ram_make size i (eo_length eo) = Ok x) by (unfold ram_make; rewrite Ep; reflexivity).
    set (B := Z.max (eo_length eo) (eo_length_upper eo)). set (selection := Z.to_nat (po_selection_size po)).
    assert (VL : valid_lengths (length_settings eo)).
    { split; [now apply length_mode_known|]. split; [exact O5|]. split; [exact O6|exact O7]. }
    assert (T340 : ao_algorithm o <> 340%Z) by (destruct T as [<-|[<-|[]]]; discriminate).
    destruct (plain_least size (eq_sym Z1) T340) as [EL EM].
    destruct DO as (_ & D2 & _ & _ & D5 & D6 & _). assert (WL : within_lengths (length_settings eo) (ed_length ed 0)) by exact D5.
    set (second := (ao_algorithm o =? 612)%Z).
    eapply (estimates (ram_sized i size B) (fun k ob => ram_init ob (ed_bit ed k) (ed_bits ed k))
      (fun k ob => if second
                   then ram2_iterate ob i selection (length_settings eo) (ed_length ed k) (ed_geometric ed k) (ed_map_bits ed k) (ed_map_indices ed k) (ed_uniform ed k) (ed_shuffle ed k) srt
                          (ed_crossover ed k) (ed_latent ed k) (ed_uniform2 ed k) (ed_coins ed k) (eo_crossover_probability eo) (eo_latent_probability eo)
                   else ram_iterate ob i selection (length_settings eo) (ed_length ed k) (ed_geometric ed k) (ed_map_bits ed k) (ed_map_indices ed k) (ed_uniform ed k) (ed_shuffle ed k) srt)
      x size size size).
    - apply ad_ram.
    - split; [exact Sp|]. split; [exact Sp|]. cbn [x r_len]. unfold B. lia.
    - intros ob. apply costs_ram_init.
    - intros ob t. apply costs_within with (k := size); [|lia].
      assert (HB : (lc_lower (length_settings eo) <= lc_upper (length_settings eo) <= B)%Z) by (cbn; unfold B; lia).
      assert (HU : forall t, (ed_length ed 0 t <= lc_upper (length_settings eo))%Z) by (intros t'; apply D5).
      assert (HP : estimation_draws_last eo ed i -> forall t, (B <= Z.of_nat (distinct_pairs (ed_map_indices ed 0 t)))%Z) by (intros [_ l]; exact l).
      destruct second; [exact (costs_ram2 i size B _ ob selection (length_settings eo) _ _ _ _ _ _ srt (proj1 VL) HB HU HP _ _ _ _ _ _ t)
        |exact (costs_ram i size B _ ob selection (length_settings eo) _ _ _ _ _ _ srt (proj1 VL) HB HU HP t)].
    - intros ob P. assert (SS : 0 < selection <= size) by (unfold selection, size; lia).
      pose proof (C95_run second ob i size selection (length_settings eo) (ed_length ed 0) (ed_geometric ed 0) (ed_map_bits ed 0) (ed_map_indices ed 0) (ed_uniform ed 0) (ed_shuffle ed 0) srt
        (ed_crossover ed 0) (ed_latent ed 0) (ed_uniform2 ed 0) (ed_coins ed 0) (eo_crossover_probability eo) (eo_latent_probability eo) (ed_bit ed 0) (ed_bits ed 0) num iterations (eo_length eo) x _
        O1 SS VL WL O4 D6 D2 SR Em (made_alg i _ N)) as RR. destruct (loop _ _ _ _ _). apply RR.
    - now symmetry.
    - exact EL.
    - exact EM.
    - made. unfold second. destruct T as [T|[T|[]]]; rewrite <- T; cbn [existsb other_types Z.eqb Pos.eqb orb]; rewrite E1; cbn [bind]; fold size; rewrite Em; cbn [bind]; rewrite made_alg by exact N; reflexivity.
  Qed.

  Lemma he_making k size p : pop_make size i = Ok p -> exists x, he_make k i size time = Ok x /\ he_pop x = p.
  Proof. intros Ep. unfold he_make, herding_make. rewrite !make_Ok by exact N. destruct (Nat.ltb_spec 0 i); [|lia]. cbn [ensureb bind]. rewrite Ep. cbn [bind]. eexists. split; reflexivity. Qed.
  Lemma hea_program (k : kind) : ao_algorithm o = (match k with Full => 900 | Triangular => 901 end)%Z -> estimation_program_ends.
  Proof.
    intros T. destruct OK as (_ & OS & _ & _ & O & _). destruct O as (O1 & O2 & O3); [rewrite T; destruct k; cbn; auto|]. destruct (population_sized _ OS) as (E1 & P1 & Z1).
    set (size := Z.to_nat (po_population_size po)) in *. destruct (pop_making i size N P1) as (pp & Ep). assert (Sp := proj1 (pop_made i size pp Ep)).
    destruct (he_making k size pp Ep) as (x & Em & Ex). assert (T340 : ao_algorithm o <> 340%Z) by (rewrite T; destruct k; discriminate).
    destruct (plain_least size (eq_sym Z1) T340) as [EL EM]. destruct DO as (_ & D2 & _ & _ & _ & _ & D7 & _).
    assert (AD : he_admissible size (he_settings po eo i)).
    { unfold he_admissible, he_settings. cbn. split; [unfold size; lia|]. split; [exact O2|]. intros B. apply inverse_margin. auto. }
    eapply (estimates (he_sized i size) (fun j ob => he_init ob (ed_bit ed j)) (fun j ob => he_iterate k ob (he_settings po eo i) (ed_order ed j) (ed_shuffle ed j) srt) x size size size).
    - apply ad_he.
    - unfold he_sized. rewrite Ex. exact Sp.
    - intros ob. exact (proj1 (costs_he i size _ k ob (he_settings po eo i) (ed_order ed 0) (ed_shuffle ed 0) srt (ed_bit ed 0))).
    - intros ob t. apply costs_within with (k := size); [|lia]. exact (proj2 (costs_he i size _ k ob (he_settings po eo i) (ed_order ed 0) (ed_shuffle ed 0) srt (ed_bit ed 0)) t).
    - intros ob P. pose proof (C103_run k ob i size (he_settings po eo i) (ed_order ed 0) (ed_shuffle ed 0) srt (ed_bit ed 0) time num iterations x _ AD (fun _ => D7) D2 SR Em (made_alg i _ N)) as RR.
      destruct (loop _ _ _ _ _). apply RR.
    - now symmetry.
    - exact EL.
    - exact EM.
    - made. rewrite T. unfold make_hea. destruct k; cbn [existsb other_types Z.eqb Pos.eqb orb]; rewrite E1; cbn [bind]; fold size; rewrite Em; cbn [bind]; rewrite made_alg by exact N; reflexivity.
  Qed.

  Lemma bm_program (k : kind) : ao_algorithm o = (match k with Full => 1000 | Triangular => 1001 end)%Z -> estimation_program_ends.
  Proof.
    intros T. destruct OK as (_ & OS & _ & _ & _ & O & _). destruct O as (O1 & O2 & O3); [rewrite T; destruct k; cbn; auto|]. destruct (population_sized _ OS) as (E1 & P1 & Z1).
    set (size := Z.to_nat (po_population_size po)) in *. destruct (pop_making i size N P1) as (pp & Ep). assert (Sp := proj1 (pop_made i size pp Ep)).
    set (x := mk_bm pp (zero_moment k i) (repeat false i) (zero_moment k i) (zero_moment k i) (zero_moment k i) (repeat 0 i)).
    assert (Em : bm_make k i size = Ok x). { unfold bm_make. destruct (Nat.ltb_spec 0 i); [|lia]. cbn [ensureb bind]. rewrite Ep. cbn [bind]. rewrite make_Ok by exact N. reflexivity. }
    assert (T340 : ao_algorithm o <> 340%Z) by (rewrite T; destruct k; discriminate).
    destruct (plain_least size (eq_sym Z1) T340) as [EL EM]. destruct DO as (_ & _ & _ & _ & _ & _ & _ & _ & D9).
    assert (AD : bm_admissible k size (bm_settings po eo)).
    { unfold bm_admissible, bm_settings. cbn [bp_selection bp_sampling]. split; [unfold size; lia|]. split; [now apply sampling_known|]. intros E.
      assert (E2 : eo_sampling_mode eo = 2%Z).
      { revert E. unfold sampling_mode_of. destruct (Z.eqb_spec (eo_sampling_mode eo) 0); [discriminate|]. destruct (Z.eqb_spec (eo_sampling_mode eo) 1); [discriminate|].
        destruct (Z.eqb_spec (eo_sampling_mode eo) 2); [auto|discriminate]. }
      specialize (O3 E2). rewrite T in O3. destruct k; [discriminate|reflexivity]. }
    eapply (estimates (bm_sized i size) (fun j ob => bm_init ob (ed_bit ed j) (ed_state ed j)) (fun j ob => bm_iterate logistic k ob i (bm_settings po eo) (ed_gibbs ed j) srt) x size size size).
    - apply ad_bm.
    - split; [exact Sp|]. cbn. apply repeat_length.
    - intros ob. exact (proj1 (costs_bm i size _ logistic k ob (bm_settings po eo) (ed_gibbs ed 0) srt (ed_bit ed 0) (ed_state ed 0))).
    - intros ob t. apply costs_within with (k := size); [|lia]. exact (proj2 (costs_bm i size _ logistic k ob (bm_settings po eo) (ed_gibbs ed 0) srt (ed_bit ed 0) (ed_state ed 0)) t).
    - intros ob P. pose proof (C105_run logistic k ob i size (bm_settings po eo) (ed_gibbs ed 0) srt (ed_bit ed 0) (ed_state ed 0) num iterations x _ LS AD D9 SR Em (made_alg i _ N)) as RR.
      destruct (loop _ _ _ _ _). apply RR.
    - now symmetry.
    - exact EL.
    - exact EM.
    - made. rewrite T. unfold make_bm_pbil. destruct k; cbn [existsb other_types Z.eqb Pos.eqb orb]; rewrite E1; cbn [bind]; fold size; rewrite Em; cbn [bind]; rewrite made_alg by exact N; reflexivity.
  Qed.

  Lemma mimic_program : ao_algorithm o = 1100%Z -> estimation_program_ends.
  Proof.
    intros T. destruct OK as (_ & OS & _ & _ & _ & _ & O). specialize (O T). destruct (population_sized _ OS) as (E1 & P1 & Z1).
    set (size := Z.to_nat (po_population_size po)) in *. set (selection := Z.to_nat (po_selection_size po)). assert (SS : 0 < selection < size) by (unfold selection, size; lia).
    destruct (pop_making i size N P1) as (pp & Ep). assert (Sp := proj1 (pop_made i size pp Ep)).
    set (x := mk_mimic pp (repeat 0 i) (repeat 0%Q i) (repeat 0%Q i)).
    assert (Em : mimic_make size i = Ok x). { unfold mimic_make. rewrite Ep. cbn [bind]. destruct (Nat.ltb_spec 1 size); [reflexivity|lia]. }
    assert (T340 : ao_algorithm o <> 340%Z) by (rewrite T; discriminate).
    destruct (plain_least size (eq_sym Z1) T340) as [EL EM]. destruct DO as (_ & D2 & _ & _ & _ & _ & _ & D8 & _).
    eapply (estimates (mimic_fits i size) (fun k ob => mimic_init selection ob (ed_bit ed k) (ed_first_permutation ed k))
      (fun k ob => mimic_iterate lg i selection ob (ed_uniform ed k) (ed_shuffle ed k) srt) x size size size).
    - apply ad_mimic.
    - exact Sp.
    - intros ob. exact (proj1 (costs_mimic i size _ lg selection ob (ed_uniform ed 0) (ed_shuffle ed 0) srt (ed_bit ed 0) (ed_first_permutation ed 0))).
    - intros ob t. apply costs_within with (k := size); [|lia]. exact (proj2 (costs_mimic i size _ lg selection ob (ed_uniform ed 0) (ed_shuffle ed 0) srt (ed_bit ed 0) (ed_first_permutation ed 0)) t).
    - intros ob P. pose proof (C93_run lg ob i size selection (ed_uniform ed 0) (ed_shuffle ed 0) srt (ed_bit ed 0) (ed_first_permutation ed 0) num iterations x _ SS LG D2 D8 SR Em (made_alg i _ N)) as RR.
      destruct (loop _ _ _ _ _). apply RR.
    - now symmetry.
    - exact EL.
    - exact EM.
    - made. rewrite T. cbn [existsb other_types Z.eqb Pos.eqb orb]. rewrite E1. cbn [bind]. fold size. rewrite Em. cbn [bind]. rewrite made_alg by exact N. reflexivity.
  Qed.

  Theorem estimation_program : estimation_program_ends.
  Proof.
    pose proof OK as [OT _]. destruct OT as [T|[T|[T|[T|[T|[T|[T|[T|[]]]]]]]]]; symmetry in T; revert T;
      [exact it_program|intros T; apply ram_program; rewrite T; cbn; auto|intros T; apply ram_program; rewrite T; cbn; auto|exact (hea_program Full)|exact (hea_program Triangular)|exact (bm_program Full)
      |exact (bm_program Triangular)|exact mimic_program].
  Qed.
End Programs.
