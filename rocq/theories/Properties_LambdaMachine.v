(** Properties of the (1+(lambda,lambda)) GA which the application makes from its options: C127. *)

From Coq Require Import ZArith QArith Lia.
From Verif Require Import Base BaseLemmas BitVector_Model BitVector_Spec Map_Model Map_Spec Representation_Spec Neighborhood_Model Neighborhood_Spec
  Population_Model Population_Spec Properties_Population
  Double Controller_Model Controller_Spec Decorator_Model Decorator_Spec ControllerStack_Spec Application_Model Application_Spec
  Search_Model Search_Spec Properties_Decorator Properties_Application Algorithm_Model Algorithm_Spec EvolutionaryAlgorithm_Model EvolutionaryAlgorithm_Spec Properties_EvolutionaryAlgorithm
  AlgorithmMachine_Model AlgorithmMachine_Spec AlgorithmMachine_Proofs AlgorithmPrograms_Proofs Properties_AlgorithmMachine
  ProbabilityVector_Model ProbabilityVector_Proofs PopulationMachine_Model PopulationRuns_Proofs PopulationCosts_Proofs PopulationPrograms_Proofs Properties_PopulationMachine LambdaMachine_Spec LambdaPrograms_Proofs.
Local Open Scope nat_scope.

(** * C127: the (1+(lambda,lambda)) GA, from the options to what is printed *)

(** [iterations] bounds the number of iterations explored.  Besides the ends of the other
    algorithms, the program has no defined behaviour if all the mutants, or all the mixes, of an
    iteration have the same value. *)
Theorem C127_program ap co m F mid target i n f g o d po pd srt psrt debug neighbors iterations garbage garbage' bounds others :
  0 < i -> lambda_options_ok o po i -> lambda_draws_ok pd i -> sorts srt ->
  optimizes ap -> ap_restart ap = false -> make_function_controller co F = Ok (mid, target) ->
  map_fits m i n -> kind_known m -> fp_size (f_props F) = i -> total (f_obj F) (f_init F) i f -> finite_values i f g ->
  exists N, forall fuel, N < fuel ->
  let p := program ap co (Ok (Some (m, F)))
             (make_algorithm o d neighbors iterations garbage (make_population_algorithm o po pd srt psrt debug iterations garbage' bounds others)) fuel in
  (exists r x success, p = Some (report ap co m i r x success) /\
     rs_success r = (match co_stop_on_maximum co, co_target co with false, None => None | _, _ => Some success end) /\
     lambda_ends o po co target f i r x success) \/
  (p = Some ([], Undefined) /\ same_values f i target (po_mu po)) \/
  (p = None /\
     (lambda_draws_last pd i -> (ao_num_iterations o <= 0 \/ Z.of_nat iterations <= ao_num_iterations o)%Z /\
        (co_cache co = false -> (0 < co_budget co)%Z -> (1 + Z.of_nat iterations * (2 * po_mu po) <= co_budget co)%Z))).
Proof.
  intros N OK DO SR HO HR HC HM HK HF HT HV.
  exact (lambda_program ap co m F mid target i n f g o d po pd srt psrt debug neighbors iterations garbage garbage' bounds others N OK DO SR HO HR HC HM HK HF HT HV).
Qed.
Print Assumptions C127_program.

(** With one offspring, without budget nor target, the program has no defined behaviour,
    whatever the function. *)
Corollary C127_one_offspring ap co m F mid target i n f g o d po pd srt psrt debug neighbors iterations garbage garbage' bounds others :
  0 < i -> lambda_options_ok o po i -> lambda_draws_ok pd i -> sorts srt ->
  optimizes ap -> ap_restart ap = false -> make_function_controller co F = Ok (mid, target) ->
  map_fits m i n -> kind_known m -> fp_size (f_props F) = i -> total (f_obj F) (f_init F) i f -> finite_values i f g ->
  po_mu po = 1%Z -> (co_budget co <= 0)%Z -> co_stop_on_maximum co = false -> co_target co = None ->
  lambda_draws_last pd i -> (0 < ao_num_iterations o < Z.of_nat iterations)%Z ->
  exists N, forall fuel, N < fuel ->
    program ap co (Ok (Some (m, F)))
      (make_algorithm o d neighbors iterations garbage (make_population_algorithm o po pd srt psrt debug iterations garbage' bounds others)) fuel = Some ([], Undefined).
Proof.
  intros N OK DO SR HO HR HC HM HK HF HT HV M1 B0 S0 T0 DL NI.
  destruct (C127_program ap co m F mid target i n f g o d po pd srt psrt debug neighbors iterations garbage garbage' bounds others) as [K H]; auto.
  exists K. intros fuel HFu. destruct (H fuel HFu) as [(r & x & success & P & Q & L)|[[P _]|[_ P]]]; [exfalso|exact P|exfalso; destruct (P DL); lia].
  destruct L as [T r x S1 S2 S3 S4 S5 S6 S7 S8|T r x S1 S2 S3 S4 S5 S6|T r x t S1 S2 S3 S4 S5 S6 S7]; [|lia|].
  - destruct (S4 0 ltac:(lia)) as (y & z & I1 & I2 & V). rewrite M1 in I1, I2. unfold mutants in I1, I2. change (Z.to_nat 1) with 1 in *.
    destruct (skipn (1 + 0 * (2 * 1)) T) as [|a l]; [destruct I1|]. cbn [firstn] in I1, I2. destruct I1 as [<-|[]], I2 as [<-|[]]. now apply V.
  - revert HC. unfold make_function_controller, target_of. rewrite S0, T0. intros HC. apply Ok_inj in HC. injection HC as _ <-. discriminate.
Qed.
Print Assumptions C127_one_offspring.

(** The program ends if the number of iterations or, without cache, that of evaluations is
    bounded; a defined end shows a solution which has been evaluated, the value of which is not
    less than the value of the first vector nor greater than the one shown. *)
Corollary C127_ends ap co m F mid target i n f g o d po pd srt psrt debug neighbors iterations garbage garbage' bounds others :
  0 < i -> lambda_options_ok o po i -> lambda_draws_ok pd i -> sorts srt ->
  optimizes ap -> ap_restart ap = false -> make_function_controller co F = Ok (mid, target) ->
  map_fits m i n -> kind_known m -> fp_size (f_props F) = i -> total (f_obj F) (f_init F) i f -> finite_values i f g ->
  lambda_draws_last pd i ->
  (0 < ao_num_iterations o < Z.of_nat iterations)%Z \/ (co_cache co = false /\ (0 < co_budget co < Z.of_nat iterations)%Z) ->
  exists N, forall fuel, N < fuel ->
  let p := program ap co (Ok (Some (m, F)))
             (make_algorithm o d neighbors iterations garbage (make_population_algorithm o po pd srt psrt debug iterations garbage' bounds others)) fuel in
  p = Some ([], Undefined) \/
  exists r x success, p = Some (report ap co m i r x success) /\ length x = i /\
    (exists v, rs_value r = Some v /\ dle (f x) v = true) /\
    (success = true -> rs_value r = Some (f x) /\ exists t, target = Some t /\ dge (f x) t = true) /\
    (co_cache co = false -> (0 < co_budget co)%Z -> (Z.of_nat (rs_total r) <= co_budget co)%Z).
Proof.
  intros N OK DO SR HO HR HC HM HK HF HT HV DL E.
  destruct (C127_program ap co m F mid target i n f g o d po pd srt psrt debug neighbors iterations garbage garbage' bounds others) as [M H]; auto.
  assert (RX : forall x, length x = i -> dle (f x) (f x) = true) by (intros x Lx; rewrite (HV x Lx); apply Z.leb_refl).
  assert (BT : forall T r x, Forall (fun y => length y = i) T -> In x T -> tallies co f T r -> exists v, rs_value r = Some v /\ dle (f x) v = true).
  { intros T r x FT IT (_ & _ & Ta). destruct Ta as (_ & k & z & (R1 & R2 & _) & R3 & _); [destruct T; [destruct IT|discriminate]|].
    exists (f z). split; [exact R3|]. destruct (In_nth_error (Search_Spec.valued f T) (x, f x)) as (j & Ej); [apply in_map_iff; exists x; auto|].
    destruct (R2 _ _ _ Ej) as [X|X]; [|exact X]. rewrite Forall_forall in FT. rewrite (HV x) in X by auto. discriminate. }
  exists M. intros fuel HFu p. destruct (H fuel HFu) as [(r & x & success & P & _ & L)|[[P _]|(_ & D)]]; [right|left; exact P|exfalso].
  - exists r, x, success. split; [exact P|].
    destruct L as [T r x S1 S2 S3 S4 S5 S6 S7 S8|T r x S1 S2 S3 S4 S5 S6|T r x t S1 S2 S3 S4 S5 S6 S7].
    + destruct S7 as [S7 _]. pose proof S1 as F1. rewrite Forall_forall in F1. split; [auto|]. split; [eauto|]. split; [discriminate|]. intros C B. destruct S8 as (S8 & _). specialize (S6 C B). lia.
    + destruct S6 as [S6 _]. pose proof S1 as F1. rewrite Forall_forall in F1. split; [auto|]. split; [eauto|]. split; [discriminate|]. intros C B. destruct S5 as (S5 & _). rewrite (S3 C). lia.
    + rewrite Forall_forall in S1. assert (Lx : length x = i) by (apply S1, in_app_iff; cbn; auto). split; [exact Lx|]. split; [eauto|]. split; [eauto|].
      intros C B. destruct S6 as (S6 & _). specialize (S5 C B). lia.
  - destruct (D DL) as [D1 D2]. destruct E as [E|[E1 E2]]; [lia|]. specialize (D2 E1 ltac:(lia)). destruct OK as (_ & OM & _).
    assert (Z.of_nat iterations * 1 <= Z.of_nat iterations * (2 * po_mu po))%Z by (apply Z.mul_le_mono_nonneg_l; lia). lia.
Qed.
Print Assumptions C127_ends.

(** The constructor asserts that lambda is not greater than the number of bits, and the
    first run that the crossover bias is between 0 and 1, excluded. *)
Theorem C127_asserted ap co m F mid target i n f g o d po pd srt psrt debug neighbors iterations garbage garbage' bounds others :
  0 < i -> ao_algorithm o = 450%Z -> (0 < po_mu po)%Z ->
  optimizes ap -> ap_restart ap = false -> make_function_controller co F = Ok (mid, target) ->
  map_fits m i n -> kind_known m -> fp_size (f_props F) = i -> total (f_obj F) (f_init F) i f -> finite_values i f g ->
  (Z.of_nat i < po_mu po)%Z \/ (po_crossover_bias po <= 0)%Q \/ (1 <= po_crossover_bias po)%Q ->
  exists N, forall fuel, N < fuel ->
    program ap co (Ok (Some (m, F)))
      (make_algorithm o d neighbors iterations garbage (make_population_algorithm o po pd srt psrt debug iterations garbage' bounds others)) fuel = Some ([], Undefined).
Proof.
  intros N T HZ HO HR HC HM HK HF HT HV HB. destruct (population_sized (po_mu po) HZ) as (E1 & P1 & Z1). set (lambda := Z.to_nat (po_mu po)) in *.
  destruct (pop_making i lambda N P1) as (pp & Ep).
  assert (Eh : exists h, nh_make (HammingSphere 1) i = Ok h).
  { unfold nh_make. destruct (Nat.ltb_spec 0 i); [|lia]. cbn [assertb bind]. destruct (Nat.leb_spec 1 i); [|lia]. eexists. reflexivity. }
  destruct Eh as (h & Eh).
  assert (Em : llga_make i lambda = if lambda <=? i then Ok (mk_llga pp h (repeat false i)) else UB).
  { unfold llga_make. rewrite Ep. cbn [bind]. rewrite Eh. cbn [bind]. destruct (Nat.ltb_spec 0 i); [|lia]. cbn [assertb bind]. destruct (Nat.ltb_spec 0 lambda); [|lia]. cbn [assertb bind].
    destruct (Nat.leb_spec lambda i); reflexivity. }
  destruct (Nat.leb_spec lambda i) as [LL|LL].
  2:{ exists 0. intros fuel _. rewrite (factory_fails ap co m F mid target i _ fuel UB HF HO HC); [reflexivity| |discriminate].
      unfold make_algorithm, make_population_algorithm. cbv zeta. rewrite T. cbn [existsb other_types Z.eqb Pos.eqb orb]. rewrite E1. cbn [bind]. rewrite Em. reflexivity. }
  destruct HB as [HB|HB]; [lia|].
  assert (SB : set_bias (po_crossover_bias po) = UB).
  { unfold set_bias. destruct (qltb 0 (po_crossover_bias po)) eqn:Q1; [|reflexivity]. cbn [assertb bind]. destruct (qltb (po_crossover_bias po) 1) eqn:Q2; [|reflexivity].
    apply qltb_lt in Q1, Q2. exfalso. destruct HB as [HB|HB]; [exact (Qlt_not_le _ _ Q1 HB)|exact (Qlt_not_le _ _ Q2 HB)]. }
  set (run := fun k ob => loop (llga_init ob (po_crossover_bias po) (pd_bit pd k))
                 (llga_iterate ob (pd_radius pd k) (pd_mutations pd k) (pd_coins pd k) (pd_shuffle pd k) (pd_shuffle2 pd k) srt (pd_best1 pd k) (pd_best2 pd k)) (ao_num_iterations o) iterations).
  set (s0 := mk_alg [] (repeat false i, 0%Z) false (mk_llga pp h (repeat false i))).
  assert (RB : forall k ob, run k ob s0 = (Bad, s0)) by (intros k ob; unfold run, loop, llga_init, abind; rewrite SB; reflexivity).
  exists 0. intros fuel HFu. set (p := program _ _ _ _ _).
  assert (PE : program_ends ap co m i target f g (run 0) (fun s => s) s0 p).
  { apply (algorithm_program ap co m F _ mid target i n f g run (fun s => s) s0); auto; [apply ad_llga| | |].
    - intros ob _. rewrite RB. cbn. split; [constructor|apply repeat_length].
    - rewrite HF. cbv beta. unfold make_algorithm, make_population_algorithm. cbv zeta. rewrite T. cbn [existsb other_types Z.eqb Pos.eqb orb]. rewrite E1. cbn [bind]. rewrite Em. cbn [bind].
      rewrite made_alg by exact N. reflexivity.
    - rewrite RB. cbn. exact HFu. }
  clearbody p. destruct PE as [s' r ER|s' r ER|s' x r t ER HMi EX|s' e ER HMi|s' ER HMi|s' ER HMi]; try (rewrite RB in ER; discriminate); try reflexivity.
Qed.
Print Assumptions C127_asserted.

(** Three bits; the first vector is 101. *)
Definition example_lambda_draws : population_draws :=
  mk_population_draws (fun _ j => Nat.even j) (fun _ k j => j <? k) (fun _ => @rev nat) (fun _ => @rev nat) (fun _ t k lo hi => lo) (fun _ t k => example_moves (t + k))
    (fun _ _ => @rev nat) (fun _ _ => @rev nat) (fun _ _ _ => @rev nat) (fun _ _ _ => @rev nat) (fun _ _ k => k =? 1) (fun _ t k j => (k <=? j) && (t =? 0))
    (fun _ t k j => 1 # 2)%Q (fun _ _ => 1 # 2)%Q (fun _ t => 1) (fun _ _ lo _ => lo) (fun _ _ lo _ => lo).
Definition example_lambda (mu : Z) (bias : Q) : population_options := mk_population_options mu 4 2 bias 4 2 (1 # 3) None None (1 # 1) 2 2 true.
Definition example_lambda_run (co : controller_options) (num mu : Z) (bias : Q) :=
  let o := example_algo 450 num 0 false in
  program (example_app None false false false) co (example_made 0)
    (make_algorithm o example_algo_draws 9 20 0
       (make_population_algorithm o (example_lambda mu bias) example_lambda_draws insertion_sort (fun _ => insertion_sort) true 20 0 (0, 0) (fun _ => UB))) 100.

(** One iteration; out of budget in the crossover phase, the best mutant is lost; with a
    target; mixes with equal values; one offspring; options which are refused *)
Example C127_case :
  example_lambda_run (example_co 0 false) 1 3 (1 # 2) = example_shown 3 3 7 None [true; true; true] /\
  example_lambda_run (example_co 5 false) 0 3 (1 # 2) = example_shown 3 3 5 None [true; false; true] /\
  example_lambda_run (example_co 9 true) 0 3 (1 # 2) = example_shown 3 3 3 (Some true) [true; true; true] /\
  example_lambda_run (example_co 0 false) 2 3 (1 # 2) = Some ([], Undefined) /\
  example_lambda_run (example_co 0 false) 1 1 (1 # 2) = Some ([], Undefined) /\
  example_lambda_run (example_co 0 false) 1 4 (1 # 2) = Some ([], Undefined) /\
  example_lambda_run (example_co 0 false) 1 3 1 = Some ([], Undefined) /\
  example_lambda_run (example_co 0 false) 1 0 (1 # 2) = Some ([], Exit 1).
Proof. vm_compute. repeat split. Qed.

(** The hypotheses hold for these examples. *)
Example C127_hypotheses : (forall mu, (1 <= mu <= 3)%Z -> lambda_options_ok (example_algo 450 2 0 false) (example_lambda mu (1 # 2)) 3) /\
  lambda_draws_ok example_lambda_draws 3 /\ lambda_draws_last example_lambda_draws 3.
Proof.
  split; [|split].
  - intros mu H. split; [reflexivity|]. split; [cbn; lia|split; reflexivity].
  - assert (R := rev_shuffles). split; [intros t; cbn; lia|]. split; [|repeat split; intros; try exact R; cbn; lia].
    intros t k. split; [intros i; cbn; split; [discriminate|reflexivity]|]. split; [|split; [exact I|repeat constructor]].
    constructor; [apply Nat.mod_upper_bound; lia|repeat constructor].
  - intros t k. apply example_plenty.
Qed.
