(** Properties of the information-theoretic EA, of UMDA with random affine maps, of the herding
    evolutionary algorithm, of Boltzmann machine PBIL and of MIMIC, which the application makes from
    its options: C126. *)

From Coq Require Import ZArith QArith Lia.
From Verif Require Import Base BaseLemmas BitVector_Model BitVector_Spec Map_Model Map_Spec Representation_Spec Neighborhood_Model Neighborhood_Spec
  Population_Model Population_Spec Properties_Population ItEa_Model WalshMoment_Model WalshEda_Model Mimic_Model
  Double Controller_Model Controller_Spec Decorator_Model Decorator_Spec ControllerStack_Spec Application_Model Application_Spec
  Search_Model Search_Spec Properties_Decorator Properties_Application Algorithm_Model Algorithm_Spec EvolutionaryAlgorithm_Spec
  AlgorithmMachine_Model AlgorithmMachine_Spec AlgorithmMachine_Proofs AlgorithmPrograms_Proofs Properties_AlgorithmMachine
  PopulationMachine_Model PopulationCosts_Proofs PopulationPrograms_Proofs Properties_PopulationMachine EstimationMachine_Model EstimationMachine_Spec EstimationPrograms_Proofs.
Local Open Scope nat_scope.

(** * C126: these algorithms, from the options to what is printed *)

(** [iterations] bounds the number of iterations explored. *)
Theorem C126_program ap co m F mid target i n f g o d po pd eo ed srt psrt lg logistic debug neighbors iterations garbage garbage' time bounds others :
  0 < i -> estimation_options_ok o po eo i -> estimation_draws_ok eo ed i -> sorts srt ->
  (forall x, (1 <= x)%Q -> (0 <= lg x)%Q) -> (forall a b, (a == b)%Q -> (logistic a == logistic b)%Q) ->
  optimizes ap -> ap_restart ap = false -> make_function_controller co F = Ok (mid, target) ->
  map_fits m i n -> kind_known m -> fp_size (f_props F) = i -> total (f_obj F) (f_init F) i f -> finite_values i f g ->
  exists N, forall fuel, N < fuel ->
  let p := program ap co (Ok (Some (m, F)))
             (make_algorithm o d neighbors iterations garbage (make_population_algorithm o po pd srt psrt debug iterations garbage' bounds
               (make_estimation_algorithm o po eo ed srt lg logistic iterations garbage' time others))) fuel in
  (exists r x success, p = Some (report ap co m i r x success) /\
     rs_success r = (match co_stop_on_maximum co, co_target co with false, None => None | _, _ => Some success end) /\
     estimation_ends o po eo co target f i r x success) \/
  (p = None /\
     (estimation_draws_last eo ed i -> (ao_num_iterations o <= 0 \/ Z.of_nat iterations <= ao_num_iterations o)%Z /\
        (co_cache co = false -> (0 < co_budget co)%Z -> (1 + Z.of_nat iterations * least_calls o po eo <= co_budget co)%Z))).
Proof.
  intros N OK DO SR LG LS HO HR HC HM HK HF HT HV.
  exact (estimation_program ap co m F mid target i n f g o d po pd eo ed srt psrt lg logistic debug neighbors iterations garbage garbage' time bounds others N OK DO SR LG LS HO HR HC HM HK HF HT HV).
Qed.
Print Assumptions C126_program.

(** The program ends if the number of iterations or, without cache, that of evaluations is
    bounded.  The value which is shown is that of the solution which is shown if there is no
    budget, if the target is reached or if the population has one vector; it is never
    less. *)
Corollary C126_ends ap co m F mid target i n f g o d po pd eo ed srt psrt lg logistic debug neighbors iterations garbage garbage' time bounds others :
  0 < i -> estimation_options_ok o po eo i -> estimation_draws_ok eo ed i -> sorts srt ->
  (forall x, (1 <= x)%Q -> (0 <= lg x)%Q) -> (forall a b, (a == b)%Q -> (logistic a == logistic b)%Q) ->
  optimizes ap -> ap_restart ap = false -> make_function_controller co F = Ok (mid, target) ->
  map_fits m i n -> kind_known m -> fp_size (f_props F) = i -> total (f_obj F) (f_init F) i f -> finite_values i f g ->
  estimation_draws_last eo ed i ->
  (0 < ao_num_iterations o < Z.of_nat iterations)%Z \/ (co_cache co = false /\ (0 < co_budget co < Z.of_nat iterations)%Z) ->
  exists N, forall fuel, N < fuel -> exists r x success,
    program ap co (Ok (Some (m, F)))
      (make_algorithm o d neighbors iterations garbage (make_population_algorithm o po pd srt psrt debug iterations garbage' bounds
        (make_estimation_algorithm o po eo ed srt lg logistic iterations garbage' time others))) fuel =
      Some (report ap co m i r x success) /\
    length x = i /\
    ((co_budget co <= 0)%Z \/ success = true \/ po_population_size po = 1%Z -> rs_value r = Some (f x)) /\
    (exists v, rs_value r = Some v /\ dle (f x) v = true) /\
    (success = true -> exists t, target = Some t /\ dge (f x) t = true) /\
    (co_cache co = false -> (0 < co_budget co)%Z -> (Z.of_nat (rs_total r) <= co_budget co)%Z).
Proof.
  intros N OK DO SR LG LS HO HR HC HM HK HF HT HV DL E.
  destruct (C126_program ap co m F mid target i n f g o d po pd eo ed srt psrt lg logistic debug neighbors iterations garbage garbage' time bounds others) as [M H]; auto.
  assert (RX : forall x, length x = i -> dle (f x) (f x) = true) by (intros x Lx; rewrite (HV x Lx); apply Z.leb_refl).
  exists M. intros fuel HFu. destruct (H fuel HFu) as [(r & x & success & P & _ & L)|(_ & D)].
  - exists r, x, success. split; [exact P|].
    destruct L as [T r x S1 S2 S3 S4 S5 S6 S7 S8|T1 T2 r x S1 S2 S3 S4 S5 S6 S7|T r x t S1 S2 S3 S4 S5 S6 S7].
    + rewrite Forall_forall in S1. destruct S6 as [S6 S6']. split; [auto|]. split; [auto|]. split; [eauto|]. split; [discriminate|].
      intros C B. destruct S7 as (S7 & _). specialize (S5 C B). lia.
    + pose proof S1 as F1. apply Forall_app in F1 as [F1 F2]. pose proof F1 as F1'. rewrite Forall_forall in F1'. pose proof S7 as [Sx _]. split; [auto|]. split; [|split; [|split; [discriminate|]]].
      * intros [X|[X|X]]; [lia|discriminate|]. destruct T2; [|cbn in S6; lia]. rewrite app_nil_r in *. now apply (best_value co i f g HV T1).
      * destruct S5 as (_ & _ & Ta). destruct Ta as (_ & k & z & (R1 & R2 & _) & R3 & _); [destruct T1; [destruct Sx|discriminate]|].
        exists (f z). split; [exact R3|]. destruct (In_nth_error (Search_Spec.valued f (T1 ++ T2)) (x, f x)) as (j & Ej); [apply in_map_iff; exists x; split; [reflexivity|apply in_app_iff; auto]|].
        destruct (R2 _ _ _ Ej) as [X|X]; [|exact X]. rewrite (HV x) in X by auto. discriminate.
      * intros C B. destruct S5 as (S5 & _). rewrite (S3 C). lia.
    + rewrite Forall_forall in S1. assert (Lx : length x = i) by (apply S1, in_app_iff; cbn; auto). split; [exact Lx|]. split; [auto|]. split; [eauto|]. split; [eauto|].
      intros C B. destruct S6 as (S6 & _). specialize (S5 C B). lia.
  - exfalso. destruct (D DL) as [D1 D2]. destruct E as [E|[E1 E2]]; [lia|]. specialize (D2 E1 ltac:(lia)).
    assert (C : (1 <= least_calls o po eo)%Z). { destruct OK as (_ & OS & _). unfold least_calls. destruct (_ && _)%bool; lia. }
    assert (Z.of_nat iterations * 1 <= Z.of_nat iterations * least_calls o po eo)%Z by (apply Z.mul_le_mono_nonneg_l; lia). lia.
Qed.
Print Assumptions C126_ends.

(** Options which are refused: a null population size is an error and a negative one an
    uncaught exception; MIMIC refuses a population of one vector; the information-theoretic EA
    asserts that the selection size is between 1 and the population size. *)
Theorem C126_sizes ap co m F mid target i o d po pd eo ed srt psrt lg logistic debug neighbors iterations garbage garbage' time bounds others fuel :
  0 < i -> fp_size (f_props F) = i -> optimizes ap -> make_function_controller co F = Ok (mid, target) -> In (ao_algorithm o) estimation_algorithms ->
  let p := program ap co (Ok (Some (m, F)))
             (make_algorithm o d neighbors iterations garbage (make_population_algorithm o po pd srt psrt debug iterations garbage' bounds
               (make_estimation_algorithm o po eo ed srt lg logistic iterations garbage' time others))) fuel in
  ((po_population_size po <= 0)%Z -> p = Some ([], if (po_population_size po <? 0)%Z then Uncaught else Exit 1)) /\
  (ao_algorithm o = 1100%Z -> po_population_size po = 1%Z -> p = Some ([], Exit 1)) /\
  (ao_algorithm o = 340%Z -> (0 < po_population_size po)%Z -> (po_selection_size po < 1 \/ po_population_size po <= po_selection_size po)%Z -> p = Some ([], Undefined)).
Proof.
  intros N HF HO HC TI p. split; [|split].
  - intros HZ. set (z := po_population_size po) in *. set (r := Throw (if (z <? 0)%Z then OtherException else RuntimeError) : outcome machine).
    assert (PZ : population_size z = Throw (if (z <? 0)%Z then OtherException else RuntimeError)).
    { unfold population_size, vector_size. destruct (Z.ltb_spec z 0); [reflexivity|]. assert (z = 0)%Z as -> by lia. reflexivity. }
    unfold p. rewrite (factory_fails ap co m F mid target i _ fuel r HF HO HC); [unfold r; now destruct (z <? 0)%Z| |discriminate].
    unfold make_algorithm, make_population_algorithm, make_estimation_algorithm, make_hea, make_bm_pbil. cbv zeta.
    destruct TI as [T|[T|[T|[T|[T|[T|[T|[T|[]]]]]]]]]; rewrite <- T; cbn [existsb other_types Z.eqb Pos.eqb orb]; fold z; rewrite PZ; reflexivity.
  - intros T HZ. unfold p. rewrite (factory_fails ap co m F mid target i _ fuel (Throw RuntimeError) HF HO HC); [reflexivity| |discriminate].
    unfold make_algorithm, make_population_algorithm, make_estimation_algorithm. cbv zeta. rewrite T. cbn [existsb other_types Z.eqb Pos.eqb orb].
    rewrite HZ. change (population_size 1) with (Ok 1). cbn [bind]. unfold mimic_make. destruct (pop_making i 1 N ltac:(lia)) as (q & ->). reflexivity.
  - intros T HZ HS. unfold p. rewrite (factory_fails ap co m F mid target i _ fuel UB HF HO HC); [reflexivity| |discriminate].
    unfold make_algorithm, make_population_algorithm, make_estimation_algorithm. cbv zeta. rewrite T. cbn [existsb other_types Z.eqb Pos.eqb orb].
    destruct (population_sized _ HZ) as (-> & P1 & Z1). cbn [bind]. unfold it_make. destruct (pop_making i _ N P1) as (q & Eq). rewrite Eq. cbn [bind].
    destruct (nh_making i N) as (h & ->). cbn [bind]. unfold it_set_selection, pop_size. cbn [it_pop]. rewrite (proj1 (proj1 (pop_made _ _ _ Eq))).
    destruct (Nat.leb_spec 1 (Z.to_nat (po_selection_size po))); [|reflexivity]. cbn [assertb bind].
    destruct (Nat.ltb_spec (Z.to_nat (po_selection_size po)) (Z.to_nat (po_population_size po))); [lia|reflexivity].
Qed.
Print Assumptions C126_sizes.

(** The program depends only on the options of the algorithm which it runs: a rate which is
    not given is the same as its default value, and the other options have no effect. *)
Lemma make_population_others o po pd srt psrt debug iterations garbage bounds others others' n : others n = others' n ->
  make_population_algorithm o po pd srt psrt debug iterations garbage bounds others n = make_population_algorithm o po pd srt psrt debug iterations garbage bounds others' n.
Proof. intros E. unfold make_population_algorithm. rewrite E. reflexivity. Qed.
Lemma make_estimation_options o po eo po' eo' ed srt lg logistic iterations garbage time others n : same_estimation_options (ao_algorithm o) n po eo po' eo' ->
  make_estimation_algorithm o po eo ed srt lg logistic iterations garbage time others n = make_estimation_algorithm o po' eo' ed srt lg logistic iterations garbage time others n.
Proof.
  intros (S1 & S2 & S3 & S4 & S5 & S6). unfold make_estimation_algorithm, make_hea, make_bm_pbil. cbv zeta.
  assert (M2 : ao_algorithm o = 340%Z -> it_settings o po eo n = it_settings o po' eo' n).
  { intros T. unfold it_settings. destruct (S2 T) as (-> & E1 & E2 & -> & -> & ->). change (rate_or (1 / inject_Z (Z.of_nat n))) with (given_or_inverse n). rewrite E1, E2. reflexivity. } clear S2.
  assert (M3 : In (ao_algorithm o) [610; 612]%Z -> length_settings eo = length_settings eo' /\ eo_length eo = eo_length eo').
  { intros T. unfold length_settings. destruct (S3 T) as (-> & -> & -> & -> & -> & ->). split; reflexivity. } clear S3.
  assert (M1 : In (ao_algorithm o) estimation_algorithms -> po_population_size po = po_population_size po' /\ po_selection_size po = po_selection_size po') by exact S1. clear S1.
  assert (M5 : In (ao_algorithm o) [900; 901]%Z -> he_settings po eo n = he_settings po' eo' n).
  { intros T. unfold he_settings. destruct (S5 T) as (-> & -> & -> & ->). destruct M1 as [_ ->]; [destruct T as [T|[T|[]]]; rewrite <- T; cbn; auto 10|reflexivity]. } clear S5.
  assert (M6 : In (ao_algorithm o) [1000; 1001]%Z -> bm_settings po eo = bm_settings po' eo').
  { intros T. unfold bm_settings. destruct (S6 T) as (-> & -> & -> & -> & -> & ->). destruct M1 as [_ ->]; [destruct T as [T|[T|[]]]; rewrite <- T; cbn; auto 10|reflexivity]. } clear S6.
  Ltac sizes T M1 := let E1 := fresh in let E2 := fresh in destruct M1 as [E1 E2]; [rewrite T; cbn; auto 10|]; rewrite ?E1, ?E2.
  destruct (Z.eqb_spec (ao_algorithm o) 340) as [T|_]; [sizes T M1; rewrite (M2 T); reflexivity|]. clear M2.
  destruct (Z.eqb_spec (ao_algorithm o) 610) as [T|_]; [cbn [orb]; sizes T M1; destruct M3 as [-> ->]; [rewrite T; cbn; auto|]; rewrite T; cbn [Z.eqb Pos.eqb]; reflexivity|].
  destruct (Z.eqb_spec (ao_algorithm o) 612) as [T|_]; [cbn [orb]; sizes T M1; destruct M3 as [-> ->]; [rewrite T; cbn; auto|]; destruct (S4 T) as [-> ->]; reflexivity|].
  cbn [orb]. clear M3 S4.
  destruct (Z.eqb_spec (ao_algorithm o) 900) as [T|_]; [sizes T M1; rewrite M5 by (rewrite T; cbn; auto); reflexivity|].
  destruct (Z.eqb_spec (ao_algorithm o) 901) as [T|_]; [sizes T M1; rewrite M5 by (rewrite T; cbn; auto); reflexivity|]. clear M5.
  destruct (Z.eqb_spec (ao_algorithm o) 1000) as [T|_]; [sizes T M1; rewrite M6 by (rewrite T; cbn; auto); reflexivity|].
  destruct (Z.eqb_spec (ao_algorithm o) 1001) as [T|_]; [sizes T M1; rewrite M6 by (rewrite T; cbn; auto); reflexivity|]. clear M6.
  destruct (Z.eqb_spec (ao_algorithm o) 1100) as [T|_]; [sizes T M1; reflexivity|]. reflexivity.
Qed.
Theorem C126_options ap co m F o d po po' pd eo eo' ed srt psrt lg logistic debug neighbors iterations garbage garbage' time bounds others fuel :
  let p po eo := program ap co (Ok (Some (m, F)))
             (make_algorithm o d neighbors iterations garbage (make_population_algorithm o po pd srt psrt debug iterations garbage' bounds
               (make_estimation_algorithm o po eo ed srt lg logistic iterations garbage' time others))) fuel in
  In (ao_algorithm o) estimation_algorithms -> same_estimation_options (ao_algorithm o) (fp_size (f_props F)) po eo po' eo' -> p po eo = p po' eo'.
Proof.
  intros p TI SO. apply program_factory, make_algorithm_others. rewrite (make_population_options o po po').
  - apply make_population_others, make_estimation_options, SO.
  - unfold PopulationMachine_Spec.same_population_options. cbv zeta. repeat split; intros; exfalso; cbn in *; lia.
Qed.
Print Assumptions C126_options.

(** Three bits *)
Definition example_estimation (replacement length_mode sampling : Z) : estimation_options :=
  mk_estimation_options replacement 1 length_mode 1 0 2 2 (1 # 2) (1 # 2) (1 # 2) true true 0 2 2 1 sampling true.
Definition example_gibbs : bm_draws :=
  mk_bm_draws (fun t i c => (t + i + c) mod 3) (fun _ _ _ => @rev nat) (fun t i c j => (Z.of_nat ((t + i + c + j) mod 2) # 2)%Q) (fun _ _ => true) (fun _ _ _ => false) (fun _ => @rev nat).
Definition example_estimation_draws : estimation_draws :=
  mk_estimation_draws (fun _ j => j =? 0) (fun _ i => (Z.of_nat (i mod 2) # 2)%Q) (fun _ k j => j <? k) (fun _ j => j =? 1) (fun _ => @rev nat)
    (fun _ t k => example_moves (t + k)) (fun _ _ => @rev nat) (fun _ _ _ => true) (fun _ _ lo _ => lo) (fun _ _ => true)
    (fun _ _ => 1%Z) (fun _ _ => 1) (fun _ _ j => j =? 2) (fun _ t => [t mod 3; (t + 1) mod 3; 1; 1; (t + 1) mod 3; (t + 2) mod 3; 0; 1; 2; 0])
    (fun _ t k j => (Z.of_nat ((t * 7 + k * 5 + j * 3) mod 10) # 10)%Q) (fun _ t k j => (Z.of_nat ((t * 3 + k * 2 + j * 7) mod 10) # 10)%Q)
    (fun _ _ k => (Z.of_nat (k mod 2) # 1)%Q) (fun _ _ k => (Z.of_nat (k mod 3) # 3)%Q) (fun _ _ k j => k =? j) (fun _ _ _ => @rev nat) (fun _ => example_gibbs).
Definition example_logistic (x : Q) : Q := if Qle_bool 0 x then (3 # 4)%Q else (1 # 4)%Q.
Definition example_estimation_run (co : controller_options) (t num : Z) (po : population_options) (eo : estimation_options) :=
  let o := example_algo t num 0 false in
  program (example_app None false false false) co (example_made 0)
    (make_algorithm o example_algo_draws 9 20 0
       (make_population_algorithm o po example_population_draws insertion_sort (fun _ => insertion_sort) true 20 0 (0, 0)
          (make_estimation_algorithm o po eo example_estimation_draws insertion_sort (fun x => (x - 1)%Q) example_logistic 20 0 7 (fun _ => UB)))) 100.

(** Two iterations of every algorithm *)
Example C126_case : let run t := example_estimation_run (example_co 0 false) t 2 example_population (example_estimation 0 1 1) in
  run 340%Z = example_shown 3 6 9 None [true; true; true] /\
  run 610%Z = example_shown 3 5 9 None [true; true; true] /\
  run 612%Z = example_shown 3 5 9 None [true; true; true] /\
  run 900%Z = example_shown 3 2 9 None [true; true; true] /\
  run 901%Z = example_shown 3 2 9 None [true; true; true] /\
  run 1000%Z = example_shown 3 2 9 None [true; true; true] /\
  run 1001%Z = example_shown 3 2 9 None [true; true; true] /\
  run 1100%Z = example_shown 2 2 9 None [false; true; true].
Proof. vm_compute. repeat split. Qed.

(** The replacements of the information-theoretic EA: maximum likelihood update evaluates the
    center once more in every iteration.  An unknown one is an error, which is found
    after the evaluation of a population, unless the budget is exhausted before. *)
Example C126_replacement : let run co r := example_estimation_run co 340 2 example_population (example_estimation r 1 1) in
  run (example_co 0 false) 1%Z = example_shown 3 6 9 None [true; true; true] /\
  run (example_co 0 false) 2%Z = example_shown 3 6 11 None [true; true; true] /\
  run (example_co 0 false) 3%Z = example_shown 3 8 11 None [true; true; true] /\
  run (example_co 0 false) 4%Z = example_shown 2 3 9 None [true; false; true] /\
  run (example_co 0 false) 5%Z = Some ([], Exit 1) /\
  run (example_co 4 false) 5%Z = example_shown 2 3 4 None [true; false; false].
Proof. vm_compute. repeat split. Qed.

(** Out of budget in a generation, the value which is printed is not that of the solution
    which is printed; no limit; with a target; refused sizes *)
Example C126_budget : let eo := example_estimation 0 1 1 in
  example_estimation_run (example_co 7 false) 340 0 example_population eo = example_shown 3 6 7 None [true; false; true] /\
  example_estimation_run (example_co 0 false) 610 0 example_population eo = None /\
  example_estimation_run (example_co 0 true) 900 0 example_population eo = example_shown 3 2 2 (Some true) [true; true; true] /\
  example_estimation_run (example_co 3 false) 1000 0 (example_sizes 3 4 2 0) eo = Some ([], Exit 1) /\
  example_estimation_run (example_co 3 false) 612 0 (example_sizes 3 4 2 (-1)) eo = Some ([], Uncaught) /\
  example_estimation_run (example_co 3 false) 1100 0 (example_sizes 3 4 2 1) eo = Some ([], Exit 1) /\
  example_estimation_run (example_co 3 false) 340 0 (example_sizes 3 4 2 1) eo = Some ([], Undefined).
Proof. vm_compute. repeat split. Qed.

(** The hypotheses hold for these examples. *)
Example C126_hypotheses :
  (forall t r, In t estimation_algorithms -> (0 <= r <= 4)%Z -> estimation_options_ok (example_algo t 2 0 false) example_population (example_estimation r 1 1) 3) /\
  (forall r, estimation_draws_ok (example_estimation r 1 1) example_estimation_draws 3 /\ estimation_draws_last (example_estimation r 1 1) example_estimation_draws 3) /\
  (forall x, (1 <= x)%Q -> (0 <= x - 1)%Q) /\ (forall a b, (a == b)%Q -> (example_logistic a == example_logistic b)%Q).
Proof.
  split; [|split; [|split]].
  - intros t r Ht Hr. split; [exact Ht|]. cbn. split; [lia|].
    split; [intros _; split; [lia|split; [discriminate|split; [exact Hr|lia]]]|].
    split; [intros _; repeat (split; [lia|]); split; reflexivity|].
    split; [intros _; split; [lia|]; split; [split; discriminate|lia]|].
    split; [intros _; split; [lia|]; split; [lia|discriminate]|lia].
  - intros r. assert (R := rev_shuffles). split.
    + split; [|split; [intros; exact R|split; [intros t lo hi H; cbn; lia|split; [|split; [intros; cbn; lia|split; [|split; [intros; exact R|split; [exact R|split; [|split; intros; exact R]]]]]]]]].
      * intros t k. split; [intros i; cbn; split; [discriminate|reflexivity]|]. split; [|split; [exact I|repeat constructor]].
        constructor; [apply Nat.mod_upper_bound; lia|repeat constructor].
      * intros i. cbn [ed_weight example_estimation_draws]. pose proof (Nat.mod_upper_bound i 2 ltac:(lia)). generalize dependent (i mod 2). intros w Hw. unfold Qle, Qlt. cbn [Qnum Qden]. lia.
      * intros t. cbn [ed_map_indices example_estimation_draws]. repeat (apply Forall_cons; [first [apply Nat.mod_upper_bound; lia|lia]|]); apply Forall_nil.
      * intros t i c. cbn [ed_gibbs example_estimation_draws example_gibbs d_choose]. apply Nat.mod_upper_bound. lia.
    + split; [intros t k; apply example_plenty|]. intros t. cbn [ed_map_indices example_estimation_draws eo_length eo_length_upper example_estimation Z.max Z.compare Pos.compare Pos.compare_cont distinct_pairs Nat.eqb Nat.add].
      change (Z.max 1 2) with 2%Z. lia.
  - intros x H. rewrite <- (Qplus_opp_r 1). apply Qplus_le_compat; [exact H|apply Qle_refl].
  - intros a b E. unfold example_logistic. now rewrite E.
Qed.
(** The default rates are those which are given here; other options do not matter. *)
Example C126_defaults :
  same_estimation_options 340 3 (mk_population_options 3 4 2 (1 # 2) 4 2 (1 # 3) None None 1 2 2 true) (example_estimation 1 1 1)
    (mk_population_options 5 6 7 (1 # 4) 4 2 (1 # 3) (Some (1 / 3)%Q) (Some (1 / 3)%Q) 1 5 5 false) (example_estimation 1 2 2) /\
  same_estimation_options 1100 3 (mk_population_options 3 4 2 (1 # 2) 4 2 (1 # 3) None None 1 2 2 true) (example_estimation 1 1 1)
    (mk_population_options 5 6 7 (1 # 4) 4 2 (1 # 2) (Some (1 / 2)%Q) None 1 5 5 false) (example_estimation 2 2 2).
Proof. split; unfold same_estimation_options; cbn; intuition (try discriminate). Qed.
