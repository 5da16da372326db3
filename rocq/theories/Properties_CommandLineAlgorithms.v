(** Properties of hnco and the options of the algorithms with populations or distributions: C136. *)

From Coq Require Import ZArith QArith String Lia.
From Verif Require Import Base BaseLemmas BitVector_Model BitVector_Spec Map_Model Map_Spec Neighborhood_Model Double Text_Model Representation_Spec Population_Spec Properties_Population Controller_Model Controller_Spec
  Decorator_Model Decorator_Spec ControllerStack_Spec FunctionFactory_Model Application_Model Application_Spec Search_Model Search_Spec
  AlgorithmMachine_Model AlgorithmMachine_Spec PopulationMachine_Model PopulationMachine_Spec LambdaMachine_Spec EstimationMachine_Model EstimationMachine_Spec
  Properties_AlgorithmMachine Properties_PopulationMachine Properties_LambdaMachine Properties_EstimationMachine
  Options_Model Options_Spec Options_Proofs Properties_Options CommandLine_Model CommandLine_Spec CommandLine_Proofs Properties_CommandLine
  CommandLineAlgorithms_Model CommandLineAlgorithms_Spec CommandLineAlgorithms_Proofs.
Local Close Scope Q_scope.
Local Open Scope string_scope.
Local Open Scope list_scope.
Local Open Scope nat_scope.

(** * C136: the options of the algorithms with populations or distributions *)

(** The program runs with the settings which the words say, option by option. *)
Theorem C136_words E U items wordss tail : Forall2 writes items wordss -> values_written items -> (tail = [] \/ exists l, tail = "--" :: l) -> no_display items ->
  exists st, make_options false (concat wordss ++ tail) = Parsed st /\
    forall se po eo fuel, say E items st se -> population_says U items po -> estimation_says U items eo ->
      hnco (with_algorithms E U) (concat wordss ++ tail) fuel = full_run E U st se po eo fuel.
Proof. apply full_theorem. Qed.
Print Assumptions C136_words.

Section Run.
  Context (E : environment) (U : surroundings) (items : list item) (wordss : list (list string)) (tail : list string) (st : options) (se : settings)
    (po : population_options) (eo : estimation_options) (F : func) (f : bv -> dbl) (g : bv -> Z).
  Context (W : Forall2 writes items wordss) (V : values_written items) (T : tail = [] \/ exists l, tail = "--" :: l) (N : no_display items)
    (M : make_options false (concat wordss ++ tail) = Parsed st) (S1 : say E items st se) (S2 : population_says U items po) (S3 : estimation_says U items eo).
  Context (HM : FunctionFactory_Model.make_function (se_function se) = Ok F) (UM : unmodified (se_modifiers se)) (O : optimizes (se_application se))
    (R : ap_restart (se_application se) = false).
  Let n := fp_size (f_props F).
  Let ao := se_algorithm se.
  Let co := se_controllers se.
  Let pd := su_population U (se_seed se).
  Let ed := su_estimation U (se_seed se).
  Let run := hnco (with_algorithms E U) (concat wordss ++ tail).
  Context (P : 0 < n) (HT : total (f_obj F) (f_init F) n f) (HV : finite_values n f g) (SM : co_stop_on_maximum co = false) (SR : sorts (su_sort U)).
  (** The number of iterations, or that of evaluations, is bounded. *)
  Context (B : (0 < ao_num_iterations ao < Z.of_nat (en_iterations E))%Z \/ (co_cache co = false /\ (0 < co_budget co < Z.of_nat (en_iterations E))%Z)).

  Let HC : make_function_controller co F = Ok (middle_of co, co_target co).
  Proof. unfold make_function_controller, target_of. now rewrite SM. Qed.
  Let ran fuel : run fuel = full_run E U st se po eo fuel.
  Proof. destruct (full_theorem E U items wordss tail W V T N) as (st' & M' & H). assert (st' = st) as -> by congruence. now apply H. Qed.
  Let made := fun d => unmodified_made (se_modifiers se) d (se_function se) F UM (sizes_said E items st se S1) HM P.

  (** Populations and probability vectors, as in C125 *)
  Theorem C136_population : population_options_ok ao po n -> population_draws_ok pd n -> population_draws_last pd n -> partially_sorts (su_partial_sort U) ->
    exists N, forall fuel, N < fuel -> exists r x success,
      run fuel = Some (report (se_application se) co None n r x success) /\ length x = n /\
      ((co_budget co <= 0)%Z \/ success = true \/ generation_size ao po = 1%Z /\ starts_with_population ao = false -> rs_value r = Some (f x)) /\
      (starts_with_population ao = false \/ (po_mu po <= co_budget co)%Z \/ (co_budget co <= 0)%Z -> exists v, rs_value r = Some v /\ dle (f x) v = true) /\
      (success = true -> exists t, co_target co = Some t /\ dge (f x) t = true) /\
      (co_cache co = false -> (0 < co_budget co)%Z -> (Z.of_nat (rs_total r) <= co_budget co)%Z).
  Proof.
    intros OK DO DL PS.
    destruct (C125_ends (se_application se) co None F (middle_of co) (co_target co) n n f g ao (ra_algorithm (en_random E (se_seed se))) po pd (su_sort U) (su_partial_sort U) (su_debug U)
      (en_neighbors E) (en_iterations E) (en_garbage E) (su_garbage U) (su_bounds U)
      (make_estimation_algorithm ao po eo ed (su_sort U) (su_log U) (su_logistic U) (en_iterations E) (su_garbage U) (su_time U) (su_algorithm U st))) as [K C];
      auto; try exact I; try reflexivity.
    exists K. intros fuel Hf. destruct (C fuel Hf) as (r & x & success & C1 & C2). exists r, x, success. split; [|exact C2]. rewrite ran. unfold full_run. rewrite made. exact C1.
  Qed.

  (** The (1+(lambda,lambda)) GA, as in C127 *)
  Theorem C136_lambda : lambda_options_ok ao po n -> lambda_draws_ok pd n -> lambda_draws_last pd n ->
    exists N, forall fuel, N < fuel ->
      run fuel = Some ([], Undefined) \/
      exists r x success, run fuel = Some (report (se_application se) co None n r x success) /\ length x = n /\
        (exists v, rs_value r = Some v /\ dle (f x) v = true) /\
        (success = true -> rs_value r = Some (f x) /\ exists t, co_target co = Some t /\ dge (f x) t = true) /\
        (co_cache co = false -> (0 < co_budget co)%Z -> (Z.of_nat (rs_total r) <= co_budget co)%Z).
  Proof.
    intros OK DO DL.
    destruct (C127_ends (se_application se) co None F (middle_of co) (co_target co) n n f g ao (ra_algorithm (en_random E (se_seed se))) po pd (su_sort U) (su_partial_sort U) (su_debug U)
      (en_neighbors E) (en_iterations E) (en_garbage E) (su_garbage U) (su_bounds U)
      (make_estimation_algorithm ao po eo ed (su_sort U) (su_log U) (su_logistic U) (en_iterations E) (su_garbage U) (su_time U) (su_algorithm U st))) as [K C];
      auto; try exact I; try reflexivity.
    exists K. intros fuel Hf. rewrite ran. unfold full_run. rewrite made. exact (C fuel Hf).
  Qed.

  (** The algorithms which estimate distributions, as in C126 *)
  Theorem C136_estimation : estimation_options_ok ao po eo n -> estimation_draws_ok eo ed n -> estimation_draws_last eo ed n ->
    (forall x, (1 <= x)%Q -> (0 <= su_log U x)%Q) -> (forall a b, (a == b)%Q -> (su_logistic U a == su_logistic U b)%Q) ->
    exists N, forall fuel, N < fuel -> exists r x success,
      run fuel = Some (report (se_application se) co None n r x success) /\ length x = n /\
      ((co_budget co <= 0)%Z \/ success = true \/ po_population_size po = 1%Z -> rs_value r = Some (f x)) /\
      (exists v, rs_value r = Some v /\ dle (f x) v = true) /\
      (success = true -> exists t, co_target co = Some t /\ dge (f x) t = true) /\
      (co_cache co = false -> (0 < co_budget co)%Z -> (Z.of_nat (rs_total r) <= co_budget co)%Z).
  Proof.
    intros OK DO DL LG LS.
    destruct (C126_ends (se_application se) co None F (middle_of co) (co_target co) n n f g ao (ra_algorithm (en_random E (se_seed se))) po pd eo ed (su_sort U) (su_partial_sort U) (su_log U)
      (su_logistic U) (su_debug U) (en_neighbors E) (en_iterations E) (en_garbage E) (su_garbage U) (su_time U) (su_bounds U) (su_algorithm U st)) as [K C];
      auto; try exact I; try reflexivity.
    exists K. intros fuel Hf. destruct (C fuel Hf) as (r & x & success & C1 & C2). exists r, x, success. split; [|exact C2]. rewrite ran. unfold full_run. rewrite made. exact C1.
  Qed.
End Run.
Print Assumptions C136_population.
Print Assumptions C136_lambda.
Print Assumptions C136_estimation.

(** The options which nobody writes are accepted: with the default values of the help, every
    algorithm runs on vectors of at least eight bits. *)
Theorem C136_defaults E U items st se po n : say E items st se -> population_says U items po ->
  In (ao_algorithm (se_algorithm se)) population_algorithms -> 8 <= n ->
  (forall name, In name ["ea-mu"; "ea-lambda"; "ea-tournament-size"; "population-size"; "selection-size"; "ea-mutation-rate"; "incremental-evaluation"] -> asked items name = false) ->
  population_options_ok (se_algorithm se) po n /\ po_mu po = 10%Z /\ po_lambda po = 100%Z /\ po_population_size po = 10%Z /\ po_selection_size po = 1%Z.
Proof.
  intros S1 S2 T Hn A.
  assert (D : forall name z z', asked items name = false -> default_text name = Some (show_Z z') -> (- 2 ^ 31 <= z' < 2 ^ 31)%Z -> int_is items name z -> z = z').
  { intros name z z' NA DT HZ I. unfold int_is, text_of in I. assert (L : last_text items name = None).
    { clear - NA. induction items as [|it l IH]; [reflexivity|]. cbn [asked existsb] in NA. apply Bool.orb_false_iff in NA as [N1 N2]. cbn [last_text]. rewrite (IH N2).
      destruct it; [now rewrite N1|reflexivity|reflexivity]. }
    rewrite L, DT in I. assert (X : written TInt (show_Z z') (VInt z')) by (rewrite <- (append_nothing (show_Z z')); now constructor).
    pose proof (reading _ _ _ _ I X) as Y. now injection Y. }
  destruct S2 as (P1 & P2 & P3 & _ & P4 & P5 & _ & P6 & _).
  apply (D "ea-mu" _ 10%Z) in P1; [|apply A; cbn; tauto|reflexivity|lia].
  apply (D "ea-lambda" _ 100%Z) in P2; [|apply A; cbn; tauto|reflexivity|lia].
  apply (D "ea-tournament-size" _ 2%Z) in P3; [|apply A; cbn; tauto|reflexivity|lia].
  apply (D "population-size" _ 10%Z) in P4; [|apply A; cbn; tauto|reflexivity|lia].
  apply (D "selection-size" _ 1%Z) in P5; [|apply A; cbn; tauto|reflexivity|lia].
  rewrite A in P6 by (cbn; tauto).
  destruct S1 as (_ & _ & _ & _ & (_ & _ & Q1 & _) & _). rewrite A in Q1 by (cbn; tauto).
  split; [|auto]. unfold population_options_ok. rewrite P1, P2, P3, P4, P5, P6, Q1.
  split; [exact T|]. split; [reflexivity|]. split; [lia|]. split; [lia|]. split; [intros _; split; [lia|]; split; [exact Hn|discriminate]|]. split; [lia|]. split; [lia|lia].
Qed.
Print Assumptions C136_defaults.

(** Three bits: two iterations of algorithms, with values of the command line; the
    defaults; a population which is refused; and a (mu,lambda) EA with lambda < mu *)
Definition example_surroundings : surroundings :=
  mk_surroundings (fun _ => (1 # 2)%Q) (fun a _ => a) (fun _ => example_population_draws) (fun _ => example_estimation_draws) insertion_sort (fun _ => insertion_sort)
    (fun x => (x - 1)%Q) example_logistic true 0%Q 7%Z (0, 0) (fun _ _ => UB).
Definition command (t : string) (more : list string) : list string :=
  ["--algorithm=" ++ t; "-s3"; "-i"; "2"; "-b0"; "--print-results"; "--print-solution"; "--ea-mu=3"; "--ea-lambda"; "4"; "-x"; "4"; "-y2"]%string ++ more.
Example C136_case : let run t more := hnco (with_algorithms example_environment example_surroundings) (command t more) 100 in
  run "310" [] = example_shown (3 * 2 ^ 1074) 9 11 None [true; true; true] /\
  run "400" ["--ea-tournament-size=2"] = example_shown (3 * 2 ^ 1074) 7 9 None [true; true; true] /\
  run "400" ["--ea-tournament-size=3"] = Some ([], Exit 1) /\
  run "600" [] = example_shown (2 * 2 ^ 1074) 2 9 None [true; true; false] /\
  run "600" ["-x"; "-1"] = Some ([], Uncaught) /\
  run "320" ["--ea-mu"; "5"] = Some ([], Exit 1) /\
  run "1000" [] = example_shown (3 * 2 ^ 1074) 2 9 None [true; true; true] /\
  run "1100" [] = example_shown (2 * 2 ^ 1074) 2 9 None [false; true; true].
Proof. vm_compute. repeat split. Qed.

(** The hypotheses hold for these command lines. *)
Definition command_items (t : Z) : list item :=
  [Gives (the_option "algorithm") (show_Z t); Gives (the_option "bv-size") "3"; Gives (the_option "num-iterations") "2"; Gives (the_option "budget") "0";
   Sets (the_option "print-results"); Sets (the_option "print-solution"); Gives (the_option "ea-mu") "3"; Gives (the_option "ea-lambda") "4";
   Gives (the_option "population-size") "4"; Gives (the_option "selection-size") "2"].
Definition command_words (t : Z) : list (list string) :=
  [["--algorithm=" ++ show_Z t]; ["-s3"]; ["-i"; "2"]; ["-b0"]; ["--print-results"]; ["--print-solution"]; ["--ea-mu=3"]; ["--ea-lambda"; "4"]; ["-x"; "4"]; ["-y2"]]%string.
Definition command_settings (t : Z) (st : options) : settings :=
  mk_settings
    (mk_app_options false 1 None false false false false false true false false true false false false)
    (mk_controller_options 0 false false false None false)
    (mk_modifier_options 3 (mk_map_options 0 false 100 false 10 0) None None false None)
    (mk_fn_options 0 3 10 10 2 (Throw RuntimeError) (en_function example_environment st))
    (mk_algo_options t 2 false 0 0 2 false None 50 false 100)
    None "map.txt".
Definition command_population : population_options := mk_population_options 3 4 2 (1 # 2) 4 2 (1 # 2) None None (1 # 2) (1 # 2) (1 # 2) false.
Definition command_estimation : estimation_options := mk_estimation_options 0 0 0 10 0 20 10000 (1 # 2) (1 # 2) (1 # 2) true true 0 100 1 1 1 false.
Example C136_hypotheses t : In t [301; 310; 320; 400; 500; 501; 600; 700; 800; 340; 610; 612; 900; 901; 1000; 1001; 1100]%Z ->
  Forall2 writes (command_items t) (command_words t) /\ concat (command_words t) = command (show_Z t) [] /\ values_written (command_items t) /\ no_display (command_items t) /\
  (forall st, say example_environment (command_items t) st (command_settings t st)) /\
  population_says example_surroundings (command_items t) command_population /\ estimation_says example_surroundings (command_items t) command_estimation /\
  forall st, let se := command_settings t st in let ao := se_algorithm se in
    (exists F, FunctionFactory_Model.make_function (se_function se) = Ok F /\ fp_size (f_props F) = 3) /\ unmodified (se_modifiers se) /\ optimizes (se_application se) /\
    (population_options_ok ao command_population 3 \/ estimation_options_ok ao command_population command_estimation 3) /\
    (ao_num_iterations ao < Z.of_nat (en_iterations example_environment))%Z /\ sorts (su_sort example_surroundings).
Proof.
  intros HT. assert (R : (0 < t < 2000)%Z) by (cbn in HT; lia).
  assert (Dn : forall n, existsb (fun p => String.eqb (p_name p) n) documented = true -> In (the_option n) documented) by exact the_option_documented.
  assert (X : forall z, (- 2 ^ 31 <= z < 2 ^ 31)%Z -> written TInt (show_Z z) (VInt z)) by (intros z Hz; rewrite <- (append_nothing (show_Z z)); now constructor).
  split; [|split; [|split; [|split; [|split; [|split; [|split]]]]]].
  - unfold command_items, command_words. repeat apply Forall2_cons; [| | | | | | | | | |constructor].
    + apply (long_joined (the_option "algorithm") "algorithm"); [apply Dn; vm_compute; reflexivity|vm_compute; discriminate|apply standsb_stands; vm_compute; reflexivity].
    + apply short_joined; [apply Dn; vm_compute; reflexivity|vm_compute; reflexivity|discriminate].
    + apply short_apart; [apply Dn|]; vm_compute; reflexivity.
    + apply short_joined; [apply Dn; vm_compute; reflexivity|vm_compute; reflexivity|discriminate].
    + apply (flag (the_option "print-results") "print-results"); [apply Dn; vm_compute; reflexivity|vm_compute; reflexivity|apply standsb_stands; vm_compute; reflexivity].
    + apply (flag (the_option "print-solution") "print-solution"); [apply Dn; vm_compute; reflexivity|vm_compute; reflexivity|apply standsb_stands; vm_compute; reflexivity].
    + apply (long_joined (the_option "ea-mu") "ea-mu" "3"); [apply Dn; vm_compute; reflexivity|vm_compute; discriminate|apply standsb_stands; vm_compute; reflexivity].
    + apply (long_apart (the_option "ea-lambda") "ea-lambda" "4"); [apply Dn; vm_compute; reflexivity|vm_compute; discriminate|apply standsb_stands; vm_compute; reflexivity].
    + apply short_apart; [apply Dn|]; vm_compute; reflexivity.
    + apply short_joined; [apply Dn; vm_compute; reflexivity|vm_compute; reflexivity|discriminate].
  - reflexivity.
  - intros p v H. destruct H as [H|[H|[H|[H|[H|[H|[H|[H|[H|[H|[]]]]]]]]]]]; try discriminate; injection H as <- <-; vm_compute p_type;
      [exists (VInt t); apply (X t); lia| | | | | | |];
      match goal with |- exists x, written TInt ?s x =>
        match s with "3" => exists (VInt 3); apply (X 3%Z) | "2" => exists (VInt 2); apply (X 2%Z) | "0" => exists (VInt 0); apply (X 0%Z) | "4" => exists (VInt 4); apply (X 4%Z) end; lia end.
  - intros name H. destruct H as [<-|[<-|[<-|[<-|[]]]]]; reflexivity.
  - intros st. unfold say, application_says, controllers_say, modifiers_say, map_says, function_says, algorithm_says, command_settings, int_is. cbn - [text_of asked].
    repeat match goal with |- _ /\ _ => split end;
      match goal with
      | |- written TInt _ (VInt ?z) => apply (X z); lia
      | |- _ => reflexivity
      end.
  - unfold population_says, int_is. cbn - [text_of asked].
    repeat match goal with |- _ /\ _ => split end; match goal with |- written TInt _ (VInt ?z) => apply (X z); lia | |- _ => reflexivity end.
  - unfold estimation_says, int_is. cbn - [text_of asked].
    repeat match goal with |- _ /\ _ => split end; match goal with |- written TInt _ (VInt ?z) => apply (X z); lia | |- _ => reflexivity end.
  - intros st. cbv zeta. split; [eexists; split; reflexivity|]. split; [repeat split; cbn; lia|]. split; [repeat split; cbn; lia|]. split; [|split; [cbn; lia|exact insertion_sort_sorts]].
    assert (HT' : In t population_algorithms /\ t <> 330%Z \/ In t estimation_algorithms) by (cbn in HT |- *; lia).
    destruct HT' as [[T1 T2]|T1]; [left|right].
    + split; [exact T1|]. cbn. repeat (split; [intros; try lia; auto|]). lia.
    + split; [exact T1|]. cbn. split; [lia|]. split; [intros _; split; [lia|split; [discriminate|split; lia]]|].
      split; [intros _; repeat (split; [lia|]); split; reflexivity|]. split; [intros _; split; [lia|]; split; [split; discriminate|lia]|]. split; [lia|lia].
Qed.
