(** Properties of hnco and the words of its command line: C135. *)

From Coq Require Import ZArith NArith String Lia.
From Verif Require BitVector_Proofs.
From Verif Require Import Base BaseLemmas BitVector_Model BitVector_Spec Map_Model Map_Spec Neighborhood_Model Double Text_Model Controller_Model Controller_Spec
  Decorator_Model Decorator_Spec ControllerStack_Spec FunctionFactory_Model FunctionFactory_Spec Application_Model Application_Spec Search_Model Search_Spec
  Properties_FunctionFactory AlgorithmMachine_Model AlgorithmMachine_Spec Properties_AlgorithmMachine
  Options_Model Options_Spec Options_Proofs Properties_Options CommandLine_Model CommandLine_Spec CommandLine_Proofs.
Local Open Scope string_scope.
Local Open Scope list_scope.
Local Open Scope nat_scope.

(** * C135: from the words of the command line to what the program prints *)

(** The program runs with the settings which the words say, option by option. *)
Theorem C135_words E items wordss tail : Forall2 writes items wordss -> values_written items -> (tail = [] \/ exists l, tail = "--" :: l) -> no_display items ->
  exists st, make_options false (concat wordss ++ tail) = Parsed st /\
    forall se fuel, say E items st se -> hnco E (concat wordss ++ tail) fuel = run_settings E st se fuel.
Proof. apply words_theorem. Qed.
Print Assumptions C135_words.

(** Wrong words, and pages of the help: nothing is optimized. *)
Theorem C135_refused E items wordss fuel : Forall2 writes items wordss -> values_written items ->
  (forall bad, wrong bad -> hnco E (concat wordss ++ bad) fuel = Some ([], Exit 1)) /\
  (forall page a rest, In page pages -> stands_for a page -> hnco E (concat wordss ++ ("--" ++ a)%string :: rest) fuel = Some ([], Exit 0)).
Proof.
  intros W V. split.
  - intros bad B. unfold hnco. now rewrite (wrong_theorem items wordss bad W V B).
  - intros page a rest P S. unfold hnco. now rewrite (pages_theorem items wordss a page rest false W V P S).
Qed.
Print Assumptions C135_refused.

(** What the factories give when the function is not modified *)
Lemma unmodified_made mo d fo F : unmodified mo -> mo_size mo = fn_bv_size fo -> FunctionFactory_Model.make_function fo = Ok F -> 0 < fp_size (f_props F) ->
  make_function_modifier mo d (FunctionFactory_Model.make_function fo) = Ok (Some (None, F)).
Proof.
  intros (U1 & U2 & U3 & U4 & U5) S M P. unfold make_function_modifier, Decorator_Model.make_function. rewrite S, M.
  assert (B : (fn_bv_size fo <=? 0)%Z = false).
  { destruct (fn_bv_size fo <=? 0)%Z eqn:B; [|reflexivity]. unfold FunctionFactory_Model.make_function in M. rewrite B in M. discriminate. }
  rewrite B. cbn [bind]. apply Nat.ltb_lt in P. rewrite P. cbn [assertb bind]. destruct (Z.ltb_spec 0 (mp_kind (mo_map mo))); [lia|]. cbn [bind].
  unfold add_prior_noise, add_parsed, add_noise, add_opposite. now rewrite U2, U3, U4, U5.
Qed.
Lemma complete_made ao d neighbors iterations garbage others n : ao_algorithm ao = 0%Z ->
  make_algorithm ao d neighbors iterations garbage others n = make_complete_search n.
Proof. intros H. unfold make_algorithm. rewrite H. reflexivity. Qed.
Lemma sizes_said E items st se : say E items st se -> mo_size (se_modifiers se) = fn_bv_size (se_function se).
Proof.
  intros (_ & _ & (H1 & _) & (_ & H2 & _) & _). unfold int_is in *. pose proof (reading _ _ _ _ H1 H2) as X. now injection X.
Qed.
Lemma same_program ap co made f g fuel : (forall n, f n = g n) -> program ap co made f fuel = program ap co made g fuel.
Proof.
  intros H. unfold program. destruct (app_init ap) as [out [[c|]|e|]]; auto. destruct made as [[[m F]|]|e|]; auto. destruct (make_function_controller co F) as [[mid t]|e|]; auto.
  destruct (andthen _ _) as [o [[c|]|e|]]; auto. now rewrite H.
Qed.

(** Complete search (algorithm 0) of a function which is made from the options (C118), with
    --stop-on-maximum: within the budget, the solution is the first maximizer. *)
Theorem C135_maximum E items wordss tail st se F : Forall2 writes items wordss -> values_written items -> (tail = [] \/ exists l, tail = "--" :: l) -> no_display items ->
  make_options false (concat wordss ++ tail) = Parsed st -> say E items st se ->
  usual (se_function se) -> FunctionFactory_Model.make_function (se_function se) = Ok F -> unmodified (se_modifiers se) ->
  ao_algorithm (se_algorithm se) = 0%Z -> optimizes (se_application se) -> ap_restart (se_application se) = false -> co_stop_on_maximum (se_controllers se) = true ->
  let n := fp_size (f_props F) in
  let x0 := first_maximizer (se_function se) in
  let k := N.to_nat (value_lsb x0) in
  length x0 = n /\
  forall fuel, 2 ^ n < fuel -> exists r x,
    hnco E (concat wordss ++ tail) fuel = Some (report (se_application se) (se_controllers se) None n r x (k <? allowed (se_controllers se) (2 ^ n))) /\
    (if k <? allowed (se_controllers se) (2 ^ n)
     then x = x0 /\ rs_value r = Some (DFin (documented_maximum (se_function se))) /\ rs_num r = k + 1 /\ rs_total r = k + 1
     else rs_total r = allowed (se_controllers se) (2 ^ n)).
Proof.
  intros W V T N M S U HM UM A O R SM n x0 k. destruct (words_theorem E items wordss tail W V T N) as (st' & M' & H). assert (st' = st) as -> by congruence.
  destruct (C118_maximum (se_function se) F U HM) as (P & _). destruct (C118_complete_search (se_application se) (se_controllers se) (se_function se) F U HM O R SM) as [L C].
  split; [exact L|]. intros fuel Hf. destruct (C fuel Hf) as (r & x & C1 & C2). exists r, x. split; [|exact C2]. rewrite (H se fuel S). unfold run_settings.
  rewrite (unmodified_made _ _ _ F UM (sizes_said E items st se S) HM P). etransitivity; [|exact C1]. apply same_program. intros i. now apply complete_made.
Qed.
Print Assumptions C135_maximum.

(** Local searches, as in C124: the program ends within the budget, and shows the value of the
    solution which it shows. *)
Theorem C135_local_search E items wordss tail st se F f g : Forall2 writes items wordss -> values_written items -> (tail = [] \/ exists l, tail = "--" :: l) -> no_display items ->
  make_options false (concat wordss ++ tail) = Parsed st -> say E items st se ->
  FunctionFactory_Model.make_function (se_function se) = Ok F -> unmodified (se_modifiers se) -> optimizes (se_application se) -> ap_restart (se_application se) = false ->
  let n := fp_size (f_props F) in
  let d := ra_algorithm (en_random E (se_seed se)) in
  let ao := se_algorithm se in
  let co := se_controllers se in
  0 < n -> total (f_obj F) (f_init F) n f -> finite_values n f g -> options_ok ao n -> draws_ok ao d n -> 2 ^ n < en_neighbors E ->
  co_stop_on_maximum co = false -> (climber ao = true -> 2 ^ n + 1 < en_iterations E) ->
  climber ao = true \/
  (draws_last d n /\ ((0 < ao_num_iterations ao < Z.of_nat (en_iterations E))%Z \/
                      (co_cache co = false /\ (0 < co_budget co < Z.of_nat (en_iterations E))%Z))) ->
  exists N, forall fuel, N < fuel -> exists r x success,
    hnco E (concat wordss ++ tail) fuel = Some (report (se_application se) co None n r x success) /\ length x = n /\
    (ao_algorithm ao <> 150%Z \/ (co_budget co <= 0)%Z \/ success = true -> rs_value r = Some (f x)) /\
    (success = true -> exists t, co_target co = Some t /\ dge (f x) t = true) /\
    (co_cache co = false -> (0 < co_budget co)%Z -> (Z.of_nat (rs_total r) <= co_budget co)%Z).
Proof.
  intros W V T N M S HM UM O R n d ao co P HT HV OK DO NB SM IT EN. destruct (words_theorem E items wordss tail W V T N) as (st' & M' & H). assert (st' = st) as -> by congruence.
  assert (HC : make_function_controller co F = Ok (middle_of co, co_target co)) by (unfold make_function_controller, target_of; now rewrite SM).
  destruct (C124_ends (se_application se) co None F (middle_of co) (co_target co) n n f g ao d (en_neighbors E) (en_iterations E) (en_garbage E) (en_algorithm E st))
    as [K C]; auto; try exact I; try reflexivity.
  exists K. intros fuel Hf. destruct (C fuel Hf) as (r & x & success & C1 & C2). exists r, x, success. split; [|exact C2]. rewrite (H se fuel S). unfold run_settings.
  rewrite (unmodified_made _ _ _ F UM (sizes_said E items st se S) HM P). exact C1.
Qed.
Print Assumptions C135_local_search.

(** hnco -A 0 -s n -b 0 --stop-on-maximum --print-solution prints n ones. *)
Definition onemax_items (n : nat) : list item :=
  [Gives (the_option "algorithm") "0"; Gives (the_option "bv-size") (show_Z (Z.of_nat n)); Gives (the_option "budget") "0"; Sets (the_option "stop-on-maximum");
   Sets (the_option "print-solution")].
Definition onemax_words (n : nat) : list (list string) :=
  [["-A"; "0"]; ["-s"; show_Z (Z.of_nat n)]; ["-b"; "0"]; ["--stop-on-maximum"]; ["--print-solution"]].
Lemma append_nothing s : (s ++ "")%string = s.
Proof. induction s as [|c s IH]; cbn; congruence. Qed.
Lemma onemax_written n : 0 < n -> (Z.of_nat n < 2 ^ 31)%Z -> Forall2 writes (onemax_items n) (onemax_words n) /\ values_written (onemax_items n).
Proof.
  intros H1 H2. assert (Dn : forall n, existsb (fun p => String.eqb (p_name p) n) documented = true -> In (the_option n) documented) by exact the_option_documented.
  split.
  - repeat apply Forall2_cons; [| | | | |constructor].
    + apply short_apart; [apply Dn|]; vm_compute; reflexivity.
    + apply short_apart; [apply Dn|]; vm_compute; reflexivity.
    + apply short_apart; [apply Dn|]; vm_compute; reflexivity.
    + apply (flag (the_option "stop-on-maximum") "stop-on-maximum"); [apply Dn; vm_compute; reflexivity|vm_compute; reflexivity|apply standsb_stands; vm_compute; reflexivity].
    + apply (flag (the_option "print-solution") "print-solution"); [apply Dn; vm_compute; reflexivity|vm_compute; reflexivity|apply standsb_stands; vm_compute; reflexivity].
  - assert (X : forall z, (- 2 ^ 31 <= z < 2 ^ 31)%Z -> written TInt (show_Z z) (VInt z)) by (intros z Hz; rewrite <- (append_nothing (show_Z z)); now constructor).
    intros p v H. destruct H as [H|[H|[H|[H|[H|[]]]]]]; try discriminate; injection H as <- <-; vm_compute p_type.
    + exists (VInt 0). apply (X 0%Z). lia.
    + exists (VInt (Z.of_nat n)). apply X. lia.
    + exists (VInt 0). apply (X 0%Z). lia.
Qed.
Definition onemax_settings (E : environment) (st : options) (n : nat) : settings :=
  mk_settings
    (mk_app_options false 1 None false false false false false false false false true false false false)
    (mk_controller_options 0 false false true None false)
    (mk_modifier_options (Z.of_nat n) (mk_map_options 0 false 100 false 10 0) None None false None)
    (mk_fn_options 0 (Z.of_nat n) 10 10 2 (en_weights E "function.txt") (en_function E st))
    (mk_algo_options 0 0 false 0 0 2 false None 50 false 100)
    None "map.txt".
Lemma onemax_say E st n : 0 < n -> (Z.of_nat n < 2 ^ 31)%Z -> say E (onemax_items n) st (onemax_settings E st n).
Proof.
  intros H1 H2. assert (X : forall z, (- 2 ^ 31 <= z < 2 ^ 31)%Z -> written TInt (show_Z z) (VInt z)) by (intros z Hz; rewrite <- (append_nothing (show_Z z)); now constructor).
  unfold say, application_says, controllers_say, modifiers_say, map_says, function_says, algorithm_says, onemax_settings, int_is. cbn - [text_of asked].
  repeat match goal with |- _ /\ _ => split end;
    match goal with
    | |- written TInt _ (VInt (Z.of_nat n)) => apply (X (Z.of_nat n)); lia
    | |- written TInt _ (VInt ?z) => apply (X z); lia
    | |- _ => reflexivity
    end.
Qed.
Theorem C135_onemax E n fuel : 0 < n -> (Z.of_nat n < 2 ^ 31)%Z -> 2 ^ n < fuel ->
  hnco E ["-A"; "0"; "-s"; show_Z (Z.of_nat n); "-b"; "0"; "--stop-on-maximum"; "--print-solution"] fuel =
    Some ([OSolution Printed (repeat true n)], Exit 0).
Proof.
  intros H1 H2 HF. destruct (onemax_written n H1 H2) as [W V].
  assert (N : no_display (onemax_items n)) by (intros name H; destruct H as [<-|[<-|[<-|[<-|[]]]]]; reflexivity).
  destruct (C135_words E (onemax_items n) (onemax_words n) [] W V (or_introl eq_refl) N) as (st & M & _).
  pose proof (onemax_say E st n H1 H2) as S.
  assert (MF : FunctionFactory_Model.make_function (se_function (onemax_settings E st n)) = Ok (onemax_function n)).
  { unfold FunctionFactory_Model.make_function. cbn [se_function onemax_settings fn_bv_size fn_type]. destruct (Z.leb_spec (Z.of_nat n) 0); [lia|]. now rewrite Nat2Z.id. }
  destruct (C135_maximum E (onemax_items n) (onemax_words n) [] st (onemax_settings E st n) (onemax_function n) W V (or_introl eq_refl) N M S) as [L C].
  - unfold usual, by_options. cbn [se_function onemax_settings fn_type]. split; [now left|]. split; [lia|]. split; [lia|]. split; [lia|discriminate].
  - exact MF.
  - repeat split. cbn. lia.
  - reflexivity.
  - repeat split. cbn. lia.
  - reflexivity.
  - reflexivity.
  - cbn [f_props onemax_function fp_size] in C. destruct (C fuel HF) as (r & x & C1 & C2).
    assert (K : (N.to_nat (value_lsb (first_maximizer (se_function (onemax_settings E st n)))) <? allowed (se_controllers (onemax_settings E st n)) (2 ^ n)) = true).
    { apply Nat.ltb_lt. unfold allowed. cbn [se_controllers onemax_settings co_budget]. cbn [Z.ltb Z.compare].
      pose proof (BitVector_Proofs.value_lsb_lt (first_maximizer (se_function (onemax_settings E st n)))) as B. rewrite L in B. cbn [f_props onemax_function fp_size] in B.
      apply Nat.compare_lt_iff. rewrite <- (Nat2N.id (2 ^ n)), Nat2N.inj_pow, <- N2Nat.inj_compare. exact B. }
    rewrite K in C1, C2. destruct C2 as (-> & _). change (concat (onemax_words n) ++ []) with ["-A"; "0"; "-s"; show_Z (Z.of_nat n); "-b"; "0"; "--stop-on-maximum"; "--print-solution"] in C1.
    rewrite C1. unfold report, shown. cbn [se_application onemax_settings ap_concrete]. unfold describes. cbn [ap_print_description ap_save_description orb negb].
    unfold show_results, show_solution, show_description, also. cbn. unfold first_maximizer. cbn [fn_type fn_bv_size]. unfold ones_first. rewrite Nat2Z.id, Nat.sub_diag.
    now rewrite app_nil_r.
Qed.
Print Assumptions C135_onemax.

(** An environment, and command lines: random local search with a budget; with a map; complete
    search of a minimum; a wrong value of an option; help; and a display. *)
Definition example_environment : environment :=
  mk_environment (fun _ => DFin 2) (fun _ _ => false) (fun _ => Throw RuntimeError) (fun _ _ => Throw RuntimeError) (fun _ => Throw RuntimeError) (fun _ => None) (fun _ _ v => v)
    (fun _ => mk_random_numbers (mk_map_draws (fun _ => true) (fun l => l) [] [] (fun l => l) (fun l => l) (fun _ a _ => a) false []) (fun _ => []) example_algo_draws)
    (fun _ _ => None) (fun _ _ => UB) (fun _ => None) 9 20 0.
Example C135_case : let run ws := hnco example_environment ws 100 in
  run ["-A"; "100"; "-s3"; "--budg=3"; "--rls-patience=0"; "--print-results"; "--print-solution"] =
    example_shown (2 * 2 ^ 1074) 3 3 None [true; true; false] /\
  run ["--print-solution"; "--algorithm=0"; "-s"; "5"; "-s"; "3"; "--map=1"; "--map-random"; "--concrete-solution"] = Some ([OSolution Printed [true; true; true]], Exit 0) /\
  run ["--minimize"; "--algorithm=0"; "-s3"; "--print-solution"] = Some ([OSolution Printed [false; false; false]], Exit 0) /\
  run ["--map=9"; "-A0"] = Some ([], Exit 1) /\ run ["-s3"; "-A0"; "--map"] = Some ([], Exit 1) /\ run ["-s3"; "--help"] = Some ([], Exit 0).
Proof. vm_compute. repeat split. Qed.

(** The hypotheses of C135_local_search hold for the first of these command lines. *)
Definition search_items : list item :=
  [Gives (the_option "algorithm") "100"; Gives (the_option "bv-size") "3"; Gives (the_option "budget") "3"; Gives (the_option "rls-patience") "0";
   Sets (the_option "print-results"); Sets (the_option "print-solution")].
Definition search_words : list (list string) :=
  [["-A"; "100"]; ["-s3"]; ["--budg=3"]; ["--rls-patience=0"]; ["--print-results"]; ["--print-solution"]].
Definition search_settings (st : options) : settings :=
  mk_settings
    (mk_app_options false 1 None false false false false false true false false true false false false)
    (mk_controller_options 3 false false false None false)
    (mk_modifier_options 3 (mk_map_options 0 false 100 false 10 0) None None false None)
    (mk_fn_options 0 3 10 10 2 (Throw RuntimeError) (en_function example_environment st))
    (mk_algo_options 100 0 false 0 0 2 false None 0 false 100)
    None "map.txt".
Example C135_hypotheses : Forall2 writes search_items search_words /\ values_written search_items /\ no_display search_items /\
  exists st, make_options false (concat search_words) = Parsed st /\ say example_environment search_items st (search_settings st) /\
    let se := search_settings st in
    let ao := se_algorithm se in
    exists F, FunctionFactory_Model.make_function (se_function se) = Ok F /\ unmodified (se_modifiers se) /\ optimizes (se_application se) /\
      fp_size (f_props F) = 3 /\ (exists f g, total (f_obj F) (f_init F) 3 f /\ finite_values 3 f g) /\
      options_ok ao 3 /\ draws_ok ao (ra_algorithm (en_random example_environment (se_seed se))) 3 /\ climber ao = false /\
      draws_last (ra_algorithm (en_random example_environment (se_seed se))) 3.
Proof.
  assert (Dn : forall n, existsb (fun p => String.eqb (p_name p) n) documented = true -> In (the_option n) documented) by exact the_option_documented.
  assert (X : forall z, (- 2 ^ 31 <= z < 2 ^ 31)%Z -> written TInt (show_Z z) (VInt z)) by (intros z Hz; rewrite <- (append_nothing (show_Z z)); now constructor).
  split; [|split; [|split]].
  - repeat apply Forall2_cons; [| | | | | |constructor].
    + apply short_apart; [apply Dn|]; vm_compute; reflexivity.
    + apply short_joined; [apply Dn; vm_compute; reflexivity|vm_compute; reflexivity|discriminate].
    + apply (long_joined (the_option "budget") "budg" "3"); [apply Dn; vm_compute; reflexivity|vm_compute; discriminate|apply standsb_stands; vm_compute; reflexivity].
    + apply (long_joined (the_option "rls-patience") "rls-patience" "0"); [apply Dn; vm_compute; reflexivity|vm_compute; discriminate|apply standsb_stands; vm_compute; reflexivity].
    + apply (flag (the_option "print-results") "print-results"); [apply Dn; vm_compute; reflexivity|vm_compute; reflexivity|apply standsb_stands; vm_compute; reflexivity].
    + apply (flag (the_option "print-solution") "print-solution"); [apply Dn; vm_compute; reflexivity|vm_compute; reflexivity|apply standsb_stands; vm_compute; reflexivity].
  - intros p v H. destruct H as [H|[H|[H|[H|[H|[H|[]]]]]]]; try discriminate; injection H as <- <-; vm_compute p_type.
    + exists (VInt 100). apply (X 100%Z). lia.
    + exists (VInt 3). apply (X 3%Z). lia.
    + exists (VInt 3). apply (X 3%Z). lia.
    + exists (VInt 0). apply (X 0%Z). lia.
  - intros name H. destruct H as [<-|[<-|[<-|[<-|[]]]]]; reflexivity.
  - destruct (make_options false (concat search_words)) as [st|pg en] eqn:M; [|vm_compute in M; discriminate]. exists st. split; [reflexivity|]. clear M. split.
    { unfold say, application_says, controllers_say, modifiers_say, map_says, function_says, algorithm_says, search_settings, int_is. cbn - [text_of asked].
      repeat match goal with |- _ /\ _ => split end;
        match goal with
        | |- written TInt _ (VInt ?z) => apply (X z); lia
        | |- _ => reflexivity
        end. }
    destruct C124_hypotheses as (H1 & H2 & H3 & _).
    exists (onemax_function 3). split; [reflexivity|]. split; [repeat split; cbn; lia|]. split; [repeat split; cbn; lia|]. split; [reflexivity|]. split.
    { exists (fun x => dint (Theory_Model.onemax_evaluate x)), (fun x => (Theory_Model.onemax_evaluate x * 2 ^ 1074)%Z). split; [|intros x _; reflexivity].
      intros l H. induction H as [|x l Hx _ IH]; cbn - [Z.pow]; [reflexivity|]. f_equal. exact IH. }
    split; [split; [cbn; tauto|]; split; [now left|]; split; [now left|reflexivity]|]. split; [exact (H2 100%Z)|]. split; [reflexivity|exact H3].
Qed.
