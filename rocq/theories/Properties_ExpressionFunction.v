(** Properties of the functions of hnco given by expressions: C139. *)

From Coq Require Import ZArith NArith String Lia.
From Verif Require Import Base BaseLemmas BitVector_Model BitVector_Spec Map_Model Map_Spec Text_Model Parser_Model Parser_Spec Representation_Model Representation_Spec Adapter_Proofs
  ParsedFunction_Model ParsedFunction_Spec Parser_Proofs Properties_Parser Properties_ParsedFunction Properties_MultiApplication
  Double Controller_Model Controller_Spec Decorator_Model Decorator_Spec ControllerStack_Spec FunctionFactory_Model FunctionFactory_Spec FunctionFactory_Proofs
  Application_Model Application_Spec Properties_Application Iterator_Proofs Search_Model Search_Spec Properties_Search AlgorithmMachine_Model
  Options_Model Options_Spec Options_Proofs Properties_Options CommandLine_Model CommandLine_Spec CommandLine_Proofs Properties_CommandLine
  ExpressionFunction_Model ExpressionFunction_Spec ExpressionFunction_Proofs.
Local Open Scope string_scope.
Local Open Scope list_scope.
Local Open Scope nat_scope.

(** * C139: functions given by expressions, from the words to what is printed *)

Section Words.
  Context {T : Type} (E : environment) (X : expression_surroundings T) (items : list item) (wordss : list (list string)) (tail : list string) (st : options) (se : settings).
  Context (W : Forall2 writes items wordss) (V : values_written items) (TL : tail = [] \/ exists l, tail = "--" :: l) (N : no_display items)
    (M : make_options false (concat wordss ++ tail) = Parsed st) (S1 : say (with_expressions E X) items st se).
  Let fo := se_function se.
  Let run := hnco (with_expressions E X) (concat wordss ++ tail).

  Let F0 : facts st items.
  Proof. destruct (facts_hold items wordss tail W V TL) as (st' & M' & F). assert (st' = st) as -> by congruence. exact F. Qed.
  Let ran fuel : run fuel = run_settings (with_expressions E X) st se fuel.
  Proof. destruct (words_theorem (with_expressions E X) items wordss tail W V TL N) as (st' & M' & H). assert (st' = st) as -> by congruence. now apply H. Qed.
  Let other : fn_other fo = expression_function X st.
  Proof. destruct S1 as (_ & _ & _ & (_ & _ & _ & _ & _ & _ & H) & _). exact H. Qed.

  (** Such a function has nothing to update: an update is accepted and changes nothing. *)
  Theorem C139_update k equation F s x w :
    fn_type fo = expression_type k equation \/ fn_type fo = mixed_expression_type equation -> FunctionFactory_Model.make_function fo = Ok F ->
    f_obj F s (RUpdate x w) = (s, Ok RVoid).
  Proof using S1.
    intros Ty' MF. assert (Ty : exists v, so_type (fn_type fo) = Some (v, equation)).
    { destruct Ty' as [-> | ->]; eexists; [apply expression_type_made|apply mixed_expression_type_made]. }
    destruct Ty as (v & Ty). assert (B : (0 < fn_bv_size fo)%Z).
    { unfold FunctionFactory_Model.make_function in MF. destruct (Z.leb_spec (fn_bv_size fo) 0); [discriminate MF|assumption]. }
    rewrite (made_by_expression X st fo v equation Ty B other) in MF. unfold so_make in MF.
    destruct (get_expression X st) as [e'| |]; cbn [bind] in MF; try discriminate MF.
    destruct (parsed_make _ _) as [p| |]; cbn [bind] in MF; try discriminate MF.
    destruct (get_representations X st) as [t| |]; cbn [bind] in MF; try discriminate MF.
    destruct (match v with Scalars _ => _ | Mixed => _ end) as [ps| |]; cbn [bind] in MF; try discriminate MF.
    destruct (to_reps _ _) as [reps| |]; cbn [bind] in MF; try discriminate MF.
    destruct (assertb _) as [u| |]; cbn [bind] in MF; try discriminate MF. inversion MF; subst F. reflexivity.
  Qed.

  (** The expression, its variables, the options of the parser and the declarations, as the
      words or the files say *)
  Context (e text : string) (He : expression_says items (xs_file X) e) (Ht : representations_say items (xs_file X) text).
  Context (po : parser_options T) (Hpo : parser_says items (xs_number X) po) (ds : list (string * params T)) (Hds : declarations (xs_stod X) po text ds).
  Context (Hs : (0 < fn_bv_size fo)%Z).

  (** Variables of one type: each has the last representation declared for it if it is of
      this type, else the default one. *)
  Theorem C139_function k equation default names size decode :
    fn_type fo = expression_type k equation -> pa_deduce (parser_of X k) e = Some names ->
    represents (xs_stod X) po (Parser_Spec.default_text po k) default -> kind default = of_scalar k ->
    (forall v q, In v names -> used ds default v q -> representable (pa_rep (parser_of X k)) size decode q) ->
    exists F f qs, FunctionFactory_Model.make_function fo = Ok F /\ Forall2 (used ds default) names qs /\
      expression_made (parser_of X k) size decode e qs equation F f.
  Proof using W V TL M S1 He Ht Hpo Hds Hs.
    intros Ty D R K RP. destruct (C108_variables (xs_stod X) po text ds Hds names k default R K) as (qs & EQ & FQ).
    assert (FU : Forall2 (used ds default) names qs) by (clear - FQ; induction FQ as [|v q vs qs [H _] F IH]; constructor; auto).
    destruct (so_made (xs_stod X) (parser_of X k) po size decode e names D (Scalars k) (used ds default) text equation qs EQ FU RP) as (F & f & MF & H).
    exists F, f, qs. split; [|split; [exact FU|exact H]]. rewrite (made_by_expression X st fo (Scalars k) equation); auto.
    - rewrite (expression_said X st items F0 e He), (representations_said X st items F0 text Ht), (parser_said X st items F0 po Hpo). rewrite <- MF. now destruct k.
    - rewrite Ty. apply expression_type_made.
  Qed.

  (** Variables of different types: any declared representation but int, else the default one
      of double. *)
  Theorem C139_mixed_function equation unused default names size decode :
    fn_type fo = mixed_expression_type equation -> pa_deduce (xs_reals X) e = Some names ->
    represents (xs_stod X) po (Parser_Spec.default_text po SLong) unused -> represents (xs_stod X) po (Parser_Spec.default_text po SDouble) default ->
    (forall v q, In v names -> used_mixed ds default v q -> representable (pa_rep (xs_reals X)) size decode q) ->
    exists F f qs, FunctionFactory_Model.make_function fo = Ok F /\ Forall2 (used_mixed ds default) names qs /\
      expression_made (xs_reals X) size decode e qs equation F f.
  Proof using W V TL M S1 He Ht Hpo Hds Hs.
    intros Ty D U R RP. destruct (C108_mixed_variables (xs_stod X) po text ds Hds names unused default U R) as (qs & EQ & FU).
    destruct (so_made (xs_stod X) (xs_reals X) po size decode e names D Mixed (used_mixed ds default) text equation qs EQ FU RP) as (F & f & MF & H).
    exists F, f, qs. split; [|split; [exact FU|exact H]]. rewrite (made_by_expression X st fo Mixed equation); auto.
    - rewrite (expression_said X st items F0 e He), (representations_said X st items F0 text Ht), (parser_said X st items F0 po Hpo). exact MF.
    - rewrite Ty. apply mixed_expression_type_made.
  Qed.

  (** A default representation of another type ends the program by an exception which main does
      not catch, even if all variables are declared. *)
  Theorem C139_wrong_default k equation default names fuel :
    fn_type fo = expression_type k equation -> pa_deduce (parser_of X k) e = Some names -> names <> [] ->
    represents (xs_stod X) po (Parser_Spec.default_text po k) default -> kind default <> of_scalar k ->
    ap_print_default (se_application se) = false -> (1 <= ap_threads (se_application se))%Z ->
    run fuel = Some ([], Uncaught).
  Proof using W V TL M N S1 He Ht Hpo Hds Hs.
    intros Ty D NE R K A1 A2.
    assert (MF : FunctionFactory_Model.make_function fo = Throw OtherException).
    { rewrite (made_by_expression X st fo (Scalars k) equation); auto; [|rewrite Ty; apply expression_type_made].
      rewrite (expression_said X st items F0 e He), (representations_said X st items F0 text Ht), (parser_said X st items F0 po Hpo).
      unfold so_make. cbn [bind]. unfold parsed_make. replace (pa_deduce (parser_for X (Scalars k)) e) with (Some names) by (rewrite <- D; now destruct k). cbn [bind pf_names].
      now rewrite (C108_wrong_default (xs_stod X) po text ds Hds names k default R K NE). }
    rewrite ran. unfold run_settings. destruct (C111_errors (se_application se) (se_controllers se)
      (make_function_modifier (se_modifiers se) (mk_modifier_draws (ra_map (en_random (with_expressions E X) (se_seed se)))
         (en_map (with_expressions E X) (se_map_path se) (mp_kind (mo_map (se_modifiers se)))) (ra_flips (en_random (with_expressions E X) (se_seed se)))) (FunctionFactory_Model.make_function (se_function se)))
      (make_algorithm (se_algorithm se) (ra_algorithm (en_random (with_expressions E X) (se_seed se))) (en_neighbors (with_expressions E X)) (en_iterations (with_expressions E X))
         (en_garbage (with_expressions E X)) (en_algorithm (with_expressions E X) st)) fuel) as (_ & _ & H & _).
    destruct (H A1 A2) as [H1 _]. apply (H1 OtherException). unfold make_function_modifier, Decorator_Model.make_function. fold fo. rewrite MF, (sizes_said (with_expressions E X) items st se S1). fold fo.
    destruct (Z.leb_spec (fn_bv_size fo) 0); [lia|reflexivity].
  Qed.
End Words.

Lemma piecewise_length {T} (size : params T -> nat) qs pieces : piecewise size qs pieces -> length (concat pieces) = fold_right Nat.add 0 (map size qs).
Proof. intros H. induction H as [|q p qs ps Hp _ IH]; [reflexivity|]. cbn [concat map fold_right]. now rewrite app_length, Hp, IH. Qed.

Section Run.
  Context {T : Type} (E : environment) (X : expression_surroundings T) (items : list item) (wordss : list (list string)) (tail : list string) (st : options) (se : settings).
  Context (W : Forall2 writes items wordss) (V : values_written items) (TL : tail = [] \/ exists l, tail = "--" :: l) (N : no_display items)
    (M : make_options false (concat wordss ++ tail) = Parsed st) (S1 : say (with_expressions E X) items st se).
  Let fo := se_function se.
  Let run := hnco (with_expressions E X) (concat wordss ++ tail).
  Let ap := se_application se.
  Let co := se_controllers se.

  Let ran fuel : run fuel = run_settings (with_expressions E X) st se fuel.
  Proof. destruct (words_theorem (with_expressions E X) items wordss tail W V TL N) as (st' & M' & H). assert (st' = st) as -> by congruence. now apply H. Qed.

  (** A file is missing, or the expression does not parse: the program fails and nothing is
      printed. *)
  Theorem C139_refused k equation fuel :
    fn_type fo = expression_type k equation \/ (fn_type fo = mixed_expression_type equation /\ k = SDouble) ->
    ap_print_default ap = false -> (1 <= ap_threads ap)%Z ->
    missing_file items (xs_file X) \/ (exists e, expression_says items (xs_file X) e /\ pa_deduce (parser_of X k) e = None) ->
    run fuel = Some ([], Exit 1).
  Proof using W V TL M N S1.
    intros Ty A1 A2 H. destruct (facts_hold items wordss tail W V TL) as (st' & M' & F0). assert (st' = st) as -> by congruence.
    assert (SZ := sizes_said (with_expressions E X) items st se S1). fold fo in SZ.
    assert (O : fn_other fo = expression_function X st) by (destruct S1 as (_ & _ & _ & (_ & _ & _ & _ & _ & _ & H') & _); exact H').
    rewrite ran. unfold run_settings. fold ap co fo.
    set (d := mk_modifier_draws _ _ _). set (alg := make_algorithm _ _ _ _ _ _).
    destruct (C111_errors ap co (make_function_modifier (se_modifiers se) d (FunctionFactory_Model.make_function fo)) alg fuel) as (_ & _ & G & _).
    destruct (G A1 A2) as [G1 _]. apply (G1 RuntimeError). unfold make_function_modifier, Decorator_Model.make_function. rewrite SZ.
    destruct (Z.leb_spec (fn_bv_size fo) 0) as [|B]; [reflexivity|].
    assert (MF : FunctionFactory_Model.make_function fo = Throw RuntimeError); [|now rewrite MF].
    assert (C : exists v, so_type (fn_type fo) = Some (v, equation) /\ parser_for X v = parser_of X k).
    { destruct Ty as [Ty|[Ty ->]]; rewrite Ty; [exists (Scalars k)|exists Mixed]; (split; [apply expression_type_made || apply mixed_expression_type_made|]); [now destruct k|reflexivity]. }
    destruct C as (v & C1 & C2). rewrite (made_by_expression X st fo v equation C1 B O), C2. unfold so_make, parsed_make.
    destruct H as [H|(e & He & De)].
    - apply (missing_said X st items F0) in H as [H|H]; rewrite H; [reflexivity|].
      unfold get_expression, read_file_content. destruct (flag_of st "fp_expression"); [|destruct (xs_file X (text_from st "path")); [|reflexivity]]; cbn [bind];
        destruct (pa_deduce (parser_of X k) _); reflexivity.
    - rewrite (expression_said X st items F0 e He). cbn [bind]. now rewrite De.
  Qed.

  (** Complete search, for a function which is not modified, without target or restart,
      and with a budget, if any, which allows all vectors *)
  Context (P : parser T) (size : params T -> nat) (decode : params T -> list bool -> pa_domain P) (e : string) (qs : list (params T)) (equation : bool) (F : func) (f : bv -> dbl).
  Context (HM : FunctionFactory_Model.make_function fo = Ok F) (HF : expression_made P size decode e qs equation F f).
  Context (UM : unmodified (se_modifiers se)) (A0 : ao_algorithm (se_algorithm se) = 0%Z) (OP : optimizes ap) (RS : ap_restart ap = false)
    (SM : co_stop_on_maximum co = false) (T0 : co_target co = None).
  Let n := fold_right Nat.add 0 (map size qs).
  Let value (pieces : list (list bool)) : dbl := pa_double P (pa_eval P e (map2 decode qs pieces)).
  Context (Hn : 0 < n) (B0 : (co_budget co <= 0 \/ Z.of_nat (2 ^ n) <= co_budget co)%Z) (NN : forall pieces, piecewise size qs pieces -> is_nan (value pieces) = false).

  (** The program shows the best vector: its value is that of the expression for its pieces (or
      minus the absolute value), and no values of the variables give a better one. *)
  Theorem C139_complete_search fuel : 2 ^ n < fuel ->
    exists r pieces v, run fuel = Some (report ap co None n r (concat pieces) false) /\ piecewise size qs pieces /\
      objective equation (value pieces) v /\ rs_value r = Some v /\
      forall pieces' v', piecewise size qs pieces' -> objective equation (value pieces') v' -> dle v' v = true.
  Proof using W V TL M N S1 HM HF UM A0 OP RS SM B0 T0 Hn NN.
    intros Hf. destruct HF as (SF & _ & _ & TF & EF). fold n in SF, TF.
    assert (HC : make_function_controller co F = Ok (middle_of co, None)) by (unfold make_function_controller, target_of; now rewrite SM, T0).
    assert (NB : Search_Spec.numbers n f).
    { intros x Lx. destruct (split_sizes size qs x Lx) as (ps & FP & <-). pose proof (EF ps FP) as O. pose proof (NN ps FP) as Nw. fold (value ps) in O.
      generalize dependent (value ps). intros w O Nw. clear - O Nw. destruct O; auto. }
    destruct (C116_complete_search ap co None F (middle_of co) None n n f Hn OP RS HC eq_refl I SF TF NB) as (L & HL & H).
    destruct (H fuel Hf) as (r & x & success & Pr & _ & SE). clear H.
    assert (AL : allowed co (2 ^ n) = 2 ^ n) by (unfold allowed; destruct (Z.ltb_spec 0 (co_budget co)); [destruct B0; lia|reflexivity]). rewrite AL in SE.
    assert (LL : length L = 2 ^ n).
    { destruct HL as (H1 & H2 & _). destruct (all_bvs_spec n) as (K1 & K2 & K3 & _). rewrite <- K1. apply Nat.le_antisymm; apply NoDup_incl_length; auto; intros y Hy; [apply K3|apply H2]; [now apply H2|now apply K3]. }
    rewrite <- LL in SE.
    inversion SE as [r0 k x0 _ (B1 & B2 & B3) RV _ _ |r0 t k x0 Ht]; subst; [|discriminate]. rewrite firstn_all in B1, B2.
    assert (LX : length x = n).
    { destruct HL as (_ & H2 & _). apply H2. apply nth_error_In in B1. unfold valued in B1. apply in_map_iff in B1 as (y & Ey & Iy). injection Ey as -> _. exact Iy. }
    destruct (split_sizes size qs x LX) as (ps & FP & <-). exists r, ps, (f (concat ps)).
    split.
    { rewrite ran. unfold run_settings. fold ap co fo. rewrite (unmodified_made _ _ _ F UM (sizes_said _ items st se S1) HM ltac:(rewrite SF; exact Hn)).
      etransitivity; [|exact Pr]. apply same_program. intros i. now apply complete_made. }
    split; [exact FP|]. split; [exact (EF ps FP)|]. split; [exact RV|]. intros ps' v' FP' O'.
    assert (v' = f (concat ps')) as -> by (exact (objective_unique _ _ _ _ O' (EF ps' FP'))).
    assert (I' : In (concat ps') L).
    { destruct HL as (_ & H2 & _). apply H2. exact (piecewise_length size qs ps' FP'). }
    apply In_nth_error in I' as [j J]. assert (J' : nth_error (valued f L) j = Some (concat ps', f (concat ps'))) by (unfold valued; now rewrite nth_error_map, J).
    destruct (B2 j _ _ J') as [Y|LE]; [|exact LE]. exfalso. rewrite NB in Y; [discriminate|].
    exact (piecewise_length size qs ps' FP').
  Qed.

  (** So, an equation which has a solution is solved. *)
  Theorem C139_equation fuel solution : equation = true -> 2 ^ n < fuel -> piecewise size qs solution -> value solution = DFin 0 ->
    exists r pieces, run fuel = Some (report ap co None n r (concat pieces) false) /\ piecewise size qs pieces /\ value pieces = DFin 0 /\ rs_value r = Some (DFin 0).
  Proof using W V TL M N S1 HM HF UM A0 OP RS SM B0 T0 Hn NN.
    intros EQ Hf FS HS. destruct (C139_complete_search fuel Hf) as (r & ps & v & H1 & H2 & H3 & H4 & H5). exists r, ps. split; [exact H1|]. split; [exact H2|].
    assert (Z0 : objective equation (value solution) (DFin 0)) by (rewrite HS, EQ; exact (objective_distance 0)).
    pose proof (H5 solution _ FS Z0) as LE. pose proof (NN ps H2) as NP. rewrite EQ in H3.
    destruct (value ps) as [| |z|] eqn:VP; inversion H3; subst; cbn in LE, NP; try discriminate.
    apply Z.leb_le in LE. assert (z = 0%Z) as -> by lia. split; [reflexivity|exact H4].
  Qed.
End Run.
Print Assumptions C139_update.
Print Assumptions C139_function.
Print Assumptions C139_mixed_function.
Print Assumptions C139_wrong_default.
Print Assumptions C139_refused.
Print Assumptions C139_complete_search.
Print Assumptions C139_equation.

(** A parser of the expressions x * y - 12 and y - x only, over integers; the file function.txt
    contains the second one. *)
Definition example_parser : parser string :=
  mk_parser Z (fun e => if String.eqb e "x*y-12" then Some ["x"; "y"] else if String.eqb e "y-x" then Some ["y"; "x"] else None)
    (fun e vs => match vs with [a; b] => if String.eqb e "x*y-12" then (a * b - 12)%Z else (a - b)%Z | _ => 0%Z end)
    (fun z => DFin (z * 2 ^ 1074)) (integer_to_rep 64 example_lg).
Definition example_surroundings : expression_surroundings string :=
  mk_expression_surroundings example_stod (fun s => s) (fun path => if String.eqb path "function.txt" then Some "y-x" else None) example_parser example_parser (fun _ _ => None).
Definition example_run (ws : list string) : option (list output * ending) :=
  hnco (with_expressions example_environment example_surroundings) ws 300.
Definition declared : list string := ["--fp-representations"; "x: long(0, 3); y: long(0, 7)"].

(** The equation x * y = 12, whose first solution, in the order of the search, is x = 3 and
    y = 4; the maximum of y - x, of the file; no representations; an expression which does not
    parse; an int as default representation of a long. *)
Example C139_case :
  example_run (["-A0"; "-F511"; "--fp-expression=x*y-12"; "--print-solution"] ++ declared) = Some ([OSolution Printed [true; true; false; false; true]], Exit 0) /\
  example_run (["-A0"; "-F501"; "--print-solution"] ++ declared) = Some ([OSolution Printed [true; true; true; false; false]], Exit 0) /\
  example_run ["-A0"; "-F501"; "--print-solution"] = Some ([], Exit 1) /\
  example_run (["-A0"; "-F501"; "--fp-expression=x*z"; "--print-solution"] ++ declared) = Some ([], Exit 1) /\
  example_run (["-A0"; "-F501"; "--fp-default-long-rep=int(0, 1)"; "--print-solution"] ++ declared) = Some ([], Uncaught).
Proof. vm_compute. repeat split. Qed.

(** The hypotheses of the theorems hold for the first of these command lines. *)
Definition equation_items : list item :=
  [Gives (the_option "algorithm") "0"; Gives (the_option "function") "511"; Gives (the_option "fp-expression") "x*y-12"; Sets (the_option "print-solution");
   Gives (the_option "fp-representations") "x: long(0, 3); y: long(0, 7)"].
Definition equation_words : list (list string) := [["-A0"]; ["-F511"]; ["--fp-expression=x*y-12"]; ["--print-solution"]; declared].
Definition equation_settings (st : options) : settings :=
  mk_settings
    (mk_app_options false 1 None false false false false false false false false true false false false)
    (mk_controller_options 10000 false false false None false)
    (mk_modifier_options 100 (mk_map_options 0 false 100 false 10 0) None None false None)
    (mk_fn_options 511 100 10 10 2 (Throw RuntimeError) (expression_function example_surroundings st))
    (mk_algo_options 0 0 false 0 0 2 false None 50 false 100)
    None "map.txt".
Example C139_hypotheses : Forall2 writes equation_items equation_words /\ values_written equation_items /\ no_display equation_items /\
  exists st, make_options false (concat equation_words) = Parsed st /\
    let se := equation_settings st in
    let X := example_surroundings in
    say (with_expressions example_environment X) equation_items st se /\
    expression_says equation_items (xs_file X) "x*y-12" /\ representations_say equation_items (xs_file X) "x: long(0, 3); y: long(0, 7)" /\
    exists po ds default, parser_says equation_items (xs_number X) po /\ declarations (xs_stod X) po "x: long(0, 3); y: long(0, 7)" ds /\
      fn_type (se_function se) = expression_type SLong true /\ pa_deduce (parser_of X SLong) "x*y-12" = Some ["x"; "y"] /\
      represents (xs_stod X) po (Parser_Spec.default_text po SLong) default /\ kind default = of_scalar SLong /\
      (forall v q, In v ["x"; "y"] -> used ds default v q -> representable (pa_rep (parser_of X SLong)) (integer_size example_lg) integer_decode q) /\
      unmodified (se_modifiers se) /\ ao_algorithm (se_algorithm se) = 0%Z /\ optimizes (se_application se) /\ ap_restart (se_application se) = false /\
      co_stop_on_maximum (se_controllers se) = false /\ co_target (se_controllers se) = None /\ (Z.of_nat (2 ^ 5) <= co_budget (se_controllers se))%Z.
Proof.
  assert (Dn : forall n, existsb (fun p => String.eqb (p_name p) n) documented = true -> In (the_option n) documented) by exact the_option_documented.
  assert (XX : forall z, (- 2 ^ 31 <= z < 2 ^ 31)%Z -> written TInt (show_Z z) (VInt z)) by (intros z Hz; rewrite <- (append_nothing (show_Z z)); now constructor).
  split; [|split; [|split]].
  - repeat apply Forall2_cons; [| | | | |constructor].
    + apply short_joined; [apply Dn; vm_compute; reflexivity|vm_compute; reflexivity|discriminate].
    + apply short_joined; [apply Dn; vm_compute; reflexivity|vm_compute; reflexivity|discriminate].
    + apply (long_joined (the_option "fp-expression") "fp-expression" "x*y-12"); [apply Dn; vm_compute; reflexivity|vm_compute; discriminate|apply standsb_stands; vm_compute; reflexivity].
    + apply (flag (the_option "print-solution") "print-solution"); [apply Dn; vm_compute; reflexivity|vm_compute; reflexivity|apply standsb_stands; vm_compute; reflexivity].
    + apply (long_apart (the_option "fp-representations") "fp-representations"); [apply Dn; vm_compute; reflexivity|vm_compute; discriminate|apply standsb_stands; vm_compute; reflexivity].
  - intros p v H. destruct H as [H|[H|[H|[H|[H|[]]]]]]; try discriminate; injection H as <- <-; vm_compute p_type.
    + exists (VInt 0). apply (XX 0%Z). lia.
    + exists (VInt 511). apply (XX 511%Z). lia.
    + eexists. constructor.
    + eexists. constructor.
  - intros name H. destruct H as [<-|[<-|[<-|[<-|[]]]]]; reflexivity.
  - destruct (make_options false (concat equation_words)) as [st|pg en] eqn:M; [|vm_compute in M; discriminate]. exists st. split; [reflexivity|]. clear M. cbv zeta. split; [|split; [|split]].
    { unfold say, application_says, controllers_say, modifiers_say, map_says, function_says, algorithm_says, equation_settings, int_is. cbn - [text_of asked].
      repeat match goal with |- _ /\ _ => split end;
        match goal with
        | |- written TInt _ (VInt ?z) => apply (XX z); lia
        | |- _ => reflexivity
        end. }
    { vm_compute. reflexivity. }
    { vm_compute. reflexivity. }
    set (po := mk_parser_options (@None string) None "int(-10, 10)" "long(-100, 100)" "double(0, 1, precision = 1e-3)").
    destruct (parse_representations example_stod po "x: long(0, 3); y: long(0, 7)") as [en|x|] eqn:EP; [|vm_compute in EP; discriminate EP|vm_compute in EP; discriminate EP].
    destruct (proj1 (C107_grammar example_stod po "x: long(0, 3); y: long(0, 7)") en EP) as (ds & HD & HL).
    assert (EX : en "x" = Some (LongRepParams 0 3) /\ en "y" = Some (LongRepParams 0 7)) by (vm_compute in EP; injection EP as <-; split; reflexivity).
    exists po, ds, (LongRepParams (-100) 100). split; [|split; [exact HD|]].
    { repeat split; vm_compute; reflexivity. }
    split; [reflexivity|]. split; [reflexivity|]. split; [apply parse_representation_iff; vm_compute; reflexivity|]. split; [reflexivity|]. split; [|repeat split; cbn; lia].
    assert (RP : forall a b, dint_args 64 example_lg a b -> representable (integer_to_rep 64 example_lg) (integer_size example_lg) integer_decode (@LongRepParams string a b)).
    { intros a b Hab. apply (C120_integers 64 example_lg _ a b); auto. }
    intros v q Iv [[H _]|[_ ->]]; [|apply RP; repeat split; vm_compute; congruence || (repeat constructor)].
    apply HL in H. destruct EX as [EX EY]. destruct Iv as [<-|[<-|[]]]; [rewrite EX in H|rewrite EY in H]; injection H as <-; apply RP; repeat split; vm_compute; congruence || (repeat constructor).
Qed.
