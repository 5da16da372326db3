(** Properties of the functions of hnco which are sums of expressions: C141. *)

From Coq Require Import ZArith NArith String Permutation Lia.
From Verif Require Import Base BaseLemmas BitVector_Model BitVector_Spec Map_Model Map_Spec Text_Model Parser_Model Parser_Spec Representation_Model Representation_Spec Adapter_Proofs
  ParsedFunction_Model ParsedFunction_Spec ParsedFunction_Proofs Parser_Proofs Properties_Parser Properties_ParsedFunction Properties_MultiApplication
  Double Rounding_Model Controller_Model Controller_Spec Decorator_Model Decorator_Spec ControllerStack_Spec FunctionFactory_Model FunctionFactory_Spec FunctionFactory_Proofs
  Application_Model Application_Spec Properties_Application Iterator_Proofs Search_Model Search_Spec Properties_Search AlgorithmMachine_Model
  Options_Model Options_Spec Options_Proofs Properties_Options CommandLine_Model CommandLine_Spec CommandLine_Proofs Properties_CommandLine
  ExpressionFunction_Model ExpressionFunction_Spec ExpressionFunction_Proofs Properties_ExpressionFunction
  SystemFunction_Model SystemFunction_Spec SystemFunction_Proofs.
Local Open Scope string_scope.
Local Open Scope list_scope.
Local Open Scope nat_scope.

(** * C141: sums of expressions and systems of equations, from the words to what is printed *)

Section Words.
  Context {T : Type} (E : environment) (X : expression_surroundings T) (visit : list string -> list string) (srt : (string -> string -> bool) -> list string -> list string)
    (Hvisit : forall l, Permutation (visit l) l) (Hsrt : sorts srt).
  Context (items : list item) (wordss : list (list string)) (tail : list string) (st : options) (se : settings).
  Let Y := with_systems X visit srt.
  Context (W : Forall2 writes items wordss) (V : values_written items) (TL : tail = [] \/ exists l, tail = "--" :: l) (N : no_display items)
    (M : make_options false (concat wordss ++ tail) = Parsed st) (S1 : say (with_expressions E Y) items st se).
  Let fo := se_function se.
  Let run := hnco (with_expressions E Y) (concat wordss ++ tail).
  Let ap := se_application se.
  Let co := se_controllers se.

  Let F0 : facts st items.
  Proof. destruct (facts_hold items wordss tail W V TL) as (st' & M' & F). assert (st' = st) as -> by congruence. exact F. Qed.
  Let ran fuel : run fuel = run_settings (with_expressions E Y) st se fuel.
  Proof. destruct (words_theorem (with_expressions E Y) items wordss tail W V TL N) as (st' & M' & H). assert (st' = st) as -> by congruence. now apply H. Qed.
  Let other : fn_other fo = expression_function Y st.
  Proof. destruct S1 as (_ & _ & _ & (_ & _ & _ & _ & _ & _ & H) & _). exact H. Qed.

  (** When the function is refused *)
  Lemma system_refused e fuel : ap_print_default ap = false -> (1 <= ap_threads ap)%Z ->
    ((0 < fn_bv_size fo)%Z -> FunctionFactory_Model.make_function fo = Throw e) -> (0 < fn_bv_size fo)%Z \/ e = RuntimeError -> run fuel = Some ([], ending_of e).
  Proof using W V TL M N S1.
    intros A1 A2 MF B0. assert (SZ := sizes_said (with_expressions E Y) items st se S1). fold fo in SZ.
    rewrite ran. unfold run_settings. fold ap co fo. set (d := mk_modifier_draws _ _ _). set (alg := make_algorithm _ _ _ _ _ _).
    destruct (C111_errors ap co (make_function_modifier (se_modifiers se) d (FunctionFactory_Model.make_function fo)) alg fuel) as (_ & _ & G & _).
    destruct (G A1 A2) as [G1 _]. apply G1. unfold make_function_modifier, Decorator_Model.make_function. rewrite SZ.
    destruct (Z.leb_spec (fn_bv_size fo) 0) as [|B]; [destruct B0 as [|B0]; [lia|now subst]|]. now rewrite (MF B).
  Qed.

  (** A file is missing, or a sub expression does not parse: the program fails and nothing is
      printed. *)
  Theorem C141_refused k equations fuel :
    fn_type fo = system_type_of k equations \/ (fn_type fo = mixed_system_type equations /\ k = SDouble) ->
    ap_print_default ap = false -> (1 <= ap_threads ap)%Z ->
    missing_file items (xs_file X) \/
      (exists expression es e, expression_says items (xs_file X) expression /\ cut "::" expression es /\ In e es /\ pa_deduce (parser_of X k) e = None) ->
    run fuel = Some ([], Exit 1).
  Proof using W V TL M N S1 Hvisit Hsrt.
    intros Ty A1 A2 H. apply (system_refused RuntimeError fuel A1 A2); [|now right]. intros B.
    assert (C : exists v, system_type (fn_type fo) = Some (v, equations) /\ parser_for X v = parser_of X k).
    { destruct Ty as [Ty|[Ty ->]]; rewrite Ty; [exists (Scalars k)|exists Mixed]; (split; [apply system_type_made || apply mixed_system_type_made|]); [now destruct k|reflexivity]. }
    destruct C as (v & C1 & C2). rewrite (made_by_system X visit srt st fo v equations C1 B other), C2. unfold system_make, madapter_make.
    destruct H as [H|(expression & es & e & He & Ce & Ie & De)].
    - apply (missing_said X st items F0) in H as [H|H]; rewrite H; [reflexivity|].
      unfold get_expression, read_file_content. destruct (flag_of st "fp_expression"); [|destruct (xs_file X (text_from st "path")); [|reflexivity]]; cbn [bind];
        match goal with |- context [mparsed_make ?d visit srt ?x] => destruct (mparsed_make_cases d visit srt x Hvisit Hsrt) as [(p & ->)| ->] end; reflexivity.
    - rewrite (expression_said X st items F0 expression He). cbn [bind]. rewrite (mparsed_make_Throw _ visit srt expression es Ce); [reflexivity|]. eauto.
  Qed.

  (** Such a function has nothing to update: an update is accepted and changes nothing. *)
  Theorem C141_update k equations F s x w :
    fn_type fo = system_type_of k equations \/ fn_type fo = mixed_system_type equations -> FunctionFactory_Model.make_function fo = Ok F -> f_obj F s (RUpdate x w) = (s, Ok RVoid).
  Proof using S1.
    intros Ty' MF. assert (Ty : exists v, system_type (fn_type fo) = Some (v, equations)).
    { destruct Ty' as [-> | ->]; eexists; [apply system_type_made|apply mixed_system_type_made]. }
    destruct Ty as (v & Ty). assert (B : (0 < fn_bv_size fo)%Z).
    { unfold FunctionFactory_Model.make_function in MF. destruct (Z.leb_spec (fn_bv_size fo) 0); [discriminate MF|assumption]. }
    rewrite (made_by_system X visit srt st fo v equations Ty B other) in MF. unfold system_make in MF.
    destruct (get_expression X st) as [e| |]; cbn [bind] in MF; try discriminate MF.
    destruct (madapter_make _ _ _ _ _ _) as [[reps p]| |]; cbn [bind] in MF; try discriminate MF. inversion MF; subst F. reflexivity.
  Qed.

  (** The expressions, separated by ::, their variables in alphabetical order, the options of the
      parser and the declarations, as the words or the files say *)
  Context (expression text : string) (He : expression_says items (xs_file X) expression) (Ht : representations_say items (xs_file X) text).
  Context (po : parser_options T) (Hpo : parser_says items (xs_number X) po) (ds : list (string * params T)) (Hds : declarations (xs_stod X) po text ds).
  Context (Hs : (0 < fn_bv_size fo)%Z).
  Context (es : list string) (names : list (list string)) (vars : list string).

  (** Variables of one type *)
  Theorem C141_function k equations default size decode :
    fn_type fo = system_type_of k equations -> sub_expressions (pa_deduce (parser_of X k)) expression es names -> variables_of names vars ->
    represents (xs_stod X) po (Parser_Spec.default_text po k) default -> kind default = of_scalar k ->
    (forall v q, In v vars -> used ds default v q -> representable (pa_rep (parser_of X k)) size decode q) ->
    exists F f qs, FunctionFactory_Model.make_function fo = Ok F /\ Forall2 (used ds default) vars qs /\
      system_made (parser_of X k) size decode es names vars qs equations F f.
  Proof using W V TL M S1 He Ht Hpo Hds Hs Hvisit Hsrt.
    intros Ty SE VO R K RP. destruct (C108_variables (xs_stod X) po text ds Hds vars k default R K) as (qs & EQ & FQ).
    assert (FU : Forall2 (used ds default) vars qs) by (clear - FQ; induction FQ as [|v q vs qs [H _] F IH]; constructor; auto).
    destruct (system_makes (xs_stod X) (parser_of X k) po visit srt Hvisit Hsrt size decode expression es names SE vars VO (Scalars k) (used ds default) text equations qs EQ FU RP) as (F & f & MF & H).
    exists F, f, qs. split; [|split; [exact FU|exact H]]. rewrite (made_by_system X visit srt st fo (Scalars k) equations); auto.
    - rewrite (expression_said X st items F0 expression He), (representations_said X st items F0 text Ht), (parser_said X st items F0 po Hpo). rewrite <- MF. now destruct k.
    - rewrite Ty. apply system_type_made.
  Qed.

  (** Variables of different types *)
  Theorem C141_mixed_function equations unused default size decode :
    fn_type fo = mixed_system_type equations -> sub_expressions (pa_deduce (xs_reals X)) expression es names -> variables_of names vars ->
    represents (xs_stod X) po (Parser_Spec.default_text po SLong) unused -> represents (xs_stod X) po (Parser_Spec.default_text po SDouble) default ->
    (forall v q, In v vars -> used_mixed ds default v q -> representable (pa_rep (xs_reals X)) size decode q) ->
    exists F f qs, FunctionFactory_Model.make_function fo = Ok F /\ Forall2 (used_mixed ds default) vars qs /\
      system_made (xs_reals X) size decode es names vars qs equations F f.
  Proof using W V TL M S1 He Ht Hpo Hds Hs Hvisit Hsrt.
    intros Ty SE VO U R RP. destruct (C108_mixed_variables (xs_stod X) po text ds Hds vars unused default U R) as (qs & EQ & FU).
    destruct (system_makes (xs_stod X) (xs_reals X) po visit srt Hvisit Hsrt size decode expression es names SE vars VO Mixed (used_mixed ds default) text equations qs EQ FU RP) as (F & f & MF & H).
    exists F, f, qs. split; [|split; [exact FU|exact H]]. rewrite (made_by_system X visit srt st fo Mixed equations); auto.
    - rewrite (expression_said X st items F0 expression He), (representations_said X st items F0 text Ht), (parser_said X st items F0 po Hpo). exact MF.
    - rewrite Ty. apply mixed_system_type_made.
  Qed.

  (** A default representation of another type ends the program by an exception which main does
      not catch, even if all variables are declared. *)
  Theorem C141_wrong_default k equations default fuel :
    fn_type fo = system_type_of k equations -> sub_expressions (pa_deduce (parser_of X k)) expression es names -> variables_of names vars -> vars <> [] ->
    represents (xs_stod X) po (Parser_Spec.default_text po k) default -> kind default <> of_scalar k ->
    ap_print_default ap = false -> (1 <= ap_threads ap)%Z ->
    run fuel = Some ([], Uncaught).
  Proof using W V TL M N S1 He Ht Hpo Hds Hs Hvisit Hsrt.
    intros Ty [C F] VO NV R K A1 A2. apply (system_refused OtherException fuel A1 A2); [|now left]. intros B.
    rewrite (made_by_system X visit srt st fo (Scalars k) equations); auto; [|rewrite Ty; apply system_type_made].
    rewrite (expression_said X st items F0 expression He), (representations_said X st items F0 text Ht), (parser_said X st items F0 po Hpo).
    assert (EP : parser_for X (Scalars k) = parser_of X k) by now destruct k. rewrite EP.
    destruct (mparsed_make_Ok (pa_deduce (parser_of X k)) visit srt Hvisit Hsrt expression es names C F) as (vars' & indices & EM & VV & _).
    pose proof (variables_unique names vars' vars VV VO). subst vars'.
    unfold system_make. cbn [bind]. unfold madapter_make. rewrite EM. cbn [bind mp_ordered].
    now rewrite (C108_wrong_default (xs_stod X) po text ds Hds vars k default R K NV).
  Qed.

  (** Complete search, for a function which is not modified, without target or restart,
      and with a budget, if any, which allows all vectors *)
  Context (P : parser T) (size : params T -> nat) (decode : params T -> list bool -> pa_domain P) (qs : list (params T)) (equations : bool) (F : func) (f : bv -> dbl).
  Context (VO : variables_of names vars) (LQ : length qs = length vars).
  Context (HM : FunctionFactory_Model.make_function fo = Ok F) (HF : system_made P size decode es names vars qs equations F f).
  Context (UM : unmodified (se_modifiers se)) (A0 : ao_algorithm (se_algorithm se) = 0%Z) (OP : optimizes ap) (RS : ap_restart ap = false)
    (SM : co_stop_on_maximum co = false) (T0 : co_target co = None).
  Let n := fold_right Nat.add 0 (map size qs).
  Context (Hn : 0 < n) (B0 : (co_budget co <= 0 \/ Z.of_nat (2 ^ n) <= co_budget co)%Z).
  Let values := expression_values P es names.
  Let solution := read_from size decode vars qs.

  (** The program shows the best vector: no values of the variables give a better sum. *)
  Theorem C141_complete_search fuel : 2 ^ n < fuel ->
    (forall pieces value s, solution pieces value -> sum_of_objectives equations (values value) s -> is_nan s = false) ->
    exists r pieces value s, run fuel = Some (report ap co None n r (concat pieces) false) /\ solution pieces value /\
      sum_of_objectives equations (values value) s /\ rs_value r = Some s /\
      forall pieces' value' s', solution pieces' value' -> sum_of_objectives equations (values value') s' -> dle s' s = true.
  Proof using W V TL M N S1 HM HF UM A0 OP RS SM B0 T0 Hn VO LQ.
    intros Hf NN. destruct HF as (SF & _ & _ & TF & EF). fold n in SF, TF.
    assert (AS : forall pieces, piecewise size qs pieces -> exists value, solution pieces value).
    { intros pieces FP. destruct (assigns_exists (pa_eval P EmptyString []) vars (sorted_NoDup vars (proj1 VO)) (map2 decode qs pieces)) as (v0 & A); [|exists v0; now split].
      rewrite <- LQ. clear - FP. induction FP; cbn; congruence. }
    assert (HC : make_function_controller co F = Ok (middle_of co, None)) by (unfold make_function_controller, target_of; now rewrite SM, T0).
    assert (NB : Search_Spec.numbers n f).
    { intros x Lx. destruct (split_sizes size qs x Lx) as (ps & FP & <-). destruct (AS ps FP) as (v & RF). exact (NN ps v _ RF (EF ps v RF)). }
    destruct (C116_complete_search ap co None F (middle_of co) None n n f Hn OP RS HC eq_refl I SF TF NB) as (L & HL & H).
    destruct (H fuel Hf) as (r & x & success & Pr & _ & SE). clear H.
    assert (AL : allowed co (2 ^ n) = 2 ^ n) by (unfold allowed; destruct (Z.ltb_spec 0 (co_budget co)); [destruct B0; lia|reflexivity]). rewrite AL in SE.
    assert (LL : length L = 2 ^ n).
    { destruct HL as (H1 & H2 & _). destruct (all_bvs_spec n) as (K1 & K2 & K3 & _). rewrite <- K1. apply Nat.le_antisymm; apply NoDup_incl_length; auto; intros y Hy; [apply K3|apply H2]; [now apply H2|now apply K3]. }
    rewrite <- LL in SE.
    inversion SE as [r0 k x0 _ (B1 & B2 & B3) RV _ _ |r0 t k x0 Ht0]; subst; [|discriminate]. rewrite firstn_all in B1, B2.
    assert (LX : length x = n).
    { destruct HL as (_ & H2 & _). apply H2. apply nth_error_In in B1. unfold valued in B1. apply in_map_iff in B1 as (y & Ey & Iy). injection Ey as -> _. exact Iy. }
    destruct (split_sizes size qs x LX) as (ps & FP & <-). destruct (AS ps FP) as (v & RF). exists r, ps, v, (f (concat ps)).
    split.
    { rewrite ran. unfold run_settings. fold ap co fo. rewrite (unmodified_made _ _ _ F UM (sizes_said _ items st se S1) HM ltac:(rewrite SF; exact Hn)).
      etransitivity; [|exact Pr]. apply same_program. intros i. now apply complete_made. }
    split; [exact RF|]. split; [exact (EF ps v RF)|]. split; [exact RV|]. intros ps' v' s' RF' O'.
    rewrite (sum_unique _ _ _ _ O' (EF ps' v' RF')).
    assert (I' : In (concat ps') L).
    { destruct HL as (_ & H2 & _). apply H2. exact (piecewise_length size qs ps' (proj1 RF')). }
    apply In_nth_error in I' as [j J]. assert (J' : nth_error (valued f L) j = Some (concat ps', f (concat ps'))) by (unfold valued; now rewrite nth_error_map, J).
    destruct (B2 j _ _ J') as [Y0|LE]; [|exact LE]. exfalso. rewrite NB in Y0; [discriminate|].
    exact (piecewise_length size qs ps' (proj1 RF')).
  Qed.

  (** So, a system of equations which has a solution is solved: in spite of rounding, all the equations hold for the values of
      the variables in the vector which is shown. If it has none, the value which is shown is negative. *)
  Theorem C141_equations fuel : equations = true -> 2 ^ n < fuel ->
    (forall pieces value, solution pieces value -> Forall (fun v => is_nan v = false) (values value)) ->
    exists r pieces value s, run fuel = Some (report ap co None n r (concat pieces) false) /\ solution pieces value /\ rs_value r = Some s /\
      ((exists pieces' value', solution pieces' value' /\ Forall (fun v => v = DFin 0) (values value')) -> Forall (fun v => v = DFin 0) (values value) /\ s = DFin 0) /\
      ((forall pieces' value', solution pieces' value' -> ~ Forall (fun v => v = DFin 0) (values value')) -> dle s (DFin 0) = true /\ s <> DFin 0).
  Proof using W V TL M N S1 HM HF UM A0 OP RS SM B0 T0 Hn VO LQ.
    intros EQ Hf NN. destruct (C141_complete_search fuel Hf) as (r & ps & v & s & H1 & H2 & H3 & H4 & H5).
    { intros ps v s RF SO. rewrite EQ in SO. exact (proj1 (equations_sum _ s (NN ps v RF) SO)). }
    rewrite EQ in H3, H5. exists r, ps, v, s. split; [exact H1|]. split; [exact H2|]. split; [exact H4|].
    destruct (equations_sum _ s (NN ps v H2) H3) as (S2 & S3 & S4). split.
    - intros (ps' & v' & RF' & Z0). assert (SO : sum_of_objectives true (values v') (DFin 0)).
      { pose proof (sum_computed true (values v')) as SC. pose proof (proj2 (proj2 (equations_sum _ _ (NN ps' v' RF') SC))) as K. apply K in Z0. rewrite <- Z0. exact SC. }
      pose proof (H5 ps' v' _ RF' SO) as LE. assert (s = DFin 0).
      { destruct s as [| |z|]; cbn in LE, S3; try discriminate. apply Z.leb_le in LE, S3. f_equal. lia. }
      split; [now apply S4|assumption].
    - intros NS. split; [exact S3|]. intros E0. apply (NS ps v H2). now apply S4.
  Qed.
End Words.
(** All other types of functions are those of hnco without these ones: C139 remains true. *)
Theorem C141_others {T} (X : expression_surroundings T) visit srt st t :
  (forall k equations, t <> system_type_of k equations) -> (forall equations, t <> mixed_system_type equations) ->
  expression_function (with_systems X visit srt) st t = expression_function X st t.
Proof.
  intros H1 H2. unfold expression_function. destruct (so_type t) as [[v absolute]|]; [reflexivity|]. cbn [with_systems xs_other]. unfold system_function.
  destruct (system_type t) as [[v equations]|] eqn:E; [exfalso|reflexivity].
  assert (H : (exists k, t = system_type_of k equations) \/ t = mixed_system_type equations).
  { clear H1 H2. destruct t as [|p|p]; try discriminate E. repeat (destruct p as [p|p|]; try discriminate E); inversion E; subst;
      first [left; exists SDouble; reflexivity|left; exists SLong; reflexivity|left; exists SInt; reflexivity|right; reflexivity]. }
  destruct H as [(k & H)|H]; [exact (H1 k equations H)|exact (H2 equations H)].
Qed.
Print Assumptions C141_others.
Print Assumptions C141_refused.
Print Assumptions C141_update.
Print Assumptions C141_function.
Print Assumptions C141_mixed_function.
Print Assumptions C141_wrong_default.
Print Assumptions C141_complete_search.
Print Assumptions C141_equations.

(** A parser of the expressions x * y - 12, y + x - 7 and y - x only, over integers; the file
    function.txt contains the last two. *)
Definition system_parser : parser string :=
  mk_parser Z (fun e => if String.eqb e "x*y-12" then Some ["x"; "y"] else if String.eqb e "y+x-7" then Some ["y"; "x"] else if String.eqb e "y-x" then Some ["y"; "x"] else None)
    (fun e vs => match vs with [a; b] => if String.eqb e "x*y-12" then (a * b - 12)%Z else if String.eqb e "y+x-7" then (a + b - 7)%Z else (a - b)%Z | _ => 0%Z end)
    (fun z => DFin (z * 2 ^ 1074)) (integer_to_rep 64 example_lg).
Definition system_surroundings : expression_surroundings string :=
  mk_expression_surroundings example_stod (fun s => s) (fun path => if String.eqb path "function.txt" then Some "y+x-7::y-x" else None) system_parser system_parser (fun _ _ => None).
Definition all_surroundings : expression_surroundings string := with_systems system_surroundings (@rev string) string_sort.
Definition system_run (ws : list string) : option (list output * ending) :=
  hnco (with_expressions example_environment all_surroundings) ws 300.

(** The system x + y = 7, x * y = 12, whose solution is x = 3 and y = 4; the system x = y,
    x * y = 12, which has no solution, and where the sum of distances is 1 for x = 3 and y = 4; the maximum of
    the sum of the expressions of the file, that is of 2 * y - 7, first for x = 0 and y = 7; a sub expression
    which does not parse; an int as default representation of a long; no representations. *)
Example C141_case :
  system_run (["-A0"; "-F531"; "--fp-expression=y+x-7::x*y-12"; "--print-solution"] ++ declared) = Some ([OSolution Printed [true; true; false; false; true]], Exit 0) /\
  system_run (["-A0"; "-F531"; "--fp-expression=y-x::x*y-12"; "--print-solution"] ++ declared) = Some ([OSolution Printed [true; true; false; false; true]], Exit 0) /\
  system_run (["-A0"; "-F521"; "--print-solution"] ++ declared) = Some ([OSolution Printed [false; false; true; true; true]], Exit 0) /\
  system_run (["-A0"; "-F531"; "--fp-expression=y-x::x*z"; "--print-solution"] ++ declared) = Some ([], Exit 1) /\
  system_run (["-A0"; "-F531"; "--fp-default-long-rep=int(0, 1)"; "--print-solution"] ++ declared) = Some ([], Uncaught) /\
  system_run ["-A0"; "-F531"; "--print-solution"] = Some ([], Exit 1).
Proof. vm_compute. repeat split. Qed.

(** The hypotheses of the theorems hold for the first of these command lines. *)
Definition system_items : list item :=
  [Gives (the_option "algorithm") "0"; Gives (the_option "function") "531"; Gives (the_option "fp-expression") "y+x-7::x*y-12"; Sets (the_option "print-solution");
   Gives (the_option "fp-representations") "x: long(0, 3); y: long(0, 7)"].
Definition system_words : list (list string) := [["-A0"]; ["-F531"]; ["--fp-expression=y+x-7::x*y-12"]; ["--print-solution"]; declared].
Definition system_settings (st : options) : settings :=
  mk_settings
    (mk_app_options false 1 None false false false false false false false false true false false false)
    (mk_controller_options 10000 false false false None false)
    (mk_modifier_options 100 (mk_map_options 0 false 100 false 10 0) None None false None)
    (mk_fn_options 531 100 10 10 2 (Throw RuntimeError) (expression_function all_surroundings st))
    (mk_algo_options 0 0 false 0 0 2 false None 50 false 100)
    None "map.txt".
Example C141_hypotheses : Forall2 writes system_items system_words /\ values_written system_items /\ no_display system_items /\
  (forall l, Permutation (@rev string l) l) /\ sorts string_sort /\
  exists st, make_options false (concat system_words) = Parsed st /\
    let se := system_settings st in
    let X := system_surroundings in
    say (with_expressions example_environment (with_systems X (@rev string) string_sort)) system_items st se /\
    expression_says system_items (xs_file X) "y+x-7::x*y-12" /\ representations_say system_items (xs_file X) "x: long(0, 3); y: long(0, 7)" /\
    sub_expressions (pa_deduce (parser_of X SLong)) "y+x-7::x*y-12" ["y+x-7"; "x*y-12"] [["y"; "x"]; ["x"; "y"]] /\ variables_of [["y"; "x"]; ["x"; "y"]] ["x"; "y"] /\
    exists po ds default, parser_says system_items (xs_number X) po /\ declarations (xs_stod X) po "x: long(0, 3); y: long(0, 7)" ds /\
      fn_type (se_function se) = system_type_of SLong true /\
      represents (xs_stod X) po (Parser_Spec.default_text po SLong) default /\ kind default = of_scalar SLong /\
      (forall v q, In v ["x"; "y"] -> used ds default v q -> representable (pa_rep (parser_of X SLong)) (integer_size example_lg) integer_decode q) /\
      unmodified (se_modifiers se) /\ ao_algorithm (se_algorithm se) = 0%Z /\ optimizes (se_application se) /\ ap_restart (se_application se) = false /\
      co_stop_on_maximum (se_controllers se) = false /\ co_target (se_controllers se) = None /\ (Z.of_nat (2 ^ 5) <= co_budget (se_controllers se))%Z /\
      read_from (P := parser_of X SLong) (integer_size example_lg) integer_decode ["x"; "y"] [LongRepParams 0 3; LongRepParams 0 7] [[true; true]; [false; false; true]]
        (fun v => if String.eqb v "x" then 3%Z else 4%Z) /\
      Forall (fun v => v = DFin 0) (expression_values (parser_of X SLong) ["y+x-7"; "x*y-12"] [["y"; "x"]; ["x"; "y"]] (fun v => if String.eqb v "x" then 3%Z else 4%Z)).
Proof.
  assert (Dn : forall n, existsb (fun p => String.eqb (p_name p) n) documented = true -> In (the_option n) documented) by exact the_option_documented.
  assert (XX : forall z, (- 2 ^ 31 <= z < 2 ^ 31)%Z -> written TInt (show_Z z) (VInt z)) by (intros z Hz; rewrite <- (append_nothing (show_Z z)); now constructor).
  split; [|split; [|split; [|split; [|split]]]].
  - repeat apply Forall2_cons; [| | | | |constructor].
    + apply short_joined; [apply Dn; vm_compute; reflexivity|vm_compute; reflexivity|discriminate].
    + apply short_joined; [apply Dn; vm_compute; reflexivity|vm_compute; reflexivity|discriminate].
    + apply (long_joined (the_option "fp-expression") "fp-expression" "y+x-7::x*y-12"); [apply Dn; vm_compute; reflexivity|vm_compute; discriminate|apply standsb_stands; vm_compute; reflexivity].
    + apply (flag (the_option "print-solution") "print-solution"); [apply Dn; vm_compute; reflexivity|vm_compute; reflexivity|apply standsb_stands; vm_compute; reflexivity].
    + apply (long_apart (the_option "fp-representations") "fp-representations"); [apply Dn; vm_compute; reflexivity|vm_compute; discriminate|apply standsb_stands; vm_compute; reflexivity].
  - intros p v H. destruct H as [H|[H|[H|[H|[H|[]]]]]]; try discriminate; injection H as <- <-; vm_compute p_type.
    + exists (VInt 0). apply (XX 0%Z). lia.
    + exists (VInt 531). apply (XX 531%Z). lia.
    + eexists. constructor.
    + eexists. constructor.
  - intros name H. destruct H as [<-|[<-|[<-|[<-|[]]]]]; reflexivity.
  - intros l. symmetry. apply Permutation_rev.
  - exact string_sort_sorts.
  - destruct (make_options false (concat system_words)) as [st|pg en] eqn:M; [|vm_compute in M; discriminate]. exists st. split; [reflexivity|]. clear M. cbv zeta. split; [|split; [|split; [|split; [|split]]]].
    { unfold say, application_says, controllers_say, modifiers_say, map_says, function_says, algorithm_says, system_settings, int_is. cbn - [text_of asked].
      repeat match goal with |- _ /\ _ => split end;
        match goal with
        | |- written TInt _ (VInt ?z) => apply (XX z); lia
        | |- _ => reflexivity
        end. }
    { vm_compute. reflexivity. }
    { vm_compute. reflexivity. }
    { split; [|repeat constructor]. apply (Parser_Proofs.split_string_iff 20); [discriminate|vm_compute; lia|vm_compute; reflexivity]. }
    { split; [repeat constructor|]. intros v. cbn. split.
      - intros [<-|[<-|[]]]; (exists ["x"; "y"]; cbn; tauto).
      - intros (l & [<-|[<-|[]]] & H); cbn in H; tauto. }
    set (po := mk_parser_options (@None string) None "int(-10, 10)" "long(-100, 100)" "double(0, 1, precision = 1e-3)").
    destruct (parse_representations example_stod po "x: long(0, 3); y: long(0, 7)") as [en|x|] eqn:EP; [|vm_compute in EP; discriminate EP|vm_compute in EP; discriminate EP].
    destruct (proj1 (C107_grammar example_stod po "x: long(0, 3); y: long(0, 7)") en EP) as (ds & HD & HL).
    assert (EX : en "x" = Some (LongRepParams 0 3) /\ en "y" = Some (LongRepParams 0 7)) by (vm_compute in EP; injection EP as <-; split; reflexivity).
    exists po, ds, (LongRepParams (-100) 100). split; [|split; [exact HD|]].
    { repeat split; vm_compute; reflexivity. }
    split; [reflexivity|]. split; [apply parse_representation_iff; vm_compute; reflexivity|]. split; [reflexivity|]. split.
    { assert (RP : forall a b, dint_args 64 example_lg a b -> representable (integer_to_rep 64 example_lg) (integer_size example_lg) integer_decode (@LongRepParams string a b)).
      { intros a b Hab. apply (C120_integers 64 example_lg _ a b); auto. }
      intros v q Iv [[H _]|[_ ->]]; [|apply RP; repeat split; vm_compute; congruence || (repeat constructor)].
      apply HL in H. destruct EX as [EX EY]. destruct Iv as [<-|[<-|[]]]; [rewrite EX in H|rewrite EY in H]; injection H as <-; apply RP; repeat split; vm_compute; congruence || (repeat constructor). }
    do 6 (split; [repeat split; cbn; lia|]). split; [cbn; lia|]. split; [split; repeat constructor|repeat constructor].
Qed.
