(** Properties of the functions of hnco over complex numbers: C142. *)

From Coq Require Import ZArith NArith String Permutation Lia.
From Verif Require Import Base BaseLemmas BitVector_Model BitVector_Spec Map_Model Map_Spec Text_Model Parser_Model Parser_Spec Representation_Model Representation_Spec Adapter_Proofs
  ParsedFunction_Model ParsedFunction_Spec ParsedFunction_Proofs Parser_Proofs Properties_Parser Properties_ParsedFunction Properties_MultiApplication
  Double Rounding_Model Controller_Model Controller_Spec Decorator_Model Decorator_Spec ControllerStack_Spec FunctionFactory_Model FunctionFactory_Spec FunctionFactory_Proofs
  Application_Model Application_Spec Properties_Application Iterator_Proofs Search_Model Search_Spec Properties_Search AlgorithmMachine_Model
  Options_Model Options_Spec Options_Proofs Properties_Options CommandLine_Model CommandLine_Spec CommandLine_Proofs Properties_CommandLine
  ExpressionFunction_Model ExpressionFunction_Spec ExpressionFunction_Proofs Properties_ExpressionFunction
  SystemFunction_Spec SystemFunction_Proofs ComplexFunction_Model ComplexFunction_Spec ComplexFunction_Proofs.
Local Open Scope string_scope.
Local Open Scope list_scope.
Local Open Scope nat_scope.

(** * C142: expressions over complex numbers, from the words to what is printed *)

Section Words.
  Context {T : Type} (E : environment) (X : expression_surroundings T) (P : complex_parser T)
    (visit : list string -> list string) (srt : (string -> string -> bool) -> list string -> list string)
    (Hvisit : forall l, Permutation (visit l) l) (Hsrt : sorts srt).
  Context (items : list item) (wordss : list (list string)) (tail : list string) (st : options) (se : settings).
  Let Y := with_complex X P visit srt.
  Context (W : Forall2 writes items wordss) (V : values_written items) (TL : tail = [] \/ exists l, tail = "--" :: l) (N : no_display items)
    (M : make_options false (concat wordss ++ tail) = Parsed st) (S1 : say (with_expressions E Y) items st se).
  Let fo := se_function se.
  Let run := hnco (with_expressions E Y) (concat wordss ++ tail).
  Let ap := se_application se.
  Let co := se_controllers se.

  Let F0 : facts st items.
  Proof. destruct (facts_hold items wordss tail W V TL) as (st' & M' & F). assert (st' = st) as -> by congruence. exact F. Qed.
  Let ran fuel : run fuel = run_settings (with_expressions E Y) st se fuel.
  Proof. destruct (words_theorem (with_expressions E Y) items wordss tail W V TL N) as (st' & M' & H). assert (st' = st) as -> by congruence. now apply H. Qed.
  Let other : fn_other fo = expression_function Y st.
  Proof. destruct S1 as (_ & _ & _ & (_ & _ & _ & _ & _ & _ & H) & _). exact H. Qed.

  (** When the function is refused *)
  Lemma complex_refused e fuel : ap_print_default ap = false -> (1 <= ap_threads ap)%Z ->
    ((0 < fn_bv_size fo)%Z -> FunctionFactory_Model.make_function fo = Throw e) -> (0 < fn_bv_size fo)%Z \/ e = RuntimeError -> run fuel = Some ([], ending_of e).
  Proof using W V TL M N S1.
    intros A1 A2 MF B0. assert (SZ := sizes_said (with_expressions E Y) items st se S1). fold fo in SZ.
    rewrite ran. unfold run_settings. fold ap co fo. set (d := mk_modifier_draws _ _ _). set (alg := make_algorithm _ _ _ _ _ _).
    destruct (C111_errors ap co (make_function_modifier (se_modifiers se) d (FunctionFactory_Model.make_function fo)) alg fuel) as (_ & _ & G & _).
    destruct (G A1 A2) as [G1 _]. apply G1. unfold make_function_modifier, Decorator_Model.make_function. rewrite SZ.
    destruct (Z.leb_spec (fn_bv_size fo) 0) as [|B]; [destruct B0 as [|B0]; [lia|now subst]|]. now rewrite (MF B).
  Qed.

  (** A file is missing, or an expression does not parse: the program fails and nothing is
      printed. *)
  Theorem C142_refused several equations fuel :
    fn_type fo = complex_type_of several equations -> ap_print_default ap = false -> (1 <= ap_threads ap)%Z ->
    missing_file items (xs_file X) \/
      (exists expression, expression_says items (xs_file X) expression /\
        if several then exists es e, cut "::" expression es /\ In e es /\ cp_deduce P e = None else cp_deduce P expression = None) ->
    run fuel = Some ([], Exit 1).
  Proof using W V TL M N S1 Hvisit Hsrt.
    intros Ty A1 A2 H. apply (complex_refused RuntimeError fuel A1 A2); [|now right]. intros B.
    rewrite (made_by_complex X P visit srt st fo several equations Ty B other). unfold complex_make, madapter_make, parsed_make.
    destruct H as [H|(expression & He & D)].
    - apply (missing_said X st items F0) in H as [H|H]; rewrite H; [reflexivity|].
      unfold get_expression, read_file_content. destruct (flag_of st "fp_expression"); [|destruct (xs_file X (text_from st "path")); [|reflexivity]]; cbn [bind];
        (destruct several; [match goal with |- context [mparsed_make ?d visit srt ?x] => destruct (mparsed_make_cases d visit srt x Hvisit Hsrt) as [(p & ->)| ->] end; reflexivity|
          destruct (cp_deduce P _); reflexivity]).
    - rewrite (expression_said X st items F0 expression He). cbn [bind]. destruct several; [|now rewrite D].
      destruct D as (es & e & Ce & Ie & De). rewrite (mparsed_make_Throw _ visit srt expression es Ce); [reflexivity|]. eauto.
  Qed.

  (** Such a function has nothing to update: an update is accepted and changes nothing. *)
  Theorem C142_update several equations F s x w :
    fn_type fo = complex_type_of several equations -> FunctionFactory_Model.make_function fo = Ok F -> f_obj F s (RUpdate x w) = (s, Ok RVoid).
  Proof using S1.
    intros Ty MF. assert (B : (0 < fn_bv_size fo)%Z).
    { unfold FunctionFactory_Model.make_function in MF. destruct (Z.leb_spec (fn_bv_size fo) 0); [discriminate MF|assumption]. }
    rewrite (made_by_complex X P visit srt st fo several equations Ty B other) in MF. unfold complex_make in MF.
    destruct (get_expression X st) as [e'| |]; cbn [bind] in MF; try discriminate MF. destruct several.
    - destruct (madapter_make _ _ _ _ _ _) as [[reps p]| |]; cbn [bind] in MF; try discriminate MF. inversion MF; subst F. reflexivity.
    - destruct (parsed_make _ _) as [p| |]; cbn [bind] in MF; try discriminate MF.
      destruct (get_representations X st) as [t| |]; cbn [bind] in MF; try discriminate MF.
      destruct (make_complex_reps _ _ _ _ _) as [ps| |]; cbn [bind] in MF; try discriminate MF.
      destruct (to_reps _ _) as [reps| |]; cbn [bind] in MF; try discriminate MF.
      destruct (assertb _) as [u| |]; cbn [bind] in MF; try discriminate MF. inversion MF; subst F. reflexivity.
  Qed.

  (** The expression, the options of the parser and the declarations, as the words or the files
      say *)
  Context (expression text : string) (He : expression_says items (xs_file X) expression) (Ht : representations_say items (xs_file X) text).
  Context (po : parser_options T) (Hpo : parser_says items (xs_number X) po) (ds : list (string * params T)) (Hds : declarations (xs_stod X) po text ds).
  Context (Hs : (0 < fn_bv_size fo)%Z) (default : params T) (Hd : represents (xs_stod X) po (Parser_Spec.default_text po SDouble) default).

  (** One expression: the real part of the variable x has the last representation declared for x_re if it is a double,
      else the default one, and its imaginary part that of x_im. *)
  Theorem C142_function equations names size decode :
    fn_type fo = complex_type_of false equations -> cp_deduce P expression = Some names -> kind default = of_scalar SDouble ->
    (forall v q, used ds default v q -> representable (cp_rep P) size decode q) ->
    exists F f qs, FunctionFactory_Model.make_function fo = Ok F /\ Forall2 (used_parts ds default) names qs /\
      complex_made size qs (magnitude_of P decode expression qs) false equations F f.
  Proof using W V TL M S1 He Ht Hpo Hds Hs Hd.
    intros Ty D K RP. destruct (C108_complex_variables (xs_stod X) po text ds Hds names SDouble default Hd K) as (qs & EQ & FQ).
    assert (FU : Forall2 (used_parts ds default) names qs) by (clear - FQ; induction FQ as [|v q vs qs (H1 & H2 & _) F IH]; constructor; auto; now split).
    destruct (complex_one (xs_stod X) P po visit srt size decode expression names text equations (used_parts ds default) qs D EQ FU) as (F & f & MF & H).
    { intros x q _ [U1 U2]. split; eapply RP; eassumption. }
    exists F, f, qs. split; [|split; [exact FU|exact H]]. rewrite (made_by_complex X P visit srt st fo false equations Ty Hs other).
    rewrite (expression_said X st items F0 expression He), (representations_said X st items F0 text Ht), (parser_said X st items F0 po Hpo). exact MF.
  Qed.

  (** Several expressions, separated by :: *)
  Theorem C142_sum equations es names vars size decode :
    fn_type fo = complex_type_of true equations -> sub_expressions (cp_deduce P) expression es names -> variables_of names vars -> kind default = of_scalar SDouble ->
    (forall v q, used ds default v q -> representable (cp_rep P) size decode q) ->
    exists F f qs, FunctionFactory_Model.make_function fo = Ok F /\ Forall2 (used_parts ds default) vars qs /\
      complex_made size qs (magnitudes_of P decode es names vars qs) true equations F f.
  Proof using W V TL M S1 He Ht Hpo Hds Hs Hd Hvisit Hsrt.
    intros Ty SX VO K RP. destruct (C108_complex_variables (xs_stod X) po text ds Hds vars SDouble default Hd K) as (qs & EQ & FQ).
    assert (FU : Forall2 (used_parts ds default) vars qs) by (clear - FQ; induction FQ as [|v q vs qs (H1 & H2 & _) F IH]; constructor; auto; now split).
    destruct (complex_several (xs_stod X) P po visit srt Hvisit Hsrt size decode expression es names vars text equations (used_parts ds default) qs SX VO EQ FU) as (F & f & MF & H).
    { intros x q _ [U1 U2]. split; eapply RP; eassumption. }
    exists F, f, qs. split; [|split; [exact FU|exact H]]. rewrite (made_by_complex X P visit srt st fo true equations Ty Hs other).
    rewrite (expression_said X st items F0 expression He), (representations_said X st items F0 text Ht), (parser_said X st items F0 po Hpo). exact MF.
  Qed.

  (** A default representation which is not that of a double ends the program by an exception which main
      does not catch. *)
  Theorem C142_wrong_default several equations fuel :
    fn_type fo = complex_type_of several equations -> kind default <> of_scalar SDouble ->
    (if several then exists es names vars, sub_expressions (cp_deduce P) expression es names /\ variables_of names vars /\ vars <> []
     else exists names, cp_deduce P expression = Some names /\ names <> []) ->
    ap_print_default ap = false -> (1 <= ap_threads ap)%Z ->
    run fuel = Some ([], Uncaught).
  Proof using W V TL M N S1 He Ht Hpo Hds Hs Hd Hvisit Hsrt.
    intros Ty K H A1 A2. apply (complex_refused OtherException fuel A1 A2); [|now left]. intros B.
    rewrite (made_by_complex X P visit srt st fo several equations Ty B other).
    rewrite (expression_said X st items F0 expression He), (representations_said X st items F0 text Ht), (parser_said X st items F0 po Hpo).
    unfold complex_make. cbn [bind]. destruct several.
    - destruct H as (es & names & vars & [C F] & VO & NV).
      destruct (mparsed_make_Ok (cp_deduce P) visit srt Hvisit Hsrt expression es names C F) as (vars' & indices & EM & VV & _).
      pose proof (variables_unique names vars' vars VV VO). subst vars'.
      unfold madapter_make. rewrite EM. cbn [bind mp_ordered]. now rewrite (complex_wrong_default (xs_stod X) po vars text ds default Hds Hd K NV).
    - destruct H as (names & D & NV). unfold parsed_make. rewrite D. cbn [bind pf_names].
      now rewrite (complex_wrong_default (xs_stod X) po names text ds default Hds Hd K NV).
  Qed.

  (** Complete search, for a function which is not modified, without target or restart,
      and with a budget, if any, which allows all vectors *)
  Context (size : params T -> nat) (qs : list (params T * params T)) (magnitudes : list (list bool * list bool) -> list dbl -> Prop) (several equations : bool) (F : func) (f : bv -> dbl).
  Context (HM : FunctionFactory_Model.make_function fo = Ok F) (HF : complex_made size qs magnitudes several equations F f).
  Context (UM : unmodified (se_modifiers se)) (A0 : ao_algorithm (se_algorithm se) = 0%Z) (OP : optimizes ap) (RS : ap_restart ap = false)
    (SM : co_stop_on_maximum co = false) (T0 : co_target co = None).
  Let n := complex_size size qs.
  Context (Hn : 0 < n) (B0 : (co_budget co <= 0 \/ Z.of_nat (2 ^ n) <= co_budget co)%Z).

  (** The program shows the best vector: no values of the variables reach the goal better. *)
  Theorem C142_complete_search fuel : 2 ^ n < fuel ->
    (forall pieces ms s, complex_pieces size qs pieces -> magnitudes pieces ms -> goal several equations ms s -> is_nan s = false) ->
    exists r pieces ms s, run fuel = Some (report ap co None n r (joined pieces) false) /\ complex_pieces size qs pieces /\ magnitudes pieces ms /\
      goal several equations ms s /\ rs_value r = Some s /\
      forall pieces' ms' s', complex_pieces size qs pieces' -> magnitudes pieces' ms' -> goal several equations ms' s' -> dle s' s = true.
  Proof using W V TL M N S1 HM HF UM A0 OP RS SM B0 T0 Hn.
    intros Hf NN. destruct HF as (SF & _ & _ & TF & EX & EF). fold n in SF, TF.
    assert (HC : make_function_controller co F = Ok (middle_of co, None)) by (unfold make_function_controller, target_of; now rewrite SM, T0).
    assert (NB : Search_Spec.numbers n f).
    { intros x Lx. destruct (split_parts size qs x Lx) as (ps & FP & <-). destruct (EX ps FP) as (ms & Hm). exact (NN ps ms _ FP Hm (EF ps ms FP Hm)). }
    destruct (C116_complete_search ap co None F (middle_of co) None n n f Hn OP RS HC eq_refl I SF TF NB) as (L & HL & H).
    destruct (H fuel Hf) as (r & x & success & Pr & _ & SE). clear H.
    assert (AL : allowed co (2 ^ n) = 2 ^ n) by (unfold allowed; destruct (Z.ltb_spec 0 (co_budget co)); [destruct B0; lia|reflexivity]). rewrite AL in SE.
    assert (LL : length L = 2 ^ n).
    { destruct HL as (H1 & H2 & _). destruct (all_bvs_spec n) as (K1 & K2 & K3 & _). rewrite <- K1. apply Nat.le_antisymm; apply NoDup_incl_length; auto; intros y Hy; [apply K3|apply H2]; [now apply H2|now apply K3]. }
    rewrite <- LL in SE.
    inversion SE as [r0 k x0 _ (B1 & B2 & B3) RV _ _ |r0 t k x0 Ht0]; subst; [|discriminate]. rewrite firstn_all in B1, B2.
    assert (LX : length x = n).
    { destruct HL as (_ & H2 & _). apply H2. apply nth_error_In in B1. unfold valued in B1. apply in_map_iff in B1 as (y & Ey & Iy). injection Ey as -> _. exact Iy. }
    destruct (split_parts size qs x LX) as (ps & FP & <-). destruct (EX ps FP) as (ms & Hm). exists r, ps, ms, (f (joined ps)).
    split.
    { rewrite ran. unfold run_settings. fold ap co fo. rewrite (unmodified_made _ _ _ F UM (sizes_said _ items st se S1) HM ltac:(rewrite SF; exact Hn)).
      etransitivity; [|exact Pr]. apply same_program. intros i. now apply complete_made. }
    split; [exact FP|]. split; [exact Hm|]. split; [exact (EF ps ms FP Hm)|]. split; [exact RV|]. intros ps' ms' s' FP' Hm' O'.
    rewrite (goal_unique _ _ _ _ _ O' (EF ps' ms' FP' Hm')).
    assert (I' : In (joined ps') L).
    { destruct HL as (_ & H2 & _). apply H2. exact (joined_length size qs ps' FP'). }
    apply In_nth_error in I' as [j J]. assert (J' : nth_error (valued f L) j = Some (joined ps', f (joined ps'))) by (unfold valued; now rewrite nth_error_map, J).
    destruct (B2 j _ _ J') as [Y0|LE]; [|exact LE]. exfalso. rewrite NB in Y0; [discriminate|].
    exact (joined_length size qs ps' FP').
  Qed.

  (** So, if all squared magnitudes, which are not negative, can be 0 then they are 0 for the vector which is shown; else the
      value which is shown is negative. *)
  Theorem C142_equations fuel : equations = true -> 2 ^ n < fuel ->
    (forall pieces ms, complex_pieces size qs pieces -> magnitudes pieces ms -> Forall (fun m => dle (DFin 0) m = true) ms) ->
    exists r pieces ms s, run fuel = Some (report ap co None n r (joined pieces) false) /\ complex_pieces size qs pieces /\ magnitudes pieces ms /\ rs_value r = Some s /\
      ((exists pieces' ms', complex_pieces size qs pieces' /\ magnitudes pieces' ms' /\ Forall (fun m => m = DFin 0) ms') -> Forall (fun m => m = DFin 0) ms /\ s = DFin 0) /\
      ((forall pieces' ms', complex_pieces size qs pieces' -> magnitudes pieces' ms' -> ~ Forall (fun m => m = DFin 0) ms') -> dle s (DFin 0) = true /\ s <> DFin 0).
  Proof using W V TL M N S1 HM HF UM A0 OP RS SM B0 T0 Hn.
    intros EQ Hf NN. destruct (C142_complete_search fuel Hf) as (r & ps & ms & s & H1 & H2 & Hm & H3 & H4 & H5).
    { intros ps ms s FP Hm G. rewrite EQ in G. exact (proj1 (goal_equations several ms s (NN ps ms FP Hm) G)). }
    rewrite EQ in H3, H5. exists r, ps, ms, s. split; [exact H1|]. split; [exact H2|]. split; [exact Hm|]. split; [exact H4|].
    destruct (goal_equations several ms s (NN ps ms H2 Hm) H3) as (S2 & S3 & S4). split.
    - intros (ps' & ms' & FP' & Hm' & Z0). destruct HF as (_ & _ & _ & _ & _ & EF). pose proof (EF ps' ms' FP' Hm') as G. rewrite EQ in G.
      pose proof (proj2 (proj2 (proj2 (goal_equations several ms' _ (NN ps' ms' FP' Hm') G))) Z0) as K.
      pose proof (H5 ps' ms' _ FP' Hm' G) as LE. rewrite K in LE. assert (s = DFin 0).
      { destruct s as [| |z|]; cbn in LE, S3; try discriminate. apply Z.leb_le in LE, S3. f_equal. lia. }
      split; [now apply S4|assumption].
    - intros NS. split; [exact S3|]. intros E0. apply (NS ps ms H2 Hm). now apply S4.
  Qed.
End Words.
(** All other types of functions are those of hnco without these ones: C139 and C141 remain true. *)
Theorem C142_others {T} (X : expression_surroundings T) P visit srt st t :
  (forall several equations, t <> complex_type_of several equations) ->
  expression_function (with_complex X P visit srt) st t = expression_function X st t.
Proof.
  intros H1. unfold expression_function. destruct (so_type t) as [[v absolute]|]; [reflexivity|]. cbn [with_complex xs_other]. unfold complex_function.
  destruct (complex_type t) as [[several equations]|] eqn:E; [exfalso|reflexivity].
  assert (H : t = complex_type_of several equations).
  { clear H1. destruct t as [|p|p]; try discriminate E. repeat (destruct p as [p|p|]; try discriminate E); inversion E; subst; reflexivity. }
  exact (H1 several equations H).
Qed.
Print Assumptions C142_others.
Print Assumptions C142_refused.
Print Assumptions C142_update.
Print Assumptions C142_function.
Print Assumptions C142_sum.
Print Assumptions C142_wrong_default.
Print Assumptions C142_complete_search.
Print Assumptions C142_equations.

(** A parser of the expressions z * z + 4 and z - w only, over complex numbers with integer
    parts; the parts are 0 to 3 if the upper bound is 3, else 0 to 1. *)
Definition example_bounds (q : params string) : params string :=
  LongRepParams 0 (match q with DoubleRepParams _ b _ => if String.eqb b "3" then 3 else 1 | _ => 1 end).
Definition example_complex : complex_parser string :=
  mk_complex_parser Z (fun e => if String.eqb e "z*z+4" then Some ["z"] else if String.eqb e "z-w" then Some ["z"; "w"] else None)
    (fun e vs => match vs with [(a, b)] => (a * a - b * b + 4, 2 * a * b)%Z | [(a, b); (c, d)] => (a - c, b - d)%Z | _ => (0, 0)%Z end)
    (fun z => DFin ((fst z * fst z + snd z * snd z) * 2 ^ 1074)) (fun q => integer_to_rep 64 example_lg (example_bounds q)).
Definition complex_surroundings : expression_surroundings string :=
  mk_expression_surroundings example_stod (fun s => s) (fun path => if String.eqb path "function.txt" then Some "z*z+4::z-w" else None) example_parser example_parser (fun _ _ => None).
Definition complex_run (ws : list string) : option (list output * ending) :=
  hnco (with_expressions example_environment (with_complex complex_surroundings example_complex (@rev string) string_sort)) ws 300.
Definition parts : list string := ["--fp-representations"; "z_im: double(0, 3, size = 2); w_im: double(0, 3, size = 2)"].

(** The equation z^2 = -4, whose solution is 2i; the maximum of the magnitude, for 1 + 3i; the
    system z^2 = -4, z = w, of the file; its maximum; an expression which does not parse; an int as default representation; no
    representations. *)
Example C142_case :
  complex_run (["-A0"; "-F512"; "--fp-expression=z*z+4"; "--print-solution"] ++ parts) = Some ([OSolution Printed [false; false; true]], Exit 0) /\
  complex_run (["-A0"; "-F502"; "--fp-expression=z*z+4"; "--print-solution"] ++ parts) = Some ([OSolution Printed [true; true; true]], Exit 0) /\
  complex_run (["-A0"; "-F532"; "--print-solution"] ++ parts) = Some ([OSolution Printed [false; false; true; false; false; true]], Exit 0) /\
  complex_run (["-A0"; "-F522"; "--print-solution"] ++ parts) = Some ([OSolution Printed [false; false; false; true; true; true]], Exit 0) /\
  complex_run (["-A0"; "-F512"; "--print-solution"] ++ parts) = Some ([], Exit 1) /\
  complex_run (["-A0"; "-F532"; "--fp-default-double-rep=int(0, 1)"; "--print-solution"] ++ parts) = Some ([], Uncaught) /\
  complex_run ["-A0"; "-F532"; "--print-solution"] = Some ([], Exit 1).
Proof. vm_compute. repeat split. Qed.

(** The hypotheses of the theorems hold for the third of these command lines. *)
Definition complex_items (t : string) : list item :=
  [Gives (the_option "algorithm") "0"; Gives (the_option "function") t; Sets (the_option "print-solution");
   Gives (the_option "fp-representations") "z_im: double(0, 3, size = 2); w_im: double(0, 3, size = 2)"].
Definition complex_words (t : string) : list (list string) := [["-A0"]; ["-F" ++ t]; ["--print-solution"]; parts]%string.
Definition complex_settings (X : expression_surroundings string) (t : Z) (st : options) : settings :=
  mk_settings
    (mk_app_options false 1 None false false false false false false false false true false false false)
    (mk_controller_options 10000 false false false None false)
    (mk_modifier_options 100 (mk_map_options 0 false 100 false 10 0) None None false None)
    (mk_fn_options t 100 10 10 2 (Throw RuntimeError) (expression_function (with_complex X example_complex (@rev string) string_sort) st))
    (mk_algo_options 0 0 false 0 0 2 false None 50 false 100)
    None "map.txt".
Example C142_hypotheses : Forall2 writes (complex_items "532") (complex_words "532") /\ values_written (complex_items "532") /\ no_display (complex_items "532") /\
  (forall l, Permutation (@rev string l) l) /\ sorts string_sort /\
  exists st, make_options false (concat (complex_words "532")) = Parsed st /\
    let X := complex_surroundings in
    let P := example_complex in
    let se := complex_settings X 532 st in
    let text := "z_im: double(0, 3, size = 2); w_im: double(0, 3, size = 2)" in
    say (with_expressions example_environment (with_complex X P (@rev string) string_sort)) (complex_items "532") st se /\
    expression_says (complex_items "532") (xs_file X) "z*z+4::z-w" /\ representations_say (complex_items "532") (xs_file X) text /\
    sub_expressions (cp_deduce P) "z*z+4::z-w" ["z*z+4"; "z-w"] [["z"]; ["z"; "w"]] /\ variables_of [["z"]; ["z"; "w"]] ["w"; "z"] /\
    exists po ds default, parser_says (complex_items "532") (xs_number X) po /\ declarations (xs_stod X) po text ds /\
      fn_type (se_function se) = complex_type_of true true /\
      represents (xs_stod X) po (Parser_Spec.default_text po SDouble) default /\ kind default = of_scalar SDouble /\
      (forall v q, used ds default v q -> representable (cp_rep P) (fun q => integer_size example_lg (example_bounds q)) (fun q => integer_decode (example_bounds q)) q) /\
      unmodified (se_modifiers se) /\ ao_algorithm (se_algorithm se) = 0%Z /\ optimizes (se_application se) /\ ap_restart (se_application se) = false /\
      co_stop_on_maximum (se_controllers se) = false /\ co_target (se_controllers se) = None /\ (Z.of_nat (2 ^ 6) <= co_budget (se_controllers se))%Z /\
      forall z, dle (DFin 0) (cp_norm P z) = true.
Proof.
  assert (Dn : forall n, existsb (fun p => String.eqb (p_name p) n) documented = true -> In (the_option n) documented) by exact the_option_documented.
  assert (XX : forall z, (- 2 ^ 31 <= z < 2 ^ 31)%Z -> written TInt (show_Z z) (VInt z)) by (intros z Hz; rewrite <- (append_nothing (show_Z z)); now constructor).
  split; [|split; [|split; [|split; [|split]]]].
  - repeat apply Forall2_cons; [| | | |constructor].
    + apply short_joined; [apply Dn; vm_compute; reflexivity|vm_compute; reflexivity|discriminate].
    + apply short_joined; [apply Dn; vm_compute; reflexivity|vm_compute; reflexivity|discriminate].
    + apply (flag (the_option "print-solution") "print-solution"); [apply Dn; vm_compute; reflexivity|vm_compute; reflexivity|apply standsb_stands; vm_compute; reflexivity].
    + apply (long_apart (the_option "fp-representations") "fp-representations"); [apply Dn; vm_compute; reflexivity|vm_compute; discriminate|apply standsb_stands; vm_compute; reflexivity].
  - intros p v H. destruct H as [H|[H|[H|[H|[]]]]]; try discriminate; injection H as <- <-; vm_compute p_type.
    + exists (VInt 0). apply (XX 0%Z). lia.
    + exists (VInt 532). apply (XX 532%Z). lia.
    + eexists. constructor.
  - intros name H. destruct H as [<-|[<-|[<-|[<-|[]]]]]; reflexivity.
  - intros l. symmetry. apply Permutation_rev.
  - exact string_sort_sorts.
  - destruct (make_options false (concat (complex_words "532"))) as [st|pg en] eqn:M; [|vm_compute in M; discriminate]. exists st. split; [reflexivity|]. clear M. cbv zeta. split; [|split; [|split; [|split; [|split]]]].
    { unfold say, application_says, controllers_say, modifiers_say, map_says, function_says, algorithm_says, complex_settings, int_is. cbn - [text_of asked].
      repeat match goal with |- _ /\ _ => split end;
        match goal with
        | |- written TInt _ (VInt ?z) => apply (XX z); lia
        | |- _ => reflexivity
        end. }
    { vm_compute. reflexivity. }
    { vm_compute. reflexivity. }
    { split; [|repeat constructor]. apply (Parser_Proofs.split_string_iff 20); [discriminate|vm_compute; lia|vm_compute; reflexivity]. }
    { split; [repeat constructor|]. intros v. cbn. split.
      - intros [<-|[<-|[]]]; (exists ["z"; "w"]; cbn; tauto).
      - intros (l & [<-|[<-|[]]] & H); cbn in H; tauto. }
    set (po := mk_parser_options (@None string) None "int(-10, 10)" "long(-100, 100)" "double(0, 1, precision = 1e-3)").
    destruct (parse_representations example_stod po "z_im: double(0, 3, size = 2); w_im: double(0, 3, size = 2)") as [en|x|] eqn:EP; [|vm_compute in EP; discriminate EP|vm_compute in EP; discriminate EP].
    destruct (proj1 (C107_grammar example_stod po _) en EP) as (ds & HD & HL).
    exists po, ds, (DoubleRepParams "0" "1" (inl "1e-3")). split; [|split; [exact HD|]].
    { repeat split; vm_compute; reflexivity. }
    split; [reflexivity|]. split; [apply parse_representation_iff; vm_compute; reflexivity|]. split; [reflexivity|]. split.
    { assert (RP : forall a b, dint_args 64 example_lg a b -> representable (integer_to_rep 64 example_lg) (integer_size example_lg) integer_decode (@LongRepParams string a b)).
      { intros a b Hab. apply (C120_integers 64 example_lg _ a b); auto. }
      intros v q _. assert (B : example_bounds q = LongRepParams 0 3 \/ example_bounds q = LongRepParams 0 1).
      { unfold example_bounds. destruct q as [| |a b r|]; auto. destruct (String.eqb b "3"); auto. }
      unfold representable. cbn [cp_rep example_complex]. destruct B as [-> | ->]; apply RP; repeat split; vm_compute; congruence || (repeat constructor). }
    do 6 (split; [repeat split; cbn; lia|]). split; [cbn; lia|].
    intros [a b]. cbn [cp_norm example_complex fst snd dle]. apply Z.leb_le. assert (0 <= a * a)%Z by (apply Z.square_nonneg). assert (0 <= b * b)%Z by (apply Z.square_nonneg).
    apply Z.mul_nonneg_nonneg; [lia|apply Z.pow_nonneg; lia].
Qed.
