(** Property C151: functions of hnco-mo over complex numbers and the words of its command line. *)

From Coq Require Import ZArith NArith String Permutation Lia.
From Verif Require Double.
From Verif Require Import Base BaseLemmas Text_Proofs Parser_Model Parser_Spec Parser_Proofs Representation_Model Representation_Spec Adapter_Proofs ParsedFunction_Model ParsedFunction_Spec
  ParsedFunction_Proofs Properties_Parser Properties_ParsedFunction
  Application_Model Application_Spec MultiApplication_Model MultiApplication_Spec Properties_MultiApplication Options_Model Options_Spec Options_Proofs CommandLine_Spec CommandLine_Proofs
  ToolOptions_Model ToolOptions_Spec ToolOptions_Proofs Properties_ToolOptions ToolCommand_Model ToolCommand_Spec ToolCommand_Proofs Properties_ToolCommand
  MultiExpression_Model MultiExpression_Spec MultiExpression_Proofs Properties_MultiExpression SystemFunction_Proofs ComplexFunction_Model ComplexFunction_Spec ComplexFunction_Proofs MultiComplex_Model Nsga2_Model.
Local Open Scope string_scope.
Local Open Scope list_scope.
Local Open Scope nat_scope.
Local Notation tool_writes := ToolOptions_Spec.writes.
Local Notation ends tail := (tail = [] \/ exists l : list string, tail = "--" :: l).

(** The other types of functions do not change. *)
Theorem C151_others {T} (W : surroundings) (X : mo_surroundings T) (P : complex_parser T) (norm : cp_domain P * cp_domain P -> Z) items wordss tail t :
  Forall2 (tool_writes HncoMo) items wordss -> values_written items -> ends tail -> tool_int HncoMo items "function" t -> t <> 522%Z -> t <> 532%Z ->
  hnco_mo_program (with_objectives W (with_complex_objectives X P norm)) (concat wordss ++ tail) = hnco_mo_program (with_objectives W X) (concat wordss ++ tail).
Proof.
  intros HW V TL Ht N1 N2. destruct (tool_facts_hold HncoMo items wordss tail HW V TL) as (st & M & F). unfold hnco_mo_program. rewrite M.
  pose proof (tool_int_said HncoMo st items F "function" _ eq_refl Ht : int_of HncoMo st "function" = _) as E.
  assert (O : mo_objectives (with_complex_objectives X P norm) st = mo_objectives X st).
  { unfold mo_objectives. rewrite E. destruct (mo_type t) as [[v a]|]; [destruct v as [[]|]; reflexivity|]. cbn [with_complex_objectives ms_other]. unfold mo_complex_objectives, mo_complex_type.
    rewrite E. destruct (Z.eqb_spec t 522); [contradiction|]. destruct (Z.eqb_spec t 532); [contradiction|]. reflexivity. }
  assert (G : mo_function_factory (with_objectives W (with_complex_objectives X P norm)) st = mo_function_factory (with_objectives W X) st).
  { unfold mo_function_factory. cbn [with_objectives su_objectives]. now rewrite O. }
  now rewrite G.
Qed.
Print Assumptions C151_others.

Section Words.
  Context {T : Type} (W : surroundings) (X0 : mo_surroundings T) (P : complex_parser T) (norm : cp_domain P * cp_domain P -> Z).
  Context (Hvisit : forall l, Permutation (ms_visit X0 l) l) (Hsort : sorts (ms_sort X0)).
  Let X := with_complex_objectives X0 P norm.
  Context (items : list item) (wordss : list (list string)) (tail : list string) (seed : option Z).
  Context (HW : Forall2 (tool_writes HncoMo) items wordss) (V : values_written items) (TL : ends tail) (SS : multi_seed_says items seed).
  Let run := hnco_mo_program (with_objectives W X) (concat wordss ++ tail).

  (** The types of functions over complex numbers, and the size which the words say *)
  Context (t bv_size : Z) (Ht : tool_int HncoMo items "function" t) (Hb : tool_int HncoMo items "bv-size" bv_size) (Hs : (0 < bv_size)%Z) (Ty : t = 522%Z \/ t = 532%Z).

  Lemma complex_objectives st : int_of HncoMo st "function" = t ->
    mo_objectives X st =
      e <- mo_expression X st ;;
      g <- madapter_make (cp_deduce P) (ms_visit X0) (ms_sort X0)
        (fun names => text <- mo_representations X st ;; make_complex_reps (ms_stod X0) (mo_parser_settings X st) SDouble names text) (complex_to_rep P) e ;;
      Ok (parsed_function (cp_eval P) norm (g, false)).
  Proof using Ty.
    clear - Ty. intros E. unfold mo_objectives. rewrite E. assert (MT : mo_type t = None) by (destruct Ty as [-> | ->]; reflexivity). rewrite MT. cbn [X with_complex_objectives ms_other].
    unfold mo_complex_objectives. rewrite E. assert (CT : mo_complex_type t = true) by (destruct Ty as [-> | ->]; reflexivity). rewrite CT. reflexivity.
  Qed.
  Lemma complex_listed : In t listed_functions.
  Proof using Ty. clear - Ty. destruct Ty as [-> | ->]; cbn; tauto. Qed.

  (** A file is missing, or a sub expression does not parse: the program fails and nothing is
      printed. *)
  Theorem C151_refused op :
    multi_says (with_objectives W X) items 0 op -> mo_print_default op = false -> (1 <= mo_threads op)%Z ->
    mo_missing_file items (ms_file X0) \/
      (exists expression es e, mo_expression_says items (ms_file X0) expression /\ cut "::" expression es /\ In e es /\ cp_deduce P e = None) ->
    run = Some ([], Exit 1).
  Proof using HW V TL SS Ht Hb Hs Ty Hvisit Hsort.
    intros SO PD TH H. apply (refused_run W X items wordss tail seed HW V TL SS t bv_size Ht Hb Hs RuntimeError op SO PD TH); [|apply complex_listed].
    intros st F E1 E2. rewrite (complex_objectives st E1). destruct H as [H|(expression & es & e & He & C & I & D)].
    - destruct (mo_missing_said X st items F H) as [N|N]; [now rewrite N|]. destruct (mo_expression_cases X st) as [(e & ->)| ->]; [|reflexivity]. cbn [bind]. unfold madapter_make.
      destruct (mparsed_make_cases (cp_deduce P) (ms_visit X0) (ms_sort X0) e Hvisit Hsort) as [(p & ->)| ->]; [|reflexivity]. cbn [bind]. now rewrite N.
    - rewrite (mo_expression_said X st items F expression He). cbn [bind]. unfold madapter_make.
      rewrite (mparsed_make_Throw _ (ms_visit X0) (ms_sort X0) expression es C) by eauto. reflexivity.
  Qed.

  Context (expression text : string) (He : mo_expression_says items (ms_file X0) expression) (Hr : mo_representations_say items (ms_file X0) text).
  Context (po : parser_options T) (Hpo : mo_parser_says items (ms_number X0) po) (ds : list (string * params T)) (Hds : declarations (ms_stod X0) po text ds).
  Context (es : list string) (names : list (list string)) (vars : list string) (Hes : sub_expressions (cp_deduce P) expression es names) (Hvars : variables_of names vars).
  Context (default : params T) (Hd : represents (ms_stod X0) po (Parser_Spec.default_text po SDouble) default).

  (** A default representation of another type ends the program by an exception which main does
      not catch. *)
  Theorem C151_wrong_default op : vars <> [] -> kind default <> of_scalar SDouble ->
    multi_says (with_objectives W X) items 0 op -> mo_print_default op = false -> (1 <= mo_threads op)%Z ->
    run = Some ([], Uncaught).
  Proof using HW V TL SS Ht Hb Hs Ty Hvisit Hsort He Hr Hpo Hds Hes Hvars Hd.
    intros NV K SO PD TH. apply (refused_run W X items wordss tail seed HW V TL SS t bv_size Ht Hb Hs OtherException op SO PD TH); [|apply complex_listed].
    intros st F E1 E2. rewrite (complex_objectives st E1), (mo_expression_said X st items F _ He). cbn [bind]. destruct Hes as [C F0].
    destruct (mparsed_make_Ok (cp_deduce P) (ms_visit X0) (ms_sort X0) Hvisit Hsort expression es names C F0) as (vars' & indices & EM & VV & Lo).
    pose proof (variables_unique names vars' vars VV Hvars). subst vars'. unfold madapter_make. rewrite EM. cbn [bind mp_ordered].
    rewrite (mo_representations_said X st items F _ Hr), (mo_parser_said X st items F _ Hpo). cbn [bind].
    now rewrite (complex_wrong_default (ms_stod X0) po vars text ds default Hds Hd K NV).
  Qed.

  Context (size : params T -> nat) (decode : params T -> list bool -> cp_domain P) (op : mo_options) (Q : no_question op) (A : mo_algorithm op = 100%Z) (TS : (2 <= mo_tournament op < mo_mu op)%Z).

  (** The objectives: the squared magnitudes of the sub expressions, for the variables whose real and
      imaginary parts are decoded from the vectors *)
  Definition computes_magnitudes (qs : list (params T * params T)) (value : list bool -> list Z) : Prop :=
    forall pieces v, complex_pieces size qs pieces -> assigns vars (complex_values P decode qs pieces) v ->
      value (joined pieces) = map2 (fun e ns => norm (cp_eval P e (map v ns))) es names.

  (** The program succeeds, and prints such objectives of its solutions; there is no difference
      between the two types. *)
  Theorem C151_expressions out e :
    kind default = of_scalar SDouble -> (forall v q, used ds default v q -> representable (cp_rep P) size decode q) -> vars <> [] ->
    (forall qs, Forall2 (used_parts ds default) vars qs -> possible (complex_size size qs) (su_multi W seed) /\ multi_says (with_objectives W X) items (complex_size size qs) op) ->
    run = Some (out, e) ->
    e = Exit 0 /\ exists qs value evaluated xs, Forall2 (used_parts ds default) vars qs /\ computes_magnitudes qs value /\
      Z.of_nat (length evaluated) = (mo_mu op * (1 + Z.max 0 (mo_num_iterations op)))%Z /\
      good_solutions (length es) (Z.to_nat (mo_mu op)) value evaluated xs /\
      out = announced op (complex_size size qs) ++ printed op value xs.
  Proof using HW V TL SS Ht Hb Hs Ty Hvisit Hsort He Hr Hpo Hds Hes Hvars Hd Q A TS.
    intros K RP NV PS R. destruct (C108_complex_variables (ms_stod X0) po text ds Hds vars SDouble default Hd K) as (qs & EQ & FQ).
    assert (FU : Forall2 (used_parts ds default) vars qs) by (clear - FQ; induction FQ as [|v q vs qs (H1 & H2 & _) F IH]; constructor; auto; now split).
    destruct (PS qs FU) as [PO SO]. clear PS FQ.
    assert (LQ : length qs = length vars) by (clear - FU; induction FU; cbn; congruence).
    assert (RQ : forall q, In q qs -> representable (cp_rep P) size decode (fst q) /\ representable (cp_rep P) size decode (snd q)).
    { clear - FU RP. induction FU as [|x q vs qs [H1 H2] F IH]; intros q' Hq; destruct Hq; subst; [split; eapply RP; eassumption|]. now apply IH. }
    destruct (to_complex_reps P size decode qs RQ) as (reps & ER & LR & TR & EV).
    destruct Hes as [C F0]. destruct (mparsed_make_Ok (cp_deduce P) (ms_visit X0) (ms_sort X0) Hvisit Hsort expression es names C F0) as (vars' & indices & EM & VV & Lo).
    pose proof (variables_unique names vars' vars VV Hvars). subst vars'. set (p := mk_mparsed es names vars indices). set (f := parsed_function (cp_eval P) norm (reps, p, false)).
    assert (LE : length names = length es) by (clear - F0; induction F0; cbn; congruence).
    destruct (C138_multi (with_objectives W X) items wordss tail seed HW V TL SS) as (st & M & H). cbv zeta in H. destruct (H t bv_size op Ht Hb) as [H1 _]. clear H.
    destruct (tool_facts_hold HncoMo items wordss tail HW V TL) as (st' & M' & F). assert (st' = st) as -> by congruence.
    pose proof (tool_int_said HncoMo st items F "function" _ eq_refl Ht : int_of HncoMo st "function" = _) as B2.
    assert (OB : mo_objectives X st = Ok f).
    { rewrite (complex_objectives st B2), (mo_expression_said X st items F _ He), (mo_parser_said X st items F _ Hpo), (mo_representations_said X st items F _ Hr). cbn [bind]. unfold madapter_make. rewrite EM. cbn [bind mp_ordered].
      rewrite EQ. cbn [bind]. rewrite ER. cbn [bind]. now rewrite LR, LQ, Nat.eqb_refl. }
    assert (SN : mf_size f = complex_size size qs) by exact TR. assert (SM : mo_outputs (mf_objective f) = length es) by reflexivity.
    specialize (H1 f OB Hs complex_listed). rewrite SN in H1. specialize (H1 SO). cbn [su_multi with_objectives] in H1. unfold run in R. rewrite H1 in R.
    assert (CO : computes_magnitudes qs (mo_value (mf_objective f))).
    { intros pieces v FP AS. unfold f, parsed_function. cbn [mf_objective mo_value]. unfold madapter_evaluate. destruct (EV pieces FP) as (EL & k & EU). rewrite EL, !Nat.eqb_refl. cbn [assertb bind]. rewrite EU. cbn [bind].
      unfold p. cbn [mp_expressions]. rewrite (mparsed_evaluate_Ok (cp_eval P) es names vars indices _ v); [|congruence|exact Lo|exact AS]. cbn [bind]. unfold ParsedFunction_Model.convert.
      clear. revert names. induction es as [|a es' IH]; intros [|b names']; cbn [map2 map]; try reflexivity. f_equal. apply IH. }
    assert (OV : forall x, length x = mf_size f -> length (mo_value (mf_objective f) x) = mo_outputs (mf_objective f)).
    { intros x Lx. rewrite SN in Lx. destruct (split_parts size qs x Lx) as (ps & FP & <-).
      destruct (assigns_exists (cp_eval P EmptyString []) vars (sorted_NoDup vars (proj1 Hvars)) (complex_values P decode qs ps)) as (v & AS); [rewrite (values_length P size decode qs ps FP); exact LQ|].
      rewrite (CO ps v FP AS), SM. clear - LE. revert names LE. induction es as [|a es' IH]; intros [|b names'] LE; cbn [length map2] in *; try lia. f_equal. apply IH. lia. }
    assert (HM : 0 < mo_outputs (mf_objective f)) by (rewrite SM; clear - C; inversion C; cbn; lia).
    assert (Hn : 0 < mf_size f).
    { rewrite SN. clear - FU RQ NV. destruct FU as [|x q vs qs' U1 U2]; [contradiction|]. destruct (RQ q (or_introl eq_refl)) as [(r & _ & RS & RD) _]. unfold complex_size. cbn [map fold_right]. rewrite <- RS. pose proof (proj1 RD). lia. }
    rewrite <- SN in PO.
    destruct (C121_success op f (su_multi W seed) Q A Hn HM TS OV PO out e (fun _ => eq_refl) R) as (-> & T' & xs & Y1 & Y2 & Y3).
    split; [reflexivity|]. exists qs, (mo_value (mf_objective f)), T', xs. split; [exact FU|]. split; [exact CO|]. split; [exact Y1|]. rewrite SM in Y2. split; [exact Y2|]. now rewrite <- SN.
  Qed.
End Words.
Print Assumptions C151_refused.
Print Assumptions C151_wrong_default.
Print Assumptions C151_expressions.

(** A parser of the expressions z*z+4 and z-w only, over complex numbers with integer parts, which
    are 0 to 3 *)
Definition mo_example_complex : complex_parser string :=
  mk_complex_parser Z (fun e => if String.eqb e "z*z+4" then Some ["z"] else if String.eqb e "z-w" then Some ["z"; "w"] else None)
    (fun e vs => match vs with [(a, b)] => (a * a - b * b + 4, 2 * a * b)%Z | [(a, b); (c, d)] => (a - c, b - d)%Z | _ => (0, 0)%Z end)
    (fun _ => Double.DFin 0) (fun _ => integer_to_rep 64 example_lg (@LongRepParams string 0 3)).
Definition squared (z : Z * Z) : Z := (fst z * fst z + snd z * snd z)%Z.
Definition complex_mo_surroundings : mo_surroundings string :=
  mk_mo_surroundings example_stod (fun s => s) (fun path => if String.eqb path "function.txt" then Some "z*z+4::z-w" else None) example_mo_parser example_mo_parser (@rev string) string_sort
    (fun _ => Throw RuntimeError).
Definition complex_mo_run (ws : list string) : option (list mo_output * ending) :=
  hnco_mo_program (with_objectives example_surroundings (with_complex_objectives complex_mo_surroundings mo_example_complex squared)) ws.
Definition mo_parts : list string := ["--fp-representations=z_re: double(0, 3, size = 2)"].

(** One objective, for both types; the file, with two objectives and variables; no representations; a sub
    expression which does not parse; an int as default representation. *)
Example C151_case :
  complex_mo_run (["-F522"; "-s4"; "--fp-expression=z*z+4"] ++ mo_parts ++ mo_search) = complex_mo_run (["-F532"; "-s4"; "--fp-expression=z*z+4"] ++ mo_parts ++ mo_search) /\
  match complex_mo_run (["-F522"; "-s4"; "--fp-expression=z*z+4"] ++ mo_parts ++ mo_search) with Some ([MoFront [v]; MoFront [w]], Exit 0) => (v = 9 /\ w = 9)%Z | _ => False end /\
  match complex_mo_run (["-F522"; "-s4"] ++ mo_parts ++ mo_search) with Some ([MoWarning 4 8; MoFront [16; 0]]%Z, Exit 0) => True | _ => False end /\
  complex_mo_run ["-F522"; "-s4"; "--fp-expression=z*z+4"] = Some ([], Exit 1) /\
  complex_mo_run (["-F522"; "-s4"; "--fp-expression=z*z+4::1"] ++ mo_parts) = Some ([], Exit 1) /\
  complex_mo_run (["-F532"; "-s4"; "--fp-expression=z*z+4"; "--fp-default-double-rep=int(0, 1)"] ++ mo_parts) = Some ([], Uncaught).
Proof. vm_compute. repeat split. Qed.

(** The hypotheses of the theorems hold for the first of these command lines. *)
Definition complex_mo_items : list item :=
  [Gives (tool_option HncoMo "function") "522"; Gives (tool_option HncoMo "bv-size") "4"; Gives (tool_option HncoMo "fp-expression") "z*z+4";
   Gives (tool_option HncoMo "fp-representations") "z_re: double(0, 3, size = 2)"; Gives (tool_option HncoMo "ea-mu") "4"; Gives (tool_option HncoMo "num-iterations") "2";
   Sets (tool_option HncoMo "print-pareto-front")].
Definition complex_mo_words : list (list string) := [["-F522"]; ["-s4"]; ["--fp-expression=z*z+4"]; mo_parts; ["--ea-mu=4"]; ["-i2"]; ["--print-pareto-front"]].
Example C151_hypotheses : let P := mo_example_complex in let X := with_complex_objectives complex_mo_surroundings P squared in let W := example_surroundings in let items := complex_mo_items in
  let text := "z_re: double(0, 3, size = 2)" in
  (forall l, Permutation (ms_visit X l) l) /\ sorts (ms_sort X) /\
  Forall2 (tool_writes HncoMo) items complex_mo_words /\ values_written items /\ multi_seed_says items None /\
  tool_int HncoMo items "function" 522 /\ tool_int HncoMo items "bv-size" 4 /\
  mo_expression_says items (ms_file X) "z*z+4" /\ mo_representations_say items (ms_file X) text /\
  sub_expressions (cp_deduce P) "z*z+4" ["z*z+4"] [["z"]] /\ variables_of [["z"]] ["z"] /\
  exists po ds default, mo_parser_says items (ms_number X) po /\ declarations (ms_stod X) po text ds /\
    represents (ms_stod X) po (Parser_Spec.default_text po SDouble) default /\ kind default = of_scalar SDouble /\
    let size := fun _ : params string => 2 in
    (forall v q, used ds default v q -> representable (cp_rep P) size (fun _ => integer_decode (@LongRepParams string 0 3)) q) /\
    (forall qs, Forall2 (used_parts ds default) ["z"] qs ->
      possible (complex_size size qs) (su_multi W None) /\ multi_says (with_objectives W X) items (complex_size size qs) (mo_equation_options 4)) /\
    no_question (mo_equation_options 4) /\ mo_algorithm (mo_equation_options 4) = 100%Z /\ (2 <= mo_tournament (mo_equation_options 4) < mo_mu (mo_equation_options 4))%Z.
Proof.
  cbv zeta. pose proof (tool_option_documented HncoMo) as Dt. split; [intros l; symmetry; apply Permutation_rev|]. split; [exact string_sort_sorts|].
  split; [|split; [|split; [reflexivity|split; [|split; [|split; [|split; [|split; [|split]]]]]]]].
  - repeat apply Forall2_cons; [| | | | | | |constructor].
    + apply ToolOptions_Spec.short_joined; [apply Dt; vm_compute; reflexivity|vm_compute; reflexivity|discriminate].
    + apply ToolOptions_Spec.short_joined; [apply Dt; vm_compute; reflexivity|vm_compute; reflexivity|discriminate].
    + apply (ToolOptions_Spec.long_joined HncoMo (tool_option HncoMo "fp-expression") "fp-expression" "z*z+4"); [apply Dt; vm_compute; reflexivity|vm_compute; discriminate|apply ToolOptions_Proofs.standsb_stands; vm_compute; reflexivity].
    + apply (ToolOptions_Spec.long_joined HncoMo (tool_option HncoMo "fp-representations") "fp-representations" "z_re: double(0, 3, size = 2)"); [apply Dt; vm_compute; reflexivity|vm_compute; discriminate|apply ToolOptions_Proofs.standsb_stands; vm_compute; reflexivity].
    + apply (ToolOptions_Spec.long_joined HncoMo (tool_option HncoMo "ea-mu") "ea-mu" "4"); [apply Dt; vm_compute; reflexivity|vm_compute; discriminate|apply ToolOptions_Proofs.standsb_stands; vm_compute; reflexivity].
    + apply ToolOptions_Spec.short_joined; [apply Dt; vm_compute; reflexivity|vm_compute; reflexivity|discriminate].
    + apply (ToolOptions_Spec.flag HncoMo (tool_option HncoMo "print-pareto-front") "print-pareto-front"); [apply Dt; vm_compute; reflexivity|vm_compute; reflexivity|apply ToolOptions_Proofs.standsb_stands; vm_compute; reflexivity].
  - intros q v I. destruct I as [I|[I|[I|[I|[I|[I|[I|[]]]]]]]]; try discriminate; injection I as <- <-; vm_compute p_type;
      [exists (VInt 522); apply (shown_int 522); lia|exists (VInt 4); apply (shown_int 4); lia|eexists; constructor|eexists; constructor|
       exists (VInt 4); apply (shown_int 4); lia|exists (VInt 2); apply (shown_int 2); lia].
  - apply (shown_int 522). lia.
  - apply (shown_int 4). lia.
  - vm_compute. reflexivity.
  - vm_compute. reflexivity.
  - split; [|repeat constructor]. assert (E : split_string 20 "z*z+4" "::" = Some (Ok ["z*z+4"])) by reflexivity. apply split_string_iff in E; [exact E|discriminate|cbn; lia].
  - split; [repeat constructor|]. intros v. cbn. split.
    + intros [<-|[]]; exists ["z"]; cbn; auto.
    + intros (l & [<-|[]] & H); exact H.
  - set (po := mk_parser_options (@None string) None "int(-10, 10)" "long(-100, 100)" "double(0, 1, precision = 1e-3)").
    destruct (parse_representations example_stod po "z_re: double(0, 3, size = 2)") as [en|x|] eqn:EP; [|vm_compute in EP; discriminate EP|vm_compute in EP; discriminate EP].
    destruct (proj1 (C107_grammar example_stod po _) en EP) as (ds & HD & HL).
    exists po, ds, (DoubleRepParams "0" "1" (inl "1e-3")). split; [repeat split; vm_compute; reflexivity|]. split; [exact HD|].
    split; [apply parse_representation_iff; vm_compute; reflexivity|]. split; [reflexivity|]. split; [|split; [|split; [|split]]].
    + intros v q _. exact (C120_integers 64 example_lg (@LongRepParams string 0 3) 0 3 ltac:(lia) ltac:(repeat split; vm_compute; congruence || (repeat constructor)) (or_intror eq_refl)).
    + intros qs FQ. assert (EN : complex_size (fun _ : params string => 2) qs = 4) by (inversion FQ as [|? ? ? ? _ F2]; subst; inversion F2; subst; reflexivity). rewrite EN.
      split; [exact (proj1 C121_case)|].
      unfold multi_says, tool_int, mo_equation_options. cbn - [tool_text asked Nat.ltb]. repeat match goal with |- _ /\ _ => split end;
        match goal with |- written TInt _ (VInt ?z) => apply (shown_int z); lia | |- _ => reflexivity end.
    + repeat split; cbn; lia.
    + reflexivity.
    + cbn. lia.
Qed.
