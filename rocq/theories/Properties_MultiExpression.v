(** Property C140: functions of hnco-mo given by expressions and the words of its command line. *)

From Coq Require Import ZArith NArith String Permutation Lia.
From Verif Require Import Base BaseLemmas Text_Proofs Parser_Model Parser_Spec Parser_Proofs Representation_Model Representation_Spec Adapter_Proofs ParsedFunction_Model ParsedFunction_Spec
  Properties_Parser Properties_ParsedFunction
  Application_Model Application_Spec MultiApplication_Model MultiApplication_Spec Properties_MultiApplication Options_Model Options_Spec Options_Proofs CommandLine_Spec CommandLine_Proofs
  ToolOptions_Model ToolOptions_Spec ToolOptions_Proofs Properties_ToolOptions ToolCommand_Model ToolCommand_Spec ToolCommand_Proofs Properties_ToolCommand
  MultiExpression_Model MultiExpression_Spec MultiExpression_Proofs.
Local Open Scope string_scope.
Local Open Scope list_scope.
Local Open Scope nat_scope.
Local Notation tool_writes := ToolOptions_Spec.writes.
Local Notation ends tail := (tail = [] \/ exists l : list string, tail = "--" :: l).

Lemma scalars_parser {T} (X : mo_surroundings T) k : mo_parser_for X (Scalars k) = mo_parser_of X k.
Proof. now destruct k. Qed.

Lemma positive_total {A B} (u : A -> B -> Prop) (size : B -> nat) vars qs : Forall2 u vars qs -> vars <> [] -> (forall v q, In v vars -> u v q -> 0 < size q) ->
  0 < fold_right Nat.add 0 (map size qs).
Proof. intros U NV H. destruct U as [|v q vs qs U1 U2]; [contradiction|]. specialize (H v q (or_introl eq_refl) U1). cbn [map fold_right]. lia. Qed.

Section Words.
  Context {T : Type} (W : surroundings) (X : mo_surroundings T) (Hvisit : forall l, Permutation (ms_visit X l) l) (Hsort : sorts (ms_sort X)).
  Context (items : list item) (wordss : list (list string)) (tail : list string) (seed : option Z).
  Context (HW : Forall2 (tool_writes HncoMo) items wordss) (V : values_written items) (TL : ends tail) (SS : multi_seed_says items seed).
  Let run := hnco_mo_program (with_objectives W X) (concat wordss ++ tail).

  (** The type of function and the size which the words say *)
  Context (t bv_size : Z) (Ht : tool_int HncoMo items "function" t) (Hb : tool_int HncoMo items "bv-size" bv_size) (Hs : (0 < bv_size)%Z).

  (** When the function is refused *)
  Lemma refused_run e op : multi_says (with_objectives W X) items 0 op -> mo_print_default op = false -> (1 <= mo_threads op)%Z ->
    (forall st, tool_facts HncoMo st items -> int_of HncoMo st "function" = t -> int_of HncoMo st "bv_size" = bv_size -> mo_objectives X st = Throw e) ->
    In t listed_functions -> run = Some ([], ending_of e).
  Proof using HW V TL SS Ht Hb Hs.
    intros SO PD TH H I. destruct (tool_facts_hold HncoMo items wordss tail HW V TL) as (st & M & F).
    pose proof (tool_int_said HncoMo st items F "bv-size" _ eq_refl Hb : int_of HncoMo st "bv_size" = _) as B1.
    pose proof (tool_int_said HncoMo st items F "function" _ eq_refl Ht : int_of HncoMo st "function" = _) as B2.
    subst run. unfold hnco_mo_program. rewrite M. assert (X0 : mo_function_factory (with_objectives W X) st = Throw e).
    { unfold mo_function_factory. rewrite B1, B2. destruct (Z.leb_spec bv_size 0); [lia|].
      assert (Y : existsb (Z.eqb t) mo_cases = true) by (apply existsb_exists; exists t; split; [exact I|apply Z.eqb_refl]). rewrite Y. cbn [su_objectives with_objectives]. now apply H. }
    rewrite X0. cbn [mo_size]. rewrite (multi_said _ st items 0 op F SO). unfold mo_program, mo_init. rewrite PD. destruct (Z.ltb_spec (mo_threads op) 1); [lia|]. now destruct e.
  Qed.

  (** A file is missing, or a sub expression does not parse: the program fails and nothing is
      printed. *)
  Theorem C140_refused k absolute op :
    t = scalar_type k absolute \/ (t = mixed_type absolute /\ k = SDouble) ->
    multi_says (with_objectives W X) items 0 op -> mo_print_default op = false -> (1 <= mo_threads op)%Z ->
    mo_missing_file items (ms_file X) \/
      (exists expression es e, mo_expression_says items (ms_file X) expression /\ cut "::" expression es /\ In e es /\ ma_deduce (mo_parser_of X k) e = None) ->
    run = Some ([], Exit 1).
  Proof using HW V TL SS Ht Hb Hs.
    intros Ty SO PD TH H.
    assert (C : exists v, mo_type t = Some (v, absolute) /\ mo_parser_for X v = mo_parser_of X k).
    { destruct Ty as [->|[-> ->]]; [exists (Scalars k)|exists Mixed]; (split; [apply scalar_type_made || apply mixed_type_made|]); [now destruct k|reflexivity]. }
    destruct C as (v & C1 & C2). apply (refused_run RuntimeError op SO PD TH); [|exact (mo_type_listed _ _ _ C1)].
    intros st F E1 E2. unfold mo_objectives. rewrite E1, E2, C1, C2.
    destruct H as [H|(expression & es & e & He & H1 & H2 & H3)].
    - apply (mo_missing_said X st items F) in H as [H|H]; rewrite H; [reflexivity|]. destruct (mo_expression_cases X st) as [(e & ->)| ->]; reflexivity.
    - rewrite (mo_expression_said X st items F _ He). cbn [bind]. destruct (mo_representations_cases X st) as [(r & ->)| ->]; [|reflexivity]. cbn [bind].
      rewrite C120_refused; [reflexivity|]. right. right. eauto.
  Qed.

  (** The expressions, separated by ::, their variables in alphabetical order, the options of the parser and the
      declarations, as the words or the files say *)
  Context (expression text : string) (He : mo_expression_says items (ms_file X) expression) (Hr : mo_representations_say items (ms_file X) text).
  Context (po : parser_options T) (Hpo : mo_parser_says items (ms_number X) po) (ds : list (string * params T)) (Hds : declarations (ms_stod X) po text ds).
  Context (k : scalar) (es : list string) (names : list (list string)) (vars : list string).
  Let P := mo_parser_of X k.
  Context (Hes : sub_expressions (ma_deduce P) expression es names) (Hvars : variables_of names vars).

  (** A default representation of another type ends the program by an exception which main does
      not catch. *)
  Theorem C140_wrong_default absolute default op : t = scalar_type k absolute -> vars <> [] ->
    represents (ms_stod X) po (Parser_Spec.default_text po k) default -> kind default <> of_scalar k ->
    multi_says (with_objectives W X) items 0 op -> mo_print_default op = false -> (1 <= mo_threads op)%Z ->
    run = Some ([], Uncaught).
  Proof using HW V TL SS Ht Hb Hs Hvisit Hsort He Hr Hpo Hds Hes Hvars.
    intros Ty NV R K SO PD TH. apply (refused_run OtherException op SO PD TH); [|rewrite Ty; apply (mo_type_listed _ _ _ (scalar_type_made k absolute))].
    intros st F E1 E2. unfold mo_objectives. rewrite E1, E2, Ty, scalar_type_made, (mo_expression_said X st items F _ He), (mo_representations_said X st items F _ Hr), (mo_parser_said X st items F _ Hpo).
    cbn [bind]. assert (EP : mo_parser_for X (Scalars k) = P) by (unfold P; now destruct k). rewrite EP.
    now rewrite (C120_wrong_default (ms_stod X) po (ma_deduce P) (ms_visit X) (ms_sort X) Hvisit Hsort (ma_rep P) expression es names Hes vars Hvars text ds Hds bv_size _ k absolute default Hs eq_refl NV R K).
  Qed.

  Context (size : params T -> nat) (decode : params T -> list bool -> ma_domain P) (op : mo_options) (Q : no_question op) (A : mo_algorithm op = 100%Z) (TS : (2 <= mo_tournament op < mo_mu op)%Z).
  Let total (qs : list (params T)) : nat := fold_right Nat.add 0 (map size qs).

  (** What the program prints for the representations [qs] of the variables: solutions among the evaluated vectors (C121) and their objectives, which are the values of the sub expressions (or their absolute values) for the
      values of the variables decoded from the vectors *)
  Definition prints (qs : list (params T)) (absolute : bool) (out : list mo_output) : Prop :=
    exists value evaluated xs, computed (ma_eval P) (ma_double P) es names vars size decode qs absolute value /\
      Z.of_nat (length evaluated) = (mo_mu op * (1 + Z.max 0 (mo_num_iterations op)))%Z /\
      good_solutions (length es) (Z.to_nat (mo_mu op)) value evaluated xs /\
      out = announced op (total qs) ++ printed op value xs.

  Lemma made_run v absolute g qs out e : mo_type t = Some (v, absolute) -> mo_parser_for X v = P ->
    mo_make (ms_stod X) po (ma_deduce P) (ms_visit X) (ms_sort X) (ma_rep P) bv_size t expression text = Ok (g, absolute) -> length qs = length vars ->
    expressed (ma_eval P) (ma_double P) es names vars size decode qs absolute g ->
    0 < total qs -> possible (total qs) (su_multi W seed) -> multi_says (with_objectives W X) items (total qs) op -> run = Some (out, e) ->
    e = Exit 0 /\ prints qs absolute out.
  Proof using HW V TL SS Ht Hb Hs He Hr Hpo Hes Hvars Q A TS.
    intros TY EP MK LQ EX N0 PS SO R.
    destruct (C138_multi (with_objectives W X) items wordss tail seed HW V TL SS) as (st & M & H). cbv zeta in H. destruct (H t bv_size op Ht Hb) as [H1 _]. clear H.
    destruct (tool_facts_hold HncoMo items wordss tail HW V TL) as (st' & M' & F). assert (st' = st) as -> by congruence.
    pose proof (tool_int_said HncoMo st items F "bv-size" _ eq_refl Hb : int_of HncoMo st "bv_size" = _) as B1.
    pose proof (tool_int_said HncoMo st items F "function" _ eq_refl Ht : int_of HncoMo st "function" = _) as B2.
    assert (OB : mo_objectives X st = Ok (parsed_function (ma_eval P) (ma_double P) (g, absolute))).
    { unfold mo_objectives. rewrite B1, B2, TY, EP, (mo_expression_said X st items F _ He), (mo_representations_said X st items F _ Hr), (mo_parser_said X st items F _ Hpo). cbn [bind].
      now rewrite MK. }
    assert (SZ : mf_size (parsed_function (ma_eval P) (ma_double P) (g, absolute)) = total qs) by (destruct EX as [EX _]; destruct g; exact EX).
    specialize (H1 _ OB Hs (mo_type_listed _ _ _ TY)). rewrite SZ in H1. specialize (H1 SO). cbn [su_multi with_objectives] in H1. unfold run in R. rewrite H1 in R.
    assert (BV : mo_bv_size op = bv_size).
    { destruct SO as (_ & _ & SO & _). unfold tool_int in SO, Hb. pose proof (reading _ _ _ _ SO Hb) as Y. now injection Y. }
    rewrite <- BV in MK.
    destruct (expressions_run (ms_stod X) po (ma_deduce P) (ma_eval P) (ma_double P) (ms_visit X) (ms_sort X) (ma_rep P) expression es names Hes vars Hvars text size decode op
      (su_multi W seed) t g absolute qs out e Q A TS MK LQ EX N0 PS) as (-> & value & T' & xs & Y); [now rewrite MK|]. split; [reflexivity|]. exists value, T', xs. exact Y.
  Qed.

  (** Variables of one type *)
  Theorem C140_expressions absolute default out e : t = scalar_type k absolute ->
    represents (ms_stod X) po (Parser_Spec.default_text po k) default -> kind default = of_scalar k ->
    (forall v q, In v vars -> used ds default v q -> representable (ma_rep P) size decode q) -> vars <> [] ->
    (forall qs, Forall2 (used ds default) vars qs -> possible (total qs) (su_multi W seed) /\ multi_says (with_objectives W X) items (total qs) op) ->
    run = Some (out, e) ->
    e = Exit 0 /\ exists qs, Forall2 (used ds default) vars qs /\ prints qs absolute out.
  Proof using HW V TL SS Ht Hb Hs Hvisit Hsort He Hr Hpo Hds Hes Hvars Q A TS.
    intros Ty R K RE NV PS E.
    destruct (C120_scalar_functions (ms_stod X) po (ma_deduce P) (ma_eval P) (ma_double P) (ms_visit X) (ms_sort X) Hvisit Hsort (ma_rep P) expression es names Hes vars Hvars text ds Hds size decode
      bv_size t k absolute default Hs Ty R K RE) as (g & qs & EM & U & EX).
    destruct (PS qs U) as [P1 P2].
    assert (LQ : length qs = length vars) by (clear - U; induction U; cbn; congruence).
    assert (TM : mo_type t = Some (Scalars k, absolute)) by (rewrite Ty; apply scalar_type_made).
    destruct (made_run (Scalars k) absolute g qs out e TM (scalars_parser X k) EM LQ EX) as [-> PR]; auto.
    - apply (positive_total _ size _ _ U NV). intros v q I1 I2. destruct (RE v q I1 I2) as (r & _ & RS & RD). rewrite <- RS. exact (proj1 RD).
    - split; [reflexivity|]. exists qs. split; [exact U|exact PR].
  Qed.

  (** Variables of different types *)
  Theorem C140_mixed_expressions absolute unused default out e : t = mixed_type absolute -> k = SDouble ->
    represents (ms_stod X) po (Parser_Spec.default_text po SLong) unused -> represents (ms_stod X) po (Parser_Spec.default_text po SDouble) default ->
    (forall v q, In v vars -> used_mixed ds default v q -> representable (ma_rep P) size decode q) -> vars <> [] ->
    (forall qs, Forall2 (used_mixed ds default) vars qs -> possible (total qs) (su_multi W seed) /\ multi_says (with_objectives W X) items (total qs) op) ->
    run = Some (out, e) ->
    e = Exit 0 /\ exists qs, Forall2 (used_mixed ds default) vars qs /\ prints qs absolute out.
  Proof using HW V TL SS Ht Hb Hs Hvisit Hsort He Hr Hpo Hds Hes Hvars Q A TS.
    intros Ty Tk R1 R2 RE NV PS E.
    destruct (C120_mixed_functions (ms_stod X) po (ma_deduce P) (ma_eval P) (ma_double P) (ms_visit X) (ms_sort X) Hvisit Hsort (ma_rep P) expression es names Hes vars Hvars text ds Hds size decode
      bv_size t absolute unused default Hs Ty R1 R2 RE) as (g & qs & EM & U & EX).
    destruct (PS qs U) as [P1 P2].
    assert (LQ : length qs = length vars) by (clear - U; induction U; cbn; congruence).
    assert (TM : mo_type t = Some (Mixed, absolute)) by (rewrite Ty; apply mixed_type_made).
    assert (EP : mo_parser_for X Mixed = P) by (unfold P; now rewrite Tk).
    destruct (made_run Mixed absolute g qs out e TM EP EM LQ EX) as [-> PR]; auto.
    - apply (positive_total _ size _ _ U NV). intros v q I1 I2. destruct (RE v q I1 I2) as (r & _ & RS & RD). rewrite <- RS. exact (proj1 RD).
    - split; [reflexivity|]. exists qs. split; [exact U|exact PR].
  Qed.
End Words.
Print Assumptions C140_refused.
Print Assumptions C140_wrong_default.
Print Assumptions C140_expressions.
Print Assumptions C140_mixed_expressions.

(** Integers; a file contains the second expression. *)
Definition example_mo_parser : mo_parser string := mk_mo_parser Z example_deduce example_eval (fun z => z) (integer_to_rep 32 example_lg).
Definition example_mo_surroundings : mo_surroundings string :=
  mk_mo_surroundings example_stod (fun s => s) (fun path => if String.eqb path "function.txt" then Some " a + x" else None) example_mo_parser example_mo_parser (@rev string) string_sort
    (fun _ => Throw RuntimeError).
Definition example_mo_run (ws : list string) : option (list mo_output * ending) := hnco_mo_program (with_objectives example_surroundings example_mo_surroundings) ws.
Definition mo_declared : list string := ["--fp-representations=x: int(0, 3); y: int(0, 3)"].
Definition mo_search : list string := ["--ea-mu=4"; "-i2"; "--print-pareto-front"].

(** One objective; two, with the default representation of a; the file; a missing file; a sub expression
    which does not parse; a default representation of another type. *)
Example C140_case :
  example_mo_run (["-F"; "523"; "-s4"; "--fp-expression=y - x"] ++ mo_declared ++ mo_search) = Some ([MoFront [-3]]%Z, Exit 0) /\
  match example_mo_run (["-F"; "523"; "-s4"; "--fp-expression=y - x:: a + x"] ++ mo_declared ++ mo_search) with
    Some ([MoWarning 4 9; MoFront [0; -9]; MoFront [0; -9]]%Z, Exit 0) => True | _ => False end /\
  match example_mo_run (["-F"; "533"; "-s4"] ++ mo_declared ++ mo_search) with Some (MoWarning 4 7 :: MoFront [_] :: _, Exit 0) => True | _ => False end /\
  example_mo_run ["-F523"; "-s4"; "--fp-expression=y - x"] = Some ([], Exit 1) /\
  example_mo_run (["-F523"; "-s4"; "--fp-expression=y - x::z"] ++ mo_declared) = Some ([], Exit 1) /\
  example_mo_run (["-F523"; "-s4"; "--fp-expression=y - x"; "--fp-default-int-rep=long(0, 1)"] ++ mo_declared) = Some ([], Uncaught).
Proof. vm_compute. repeat split. Qed.

(** The hypotheses of the theorems hold for the first of these command lines. *)
Definition mo_equation_items : list item :=
  [Gives (tool_option HncoMo "function") "523"; Gives (tool_option HncoMo "bv-size") "4"; Gives (tool_option HncoMo "fp-expression") "y - x";
   Gives (tool_option HncoMo "fp-representations") "x: int(0, 3); y: int(0, 3)"; Gives (tool_option HncoMo "ea-mu") "4"; Gives (tool_option HncoMo "num-iterations") "2";
   Sets (tool_option HncoMo "print-pareto-front")].
Definition mo_equation_words : list (list string) := [["-F"; "523"]; ["-s4"]; ["--fp-expression=y - x"]; mo_declared; ["--ea-mu=4"]; ["-i2"]; ["--print-pareto-front"]].
Definition mo_equation_options (n : nat) : mo_options := mk_mo_options false 1 4 false false false 100 4 2 (1 <? n) false 0 2 false false true.
Example C140_hypotheses : let X := example_mo_surroundings in let W := example_surroundings in let items := mo_equation_items in let text := "x: int(0, 3); y: int(0, 3)" in
  (forall l, Permutation (ms_visit X l) l) /\ sorts (ms_sort X) /\
  Forall2 (tool_writes HncoMo) items mo_equation_words /\ values_written items /\ multi_seed_says items None /\
  tool_int HncoMo items "function" (scalar_type SInt false) /\ tool_int HncoMo items "bv-size" 4 /\
  mo_expression_says items (ms_file X) "y - x" /\ mo_representations_say items (ms_file X) text /\
  sub_expressions (ma_deduce (mo_parser_of X SInt)) "y - x" ["y - x"] [["y"; "x"]] /\ variables_of [["y"; "x"]] ["x"; "y"] /\
  exists po ds default, mo_parser_says items (ms_number X) po /\ declarations (ms_stod X) po text ds /\
    represents (ms_stod X) po (Parser_Spec.default_text po SInt) default /\ kind default = of_scalar SInt /\
    (forall v q, In v ["x"; "y"] -> used ds default v q -> q = IntRepParams 0 3 /\ representable (ma_rep (mo_parser_of X SInt)) (integer_size example_lg) integer_decode q) /\
    possible 4 (su_multi W None) /\ multi_says (with_objectives W X) items 4 (mo_equation_options 4) /\ no_question (mo_equation_options 4).
Proof.
  cbv zeta. pose proof (tool_option_documented HncoMo) as Dt. split; [intros l; symmetry; apply Permutation_rev|]. split; [exact string_sort_sorts|].
  split; [|split; [|split; [reflexivity|split; [|split; [|split; [|split; [|split; [|split]]]]]]]].
  - repeat apply Forall2_cons; [| | | | | | |constructor].
    + apply ToolOptions_Spec.short_apart; [apply Dt|]; vm_compute; reflexivity.
    + apply ToolOptions_Spec.short_joined; [apply Dt; vm_compute; reflexivity|vm_compute; reflexivity|discriminate].
    + apply (ToolOptions_Spec.long_joined HncoMo (tool_option HncoMo "fp-expression") "fp-expression" "y - x"); [apply Dt; vm_compute; reflexivity|vm_compute; discriminate|apply ToolOptions_Proofs.standsb_stands; vm_compute; reflexivity].
    + apply (ToolOptions_Spec.long_joined HncoMo (tool_option HncoMo "fp-representations") "fp-representations" "x: int(0, 3); y: int(0, 3)"); [apply Dt; vm_compute; reflexivity|vm_compute; discriminate|apply ToolOptions_Proofs.standsb_stands; vm_compute; reflexivity].
    + apply (ToolOptions_Spec.long_joined HncoMo (tool_option HncoMo "ea-mu") "ea-mu" "4"); [apply Dt; vm_compute; reflexivity|vm_compute; discriminate|apply ToolOptions_Proofs.standsb_stands; vm_compute; reflexivity].
    + apply ToolOptions_Spec.short_joined; [apply Dt; vm_compute; reflexivity|vm_compute; reflexivity|discriminate].
    + apply (ToolOptions_Spec.flag HncoMo (tool_option HncoMo "print-pareto-front") "print-pareto-front"); [apply Dt; vm_compute; reflexivity|vm_compute; reflexivity|apply ToolOptions_Proofs.standsb_stands; vm_compute; reflexivity].
  - intros q v I. destruct I as [I|[I|[I|[I|[I|[I|[I|[]]]]]]]]; try discriminate; injection I as <- <-; vm_compute p_type;
      [exists (VInt 523); apply (shown_int 523); lia|exists (VInt 4); apply (shown_int 4); lia|eexists; constructor|eexists; constructor|
       exists (VInt 4); apply (shown_int 4); lia|exists (VInt 2); apply (shown_int 2); lia].
  - apply (shown_int 523). lia.
  - apply (shown_int 4). lia.
  - vm_compute. reflexivity.
  - vm_compute. reflexivity.
  - split; [|repeat constructor]. assert (E : split_string 20 "y - x" "::" = Some (Ok ["y - x"])) by reflexivity. apply split_string_iff in E; [exact E|discriminate|cbn; lia].
  - split; [repeat constructor; cbn; lia|]. intros v. cbn. split.
    + intros [<-|[<-|[]]]; exists ["y"; "x"]; cbn; auto.
    + intros (l & [<-|[]] & H); cbn in H; intuition.
  - set (po := mk_parser_options (@None string) None "int(-10, 10)" "long(-100, 100)" "double(0, 1, precision = 1e-3)").
    destruct (parse_representations example_stod po "x: int(0, 3); y: int(0, 3)") as [en|x|] eqn:EP; [|vm_compute in EP; discriminate EP|vm_compute in EP; discriminate EP].
    destruct (proj1 (C107_grammar example_stod po "x: int(0, 3); y: int(0, 3)") en EP) as (ds & HD & HL).
    assert (EX : en "x" = Some (IntRepParams 0 3) /\ en "y" = Some (IntRepParams 0 3)) by (vm_compute in EP; injection EP as <-; split; reflexivity).
    exists po, ds, (IntRepParams (-10) 10). split; [repeat split; vm_compute; reflexivity|]. split; [exact HD|].
    split; [apply parse_representation_iff; vm_compute; reflexivity|]. split; [reflexivity|]. split; [|split; [exact (proj1 C121_case)|split]].
    + assert (RP : representable (integer_to_rep 32 example_lg) (integer_size example_lg) integer_decode (@IntRepParams string 0 3)).
      { apply (C120_integers 32 example_lg _ 0 3); [lia|repeat split; vm_compute; congruence || (repeat constructor)|now left]. }
      destruct EX as [EX EY]. intros v q Iv [[H _]|[H _]].
      * apply HL in H. destruct Iv as [<-|[<-|[]]]; [rewrite EX in H|rewrite EY in H]; injection H as <-; split; auto.
      * exfalso. destruct Iv as [<-|[<-|[]]]; [apply HL in EX; exact (H _ EX eq_refl)|apply HL in EY; exact (H _ EY eq_refl)].
    + unfold multi_says, tool_int, mo_equation_options. cbn - [tool_text asked Nat.ltb]. repeat match goal with |- _ /\ _ => split end;
        match goal with |- written TInt _ (VInt ?z) => apply (shown_int z); lia | |- _ => reflexivity end.
    + repeat split; cbn; lia.
Qed.
