(** Proofs about the functions of hnco-mo given by expressions. *)

From Coq Require Import ZArith String Lia.
From Verif Require Import Base BaseLemmas Parser_Model Parser_Spec ParsedFunction_Model ParsedFunction_Spec Properties_ParsedFunction Options_Model Options_Spec Options_Proofs
  CommandLine_Spec CommandLine_Proofs ToolOptions_Model ToolOptions_Spec ToolOptions_Proofs ToolCommand_Model ToolCommand_Spec ToolCommand_Proofs MultiExpression_Model MultiExpression_Spec.
Local Open Scope string_scope.
Local Open Scope list_scope.
Local Open Scope nat_scope.
Local Notation documented := ToolOptions_Spec.documented.
Local Notation int_of := ToolCommand_Model.int_of.
Local Notation text_from := ToolCommand_Model.text_from.
Local Notation real_from := ToolCommand_Model.real_from.
Local Notation flag_of := ToolCommand_Model.flag_of.

Section Options.
  Context {T : Type} (X : mo_surroundings T) (st : options) (items : list item) (F : tool_facts HncoMo st items).

  Lemma mo_text_said name : existsb (fun p => String.eqb (p_name p) name && match p_type p with TText => true | _ => false end) (documented HncoMo) = true ->
    asked items name = true -> text_from HncoMo st (underscored name) = tool_text HncoMo items name.
  Proof using F.
    intros H A. apply tool_named in H as (p & D & N & H). assert (Ty : p_type p = TText) by (destruct (p_type p); congruence).
    unfold ToolCommand_Model.text_from. rewrite (tool_value_said HncoMo st items F name p (VText (tool_text HncoMo items name))); auto; rewrite Ty; [discriminate|constructor].
  Qed.
  Lemma mo_real_said name : existsb (fun p => String.eqb (p_name p) name && match p_type p with TReal => true | _ => false end) (documented HncoMo) = true ->
    asked items name = true -> real_from HncoMo st (underscored name) = tool_text HncoMo items name.
  Proof using F.
    intros H A. apply tool_named in H as (p & D & N & H). assert (Ty : p_type p = TReal) by (destruct (p_type p); congruence).
    unfold ToolCommand_Model.real_from. rewrite (tool_value_said HncoMo st items F name p (VReal (tool_text HncoMo items name))); auto; rewrite Ty; [discriminate|constructor].
  Qed.
  Lemma mo_int_said name z : existsb (fun p => String.eqb (p_name p) name && match p_type p with TInt => true | _ => false end) (documented HncoMo) = true ->
    asked items name = true -> tool_int HncoMo items name z -> int_of HncoMo st (underscored name) = z.
  Proof using F.
    intros H A W. apply tool_named in H as (p & D & N & H). assert (Ty : p_type p = TInt) by (destruct (p_type p); congruence).
    unfold ToolCommand_Model.int_of. rewrite (tool_value_said HncoMo st items F name p (VInt z)); auto; rewrite Ty; [discriminate|exact W].
  Qed.
  Let FL name := tool_flag_said HncoMo st items F name.
  Let TX name := tool_text_said HncoMo st items F name.

  Lemma mo_expression_said text : mo_expression_says items (ms_file X) text -> mo_expression X st = Ok text.
  Proof using F.
    unfold mo_expression_says, mo_expression, mo_file_content. rewrite (FL "fp-expression" eq_refl : flag_of HncoMo st "fp_expression" = _).
    destruct (asked items "fp-expression") eqn:A.
    - intros ->. now rewrite (mo_text_said "fp-expression" eq_refl A : text_from HncoMo st "fp_expression" = _).
    - rewrite (TX "path" eq_refl : text_from HncoMo st "path" = _). now intros ->.
  Qed.
  Lemma mo_representations_said text : mo_representations_say items (ms_file X) text -> mo_representations X st = Ok text.
  Proof using F.
    unfold mo_representations_say, mo_representations, mo_file_content. rewrite (FL "fp-representations" eq_refl : flag_of HncoMo st "fp_representations" = _).
    destruct (asked items "fp-representations") eqn:A.
    - intros ->. now rewrite (mo_text_said "fp-representations" eq_refl A : text_from HncoMo st "fp_representations" = _).
    - rewrite (TX "fp-representations-path" eq_refl : text_from HncoMo st "fp_representations_path" = _). now intros ->.
  Qed.
  Lemma mo_missing_said : mo_missing_file items (ms_file X) -> mo_expression X st = Throw RuntimeError \/ mo_representations X st = Throw RuntimeError.
  Proof using F.
    intros [[A H]|[A H]]; [left; unfold mo_expression|right; unfold mo_representations]; unfold mo_file_content.
    - rewrite (FL "fp-expression" eq_refl : flag_of HncoMo st "fp_expression" = _), A, (TX "path" eq_refl : text_from HncoMo st "path" = _). now rewrite H.
    - rewrite (FL "fp-representations" eq_refl : flag_of HncoMo st "fp_representations" = _), A,
        (TX "fp-representations-path" eq_refl : text_from HncoMo st "fp_representations_path" = _). now rewrite H.
  Qed.
  Lemma mo_expression_cases : (exists e, mo_expression X st = Ok e) \/ mo_expression X st = Throw RuntimeError.
  Proof. unfold mo_expression, mo_file_content. destruct (flag_of _ _ _); [eauto|]. destruct (ms_file X _); eauto. Qed.
  Lemma mo_representations_cases : (exists r, mo_representations X st = Ok r) \/ mo_representations X st = Throw RuntimeError.
  Proof. unfold mo_representations, mo_file_content. destruct (flag_of _ _ _); [eauto|]. destruct (ms_file X _); eauto. Qed.
  Lemma mo_parser_said po : mo_parser_says items (ms_number X) po -> mo_parser_settings X st = po.
  Proof using F.
    destruct po as [a b i l d]. unfold mo_parser_says. cbn [po_precision po_size po_default_int po_default_long po_default_double]. intros (-> & H & -> & -> & ->). unfold mo_parser_settings.
    rewrite (FL "fp-default-double-precision" eq_refl : flag_of HncoMo st "fp_default_double_precision" = _),
      (FL "fp-default-double-size" eq_refl : flag_of HncoMo st "fp_default_double_size" = _),
      (TX "fp-default-int-rep" eq_refl : text_from HncoMo st "fp_default_int_rep" = _),
      (TX "fp-default-long-rep" eq_refl : text_from HncoMo st "fp_default_long_rep" = _),
      (TX "fp-default-double-rep" eq_refl : text_from HncoMo st "fp_default_double_rep" = _).
    f_equal.
    - destruct (asked items "fp-default-double-precision") eqn:A; [|reflexivity].
      now rewrite (mo_real_said "fp-default-double-precision" eq_refl A : real_from HncoMo st "fp_default_double_precision" = _).
    - destruct (asked items "fp-default-double-size") eqn:A; [|congruence]. destruct H as (z & H & ->).
      now rewrite (mo_int_said "fp-default-double-size" z eq_refl A H : int_of HncoMo st "fp_default_double_size" = _).
  Qed.
End Options.

Lemma mo_type_listed t v a : mo_type t = Some (v, a) -> In t listed_functions.
Proof.
  intros E. unfold mo_type in E. repeat (match type of E with context [match ?x with _ => _ end] => destruct x end; try discriminate E); cbn; tauto.
Qed.
