(** Vocabulary of the statements about the functions of hnco-mo given by expressions. *)

From Coq Require Import ZArith String.
From Verif Require Import Base Parser_Model Parser_Spec Options_Model Options_Spec ToolOptions_Model ToolOptions_Spec CommandLine_Spec ToolCommand_Spec MultiExpression_Model.
Local Open Scope string_scope.
Local Open Scope list_scope.
Local Open Scope nat_scope.

(** The texts which the words of hnco-mo give: those of the options, else those of the files *)
Section Says.
  Context (items : list item) (file : string -> option string).
  Let text := tool_text HncoMo items.

  Definition mo_expression_says (t : string) : Prop :=
    if asked items "fp-expression" then t = text "fp-expression" else file (text "path") = Some t.
  Definition mo_representations_say (t : string) : Prop :=
    if asked items "fp-representations" then t = text "fp-representations" else file (text "fp-representations-path") = Some t.
  (** A file is needed and missing *)
  Definition mo_missing_file : Prop :=
    (asked items "fp-expression" = false /\ file (text "path") = None) \/
    (asked items "fp-representations" = false /\ file (text "fp-representations-path") = None).

  Definition mo_parser_says {T} (number : string -> T) (po : parser_options T) : Prop :=
    po_precision po = (if asked items "fp-default-double-precision" then Some (number (text "fp-default-double-precision")) else None) /\
    (if asked items "fp-default-double-size" then exists z, tool_int HncoMo items "fp-default-double-size" z /\ po_size po = Some z else po_size po = None) /\
    po_default_int po = text "fp-default-int-rep" /\
    po_default_long po = text "fp-default-long-rep" /\
    po_default_double po = text "fp-default-double-rep".
End Says.

(** The parser of a type of variables *)
Definition mo_parser_of {T} (X : mo_surroundings T) (k : scalar) : mo_parser T := match k with SLong => ms_longs X | SDouble | SInt => ms_reals X end.
