(** Model of the functions of hnco-mo which are given by expressions over complex numbers, from the
    options: lib/hnco/multiobjective/app/function-factory.cc:62-68 and 101-107 (types 522 and
    532), and make-multivariate-function-adapter.hh:98-138 with the options of hnco-mo.  The parser
    is as in ComplexFunction_Model; the values of objectives are integers, as in
    ParsedFunction_Model, and so is [norm], which stands for std::norm. *)

From Coq Require Import ZArith String.
From Verif Require Import Base Parser_Model Representation_Model ParsedFunction_Model MultiApplication_Model Options_Model ToolOptions_Model ToolCommand_Model MultiExpression_Model ComplexFunction_Model.
Local Open Scope string_scope.
Local Open Scope list_scope.
Local Open Scope nat_scope.

(** function-factory.cc:62 and 101 *)
Definition mo_complex_type (t : Z) : bool := (t =? 522)%Z || (t =? 532)%Z.

(** function-factory.cc:62-68 and 101-107: the converter is the squared magnitude for both
    types (converter.hh:57-64). *)
Definition mo_complex_objectives {T} (X : mo_surroundings T) (P : complex_parser T) (norm : cp_domain P * cp_domain P -> Z) (st : options) : outcome mo_function :=
  if mo_complex_type (ToolCommand_Model.int_of HncoMo st "function") then
    e <- mo_expression X st ;;
    g <- madapter_make (cp_deduce P) (ms_visit X) (ms_sort X)
      (fun names => text <- mo_representations X st ;; make_complex_reps (ms_stod X) (mo_parser_settings X st) SDouble names text) (complex_to_rep P) e ;;
    Ok (parsed_function (cp_eval P) norm (g, false))
  else ms_other X st.

(** hnco-mo with these functions *)
Definition with_complex_objectives {T} (X : mo_surroundings T) (P : complex_parser T) (norm : cp_domain P * cp_domain P -> Z) : mo_surroundings T :=
  mk_mo_surroundings (ms_stod X) (ms_number X) (ms_file X) (ms_reals X) (ms_longs X) (ms_visit X) (ms_sort X) (mo_complex_objectives X P norm).
