(** Model of the functions of hnco-mo which are given by expressions, from the options:
    lib/hnco/multiobjective/app/function-factory.cc:46-125 without complex numbers (522 and 532),
    and lib/hnco/app/parser.hh:120-136 and parser.cc:33-43 with the options of hnco-mo.

    The functions themselves are in ParsedFunction_Model, and the values of objectives are integers as
    there. *)

From Coq Require Import ZArith String.
From Verif Require Import Base Parser_Model Representation_Model ParsedFunction_Model MultiApplication_Model Options_Model ToolOptions_Model ToolCommand_Model.
Local Open Scope string_scope.
Local Open Scope list_scope.
Local Open Scope nat_scope.

(** A parser: FunctionParser, over double, or FunctionParser_li, over long *)
Record mo_parser (T : Type) := mk_mo_parser {
  ma_domain : Type;
  ma_deduce : string -> option (list string);  (** the variables of an expression *)
  ma_eval : string -> list ma_domain -> ma_domain;
  ma_double : ma_domain -> Z;
  ma_rep : params T -> outcome (rep ma_domain) }.
Arguments mk_mo_parser {T}.
Arguments ma_domain {T}.
Arguments ma_deduce {T}.
Arguments ma_eval {T}.
Arguments ma_double {T}.
Arguments ma_rep {T}.

(** What is outside of the program *)
Record mo_surroundings (T : Type) := mk_mo_surroundings {
  ms_stod : string -> outcome T;
  ms_number : string -> T;  (** std::atof *)
  ms_file : string -> option string;  (** the contents of the files, by their paths *)
  ms_reals : mo_parser T;
  ms_longs : mo_parser T;
  ms_visit : list string -> list string;  (** the order of a std::unordered_set *)
  ms_sort : (string -> string -> bool) -> list string -> list string;  (** std::sort *)
  ms_other : options -> outcome mo_function }.  (** complex numbers and Python *)
Arguments mk_mo_surroundings {T}.
Arguments ms_stod {T}.
Arguments ms_number {T}.
Arguments ms_file {T}.
Arguments ms_reals {T}.
Arguments ms_longs {T}.
Arguments ms_visit {T}.
Arguments ms_sort {T}.
Arguments ms_other {T}.

Section Options.
  Context {T : Type} (X : mo_surroundings T) (st : options).
  Let flag := flag_of HncoMo st.
  Let text := text_from HncoMo st.

  (** parser.cc:33-43 *)
  Definition mo_file_content (path : string) : outcome string :=
    match ms_file X path with Some content => Ok content | None => Throw RuntimeError end.
  (** parser.hh:120-136 *)
  Definition mo_expression : outcome string := if flag "fp_expression" then Ok (text "fp_expression") else mo_file_content (text "path").
  Definition mo_representations : outcome string :=
    if flag "fp_representations" then Ok (text "fp_representations") else mo_file_content (text "fp_representations_path").
  (** The options which parser.hh reads: 157-160 and 297-306 *)
  Definition mo_parser_settings : parser_options T :=
    mk_parser_options
      (if flag "fp_default_double_precision" then Some (ms_number X (real_from HncoMo st "fp_default_double_precision")) else None)
      (if flag "fp_default_double_size" then Some (int_of HncoMo st "fp_default_double_size") else None)
      (text "fp_default_int_rep") (text "fp_default_long_rep") (text "fp_default_double_rep").

  (** function-factory.cc:46-125 *)
  Definition mo_parser_for (v : variables) : mo_parser T := match v with Scalars SLong => ms_longs X | _ => ms_reals X end.
  (** Here the representations are read before the expression is parsed; this changes no outcome since the
      exceptions are the same. *)
  Definition mo_objectives : outcome mo_function :=
    let t := int_of HncoMo st "function" in
    match mo_type t with
    | Some (v, _) =>
        let P := mo_parser_for v in
        e <- mo_expression ;;
        r <- mo_representations ;;
        f <- mo_make (ms_stod X) mo_parser_settings (ma_deduce P) (ms_visit X) (ms_sort X) (ma_rep P) (int_of HncoMo st "bv_size") t e r ;;
        Ok (parsed_function (ma_eval P) (ma_double P) f)
    | None => ms_other X st
    end.
End Options.

(** hnco-mo with these functions *)
Definition with_objectives {T} (W : surroundings) (X : mo_surroundings T) : surroundings :=
  mk_surroundings (su_double W) (su_writable W) (su_map W) (su_function W) (su_multi W) (su_small W) (su_probability W) (mo_objectives X).
