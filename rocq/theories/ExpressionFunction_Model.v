(** Model of the functions of hnco which are given by expressions, and of hnco with these
    functions: lib/hnco/app/function-factory.cc:234-302 without complex numbers (502 and 512),
    make-multivariate-function-adapter.hh, functions/multivariate-function-adapter.hh and
    functions/collection/parsed-multivariate-function.hh.

    The library fparser is as in ParsedFunction_Model.  The texts are those of the options or of
    files. *)

From Coq Require Import ZArith String.
From Verif Require Import Base BitVector_Model Parser_Model Representation_Model ParsedFunction_Model Double Controller_Model Decorator_Model
  FunctionFactory_Model Options_Model CommandLine_Model.
Local Open Scope string_scope.
Local Open Scope list_scope.
Local Open Scope nat_scope.

(** A parser: FunctionParser, over double, or FunctionParser_li, over long *)
Record parser (T : Type) := mk_parser {
  pa_domain : Type;
  pa_deduce : string -> option (list string);  (** the variables of an expression *)
  pa_eval : string -> list pa_domain -> pa_domain;
  pa_double : pa_domain -> dbl;  (** ScalarToDouble, converter.hh:31-38 *)
  pa_rep : params T -> outcome (rep pa_domain) }.  (** to_rep, parser.hh:63-117, converted to the domain of the parser *)
Arguments mk_parser {T}.
Arguments pa_domain {T}.
Arguments pa_deduce {T}.
Arguments pa_eval {T}.
Arguments pa_double {T}.
Arguments pa_rep {T}.

(** What is outside of the program *)
Record expression_surroundings (T : Type) := mk_expression_surroundings {
  xs_stod : string -> outcome T;
  xs_number : string -> T;  (** std::atof *)
  xs_file : string -> option string;  (** the contents of the files, by their paths *)
  xs_reals : parser T;
  xs_longs : parser T;
  xs_other : options -> Z -> option (outcome func) }.  (** the functions which are not modelled *)
Arguments mk_expression_surroundings {T}.
Arguments xs_stod {T}.
Arguments xs_number {T}.
Arguments xs_file {T}.
Arguments xs_reals {T}.
Arguments xs_longs {T}.
Arguments xs_other {T}.

(** function-factory.cc:234-302: the kind of the variables, or variables of different types, and
    whether the converter is the opposite of the absolute value *)
Definition so_type (t : Z) : option (variables * bool) :=
  match t with
  | 500%Z => Some (Scalars SDouble, false)
  | 501%Z => Some (Scalars SLong, false)
  | 503%Z => Some (Scalars SInt, false)
  | 504%Z => Some (Mixed, false)
  | 510%Z => Some (Scalars SDouble, true)
  | 511%Z => Some (Scalars SLong, true)
  | 513%Z => Some (Scalars SInt, true)
  | 514%Z => Some (Mixed, true)
  | _ => None
  end.

(** -std::fabs(x), converter.hh:51-56 *)
Definition opposite_absolute (v : dbl) : dbl :=
  match v with DFin z => DFin (- Z.abs z) | DNaN => DNaN | DNegInf | DPosInf => DNegInf end.

Section Make.
  Context {T : Type} (stod : string -> outcome T) (P : parser T) (options : parser_options T).

  (** multivariate-function-adapter.hh:109-113 and 205-209; parsed-multivariate-function.hh:108.
      The variables are all written before they are read, so that there is no state. *)
  Definition expression_adapter (reps : list (rep (pa_domain P))) (p : ParsedFunction_Model.parsed) (absolute : bool) : fobj unit := fun s r =>
    match r with
    | REval x | RSafe x =>
        (s, d <- adapter_evaluate reps (parsed_evaluate (pa_eval P) p) x ;;
            Ok (RValue (if absolute then opposite_absolute (pa_double P d) else pa_double P d)))
    | RInc _ _ _ => (s, Throw RuntimeError)
    | RUpdate _ _ => (s, Ok RVoid)
    end.

  (** make-multivariate-function-adapter.hh:61-92 and 145-181, multivariate-function-adapter.hh:85-91 and
      178-185 *)
  Definition so_make (v : variables) (absolute : bool) (expression representations : outcome string) : outcome func :=
    e <- expression ;;
    p <- parsed_make (pa_deduce P) e ;;
    text <- representations ;;
    ps <- match v with
          | Scalars k => make_reps stod options k (pf_names p) text
          | Mixed => make_mixed_reps stod options (pf_names p) text
          end ;;
    reps <- to_reps (pa_rep P) ps ;;
    _ <- assertb (length (pf_names p) =? length reps) ;;
    Ok (mk_func unit (expression_adapter reps p absolute) tt (default_props (total_size reps) false)).
End Make.

Section Options.
  Context {T : Type} (X : expression_surroundings T) (st : options).

  (** parser.cc:33-43 *)
  Definition read_file_content (path : string) : outcome string :=
    match xs_file X path with Some text => Ok text | None => Throw RuntimeError end.
  (** parser.hh:120-136 *)
  Definition get_expression : outcome string :=
    if flag_of st "fp_expression" then Ok (text_from st "fp_expression") else read_file_content (text_from st "path").
  Definition get_representations : outcome string :=
    if flag_of st "fp_representations" then Ok (text_from st "fp_representations") else read_file_content (text_from st "fp_representations_path").
  (** The options which parser.hh reads: 157-160 and 297-306 *)
  Definition parser_settings : parser_options T :=
    mk_parser_options
      (if flag_of st "fp_default_double_precision" then Some (xs_number X (real_from st "fp_default_double_precision")) else None)
      (if flag_of st "fp_default_double_size" then Some (int_of st "fp_default_double_size") else None)
      (text_from st "fp_default_int_rep") (text_from st "fp_default_long_rep") (text_from st "fp_default_double_rep").

  (** function-factory.cc:234-302 *)
  Definition parser_for (v : variables) : parser T := match v with Scalars SLong => xs_longs X | _ => xs_reals X end.
  Definition expression_function (t : Z) : option (outcome func) :=
    match so_type t with
    | Some (v, absolute) => Some (so_make (xs_stod X) (parser_for v) parser_settings v absolute get_expression get_representations)
    | None => xs_other X st t
    end.
End Options.

(** hnco with these functions *)
Definition with_expressions {T} (E : environment) (X : expression_surroundings T) : environment :=
  mk_environment (en_double E) (en_small E) (en_solution E) (en_map E) (en_weights E) (en_expression E) (en_noise E) (en_random E)
    (expression_function X) (en_algorithm E) (en_other E) (en_neighbors E) (en_iterations E) (en_garbage E).
