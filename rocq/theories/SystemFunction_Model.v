(** Model of the functions of hnco which are sums of expressions (systems of equations):
    lib/hnco/app/function-factory.cc:312-399 without complex numbers (522 and 532),
    functions/multiobjective-function-adapter.hh and
    multiobjective/functions/multivariate-function-adapter.hh.  The library fparser is as in
    ParsedFunction_Model and the addition of doubles as in Rounding_Model. *)

From Coq Require Import ZArith String.
From Verif Require Import Base BitVector_Model Parser_Model Representation_Model ParsedFunction_Model Double Rounding_Model Controller_Model Decorator_Model
  FunctionFactory_Model Options_Model CommandLine_Model ExpressionFunction_Model.
Local Open Scope string_scope.
Local Open Scope list_scope.
Local Open Scope nat_scope.

(** function-factory.cc:312-399: the kind of the variables, or variables of different types, and
    whether the converter is the opposite of the absolute value *)
Definition system_type (t : Z) : option (variables * bool) :=
  match t with
  | 520%Z => Some (Scalars SDouble, false)
  | 521%Z => Some (Scalars SLong, false)
  | 523%Z => Some (Scalars SInt, false)
  | 524%Z => Some (Mixed, false)
  | 530%Z => Some (Scalars SDouble, true)
  | 531%Z => Some (Scalars SLong, true)
  | 533%Z => Some (Scalars SInt, true)
  | 534%Z => Some (Mixed, true)
  | _ => None
  end.

Section Make.
  Context {T : Type} (stod : string -> outcome T) (P : parser T) (options : parser_options T).
  Context (visit : list string -> list string) (srt : (string -> string -> bool) -> list string -> list string).

  (** multiobjective/functions/multivariate-function-adapter.hh:124-132 and 235-242, with doubles as
      values *)
  Definition system_values (reps : list (rep (pa_domain P))) (p : mparsed) (absolute : bool) (x : bv) : outcome (list dbl) :=
    _ <- assertb (length x =? total_size reps) ;;
    '(vs, _) <- unpack_vars reps x 0 ;;
    values <- mparsed_evaluate (pa_eval P) p vs (length (mp_expressions p)) ;;
    Ok (map (fun d => if absolute then opposite_absolute (pa_double P d) else pa_double P d) values).

  (** functions/multiobjective-function-adapter.hh:49-75: the vector of values has the number of
      expressions as its size, and all its elements are written before they are read, so
      that there is no state. *)
  Definition system_adapter (reps : list (rep (pa_domain P))) (p : mparsed) (absolute : bool) : fobj unit := fun s r =>
    match r with
    | REval x | RSafe x => (s, values <- system_values reps p absolute x ;; Ok (RValue (fold_left fadd values (DFin 0))))
    | RInc _ _ _ => (s, Throw RuntimeError)
    | RUpdate _ _ => (s, Ok RVoid)
    end.

  (** make-multivariate-function-adapter.hh:61-92 and 145-181 *)
  Definition system_make (v : variables) (absolute : bool) (expression representations : outcome string) : outcome func :=
    e <- expression ;;
    '(reps, p) <- madapter_make (pa_deduce P) visit srt
      (fun names =>
         text <- representations ;;
         match v with
         | Scalars k => make_reps stod options k names text
         | Mixed => make_mixed_reps stod options names text
         end) (pa_rep P) e ;;
    Ok (mk_func unit (system_adapter reps p absolute) tt (default_props (total_size reps) false)).
End Make.

(** function-factory.cc:312-399; [visit] is the order of a std::unordered_set and [srt] is
    std::sort *)
Definition system_function {T} (X : expression_surroundings T) (visit : list string -> list string) (srt : (string -> string -> bool) -> list string -> list string)
    (st : options) (t : Z) : option (outcome func) :=
  match system_type t with
  | Some (v, absolute) =>
      Some (system_make (xs_stod X) (parser_for X v) (parser_settings X st) visit srt v absolute (get_expression X st) (get_representations X st))
  | None => xs_other X st t
  end.

(** hnco with these functions *)
Definition with_systems {T} (X : expression_surroundings T) (visit : list string -> list string) (srt : (string -> string -> bool) -> list string -> list string) :
    expression_surroundings T :=
  mk_expression_surroundings (xs_stod X) (xs_number X) (xs_file X) (xs_reals X) (xs_longs X) (system_function X visit srt).
