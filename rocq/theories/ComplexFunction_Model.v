(** Model of the functions of hnco which are given by expressions over complex numbers:
    lib/hnco/app/function-factory.cc:250-256, 289-295, 330-337 and 374-381 (types 502, 512, 522 and
    532), and make-multivariate-function-adapter.hh:98-138.  The library fparser is as in
    ParsedFunction_Model, and std::norm of complex numbers is an argument. *)

From Coq Require Import ZArith String.
From Verif Require Import Base BitVector_Model Parser_Model Representation_Model ParsedFunction_Model Double Rounding_Model Controller_Model Decorator_Model
  FunctionFactory_Model Options_Model CommandLine_Model ExpressionFunction_Model.
Local Open Scope string_scope.
Local Open Scope list_scope.
Local Open Scope nat_scope.

(** The parser over complex numbers, FunctionParser_cd *)
Record complex_parser (T : Type) := mk_complex_parser {
  cp_domain : Type;  (** double *)
  cp_deduce : string -> option (list string);  (** the variables of an expression *)
  cp_eval : string -> list (cp_domain * cp_domain) -> cp_domain * cp_domain;
  cp_norm : cp_domain * cp_domain -> dbl;  (** std::norm *)
  cp_rep : params T -> outcome (rep cp_domain) }.  (** to_rep, parser.hh:63-117 *)
Arguments mk_complex_parser {T}.
Arguments cp_domain {T}.
Arguments cp_deduce {T}.
Arguments cp_eval {T}.
Arguments cp_norm {T}.
Arguments cp_rep {T}.

(** function-factory.cc: several expressions or one, and whether the converter is the
    opposite of the squared magnitude *)
Definition complex_type (t : Z) : option (bool * bool) :=
  match t with
  | 502%Z => Some (false, false)
  | 512%Z => Some (false, true)
  | 522%Z => Some (true, false)
  | 532%Z => Some (true, true)
  | _ => None
  end.

Section Make.
  Context {T : Type} (stod : string -> outcome T) (P : complex_parser T) (options : parser_options T).
  Context (visit : list string -> list string) (srt : (string -> string -> bool) -> list string -> list string).

  (** converter.hh:58-74 *)
  Definition magnitude (opposite : bool) (z : cp_domain P * cp_domain P) : dbl :=
    if opposite then fopp (cp_norm P z) else cp_norm P z.

  (** make-multivariate-function-adapter.hh:133-134.  The order in which the two parts are built is
      not specified; the real one is the first here. *)
  Definition complex_to_rep (q : params T * params T) : outcome (rep (cp_domain P * cp_domain P)) :=
    re <- cp_rep P (fst q) ;;
    im <- cp_rep P (snd q) ;;
    Ok (complex_rep re im).

  (** multivariate-function-adapter.hh:109-113 *)
  Definition complex_adapter (reps : list (rep (cp_domain P * cp_domain P))) (p : ParsedFunction_Model.parsed) (opposite : bool) : fobj unit := fun s r =>
    match r with
    | REval x | RSafe x => (s, z <- adapter_evaluate reps (parsed_evaluate (cp_eval P) p) x ;; Ok (RValue (magnitude opposite z)))
    | RInc _ _ _ => (s, Throw RuntimeError)
    | RUpdate _ _ => (s, Ok RVoid)
    end.

  (** multiobjective-function-adapter.hh:49-75 and
      multiobjective/functions/multivariate-function-adapter.hh:124-132 *)
  Definition complex_sum_adapter (reps : list (rep (cp_domain P * cp_domain P))) (p : mparsed) (opposite : bool) : fobj unit := fun s r =>
    match r with
    | REval x | RSafe x =>
        (s, _ <- assertb (length x =? total_size reps) ;;
            '(vs, _) <- unpack_vars reps x 0 ;;
            values <- mparsed_evaluate (cp_eval P) p vs (length (mp_expressions p)) ;;
            Ok (RValue (fold_left fadd (map (magnitude opposite) values) (DFin 0))))
    | RInc _ _ _ => (s, Throw RuntimeError)
    | RUpdate _ _ => (s, Ok RVoid)
    end.

  (** make-multivariate-function-adapter.hh:98-138 *)
  Definition complex_make (several opposite : bool) (expression representations : outcome string) : outcome func :=
    e <- expression ;;
    if several then
      '(reps, p) <- madapter_make (cp_deduce P) visit srt (fun names => text <- representations ;; make_complex_reps stod options SDouble names text) complex_to_rep e ;;
      Ok (mk_func unit (complex_sum_adapter reps p opposite) tt (default_props (total_size reps) false))
    else
      p <- parsed_make (cp_deduce P) e ;;
      text <- representations ;;
      qs <- make_complex_reps stod options SDouble (pf_names p) text ;;
      reps <- to_reps complex_to_rep qs ;;
      _ <- assertb (length (pf_names p) =? length reps) ;;
      Ok (mk_func unit (complex_adapter reps p opposite) tt (default_props (total_size reps) false)).
End Make.

(** function-factory.cc:250-256, 289-295, 330-337 and 374-381; [visit] is the order of a
    std::unordered_set and [srt] is std::sort *)
Definition complex_function {T} (X : expression_surroundings T) (P : complex_parser T) (visit : list string -> list string)
    (srt : (string -> string -> bool) -> list string -> list string) (st : options) (t : Z) : option (outcome func) :=
  match complex_type t with
  | Some (several, opposite) =>
      Some (complex_make (xs_stod X) P (parser_settings X st) visit srt several opposite (get_expression X st) (get_representations X st))
  | None => xs_other X st t
  end.

(** hnco with these functions *)
Definition with_complex {T} (X : expression_surroundings T) (P : complex_parser T) (visit : list string -> list string)
    (srt : (string -> string -> bool) -> list string -> list string) : expression_surroundings T :=
  mk_expression_surroundings (xs_stod X) (xs_number X) (xs_file X) (xs_reals X) (xs_longs X) (complex_function X P visit srt).
