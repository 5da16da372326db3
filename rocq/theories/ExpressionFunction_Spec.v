(** Vocabulary of the statements about the functions of hnco given by expressions. *)

From Coq Require Import ZArith String.
From Verif Require Import Base BitVector_Model Double Parser_Model Parser_Spec Representation_Model Representation_Spec Decorator_Model ControllerStack_Spec
  Options_Spec CommandLine_Spec ExpressionFunction_Model.
Local Open Scope string_scope.
Local Open Scope list_scope.
Local Open Scope nat_scope.

(** The types of the help: variables of one type (double, long, int) or of different types; the
    value of the expression is maximized, or its absolute value is minimized (equations). *)
Definition expression_type (k : scalar) (equation : bool) : Z :=
  ((if equation then 510 else 500) + match k with SDouble => 0 | SLong => 1 | SInt => 3 end)%Z.
Definition mixed_expression_type (equation : bool) : Z := if equation then 514 else 504.

(** What is maximized, given the value of the expression *)
Inductive objective : bool -> dbl -> dbl -> Prop :=
| objective_value v : objective false v v
| objective_distance z : objective true (DFin z) (DFin (- Z.abs z))
| objective_far v : v = DNegInf \/ v = DPosInf -> objective true v DNegInf
| objective_nan : objective true DNaN DNaN.

(** The texts which the words give: those of the options, else those of the files *)
Section Says.
  Context (items : list item) (file : string -> option string).

  Definition expression_says (text : string) : Prop :=
    if asked items "fp-expression" then text = text_of items "fp-expression" else file (text_of items "path") = Some text.
  Definition representations_say (text : string) : Prop :=
    if asked items "fp-representations" then text = text_of items "fp-representations" else file (text_of items "fp-representations-path") = Some text.
  (** A file is needed and missing *)
  Definition missing_file : Prop :=
    (asked items "fp-expression" = false /\ file (text_of items "path") = None) \/
    (asked items "fp-representations" = false /\ file (text_of items "fp-representations-path") = None).

  Definition parser_says {T} (number : string -> T) (po : parser_options T) : Prop :=
    po_precision po = (if asked items "fp-default-double-precision" then Some (number (text_of items "fp-default-double-precision")) else None) /\
    (if asked items "fp-default-double-size" then exists z, int_is items "fp-default-double-size" z /\ po_size po = Some z else po_size po = None) /\
    po_default_int po = text_of items "fp-default-int-rep" /\
    po_default_long po = text_of items "fp-default-long-rep" /\
    po_default_double po = text_of items "fp-default-double-rep".
End Says.

(** The vectors made of one piece for each variable *)
Definition piecewise {T} (size : params T -> nat) (qs : list (params T)) (pieces : list (list bool)) : Prop :=
  Forall2 (fun q piece => length piece = size q) qs pieces.

(** [f] gives to a vector made of one piece for each variable what is maximized, given the
    value of the expression for the values of the pieces, in the order of the parser. *)
Definition evaluates_expression {T} (P : parser T) (size : params T -> nat) (decode : params T -> list bool -> pa_domain P) (e : string) (qs : list (params T))
    (equation : bool) (f : bv -> dbl) : Prop :=
  forall pieces, piecewise size qs pieces -> objective equation (pa_double P (pa_eval P e (map2 decode qs pieces))) (f (concat pieces)).

(** The function [F]: as many bits as the representations, maximum unknown, no incremental
    evaluation, and such values *)
Definition expression_made {T} (P : parser T) (size : params T -> nat) (decode : params T -> list bool -> pa_domain P) (e : string) (qs : list (params T))
    (equation : bool) (F : func) (f : bv -> dbl) : Prop :=
  let n := fold_right Nat.add 0 (map size qs) in
  fp_size (f_props F) = n /\ fp_known (f_props F) = Ok false /\ fp_inc (f_props F) = false /\ total (f_obj F) (f_init F) n f /\
  evaluates_expression P size decode e qs equation f.

(** The parser of a type of variables *)
Definition parser_of {T} (X : expression_surroundings T) (k : scalar) : parser T := match k with SLong => xs_longs X | SDouble | SInt => xs_reals X end.
