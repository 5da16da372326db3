(** Vocabulary of the statements about the functions of hnco which are sums of expressions. *)

From Coq Require Import ZArith String.
From Verif Require Import Base BitVector_Model Double Rounding_Model Parser_Model Parser_Spec Representation_Model Representation_Spec ParsedFunction_Spec Decorator_Model ControllerStack_Spec
  ExpressionFunction_Model ExpressionFunction_Spec.
Local Open Scope string_scope.
Local Open Scope list_scope.
Local Open Scope nat_scope.

(** The types of the help: variables of one type (double, long, int) or of different types; the
    sum of the expressions, or minus the sum of their absolute values (systems of equations) *)
Definition system_type_of (k : scalar) (equations : bool) : Z :=
  ((if equations then 530 else 520) + match k with SDouble => 0 | SLong => 1 | SInt => 3 end)%Z.
Definition mixed_system_type (equations : bool) : Z := if equations then 534 else 524.

(** [s] is the sum of [vs], added one after the other to [a] with rounding. *)
Inductive adds_up : dbl -> list dbl -> dbl -> Prop :=
| adds_nothing a : adds_up a [] a
| adds_one a v vs s : adds_up (fadd a v) vs s -> adds_up a (v :: vs) s.

(** The values of the expressions [es], of variables [names], for the values [value] of the variables *)
Definition expression_values {T} (P : parser T) (es : list string) (names : list (list string)) (value : string -> pa_domain P) : list dbl :=
  map2 (fun e ns => pa_double P (pa_eval P e (map value ns))) es names.

(** What is maximized: the sum of the objectives *)
Definition sum_of_objectives (equations : bool) (vs : list dbl) (s : dbl) : Prop :=
  exists os, Forall2 (objective equations) vs os /\ adds_up (DFin 0) os s.

(** The values of the variables [vars] in a vector made of one piece for each *)
Definition read_from {T} {P : parser T} (size : params T -> nat) (decode : params T -> list bool -> pa_domain P) (vars : list string) (qs : list (params T))
    (pieces : list (list bool)) (value : string -> pa_domain P) : Prop :=
  piecewise size qs pieces /\ assigns vars (map2 decode qs pieces) value.

(** The function [F]: as many bits as the representations of all variables, maximum unknown,
    no incremental evaluation, and the sum of the objectives as value *)
Definition system_made {T} (P : parser T) (size : params T -> nat) (decode : params T -> list bool -> pa_domain P) (es : list string) (names : list (list string))
    (vars : list string) (qs : list (params T)) (equations : bool) (F : func) (f : bv -> dbl) : Prop :=
  let n := fold_right Nat.add 0 (map size qs) in
  fp_size (f_props F) = n /\ fp_known (f_props F) = Ok false /\ fp_inc (f_props F) = false /\ total (f_obj F) (f_init F) n f /\
  forall pieces value, read_from size decode vars qs pieces value ->
    sum_of_objectives equations (expression_values P es names value) (f (concat pieces)).
