(** Vocabulary of the statements about the functions of hnco over complex numbers. *)

From Coq Require Import ZArith String.
From Verif Require Import Base BitVector_Model Double Rounding_Model Parser_Model Parser_Spec Representation_Model Representation_Spec ParsedFunction_Spec Decorator_Model ControllerStack_Spec
  SystemFunction_Spec ComplexFunction_Model.
Local Open Scope string_scope.
Local Open Scope list_scope.
Local Open Scope nat_scope.

(** The types of the help: one expression or several; the squared magnitude, or its opposite
    (equations) *)
Definition complex_type_of (several equations : bool) : Z :=
  match several, equations with false, false => 502 | false, true => 512 | true, false => 522 | true, true => 532 end.

(** The vectors made of two pieces for each variable, its real part and its imaginary part *)
Definition complex_pieces {T} (size : params T -> nat) (qs : list (params T * params T)) (pieces : list (list bool * list bool)) : Prop :=
  Forall2 (fun q p => length (fst p) = size (fst q) /\ length (snd p) = size (snd q)) qs pieces.
Definition joined (pieces : list (list bool * list bool)) : bv := concat (map (fun p => fst p ++ snd p) pieces).
Definition complex_size {T} (size : params T -> nat) (qs : list (params T * params T)) : nat :=
  fold_right Nat.add 0 (map (fun q => size (fst q) + size (snd q)) qs).

Section Values.
  Context {T : Type} (P : complex_parser T) (decode : params T -> list bool -> cp_domain P).

  (** The values of the variables *)
  Definition complex_values (qs : list (params T * params T)) (pieces : list (list bool * list bool)) : list (cp_domain P * cp_domain P) :=
    map2 (fun q p => (decode (fst q) (fst p), decode (snd q) (snd p))) qs pieces.

  (** The squared magnitudes: of the only expression, whose variables are in the order of the
      parser; of all expressions [es] of variables [names], where [vars] are all the variables *)
  Definition magnitude_of (e : string) (qs : list (params T * params T)) (pieces : list (list bool * list bool)) (ms : list dbl) : Prop :=
    ms = [cp_norm P (cp_eval P e (complex_values qs pieces))].
  Definition magnitudes_of (es : list string) (names : list (list string)) (vars : list string) (qs : list (params T * params T))
      (pieces : list (list bool * list bool)) (ms : list dbl) : Prop :=
    exists value, assigns vars (complex_values qs pieces) value /\ ms = map2 (fun e ns => cp_norm P (cp_eval P e (map value ns))) es names.
End Values.

(** What is maximized: the squared magnitude or its opposite, or the sum of them *)
Definition goal (several equations : bool) (ms : list dbl) (s : dbl) : Prop :=
  let os := map (fun m => if equations then fopp m else m) ms in
  if several then adds_up (DFin 0) os s else os = [s].

(** The function [F]: as many bits as the representations of the two parts of all variables,
    maximum unknown, no incremental evaluation, and such values *)
Definition complex_made {T} (size : params T -> nat) (qs : list (params T * params T)) (magnitudes : list (list bool * list bool) -> list dbl -> Prop)
    (several equations : bool) (F : func) (f : bv -> dbl) : Prop :=
  let n := complex_size size qs in
  fp_size (f_props F) = n /\ fp_known (f_props F) = Ok false /\ fp_inc (f_props F) = false /\ total (f_obj F) (f_init F) n f /\
  (forall pieces, complex_pieces size qs pieces -> exists ms, magnitudes pieces ms) /\
  (forall pieces ms, complex_pieces size qs pieces -> magnitudes pieces ms -> goal several equations ms (f (joined pieces))).

(** The representations of the two parts of a variable *)
Definition used_parts {T} (ds : list (string * params T)) (default : params T) (name : string) (q : params T * params T) : Prop :=
  used ds default (name ++ "_re") (fst q) /\ used ds default (name ++ "_im") (snd q).
