(** Vocabulary of the statements about functions defined by expressions. *)

From Coq Require Import ZArith String Ascii Sorted Permutation.
From Verif Require Import Base.
Local Open Scope string_scope.
Local Open Scope nat_scope.

(** [a] comes before [b] in alphabetical order (that of bytes): it is a proper prefix, or the
    first characters which differ are in this order. *)
Inductive before : string -> string -> Prop :=
| before_prefix c b : before EmptyString (String c b)
| before_char c d a b : nat_of_ascii c < nat_of_ascii d -> before (String c a) (String d b)
| before_rest c a b : before a b -> before (String c a) (String c b).

(** The variables, in alphabetical order and without repetition, of expressions whose variables
    are [names] *)
Definition variables_of (names : list (list string)) (vars : list string) : Prop :=
  StronglySorted before vars /\ forall v, In v vars <-> exists l, In l names /\ In v l.

(** [value v] is the value of variable [v] when the variables [vars] have the values [xs]. *)
Definition assigns {D : Type} (vars : list string) (xs : list D) (value : string -> D) : Prop :=
  Forall2 (fun v x => value v = x) vars xs.
