(** What a user who plays the algorithm asks for. *)

From Coq Require Import ZArith String Ascii.
From Verif Require Import Base Double Decorator_Model Search_Spec.
Local Open Scope nat_scope.
Local Open Scope list_scope.

(** The words before the first "quit" *)
Fixpoint before_quit (words : list string) : list string :=
  match words with
  | [] => []
  | w :: words' => if String.eqb w "quit" then [] else w :: before_quit words'
  end.
Definition quits (words : list string) : Prop := In "quit"%string words.

(** A word is a vector of bits: the character 0 is the bit 0, any other one is the bit 1. *)
Definition word_bits (w : string) : list bool := map (fun c => negb (Ascii.eqb c "0")) (list_ascii_of_string w).

(** The vectors of size [n] which are typed: words which are too short are ignored, the end of
    those which are too long is ignored. *)
Definition typed_vectors (n : nat) (words : list string) : list (list bool) :=
  map (firstn n) (filter (fun x => n <=? length x) (map word_bits (before_quit words))).

(** The number of vectors which are read, if the number of iterations is [num] *)
Definition asked (num : Z) (k : nat) : nat := if (0 <? num)%Z then Nat.min (Z.to_nat num + 1) k else k.

(** The program does not wait for more words. *)
Definition settled (co : controller_options) (target : option dbl) (f : list bool -> dbl) (n : nat) (num : Z) (words : list string) : Prop :=
  let V := typed_vectors n words in
  quits words \/ (0 < num < Z.of_nat (length V))%Z \/ (0 < co_budget co < Z.of_nat (length V))%Z \/
  exists t x, target = Some t /\ In x (firstn (allowed co (asked num (length V))) V) /\ dge (f x) t = true.
