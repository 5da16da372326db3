(** Model of the parts of C++ streams used to read and write text: lines, words
    and integers. It describes the standard library, not code of the project. *)

From Coq Require Import ZArith NArith String Ascii.
From Verif Require Import Base BitVector_Model.
Local Open Scope nat_scope.
Local Open Scope string_scope.
Local Open Scope list_scope.

(** std::isspace in the "C" locale *)
Definition is_space (c : ascii) : bool :=
  let n := nat_of_ascii c in ((n =? 32) || ((9 <=? n) && (n <=? 13)))%nat.
Definition is_digit (c : ascii) : bool :=
  let n := nat_of_ascii c in ((48 <=? n) && (n <=? 57))%nat.
Definition digit_value (c : ascii) : N := (N_of_ascii c - 48)%N.
Definition digit_char (d : N) : ascii := ascii_of_N (48 + d).

(** stream << i for an unsigned number: its decimal digits. [fuel] bounds the number of
    digits; that of [show_N] is large enough. *)
Fixpoint show_digits (fuel : nat) (n : N) (rest : string) : string :=
  match fuel with
  | 0 => rest
  | S fuel' =>
      let s := String (digit_char (n mod 10)) rest in
      if (n <? 10)%N then s else show_digits fuel' (n / 10) s
  end.
Definition show_N (n : N) : string := show_digits (S (N.size_nat n)) n "".
(** stream << i for an int *)
Definition show_Z (z : Z) : string :=
  match z with
  | Z0 => "0"
  | Zpos p => show_N (Npos p)
  | Zneg p => String "-" (show_N (Npos p))
  end.

(** The lines read by [while (!stream.eof()) getline(stream, line)]: the pieces of the
    text between newlines. *)
Fixpoint split_lines (s : string) : list string :=
  match s with
  | EmptyString => [EmptyString]
  | String c s' =>
      if Ascii.eqb c newline then EmptyString :: split_lines s'
      else match split_lines s' with
           | l :: ls => String c l :: ls
           | [] => [String c EmptyString]
           end
  end.

(** A std::istringstream without failure: the characters left, and eofbit. *)
Record istr := mk_istr { is_text : string; is_eof : bool }.
Definition open_string (s : string) : istr := mk_istr s false.

Fixpoint skip (f : ascii -> bool) (s : string) : string :=
  match s with
  | EmptyString => EmptyString
  | String c s' => if f c then skip f s' else s
  end.
Fixpoint take (f : ascii -> bool) (s : string) : string * string :=
  match s with
  | EmptyString => (EmptyString, EmptyString)
  | String c s' => if f c then let (a, b) := take f s' in (String c a, b) else (EmptyString, s)
  end.
Definition at_end (s : string) : bool := match s with EmptyString => true | _ => false end.

(** stream >> word; [None] when it fails (no character left but blanks). *)
Definition read_word (i : istr) : option (string * istr) :=
  let (w, r) := take (fun c => negb (is_space c)) (skip is_space (is_text i)) in
  match w with
  | EmptyString => None
  | _ => if is_eof i then None else Some (w, mk_istr r (at_end r))
  end.

(** Value of a sequence of digits *)
Fixpoint digits_value (s : string) (acc : N) : N :=
  match s with
  | EmptyString => acc
  | String c s' => digits_value s' (10 * acc + digit_value c)%N
  end.

(** stream >> n for an int of 32 bits; [None] when it fails: no digit, or a number out
    of range. *)
Definition int_range (z : Z) : bool := ((- 2 ^ 31 <=? z) && (z <? 2 ^ 31))%Z.
Definition read_int (i : istr) : option (Z * istr) :=
  if is_eof i then None
  else
    let s := skip is_space (is_text i) in
    let '(neg, s) :=
      match s with
      | String c s' =>
          if Ascii.eqb c "-" then (true, s') else if Ascii.eqb c "+" then (false, s') else (false, s)
      | EmptyString => (false, s)
      end in
    let (w, r) := take is_digit s in
    match w with
    | EmptyString => None
    | _ =>
        let v := Z.of_N (digits_value w 0) in
        let z := if neg : bool then (- v)%Z else v in
        if int_range z then Some (z, mk_istr r (at_end r)) else None
    end.
