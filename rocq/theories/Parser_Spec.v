(** Vocabulary of the statements about the parser of representations: pieces of a text,
    words, integers, and the grammar of declarations.  [is_space], [is_digit] and
    [digits_value] are those of the standard library (Text_Model); the types of
    parameters and options are those of Parser_Model. *)

From Coq Require Import ZArith NArith String Ascii.
From Verif Require Import Base Text_Model Parser_Model.
Local Open Scope string_scope.
Local Open Scope nat_scope.

(** [pattern] occurs in [s] at position [i]. *)
Definition occurs (pattern s : string) (i : nat) : Prop :=
  exists a b, s = a ++ pattern ++ b /\ String.length a = i.

(** [s] is cut at the occurrences of [d], from left to right. *)
Inductive cut (d : string) : string -> list string -> Prop :=
| cut_last s : (forall i, ~ occurs d s i) -> cut d s [s]
| cut_first p rest l : (forall i, i < String.length p -> ~ occurs d (p ++ d ++ rest) i) ->
    cut d rest l -> cut d (p ++ d ++ rest) (p :: l).

(** Character [c] does not occur in [s]. *)
Definition lacks (c : ascii) (s : string) : Prop := ~ In c (list_ascii_of_string s).

(** [s] is made of the pieces [l] separated by the character [c]. *)
Definition separated (c : ascii) (s : string) (l : list string) : Prop :=
  l <> nil /\ s = String.concat (String c "") l /\ Forall (lacks c) l.

Definition blank (s : string) : Prop := Forall (fun c => is_space c = true) (list_ascii_of_string s).

(** [w] is the first word of [s]. *)
Definition has_first_word (s w : string) : Prop :=
  exists b r, s = b ++ w ++ r /\ blank b /\
    w <> "" /\ Forall (fun c => is_space c = false) (list_ascii_of_string w) /\
    (r = "" \/ exists c r', r = String c r' /\ is_space c = true).

(** [s] begins with blanks and the integer [z], which fits in [w] bits; anything but a
    digit may follow. *)
Definition has_integer (w : Z) (s : string) (z : Z) : Prop :=
  exists b sign digits r, s = b ++ sign ++ digits ++ r /\ blank b /\
    digits <> "" /\ Forall (fun c => is_digit c = true) (list_ascii_of_string digits) /\
    (r = "" \/ exists c r', r = String c r' /\ is_digit c = false) /\
    (let v := Z.of_N (digits_value digits 0) in
     ((sign = "" \/ sign = "+") /\ z = v) \/ (sign = "-" /\ z = (- v)%Z)) /\
    (- 2 ^ (w - 1) <= z < 2 ^ (w - 1))%Z.

Section Grammar.
  Context {D : Type} (stod : string -> outcome D) (options : parser_options D).

  (** The arguments between the parentheses, for each type *)
  Definition arguments (type args : string) (p : params D) : Prop :=
    (type = "int" /\ exists s t a b, separated "," args [s; t] /\
      has_integer 32 s a /\ has_integer 32 t b /\ p = IntRepParams a b) \/
    (type = "long" /\ exists s t a b, separated "," args [s; t] /\
      has_integer 64 s a /\ has_integer 64 t b /\ p = LongRepParams a b) \/
    (type = "double" /\ exists s t a b, separated "," args [s; t] /\
      stod s = Ok a /\ stod t = Ok b /\
      ((exists e, po_precision options = Some e /\ p = DoubleRepParams a b (inl e)) \/
       (po_precision options = None /\ exists n, po_size options = Some n /\ p = DoubleRepParams a b (inr n)))) \/
    (type = "double" /\ exists s t u a b key value, separated "," args [s; t; u] /\
      stod s = Ok a /\ stod t = Ok b /\ separated "=" u [key; value] /\
      ((has_first_word key "precision" /\ exists e, stod value = Ok e /\ p = DoubleRepParams a b (inl e)) \/
       (has_first_word key "size" /\ exists n, has_integer 32 value n /\ p = DoubleRepParams a b (inr n)))) \/
    (type = "set" /\ exists l vs, separated "," args l /\
      Forall2 (fun s v => stod s = Ok v) l vs /\ p = ValueSetRepParams vs).

  (** type ( arguments ) anything *)
  Definition represents (text : string) (p : params D) : Prop :=
    exists before args after type,
      text = before ++ "(" ++ args ++ ")" ++ after /\ lacks "(" before /\ lacks ")" args /\
      has_first_word before type /\ arguments type args p.

  (** name : representation *)
  Definition declares (text name : string) (p : params D) : Prop :=
    exists before after, text = before ++ ":" ++ after /\ lacks ":" before /\
      has_first_word before name /\ represents after p.

  (** The declarations of a text, in order; empty pieces are skipped. *)
  Inductive all_declare : list string -> list (string * params D) -> Prop :=
  | declare_nil : all_declare nil nil
  | declare_skip l ds : all_declare l ds -> all_declare ("" :: l) ds
  | declare_one s l name p ds : declares s name p -> all_declare l ds -> all_declare (s :: l) ((name, p) :: ds).
  Definition declarations (text : string) (ds : list (string * params D)) : Prop :=
    exists l, separated ";" text l /\ all_declare l ds.

  (** [p] is the last one declared for [name]. *)
  Definition last_declared (ds : list (string * params D)) (name : string) (p : params D) : Prop :=
    exists a b, ds = (a ++ (name, p) :: b)%list /\ ~ In name (map fst b).

  (** The representation used for a variable: the last one declared if it is of the kind
      of the default one, else the default one. *)
  Definition kind (p : params D) : nat :=
    match p with IntRepParams _ _ => 0 | LongRepParams _ _ => 1 | DoubleRepParams _ _ _ => 2 | ValueSetRepParams _ => 3 end.
  (** The text of the default representation of a kind *)
  Definition default_text (k : scalar) : string :=
    match k with SInt => po_default_int options | SLong => po_default_long options | SDouble => po_default_double options end.
  Definition of_scalar (k : scalar) : nat := match k with SInt => 0 | SLong => 1 | SDouble => 2 end.
  Definition used (ds : list (string * params D)) (default : params D) (name : string) (p : params D) : Prop :=
    (last_declared ds name p /\ kind p = kind default) \/
    ((forall q, last_declared ds name q -> kind q <> kind default) /\ p = default).
  (** With variables of different types: anything but int *)
  Definition used_mixed (ds : list (string * params D)) (default : params D) (name : string) (p : params D) : Prop :=
    (last_declared ds name p /\ kind p <> 0) \/
    ((forall q, last_declared ds name q -> kind q = 0) /\ p = default).
End Grammar.

(** The documented syntax (parser.hh:227-242): [show] writes a double number. *)
Section Print.
  Context {D : Type} (show : D -> string).

  Definition print_params (p : params D) : string :=
    match p with
    | IntRepParams a b => "int(" ++ show_Z a ++ ", " ++ show_Z b ++ ")"
    | LongRepParams a b => "long(" ++ show_Z a ++ ", " ++ show_Z b ++ ")"
    | DoubleRepParams a b (inl e) => "double(" ++ show a ++ ", " ++ show b ++ ", precision = " ++ show e ++ ")"
    | DoubleRepParams a b (inr n) => "double(" ++ show a ++ ", " ++ show b ++ ", size = " ++ show_Z n ++ ")"
    | ValueSetRepParams vs => "set(" ++ String.concat "," (map show vs) ++ ")"
    end.
  Definition print_declaration (d : string * params D) : string := " " ++ fst d ++ ": " ++ print_params (snd d).
  Definition print_declarations (ds : list (string * params D)) : string := String.concat ";" (map print_declaration ds).

  (** A name: a word without colon or semicolon *)
  Definition name_ok (n : string) : Prop :=
    n <> "" /\ Forall (fun c => is_space c = false) (list_ascii_of_string n) /\ lacks ":" n /\ lacks ";" n.

  (** The text of a double number is read back, with or without a blank before it. *)
  Definition reads_back (stod : string -> outcome D) (d : D) : Prop :=
    stod (show d) = Ok d /\ stod (" " ++ show d) = Ok d /\
    lacks "," (show d) /\ lacks ")" (show d) /\ lacks "=" (show d) /\ lacks ";" (show d).

  Definition fits (w z : Z) : Prop := (- 2 ^ (w - 1) <= z < 2 ^ (w - 1))%Z.
  Definition params_ok (stod : string -> outcome D) (p : params D) : Prop :=
    match p with
    | IntRepParams a b => fits 32 a /\ fits 32 b
    | LongRepParams a b => fits 64 a /\ fits 64 b
    | DoubleRepParams a b (inl e) => reads_back stod a /\ reads_back stod b /\ reads_back stod e
    | DoubleRepParams a b (inr n) => reads_back stod a /\ reads_back stod b /\ fits 32 n
    | ValueSetRepParams vs => vs <> nil /\ Forall (reads_back stod) vs
    end.
End Print.
