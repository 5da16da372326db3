(** Model of the parser of representations: lib/hnco/app/parser.{hh,cc} and
    lib/hnco/app/make-multivariate-function-adapter.hh.

    Strings are shorter than 2^32 characters (the variable start of split_string is an
    unsigned int).  Exceptions carry no message: the name added to the message of an
    error (parser.hh:263-268) is not modelled.  std::stoi and std::stol throw
    std::invalid_argument or std::out_of_range, which are not std::runtime_error:
    [OtherException].  std::stod is an argument [stod], as is the type [D] of double
    numbers. *)

From Coq Require Import ZArith NArith String Ascii.
From Verif Require Import Base Text_Model.
Local Open Scope string_scope.
Local Open Scope list_scope.
Local Open Scope nat_scope.

(** ** Standard strings *)

(** std::string::substr(pos, len): throws std::out_of_range beyond the end. *)
Definition substr (s : string) (pos len : nat) : outcome string :=
  if pos <=? String.length s then Ok (substring pos len s) else Throw OtherException.
(** std::string::substr(pos) *)
Definition substr_from (s : string) (pos : nat) : outcome string := substr s pos (String.length s).

(** std::string::find(pattern, pos); [None] for npos *)
Definition find (s pattern : string) (pos : nat) : option nat := index pos pattern s.

(** std::stoi and std::stol, for integers of [w] bits: blanks, an optional sign, and
    digits; what follows is ignored. *)
Definition in_int_range (w : Z) (z : Z) : bool := ((- 2 ^ (w - 1) <=? z) && (z <? 2 ^ (w - 1)))%Z.
Definition stoi (w : Z) (s : string) : outcome Z :=
  let s := skip is_space s in
  let '(neg, s) :=
    match s with
    | String c s' =>
        if Ascii.eqb c "-" then (true, s') else if Ascii.eqb c "+" then (false, s') else (false, s)
    | EmptyString => (false, s)
    end in
  match fst (take is_digit s) with
  | EmptyString => Throw OtherException
  | digits =>
      let v := Z.of_N (digits_value digits 0) in
      let z := if neg : bool then (- v)%Z else v in
      if in_int_range w z then Ok z else Throw OtherException
  end.

(** std::istringstream stream(s); stream >> word; [None] if !stream *)
Definition first_word (s : string) : option string :=
  match read_word (open_string s) with Some (w, _) => Some w | None => None end.

(** ** split_string, parser.cc:45-58.  [None] when [fuel] rounds of the loop are not
    enough. *)
Fixpoint split_loop (fuel : nat) (str delimiter : string) (start : nat) (stop : option nat) (items : list string)
  : option (outcome (list string)) :=
  match stop with
  | None => Some (last <- substr_from str start ;; Ok (items ++ [last]))
  | Some stop =>
      match fuel with
      | 0 => None
      | S fuel' =>
          match substr str start (stop - start) with
          | Ok item =>
              let start := stop + String.length delimiter in
              split_loop fuel' str delimiter start (find str delimiter start) (items ++ [item])
          | Throw e => Some (Throw e)
          | UB => Some UB
          end
      end
  end.
Definition split_string (fuel : nat) (str delimiter : string) : option (outcome (list string)) :=
  split_loop fuel str delimiter 0 (find str delimiter 0) [].

(** split_string as it is called below, with a delimiter of one character: as many
    rounds as characters are enough. *)
Definition split_char (str : string) (delimiter : string) : outcome (list string) :=
  match split_string (String.length str) str delimiter with Some r => r | None => UB end.

(** ** Parameters of representations, parser.hh:46-115 *)
Inductive params (D : Type) : Type :=
| IntRepParams (lower upper : Z)
| LongRepParams (lower upper : Z)
| DoubleRepParams (lower upper : D) (resolution : D + Z)
| ValueSetRepParams (values : list D).
Arguments IntRepParams {D}.
Arguments LongRepParams {D}.
Arguments DoubleRepParams {D}.
Arguments ValueSetRepParams {D}.

(** The options the parser reads *)
Record parser_options (D : Type) := mk_parser_options {
  po_precision : option D;
  po_size : option Z;
  po_default_int : string;
  po_default_long : string;
  po_default_double : string }.
Arguments mk_parser_options {D}.
Arguments po_precision {D}.
Arguments po_size {D}.
Arguments po_default_int {D}.
Arguments po_default_long {D}.
Arguments po_default_double {D}.

(** env_t, parser.hh:117 *)
Definition env (D : Type) : Type := string -> option (params D).
Definition env_empty {D} : env D := fun _ => None.
Definition env_set {D} (e : env D) (name : string) (p : params D) : env D :=
  fun n => if String.eqb n name then Some p else e n.

Section Parser.
  Context {D : Type} (stod : string -> outcome D) (options : parser_options D).

  (** parser.cc:60-69 *)
  Definition parse_int_rep (expression : string) : outcome (params D) :=
    parameters <- split_char expression "," ;;
    match parameters with
    | [p0; p1] => a <- stoi 32 p0 ;; b <- stoi 32 p1 ;; Ok (IntRepParams a b)
    | _ => Throw RuntimeError
    end.

  (** parser.cc:71-80 *)
  Definition parse_long_rep (expression : string) : outcome (params D) :=
    parameters <- split_char expression "," ;;
    match parameters with
    | [p0; p1] => a <- stoi 64 p0 ;; b <- stoi 64 p1 ;; Ok (LongRepParams a b)
    | _ => Throw RuntimeError
    end.

  (** parser.hh:143-177 *)
  Definition parse_double_rep (expression : string) : outcome (params D) :=
    parameters <- split_char expression "," ;;
    match parameters with
    | [p0; p1] =>
        a <- stod p0 ;; b <- stod p1 ;;
        match po_precision options, po_size options with
        | Some e, _ => Ok (DoubleRepParams a b (inl e))
        | None, Some n => Ok (DoubleRepParams a b (inr n))
        | None, None => Throw RuntimeError
        end
    | [p0; p1; p2] =>
        a <- stod p0 ;; b <- stod p1 ;;
        terms <- split_char p2 "=" ;;
        match terms with
        | [t0; t1] =>
            match first_word t0 with
            | None => Throw RuntimeError
            | Some key =>
                if String.eqb key "precision" then e <- stod t1 ;; Ok (DoubleRepParams a b (inl e))
                else if String.eqb key "size" then n <- stoi 32 t1 ;; Ok (DoubleRepParams a b (inr n))
                else Throw RuntimeError
            end
        | _ => Throw RuntimeError
        end
    | _ => Throw RuntimeError
    end.

  (** parser.cc:82-90 *)
  Definition parse_value_set_rep (expression : string) : outcome (params D) :=
    parameters <- split_char expression "," ;;
    values <- foldM (fun vs s => v <- stod s ;; Ok (vs ++ [v])) parameters [] ;;
    Ok (ValueSetRepParams values).

  (** parser.hh:187-220 *)
  Definition parse_representation (expression : string) : outcome (params D) :=
    match expression with
    | EmptyString => Throw RuntimeError
    | _ =>
        match find expression "(" 0 with
        | None => Throw RuntimeError
        | Some openp =>
            match find expression ")" openp with
            | None => Throw RuntimeError
            | Some closep =>
                str1 <- substr expression 0 openp ;;
                match first_word str1 with
                | None => Throw RuntimeError
                | Some type =>
                    str2 <- substr expression (openp + 1) (closep - openp - 1) ;;
                    if String.eqb type "int" then parse_int_rep str2
                    else if String.eqb type "long" then parse_long_rep str2
                    else if String.eqb type "double" then parse_double_rep str2
                    else if String.eqb type "set" then parse_value_set_rep str2
                    else Throw RuntimeError
                end
            end
        end
    end.

  (** A round of the loop of parse_representations, parser.hh:250-269 *)
  Definition parse_declaration (e : env D) (declaration : string) : outcome (env D) :=
    match declaration with
    | EmptyString => Ok e
    | _ =>
        match find declaration ":" 0 with
        | None => Throw RuntimeError
        | Some stop =>
            before <- substr declaration 0 stop ;;
            match first_word before with
            | None => Throw RuntimeError
            | Some name =>
                after <- substr_from declaration (stop + 1) ;;
                p <- parse_representation after ;;
                Ok (env_set e name p)
            end
        end
    end.

  (** parser.hh:244-271 *)
  Definition parse_representations (expression : string) : outcome (env D) :=
    declarations <- split_char expression ";" ;;
    foldM parse_declaration declarations env_empty.

  (** Kinds of scalar representations; get_default_representation, parser.hh:273-287 *)
  Inductive scalar := SInt | SLong | SDouble.
  Definition get_default_representation (k : scalar) : outcome (params D) :=
    match k with
    | SInt => parse_representation (po_default_int options)
    | SLong => parse_representation (po_default_long options)
    | SDouble => parse_representation (po_default_double options)
    end.

  (** std::variant::index, parser.hh:115 *)
  Definition params_index (p : params D) : nat :=
    match p with
    | IntRepParams _ _ => 0
    | LongRepParams _ _ => 1
    | DoubleRepParams _ _ _ => 2
    | ValueSetRepParams _ => 3
    end.

  (** std::get of the alternative of kind [k]: throws std::bad_variant_access,
      make-multivariate-function-adapter.hh:32-54; the construction of the representation from
      the parameters (to_rep) is in Representation_Model. *)
  Definition get_params (k : scalar) (p : params D) : outcome (params D) :=
    match k, p with
    | SInt, IntRepParams _ _ | SLong, LongRepParams _ _ | SDouble, DoubleRepParams _ _ _ => Ok p
    | _, _ => Throw OtherException
    end.

  (** make-multivariate-function-adapter.hh:76-82 and 113-121 *)
  Definition complete (default : params D) (e : env D) (name : string) : env D :=
    match e name with
    | None => env_set e name default
    | Some p => if params_index p =? params_index default then e else env_set e name default
    end.

  (** make-multivariate-function-adapter.hh:73-89: the parameters of the representations
      given to the adapter, in the order of the variables.  [names] are the names of the
      variables of the parsed function, [text] the text of the representations. *)
  Definition make_reps (k : scalar) (names : list string) (text : string) : outcome (list (params D)) :=
    e <- parse_representations text ;;
    default <- get_default_representation k ;;
    let e := fold_left (complete default) names e in
    foldM (fun reps name =>
      match e name with
      | None => UB
      | Some p => r <- get_params k p ;; Ok (reps ++ [r])
      end) names [].

  (** make-multivariate-function-adapter.hh:110-132, over complex numbers *)
  Definition make_complex_reps (k : scalar) (names : list string) (text : string)
    : outcome (list (params D * params D)) :=
    e <- parse_representations text ;;
    default <- get_default_representation k ;;
    let e := fold_left (fun e name => complete default (complete default e (name ++ "_re")%string) (name ++ "_im")%string) names e in
    foldM (fun reps name =>
      match e (name ++ "_re")%string, e (name ++ "_im")%string with
      | Some p, Some q => r <- get_params k p ;; i <- get_params k q ;; Ok (reps ++ [(r, i)])
      | _, _ => UB
      end) names [].

  (** make-multivariate-function-adapter.hh:158-171 *)
  Definition complete_mixed (default : params D) (e : env D) (name : string) : env D :=
    match e name with
    | None => env_set e name default
    | Some (IntRepParams _ _) => env_set e name default
    | Some _ => e
    end.

  (** make-multivariate-function-adapter.hh:154-178, variables of different types *)
  Definition make_mixed_reps (names : list string) (text : string) : outcome (list (params D)) :=
    e <- parse_representations text ;;
    _ <- get_default_representation SLong ;;
    default <- get_default_representation SDouble ;;
    let e := fold_left (complete_mixed default) names e in
    foldM (fun reps name =>
      match e name with
      | None => UB
      | Some p => Ok (reps ++ [p])
      end) names [].
End Parser.
