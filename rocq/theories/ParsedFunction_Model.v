(** Model of functions defined by expressions and of the functions of hnco-mo made from
    them: lib/hnco/functions/collection/parsed-multivariate-function.hh,
    lib/hnco/multiobjective/functions/collection/parsed-multivariate-function.hh,
    lib/hnco/multiobjective/functions/multivariate-function-adapter.hh,
    lib/hnco/multiobjective/app/function-factory.cc.

    The library fparser is given by two arguments: [deduce e] are the names of the variables
    of expression [e] in the order of the library, or [None] if it does not parse;
    [eval e vars] is the value of [e] for the values [vars] of these variables.  Both depend on
    the constants added to the parser.  Display and description are not modelled. *)

From Coq Require Import ZArith String Ascii.
From Verif Require Import Base BitVector_Model Text_Model Parser_Model Representation_Model Nsga2_Model.
Local Open Scope string_scope.
Local Open Scope list_scope.
Local Open Scope nat_scope.

(** operator< of std::string: char_traits<char> compares characters as unsigned ones. *)
Fixpoint string_ltb (a b : string) : bool :=
  match a, b with
  | EmptyString, EmptyString => false
  | EmptyString, String _ _ => true
  | String _ _, EmptyString => false
  | String c a', String d b' =>
      if (nat_of_ascii c <? nat_of_ascii d) then true
      else if (nat_of_ascii d <? nat_of_ascii c) then false
      else string_ltb a' b'
  end.

Section Parsed.
  Context {D : Type} (deduce : string -> option (list string)) (eval : string -> list D -> D).

  (** ** One objective *)

  Record parsed := mk_parsed { pf_expression : string; pf_names : list string }.

  (** functions/collection/parsed-multivariate-function.hh:72-93 *)
  Definition parsed_make (expression : string) : outcome parsed :=
    match deduce expression with
    | None => Throw RuntimeError
    | Some names => Ok (mk_parsed expression names)
    end.

  (** functions/collection/parsed-multivariate-function.hh:108; reads as many values as there
      are variables *)
  Definition parsed_evaluate (p : parsed) (xs : list D) : outcome D :=
    if length (pf_names p) <=? length xs then Ok (eval (pf_expression p) (firstn (length (pf_names p)) xs)) else UB.

  (** ** Several objectives *)

  Record mparsed := mk_mparsed {
    mp_expressions : list string; mp_names : list (list string); mp_ordered : list string; mp_indices : list (list nat) }.

  (** std::unordered_set::insert *)
  Definition set_insert (set : list string) (name : string) : list string :=
    if existsb (String.eqb name) set then set else set ++ [name].

  Definition insert_all (set : list string) (names : list string) : list string := fold_left set_insert names set.

  (** index_of[name] = i for an std::unordered_map *)
  Definition index_set (f : string -> option nat) (p : string * nat) : string -> option nat :=
    fun name => if String.eqb name (fst p) then Some (snd p) else f name.

  (** The constructor and parse:
      multiobjective/functions/collection/parsed-multivariate-function.hh:114-182. [visit] is the
      order in which the set is visited, [srt] is std::sort.  The constructor cuts the expression
      as split_string does. *)
  Definition mparsed_make (visit : list string -> list string) (srt : (string -> string -> bool) -> list string -> list string)
      (expression : string) : outcome mparsed :=
    expressions <- split_char expression "::" ;;
    names <- foldM (fun acc e => match deduce e with None => Throw RuntimeError | Some ns => Ok (acc ++ [ns]) end) expressions [] ;;
    let name_set := fold_left insert_all names [] in
    let ordered := srt string_ltb (visit name_set) in
    let index_of := fold_left index_set (combine ordered (seq 0 (length ordered))) (fun _ => None) in
    indices <- foldM (fun acc ns =>
        is_ <- foldM (fun is_ name => match index_of name with None => UB | Some k => Ok (is_ ++ [k]) end) ns [] ;;
        Ok (acc ++ [is_])) names [] ;;
    Ok (mk_mparsed expressions names ordered indices).

  (** multiobjective/functions/collection/parsed-multivariate-function.hh:191-204; [size] is the
      size of values *)
  Definition mparsed_evaluate (p : mparsed) (xs : list D) (size : nat) : outcome (list D) :=
    _ <- assertb (length xs =? length (mp_ordered p)) ;;
    _ <- assertb (size =? length (mp_expressions p)) ;;
    foldM (fun values i =>
      e <- vget (mp_expressions p) i ;;
      lut <- vget (mp_indices p) i ;;
      vars <- foldM (fun vars k => x <- vget xs k ;; Ok (vars ++ [x])) lut [] ;;
      Ok (values ++ [eval e vars])) (seq 0 size) [].

  (** ** Functions of hnco-mo *)

  (** multiobjective/functions/multivariate-function-adapter.hh:124-132 and 235-242; [conv] is the
      converter, [size] the size of value *)
  Definition madapter_evaluate (reps : list (rep D)) (p : mparsed) (conv : D -> Z) (x : bv) (size : nat) : outcome (list Z) :=
    _ <- assertb (length x =? total_size reps) ;;
    _ <- assertb (size =? length (mp_expressions p)) ;;
    '(vs, _) <- unpack_vars reps x 0 ;;
    values <- mparsed_evaluate p vs size ;;
    Ok (map conv values).

  (** The representations of the variables: those of make-multivariate-function-adapter.hh, from
      their parameters *)
  Definition to_reps {P : Type} (to_rep : P -> outcome (rep D)) (ps : list P) : outcome (list (rep D)) :=
    foldM (fun reps p => r <- to_rep p ;; Ok (reps ++ [r])) ps [].

  (** make-multivariate-function-adapter.hh:61-92 and 145-181, and
      multiobjective/functions/multivariate-function-adapter.hh:92-100 and 205-212: [params_of names] are the parameters
      of the representations of the variables *)
  Definition madapter_make {P : Type} (visit : list string -> list string) (srt : (string -> string -> bool) -> list string -> list string)
      (params_of : list string -> outcome (list P)) (to_rep : P -> outcome (rep D)) (expression : string) : outcome (list (rep D) * mparsed) :=
    p <- mparsed_make visit srt expression ;;
    ps <- params_of (mp_ordered p) ;;
    reps <- to_reps to_rep ps ;;
    _ <- assertb (length (mp_ordered p) =? length reps) ;;
    Ok (reps, p).
End Parsed.

(** What the parsed functions are made from, multiobjective/app/function-factory.cc:44-123, for the
    types which are not over complex numbers: the kind of the variables, or variables of
    different types, and whether the converter is the absolute value *)
Inductive variables := Scalars (k : scalar) | Mixed.
Definition mo_type (t : Z) : option (variables * bool) :=
  match t with
  | 520%Z => Some (Scalars SDouble, false)
  | 521%Z => Some (Scalars SLong, false)
  | 523%Z => Some (Scalars SInt, false)
  | 524%Z => Some (Mixed, false)
  | 530%Z => Some (Scalars SDouble, true)
  | 531%Z => Some (Scalars SLong, true)
  | 533%Z => Some (Scalars SInt, true)
  | 534%Z => Some (Mixed, true)
  | _ => None
  end.

(** CommandLineFunctionFactory::make, multiobjective/app/function-factory.cc:38-136, without the types 522 and 532 (complex numbers)
    and 1100 (Python), which are as unknown ones here. [deduce] is that of the parser of the type, [expression] and
    [representations] are the texts given by options or files. The function is given by the representations, the
    parsed expressions and the choice of the converter. *)
Definition mo_make {D T : Type} (stod : string -> outcome T) (options : parser_options T)
    (deduce : string -> option (list string)) (visit : list string -> list string) (srt : (string -> string -> bool) -> list string -> list string)
    (to_rep : params T -> outcome (rep D)) (bv_size t : Z) (expression representations : string) : outcome (list (rep D) * mparsed * bool) :=
  if (bv_size <=? 0)%Z then Throw RuntimeError
  else
    match mo_type t with
    | None => Throw RuntimeError
    | Some (v, absolute) =>
        let params_of := fun names =>
          match v with
          | Scalars k => make_reps stod options k names representations
          | Mixed => make_mixed_reps stod options names representations
          end in
        '(reps, p) <- madapter_make deduce visit srt params_of to_rep expression ;;
        Ok (reps, p, absolute)
    end.
(** The converter: converter.hh:31-46; [to_double] is the value of the
    domain type as a double *)
Definition convert {D : Type} (to_double : D -> Z) (absolute : bool) (d : D) : Z :=
  if absolute then Z.abs (to_double d) else to_double d.

(** to_rep for the parameters of integers, parser.hh:63 and 74: the representation of an interval at full
    precision; [w] is the number of bits of int or long *)
Definition integer_to_rep {T : Type} (w : nat) (lg : Z -> nat) (q : params T) : outcome (rep Z) :=
  match q with
  | IntRepParams lower upper | LongRepParams lower upper => d <- dint_full w lg lower upper ;; Ok (dint_rep d)
  | _ => Throw OtherException
  end.
