(** Properties C106 to C108: cutting a text at a delimiter, the parser of
    representations and the representations of the variables of a parsed function. *)

From Coq Require Import ZArith NArith String Ascii.
From Verif Require Import Base BaseLemmas Text_Model Parser_Model Parser_Spec Parser_Proofs ParserReps_Proofs.
Local Open Scope string_scope.
Local Open Scope list_scope.
Local Open Scope nat_scope.

(** * C106: split_string *)

(** With a delimiter which is not empty, as many rounds as characters are enough, and the
    pieces are the ones obtained by cutting the text at each occurrence of the delimiter
    from left to right, and only those. *)
Theorem C106_cut_at_delimiter fuel s d l : d <> "" -> String.length s <= fuel ->
  split_string fuel s d = Some (Ok l) <-> cut d s l.
Proof. apply split_string_iff. Qed.
Print Assumptions C106_cut_at_delimiter.

(** It always succeeds; joining the pieces with the delimiter gives the text back, there
    is at least one piece, and no piece contains the delimiter. *)
Theorem C106_join fuel s d : d <> "" -> String.length s <= fuel ->
  exists l, split_string fuel s d = Some (Ok l) /\ String.concat d l = s /\ l <> nil /\
    forall p i, In p l -> ~ occurs d p i.
Proof.
  intros N L. destruct (split_string_cut fuel s d N L) as (l & E & C). exists l. split; [auto|].
  split; [symmetry; now apply cut_concat|]. split; [now apply cut_nonempty in C|]. now apply (cut_no_delimiter d s).
Qed.
Print Assumptions C106_join.

(** With a delimiter of one character, the pieces are the only ones which do not contain
    the character and give the text back once joined by it. *)
Theorem C106_one_character fuel s c l : String.length s <= fuel ->
  split_string fuel s (String c "") = Some (Ok l) <->
  (l <> nil /\ s = String.concat (String c "") l /\ Forall (lacks c) l).
Proof. intros L. rewrite split_string_iff by (auto; discriminate). apply cut_separated. Qed.
Print Assumptions C106_one_character.

(** With an empty delimiter, the loop never ends, whatever the text. *)
Theorem C106_empty_delimiter fuel s : split_string fuel s "" = None.
Proof. apply split_empty. Qed.
Print Assumptions C106_empty_delimiter.

Example C106_case :
  split_string 9 "a, b,, c," "," = Some (Ok ["a"; " b"; ""; " c"; ""]) /\
  split_string 9 "a::b:::c" "::" = Some (Ok ["a"; "b"; ":c"]) /\ split_string 100 "ab" "" = None.
Proof. repeat split; reflexivity. Qed.

(** * C107: parse_representations *)

Section Parser.
  Context {D : Type} (stod : string -> outcome D) (options : parser_options D).

  (** A text is accepted exactly when it is a list of declarations separated by
      semicolons, and each name is then bound to the last of its declarations. *)
  Theorem C107_grammar text :
    (forall e, parse_representations stod options text = Ok e ->
       exists ds, declarations stod options text ds /\ forall name p, e name = Some p <-> last_declared ds name p) /\
    (forall ds, declarations stod options text ds ->
       exists e, parse_representations stod options text = Ok e /\ forall name p, e name = Some p <-> last_declared ds name p).
  Proof. split; intros; [now apply parse_representations_Ok|now apply parse_representations_complete]. Qed.

  (** A text in the documented syntax is accepted, with the documented meaning. *)
  Theorem C107_documented_syntax (show : D -> string) ds : ds <> nil ->
    Forall (fun d => name_ok (fst d) /\ params_ok show stod (snd d)) ds ->
    exists e, parse_representations stod options (print_declarations show ds) = Ok e /\
      forall name p, e name = Some p <-> last_declared ds name p.
  Proof. intros N F. apply parse_representations_complete. now apply print_parsed. Qed.

  (** Whatever the text, the parser ends without undefined behaviour; it either succeeds
      or throws std::runtime_error or, for a number which cannot be read,
      std::invalid_argument or std::out_of_range. *)
  Theorem C107_failures text :
    (forall s, (exists d, stod s = Ok d) \/ stod s = Throw OtherException) ->
    (exists e, parse_representations stod options text = Ok e) \/
    parse_representations stod options text = Throw RuntimeError \/
    parse_representations stod options text = Throw OtherException.
  Proof. intros H. apply sound_representations. intros s. destruct (H s) as [|]; unfold fails_soundly; auto. Qed.

  (** The bounds of an integer which are missing or too large are not reported as
      std::runtime_error. *)
  Theorem C107_bad_integer before args after s t :
    lacks "(" before -> lacks ")" args -> has_first_word before "int" -> separated "," args [s; t] ->
    (forall a, ~ has_integer 32 s a) \/ (forall b, ~ has_integer 32 t b) ->
    parse_representation stod options (before ++ "(" ++ args ++ ")" ++ after)%string = Throw OtherException.
  Proof. apply bad_integer. Qed.

  (** A semicolon at the end is allowed, but not followed by blanks. *)
  Theorem C107_trailing_semicolon text e : parse_representations stod options text = Ok e ->
    parse_representations stod options (text ++ ";")%string = Ok e /\
    forall b, b <> "" -> blank b -> parse_representations stod options (text ++ ";" ++ b)%string = Throw RuntimeError.
  Proof.
    intros E. split; [|intros b; now apply (parse_trailing_blank stod options text e)].
    change ";" with (";" ++ "")%string. rewrite parse_trailing by (intros []). now rewrite E.
  Qed.
End Parser.
Print Assumptions C107_grammar.
Print Assumptions C107_documented_syntax.
Print Assumptions C107_failures.
Print Assumptions C107_bad_integer.
Print Assumptions C107_trailing_semicolon.

(** The text of the documentation; here, doubles are the texts of the numbers without
    their blanks. *)
Definition example_stod (s : string) : outcome string :=
  match first_word s with Some w => if String.eqb w "?" then Throw OtherException else Ok w | None => Throw OtherException end.
Definition example_options : parser_options string :=
  mk_parser_options (Some "1e-2") None "int(1, 100)" "long(1, 100)" "double(0, 1, precision = 1e-6)".
Definition example_text : string :=
  "x: double(0, 1); y: double(0, 1, precision = 1e-3); z: double(0, 1, size = 8); u: int(-10, 10); v: long(-100, 100); w: set(1.1, 2.2, 3.3)".
Definition example_declarations : list (string * params string) :=
  [("x", DoubleRepParams "0" "1" (inl "1e-2")); ("y", DoubleRepParams "0" "1" (inl "1e-3"));
   ("z", DoubleRepParams "0" "1" (inr 8%Z)); ("u", IntRepParams (-10) 10); ("v", LongRepParams (-100) 100);
   ("w", ValueSetRepParams ["1.1"; "2.2"; "3.3"])].
Definition lookups {D} (r : outcome (env D)) (names : list string) : outcome (list (option (params D))) :=
  e <- r ;; Ok (map e names).

Example C107_case :
  lookups (parse_representations example_stod example_options example_text) ["x"; "y"; "z"; "u"; "v"; "w"; "t"] =
    Ok (map Some (map snd example_declarations) ++ [None]) /\
  lookups (parse_representations example_stod example_options
    (print_declarations (fun s => s) example_declarations ++ ";")) ["x"; "w"] =
    Ok [Some (DoubleRepParams "0" "1" (inl "1e-2")); Some (ValueSetRepParams ["1.1"; "2.2"; "3.3"])] /\
  lookups (parse_representations example_stod example_options "x: int(1, 2); x: long(3, 4) and more") ["x"] =
    Ok [Some (LongRepParams 3 4)] /\
  lookups (parse_representations example_stod example_options "x: int(1, 2); ") ["x"] = Throw RuntimeError /\
  lookups (parse_representations example_stod example_options "x: int(1, b)") ["x"] = Throw OtherException /\
  lookups (parse_representations example_stod example_options "x: int(1, 99999999999)") ["x"] = Throw OtherException.
Proof. repeat split; reflexivity. Qed.
(** The declarations meet the hypotheses of [C107_documented_syntax]. *)
Example C107_documented_case :
  Forall (fun d => name_ok (fst d) /\ params_ok (fun s => s) example_stod (snd d)) example_declarations.
Proof.
  repeat constructor; cbn; try discriminate; try (unfold lacks; cbn; intuition discriminate).
Qed.
(** So does the stand-in of std::stod for [C107_failures]. *)
Example C107_stod_case s : (exists d, example_stod s = Ok d) \/ example_stod s = Throw OtherException.
Proof. unfold example_stod. destruct (first_word s) as [w|]; [|auto]. destruct (String.eqb w "?"); eauto. Qed.

(** * C108: the representations of the variables *)

Section Adapter.
  Context {D : Type} (stod : string -> outcome D) (options : parser_options D).
  (** The declarations, the default representation and the names of the variables *)
  Context (text : string) (ds : list (string * params D)) (Hds : declarations stod options text ds).
  Context (names : list string).

  Lemma default_represents k default : represents stod options (default_text options k) default <->
    get_default_representation stod options k = Ok default.
  Proof. rewrite <- parse_representation_iff. now destruct k. Qed.

  (** Each variable, in the order of the function, gets its last declared representation
      if it is of the kind of the default one, else the default one: declarations of
      other kinds, including sets of values, are not errors. *)
  Theorem C108_variables k default :
    represents stod options (default_text options k) default -> kind default = of_scalar k ->
    exists reps, make_reps stod options k names text = Ok reps /\
      Forall2 (fun name p => used ds default name p /\ kind p = of_scalar k) names reps.
  Proof.
    intros Ed%default_represents K. destruct (parse_representations_complete stod options text ds Hds) as (e & E & H).
    rewrite (make_reps_eq stod options k names text e default E Ed), K, Nat.eqb_refl. eexists. split; [reflexivity|].
    apply Forall2_map_used. intros n. split; [now apply chosen_used|]. now rewrite chosen_kind.
  Qed.

  (** A default representation of another kind makes the adapter throw
      std::bad_variant_access, even if every variable is declared. *)
  Theorem C108_wrong_default k default :
    represents stod options (default_text options k) default -> kind default <> of_scalar k -> names <> nil ->
    make_reps stod options k names text = Throw OtherException.
  Proof.
    intros Ed%default_represents K N. destruct (parse_representations_complete stod options text ds Hds) as (e & E & H).
    rewrite (make_reps_eq stod options k names text e default E Ed).
    destruct (Nat.eqb_spec (kind default) (of_scalar k)); [contradiction|]. now destruct names.
  Qed.

  (** Complex variables: the real part of x is represented as x_re and its imaginary part
      as x_im. *)
  Theorem C108_complex_variables k default :
    represents stod options (default_text options k) default -> kind default = of_scalar k ->
    exists reps, make_complex_reps stod options k names text = Ok reps /\
      Forall2 (fun name r =>
        used ds default (name ++ "_re") (fst r) /\ used ds default (name ++ "_im") (snd r) /\
        kind (fst r) = of_scalar k /\ kind (snd r) = of_scalar k) names reps.
  Proof.
    intros Ed%default_represents K. destruct (parse_representations_complete stod options text ds Hds) as (e & E & H).
    rewrite (make_complex_reps_eq stod options k names text e default E Ed), K, Nat.eqb_refl. eexists. split; [reflexivity|].
    clear Hds. induction names as [|n l IH]; cbn [map]; constructor; auto. cbn [fst snd].
    split; [now apply chosen_used|]. split; [now apply chosen_used|]. now rewrite !chosen_kind.
  Qed.

  (** Variables of different types: any declared representation but int; it fails when
      the default representation of long cannot be parsed, although it is not used. *)
  Theorem C108_mixed_variables unused default :
    represents stod options (default_text options SLong) unused ->
    represents stod options (default_text options SDouble) default ->
    exists reps, make_mixed_reps stod options names text = Ok reps /\ Forall2 (used_mixed ds default) names reps.
  Proof.
    intros El%default_represents Ed%default_represents. destruct (parse_representations_complete stod options text ds Hds) as (e & E & H).
    rewrite (make_mixed_reps_eq stod options names text e unused default E El Ed). eexists. split; [reflexivity|].
    apply Forall2_map_used. intros n. now apply chosen_mixed_used.
  Qed.
End Adapter.

(** The representations exist only if the text and the default are accepted. *)
Theorem C108_errors {D} (stod : string -> outcome D) options k names text reps :
  make_reps stod options k names text = Ok reps ->
  (exists ds, declarations stod options text ds) /\ exists default, represents stod options (default_text options k) default.
Proof.
  unfold make_reps. intros (e & E & (d & Ed & _)%bind_Ok)%bind_Ok. split; [|exists d; now apply default_represents].
  destruct (parse_representations_Ok stod options text e E) as (ds & H & _). eauto.
Qed.
Print Assumptions C108_variables.
Print Assumptions C108_wrong_default.
Print Assumptions C108_complex_variables.
Print Assumptions C108_mixed_variables.
Print Assumptions C108_errors.

(** x is declared, u is declared of another kind and t is not declared. *)
Example C108_case :
  make_reps example_stod example_options SDouble ["x"; "u"; "t"] example_text =
    Ok [DoubleRepParams "0" "1" (inl "1e-2"); DoubleRepParams "0" "1" (inl "1e-6"); DoubleRepParams "0" "1" (inl "1e-6")] /\
  make_reps example_stod example_options SInt ["x"; "u"] example_text = Ok [IntRepParams 1 100; IntRepParams (-10) 10] /\
  make_mixed_reps example_stod example_options ["w"; "u"; "v"] example_text =
    Ok [ValueSetRepParams ["1.1"; "2.2"; "3.3"]; DoubleRepParams "0" "1" (inl "1e-6"); LongRepParams (-100) 100] /\
  make_complex_reps example_stod example_options SDouble ["q"] "q_re: double(5, 6, size = 4)" =
    Ok [(DoubleRepParams "5" "6" (inr 4%Z), DoubleRepParams "0" "1" (inl "1e-6"))] /\
  make_reps example_stod (mk_parser_options None None "int(1, 100)" "long(1, 100)" "set(0, 1)") SDouble ["x"]
    "x: double(0, 1, size = 3)" = Throw OtherException.
Proof. repeat split; reflexivity. Qed.
Example C108_declarations_case : exists ds, declarations example_stod example_options example_text ds.
Proof.
  destruct (parse_representations example_stod example_options example_text) as [e|x|] eqn:E.
  - destruct (parse_representations_Ok _ _ _ _ E) as (ds & H & _). eauto.
  - exfalso. vm_compute in E. discriminate E.
  - exfalso. vm_compute in E. discriminate E.
Qed.
