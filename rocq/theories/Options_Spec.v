(** Vocabulary of the statements about the command line.  The options are those which the
    help pages of hnco describe. *)

From Coq Require Import ZArith NArith String Ascii.
From Verif Require Import Base Text_Model Options_Model.
Local Open Scope nat_scope.
Local Open Scope string_scope.
Local Open Scope list_scope.

(** An option: its name, its letter, its type and its default value, as they are printed by
    --help and --help-...: lib/hnco/app/hnco-options.cc:818-1337 *)
Inductive ptype := TInt | TReal | TText | TBool | TUnsigned | TFlag.
Record param := mk_param { p_name : string; p_short : option ascii; p_type : ptype; p_default : option string }.
Definition documented : list param := [
  mk_param "additive-gaussian-noise" None TFlag None; mk_param "algorithm" (Some "A"%char) TInt (Some "100");
  mk_param "bm-log-norm-1" None TFlag None; mk_param "bm-log-norm-infinite" None TFlag None;
  mk_param "bm-negative-positive-selection" None TFlag None; mk_param "bm-num-gs-cycles" None TInt (Some "1");
  mk_param "bm-num-gs-steps" None TInt (Some "100"); mk_param "bm-reset-mode" None TInt (Some "1");
  mk_param "bm-sampling-mode" None TInt (Some "1"); mk_param "budget" (Some "b"%char) TInt (Some "10000");
  mk_param "bv-size" (Some "s"%char) TInt (Some "100"); mk_param "cache" None TFlag None;
  mk_param "cache-budget" None TFlag None; mk_param "concrete-solution" None TFlag None;
  mk_param "description-path" None TText (Some "description.txt"); mk_param "ea-allow-no-mutation" None TFlag None;
  mk_param "ea-crossover-bias" None TReal (Some "0.5"); mk_param "ea-crossover-probability" None TReal (Some "0.5");
  mk_param "ea-it-initial-hamming-weight" None TInt (Some "0"); mk_param "ea-it-log-center-fitness" None TFlag None;
  mk_param "ea-it-replacement" None TInt (Some "0"); mk_param "ea-lambda" None TInt (Some "100");
  mk_param "ea-log-mutation-rate" None TFlag None; mk_param "ea-mu" None TInt (Some "10");
  mk_param "ea-mutation-rate" (Some "m"%char) TReal None; mk_param "ea-mutation-rate-max" None TReal (Some "0.5");
  mk_param "ea-mutation-rate-min" None TReal None; mk_param "ea-success-ratio" None TReal (Some "4");
  mk_param "ea-tournament-size" None TInt (Some "2"); mk_param "ea-update-strength" None TReal (Some "1.01");
  mk_param "expression" None TText (Some "x"); mk_param "fn-display" None TFlag None;
  mk_param "fn-get-bv-size" None TFlag None; mk_param "fn-get-maximum" None TFlag None;
  mk_param "fn-has-known-maximum" None TFlag None; mk_param "fn-name" None TText None;
  mk_param "fn-num-traps" None TInt (Some "10"); mk_param "fn-prefix-length" None TInt (Some "2");
  mk_param "fn-provides-incremental-evaluation" None TFlag None; mk_param "fn-threshold" (Some "t"%char) TInt (Some "10");
  mk_param "fn-walsh-transform" None TFlag None; mk_param "fp-default-double-precision" None TReal None;
  mk_param "fp-default-double-rep" None TText (Some "double(0, 1, precision = 1e-3)");
  mk_param "fp-default-double-size" None TInt None; mk_param "fp-default-int-rep" None TText (Some "int(-10, 10)");
  mk_param "fp-default-long-rep" None TText (Some "long(-100, 100)"); mk_param "fp-expression" None TText None;
  mk_param "fp-representations" None TText None;
  mk_param "fp-representations-path" None TText (Some "representations.txt");
  mk_param "function" (Some "F"%char) TInt (Some "0"); mk_param "hea-bound-moment" None TBool (Some "true");
  mk_param "hea-log-delta-norm" None TFlag None; mk_param "hea-log-herding-error" None TFlag None;
  mk_param "hea-log-target" None TFlag None; mk_param "hea-log-target-norm" None TFlag None;
  mk_param "hea-randomize-bit-order" None TBool (Some "true"); mk_param "hea-reset-period" None TInt (Some "0");
  mk_param "incremental-evaluation" None TFlag None; mk_param "learning-rate" (Some "l"%char) TReal (Some "0.001");
  mk_param "load-solution" None TFlag None; mk_param "log-improvement" None TFlag None;
  mk_param "map" (Some "M"%char) TInt (Some "0"); mk_param "map-display" None TFlag None;
  mk_param "map-input-size" None TInt (Some "100"); mk_param "map-path" None TText (Some "map.txt");
  mk_param "map-random" None TFlag None; mk_param "map-surjective" None TFlag None;
  mk_param "map-ts-length" None TInt (Some "10"); mk_param "map-ts-sampling-mode" None TInt (Some "0");
  mk_param "minimize" None TFlag None; mk_param "mmas-strict" None TFlag None;
  mk_param "neighborhood" (Some "N"%char) TInt (Some "0"); mk_param "neighborhood-iterator" None TInt (Some "0");
  mk_param "noise-stddev" None TReal (Some "1"); mk_param "num-iterations" (Some "i"%char) TInt (Some "0");
  mk_param "num-threads" None TInt (Some "1"); mk_param "parsed-modifier" None TFlag None;
  mk_param "path" (Some "p"%char) TText (Some "function.txt"); mk_param "pn-allow-no-mutation" None TFlag None;
  mk_param "pn-mutation-rate" None TReal None; mk_param "pn-neighborhood" None TInt (Some "0");
  mk_param "pn-radius" None TInt (Some "2"); mk_param "population-size" (Some "x"%char) TInt (Some "10");
  mk_param "print-default-parameters" None TFlag None; mk_param "print-description" None TFlag None;
  mk_param "print-parameters" None TFlag None; mk_param "print-results" None TFlag None;
  mk_param "print-solution" None TFlag None; mk_param "prior-noise" None TFlag None;
  mk_param "pv-log-entropy" None TFlag None; mk_param "pv-log-num-components" None TInt (Some "5");
  mk_param "pv-log-pv" None TFlag None; mk_param "radius" None TInt (Some "2");
  mk_param "ram-crossover-probability" None TReal (Some "0.1");
  mk_param "ram-latent-space-probability" None TReal (Some "0.5"); mk_param "ram-ts-length" None TInt (Some "10");
  mk_param "ram-ts-length-distribution-parameter" None TReal (Some "0.1");
  mk_param "ram-ts-length-increment-period" None TInt (Some "10000");
  mk_param "ram-ts-length-lower-bound" None TInt (Some "0"); mk_param "ram-ts-length-mode" None TInt (Some "0");
  mk_param "ram-ts-length-upper-bound" None TInt (Some "20"); mk_param "record-evaluation-time" None TFlag None;
  mk_param "record-total-time" None TFlag None; mk_param "rep-categorical-representation" None TInt (Some "0");
  mk_param "rep-num-additional-bits" None TInt (Some "2"); mk_param "restart" None TFlag None;
  mk_param "results-path" None TText (Some "results.json"); mk_param "rls-patience" None TInt (Some "50");
  mk_param "rls-strict" None TFlag None; mk_param "rw-log-value" None TFlag None;
  mk_param "sa-beta-ratio" None TReal (Some "1.2");
  mk_param "sa-initial-acceptance-probability" None TReal (Some "0.6");
  mk_param "sa-num-transitions" None TInt (Some "50"); mk_param "sa-num-trials" None TInt (Some "100");
  mk_param "save-description" None TFlag None; mk_param "save-results" None TFlag None;
  mk_param "save-solution" None TFlag None; mk_param "seed" None TUnsigned None;
  mk_param "selection-size" (Some "y"%char) TInt (Some "1"); mk_param "solution-path" None TText (Some "solution.txt");
  mk_param "stop-on-maximum" None TFlag None; mk_param "target" None TReal None].
(** Options which print something and exit *)
Definition pages : list string := ["help"; "version"; "help-fn"; "help-fp"; "help-rep"; "help-mod"; "help-ctrl"; "help-pn"; "help-map";
  "help-alg"; "help-ls"; "help-sa"; "help-ea"; "help-eda"; "help-hea"; "help-bm"].
Definition option_names : list string := map p_name documented ++ pages.

(** The name of an option in the accessors and in what is printed: bv_size for bv-size *)
Fixpoint underscored (s : string) : string :=
  match s with
  | EmptyString => EmptyString
  | String c s' => String (if Ascii.eqb c "-" then "_" else c)%char (underscored s')
  end.
Definition accessor (p : param) : string := underscored (p_name p).

(** [a] is the name of an option, or an abbreviation which begins no other name. *)
Definition begins (a n : string) : Prop := exists r, n = (a ++ r)%string.
Definition stands_for (a name : string) : Prop :=
  In name option_names /\ (a = name \/ begins a name /\ forall n, In n option_names -> begins a n -> n = name).

(** What the user writes: an option with a value, a flag, or another word; and the words *)
Inductive item := Gives (p : param) (v : string) | Sets (p : param) | Other (w : string).
Inductive writes : item -> list string -> Prop :=
| long_joined p a v : In p documented -> p_type p <> TFlag -> stands_for a (p_name p) -> writes (Gives p v) [("--" ++ a ++ "=" ++ v)%string]
| long_apart p a v : In p documented -> p_type p <> TFlag -> stands_for a (p_name p) -> writes (Gives p v) [("--" ++ a)%string; v]
| short_joined p c v : In p documented -> p_short p = Some c -> v <> "" -> writes (Gives p v) [String "-" (String c v)]
| short_apart p c v : In p documented -> p_short p = Some c -> writes (Gives p v) [String "-" (String c ""); v]
| flag p a : In p documented -> p_type p = TFlag -> stands_for a (p_name p) -> writes (Sets p) [("--" ++ a)%string]
| other w : w = "" \/ w = "-" \/ (exists c r, w = String c r /\ c <> "-"%char) -> writes (Other w) [w].

(** A value of a type and its text.  The text of an int may be followed by anything but a digit;
    without a digit at its beginning, it is the text of 0. *)
Definition starts_with_digit (s : string) : bool := match s with String c _ => is_digit c | EmptyString => false end.
Inductive written : ptype -> string -> value -> Prop :=
| written_int z r : (- 2 ^ 31 <= z < 2 ^ 31)%Z -> starts_with_digit r = false -> written TInt (show_Z z ++ r)%string (VInt z)
| written_nothing s : starts_with_digit s = false -> (forall c r, s = String c r -> is_space c = false /\ c <> "-"%char /\ c <> "+"%char) -> written TInt s (VInt 0)
| written_unsigned z : (0 <= z < 2 ^ 32)%Z -> written TUnsigned (show_Z z) (VUnsigned z)
| written_real s : written TReal s (VReal s)
| written_text s : written TText s (VText s)
| written_bool b : written TBool (if b : bool then "true" else "false") (VBool b).
Definition values_written (items : list item) : Prop := forall p v, In (Gives p v) items -> exists x, written (p_type p) v x.

(** Whether an option is given, and its last value *)
Definition mentions (p : param) (it : item) : bool :=
  match it with Gives p' _ | Sets p' => String.eqb (p_name p) (p_name p') | Other _ => false end.
Definition given (p : param) (items : list item) : bool := existsb (mentions p) items.
Fixpoint last_value (p : param) (items : list item) : option string :=
  match items with
  | [] => None
  | it :: items' =>
      match last_value p items' with
      | Some v => Some v
      | None => match it with Gives p' v => if String.eqb (p_name p) (p_name p') then Some v else None | _ => None end
      end
  end.

(** The value of an option is that of a text. *)
Definition has_value (st : options) (p : param) (text : string) : Prop := exists x, written (p_type p) text x /\ get st (accessor p) = Ok x.

(** Words which are wrong, whatever follows or nothing follows *)
Definition lacks_equal (a : string) : Prop := forall x y, a <> (x ++ "=" ++ y)%string.
Definition valued_letter (c : ascii) : Prop := exists p, In p documented /\ p_short p = Some c.
Inductive wrong : list string -> Prop :=
| unknown a rest : a <> "" -> lacks_equal a -> (forall n, ~ stands_for a n) -> wrong (("--" ++ a)%string :: rest)
| unknown_joined a v rest : lacks_equal a -> (forall n, ~ stands_for a n) -> wrong (("--" ++ a ++ "=" ++ v)%string :: rest)
| no_value_expected a n v rest : stands_for a n -> (forall p, In p documented -> p_type p <> TFlag -> p_name p <> n) -> wrong (("--" ++ a ++ "=" ++ v)%string :: rest)
| value_missing p a : In p documented -> p_type p <> TFlag -> stands_for a (p_name p) -> wrong [("--" ++ a)%string]
| letter_unknown c w rest : c <> "-"%char -> ~ valued_letter c -> wrong (String "-" (String c w) :: rest)
| letter_alone c : valued_letter c -> wrong [String "-" (String c "")].

(** What is printed of the options: the parameters with their values, then the flags which are set *)
Definition is_flag (p : param) : bool := match p_type p with TFlag => true | _ => false end.
Definition values_line (st : options) : list (string * option value) :=
  flat_map (fun p => match get st (accessor p) with Ok v => [(accessor p, Some v)] | _ => [] end) (filter (fun p => negb (is_flag p)) documented).
Definition flags_line (st : options) : list (string * option value) :=
  flat_map (fun p => match with_option st (accessor p) with Ok true => [(accessor p, None)] | _ => [] end) (filter is_flag documented).

(** The names of the options which are written *)
Definition named (items : list item) : list string :=
  flat_map (fun it => match it with Gives p _ | Sets p => [p_name p] | Other _ => [] end) items.
