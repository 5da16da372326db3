(** Vocabulary of the statements about the command lines of mapgen, ffgen and hnco-mo.  The
    options are those which their help pages describe.  An option, the words of the user, the
    texts of values, whether an option is given and its last value are those of Options_Spec. *)

From Coq Require Import ZArith NArith String Ascii.
From Verif Require Import Base Text_Model Options_Model Options_Spec ToolOptions_Model.
Local Open Scope nat_scope.
Local Open Scope string_scope.
Local Open Scope list_scope.

(** app/mapgen-options.cc:93-125 *)
Definition mapgen_documented : list param := [
  mk_param "input-size" (Some "x"%char) TInt (Some "100"); mk_param "map" (Some "M"%char) TInt (Some "1");
  mk_param "output-size" (Some "y"%char) TInt (Some "100"); mk_param "path" (Some "p"%char) TText (Some "map.txt");
  mk_param "seed" None TInt None; mk_param "surjective" None TFlag None; mk_param "ts-length" None TInt (Some "10");
  mk_param "ts-sampling-mode" None TInt (Some "0")].
Definition mapgen_pages : list string := ["help"; "version"].

(** app/ffgen-options.cc:199-303 *)
Definition ffgen_documented : list param := [
  mk_param "bv-size" (Some "s"%char) TInt (Some "100"); mk_param "coupling-constant" None TReal (Some "1");
  mk_param "ep-upper-bound" None TReal (Some "1"); mk_param "field-constant" None TReal (Some "1");
  mk_param "function" (Some "F"%char) TInt (Some "1"); mk_param "lin-distance" None TReal (Some "1");
  mk_param "lin-generator" None TInt (Some "0"); mk_param "lin-initial-weight" None TReal (Some "1");
  mk_param "lin-ratio" None TReal (Some "2"); mk_param "ms-num-clauses" None TInt (Some "100");
  mk_param "ms-num-literals-per-clause" None TInt (Some "3"); mk_param "ms-planted-solution" None TFlag None;
  mk_param "nk-k" None TInt (Some "3"); mk_param "nn1-generator" None TInt (Some "0");
  mk_param "nn2-generator" None TInt (Some "0"); mk_param "nn2-num-columns" None TInt (Some "10");
  mk_param "nn2-num-rows" None TInt (Some "10"); mk_param "part-upper-bound" None TInt (Some "100");
  mk_param "path" (Some "p"%char) TText (Some "function.txt"); mk_param "periodic-boundary-conditions" None TFlag None;
  mk_param "seed" None TInt None; mk_param "stddev" None TReal (Some "1");
  mk_param "sudoku-num-empty-cells" None TInt (Some "10"); mk_param "walsh2-generator" None TInt (Some "0");
  mk_param "walsh2-ising-alpha" None TReal (Some "2"); mk_param "walsh-num-features" None TInt (Some "100")].
Definition ffgen_pages : list string := ["help"; "version"].

(** lib/hnco/multiobjective/app/hnco-mo-options.cc:245-376 *)
Definition hnco_mo_documented : list param := [
  mk_param "algorithm" (Some "A"%char) TInt (Some "100"); mk_param "bv-size" (Some "s"%char) TInt (Some "100");
  mk_param "ea-allow-no-mutation" None TFlag None; mk_param "ea-crossover-probability" None TReal (Some "0.8");
  mk_param "ea-mu" None TInt (Some "100"); mk_param "ea-mutation-rate" (Some "m"%char) TReal None;
  mk_param "ea-tournament-size" None TInt (Some "2"); mk_param "fn-display" None TFlag None;
  mk_param "fn-get-bv-size" None TFlag None; mk_param "fn-get-output-size" None TFlag None;
  mk_param "fn-name" None TText None; mk_param "fp-default-double-precision" None TReal None;
  mk_param "fp-default-double-rep" None TText (Some "double(0, 1, precision = 1e-3)");
  mk_param "fp-default-double-size" None TInt None; mk_param "fp-default-int-rep" None TText (Some "int(-10, 10)");
  mk_param "fp-default-long-rep" None TText (Some "long(-100, 100)"); mk_param "fp-expression" None TText None;
  mk_param "fp-representations" None TText None;
  mk_param "fp-representations-path" None TText (Some "representations.txt");
  mk_param "function" (Some "F"%char) TInt (Some "180"); mk_param "num-iterations" (Some "i"%char) TInt (Some "100");
  mk_param "num-threads" None TInt (Some "1"); mk_param "path" (Some "p"%char) TText (Some "function.txt");
  mk_param "print-default-parameters" None TFlag None; mk_param "print-description" None TFlag None;
  mk_param "print-parameters" None TFlag None; mk_param "print-pareto-front" None TFlag None;
  mk_param "rep-categorical-representation" None TInt (Some "0");
  mk_param "rep-num-additional-bits" None TInt (Some "2"); mk_param "seed" None TUnsigned None].
Definition hnco_mo_pages : list string := ["help"; "version"; "help-fn"; "help-fp"; "help-rep"; "help-alg"; "help-ea"].

Definition documented (t : tool) : list param :=
  match t with Mapgen => mapgen_documented | Ffgen => ffgen_documented | HncoMo => hnco_mo_documented end.
(** Options which print something and exit *)
Definition pages (t : tool) : list string :=
  match t with Mapgen => mapgen_pages | Ffgen => ffgen_pages | HncoMo => hnco_mo_pages end.
Definition option_names (t : tool) : list string := map p_name (documented t) ++ pages t.

(** [a] is the name of an option, or an abbreviation which begins no other name. *)
Definition begins (a n : string) : Prop := exists r, n = (a ++ r)%string.
Definition stands_for (t : tool) (a name : string) : Prop :=
  In name (option_names t) /\ (a = name \/ begins a name /\ forall n, In n (option_names t) -> begins a n -> n = name).

(** The words which the user writes for an option with a value, a flag, or another word *)
Inductive writes (t : tool) : item -> list string -> Prop :=
| long_joined p a v : In p (documented t) -> p_type p <> TFlag -> stands_for t a (p_name p) -> writes t (Gives p v) [("--" ++ a ++ "=" ++ v)%string]
| long_apart p a v : In p (documented t) -> p_type p <> TFlag -> stands_for t a (p_name p) -> writes t (Gives p v) [("--" ++ a)%string; v]
| short_joined p c v : In p (documented t) -> p_short p = Some c -> v <> "" -> writes t (Gives p v) [String "-" (String c v)]
| short_apart p c v : In p (documented t) -> p_short p = Some c -> writes t (Gives p v) [String "-" (String c ""); v]
| flag p a : In p (documented t) -> p_type p = TFlag -> stands_for t a (p_name p) -> writes t (Sets p) [("--" ++ a)%string]
| other w : w = "" \/ w = "-" \/ (exists c r, w = String c r /\ c <> "-"%char) -> writes t (Other w) [w].

(** The value of an option is that of a text. *)
Definition has_value (t : tool) (st : options) (p : param) (text : string) : Prop := exists x, written (p_type p) text x /\ get t st (accessor p) = Ok x.

(** Words which are wrong, whatever follows or nothing follows *)
Definition valued_letter (t : tool) (c : ascii) : Prop := exists p, In p (documented t) /\ p_short p = Some c.
Inductive wrong (t : tool) : list string -> Prop :=
| unknown a rest : a <> "" -> lacks_equal a -> (forall n, ~ stands_for t a n) -> wrong t (("--" ++ a)%string :: rest)
| unknown_joined a v rest : lacks_equal a -> (forall n, ~ stands_for t a n) -> wrong t (("--" ++ a ++ "=" ++ v)%string :: rest)
| no_value_expected a n v rest : stands_for t a n -> (forall p, In p (documented t) -> p_type p <> TFlag -> p_name p <> n) -> wrong t (("--" ++ a ++ "=" ++ v)%string :: rest)
| value_missing p a : In p (documented t) -> p_type p <> TFlag -> stands_for t a (p_name p) -> wrong t [("--" ++ a)%string]
| letter_unknown c w rest : c <> "-"%char -> ~ valued_letter t c -> wrong t (String "-" (String c w) :: rest)
| letter_alone c : valued_letter t c -> wrong t [String "-" (String c "")].

(** What is printed of the options: the parameters with their values, then the flags which are set *)
Definition values_line (t : tool) (st : options) : list (string * option value) :=
  flat_map (fun p => match get t st (accessor p) with Ok v => [(accessor p, Some v)] | _ => [] end) (filter (fun p => negb (is_flag p)) (documented t)).
Definition flags_line (t : tool) (st : options) : list (string * option value) :=
  flat_map (fun p => match with_option t st (accessor p) with Ok true => [(accessor p, None)] | _ => [] end) (filter is_flag (documented t)).
