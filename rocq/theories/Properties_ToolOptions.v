(** Properties of the command lines of mapgen, ffgen and hnco-mo: C137. *)

From Coq Require Import ZArith NArith String Ascii Permutation Lia.
From Verif Require Import Base BaseLemmas Text_Model Double Controller_Model Application_Model Options_Model Options_Spec ToolOptions_Model ToolOptions_Spec ToolOptions_Proofs.
Local Open Scope string_scope.
Local Open Scope list_scope.

(** * C137: the command lines of mapgen, ffgen and hnco-mo *)

(** As for hnco (C134): the user writes options, with their names, unambiguous abbreviations or
    letters, in any order, any number of times, with other words between them.  The program
    knows which options are given; the value of an option is the last which is given, else its
    default value which the help documents; without default value, reading it is an error. *)
Theorem C137_options t items wordss tail ignore_bad_options :
  Forall2 (writes t) items wordss -> values_written items -> (tail = [] \/ exists l, tail = "--" :: l) ->
  exists st, make_options t ignore_bad_options (concat wordss ++ tail) = Parsed st /\
    forall p, In p (documented t) ->
      with_option t st (accessor p) = Ok (given p items) /\
      (p_type p <> TFlag ->
        match last_value p items, p_default p with
        | Some v, _ => has_value t st p v
        | None, Some d => has_value t st p d
        | None, None => get t st (accessor p) = Throw RuntimeError
        end).
Proof. apply options_theorem. Qed.
Print Assumptions C137_options.

(** Options which are written once may be written in any order. *)
Theorem C137_order t items items' wordss wordss' ignore_bad_options :
  Permutation items items' -> NoDup (named items) -> Forall2 (writes t) items wordss -> Forall2 (writes t) items' wordss' -> values_written items ->
  exists st st', make_options t ignore_bad_options (concat wordss) = Parsed st /\ make_options t ignore_bad_options (concat wordss') = Parsed st' /\
    forall p, In p (documented t) ->
      with_option t st (accessor p) = with_option t st' (accessor p) /\ (p_type p <> TFlag -> get t st (accessor p) = get t st' (accessor p)).
Proof. apply order_theorem. Qed.
Print Assumptions C137_order.

(** Words which are wrong end the program with a failure: unknown or ambiguous names, unknown
    letters, a value for a flag, no value for an option which has one. *)
Theorem C137_wrong t items wordss bad : Forall2 (writes t) items wordss -> values_written items -> wrong t bad ->
  make_options t false (concat wordss ++ bad) = Ended None (Exit 1).
Proof. apply wrong_theorem. Qed.
Print Assumptions C137_wrong.

(** The behavior of the program is undefined when an int is out of range. *)
Theorem C137_overflow t items wordss p z r ws rest ignore_bad_options : Forall2 (writes t) items wordss -> values_written items ->
  writes t (Gives p (show_Z z ++ r)) ws -> p_type p = TInt -> starts_with_digit r = false -> (z < - 2 ^ 31 \/ 2 ^ 31 <= z)%Z ->
  make_options t ignore_bad_options (concat wordss ++ ws ++ rest) = Ended None Undefined.
Proof. apply overflow_theorem. Qed.
Print Assumptions C137_overflow.

(** A page of the help is printed and the program ends with success, whatever follows. *)
Theorem C137_pages t items wordss a page rest ignore_bad_options : Forall2 (writes t) items wordss -> values_written items ->
  In page (pages t) -> stands_for t a page ->
  make_options t ignore_bad_options (concat wordss ++ ("--" ++ a)%string :: rest) = Ended (Some (underscored page)) (Exit 0).
Proof. apply pages_theorem. Qed.
Print Assumptions C137_pages.

(** Whatever the words, when there are options then an option can be read if and only if it is
    given or has a default value; else there is an exception. *)
Theorem C137_accessors t ignore_bad_options words st p : make_options t ignore_bad_options words = Parsed st -> In p (documented t) ->
  exists b, with_option t st (accessor p) = Ok b /\
    (p_type p <> TFlag -> if b || match p_default p with Some _ => true | None => false end
                          then exists v, get t st (accessor p) = Ok v else get t st (accessor p) = Throw RuntimeError).
Proof. apply accessors_theorem. Qed.
Print Assumptions C137_accessors.

(** Whatever the words, what is printed is, in the order of their names, the values which can be
    read then the flags which are set. *)
Theorem C137_print t ignore_bad_options words st : make_options t ignore_bad_options words = Parsed st ->
  print_options t st = values_line t st ++ flags_line t st.
Proof. apply print_theorem. Qed.
Print Assumptions C137_print.

(** Non-vacuity: mapgen -M 4 --out=20 --surjective out -x30; ffgen -F 70 --ms-num-l 3 --ms-planted -s 50;
    hnco-mo -i 10 --seed 010 --print-pareto *)
Definition tool_option (t : tool) (n : string) : param :=
  match find (fun p => String.eqb (p_name p) n) (documented t) with Some p => p | None => mk_param "" None TFlag None end.
Definition tool_items (t : tool) : list item :=
  match t with
  | Mapgen => [Gives (tool_option t "map") "4"; Gives (tool_option t "output-size") "20"; Sets (tool_option t "surjective"); Other "out"; Gives (tool_option t "input-size") "30"]
  | Ffgen => [Gives (tool_option t "function") "70"; Gives (tool_option t "ms-num-literals-per-clause") "3"; Sets (tool_option t "ms-planted-solution"); Other "out";
              Gives (tool_option t "bv-size") "50"]
  | HncoMo => [Gives (tool_option t "num-iterations") "10"; Gives (tool_option t "ea-mutation-rate") "0.1"; Sets (tool_option t "print-pareto-front"); Other "out";
               Gives (tool_option t "bv-size") "50"]
  end.
Definition tool_words (t : tool) : list (list string) :=
  match t with
  | Mapgen => [["-M"; "4"]; ["--out=20"]; ["--surjective"]; ["out"]; ["-x30"]]
  | Ffgen => [["-F"; "70"]; ["--ms-num-l=3"]; ["--ms-planted"]; ["out"]; ["-s50"]]
  | HncoMo => [["-i"; "10"]; ["--ea-mut=0.1"]; ["--print-pareto"]; ["out"]; ["-s50"]]
  end.
Lemma tool_option_documented t n : existsb (fun p => String.eqb (p_name p) n) (documented t) = true -> In (tool_option t n) (documented t).
Proof.
  intros E. unfold tool_option. destruct (find _ (documented t)) as [p|] eqn:F; [now apply find_some in F as [F _]|].
  apply existsb_exists in E as (p & D & E). rewrite (find_none _ _ F p D) in E. discriminate.
Qed.
Example C137_hypotheses t : Forall2 (writes t) (tool_items t) (tool_words t) /\ values_written (tool_items t).
Proof.
  pose proof (tool_option_documented t) as Dn.
  assert (LJ : forall n a v, existsb (fun p => String.eqb (p_name p) n) (documented t) = true -> p_type (tool_option t n) <> TFlag -> stands_for t a (p_name (tool_option t n)) ->
    writes t (Gives (tool_option t n) v) [("--" ++ a ++ "=" ++ v)%string]) by (intros; apply long_joined; auto).
  assert (I : forall z, (0 <= z < 100)%Z -> exists x, written TInt (show_Z z ++ "") x) by (intros z Hz; exists (VInt z); constructor; [lia|reflexivity]).
  assert (O : writes t (Other "out") ["out"]) by (apply other; right; right; exists "o"%char, "ut"; split; [reflexivity|discriminate]).
  split.
  - destruct t; cbn [tool_items tool_words]; repeat apply Forall2_cons; try exact O; try constructor.
    all: try (apply Dn; vm_compute; reflexivity). all: try (vm_compute; reflexivity). all: try discriminate.
    + apply (LJ "output-size" "out" "20"); [vm_compute; reflexivity|vm_compute; discriminate|apply standsb_stands; vm_compute; reflexivity].
    + apply standsb_stands. vm_compute. reflexivity.
    + apply (LJ "ms-num-literals-per-clause" "ms-num-l" "3"); [vm_compute; reflexivity|vm_compute; discriminate|apply standsb_stands; vm_compute; reflexivity].
    + apply standsb_stands. vm_compute. reflexivity.
    + apply (LJ "ea-mutation-rate" "ea-mut" "0.1"); [vm_compute; reflexivity|vm_compute; discriminate|apply standsb_stands; vm_compute; reflexivity].
    + apply standsb_stands. vm_compute. reflexivity.
  - intros p v H. destruct t; cbn [tool_items] in H; destruct H as [H|[H|[H|[H|[H|[]]]]]]; try discriminate; injection H as <- <-; vm_compute p_type.
    + apply (I 4%Z). lia.
    + apply (I 20%Z). lia.
    + apply (I 30%Z). lia.
    + apply (I 70%Z). lia.
    + apply (I 3%Z). lia.
    + apply (I 50%Z). lia.
    + apply (I 10%Z). lia.
    + exists (VReal "0.1"). constructor.
    + apply (I 50%Z). lia.
Qed.
Example C137_case : exists st st' st'',
  make_options Mapgen false (concat (tool_words Mapgen)) = Parsed st /\ make_options Ffgen false (concat (tool_words Ffgen)) = Parsed st' /\
  make_options HncoMo false (concat (tool_words HncoMo)) = Parsed st'' /\
  map (fun n => get Mapgen st n) ["map"; "output_size"; "input_size"; "ts_length"; "path"; "seed"] =
    [Ok (VInt 4); Ok (VInt 20); Ok (VInt 30); Ok (VInt 10); Ok (VText "map.txt"); Throw RuntimeError] /\
  map (fun n => get Ffgen st' n) ["function"; "bv_size"; "stddev"] = [Ok (VInt 70); Ok (VInt 50); Ok (VReal "1")] /\
  map (fun n => with_option Ffgen st' n) ["ms_planted_solution"; "periodic_boundary_conditions"; "function"; "stddev"] = [Ok true; Ok false; Ok true; Ok false] /\
  map (fun n => get HncoMo st'' n) ["num_iterations"; "ea_mutation_rate"; "function"; "seed"] = [Ok (VInt 10); Ok (VReal "0.1"); Ok (VInt 180); Throw RuntimeError] /\
  print_options Mapgen st = [("input_size", Some (VInt 30)); ("map", Some (VInt 4)); ("output_size", Some (VInt 20)); ("path", Some (VText "map.txt"));
    ("ts_length", Some (VInt 10)); ("ts_sampling_mode", Some (VInt 0)); ("surjective", None)].
Proof. do 3 eexists. split; [vm_compute; reflexivity|]. split; [vm_compute; reflexivity|]. split; [vm_compute; reflexivity|]. repeat split; vm_compute; reflexivity. Qed.
(** Wrong words: an ambiguous name, an unknown letter, a value for a flag, no value; an int out of range and a page *)
Example C137_wrong_case :
  map (fun ws => make_options Ffgen false ws) [["--nn2"; "1"]; ["-z"]; ["--ms-planted=1"]; ["--bv-size"]; ["-s"]; ["--nk-k"; "2147483648"]; ["--he"]] =
    [Ended None (Exit 1); Ended None (Exit 1); Ended None (Exit 1); Ended None (Exit 1); Ended None (Exit 1); Ended None Undefined; Ended (Some "help") (Exit 0)].
Proof. vm_compute. reflexivity. Qed.
Example C137_wrong_hypotheses : wrong Ffgen ["--nn2"; "1"] /\ wrong Mapgen ["-z"] /\ wrong HncoMo ["--fn-display=1"] /\ wrong Ffgen ["--bv-size"] /\ wrong HncoMo ["-s"].
Proof.
  split; [|split; [|split; [|split]]].
  - apply (unknown Ffgen "nn2"); [discriminate| |apply find_none_stands; vm_compute; reflexivity]. intros [|? [|? [|? [|? x]]]] y E; cbn in E; discriminate.
  - apply (letter_unknown Mapgen "z" ""); [discriminate|]. intros (p & D & E).
    assert (X : forallb (fun p => match p_short p with Some d => negb (Ascii.eqb d "z") | None => true end) (documented Mapgen) = true) by (vm_compute; reflexivity).
    rewrite forallb_forall in X. specialize (X p D). rewrite E in X. discriminate.
  - apply (no_value_expected HncoMo "fn-display" "fn-display" "1"); [apply standsb_stands; vm_compute; reflexivity|]. intros p D T E.
    assert (X : forallb (fun p => is_flag p || negb (String.eqb (p_name p) "fn-display")) (documented HncoMo) = true) by (vm_compute; reflexivity).
    rewrite forallb_forall in X. specialize (X p D). rewrite E in X. unfold is_flag in X. destruct (p_type p); try discriminate. contradiction.
  - apply (value_missing Ffgen (tool_option Ffgen "bv-size") "bv-size"); [apply tool_option_documented; vm_compute; reflexivity|vm_compute; discriminate|apply standsb_stands; vm_compute; reflexivity].
  - apply letter_alone. exists (tool_option HncoMo "bv-size"). split; [apply tool_option_documented|]; vm_compute; reflexivity.
Qed.
