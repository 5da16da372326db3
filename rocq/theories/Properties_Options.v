(** Properties of the command line: C134. *)

From Coq Require Import ZArith NArith String Ascii Permutation Lia.
From Verif Require Import Base BaseLemmas Text_Model Double Controller_Model Application_Model Options_Model Options_Spec Options_Proofs.
Local Open Scope string_scope.
Local Open Scope list_scope.

(** * C134: the options of the command line *)

(** The user writes options, with their names, unambiguous abbreviations or letters, in any
    order, any number of times, with other words between them.  The program knows which
    options are given; the value of an option is the last which is given, else its default
    value which the help documents; without default value, reading it is an error. *)
Theorem C134_options items wordss tail ignore_bad_options :
  Forall2 writes items wordss -> values_written items -> (tail = [] \/ exists l, tail = "--" :: l) ->
  exists st, make_options ignore_bad_options (concat wordss ++ tail) = Parsed st /\
    forall p, In p documented ->
      with_option st (accessor p) = Ok (given p items) /\
      (p_type p <> TFlag ->
        match last_value p items, p_default p with
        | Some v, _ => has_value st p v
        | None, Some d => has_value st p d
        | None, None => get st (accessor p) = Throw RuntimeError
        end).
Proof. apply options_theorem. Qed.
Print Assumptions C134_options.

(** A text is the text of one value. *)
Theorem C134_reading t s x y : written t s x -> written t s y -> x = y.
Proof. apply reading. Qed.
Print Assumptions C134_reading.

(** Options which are written once may be written in any order. *)
Theorem C134_order items items' wordss wordss' ignore_bad_options :
  Permutation items items' -> NoDup (named items) -> Forall2 writes items wordss -> Forall2 writes items' wordss' -> values_written items ->
  exists st st', make_options ignore_bad_options (concat wordss) = Parsed st /\ make_options ignore_bad_options (concat wordss') = Parsed st' /\
    forall p, In p documented ->
      with_option st (accessor p) = with_option st' (accessor p) /\ (p_type p <> TFlag -> get st (accessor p) = get st' (accessor p)).
Proof. apply order_theorem. Qed.
Print Assumptions C134_order.

(** Words which are wrong end the program with a failure: unknown or ambiguous names, unknown
    letters, a value for a flag, no value for an option which has one. *)
Theorem C134_wrong items wordss bad : Forall2 writes items wordss -> values_written items -> wrong bad ->
  make_options false (concat wordss ++ bad) = Ended None (Exit 1).
Proof. apply wrong_theorem. Qed.
Print Assumptions C134_wrong.

(** So does a bool which is neither true nor false, *)
Theorem C134_bool items wordss p v ws rest ignore_bad_options : Forall2 writes items wordss -> values_written items ->
  writes (Gives p v) ws -> p_type p = TBool -> v <> "true" -> v <> "false" ->
  make_options ignore_bad_options (concat wordss ++ ws ++ rest) = Ended None (Exit 1).
Proof. apply bool_theorem. Qed.
Print Assumptions C134_bool.

(** but the behavior of the program is undefined when an int is out of range. *)
Theorem C134_overflow items wordss p z r ws rest ignore_bad_options : Forall2 writes items wordss -> values_written items ->
  writes (Gives p (show_Z z ++ r)) ws -> p_type p = TInt -> starts_with_digit r = false -> (z < - 2 ^ 31 \/ 2 ^ 31 <= z)%Z ->
  make_options ignore_bad_options (concat wordss ++ ws ++ rest) = Ended None Undefined.
Proof. apply overflow_theorem. Qed.
Print Assumptions C134_overflow.

(** A page of the help is printed and the program ends with success, whatever follows. *)
Theorem C134_pages items wordss a page rest ignore_bad_options : Forall2 writes items wordss -> values_written items ->
  In page pages -> stands_for a page ->
  make_options ignore_bad_options (concat wordss ++ ("--" ++ a)%string :: rest) = Ended (Some (underscored page)) (Exit 0).
Proof. apply pages_theorem. Qed.
Print Assumptions C134_pages.

(** Whatever the words, when there are options then an option can be read if and only if it is
    given or has a default value; else there is an exception. *)
Theorem C134_accessors ignore_bad_options words st p : make_options ignore_bad_options words = Parsed st -> In p documented ->
  exists b, with_option st (accessor p) = Ok b /\
    (p_type p <> TFlag -> if b || match p_default p with Some _ => true | None => false end
                          then exists v, get st (accessor p) = Ok v else get st (accessor p) = Throw RuntimeError).
Proof. apply accessors_theorem. Qed.
Print Assumptions C134_accessors.

(** Whatever the words, what is printed is, in the order of the help, the values which can be
    read then the flags which are set. *)
Theorem C134_print ignore_bad_options words st : make_options ignore_bad_options words = Parsed st ->
  print_options st = values_line st ++ flags_line st.
Proof. apply print_theorem. Qed.
Print Assumptions C134_print.

(** Non-vacuity: -s 50 --func=40 run --minimize -s20 --target 1e3 *)
Definition the_option (n : string) : param :=
  match find (fun p => String.eqb (p_name p) n) documented with Some p => p | None => mk_param "" None TFlag None end.
Definition example_items : list item :=
  [Gives (the_option "bv-size") "50"; Gives (the_option "function") "40"; Other "run"; Sets (the_option "minimize"); Gives (the_option "bv-size") "20";
   Gives (the_option "target") "1e3"].
Definition example_words : list (list string) := [["-s"; "50"]; ["--func=40"]; ["run"]; ["--minimize"]; ["-s20"]; ["--target"; "1e3"]].
Lemma the_option_documented n : existsb (fun p => String.eqb (p_name p) n) documented = true -> In (the_option n) documented.
Proof.
  intros E. unfold the_option. destruct (find _ documented) as [p|] eqn:F; [now apply find_some in F as [F _]|].
  apply existsb_exists in E as (p & D & E). rewrite (find_none _ _ F p D) in E. discriminate.
Qed.
Example C134_hypotheses : Forall2 writes example_items example_words /\ values_written example_items.
Proof.
  assert (Dn : forall n, existsb (fun p => String.eqb (p_name p) n) documented = true -> In (the_option n) documented) by exact the_option_documented.
  split.
  - repeat apply Forall2_cons; [| | | | | |constructor].
    + apply short_apart; [apply Dn|]; vm_compute; reflexivity.
    + apply (long_joined (the_option "function") "func" "40"); [apply Dn; vm_compute; reflexivity|vm_compute; discriminate|apply standsb_stands; vm_compute; reflexivity].
    + apply other. right. right. exists "r"%char, "un". split; [reflexivity|discriminate].
    + apply (flag (the_option "minimize") "minimize"); [apply Dn; vm_compute; reflexivity|vm_compute; reflexivity|apply standsb_stands; vm_compute; reflexivity].
    + apply short_joined; [apply Dn; vm_compute; reflexivity|vm_compute; reflexivity|discriminate].
    + apply (long_apart (the_option "target") "target" "1e3"); [apply Dn; vm_compute; reflexivity|vm_compute; discriminate|apply standsb_stands; vm_compute; reflexivity].
  - intros p v H. assert (I : forall z, (0 <= z < 100)%Z -> exists x, written TInt (show_Z z ++ "") x) by (intros z Hz; exists (VInt z); constructor; [lia|reflexivity]).
    destruct H as [H|[H|[H|[H|[H|[H|[]]]]]]]; try discriminate; injection H as <- <-; vm_compute p_type.
    + apply (I 50%Z). lia.
    + apply (I 40%Z). lia.
    + apply (I 20%Z). lia.
    + exists (VReal "1e3"). constructor.
Qed.
Example C134_case : exists st, make_options false (concat example_words) = Parsed st /\
  map (fun n => get st n) ["bv_size"; "function"; "algorithm"; "target"; "map_path"; "seed"] =
    [Ok (VInt 20); Ok (VInt 40); Ok (VInt 100); Ok (VReal "1e3"); Ok (VText "map.txt"); Throw RuntimeError] /\
  map (fun n => with_option st n) ["bv_size"; "minimize"; "cache"; "algorithm"] = [Ok true; Ok true; Ok false; Ok false] /\
  In ("target", Some (VReal "1e3")) (print_options st) /\ In ("minimize", None) (print_options st) /\ length (print_options st) = 67.
Proof.
  eexists. split; [vm_compute; reflexivity|]. split; [vm_compute; reflexivity|]. split; [vm_compute; reflexivity|].
  split; [|split; [|vm_compute; reflexivity]]; match goal with |- In ?x ?l => let l' := eval vm_compute in l in change (In x l') end; cbn [In]; auto 100.
Qed.
(** Wrong words: an ambiguous name, an unknown letter, a value for a flag, no value *)
Example C134_wrong_case :
  map (fun ws => make_options false ws) [["--bm"; "1"]; ["-z"]; ["--cache=1"]; ["--budget"]; ["-s"]; ["--hea-bound-moment"; "yes"]; ["--budget"; "2147483648"]; ["--help-ma"]] =
    [Ended None (Exit 1); Ended None (Exit 1); Ended None (Exit 1); Ended None (Exit 1); Ended None (Exit 1); Ended None (Exit 1); Ended None Undefined;
     Ended (Some "help_map") (Exit 0)].
Proof. vm_compute. reflexivity. Qed.
Example C134_wrong_hypotheses : wrong ["--bm"; "1"] /\ wrong ["-z"] /\ wrong ["--cache=1"] /\ wrong ["--budget"] /\ wrong ["-s"].
Proof.
  assert (Dn : forall n, existsb (fun p => String.eqb (p_name p) n) documented = true -> In (the_option n) documented) by exact the_option_documented.
  split; [|split; [|split; [|split]]].
  - apply (unknown "bm"); [discriminate| |apply find_none_stands; vm_compute; reflexivity]. intros [|? [|? [|? x]]] y E; cbn in E; discriminate.
  - apply (letter_unknown "z" ""); [discriminate|]. intros (p & D & E).
    assert (X : forallb (fun p => match p_short p with Some d => negb (Ascii.eqb d "z") | None => true end) documented = true) by (vm_compute; reflexivity).
    rewrite forallb_forall in X. specialize (X p D). rewrite E in X. discriminate.
  - apply (no_value_expected "cache" "cache" "1"); [apply standsb_stands; vm_compute; reflexivity|]. intros p D T E.
    assert (X : forallb (fun p => is_flag p || negb (String.eqb (p_name p) "cache")) documented = true) by (vm_compute; reflexivity).
    rewrite forallb_forall in X. specialize (X p D). rewrite E in X. unfold is_flag in X. destruct (p_type p); try discriminate. contradiction.
  - apply (value_missing (the_option "budget") "budget"); [apply Dn; vm_compute; reflexivity|vm_compute; discriminate|apply standsb_stands; vm_compute; reflexivity].
  - apply letter_alone. exists (the_option "bv-size"). split; [apply Dn|]; vm_compute; reflexivity.
Qed.
(** A word which follows an option is its value, and the text of no int is 0. *)
Example C134_swallowed : exists st, make_options false ["--budget"; "--cache"; "-b"; "ten"; "--seed"; "010"] = Parsed st /\
  get st "budget" = Ok (VInt 0) /\ with_option st "cache" = Ok false /\ get st "seed" = Ok (VUnsigned 8).
Proof. eexists. split; [vm_compute; reflexivity|]. repeat split; vm_compute; reflexivity. Qed.
