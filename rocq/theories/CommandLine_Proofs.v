(** Proofs about hnco and the words of its command line. *)

From Coq Require Import ZArith String Lia.
From Verif Require Import Base BaseLemmas Neighborhood_Model Double Decorator_Model FunctionFactory_Model Application_Model AlgorithmMachine_Model
  Options_Model Options_Spec Options_Proofs CommandLine_Model CommandLine_Spec.
Local Open Scope nat_scope.
Local Open Scope string_scope.
Local Open Scope list_scope.

Definition facts (st : options) (items : list item) : Prop :=
  forall p, In p documented ->
    with_option st (accessor p) = Ok (given p items) /\
    (p_type p <> TFlag -> given p items = true -> last_value p items <> None) /\
    (p_type p <> TFlag ->
      match last_value p items, p_default p with
      | Some v, _ => has_value st p v
      | None, Some d => has_value st p d
      | None, None => get st (accessor p) = Throw RuntimeError
      end).

Lemma asked_given p items : asked items (p_name p) = given p items.
Proof.
  unfold asked, given. induction items as [|it items IH]; [reflexivity|]. cbn [existsb]. rewrite IH. f_equal.
  destruct it; cbn [mentions]; auto using String.eqb_sym.
Qed.
Lemma last_text_value p items : last_text items (p_name p) = last_value p items.
Proof.
  induction items as [|it items IH]; [reflexivity|]. cbn [last_text last_value]. rewrite IH. destruct (last_value p items); [reflexivity|].
  destruct it; [now rewrite String.eqb_sym|reflexivity|reflexivity].
Qed.
Lemma default_text_of p : In p documented -> default_text (p_name p) = p_default p.
Proof.
  intros D. unfold default_text. destruct (find _ documented) as [q|] eqn:F.
  - apply find_some in F as [F1 F2]. apply String.eqb_eq in F2. now rewrite (name_inj q p F1 D F2).
  - pose proof (find_none _ _ F p D) as X. cbn in X. rewrite String.eqb_refl in X. discriminate.
Qed.
Lemma exists_named (q : param -> bool) name : existsb (fun p => String.eqb (p_name p) name && q p) documented = true ->
  exists p, In p documented /\ p_name p = name /\ q p = true.
Proof. intros H. apply existsb_exists in H as (p & D & H). apply andb_prop in H as [H1 H2]. apply String.eqb_eq in H1. eauto. Qed.

Lemma flag_said st items name : facts st items -> existsb (fun p => String.eqb (p_name p) name && true) documented = true ->
  flag_of st (underscored name) = asked items name.
Proof.
  intros F H. apply (exists_named (fun _ => true)) in H as (p & D & <- & _). destruct (F p D) as [F1 _]. unfold flag_of. fold (accessor p). now rewrite F1, asked_given.
Qed.
Definition has_default (p : param) : bool := match p_default p with Some _ => true | None => false end.
Lemma value_said st items name p x : facts st items -> In p documented -> p_name p = name -> p_type p <> TFlag -> has_default p = true \/ asked items name = true ->
  written (p_type p) (text_of items name) x -> get st (underscored name) = Ok x.
Proof.
  intros F D <- T N W. destruct (F p D) as (_ & F1 & F2). specialize (F1 T). specialize (F2 T). fold (accessor p). unfold text_of in W. rewrite last_text_value, (default_text_of p D) in W.
  rewrite asked_given in N. unfold has_default in N.
  assert (X : has_value st p (match last_value p items with Some v => v | None => match p_default p with Some d => d | None => "" end end)).
  { destruct (last_value p items) eqn:L; [exact F2|]. destruct (p_default p); [exact F2|]. exfalso. destruct N as [N|N]; [discriminate|].
    now destruct (F1 N). }
  destruct X as (y & Y & ->). f_equal. exact (reading _ _ _ _ Y W).
Qed.
Lemma facts_hold items wordss tail : Forall2 writes items wordss -> values_written items -> (tail = [] \/ exists l, tail = "--" :: l) ->
  exists st, make_options false (concat wordss ++ tail) = Parsed st /\ facts st items.
Proof.
  intros W V T. destruct (options_theorem items wordss tail false W V T) as (st & M & H). exists st. split; [exact M|].
  assert (F : Forall wf_item items). { clear - W. induction W; constructor; eauto using writes_wf. }
  intros p D. destruct (H p D) as [H1 H2]. split; [exact H1|]. split; [|exact H2]. intros N. apply valuedb_spec in N. now apply given_last.
Qed.

Lemma int_said st items name z : facts st items -> existsb (fun p => String.eqb (p_name p) name && (match p_type p with TInt => true | _ => false end && has_default p)) documented = true ->
  int_is items name z -> int_of st (underscored name) = z.
Proof.
  intros F H W. apply exists_named in H as (p & D & N & H). apply andb_prop in H as [H1 H2]. assert (T : p_type p = TInt) by (destruct (p_type p); congruence).
  unfold int_of. rewrite (value_said st items name p (VInt z)); auto; rewrite T; [discriminate|exact W].
Qed.
Lemma text_said st items name : facts st items -> existsb (fun p => String.eqb (p_name p) name && (match p_type p with TText => true | _ => false end && has_default p)) documented = true ->
  text_from st (underscored name) = text_of items name.
Proof.
  intros F H. apply exists_named in H as (p & D & N & H). apply andb_prop in H as [H1 H2]. assert (T : p_type p = TText) by (destruct (p_type p); congruence).
  unfold text_from. rewrite (value_said st items name p (VText (text_of items name))); auto; rewrite T; [discriminate|constructor].
Qed.
Lemma real_said st items name : facts st items -> existsb (fun p => String.eqb (p_name p) name && match p_type p with TReal => true | _ => false end) documented = true ->
  asked items name = true \/ default_text name <> None -> real_from st (underscored name) = text_of items name.
Proof.
  intros F H A. apply exists_named in H as (p & D & N & H1). assert (T : p_type p = TReal) by (destruct (p_type p); congruence).
  unfold real_from. rewrite (value_said st items name p (VReal (text_of items name)) F D N); [reflexivity|now rewrite T| |rewrite T; constructor].
  destruct A as [A|A]; [now right|left]. subst name. rewrite (default_text_of p D) in A. unfold has_default. destruct (p_default p); [reflexivity|contradiction].
Qed.

Lemma settings_said E st items se : facts st items -> say E items st se -> settings_of E st = se.
Proof.
  intros F H. destruct se as [ap co mo fo ao seed path]. unfold say in H. cbn [se_application se_controllers se_modifiers se_function se_algorithm se_seed se_map_path] in H.
  destruct H as (Hap & Hco & Hmo & Hfo & Hao & Hseed & Hpath).
  assert (FL : forall name, existsb (fun p => String.eqb (p_name p) name && true) documented = true -> flag_of st (underscored name) = asked items name)
    by (intros name; apply flag_said; exact F).
  assert (IN : forall name z, existsb (fun p => String.eqb (p_name p) name && (match p_type p with TInt => true | _ => false end && has_default p)) documented = true ->
    int_is items name z -> int_of st (underscored name) = z) by (intros name z; apply int_said; exact F).
  assert (TX : forall name, existsb (fun p => String.eqb (p_name p) name && (match p_type p with TText => true | _ => false end && has_default p)) documented = true ->
    text_from st (underscored name) = text_of items name) by (intros name; apply text_said; exact F).
  assert (RE : forall name, existsb (fun p => String.eqb (p_name p) name && match p_type p with TReal => true | _ => false end) documented = true ->
    asked items name = true \/ default_text name <> None -> real_from st (underscored name) = text_of items name) by (intros name; apply real_said; exact F).
  unfold settings_of.
  assert (Eap : application_options E st = ap).
  { destruct ap. unfold application_says in Hap. cbn in Hap. destruct Hap as (-> & H1 & -> & -> & -> & -> & -> & -> & -> & -> & -> & -> & -> & -> & ->).
    unfold application_options.
    rewrite (FL "print-default-parameters" eq_refl : flag_of st "print_default_parameters" = _), (IN "num-threads" _ eq_refl H1 : int_of st "num_threads" = _),
      (FL "load-solution" eq_refl : flag_of st "load_solution" = _), (TX "solution-path" eq_refl : text_from st "solution_path" = _),
      (FL "fn-has-known-maximum" eq_refl : flag_of st "fn_has_known_maximum" = _), (FL "fn-get-maximum" eq_refl : flag_of st "fn_get_maximum" = _),
      (FL "fn-get-bv-size" eq_refl : flag_of st "fn_get_bv_size" = _), (FL "fn-provides-incremental-evaluation" eq_refl : flag_of st "fn_provides_incremental_evaluation" = _),
      (FL "restart" eq_refl : flag_of st "restart" = _), (FL "print-results" eq_refl : flag_of st "print_results" = _), (FL "save-results" eq_refl : flag_of st "save_results" = _),
      (FL "concrete-solution" eq_refl : flag_of st "concrete_solution" = _), (FL "print-solution" eq_refl : flag_of st "print_solution" = _),
      (FL "save-solution" eq_refl : flag_of st "save_solution" = _), (FL "print-description" eq_refl : flag_of st "print_description" = _),
      (FL "save-description" eq_refl : flag_of st "save_description" = _). reflexivity. }
  assert (Eco : controllers_options E st = co).
  { destruct co. unfold controllers_say in Hco. cbn in Hco. destruct Hco as (H1 & -> & -> & -> & -> & ->). unfold controllers_options.
    rewrite (IN "budget" _ eq_refl H1 : int_of st "budget" = _), (FL "cache" eq_refl : flag_of st "cache" = _), (FL "cache-budget" eq_refl : flag_of st "cache_budget" = _),
      (FL "stop-on-maximum" eq_refl : flag_of st "stop_on_maximum" = _), (FL "target" eq_refl : flag_of st "target" = _), (FL "log-improvement" eq_refl : flag_of st "log_improvement" = _).
    destruct (asked items "target") eqn:A; [|reflexivity]. rewrite (RE "target" eq_refl (or_introl A) : real_from st "target" = _). reflexivity. }
  assert (Emo : modifiers_options E st = mo).
  { destruct mo as [size mp prior parsed minimize noise]. unfold modifiers_say in Hmo. cbn in Hmo. destruct Hmo as (H1 & Hmp & H3 & -> & -> & ->). unfold modifiers_options.
    rewrite (IN "bv-size" _ eq_refl H1 : int_of st "bv_size" = _), (FL "prior-noise" eq_refl : flag_of st "prior_noise" = _),
      (FL "parsed-modifier" eq_refl : flag_of st "parsed_modifier" = _), (TX "expression" eq_refl : text_from st "expression" = _), (FL "minimize" eq_refl : flag_of st "minimize" = _),
      (FL "additive-gaussian-noise" eq_refl : flag_of st "additive_gaussian_noise" = _).
    assert (D : default_text "noise-stddev" <> None) by (vm_compute; discriminate).
    rewrite (RE "noise-stddev" eq_refl (or_intror D) : real_from st "noise_stddev" = _).
    assert (Emp : maps_options st = mp).
    { destruct mp. unfold map_says in Hmp. cbn in Hmp. destruct Hmp as (M1 & -> & M2 & -> & M3 & M4). unfold maps_options.
      rewrite (IN "map" _ eq_refl M1 : int_of st "map" = _), (FL "map-random" eq_refl : flag_of st "map_random" = _), (IN "map-input-size" _ eq_refl M2 : int_of st "map_input_size" = _),
        (FL "map-surjective" eq_refl : flag_of st "map_surjective" = _), (IN "map-ts-length" _ eq_refl M3 : int_of st "map_ts_length" = _),
        (IN "map-ts-sampling-mode" _ eq_refl M4 : int_of st "map_ts_sampling_mode" = _). reflexivity. }
    rewrite Emp. assert (Epr : (if asked items "prior-noise" then Some (prior_noise_neighborhood st) else None) = prior); [|now rewrite Epr].
    destruct (asked items "prior-noise"); [|now rewrite H3]. destruct H3 as (kd & -> & K). f_equal. unfold prior_noise_neighborhood.
    destruct K as [K|K|r K R|r K R|z K R].
    - now rewrite (IN "pn-neighborhood" _ eq_refl K : int_of st "pn_neighborhood" = _).
    - now rewrite (IN "pn-neighborhood" _ eq_refl K : int_of st "pn_neighborhood" = _).
    - now rewrite (IN "pn-neighborhood" _ eq_refl K : int_of st "pn_neighborhood" = _), (IN "pn-radius" _ eq_refl R : int_of st "pn_radius" = _).
    - now rewrite (IN "pn-neighborhood" _ eq_refl K : int_of st "pn_neighborhood" = _), (IN "pn-radius" _ eq_refl R : int_of st "pn_radius" = _).
    - rewrite (IN "pn-neighborhood" _ eq_refl K : int_of st "pn_neighborhood" = _). destruct z as [|z|z]; [lia| |reflexivity]. destruct z as [[|z|]|[|z|]|]; try reflexivity; lia. }
  assert (Efo : functions_options E st = fo).
  { destruct fo. unfold function_says in Hfo. cbn in Hfo. destruct Hfo as (H1 & H2 & H3 & H4 & H5 & -> & ->). unfold functions_options.
    rewrite (IN "function" _ eq_refl H1 : int_of st "function" = _), (IN "bv-size" _ eq_refl H2 : int_of st "bv_size" = _), (IN "fn-threshold" _ eq_refl H3 : int_of st "fn_threshold" = _),
      (IN "fn-num-traps" _ eq_refl H4 : int_of st "fn_num_traps" = _), (IN "fn-prefix-length" _ eq_refl H5 : int_of st "fn_prefix_length" = _), (TX "path" eq_refl : text_from st "path" = _).
    reflexivity. }
  assert (Eao : algorithms_options E st = ao).
  { destruct ao. unfold algorithm_says in Hao. cbn in Hao. destruct Hao as (H1 & H2 & -> & H3 & H4 & H5 & -> & -> & H6 & -> & H7). unfold algorithms_options.
    rewrite (IN "algorithm" _ eq_refl H1 : int_of st "algorithm" = _), (IN "num-iterations" _ eq_refl H2 : int_of st "num_iterations" = _),
      (FL "incremental-evaluation" eq_refl : flag_of st "incremental_evaluation" = _), (IN "neighborhood" _ eq_refl H3 : int_of st "neighborhood" = _),
      (IN "neighborhood-iterator" _ eq_refl H4 : int_of st "neighborhood_iterator" = _), (IN "radius" _ eq_refl H5 : int_of st "radius" = _),
      (FL "ea-allow-no-mutation" eq_refl : flag_of st "ea_allow_no_mutation" = _), (FL "ea-mutation-rate" eq_refl : flag_of st "ea_mutation_rate" = _),
      (IN "rls-patience" _ eq_refl H6 : int_of st "rls_patience" = _), (FL "rls-strict" eq_refl : flag_of st "rls_strict" = _), (IN "sa-num-trials" _ eq_refl H7 : int_of st "sa_num_trials" = _).
    destruct (asked items "ea-mutation-rate") eqn:A; [|reflexivity]. rewrite (RE "ea-mutation-rate" eq_refl (or_introl A) : real_from st "ea_mutation_rate" = _). reflexivity. }
  assert (Ese : seed_option st = seed).
  { unfold seed_option. rewrite (FL "seed" eq_refl : flag_of st "seed" = _). destruct (asked items "seed") eqn:A; [|now rewrite Hseed]. destruct Hseed as (z & W & ->).
    assert (X : existsb (fun p => String.eqb (p_name p) "seed" && match p_type p with TUnsigned => true | _ => false end) documented = true) by (vm_compute; reflexivity).
    apply exists_named in X as (p & D & N & T). assert (Tp : p_type p = TUnsigned) by (destruct (p_type p); congruence).
    assert (G : get st "seed" = Ok (VUnsigned z)); [|now rewrite G].
    change "seed" with (underscored "seed"). apply (value_said st items "seed" p (VUnsigned z) F D N); [now rewrite Tp|now right|now rewrite Tp]. }
  rewrite Eap, Eco, Emo, Efo, Eao, Ese, (TX "map-path" eq_refl : text_from st "map_path" = _), Hpath. reflexivity.
Qed.
Lemma words_theorem E items wordss tail : Forall2 writes items wordss -> values_written items -> (tail = [] \/ exists l, tail = "--" :: l) -> no_display items ->
  exists st, make_options false (concat wordss ++ tail) = Parsed st /\
    forall se fuel, say E items st se -> hnco E (concat wordss ++ tail) fuel = run_settings E st se fuel.
Proof.
  intros W V T N. destruct (facts_hold items wordss tail W V T) as (st & M & F). exists st. split; [exact M|]. intros se fuel H. unfold hnco. rewrite M.
  rewrite (settings_said E st items se F H).
  assert (X : existsb (flag_of st) other_flags = false).
  { cbn [existsb other_flags].
    rewrite (flag_said st items "fn-walsh-transform" F eq_refl : flag_of st "fn_walsh_transform" = _), (flag_said st items "fn-display" F eq_refl : flag_of st "fn_display" = _),
      (flag_said st items "map-display" F eq_refl : flag_of st "map_display" = _), (flag_said st items "print-parameters" F eq_refl : flag_of st "print_parameters" = _).
    rewrite !N by (cbn; tauto). reflexivity. }
  now rewrite X.
Qed.
