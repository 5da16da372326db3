(** Vocabulary of the statements about hnco and the words of its command line. *)

From Coq Require Import ZArith String.
From Verif Require Import Base Neighborhood_Model Double Decorator_Model FunctionFactory_Model Application_Model AlgorithmMachine_Model
  Options_Model Options_Spec CommandLine_Model.
Local Open Scope nat_scope.
Local Open Scope string_scope.
Local Open Scope list_scope.

(** An option is asked, by its name *)
Definition asked (items : list item) (name : string) : bool :=
  existsb (fun it => match it with Gives p _ | Sets p => String.eqb (p_name p) name | Other _ => false end) items.

(** The text of an option: the last one which is written, else the default *)
Fixpoint last_text (items : list item) (name : string) : option string :=
  match items with
  | [] => None
  | it :: items' =>
      match last_text items' name, it with
      | Some v, _ => Some v
      | None, Gives p v => if String.eqb (p_name p) name then Some v else None
      | None, _ => None
      end
  end.
Definition default_text (name : string) : option string :=
  match find (fun p => String.eqb (p_name p) name) documented with Some p => p_default p | None => None end.
Definition text_of (items : list item) (name : string) : string :=
  match last_text items name with Some v => v | None => match default_text name with Some d => d | None => "" end end.
(** Its value, for an int *)
Definition int_is (items : list item) (name : string) (z : Z) : Prop := written TInt (text_of items name) (VInt z).

(** * What the words say *)

Section Says.
  Context (E : environment) (items : list item).
  Local Notation asked := (asked items).
  Local Notation text := (text_of items).
  Local Notation "name 'is' z" := (int_is items name z) (at level 70).

  Definition application_says (ap : app_options) : Prop :=
    ap_print_default ap = asked "print-default-parameters" /\
    "num-threads" is ap_threads ap /\
    ap_load ap = (if asked "load-solution" then Some (en_solution E (text "solution-path")) else None) /\
    ap_ask_known ap = asked "fn-has-known-maximum" /\
    ap_ask_maximum ap = asked "fn-get-maximum" /\
    ap_ask_size ap = asked "fn-get-bv-size" /\
    ap_ask_incremental ap = asked "fn-provides-incremental-evaluation" /\
    ap_restart ap = asked "restart" /\
    ap_print_results ap = asked "print-results" /\
    ap_save_results ap = asked "save-results" /\
    ap_concrete ap = asked "concrete-solution" /\
    ap_print_solution ap = asked "print-solution" /\
    ap_save_solution ap = asked "save-solution" /\
    ap_print_description ap = asked "print-description" /\
    ap_save_description ap = asked "save-description".

  Definition controllers_say (co : controller_options) : Prop :=
    "budget" is co_budget co /\
    co_cache co = asked "cache" /\
    co_cache_budget co = asked "cache-budget" /\
    co_stop_on_maximum co = asked "stop-on-maximum" /\
    co_target co = (if asked "target" then Some (en_double E (text "target")) else None) /\
    co_log_improvement co = asked "log-improvement".

  Definition map_says (mp : map_options) : Prop :=
    "map" is mp_kind mp /\
    mp_random mp = asked "map-random" /\
    "map-input-size" is mp_input_size mp /\
    mp_surjective mp = asked "map-surjective" /\
    "map-ts-length" is mp_ts_length mp /\
    "map-ts-sampling-mode" is mp_ts_mode mp.

  (** The neighborhood of the prior noise *)
  Inductive noise_says : option nh_kind -> Prop :=
  | noise_flip : "pn-neighborhood" is 0%Z -> noise_says (Some SingleBitFlip)
  | noise_mutation : "pn-neighborhood" is 1%Z -> noise_says (Some (StandardBitMutation false false))
  | noise_ball r : "pn-neighborhood" is 2%Z -> "pn-radius" is r -> noise_says (Some (HammingBall (Z.to_nat r)))
  | noise_sphere r : "pn-neighborhood" is 3%Z -> "pn-radius" is r -> noise_says (Some (HammingSphere (Z.to_nat r)))
  | noise_unknown z : "pn-neighborhood" is z -> (z < 0 \/ 3 < z)%Z -> noise_says None.

  Definition modifiers_say (mo : modifier_options) : Prop :=
    "bv-size" is mo_size mo /\
    map_says (mo_map mo) /\
    (if asked "prior-noise" then exists kd, mo_prior mo = Some kd /\ noise_says kd else mo_prior mo = None) /\
    mo_parsed mo = (if asked "parsed-modifier" then Some (en_expression E (text "expression")) else None) /\
    mo_minimize mo = asked "minimize" /\
    mo_noise mo = (if asked "additive-gaussian-noise" then Some (en_noise E (en_double E (text "noise-stddev"))) else None).

  (** [st] is what the functions which are not modelled depend on. *)
  Definition function_says (st : options) (fo : fn_options) : Prop :=
    "function" is fn_type fo /\
    "bv-size" is fn_bv_size fo /\
    "fn-threshold" is fn_threshold fo /\
    "fn-num-traps" is fn_num_traps fo /\
    "fn-prefix-length" is fn_prefix_length fo /\
    fn_weights fo = en_weights E (text "path") /\
    fn_other fo = en_function E st.

  Definition algorithm_says (ao : algo_options) : Prop :=
    "algorithm" is ao_algorithm ao /\
    "num-iterations" is ao_num_iterations ao /\
    ao_incremental ao = asked "incremental-evaluation" /\
    "neighborhood" is ao_neighborhood ao /\
    "neighborhood-iterator" is ao_neighborhood_iterator ao /\
    "radius" is ao_radius ao /\
    ao_allow_no_mutation ao = asked "ea-allow-no-mutation" /\
    ao_mutation_rate ao = (if asked "ea-mutation-rate" then Some (en_small E (en_double E (text "ea-mutation-rate"))) else None) /\
    "rls-patience" is ao_rls_patience ao /\
    ao_rls_strict ao = asked "rls-strict" /\
    "sa-num-trials" is ao_sa_num_trials ao.

  Definition say (st : options) (se : settings) : Prop :=
    application_says (se_application se) /\ controllers_say (se_controllers se) /\ modifiers_say (se_modifiers se) /\
    function_says st (se_function se) /\ algorithm_says (se_algorithm se) /\
    (if asked "seed" then exists z, written TUnsigned (text "seed") (VUnsigned z) /\ se_seed se = Some z else se_seed se = None) /\
    se_map_path se = text "map-path".
End Says.

(** The flags which are not about what is optimized *)
Definition no_display (items : list item) : Prop :=
  forall name, In name ["fn-walsh-transform"; "fn-display"; "map-display"; "print-parameters"] -> asked items name = false.
(** The function is not modified. *)
Definition unmodified (mo : modifier_options) : Prop :=
  (mp_kind (mo_map mo) <= 0)%Z /\ mo_prior mo = None /\ mo_parsed mo = None /\ mo_minimize mo = false /\ mo_noise mo = None.
