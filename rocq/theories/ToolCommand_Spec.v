(** Vocabulary of the statements about mapgen, ffgen and hnco-mo and the words of their command
    lines. *)

From Coq Require Import ZArith String.
From Verif Require Import Base Double Application_Model MapFile_Model InstanceFile_Model MultiApplication_Model Options_Model Options_Spec ToolOptions_Model ToolOptions_Spec
  CommandLine_Model CommandLine_Spec ToolCommand_Model.
Local Open Scope string_scope.
Local Open Scope list_scope.
Local Open Scope nat_scope.

(** The text of an option: the last one which is written, else the default *)
Definition tool_default (t : tool) (name : string) : option string :=
  match find (fun p => String.eqb (p_name p) name) (ToolOptions_Spec.documented t) with Some p => p_default p | None => None end.
Definition tool_text (t : tool) (items : list item) (name : string) : string :=
  match last_text items name with Some v => v | None => match tool_default t name with Some d => d | None => "" end end.
(** Its value, for an int *)
Definition tool_int (t : tool) (items : list item) (name : string) (z : Z) : Prop := written TInt (tool_text t items name) (VInt z).

(** The seed of mapgen and ffgen: an int, modulo 2^32 *)
Definition seed_says (t : tool) (items : list item) (s : option Z) : Prop :=
  if asked items "seed" then exists z, tool_int t items "seed" z /\ s = Some (z mod 2 ^ 32)%Z else s = None.

Definition mapgen_says (items : list item) (o : mapgen_options) : Prop :=
  let is := tool_int Mapgen items in
  is "map" (mg_kind o) /\ is "input-size" (mg_input_size o) /\ is "output-size" (mg_output_size o) /\ mg_surjective o = asked items "surjective" /\
  is "ts-length" (mg_ts_length o) /\ is "ts-sampling-mode" (mg_ts_mode o).

Definition ffgen_says (W : surroundings) (items : list item) (o : ffgen_options) : Prop :=
  let is := tool_int Ffgen items in
  let real name := su_double W (tool_text Ffgen items name) in
  is "function" (fg_type o) /\ is "bv-size" (fg_size o) /\ fg_stddev o = real "stddev" /\
  is "lin-generator" (fg_lin_generator o) /\ fg_lin_initial o = real "lin-initial-weight" /\ fg_lin_distance o = real "lin-distance" /\ fg_lin_ratio o = real "lin-ratio" /\
  is "nk-k" (fg_nk_k o) /\
  is "ms-num-clauses" (fg_ms_clauses o) /\ is "ms-num-literals-per-clause" (fg_ms_literals o) /\ fg_ms_planted o = asked items "ms-planted-solution" /\
  fg_ep_bound o = real "ep-upper-bound" /\ is "part-upper-bound" (fg_part_bound o) /\
  is "walsh-num-features" (fg_walsh_features o) /\ is "walsh2-generator" (fg_walsh2_generator o) /\ fg_walsh2_alpha o = real "walsh2-ising-alpha" /\
  is "nn1-generator" (fg_nn1_generator o) /\ is "nn2-generator" (fg_nn2_generator o) /\ is "nn2-num-rows" (fg_rows o) /\ is "nn2-num-columns" (fg_columns o) /\
  fg_coupling o = real "coupling-constant" /\ fg_field o = real "field-constant" /\ fg_periodic o = asked items "periodic-boundary-conditions" /\
  is "sudoku-num-empty-cells" (fg_sudoku_cells o).

(** [n] is the size of the vectors. *)
Definition multi_says (W : surroundings) (items : list item) (n : nat) (o : mo_options) : Prop :=
  let is := tool_int HncoMo items in
  let asked := asked items in
  mo_print_default o = asked "print-default-parameters" /\ is "num-threads" (mo_threads o) /\ is "bv-size" (mo_bv_size o) /\
  mo_ask_size o = asked "fn-get-bv-size" /\ mo_ask_outputs o = asked "fn-get-output-size" /\ mo_ask_display o = asked "fn-display" /\
  is "algorithm" (mo_algorithm o) /\ is "ea-mu" (mo_mu o) /\ is "ea-tournament-size" (mo_tournament o) /\
  mo_small_rate o = (if asked "ea-mutation-rate" then su_small W (tool_text HncoMo items "ea-mutation-rate") n else 1 <? n) /\
  mo_allow_no_mutation o = asked "ea-allow-no-mutation" /\
  mo_crossover_probability o = su_probability W (tool_text HncoMo items "ea-crossover-probability") /\
  is "num-iterations" (mo_num_iterations o) /\
  mo_print_parameters o = asked "print-parameters" /\ mo_print_description o = asked "print-description" /\ mo_print_front o = asked "print-pareto-front".
(** The seed of hnco-mo *)
Definition multi_seed_says (items : list item) (s : option Z) : Prop :=
  if asked items "seed" then exists z, written TUnsigned (tool_text HncoMo items "seed") (VUnsigned z) /\ s = Some z else s = None.
(** The types of functions which the page of the help of hnco-mo lists: hnco-mo-options.cc:289-305 *)
Definition listed_functions : list Z := [520; 521; 522; 523; 524; 530; 531; 532; 533; 534; 1100]%Z.

(** The file [c], at the path [p], is what hnco reads when functions are made. *)
Definition reads_function (E : environment) (pf : platform) (st : options) (p : string) (c : contents) : Prop :=
  en_weights E p = (i <- load_instance 1 (Some c) ;; match i with ILinear w => Ok (map units w) | _ => UB end) /\
  forall k F, file_function pf (Some c) k = Some F -> en_function E st k = Some F.
