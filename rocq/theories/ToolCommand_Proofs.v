(** Proofs about mapgen, ffgen and hnco-mo and the words of their command lines. *)

From Coq Require Import ZArith String Lia.
From Verif Require Import Base BaseLemmas Double Application_Model MapFile_Model InstanceFile_Model MultiApplication_Model Options_Model Options_Spec Options_Proofs
  CommandLine_Spec CommandLine_Proofs ToolOptions_Model ToolOptions_Spec ToolOptions_Proofs ToolCommand_Model ToolCommand_Spec.
Local Open Scope string_scope.
Local Open Scope list_scope.
Local Open Scope nat_scope.
Local Notation documented := ToolOptions_Spec.documented.
Local Notation writes := ToolOptions_Spec.writes.
Local Notation make_options := ToolOptions_Model.make_options.

Definition tool_facts (t : tool) (st : options) (items : list item) : Prop :=
  forall p, In p (documented t) ->
    ToolOptions_Model.with_option t st (accessor p) = Ok (given p items) /\
    (p_type p <> TFlag -> given p items = true -> last_value p items <> None) /\
    (p_type p <> TFlag ->
      match last_value p items, p_default p with
      | Some v, _ => ToolOptions_Spec.has_value t st p v
      | None, Some d => ToolOptions_Spec.has_value t st p d
      | None, None => ToolOptions_Model.get t st (accessor p) = Throw RuntimeError
      end).
Lemma tool_facts_hold t items wordss tail : Forall2 (writes t) items wordss -> values_written items -> (tail = [] \/ exists l, tail = "--" :: l) ->
  exists st, make_options t false (concat wordss ++ tail) = Parsed st /\ tool_facts t st items.
Proof.
  intros W V T. destruct (ToolOptions_Proofs.options_theorem t items wordss tail false W V T) as (st & M & H). exists st. split; [exact M|].
  assert (F : Forall (ToolOptions_Proofs.wf_item t) items). { clear - W. induction W; constructor; eauto using ToolOptions_Proofs.writes_wf. }
  intros p D. destruct (H p D) as [H1 H2]. split; [exact H1|]. split; [|exact H2]. intros N. apply valuedb_spec in N. now apply (ToolOptions_Proofs.given_last t).
Qed.

Section Said.
  Context (t : tool) (st : options) (items : list item) (F : tool_facts t st items).

  Lemma tool_default_of p : In p (documented t) -> tool_default t (p_name p) = p_default p.
  Proof.
    intros D. unfold tool_default. destruct (find _ (documented t)) as [q|] eqn:E.
    - apply find_some in E as [E1 E2]. apply String.eqb_eq in E2. now rewrite (ToolOptions_Proofs.name_inj t q p E1 D E2).
    - pose proof (find_none _ _ E p D) as X. cbn in X. rewrite String.eqb_refl in X. discriminate.
  Qed.
  Lemma tool_named (q : param -> bool) name : existsb (fun p => String.eqb (p_name p) name && q p) (documented t) = true ->
    exists p, In p (documented t) /\ p_name p = name /\ q p = true.
  Proof. intros H. apply existsb_exists in H as (p & D & H). apply andb_prop in H as [H1 H2]. apply String.eqb_eq in H1. eauto. Qed.

  Lemma tool_flag_said name : existsb (fun p => String.eqb (p_name p) name && true) (documented t) = true -> flag_of t st (underscored name) = asked items name.
  Proof.
    intros H. apply (tool_named (fun _ => true)) in H as (p & D & <- & _). destruct (F p D) as [F1 _]. unfold flag_of. fold (accessor p). now rewrite F1, asked_given.
  Qed.
  Lemma tool_value_said name p x : In p (documented t) -> p_name p = name -> p_type p <> TFlag -> has_default p = true \/ asked items name = true ->
    written (p_type p) (tool_text t items name) x -> ToolOptions_Model.get t st (underscored name) = Ok x.
  Proof.
    intros D <- T N W. destruct (F p D) as (_ & F1 & F2). specialize (F1 T). specialize (F2 T). fold (accessor p). unfold tool_text in W. rewrite last_text_value, (tool_default_of p D) in W.
    rewrite asked_given in N. unfold has_default in N.
    assert (X : ToolOptions_Spec.has_value t st p (match last_value p items with Some v => v | None => match p_default p with Some d => d | None => "" end end)).
    { destruct (last_value p items) eqn:L; [exact F2|]. destruct (p_default p); [exact F2|]. exfalso. destruct N as [N|N]; [discriminate|].
      now destruct (F1 N). }
    destruct X as (y & Y & ->). f_equal. exact (reading _ _ _ _ Y W).
  Qed.
  Lemma tool_int_said name z : existsb (fun p => String.eqb (p_name p) name && (match p_type p with TInt => true | _ => false end && has_default p)) (documented t) = true ->
    tool_int t items name z -> int_of t st (underscored name) = z.
  Proof.
    intros H W. apply tool_named in H as (p & D & N & H). apply andb_prop in H as [H1 H2]. assert (T : p_type p = TInt) by (destruct (p_type p); congruence).
    unfold int_of. rewrite (tool_value_said name p (VInt z)); auto; rewrite T; [discriminate|exact W].
  Qed.
  Lemma tool_text_said name : existsb (fun p => String.eqb (p_name p) name && (match p_type p with TText => true | _ => false end && has_default p)) (documented t) = true ->
    text_from t st (underscored name) = tool_text t items name.
  Proof.
    intros H. apply tool_named in H as (p & D & N & H). apply andb_prop in H as [H1 H2]. assert (T : p_type p = TText) by (destruct (p_type p); congruence).
    unfold text_from. rewrite (tool_value_said name p (VText (tool_text t items name))); auto; rewrite T; [discriminate|constructor].
  Qed.
  Lemma tool_real_said name : existsb (fun p => String.eqb (p_name p) name && (match p_type p with TReal => true | _ => false end && has_default p)) (documented t) = true ->
    real_from t st (underscored name) = tool_text t items name.
  Proof.
    intros H. apply tool_named in H as (p & D & N & H). apply andb_prop in H as [H1 H2]. assert (T : p_type p = TReal) by (destruct (p_type p); congruence).
    unfold real_from. rewrite (tool_value_said name p (VReal (tool_text t items name))); auto; rewrite T; [discriminate|constructor].
  Qed.
  Lemma tool_seed_said s : existsb (fun p => String.eqb (p_name p) "seed" && match p_type p with TInt => true | _ => false end) (documented t) = true ->
    seed_says t items s -> int_seed t st = s.
  Proof.
    intros H S. assert (H0 : existsb (fun p => String.eqb (p_name p) "seed" && true) (documented t) = true).
    { apply existsb_exists in H as (p & D & H). apply existsb_exists. exists p. split; [exact D|]. apply andb_prop in H as [H _]. now rewrite H. }
    unfold int_seed. rewrite (tool_flag_said "seed" H0 : flag_of t st "seed" = _). unfold seed_says in S. destruct (asked items "seed") eqn:A; [|congruence].
    destruct S as (z & W & ->). apply tool_named in H as (p & D & N & H). assert (T : p_type p = TInt) by (destruct (p_type p); congruence).
    unfold int_of. assert (G : ToolOptions_Model.get t st "seed" = Ok (VInt z)).
    { apply (tool_value_said "seed" p (VInt z) D N); [now rewrite T|now right|rewrite T; exact W]. }
    now rewrite G.
  Qed.
End Said.

Lemma int_range t items name z : tool_int t items name z -> (- 2 ^ 31 <= z < 2 ^ 31)%Z.
Proof. intros H. inversion H; lia. Qed.

Lemma mapgen_said st items o : tool_facts Mapgen st items -> mapgen_says items o -> mapgen_settings st = o.
Proof.
  intros F H. destruct o. unfold mapgen_says in H. cbn in H. destruct H as (H1 & H2 & H3 & -> & H4 & H5). pose proof (tool_int_said Mapgen st items F) as IN. unfold mapgen_settings.
  rewrite (IN "map" _ eq_refl H1 : int_of Mapgen st "map" = _), (IN "input-size" _ eq_refl H2 : int_of Mapgen st "input_size" = _),
    (IN "output-size" _ eq_refl H3 : int_of Mapgen st "output_size" = _), (tool_flag_said _ _ _ F "surjective" eq_refl : flag_of Mapgen st "surjective" = _),
    (IN "ts-length" _ eq_refl H4 : int_of Mapgen st "ts_length" = _), (IN "ts-sampling-mode" _ eq_refl H5 : int_of Mapgen st "ts_sampling_mode" = _). reflexivity.
Qed.
Lemma ffgen_said W st items o : tool_facts Ffgen st items -> ffgen_says W items o -> ffgen_settings W st = o.
Proof.
  intros F H. destruct o. unfold ffgen_says in H. cbn in H.
  destruct H as (H1 & H2 & -> & H3 & -> & -> & -> & H4 & H5 & H6 & -> & -> & H7 & H8 & H9 & -> & H10 & H11 & H12 & H13 & -> & -> & -> & H14).
  pose proof (tool_int_said Ffgen st items F) as IN. pose proof (tool_real_said Ffgen st items F) as RE. unfold ffgen_settings.
  rewrite (IN "function" _ eq_refl H1 : int_of Ffgen st "function" = _), (IN "bv-size" _ eq_refl H2 : int_of Ffgen st "bv_size" = _),
    (RE "stddev" eq_refl : real_from Ffgen st "stddev" = _), (IN "lin-generator" _ eq_refl H3 : int_of Ffgen st "lin_generator" = _),
    (RE "lin-initial-weight" eq_refl : real_from Ffgen st "lin_initial_weight" = _), (RE "lin-distance" eq_refl : real_from Ffgen st "lin_distance" = _),
    (RE "lin-ratio" eq_refl : real_from Ffgen st "lin_ratio" = _), (IN "nk-k" _ eq_refl H4 : int_of Ffgen st "nk_k" = _),
    (IN "ms-num-clauses" _ eq_refl H5 : int_of Ffgen st "ms_num_clauses" = _), (IN "ms-num-literals-per-clause" _ eq_refl H6 : int_of Ffgen st "ms_num_literals_per_clause" = _),
    (tool_flag_said _ _ _ F "ms-planted-solution" eq_refl : flag_of Ffgen st "ms_planted_solution" = _), (RE "ep-upper-bound" eq_refl : real_from Ffgen st "ep_upper_bound" = _),
    (IN "part-upper-bound" _ eq_refl H7 : int_of Ffgen st "part_upper_bound" = _), (IN "walsh-num-features" _ eq_refl H8 : int_of Ffgen st "walsh_num_features" = _),
    (IN "walsh2-generator" _ eq_refl H9 : int_of Ffgen st "walsh2_generator" = _), (RE "walsh2-ising-alpha" eq_refl : real_from Ffgen st "walsh2_ising_alpha" = _),
    (IN "nn1-generator" _ eq_refl H10 : int_of Ffgen st "nn1_generator" = _), (IN "nn2-generator" _ eq_refl H11 : int_of Ffgen st "nn2_generator" = _),
    (IN "nn2-num-rows" _ eq_refl H12 : int_of Ffgen st "nn2_num_rows" = _), (IN "nn2-num-columns" _ eq_refl H13 : int_of Ffgen st "nn2_num_columns" = _),
    (RE "coupling-constant" eq_refl : real_from Ffgen st "coupling_constant" = _), (RE "field-constant" eq_refl : real_from Ffgen st "field_constant" = _),
    (tool_flag_said _ _ _ F "periodic-boundary-conditions" eq_refl : flag_of Ffgen st "periodic_boundary_conditions" = _),
    (IN "sudoku-num-empty-cells" _ eq_refl H14 : int_of Ffgen st "sudoku_num_empty_cells" = _). reflexivity.
Qed.
Lemma multi_said W st items n o : tool_facts HncoMo st items -> multi_says W items n o -> mo_settings W st n = o.
Proof.
  intros F H. destruct o. unfold multi_says in H. cbn in H.
  destruct H as (-> & H1 & H2 & -> & -> & -> & H3 & H4 & H5 & -> & -> & -> & H6 & -> & -> & ->).
  pose proof (tool_int_said HncoMo st items F) as IN. pose proof (tool_flag_said HncoMo st items F) as FL. unfold mo_settings, mo_rate.
  rewrite (FL "print-default-parameters" eq_refl : flag_of HncoMo st "print_default_parameters" = _), (IN "num-threads" _ eq_refl H1 : int_of HncoMo st "num_threads" = _),
    (IN "bv-size" _ eq_refl H2 : int_of HncoMo st "bv_size" = _), (FL "fn-get-bv-size" eq_refl : flag_of HncoMo st "fn_get_bv_size" = _),
    (FL "fn-get-output-size" eq_refl : flag_of HncoMo st "fn_get_output_size" = _), (FL "fn-display" eq_refl : flag_of HncoMo st "fn_display" = _),
    (IN "algorithm" _ eq_refl H3 : int_of HncoMo st "algorithm" = _), (IN "ea-mu" _ eq_refl H4 : int_of HncoMo st "ea_mu" = _),
    (IN "ea-tournament-size" _ eq_refl H5 : int_of HncoMo st "ea_tournament_size" = _), (FL "ea-mutation-rate" eq_refl : flag_of HncoMo st "ea_mutation_rate" = _),
    (FL "ea-allow-no-mutation" eq_refl : flag_of HncoMo st "ea_allow_no_mutation" = _),
    (tool_real_said _ _ _ F "ea-crossover-probability" eq_refl : real_from HncoMo st "ea_crossover_probability" = _),
    (IN "num-iterations" _ eq_refl H6 : int_of HncoMo st "num_iterations" = _), (FL "print-parameters" eq_refl : flag_of HncoMo st "print_parameters" = _),
    (FL "print-description" eq_refl : flag_of HncoMo st "print_description" = _), (FL "print-pareto-front" eq_refl : flag_of HncoMo st "print_pareto_front" = _).
  destruct (asked items "ea-mutation-rate") eqn:A; [|reflexivity].
  assert (G : real_from HncoMo st "ea_mutation_rate" = tool_text HncoMo items "ea-mutation-rate"); [|now rewrite G].
  assert (X : existsb (fun p => String.eqb (p_name p) "ea-mutation-rate" && match p_type p with TReal => true | _ => false end) (documented HncoMo) = true) by (vm_compute; reflexivity).
  apply tool_named in X as (p & D & N & T). assert (Tp : p_type p = TReal) by (destruct (p_type p); congruence).
  unfold real_from. assert (G : ToolOptions_Model.get HncoMo st "ea_mutation_rate" = Ok (VReal (tool_text HncoMo items "ea-mutation-rate"))); [|now rewrite G].
  apply (tool_value_said HncoMo st items F "ea-mutation-rate" p _ D N); [now rewrite Tp|now right|rewrite Tp; constructor].
Qed.
Lemma multi_seed_said st items s : tool_facts HncoMo st items -> multi_seed_says items s -> unsigned_seed st = s.
Proof.
  intros F S. unfold unsigned_seed, multi_seed_says in *. rewrite (tool_flag_said HncoMo st items F "seed" eq_refl : flag_of HncoMo st "seed" = _).
  destruct (asked items "seed") eqn:A; [|congruence]. destruct S as (z & W & ->).
  assert (X : existsb (fun p => String.eqb (p_name p) "seed" && match p_type p with TUnsigned => true | _ => false end) (documented HncoMo) = true) by (vm_compute; reflexivity).
  apply tool_named in X as (p & D & N & T). assert (Tp : p_type p = TUnsigned) by (destruct (p_type p); congruence).
  assert (G : ToolOptions_Model.get HncoMo st "seed" = Ok (VUnsigned z)); [|now rewrite G].
  apply (tool_value_said HncoMo st items F "seed" p _ D N); [now rewrite Tp|now right|rewrite Tp; exact W].
Qed.
