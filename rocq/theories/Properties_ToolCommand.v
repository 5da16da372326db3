(** Property C138: mapgen, ffgen and hnco-mo and the words of their command lines. *)

From Coq Require Import ZArith NArith String Lia.
From Verif Require BitVector_Proofs InstanceFile_Proofs.
From Verif Require Import Base BaseLemmas BitVector_Model BitVector_Spec Text_Model Text_Proofs Map_Model Double Controller_Model Controller_Spec Decorator_Model Decorator_Spec Decorator_Proofs Properties_Decorator Map_Spec FunctionFactory_Model FunctionFactory_Spec
  Application_Model Application_Spec Search_Model Search_Spec AlgorithmMachine_Model
  MapFile_Model MapFile_Spec MapFile_Proofs Properties_MapFile InstanceFile_Model InstanceFile_Spec Properties_InstanceFile MultiApplication_Model MultiApplication_Spec Properties_Nsga2 Properties_MultiApplication
  Options_Model Options_Spec Options_Proofs Properties_Options CommandLine_Model CommandLine_Spec CommandLine_Proofs Properties_CommandLine
  ToolOptions_Model ToolOptions_Spec ToolOptions_Proofs Properties_ToolOptions ToolCommand_Model ToolCommand_Spec ToolCommand_Proofs.
Local Open Scope string_scope.
Local Open Scope list_scope.
Local Open Scope nat_scope.
Local Open Scope Z_scope.
Local Open Scope nat_scope.
Local Notation draws_ok := Decorator_Spec.draws_ok.
Local Notation tool_writes := ToolOptions_Spec.writes.
Local Notation ends tail := (tail = [] \/ exists l : list string, tail = "--" :: l).

(** ** Pages and wrong words: nothing is written *)

Theorem C138_refused W t items wordss : Forall2 (tool_writes t) items wordss -> values_written items ->
  let run ws := match t with
                | Mapgen => mapgen_program W ws = Some (None, Exit 1)
                | Ffgen => ffgen_program W ws = (None, Exit 1)
                | HncoMo => hnco_mo_program W ws = Some ([], Exit 1)
                end in
  let page ws := match t with
                | Mapgen => mapgen_program W ws = Some (None, Exit 0)
                | Ffgen => ffgen_program W ws = (None, Exit 0)
                | HncoMo => hnco_mo_program W ws = Some ([], Exit 0)
                end in
  (forall bad, ToolOptions_Spec.wrong t bad -> run (concat wordss ++ bad)) /\
  (forall p a rest, In p (ToolOptions_Spec.pages t) -> ToolOptions_Spec.stands_for t a p -> page (concat wordss ++ ("--" ++ a)%string :: rest)).
Proof.
  intros HW V. cbv zeta. split.
  - intros bad B. pose proof (ToolOptions_Proofs.wrong_theorem t items wordss bad HW V B) as X. destruct t; unfold mapgen_program, ffgen_program, hnco_mo_program; now rewrite X.
  - intros p a rest P S. pose proof (ToolOptions_Proofs.pages_theorem t items wordss a p rest false HW V P S) as X.
    destruct t; unfold mapgen_program, ffgen_program, hnco_mo_program; now rewrite X.
Qed.
Print Assumptions C138_refused.

(** ** mapgen *)

(** Whatever the words say, the options are accepted, refused or violate an assertion.  In the
    first case the file at the path of the words is that of the map which is drawn, with the
    seed of the words, if the file can be written; else nothing is written. *)
Theorem C138_mapgen W items wordss tail o s : Forall2 (tool_writes Mapgen) items wordss -> values_written items -> ends tail ->
  mapgen_says items o -> seed_says Mapgen items s ->
  let run := mapgen_program W (concat wordss ++ tail) in
  let p := tool_text Mapgen items "path" in
  let d := su_map W s in
  let n := map_size o in
  (MapFile_Spec.accepted o \/ MapFile_Spec.refused o \/ violates o) /\
  (MapFile_Spec.refused o -> run = Some (None, Exit 1)) /\
  (violates o -> run = Some (None, Undefined)) /\
  (MapFile_Spec.accepted o -> draws_ok (MapFile_Spec.application_options o true) n d ->
    (su_writable W p = false -> run = None \/ run = Some (None, Uncaught)) /\
    (su_writable W p = true ->
      (run = None /\ (4 <= mg_kind o)%Z) \/
      exists a m, run = Some (Some (p, a), Exit 0) /\ make_map (MapFile_Spec.application_options o true) UB d n = Ok (Some m) /\
        forall rest, load_map (mg_kind o) (Some (a ++ rest)) = Ok m)).
Proof.
  intros HW V T SO SS run p d n. destruct (tool_facts_hold Mapgen items wordss tail HW V T) as (st & M & F).
  assert (E : run = match mapgen o d (su_writable W p) with None => None | Some (file, e) => Some (match file with Some a => Some (p, a) | None => None end, e) end).
  { subst run. unfold mapgen_program. rewrite M, (mapgen_said st items o F SO), (tool_seed_said Mapgen st items F s eq_refl SS), (tool_text_said Mapgen st items F "path" eq_refl : text_from Mapgen st "path" = _).
    reflexivity. }
  assert (B : (mg_input_size o < 2 ^ 31 /\ mg_output_size o < 2 ^ 31)%Z).
  { destruct SO as (_ & H1 & H2 & _). apply int_range in H1, H2. lia. }
  split; [|split; [|split]].
  - destruct (C122_options o d true B) as [H|[[H _]|[H _]]]; auto.
  - intros H. rewrite E. rewrite (mapgen_refused o d _ H). reflexivity.
  - intros H. rewrite E. rewrite (mapgen_violates o d _ H). reflexivity.
  - intros A D. split; intros HP; rewrite HP in E.
    + destruct (C122_unwritable o d A D) as [H|H]; rewrite H in E; auto.
    + destruct (C122_generated o d A D) as [[H1 H2]|(a & m & H1 & H2 & H3 & _)]; rewrite H1 in E; [now left|right]. exists a, m. auto.
Qed.
Print Assumptions C138_mapgen.

(** From the words of mapgen to those of hnco: with the map of the file alone, hnco optimizes
    the function composed with the map which mapgen has drawn. *)
Theorem C138_map W items wordss tail o s a E items' wordss' tail' st se F0 f fuel :
  Forall2 (tool_writes Mapgen) items wordss -> values_written items -> ends tail -> mapgen_says items o -> seed_says Mapgen items s ->
  let p := tool_text Mapgen items "path" in
  let d := su_map W s in
  let n := map_size o in
  let i := if ((mg_kind o =? 4) || (mg_kind o =? 5))%Z then Z.to_nat (mg_input_size o) else n in
  MapFile_Spec.accepted o -> draws_ok (MapFile_Spec.application_options o true) n d ->
  mapgen_program W (concat wordss ++ tail) = Some (Some (p, a), Exit 0) ->
  Forall2 Options_Spec.writes items' wordss' -> values_written items' -> ends tail' -> no_display items' ->
  Options_Model.make_options false (concat wordss' ++ tail') = Parsed st -> say E items' st se ->
  text_of items' "map-path" = p -> (forall k, en_map E p k = load_map k (Some a)) ->
  mo_map (se_modifiers se) = MapFile_Spec.application_options o false ->
  (0 < Decorator_Model.mo_size (se_modifiers se))%Z -> mo_prior (se_modifiers se) = None -> mo_parsed (se_modifiers se) = None -> mo_minimize (se_modifiers se) = false -> mo_noise (se_modifiers se) = None ->
  FunctionFactory_Model.make_function (se_function se) = Ok F0 -> 0 < fp_size (f_props F0) -> computes F0 f -> fp_size (f_props F0) = n ->
  exists m F, make_map (MapFile_Spec.application_options o true) UB d n = Ok (Some m) /\ fp_size (f_props F) = i /\
    hnco E (concat wordss' ++ tail') fuel =
      program (se_application se) (se_controllers se) (Ok (Some (Some m, F)))
        (make_algorithm (se_algorithm se) (ra_algorithm (en_random E (se_seed se))) (en_neighbors E) (en_iterations E) (en_garbage E) (en_algorithm E st)) fuel /\
    (forall rs j c x, all_sized i rs -> nth_error (calls (f_obj F) (f_init F) rs) j = Some c -> asks (req c) x -> res c = Ok (RValue (f (map_fn m x)))).
Proof.
  intros HW V T SO SS p d n i A D R HW' V' T' N' M' SE HP HE Hmap Hs P1 P2 P3 P4 HF Hn HC En.
  assert (G : mapgen o d true = Some (Some a, Exit 0)).
  { destruct (C138_mapgen W items wordss tail o s HW V T SO SS) as (_ & _ & _ & H). destruct (H A D) as [H1 H2].
    destruct (su_writable W (tool_text Mapgen items "path")) eqn:WR.
    - clear - R WR HW V T SO SS. destruct (tool_facts_hold Mapgen items wordss tail HW V T) as (st & M & F). unfold mapgen_program in R.
      rewrite M, (mapgen_said st items o F SO), (tool_seed_said Mapgen st items F s eq_refl SS), (tool_text_said Mapgen st items F "path" eq_refl : text_from Mapgen st "path" = _), WR in R.
      fold d in R. destruct (mapgen o d true) as [[[b|] e]|]; try discriminate. injection R as <- <-. reflexivity.
    - destruct (H1 eq_refl) as [X|X]; rewrite X in R; discriminate. }
  set (ra := en_random E (se_seed se)). set (md := mk_modifier_draws (ra_map ra) (en_map E (se_map_path se) (mp_kind (mo_map (se_modifiers se)))) (ra_flips ra)).
  assert (MP : se_map_path se = p) by (destruct SE as (_ & _ & _ & _ & _ & _ & SE); congruence).
  assert (HL : dr_loaded md = load_map (mg_kind o) (Some a)) by (cbn [dr_loaded md]; rewrite MP, HE, Hmap; reflexivity).
  destruct (C122_function o d a (se_modifiers se) md F0 f A D G Hmap HL Hs P1 P2 P3 P4 Hn HC) as [_ H]. destruct (H En) as (m & F & E1 & E2 & E3 & E4 & _).
  exists m, F. split; [exact E1|]. split; [exact E3|]. split; [|exact E4].
  destruct (C135_words E items' wordss' tail' HW' V' T' N') as (st' & M2 & X). assert (st' = st) as -> by congruence. rewrite (X se fuel SE). unfold run_settings. rewrite HF. fold ra md. now rewrite E2.
Qed.
Print Assumptions C138_map.

(** ** ffgen *)

(** Whatever the words say: the options are refused, violate an assertion, or ask for a vector of
    negative size; else the file at the path of the words contains a function, which is as asked
    by the words. *)
Theorem C138_ffgen W items wordss tail o s : Forall2 (tool_writes Ffgen) items wordss -> values_written items -> ends tail ->
  ffgen_says W items o -> seed_says Ffgen items s ->
  let run := ffgen_program W (concat wordss ++ tail) in
  let p := tool_text Ffgen items "path" in
  let d := su_function W s in
  draws_fit o d ->
  (InstanceFile_Spec.refused o -> run = (None, Exit 1)) /\
  (negative_solution o -> run = (None, Uncaught)) /\
  (~ InstanceFile_Spec.accepted o -> ~ InstanceFile_Spec.refused o -> ~ negative_solution o -> run = (None, Undefined)) /\
  (InstanceFile_Spec.accepted o -> su_writable W p = false -> run = (None, Exit 1)) /\
  (InstanceFile_Spec.accepted o -> su_writable W p = true -> exists c, run = (Some (p, c), Exit 0)) /\
  (InstanceFile_Spec.accepted o -> su_writable W p = true -> In (fg_type o) archive_types ->
    exists a i, run = (Some (p, Archive a), Exit 0) /\ type_of i = fg_type o /\ as_asked o d i /\ well_formed i /\ size_of i = expected_size o /\
      (finite i -> load_instance (fg_type o) (Some (Archive a)) = Ok i)).
Proof.
  intros HW V T SO SS run p d FD. destruct (tool_facts_hold Ffgen items wordss tail HW V T) as (st & M & F).
  assert (E : run = let '(file, e) := ffgen o d (su_writable W p) in (match file with Some c => Some (p, c) | None => None end, e)).
  { subst run. unfold ffgen_program. rewrite M, (ffgen_said W st items o F SO), (tool_seed_said Ffgen st items F s eq_refl SS), (tool_text_said Ffgen st items F "path" eq_refl : text_from Ffgen st "path" = _).
    reflexivity. }
  assert (B : options_fit o).
  { destruct SO as (_ & H1 & _ & _ & _ & _ & _ & _ & H2 & _ & _ & _ & H3 & _). apply int_range in H1, H2, H3. unfold options_fit. lia. }
  destruct (C123_options o d B FD) as (X1 & X2 & X3 & X4). rewrite E.
  split; [intros H; now rewrite (X2 H)|]. split; [intros H; now rewrite (X3 H)|]. split; [intros H1 H2 H3; now rewrite (X4 H1 H2 H3)|].
  split; [intros H ->; destruct (X1 H) as [_ Y]; now rewrite Y|]. split.
  - intros H ->. destruct (X1 H) as [[c Y] _]. rewrite Y. eauto.
  - intros H -> TY. destruct (C123_generated o d H B FD TY) as (a & i & Y1 & Y2 & Y3 & Y4 & Y5 & Y6 & _). rewrite Y1. exists a, i. split; [reflexivity|]. split; [exact Y2|]. split; [exact Y3|].
    split; [exact Y4|]. split; [exact Y5|]. intros FI. rewrite <- (app_nil_r a). now apply Y6.
Qed.
Print Assumptions C138_ffgen.

(** From the words of ffgen to those of hnco: the function which hnco makes from the path is the
    function of the file: its size, its maximum and its values, in any history of evaluations. *)
Lemma reads_made E pf st p c fo : reads_function E pf st p c -> fn_weights fo = en_weights E p -> fn_other fo = en_function E st -> In (fn_type fo) archive_types ->
  FunctionFactory_Model.make_function fo = FunctionFactory_Model.make_function (with_file pf (Some c) fo).
Proof.
  intros [R1 R2] HWt HO T. unfold FunctionFactory_Model.make_function. cbn [with_file fn_bv_size fn_type fn_weights fn_other]. destruct (fn_bv_size fo <=? 0)%Z; [reflexivity|].
  rewrite HWt, HO, R1. cbn [archive_types In] in T.
  destruct T as [X|[X|[X|[X|[X|[X|[X|[X|[X|[]]]]]]]]]]; rewrite <- X; try reflexivity; cbn [file_function]; erewrite R2; reflexivity.
Qed.
Theorem C138_function W items wordss tail o s a i E pf items' wordss' tail' st se :
  Forall2 (tool_writes Ffgen) items wordss -> values_written items -> ends tail -> ffgen_says W items o -> seed_says Ffgen items s ->
  let p := tool_text Ffgen items "path" in
  ffgen_program W (concat wordss ++ tail) = (Some (p, Archive a), Exit 0) -> load_instance (fg_type o) (Some (Archive a)) = Ok i -> well_formed i ->
  Forall2 Options_Spec.writes items' wordss' -> values_written items' -> ends tail' -> no_display items' ->
  Options_Model.make_options false (concat wordss' ++ tail') = Parsed st -> say E items' st se ->
  In (fg_type o) archive_types -> fn_type (se_function se) = fg_type o -> (0 < fn_bv_size (se_function se))%Z -> text_of items' "path" = p -> reads_function E pf st p (Archive a) -> respects (pf_near pf) ->
  exists F, FunctionFactory_Model.make_function (se_function se) = Ok F /\ fp_size (f_props F) = size_of i /\
    fp_inc (f_props F) = has_incremental (fg_type o) /\ fp_known (f_props F) = Ok (maximum_known (fg_type o)) /\
    (maximum_known (fg_type o) = true -> exists m, fp_max (f_props F) = Ok m /\ greatest_value (pf_near pf) i m) /\
    (forall rs, Forall (proper (pf_near pf) i) rs -> map res (calls (f_obj F) (f_init F) rs) = map (answer (pf_near pf) i) rs) /\
    forall fuel, hnco E (concat wordss' ++ tail') fuel =
      program (se_application se) (se_controllers se)
        (make_function_modifier (se_modifiers se)
          (mk_modifier_draws (ra_map (en_random E (se_seed se))) (en_map E (se_map_path se) (mp_kind (mo_map (se_modifiers se)))) (ra_flips (en_random E (se_seed se)))) (Ok F))
        (make_algorithm (se_algorithm se) (ra_algorithm (en_random E (se_seed se))) (en_neighbors E) (en_iterations E) (en_garbage E) (en_algorithm E st)) fuel.
Proof.
  intros HW V T SO SS p R HL WF HW' V' T' N' M' SE TY ET Hs HP HR RS.
  assert (FS : fn_weights (se_function se) = en_weights E p /\ fn_other (se_function se) = en_function E st).
  { destruct SE as (_ & _ & _ & (_ & _ & _ & _ & _ & H1 & H2) & _). rewrite H1, HP. auto. }
  destruct FS as [F1 F2]. rewrite <- ET in HL, TY. pose proof (reads_made E pf st p (Archive a) (se_function se) HR F1 F2 TY) as MM.
  destruct (C123_function pf (Some (Archive a)) (se_function se) i RS TY Hs HL WF) as (F & X1 & X2 & X3 & X4 & X5 & _ & X6). rewrite ET in X3, X4, X5.
  exists F. rewrite <- MM in X1. split; [exact X1|]. split; [exact X2|]. split; [exact X3|]. split; [exact X4|]. split; [exact X5|]. split; [exact X6|]. intros fuel.
  destruct (C135_words E items' wordss' tail' HW' V' T' N') as (st' & M2 & X). assert (st' = st) as -> by congruence. rewrite (X se fuel SE). unfold run_settings. now rewrite X1.
Qed.
Print Assumptions C138_function.

(** ** hnco-mo *)

(** The run is that of the options which the words say, with their seed: C121 tells what it is.
    [f] is the function which the factory makes. *)
Theorem C138_multi W items wordss tail s : Forall2 (tool_writes HncoMo) items wordss -> values_written items -> ends tail -> multi_seed_says items s ->
  exists st, ToolOptions_Model.make_options HncoMo false (concat wordss ++ tail) = Parsed st /\
  let run := hnco_mo_program W (concat wordss ++ tail) in
  forall t size op, tool_int HncoMo items "function" t -> tool_int HncoMo items "bv-size" size ->
    (forall f, su_objectives W st = Ok f -> (0 < size)%Z -> In t listed_functions -> multi_says W items (mf_size f) op -> run = mo_program op (Ok f) (su_multi W s)) /\
    (((size <= 0)%Z \/ ~ In t listed_functions) -> multi_says W items 0 op ->
       mo_print_default op = false -> run = Some ([], Exit 1)).
Proof.
  intros HW V T SS. destruct (tool_facts_hold HncoMo items wordss tail HW V T) as (st & M & F). exists st. split; [exact M|]. intros run t size op HT HS.
  subst run. unfold hnco_mo_program. rewrite M, (multi_seed_said st items s F SS). unfold mo_function_factory.
  rewrite (tool_int_said HncoMo st items F "bv-size" _ eq_refl HS : int_of HncoMo st "bv_size" = _), (tool_int_said HncoMo st items F "function" _ eq_refl HT : int_of HncoMo st "function" = _).
  split.
  - intros f Hf Z0 I SO. destruct (Z.leb_spec size 0); [lia|].
    assert (X : existsb (Z.eqb t) mo_cases = true) by (apply existsb_exists; exists t; split; [exact I|apply Z.eqb_refl]).
    rewrite X, Hf. cbn [mo_size]. now rewrite (multi_said W st items _ op F SO).
  - intros B SO PD.
    assert (X : (if (size <=? 0)%Z then Throw RuntimeError else if existsb (Z.eqb t) mo_cases then su_objectives W st else Throw RuntimeError) = Throw RuntimeError).
    { destruct B as [B|B]; [destruct (Z.leb_spec size 0); [reflexivity|lia]|]. destruct (size <=? 0)%Z; [reflexivity|].
      destruct (existsb (Z.eqb t) mo_cases) eqn:EX; [|reflexivity]. exfalso. apply existsb_exists in EX as (y & I & Y). apply Z.eqb_eq in Y. subst y. exact (B I). }
    rewrite X. cbn [mo_size]. rewrite (multi_said W st items 0 op F SO). unfold mo_program, mo_init. rewrite PD. now destruct (mo_threads op <? 1)%Z.
Qed.
Print Assumptions C138_multi.

(** The default type of function is unknown: a command line of hnco-mo which does not tell the
    type of function fails, unless the default parameters are asked. *)
Theorem C138_default_function W items wordss tail : Forall2 (tool_writes HncoMo) items wordss -> values_written items -> ends tail ->
  asked items "function" = false -> asked items "print-default-parameters" = false ->
  hnco_mo_program W (concat wordss ++ tail) = Some ([], Exit 1).
Proof.
  intros HW V T NF ND. destruct (tool_facts_hold HncoMo items wordss tail HW V T) as (st & M & F). unfold hnco_mo_program. rewrite M.
  assert (X : mo_function_factory W st = Throw RuntimeError).
  { unfold mo_function_factory. destruct (_ <=? 0)%Z; [reflexivity|].
    assert (H : tool_int HncoMo items "function" 180).
    { unfold tool_int, tool_text. assert (L : last_text items "function" = None).
      { clear - NF. induction items as [|it items IH]; [reflexivity|]. unfold asked in NF. cbn [existsb] in NF. apply orb_false_elim in NF as [N1 N2]. cbn [last_text]. rewrite (IH N2).
        destruct it; cbn in N1; [now rewrite N1|reflexivity|reflexivity]. }
      rewrite L. apply (written_int 180 ""); [lia|reflexivity]. }
    rewrite (tool_int_said HncoMo st items F "function" _ eq_refl H : int_of HncoMo st "function" = _). reflexivity. }
  rewrite X. unfold mo_program, mo_init, mo_settings. cbn [mo_print_default mo_threads].
  rewrite (tool_flag_said HncoMo st items F "print-default-parameters" eq_refl : flag_of HncoMo st "print_default_parameters" = _), ND.
  destruct (_ <? 1)%Z; reflexivity.
Qed.
Print Assumptions C138_default_function.

(** ** From a command line to the other *)

(** ffgen -F 1 -s n --lin-generator 1 -p p writes the linear function of weights 1, 2, ..., n to
    the file p; then hnco -F 1 -s n -p p -A 0 -b 0 --stop-on-maximum --print-solution prints n
    ones. *)
Definition linear_items (n : nat) (p : string) : list item :=
  [Gives (tool_option Ffgen "function") "1"; Gives (tool_option Ffgen "bv-size") (show_Z (Z.of_nat n)); Gives (tool_option Ffgen "lin-generator") "1"; Gives (tool_option Ffgen "path") p].
Definition linear_words (n : nat) (p : string) : list (list string) := [["-F"; "1"]; ["-s"; show_Z (Z.of_nat n)]; ["--lin-generator"; "1"]; ["-p"; p]].
Definition solved_items (n : nat) (p : string) : list item :=
  [Gives (the_option "function") "1"; Gives (the_option "path") p] ++ onemax_items n.
Definition solved_words (n : nat) (p : string) : list (list string) := [["-F"; "1"]; ["-p"; p]] ++ onemax_words n.
Lemma shown_int z : (- 2 ^ 31 <= z < 2 ^ 31)%Z -> written TInt (show_Z z) (VInt z).
Proof. intros Hz. rewrite <- (append_nothing (show_Z z)). now constructor. Qed.
Definition linear_options (W : surroundings) (n : nat) : ffgen_options :=
  let one := su_double W "1" in
  mk_ffgen_options 1 (Z.of_nat n) one 1 one one (su_double W "2") 3 100 3 false one 100 100 0 (su_double W "2") 0 0 10 10 one one false 10.
Definition solved_settings (E : environment) (st : options) (n : nat) (p : string) : settings :=
  let se := onemax_settings E st n in
  mk_settings (se_application se) (se_controllers se) (se_modifiers se)
    (mk_fn_options 1 (Z.of_nat n) 10 10 2 (en_weights E p) (en_function E st)) (se_algorithm se) None "map.txt".
Lemma linear_written n p : (Z.of_nat n < 2 ^ 31)%Z -> Forall2 (tool_writes Ffgen) (linear_items n p) (linear_words n p) /\ values_written (linear_items n p).
Proof.
  intros H. pose proof (tool_option_documented Ffgen) as Dn. split.
  - repeat apply Forall2_cons; [| | | |constructor].
    + apply ToolOptions_Spec.short_apart; [apply Dn|]; vm_compute; reflexivity.
    + apply ToolOptions_Spec.short_apart; [apply Dn|]; vm_compute; reflexivity.
    + apply (ToolOptions_Spec.long_apart Ffgen (tool_option Ffgen "lin-generator") "lin-generator" "1");
        [apply Dn; vm_compute; reflexivity|vm_compute; discriminate|apply ToolOptions_Proofs.standsb_stands; vm_compute; reflexivity].
    + apply ToolOptions_Spec.short_apart; [apply Dn|]; vm_compute; reflexivity.
  - intros q v I. destruct I as [I|[I|[I|[I|[]]]]]; injection I as <- <-; vm_compute p_type.
    + exists (VInt 1). apply (shown_int 1). lia.
    + exists (VInt (Z.of_nat n)). apply shown_int. lia.
    + exists (VInt 1). apply (shown_int 1). lia.
    + exists (VText p). constructor.
Qed.
Lemma linear_says W n p : (Z.of_nat n < 2 ^ 31)%Z -> ffgen_says W (linear_items n p) (linear_options W n) /\ seed_says Ffgen (linear_items n p) None.
Proof.
  intros H. split; [|reflexivity]. unfold ffgen_says, tool_int, linear_options. cbn - [tool_text asked].
  repeat match goal with |- _ /\ _ => split end;
    match goal with
    | |- written TInt _ (VInt (Z.of_nat n)) => apply (shown_int (Z.of_nat n)); lia
    | |- written TInt _ (VInt ?z) => apply (shown_int z); lia
    | |- _ => reflexivity
    end.
Qed.
Lemma solved_written n p : 0 < n -> (Z.of_nat n < 2 ^ 31)%Z -> Forall2 Options_Spec.writes (solved_items n p) (solved_words n p) /\ values_written (solved_items n p).
Proof.
  intros H1 H2. destruct (onemax_written n H1 H2) as [HW V]. assert (Dn : forall n, existsb (fun p => String.eqb (p_name p) n) Options_Spec.documented = true -> In (the_option n) Options_Spec.documented) by exact the_option_documented.
  split.
  - apply Forall2_cons; [|apply Forall2_cons; [|exact HW]].
    + apply Options_Spec.short_apart; [apply Dn|]; vm_compute; reflexivity.
    + apply Options_Spec.short_apart; [apply Dn|]; vm_compute; reflexivity.
  - intros q v I. destruct I as [I|[I|I]]; [injection I as <- <-; vm_compute p_type..|now apply (V q v)].
    + exists (VInt 1). apply (shown_int 1). lia.
    + exists (VText p). constructor.
Qed.
Lemma solved_say E st n p : 0 < n -> (Z.of_nat n < 2 ^ 31)%Z -> say E (solved_items n p) st (solved_settings E st n p).
Proof.
  intros H1 H2. unfold say, application_says, controllers_say, modifiers_say, map_says, function_says, algorithm_says, solved_settings, onemax_settings, int_is. cbn - [text_of asked].
  repeat match goal with |- _ /\ _ => split end;
    match goal with
    | |- written TInt _ (VInt (Z.of_nat n)) => apply (shown_int (Z.of_nat n)); lia
    | |- written TInt _ (VInt ?z) => apply (shown_int z); lia
    | |- _ => reflexivity
    end.
Qed.
Theorem C138_linear W E n p fuel : 0 < n -> (Z.of_nat n < 2 ^ 31)%Z -> su_double W "1" = dint 1 -> su_writable W p = true -> 2 ^ n < fuel ->
  exists c, ffgen_program W ["-F"; "1"; "-s"; show_Z (Z.of_nat n); "--lin-generator"; "1"; "-p"; p] = (Some (p, c), Exit 0) /\
    load_instance 1 (Some c) = Ok (ILinear (map (fun j => dint (Z.of_nat j)) (seq 1 n))) /\
    forall pf, (forall st, reads_function E pf st p c) ->
      hnco E ["-F"; "1"; "-p"; p; "-A"; "0"; "-s"; show_Z (Z.of_nat n); "-b"; "0"; "--stop-on-maximum"; "--print-solution"] fuel = Some ([OSolution Printed (repeat true n)], Exit 0).
Proof.
  intros H1 H2 ONE WR HF. destruct (linear_written n p H2) as [HW V]. destruct (linear_says W n p H2) as [SO SS].
  set (w := map (fun j => dint (Z.of_nat j)) (seq 1 n)). exists (put_file (ILinear w)).
  destruct (tool_facts_hold Ffgen (linear_items n p) (linear_words n p) [] HW V (or_introl eq_refl)) as (st & M & F). cbn [concat linear_words app] in M.
  assert (G : ffgen (linear_options W n) (su_function W None) true = (Some (put_file (ILinear w)), Exit 0)).
  { destruct (C123_progressions (linear_options W n) (su_function W None) 1 1 eq_refl) as [P _]; [cbn; lia|exact ONE|].
    rewrite P; [|reflexivity|exact ONE|cbn [fg_size linear_options]; lia]. do 4 f_equal. cbn [fg_size linear_options]. rewrite Nat2Z.id. unfold w.
    rewrite <- seq_shift, map_map. apply map_ext. intros j. f_equal. lia. }
  assert (L : load_instance 1 (Some (put_file (ILinear w))) = Ok (ILinear w)).
  { unfold put_file. rewrite <- (app_nil_r (put_instance _)). apply (InstanceFile_Proofs.load_put (ILinear w)); try exact I. cbn [finite]. apply Forall_forall. intros x Hx.
    unfold w in Hx. apply in_map_iff in Hx as (j & <- & _). eexists. reflexivity. }
  split; [|split; [exact L|]].
  - unfold ffgen_program. rewrite M, (ffgen_said W st _ _ F SO), (tool_seed_said Ffgen st _ F None eq_refl SS), (tool_text_said Ffgen st _ F "path" eq_refl : text_from Ffgen st "path" = _).
    change (tool_text Ffgen (linear_items n p) "path") with p. now rewrite WR, G.
  - intros pf R. destruct (solved_written n p H1 H2) as [HW' V'].
    assert (N : no_display (solved_items n p)) by (intros name H; destruct H as [<-|[<-|[<-|[<-|[]]]]]; reflexivity).
    destruct (C135_words E (solved_items n p) (solved_words n p) [] HW' V' (or_introl eq_refl) N) as (st' & M' & _). pose proof (solved_say E st' n p H1 H2) as S.
    set (u := map InstanceFile_Model.units w).
    assert (EW : en_weights E p = Ok u) by (destruct (R st') as [R1 _]; rewrite R1, L; reflexivity).
    assert (LU : length u = n) by (unfold u, w; now rewrite !map_length, seq_length).
    assert (MF : FunctionFactory_Model.make_function (se_function (solved_settings E st' n p)) = Ok (linear_function u)).
    { unfold FunctionFactory_Model.make_function. cbn [se_function solved_settings fn_bv_size fn_type fn_weights]. destruct (Z.leb_spec (Z.of_nat n) 0); [lia|]. now rewrite EW. }
    assert (FM : first_maximizer (se_function (solved_settings E st' n p)) = repeat true n).
    { unfold first_maximizer. cbn [se_function solved_settings fn_type fn_weights]. rewrite EW. unfold u, w. rewrite !map_map.
      transitivity (map (fun _ => true) (seq 1 n)).
      - apply map_ext_in. intros j Hj. apply in_seq in Hj. apply Z.ltb_lt. cbn [dint InstanceFile_Model.units]. apply Z.mul_pos_pos; lia.
      - clear. generalize 1. induction n as [|n IH]; intros k; [reflexivity|]. cbn. now rewrite IH. }
    destruct (C135_maximum E (solved_items n p) (solved_words n p) [] st' (solved_settings E st' n p) (linear_function u) HW' V' (or_introl eq_refl) N M' S) as [LX C].
    + unfold usual. cbn [se_function solved_settings fn_type fn_weights]. split; [vm_compute; tauto|]. split; [lia|]. split; [lia|]. split; [lia|]. intros _ X. rewrite EW in X. injection X as X.
      rewrite X in LU. cbn in LU. lia.
    + exact MF.
    + repeat split. cbn. lia.
    + reflexivity.
    + repeat split. cbn. lia.
    + reflexivity.
    + reflexivity.
    + cbn [f_props linear_function fp_size] in C. rewrite LU in C. destruct (C fuel HF) as (r & x & C1 & C2). rewrite FM in C1, C2.
      assert (K : (N.to_nat (value_lsb (repeat true n)) <? allowed (se_controllers (solved_settings E st' n p)) (2 ^ n)) = true).
      { apply Nat.ltb_lt. unfold allowed. cbn [se_controllers solved_settings onemax_settings co_budget]. cbn [Z.ltb Z.compare].
        pose proof (BitVector_Proofs.value_lsb_lt (repeat true n)) as B. rewrite repeat_length in B.
        apply Nat.compare_lt_iff. rewrite <- (Nat2N.id (2 ^ n)), Nat2N.inj_pow, <- N2Nat.inj_compare. exact B. }
      rewrite K in C1, C2. destruct C2 as (-> & _).
      change (concat (solved_words n p) ++ []) with ["-F"; "1"; "-p"; p; "-A"; "0"; "-s"; show_Z (Z.of_nat n); "-b"; "0"; "--stop-on-maximum"; "--print-solution"] in C1.
      rewrite C1. unfold report, shown. cbn [se_application solved_settings onemax_settings ap_concrete]. unfold describes. cbn [ap_print_description ap_save_description orb negb].
      unfold show_results, show_solution, show_description, also. reflexivity.
Qed.
Print Assumptions C138_linear.

(** Non-vacuity.  The random numbers are those of the examples of C121, C122 and C123. *)
Definition example_surroundings : surroundings :=
  mk_surroundings (fun s => if String.eqb s "2" then dint 2 else dint 1) (fun p => negb (String.eqb p "/")) (fun _ => example_map_draws) (fun _ => example_ffgen_draws) (fun _ => example_mo_draws)
    (fun _ _ => false) (fun _ => 0%Z) (fun _ => Ok (mk_mo_function 4 (halves (fun _ => None)))).
(** hnco reads the map [a] at the path m and the function [c] at the path f. *)
Definition reading_environment (a : archive) (c : contents) : environment :=
  mk_environment (fun _ => DFin 2) (fun _ _ => false) (fun _ => Throw RuntimeError) (fun p k => if String.eqb p "m" then load_map k (Some a) else Throw RuntimeError)
    (fun p => if String.eqb p "f" then i <- load_instance 1 (Some c) ;; match i with ILinear w => Ok (map InstanceFile_Model.units w) | _ => UB end else Throw RuntimeError)
    (fun _ => None) (fun _ _ v => v) (en_random example_environment) (fun _ k => file_function example_platform (Some c) k) (fun _ _ => UB) (fun _ => None) 9 20 0.
Definition example_archive : archive := [3; 2; 1; 0; 2; 0; 1; 2; 1; 1; 3; 1; 0; 0]%Z.
Definition mapgen_items : list item :=
  [Gives (tool_option Mapgen "map") "5"; Gives (tool_option Mapgen "input-size") "2"; Gives (tool_option Mapgen "output-size") "3"; Gives (tool_option Mapgen "ts-length") "1";
   Gives (tool_option Mapgen "path") "m"; Gives (tool_option Mapgen "seed") "-1"].
Definition mapgen_words : list (list string) := [["-M5"]; ["-x"; "2"]; ["-y3"]; ["--ts-l"; "1"]; ["-pm"]; ["--seed"; "-1"]].
Definition mapped_items : list item :=
  [Gives (the_option "map") "5"; Gives (the_option "map-input-size") "2"; Gives (the_option "bv-size") "3"; Gives (the_option "map-ts-length") "1";
   Gives (the_option "map-path") "m"; Gives (the_option "algorithm") "0"; Sets (the_option "print-solution")].
Definition mapped_words : list (list string) := [["--map"; "5"]; ["--map-input-size"; "2"]; ["-s3"]; ["--map-ts-length"; "1"]; ["--map-path"; "m"]; ["-A0"]; ["--print-solution"]].
Example C138_case : let W := example_surroundings in
  mapgen_program W (concat mapgen_words) = Some (Some ("m", example_archive), Exit 0) /\
  mapgen_program W ["-M4"; "-x2"; "-y3"; "--surjective"] = Some (None, Exit 1) /\ mapgen_program W ["-M4"; "-x0"; "-y3"; "--surjective"] = Some (None, Undefined) /\
  mapgen_program W ["-M"; "1"; "-p/"] = Some (None, Uncaught) /\
  hnco (reading_environment example_archive (Archive [])) (concat mapped_words) 100 = Some ([OSolution Printed [false; true]], Exit 0) /\
  fst (ffgen_program W ["-F91"; "-s3"]) = Some ("function.txt", put_file (IPartition [1; 2; 3]%Z)) /\
  ffgen_program W ["--function=2"] = (None, Exit 1) /\ ffgen_program W ["-s"; "0"] = (None, Undefined) /\ ffgen_program W ["-s"; "-1"; "-F70"; "--ms-planted-solution"] = (None, Uncaught) /\
  hnco_mo_program W ["-F520"; "-s4"; "--fn-get-bv-size"] = Some ([MoSize 4], Exit 0) /\ hnco_mo_program W ["-s4"] = Some ([], Exit 1) /\ hnco_mo_program W ["--help-ea"] = Some ([], Exit 0).
Proof. vm_compute. repeat split. Qed.
(** The hypotheses of C138_mapgen, C138_map, C138_ffgen, C138_function and C138_multi *)
Definition mapped_settings (E : environment) (st : options) : settings :=
  mk_settings
    (mk_app_options false 1 None false false false false false false false false true false false false)
    (mk_controller_options 10000 false false false None false)
    (mk_modifier_options 3 (mk_map_options 5 false 2 false 1 0) None None false None)
    (mk_fn_options 0 3 10 10 2 (en_weights E "function.txt") (en_function E st))
    (mk_algo_options 0 0 false 0 0 2 false None 50 false 100)
    None "m".
Example C138_map_hypotheses : let W := example_surroundings in let E := reading_environment example_archive (Archive []) in
  Forall2 (tool_writes Mapgen) mapgen_items mapgen_words /\ values_written mapgen_items /\
  mapgen_says mapgen_items (example_mapgen 5) /\ seed_says Mapgen mapgen_items (Some (2 ^ 32 - 1)%Z) /\
  MapFile_Spec.accepted (example_mapgen 5) /\ draws_ok (MapFile_Spec.application_options (example_mapgen 5) true) (map_size (example_mapgen 5)) (su_map W (Some (2 ^ 32 - 1)%Z)) /\
  Forall2 Options_Spec.writes mapped_items mapped_words /\ values_written mapped_items /\ no_display mapped_items /\
  text_of mapped_items "map-path" = tool_text Mapgen mapgen_items "path" /\ (forall k, en_map E "m" k = load_map k (Some example_archive)) /\
  exists st, Options_Model.make_options false (concat mapped_words) = Parsed st /\ say E mapped_items st (mapped_settings E st) /\
    mo_map (se_modifiers (mapped_settings E st)) = MapFile_Spec.application_options (example_mapgen 5) false /\
    FunctionFactory_Model.make_function (se_function (mapped_settings E st)) = Ok (onemax_function 3) /\
    computes (onemax_function 3) (fun x => dint (Theory_Model.onemax_evaluate x)) /\ map_size (example_mapgen 5) = 3.
Proof.
  cbv zeta. pose proof (tool_option_documented Mapgen) as Dt. assert (Dn : forall n, existsb (fun p => String.eqb (p_name p) n) Options_Spec.documented = true -> In (the_option n) Options_Spec.documented) by exact the_option_documented.
  destruct draws_hypotheses as [HA HD].
  split; [|split; [|split; [|split; [|split; [|split; [|split; [|split; [|split; [|split; [|split]]]]]]]]]].
  - repeat apply Forall2_cons; [| | | | | |constructor].
    + apply ToolOptions_Spec.short_joined; [apply Dt; vm_compute; reflexivity|vm_compute; reflexivity|discriminate].
    + apply ToolOptions_Spec.short_apart; [apply Dt|]; vm_compute; reflexivity.
    + apply ToolOptions_Spec.short_joined; [apply Dt; vm_compute; reflexivity|vm_compute; reflexivity|discriminate].
    + apply (ToolOptions_Spec.long_apart Mapgen (tool_option Mapgen "ts-length") "ts-l" "1"); [apply Dt; vm_compute; reflexivity|vm_compute; discriminate|apply ToolOptions_Proofs.standsb_stands; vm_compute; reflexivity].
    + apply ToolOptions_Spec.short_joined; [apply Dt; vm_compute; reflexivity|vm_compute; reflexivity|discriminate].
    + apply (ToolOptions_Spec.long_apart Mapgen (tool_option Mapgen "seed") "seed" "-1"); [apply Dt; vm_compute; reflexivity|vm_compute; discriminate|apply ToolOptions_Proofs.standsb_stands; vm_compute; reflexivity].
  - intros q v I. destruct I as [I|[I|[I|[I|[I|[I|[]]]]]]]; injection I as <- <-; vm_compute p_type; [exists (VInt 5); apply (shown_int 5)|exists (VInt 2); apply (shown_int 2)|exists (VInt 3); apply (shown_int 3)|
      exists (VInt 1); apply (shown_int 1)|exists (VText "m"); constructor|exists (VInt (-1)); apply (shown_int (-1))]; lia.
  - unfold mapgen_says, tool_int, example_mapgen. cbn - [tool_text asked]. repeat match goal with |- _ /\ _ => split end;
      match goal with |- written TInt _ (VInt ?z) => apply (shown_int z); lia | |- _ => reflexivity end.
  - exists (-1)%Z. split; [apply (shown_int (-1)); lia|reflexivity].
  - exact HA.
  - exact HD.
  - repeat apply Forall2_cons; [| | | | | | |constructor].
    + apply (Options_Spec.long_apart (the_option "map") "map" "5"); [apply Dn; vm_compute; reflexivity|vm_compute; discriminate|apply Options_Proofs.standsb_stands; vm_compute; reflexivity].
    + apply (Options_Spec.long_apart (the_option "map-input-size") "map-input-size" "2"); [apply Dn; vm_compute; reflexivity|vm_compute; discriminate|apply Options_Proofs.standsb_stands; vm_compute; reflexivity].
    + apply Options_Spec.short_joined; [apply Dn; vm_compute; reflexivity|vm_compute; reflexivity|discriminate].
    + apply (Options_Spec.long_apart (the_option "map-ts-length") "map-ts-length" "1"); [apply Dn; vm_compute; reflexivity|vm_compute; discriminate|apply Options_Proofs.standsb_stands; vm_compute; reflexivity].
    + apply (Options_Spec.long_apart (the_option "map-path") "map-path" "m"); [apply Dn; vm_compute; reflexivity|vm_compute; discriminate|apply Options_Proofs.standsb_stands; vm_compute; reflexivity].
    + apply Options_Spec.short_joined; [apply Dn; vm_compute; reflexivity|vm_compute; reflexivity|discriminate].
    + apply (Options_Spec.flag (the_option "print-solution") "print-solution"); [apply Dn; vm_compute; reflexivity|vm_compute; reflexivity|apply Options_Proofs.standsb_stands; vm_compute; reflexivity].
  - intros q v I. destruct I as [I|[I|[I|[I|[I|[I|[I|[]]]]]]]]; try discriminate; injection I as <- <-; vm_compute p_type; [exists (VInt 5); apply (shown_int 5)|exists (VInt 2); apply (shown_int 2)|
      exists (VInt 3); apply (shown_int 3)|exists (VInt 1); apply (shown_int 1)|exists (VText "m"); constructor|exists (VInt 0); apply (shown_int 0)]; lia.
  - intros name H; destruct H as [<-|[<-|[<-|[<-|[]]]]]; reflexivity.
  - reflexivity.
  - reflexivity.
  - destruct (Options_Model.make_options false (concat mapped_words)) as [st|pg en] eqn:M; [|vm_compute in M; discriminate]. exists st. split; [reflexivity|]. clear M. split.
    { unfold say, application_says, controllers_say, modifiers_say, map_says, function_says, algorithm_says, mapped_settings, int_is. cbn - [text_of asked].
      repeat match goal with |- _ /\ _ => split end;
        match goal with
        | |- written TInt _ (VInt ?z) => apply (shown_int z); lia
        | |- _ => reflexivity
        end. }
    split; [reflexivity|]. split; [reflexivity|]. split; [|reflexivity]. intros s r x A L. destruct A as [->| ->]; reflexivity.
Qed.
Example C138_function_hypotheses : let W := example_surroundings in let n := 3 in
  Forall2 (tool_writes Ffgen) (linear_items n "f") (linear_words n "f") /\ values_written (linear_items n "f") /\
  ffgen_says W (linear_items n "f") (linear_options W n) /\ seed_says Ffgen (linear_items n "f") None /\
  InstanceFile_Spec.accepted (linear_options W n) /\ draws_fit (linear_options W n) (su_function W None) /\ su_writable W "f" = true /\ su_double W "1" = dint 1 /\
  forall c st, reads_function (reading_environment example_archive c) example_platform st "f" c.
Proof.
  cbv zeta. destruct (linear_written 3 "f") as [HW V]; [lia|]. destruct (linear_says example_surroundings 3 "f") as [SO SS]; [lia|].
  split; [exact HW|]. split; [exact V|]. split; [exact SO|]. split; [exact SS|]. split; [|split; [|split; [|split]]].
  - unfold InstanceFile_Spec.accepted, known_type, known_generator, arguments_ok. cbn. repeat split; try lia; tauto.
  - unfold draws_fit. cbn [su_function example_surroundings fd_int fd_neighbors fd_variables fd_erased fd_index fd_shuffle example_ffgen_draws fg_part_bound linear_options].
    split; [intros _ i; assert (H := Z.mod_pos_bound (Z.of_nat i) 5 ltac:(lia)); lia|]. repeat split; intros; try lia; try (unfold QArith_base.Qle, QArith_base.Qlt; cbn; lia).
    apply Permutation.Permutation_refl.
  - reflexivity.
  - reflexivity.
  - intros c st. split; [reflexivity|]. intros k F H. exact H.
Qed.
Definition multi_items : list item := [Gives (tool_option HncoMo "function") "520"; Gives (tool_option HncoMo "bv-size") "4"; Gives (tool_option HncoMo "seed") "7"].
Definition multi_words : list (list string) := [["-F520"]; ["-s"; "4"]; ["--seed=7"]].
Example C138_multi_hypotheses : let W := example_surroundings in
  Forall2 (tool_writes HncoMo) multi_items multi_words /\ values_written multi_items /\ multi_seed_says multi_items (Some 7%Z) /\
  tool_int HncoMo multi_items "function" 520 /\ tool_int HncoMo multi_items "bv-size" 4 /\ In 520%Z listed_functions /\
  multi_says W multi_items 4 (mk_mo_options false 1 4 false false false 100 100 2 true false 0 100 false false false) /\
  asked [] "function" = false.
Proof.
  cbv zeta. pose proof (tool_option_documented HncoMo) as Dt. split; [|split; [|split; [|split; [|split; [|split; [|split]]]]]].
  - repeat apply Forall2_cons; [| | |constructor].
    + apply ToolOptions_Spec.short_joined; [apply Dt; vm_compute; reflexivity|vm_compute; reflexivity|discriminate].
    + apply ToolOptions_Spec.short_apart; [apply Dt|]; vm_compute; reflexivity.
    + apply (ToolOptions_Spec.long_joined HncoMo (tool_option HncoMo "seed") "seed" "7"); [apply Dt; vm_compute; reflexivity|vm_compute; discriminate|apply ToolOptions_Proofs.standsb_stands; vm_compute; reflexivity].
  - intros q v I. destruct I as [I|[I|[I|[]]]]; injection I as <- <-; vm_compute p_type; [exists (VInt 520); apply (shown_int 520)|exists (VInt 4); apply (shown_int 4)|
      exists (VUnsigned 7); apply (written_unsigned 7)]; lia.
  - exists 7%Z. split; [apply (written_unsigned 7); lia|reflexivity].
  - apply (shown_int 520). lia.
  - apply (shown_int 4). lia.
  - now left.
  - unfold multi_says, tool_int. cbn - [tool_text asked Nat.ltb]. repeat match goal with |- _ /\ _ => split end;
      match goal with |- written TInt _ (VInt ?z) => apply (shown_int z); lia | |- _ => reflexivity end.
  - reflexivity.
Qed.
