(** Properties of incremental evaluation in the application: C133. *)

From Coq Require Import ZArith QArith Lia.
From Verif Require Theory_Proofs Controller_Proofs BitVector_Proofs.
From Verif Require Import Base BaseLemmas BitVector_Model BitVector_Spec Function_Spec Map_Model Map_Spec Neighborhood_Model Neighborhood_Spec
  Double Controller_Model Controller_Spec Decorator_Model Decorator_Spec ControllerStack_Spec FunctionFactory_Model FunctionFactory_Spec FunctionFactory_Proofs
  Application_Model Application_Spec Search_Model Search_Spec Properties_Application Algorithm_Model Algorithm_Spec EvolutionaryAlgorithm_Model
  AlgorithmMachine_Model AlgorithmMachine_Spec Properties_AlgorithmMachine Incremental_Model Incremental_Spec Incremental_Proofs.
Local Open Scope nat_scope.

(** The program, with or without incremental evaluation, and the same random numbers *)
Definition run_with (incremental : bool) ap co (m : option hmap) (F : func) mid o d neighbors iterations garbage fuel :=
  let o' := with_incremental incremental o in
  program ap co (Ok (Some (m, F)))
    (make_algorithm o' d neighbors iterations garbage (make_incremental o' d iterations garbage (controlled_inc mid (f_props F)))) fuel.

(** * C133: incremental evaluation and what the program prints *)

(** Random local search and the (1+1) EA.  With incremental evaluation, either the program
    prints and ends as without it, or both reach the target, with the same results, and only
    the solutions may differ: the one printed with incremental evaluation then misses the
    target. *)
Theorem C133_program ap co m F mid target i n f g o d neighbors iterations garbage fuel : 0 < i ->
  In (ao_algorithm o) [100; 300]%Z -> options_ok (with_incremental false o) i -> draws_ok o d i ->
  optimizes ap -> ap_restart ap = false -> make_function_controller co F = Ok (mid, target) ->
  map_fits m i n -> kind_known m -> fp_size (f_props F) = i -> total (f_obj F) (f_init F) i f -> finite_values i f g ->
  (fp_inc (f_props F) = true -> answers_rightly (f_obj F) (f_init F) i f) ->
  let run b := run_with b ap co m F mid o d neighbors iterations garbage fuel in
  run true = run false \/
  exists t r x y, target = Some t /\ fp_inc (f_props F) = true /\ co_cache co = false /\
    run false = Some (report ap co m i r y true) /\ run true = Some (report ap co m i r x true) /\
    rs_value r = Some (f y) /\ dge (f y) t = true /\ dge (f x) t = false /\ length x = i /\ length y = i.
Proof.
  intros HI HT OK DO HO HR HC HM HK HF HTo HV HA run.
  assert (EM : mid = middle_of co).
  { unfold make_function_controller in HC. destruct (target_of co (f_props F)); try discriminate. now injection HC as <- _. }
  assert (PI : controlled_inc mid (f_props F) = true -> fp_inc (f_props F) = true /\ co_cache co = false).
  { rewrite EM. unfold controlled_inc, middle_of. destruct (0 <? co_budget co)%Z, (co_cache co), (co_cache_budget co); cbn; auto; discriminate. }
  destruct (incremental_program ap co m F mid target i n f g HI HO HR HC HM HK HF HTo HV o d iterations neighbors garbage) with (fuel := fuel)
    as [E|(t & r & x & y & H1 & H2 & H3 & H4 & H5 & H6 & H7 & H8)].
  - intros P. apply HA, PI, P.
  - destruct HT as [T|[T|[]]]; [left|right; auto]. split; [auto|]. destruct OK as (_ & _ & OK & _). apply OK. cbn. rewrite <- T. cbn; auto.
  - apply DO.
  - left. exact E.
  - right. destruct (PI H2). exists t, r, x, y. auto 12.
Qed.
Print Assumptions C133_program.

(** Without target, with a cache, or if the function does not provide incremental
    evaluation, the option changes nothing. *)
Corollary C133_same ap co m F mid target i n f g o d neighbors iterations garbage fuel : 0 < i ->
  In (ao_algorithm o) [100; 300]%Z -> options_ok (with_incremental false o) i -> draws_ok o d i ->
  optimizes ap -> ap_restart ap = false -> make_function_controller co F = Ok (mid, target) ->
  map_fits m i n -> kind_known m -> fp_size (f_props F) = i -> total (f_obj F) (f_init F) i f -> finite_values i f g ->
  (fp_inc (f_props F) = true -> answers_rightly (f_obj F) (f_init F) i f) ->
  target = None \/ co_cache co = true \/ fp_inc (f_props F) = false ->
  run_with true ap co m F mid o d neighbors iterations garbage fuel = run_with false ap co m F mid o d neighbors iterations garbage fuel.
Proof.
  intros HI HT OK DO HO HR HC HM HK HF HTo HV HA H.
  destruct (C133_program ap co m F mid target i n f g o d neighbors iterations garbage fuel HI HT OK DO HO HR HC HM HK HF HTo HV HA) as [E|(t & r & x & y & H1 & H2 & H3 & _)];
    [exact E|].
  destruct H as [H|[H|H]]; congruence.
Qed.
Print Assumptions C133_same.

(** Flipping the positions where two vectors differ *)
Lemma flipped_diffs n x y : length x = n -> length y = n -> flipped_at x (diffs n x y) = y.
Proof.
  intros Hx Hy. apply nth_ext with (d := false) (d' := false); unfold flipped_at; [now rewrite map_length, seq_length, Hx|].
  intros k Hk. rewrite map_length, seq_length in Hk. rewrite (BitVector_Proofs.nth_map_seq _ (length x)) by assumption.
  destruct (in_dec Nat.eq_dec k (diffs n x y)) as [D|D]; unfold diffs in D; rewrite filter_In, in_seq in D.
  - destruct D as [_ D]. destruct (nth k x false), (nth k y false); auto; discriminate.
  - destruct (nth k x false), (nth k y false); auto; exfalso; apply D; (split; [lia|reflexivity]).
Qed.
Lemma diffs_positions n x y : positions n (diffs n x y).
Proof.
  split; [apply NoDup_filter, seq_NoDup|]. apply Forall_forall. intros k Hk. apply filter_In in Hk as [Hk _]. apply in_seq in Hk. lia.
Qed.

(** The functions which provide incremental evaluation in the factory answer rightly. *)
Theorem C133_functions o F : In (fn_type o) by_options -> make_function o = Ok F -> fp_inc (f_props F) = true ->
  exists f g, answers_rightly (f_obj F) (f_init F) (fp_size (f_props F)) f /\ total (f_obj F) (f_init F) (fp_size (f_props F)) f /\ finite_values (fp_size (f_props F)) f g.
Proof.
  intros HT HM HI. destruct (made_incremental o F HT HM) as [T R]. apply T in HI as HT'. specialize (R HI).
  assert (G : forall ev inc n P, F = mk_func unit (plain_inc ev inc) tt P -> fp_size P = n -> (forall x, length x = n -> exists z, ev x = Ok (DFin z)) ->
    exists f g, answers_rightly (f_obj F) (f_init F) n f /\ total (f_obj F) (f_init F) n f /\ finite_values n f g).
  { intros ev inc n P EF EP EV. subst F. cbn [f_props f_obj f_init f_state] in *. set (f := fun x => match ev x with Ok v => v | _ => DFin 0 end).
    assert (Vf : forall x, length x = n -> ev x = Ok (f x)) by (intros x Hx; unfold f; destruct (EV x Hx) as [z ->]; reflexivity).
    assert (Q1 : forall s q y, asks_for n f q y -> snd (plain_inc ev inc s q) = Ok (RValue (f y))).
    { intros s q y [y' Hy|x y' Hx Hy].
      - cbn [plain_inc snd]. now rewrite Vf.
      - rewrite (R s x (f x) (diffs n x y')).
        + cbn [plain_inc snd]. rewrite flipped_diffs by assumption. now rewrite Vf.
        + now rewrite EP.
        + rewrite Hx. apply diffs_positions.
        + cbn [plain_inc snd]. now rewrite Vf. }
    exists f, (fun x => units (f x)). split; [|split].
    - intros qs ys H. generalize tt. induction H as [|q y qs ys Hq _ IH]; intros s; [reflexivity|].
      rewrite Controller_Proofs.calls_cons. cbn [map Controller_Spec.res]. rewrite (Q1 s q y Hq), IH. reflexivity.
    - intros l H. generalize tt. induction H as [|x l Hx _ IH]; intros s; [reflexivity|].
      cbn [map]. rewrite Controller_Proofs.calls_cons. cbn [map Controller_Spec.res]. rewrite (Q1 s (REval x) x (asks_value n f x Hx)), IH. reflexivity.
    - intros x Hx. unfold f. destruct (EV x Hx) as [z ->]. reflexivity. }
  unfold make_function in HM. destruct (fn_bv_size o <=? 0)%Z; [discriminate|]. cbn [In] in HT'.
  destruct HT' as [T'|[T'|[T'|[]]]]; rewrite <- T' in *; cbv iota in HM; repeat match type of HM with (bind _ _) = _ => apply bind_Ok in HM as (? & ? & HM) end;
    apply Ok_inj in HM; symmetry in HM.
  - eapply G; [exact HM|now rewrite HM|]. intros x' _. eexists. reflexivity.
  - eapply G; [exact HM|now rewrite HM|]. intros x' Hx. rewrite HM in Hx. cbn in Hx. cbv beta. rewrite Theory_Proofs.linear_evaluate_Ok by auto. eexists. reflexivity.
  - eapply G; [exact HM|now rewrite HM|]. intros x' Hx. rewrite HM in Hx. cbn in Hx. cbv beta. rewrite Theory_Proofs.linear_evaluate_Ok by auto. eexists. reflexivity.
Qed.
Print Assumptions C133_functions.


(** OneMax of three bits.  With a budget, random local search and the (1+1) EA print the same
    with and without incremental evaluation. *)
Definition example_options (t num : Z) : algo_options := example_algo t num 0 false.
Definition example_incremental (b : bool) (co : controller_options) (mid : middle) (t num : Z) :=
  run_with b (example_app None false false false) co None (onemax_function 3) mid (example_options t num) example_algo_draws 9 20 0 100.
Example C133_case :
  (forall b, example_incremental b (example_co 3 false) (MidBudget 3) 100 0 = example_shown (2 * 2 ^ 1074) 3 3 None [true; true; false]) /\
  (forall b, example_incremental b (example_co 0 false) MidNone 300 2 = example_shown (2 * 2 ^ 1074) 3 3 None [true; true; false]).
Proof. split; intros []; vm_compute; reflexivity. Qed.

(** With a target, here the maximum, the program with incremental evaluation prints 110,
    whose value, 2, is not the one which it prints, 3. *)
Example C133_target :
  example_incremental false (example_co 0 true) MidNone 100 0 = example_shown (3 * 2 ^ 1074) 4 4 (Some true) [true; true; true] /\
  example_incremental true (example_co 0 true) MidNone 100 0 = example_shown (3 * 2 ^ 1074) 4 4 (Some true) [true; true; false].
Proof. split; vm_compute; reflexivity. Qed.

(** The hypotheses hold for these examples. *)
Example C133_hypotheses : let F := onemax_function 3 in
  (forall t num, In t [100; 300]%Z -> options_ok (with_incremental false (example_options t num)) 3 /\ draws_ok (example_options t num) example_algo_draws 3) /\
  (exists t, make_function_controller (example_co 0 true) F = Ok (MidNone, Some t)) /\ make_function_controller (example_co 3 false) F = Ok (MidBudget 3, None) /\
  fp_size (f_props F) = 3 /\ fp_inc (f_props F) = true /\
  exists f g, total (f_obj F) (f_init F) 3 f /\ finite_values 3 f g /\ answers_rightly (f_obj F) (f_init F) 3 f.
Proof.
  intros F. split.
  { intros t num Ht. split.
    - split; [cbn in *; intuition|]. split; [now left|]. split; [now left|reflexivity].
    - destruct C124_hypotheses as (_ & D & _). destruct (D t) as (D1 & D2 & D3). split; [exact D1|]. split; [exact D2|exact D3]. }
  split; [eexists; reflexivity|]. split; [reflexivity|]. split; [reflexivity|]. split; [reflexivity|].
  destruct (C133_functions (mk_fn_options 0 3 0 0 0 (Ok []) (fun _ => None)) F) as (f & g & H1 & H2 & H3); [now left|reflexivity|reflexivity|].
  exists f, g. auto.
Qed.
