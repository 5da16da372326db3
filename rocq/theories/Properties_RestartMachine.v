(** Properties of the local searches which the application restarts: C128. *)

From Coq Require Import ZArith QArith Lia.
From Verif Require Import Base BaseLemmas BitVector_Model BitVector_Spec Map_Model Map_Spec Iterator_Model Neighborhood_Model Neighborhood_Spec
  Double Controller_Model Controller_Spec Decorator_Model Decorator_Spec ControllerStack_Spec Application_Model Application_Spec
  Search_Model Search_Spec Properties_Application Algorithm_Model Algorithm_Spec EvolutionaryAlgorithm_Model
  AlgorithmMachine_Model AlgorithmMachine_Spec Properties_AlgorithmMachine RestartMachine_Spec RestartPrograms_Proofs.
Local Open Scope nat_scope.

(** * C128: local searches, restarted *)

(** With the option --restart, the local searches of C124 are run again and again.  The
    program ends only because the budget is exhausted or the target is reached; without
    cache and with a budget, it ends within a number of steps which depends on the budget
    only. *)
Theorem C128_program ap co m F mid target i n f g o d neighbors iterations garbage others : 0 < i -> options_ok o i -> (forall k, draws_ok o (run_draws d k) i) ->
  2 ^ i < neighbors -> (climber o = true -> 2 ^ i + 1 < iterations) ->
  optimizes ap -> ap_restart ap = true -> make_function_controller co F = Ok (mid, target) ->
  map_fits m i n -> kind_known m -> fp_size (f_props F) = i -> total (f_obj F) (f_init F) i f -> finite_values i f g ->
  forall fuel, match program ap co (Ok (Some (m, F))) (make_algorithm o d neighbors iterations garbage others) fuel with
  | Some p => exists r x success, p = report ap co m i r x success /\
     rs_success r = (match co_stop_on_maximum co, co_target co with false, None => None | _, _ => Some success end) /\
     local_restarts_end o co target f i r x success
  | None => co_cache co = false -> (0 < co_budget co)%Z ->
      climber o = true \/ ((forall k, draws_last (run_draws d k) i) /\ (co_budget co <= Z.of_nat iterations)%Z) ->
      (Z.of_nat fuel <= 3 * co_budget co + 1)%Z
  end.
Proof. apply local_restarts_program. Qed.
Print Assumptions C128_program.

(** With a budget and without cache, the program ends: with success after a vector which
    reaches the target, and otherwise after as many evaluations as the budget.  The value
    which is shown is not less than that of the solution of a complete run. *)
Corollary C128_ends ap co m F mid target i n f g o d neighbors iterations garbage others : 0 < i -> options_ok o i -> (forall k, draws_ok o (run_draws d k) i) ->
  2 ^ i < neighbors -> (climber o = true -> 2 ^ i + 1 < iterations) ->
  optimizes ap -> ap_restart ap = true -> make_function_controller co F = Ok (mid, target) ->
  map_fits m i n -> kind_known m -> fp_size (f_props F) = i -> total (f_obj F) (f_init F) i f -> finite_values i f g ->
  co_cache co = false -> (0 < co_budget co)%Z ->
  climber o = true \/ ((forall k, draws_last (run_draws d k) i) /\ (co_budget co <= Z.of_nat iterations)%Z) ->
  forall fuel, (3 * co_budget co + 1 < Z.of_nat fuel)%Z -> exists r x success,
    program ap co (Ok (Some (m, F))) (make_algorithm o d neighbors iterations garbage others) fuel = Some (report ap co m i r x success) /\
    length x = i /\ (Z.of_nat (rs_total r) <= co_budget co)%Z /\ (success = false -> Z.of_nat (rs_total r) = co_budget co) /\
    (success = true -> rs_value r = Some (f x) /\ exists t, target = Some t /\ dge (f x) t = true) /\
    (success = false -> exists v, rs_value r = Some v /\ (x = repeat false i \/ dle (f x) v = true)).
Proof.
  intros N OK DO NB IT HO HR HC HM HK HF HT HV CA BU E fuel HFu.
  pose proof (C128_program ap co m F mid target i n f g o d neighbors iterations garbage others N OK DO NB IT HO HR HC HM HK HF HT HV fuel) as P.
  destruct (program _ _ _ _ fuel) as [p|]; [|specialize (P CA BU E); lia]. destruct P as (r & x & success & -> & _ & L). exists r, x, success. split; [reflexivity|].
  destruct L as [L T W r x S1 S2 S3 S4 S5 S6 S7 S8|L T W r x t S1 S2 S3 S4 S5 S6 S7 S8 S9].
  - specialize (S5 CA). destruct S7 as (_ & K2 & K3). specialize (K2 CA). destruct K3 as [_ (k & y & B1 & B2 & _)]; [intros ->; cbn in S4; lia|].
    assert (BR : forall z, In z W -> dle (f z) (f y) = true).
    { intros z Hz. destruct B1 as (_ & B1 & _). apply in_map with (f := fun x => (x, f x)) in Hz. apply In_nth_error in Hz as [j Hz].
      destruct (B1 j z (f z) Hz) as [X|X]; [|exact X]. rewrite Forall_forall in S1, S2.
      assert (length z = i); [|now rewrite (HV z) in X].
      assert (Hw : In z W) by (apply nth_error_In in Hz; unfold Search_Spec.valued in Hz; apply in_map_iff in Hz as (z' & [= -> _] & Hz); exact Hz).
      rewrite S3 in Hw. apply in_app_or in Hw as [Hw|Hw]; [|now apply S2]. apply in_concat in Hw as (U & HU & Hw).
      apply in_map_iff in HU as ((U' & u) & E1 & HU). cbn in E1. subst U'. destruct (S1 _ HU) as [S10 _]. rewrite Forall_forall in S10. now apply S10. }
    split; [|split; [lia|split; [lia|split; [discriminate|]]]].
    + destruct S8 as [[_ ->]|(L1 & U & L2 & -> & _)]; [apply repeat_length|]. rewrite Forall_forall in S1. destruct (S1 (U, x)) as (H1 & [H2 _] & _); [apply in_elt|].
      rewrite Forall_forall in H1. now apply H1.
    + intros _. exists (f y). split; [exact B2|]. destruct S8 as [[_ ->]|(L1 & U & L2 & -> & _)]; [now left|right]. apply BR. rewrite S3. apply in_or_app; left.
      apply in_concat. exists U. split; [apply in_map_iff; exists (U, x); split; [reflexivity|apply in_elt]|]. rewrite Forall_forall in S1. now destruct (S1 (U, x)) as (_ & [H2 _] & _); [apply in_elt|].
  - destruct S8 as (_ & K2 & _). specialize (K2 CA). specialize (S7 CA BU). split; [|split; [lia|split; [discriminate|split; [eauto|discriminate]]]].
    rewrite Forall_forall in S2. apply S2, in_elt.
Qed.
Print Assumptions C128_ends.

(** Without budget and without target, the program never ends. *)
Corollary C128_endless ap co m F mid i n f g o d neighbors iterations garbage others : 0 < i -> options_ok o i -> (forall k, draws_ok o (run_draws d k) i) ->
  2 ^ i < neighbors -> (climber o = true -> 2 ^ i + 1 < iterations) ->
  optimizes ap -> ap_restart ap = true -> make_function_controller co F = Ok (mid, None) -> (co_budget co <= 0)%Z ->
  map_fits m i n -> kind_known m -> fp_size (f_props F) = i -> total (f_obj F) (f_init F) i f -> finite_values i f g ->
  forall fuel, program ap co (Ok (Some (m, F))) (make_algorithm o d neighbors iterations garbage others) fuel = None.
Proof.
  intros N OK DO NB IT HO HR HC BU HM HK HF HT HV fuel.
  pose proof (C128_program ap co m F mid None i n f g o d neighbors iterations garbage others N OK DO NB IT HO HR HC HM HK HF HT HV fuel) as P.
  destruct (program _ _ _ _ fuel) as [p|]; [|reflexivity]. destruct P as (r & x & success & -> & _ & L).
  destruct L; [lia|discriminate].
Qed.
Print Assumptions C128_endless.

(** The solution is one of the best of all the vectors of the complete runs: those of the
    last run, which is not complete, do not matter. *)
Theorem C128_solution o f n L x : Forall (search_run o f n) L -> first_best_run f n L x -> L <> [] -> best_of f (concat (map fst L)) x.
Proof.
  intros S1 [[-> _]|(L1 & U & L2 & -> & H1 & H2)] NE; [contradiction|]. rewrite Forall_forall in S1. destruct (S1 (U, x)) as (_ & [B1 B2] & _); [apply in_elt|]. split.
  - apply in_concat. exists U. split; [apply in_map_iff; exists (U, x); split; [reflexivity|apply in_elt]|exact B1].
  - intros z Hz. apply in_concat in Hz as (T & HT & Hz). apply in_map_iff in HT as ((T' & u) & E & HT). cbn in E. subst T'.
    destruct (S1 (T, u) HT) as (_ & [_ B3] & _). specialize (B3 z Hz). cbn [snd] in *. apply in_app_or in HT as [HT|[HT|HT]].
    + apply (dle_trans _ (f u)); [exact B3|]. apply dlt_le. now apply (H1 T).
    + injection HT as <- <-. auto.
    + apply (dle_trans _ (f u)); [exact B3|]. now apply (H2 T).
Qed.
Print Assumptions C128_solution.

(** Three bits and the random numbers of C124, except that the runs start in turn from 000,
    100, 110, 111.  Hill climbing out of budget in its second run, and in its first one: then
    the value which is shown, 3, is not that of the solution which is shown, 000; reaching
    the target.  Random walks of two iterations: the solution 110 of the first run is kept in
    spite of the second and third ones, and replaced by that of the fourth one, 111, except if
    the budget is exhausted just before its end. *)
Definition example_restarts : algo_draws :=
  mk_algo_draws (fun k j => j <? k mod 4) (fun _ _ _ => false) (fun _ => example_moves) (fun _ => example_moves) (fun _ _ lo _ => lo) (fun _ _ => false) (fun _ _ => false).
Definition example_rerun (co : controller_options) (o : algo_options) (fuel : nat) :=
  program (example_app None true false false) co (example_made 0) (make_algorithm o example_restarts 9 20 0 (fun _ => UB)) fuel.
Example C128_case :
  example_rerun (example_co 14 false) (example_algo 160 0 0 true) 44 = example_shown 3 7 14 None [true; true; true] /\
  example_rerun (example_co 9 false) (example_algo 160 0 0 true) 44 = example_shown 3 7 9 None [false; false; false] /\
  example_rerun (example_co 0 true) (example_algo 160 0 0 true) 44 = example_shown 3 7 7 (Some true) [true; true; true] /\
  example_rerun (example_co 9 false) (example_algo 20 2 0 true) 44 = example_shown 2 3 9 None [true; true; false] /\
  example_rerun (example_co 12 false) (example_algo 20 2 0 true) 44 = example_shown 3 10 12 None [true; true; true] /\
  example_rerun (example_co 11 false) (example_algo 20 2 0 true) 44 = example_shown 3 10 11 None [true; true; false] /\
  example_rerun (example_co 0 false) (example_algo 20 2 0 true) 44 = None.
Proof. vm_compute. repeat split. Qed.

(** The hypotheses hold for these examples, the others being those of C124. *)
Example C128_hypotheses : (forall t k, draws_ok (example_algo t 2 0 true) (run_draws example_restarts k) 3) /\
  (forall k, draws_last (run_draws example_restarts k) 3) /\ optimizes (example_app None true false false) /\ ap_restart (example_app None true false false) = true.
Proof.
  split; [|split; [|split; [repeat split; cbn; lia|reflexivity]]].
  - intros t k. destruct C124_hypotheses as (_ & H & _). exact (H t).
  - intros k. destruct C124_hypotheses as (_ & _ & H & _). exact H.
Qed.
