(** C111: the program: application and controllers around the algorithm. *)

From Coq Require Import ZArith.
From Verif Require Import Base BitVector_Model Map_Model Map_Spec Double Controller_Model Controller_Spec Controller_Proofs Decorator_Model Decorator_Spec Decorator_Proofs
  ControllerStack_Spec ControllerStack_Proofs Application_Model Application_Spec Application_Proofs
  Properties_Controller Properties_Decorator.
Local Open Scope nat_scope.

(** ** The run *)

Section Run.
  Context (ap : app_options) (co : controller_options) (m : option hmap) (F : func) (factory : nat -> outcome machine) (A : machine).
  Context (mid : middle) (target : option dbl) (i n : nat).
  Context (HO : optimizes ap) (HC : make_function_controller co F = Ok (mid, target)) (HFa : factory (fp_size (f_props F)) = Ok A).
  Context (HA : honest A) (HW : works A i) (HQ : quiet (f_obj F)) (HT : typed (f_obj F)).
  Context (HM : map_fits m i n) (HK : kind_known m) (HF : fp_size (f_props F) = i).
  Local Notation B := (run_by ap i A).
  Local Notation C := (controlled_obj mid target (f_obj F)).
  Local Notation M := (middle_obj mid (progress_tracker (f_obj F) false)).
  Local Notation c0 := (controlled_init mid i (f_init F)).

  (** What the program shows and how it ends, according to how the run of the algorithm
      ended: no exception or the last evaluation of the budget, the target, another
      exception.  When the target is reached, the solution is the vector of the last
      request, the one which reached it; otherwise, no answer to the algorithm reached it,
      and the solution is that of the algorithm. *)
  Theorem C111_run fuel out e : program ap co (Ok (Some (m, F))) factory fuel = Some (out, e) ->
    exists rs st cs r, plays C B (ma_begin B (ma_init B)) c0 rs st cs r /\
      Forall (fun q => length (request_vector q) = i) rs /\
      match r with
      | Ok _ | Throw LastEvaluation =>
          let x := fst (ma_solution B (ma_finalize B st)) in
          length x = i /\ (out, e) = report ap co m i (final_results co mid cs false) x false /\
          (forall t, target = Some t -> reaching t (calls M (snd c0) rs) = [])
      | Throw TargetReached =>
          exists t past q x v, target = Some t /\ rs = past ++ [q] /\ fst cs = Some (x, v) /\ reaches t q x v /\ length x = i /\
            (out, e) = report ap co m i (final_results co mid cs true) x true
      | Throw e' => (out, e) = ([], ending_of e')
      | UB => (out, e) = ([], Undefined)
      end.
  Proof.
    intros HP. destruct (program_correct ap co m F factory A mid target i n fuel out e HO HC HFa HA HW HQ HM HK HF HP)
      as (rs & st & cs & r & Pl & R & H).
    exists rs, st, cs, r. split; [exact Pl|]. split; [exact R|].
    assert (G : r <> Throw TargetReached -> forall t, target = Some t -> reaching t (calls M (snd c0) rs) = []).
    { intros N t Et. refine (plays_not_reached (f_obj F) mid t B _ c0 rs st cs r _ N). rewrite <- Et. exact Pl. }
    destruct r as [[]|[]|]; auto.
    - destruct H. split; [auto|]. split; [auto|]. apply G. discriminate.
    - destruct H. split; [auto|]. split; [auto|]. apply G. discriminate.
  Qed.

  (** Conversely, a run which ends makes the program end, with the same outputs for any
      greater number of moves. *)
  Theorem C111_ends rs st cs r : plays C B (ma_begin B (ma_init B)) c0 rs st cs r ->
    exists fuel p, forall k, program ap co (Ok (Some (m, F))) factory (fuel + k) = Some p.
  Proof.
    intros H. destruct HF.
    destruct (program_plays ap co m F factory A mid target HO HC HFa rs st cs r H) as [fuel K].
    eauto.
  Qed.

  (** The results: the total number of evaluations, which the budget bounds; the value and
      the number of the evaluation of the last improvement; the success, if there is a
      target, which is also the exit code. *)
  Theorem C111_results fuel out e ch r : program ap co (Ok (Some (m, F))) factory fuel = Some (out, e) -> In (OResults ch r) out ->
    exists rs,
      let st := controlled mid target i (f_obj F) (f_init F) rs in
      let E := evaluations (calls (f_obj F) (f_init F) (received st)) in
      Forall (fun q => length (request_vector q) = i) rs /\ subsequence (received st) rs /\
      rs_total r = length E /\
      ((0 < co_budget co)%Z -> (Z.of_nat (length E) <= co_budget co)%Z) /\
      match E with
      | [] => rs_num r = 0
      | (x0, v0) :: _ =>
          exists k x v, rs_num r = k + 1 /\ rs_value r = Some v /\
          (if is_nan v0 then k = 0 /\ x = x0 /\ v = v0 else is_nan v = false /\ best_record E k x v)
      end /\
      (forall k, e = Exit k -> rs_success r = if co_stop_on_maximum co then Some (k =? 0)
                                              else match co_target co with Some _ => Some (k =? 0) | None => None end).
  Proof.
    intros HP HI. destruct (program_correct ap co m F factory A mid target i n fuel out e HO HC HFa HA HW HQ HM HK HF HP)
      as (rs & st & cs & r0 & Pl & R & H). cbv zeta in H.
    assert (G : exists x b, (out, e) = report ap co m i (final_results co mid cs b) x b).
    { destruct r0 as [[]|[]|]; try (injection H as -> _; destruct HI); try (destruct H as [_ H]; eauto; fail).
      destruct H as (t & past & q & x & v & _ & _ & _ & _ & _ & H). eauto. }
    destruct G as (x & b & G). pose proof (report_results _ _ _ _ _ _ _ _ _ _ _ G HI) as ->.
    apply plays_run in Pl. subst cs. destruct (run_logged mid target i (f_obj F) (f_init F) rs) as (_ & L2 & L3 & _).
    assert (Emid : mid = middle_of co).
    { unfold make_function_controller in HC. destruct (target_of co (f_props F)); try discriminate. now injection HC. }
    exists rs. cbv zeta. rewrite Emid in L2, L3 |- *.
    destruct (C110_report (f_obj F) i (f_init F) co target rs HT) as (S1 & S2 & S3 & S4).
    unfold final_results. cbn [rs_total rs_num rs_value rs_success]. rewrite L2, L3.
    split; [exact R|]. split; [exact S1|]. split; [exact S3|]. split; [exact S2|]. split; [exact S4|].
    intros k Ek. rewrite (report_ending _ _ _ _ _ _ _ _ _ _ G Ek). unfold exit_code. destruct b, (co_stop_on_maximum co), (co_target co); reflexivity.
  Qed.

  (** With Restart, if the runs of the algorithm do not end by themselves and there is no
      target, then the solution is null, whatever has been evaluated. *)
  Theorem C111_restart fuel out e ch y : program ap co (Ok (Some (m, F))) factory fuel = Some (out, e) ->
    ap_restart ap = true -> (forall st, ma_next A st <> MReturn) -> co_stop_on_maximum co = false -> co_target co = None ->
    In (OSolution ch y) out -> y = shown ap m (repeat false i).
  Proof.
    intros HP HR HN H1 H2 HI. destruct (program_correct ap co m F factory A mid target i n fuel out e HO HC HFa HA HW HQ HM HK HF HP)
      as (rs & st & cs & r & Pl & _ & H).
    assert (V : visited B true st) by (apply (plays_visited _ _ _ _ _ _ _ _ Pl), (visited_begin _ false), visited_init).
    assert (Es : fst (ma_solution B (ma_finalize B st)) = repeat false i).
    { clear - V HR HN. revert st V. unfold run_by. rewrite HR. intros st V.
      change (fst (re_solution st) = repeat false i). now rewrite (restart_idle A i st (or_introl V) HN). }
    rewrite Es in H. cbv zeta in H.
    destruct r as [[]|[]|]; try (injection H as -> _; destruct HI); try (destruct H as [_ H]; exact (report_solution _ _ _ _ _ _ _ _ _ _ _ H HI)).
    destruct H as (t & _ & _ & _ & _ & Et & _). exfalso.
    assert (target = None) as ->; [|discriminate]. apply (proj2 (target_iff co F mid target HC)). now rewrite H1, H2.
  Qed.

  (** The description of a concrete solution applies the map again: if the map changes the
      size, no run ends normally; else the vector described is the image of the image. *)
  Theorem C111_concrete_description fuel out e : program ap co (Ok (Some (m, F))) factory fuel = Some (out, e) ->
    ap_concrete ap = true -> describes ap = true ->
    (n <> i -> forall k, e = Exit k -> k = 1) /\
    (n = i -> forall ch y, In (ODescription ch y) out -> exists x, length x = i /\ y = image m (image m x)).
  Proof.
    intros HP H1 H2. destruct (program_correct ap co m F factory A mid target i n fuel out e HO HC HFa HA HW HQ HM HK HF HP)
      as (rs & st & cs & r & Pl & _ & H). cbv zeta in H.
    assert (G : ((out, e) = ([], Undefined) \/ exists e', (out, e) = ([], ending_of e')) \/
      exists x b, length x = i /\ (out, e) = report ap co m i (final_results co mid cs b) x b).
    { destruct r as [[]|[]|]; try (left; right; eexists; exact H); try (destruct H; right; eauto; fail); auto.
      destruct H as (t & past & q & x & v & _ & _ & _ & _ & Lx & H). right. eauto. }
    destruct G as [[G|[e' G]]|(x & b & Lx & G)].
    - injection G as -> ->. split; [discriminate|]. intros _ ch y [].
    - injection G as -> ->. split; [intros _ k; now destruct e'; intros [= <-]|]. intros _ ch y [].
    - assert (Ln : length (shown ap m x) = n) by (unfold shown; rewrite H1; now apply (length_image m i)).
      unfold report in G. rewrite H2, Ln in G. cbv zeta in G. cbn [negb orb] in G. destruct (Nat.eqb_spec n i) as [->|N]; [|injection G as -> ->; split; [discriminate|contradiction]].
      split; [contradiction|]. intros _ ch y HI. exists x. split; [exact Lx|]. injection G as -> ->.
      unfold shown in HI. rewrite H1 in HI. revert HI. unfold show_results, show_solution, show_description, also.
      destruct (ap_print_results ap), (ap_save_results ap), (ap_print_solution ap), (ap_save_solution ap), (ap_print_description ap), (ap_save_description ap);
        cbn; intuition congruence.
  Qed.
End Run.

(** The functions which are made meet the hypotheses about the function. *)
Theorem C111_made mo d F0 m F : make_function_modifier mo d (Ok F0) = Ok (Some (m, F)) ->
  quiet (f_obj F0) -> typed (f_obj F0) -> quiet (f_obj F) /\ typed (f_obj F).
Proof. apply made_safe. Qed.

(** ** Maximizers *)

(** When the program stops on the maximum, the exit code is 0 if the solution shown is a
    maximizer of the function, through the map, and 2 if no maximizer was evaluated: if
    the algorithm asked for the value of a maximizer, it was its last request, and the
    budget was exhausted. *)
Theorem C111_maximizer ap co mo d F0 f m F factory A i v mid target fuel out e :
  computes F0 f -> quiet (f_obj F0) -> typed (f_obj F0) -> make_function_modifier mo d (Ok F0) = Ok (Some (m, F)) ->
  map_fits m i (fp_size (f_props F0)) -> kind_known m ->
  fp_known (f_props F0) = Ok true -> fp_max (f_props F0) = Ok v -> maximum_of (fun a b => dle a b = true) (fp_size (f_props F0)) f v ->
  mo_prior mo = None -> co_stop_on_maximum co = true -> make_function_controller co F = Ok (mid, target) -> optimizes ap ->
  factory i = Ok A -> honest A -> works A i -> evaluates A ->
  program ap co (make_function_modifier mo d (Ok F0)) factory fuel = Some (out, e) ->
  let B := run_by ap i A in
  exists xs st cs r,
    plays (controlled_obj mid target (f_obj F)) B (ma_begin B (ma_init B)) (controlled_init mid i (f_init F)) (map REval xs) st cs r /\
    (e = Exit 0 -> ap_print_solution ap = true ->
       exists x, In x xs /\ In (OSolution Printed (shown ap m x)) out /\ f (image m x) = v) /\
    (e = Exit 2 ->
       forall k x, nth_error xs k = Some x -> f (image m x) = v -> k + 1 = length xs /\ r = Throw LastEvaluation).
Proof.
  intros HCo HQ HT HM HI HK HKn HV HMx HP HS HCt HO HFa HA HW HE HPr B. rewrite HM in HPr.
  pose proof (made_size mo d F0 m F i HM HI) as HF. destruct (made_safe mo d F0 m F HM HQ HT) as [HQ' HT'].
  assert (HFa' : factory (fp_size (f_props F)) = Ok A) by now rewrite HF.
  destruct (program_correct ap co m F factory A mid target i _ fuel out e HO HCt HFa' HA HW HQ' HI HK HF HPr)
    as (rs & st & cs & r & Pl & R & H). cbv zeta in H. fold B in Pl, H.
  destruct (plays_visited _ _ _ _ _ _ _ _ Pl (visited_begin B _ _ (visited_init B))) as (_ & _ & RE).
  specialize (RE (evaluates_run_by ap i A HE)).
  assert (RE' : Forall (fun q => exists x, q = REval x /\ length x = i) rs).
  { rewrite Forall_forall in *. intros q Hq. destruct (RE q Hq) as [x ->]. exists x. split; [auto|]. exact (R _ Hq). }
  destruct (requests_eval i rs RE') as (xs & -> & HX). exists xs, st, cs, r. split; [exact Pl|].
  assert (Z : forall k e', (out, Exit k) = ([], ending_of e') -> k = 1).
  { intros k e' K. injection K as _ K. destruct e'; cbn in K; congruence. }
  split.
  - intros -> PS.
    assert (Er : r = Throw TargetReached).
    { destruct r as [[]|e'|].
      - destruct H as [_ H]. pose proof (report_ending _ _ _ _ _ _ _ _ _ 0 H eq_refl) as K. unfold exit_code in K. rewrite HS in K. discriminate.
      - destruct e'; try (apply Z in H; discriminate); auto.
        destruct H as [_ H]. pose proof (report_ending _ _ _ _ _ _ _ _ _ 0 H eq_refl) as K. unfold exit_code in K. rewrite HS in K. discriminate.
      - discriminate. }
    subst r. destruct H as (t & past & q & x & w & Et & Erq & Ecs & Hr & Lx & H).
    assert (HA' : honest B) by now apply honest_run_by.
    assert (Pl' : plays (controlled_obj mid target (f_obj F)) B (ma_begin B (ma_init B))
      (controlled_init mid (fp_size (f_props F)) (f_init F)) (map REval xs) st cs (Throw TargetReached)) by now rewrite HF.
    destruct (maximizer mo d co F0 f m F i v mid target B _ _ _ _ HCo HM HI HKn HV HMx HP HS HCt HA' RE' Pl') as (x' & w' & E1 & _ & _ & E2).
    rewrite Ecs in E1. injection E1 as <- <-. exists x. split; [|split; [exact (report_shows _ _ _ _ _ _ _ _ _ H PS)|exact E2]].
    apply target_request in Hr. assert (Hq : In q (map REval xs)) by (rewrite Erq; apply in_or_app; right; now left).
    apply in_map_iff in Hq as (y & <- & Hy). cbn in Hr. now subst y.
  - intros -> k x Ex Ev.
    assert (Nr : r <> Throw TargetReached).
    { intros ->. destruct H as (t & past & q & y & w & _ & _ & _ & _ & _ & H).
      pose proof (report_ending _ _ _ _ _ _ _ _ _ 2 H eq_refl) as K. discriminate. }
    unfold make_function_controller, target_of in HCt. rewrite HS in HCt.
    destruct (fp_known (f_props F)) as [[]|e'|] eqn:KF; try discriminate. cbn [bind] in HCt.
    destruct (decorated_total mo d F0 f m F i v HCo HM HI HKn HV KF HP) as (T & _ & MX & _). rewrite MX in HCt. cbn [bind] in HCt.
    injection HCt as <- <-.
    assert (EC : exists c, nth_error (calls (controlled_obj (middle_of co) (Some v) (f_obj F)) (controlled_init (middle_of co) i (f_init F)) (map REval xs)) k = Some c).
    { destruct (nth_error (calls _ _ _) k) eqn:EN; [eauto|]. apply nth_error_None in EN. rewrite calls_length, map_length in EN.
      assert (k < length xs) by (apply nth_error_Some; congruence). lia. }
    destruct EC as [c EC].
    assert (NB : forall b, budget_of (middle_of co) = Some b -> (0 <= b)%Z).
    { unfold middle_of. destruct (Z.ltb_spec 0 (co_budget co)), (co_cache co), (co_cache_budget co); cbn; intros b [= <-]; lia. }
    pose proof (controllers_sequential (f_obj F) (middle_of co) (Some v) i (fun x => f (image m x)) (f_init F) xs k c x T NB HX EC Ex) as SR.
    assert (VV : dge v v = true).
    { destruct HMx as [U [x0 [L0 E0]]]. specialize (U x0 L0). rewrite E0 in U. exact U. }
    assert (FX : sequential_result (middle_of co) (fun x => f (image m x)) xs k x = Ok (RValue v) \/
      sequential_result (middle_of co) (fun x => f (image m x)) xs k x = Throw LastEvaluation).
    { rewrite <- Ev. unfold sequential_result. destruct (middle_of co); auto; match goal with |- context [if ?b then _ else _] => destruct b end; auto. }
    destruct (plays_answered _ _ _ _ _ _ _ _ Pl k c EC) as [[p K]|[K1 K2]].
    + exfalso. rewrite K in SR. destruct FX as [FX|FX]; rewrite FX in SR; cbn [seen_through] in SR; [rewrite VV in SR|]; discriminate.
    + rewrite map_length in K1. split; [exact K1|].
      destruct FX as [FX|FX]; rewrite FX in SR; cbn [seen_through] in SR; [rewrite VV in SR|];
        (destruct K2 as [(e' & Ke & ->)|[Ke _]]; rewrite Ke in SR; [injection SR as ->|discriminate]); [now destruct Nr|reflexivity].
Qed.

(** ** Before the run *)

(** Options which end the program before the run, and errors *)
Theorem C111_errors ap co made factory fuel :
  (ap_print_default ap = true -> program ap co made factory fuel = Some ([OParameters], Exit 0)) /\
  (ap_print_default ap = false -> (ap_threads ap < 1)%Z -> program ap co made factory fuel = Some ([], Exit 1)) /\
  (ap_print_default ap = false -> (1 <= ap_threads ap)%Z ->
     (forall e, made = Throw e -> program ap co made factory fuel = Some ([], ending_of e)) /\
     (forall m F, made = Ok (Some (m, F)) -> co_stop_on_maximum co = true -> fp_known (f_props F) = Ok false ->
        program ap co made factory fuel = Some ([], Exit 1))) /\
  (forall m F mid target e, optimizes ap -> made = Ok (Some (m, F)) -> make_function_controller co F = Ok (mid, target) ->
     factory (fp_size (f_props F)) = Throw e -> program ap co made factory fuel = Some ([], ending_of e)).
Proof.
  unfold program, app_init. split; [|split; [|split]].
  - now intros ->.
  - intros -> H. destruct (Z.ltb_spec (ap_threads ap) 1); [reflexivity|lia].
  - intros -> H. destruct (Z.ltb_spec (ap_threads ap) 1); [lia|]. split.
    + intros e ->. cbn. now destruct e.
    + intros m F -> HS HK. unfold make_function_controller, target_of. rewrite HS, HK. reflexivity.
  - intros m F mid target e (H1 & H2 & H3 & H4 & H5 & H6 & H7) -> HC HFa. rewrite H1. destruct (Z.ltb_spec (ap_threads ap) 1); [lia|].
    rewrite HC. unfold load_solution, print_information. rewrite H3, H4, H5, H6, H7. cbn [when andthen snd fst app]. rewrite HFa. now destruct e.
Qed.

Section Before.
  Context (ap : app_options) (co : controller_options) (m : option hmap) (F : func) (factory : nat -> outcome machine).
  Context (mid : middle) (target : option dbl) (i n : nat) (fuel : nat).
  Context (HD : ap_print_default ap = false) (HTh : (1 <= ap_threads ap)%Z) (HC : make_function_controller co F = Ok (mid, target)).
  Local Notation P := (program ap co (Ok (Some (m, F))) factory fuel).

  (** Questions about the function, one of which is answered: in this order, is the maximum
      known, the maximum, the size, and is there an incremental evaluation.  Through a
      cache, there is none. *)
  Theorem C111_information : ap_load ap = None ->
    (ap_ask_known ap = true -> forall b, fp_known (f_props F) = Ok b -> P = Some ([OYes b], Exit 0)) /\
    (ap_ask_known ap = false -> ap_ask_maximum ap = true ->
       (fp_known (f_props F) = Ok false -> P = Some ([], Exit 1)) /\
       (fp_known (f_props F) = Ok true -> forall v, fp_max (f_props F) = Ok v -> P = Some ([OMaximum v], Exit 0))) /\
    (ap_ask_known ap = false -> ap_ask_maximum ap = false -> ap_ask_size ap = true -> P = Some ([OSize (fp_size (f_props F))], Exit 0)) /\
    (ap_ask_known ap = false -> ap_ask_maximum ap = false -> ap_ask_size ap = false -> ap_ask_incremental ap = true ->
       P = Some ([OYes (fp_inc (f_props F) && negb (co_cache co))], Exit 0)).
  Proof.
    intros HL. unfold program, app_init. rewrite HD. destruct (Z.ltb_spec (ap_threads ap) 1); [lia|]. rewrite HC.
    unfold load_solution, print_information. rewrite HL.
    assert (Ei : controlled_inc mid (f_props F) = fp_inc (f_props F) && negb (co_cache co)).
    { unfold make_function_controller in HC. destruct (target_of co (f_props F)); try discriminate. injection HC as <- _.
      unfold middle_of. destruct (0 <? co_budget co)%Z, (co_cache co), (co_cache_budget co); cbn; now rewrite ?andb_true_r, ?andb_false_r. }
    split; [|split; [|split]].
    - intros -> b ->. reflexivity.
    - intros -> ->. split; [intros ->; reflexivity|]. intros -> v ->. reflexivity.
    - intros -> -> ->. reflexivity.
    - intros -> -> -> ->. rewrite Ei. reflexivity.
  Qed.

  (** Loading a solution: its value and its description are shown, unless it reaches the
      target, in which case the exit code is that of an error and nothing is shown. *)
  Theorem C111_load x f : ap_load ap = Some (Ok x) -> fp_size (f_props F) = i -> map_fits m i n -> kind_known m ->
    total (f_obj F) (f_init F) i f ->
    (length x <> i -> P = Some ([], Exit 1)) /\
    (length x = i ->
       P = if ap_print_results ap && match target with Some t => dge (f x) t | None => false end then Some ([], Exit 1)
           else Some (also (ap_print_results ap) (OValue (f x)) ++ also (ap_print_description ap) (ODescription Printed (image m x)), Exit 0)).
  Proof.
    intros HL HF HM HK HT. unfold program, app_init. rewrite HD. destruct (Z.ltb_spec (ap_threads ap) 1) as [K|K]; [lia|]. clear K. rewrite HC.
    unfold load_solution. rewrite HL, HF. split.
    - intros Hx. apply Nat.eqb_neq in Hx. rewrite Hx. reflexivity.
    - intros Hx. rewrite Hx, Nat.eqb_refl. cbn [negb].
      assert (V : snd (controlled_obj mid target (f_obj F) (controlled_init mid i (f_init F)) (REval x)) = seen_through target (Ok (RValue (f x)))).
      { assert (Emid : mid = middle_of co).
        { unfold make_function_controller in HC. destruct (target_of co (f_props F)); try discriminate. now injection HC. }
        set (o := controlled_obj mid target (f_obj F)). set (s := controlled_init mid i (f_init F)).
        assert (El : nth_error (calls o s (map REval [x])) 0 = Some (mk_call s (REval x) (snd (o s (REval x))) (fst (o s (REval x))))).
        { cbn [map]. rewrite calls_cons. reflexivity. }
        change (snd (o s (REval x))) with (res (mk_call s (REval x) (snd (o s (REval x))) (fst (o s (REval x))))).
        assert (NB : forall b, budget_of mid = Some b -> (0 <= b)%Z).
        { rewrite Emid. unfold middle_of. destruct (Z.ltb_spec 0 (co_budget co)), (co_cache co), (co_cache_budget co); cbn; intros b [= <-]; lia. }
        rewrite (controllers_sequential (f_obj F) mid target i f (f_init F) [x] 0 _ x HT NB (Forall_cons _ Hx (Forall_nil _)) El eq_refl).
        rewrite Emid. unfold middle_of, sequential_result. destruct (Z.ltb_spec 0 (co_budget co)) as [Hb|Hb], (co_cache co), (co_cache_budget co); try reflexivity.
        all: cbn [firstn first_occurrences fold_left length]; destruct (Z.ltb_spec (Z.of_nat 0) (co_budget co)); [reflexivity|lia].
      }
      rewrite V. rewrite (base_size_fits m F i n HM HF).
      assert (D : print_description Printed m n x = ([ODescription Printed (image m x)], Ok None)).
      { unfold print_description. now rewrite (proj1 (describe_spec m i n x HM HK) Hx). }
      rewrite D. destruct (ap_print_results ap), (ap_print_description ap), target as [t|]; cbn [seen_through andb when also];
        try (destruct (dge (f x) t)); reflexivity.
  Qed.
End Before.
Print Assumptions C111_run.
Print Assumptions C111_ends.
Print Assumptions C111_results.
Print Assumptions C111_restart.
Print Assumptions C111_concrete_description.
Print Assumptions C111_made.
Print Assumptions C111_maximizer.
Print Assumptions C111_errors.
Print Assumptions C111_information.
Print Assumptions C111_load.

(** An algorithm which evaluates the vectors [xs] in order and keeps the best one; if
    [again], it evaluates the last one for ever. *)
Definition example_search (again : bool) (n : nat) (xs : list bv) : machine :=
  mk_machine (list bv * (bv * dbl)) (xs, (repeat false n, DNegInf)) (fun st => (xs, snd st))
    (fun st => match fst st with [] => if again then MCall (REval (repeat true n)) else MReturn | x :: _ => MCall (REval x) end)
    (fun st a => match fst st, a with
                 | x :: l, Ok (RValue v) => (l, if dgt v (snd (snd st)) then (x, v) else snd st)
                 | _, _ => st
                 end)
    (fun st => st) snd.
Definition example_app (load : option (outcome bv)) (restart concrete description : bool) : app_options :=
  mk_app_options false 1 load false false false false restart true false concrete true false description false.
Definition example_co (budget : Z) (maximum : bool) : controller_options := mk_controller_options budget false false maximum None false.
Definition example_made (kd : Z) : outcome (option (option hmap * func)) :=
  make_function_modifier (mk_modifier_options 3 (mk_map_options kd true 2 false 0 0) None None false None) example_draws (Ok example_func).
Definition example_program (ap : app_options) (co : controller_options) (kd : Z) (again : bool) (xs : list bv) :=
  program ap co (example_made kd) (fun n => Ok (example_search again n xs)) 20.

(** Three bits, without map: the maximum is reached; it is not; the budget; Restart.  With a
    linear map of two bits to three: concrete solution, with a description.  Loaded
    solutions *)
Example C111_case :
  let ap := example_app None false false true in
  let three := [[true; false; false]; [true; true; true]; [false; true; true]] in
  example_program ap (example_co 0 true) 0 false three =
    Some ([OResults Printed (mk_results (Some (DFin 3)) 2 2 (Some true) None); OSolution Printed [true; true; true];
           ODescription Printed [true; true; true]], Exit 0) /\
  example_program ap (example_co 0 true) 0 false [[true; false; false]; [false; true; true]] =
    Some ([OResults Printed (mk_results (Some (DFin 2)) 2 2 (Some false) None); OSolution Printed [false; true; true];
           ODescription Printed [false; true; true]], Exit 2) /\
  example_program ap (example_co 1 false) 0 false three =
    Some ([OResults Printed (mk_results (Some (DFin 1)) 1 1 None None); OSolution Printed [true; false; false];
           ODescription Printed [true; false; false]], Exit 0) /\
  example_program (example_app None true false false) (example_co 4 false) 0 true three =
    Some ([OResults Printed (mk_results (Some (DFin 3)) 2 4 None None); OSolution Printed [false; false; false]], Exit 0) /\
  example_program (example_app None false true true) (example_co 0 false) 4 false [[true; true]] =
    Some ([OResults Printed (mk_results (Some (DFin 2)) 1 1 None None); OSolution Printed [true; true; false]], Undefined) /\
  example_program (example_app (Some (Ok [true; true; true])) false false true) (example_co 0 true) 0 false three = Some ([], Exit 1) /\
  example_program (example_app (Some (Ok [true; true; false])) false false true) (example_co 0 true) 0 false three =
    Some ([OValue (DFin 2); ODescription Printed [true; true; false]], Exit 0).
Proof. cbv zeta. repeat (split; [vm_compute; reflexivity|]). vm_compute; reflexivity. Qed.

(** The hypotheses are met. *)
Lemma example_search_visited again n xs b st : Forall (fun x => length x = n) xs -> visited (example_search again n xs) b st ->
  Forall (fun x => length x = n) (fst st) /\ length (fst (snd st)) = n.
Proof.
  intros HX. induction 1 as [|b st _ [I1 I2]|st a _ [I1 I2]|b st _ I]; cbn.
  - split; [exact HX|apply repeat_length].
  - auto.
  - destruct st as [[|x l] best]; cbn [fst snd] in *; [auto|]. inversion I1; subst. destruct a as [[v|]|e|]; cbn [fst snd]; auto.
    destruct (dgt v (snd best)); auto.
  - exact I.
Qed.
Example C111_algorithm_case again n xs : Forall (fun x => length x = n) xs ->
  let A := example_search again n xs in honest A /\ works A n /\ evaluates A.
Proof.
  intros HX A. split; [|split].
  - intros st e. cbn. destruct (fst st); [destruct again|]; discriminate.
  - intros st V. destruct (example_search_visited again n xs true st HX V) as [I1 I2]. split; [|exact I2].
    intros q. cbn. destruct (fst st) as [|x l]; [destruct again; [|discriminate]|]; intros [= <-]; [apply repeat_length|]. now inversion I1.
  - intros st q _. cbn. destruct (fst st) as [|x l]; [destruct again; [|discriminate]|]; intros [= <-]; eauto.
Qed.
Example C111_function_case : quiet (f_obj example_func) /\ typed (f_obj example_func) /\ optimizes (example_app None true true true) /\
  (exists F, example_made 0 = Ok (Some (None, F)) /\ make_function_controller (example_co 5 true) F = Ok (MidBudget 5, Some (DFin 3)) /\
     total (f_obj F) (f_init F) 3 ones_of) /\
  (exists m F, example_made 4 = Ok (Some (m, F)) /\ map_fits m 2 3 /\ kind_known m /\ fp_size (f_props F) = 2 /\
     make_function_controller (example_co 5 false) F = Ok (MidBudget 5, None)).
Proof.
  split; [intros [] [x|x v l|x v|x]; split; discriminate|]. split; [exact C30_case_typed|]. split; [repeat split; cbn; lia|]. split.
  - eexists. split; [vm_compute; reflexivity|]. split; [reflexivity|]. intros l H. induction H as [|x l _ _ IH]; cbn; [reflexivity|]. f_equal. exact IH.
  - destruct (example_made 4) as [[[m F]|]|e|] eqn:E; try (vm_compute in E; discriminate E). exists m, F. split; [auto|].
    vm_compute in E. injection E as <- <-. split; [|split; [discriminate|split; reflexivity]].
    constructor. split; [lia|]. split; [lia|]. split; [reflexivity|]. repeat constructor.
Qed.
