(** Proofs about the application. *)

From Coq Require Import ZArith.
From Verif Require Import Base BaseLemmas BitVector_Model BitMatrix_Model Transvection_Model Neighborhood_Model Map_Model Map_Spec Map_Proofs Double Controller_Model Controller_Spec Controller_Proofs
  Decorator_Model Decorator_Spec Decorator_Proofs ControllerStack_Spec ControllerStack_Proofs Application_Model Application_Spec.
Local Open Scope nat_scope.

Section Play.
  Context {S : Type} (o : fobj S) (A : machine).

  Lemma play_plays fuel : forall st s st' s' r, play o A fuel st s = Some (st', s', r) -> exists rs, plays o A st s rs st' s' r.
  Proof.
    induction fuel as [|fuel IH]; intros st s st' s' r E; [discriminate|]. cbn [play] in E.
    destruct (ma_next A st) as [q| | |e|] eqn:En.
    - destruct (o s q) as [s1 a] eqn:Eo. destruct a as [p|e|].
      + apply IH in E as [rs H]. exists (q :: rs). apply plays_call with (p := p); auto; rewrite Eo; auto.
      + injection E as <- <- <-. exists [q]. change s1 with (fst (s1, Throw (A:=reply) e)). rewrite <- Eo. apply plays_exception; auto. now rewrite Eo.
      + injection E as <- <- <-. exists [q]. change s1 with (fst (s1, UB (A:=reply))). rewrite <- Eo. apply plays_failure; auto. now rewrite Eo.
    - apply IH in E as [rs H]. exists rs. now apply plays_silent.
    - injection E as <- <- <-. exists []. now apply plays_return.
    - injection E as <- <- <-. exists []. now apply plays_throw.
    - injection E as <- <- <-. exists []. now apply plays_undefined.
  Qed.

  Lemma plays_play st s rs st' s' r : plays o A st s rs st' s' r -> exists fuel, forall k, play o A (fuel + k) st s = Some (st', s', r).
  Proof.
    induction 1 as [st s En|st s e En|st s En|st s rs st' s' r En _ [fuel IH]|st s q p rs st' s' r En Eo _ [fuel IH]|st s q e En Eo|st s q En Eo].
    1-3: exists 1; intros k; cbn [Nat.add play]; now rewrite En.
    - exists (Datatypes.S fuel). intros k. cbn [Nat.add play]. rewrite En. apply IH.
    - exists (Datatypes.S fuel). intros k. cbn [Nat.add play]. rewrite En. destruct (o s q) as [s1 a]. cbn in *. subst a. apply IH.
    - exists 1. intros k. cbn [Nat.add play]. rewrite En. destruct (o s q) as [s1 a]. cbn in *. now subst a.
    - exists 1. intros k. cbn [Nat.add play]. rewrite En. destruct (o s q) as [s1 a]. cbn in *. now subst a.
  Qed.

  Lemma plays_deterministic st s rs st' s' r : plays o A st s rs st' s' r ->
    forall rs2 st2 s2 r2, plays o A st s rs2 st2 s2 r2 -> rs2 = rs /\ st2 = st' /\ s2 = s' /\ r2 = r.
  Proof.
    induction 1 as [st s En|st s e En|st s En|st s rs st' s' r En _ IH|st s q p rs st' s' r En Eo _ IH|st s q e En Eo|st s q En Eo];
      intros rs2 st2 s2 r2 H2; inversion H2; subst; try congruence; auto.
    - assert (e0 = e) as -> by congruence. auto.
    - assert (q0 = q) as -> by congruence. assert (p0 = p) as -> by congruence.
      match goal with K : plays _ _ _ _ _ _ _ _ |- _ => apply IH in K as (-> & -> & -> & ->) end. auto.
    - assert (q0 = q) as -> by congruence. assert (e0 = e) as -> by congruence. auto.
    - assert (q0 = q) as -> by congruence. auto.
  Qed.

  Lemma plays_run st s rs st' s' r : plays o A st s rs st' s' r -> s' = run o s rs.
  Proof. induction 1; cbn [run]; auto. Qed.

  (** The last request is the one which ended the run. *)
  Lemma plays_last st s rs st' s' e : plays o A st s rs st' s' (Throw e) -> honest A -> e = LastEvaluation \/ e = TargetReached ->
    exists before q, rs = before ++ [q] /\ snd (o (run o s before) q) = Throw e /\ s' = fst (o (run o s before) q).
  Proof.
    intros H HA He. remember (Throw e) as r eqn:Er. revert Er. induction H; intros Er; try discriminate.
    - injection Er as ->. apply HA in H as [K1 K2]. destruct He; contradiction.
    - auto.
    - destruct (IHplays Er) as (b & q' & -> & E1 & E2). exists (q :: b), q'. auto.
    - injection Er as ->. exists [], q. auto.
  Qed.
End Play.

Lemma kind_clean m out : (kind_of m <> 0)%Z -> clean m out.
Proof.
  intros H k Hk. destruct m as [| | | | | | |outer inner buf]; cbn in *; try contradiction; try lia.
  destruct outer; cbn in *; try contradiction; lia.
Qed.


Lemma apply_map m i n x out : built m i n -> (kind_of m <> 0)%Z -> length x = i -> length out = n ->
  exists m', map_apply m x out = Ok (m', map_fn m x) /\ length (map_fn m x) = n.
Proof.
  intros HB HK Hx Ho. destruct (map_apply_good m i n (built_good _ _ _ HB) x out Hx Ho (kind_clean m out HK)) as (m' & E & _ & _ & _ & L & _).
  eauto.
Qed.

Lemma base_size_fits m F i n : map_fits m i n -> fp_size (f_props F) = i -> base_size m F = n.
Proof.
  destruct m as [m|]; cbn; [|congruence]. intros HB _. exact (good_output_size m i n (built_good _ _ _ HB)).
Qed.

Lemma describe_spec m i n x : map_fits m i n -> kind_known m ->
  (length x = i -> describe m n x = Ok (image m x)) /\ (m <> None -> length x <> i -> describe m n x = UB).
Proof.
  intros HM HK. destruct m as [m|]; cbn [describe image]; [|split; [auto|congruence]]. cbn in HM, HK.
  rewrite (good_input_size m i n (built_good _ _ _ HM)). cbn [bind]. split.
  - intros Hx. rewrite Hx, Nat.eqb_refl. cbn [assertb bind].
    destruct (apply_map m i n x (repeat false n) HM HK Hx (repeat_length _ _)) as (m' & -> & _). reflexivity.
  - intros _ Hx. apply Nat.eqb_neq in Hx. now rewrite Hx.
Qed.

Lemma resized_length n (x : bv) : length (firstn n x ++ repeat false (n - length x)) = n.
Proof. rewrite app_length, firstn_length, repeat_length. lia. Qed.

Lemma length_image m i n x : map_fits m i n -> kind_known m -> length x = i -> length (image m x) = n.
Proof.
  destruct m as [m|]; cbn; [|congruence]. intros HB HK Hx.
  destruct (apply_map m i n x (repeat false n) HB HK Hx (repeat_length _ _)) as (_ & _ & L). exact L.
Qed.

Lemma manage_spec ap m F x i n : map_fits m i n -> kind_known m -> fp_size (f_props F) = i -> length x = i ->
  manage_solution ap m F x =
    if negb (describes ap) || (length (shown ap m x) =? i)
    then (show_solution ap (shown ap m x) ++ show_description ap (image m (shown ap m x)), Ok None)
    else (show_solution ap (shown ap m x), UB).
Proof.
  intros HM HK HF Hx. unfold manage_solution. rewrite (base_size_fits m F i n HM HF).
  set (c := match ap_concrete ap, m with true, Some m0 => _ | _, _ => Ok x end).
  assert (Ec : c = Ok (shown ap m x)).
  { unfold c, shown, image. destruct (ap_concrete ap); [|reflexivity]. destruct m as [mm|]; [|reflexivity]. cbn in HM, HK.
    rewrite (good_output_size mm i n (built_good _ _ _ HM)).
    destruct (apply_map mm i n x (firstn n x ++ repeat false (n - length x)) HM HK Hx (resized_length n x)) as (m' & -> & _). reflexivity. }
  rewrite Ec. clear c Ec. set (y := shown ap m x). destruct (describe_spec m i n y HM HK) as [D1 D2].
  unfold print_description, show_solution, show_description, describes.
  destruct (Nat.eqb_spec (length y) i) as [L|L].
  - rewrite (D1 L), orb_true_r.
    destruct (ap_print_solution ap), (ap_save_solution ap), (ap_print_description ap), (ap_save_description ap); reflexivity.
  - assert (N : m <> None).
    { intros ->. apply L. unfold y, shown, image. destruct (ap_concrete ap); exact Hx. }
    rewrite (D2 N L), orb_false_r.
    destruct (ap_print_solution ap), (ap_save_solution ap), (ap_print_description ap), (ap_save_description ap); reflexivity.
Qed.

Section Program.
  Context (ap : app_options) (co : controller_options) (m : option hmap) (F : func) (factory : nat -> outcome machine) (A : machine).
  Context (mid : middle) (target : option dbl) (i n : nat).
  Context (HO : optimizes ap) (HC : make_function_controller co F = Ok (mid, target)) (HA : factory (fp_size (f_props F)) = Ok A).
  Local Notation A' := (run_by ap (fp_size (f_props F)) A).
  Local Notation o := (controlled_obj mid target (f_obj F)).
  Local Notation s0 := (controlled_init mid (fp_size (f_props F)) (f_init F)).

  Lemma program_run fuel : program ap co (Ok (Some (m, F))) factory fuel =
    match play o A' fuel (ma_begin A' (ma_init A')) s0 with
    | None => None
    | Some (st, cs, r) => Some (end_of_program (end_of_run ap co m F mid target A' st cs r))
    end.
  Proof.
    destruct HO as (H1 & H2 & H3 & H4 & H5 & H6 & H7). unfold program, app_init. rewrite H1. destruct (Z.ltb_spec (ap_threads ap) 1); [lia|].
    rewrite HC. unfold load_solution. rewrite H3. unfold print_information. rewrite H4, H5, H6, H7.
    cbn [andthen when fst snd app]. rewrite HA. unfold run_by.
    destruct (play o _ fuel _ s0) as [[[st cs] r]|]; [|reflexivity]. cbn [andthen fst snd app].
    now destruct (end_of_run ap co m F mid target _ st cs r).
  Qed.

  Lemma program_ends fuel out e : program ap co (Ok (Some (m, F))) factory fuel = Some (out, e) ->
    exists rs st cs r, plays o A' (ma_begin A' (ma_init A')) s0 rs st cs r /\
      (out, e) = end_of_program (end_of_run ap co m F mid target A' st cs r).
  Proof.
    rewrite program_run. destruct (play o A' fuel _ s0) as [[[st cs] r]|] eqn:E; [|discriminate].
    intros K. apply Some_inj in K. apply play_plays in E as [rs E]. exists rs, st, cs, r. auto.
  Qed.

  Lemma program_plays rs st cs r : plays o A' (ma_begin A' (ma_init A')) s0 rs st cs r ->
    exists fuel, forall k, program ap co (Ok (Some (m, F))) factory (fuel + k) =
      Some (end_of_program (end_of_run ap co m F mid target A' st cs r)).
  Proof. intros [fuel H]%plays_play. exists fuel. intros k. now rewrite program_run, H. Qed.

  Lemma target_iff : target = None <-> (match co_stop_on_maximum co, co_target co with false, None => True | _, _ => False end).
  Proof.
    unfold make_function_controller, target_of in HC. destruct (co_stop_on_maximum co).
    - destruct (fp_known (f_props F)) as [[]|e|]; try discriminate. cbn [bind] in HC.
      destruct (fp_max (f_props F)); try discriminate. cbn [bind] in HC. injection HC as _ <-. split; [discriminate|tauto].
    - cbn [bind] in HC. injection HC as _ <-. destruct (co_target co); split; (discriminate || tauto || auto).
  Qed.

  Context (HM : map_fits m i n) (HK : kind_known m) (HF : fp_size (f_props F) = i).

  Lemma end_spec {S} (B : machine) st (cs : option (bv * dbl) * middle_state mid (improvement * (nat * S))) r x success :
    concludes B st (fst cs) r x success -> (success = true -> target <> None) -> length x = i ->
    end_of_program (end_of_run ap co m F mid target B st cs r) =
      report ap co m i (final_results co mid cs success) x success.
  Proof.
    intros HCs HT Hx.
    assert (R : forall t z, print_results ap co (fst (middle_inner mid (snd cs))) (fst (snd (middle_inner mid (snd cs)))) (middle_cache mid (snd cs)) t = z ->
      z = (show_results ap (final_results co mid cs t), Ok None)).
    { intros t z <-. unfold print_results, show_results, final_results.
      destruct (co_stop_on_maximum co), (co_target co), (ap_print_results ap), (ap_save_results ap); reflexivity. }
    assert (G : forall t, end_of_program
      (andthen (print_results ap co (fst (middle_inner mid (snd cs))) (fst (snd (middle_inner mid (snd cs)))) (middle_cache mid (snd cs)) t)
        (andthen (manage_solution ap m F x)
          ([], Ok (Some (if co_stop_on_maximum co && negb t then 2
                     else if match co_target co with None => false | Some _ => true end && negb t then 3
                     else 0))))) =
      report ap co m i (final_results co mid cs t) x t).
    { intros t. unfold report. cbv zeta. rewrite (R t _ eq_refl). rewrite (manage_spec ap m F x i n HM HK HF Hx). cbv zeta.
      assert (X : (if co_stop_on_maximum co && negb t then 2
                   else if match co_target co with None => false | Some _ => true end && negb t then 3 else 0) = exit_code co t).
      { unfold exit_code. destruct t, (co_stop_on_maximum co), (co_target co); reflexivity. }
      rewrite X. clear X. destruct (negb (describes ap) || _); unfold andthen, end_of_program; cbn [fst snd]; rewrite ?app_nil_r, ?app_assoc; reflexivity. }
    inversion HCs as [E1 E2 E3|E1 E2 E3|y v Et E1 E2 E3]; subst; try exact (G false).
    unfold end_of_run. rewrite Et. destruct target; [exact (G true)|]. now destruct (HT eq_refl).
  Qed.

  Lemma error_spec {S} (B : machine) st (cs : option (bv * dbl) * middle_state mid (improvement * (nat * S))) e :
    e <> LastEvaluation -> e <> TargetReached ->
    end_of_program (end_of_run ap co m F mid target B st cs (Throw e)) = ([], ending_of e).
  Proof. intros H1 H2. destruct e; try contradiction; reflexivity. Qed.
End Program.

(** * The target *)

Lemma calls_at {S} (o : fobj S) s l q l' : exists c, nth_error (calls o s (l ++ q :: l')) (length l) = Some c /\
  req c = q /\ before c = run o s l /\ (after c, res c) = o (run o s l) q.
Proof.
  revert s. induction l as [|r l IH]; intros s; cbn [app length]; rewrite calls_cons; cbn [nth_error].
  - eexists. split; [reflexivity|]. cbn. split; [auto|]. split; [auto|]. now destruct (o s q).
  - cbn [run]. apply IH.
Qed.

Lemma tracker_quiet {S} (o : fobj S) record s r : quiet o -> snd (progress_tracker o record s r) <> Throw TargetReached.
Proof.
  intros Q. destruct s as [i [k s]]. unfold progress_tracker. rewrite call_counter_step. destruct (Q s r) as [_ Q2].
  destruct r as [x|x w l|x w|x], (snd (o s _)) as [[v|]|e|]; cbn [snd]; try discriminate; try exact Q2;
    destruct (update_last_improvement _ _ _ _ _); cbn; discriminate.
Qed.
Lemma budget_quiet {S} (o : fobj S) b s r : (forall s r, snd (o s r) <> Throw TargetReached) -> snd (on_budget o b s r) <> Throw TargetReached.
Proof.
  intros Q. destruct s as [k s]. rewrite on_budget_step, call_counter_step. destruct (_ && _); cbn [snd]; [discriminate|apply Q].
Qed.
Lemma cache_quiet {S} (o : fobj S) s r : (forall s r, snd (o s r) <> Throw TargetReached) -> snd (cache o s r) <> Throw TargetReached.
Proof.
  intros Q. destruct s as [c s]. destruct r as [x|x w l|x w|x]; cbn [cache]; try (cbn; discriminate).
  - destruct (length x =? cache_size c); [|cbn; discriminate]. destruct (cache_find (cache_map c) x); [cbn; discriminate|].
    specialize (Q s (REval x)). destruct (o s (REval x)) as [s' a]. cbn [snd] in Q. destruct a as [[v|]|e|]; cbn [snd]; auto.
  - specialize (Q s (RSafe x)). destruct (o s (RSafe x)) as [s' a]. auto.
Qed.
Lemma middle_quiet {S} (m : middle) (o : fobj S) s r : quiet o -> snd (middle_obj m (progress_tracker o false) s r) <> Throw TargetReached.
Proof.
  intros Q. assert (T : forall s r, snd (progress_tracker o false s r) <> Throw TargetReached) by (intros; now apply tracker_quiet).
  destruct m as [|b| |b|b]; cbn [middle_obj].
  - apply T.
  - now apply budget_quiet.
  - now apply cache_quiet.
  - apply budget_quiet. intros. now apply cache_quiet.
  - apply cache_quiet. intros. now apply budget_quiet.
Qed.

Lemma evaluation_reaches t q a x v l : filter (fun p => dge (snd p) t) (evaluation q a) = (x, v) :: l -> reaches t q x v.
Proof.
  unfold reaches. destruct q as [y|y w k|y w|y], a as [[u|]|e|]; cbn [evaluation filter snd]; try discriminate;
    match goal with |- context [dge ?a ?b] => destruct (dge a b) eqn:E; try discriminate end; intros [= <- <- <-]; eauto 6.
Qed.

Section Target.
  Context {S : Type} (o : fobj S) (mid : middle) (target : option dbl) (A : machine) (n : nat) (s : S).
  Context (HA : honest A).
  Local Notation C := (controlled_obj mid target o).
  Local Notation s0 := (controlled_init mid n s).

  Lemma plays_target st rs st' cs : quiet o -> plays C A st s0 rs st' cs (Throw TargetReached) ->
    exists t past q x v, target = Some t /\ rs = past ++ [q] /\ fst cs = Some (x, v) /\ reaches t q x v.
  Proof.
    intros Q H. destruct (plays_last _ _ _ _ _ _ _ _ H HA (or_intror eq_refl)) as (past & q & -> & E1 & E2).
    destruct (run C s0 past) as [tr s1] eqn:Er. unfold controlled_obj in E1, E2. destruct target as [t|].
    - rewrite stop_step in E1, E2. destruct (filter _ _) as [|[x v] l] eqn:Ef.
      + cbn [snd] in E1. exfalso. exact (middle_quiet mid o s1 q Q E1).
      + exists t, past, q, x, v. split; [auto|]. split; [auto|]. split; [now rewrite E2|]. exact (evaluation_reaches t q _ x v l Ef).
    - exfalso. apply (middle_quiet mid o s1 q Q). destruct (middle_obj mid (progress_tracker o false) s1 q). exact E1.
  Qed.

End Target.

(** A run which ends otherwise has not reached the target. *)
Lemma plays_not_reached {S} (o : fobj S) mid t (A : machine) st x rs st' cs r :
  plays (controlled_obj mid (Some t) o) A st x rs st' cs r -> r <> Throw TargetReached ->
  reaching t (calls (middle_obj mid (progress_tracker o false)) (snd x) rs) = [].
Proof.
  assert (ST : forall x q, snd (controlled_obj mid (Some t) o x q) <> Throw TargetReached ->
    filter (fun p => dge (snd p) t) (evaluation q (snd (middle_obj mid (progress_tracker o false) (snd x) q))) = [] /\
    snd (fst (controlled_obj mid (Some t) o x q)) = fst (middle_obj mid (progress_tracker o false) (snd x) q)).
  { intros [tr z] q. unfold controlled_obj. rewrite stop_step. cbn [snd].
    destruct (filter _ _) as [|[y v] l]; cbn [fst snd]; [auto|congruence]. }
  intros H. induction H as [st x En|st x e En|st x En|st x rs st' s' r En _ IH|st x q p rs st' s' r En Eo _ IH|st x q e En Eo|st x q En Eo];
    intros Hr; auto.
  - unfold reaching, evaluations in *. rewrite calls_cons. cbn [flat_map req res]. rewrite filter_app.
    destruct (ST x q) as [-> E2]; [congruence|]. cbn [app]. rewrite <- E2. auto.
  - unfold reaching, evaluations in *. rewrite calls_cons. cbn [flat_map req res]. rewrite filter_app.
    destruct (ST x q) as [-> E2]; [|reflexivity]. intros K. rewrite Eo in K. injection K as ->. auto.
  - unfold reaching, evaluations in *. rewrite calls_cons. cbn [flat_map req res]. rewrite filter_app.
    destruct (ST x q) as [-> E2]; [congruence|reflexivity].
Qed.

(** * Maximizers *)

Lemma requests_eval i rs : Forall (fun q => exists x, q = REval x /\ length x = i) rs ->
  exists xs, rs = map REval xs /\ Forall (fun x => length x = i) xs.
Proof.
  induction 1 as [|q rs (x & -> & Hx) _ (xs & -> & HF)]; [exists []; auto|]. exists (x :: xs). auto.
Qed.

Lemma list_ext {X} (l k : list X) : length l = length k -> (forall j a b, nth_error l j = Some a -> nth_error k j = Some b -> a = b) -> l = k.
Proof.
  revert k. induction l as [|a l IH]; intros [|b k] L H; try discriminate; auto. f_equal.
  - exact (H 0 a b eq_refl eq_refl).
  - apply IH; [now injection L|]. intros j. exact (H (S j)).
Qed.

Lemma decorated_total mo d F0 f m F i v : computes F0 f -> make_function_modifier mo d (Ok F0) = Ok (Some (m, F)) ->
  map_fits m i (fp_size (f_props F0)) -> fp_known (f_props F0) = Ok true -> fp_max (f_props F0) = Ok v ->
  fp_known (f_props F) = Ok true -> mo_prior mo = None ->
  total (f_obj F) (f_init F) i (fun x => f (image m x)) /\ fp_size (f_props F) = i /\ fp_max (f_props F) = Ok v /\
  map_onto m i (fp_size (f_props F0)).
Proof.
  intros HC HM HI HK HV KF HP. destruct (decorated_maximum mo d F0 f m F i true HC HM HI HK) as (b & Kb & H1 & _ & H3).
  rewrite KF in Kb. injection Kb as <-. destruct (H1 eq_refl) as (_ & HO & Pp & Pm & Pn).
  assert (PN : mo_prior mo <> None -> i = fp_size (f_props F0) /\ flips_ok i (dr_flips d)) by congruence.
  split; [|split; [|split; [congruence|exact HO]]].
  - intros xs HX. apply list_ext; [now rewrite !map_length, calls_length, map_length|]. intros j a b Ea Eb.
    rewrite nth_error_map in Ea. destruct (nth_error (calls _ _ _) j) as [c|] eqn:Ec; [|discriminate]. cbn in Ea. injection Ea as <-.
    rewrite nth_error_map in Eb. destruct (nth_error xs j) as [x|] eqn:Ex; [|discriminate]. cbn in Eb. injection Eb as <-.
    assert (RQ : req c = REval x).
    { pose proof Ec as Ec'. apply calls_nth in Ec' as (_ & E & _). apply (map_nth_error REval) in Ex. rewrite Ex in E. now injection E as <-. }
    assert (SZ : all_sized i (map REval xs)).
    { intros r y Hr Hy. apply in_map_iff in Hr as (z & <- & Hz). rewrite Forall_forall in HX. destruct Hy as [[= <-]|Hy]; [auto|discriminate]. }
    destruct (decorated_values mo d F0 f m F i (map REval xs) j c x HC HM HI PN SZ Ec (or_introl RQ)) as [_ ->].
    unfold decorated. now rewrite HP, Pp, Pm, Pn.
  - exact (made_size mo d F0 m F i HM HI).
Qed.

Theorem maximizer mo d co F0 f m F i v mid target (A : machine) st rs st' cs :
  computes F0 f -> make_function_modifier mo d (Ok F0) = Ok (Some (m, F)) -> map_fits m i (fp_size (f_props F0)) ->
  fp_known (f_props F0) = Ok true -> fp_max (f_props F0) = Ok v -> maximum_of (fun a b => dle a b = true) (fp_size (f_props F0)) f v ->
  mo_prior mo = None -> co_stop_on_maximum co = true -> make_function_controller co F = Ok (mid, target) ->
  honest A -> Forall (fun q => exists x, q = REval x /\ length x = i) rs ->
  plays (controlled_obj mid target (f_obj F)) A st (controlled_init mid (fp_size (f_props F)) (f_init F)) rs st' cs (Throw TargetReached) ->
  exists x w, fst cs = Some (x, w) /\ length x = i /\ w = v /\ f (image m x) = v.
Proof.
  intros HC HM HI HK HV (UB1 & _) HP HS HCo HA HR H. destruct (requests_eval i rs HR) as (xs & -> & HX).
  unfold make_function_controller, target_of in HCo. rewrite HS in HCo.
  destruct (fp_known (f_props F)) as [[]|e|] eqn:KF; try discriminate. cbn [bind] in HCo.
  destruct (decorated_total mo d F0 f m F i v HC HM HI HK HV KF HP) as (T & Z & MX & _). rewrite MX in HCo. cbn [bind] in HCo.
  injection HCo as <- <-. rewrite Z in H.
  destruct (plays_last _ _ _ _ _ _ _ _ H HA (or_intror eq_refl)) as (past & q & Eq & E1 & E2).
  set (M := middle_obj (middle_of co) (progress_tracker (f_obj F) false)) in *.
  set (s1 := middle_init (middle_of co) i (tracker_make i, (0, f_init F))) in *.
  destruct (calls_at M s1 past q []) as (c & Ec & Rq & _ & Rc). rewrite <- Eq in Ec.
  change (controlled_obj (middle_of co) (Some v) (f_obj F)) with (stop_on_target M v) in E1, E2.
  change (controlled_init (middle_of co) i (f_init F)) with (@None (bv * dbl), s1) in E1, E2.
  pose proof (proj1 (stop_on_target_trigger M v s1 past)) as RM.
  destruct (run (stop_on_target M v) (None, s1) past) as [tr s2]. cbn [snd] in RM. subst s2.
  rewrite stop_step in E1, E2. rewrite <- Rc in E1, E2. cbn [fst snd] in E1, E2.
  assert (EX : exists x, nth_error xs (length past) = Some x).
  { assert (LX : length (map REval xs) = length (past ++ [q])) by now rewrite Eq. rewrite map_length, app_length in LX. cbn in LX.
    destruct (nth_error xs (length past)) eqn:E; [eauto|]. apply nth_error_None in E. lia. }
  destruct EX as [x EX].
  assert (RX : q = REval x).
  { pose proof (map_nth_error REval _ _ EX) as K. rewrite Eq, nth_error_app2, Nat.sub_diag in K by lia. cbn in K. now injection K. }
  assert (NB : forall b, budget_of (middle_of co) = Some b -> (0 <= b)%Z).
  { unfold middle_of. destruct (Z.ltb_spec 0 (co_budget co)), (co_cache co), (co_cache_budget co); cbn; intros b [= <-]; lia. }
  pose proof (middle_sequential (f_obj F) (middle_of co) i (fun x => f (image m x)) (f_init F) xs (length past) c x T NB HX Ec EX) as MS.
  assert (Lx : length x = i) by (rewrite Forall_forall in HX; apply HX; eapply nth_error_In; exact EX).
  assert (FX : res c = Ok (RValue (f (image m x))) \/ res c = Throw LastEvaluation).
  { rewrite MS. unfold sequential_result. destruct (middle_of co); auto; match goal with |- context [if ?b then _ else _] => destruct b end; auto. }
  rewrite RX in E1, E2.
  destruct FX as [FX|FX]; rewrite FX in E1, E2; [|cbn in E1; discriminate]. cbn [evaluation filter snd] in E1, E2.
  destruct (dge (f (image m x)) v) eqn:EG; [|discriminate].
  assert (Li : length (image m x) = fp_size (f_props F0)).
  { destruct m as [mm|]; cbn in HI |- *; [|congruence]. apply (map_fn_length mm i); [exact (built_good _ _ _ HI)|exact Lx]. }
  assert (EV : f (image m x) = v) by (apply dle_antisym; [now apply UB1|exact EG]).
  exists x, v. subst cs. rewrite EV. auto.
Qed.

(** * What the algorithms do *)

Lemma plays_visited {S} (o : fobj S) A st s rs st' s' r : plays o A st s rs st' s' r -> visited A true st ->
  visited A true st' /\ (forall i, works A i -> Forall (fun q => length (request_vector q) = i) rs) /\
  (evaluates A -> Forall (fun q => exists x, q = REval x) rs).
Proof.
  intros H. induction H as [st s En|st s e En|st s En|st s rs st' s' r En _ IH|st s q p rs st' s' r En Eo _ IH|st s q e En Eo|st s q En Eo]; intros V.
  1-3: auto.
  - apply IH. now constructor.
  - destruct (IH (visited_after A st _ V)) as (H1 & H2 & H3). split; [auto|]. split.
    + intros i W. constructor; [exact (proj1 (W st V) q En)|auto].
    + intros W. constructor; [exact (W st q V En)|auto].
  - split; [now constructor|]. split.
    + intros i W. repeat constructor. exact (proj1 (W st V) q En).
    + intros W. repeat constructor. exact (W st q V En).
  - split; [now constructor|]. split.
    + intros i W. repeat constructor. exact (proj1 (W st V) q En).
    + intros W. repeat constructor. exact (W st q V En).
Qed.

Lemma restart_visited A n num b st : visited (restart_machine A n num) b st ->
  (exists c, visited A c (re_inner st)) /\ (re_running st = true -> visited A true (re_inner st)) /\
  (works A n -> length (fst (re_solution st)) = n).
Proof.
  induction 1 as [|b st V ((c & I1) & I2 & I3)|st a V ((c & I1) & I2 & I3)|b st V I]; cbn.
  - split; [exists false; constructor|]. split; [discriminate|]. intros _. apply repeat_length.
  - split; [eauto|]. split; [discriminate|auto].
  - destruct (re_running st) eqn:R.
    + assert (U := I2 eq_refl).
      destruct (ma_next A (re_inner st)) eqn:En; cbn [re_inner re_running re_solution];
        try (split; [exists true; now constructor|]; split; [intros _; now constructor|exact I3]).
      split; [exists false; eapply visited_finalize; exact U|]. split; [discriminate|]. intros W.
      destruct (_ || _); [exact (proj2 (W _ U))|auto].
    + cbn [re_inner re_running re_solution]. split; [exists true; eapply visited_begin; exact I1|].
      split; [intros _; eapply visited_begin; exact I1|auto].
  - exact I.
Qed.

Lemma works_run_by ap n A : works A n -> works (run_by ap n A) n.
Proof.
  intros W. unfold run_by. destruct (ap_restart ap); [|exact W]. intros st V. destruct (restart_visited A n 0 true st V) as (_ & I2 & I3).
  split; [|exact (I3 W)]. intros q. cbn. destruct (re_running st); [|discriminate]. specialize (I2 eq_refl).
  destruct (ma_next A (re_inner st)) eqn:En; try discriminate. intros [= <-]. exact (proj1 (W _ I2) r En).
Qed.
Lemma evaluates_run_by ap n A : evaluates A -> evaluates (run_by ap n A).
Proof.
  intros W. unfold run_by. destruct (ap_restart ap); [|exact W]. intros st q V. destruct (restart_visited A n 0 true st V) as (_ & I2 & _).
  cbn. destruct (re_running st); [|discriminate]. specialize (I2 eq_refl).
  destruct (ma_next A (re_inner st)) eqn:En; try discriminate. intros [= <-]. exact (W _ r I2 En).
Qed.
Lemma honest_run_by ap n A : honest A -> honest (run_by ap n A).
Proof.
  intros W. unfold run_by. destruct (ap_restart ap); [|exact W]. intros st e. cbn. destruct (re_running st); [|discriminate].
  destruct (ma_next A (re_inner st)) eqn:En; try discriminate. intros [= <-]. exact (W _ e0 En).
Qed.

(** * The whole program *)

Lemma target_request t q x v : reaches t q x v -> request_vector q = x.
Proof. intros (_ & [->|[(w & l & ->)| ->]]); reflexivity. Qed.

Theorem program_correct ap co m F factory A mid target i n fuel out e :
  optimizes ap -> make_function_controller co F = Ok (mid, target) -> factory (fp_size (f_props F)) = Ok A ->
  honest A -> works A i -> quiet (f_obj F) -> map_fits m i n -> kind_known m -> fp_size (f_props F) = i ->
  program ap co (Ok (Some (m, F))) factory fuel = Some (out, e) ->
  let B := run_by ap i A in
  exists rs st cs r, plays (controlled_obj mid target (f_obj F)) B (ma_begin B (ma_init B)) (controlled_init mid i (f_init F)) rs st cs r /\
    Forall (fun q => length (request_vector q) = i) rs /\
    match r with
    | Ok _ | Throw LastEvaluation =>
        let x := fst (ma_solution B (ma_finalize B st)) in
        length x = i /\ (out, e) = report ap co m i (final_results co mid cs false) x false
    | Throw TargetReached =>
        exists t past q x v, target = Some t /\ rs = past ++ [q] /\ fst cs = Some (x, v) /\ reaches t q x v /\ length x = i /\
          (out, e) = report ap co m i (final_results co mid cs true) x true
    | Throw e' => (out, e) = ([], ending_of e')
    | UB => (out, e) = ([], Undefined)
    end.
Proof.
  intros HO HCo HFa HA HW HQ HM HK HF HP. subst i. set (i := fp_size (f_props F)) in *. intros B.
  destruct (program_ends ap co m F factory A mid target HO HCo HFa fuel out e HP) as (rs & st & cs & r & Pl & Eo).
  fold i in Pl, Eo. exists rs, st, cs, r.
  pose proof (works_run_by ap i A HW) as HW'. pose proof (honest_run_by ap i A HA) as HA'. fold B in HW', HA', Pl, Eo.
  destruct (plays_visited _ _ _ _ _ _ _ _ Pl (visited_begin B _ _ (visited_init B))) as (V & R & _). specialize (R i HW').
  split; [exact Pl|]. split; [exact R|].
  destruct r as [[]|e'|].
  - cbv zeta. split; [exact (proj2 (HW' st V))|]. rewrite Eo.
    apply (end_spec ap co m F mid target i n HCo HM HK eq_refl B st cs); [constructor|discriminate|exact (proj2 (HW' st V))].
  - assert (NE : e' <> LastEvaluation -> e' <> TargetReached -> (out, e) = ([], ending_of e')).
    { intros H1 H2. rewrite Eo. now apply error_spec. }
    destruct e'; try (apply NE; discriminate).
    + cbv zeta. split; [exact (proj2 (HW' st V))|]. rewrite Eo.
      apply (end_spec ap co m F mid target i n HCo HM HK eq_refl B st cs); [constructor|discriminate|exact (proj2 (HW' st V))].
    + destruct (plays_target (f_obj F) mid target B i (f_init F) HA' _ _ _ _ HQ Pl) as (t & past & q & x & v & -> & -> & Et & Hr).
      exists t, past, q, x, v. assert (Lx : length x = i).
      { rewrite <- (target_request t q x v Hr). rewrite Forall_forall in R. apply R. apply in_or_app. right. now left. }
      repeat (split; [auto; fail|]). rewrite Eo.
      apply (end_spec ap co m F mid (Some t) i n HCo HM HK eq_refl B st cs); [econstructor; exact Et|discriminate|exact Lx].
  - rewrite Eo. reflexivity.
Qed.

(** * Erasing what the function remembers *)

Section Erase.
  Context {S T : Type} (p : S -> T).
  Definition erases (o : fobj S) (o' : fobj T) : Prop := forall s r, o' (p s) r = (p (fst (o s r)), snd (o s r)).
End Erase.
Definition lift {C S T} (p : S -> T) (x : C * S) : C * T := (fst x, p (snd x)).

Lemma erases_counter {S T} (p : S -> T) o o' : erases p o o' -> erases (lift p) (call_counter o) (call_counter o').
Proof.
  intros E [k s] r. unfold lift. cbn [fst snd]. rewrite !call_counter_step, E. reflexivity.
Qed.
Lemma erases_tracker {S T} (p : S -> T) o o' b : erases p o o' -> erases (lift (lift p)) (progress_tracker o b) (progress_tracker o' b).
Proof.
  intros E%erases_counter [i s] r. unfold lift at 1. cbn [fst snd]. unfold progress_tracker. rewrite E.
  destruct (call_counter o s r) as [[k s'] a]. cbn [fst snd lift].
  destruct r as [x|x w l|x w|x], a as [[v|]|e|]; cbn [fst snd lift]; try reflexivity;
    destruct (update_last_improvement _ _ _ _ _); reflexivity.
Qed.
Lemma erases_budget {S T} (p : S -> T) o o' b : erases p o o' -> erases (lift p) (on_budget o b) (on_budget o' b).
Proof.
  intros E [k s] r. unfold lift. cbn [fst snd]. rewrite !on_budget_step, !call_counter_step, E. destruct (_ && _); reflexivity.
Qed.
Lemma erases_cache {S T} (p : S -> T) o o' : erases p o o' -> erases (lift p) (cache o) (cache o').
Proof.
  intros E [c s] r. unfold lift. cbn [fst snd]. destruct r as [x|x w l|x w|x]; cbn [cache]; try reflexivity.
  - destruct (length x =? cache_size c); [|reflexivity]. destruct (cache_find (cache_map c) x); [reflexivity|].
    rewrite E. destruct (o s (REval x)) as [s' a]. cbn [fst snd]. destruct a as [[v|]|e|]; reflexivity.
  - rewrite E. destruct (o s (RSafe x)) as [s' a]. reflexivity.
Qed.
Lemma erases_stop {S T} (p : S -> T) o o' t : erases p o o' -> erases (lift p) (stop_on_target o t) (stop_on_target o' t).
Proof.
  intros E [tr s] r. unfold lift. cbn [fst snd]. rewrite !stop_step. pose proof (E s r) as E1. rewrite !E1. cbn [fst snd]. destruct (filter _ _) as [|[y w] l]; reflexivity.
Qed.

Definition middle_lift (m : middle) {S T} (p : S -> T) : middle_state m S -> middle_state m T :=
  match m with
  | MidNone => p
  | MidBudget _ => lift p
  | MidCache => lift p
  | MidBudgetOfCache _ => lift (lift p)
  | MidCacheOfBudget _ => lift (lift p)
  end.
Lemma erases_middle {S T} (p : S -> T) m o o' : erases p o o' -> erases (middle_lift m p) (middle_obj m o) (middle_obj m o').
Proof.
  intros E. destruct m as [|b| |b|b]; cbn [middle_lift middle_obj].
  - exact E.
  - now apply erases_budget.
  - now apply erases_cache.
  - now apply erases_budget, erases_cache.
  - now apply erases_cache, erases_budget.
Qed.
Lemma erases_controlled {S T} (p : S -> T) m t o o' : erases p o o' ->
  erases (lift (middle_lift m (lift (lift p)))) (controlled_obj m t o) (controlled_obj m t o').
Proof.
  intros E%(fun E => erases_middle _ m _ _ (erases_tracker p o o' false E)). destruct t as [t|].
  - now apply erases_stop.
  - intros [tr s] r. unfold lift at 1. cbn [fst snd controlled_obj]. rewrite E. destruct (middle_obj m _ s r). reflexivity.
Qed.
Lemma erases_run {S T} (p : S -> T) o o' rs : erases p o o' -> forall s, run o' (p s) rs = p (run o s rs).
Proof. intros E. induction rs as [|r rs IH]; intros s; cbn [run]; [reflexivity|]. rewrite E. apply IH. Qed.
Lemma middle_inner_lift m {S T} (p : S -> T) s : middle_inner m (middle_lift m p s) = p (middle_inner m s).
Proof. destruct m; reflexivity. Qed.
Lemma middle_cache_lift m {S T} (p : S -> T) s : middle_cache m (middle_lift m p s) = middle_cache m s.
Proof. destruct m; reflexivity. Qed.

(** The state of the controllers, read on that of the controllers of the function which
    remembers what it has received *)
Lemma run_logged {S} m target n (o : fobj S) s rs :
  let cs := run (controlled_obj m target o) (controlled_init m n s) rs in
  let st := controlled m target n o s rs in
  fst cs = fst st /\ fst (middle_inner m (snd cs)) = reported st /\ fst (snd (middle_inner m (snd cs))) = reported_total st /\
  middle_cache m (snd cs) = middle_cache m (snd st).
Proof.
  assert (E : erases (@snd (list request) S) (logged o) o) by (intros [l z] r; cbn; destruct (o z r); reflexivity).
  intros cs st. pose proof (erases_run _ _ _ rs (erases_controlled _ m target _ _ E) (controlled_init m n ([], s))) as R.
  assert (R0 : lift (middle_lift m (lift (lift (@snd (list request) S)))) (controlled_init m n ([], s)) = controlled_init m n s) by now destruct m.
  rewrite R0 in R. fold cs in R. change (run (controlled_obj m target (logged o)) (controlled_init m n ([], s)) rs) with st in R.
  rewrite R. cbn [lift fst snd]. rewrite middle_inner_lift, middle_cache_lift. auto.
Qed.

(** * Exceptions and types of the functions which are made *)

Definition calm {X} (x : outcome X) : Prop := forall e, x <> Throw e.
Lemma calm_Ok {X} (a : X) : calm (Ok a).
Proof. discriminate. Qed.
Lemma calm_bind {X Y} (x : outcome X) (k : X -> outcome Y) : calm x -> (forall a, calm (k a)) -> calm (bind x k).
Proof. intros H K e. destruct x as [a|e'|]; cbn; [apply K|exfalso; exact (H e' eq_refl)|discriminate]. Qed.
Lemma calm_assertb b : calm (assertb b).
Proof. destruct b; discriminate. Qed.
Lemma calm_vget {X} (l : list X) i : calm (vget l i).
Proof. unfold vget. destruct (nth_error l i); discriminate. Qed.
Lemma calm_vset {X} (l : list X) i a : calm (vset l i a).
Proof. unfold vset. destruct (_ <? _); discriminate. Qed.
Lemma calm_foldM {X Y} (f : X -> Y -> outcome X) l : (forall s a, calm (f s a)) -> forall s, calm (foldM f l s).
Proof. intros H. induction l as [|a l IH]; intros s; cbn [foldM]; [apply calm_Ok|]. apply calm_bind; auto. Qed.
Ltac calm := repeat first
  [ apply calm_Ok | apply calm_assertb | apply calm_vget | apply calm_vset
  | apply calm_bind; [|intros ?] | apply calm_foldM; intros ? ?
  | match goal with |- calm (let (_, _) := ?p in _) => destruct p | |- calm (if ?b then _ else _) => destruct b end ].

Lemma calm_perm n l : forall seen, calm (perm_check n seen l).
Proof. induction l as [|i l IH]; intros seen; cbn [perm_check]; calm; auto. Qed.
Lemma calm_multiply_rows M x : calm (multiply_rows M x).
Proof. induction M as [|r M IH]; cbn [multiply_rows]; unfold bv_dot_product; calm; auto. Qed.
Lemma calm_map_apply m : forall x out, calm (map_apply m x out).
Proof.
  induction m; intros x out; cbn [map_apply]; unfold bm_multiply, bm_num_columns, bv_add, perm_is_valid, ts_multiply_bv, tv_multiply_bv, bv_flip;
    calm; auto using calm_perm, calm_multiply_rows.
Qed.
Lemma calm_flips x l : calm (bv_flip_sbv x l).
Proof. unfold bv_flip_sbv, bv_flip. calm. Qed.

(** [P] holds for all the replies of the modifiers if it does for those of the function. *)
Definition safe_reply (q : request) (a : outcome reply) : Prop :=
  a <> Throw LastEvaluation /\ a <> Throw TargetReached /\
  (forall p, a = Ok p -> match q with RUpdate _ _ => p = RVoid | _ => exists v, p = RValue v end).
Definition safe_obj {S} (o : fobj S) : Prop := forall s q, safe_reply q (snd (o s q)).
Lemma safe_iff {S} (o : fobj S) : safe_obj o <-> quiet o /\ typed o.
Proof.
  split.
  - intros H. split.
    + intros s r. destruct (H s r) as (H1 & H2 & _). auto.
    + intros s r p E. destruct (H s r) as (_ & _ & H3). exact (H3 p E).
  - intros [H1 H2] s r. destruct (H1 s r). split; [auto|]. split; [auto|]. intros p E. exact (H2 s r p E).
Qed.
Lemma safe_value x q f a : safe_reply (REval x) a -> match q with RUpdate _ _ => False | _ => True end -> safe_reply q (on_value f a).
Proof.
  intros (H1 & H2 & H3) K. unfold on_value. destruct a as [p|e|].
  - destruct (H3 p eq_refl) as [v ->]. split; [discriminate|]. split; [discriminate|]. intros p [= <-]. destruct q; eauto. destruct K.
  - split; [exact H1|]. split; [exact H2|]. discriminate.
  - split; [discriminate|]. split; discriminate.
Qed.
Lemma safe_eval x q a : safe_reply (REval x) a -> match q with RUpdate _ _ => False | _ => True end -> safe_reply q a.
Proof. intros (H1 & H2 & H3) K. split; [exact H1|]. split; [exact H2|]. intros p E. destruct q; auto. destruct K. Qed.
Lemma safe_void x v : safe_reply (RUpdate x v) (Ok RVoid).
Proof. split; [discriminate|]. split; [discriminate|]. intros p [= <-]. reflexivity. Qed.
Lemma safe_error q : safe_reply q (Throw RuntimeError).
Proof. split; [discriminate|]. split; discriminate. Qed.
Lemma safe_UB q : safe_reply q UB.
Proof. split; [discriminate|]. split; discriminate. Qed.
Ltac safe := first [apply safe_void|apply safe_error|apply safe_UB].

Lemma safe_map {S} (o : fobj S) : safe_obj o -> safe_obj (map_obj o).
Proof.
  intros H [[m out] s] q. destruct q as [x|x w l|x w|x]; cbn [map_obj]; try (cbn; safe);
    (pose proof (calm_map_apply m x out) as C; destruct (map_apply m x out) as [[m' out']|e|]; [|destruct (C e eq_refl)|cbn; safe];
     specialize (H s (REval out')); destruct (o s (REval out')); cbn in H |- *; eapply safe_eval; [exact H|exact I]).
Qed.
Lemma safe_prior {S} (o : fobj S) n size flips : safe_obj o -> safe_obj (prior_obj o n size flips).
Proof.
  intros H [k s] q. destruct q as [x|x w l|x w|x]; cbn [prior_obj]; try (cbn; safe);
    (match goal with |- context [bind ?a ?b] => assert (C : calm (bind a b)) by (calm; apply calm_flips); destruct (bind a b) as [y|e|] end;
     [|destruct (C e eq_refl)|cbn; safe];
     specialize (H s (REval y)); destruct (o s (REval y)); cbn in H |- *; eapply safe_eval; [exact H|exact I]).
Qed.
Lemma safe_parsed {S} (o : fobj S) g : safe_obj o -> safe_obj (parsed_obj o g).
Proof.
  intros H s q. destruct q as [x|x w l|x w|x]; cbn [parsed_obj]; try (cbn; safe);
    (specialize (H s (REval x)); destruct (o s (REval x)); cbn in H |- *; eapply safe_value; [exact H|exact I]).
Qed.
Lemma safe_opposite {S} (o : fobj S) : safe_obj o -> safe_obj (opposite_obj o).
Proof.
  intros H s q. destruct q as [x|x w l|x w|x]; cbn [opposite_obj]; try (cbn; safe).
  1, 3: specialize (H s (REval x)); destruct (o s (REval x)); cbn in H |- *; eapply safe_value; [exact H|exact I].
  specialize (H s (RInc x (dneg w) l)). destruct (o s (RInc x (dneg w) l)). cbn in H |- *. eapply (safe_value x); [|exact I].
  destruct H as (H1 & H2 & H3). split; [exact H1|]. split; [exact H2|exact H3].
Qed.
Lemma safe_noise {S} (o : fobj S) add : safe_obj o -> safe_obj (noise_obj o add).
Proof.
  intros H [k s] q. destruct q as [x|x w l|x w|x]; cbn [noise_obj]; try (cbn; safe);
    (specialize (H s (REval x)); destruct (o s (REval x)); cbn in H |- *; eapply safe_value; [exact H|exact I]).
Qed.

Lemma made_safe mo d F0 m F : make_function_modifier mo d (Ok F0) = Ok (Some (m, F)) ->
  quiet (f_obj F0) -> typed (f_obj F0) -> quiet (f_obj F) /\ typed (f_obj F).
Proof.
  intros E Q T. apply safe_iff. assert (H0 : safe_obj (f_obj F0)) by (apply safe_iff; auto). clear Q T.
  destruct (made_by mo d F0 m F E) as (Hn & F1 & F2 & F3 & E1 & E2 & E3 & ->). clear E.
  assert (H1 : safe_obj (f_obj F1)).
  { destruct (0 <? mp_kind (mo_map mo))%Z; [|destruct E1 as [_ ->]; exact H0].
    destruct E1 as (mm & _ & _ & E1). unfold with_map in E1. destruct (map_output_size mm =? _); [|discriminate].
    destruct (map_input_size mm); try discriminate. cbn [bind] in E1. injection E1 as <-. now apply safe_map. }
  assert (H2 : safe_obj (f_obj F2)).
  { unfold add_prior_noise in E2. destruct (mo_prior mo) as [[kd|]|]; try discriminate.
    - destruct (nh_make kd _); try discriminate. cbn [bind] in E2. injection E2 as <-. now apply safe_prior.
    - now injection E2 as <-. }
  assert (H3 : safe_obj (f_obj F3)).
  { unfold add_parsed in E3. destruct (mo_parsed mo) as [[g|]|]; try discriminate; injection E3 as <-; [now apply safe_parsed|exact H2]. }
  assert (H4 : safe_obj (f_obj (add_opposite mo F3))).
  { unfold add_opposite. destruct (mo_minimize mo); [now apply safe_opposite|exact H3]. }
  unfold add_noise. destruct (mo_noise mo); [now apply safe_noise|exact H4].
Qed.

(** * Restart *)

Lemma restart_idle A n st : visited (restart_machine A n 0) true st \/ visited (restart_machine A n 0) false st ->
  (forall t, ma_next A t <> MReturn) -> re_solution st = (repeat false n, DFin 0).
Proof.
  intros V H. assert (G : exists b, visited (restart_machine A n 0) b st) by (destruct V; eauto). clear V. destruct G as [b V].
  induction V as [|b st V IH|st a V IH|b st V IH]; auto.
  cbn. destruct (re_running st); [|exact IH]. specialize (H (re_inner st)). destruct (ma_next A (re_inner st)); cbn; auto. contradiction.
Qed.

Lemma report_solution ap co m i r x b out e c y : (out, e) = report ap co m i r x b -> In (OSolution c y) out -> y = shown ap m x.
Proof.
  unfold report. cbv zeta. set (z := shown ap m x). clearbody z. intros E.
  assert (K : In (OSolution c y) (show_results ap r ++ show_solution ap z ++ show_description ap (image m z)) -> y = z).
  { unfold show_results, show_solution, show_description, also.
    destruct (ap_print_results ap), (ap_save_results ap), (ap_print_solution ap), (ap_save_solution ap), (ap_print_description ap), (ap_save_description ap);
      cbn; intuition congruence. }
  destruct (negb (describes ap) || _); injection E as -> ->; [exact K|]. intros H. apply K. rewrite in_app_iff in *. rewrite in_app_iff. tauto.
Qed.
Lemma report_results ap co m i r x b out e c r' : (out, e) = report ap co m i r x b -> In (OResults c r') out -> r' = r.
Proof.
  unfold report. cbv zeta. set (z := shown ap m x). clearbody z. intros E.
  assert (K : In (OResults c r') (show_results ap r ++ show_solution ap z ++ show_description ap (image m z)) -> r' = r).
  { unfold show_results, show_solution, show_description, also.
    destruct (ap_print_results ap), (ap_save_results ap), (ap_print_solution ap), (ap_save_solution ap), (ap_print_description ap), (ap_save_description ap);
      cbn; intuition congruence. }
  destruct (negb (describes ap) || _); injection E as -> ->; [exact K|]. intros H. apply K. rewrite in_app_iff in *. rewrite in_app_iff. tauto.
Qed.
Lemma report_ending ap co m i r x b out e k : (out, e) = report ap co m i r x b -> e = Exit k -> k = exit_code co b.
Proof. unfold report. cbv zeta. destruct (_ || _); intros [= -> ->]; congruence. Qed.
Lemma report_shows ap co m i r x b out e : (out, e) = report ap co m i r x b -> ap_print_solution ap = true -> In (OSolution Printed (shown ap m x)) out.
Proof.
  unfold report. cbv zeta. intros E P. destruct (_ || _); injection E as -> ->; unfold show_solution; rewrite P; cbn [also]; rewrite !in_app_iff; cbn; auto.
Qed.

Lemma plays_answered {S} (o : fobj S) A st s rs st' s' r : plays o A st s rs st' s' r ->
  forall k c, nth_error (calls o s rs) k = Some c ->
  (exists p, res c = Ok p) \/ (k + 1 = length rs /\ ((exists e, res c = Throw e /\ r = Throw e) \/ res c = UB /\ r = UB)).
Proof.
  induction 1 as [st s En|st s e En|st s En|st s rs st' s' r En _ IH|st s q p rs st' s' r En Eo _ IH|st s q e En Eo|st s q En Eo]; intros k c.
  1-3: destruct k; discriminate.
  - apply IH.
  - rewrite calls_cons. destruct k as [|k]; cbn [nth_error length].
    + intros [= <-]. cbn. eauto.
    + intros E. destruct (IH k c E) as [K|[K1 K2]]; [auto|]. right. split; [lia|auto].
  - rewrite calls_cons. destruct k as [|[|k]]; cbn [nth_error length]; [|discriminate|discriminate].
    intros [= <-]. right. split; [reflexivity|]. left. cbn. eauto.
  - rewrite calls_cons. destruct k as [|[|k]]; cbn [nth_error length]; [|discriminate|discriminate].
    intros [= <-]. right. split; [reflexivity|]. right. cbn. auto.
Qed.
