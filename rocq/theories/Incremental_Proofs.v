(** Proofs about incremental evaluation in the application. *)

From Coq Require Import ZArith.
From Verif Require Import Base BaseLemmas BitVector_Model BitVector_Spec Map_Model Map_Spec Double
  Neighborhood_Model Neighborhood_Spec Neighborhood_Proofs
  Controller_Model Controller_Spec Controller_Proofs Decorator_Model Decorator_Spec ControllerStack_Spec ControllerStack_Proofs
  Application_Model Application_Spec Application_Proofs Search_Model Search_Spec Search_Proofs Algorithm_Model Algorithm_Spec Algorithm_Proofs
  EvolutionaryAlgorithm_Model AlgorithmMachine_Model AlgorithmMachine_Spec AlgorithmMachine_Proofs AlgorithmRuns_Proofs AlgorithmPrograms_Proofs
  Incremental_Model Incremental_Spec.
Local Open Scope nat_scope.

(** * Controllers *)

Lemma rightly_inv {S} (o : fobj S) s n f : answers_rightly o s n f ->
  exists inv : S -> Prop, inv s /\
    forall t q y, inv t -> asks_for n f q y -> snd (o t q) = Ok (RValue (f y)) /\ inv (fst (o t q)).
Proof.
  intros T. exists (fun t => answers_rightly o t n f). split; [exact T|]. clear s T. intros t q y T Hq. split.
  - specialize (T [q] [y] (Forall2_cons _ _ Hq (Forall2_nil _))). rewrite calls_cons in T. cbn [map Controller_Spec.res calls] in T. congruence.
  - intros qs ys HF. specialize (T (q :: qs) (y :: ys) (Forall2_cons _ _ Hq HF)). rewrite calls_cons in T. cbn [map] in T. congruence.
Qed.

Lemma asks_length n f q y : asks_for n f q y -> length y = n.
Proof. now destruct 1. Qed.
Lemma asks_counts n f q y : asks_for n f q y -> counts q = true.
Proof. now destruct 1. Qed.

Section Controllers.
  Context {S : Type} (o : fobj S) (n : nat) (f : bv -> dbl) (inv inv' : S -> Prop) (allowed : request -> Prop).
  Context (Hinv : forall t x, inv t -> length x = n -> snd (o t (REval x)) = Ok (RValue (f x)) /\ inv (fst (o t (REval x)))).
  Context (Hinv' : forall t q y, inv' t -> allowed q -> asks_for n f q y -> snd (o t q) = Ok (RValue (f y)) /\ inv' (fst (o t q))).

  Definition close (t t' : improvement * (nat * S)) : Prop := fst t = fst t' /\ fst (snd t) = fst (snd t') /\ inv (snd (snd t)) /\ inv' (snd (snd t')).
  Definition alike (m : middle) : middle_state m (improvement * (nat * S)) -> middle_state m (improvement * (nat * S)) -> Prop :=
    match m with
    | MidNone => close
    | MidBudget _ => fun t t' => fst t = fst t' /\ close (snd t) (snd t')
    | _ => eq
    end.

  Lemma tracker_close t t' q y : close t t' -> allowed q -> asks_for n f q y ->
    snd (progress_tracker o false t (REval y)) = snd (progress_tracker o false t' q) /\
    close (fst (progress_tracker o false t (REval y))) (fst (progress_tracker o false t' q)).
  Proof.
    destruct t as [i [k s]], t' as [i' [k' s']]. intros (E1 & E2 & I & I') AL HQ. cbn [fst snd] in *. subst i' k'.
    destruct (Hinv s y I (asks_length _ _ _ _ HQ)) as [R1 J]. destruct (Hinv' s' q y I' AL HQ) as [R2 J'].
    unfold progress_tracker. rewrite !call_counter_step, R1, R2, (asks_counts _ _ _ _ HQ). cbn [counts returned andb fst].
    assert (E : forall x, update_last_improvement false (k + 1) x (f y) i = update_last_improvement false (k + 1) y (f y) i) by reflexivity.
    destruct HQ as [y Hy|x y Hx Hy]; [|rewrite (E x)];
      (destruct (update_last_improvement false (k + 1) y (f y) i) as [i'| |]; (split; [reflexivity|]); repeat split; cbn; auto).
  Qed.

  Lemma middle_alike m ms ms' q y : alike m ms ms' -> allowed q -> asks_for n f q y -> (has_cache m = true -> q = REval y) ->
    snd (middle_obj m (progress_tracker o false) ms (REval y)) = snd (middle_obj m (progress_tracker o false) ms' q) /\
    alike m (fst (middle_obj m (progress_tracker o false) ms (REval y))) (fst (middle_obj m (progress_tracker o false) ms' q)).
  Proof.
    intros HA AL HQ HC. destruct m as [|b| |b|b]; try (cbn [alike] in *; rewrite (HC eq_refl), HA; split; reflexivity).
    - exact (tracker_close ms ms' q y HA AL HQ).
    - destruct ms as [c t], ms' as [c' t']. destruct HA as [E HA]. cbn [fst snd] in E, HA. subst c'.
      cbn [middle_obj]. rewrite !on_budget_step, (asks_counts _ _ _ _ HQ). cbn [counts andb].
      destruct (Z.of_nat c =? b)%Z; [cbn; auto|]. rewrite !call_counter_step, (asks_counts _ _ _ _ HQ). cbn [counts andb fst snd].
      destruct (tracker_close t t' q y HA AL HQ) as [E1 E2]. rewrite <- E1. cbn [alike fst snd]. auto.
  Qed.

  Lemma controlled_alike m target tr ms tr' ms' q y : alike m ms ms' -> allowed q -> asks_for n f q y -> (has_cache m = true -> q = REval y) ->
    let p := controlled_obj m target o (tr, ms) (REval y) in
    let p' := controlled_obj m target o (tr', ms') q in
    snd p = snd p' /\ alike m (snd (fst p)) (snd (fst p')) /\
    (forall v, fst (fst p) = Some (y, v) -> snd p = Throw TargetReached -> tr = None -> tr' = None -> fst (fst p') = Some (request_vector q, v)).
  Proof.
    intros HA AL HQ HC. cbv zeta. destruct (middle_alike m ms ms' q y HA AL HQ HC) as [E1 E2]. unfold controlled_obj. destruct target as [t|].
    - unfold stop_on_target.
      destruct (middle_obj m (progress_tracker o false) ms (REval y)) as [s1 a1], (middle_obj m (progress_tracker o false) ms' q) as [s2 a2].
      cbn [fst snd] in E1, E2. subst a2. destruct HQ as [y Hy|x y Hx Hy]; destruct a1 as [[v|]|e|]; try (cbn [fst snd]; repeat split; auto; intros; congruence).
      + destruct (dge v t); cbn [fst snd request_vector]; repeat split; auto; congruence.
      + destruct (dge v t); cbn [fst snd request_vector]; repeat split; auto; congruence.
    - destruct (middle_obj m (progress_tracker o false) ms (REval y)) as [s1 a1], (middle_obj m (progress_tracker o false) ms' q) as [s2 a2].
      cbn [fst snd] in *. repeat split; auto; congruence.
  Qed.

  Lemma alike_init m s : inv s -> inv' s -> alike m (middle_init m n (tracker_make n, (0, s))) (middle_init m n (tracker_make n, (0, s))).
  Proof. intros I I'. destruct m; cbn; repeat split; auto. Qed.
  Lemma alike_end m ms ms' : alike m ms ms' ->
    fst (middle_inner m ms) = fst (middle_inner m ms') /\ fst (snd (middle_inner m ms)) = fst (snd (middle_inner m ms')) /\ middle_cache m ms = middle_cache m ms'.
  Proof.
    destruct m; cbn.
    - intros (E1 & E2 & _). auto.
    - intros (_ & E1 & E2 & _). auto.
    - intros ->. auto.
    - intros ->. auto.
    - intros ->. auto.
  Qed.
End Controllers.

(** * Trees of random local search *)

Lemma decide_cases p v s r s' : rls_decide p v s = (r, s') -> a_trace s' = a_trace s /\ own r /\
  (r = Ret tt ->
     (exists h, nh_keep (rls_nh (a_mem s)) = Ok h /\ rls_nh (a_mem s') = h /\ snd (a_sol s') = v) \/
     (exists h, nh_forget (rls_nh (a_mem s)) = Ok h /\ rls_nh (a_mem s') = h /\ snd (a_sol s') = snd (a_sol s))).
Proof.
  assert (OK : forall h, own_outcome (nh_keep h)) by (intros h; unfold nh_keep; own_all).
  assert (OF : forall h, own_outcome (nh_forget h)) by (intros h; unfold nh_forget; own_all).
  unfold rls_decide, abind, aget, amodify, on_mem. cbn [a_mem a_sol a_trace].
  destruct (p_compare p v (snd (a_sol s))).
  - specialize (OK (rls_nh (a_mem s))). destruct (nh_keep (rls_nh (a_mem s))) as [h|e|]; cbn [bind].
    + cbn [put_mem put_sol a_mem rls_failures rls_nh a_sol fst snd a_trace].
      destruct ((0 <? p_patience p) && (0 =? p_patience p))%Z; intros E; injection E as <- <-; cbn; (split; [reflexivity|]); (split; [split; discriminate|]); intros _; left; eauto.
    + intros E. injection E as <- <-. split; [reflexivity|]. split; [destruct OK as [O1 O2]; split; congruence|discriminate].
    + intros E. injection E as <- <-. split; [reflexivity|]. split; [split; discriminate|discriminate].
  - specialize (OF (rls_nh (a_mem s))). destruct (nh_forget (rls_nh (a_mem s))) as [h|e|]; cbn [bind].
    + cbn [put_mem put_sol a_mem rls_failures rls_nh a_sol fst snd a_trace].
      destruct ((0 <? p_patience p) && (rls_failures (a_mem s) + 1 =? p_patience p))%Z; intros E; injection E as <- <-; cbn; (split; [reflexivity|]); (split; [split; discriminate|]); intros _; right; eauto.
    + intros E. injection E as <- <-. split; [reflexivity|]. split; [destruct OF as [O1 O2]; split; congruence|discriminate].
    + intros E. injection E as <- <-. split; [reflexivity|]. split; [split; discriminate|discriminate].
Qed.

(** A step which fails *)
Definition failed {A} (r : res A) (s : alg rls) : tree rls unit :=
  match r with Ret _ => Leaf (Ret tt) s | Exc e => Leaf (Exc e) s | Bad => Leaf Bad s | Pending => Leaf Pending s end.
Definition cand (s : alg rls) : bv := nh_candidate (rls_nh (a_mem s)).

Section Trees.
  Context (p : rls_parameters) (bit : nat -> bool) (moves : nat -> draws) (num : Z).
  Context (HP : p_incremental p = false).

  Fixpoint it_tree (i k : nat) (s : alg rls) : tree rls unit :=
    match k with
    | 0 => Leaf Pending s
    | S k' =>
        if ((0 <? num) && (num <=? Z.of_nat i))%Z then Leaf (Ret tt) s
        else if a_last s then Leaf (Ret tt) s
        else match rls_propose (moves i) s with
             | (Ret _, s1) => Ask s1 (cand s1) (fun v => match rls_decide p v (put_trace (cand s1) s1) with
                                                       | (Ret _, s2) => it_tree (i + 1) k' s2
                                                       | (r, s2) => failed r s2
                                                       end)
             | (r, s1) => failed r s1
             end
    end.
  Definition drawn (s : alg rls) : alg rls := put_sol (bv_random (fst (a_sol s)) bit, snd (a_sol s)) s.
  Definition started (x : bv) (v : Z) (s : alg rls) : alg rls :=
    put_last false (put_mem (mk_rls 0 (nh_set_origin (rls_nh (a_mem s)) x)) (put_sol (x, v) (put_trace x s))).
  Definition first_tree (fuel : nat) (s : alg rls) : tree rls unit :=
    Ask (drawn s) (fst (a_sol (drawn s))) (fun v => it_tree 0 fuel (started (fst (a_sol (drawn s))) v (drawn s))).

  Lemma propose_cases d s r s1 : rls_propose d s = (r, s1) -> a_trace s1 = a_trace s /\ own r /\ a_sol s1 = a_sol s /\ a_last s1 = a_last s /\
    match r with
    | Ret _ => exists h, nh_propose (rls_nh (a_mem s)) d = Some (Ok h) /\ rls_nh (a_mem s1) = h
    | _ => s1 = s
    end.
  Proof.
    intros E. assert (O : own r /\ a_trace s1 = a_trace s).
    { pose proof (silent_propose rls_nh (fun h m => mk_rls (rls_failures m) h) d s) as [S1 S2]. fold (rls_propose d s) in S1, S2. rewrite E in S1, S2. auto. }
    destruct O as [O1 O2]. split; [exact O2|]. split; [exact O1|].
    unfold rls_propose in E. destruct (nh_propose (rls_nh (a_mem s)) d) as [[h|e|]|]; injection E as <- <-; cbn; auto. split; [auto|]. split; [auto|]. eauto.
  Qed.

  Lemma it_wf k : forall i s, wf (a_trace s) (it_tree i k s).
  Proof.
    induction k as [|k IH]; intros i s; [split; [auto|split; discriminate]|]. cbn [it_tree].
    destruct ((0 <? num) && (num <=? Z.of_nat i))%Z; [split; [auto|split; discriminate]|]. destruct (a_last s); [split; [auto|split; discriminate]|].
    destruct (rls_propose (moves i) s) as [r s1] eqn:E. destruct (propose_cases _ _ _ _ E) as (E1 & E2 & _).
    destruct r as [u|e| |]; try (split; [exact E1|auto; split; discriminate]).
    - split; [exact E1|]. intros v. destruct (rls_decide p v (put_trace (cand s1) s1)) as [r s2] eqn:D. destruct (decide_cases _ _ _ _ _ D) as (D1 & D2 & _).
      assert (ET : a_trace s2 = a_trace s ++ [cand s1]) by (rewrite D1; cbn; now rewrite E1).
      rewrite <- ET. destruct r as [u'|e| |]; [apply IH|..]; (split; [auto|]); try (split; discriminate). destruct D2; split; congruence.
  Qed.
  Lemma it_interp k : forall i s ob, o_provides ob = false -> loop_from (rls_iterate ob p moves) num i k s = interp (it_tree i k s) ob.
  Proof.
    induction k as [|k IH]; intros i s ob P; [reflexivity|]. cbn [loop_from it_tree].
    destruct ((0 <? num) && (num <=? Z.of_nat i))%Z; [reflexivity|]. destruct (a_last s); [reflexivity|].
    unfold abind at 1. unfold rls_iterate at 1. unfold abind at 1. destruct (rls_propose (moves i) s) as [r s1]. destruct r as [u|e| |]; try reflexivity.
    unfold abind, aget. rewrite HP. cbn [andb interp]. unfold evaluate. fold (cand s1). destruct (o_stop ob (length (a_trace s1))); [reflexivity|].
    destruct (rls_decide p (o_value ob (cand s1)) (put_trace (cand s1) s1)) as [r s2]. destruct r as [u'|e| |]; try reflexivity. now apply IH.
  Qed.
  Definition ad_explicit (prep : alg rls -> alg rls) fuel : (forall s, a_trace (prep s) = a_trace s) ->
    adaptive (fun ob s => loop (rls_init ob (RandomStart bit)) (rls_iterate ob p moves) num fuel (prep s)).
  Proof.
    intros HT. refine (mk_adaptive _ _ _ (fun s => first_tree fuel (prep s)) _ _).
    - intros s. cbn. rewrite HT. split; [reflexivity|]. intros v. rewrite <- (HT s). apply (it_wf fuel 0 (started (bv_random (fst (a_sol (prep s))) bit) v (drawn (prep s)))).
    - intros ob s P. unfold loop, rls_init, start_solution, random_solution, abind, amodify, aget. cbn [first_tree interp]. fold (drawn (prep s)). unfold evaluate.
      destruct (o_stop ob (length (a_trace (drawn (prep s))))); [reflexivity|]. rewrite <- it_interp by exact P. reflexivity.
  Defined.
End Trees.

(** * Two runs in lock step *)

Section Lock.
  Context (cmp : Z -> Z -> bool) (pat : Z) (inc provides : bool) (setup : nh -> nh) (first : nat -> nat -> bool) (moves : nat -> nat -> draws) (num : Z) (fuel : nat).
  Context (run : nat -> objective -> act (alg rls) unit) (fin : alg rls -> alg rls) (made : alg rls).
  Let p0 := mk_rls_parameters cmp pat false.
  Let p1 := mk_rls_parameters cmp pat inc.
  Let prep (s : alg rls) : alg rls := put_mem (mk_rls (rls_failures (a_mem s)) (setup (rls_nh (a_mem s)))) s.
  Context (AD : adaptive (run 0)) (HAD : forall s, ad_tree AD s = first_tree p0 (first 0) (moves 0) num fuel (prep s)) (T0 : a_trace made = []).
  Local Notation M := (algorithm_machine run fin made).
  Local Notation D := (incremental_machine setup p1 first moves num fuel fin made provides).

  Context (n : nat) (f : bv -> dbl) (g : bv -> Z) (HV : finite_values n f g).
  Context (HB : forall i, in_bounds (nh_class (setup (rls_nh (a_mem made)))) n (moves 0 i)).
  Context (HL : length (fst (a_sol made)) = n) (HR : exists ph, nh_reachable n (setup (rls_nh (a_mem made))) ph).
  Local Notation c0 := (nh_class (setup (rls_nh (a_mem made)))).

  Definition tree_of (r : res unit) (s : alg rls) : tree rls unit :=
    match r with
    | Ret _ => match a_trace s with
               | [] => first_tree p0 (first 0) (moves 0) num fuel s
               | _ => it_tree p0 (moves 0) num (length (a_trace s) - 1) (fuel - (length (a_trace s) - 1)) s
               end
    | _ => failed r s
    end.
  Definition alg_inv (w : list bv) (s : alg rls) : Prop :=
    a_trace s = w /\ nh_class (rls_nh (a_mem s)) = c0 /\
    (w = [] -> length (fst (a_sol s)) = n /\ exists ph, nh_reachable n (rls_nh (a_mem s)) ph) /\
    (w <> [] -> nh_reachable n (rls_nh (a_mem s)) Settled /\ snd (a_sol s) = g (nh_origin (rls_nh (a_mem s))) /\ In (nh_origin (rls_nh (a_mem s))) w).

  Context {S : Type} (o : fobj S) (inv inv' : S -> Prop) (mid : middle) (target : option dbl).
  Let allowed (q : request) : Prop := (exists y, q = REval y) \/ inc && provides = true.
  Context (Hinv : forall t x, inv t -> length x = n -> snd (o t (REval x)) = Ok (RValue (f x)) /\ inv (fst (o t (REval x)))).
  Context (Hinv' : forall t q y, inv' t -> allowed q -> asks_for n f q y -> snd (o t q) = Ok (RValue (f y)) /\ inv' (fst (o t q))).
  Context (HC : inc && provides = true -> has_cache mid = false).
  Local Notation C := (controlled_obj mid target o).
  Local Notation kn := (known n f inv mid).
  Local Notation al := (alike inv inv' mid).

  Definition linked (w : list bv) (st : ma_state M) (cs : option (bv * dbl) * middle_state mid (improvement * (nat * S)))
    (st' : inc_state) (cs' : option (bv * dbl) * middle_state mid (improvement * (nat * S))) : Prop :=
    stands run fin made made 0 AD g st w (tree_of (ic_res st') (ic_alg st')) /\ ic_runs st' = 1 /\
    (ic_res st' = Ret tt -> alg_inv w (ic_alg st')) /\
    kn (valued f w) (snd cs) /\ al (snd cs) (snd cs') /\ misses target f w /\ fst cs = None /\ fst cs' = None.

  Definition same_ends (a : option (ma_state M * (option (bv * dbl) * middle_state mid (improvement * (nat * S))) * outcome unit))
    (b : option (ma_state D * (option (bv * dbl) * middle_state mid (improvement * (nat * S))) * outcome unit)) : Prop :=
    match a, b with
    | None, None => True
    | Some (st, cs, r), Some (st', cs', r') =>
        r' = r /\ al (snd cs) (snd cs') /\
        (r <> Throw TargetReached -> fst (ma_solution M (ma_finalize M st)) = fst (ma_solution D (ma_finalize D st'))) /\
        (r = Throw TargetReached -> exists y x, fst cs = Some (y, f y) /\ fst cs' = Some (x, f y) /\ length x = n /\ length y = n /\
           (exists t, target = Some t /\ dge (f y) t = true) /\ imp_value (fst (middle_inner mid (snd cs))) = Some (f y) /\
           (x = y \/ (inc && provides = true /\ misses target f [x])))
    | _, _ => False
    end.

  Lemma N : numbers n f.
  Proof. intros x Hx. now rewrite (HV x Hx). Qed.

  (** What a step does *)
  Lemma step_first (st' : inc_state) : ic_runs st' = 1 -> a_trace (ic_alg st') = [] ->
    ic_waiting p1 first moves st' = drawn (first 0) (ic_alg st') /\
    ic_request p1 first moves provides st' = REval (fst (a_sol (drawn (first 0) (ic_alg st')))) /\
    forall v, ic_step p1 first moves (answering v) st' = (Ret tt, started (fst (a_sol (drawn (first 0) (ic_alg st')))) v (drawn (first 0) (ic_alg st'))).
  Proof.
    intros E1 E2. assert (W : ic_waiting p1 first moves st' = drawn (first 0) (ic_alg st')).
    { unfold ic_waiting, ic_step. rewrite E1, E2. reflexivity. }
    split; [exact W|]. split; [unfold ic_request; rewrite W, E2; reflexivity|]. intros v. unfold ic_step. rewrite E1, E2. reflexivity.
  Qed.
  Lemma step_next (st' : inc_state) s1 u : ic_runs st' = 1 -> a_trace (ic_alg st') <> [] -> rls_propose (moves 0 (ic_iteration st')) (ic_alg st') = (Ret u, s1) ->
    ic_waiting p1 first moves st' = s1 /\
    ic_request p1 first moves provides st' =
      (if inc && provides then RInc (nh_origin (rls_nh (a_mem s1))) (DFin (snd (a_sol s1))) (nh_flipped (rls_nh (a_mem s1))) else REval (cand s1)) /\
    forall v, ic_step p1 first moves (answering v) st' = rls_decide p0 v (put_trace (cand s1) s1).
  Proof.
    intros E1 E2 EP. destruct (a_trace (ic_alg st')) as [|z l] eqn:ET; [contradiction|].
    assert (ST : forall ob, o_provides ob = true -> ic_step p1 first moves ob st' =
      match o_stop ob (length (a_trace s1)) with
      | Some e => (Exc e, s1)
      | None => rls_decide p0 (if inc then o_inc ob (nh_origin (rls_nh (a_mem s1))) (snd (a_sol s1)) (nh_flipped (rls_nh (a_mem s1))) else o_value ob (cand s1)) (put_trace (cand s1) s1)
      end).
    { intros ob P. unfold ic_step. rewrite ET, E1. cbn [Nat.sub]. unfold rls_iterate, abind, aget. rewrite EP, P, andb_true_r. cbn [p_incremental p1].
      destruct inc; [unfold evaluate_incrementally|unfold evaluate]; destruct (o_stop ob (length (a_trace s1))); reflexivity. }
    assert (W : ic_waiting p1 first moves st' = s1) by (unfold ic_waiting; now rewrite ST).
    split; [exact W|]. split; [unfold ic_request; rewrite W, ET; reflexivity|]. intros v. rewrite ST by reflexivity. cbn. now destruct inc.
  Qed.

  (** The next call *)
  Lemma linked_call w st cs st' cs' s y k q : linked w st cs st' cs' -> tree_of (ic_res st') (ic_alg st') = Ask s y k -> ic_res st' = Ret tt ->
    ic_next p1 first moves num fuel provides st' = MCall q ->
    ic_waiting p1 first moves st' = s -> asks_for n f q y -> allowed q -> (has_cache mid = true -> q = REval y) ->
    (q = REval y \/ inc && provides = true /\ misses target f [request_vector q]) -> length (request_vector q) = n ->
    (forall r s2, ic_step p1 first moves (answering (g y)) st' = (r, s2) -> tree_of r s2 = k (g y) /\ (r = Ret tt -> alg_inv (w ++ [y]) s2)) ->
    let a := C cs (REval y) in let b := C cs' q in
    snd a = snd b /\
    match snd a with
    | Ok rp => linked (w ++ [y]) (ma_after M st (snd a)) (fst a) (ic_after p1 first moves st' (snd a)) (fst b)
    | Throw e => same_ends (Some (ma_after M st (snd a), fst a, Throw e)) (Some (ic_after p1 first moves st' (snd a), fst b, Throw e))
    | UB => False
    end.
  Proof.
    intros (L1 & L2 & L3 & L4 & L5 & L6 & L7 & L8) ET ER EN EW AQ AL CQ QQ LQ ST. cbv zeta.
    destruct cs as [tr ms], cs' as [tr' ms']. cbn [fst snd] in L4, L5, L7, L8. subst tr tr'.
    pose proof (asks_length _ _ _ _ AQ) as Ly.
    destruct (controlled_alike o n f inv inv' allowed Hinv Hinv' mid target None ms None ms' q y L5 AL AQ CQ) as (C1 & C2 & C3).
    pose proof (controlled_answered o n f inv Hinv N mid target (valued f w) None ms y L4 Ly) as CA. cbv zeta in CA. rewrite valued_length in CA.
    assert (EV : valued f w ++ [(y, f y)] = valued f (w ++ [y])) by (rewrite valued_app; reflexivity). rewrite EV in CA.
    rewrite ET in L1. split; [exact C1|].
    destruct CA as [(K1 & _ & K2)|(K1 & K2 & K3)].
    - assert (Go : snd (C (None, ms) (REval y)) = Ok (RValue (f y)) -> fst (fst (C (None, ms) (REval y))) = None -> (forall t, target = Some t -> dge (f y) t = false) ->
        fst (fst (C (None, ms') q)) = None ->
        linked (w ++ [y]) (ma_after M st (Ok (RValue (f y)))) (fst (C (None, ms) (REval y))) (ic_after p1 first moves st' (Ok (RValue (f y)))) (fst (C (None, ms') q))).
      { intros E1 E2 BT E3. unfold ic_after. rewrite (HV y Ly). cbn [units].
        destruct (ic_step p1 first moves (answering (g y)) st') as [r s2] eqn:ES. destruct (ST r s2 eq_refl) as [S1 S2].
        split; [cbn [ic_res ic_alg]; rewrite S1; apply (stands_after run fin made made 0 AD T0 g st w s y k); [exact L1|reflexivity]|].
        split; [exact L2|]. split; [exact S2|]. split; [exact K1|]. split; [exact C2|].
        split; [intros t x Et Hx; apply in_app_or in Hx as [Hx|[<-|[]]]; [now apply (L6 t)|now apply BT]|]. auto. }
      assert (TR : snd (C (None, ms') q) = Ok (RValue (f y)) -> fst (fst (C (None, ms') q)) = None).
      { clear. unfold controlled_obj. destruct target as [t|].
        - unfold stop_on_target. destruct (middle_obj mid (progress_tracker o false) ms' q) as [s2 a2]. destruct q, a2 as [[v|]|e|]; cbn; try reflexivity; destruct (dge _ t); cbn; (reflexivity || discriminate).
        - destruct (middle_obj mid (progress_tracker o false) ms' q) as [s2 a2]. reflexivity. }
      assert (KK : (exists t, target = Some t /\ dge (f y) t = true /\ snd (C (None, ms) (REval y)) = Throw TargetReached /\ fst (fst (C (None, ms) (REval y))) = Some (y, f y)) \/
        (snd (C (None, ms) (REval y)) = Ok (RValue (f y)) /\ fst (fst (C (None, ms) (REval y))) = None /\ forall t, target = Some t -> dge (f y) t = false)).
      { clear - K2. revert K2. generalize (snd (C (None, ms) (REval y))) (fst (fst (C (None, ms) (REval y)))). intros a b.
        destruct target as [t|]; [destruct (dge (f y) t) eqn:G|]; intros [-> ->].
        - left. eauto.
        - right. split; [reflexivity|]. split; [reflexivity|]. intros t' [= <-]. exact G.
        - right. split; [reflexivity|]. split; [reflexivity|]. discriminate. }
      destruct KK as [(t & Et & G & K2' & K3)|(K2' & K3 & BT)]; rewrite K2' in *.
      + unfold same_ends. split; [reflexivity|]. split; [exact C2|]. split; [congruence|]. intros _.
        exists y, (request_vector q). split; [exact K3|]. split; [apply (C3 (f y)); auto|]. split; [exact LQ|]. split; [exact Ly|]. split; [eauto|]. split.
        { destruct K1 as [T _]. pose proof T as (_ & _ & _ & _ & B). destruct B as (_ & k' & z & v & B1 & B2 & _); [destruct w; discriminate|].
          rewrite B2. f_equal. destruct (tracked_value n f inv N _ _ _ z v T (best_record_In _ _ _ _ B1)) as (_ & -> & _).
          assert (Hx : In (y, f y) (valued f (w ++ [y]))) by (rewrite valued_app; apply in_or_app; right; now left).
          destruct (best_record_above _ _ _ _ _ _ B1 Hx) as [Kx|Kx]; [rewrite (N _ Ly) in Kx; discriminate|].
          apply best_record_In in B1. rewrite valued_app in B1. apply in_app_or in B1 as [B1|[B1|[]]]; [|now injection B1 as ->].
          apply in_map_iff in B1 as (z' & [= -> _] & Hz). specialize (L6 t z Et Hz). unfold dge in L6, G. rewrite (dle_trans t (f y) (f z) G Kx) in L6. discriminate. }
        destruct QQ as [->|QQ]; [left; reflexivity|right; exact QQ].
      + apply Go; auto.
    - rewrite K1. unfold same_ends. split; [reflexivity|]. split; [exact C2|]. split; [|discriminate]. intros _.
      rewrite (stands_solution run fin made made 0 AD T0 g _ w _ (stands_throw run fin made made 0 AD T0 g st w s y k LastEvaluation L1)).
      cbn [ma_solution ma_finalize incremental_machine ic_alg ic_after fst]. now rewrite EW.
  Qed.

  (** The neighborhood after a step *)
  Lemma decided w s1 h v s2 : nh_reachable n h Settled -> nh_class h = c0 -> w <> [] -> In (nh_origin h) w ->
    (exists i, nh_propose h (moves 0 i) = Some (Ok (rls_nh (a_mem s1)))) -> a_trace s1 = w -> snd (a_sol s1) = g (nh_origin h) ->
    v = g (cand s1) -> rls_decide p0 v (put_trace (cand s1) s1) = (Ret tt, s2) -> alg_inv (w ++ [cand s1]) s2.
  Proof.
    intros R EC NE IO (i & EP) ET ES -> DE. destruct (decide_cases _ _ _ _ _ DE) as (D1 & _ & D2). specialize (D2 eq_refl).
    cbn [put_trace a_mem a_sol a_trace] in D1, D2. rewrite ET in D1.
    assert (B : in_bounds (nh_class h) n (moves 0 i)) by (rewrite EC; apply HB).
    pose proof (reach_propose n h (moves 0 i) _ R B EP) as RP. destruct (propose_final n h (moves 0 i) _ R B EP) as (h' & E' & O1 & O2 & O3 & O4). apply Ok_inj in E'. subst h'.
    destruct (proposed_final n _ RP) as (_ & (h1 & K1 & K2 & K3) & (h2 & F1 & F2 & F3)).
    assert (CL : nh_class (rls_nh (a_mem s1)) = c0).
    { rewrite <- EC. clear - EP. unfold nh_propose, with_sample in EP. destruct (bv_eqb _ _); [|discriminate]. destruct (sample_bits h (moves 0 i)) as [[l|e|]|]; try discriminate.
      injection EP as EP. apply bind_Ok in EP as (c & _ & EP). apply Ok_inj in EP. now rewrite <- EP. }
    split; [exact D1|]. split.
    { rewrite <- CL. destruct D2 as [(h' & E1 & -> & _)|(h' & E1 & -> & _)]; [unfold nh_keep in E1|unfold nh_forget in E1];
        apply bind_Ok in E1 as (c & _ & E1); apply bind_Ok in E1 as (u & _ & E1); apply Ok_inj in E1; now rewrite <- E1. }
    split; [intros K; now destruct w|]. intros _. destruct D2 as [(h' & E1 & E2 & E3)|(h' & E1 & E2 & E3)].
    - rewrite K1 in E1. apply Ok_inj in E1. rewrite E2, <- E1, K2, E3. split; [exact (reach_keep n _ _ RP K1)|]. split; [reflexivity|]. apply in_or_app. right. now left.
    - rewrite F1 in E1. apply Ok_inj in E1. rewrite E2, <- E1, F2, E3, O1. split; [exact (reach_forget n _ _ RP F1)|]. split; [exact ES|]. apply in_or_app. now left.
  Qed.

  Lemma play_linked pf : forall w st cs st' cs', linked w st cs st' cs' -> same_ends (play C M pf st cs) (play C D pf st' cs').
  Proof.
    induction pf as [|pf IH]; intros w st cs st' cs' L; [exact I|]. pose proof L as (L1 & L2 & L3 & L4 & L5 & L6 & L7 & L8).
    destruct (stands_next run fin made made 0 AD T0 g st w _ L1) as [EN EC].
    cbn [play]. change (ma_next D st') with (ic_next p1 first moves num fuel provides st').
    change (ma_after D st') with (ic_after p1 first moves st').
    (* the end of the run *)
    assert (LEAF : forall r s, tree_of (ic_res st') (ic_alg st') = Leaf r s -> s = ic_alg st' -> ic_next p1 first moves num fuel provides st' = ic_move r ->
      r <> Exc TargetReached ->
      same_ends
        (match ma_next M st with
         | MCall r0 => let '(s', a) := C cs r0 in match a with Ok _ => play C M pf (ma_after M st a) s' | Throw e => Some (ma_after M st a, s', Throw e) | UB => Some (ma_after M st a, s', UB) end
         | MSilent => play C M pf (ma_after M st (Ok RVoid)) cs
         | MReturn => Some (st, cs, Ok tt) | MThrow e => Some (st, cs, Throw e) | MUndefined => Some (st, cs, UB) end)
        (match ic_next p1 first moves num fuel provides st' with
         | MCall r0 => let '(s', a) := C cs' r0 in match a with Ok _ => play C D pf (ic_after p1 first moves st' a) s' | Throw e => Some (ic_after p1 first moves st' a, s', Throw e) | UB => Some (ic_after p1 first moves st' a, s', UB) end
         | MSilent => play C D pf (ic_after p1 first moves st' (Ok RVoid)) cs'
         | MReturn => Some (st', cs', Ok tt) | MThrow e => Some (st', cs', Throw e) | MUndefined => Some (st', cs', UB) end)).
    { intros r s ET -> EX NT. rewrite ET in EN, EC, L1. rewrite EX.
      assert (SOL : fst (ma_solution M (ma_finalize M st)) = fst (ma_solution D (ma_finalize D st'))).
      { rewrite (stands_solution run fin made made 0 AD T0 g st w _ L1). reflexivity. }
      destruct r as [u|e| |]; rewrite EN; cbn [ic_move same_ends].
      - split; [reflexivity|]. split; [exact L5|]. split; [auto|discriminate].
      - split; [reflexivity|]. split; [exact L5|]. split; [auto|congruence].
      - split; [reflexivity|]. split; [exact L5|]. split; [auto|discriminate].
      - assert (EA : ma_after M st (Ok RVoid) = st) by (cbn [ma_after algorithm_machine]; cbn [ma_next algorithm_machine] in EN; now rewrite EN).
        rewrite EA. apply (IH w). exact L. }
    (* a call *)
    assert (CALL : forall s y k q, tree_of (ic_res st') (ic_alg st') = Ask s y k -> ic_res st' = Ret tt ->
      ic_next p1 first moves num fuel provides st' = MCall q -> ic_waiting p1 first moves st' = s -> asks_for n f q y -> allowed q -> (has_cache mid = true -> q = REval y) ->
      (q = REval y \/ inc && provides = true /\ misses target f [request_vector q]) -> length (request_vector q) = n ->
      (forall r s2, ic_step p1 first moves (answering (g y)) st' = (r, s2) -> tree_of r s2 = k (g y) /\ (r = Ret tt -> alg_inv (w ++ [y]) s2)) ->
      same_ends
        (match ma_next M st with
         | MCall r0 => let '(s', a) := C cs r0 in match a with Ok _ => play C M pf (ma_after M st a) s' | Throw e => Some (ma_after M st a, s', Throw e) | UB => Some (ma_after M st a, s', UB) end
         | MSilent => play C M pf (ma_after M st (Ok RVoid)) cs
         | MReturn => Some (st, cs, Ok tt) | MThrow e => Some (st, cs, Throw e) | MUndefined => Some (st, cs, UB) end)
        (match ic_next p1 first moves num fuel provides st' with
         | MCall r0 => let '(s', a) := C cs' r0 in match a with Ok _ => play C D pf (ic_after p1 first moves st' a) s' | Throw e => Some (ic_after p1 first moves st' a, s', Throw e) | UB => Some (ic_after p1 first moves st' a, s', UB) end
         | MSilent => play C D pf (ic_after p1 first moves st' (Ok RVoid)) cs'
         | MReturn => Some (st', cs', Ok tt) | MThrow e => Some (st', cs', Throw e) | MUndefined => Some (st', cs', UB) end)).
    { intros s y k q ET ER EX EW AQ AL CQ QQ LQ ST.
      destruct (linked_call w st cs st' cs' s y k q L ET ER EX EW AQ AL CQ QQ LQ ST) as [E1 E2].
      rewrite ET in EN. rewrite EN, EX. destruct (C cs (REval y)) as [c1 a1], (C cs' q) as [c2 a2]. cbn [fst snd] in E1, E2. subst a2.
      destruct a1 as [rp|e|]; [apply (IH (w ++ [y])); exact E2|exact E2|contradiction]. }
    destruct (ic_res st') as [[]|e| |] eqn:ER.
    - specialize (L3 eq_refl). destruct L3 as (I1 & I2 & I3 & I4). cbn [tree_of] in LEAF, CALL. destruct (a_trace (ic_alg st')) as [|z l] eqn:ET.
      + subst w. destruct (I3 eq_refl) as [J1 [ph J2]]. destruct (step_first st' L2 ET) as (S1 & S2 & S3).
        apply (CALL _ _ _ (REval (fst (a_sol (drawn (first 0) (ic_alg st'))))) eq_refl eq_refl); auto.
        * unfold ic_next. now rewrite ER, ET, S2.
        * constructor. cbn. now rewrite length_bv_random.
        * left. eauto.
        * cbn. now rewrite length_bv_random.
        * intros r s2 E. rewrite S3 in E. set (x := fst (a_sol (drawn (first 0) (ic_alg st')))) in *.
          assert (r = Ret tt /\ s2 = started x (g x) (drawn (first 0) (ic_alg st'))) as [-> ->] by (split; congruence). clear E.
          assert (Lx : length x = n) by (unfold x; cbn; now rewrite length_bv_random).
          assert (TR : a_trace (started x (g x) (drawn (first 0) (ic_alg st'))) = [x]) by (cbn; now rewrite ET). split.
          -- unfold tree_of. rewrite TR. cbn [length Nat.sub]. now rewrite Nat.sub_0_r.
          -- intros _. split; [exact TR|]. cbn. split; [exact I2|]. split; [discriminate|]. intros _. split; [exact (reach_origin n _ ph x J2 Lx)|]. auto.
      + assert (NW : w <> []) by (rewrite <- I1; discriminate). destruct (I4 NW) as (J1 & J2 & J3). rewrite <- ET in *.
        assert (EI : length (a_trace (ic_alg st')) - 1 = ic_iteration st') by reflexivity. rewrite EI in *.
        assert (NX : ic_next p1 first moves num fuel provides st' =
          if fuel <=? ic_iteration st' then MSilent
            else if ((0 <? num) && (num <=? Z.of_nat (ic_iteration st')))%Z then MReturn
            else if a_last (ic_alg st') then MReturn
            else match rls_propose (moves 0 (ic_iteration st')) (ic_alg st') with
                 | (Ret _, _) => MCall (ic_request p1 first moves provides st')
                 | (r, _) => ic_move r
                 end).
        { unfold ic_next. rewrite ER, L2. cbn [Nat.sub]. rewrite ET. reflexivity. }
        destruct (Nat.leb_spec fuel (ic_iteration st')) as [FU|FU].
        { apply (LEAF Pending (ic_alg st')); auto; [|discriminate]. now replace (fuel - ic_iteration st') with 0 by lia. }
        destruct (fuel - ic_iteration st') as [|k0] eqn:EK; [lia|]. cbn [it_tree] in LEAF, CALL.
        destruct ((0 <? num) && (num <=? Z.of_nat (ic_iteration st')))%Z.
        { apply (LEAF (Ret tt) (ic_alg st')); auto. discriminate. }
        destruct (a_last (ic_alg st')).
        { apply (LEAF (Ret tt) (ic_alg st')); auto. discriminate. }
        destruct (rls_propose (moves 0 (ic_iteration st')) (ic_alg st')) as [r s1] eqn:EP.
        destruct (propose_cases _ _ _ _ EP) as (P1 & P2 & P3 & P4 & P5).
        destruct r as [u|e| |]; cbn [failed] in LEAF; try (apply (LEAF _ s1 eq_refl P5 NX); destruct P2; congruence).
        destruct P5 as (h & P5 & P6).
        assert (NE : a_trace (ic_alg st') <> []) by (rewrite ET; discriminate).
        destruct (step_next st' s1 u L2 NE EP) as (S1 & S2 & S3).
        assert (B : in_bounds (nh_class (rls_nh (a_mem (ic_alg st')))) n (moves 0 (ic_iteration st'))) by (rewrite I2; apply HB).
        destruct (propose_final n _ _ _ J1 B P5) as (h' & E' & O1 & O2 & O3 & O4). apply Ok_inj in E'. subst h'.
        destruct (reachable_inv n _ _ (reach_propose n _ _ _ J1 B P5)) as [(_ & Lo & Lc & _) _].
        assert (Lo' : length (nh_origin (rls_nh (a_mem s1))) = n) by now rewrite P6.
        assert (Lc' : length (cand s1) = n) by (unfold cand; now rewrite P6).
        assert (RQ : ic_request p1 first moves provides st' =
          if inc && provides then RInc (nh_origin (rls_nh (a_mem s1))) (f (nh_origin (rls_nh (a_mem s1)))) (diffs n (nh_origin (rls_nh (a_mem s1))) (cand s1)) else REval (cand s1)).
        { rewrite S2. destruct (inc && provides); [|reflexivity]. rewrite (HV _ Lo'). unfold cand. now rewrite P3, J2, P6, O2, O1. }
        rewrite RQ in NX.
        apply (CALL _ _ _ _ eq_refl eq_refl NX S1).
        * destruct (inc && provides); constructor; auto.
        * unfold allowed. destruct (inc && provides); [right; reflexivity|left; eauto].
        * intros HCa. destruct (inc && provides) eqn:EIP; [|reflexivity]. rewrite (HC eq_refl) in HCa. discriminate.
        * destruct (inc && provides); [right|left; reflexivity]. split; [reflexivity|]. cbn [request_vector]. rewrite P6, O1. intros t x Et [<-|[]]. now apply (L6 t).
        * destruct (inc && provides); auto.
        * intros r s2 E. rewrite S3 in E. rewrite E.
          destruct (decide_cases _ _ _ _ _ E) as (D1 & D2 & _). split.
          -- destruct r as [[]|e| |]; try reflexivity. unfold tree_of. rewrite D1. cbn [put_trace a_trace]. rewrite P1, app_length. cbn [length].
             destruct (a_trace (ic_alg st') ++ [cand s1]) eqn:EA; [now destruct (a_trace (ic_alg st'))|]. clear EA.
             replace (length (a_trace (ic_alg st')) + 1 - 1) with (ic_iteration st' + 1) by (unfold ic_iteration; rewrite ET; cbn [length]; lia).
             replace (fuel - (ic_iteration st' + 1)) with k0 by lia. reflexivity.
          -- intros ->. apply (decided w s1 (rls_nh (a_mem (ic_alg st'))) (g (cand s1)) s2); auto; [eexists; rewrite P6; exact P5|congruence|congruence].
    - cbn [tree_of failed] in LEAF. apply (LEAF (Exc e) (ic_alg st')); auto; [unfold ic_next; now rewrite ER|].
      destruct L1 as (_ & _ & _ & _ & HP). cbn [tree_of failed] in HP. destruct (steps_wf run made 0 AD T0 g _ _ HP) as [_ [_ W]]. congruence.
    - cbn [tree_of failed] in LEAF. apply (LEAF Bad (ic_alg st')); auto; [unfold ic_next; now rewrite ER|discriminate].
    - cbn [tree_of failed] in LEAF. apply (LEAF Pending (ic_alg st')); auto; [unfold ic_next; now rewrite ER|discriminate].
  Qed.

  Lemma linked_begin s : inv s -> inv' s -> (forall b, budget_of mid = Some b -> (0 <= b)%Z) ->
    linked [] (ma_begin M (ma_init M)) (controlled_init mid n s) (ma_begin D (ma_init D)) (controlled_init mid n s).
  Proof.
    intros I0 I0' Hb.
    assert (EP : prep made = mk_alg [] (a_sol made) (a_last made) (mk_rls (rls_failures (a_mem made)) (setup (rls_nh (a_mem made))))).
    { unfold prep, put_mem. now rewrite T0. }
    split.
    { cbn [ma_begin ma_init incremental_machine ic_alg ic_res tree_of a_trace]. rewrite <- EP, <- HAD. apply stands_begin; [reflexivity|].
      unfold rp_current. cbn [ma_init algorithm_machine rp_running rp_base]. clear - T0. destruct made as [tr sol l me]. cbn in *. now subst. }
    split; [reflexivity|]. split.
    { intros _. cbn. split; [reflexivity|]. split; [reflexivity|]. split; [intros _; split; auto|]. intros K. now destruct K. }
    split; [apply known_init; auto|]. split; [apply alike_init; auto|]. split; [intros t x _ []|]. auto.
  Qed.
End Lock.

(** * The program *)

Definition ad_local cmp pat bit moves num fuel :
  adaptive (fun ob => loop (rls_init ob (RandomStart bit)) (rls_iterate ob (mk_rls_parameters cmp pat false) moves) num fuel).
Proof.
  refine (ad_ext _ _ _ (ad_explicit (mk_rls_parameters cmp pat false) bit moves num eq_refl (fun s => put_mem (mk_rls (rls_failures (a_mem s)) (rls_nh (a_mem s))) s) fuel (fun s => eq_refl))).
  intros ob s _. destruct s as [tr sol l [fa h]]. reflexivity.
Defined.
Definition ad_op_local small allow bit moves num fuel x : adaptive (fun ob s =>
  let '(r, p) := op_maximize ob small allow false bit moves num fuel (mk_opoea x s) in (r, op_rls p)).
Proof.
  refine (ad_ext _ _ _ (ad_explicit (mk_rls_parameters (fun a b => b <=? a)%Z 0 false) bit moves num eq_refl
    (fun s => put_mem (mk_rls (rls_failures (a_mem s)) (nh_set_allow_no_mutation (nh_set_mutation_rate (rls_nh (a_mem s)) small) allow)) s) fuel (fun s => eq_refl))).
  intros ob s _. unfold op_maximize. cbn [op_rls op_sol]. destruct (loop _ _ _ _ _) as [r s']. reflexivity.
Defined.

Section Program.
  Context (ap : app_options) (co : controller_options) (m : option hmap) (F : func) (mid : middle) (target : option dbl) (i n : nat) (f : bv -> dbl) (g : bv -> Z).
  Context (HI : 0 < i) (HO : optimizes ap) (HRe : ap_restart ap = false) (HCo : make_function_controller co F = Ok (mid, target)).
  Context (HM : map_fits m i n) (HK : kind_known m) (HF : fp_size (f_props F) = i) (HT : total (f_obj F) (f_init F) i f) (HV : finite_values i f g).
  Context (o : algo_options) (d : algo_draws) (iterations neighbors : nat) (garbage : Z).
  Let provides := controlled_inc mid (f_props F).
  Context (HA : provides = true -> answers_rightly (f_obj F) (f_init F) i f).
  Context (OT : ao_algorithm o = 100%Z /\ neighborhood_ok o i \/ ao_algorithm o = 300%Z).
  Context (DO : forall t, in_bounds (bounding_kind o) i (ad_moves d 0 t)).
  Let made_by b := make_algorithm (with_incremental b o) d neighbors iterations garbage (make_incremental (with_incremental b o) d iterations garbage provides).
  Let run b := program ap co (Ok (Some (m, F))) (made_by b).

  Definition same_or_origin (fuel : nat) : Prop :=
    run true fuel = run false fuel \/
    exists t r x y, target = Some t /\ provides = true /\ run false fuel = Some (report ap co m i r y true) /\ run true fuel = Some (report ap co m i r x true) /\
      rs_value r = Some (f y) /\ dge (f y) t = true /\ dge (f x) t = false /\ length x = i /\ length y = i.

  Lemma machines_same cmp pat setup first moves num (rn : nat -> objective -> act (alg rls) unit) fin made
    (AD : adaptive (rn 0)) :
    (forall s, ad_tree AD s = first_tree (mk_rls_parameters cmp pat false) (first 0) (moves 0) num iterations
       (put_mem (mk_rls (rls_failures (a_mem s)) (setup (rls_nh (a_mem s)))) s)) ->
    a_trace made = [] -> (forall t, in_bounds (nh_class (setup (rls_nh (a_mem made)))) i (moves 0 t)) ->
    length (fst (a_sol made)) = i -> (exists ph, nh_reachable i (setup (rls_nh (a_mem made))) ph) ->
    made_by false i = Ok (algorithm_machine rn fin made) ->
    made_by true i = Ok (incremental_machine setup (mk_rls_parameters cmp pat true) first moves num iterations fin made provides) ->
    forall fuel, same_or_origin fuel.
  Proof.
    intros HAD T0 HB HL HR E0 E1 fuel.
    destruct (total_inv _ _ _ _ HT) as (inv & I0 & Hinv).
    assert (IN : exists inv' : f_state F -> Prop, inv' (f_init F) /\
      forall t q y, inv' t -> ((exists y, q = REval y) \/ true && provides = true) -> asks_for i f q y -> snd (f_obj F t q) = Ok (RValue (f y)) /\ inv' (fst (f_obj F t q))).
    { destruct provides eqn:EP.
      - destruct (rightly_inv _ _ _ _ (HA eq_refl)) as (inv' & J0 & J1). exists inv'. split; [exact J0|]. intros t q y It _ Hq. now apply J1.
      - exists inv. split; [exact I0|]. intros t q y It [[y' ->]|K] Hq; [|discriminate]. inversion Hq; subst. now apply Hinv. }
    destruct IN as (inv' & I0' & Hinv').
    assert (HCa : true && provides = true -> has_cache mid = false).
    { unfold provides, controlled_inc. cbn [andb]. destruct mid; cbn; auto; discriminate. }
    assert (EM : mid = middle_of co).
    { clear - HCo. unfold make_function_controller in HCo. destruct (target_of co (f_props F)); try discriminate. now injection HCo as <- _. }
    assert (HBu : forall b, budget_of mid = Some b -> (0 <= b)%Z).
    { rewrite EM. unfold middle_of. destruct (Z.ltb_spec 0 (co_budget co)), (co_cache co), (co_cache_budget co); cbn; intros b [= <-]; lia. }
    set (p := mk_rls_parameters cmp pat true) in *.
    set (M := algorithm_machine rn fin made) in *. set (D := incremental_machine setup p first moves num iterations fin made provides) in *.
    pose proof (linked_begin cmp pat true provides setup first moves num iterations rn fin made AD HAD T0 i f g HL HR inv inv' mid target (f_init F) I0 I0' HBu) as LB.
    pose proof (play_linked cmp pat true provides setup first moves num iterations rn fin made AD T0 i f g HV HB HL (f_obj F) inv inv' mid target Hinv Hinv' HCa fuel _ _ _ _ _ LB) as PL.
    fold p in PL. fold M in PL. fold D in PL.
    assert (PR : forall b A, made_by b i = Ok A -> run b fuel =
      match play (controlled_obj mid target (f_obj F)) A fuel (ma_begin A (ma_init A)) (controlled_init mid i (f_init F)) with
      | None => None | Some (st, cs, r) => Some (end_of_program (end_of_run ap co m F mid target A st cs r)) end).
    { intros b A E. rewrite <- HF in E. pose proof (program_run ap co m F (made_by b) A mid target HO HCo E fuel) as PR. unfold run_by in PR. rewrite HRe, HF in PR. exact PR. }
    unfold same_or_origin. rewrite (PR false M E0), (PR true D E1). clear PR LB.
    set (pl := play _ M _ _ _) in *. set (pl' := play _ D _ _ _) in *. clearbody pl pl'.
    destruct pl as [[[st cs] r]|], pl' as [[[st' cs'] r']|]; try contradiction; [|left; reflexivity].
    unfold same_ends in PL. destruct PL as (-> & AL & SOL & TGT). destruct (alike_end inv inv' mid _ _ AL) as (A1 & A2 & A3).
    assert (NT : r <> Throw TargetReached -> end_of_run ap co m F mid target D st' cs' r = end_of_run ap co m F mid target M st cs r).
    { intros NR. specialize (SOL NR). fold M D in SOL. unfold end_of_run. rewrite <- A1, <- A2, <- A3. destruct r as [[]|[]|]; try reflexivity; [now rewrite SOL|now rewrite SOL|now destruct NR]. }
    assert (CT : r = Throw TargetReached \/ r <> Throw TargetReached) by (destruct r as [|[]|]; (left; reflexivity) || (right; discriminate)).
    destruct CT as [->|NR]; [|left; now rewrite (NT NR)].
    destruct (TGT eq_refl) as (y & x & Y1 & Y2 & Lx & Ly & (t & Et & Dy) & V & XY).
    assert (FR : final_results co mid cs' true = final_results co mid cs true) by (unfold final_results; now rewrite A1, A2, A3).
    assert (R1 : end_of_program (end_of_run ap co m F mid target M st cs (Throw TargetReached)) = report ap co m i (final_results co mid cs true) y true).
    { apply (end_spec ap co m F mid target i n HCo HM HK HF M st cs); [econstructor; exact Y1|congruence|exact Ly]. }
    assert (R2 : end_of_program (end_of_run ap co m F mid target D st' cs' (Throw TargetReached)) = report ap co m i (final_results co mid cs true) x true).
    { rewrite <- FR. apply (end_spec ap co m F mid target i n HCo HM HK HF D st' cs'); [econstructor; exact Y2|congruence|exact Lx]. }
    rewrite R1, R2. destruct XY as [->|[XP XM]]; [left; reflexivity|]. right.
    exists t, (final_results co mid cs true), x, y. specialize (XM t x Et (or_introl eq_refl)). repeat (split; [assumption || reflexivity|]). auto.
  Qed.

  Theorem incremental_program fuel : same_or_origin fuel.
  Proof.
    destruct OT as [[T NO]|T].
    - destruct (neighborhood_made o i NO HI) as (h & E & R & S & B).
      apply (machines_same (p_compare (rls_settings o)) (p_patience (rls_settings o)) (fun h => h) (ad_first d) (ad_moves d) (ao_num_iterations o)
        (fun k ob => loop (rls_init ob (RandomStart (ad_first d k))) (rls_iterate ob (rls_settings o) (ad_moves d k)) (ao_num_iterations o) iterations)
        rls_finalize (mk_alg [] (repeat false i, 0%Z) false (mk_rls garbage h))
        (ad_local (p_compare (rls_settings o)) (p_patience (rls_settings o)) (ad_first d 0) (ad_moves d 0) (ao_num_iterations o) iterations)); try reflexivity.
      + intros t. apply B; [rewrite T; discriminate|apply DO].
      + apply repeat_length.
      + exists Settled. exact R.
      + unfold made_by, make_algorithm. cbn [with_incremental ao_algorithm ao_incremental]. rewrite T. cbn [existsb other_types Z.eqb Pos.eqb orb].
        change (make_neighborhood (with_incremental false o) i) with (make_neighborhood o i). rewrite E. cbn [bind]. rewrite made_alg by assumption. reflexivity.
      + unfold made_by, make_algorithm. cbn [with_incremental ao_algorithm ao_incremental]. rewrite T. cbn [existsb other_types Z.eqb Pos.eqb orb].
        unfold make_incremental. cbn [with_incremental ao_algorithm ao_incremental]. rewrite T. cbn [Z.eqb Pos.eqb].
        change (make_neighborhood (with_incremental true o) i) with (make_neighborhood o i). rewrite E. cbn [bind]. rewrite made_alg by assumption. reflexivity.
    - assert (E : op_make i garbage = Ok (mk_opoea (repeat false i, 0%Z) (mk_alg [] (repeat false i, 0%Z) false (mk_rls garbage
        (mk_nh (StandardBitMutation false false) (repeat false i) (repeat false i) []))))).
      { unfold op_make, nh_make. destruct (Nat.ltb_spec 0 i); [|lia]. cbn [ensureb assertb bind]. rewrite made_alg by assumption. reflexivity. }
      set (h0 := mk_nh (StandardBitMutation false false) (repeat false i) (repeat false i) []) in *.
      assert (Rh : nh_reachable i h0 Settled) by (apply (reach_make i (StandardBitMutation false false)); unfold nh_make; destruct (Nat.ltb_spec 0 i); [reflexivity|lia]).
      set (small := match ao_mutation_rate o with Some small => small i | None => 1 <? i end).
      apply (machines_same (fun a b => b <=? a)%Z 0%Z (fun h => nh_set_allow_no_mutation (nh_set_mutation_rate h small) (ao_allow_no_mutation o)) (ad_first d) (ad_moves d) (ao_num_iterations o)
        (fun k ob s => let '(r, p) := op_maximize ob small (ao_allow_no_mutation o) false (ad_first d k) (ad_moves d k) (ao_num_iterations o) iterations
           (mk_opoea (repeat false i, 0%Z) s) in (r, op_rls p))
        (fun s => op_rls (op_finalize (mk_opoea (repeat false i, 0%Z) s))) (mk_alg [] (repeat false i, 0%Z) false (mk_rls garbage h0))
        (ad_op_local small (ao_allow_no_mutation o) (ad_first d 0) (ad_moves d 0) (ao_num_iterations o) iterations (repeat false i, 0%Z))); try reflexivity.
      + intros t. apply (bounds_any (bounding_kind o)); [apply DO|discriminate].
      + apply repeat_length.
      + exists Settled. apply reach_allow, reach_rate, Rh.
      + unfold made_by, make_algorithm. cbn [with_incremental ao_algorithm ao_incremental]. rewrite T. cbn [existsb other_types Z.eqb Pos.eqb orb].
        rewrite E. reflexivity.
      + unfold made_by, make_algorithm. cbn [with_incremental ao_algorithm ao_incremental]. rewrite T. cbn [existsb other_types Z.eqb Pos.eqb orb].
        unfold make_incremental. cbn [with_incremental ao_algorithm ao_incremental]. rewrite T. cbn [Z.eqb Pos.eqb]. rewrite E. reflexivity.
  Qed.
End Program.
