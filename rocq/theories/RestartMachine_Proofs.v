(** Proofs about algorithms which are restarted. *)

From Coq Require Import ZArith.
From Verif Require Import Base BaseLemmas BitVector_Model BitVector_Spec Map_Model Map_Spec Double
  Controller_Model Controller_Spec Controller_Proofs Decorator_Model Decorator_Spec ControllerStack_Spec ControllerStack_Proofs
  Application_Model Application_Spec Application_Proofs Search_Model Search_Spec Search_Proofs Algorithm_Model Algorithm_Spec Algorithm_Proofs
  AlgorithmMachine_Model AlgorithmMachine_Spec AlgorithmMachine_Proofs RestartMachine_Spec.
Local Open Scope nat_scope.

Lemma past_snoc l T p : past (l ++ [(T, p)]) = past l ++ T.
Proof. unfold past. rewrite map_app, concat_app. cbn. now rewrite app_nil_r. Qed.

(** The solution of restart *)
Definition holds (n : nat) (l : list (list bv * (bv * Z))) (p : bv * dbl) : Prop :=
  (l = [] /\ p = (repeat false n, DFin 0)) \/
  exists l1 T x v l2, p = (x, DFin v) /\ l = l1 ++ (T, (x, v)) :: l2 /\ (forall U y u, In (U, (y, u)) l1 -> (u < v)%Z) /\ (forall U y u, In (U, (y, u)) l2 -> (u <= v)%Z).

Lemma holds_kept n l p : holds n l p -> kept n l (fst p).
Proof. intros [[-> ->]|(l1 & T & x & v & l2 & -> & H)]; [now left|right]. exists l1, T, v, l2. exact H. Qed.

Lemma holds_snoc n l p T q : holds n l p ->
  holds n (l ++ [(T, q)]) (if (length l =? 0) || dgt (DFin (snd q)) (snd p) then (fst q, DFin (snd q)) else p).
Proof.
  destruct q as [y u]. cbn [fst snd]. intros [[-> ->]|(l1 & T1 & x & v & l2 & -> & -> & H1 & H2)]; right.
  - exists [], T, y, u, []. repeat split; [intros ? ? ? []..].
  - rewrite app_length. cbn [length]. replace (length l1 + S (length l2) =? 0) with false by (symmetry; apply Nat.eqb_neq; lia). cbn [orb snd].
    destruct (dgt (DFin u) (DFin v)) eqn:G; unfold dgt in G; cbn in G.
    + apply Z.ltb_lt in G. exists (l1 ++ (T1, (x, v)) :: l2), T, y, u, []. repeat split; [|intros ? ? ? []].
      intros U z w Hz. apply in_app_or in Hz as [Hz|[Hz|Hz]]; [specialize (H1 _ _ _ Hz); lia|injection Hz as _ _ <-; lia|specialize (H2 _ _ _ Hz); lia].
    + apply Z.ltb_ge in G. exists l1, T1, x, v, (l2 ++ [(T, (y, u))]). rewrite <- app_assoc. repeat split; auto.
      intros U z w Hz. apply in_app_or in Hz as [Hz|[Hz|[]]]; [eauto|]. injection Hz as _ _ <-. lia.
Qed.

Section Restart.
  Context {X : Type} (run : nat -> objective -> act (alg X) unit) (fin : alg X -> alg X) (s0 : alg X).
  Context (AD : forall j, adaptive (run j)) (g : bv -> Z) (T0 : a_trace s0 = []).
  Context {S : Type} (o : fobj S) (n : nat) (f : bv -> dbl) (inv : S -> Prop).
  Context (Hinv : forall t x, inv t -> length x = n -> snd (o t (REval x)) = Ok (RValue (f x)) /\ inv (fst (o t (REval x)))).
  Context (HV : finite_values n f g) (mid : middle) (target : option dbl).
  Local Notation runs_of := (complete_runs run fin g s0).
  Context (SZ : forall l s1, runs_of l s1 -> forall ob, o_provides ob = false -> Forall (fun x => length x = n) (a_trace (snd (run (length l) ob (afresh s1))))).
  Local Notation M := (algorithm_machine run fin s0).
  Local Notation R := (restart_machine M n 0).
  Local Notation C := (controlled_obj mid target o).
  Local Notation kn := (known n f inv mid).
  Local Notation stand l s1 := (stands run fin s0 (afresh s1) (length l) (AD (length l)) g).
  Local Notation first s1 j := (ad_tree (AD j) (afresh s1)).

  (** Between two runs, and during a run *)
  Definition between (st : ma_state R) l s1 : Prop :=
    runs_of l s1 /\ re_runs st = length l /\ holds n l (re_solution st) /\ re_running st = false /\
    rp_runs (re_inner st) = length l /\ rp_current run (re_inner st) = s1.
  Definition during (st : ma_state R) l s1 w t : Prop :=
    runs_of l s1 /\ re_runs st = length l /\ holds n l (re_solution st) /\ re_running st = true /\ stand l s1 (re_inner st) w t.

  Local Notation result := (option (ma_state R * (option (bv * dbl) * middle_state mid (improvement * (nat * S))) * outcome unit)).

  (** How a play ends, [fuel] being counted from the beginning *)
  Inductive restart_play (fuel : nat) : result -> Prop :=
  | rplay_leaf st cs l s1 w r s : during st l s1 w (Leaf r s) -> kn (valued f (past l ++ w)) (snd cs) -> misses target f (past l ++ w) ->
      match r with Ret _ => False | _ => True end ->
      restart_play fuel (match r with Exc e => Some (st, cs, Throw e) | Bad => Some (st, cs, UB) | _ => None end)
  | rplay_budget st cs l s1 w s x k : during st l s1 w (Ask s x k) -> kn (valued f (past l ++ w)) (snd cs) -> misses target f (past l ++ w) ->
      match budget_of mid with Some b => (b <= Z.of_nat (length (past l ++ w)))%Z | None => False end ->
      restart_play fuel (Some (st, cs, Throw LastEvaluation))
  | rplay_target st cs l s1 w s x k t : runs_of l s1 -> steps g (first s1 (length l)) w (Ask s x k) -> kn (valued f ((past l ++ w) ++ [x])) (snd cs) -> misses target f (past l ++ w) ->
      target = Some t -> dge (f x) t = true -> fst cs = Some (x, f x) -> length x = n ->
      restart_play fuel (Some (st, cs, Throw TargetReached))
  | rplay_fuel (cs : option (bv * dbl) * middle_state mid (improvement * (nat * S))) l s1 w : runs_of l s1 -> kn (valued f (past l ++ w)) (snd cs) -> misses target f (past l ++ w) ->
      fuel <= 2 * length l + length (past l ++ w) + 1 -> restart_play fuel None.

  Lemma fresh_trace (s1 : alg X) : a_trace (afresh s1) = [].
  Proof. reflexivity. Qed.

  Lemma restart_play_spec fuel : forall st cs,
    (forall l s1, between st l s1 -> kn (valued f (past l)) (snd cs) -> misses target f (past l) ->
       restart_play (2 * length l + length (past l) + fuel) (play C R fuel st cs)) /\
    (forall l s1 w t, during st l s1 w t -> kn (valued f (past l ++ w)) (snd cs) -> misses target f (past l ++ w) ->
       restart_play (2 * length l + length (past l ++ w) + 1 + fuel) (play C R fuel st cs)).
  Proof.
    induction fuel as [|fuel IH]; intros st cs; split.
    - intros l s1 (B1 & _) K Mi. apply (rplay_fuel _ cs l s1 []); rewrite ?app_nil_r; auto. lia.
    - intros l s1 w t (B1 & _) K Mi. apply (rplay_fuel _ cs l s1 w); auto. lia.
    - intros l s1 (B1 & B2 & B3 & B4 & B5 & B6) K Mi.
      assert (EN : ma_next R st = MSilent). { cbn [ma_next restart_machine]. rewrite B4. reflexivity. }
      cbn [play]. rewrite EN. destruct (IH (ma_after R st (Ok RVoid)) cs) as [_ IH2].
      assert (D : during (ma_after R st (Ok RVoid)) l s1 [] (first s1 (length l))).
      { cbn [ma_after restart_machine]. rewrite B4. split; [exact B1|]. split; [exact B2|]. split; [exact B3|]. split; [reflexivity|].
        apply stands_begin; [exact B5|]. cbv zeta. rewrite B6. reflexivity. }
      specialize (IH2 l s1 [] _ D). rewrite app_nil_r in IH2. specialize (IH2 K Mi).
      replace (2 * length l + length (past l) + Datatypes.S fuel) with (2 * length l + length (past l) + 1 + fuel) by lia. exact IH2.
    - intros l s1 w t D K Mi. pose proof D as (B1 & B2 & B3 & B4 & B5).
      pose proof (stands_next run fin s0 (afresh s1) (length l) (AD (length l)) (fresh_trace s1) g (re_inner st) w t B5) as [EN EC].
      destruct t as [[u|e| |] s|s x k].
      + (* the run returns *)
        assert (ENR : ma_next R st = MSilent). { cbn [ma_next restart_machine]. rewrite B4, EN. reflexivity. }
        cbn [play]. rewrite ENR. destruct (IH (ma_after R st (Ok RVoid)) cs) as [IH1 _].
        pose proof B5 as (_ & _ & _ & _ & HP).
        destruct (steps_wf run (afresh s1) (length l) (AD (length l)) (fresh_trace s1) g w _ HP) as [W _].
        assert (ER : run (length l) (endless g) (afresh s1) = (Ret tt, s)).
        { destruct u. apply (run_steps run (afresh s1) (length l) (AD (length l)) (fresh_trace s1) g (endless g) w (Leaf (Ret tt) s)); auto. intros y _. reflexivity. }
        assert (BT : between (ma_after R st (Ok RVoid)) (l ++ [(a_trace s, a_sol (fin s))]) (fin s)).
        { cbn [ma_after restart_machine]. rewrite B4, EN. split; [now apply (one_more_run _ _ _ _ l s1)|]. cbn [re_runs re_solution re_running re_inner].
          rewrite app_length. cbn [length]. split; [now rewrite B2|]. split.
          - rewrite B2. cbn [ma_finalize ma_solution algorithm_machine]. rewrite EC. exact (holds_snoc n l (re_solution st) (a_trace s) (a_sol (fin s)) B3).
          - split; [reflexivity|]. cbn [ma_finalize algorithm_machine rp_runs]. split; [apply B5|]. rewrite EC. reflexivity. }
        assert (EP : past (l ++ [(a_trace s, a_sol (fin s))]) = past l ++ w) by (rewrite past_snoc, W; reflexivity).
        specialize (IH1 _ _ BT). rewrite EP in IH1. specialize (IH1 K Mi). rewrite app_length in IH1. cbn [length] in IH1.
        replace (2 * length l + length (past l ++ w) + 1 + Datatypes.S fuel) with (2 * (length l + 1) + length (past l ++ w) + fuel) by lia. exact IH1.
      + cbn [play]. assert (ENR : ma_next R st = MThrow e) by (cbn [ma_next restart_machine]; rewrite B4, EN; reflexivity). rewrite ENR.
        exact (rplay_leaf _ st cs l s1 w (Exc e) s D K Mi I).
      + cbn [play]. assert (ENR : ma_next R st = MUndefined) by (cbn [ma_next restart_machine]; rewrite B4, EN; reflexivity). rewrite ENR.
        exact (rplay_leaf _ st cs l s1 w Bad s D K Mi I).
      + assert (ENR : ma_next R st = MSilent) by (cbn [ma_next restart_machine]; rewrite B4, EN; reflexivity).
        assert (EA : ma_after R st (Ok RVoid) = st).
        { cbn [ma_after restart_machine]. rewrite B4, EN. cbn [ma_after algorithm_machine]. cbn [ma_next algorithm_machine] in EN. rewrite EN. destruct st; cbn in *. now subst. }
        assert (EL : forall h, play C R h st cs = None). { induction h as [|h IHh]; [reflexivity|]. cbn [play]. rewrite ENR, EA. exact IHh. }
        rewrite EL. exact (rplay_leaf _ st cs l s1 w Pending s D K Mi I).
      + pose proof B5 as (_ & _ & _ & _ & HP).
        assert (Lx : length x = n) by exact (asked_sized run (afresh s1) (length l) (AD (length l)) (fresh_trace s1) g n (SZ l s1 B1) w s x k HP).
        assert (ENR : ma_next R st = MCall (REval x)) by (cbn [ma_next restart_machine]; rewrite B4, EN; reflexivity).
        cbn [play]. rewrite ENR. destruct cs as [tr ms].
        assert (N : numbers n f) by (intros y Hy; now rewrite (HV y Hy)).
        pose proof (controlled_answered o n f inv Hinv N mid target (valued f (past l ++ w)) tr ms x K Lx) as CA. cbv zeta in CA.
        destruct (C (tr, ms) (REval x)) as [[tr' ms'] a] eqn:ECx. cbn [fst snd] in CA. rewrite valued_length in CA.
        assert (EV : valued f (past l ++ w) ++ [(x, f x)] = valued f ((past l ++ w) ++ [x])) by (rewrite (valued_app f (past l ++ w)); reflexivity).
        rewrite EV in CA.
        assert (EAR : forall a, ma_after R st a = mk_restart (re_solution st) (re_runs st) true (ma_after M (re_inner st) a)).
        { intros b. cbn [ma_after restart_machine]. rewrite B4, EN. reflexivity. }
        destruct CA as [(K1 & _ & K2)|(K1 & K2 & K3)].
        * assert (Go : a = Ok (RValue (f x)) -> (forall t, target = Some t -> dge (f x) t = false) ->
            restart_play (2 * length l + length (past l ++ w) + 1 + Datatypes.S fuel) (match a with
                     | Ok _ => play C R fuel (ma_after R st a) (tr', ms')
                     | Throw e => Some (ma_after R st a, (tr', ms'), Throw e)
                     | UB => Some (ma_after R st a, (tr', ms'), UB) end)).
          { intros -> BT. destruct (IH (ma_after R st (Ok (RValue (f x)))) (tr', ms')) as [_ IH2].
            specialize (IH2 l s1 (w ++ [x]) (k (g x))).
            assert (D' : during (ma_after R st (Ok (RValue (f x)))) l s1 (w ++ [x]) (k (g x))).
            { rewrite EAR. split; [exact B1|]. split; [exact B2|]. split; [exact B3|]. split; [reflexivity|]. cbn [re_inner].
              apply (stands_after run fin s0 (afresh s1) (length l) (AD (length l)) (fresh_trace s1) g (re_inner st) w s x k); [exact B5|now apply HV]. }
            rewrite !app_assoc in IH2. specialize (IH2 D' K1). rewrite app_length in IH2. cbn [length] in IH2.
            replace (2 * length l + length (past l ++ w) + 1 + Datatypes.S fuel) with (2 * length l + (length (past l ++ w) + 1) + 1 + fuel) by lia.
            apply IH2. intros t y Et Hy. apply in_app_or in Hy as [Hy|[<-|[]]]; [now apply (Mi t)|now apply BT]. }
          assert (CT : (exists t, target = Some t) \/ target = None) by (destruct target; eauto).
          destruct CT as [[t ET]|ET]; rewrite ET in K2.
          -- destruct (dge (f x) t) eqn:G; destruct K2 as [K2 K3].
             ++ rewrite K2. now apply (rplay_target _ (ma_after R st (Throw TargetReached)) (tr', ms') l s1 w s x k t).
             ++ apply Go; [exact K2|]. intros t' E'. rewrite ET in E'. injection E' as <-. exact G.
          -- apply Go; [apply K2|]. intros t' E'. congruence.
        * rewrite K1. apply (rplay_budget _ (ma_after R st (Throw LastEvaluation)) (tr', ms') l s1 w s x k).
          -- rewrite EAR. split; [exact B1|]. split; [exact B2|]. split; [exact B3|]. split; [reflexivity|]. cbn [re_inner].
             apply (stands_throw run fin s0 (afresh s1) (length l) (AD (length l)) (fresh_trace s1) g). exact B5.
          -- exact K2.
          -- exact Mi.
          -- destruct (budget_of mid); [apply K3|exact K3].
  Qed.
End Restart.

(** * The program *)

Section Known.
  Context {S : Type} (co : controller_options) (i : nat) (f : bv -> dbl) (inv : S -> Prop) (N : numbers i f) (mid : middle) (EM : mid = middle_of co).

  Lemma known_tallies (cs : option (bv * dbl) * middle_state mid (improvement * (nat * S))) w b : known i f inv mid (valued f w) (snd cs) ->
    tallies co f w (final_results co mid cs b).
  Proof.
    intros [T _]. pose proof T as (_ & _ & C1 & C2 & B). rewrite valued_length in C1, C2.
    assert (Ec : co_cache co = false -> negb (has_cache mid) = true). { intros Hca. rewrite EM. unfold middle_of. rewrite Hca. destruct (Z.ltb_spec 0 (co_budget co)); reflexivity. }
    split; [exact C1|]. split; [intros Hca; cbn [final_results rs_total]; auto|]. intros NE. destruct B as (B0 & k & x & v & B1 & B2 & B3).
    { destruct w; [now destruct NE|discriminate]. }
    split; [exact B0|]. exists k, x. destruct (tracked_value i f inv N _ _ _ x v T (best_record_In _ _ _ _ B1)) as (_ & -> & _).
    split; [exact B1|]. split; [exact B2|]. intros Hca. cbn [final_results rs_num]. auto.
  Qed.
  Lemma known_budget (cs : option (bv * dbl) * middle_state mid (improvement * (nat * S))) w : known i f inv mid (valued f w) (snd cs) -> within_budget co w.
  Proof.
    intros [_ Kn] Hca Hb. clear - Kn Hca Hb EM. subst mid. revert cs Kn. unfold middle_of. rewrite Hca.
    destruct (Z.ltb_spec 0 (co_budget co)); [|lia]. intros cs [K1 K2]. rewrite valued_length in K1. lia.
  Qed.
  Lemma known_exhausted (cs : option (bv * dbl) * middle_state mid (improvement * (nat * S))) w : known i f inv mid (valued f w) (snd cs) ->
    match budget_of mid with Some b => (b <= Z.of_nat (length w))%Z | None => False end ->
    (0 < co_budget co <= Z.of_nat (length w))%Z /\ (co_cache co = false -> co_budget co = Z.of_nat (length w)).
  Proof.
    intros HKn HB.
    assert (BU : (0 < co_budget co)%Z /\ (co_budget co <= Z.of_nat (length w))%Z).
    { rewrite EM, budget_of_middle in HB. destruct (Z.ltb_spec 0 (co_budget co)); [auto|contradiction]. }
    split; [lia|]. intros Hca. pose proof (known_budget cs w HKn Hca (proj1 BU)). lia.
  Qed.
End Known.

Lemma reached_is_best {i f co target t w x} r : numbers i f -> length x = i -> misses target f w -> target = Some t -> dge (f x) t = true ->
  tallies co f (w ++ [x]) r -> rs_value r = Some (f x).
Proof.
  intros N Lx HMi ET HG (_ & _ & TT). destruct TT as (_ & k' & z & B1 & B2 & _); [now destruct w|]. rewrite B2. f_equal.
  assert (Hx : In (x, f x) (valued f (w ++ [x]))) by (rewrite valued_app; apply in_or_app; right; now left).
  destruct (best_record_above _ _ _ _ _ _ B1 Hx) as [Kx|Kx]; [rewrite (N _ Lx) in Kx; discriminate|].
  apply best_record_In in B1. rewrite valued_app in B1. apply in_app_or in B1 as [B1|[B1|[]]]; [|now injection B1 as ->].
  apply in_map_iff in B1 as (z' & [= -> _] & Hz). specialize (HMi t z ET Hz). unfold dge in HMi, HG. rewrite (dle_trans t (f x) (f z) HG Kx) in HMi. discriminate.
Qed.

Theorem restart_program {X} ap co m F factory mid target i n f g (run : nat -> objective -> act (alg X) unit) fin s0 :
  (forall j, adaptive (run j)) -> a_trace s0 = [] ->
  (forall l s1, complete_runs run fin g s0 l s1 -> forall ob, o_provides ob = false ->
     Forall (fun x => length x = i) (a_trace (snd (run (length l) ob (afresh s1)))) /\ length (fst (a_sol (fin (snd (run (length l) ob (afresh s1)))))) = i) ->
  factory (fp_size (f_props F)) = Ok (algorithm_machine run fin s0) ->
  optimizes ap -> ap_restart ap = true -> make_function_controller co F = Ok (mid, target) ->
  map_fits m i n -> kind_known m -> fp_size (f_props F) = i -> total (f_obj F) (f_init F) i f -> finite_values i f g ->
  forall fuel, match program ap co (Ok (Some (m, F))) factory fuel with
               | Some p => restart_ends ap co m i target f g run fin s0 p
               | None => restart_goes_on co target f g run fin s0 fuel
               end.
Proof.
  intros AD T0 SZ HFa HO HR HC HM HK HF HT HV fuel.
  destruct (total_inv _ _ _ _ HT) as (inv & I0 & Hinv).
  assert (N : numbers i f) by (intros x Hx; now rewrite (HV x Hx)).
  assert (EM : mid = middle_of co).
  { unfold make_function_controller in HC. destruct (target_of co (f_props F)); try discriminate. now injection HC as <- _. }
  assert (K0 : known i f inv mid [] (snd (controlled_init mid i (f_init F)))).
  { apply known_init; auto. rewrite EM. unfold middle_of. destruct (Z.ltb_spec 0 (co_budget co)), (co_cache co), (co_cache_budget co); cbn; intros b [= <-]; lia. }
  set (M := restart_machine (algorithm_machine run fin s0) i 0).
  assert (PR : program ap co (Ok (Some (m, F))) factory fuel =
    match play (controlled_obj mid target (f_obj F)) M fuel (ma_begin M (ma_init M)) (controlled_init mid i (f_init F)) with
    | None => None | Some (st, cs, r) => Some (end_of_program (end_of_run ap co m F mid target M st cs r)) end).
  { pose proof (program_run ap co m F factory _ mid target HO HC HFa fuel) as PR. unfold run_by in PR. rewrite HR, HF in PR. exact PR. }
  rewrite PR. clear PR.
  assert (SZ1 : forall l s1, complete_runs run fin g s0 l s1 -> forall ob, o_provides ob = false -> Forall (fun x => length x = i) (a_trace (snd (run (length l) ob (afresh s1))))).
  { intros l s1 H ob P. now apply SZ. }
  assert (RP : restart_play run fin s0 AD g i f inv mid target fuel
    (play (controlled_obj mid target (f_obj F)) M fuel (ma_begin M (ma_init M)) (controlled_init mid i (f_init F)))).
  { destruct (restart_play_spec run fin s0 AD g (f_obj F) i f inv Hinv HV mid target SZ1 fuel (ma_begin M (ma_init M)) (controlled_init mid i (f_init F))) as [H _].
    apply (H [] s0).
    - split; [constructor|]. split; [reflexivity|]. split; [now left|]. split; [reflexivity|]. split; reflexivity.
    - exact K0.
    - intros t x _ []. }
  set (pl := play _ _ _ _ _) in *. clearbody pl.
  assert (LS : forall l s1, complete_runs run fin g s0 l s1 -> forall T x v, In (T, (x, v)) l -> length x = i).
  { intros l s1 H. induction H as [|l s1 s2 H IH E]; [intros ? ? ? []|]. intros T x v Hi. apply in_app_or in Hi as [Hi|[Hi|[]]]; [eauto|].
    destruct (SZ l s1 H (endless g) eq_refl) as [_ L]. rewrite E in L. injection Hi as <- Ex. cbn [snd] in L. now rewrite Ex in L. }
  assert (SL : forall l s1 p, complete_runs run fin g s0 l s1 -> holds i l p -> length (fst p) = i).
  { intros l s1 p H [[-> ->]|(l1 & T & x & v & l2 & -> & -> & _)]; [apply repeat_length|]. apply (LS _ _ H T x v). apply in_or_app. right. now left. }
  destruct RP as [st cs l s1 w r s D K Mi NR|st cs l s1 w s x k D K Mi B|st cs l s1 w s x k t H1 H2 K Mi ET HG Ecs Lx|cs l s1 w H1 K Mi HFu].
  - destruct D as (B1 & B2 & B3 & B4 & B5). pose proof B5 as (_ & _ & _ & _ & HP).
    destruct (steps_wf run (afresh s1) (length l) (AD (length l)) eq_refl g w _ HP) as [W [OW1 OW2]].
    assert (ER : run (length l) (endless g) (afresh s1) = (r, s)).
    { apply (run_steps run (afresh s1) (length l) (AD (length l)) eq_refl g (endless g) w (Leaf r s)); auto. intros y _. reflexivity. }
    rewrite <- W in Mi, K. destruct r as [u|e| |]; [contradiction|..].
    + rewrite (error_spec ap co m F mid target M st cs e) by congruence. now apply (restart_by_exception _ _ _ _ _ _ _ _ _ _ l s1 s).
    + now apply (restart_by_undefined _ _ _ _ _ _ _ _ _ _ l s1 s).
    + apply (run_goes_on _ _ _ _ _ _ _ _ l s1 s); auto. now apply (known_budget co i f inv mid EM cs).
  - destruct D as (B1 & B2 & B3 & B4 & B5). pose proof B5 as (_ & _ & _ & _ & HP).
    destruct (steps_wf run (afresh s1) (length l) (AD (length l)) eq_refl g w _ HP) as [W _].
    assert (ER : run (length l) (stopping g (length (a_trace s)) LastEvaluation) (afresh s1) = (Exc LastEvaluation, s)).
    { rewrite (run_steps run (afresh s1) (length l) (AD (length l)) eq_refl g _ w (Ask s x k)); auto.
      - cbn [interp stopping o_stop]. now rewrite Nat.ltb_irrefl.
      - intros y _. reflexivity.
      - intros c Hc. cbn [stopping o_stop]. rewrite W. destruct (Nat.ltb_spec c (length w)); [reflexivity|lia]. }
    rewrite (end_spec ap co m F mid target i n HC HM HK HF M st cs (Throw LastEvaluation) _ false (concludes_budget M st (fst cs)));
      [|discriminate|exact (SL l s1 (re_solution st) B1 B3)].
    rewrite <- W in Mi, K, B. destruct (known_exhausted co i f inv mid EM cs _ K B) as [BU1 BU2].
    apply (restart_by_budget _ _ _ _ _ _ _ _ _ _ l s1 s); auto; [now apply (known_tallies co i f inv N mid EM)|exact (holds_kept _ _ _ B3)].
  - destruct (steps_wf run (afresh s1) (length l) (AD (length l)) eq_refl g w _ H2) as [W W2].
    assert (AG : forall w k e, agrees g w (stopping g k e)) by (intros ? ? ? y _; reflexivity).
    assert (ER : run (length l) (stopping g (length (a_trace s)) TargetReached) (afresh s1) = (Exc TargetReached, s)).
    { rewrite (run_steps run (afresh s1) (length l) (AD (length l)) eq_refl g _ w (Ask s x k)); auto.
      - cbn [interp stopping o_stop]. now rewrite Nat.ltb_irrefl.
      - intros c Hc. cbn [stopping o_stop]. rewrite W. destruct (Nat.ltb_spec c (length w)); [reflexivity|lia]. }
    assert (EN : a_trace (snd (run (length l) (stopping g (length (a_trace s) + 1) TargetReached) (afresh s1))) = a_trace s ++ [x]).
    { rewrite (run_steps run (afresh s1) (length l) (AD (length l)) eq_refl g _ (w ++ [x]) (k (g x))); auto.
      - rewrite W. apply wf_stop; [apply W2|]. rewrite app_length. cbn [length stopping o_stop]. intros c Hc.
        destruct (Nat.ltb_spec c (length w + 1)); [lia|discriminate].
      - now apply steps_snoc with (s := s).
      - rewrite W, app_length. cbn [length stopping o_stop]. intros c Hc. destruct (Nat.ltb_spec c (length w + 1)); [reflexivity|lia]. }
    rewrite (end_spec ap co m F mid target i n HC HM HK HF M st cs (Throw TargetReached) x true); [|econstructor; exact Ecs|congruence|exact Lx].
    pose proof (known_tallies co i f inv N mid EM cs _ true K) as TT. pose proof (known_budget co i f inv mid EM cs _ K) as WT.
    rewrite <- W in TT, Mi, WT.
    apply (restart_by_target _ _ _ _ _ _ _ _ _ _ l s1 s _ x t); auto. exact (reached_is_best _ N Lx Mi ET HG TT).
  - apply (many_steps _ _ _ _ _ _ _ _ l s1 w); auto. now apply (known_budget co i f inv mid EM cs).
Qed.
