(** Proofs about the herding evolutionary algorithm. *)

From Coq Require Import QArith Qabs Lqa Permutation.
From Verif Require Import Base BaseLemmas BitVector_Model BitVector_Spec BitVector_Proofs Representation_Spec Map_Spec Algorithm_Model Algorithm_Spec Algorithm_Proofs
  Population_Model Population_Spec Population_Proofs PopAlgorithm_Model PopAlgorithm_Spec PopAlgorithm_Proofs Generation_Proofs
  ProbabilityVector_Model ProbabilityVector_Spec ProbabilityVector_Proofs EvolutionaryAlgorithm_Model Mimic_Proofs ItEa_Spec ItEa_Proofs
  WalshMoment_Model WalshMoment_Spec WalshMoment_Proofs Herding_Proofs Frame_Proofs WalshEda_Model WalshEda_Spec.
Local Open Scope nat_scope.

(** A generation followed by something *)
Lemma generation_then {X} (get : X -> population) (put : population -> X -> X) o sh srt size n (s : alg X) k (P : unit -> alg X -> Prop) (F : option exn -> alg X -> Prop) :
  (forall p m, get (put p m) = p) -> (forall p q m, put p (put q m) = put p m) -> (forall m, put (get m) m = m) -> shuffles sh -> sorts srt ->
  well_formed size n (get (a_mem s)) -> top_of o (a_trace s) (a_sol s) ->
  let bs := p_bvs (get (a_mem s)) in
  (forall s', a_trace s' = a_trace s ++ bs -> top_of o (a_trace s') (a_sol s') -> a_last s' = a_last s -> 
     (length (fst (a_sol s)) = n -> length (fst (a_sol s')) = n) -> forall p, a_mem s' = put p (a_mem s) -> ranked o size n bs p -> wp k P F s') ->
  (forall e s', lagging o size s' -> o_stop o (length (a_trace s')) = Some e -> a_sol s' = a_sol s ->
     forall p, a_mem s' = put p (a_mem s) -> well_formed size n p -> p_bvs p = bs -> F (Some e) s') ->
  wp (_ <~ eval_pop get put o ;; _ <~ sort_pop get put sh srt ;; _ <~ update_with_best get ;; k) P F s.
Proof.
  intros GP PP PG HSH HSO W TO bs HA HB.
  pose proof (evaluate_sort_wp get put GP PP PG o sh srt HSH HSO size n s W TO) as G. cbn zeta in G. fold bs in G. revert G. unfold wp, abind.
  destruct (eval_pop get put o s) as [[[]|e| |] s2].
  2,4: intros (G1 & (e' & E & G2) & G3 & p & G4 & G5 & G6); try discriminate; injection E as <-; now apply (HB e s2 G1 G2 G3 p).
  2:{ intros []. }
  destruct (sort_pop get put sh srt s2) as [[[]|e| |] s3].
  2,4: intros (G1 & (e' & E & G2) & G3 & p & G4 & G5 & G6); try discriminate; injection E as <-; now apply (HB e s3 G1 G2 G3 p).
  2:{ intros []. }
  destruct (update_with_best get s3) as [[[]|e| |] s4].
  2,4: intros (G1 & (e' & E & G2) & G3 & p & G4 & G5 & G6); try discriminate; injection E as <-; now apply (HB e s4 G1 G2 G3 p).
  2:{ intros []. }
  intros (G1 & G2 & G3 & G4 & _ & p & G5 & G6). exact (HA s4 G1 G2 G3 G4 p G5 G6).
Qed.

(** * Moments of selected individuals *)

Lemma foldM_seq_list {St A} (f : St -> A -> outcome St) (get : nat -> outcome A) l d : (forall i, i < length l -> get i = Ok (nth i l d)) ->
  forall s, foldM (fun s i => a <- get i ;; f s a) (seq 0 (length l)) s = foldM f l s.
Proof.
  assert (G : forall l a, (forall i, i < length l -> get (a + i) = Ok (nth i l d)) -> forall s, foldM (fun s i => x <- get i ;; f s x) (seq a (length l)) s = foldM f l s).
  { clear l. induction l as [|x l IH]; intros a H s; cbn [length seq foldM]; [reflexivity|]. pose proof (H 0 ltac:(cbn; lia)) as H0. rewrite Nat.add_0_r in H0. cbn [nth] in H0. rewrite H0. cbn [bind].
    destruct (f s x); cbn [bind]; auto. apply IH. intros i Hi. specialize (H (S i) ltac:(cbn; lia)). cbn [nth] in H. now replace (S a + i) with (a + S i) by lia. }
  intros H s. now apply G.
Qed.

Lemma moment_sum_Ok k n m bvs l : shaped k n m -> (forall i, i < length l -> bvs i = Ok (nth i l [])) -> Forall (fun x => length x = n) l ->
  exists m', moment_sum m bvs (length l) = Ok m' /\ shaped k n m' /\
    (forall i, i < n -> (mom1 m' i == total (sign_at i) l)%Q) /\ (forall i j, j < i < n -> (mom2 m' i j == total (fun x => sign_at i x * sign_at j x) l)%Q).
Proof.
  intros SH HB F. unfold moment_sum. rewrite (foldM_seq_list moment_add bvs l []) by assumption.
  destruct (add_all_Ok k n l (moment_init m) (init_shaped k n m SH) F) as (m' & E & S & A1 & A2). exists m'. split; [assumption|]. split; [assumption|]. split.
  - intros i Hi. rewrite A1 by assumption. rewrite init_mom1. lra.
  - intros i j Hi. rewrite A2 by assumption. rewrite init_mom2. lra.
Qed.

Lemma total_pm {A} (f : A -> Q) l : (forall x, (f x == 1)%Q \/ (f x == -1)%Q) -> in_interval (- inject_Z (Z.of_nat (length l))) (inject_Z (Z.of_nat (length l))) (total f l).
Proof.
  intros PM. unfold in_interval. induction l as [|a l IH]; [rewrite total_nil; cbn [length]; change (inject_Z (Z.of_nat 0)) with 0%Q; lra|].
  rewrite total_cons. cbn [length]. replace (Z.of_nat (S (length l))) with (Z.of_nat (length l) + 1)%Z by lia.
  rewrite inject_Z_plus. change (inject_Z 1) with 1%Q. destruct (PM a); lra.
Qed.
Lemma sign_pm i x : (sign_at i x == 1)%Q \/ (sign_at i x == -1)%Q.
Proof. unfold sign_at. destruct (nth i x false); cbn [sign]; [now right|now left]. Qed.
Lemma sign2_pm i j x : (sign_at i x * sign_at j x == 1)%Q \/ (sign_at i x * sign_at j x == -1)%Q.
Proof. unfold sign_at. destruct (nth i x false), (nth j x false); cbn [sign]; auto; try (now left); now right. Qed.

Lemma sum_average_Ok k n m bvs l : shaped k n m -> (forall i, i < length l -> bvs i = Ok (nth i l [])) -> Forall (fun x => length x = n) l -> l <> [] ->
  exists m', (s <- moment_sum m bvs (length l) ;; moment_average k (length l) s) = Ok m' /\
    holds k n m' (fun i => mean (sign_at i) l) (fun i j => mean (fun x => sign_at i x * sign_at j x)%Q l).
Proof.
  intros SH HB F NE. destruct (moment_sum_Ok k n m bvs l SH HB F) as (s & E & S & A1 & A2). rewrite E. cbn [bind].
  destruct (average_Ok k n s (length l) S) as (m' & E' & (H1 & H2 & H3 & H4)).
  - destruct l; [congruence|cbn; lia].
  - split; intros; unfold in_interval; rewrite ?A1, ?A2 by assumption; apply total_pm; auto using sign_pm, sign2_pm.
  - exists m'. split; [assumption|]. split; [assumption|]. split; [|split; [|assumption]]; intros; unfold mean; [rewrite H2, A1 by assumption|rewrite H3, A2 by assumption]; reflexivity.
Qed.

Lemma mean_fst (f : list bool -> Q) (l : list (list bool * Z)) : mean f (map fst l) = mean (fun y => f (fst y)) l.
Proof. unfold mean. now rewrite total_map, map_length. Qed.

Lemma mean_unit {A} (f : A -> Q) l : (forall x, (f x == 1)%Q \/ (f x == -1)%Q) -> in_interval (-1) 1 (mean f l).
Proof.
  intros PM. pose proof (total_pm f l PM) as B. unfold in_interval, mean in *. destruct l as [|a l]; [cbn; split; discriminate|].
  assert (P : (0 < inject_Z (Z.of_nat (length (a :: l))))%Q). { change 0%Q with (inject_Z 0). rewrite <- Zlt_Qlt. cbn [length]. lia. }
  split; [apply Qle_shift_div_l; lra|apply Qle_shift_div_r; lra].
Qed.

(** The best individuals as a list of vectors *)
Lemma best_list size n p c : well_formed size n p -> c <= size ->
  let l := map fst (map (at_index p) (firstn c (p_perm p))) in
  length l = c /\ (forall i, i < c -> best_bv p i = Ok (nth i l [])) /\ Forall (fun x => length x = n) l.
Proof.
  intros W Hc l. pose proof (perm_seq_length _ _ (wf_perm W)) as LP. pose proof W as (W1 & W2 & W3 & W4 & W5 & W6).
  assert (LL : length l = c) by (unfold l; rewrite !map_length, firstn_length; lia). split; [assumption|]. split.
  - intros i Hi. rewrite (best_bv_Ok W) by lia. f_equal. unfold l. rewrite map_map. rewrite (nth_map_lt _ _ i [] 0) by (rewrite firstn_length; lia). cbn [at_index fst]. now rewrite nth_firstn_lt.
  - apply Forall_forall. intros x Hx. unfold l in Hx. rewrite map_map in Hx. apply in_map_iff in Hx as (j & <- & Hj). cbn [at_index fst]. apply (proj1 (Forall_forall _ _) W4), nth_In.
    assert (J : In j (seq 0 size)). { apply (Permutation_in _ (Permutation_sym W6)). rewrite <- (firstn_skipn c (p_perm p)). apply in_or_app; now left. } apply in_seq in J. lia.
Qed.

(** * Learning *)

Lemma he_learn_Ok k n size p m : he_admissible size p -> well_formed size n (he_pop m) -> shaped k n (he_target m) -> shaped k n (he_selected m) ->
  all_entries (in_interval (-1) 1) n (he_target m) ->
  exists t s, he_learn k p m = Ok (tt, mk_hea (he_pop m) t s (he_herding m)) /\ shaped k n s /\ all_entries (in_interval (-1) 1) n t /\
    he_target_moved k n p (map (at_index (he_pop m)) (firstn (hp_selection p) (p_perm (he_pop m)))) (he_target m) t.
Proof.
  intros (A1 & A2 & A3) W ST SS AE. unfold he_learn. set (kept := map (at_index (he_pop m)) _).
  destruct (best_list size n (he_pop m) (hp_selection p) W A1) as (L1 & L2 & L3). fold kept in L1, L2, L3.
  assert (G : exists s, (s <- moment_sum (he_selected m) (best_bv (he_pop m)) (hp_selection p) ;; (if 1 <? hp_selection p then moment_average k (hp_selection p) s else Ok s)) = Ok s /\
    shaped k n s /\ (forall i, i < n -> (mom1 s i == mean1 kept i)%Q) /\ (forall i j, j < i < n -> (mom2 s i j == mean2 kept i j)%Q)).
  { destruct (Nat.ltb_spec 1 (hp_selection p)).
    - rewrite <- L1. destruct (sum_average_Ok k n (he_selected m) (best_bv (he_pop m)) (map fst kept) SS) as (s & E & (H1 & H2 & H3 & H4)); auto.
      + now rewrite L1.
      + destruct (map fst kept); [cbn in L1; lia|discriminate].
      + exists s. split; [assumption|]. split; [assumption|]. unfold mean1, mean2. split; intros; [rewrite H2 by assumption|rewrite H3 by assumption]; rewrite mean_fst; reflexivity.
    - rewrite <- L1. destruct (moment_sum_Ok k n (he_selected m) (best_bv (he_pop m)) (map fst kept) SS) as (s & E & S & H2 & H3); auto; [now rewrite L1|].
      rewrite E. cbn [bind]. exists s. split; [reflexivity|]. split; [assumption|].
      assert (D : forall q, (q == q / inject_Z (Z.of_nat (length kept)))%Q \/ length kept = 0).
      { intros q. rewrite map_length in L1. destruct (hp_selection p) as [|[|c]] eqn:EC; [now right| |lia]. left. rewrite L1. change (inject_Z (Z.of_nat 1)) with 1%Q. field. }
      unfold mean1, mean2, mean. split.
      + intros i Hi. rewrite H2 by assumption. rewrite total_map. destruct (D (total (fun y => sign_at i (fst y)) kept)) as [E'|E']; [exact E'|]. destruct kept; [reflexivity|discriminate].
      + intros i j Hi. rewrite H3 by assumption. rewrite total_map. destruct (D (total (fun y => sign_at i (fst y) * sign_at j (fst y))%Q kept)) as [E'|E']; [exact E'|]. destruct kept; [reflexivity|discriminate]. }
  destruct G as (s & E & S & M1 & M2).
  assert (E' : forall (B : Type) (f : moment -> outcome B), (s <- moment_sum (he_selected m) (best_bv (he_pop m)) (hp_selection p) ;;
    s <- (if 1 <? hp_selection p then moment_average k (hp_selection p) s else Ok s) ;; f s) = f s).
  { intros B f. revert E. destruct (moment_sum _ _ _); cbn [bind]; intros E; try discriminate. now rewrite E. }
  rewrite E'. clear E E'.
  destruct (update_Ok k n s (hp_rate p) (he_target m) ST S AE) as (t & ET & (T1 & T2 & T3 & T4) & TU).
  { split; intros; unfold in_interval; [rewrite M1 by assumption; apply mean_unit; intros; apply sign_pm|rewrite M2 by assumption; apply mean_unit; intros; apply sign2_pm]. }
  { assumption. }
  rewrite ET. cbn [bind].
  assert (V1 : forall i, i < n -> (mom1 t i == (1 - hp_rate p) * mom1 (he_target m) i + hp_rate p * mean1 kept i)%Q). { intros i Hi. rewrite T2, M1 by assumption. ring. }
  assert (V2 : forall i j, j < i < n -> (mom2 t i j == (1 - hp_rate p) * mom2 (he_target m) i j + hp_rate p * mean2 kept i j)%Q). { intros i j Hi. rewrite T3, M2 by assumption. ring. }
  unfold he_target_moved, he_moved. destruct (hp_bound p).
  - specialize (A3 eq_refl). destruct (bound_Ok k n (hp_margin p) t T1 A3) as (t' & EB & B1 & B2 & B3 & B4 & B5). rewrite EB. cbn [bind].
    exists t', s. split; [reflexivity|]. split; [assumption|]. split.
    + destruct B5 as (B5 & B6). split; intros; [specialize (B5 i H)|specialize (B6 i j H)]; unfold in_interval in *; lra.
    + split; [assumption|]. split; [assumption|]. split; intros; (eapply clamped_ext; [|first [apply B3|apply B4]; assumption]); auto.
  - exists t, s. split; [reflexivity|]. split; [assumption|]. split; [assumption|]. split; [assumption|]. split; [assumption|]. auto.
Qed.

(** * Sampling *)

Lemma he_samples_Ok k n p (shb : nat -> nat -> list nat -> list nat) t target past : (hp_random p = true -> forall i, shuffles (shb t i)) -> shaped k n target ->
  forall size bs h, length bs = size -> Forall (fun x => length x = n) bs -> herding_state k n past h ->
  exists bs' h', foldM (fun s i =>
        let '(bs, h) := s in
        b <- vget bs i ;;
        '(b, h) <- herding_sample k (hp_random p) (shb t i) target b h ;;
        bs <- vset bs i b ;;
        Ok (bs, h)) (seq 0 size) (bs, h) = Ok (bs', h') /\ length bs' = size /\ Forall (fun x => length x = n) bs' /\
    herding_state k n (past ++ bs') h' /\ he_samples n p (shb t) target past bs'.
Proof.
  intros HS ST size bs h LB FB HH.
  match goal with |- exists bs' h', foldM ?f _ _ = _ /\ _ =>
    destruct (foldM_upto (fun c s => length (fst s) = size /\ Forall (fun x => length x = n) (fst s) /\ herding_state k n (past ++ firstn c (fst s)) (snd s) /\
      forall i, i < c -> herded n target (past ++ firstn i (fst s)) (bit_order (hp_random p) (shb t i) n) (nth i (fst s) [])) f size (bs, h)) as ([bs' h'] & E & I1 & I2 & I3 & I4) end.
  - cbn [fst snd firstn]. rewrite app_nil_r. split; [assumption|]. split; [assumption|]. split; [assumption|]. intros i Hi. lia.
  - intros c [bs1 h1] Hc (I1 & I2 & I3 & I4). cbn [fst snd] in *. rewrite (vget_nth bs1 c []) by lia. cbn [bind].
    destruct (sample_Ok k n (hp_random p) (shb t c) target _ (nth c bs1 []) h1 ltac:(auto) ST I3 (Forall_nth_len I2 c ltac:(lia))) as (y & h2 & E & S2 & HE & _).
    rewrite E. cbn [bind]. rewrite vset_Ok by lia. cbn [bind]. eexists. split; [reflexivity|]. cbn [fst snd]. pose proof HE as (LY & _).
    assert (UP : forall (l : list bv) j c a, j <= c -> firstn j (upd l c a) = firstn j l). { induction l as [|z l IHl]; intros [|j] [|c'] a Hj; cbn; auto; try lia. rewrite IHl by lia. reflexivity. }
    split; [now rewrite length_upd|]. split; [apply Forall_upd; auto|]. split.
    + rewrite <- Nat.add_1_r, (firstn_S_nth c _ []) by (rewrite length_upd; lia). rewrite UP, nth_upd_eq, app_assoc by lia. exact S2.
    + intros i Hi. rewrite UP by lia. destruct (Nat.eq_dec i c) as [->|NE]; [rewrite nth_upd_eq by lia; exact HE|rewrite nth_upd_neq by lia; apply I4; lia].
  - cbn [fst snd] in *. exists bs', h'. split; [exact E|]. split; [assumption|]. split; [assumption|]. rewrite firstn_all2 in I3 by lia. split; [assumption|].
    intros i Hi. apply I4. lia.
Qed.

(** * Iterations *)

Definition he_inv (k : kind) (size n : nat) (past : list (list bool)) (m : hea) : Prop :=
  well_formed size n (he_pop m) /\ shaped k n (he_target m) /\ (k = Full -> symmetric n (he_target m)) /\ shaped k n (he_selected m) /\
  all_entries (in_interval (-1) 1) n (he_target m) /\ herding_state k n past (he_herding m).

Section Hea.
  Variables (k : kind) (o : objective) (n size : nat) (p : he_params) (shb : nat -> nat -> list nat -> list nat) (shs : nat -> list nat -> list nat)
    (srt : (nat -> nat -> bool) -> list nat -> list nat).
  Hypothesis HB : hp_random p = true -> forall t i, shuffles (shb t i).
  Hypothesis HSH : forall t, shuffles (shs t).
  Hypothesis HSO : sorts srt.
  Hypothesis ADM : he_admissible size p.

  Lemma reset_state t past h : herding_state k n past h ->
    herding_state k n (if (0 <? hp_period p) && (t mod hp_period p =? 0) then [] else past) (he_reset p t h).
  Proof.
    intros H. unfold he_reset. destruct (0 <? hp_period p); [|exact H]. destruct (t mod hp_period p =? 0); [|exact H]. cbn [andb].
    destruct H as (H1 & H2 & H3 & _). now apply init_state.
  Qed.

  Lemma he_iterate_wp t past (s : alg hea) : he_inv k size n past (a_mem s) -> top_of o (a_trace s) (a_sol s) ->
    let past' := if (0 <? hp_period p) && (t mod hp_period p =? 0) then [] else past in
    wp (he_iterate k o p shb shs srt t)
      (fun _ s' => exists samples kept, length samples = size /\ Forall (fun x => length x = n) samples /\ he_samples n p (shb t) (he_target (a_mem s)) past' samples /\
         a_trace s' = a_trace s ++ samples /\ top_of o (a_trace s') (a_sol s') /\ a_last s' = a_last s /\ (length (fst (a_sol s)) = n -> length (fst (a_sol s')) = n) /\
         best_of (hp_selection p) kept (valued o samples) /\
         he_target_moved k n p kept (he_target (a_mem s)) (he_target (a_mem s')) /\ he_inv k size n (past' ++ samples) (a_mem s'))
      (fun e s' => lagging o size s' /\ (exists e', e = Some e' /\ o_stop o (length (a_trace s')) = Some e') /\ he_target (a_mem s') = he_target (a_mem s) /\
         exists past, he_inv k size n past (a_mem s')) s.
  Proof.
    intros IN TO past'. pose proof IN as (W & T1 & T2 & T3 & T4 & HH). pose proof W as (W1 & W2 & W3 & W4 & W5 & W6). unfold he_iterate.
    destruct (he_samples_Ok k n p shb t (he_target (a_mem s)) past') with (size := size) (bs := p_bvs (he_pop (a_mem s))) (h := he_reset p t (he_herding (a_mem s)))
      as (bs & h & E & LB & FB & HH' & SA); auto.
    { now apply reset_state. }
    apply wp_bind. eapply wp_on_mem. { unfold he_sample, pop_size. rewrite W3, E. cbn [bind]. reflexivity. }
    set (s1 := put_mem _ s).
    assert (W' : well_formed size n (he_pop (a_mem s1))). { unfold s1. cbn [put_mem a_mem he_pop]. unfold well_formed. cbn. auto 10. }
    eapply (generation_then he_pop he_put o (shs t) srt size n s1); auto; try reflexivity; try (intros [? ? ? ?]; reflexivity).
    - cbn [s1 put_mem a_mem he_pop p_bvs a_trace a_last]. intros s2 TR TO2 LA LS q M2 (WQ & PB & PV & BO).
      destruct (he_learn_Ok k n size p (a_mem s2) ADM) as (tg & sel & EL & L1 & L2 & L3).
      { rewrite M2. exact WQ. } { rewrite M2. exact T1. } { rewrite M2. exact T3. } { rewrite M2. exact T4. }
      eapply wp_on_mem; [exact EL|]. cbn [put_mem a_mem a_trace a_sol a_last he_target].
      exists bs, (map (at_index (he_pop (a_mem s2))) (firstn (hp_selection p) (p_perm (he_pop (a_mem s2))))).
      split; [assumption|]. split; [assumption|]. split; [exact SA|]. split; [exact TR|]. split; [exact TO2|]. split; [exact LA|]. split; [exact LS|].
      split; [rewrite M2; cbn [he_put he_pop]; apply BO; apply ADM|].
      rewrite M2 in L3. rewrite M2. cbn [he_put he_pop he_target] in *. split; [exact L3|].
      unfold he_inv. cbn [he_pop he_target he_selected he_herding]. destruct L3 as (M1 & M3 & _). auto 10.
    - cbn [s1 put_mem a_mem he_pop p_bvs a_trace a_sol]. intros e s2 LG ST _ q M2 WQ PB. split; [assumption|]. split; [eauto|]. rewrite M2. split; [reflexivity|].
      exists (past' ++ bs). unfold he_inv. cbn. auto 10.
  Qed.


  (** The state before the initialization *)
  Definition he_sized (m : hea) : Prop :=
    well_formed size n (he_pop m) /\ shaped k n (he_target m) /\ shaped k n (he_selected m) /\
    shaped k n (h_delta (he_herding m)) /\ shaped k n (h_count (he_herding m)) /\ length (h_perm (he_herding m)) = n.

  Lemma inv_sized past m : he_inv k size n past m -> he_sized m.
  Proof. intros (W & T1 & T2 & T3 & T4 & (H1 & H2 & H3 & _)). unfold he_sized. auto 10. Qed.

  Lemma he_init_wp bit (s : alg hea) : he_sized (a_mem s) -> a_trace s = [] -> length (fst (a_sol s)) = n ->
    wp (he_init o bit) (fun _ s' => top_of o (a_trace s') (a_sol s') /\ length (fst (a_sol s')) = n /\ length (a_trace s') = 1 /\ he_inv k size n [] (a_mem s') /\
        (forall i, i < n -> (mom1 (he_target (a_mem s')) i == 0)%Q) /\ (forall i j, j < i < n -> (mom2 (he_target (a_mem s')) i j == 0)%Q))
      (fun e s' => (exists e', e = Some e' /\ o_stop o (length (a_trace s')) = Some e') /\ a_trace s' = []) s.
  Proof.
    intros (W & T1 & T2 & H1 & H2 & H3) T L. unfold he_init. apply wp_bind. eapply wp_mono; [apply (random_solution_wp o n bit s T L)| |auto].
    cbn beta. intros _ s1 (R1 & R2 & R3 & R4). apply wp_modify. rewrite R4. cbn [put_mem a_mem a_trace a_sol he_target he_pop he_selected he_herding].
    split; [assumption|]. split; [assumption|]. split; [assumption|]. split; [|split; intros; rewrite ?init_mom1, ?init_mom2; reflexivity].
    unfold he_inv. cbn [he_target he_pop he_selected he_herding]. split; [assumption|]. split; [now apply init_shaped|]. split; [intros _ i j Hi Hj; rewrite !init_mom2; reflexivity|].
    split; [assumption|]. split; [split; intros; unfold in_interval; rewrite ?init_mom1, ?init_mom2; lra|]. now apply init_state.
  Qed.

  (** Invariant of the iterations *)
  Definition he_at (t : nat) (s : alg hea) : Prop :=
    top_of o (a_trace s) (a_sol s) /\ length (a_trace s) = 1 + size * t /\ length (fst (a_sol s)) = n /\
    exists past, he_inv k size n past (a_mem s) /\ (if (0 <? hp_period p) && (t mod hp_period p =? 0) then [] else past) = he_past size p t (a_trace s).

  Lemma epoch_le t : he_epoch p t <= t.
  Proof. unfold he_epoch. destruct (hp_period p); [lia|]. apply Nat.mul_div_le. lia. Qed.

  Lemma epoch_next t : if (0 <? hp_period p) && ((t + 1) mod hp_period p =? 0) then he_epoch p (t + 1) = t + 1 else he_epoch p (t + 1) = he_epoch p t.
  Proof.
    unfold he_epoch. destruct (hp_period p) as [|q]; [reflexivity|]. cbn [Nat.ltb Nat.leb andb]. pose proof (Nat.div_mod (t + 1) (S q) ltac:(lia)) as D. pose proof (Nat.mod_upper_bound (t + 1) (S q) ltac:(lia)) as B.
    destruct (Nat.eqb_spec ((t + 1) mod S q) 0) as [E|NE]; [lia|]. f_equal. apply (Nat.div_unique t (S q) _ ((t + 1) mod S q - 1)); lia.
  Qed.

  Lemma past_next t trace samples : length trace = 1 + size * t -> length samples = size ->
    (if (0 <? hp_period p) && ((t + 1) mod hp_period p =? 0) then [] else he_past size p t trace ++ samples) = he_past size p (t + 1) (trace ++ samples).
  Proof.
    intros LT LS. unfold he_past. pose proof (epoch_next t) as E. destruct (_ && _)%bool.
    - rewrite E. symmetry. apply skipn_all2. rewrite app_length. lia.
    - rewrite E. pose proof (epoch_le t). rewrite skipn_app. replace (1 + size * he_epoch p t - length trace) with 0; [reflexivity|]. assert (size * he_epoch p t <= size * t) by (apply Nat.mul_le_mono_l; assumption). lia.
  Qed.

  Lemma he_reached bit s0 : he_sized (a_mem s0) -> a_trace s0 = [] -> length (fst (a_sol s0)) = n ->
    forall t s, reached (he_init o bit) (he_iterate k o p shb shs srt) s0 t s -> he_at t s.
  Proof.
    intros SZ T L. apply reached_inv_at with (E := fun _ _ => True) (E' := fun _ _ => True).
    - eapply wp_mono; [now apply he_init_wp| |auto]. cbn beta. intros _ s (A1 & A2 & A3 & A4 & _). unfold he_at. cbn [put_last a_trace a_sol a_mem].
      split; [assumption|]. split; [lia|]. split; [assumption|]. exists []. split; [assumption|]. unfold he_past.
      assert (E : he_epoch p 0 = 0). { pose proof (epoch_le 0). lia. } rewrite E, Nat.mul_0_r. destruct (a_trace s) as [|x [|y l]]; try discriminate. now destruct (_ && _)%bool.
    - intros t s (A1 & A2 & A3 & past & A4 & A5). eapply wp_mono; [apply (he_iterate_wp t past s A4 A1)| |auto]. cbn beta.
      intros _ s' (samples & kept & B1 & B2 & B3 & B4 & B5 & B6 & B7 & B8 & B9 & B10). rewrite A5 in *. unfold he_at.
      split; [assumption|]. split; [rewrite B4, app_length, A2, B1; lia|]. split; [auto|]. eexists. split; [exact B10|]. rewrite B4. now apply past_next.
  Qed.

  Lemma he_run bit num fuel s0 : 0 < size -> he_sized (a_mem s0) -> a_trace s0 = [] -> length (fst (a_sol s0)) = n ->
    let '(r, s) := loop (he_init o bit) (he_iterate k o p shb shs srt) num fuel s0 in
    run_top o size r s /\ (a_trace s = [] \/ exists past, he_inv k size n past (a_mem s)) /\
    (forall u, r = Ret u -> ((exists past, he_inv k size n past (a_mem s)) /\ exists t, length (a_trace s) = 1 + size * t) /\ (a_last s = true \/ (0 < num)%Z)).
  Proof.
    intros S0 SZ T L.
    apply (run_generic o size (fun s => (exists past, he_inv k size n past (a_mem s)) /\ exists t, length (a_trace s) = 1 + size * t) (fun s => exists past, he_inv k size n past (a_mem s))); auto.
    - eapply wp_mono; [now apply he_init_wp| |].
      + cbn beta. intros _ s (A1 & A2 & A3 & A4 & _). split; [assumption|]. cbn [put_last a_mem a_trace]. split; [eauto|]. exists 0. lia.
      + cbn beta. intros e s (A1 & A2). auto.
    - intros s (A1 & _). exact A1.
    - intros t s ((past & A1) & (c & A2)) TO LA. eapply wp_mono; [apply (he_iterate_wp t past s A1 TO)| |].
      + cbn beta. intros _ s' (samples & kept & B1 & B2 & B3 & B4 & B5 & B6 & B7 & B8 & B9 & B10). split; [assumption|]. split; [eauto|]. exists (c + 1). rewrite B4, app_length, A2, B1. lia.
      + cbn beta. intros e s' (B1 & (e' & -> & B2) & B3 & B4). unfold left_at. auto.
  Qed.
End Hea.

(** * Construction *)
Lemma he_make_Ok k n size garbage : 0 < n -> 0 < size -> exists m, he_make k n size garbage = Ok m /\ he_sized k n size m.
Proof.
  intros N S0. unfold he_make, herding_make. destruct (pop_make_wf size n S0 N) as (q & E & W). rewrite (proj2 (Nat.ltb_lt 0 n)) by assumption. rewrite !make_Ok by assumption. cbn [ensureb bind]. rewrite E. cbn [bind].
  eexists. split; [reflexivity|]. unfold he_sized. cbn [he_pop he_target he_selected he_herding h_delta h_count h_perm].
  split; [exact W|]. auto 10 using zero_shaped, repeat_length.
Qed.
