(** Proofs about the Boltzmann machine PBIL. *)

From Coq Require Import QArith Qabs Lqa Permutation.
From Verif Require Import Base BaseLemmas BitVector_Model BitVector_Spec BitVector_Proofs Neighborhood_Model Representation_Spec Map_Spec Algorithm_Model Algorithm_Spec Algorithm_Proofs
  Population_Model Population_Spec Population_Proofs PopAlgorithm_Model PopAlgorithm_Spec PopAlgorithm_Proofs Generation_Proofs
  ProbabilityVector_Model ProbabilityVector_Spec ProbabilityVector_Proofs Mimic_Proofs ItEa_Spec ItEa_Proofs
  WalshMoment_Model WalshMoment_Spec WalshMoment_Proofs Herding_Proofs Frame_Proofs WalshEda_Model WalshEda_Spec Hea_Proofs HeaKinds_Proofs.
Local Open Scope nat_scope.

Lemma foldM_fold_left {St B A} (f : St -> A -> outcome St) (g : B -> A -> B) (V : B -> St -> Prop) l b s :
  V b s -> (forall b s a, In a l -> V b s -> exists s', f s a = Ok s' /\ V (g b a) s') -> exists s', foldM f l s = Ok s' /\ V (fold_left g l b) s'.
Proof.
  revert b s. induction l as [|a l IH]; intros b s HV H; cbn [foldM fold_left]; [eauto|]. destruct (H b s a (or_introl eq_refl) HV) as (s' & E & HV'). rewrite E. cbn [bind]. apply IH; auto. intros. apply H; auto. now right.
Qed.

Lemma qltb_dec u v : (if Qlt_le_dec u v then true else false) = qltb u v.
Proof. destruct (Qlt_le_dec u v) as [H|H]; symmetry; [now apply qltb_lt|now apply qltb_ge]. Qed.

(** The worst individuals *)
Lemma worst_list size n p c : well_formed size n p -> c <= size ->
  let l := map fst (map (at_index p) (firstn c (rev (p_perm p)))) in
  length l = c /\ (forall i, i < c -> worst_bv p i = Ok (nth i l [])) /\ Forall (fun x => length x = n) l.
Proof.
  intros W Hc l. pose proof (perm_seq_length _ _ (wf_perm W)) as LP. pose proof W as (W1 & W2 & W3 & W4 & W5 & W6).
  assert (LL : length l = c) by (unfold l; rewrite !map_length, firstn_length, rev_length; lia). split; [assumption|]. split.
  - intros i Hi. unfold worst_bv, pop_size. rewrite W3, (proj2 (Nat.ltb_lt i size)) by lia. cbn [assertb bind]. rewrite (best_bv_Ok W) by lia. f_equal. unfold l. rewrite map_map. rewrite (nth_map_lt _ _ i [] 0) by (rewrite firstn_length, rev_length; lia).
    cbn [at_index fst]. rewrite nth_firstn_lt by assumption. rewrite rev_nth by lia. rewrite LP. now replace (size - S i) with (size - 1 - i) by lia.
  - apply Forall_forall. intros x Hx. unfold l in Hx. rewrite map_map in Hx. apply in_map_iff in Hx as (j & <- & Hj). cbn [at_index fst]. apply (proj1 (Forall_forall _ _) W4), nth_In.
    assert (J : In j (seq 0 size)). { apply (Permutation_in _ (Permutation_sym W6)). apply in_rev. rewrite <- (firstn_skipn c (rev (p_perm p))). apply in_or_app; now left. } apply in_seq in J. lia.
Qed.

Lemma ranked_worst o size n bs p c : ranked o size n bs p -> c <= size -> worst_of c (map (at_index p) (firstn c (rev (p_perm p)))) (valued o bs).
Proof.
  intros (W & PB & _ & BO) Hc. pose proof (perm_seq_length _ _ (wf_perm W)) as LP.
  assert (LB : length bs = size) by (rewrite <- PB; apply W).
  destruct (BO size (Nat.le_refl _)) as (_ & r0 & P0 & _). rewrite firstn_all2 in P0 by lia. fold (valued o bs) in *.
  assert (R0 : r0 = []). { apply length_zero_iff_nil. apply Permutation_length in P0. rewrite app_length in P0. unfold valued in P0. rewrite !map_length in P0. lia. } subst r0. rewrite app_nil_r in P0.
  destruct (BO (size - c) ltac:(lia)) as (_ & rest & P1 & H). fold (valued o bs) in *.
  split; [rewrite map_length, firstn_length, rev_length; lia|].
  assert (RV : firstn c (rev (p_perm p)) = rev (skipn (size - c) (p_perm p))). { rewrite firstn_rev. f_equal. f_equal. lia. }
  rewrite RV. exists (map (at_index p) (firstn (size - c) (p_perm p))). split.
  - rewrite P0. rewrite <- (firstn_skipn (size - c) (p_perm p)) at 1. rewrite map_app. rewrite Permutation_app_comm. apply Permutation_app_tail. apply Permutation_map. apply Permutation_rev.
  - assert (PR : Permutation rest (map (at_index p) (skipn (size - c) (p_perm p)))).
    { apply (Permutation_app_inv_l (map (at_index p) (firstn (size - c) (p_perm p)))). rewrite <- P1, P0, <- map_app, firstn_skipn. reflexivity. }
    intros a b Ha Hb. apply H; [assumption|]. apply (Permutation_in _ (Permutation_sym PR)). apply in_map_iff in Ha as (j & <- & Hj). apply in_map, in_rev. exact Hj.
Qed.

Definition bm_inv (k : kind) (size n : nat) (m : bmpbil) : Prop :=
  well_formed size n (bm_pop m) /\ shaped k n (bm_model m) /\ (k = Full -> symmetric n (bm_model m)) /\ length (bm_state m) = n /\
  shaped k n (bm_all m) /\ shaped k n (bm_best m) /\ shaped k n (bm_worst m) /\ length (bm_perm m) = n.

Section BmPbil.
  Variables (logistic : Q -> Q) (k : kind) (o : objective) (n size : nat) (p : bm_params) (d : bm_draws).
  Variable srt : (nat -> nat -> bool) -> list nat -> list nat.
  Hypothesis LP : forall a b, (a == b)%Q -> (logistic a == logistic b)%Q.
  Hypothesis FAIR : bm_fair n d.
  Hypothesis HSO : sorts srt.

  Lemma redrawn_Ok m i u x : shaped k n m -> length x = n -> i < n -> gibbs_update logistic m i u x = Ok (redrawn logistic n m x i u) /\ length (redrawn logistic n m x i u) = n.
  Proof. intros SH L Hi. rewrite (gibbs_update_Ok logistic LP k n) by assumption. unfold redrawn. rewrite qltb_dec. split; [reflexivity|]. unfold with_bit. now rewrite length_upd. Qed.

  Lemma redrawn_all_Ok m u x : shaped Full n m -> symmetric n m -> length x = n -> gibbs_update_sync logistic n m u x = Ok (redrawn_all logistic n m x u) /\ length (redrawn_all logistic n m x u) = n.
  Proof.
    intros SH SY L. destruct (sync_Ok logistic LP n m u x SH SY L) as (y & E & LY & HY). assert (LR : length (redrawn_all logistic n m x u) = n) by (unfold redrawn_all; now rewrite map_length, seq_length).
    rewrite E. split; [|assumption]. f_equal. apply (nth_ext _ _ false false); [congruence|]. intros i Hi. rewrite HY by lia. unfold redrawn_all. rewrite (nth_map_lt _ _ i false 0) by (rewrite seq_length; lia). rewrite seq_nth by lia. now rewrite qltb_dec.
  Qed.

  Lemma bm_sample_Ok m t i x perm : shaped k n m -> (k = Full -> symmetric n m) -> length x = n -> length perm = n -> bp_sampling p <> OtherSampling -> (bp_sampling p = Synchronous -> k = Full) ->
    exists perm', bm_sample logistic n p d m t i (x, perm) = Ok (bm_reached logistic n p d m t i x, perm') /\ length perm' = n /\ length (bm_reached logistic n p d m t i x) = n.
  Proof.
    intros SH SY LX LPM NO SF. unfold bm_sample, bm_reached. destruct FAIR as (F1 & F2 & F3). set (V := fun (y : list bool) (s : bv * list nat) => fst s = y /\ length y = n /\ length (snd s) = n).
    assert (D : forall r y, (exists s', r = Ok s' /\ V y s') -> exists perm', r = Ok (y, perm') /\ length perm' = n /\ length y = n).
    { intros r y ([z q] & -> & V1 & V2 & V3). cbn [fst snd] in *. subst z. eauto. }
    destruct (bp_sampling p) eqn:ES; [| | |congruence]; apply D.
    - apply (foldM_fold_left _ _ V); [unfold V; auto|]. intros y [z q] c _ (V1 & V2 & V3). cbn [fst snd] in *. subst z. destruct (redrawn_Ok m (d_choose d t i c) (d_uniform d t i c 0) y SH V2 (F1 _ _ _)) as (E & L). rewrite E. cbn [bind].
      eexists. split; [reflexivity|]. unfold V. cbn [fst snd]. auto.
    - apply (foldM_fold_left _ _ V); [unfold V; auto|]. intros y [z q] c _ (V1 & V2 & V3). cbn [fst snd] in *. subst z. cbv zeta.
      rewrite V3. unfold identity. pose proof (F2 t i c (seq 0 n)) as PM. pose proof (Permutation_length PM) as PL. rewrite seq_length in PL. rewrite <- PL.
      match goal with |- context [foldM ?f (seq 0 n) y] => destruct (foldM_fold_left f (fun x j => redrawn logistic n m x (nth j (d_shuffle d t i c (seq 0 n)) 0) (d_uniform d t i c j)) (fun a b => a = b /\ length b = n) (seq 0 n) y y) as (y' & E & EY & LY) end; [auto| |].
      + intros b ? j Hj (<- & LB). apply in_seq in Hj. rewrite (vget_nth _ j 0) by lia. cbn [bind].
        assert (IN : nth j (d_shuffle d t i c (seq 0 n)) 0 < n). { assert (I : In (nth j (d_shuffle d t i c (seq 0 n)) 0) (seq 0 n)) by (apply (Permutation_in _ (Permutation_sym PM)), nth_In; lia). apply in_seq in I. lia. }
        destruct (redrawn_Ok m _ (d_uniform d t i c j) b SH LB IN) as (E & L). rewrite E. eauto.
      + rewrite E. cbn [bind]. eexists. split; [reflexivity|]. unfold V. cbn [fst snd]. subst y'. auto.
    - specialize (SF eq_refl). subst k. specialize (SY eq_refl). apply (foldM_fold_left _ _ V); [unfold V; auto|]. intros y [z q] c _ (V1 & V2 & V3). cbn [fst snd] in *. subst z.
      destruct (redrawn_all_Ok m (d_uniform d t i c) y SH SY V2) as (E & L). rewrite E. cbn [bind]. eexists. split; [reflexivity|]. unfold V. cbn [fst snd]. auto.
  Qed.

  Lemma random_len x bit : length x = n -> bv_random x bit = map bit (seq 0 n) /\ length (bv_random x bit) = n.
  Proof. intros L. unfold bv_random. rewrite L. split; [reflexivity|]. now rewrite map_length, seq_length. Qed.

  Lemma bm_sample_all_Ok t m : bm_inv k size n m -> bp_sampling p <> OtherSampling -> (bp_sampling p = Synchronous -> k = Full) ->
    exists bs perm, bm_sample_all logistic n p d t m = Ok (tt, mk_bm (mk_pop bs (p_values (bm_pop m)) (p_perm (bm_pop m))) (bm_model m) (last bs []) (bm_all m) (bm_best m) (bm_worst m) perm) /\
      length bs = size /\ Forall (fun x => length x = n) bs /\ length perm = n /\ bm_samples logistic n p d (bm_model m) t (bm_state m) bs.
  Proof.
    intros (W & M1 & M2 & LS & A1 & A2 & A3 & LPM) NO SF. pose proof W as (W1 & W2 & W3 & W4 & W5 & W6). unfold bm_sample_all, pop_size. rewrite W3. cbv zeta. set (x0 := match bp_reset p with EachIteration => _ | _ => _ end).
    assert (X0 : x0 = bm_start n p d t (bm_state m) /\ length x0 = n). { unfold x0, bm_start. destruct (bp_reset p); auto. now apply random_len. }
    match goal with |- context [foldM ?f (seq 0 size) ?st] =>
      destruct (foldM_upto (fun c (s : list bv * (bv * list nat)) => length (fst s) = size /\ Forall (fun x => length x = n) (fst s) /\ length (fst (snd s)) = n /\ length (snd (snd s)) = n /\
        fst (snd s) = match c with 0 => x0 | S j => nth j (fst s) [] end /\
        forall i, i < c -> nth i (fst s) [] = bm_reached logistic n p d (bm_model m) t i (bm_restart n p d t i (match i with 0 => bm_start n p d t (bm_state m) | S j => nth j (fst s) [] end))) f size st) as ([bs [x perm]] & E & I1 & I2 & I3 & I4 & I5 & I6) end.
    - cbn [fst snd]. split; [assumption|]. split; [assumption|]. split; [apply X0|]. split; [assumption|]. split; [reflexivity|]. intros i Hi. lia.
    - intros c [bs [x perm]] Hc (I1 & I2 & I3 & I4 & I5 & I6). cbn [fst snd] in *. rewrite (vget_nth bs c []) by lia. cbn [bind].
      set (x1 := match bp_reset p with EachVector => _ | _ => _ end). assert (X1 : x1 = bm_restart n p d t c x /\ length x1 = n). { unfold x1, bm_restart. destruct (bp_reset p); auto. now apply random_len. }
      destruct (bm_sample_Ok (bm_model m) t c x1 perm M1 M2 (proj2 X1) I4 NO SF) as (perm' & E & LP' & LR). rewrite E. cbn [bind]. rewrite vset_Ok by lia. cbn [bind]. eexists. split; [reflexivity|]. cbn [fst snd].
      split; [now rewrite length_upd|]. split; [apply Forall_upd; auto|]. split; [assumption|]. split; [assumption|]. split; [now rewrite nth_upd_eq by lia|].
      intros i Hi. destruct (Nat.eq_dec i c) as [->|NE].
      + rewrite nth_upd_eq by lia. rewrite (proj1 X1). f_equal. f_equal. rewrite I5. destruct c as [|j]; [apply X0|]. now rewrite nth_upd_neq by lia.
      + rewrite nth_upd_neq by lia. rewrite I6 by lia. destruct i as [|j]; [reflexivity|]. now rewrite (nth_upd_neq bs c j) by lia.
    - cbn [fst snd] in *. rewrite E. cbn [bind]. exists bs, perm. split.
      + do 3 f_equal. rewrite I5. destruct size as [|j]; [lia|]. clear -I1. destruct (exists_last (l := bs)) as (l & a & ->); [intros ->; discriminate|]. rewrite app_length in I1. cbn in I1. rewrite last_last, app_nth2 by lia. replace (j - length l) with 0 by lia. reflexivity.
      + split; [assumption|]. split; [assumption|]. split; [assumption|]. intros i Hi. apply I6. lia.
  Qed.

  Lemma bm_learn_Ok bs m : 0 < bp_selection p <= size -> ranked o size n bs (bm_pop m) -> bm_inv k size n m ->
    let best := map (at_index (bm_pop m)) (firstn (bp_selection p) (p_perm (bm_pop m))) in
    let other := if bp_negative p then map (at_index (bm_pop m)) (firstn (bp_selection p) (rev (p_perm (bm_pop m)))) else valued o bs in
    exists q a w b, bm_learn k p m = Ok (tt, mk_bm (bm_pop m) q (bm_state m) a b w (bm_perm m)) /\ shaped k n a /\ shaped k n b /\ shaped k n w /\
      best_of (bp_selection p) best (valued o bs) /\ (if bp_negative p then worst_of (bp_selection p) other (valued o bs) else other = valued o bs) /\
      bm_moved k n p best other (bm_model m) q.
  Proof.
    intros HS RK (W & M1 & M2 & LS & A1 & A2 & A3 & LPM). pose proof RK as (_ & PB & _ & BO). pose proof W as (W1 & W2 & W3 & W4 & W5 & W6). intros best other. unfold bm_learn.
    destruct (best_list size n (bm_pop m) (bp_selection p) W ltac:(lia)) as (L1 & L2 & L3). fold best in L1, L2, L3.
    destruct (sum_average_Ok k n (bm_best m) (best_bv (bm_pop m)) (map fst best) A2) as (b & EB & (B1 & B2 & B3 & B4)); auto; [now rewrite L1|destruct (map fst best); [cbn in L1; lia|discriminate]|].
    rewrite L1 in EB.
    assert (R1 : forall (B : Type) (f : moment -> outcome B), (s <- moment_sum (bm_best m) (best_bv (bm_pop m)) (bp_selection p) ;; s <- moment_average k (bp_selection p) s ;; f s) = f b).
    { intros B f. revert EB. destruct (moment_sum _ _ _); cbn [bind]; intros EB; try discriminate. now rewrite EB. }
    rewrite R1. clear R1 EB. specialize (BO (bp_selection p) ltac:(lia)).
    unfold other. clear other. destruct (bp_negative p).
    - set (worst := map (at_index (bm_pop m)) (firstn (bp_selection p) (rev (p_perm (bm_pop m))))).
      destruct (worst_list size n (bm_pop m) (bp_selection p) W ltac:(lia)) as (K1 & K2 & K3). fold worst in K1, K2, K3.
      destruct (sum_average_Ok k n (bm_worst m) (worst_bv (bm_pop m)) (map fst worst) A3) as (w & EW & (C1 & C2 & C3 & C4)); auto; [now rewrite K1|destruct (map fst worst); [cbn in K1; lia|discriminate]|].
      rewrite K1 in EW.
      assert (R1 : forall (B : Type) (f : moment -> outcome B), (s <- moment_sum (bm_worst m) (worst_bv (bm_pop m)) (bp_selection p) ;; s <- moment_average k (bp_selection p) s ;; f s) = f w).
      { intros B f. revert EW. destruct (moment_sum _ _ _); cbn [bind]; intros EW; try discriminate. now rewrite EW. }
      rewrite R1. clear R1 EW. destruct (update2_Ok k n b w (bp_rate p) (bm_model m) M1 B1 C1) as (q & EQ & (Q1 & Q2 & Q3 & Q4)). rewrite EQ. cbn [bind].
      exists q, (bm_all m), w, b. split; [reflexivity|]. split; [assumption|]. split; [assumption|]. split; [assumption|]. split; [exact BO|]. split; [now apply (ranked_worst o size n)|].
      split; [assumption|]. split; [|split; [|assumption]]; intros; unfold mean1, mean2; [rewrite Q2, B2, C2 by assumption|rewrite Q3, B3, C3 by assumption]; rewrite !mean_fst; reflexivity.
    - set (all := map fst (valued o bs)). assert (EA : all = bs). { unfold all, valued. rewrite map_map. apply map_id. }
      assert (SZ : size = length all) by (rewrite EA, <- PB; lia).
      destruct (sum_average_Ok k n (bm_all m) (vget (p_bvs (bm_pop m))) all A1) as (a & E & (C1 & C2 & C3 & C4)).
      { intros i Hi. rewrite EA, <- PB. apply vget_nth. lia. } { rewrite EA, <- PB. assumption. } { destruct all; [cbn in SZ; lia|discriminate]. }
      rewrite <- SZ in E. unfold pop_size. rewrite W3.
      assert (R1 : forall (B : Type) (f : moment -> outcome B), (s <- moment_sum (bm_all m) (vget (p_bvs (bm_pop m))) size ;; s <- moment_average k size s ;; f s) = f a).
      { intros B f. revert E. destruct (moment_sum _ _ _); cbn [bind]; intros E; try discriminate. now rewrite E. }
      rewrite R1. clear R1 E. destruct (update2_Ok k n b a (bp_rate p) (bm_model m) M1 B1 C1) as (q & EQ & (Q1 & Q2 & Q3 & Q4)). rewrite EQ. cbn [bind].
      exists q, a, (bm_worst m), b. split; [reflexivity|]. split; [assumption|]. split; [assumption|]. split; [assumption|]. split; [exact BO|]. split; [reflexivity|].
      split; [assumption|]. split; [|split; [|assumption]]; intros; unfold mean1, mean2; [rewrite Q2, B2, C2 by assumption|rewrite Q3, B3, C3 by assumption]; unfold all; rewrite !mean_fst; reflexivity.
  Qed.

  Lemma bm_iterate_wp t (s : alg bmpbil) : bm_admissible k size p -> bm_inv k size n (a_mem s) -> top_of o (a_trace s) (a_sol s) ->
    wp (bm_iterate logistic k o n p d srt t)
      (fun _ s' => exists samples best other, length samples = size /\ Forall (fun x => length x = n) samples /\ bm_samples logistic n p d (bm_model (a_mem s)) t (bm_state (a_mem s)) samples /\
         a_trace s' = a_trace s ++ samples /\ top_of o (a_trace s') (a_sol s') /\ a_last s' = a_last s /\ (length (fst (a_sol s)) = n -> length (fst (a_sol s')) = n) /\
         bm_state (a_mem s') = last samples [] /\
         best_of (bp_selection p) best (valued o samples) /\ (if bp_negative p then worst_of (bp_selection p) other (valued o samples) else other = valued o samples) /\
         bm_moved k n p best other (bm_model (a_mem s)) (bm_model (a_mem s')) /\ bm_inv k size n (a_mem s'))
      (fun e s' => lagging o size s' /\ (exists e', e = Some e' /\ o_stop o (length (a_trace s')) = Some e') /\ bm_model (a_mem s') = bm_model (a_mem s) /\ bm_inv k size n (a_mem s')) s.
  Proof.
    intros (AD1 & AD2 & AD3) IN TO. pose proof IN as (W & M1 & M2 & LS & A1 & A2 & A3 & LPM). pose proof W as (W1 & W2 & W3 & W4 & W5 & W6). unfold bm_iterate.
    destruct (bm_sample_all_Ok t (a_mem s) IN AD2 AD3) as (bs & perm & E & LB & FB & LP' & SA).
    apply wp_bind. eapply wp_on_mem; [exact E|]. set (s1 := put_mem _ s).
    assert (W' : well_formed size n (bm_pop (a_mem s1))). { unfold s1. cbn [put_mem a_mem bm_pop]. unfold well_formed. cbn. auto 10. }
    assert (LL : length (last bs []) = n). { destruct (exists_last (l := bs)) as (l & a & ->); [intros ->; cbn in LB; lia|]. rewrite last_last. apply Forall_app in FB as (_ & FB). now inversion FB. }
    eapply (generation_then bm_pop bm_put o (d_sort d t) srt size n s1); auto; try reflexivity; try (intros []; reflexivity).
    { apply FAIR. }
    - cbn [s1 put_mem a_mem bm_pop p_bvs a_trace a_last]. intros s2 TR TO2 LA LSL q EM2 RK.
      assert (I2 : bm_inv k size n (a_mem s2)). { rewrite EM2. unfold bm_inv. cbn. destruct RK as (WQ & _). auto 10. }
      set (best := map (at_index (bm_pop (a_mem s2))) (firstn (bp_selection p) (p_perm (bm_pop (a_mem s2))))).
      set (other := if bp_negative p then map (at_index (bm_pop (a_mem s2))) (firstn (bp_selection p) (rev (p_perm (bm_pop (a_mem s2))))) else valued o bs).
      destruct (bm_learn_Ok bs (a_mem s2) AD1) as (q' & a & w & b & EL & L1 & L2 & L3 & L4 & L5 & L6); [rewrite EM2; exact RK|exact I2|].
      eapply wp_on_mem; [exact EL|]. cbn [put_mem a_mem a_trace a_sol a_last bm_model bm_state].
      exists bs, best, other. fold best other in L4, L5, L6. clearbody best other. rewrite EM2 in L6. cbn [bm_put bm_model] in L6.
      split; [assumption|]. split; [assumption|]. split; [assumption|]. split; [assumption|]. split; [assumption|]. split; [assumption|]. split; [assumption|].
      split; [rewrite EM2; reflexivity|]. split; [assumption|]. split; [assumption|]. split; [assumption|].
      destruct I2 as (J1 & J2 & J3 & J4 & J5 & J6 & J7 & J8). destruct L6 as (N1 & _ & _ & N2). unfold bm_inv. cbn. auto 10.
    - cbn [s1 put_mem a_mem bm_pop p_bvs a_trace a_sol]. intros e s2 LG ST _ q EM2 WQ PB. split; [assumption|]. split; [eauto|]. rewrite EM2. split; [reflexivity|].
      unfold bm_inv. cbn. auto 12.
  Qed.

  Lemma bm_init_wp bit gbit (s : alg bmpbil) : bm_inv k size n (mk_bm (bm_pop (a_mem s)) (zero_moment k n) (bm_state (a_mem s)) (bm_all (a_mem s)) (bm_best (a_mem s)) (bm_worst (a_mem s)) (bm_perm (a_mem s))) ->
    shaped k n (bm_model (a_mem s)) -> a_trace s = [] -> length (fst (a_sol s)) = n ->
    wp (bm_init o bit gbit) (fun _ s' => top_of o (a_trace s') (a_sol s') /\ length (fst (a_sol s')) = n /\ length (a_trace s') = 1 /\ bm_inv k size n (a_mem s') /\
        (forall i, i < n -> (mom1 (bm_model (a_mem s')) i == 0)%Q) /\ (forall i j, j < i < n -> (mom2 (bm_model (a_mem s')) i j == 0)%Q) /\ bm_state (a_mem s') = map gbit (seq 0 n))
      (fun e s' => (exists e', e = Some e' /\ o_stop o (length (a_trace s')) = Some e') /\ a_trace s' = []) s.
  Proof.
    intros (W & _ & _ & LS & A1 & A2 & A3 & LPM) M1 T L. cbn [bm_pop bm_model bm_state bm_all bm_best bm_worst bm_perm] in *. unfold bm_init. apply wp_bind. eapply wp_mono; [apply (random_solution_wp o n bit s T L)| |auto].
    cbn beta. intros _ s1 (R1 & R2 & R3 & R4). apply wp_modify. rewrite R4. cbn [put_mem a_mem a_trace a_sol bm_model bm_state]. destruct (random_len (bm_state (a_mem s)) gbit LS) as (E & LR).
    split; [assumption|]. split; [assumption|]. split; [assumption|]. split; [|split; [|split]]; try (intros; rewrite ?init_mom1, ?init_mom2; reflexivity); [|assumption].
    unfold bm_inv. cbn [bm_pop bm_model bm_state bm_all bm_best bm_worst bm_perm]. split; [assumption|]. split; [now apply init_shaped|]. split; [intros _ i j Hi Hj; rewrite !init_mom2; reflexivity|]. auto 10.
  Qed.
End BmPbil.
