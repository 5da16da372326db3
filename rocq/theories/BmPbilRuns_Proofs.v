(** Boltzmann machine PBIL: runs, bad parameters, and the two kinds of moments. *)

From Coq Require Import QArith Qabs Lqa Permutation.
From Verif Require Import Base BaseLemmas BitVector_Model BitVector_Spec BitVector_Proofs Neighborhood_Model Representation_Spec Map_Spec Algorithm_Model Algorithm_Spec Algorithm_Proofs
  Population_Model Population_Spec Population_Proofs PopAlgorithm_Model PopAlgorithm_Spec PopAlgorithm_Proofs Generation_Proofs
  ProbabilityVector_Model ProbabilityVector_Spec ProbabilityVector_Proofs Mimic_Proofs ItEa_Spec ItEa_Proofs
  WalshMoment_Model WalshMoment_Spec WalshMoment_Proofs Herding_Proofs Frame_Proofs WalshEda_Model WalshEda_Spec Hea_Proofs HeaKinds_Proofs BmPbil_Proofs.
Local Open Scope nat_scope.

Lemma bm_make_Ok k n size : 0 < n -> 0 < size -> exists m, bm_make k n size = Ok m /\ bm_inv k size n m /\ bm_model m = zero_moment k n.
Proof.
  intros N S0. unfold bm_make. destruct (pop_make_wf size n S0 N) as (q & E & W). rewrite (proj2 (Nat.ltb_lt 0 n)) by assumption. rewrite !make_Ok by assumption. cbn [ensureb bind]. rewrite E. cbn [bind].
  eexists. split; [reflexivity|]. split; [|reflexivity]. unfold bm_inv. cbn [bm_pop bm_model bm_state bm_all bm_best bm_worst bm_perm].
  split; [exact W|]. split; [apply zero_shaped|]. split; [intros _ i j Hi Hj; rewrite !zero_mom2; reflexivity|]. auto 10 using zero_shaped, repeat_length.
Qed.

Section Runs.
  Variables (logistic : Q -> Q) (k : kind) (o : objective) (n size : nat) (p : bm_params) (d : bm_draws).
  Variable srt : (nat -> nat -> bool) -> list nat -> list nat.
  Hypothesis LP : forall a b, (a == b)%Q -> (logistic a == logistic b)%Q.
  Hypothesis FAIR : bm_fair n d.
  Hypothesis HSO : sorts srt.

  Lemma bm_start_wp bit gbit (s : alg bmpbil) : bm_inv k size n (a_mem s) -> a_trace s = [] -> length (fst (a_sol s)) = n ->
    wp (bm_init o bit gbit) (fun _ s' => top_of o (a_trace s') (a_sol s') /\ length (fst (a_sol s')) = n /\ length (a_trace s') = 1 /\ bm_inv k size n (a_mem s') /\
        (forall i, i < n -> (mom1 (bm_model (a_mem s')) i == 0)%Q) /\ (forall i j, j < i < n -> (mom2 (bm_model (a_mem s')) i j == 0)%Q) /\ bm_state (a_mem s') = map gbit (seq 0 n))
      (fun e s' => (exists e', e = Some e' /\ o_stop o (length (a_trace s')) = Some e') /\ a_trace s' = []) s.
  Proof.
    intros IN T L. apply bm_init_wp; auto; [|apply IN]. destruct IN as (W & M1 & M2 & R). unfold bm_inv. cbn [bm_pop bm_model bm_state bm_all bm_best bm_worst bm_perm].
    split; [exact W|]. split; [apply zero_shaped|]. split; [intros _ i j Hi Hj; rewrite !zero_mom2; reflexivity|]. exact R.
  Qed.

  Definition bm_at (t : nat) (s : alg bmpbil) : Prop :=
    top_of o (a_trace s) (a_sol s) /\ length (a_trace s) = 1 + size * t /\ length (fst (a_sol s)) = n /\ bm_inv k size n (a_mem s) /\
    (0 < t -> bm_state (a_mem s) = last (a_trace s) []).

  Lemma last_app {A} (l l' : list A) x : l' <> [] -> last (l ++ l') x = last l' x.
  Proof. intros NE. destruct (exists_last NE) as (r & a & ->). rewrite app_assoc, !last_last. reflexivity. Qed.

  Lemma bm_reached_at bit gbit s0 : bm_admissible k size p -> bm_inv k size n (a_mem s0) -> a_trace s0 = [] -> length (fst (a_sol s0)) = n ->
    forall t s, reached (bm_init o bit gbit) (bm_iterate logistic k o n p d srt) s0 t s -> bm_at t s.
  Proof.
    intros ADM IN T L. apply reached_inv_at with (E := fun _ _ => True) (E' := fun _ _ => True).
    - eapply wp_mono; [now apply bm_start_wp| |auto]. cbn beta. intros _ s (A1 & A2 & A3 & A4 & _). unfold bm_at. cbn [put_last a_trace a_sol a_mem].
      split; [assumption|]. split; [lia|]. split; [assumption|]. split; [assumption|]. lia.
    - intros t s (A1 & A2 & A3 & A4 & A5). eapply wp_mono; [apply (bm_iterate_wp logistic k o n size p d srt LP FAIR HSO t s ADM A4 A1)| |auto]. cbn beta.
      intros _ s' (samples & best & other & B1 & B2 & B3 & B4 & B5 & B6 & B7 & B8 & B9 & B10 & B11 & B12). unfold bm_at.
      split; [assumption|]. split; [rewrite B4, app_length, A2, B1; lia|]. split; [auto|]. split; [assumption|]. intros _. rewrite B8, B4. symmetry. apply last_app.
      destruct samples; [|discriminate]. destruct A4 as (W & _). destruct W as (W & _). cbn in B1. lia.
  Qed.

  Lemma bm_run bit gbit num fuel s0 : bm_admissible k size p -> bm_inv k size n (a_mem s0) -> a_trace s0 = [] -> length (fst (a_sol s0)) = n ->
    let '(r, s) := loop (bm_init o bit gbit) (bm_iterate logistic k o n p d srt) num fuel s0 in
    run_top o size r s /\ (a_trace s = [] \/ bm_inv k size n (a_mem s)) /\
    (forall u, r = Ret u -> (bm_inv k size n (a_mem s) /\ exists t, length (a_trace s) = 1 + size * t) /\ (a_last s = true \/ (0 < num)%Z)).
  Proof.
    intros ADM IN T L. assert (S0 : 0 < size) by apply IN.
    apply (run_generic o size (fun s => bm_inv k size n (a_mem s) /\ exists t, length (a_trace s) = 1 + size * t) (fun s => bm_inv k size n (a_mem s))); auto.
    - eapply wp_mono; [now apply bm_start_wp| |].
      + cbn beta. intros _ s (A1 & A2 & A3 & A4 & _). split; [assumption|]. cbn [put_last a_mem a_trace]. split; [auto|]. exists 0. lia.
      + cbn beta. intros e s (A1 & A2). auto.
    - intros s (A1 & _). exact A1.
    - intros t s (A1 & (c & A2)) TO LA. eapply wp_mono; [apply (bm_iterate_wp logistic k o n size p d srt LP FAIR HSO t s ADM A1 TO)| |].
      + cbn beta. intros _ s' (samples & best & other & B1 & B2 & B3 & B4 & B5 & B6 & B7 & B8 & B9 & B10 & B11 & B12). split; [assumption|]. split; [auto|]. exists (c + 1). rewrite B4, app_length, A2, B1. lia.
      + cbn beta. intros e s' (B1 & (e' & -> & B2) & B3 & B4). unfold left_at. auto.
  Qed.

  (** * Bad parameters *)

  Lemma bm_run_up t (s : alg bmpbil) : never_stops o -> bm_inv k size n (a_mem s) -> top_of o (a_trace s) (a_sol s) -> bp_sampling p <> OtherSampling -> (bp_sampling p = Synchronous -> k = Full) ->
    exists s1 samples, bm_iterate logistic k o n p d srt t s = on_mem (bm_learn k p) s1 /\ length samples = size /\ a_trace s1 = a_trace s ++ samples /\
      well_formed size n (bm_pop (a_mem s1)) /\ bm_best (a_mem s1) = bm_best (a_mem s).
  Proof.
    intros NS IN TO NO SF. pose proof IN as (W & M1 & M2 & LS & A1 & A2 & A3 & LPM). pose proof W as (W1 & W2 & W3 & W4 & W5 & W6).
    destruct (bm_sample_all_Ok logistic k n size p d LP FAIR t (a_mem s) IN NO SF) as (bs & perm & E & LB & FB & LP' & SA). unfold bm_iterate.
    set (s1 := put_mem (mk_bm (mk_pop bs (p_values (bm_pop (a_mem s))) (p_perm (bm_pop (a_mem s)))) (bm_model (a_mem s)) (last bs []) (bm_all (a_mem s)) (bm_best (a_mem s)) (bm_worst (a_mem s)) perm) s).
    assert (W' : well_formed size n (bm_pop (a_mem s1))). { unfold s1. cbn [put_mem a_mem bm_pop]. unfold well_formed. cbn. auto 10. }
    assert (E1 : on_mem (bm_sample_all logistic n p d t) s = (Ret tt, s1)). { unfold on_mem. rewrite E. reflexivity. }
    unfold abind at 1. rewrite E1, bind_run.
    pose proof (evaluate_sort_wp bm_pop bm_put ltac:(reflexivity) ltac:(reflexivity) ltac:(intros []; reflexivity) o (d_sort d t) srt (proj2 (proj2 FAIR) t) HSO size n s1 W' TO) as G. apply wp_result in G.
    destruct ((_ <~ eval_pop bm_pop bm_put o ;; _) s1) as [[[]|e| |] s2].
    - destruct G as (G1 & _ & _ & _ & _ & q & G2 & (G3 & _)). exists s2, bs. split; [reflexivity|]. split; [assumption|]. split; [exact G1|]. rewrite G2. auto.
    - destruct G as (_ & (e' & _ & G) & _). rewrite NS in G. discriminate.
    - destruct G.
    - destruct G as (_ & (e' & G & _) & _). discriminate.
  Qed.

  Lemma average_zero m : 0 < n -> shaped k n m -> moment_average k 0 m = UB.
  Proof.
    intros N SH. unfold moment_average, moment_map. pose proof SH as (L & _). rewrite L. destruct n as [|c]; [lia|]. cbn [seq foldM]. rewrite (get1_Ok k (S c)) by (auto; lia). reflexivity.
  Qed.

  Lemma bm_misuse_selection t (s : alg bmpbil) : never_stops o -> bm_inv k size n (a_mem s) -> top_of o (a_trace s) (a_sol s) -> bp_sampling p <> OtherSampling -> (bp_sampling p = Synchronous -> k = Full) ->
    bp_selection p = 0 \/ size < bp_selection p ->
    exists samples s', bm_iterate logistic k o n p d srt t s = (Bad, s') /\ length samples = size /\ a_trace s' = a_trace s ++ samples.
  Proof.
    intros NS IN TO NO SF SEL. destruct (bm_run_up t s NS IN TO NO SF) as (s1 & samples & E & LS & T & W & BE). rewrite E. exists samples. exists s1.
    assert (SB : shaped k n (bm_best (a_mem s1))) by (rewrite BE; apply IN). unfold on_mem, bm_learn. destruct SEL as [Z|LT].
    - rewrite Z. destruct (moment_sum_Ok k n (bm_best (a_mem s1)) (best_bv (bm_pop (a_mem s1))) [] SB) as (m' & E' & S' & _); [cbn; lia|constructor|]. cbn [length] in E'. rewrite E'. cbn [bind].
      rewrite average_zero by (auto; apply W). auto.
    - destruct (best_list size n (bm_pop (a_mem s1)) size W ltac:(lia)) as (L1 & L2 & L3).
      rewrite (moment_sum_UB k n (bm_best (a_mem s1)) _ (fun i => nth i (map fst (map (at_index (bm_pop (a_mem s1))) (firstn size (p_perm (bm_pop (a_mem s1)))))) []) size (bp_selection p) SB L2); auto.
      + intros i Hi. apply (proj1 (Forall_forall _ _) L3), nth_In. lia.
      + intros i Hi. unfold best_bv, best_index. rewrite (proj2 (Nat.ltb_ge _ _)); [reflexivity|]. rewrite (perm_seq_length _ _ (wf_perm W)). lia.
  Qed.

  Lemma bm_misuse_sampling t (s : alg bmpbil) : bm_inv k size n (a_mem s) ->
    (bp_sampling p = OtherSampling -> bm_iterate logistic k o n p d srt t s = (Exc RuntimeError, s)) /\
    (bp_sampling p = Synchronous -> k = Triangular -> 2 <= n -> 0 < bp_cycles p -> bm_iterate logistic k o n p d srt t s = (Bad, s)).
  Proof.
    intros (W & M1 & M2 & LS & A1 & A2 & A3 & LPM). pose proof W as (W1 & W2 & W3 & W4 & W5 & W6).
    assert (G : forall oc, (forall x perm, length x = n -> bm_sample logistic n p d (bm_model (a_mem s)) t 0 (x, perm) = oc) ->
      match oc with Ok _ => True | Throw e => bm_sample_all logistic n p d t (a_mem s) = Throw e | UB => bm_sample_all logistic n p d t (a_mem s) = UB end).
    { intros oc H. unfold bm_sample_all, pop_size. rewrite W3. destruct size as [|c]; [lia|]. cbn [seq foldM]. cbv zeta. rewrite (vget_nth _ 0 []) by lia. cbn [bind].
      rewrite H; [destruct oc; auto|]. assert (X : forall x bit, length x = n -> length (bv_random x bit) = n) by (intros; now apply random_len). destruct (bp_reset p); auto. }
    split.
    - intros E. unfold bm_iterate, abind, on_mem. specialize (G (Throw RuntimeError)). cbn beta iota in G. rewrite G; [reflexivity|]. intros x perm L. unfold bm_sample. now rewrite E.
    - intros E -> N C. unfold bm_iterate, abind, on_mem. specialize (G UB). cbn beta iota in G. rewrite G; [reflexivity|]. intros x perm L. unfold bm_sample, sample_synchronous. rewrite E.
      destruct (bp_cycles p) as [|c]; [lia|]. cbn [seq foldM fst]. rewrite sync_UB by assumption. reflexivity.
  Qed.
End Runs.

(** * The two kinds of moments *)

Lemma energy_same n a b x : same_numbers n a b -> (energy n a x == energy n b x)%Q.
Proof.
  intros (H1 & H2). unfold energy. apply total_ext. intros i Hi. apply in_seq in Hi. rewrite H1 by lia.
  rewrite (total_ext (fun j => mom2 a i j * (sign_at i x * sign_at j x))%Q (fun j => mom2 b i j * (sign_at i x * sign_at j x))%Q); [reflexivity|]. intros j Hj. apply in_seq in Hj. rewrite H2 by lia. reflexivity.
Qed.

Section Same.
  Variables (logistic : Q -> Q) (n : nat) (p : bm_params) (d : bm_draws).
  Hypothesis LP : forall a b, (a == b)%Q -> (logistic a == logistic b)%Q.

  Lemma draw_same a b i u x : same_numbers n a b -> (if Qlt_le_dec u (logistic (gain n a i x)) then true else false) = (if Qlt_le_dec u (logistic (gain n b i x)) then true else false).
  Proof. intros SN. rewrite !qltb_dec. apply qltb_ext, LP. unfold gain. rewrite !(energy_same n a b) by assumption. reflexivity. Qed.

  Lemma fold_left_same {A B} (f g : A -> B -> A) l a : (forall a x, In x l -> f a x = g a x) -> fold_left f l a = fold_left g l a.
  Proof. revert a. induction l as [|x l IH]; intros a H; cbn [fold_left]; [reflexivity|]. rewrite H by now left. apply IH. intros. apply H. now right. Qed.

  Lemma reached_same a b t i x : same_numbers n a b -> bm_reached logistic n p d a t i x = bm_reached logistic n p d b t i x.
  Proof.
    intros SN. unfold bm_reached. destruct (bp_sampling p); [| | |reflexivity]; apply fold_left_same; intros y c _.
    - unfold redrawn. now rewrite (draw_same a b) by assumption.
    - apply fold_left_same. intros z j _. unfold redrawn. now rewrite (draw_same a b) by assumption.
    - unfold redrawn_all. apply map_ext. intros j. now rewrite (draw_same a b) by assumption.
  Qed.

  Lemma bm_samples_same a b t x l l' : same_numbers n a b -> length l = length l' -> bm_samples logistic n p d a t x l -> bm_samples logistic n p d b t x l' -> l = l'.
  Proof.
    intros SN LL H1 H2. apply (nth_ext _ _ [] []); [assumption|]. intros i. induction i as [|i IH]; intros Hi; rewrite H1, H2 by lia; rewrite (reached_same a b) by assumption; [reflexivity|]. rewrite IH by lia. reflexivity.
  Qed.
End Same.

Definition bm_alike (k k' : kind) (n size : nat) (o : objective) (s s' : alg bmpbil) : Prop :=
  a_trace s = a_trace s' /\ a_sol s = a_sol s' /\ a_last s = a_last s' /\ top_of o (a_trace s) (a_sol s) /\ bm_pop (a_mem s) = bm_pop (a_mem s') /\ bm_state (a_mem s) = bm_state (a_mem s') /\
  same_numbers n (bm_model (a_mem s)) (bm_model (a_mem s')) /\ bm_inv k size n (a_mem s) /\ bm_inv k' size n (a_mem s').

Section Kinds.
  Variables (logistic : Q -> Q) (k k' : kind) (o : objective) (n size : nat) (p : bm_params) (d : bm_draws).
  Variable srt : (nat -> nat -> bool) -> list nat -> list nat.
  Hypothesis LP : forall a b, (a == b)%Q -> (logistic a == logistic b)%Q.
  Hypothesis FAIR : bm_fair n d.
  Hypothesis HSO : sorts srt.
  Hypothesis ADM : bm_admissible k size p.
  Hypothesis ADM' : bm_admissible k' size p.

  (** The learning only depends on the population and the numbers of the model. *)
  Lemma learn_alike bs m m' : ranked o size n bs (bm_pop m) -> bm_pop m = bm_pop m' -> bm_inv k size n m -> bm_inv k' size n m' -> same_numbers n (bm_model m) (bm_model m') ->
    exists m1 m1', bm_learn k p m = Ok (tt, m1) /\ bm_learn k' p m' = Ok (tt, m1') /\ bm_pop m1 = bm_pop m /\ bm_pop m1' = bm_pop m /\ bm_state m1 = bm_state m /\ bm_state m1' = bm_state m' /\
      bm_inv k size n m1 /\ bm_inv k' size n m1' /\ same_numbers n (bm_model m1) (bm_model m1').
  Proof.
    intros RK PO IN IN' (SN1 & SN2).
    assert (G : forall k m, bm_admissible k size p -> ranked o size n bs (bm_pop m) -> bm_inv k size n m -> exists m1, bm_learn k p m = Ok (tt, m1) /\ bm_pop m1 = bm_pop m /\ bm_state m1 = bm_state m /\ bm_inv k size n m1 /\
      let best := map (at_index (bm_pop m)) (firstn (bp_selection p) (p_perm (bm_pop m))) in
      let other := if bp_negative p then map (at_index (bm_pop m)) (firstn (bp_selection p) (rev (p_perm (bm_pop m)))) else valued o bs in
      bm_moved k n p best other (bm_model m) (bm_model m1)).
    { clear -HSO. intros k m ADM RK IN. destruct (bm_learn_Ok k o n size p bs m (proj1 ADM) RK IN) as (q & a & w & b & EL & L1 & L2 & L3 & L4 & L5 & L6). eexists. split; [exact EL|]. split; [reflexivity|]. split; [reflexivity|].
      split; [|exact L6]. destruct IN as (J1 & J2 & J3 & J4 & J5 & J6 & J7 & J8). destruct L6 as (N1 & _ & _ & N2). unfold bm_inv. cbn. auto 10. }
    destruct (G k m ADM RK IN) as (m1 & E1 & P1 & S1 & I1 & (Q1 & Q2 & Q3 & _)). destruct (G k' m' ADM' ltac:(now rewrite <- PO) IN') as (m1' & E1' & P1' & S1' & I1' & (Q1' & Q2' & Q3' & _)).
    exists m1, m1'. split; [assumption|]. split; [assumption|]. split; [assumption|]. split; [congruence|]. split; [assumption|]. split; [assumption|]. split; [assumption|]. split; [assumption|].
    rewrite <- PO in *. split; intros.
    - rewrite Q2, Q2', SN1 by assumption. reflexivity.
    - rewrite Q3, Q3', SN2 by assumption. reflexivity.
  Qed.

  Lemma bm_iterate_alike t s s' : bm_alike k k' n size o s s' -> related (bm_alike k k' n size o) (bm_iterate logistic k o n p d srt t s) (bm_iterate logistic k' o n p d srt t s').
  Proof.
    intros (TR & SO & LA & TO & PO & ST & SN & IN & IN'). pose proof TO as TO'. rewrite TR, SO in TO'.
    pose proof IN as (W & M1 & M2 & LS & A1 & A2 & A3 & LPM). pose proof W as (W1 & W2 & W3 & W4 & W5 & W6).
    pose proof ADM as (AD1 & AD2 & AD3). pose proof ADM' as (_ & _ & AD3').
    destruct (bm_sample_all_Ok logistic k n size p d LP FAIR t (a_mem s) IN AD2 AD3) as (bs & perm & E & LB & FB & LP' & SA).
    destruct (bm_sample_all_Ok logistic k' n size p d LP FAIR t (a_mem s') IN' AD2 AD3') as (bs' & perm' & E' & LB' & FB' & LP'' & SA').
    rewrite <- ST in SA'. assert (EB : bs' = bs). { symmetry. apply (bm_samples_same logistic n p d LP (bm_model (a_mem s)) (bm_model (a_mem s')) t (bm_state (a_mem s))); auto. congruence. }
    subst bs'. set (q0 := mk_pop bs (p_values (bm_pop (a_mem s))) (p_perm (bm_pop (a_mem s)))). rewrite <- PO in E'. fold q0 in E, E'.
    assert (WQ : well_formed size n q0). { unfold well_formed, q0. cbn. auto 10. }
    assert (LL : length (last bs []) = n). { destruct (exists_last (l := bs)) as (l & a & ->); [intros ->; cbn in LB; lia|]. rewrite last_last. apply Forall_app in FB as (_ & FB). now inversion FB. }
    unfold bm_iterate. unfold abind at 1. unfold on_mem at 1. rewrite E, bind_run. unfold abind at 3. unfold on_mem at 2. rewrite E', bind_run.
    set (s1 := put_mem _ s). set (s1' := put_mem _ s').
    pose proof (evaluate_sort_wp bm_pop bm_put ltac:(reflexivity) ltac:(reflexivity) ltac:(intros []; reflexivity) o (d_sort d t) srt (proj2 (proj2 FAIR) t) HSO size n s1 WQ TO) as G. apply wp_result in G. revert G.
    assert (PL : forall m, bm_put (bm_pop m) m = m) by (intros []; reflexivity).
    rewrite (framed_generation bm_pop bm_put ltac:(reflexivity) ltac:(reflexivity) PL (d_sort d t) srt o s1), (framed_generation bm_pop bm_put ltac:(reflexivity) ltac:(reflexivity) PL (d_sort d t) srt o s1').
    assert (EV : view bm_pop s1' = view bm_pop s1). { unfold view, s1, s1'. cbn. now rewrite TR, SO, LA. } rewrite EV.
    destruct (generation (d_sort d t) srt o (view bm_pop s1)) as [r v]. cbn [fst snd]. destruct r as [[]|e| |]; intros G.
    2-4: unfold related; cbn [fst snd]; split; [reflexivity|split; [discriminate|split; reflexivity]].
    destruct G as (G1 & G2 & G3 & G4 & _ & q & G5 & RK).
    assert (EQ : a_mem v = q). { exact (f_equal bm_pop G5). } subst q. pose proof RK as (WV & _).
    destruct IN' as (W' & M1' & M2' & LS' & A1' & A2' & A3' & LPM').
    destruct (learn_alike bs (a_mem (back bm_put s1 v)) (a_mem (back bm_put s1' v))) as (m1 & m1' & E1 & E1' & P1 & P1' & S1 & S1' & I1 & I1' & SN').
    { exact RK. } { reflexivity. } { unfold bm_inv. cbn. auto 10. } { unfold bm_inv. cbn. auto 10. } { exact SN. }
    unfold on_mem. rewrite E1, E1'. unfold related. cbn [fst snd]. split; [reflexivity|]. split; [|split; reflexivity]. intros _.
    unfold bm_alike. cbn [put_mem a_trace a_sol a_last a_mem back]. split; [reflexivity|]. split; [reflexivity|]. split; [reflexivity|]. split; [exact G2|]. split; [congruence|]. split; [rewrite S1, S1'; reflexivity|]. auto.
  Qed.

  Lemma bm_init_alike bit gbit s s' : bm_inv k size n (a_mem s) -> bm_inv k' size n (a_mem s') -> bm_pop (a_mem s) = bm_pop (a_mem s') ->
    a_trace s = [] -> a_trace s' = [] -> length (fst (a_sol s)) = n -> a_sol s = a_sol s' -> a_last s = a_last s' ->
    related (bm_alike k k' n size o) (bm_init o bit gbit s) (bm_init o bit gbit s').
  Proof.
    intros SZ SZ' PO T T' L SO LA. pose proof (bm_start_wp k o n size bit gbit s SZ T L) as G. pose proof (bm_start_wp k' o n size bit gbit s' SZ' T' ltac:(congruence)) as G'.
    unfold wp in G, G'. revert G G'. unfold bm_init, random_solution, abind, amodify, aget, evaluate. cbn [put_sol a_trace a_sol]. rewrite T, T', SO. cbn [length].
    destruct (o_stop o 0); intros G G'; unfold related; cbn [fst snd]; [split; [reflexivity|split; [discriminate|cbn; now rewrite ?T, ?T', ?SO]]|].
    split; [reflexivity|]. split; [|cbn; now rewrite ?T, ?T', ?SO]. intros _. destruct G as (G1 & G2 & G3 & G4 & G5 & G6 & G7), G' as (G1' & G2' & G3' & G4' & G5' & G6' & G7').
    unfold bm_alike. cbn [put_mem put_sol put_trace a_trace a_sol a_last a_mem bm_pop bm_model bm_state] in *. rewrite T, T', LA. split; [reflexivity|]. split; [reflexivity|]. split; [reflexivity|].
    split; [rewrite T in G1; exact G1|]. split; [assumption|]. split; [congruence|]. split; [split; intros; [rewrite G5, G5' by assumption|rewrite G6, G6' by assumption]; reflexivity|]. split; assumption.
  Qed.

  Lemma bm_runs_alike bit gbit num fuel s s' : bm_inv k size n (a_mem s) -> bm_inv k' size n (a_mem s') -> bm_pop (a_mem s) = bm_pop (a_mem s') ->
    a_trace s = [] -> a_trace s' = [] -> length (fst (a_sol s)) = n -> a_sol s = a_sol s' -> a_last s = a_last s' ->
    related (bm_alike k k' n size o) (loop (bm_init o bit gbit) (bm_iterate logistic k o n p d srt) num fuel s) (loop (bm_init o bit gbit) (bm_iterate logistic k' o n p d srt) num fuel s').
  Proof.
    intros. apply loop_related; [| |now apply bm_init_alike|intros; now apply bm_iterate_alike].
    - intros a b R. destruct R as (R1 & R2 & R3 & _). auto.
    - intros a b l (R1 & R2 & R3 & R4). unfold bm_alike. cbn [put_last a_trace a_sol a_last a_mem]. auto.
  Qed.
End Kinds.
