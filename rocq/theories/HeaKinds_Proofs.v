(** Herding evolutionary algorithm: bad parameters, and the two kinds of moments. *)

From Coq Require Import QArith Qabs Lqa Permutation.
From Verif Require Import Base BaseLemmas BitVector_Model BitVector_Spec BitVector_Proofs Representation_Spec Map_Spec Algorithm_Model Algorithm_Spec Algorithm_Proofs
  Population_Model Population_Spec Population_Proofs PopAlgorithm_Model PopAlgorithm_Spec PopAlgorithm_Proofs Generation_Proofs
  ProbabilityVector_Model ProbabilityVector_Spec ProbabilityVector_Proofs EvolutionaryAlgorithm_Model Mimic_Proofs ItEa_Spec ItEa_Proofs
  WalshMoment_Model WalshMoment_Spec WalshMoment_Proofs Herding_Proofs Properties_WalshMoment Frame_Proofs WalshEda_Model WalshEda_Spec Hea_Proofs.
Local Open Scope nat_scope.

Lemma bind_run {St A B C D} (m1 : act St A) (m2 : act St B) (m3 : act St C) (k : act St D) s : (_ <~ m1 ;; _ <~ m2 ;; _ <~ m3 ;; k) s =
  let '(r, s') := (_ <~ m1 ;; _ <~ m2 ;; m3) s in match r with Ret _ => k s' | Exc e => (Exc e, s') | Bad => (Bad, s') | Pending => (Pending, s') end.
Proof.
  unfold abind. destruct (m1 s) as [[x1|e1| |] s1]; try reflexivity. destruct (m2 s1) as [[x2|e2| |] s2]; try reflexivity.
Qed.

Lemma foldM_UB {St A} (f : St -> A -> outcome St) (I : St -> Prop) l a r s : (forall s x, In x l -> I s -> exists s', f s x = Ok s' /\ I s') -> (forall s, I s -> f s a = UB) -> I s ->
  foldM f (l ++ a :: r) s = UB.
Proof.
  revert s. induction l as [|x l IH]; intros s H1 H2 HI; cbn [app foldM].
  - rewrite H2 by assumption. reflexivity.
  - destruct (H1 s x (or_introl eq_refl) HI) as (s' & -> & HI'). cbn [bind]. apply IH; auto. intros s1 y Hy. apply H1. now right.
Qed.

(** Too many individuals in a sum *)
Lemma moment_sum_UB k n m bvs (f : nat -> list bool) size count : shaped k n m -> (forall i, i < size -> bvs i = Ok (f i)) -> (forall i, i < size -> length (f i) = n) -> (forall i, size <= i -> bvs i = UB) ->
  size < count -> moment_sum m bvs count = UB.
Proof.
  intros SH HB HL HU LT. unfold moment_sum. replace (seq 0 count) with (seq 0 size ++ size :: seq (S size) (count - S size)).
  - apply (foldM_UB _ (shaped k n)).
    + intros s x Hx S. apply in_seq in Hx. rewrite HB by lia. cbn [bind]. destruct (add_Ok k n s (f x) S ltac:(apply HL; lia)) as (m' & E & S' & _). exists m'. auto.
    + intros s S. rewrite HU by lia. reflexivity.
    + now apply init_shaped.
  - replace count with (size + S (count - S size)) at 2 by lia. rewrite seq_app. cbn [seq Nat.add]. reflexivity.
Qed.

Section Hea.
  Variables (k : kind) (o : objective) (n size : nat) (p : he_params) (shb : nat -> nat -> list nat -> list nat) (shs : nat -> list nat -> list nat)
    (srt : (nat -> nat -> bool) -> list nat -> list nat).
  Hypothesis HB : hp_random p = true -> forall t i, shuffles (shb t i).
  Hypothesis HSH : forall t, shuffles (shs t).
  Hypothesis HSO : sorts srt.

  (** An iteration up to the learning *)
  Lemma he_run_up t past (s : alg hea) : never_stops o -> he_inv k size n past (a_mem s) -> top_of o (a_trace s) (a_sol s) ->
    exists s1 samples, he_iterate k o p shb shs srt t s = on_mem (he_learn k p) s1 /\ length samples = size /\ a_trace s1 = a_trace s ++ samples /\
      well_formed size n (he_pop (a_mem s1)) /\ he_target (a_mem s1) = he_target (a_mem s) /\ he_selected (a_mem s1) = he_selected (a_mem s).
  Proof.
    intros NS IN TO. pose proof IN as (W & T1 & T2 & T3 & T4 & HH). pose proof W as (W1 & W2 & W3 & W4 & W5 & W6). unfold he_iterate.
    destruct (he_samples_Ok k n p shb t (he_target (a_mem s)) (if (0 <? hp_period p) && (t mod hp_period p =? 0) then [] else past)) with (size := size) (bs := p_bvs (he_pop (a_mem s))) (h := he_reset p t (he_herding (a_mem s)))
      as (bs & h & E & LB & FB & HH' & SA); auto.
    { apply (reset_state k n p); assumption. }
    set (s1 := put_mem (mk_hea (mk_pop bs (p_values (he_pop (a_mem s))) (p_perm (he_pop (a_mem s)))) (he_target (a_mem s)) (he_selected (a_mem s)) h) s).
    assert (W' : well_formed size n (he_pop (a_mem s1))). { unfold s1. cbn [put_mem a_mem he_pop]. unfold well_formed. cbn. auto 10. }
    assert (E1 : on_mem (he_sample k p shb t) s = (Ret tt, s1)). { unfold on_mem, he_sample, pop_size. rewrite W3, E. reflexivity. }
    unfold abind at 1. rewrite E1, bind_run.
    pose proof (evaluate_sort_wp he_pop he_put ltac:(reflexivity) ltac:(reflexivity) ltac:(intros []; reflexivity) o (shs t) srt (HSH t) HSO size n s1 W' TO) as G. apply wp_result in G.
    destruct ((_ <~ eval_pop he_pop he_put o ;; _) s1) as [[[]|e| |] s2].
    - destruct G as (G1 & _ & _ & _ & _ & q & G2 & (G3 & _)). exists s2, bs. split; [reflexivity|]. split; [assumption|]. split; [exact G1|]. rewrite G2. auto.
    - destruct G as (_ & (e' & _ & G) & _). rewrite NS in G. discriminate.
    - destruct G.
    - destruct G as (_ & (e' & G & _) & _). discriminate.
  Qed.

  Lemma he_misuse_selection t past (s : alg hea) : never_stops o -> he_inv k size n past (a_mem s) -> top_of o (a_trace s) (a_sol s) -> size < hp_selection p ->
    exists samples s', he_iterate k o p shb shs srt t s = (Bad, s') /\ length samples = size /\ a_trace s' = a_trace s ++ samples.
  Proof.
    intros NS IN TO LT. destruct (he_run_up t past s NS IN TO) as (s1 & samples & E & LS & T & W & _ & SE). rewrite E. exists samples. exists s1.
    unfold on_mem, he_learn. pose proof IN as (_ & _ & _ & SS & _ & _). rewrite <- SE in SS.
    destruct (best_list size n (he_pop (a_mem s1)) size W ltac:(lia)) as (L1 & L2 & L3).
    rewrite (moment_sum_UB k n (he_selected (a_mem s1)) _ (fun i => nth i (map fst (map (at_index (he_pop (a_mem s1))) (firstn size (p_perm (he_pop (a_mem s1)))))) []) size (hp_selection p) SS L2); auto.
    - intros i Hi. apply (proj1 (Forall_forall _ _) L3), nth_In. lia.
    - intros i Hi. unfold best_bv, best_index. rewrite (proj2 (Nat.ltb_ge _ _)); [reflexivity|]. rewrite (perm_seq_length _ _ (wf_perm W)). lia.
  Qed.

  Lemma he_misuse_margin t past (s : alg hea) : never_stops o -> he_inv k size n past (a_mem s) -> top_of o (a_trace s) (a_sol s) ->
    hp_selection p <= size -> (0 <= hp_rate p <= 1)%Q -> hp_bound p = true -> ~ (0 <= hp_margin p < 1)%Q ->
    exists samples s', he_iterate k o p shb shs srt t s = (Bad, s') /\ length samples = size /\ a_trace s' = a_trace s ++ samples.
  Proof.
    intros NS IN TO LE HR HBD HM. destruct (he_run_up t past s NS IN TO) as (s1 & samples & E & LS & T & W & TE & SE). rewrite E. exists samples. exists s1.
    pose proof IN as (_ & T1 & _ & SS & T4 & _). rewrite <- SE in SS. rewrite <- TE in T1, T4.
    destruct (he_learn_Ok k n size (mk_he_params 0 (hp_selection p) (hp_period p) (hp_rate p) false (hp_random p)) (a_mem s1)) as (tg & sel & EL & _); auto.
    { unfold he_admissible. cbn. split; [assumption|]. split; [assumption|discriminate]. }
    assert (EU : he_learn k p (a_mem s1) = UB).
    { revert EL. unfold he_learn. cbn [hp_selection hp_bound hp_rate hp_margin]. destruct (moment_sum _ _ _) as [x|e|]; cbn [bind]; try discriminate.
      destruct (if 1 <? hp_selection p then _ else _) as [y|e|]; cbn [bind]; try discriminate. destruct (moment_update _ _ _ _) as [z|e|]; cbn [bind]; try discriminate.
      rewrite HBD, bound_UB by assumption. reflexivity. }
    unfold on_mem. rewrite EU. auto.
  Qed.
End Hea.

(** * The two kinds of moments *)

(** The same numbers *)
Definition same_numbers (n : nat) (a b : moment) : Prop := (forall i, i < n -> (mom1 a i == mom1 b i)%Q) /\ (forall i j, j < i < n -> (mom2 a i j == mom2 b i j)%Q).

Lemma herded_same n a b past order x : Permutation (seq 0 n) order -> same_numbers n a b -> herded n a past order x -> herded n b past order x.
Proof.
  intros P (H1 & H2). apply greedy_ext; [assumption| |].
  - intros i Hi. unfold residual1. rewrite H1 by assumption. reflexivity.
  - intros i j Hi Hj NE. unfold residual2, printed. destruct (Nat.ltb_spec j i); [rewrite H2 by lia; reflexivity|]. destruct (Nat.ltb_spec i j); [rewrite H2 by lia; reflexivity|lia].
Qed.

Lemma samples_same n p shb a b past l l' : (hp_random p = true -> forall i, shuffles (shb i)) -> same_numbers n a b -> length l = length l' ->
  he_samples n p shb a past l -> he_samples n p shb b past l' -> l = l'.
Proof.
  intros HS SN LL H1 H2.
  assert (G : forall c, c <= length l -> firstn c l = firstn c l').
  { induction c as [|c IH]; intros Hc; [reflexivity|]. rewrite <- Nat.add_1_r, !(firstn_S_nth c _ []) by lia. rewrite IH by lia. f_equal. f_equal.
    assert (P : Permutation (seq 0 n) (bit_order (hp_random p) (shb c) n)) by (apply bit_order_perm; auto).
    specialize (H1 c ltac:(lia)). specialize (H2 c ltac:(lia)). rewrite IH in H1 by lia. apply (C100_unique n b (past ++ firstn c l') _ _ _ P); [|assumption]. now apply (herded_same n a). }
  specialize (G (length l) (Nat.le_refl _)). rewrite firstn_all, LL, firstn_all in G. exact G.
Qed.

Lemma clamped_same lo hi q q' r r' : (lo <= hi)%Q -> (q == q')%Q -> clamped lo hi q r -> clamped lo hi q' r' -> (r == r')%Q.
Proof.
  intros LH E (A1 & A2 & A3) (B1 & B2 & B3). destruct (Qlt_le_dec q lo) as [H|H]; [rewrite A1, B1 by lra; reflexivity|]. destruct (Qlt_le_dec hi q) as [H'|H']; [rewrite A3, B3 by lra; reflexivity|].
  rewrite A2, B2 by lra. exact E.
Qed.

Lemma moved_same size p a b m a' b' : he_admissible size p -> (a == b)%Q -> he_moved p a m a' -> he_moved p b m b' -> (a' == b')%Q.
Proof.
  intros (_ & _ & A) E. unfold he_moved. destruct (hp_bound p).
  - specialize (A eq_refl). apply clamped_same; [lra|]. rewrite E. reflexivity.
  - intros -> ->. rewrite E. reflexivity.
Qed.

Definition he_alike (k k' : kind) (n size : nat) (o : objective) (s s' : alg hea) : Prop :=
  a_trace s = a_trace s' /\ a_sol s = a_sol s' /\ a_last s = a_last s' /\ top_of o (a_trace s) (a_sol s) /\ he_pop (a_mem s) = he_pop (a_mem s') /\
  same_numbers n (he_target (a_mem s)) (he_target (a_mem s')) /\ exists past, he_inv k size n past (a_mem s) /\ he_inv k' size n past (a_mem s').

Section Kinds.
  Variables (k k' : kind) (o : objective) (n size : nat) (p : he_params) (shb : nat -> nat -> list nat -> list nat) (shs : nat -> list nat -> list nat)
    (srt : (nat -> nat -> bool) -> list nat -> list nat).
  Hypothesis HB : hp_random p = true -> forall t i, shuffles (shb t i).
  Hypothesis HSH : forall t, shuffles (shs t).
  Hypothesis HSO : sorts srt.
  Hypothesis ADM : he_admissible size p.

  Lemma iterate_alike t s s' : he_alike k k' n size o s s' -> related (he_alike k k' n size o) (he_iterate k o p shb shs srt t s) (he_iterate k' o p shb shs srt t s').
  Proof.
    intros (TR & SO & LA & TO & PO & SN & past & IN & IN'). pose proof TO as TO'. rewrite TR, SO in TO'.
    pose proof IN as (W & T1 & T2 & T3 & T4 & HH). pose proof IN' as (W' & T1' & T2' & T3' & T4' & HH'). pose proof W as (W1 & W2 & W3 & W4 & W5 & W6).
    set (past' := if (0 <? hp_period p) && (t mod hp_period p =? 0) then [] else past).
    destruct (he_samples_Ok k n p shb t (he_target (a_mem s)) past') with (size := size) (bs := p_bvs (he_pop (a_mem s))) (h := he_reset p t (he_herding (a_mem s)))
      as (bs & h & E & LB & FB & HS & SA); auto. { apply (reset_state k n p); assumption. }
    destruct (he_samples_Ok k' n p shb t (he_target (a_mem s')) past') with (size := size) (bs := p_bvs (he_pop (a_mem s))) (h := he_reset p t (he_herding (a_mem s')))
      as (bs' & h' & E' & LB' & FB' & HS' & SA'); auto. { apply (reset_state k' n p); assumption. }
    assert (EB : bs' = bs). { symmetry. apply (samples_same n p (shb t) (he_target (a_mem s)) (he_target (a_mem s')) past'); auto. congruence. }
    subst bs'.
    set (q0 := mk_pop bs (p_values (he_pop (a_mem s))) (p_perm (he_pop (a_mem s)))).
    set (s1 := put_mem (mk_hea q0 (he_target (a_mem s)) (he_selected (a_mem s)) h) s). set (s1' := put_mem (mk_hea q0 (he_target (a_mem s')) (he_selected (a_mem s')) h') s').
    assert (WQ : well_formed size n q0). { unfold well_formed, q0. cbn. auto 10. }
    assert (E1 : on_mem (he_sample k p shb t) s = (Ret tt, s1)). { unfold on_mem, he_sample, pop_size. rewrite W3, E. reflexivity. }
    assert (E1' : on_mem (he_sample k' p shb t) s' = (Ret tt, s1')). { unfold on_mem, he_sample, pop_size. rewrite <- PO, W3, E'. reflexivity. }
    unfold he_iterate. unfold abind at 1. rewrite E1, bind_run. unfold abind at 3. rewrite E1', bind_run.
    pose proof (evaluate_sort_wp he_pop he_put ltac:(reflexivity) ltac:(reflexivity) ltac:(intros []; reflexivity) o (shs t) srt (HSH t) HSO size n s1 WQ TO) as G. apply wp_result in G. revert G.
    assert (PL : forall m, he_put (he_pop m) m = m) by (intros []; reflexivity).
    rewrite (framed_generation he_pop he_put ltac:(reflexivity) ltac:(reflexivity) PL (shs t) srt o s1), (framed_generation he_pop he_put ltac:(reflexivity) ltac:(reflexivity) PL (shs t) srt o s1').
    assert (EV : view he_pop s1' = view he_pop s1). { unfold view, s1, s1'. cbn. now rewrite TR, SO, LA. } rewrite EV.
    destruct (generation (shs t) srt o (view he_pop s1)) as [r v]. cbn [fst snd]. destruct r as [[]|e| |]; intros G.
    2-4: unfold related; cbn [fst snd]; split; [reflexivity|split; [discriminate|split; reflexivity]].
    destruct G as (G1 & G2 & G3 & G4 & _ & q & G5 & (WV & _)).
    assert (EQ : a_mem v = q). { exact (f_equal he_pop G5). } subst q.
    destruct (he_learn_Ok k n size p (a_mem (back he_put s1 v)) ADM WV T1 T3 T4) as (tg & sel & EL & L1 & L2 & L3).
    destruct (he_learn_Ok k' n size p (a_mem (back he_put s1' v)) ADM WV T1' T3' T4') as (tg' & sel' & EL' & L1' & L2' & L3').
    unfold on_mem. rewrite EL, EL'. unfold related. cbn [fst snd]. split; [reflexivity|]. split; [|split; reflexivity]. intros _.
    unfold he_alike. cbn [put_mem a_trace a_sol a_last a_mem back he_pop he_target]. split; [reflexivity|]. split; [reflexivity|]. split; [reflexivity|]. split; [exact G2|]. split; [reflexivity|].
    destruct L3 as (X1 & X2 & X3 & X4), L3' as (X1' & X2' & X3' & X4'). destruct SN as (SN1 & SN2).
    cbn [back s1 s1' put_mem a_mem he_put he_pop he_target he_selected he_herding] in *. split.
    - split; intros.
      + apply (moved_same size p _ _ _ _ _ ADM (SN1 i H) (X3 i H) (X3' i H)).
      + apply (moved_same size p _ _ _ _ _ ADM (SN2 i j H) (X4 i j H) (X4' i j H)).
    - exists (past' ++ bs). unfold he_inv. cbn [he_pop he_target he_selected he_herding]. auto 12.
  Qed.

  Lemma init_alike bit s s' : he_sized k n size (a_mem s) -> he_sized k' n size (a_mem s') -> he_pop (a_mem s) = he_pop (a_mem s') ->
    a_trace s = [] -> a_trace s' = [] -> length (fst (a_sol s)) = n -> a_sol s = a_sol s' -> a_last s = a_last s' ->
    related (he_alike k k' n size o) (he_init o bit s) (he_init o bit s').
  Proof.
    intros SZ SZ' PO T T' L SO LA. pose proof (he_init_wp k o n size bit s SZ T L) as G. pose proof (he_init_wp k' o n size bit s' SZ' T' ltac:(congruence)) as G'.
    unfold wp in G, G'. revert G G'. unfold he_init, random_solution, abind, amodify, aget, evaluate. cbn [put_sol a_trace a_sol]. rewrite T, T', SO. cbn [length].
    destruct (o_stop o 0); intros G G'; unfold related; cbn [fst snd]; [split; [reflexivity|split; [discriminate|cbn; now rewrite ?T, ?T', ?SO]]|].
    split; [reflexivity|]. split; [|cbn; now rewrite ?T, ?T', ?SO]. intros _. destruct G as (G1 & G2 & G3 & G4 & G5 & G6), G' as (G1' & G2' & G3' & G4' & G5' & G6').
    unfold he_alike. cbn [put_mem put_sol put_trace a_trace a_sol a_last a_mem he_pop he_target] in *. rewrite T, T', LA. split; [reflexivity|]. split; [reflexivity|]. split; [reflexivity|].
    split; [rewrite T in G1; exact G1|]. split; [assumption|]. split; [split; intros; [rewrite G5, G5' by assumption|rewrite G6, G6' by assumption]; reflexivity|]. exists []. split; assumption.
  Qed.

  Lemma runs_alike bit num fuel s s' : he_sized k n size (a_mem s) -> he_sized k' n size (a_mem s') -> he_pop (a_mem s) = he_pop (a_mem s') ->
    a_trace s = [] -> a_trace s' = [] -> length (fst (a_sol s)) = n -> a_sol s = a_sol s' -> a_last s = a_last s' ->
    related (he_alike k k' n size o) (loop (he_init o bit) (he_iterate k o p shb shs srt) num fuel s) (loop (he_init o bit) (he_iterate k' o p shb shs srt) num fuel s').
  Proof.
    intros. apply loop_related; [| |now apply init_alike|intros; now apply iterate_alike].
    - intros a b R. destruct R as (R1 & R2 & R3 & _). auto.
    - intros a b l (R1 & R2 & R3 & R4). unfold he_alike. cbn [put_last a_trace a_sol a_last a_mem]. auto.
  Qed.
End Kinds.
