(** Proofs about NSGA-II. *)

From Coq Require Import QArith ZArith Permutation Sorted.
From Verif Require Import Base BaseLemmas BitVector_Model BitVector_Spec GF2 BitVector_Proofs Iterator_Proofs Representation_Spec Map_Spec
  Neighborhood_Model Neighborhood_Spec Neighborhood_Proofs Algorithm_Model Algorithm_Spec Algorithm_Proofs
  Population_Model Population_Spec Population_Proofs Tournament_Proofs PopAlgorithm_Model PopAlgorithm_Spec PopAlgorithm_Proofs
  EvolutionaryAlgorithm_Model EvolutionaryAlgorithm_Spec EvolutionaryAlgorithm_Proofs Function_Spec
  Pareto_Model Pareto_Spec Pareto_Proofs Nsga2_Model Nsga2_Spec Crowding_Proofs.
Local Open Scope nat_scope.

Lemma nth_of_map {A B} (f : A -> B) l i d d' : i < length l -> nth i (map f l) d = f (nth i l d').
Proof. intros H. rewrite (nth_indep _ d (f d')) by (rewrite map_length; exact H). apply map_nth. Qed.

(** * Moving individuals *)

Definition sized (size n : nat) (p : mpop) : Prop :=
  length (m_bvs p) = size /\ Forall (fun x => length x = n) (m_bvs p) /\ length (m_values p) = size.

Lemma mpop_swap_Ok a b n p q i j : sized a n p -> sized b n q -> i < a -> j < b ->
  mpop_swap p i q j = Ok (mk_mpop (upd (m_bvs p) i (nth j (m_bvs q) [])) (upd (m_values p) i (nth j (m_values q) [])),
                          mk_mpop (upd (m_bvs q) j (nth i (m_bvs p) [])) (upd (m_values q) j (nth i (m_values p) []))) /\
  sized a n (mk_mpop (upd (m_bvs p) i (nth j (m_bvs q) [])) (upd (m_values p) i (nth j (m_values q) []))) /\
  sized b n (mk_mpop (upd (m_bvs q) j (nth i (m_bvs p) [])) (upd (m_values q) j (nth i (m_values p) []))).
Proof.
  intros (P1 & P2 & P3) (Q1 & Q2 & Q3) Hi Hj. unfold mpop_swap.
  rewrite (swap_at_Ok (m_bvs p) (m_bvs q) i j []) by lia. cbn [bind]. rewrite (swap_at_Ok (m_values p) (m_values q) i j []) by lia. cbn [bind].
  split; [reflexivity|]. unfold sized. cbn [m_bvs m_values]. rewrite !length_upd. repeat split; auto.
  - apply Forall_upd; [exact P2|]. apply (Forall_nth_len Q2). lia.
  - apply Forall_upd; [exact Q2|]. apply (Forall_nth_len P2). lia.
Qed.

Lemma build_full_Ok n mu p q f : sized mu n p -> sized mu n q -> sized (2 * mu) n f ->
  exists p' q' f', build_full mu p q f = Ok (p', q', f') /\ sized mu n p' /\ sized mu n q' /\ sized (2 * mu) n f' /\
    m_bvs f' = m_bvs p ++ m_bvs q /\ m_values f' = m_values p ++ m_values q.
Proof.
  intros Sp Sq Sf. unfold build_full.
  destruct (foldM_upto (fun i (s : mpop * mpop * mpop) => let '(p', q', f') := s in sized mu n p' /\ sized mu n q' /\ sized (2 * mu) n f' /\
      (forall j, i <= j -> nth j (m_bvs p') [] = nth j (m_bvs p) [] /\ nth j (m_values p') [] = nth j (m_values p) [] /\
                           nth j (m_bvs q') [] = nth j (m_bvs q) [] /\ nth j (m_values q') [] = nth j (m_values q) []) /\
      (forall j, j < i -> nth j (m_bvs f') [] = nth j (m_bvs p) [] /\ nth j (m_values f') [] = nth j (m_values p) [] /\
                          nth (mu + j) (m_bvs f') [] = nth j (m_bvs q) [] /\ nth (mu + j) (m_values f') [] = nth j (m_values q) []))
    (fun '(parents, offs, full) i =>
      '(parents, full) <- mpop_swap parents i full i ;;
      '(offs, full) <- mpop_swap offs i full (mu + i) ;;
      Ok (parents, offs, full)) mu (p, q, f)) as ([[p' q'] f'] & E & S1 & S2 & S3 & _ & V).
  - repeat split; try apply Sp; try apply Sq; try apply Sf; intros; lia.
  - intros i [[p1 q1] f1] Hi (P1 & Q1 & F1 & V1 & V2).
    destruct (mpop_swap_Ok mu (2 * mu) n p1 f1 i i P1 F1 Hi ltac:(lia)) as (E1 & P2 & F2). rewrite E1. cbn [bind].
    destruct (mpop_swap_Ok mu (2 * mu) n q1 _ i (mu + i) Q1 F2 Hi ltac:(lia)) as (E2 & Q2 & F3). rewrite E2. cbn [bind].
    eexists. split; [reflexivity|]. split; [exact P2|]. split; [exact Q2|]. split; [exact F3|]. cbn [m_bvs m_values].
    destruct P1 as (LP1 & _ & LP2), Q1 as (LQ1 & _ & LQ2), F1 as (LF1 & _ & LF2). split.
    + intros j Hj. rewrite !nth_upd_neq by lia. apply V1. lia.
    + intros j Hj. destruct (V1 i (le_n i)) as (A & B & C & D). destruct (Nat.eq_dec j i) as [->|NE].
      * rewrite !(nth_upd_neq _ (mu + i) i) by lia. rewrite !nth_upd_eq by (rewrite ?length_upd; lia). auto.
      * rewrite !(nth_upd_neq _ _ j) by lia. rewrite !(nth_upd_neq _ _ (mu + j)) by lia. apply V2. lia.
  - exists p', q', f'. split; [exact E|]. split; [exact S1|]. split; [exact S2|]. split; [exact S3|].
    destruct Sp as (LP1 & _ & LP2), Sq as (LQ1 & _ & LQ2), S3 as (LF1 & _ & LF2). split.
    + apply (nth_ext _ _ [] []); [rewrite app_length; lia|]. intros j Hj. destruct (Nat.lt_ge_cases j mu) as [G|G].
      * rewrite app_nth1 by lia. apply V. exact G.
      * rewrite app_nth2 by lia. replace j with (mu + (j - mu)) at 1 by lia. rewrite LP1. apply V. lia.
    + apply (nth_ext _ _ [] []); [rewrite app_length; lia|]. intros j Hj. destruct (Nat.lt_ge_cases j mu) as [G|G].
      * rewrite app_nth1 by lia. apply V. exact G.
      * rewrite app_nth2 by lia. replace j with (mu + (j - mu)) at 1 by lia. rewrite LP2. apply V. lia.
Qed.

Lemma build_parents_Ok n mu N perm F ds p f pairs : sized mu n p -> sized N n f -> length F = N -> length ds = N -> length pairs = mu ->
  Permutation (seq 0 N) perm -> mu <= N ->
  let kept := firstn mu perm in
  exists p' f', build_parents mu perm F ds p f pairs = Ok (p', f', map (fun i => (nth i F 0, nth i ds (Dist 0))) kept) /\
    sized mu n p' /\ sized N n f' /\
    m_bvs p' = map (fun i => nth i (m_bvs f) []) kept /\ m_values p' = map (fun i => nth i (m_values f) []) kept.
Proof.
  intros Sp Sf LF LD LP P Hmu kept. unfold build_parents.
  pose proof (perm_seq_length _ _ P) as L. pose proof (perm_seq_NoDup _ _ P) as ND.
  assert (LK : length kept = mu) by (unfold kept; rewrite firstn_length; lia).
  assert (NK : forall i, i < mu -> nth i kept 0 = nth i perm 0).
  { intros i Hi. unfold kept. rewrite <- (firstn_skipn mu perm) at 2. rewrite app_nth1; [reflexivity|]. rewrite firstn_length. lia. }
  set (g := fun i => nth i perm 0).
  assert (INJ : forall i j, i < N -> j < N -> g i = g j -> i = j) by (intros i j Hi Hj; apply (proj1 (NoDup_nth perm 0) ND); lia).
  assert (GL : forall i, i < N -> g i < N) by (intros i Hi; apply perm_seq_nth; assumption).
  destruct (foldM_upto (fun i (s : mpop * mpop * list (nat * cdist)) => let '(p', f', pairs') := s in sized mu n p' /\ sized N n f' /\ length pairs' = mu /\
      (forall j, i <= j < N -> nth (g j) (m_bvs f') [] = nth (g j) (m_bvs f) [] /\ nth (g j) (m_values f') [] = nth (g j) (m_values f) []) /\
      (forall j, j < i -> nth j (m_bvs p') [] = nth (g j) (m_bvs f) [] /\ nth j (m_values p') [] = nth (g j) (m_values f) [] /\
                          nth j pairs' (0, Dist 0) = (nth (g j) F 0, nth (g j) ds (Dist 0))))
    (fun '(parents, full, pairs) i =>
      index <- vget perm i ;;
      '(parents, full) <- mpop_swap parents i full index ;;
      f <- vget F index ;;
      d <- vget ds index ;;
      pairs <- vset pairs i (f, d) ;;
      Ok (parents, full, pairs)) mu (p, f, pairs)) as ([[p' f'] pairs'] & E & S1 & S2 & S3 & _ & V).
  - repeat split; try apply Sp; try apply Sf; auto; intros; lia.
  - intros i [[p1 f1] pr1] Hi (P1 & F1 & LP1 & V1 & V2).
    rewrite (vget_nth perm i 0) by lia. cbn [bind]. fold (g i).
    destruct (mpop_swap_Ok mu N n p1 f1 i (g i) P1 F1 Hi (GL i ltac:(lia))) as (E1 & P2 & F2). rewrite E1. cbn [bind].
    rewrite (vget_nth F (g i) 0) by (rewrite LF; apply GL; lia). cbn [bind].
    rewrite (vget_nth ds (g i) (Dist 0)) by (rewrite LD; apply GL; lia). cbn [bind].
    rewrite vset_Ok by lia. cbn [bind]. eexists. split; [reflexivity|]. split; [exact P2|]. split; [exact F2|]. split; [rewrite length_upd; exact LP1|].
    cbn [m_bvs m_values]. destruct P1 as (LPP1 & _ & LPP2), F1 as (LF1 & _ & LF2). split.
    + intros j Hj. assert (g j <> g i) by (intros X; apply INJ in X; lia). rewrite !nth_upd_neq by assumption. apply V1. lia.
    + intros j Hj. destruct (Nat.eq_dec j i) as [->|NE].
      * destruct (V1 i ltac:(lia)) as [A B]. rewrite !nth_upd_eq by lia. auto.
      * rewrite !nth_upd_neq by lia. apply V2. lia.
  - exists p', f'.
    assert (M : forall {A} (h : nat -> A) d j, j < mu -> nth j (map h kept) d = h (g j)).
    { intros A h d j Hj. rewrite (nth_indep _ d (h 0)) by (rewrite map_length; lia). rewrite map_nth, NK by exact Hj. reflexivity. }
    assert (EP : pairs' = map (fun i => (nth i F 0, nth i ds (Dist 0))) kept).
    { apply (nth_ext _ _ (0, Dist 0) (0, Dist 0)); [rewrite map_length; lia|]. intros j Hj. rewrite M by lia. apply V. lia. }
    rewrite <- EP. split; [exact E|]. split; [exact S1|]. split; [exact S2|]. destruct S1 as (L1 & _ & L2). split.
    + apply (nth_ext _ _ [] []); [rewrite map_length; lia|]. intros j Hj. rewrite M by lia. apply V. lia.
    + apply (nth_ext _ _ [] []); [rewrite map_length; lia|]. intros j Hj. rewrite M by lia. apply V. lia.
Qed.

(** * Offsprings *)

Lemma obind_inv {A B} (o : option (outcome A)) (k : A -> option (outcome B)) r : obind o k = Some r ->
  (exists a, o = Some (Ok a) /\ k a = Some r) \/ (exists e, o = Some (Throw e) /\ r = Throw e) \/ (o = Some UB /\ r = UB).
Proof. destruct o as [[a|e|]|]; cbn; intros H; try discriminate; [left; eauto|right; left|right; right]; injection H as <-; eauto. Qed.

Lemma pair_lt_order : strict_weak_order pair_lt.
Proof.
  unfold strict_weak_order, pair_lt. split; [|split].
  - intros [f d]. cbn [fst snd]. rewrite Nat.ltb_irrefl, Nat.eqb_refl. destruct d; cbn [dist_gt]; [apply Z.ltb_irrefl|reflexivity].
  - intros [f1 d1] [f2 d2] [f3 d3]. cbn [fst snd]. rewrite !Bool.orb_true_iff, !Bool.andb_true_iff, !Nat.ltb_lt, !Nat.eqb_eq.
    destruct d1, d2, d3; cbn [dist_gt]; rewrite ?Z.ltb_lt; intuition (try discriminate; lia).
  - intros [f1 d1] [f2 d2] [f3 d3]. cbn [fst snd]. rewrite !Bool.orb_false_iff, !Bool.andb_false_iff, !Nat.ltb_ge, !Nat.eqb_neq.
    destruct d1, d2, d3; cbn [dist_gt]; rewrite ?Z.ltb_ge; intuition (try discriminate; lia).
Qed.

Lemma nat_lt_order : strict_weak_order Nat.ltb.
Proof. unfold strict_weak_order. repeat split; intros *; rewrite ?Nat.ltb_lt, ?Nat.ltb_ge; lia. Qed.

Section Breeding.
  Context {T : Type} (better : T -> T -> bool) (betterP : T -> T -> Prop) (values : list T) (d0 : T) (parents : list bv) (n mu ts : nat).
  Hypothesis SWO : strict_weak_order better.
  Hypothesis BP : forall a b, better a b = true <-> betterP a b.
  Hypothesis LB : length parents = mu.
  Hypothesis LN : Forall (fun x => length x = n) parents.
  Hypothesis LV : length values = mu.
  Hypothesis TS : 2 <= ts < mu.

  Let q := mu / ts.
  Let quality i := nth i values d0.

  (** The tournament selection after [c] selections *)
  Definition at_selection (c : nat) (t : tournament) : Prop := in_round mu t /\ t_size t = ts /\ t_start t = (c mod q) * ts.

  Lemma q_bounds : 0 < q /\ q * ts <= mu < (q + 1) * ts.
  Proof. clear LB LN LV.
    unfold q. split; [apply Nat.div_str_pos; lia|]. pose proof (Nat.div_mod mu ts ltac:(lia)) as E. pose proof (Nat.mod_upper_bound mu ts ltac:(lia)).
    rewrite Nat.mul_comm. split; [lia|]. rewrite Nat.mul_add_distr_r. rewrite (Nat.mul_comm (mu / ts)). lia.
  Qed.

  Lemma next_mod c : (c + 1) mod q = if S (c mod q) =? q then 0 else S (c mod q).
  Proof. clear LB LN LV.
    destruct q_bounds as [Hq _]. rewrite <- Nat.add_mod_idemp_l by lia. pose proof (Nat.mod_upper_bound c q ltac:(lia)) as U.
    rewrite Nat.add_1_r. destruct (Nat.eqb_spec (S (c mod q)) q) as [->|NE]; [apply Nat.mod_same; lia|apply Nat.mod_small; lia].
  Qed.

  Lemma select_one c t sh : shuffles sh -> at_selection c t ->
    exists i t', tournament_select better parents values sh t = Ok (nth i parents [], t') /\ selected betterP mu ts quality c i /\ at_selection (c + 1) t'.
  Proof.
    intros SH (R & Z & ST). destruct (select_Ok better parents values mu SWO LB LV t R) as (w & Hw & Bw & Sel).
    destruct (Sel sh SH) as (t' & E & R' & Z' & N). exists (nth w (t_perm t') 0), t'. split; [exact E|].
    pose proof R as (_ & STOP & LE & P). pose proof R' as (_ & _ & _ & P'). destruct q_bounds as [Hq [Q1 Q2]]. pose proof (Nat.mod_upper_bound c q ltac:(lia)) as U.
    assert (Wl : w < mu) by lia. pose proof (perm_seq_length _ _ P) as LPm.
    assert (COND : (mu <? t_stop t + t_size t) = (S (c mod q) =? q)).
    { rewrite STOP, Z, ST. set (r := c mod q) in *. clearbody r. destruct (Nat.eqb_spec (S r) q) as [EQ|NE].
      - apply Nat.ltb_lt. rewrite <- EQ in Q2. rewrite Nat.mul_add_distr_r in Q2. cbn [Nat.mul] in Q2. lia.
      - apply Nat.ltb_ge. assert ((r + 2) * ts <= q * ts) by (apply Nat.mul_le_mono_r; lia). rewrite Nat.mul_add_distr_r in H. lia. }
    rewrite COND in N. split; [split; [apply perm_seq_nth; assumption|]|].
    - intros NZ. fold q in NZ. rewrite next_mod in NZ. destruct (S (c mod q) =? q); [congruence|]. destruct N as [N1 _]. rewrite N1.
      exists (slice_of t). split; [|split; [|split; [|split]]].
      + unfold slice_of. apply (NoDup_prefix _ (skipn (t_stop t - t_start t) (skipn (t_start t) (t_perm t)))). rewrite firstn_skipn.
        apply (NoDup_suffix (firstn (t_start t) (t_perm t))). rewrite firstn_skipn. exact (perm_seq_NoDup _ _ P).
      + unfold slice_of. rewrite firstn_length, skipn_length. lia.
      + intros j Hj. apply (in_slice parents values mu LB LV) in Hj as (i & Hi & ->); [|exact R]. apply perm_seq_nth; [exact P|lia].
      + apply Bw.
      + intros j Hj C. apply BP in C. destruct Bw as [_ Bw].
        assert (Hj' : j < mu) by (apply (in_slice parents values mu LB LV) in Hj as (i & Hi & ->); [|exact R]; apply perm_seq_nth; [exact P|lia]).
        rewrite (Bw j (quality j) (quality (nth w (t_perm t) 0))) in C; [discriminate|exact Hj| |]; apply nth_error_nth'; rewrite LV; [exact Hj'|apply perm_seq_nth; assumption].
    - split; [exact R'|]. split; [congruence|]. rewrite next_mod. destruct (S (c mod q) =? q); destruct N as [_ N2]; rewrite N2; [reflexivity|]. rewrite STOP, Z, ST. cbn [Nat.mul]. lia.
  Qed.

  Lemma init_selection sh t : shuffles sh -> Permutation (seq 0 mu) (t_perm t) -> t_size t = ts -> at_selection 0 (tournament_init sh t).
  Proof. clear LB LN LV.
    intros SH P Z. destruct q_bounds as [Hq _]. unfold at_selection, in_round, tournament_init. cbn [t_size t_start t_stop t_perm]. rewrite Nat.mod_small, Z by lia.
    repeat split; try lia. eapply Permutation_trans; [exact P|apply SH].
  Qed.

  Lemma selections_before_S cross k : selections_before cross (S k) = selections_before cross k + if cross k then 2 else 1.
  Proof. unfold selections_before. rewrite seq_S, map_app, list_sum_app. cbn [map list_sum fold_right Nat.add]. unfold list_sum. cbn. lia. Qed.

  (** The first [k] offsprings are ready *)
  Definition bred_upto (kd : nh_kind) (cross : nat -> bool) (k : nat) (s : tournament * nh * list bv) : Prop :=
    let '(t, h, bs) := s in
    at_selection (selections_before cross k) t /\ nh_reachable n h Settled /\ nh_class h = kd /\
    length bs = mu /\ Forall (fun x => length x = n) bs /\
    forall j, j < k -> let c := selections_before cross j in
      exists x, mutant kd n x (nth j bs []) /\
        if cross j
        then exists i i', selected betterP mu ts quality c i /\ selected betterP mu ts quality (c + 1) i' /\ mixes n (nth i parents []) (nth i' parents []) x
        else exists i, selected betterP mu ts quality c i /\ x = nth i parents [].

  Lemma breed_one_Ok kd b k s r : fair_breeding n b -> (exists a c, kd = StandardBitMutation a c) -> k < mu -> bred_upto kd (b_cross b) k s ->
    breed_one better values parents (b_cross b k) (b_coin b k) (b_sh1 b k) (b_sh2 b k) (b_draws b k) s k = Some r ->
    exists s', r = Ok s' /\ bred_upto kd (b_cross b) (S k) s'.
  Proof.
    destruct s as [[t h] bs]. intros (SH1 & SH2 & DR) ST Hk (AT & RH & KD & LBS & FBS & PRE) E.
    assert (LENP : forall i, i < mu -> length (nth i parents []) = n) by (intros i Hi; apply (Forall_nth_len LN); lia).
    assert (CH : exists x t', (if b_cross b k then
        '(x, t) <- tournament_select better parents values (b_sh1 b k) t ;;
        '(y, t) <- tournament_select better parents values (b_sh2 b k) t ;;
        z <- vget bs k ;; z <- uniform_crossover (b_coin b k) x y z ;; offs <- vset bs k z ;; Ok (t, offs)
      else '(x, t) <- tournament_select better parents values (b_sh1 b k) t ;; offs <- vset bs k x ;; Ok (t, offs)) = Ok (t', upd bs k x) /\
      length x = n /\ at_selection (selections_before (b_cross b) (S k)) t' /\
      let c := selections_before (b_cross b) k in
      if b_cross b k
        then exists i i', selected betterP mu ts quality c i /\ selected betterP mu ts quality (c + 1) i' /\ mixes n (nth i parents []) (nth i' parents []) x
        else exists i, selected betterP mu ts quality c i /\ x = nth i parents []).
    { rewrite selections_before_S. set (c := selections_before (b_cross b) k) in *. destruct (b_cross b k).
      - destruct (select_one c t (b_sh1 b k) (SH1 k) AT) as (i & t1 & E1 & S1 & A1). destruct (select_one (c + 1) t1 (b_sh2 b k) (SH2 k) A1) as (i' & t2 & E2 & S2 & A2).
        rewrite E1. cbn [bind]. rewrite E2. cbn [bind]. rewrite (vget_nth bs k []) by lia. cbn [bind].
        destruct (uniform_Ok (b_coin b k) (nth i parents []) (nth i' parents []) (nth k bs []) n) as (z & EZ & LZ & NZ).
        { apply LENP, S1. } { apply LENP, S2. } { apply (Forall_nth_len FBS). lia. }
        rewrite EZ. cbn [bind]. rewrite vset_Ok by lia. cbn [bind]. exists z, t2. split; [reflexivity|]. split; [exact LZ|]. replace (c + 2) with (c + 1 + 1) by lia. split; [exact A2|].
        exists i, i'. split; [exact S1|]. split; [exact S2|]. split; [exact LZ|]. intros j Hj. rewrite (NZ j Hj). destruct (b_coin b k j); auto.
      - destruct (select_one c t (b_sh1 b k) (SH1 k) AT) as (i & t1 & E1 & S1 & A1). rewrite E1. cbn [bind]. rewrite vset_Ok by lia. cbn [bind].
        exists (nth i parents []), t1. split; [reflexivity|]. split; [apply LENP, S1|]. split; [exact A1|]. exists i. auto. }
    destruct CH as (x & t' & EC & LX & A' & SRC). unfold breed_one in E. rewrite EC in E. clear EC. cbn [obind fst snd] in E.
    rewrite (vget_nth _ k []) in E by (rewrite length_upd; lia). cbn [obind] in E. rewrite nth_upd_eq in E by lia.
    destruct (nh_mutate h x (b_draws b k)) as [o|] eqn:EM; [|discriminate].
    assert (BD : in_bounds (nh_class h) n (b_draws b k)). { apply standard_bounds; [|apply DR]. unfold standard. rewrite KD. exact ST. }
    destruct (reachable_inv n h _ RH) as [OK _]. destruct (mutate_exact n h x _ o OK LX BD EM) as (l & X1 & X2 & X3 & ->). destruct (index_set_flip n x l LX X2) as (_ & F2 & _ & F4).
    cbn [obind fst snd] in E. rewrite vset_Ok in E by (rewrite length_upd; lia). cbn [bind] in E. injection E as <-. eexists. split; [reflexivity|].
    split; [exact A'|]. split; [exact (reach_mutate n h _ _ _ _ RH BD EM)|]. split; [exact KD|]. split; [rewrite !length_upd; exact LBS|].
    split; [apply Forall_upd; [apply Forall_upd; assumption|exact F4]|]. cbv zeta. intros j Hj. destruct (Nat.eq_dec j k) as [->|NE].
    - exists x. split; [|exact SRC]. rewrite nth_upd_eq by (rewrite length_upd; lia). split; [exact F4|]. rewrite F2, <- KD. exact X3.
    - rewrite !nth_upd_neq by exact NE. apply PRE. lia.
  Qed.

  Lemma breed_Ok kd b : fair_breeding n b -> (exists a c, kd = StandardBitMutation a c) -> forall num k s r, k + num = mu -> bred_upto kd (b_cross b) k s ->
    breed better values parents b (seq k num) s = Some r -> exists s', r = Ok s' /\ bred_upto kd (b_cross b) mu s'.
  Proof.
    intros FB ST. induction num as [|num IH]; intros k s r Hk B E; cbn [seq breed] in E.
    - injection E as <-. exists s. replace k with mu in B by lia. auto.
    - apply obind_inv in E as [(s1 & E1 & E2)|[(e & E1 & ->)|[E1 ->]]].
      + destruct (breed_one_Ok kd b k s _ FB ST ltac:(lia) B E1) as (s1' & X & B1). apply Ok_inj in X. subst s1'. apply (IH (S k) s1 r); [lia|exact B1|exact E2].
      + destruct (breed_one_Ok kd b k s _ FB ST ltac:(lia) B E1) as (s1' & X & _). discriminate.
      + destruct (breed_one_Ok kd b k s _ FB ST ltac:(lia) B E1) as (s1' & X & _). discriminate.
  Qed.
End Breeding.

(** * Evaluation *)

Lemma upd_middle {A} (l r : list A) a b i : length l = i -> upd (l ++ a :: r) i b = l ++ b :: r.
Proof. intros <-. induction l as [|x l IH]; [reflexivity|]. cbn [app upd length]. f_equal. exact IH. Qed.

Lemma wp_ms_do {A} (f : nsga2 -> option (outcome (A * nsga2))) (Q : A -> mstate -> Prop) (E : option exn -> mstate -> Prop) s :
  (forall r, f (ms_mem s) = Some r -> exists a m, r = Ok (a, m) /\ Q a (ms_put m s)) -> (f (ms_mem s) = None -> E None s) -> wp (ms_do f) Q E s.
Proof.
  intros H1 H2. unfold wp, ms_do. destruct (f (ms_mem s)) as [r|]; [|auto]. destruct (H1 r eq_refl) as (a & m & -> & H). exact H.
Qed.

Lemma interrupted_later o s s' e s2 : (exists post, ms_trace s' = ms_trace s ++ post) -> ns_solutions (ms_mem s') = ns_solutions (ms_mem s) ->
  interrupted o s' e s2 -> interrupted o s e s2.
Proof. intros [p P] E ((q & P2) & E2 & X). split; [exists (p ++ q); rewrite P2, P; symmetry; apply app_assoc|]. split; [congruence|exact X]. Qed.

Lemma eval_mpop_wp (get : nsga2 -> mpop) (put : mpop -> nsga2 -> nsga2) o size n s :
  (forall p c, get (put p c) = p) -> (forall p p' c, put p (put p' c) = put p c) -> (forall c, put (get c) c = c) ->
  (forall p c, ns_solutions (put p c) = ns_solutions c) ->
  sized size n (get (ms_mem s)) ->
  let bvs := m_bvs (get (ms_mem s)) in
  wp (eval_mpop get put o) (fun _ s' => s' = mk_mstate (ms_trace s ++ bvs) (put (mk_mpop bvs (map (mo_value o) bvs)) (ms_mem s))) (interrupted o s) s.
Proof.
  intros GP PP PG PS (L1 & L2 & L3) bvs. unfold eval_mpop. apply wp_bind, wp_get. apply wp_bind, wp_assert; [apply Nat.eqb_eq; lia|].
  set (vs0 := m_values (get (ms_mem s))) in *.
  eapply wp_mono; [apply (wp_afor _ (fun i s' => s' = mk_mstate (ms_trace s ++ firstn i bvs) (put (mk_mpop bvs (map (mo_value o) (firstn i bvs) ++ skipn i vs0)) (ms_mem s)))
     (interrupted o s) (length bvs) 0 s)| |auto].
  - cbn [firstn map app skipn]. rewrite app_nil_r. replace (mk_mpop bvs vs0) with (get (ms_mem s)) by (unfold bvs, vs0; destruct (get (ms_mem s)); reflexivity).
    rewrite PG. destruct s; reflexivity.
  - intros i s' Hi ->. apply wp_bind, wp_get. cbn [ms_mem]. rewrite GP. cbn [m_bvs]. apply wp_bind. eapply wp_lift; [apply (vget_nth bvs i []); lia|].
    apply wp_bind. unfold wp at 1, mo_evaluate. cbn [ms_trace ms_mem]. destruct (mo_stop o (length (ms_trace s ++ firstn i bvs))) as [e|] eqn:ST.
    + split; [exists (firstn i bvs); reflexivity|]. cbn [ms_mem ms_trace]. split; [apply PS|]. intros e' X. injection X as <-. exact ST.
    + apply wp_ms_do; [|discriminate]. cbn [ms_mem]. rewrite GP. cbn [m_bvs m_values]. intros r X. injection X as <-.
      fold bvs in L1. assert (LI : length (map (mo_value o) (firstn i bvs)) = i) by (rewrite map_length, firstn_length; lia).
      rewrite vset_Ok by (rewrite app_length, skipn_length, LI; lia). cbn [bind]. exists tt. eexists. split; [reflexivity|].
      unfold ms_put. cbn [ms_trace]. f_equal.
      * rewrite <- app_assoc. f_equal. rewrite <- (firstn_skipn i bvs) at 3. rewrite firstn_app, firstn_firstn, firstn_length. replace (Nat.min (i + 1) i) with i by lia.
        f_equal. replace (i + 1 - Nat.min i (length bvs)) with 1 by lia.
        assert (SK : skipn i bvs = nth i bvs [] :: skipn (S i) bvs).
        { clear - Hi. cbn [Nat.add] in Hi. destruct Hi as [_ Hi]. revert i Hi. induction bvs as [|a l IH]; intros i Hi; [cbn in Hi; lia|]. destruct i; [reflexivity|]. cbn [skipn nth]. apply IH. cbn in Hi. lia. }
        rewrite SK. reflexivity.
      * rewrite PP. f_equal. f_equal.
        assert (SK : skipn i vs0 = nth i vs0 [] :: skipn (i + 1) vs0).
        { assert (Hi2 : i < length vs0) by lia. clear - Hi2. revert i Hi2. induction vs0 as [|a l IH]; intros i Hi; [cbn in Hi; lia|]. destruct i; [reflexivity|]. cbn [skipn nth Nat.add]. apply IH. cbn in Hi. lia. }
        assert (FN : firstn (i + 1) bvs = firstn i bvs ++ [nth i bvs []]).
        { assert (Hi2 : i < length bvs) by lia. clear - Hi2. revert i Hi2. induction bvs as [|a l IH]; intros i Hi; [cbn in Hi; lia|]. destruct i; [reflexivity|]. cbn [firstn nth Nat.add app]. f_equal. apply IH. cbn in Hi. lia. }
        rewrite SK, FN, map_app, <- app_assoc. cbn [map app]. rewrite upd_middle by exact LI. reflexivity.
  - cbn beta. intros _ s' ->. cbn [Nat.add]. rewrite firstn_all, skipn_all2 by (fold bvs in L1; lia). rewrite app_nil_r. reflexivity.
Qed.

(** * Iterations *)

Section Run.
  Variables n m mu ts : nat.
  Variable kd : nh_kind.
  Variable o : mobjective.
  Hypothesis OB : objectives n m o.

  Lemma values_sizes l : Forall (fun x => length x = n) l -> same_sizes m (map (mo_value o) l).
  Proof. intros H. unfold same_sizes. apply Forall_map. revert H. apply Forall_impl. intros a Ha. apply OB. exact Ha. Qed.

  Lemma ranks_of values ord fuel init : same_sizes m values -> visits ord -> length values <= fuel -> length init = length values ->
    exists F, compute_fronts values ord fuel init = Some (Ok F) /\ length F = length values /\ forall i, i < length values -> in_front values (nth i F 0) i.
  Proof.
    intros SS V L1 L2. destruct (compute_Ok m values SS ord fuel init V L1 L2) as (F & E & L & H). exists F. split; [exact E|]. split; [exact L|].
    intros i Hi. apply (H i (nth i F 0) Hi). reflexivity.
  Qed.

  (** Offsprings evaluated: the state before the selection of parents *)
  Lemma renew_Ok srt g s r : sorts srt -> fair_generation n g -> nsga2_between n m mu ts kd o s ->
    m_values (ns_offs (ms_mem s)) = map (mo_value o) (m_bvs (ns_offs (ms_mem s))) ->
    nsga2_renew srt (mo_outputs o) g (ms_mem s) = Some r ->
    exists c, r = Ok (tt, c) /\
      let offs := m_bvs (ns_offs (ms_mem s)) in
      let pool := m_bvs (ns_parents (ms_mem s)) ++ offs in
      let parents := m_bvs (ns_parents c) in
      (forall T, nsga2_between n m mu ts kd o (mk_mstate T c)) /\ ns_solutions c = ns_solutions (ms_mem s) /\
      exists rank dist kept,
        survivors (map (mo_value o) pool) m mu rank dist kept /\
        parents = map (fun i => nth i pool []) kept /\
        bred preferred ts (fun i => let j := nth i kept 0 in (rank j, dist j)) kd n (b_cross (g_breeding g)) parents (m_bvs (ns_offs c)).
  Proof.
    intros SRT (V & SH & SEL & FB) (TS & P1 & P2 & P3 & O1 & O2 & O3 & F1 & F2 & F3 & RH & KD & ST & LF & LD & LP & LPR & TP & TZ) EV E.
    unfold nsga2_renew in E. rewrite P1 in E.
    destruct (build_full_Ok n mu (ns_parents (ms_mem s)) (ns_offs (ms_mem s)) (ns_full (ms_mem s))) as (p & q & f & EF & Sp & Sq & Sf & B1 & B2).
    { repeat split; auto. rewrite P3, map_length. exact P1. } { repeat split; auto. } { repeat split; auto. }
    rewrite EF in E. cbn [obind] in E. cbv zeta. set (pool := m_bvs (ns_parents (ms_mem s)) ++ m_bvs (ns_offs (ms_mem s))) in *.
    rewrite P3, EV, <- map_app in B2. fold pool in B2.
    assert (LPOOL : length pool = 2 * mu) by (unfold pool; rewrite app_length; lia).
    assert (FPOOL : Forall (fun x => length x = n) pool) by (apply Forall_app; split; assumption).
    set (values := map (mo_value o) pool) in *. pose proof (values_sizes pool FPOOL) as SS. fold values in SS.
    assert (LVAL : length values = 2 * mu) by (unfold values; rewrite map_length; exact LPOOL).
    rewrite B1, B2, LPOOL in E.
    destruct (ranks_of values (g_ord g) (2 * mu) (ns_fronts (ms_mem s)) SS V ltac:(lia) ltac:(lia)) as (F & ER & LF' & RANK).
    rewrite ER in E. cbn [obind] in E. rewrite (proj1 OB) in E.
    destruct (rank_individuals_Ok srt SRT values m SS F LF' RANK (g_sh g) mu (ns_perm (ms_mem s)) (ns_dists (ms_mem s)) SH ltac:(lia) ltac:(lia) ltac:(lia)) as (perm & ds & EI & PP & LDS & SU).
    rewrite EI in E. cbn [obind] in E. rewrite LVAL in PP, LDS, LF'.
    destruct (build_parents_Ok n mu (2 * mu) perm F ds p f (ns_pairs (ms_mem s)) Sp Sf LF' LDS LPR PP ltac:(lia)) as (p' & f' & EP & Sp' & Sf' & BP1 & BP2).
    rewrite EP in E. cbn [obind] in E. set (kept := firstn mu perm) in *. rewrite B1 in BP1. rewrite B2 in BP2.
    set (pairs := map (fun i => (nth i F 0, nth i ds (Dist 0))) kept) in *.
    assert (LK : length kept = mu) by apply SU. assert (KL : forall i, In i kept -> i < 2 * mu) by (intros i Hi; rewrite <- LVAL; apply SU; exact Hi).
    destruct Sq as (LQ1 & LQ2 & LQ3). rewrite LQ1 in E.
    assert (INIT : bred_upto preferred pairs (0, Dist 0) (m_bvs p') n mu ts kd (b_cross (g_breeding g)) 0 (tournament_init (g_sel g) (ns_sel (ms_mem s)), ns_mut (ms_mem s), m_bvs q)).
    { split; [apply init_selection; assumption|]. split; [exact RH|]. split; [exact KD|]. split; [exact LQ1|]. split; [exact LQ2|]. intros; lia. }
    assert (LPAIRS : length pairs = mu) by (unfold pairs; rewrite map_length; exact LK).
    pose proof (fun r' => breed_Ok pair_lt preferred pairs (0, Dist 0) (m_bvs p') n mu ts pair_lt_order pair_lt_spec (proj1 Sp') (proj1 (proj2 Sp')) LPAIRS TS
      kd (g_breeding g) FB ST mu 0 _ r' eq_refl INIT) as BU.
    apply obind_inv in E as [([[t h] bs] & E1 & E2)|[(e & E1 & ->)|[E1 ->]]];
      destruct (BU _ E1) as ([[t' h'] bs'] & X & AT & RH' & KD' & LBS & FBS & BR); try discriminate.
    apply Ok_inj in X. injection X as <- <- <-. apply Some_inj in E2. subst r. eexists. split; [reflexivity|].
    cbn [ns_parents ns_offs ns_solutions m_bvs]. split; [|split; [reflexivity|]].
    - intros T. unfold nsga2_between. cbn [ms_mem ns_parents ns_offs ns_full ns_mut ns_fronts ns_dists ns_perm ns_pairs ns_sel m_bvs m_values].
      destruct Sp' as (A1 & A2 & A3), Sf' as (C1 & C2 & C3), AT as (AT1 & AT2 & AT3). pose proof (perm_seq_length _ _ PP). unfold pairs. rewrite map_length.
      repeat (split; [first [assumption|lia|idtac]|]); try assumption; [|apply AT1].
      rewrite BP1, BP2, map_map. apply map_ext_in. intros i Hi. unfold values. rewrite (nth_indep _ [] (mo_value o [])) by (rewrite map_length, LPOOL; apply KL; exact Hi). apply map_nth.
    - exists (fun i => nth i F 0), (fun i => nth i ds (Dist 0)), kept. split; [exact SU|]. split; [exact BP1|]. destruct Sp' as (A1 & A2 & A3).
      assert (QU : forall i, i < mu -> nth i pairs (0, Dist 0) = (nth (nth i kept 0) F 0, nth (nth i kept 0) ds (Dist 0))).
      { intros i Hi. unfold pairs. rewrite (nth_of_map _ _ _ _ 0) by lia. reflexivity. }
      assert (SEQ : forall c i, selected preferred mu ts (fun i => nth i pairs (0, Dist 0)) c i -> selected preferred mu ts (fun i => (nth (nth i kept 0) F 0, nth (nth i kept 0) ds (Dist 0))) c i).
      { intros c i [S1 S2]. split; [exact S1|]. intros NZ. destruct (S2 NZ) as (l & W1 & W2 & W3 & W4 & W5). exists l. split; [exact W1|]. split; [exact W2|]. split; [exact W3|]. split; [exact W4|].
        intros j Hj. rewrite <- !QU by auto. apply W5. exact Hj. }
      unfold bred. rewrite A1. split; [exact LBS|]. intros k Hk. destruct (BR k Hk) as (x & X1 & X2). exists x. split; [exact X1|].
      destruct (b_cross (g_breeding g) k).
      + destruct X2 as (i & j & I1 & I2 & I3). exists i, j. auto.
      + destruct X2 as (i & I1 & I2). exists i. auto.
  Qed.

  Lemma iterate_wp srt g t s : sorts srt -> fair_generation n (g t) -> nsga2_between n m mu ts kd o s ->
    wp (nsga2_iterate o srt g t) (fun _ s' => next_generation n m mu ts kd o (b_cross (g_breeding (g t))) s s' /\ ns_solutions (ms_mem s') = ns_solutions (ms_mem s))
      (interrupted o s) s.
  Proof.
    intros SRT FG BT. pose proof BT as (TS & P1 & P2 & P3 & O1 & O2 & O3 & F1 & F2 & F3 & RH & KD & ST & LF & LD & LP & LPR & TP & TZ).
    unfold nsga2_iterate. apply wp_bind. eapply wp_mono; [apply (eval_mpop_wp ns_offs put_ns_offs o mu n s)| |auto]; try reflexivity.
    - intros c. destruct c; reflexivity.
    - repeat split; assumption.
    - cbn beta. intros _ s1 ->. set (offs := m_bvs (ns_offs (ms_mem s))) in *.
      set (s1 := mk_mstate (ms_trace s ++ offs) (put_ns_offs (mk_mpop offs (map (mo_value o) offs)) (ms_mem s))).
      assert (BT1 : nsga2_between n m mu ts kd o s1).
      { unfold nsga2_between, s1, put_ns_offs. cbn [ms_mem ns_parents ns_offs ns_full ns_mut ns_fronts ns_dists ns_perm ns_pairs ns_sel m_bvs m_values].
        repeat (split; [first [assumption|lia|rewrite map_length; assumption]|]). exact TZ. }
      apply wp_ms_do.
      + intros r E. destruct (renew_Ok srt (g t) s1 r SRT FG BT1 eq_refl E) as (c & -> & B & SOL & REST). exists tt, c. split; [reflexivity|].
        split; [|exact SOL]. split; [apply B|]. split; [reflexivity|]. exact REST.
      + intros _. split; [exists offs; reflexivity|]. split; [reflexivity|discriminate].
  Qed.

  Lemma iterations_wp srt g count : sorts srt -> (forall t, fair_generation n (g t)) -> forall i s, nsga2_between n m mu ts kd o s ->
    wp (mo_iterations (nsga2_iterate o srt g) i count)
      (fun _ s' => generations n m mu ts kd o (fun t => b_cross (g_breeding (g t))) i count s s' /\ nsga2_between n m mu ts kd o s' /\ ns_solutions (ms_mem s') = ns_solutions (ms_mem s))
      (interrupted o s) s.
  Proof.
    intros SRT FG. induction count as [|count IH]; intros i s BT; cbn [mo_iterations generations]; [apply wp_ret; auto|].
    apply wp_bind. eapply wp_mono; [apply iterate_wp; auto| |auto]. cbn beta. intros _ s1 (NG & SOL). pose proof NG as (BT1 & TR & _).
    eapply wp_mono; [apply IH; exact BT1| |].
    - cbn beta. intros _ s2 (G & B2 & S2). split; [exists s1; auto|]. split; [exact B2|congruence].
    - intros e s2. apply interrupted_later; [eexists; exact TR|exact SOL].
  Qed.
End Run.
