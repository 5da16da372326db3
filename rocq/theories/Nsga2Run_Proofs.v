(** Proofs about runs of NSGA-II. *)

From Coq Require Import QArith ZArith Permutation Sorted.
From Verif Require Import Base BaseLemmas BitVector_Model BitVector_Spec GF2 BitVector_Proofs Iterator_Proofs Representation_Spec Map_Spec
  Neighborhood_Model Neighborhood_Spec Neighborhood_Proofs Algorithm_Model Algorithm_Spec Algorithm_Proofs
  Population_Model Population_Spec Population_Proofs Tournament_Proofs PopAlgorithm_Model PopAlgorithm_Spec PopAlgorithm_Proofs
  EvolutionaryAlgorithm_Model EvolutionaryAlgorithm_Spec EvolutionaryAlgorithm_Proofs Function_Spec
  Pareto_Model Pareto_Spec Pareto_Proofs Nsga2_Model Nsga2_Spec Crowding_Proofs Nsga2_Proofs.
Local Open Scope nat_scope.

(** * Dominance among evaluated vectors *)

Lemma paretob_spec a b : paretob a b = true <-> pareto_better a b.
Proof.
  unfold paretob, pareto_better. rewrite Bool.andb_true_iff, forallb_forall, existsb_exists.
  split; intros [A (i & B & C)].
  - split; [intros j Hj; apply Z.leb_le, A, in_seq; lia|]. exists i. apply in_seq in B. split; [lia|]. apply Z.ltb_lt. exact C.
  - split; [intros j Hj; apply in_seq in Hj; apply Z.leb_le, A; lia|]. exists i. split; [apply in_seq; lia|]. apply Z.ltb_lt. exact C.
Qed.

Section Dominance.
  Variables n m : nat.
  Variable o : mobjective.
  Hypothesis OB : objectives n m o.
  Let better x y := pareto_better (mo_value o x) (mo_value o y).

  Lemma best_of_all_dominating T x : Forall (fun x => length x = n) T -> In x T -> exists y, In y T /\ (y = x \/ better y x) /\ forall z, In z T -> ~ better z y.
  Proof.
    intros F Hx. rewrite Forall_forall in F. apply (minimal_exists better T); [| | |exact Hx].
    - intros a b _ _. unfold better. rewrite <- paretob_spec. destruct (paretob (mo_value o a) (mo_value o b)); [left; reflexivity|right; discriminate].
    - intros a _. apply pareto_irrefl.
    - intros a b c Ha Hb _. apply pareto_trans. rewrite !(proj2 OB) by auto. reflexivity.
  Qed.

  Lemma in_non_dominated T x : In x (non_dominated o T) <-> In x T /\ forall y, In y T -> ~ better y x.
  Proof.
    unfold non_dominated. rewrite filter_In, forallb_forall. apply and_iff_compat_l. unfold better.
    split; intros H y Hy; specialize (H y Hy); rewrite <- paretob_spec in *.
    - apply Bool.negb_true_iff in H. congruence.
    - apply Bool.negb_true_iff. destruct (paretob (mo_value o y) (mo_value o x)); [destruct (H eq_refl)|reflexivity].
  Qed.

  (** Ranks of listed vectors *)
  Lemma rank_zero l (rank : nat -> nat) i : Forall (fun x => length x = n) l -> (forall i, i < length l -> in_front (map (mo_value o) l) (rank i) i) -> i < length l ->
    (rank i = 0 <-> forall y, In y l -> ~ better y (nth i l [])).
  Proof.
    intros F R Hi. set (values := map (mo_value o) l). assert (LV : length values = length l) by apply map_length.
    assert (SS : same_sizes m values) by (apply (values_sizes n m o OB); exact F).
    assert (NV : forall j, j < length l -> nth j values [] = mo_value o (nth j l [])) by (intros j Hj; apply nth_of_map; exact Hj).
    assert (R' : forall j, j < length values -> in_front values (rank j) j) by (rewrite LV; exact R).
    split.
    - intros Z y Hy. apply (In_nth _ _ []) in Hy as (j & Hj & <-). unfold better. rewrite <- !NV by assumption.
      apply (rank_minimal values rank R'); [lia|lia|lia].
    - intros H. destruct (rank i) as [|r] eqn:E; [reflexivity|]. destruct (rank_dominated values m SS rank R' i) as (j & J1 & J2 & J3); [lia|lia|].
      rewrite LV in J1. rewrite !NV in J3 by assumption. destruct (H (nth j l [])); [apply nth_In; exact J1|exact J3].
  Qed.
End Dominance.

(** * Beginning of a run *)

Lemma mpop_make_inv size n m p : mpop_make size n m = Ok p -> 0 < size /\ 0 < n /\ 0 < m /\ p = mk_mpop (repeat (repeat false n) size) (repeat (repeat 0%Z m) size).
Proof.
  unfold mpop_make. destruct (Nat.ltb_spec 0 size); [|discriminate]. destruct (Nat.ltb_spec 0 n); [|discriminate]. destruct (Nat.ltb_spec 0 m); [|discriminate].
  cbn [ensureb bind]. intros X. apply Ok_inj in X. auto.
Qed.

Lemma mpop_make_sized size n m p : mpop_make size n m = Ok p -> sized size n p.
Proof.
  intros H. apply mpop_make_inv in H as (_ & _ & _ & ->). repeat split; cbn [m_bvs m_values]; try apply repeat_length.
  apply Forall_forall. intros x Hx. apply repeat_spec in Hx as ->. apply repeat_length.
Qed.

(** Members of the expected sizes *)
Definition nsga2_sized (n mu : nat) (c : nsga2) : Prop :=
  sized mu n (ns_parents c) /\ sized mu n (ns_offs c) /\ sized (2 * mu) n (ns_full c) /\ sized mu n (ns_solutions c) /\
  nh_reachable n (ns_mut c) Settled /\ (exists rejection allow, nh_class (ns_mut c) = StandardBitMutation rejection allow) /\
  length (ns_fronts c) = 2 * mu /\ length (ns_dists c) = 2 * mu /\ length (ns_perm c) = 2 * mu /\ length (ns_pairs c) = mu /\ Permutation (seq 0 mu) (t_perm (ns_sel c)).

Lemma nsga2_make_Ok n m mu g c : nsga2_make n m mu g = Ok c ->
  0 < n /\ 0 < m /\ 0 < mu /\ nsga2_sized n mu c /\ nh_class (ns_mut c) = StandardBitMutation false false /\
  ns_solutions c = mk_mpop (repeat (repeat false n) mu) (repeat (repeat 0%Z m) mu).
Proof.
  unfold nsga2_make. destruct (Nat.ltb_spec 0 n); [|discriminate]. destruct (Nat.ltb_spec 0 m); [|discriminate]. cbn [ensureb bind].
  destruct (mpop_make mu n m) as [p| |] eqn:E1; [|discriminate|discriminate]. cbn [bind].
  destruct (mpop_make (2 * mu) n m) as [f| |] eqn:E2; [|discriminate|discriminate]. cbn [bind].
  destruct (nh_make (StandardBitMutation false false) n) as [h| |] eqn:E3; [|discriminate|discriminate]. cbn [bind].
  destruct (tournament_make (m_bvs p) (repeat (0, Dist 0) mu) g) as [t| |] eqn:E4; [|discriminate|discriminate]. cbn [bind].
  intros X. apply Ok_inj in X. subst c. destruct (mpop_make_inv _ _ _ _ E1) as (HM & _ & _ & EP). pose proof (mpop_make_sized _ _ _ _ E1) as SP.
  assert (KD : nh_class h = StandardBitMutation false false).
  { revert E3. unfold nh_make, assertb. destruct (0 <? n); cbn [bind]; intros X; [|discriminate]. apply Ok_inj in X. subst h. reflexivity. }
  assert (TP : t_perm t = seq 0 mu).
  { revert E4. unfold tournament_make. rewrite (proj1 SP), repeat_length, Nat.eqb_refl. cbn [ensureb bind]. intros X. apply Ok_inj in X. subst t. reflexivity. }
  split; [assumption|]. split; [assumption|]. split; [assumption|]. cbn [ns_mut ns_solutions]. split; [|auto].
  unfold nsga2_sized. cbn [ns_parents ns_offs ns_full ns_solutions ns_mut ns_fronts ns_dists ns_perm ns_pairs ns_sel]. rewrite !repeat_length, KD.
  split; [exact SP|]. split; [exact SP|]. split; [exact (mpop_make_sized _ _ _ _ E2)|]. split; [exact SP|]. split; [exact (reach_make n _ _ E3)|]. split; [eauto|].
  repeat split. rewrite TP. apply Permutation_refl.
Qed.

Definition kind_after (h : nh) (p : nsga2_parameters) : nh_kind := nh_class (nh_set_allow_no_mutation (nh_set_mutation_rate h (np_small p)) (np_allow p)).

Lemma set_tournament_refused l t ts : ~ (2 <= ts < length l) -> set_tournament_size l t ts = Throw RuntimeError.
Proof.
  intros H. unfold set_tournament_size. destruct (Nat.leb_spec 2 ts), (Nat.ltb_spec ts (length l)); cbn [andb ensureb bind]; try reflexivity. lia.
Qed.

Lemma set_tournament_accepted l t ts : 2 <= ts < length l -> set_tournament_size l t ts = Ok (mk_tournament (t_perm t) (t_start t) (t_stop t) ts).
Proof.
  intros H. unfold set_tournament_size. rewrite (proj2 (Nat.leb_le 2 ts)), (proj2 (Nat.ltb_lt ts (length l))) by lia. reflexivity.
Qed.

Section Run.
  Variables n m mu : nat.
  Variable o : mobjective.
  Hypothesis OB : objectives n m o.
  Variable p : nsga2_parameters.
  Let ts := np_tournament_size p.

  Lemma refused_run srt bits ord sh garbage b g ord' num s : nsga2_sized n mu (ms_mem s) -> ~ (2 <= ts < mu) ->
    nsga2_minimize o srt p bits ord sh garbage b g ord' num s = (Exc RuntimeError, s).
  Proof.
    intros W H. unfold nsga2_minimize, nsga2_init, abind, ms_do, nsga2_setup. destruct W as ((W & _) & _).
    rewrite set_tournament_refused by (rewrite W; exact H). reflexivity.
  Qed.

  Hypothesis TS : 2 <= ts < mu.

  Lemma init_wp bits ord sh garbage b s : visits ord -> shuffles sh -> fair_breeding n b -> nsga2_sized n mu (ms_mem s) -> ms_trace s = [] ->
    wp (nsga2_init o p bits ord sh garbage b)
      (fun _ s' => first_generation n m mu ts (kind_after (ns_mut (ms_mem s)) p) o (b_cross b) s' /\ ns_solutions (ms_mem s') = ns_solutions (ms_mem s))
      (interrupted o s) s.
  Proof.
    intros V SH FB (SP & SO & SF & SS & RH & ST & LF & LD & LP & LPR & TP) T0. set (kd := kind_after (ns_mut (ms_mem s)) p).
    assert (STK : exists rejection allow, kd = StandardBitMutation rejection allow).
    { destruct ST as (a & c & E). unfold kd, kind_after, nh_set_allow_no_mutation, nh_set_mutation_rate. rewrite E.
      destruct (np_small p); cbn [nh_class]; rewrite ?E; cbn [nh_class]; eauto. }
    unfold nsga2_init. apply wp_bind. apply wp_ms_do; [|discriminate]. intros r E. unfold nsga2_setup in E.
    assert (LSP := proj1 SP).
    rewrite set_tournament_accepted in E by (rewrite LSP; exact TS). cbn [bind] in E. apply Some_inj in E. subst r. exists tt. eexists. split; [reflexivity|].
    set (h := nh_set_allow_no_mutation (nh_set_mutation_rate (ns_mut (ms_mem s)) (np_small p)) (np_allow p)).
    set (s1 := ms_put _ s). assert (S1 : sized mu n (ns_parents (ms_mem s1))).
    { unfold s1, ms_put. cbn [ms_mem ns_parents]. destruct SP as (A1 & A2 & A3). unfold mpop_random, sized. cbn [m_bvs m_values]. rewrite map_length, seq_length. split; [exact A1|]. split; [|exact A3].
      apply Forall_forall. intros x Hx. apply in_map_iff in Hx as (i & <- & Hi). apply in_seq in Hi. rewrite length_bv_random. apply (Forall_nth_len A2). lia. }
    apply wp_bind. eapply wp_mono; [apply (eval_mpop_wp ns_parents put_ns_parents o mu n s1); try reflexivity; try exact S1; intros c; destruct c; reflexivity| |].
    2:{ intros e s2. apply interrupted_later; [exists []; rewrite app_nil_r; reflexivity|reflexivity]. }
    cbn beta. intros _ s2 ->. set (parents := m_bvs (ns_parents (ms_mem s1))) in *.
    destruct S1 as (A1 & A2 & A3). fold parents in A1, A2.
    assert (SSV : same_sizes m (map (mo_value o) parents)) by (apply (values_sizes n m o OB); exact A2).
    assert (LV : length (map (mo_value o) parents) = mu) by (rewrite map_length; exact A1).
    destruct (ranks_of m (map (mo_value o) parents) ord mu (repeat 0 mu) SSV V ltac:(lia) ltac:(rewrite repeat_length; lia)) as (F & EF & LFF & RANK). rewrite LV in LFF, RANK.
    apply wp_ms_do.
    2:{ intros _. split; [exists parents; reflexivity|]. split; [reflexivity|discriminate]. }
    intros r E. unfold nsga2_first in E. cbn [ms_mem put_ns_parents ns_parents m_bvs m_values] in E. rewrite A1 in E. rewrite EF in E. cbn [obind] in E.
    assert (LOFF : length (m_bvs (ns_offs (ms_mem s))) = mu) by apply SO.
    unfold tournament_make in E. rewrite A1, LFF, Nat.eqb_refl in E. cbn [ensureb bind] in E. rewrite set_tournament_accepted in E by (rewrite A1; exact TS). cbn [bind obind t_perm t_start t_stop] in E.
    unfold put_ns_parents, s1, ms_put in E. cbn [ms_mem ns_parents ns_offs ns_full ns_mut ns_fronts ns_dists ns_perm ns_pairs ns_sel ns_solutions m_bvs m_values] in E.
    rewrite LOFF in E. fold h in E.
    assert (RHH : nh_reachable n h Settled) by (apply reach_allow, reach_rate; exact RH).
    assert (INIT : bred_upto lt F 0 parents n mu ts kd (b_cross b) 0 (tournament_init sh (mk_tournament (identity mu) (fst garbage) (snd garbage) ts), h, m_bvs (ns_offs (ms_mem s)))).
    { split; [apply init_selection; auto; cbn [t_perm]; apply Permutation_refl|]. split; [exact RHH|]. split; [reflexivity|]. split; [apply SO|]. split; [apply SO|]. intros; lia. }
    pose proof (fun r' => breed_Ok Nat.ltb lt F 0 parents n mu ts nat_lt_order Nat.ltb_lt A1 A2 LFF TS kd b FB STK mu 0 _ r' eq_refl INIT) as BU.
    apply obind_inv in E as [([[t' h'] bs] & E1 & E2)|[(e & E1 & ->)|[E1 ->]]];
      destruct (BU _ E1) as ([[t'' h''] bs'] & X & AT & RH' & KD' & LBS & FBS & BR); try discriminate.
    apply Ok_inj in X. injection X as <- <- <-. apply Some_inj in E2. subst r. exists tt. eexists. split; [reflexivity|].
    unfold ms_put. cbn [ms_trace ms_mem ns_solutions]. split; [|reflexivity].
    unfold first_generation. cbn [ms_trace ms_mem ns_parents ns_offs m_bvs]. split; [|split].
    - unfold nsga2_between. cbn [ms_mem ns_parents ns_offs ns_full ns_mut ns_fronts ns_dists ns_perm ns_pairs ns_sel m_bvs m_values].
      destruct SO as (O1 & O2 & O3), SF as (F1 & F2 & F3). repeat (split; [first [assumption|reflexivity|idtac]|]); try assumption; try reflexivity.
      + unfold identity. rewrite seq_length. exact LP.
    - unfold s1, ms_put. cbn [ms_trace]. rewrite T0. reflexivity.
    - exists (fun i => nth i F 0). split; [exact RANK|]. split; [lia|]. rewrite A1. exact BR.
  Qed.

  (** * End of a run *)

  Lemma collect_Ok kd ord s r : visits ord -> nsga2_between n m mu ts kd o s -> sized mu n (ns_solutions (ms_mem s)) ->
    nsga2_collect ord (ms_mem s) = Some r ->
    exists c rank, r = Ok (tt, c) /\
      let parents := m_bvs (ns_parents (ms_mem s)) in
      (forall i, i < mu -> in_front (map (mo_value o) parents) (rank i) i) /\
      m_bvs (ns_solutions c) = map (fun i => nth i parents []) (filter (fun i => rank i =? 0) (seq 0 mu)) /\
      m_values (ns_solutions c) = map (mo_value o) (m_bvs (ns_solutions c)) /\ m_bvs (ns_solutions c) <> [].
  Proof.
    intros V (_ & P1 & P2 & P3 & _) (S1 & S2 & S3) E. unfold nsga2_collect in E. set (parents := m_bvs (ns_parents (ms_mem s))) in *. rewrite P1, P3 in E.
    assert (SSV : same_sizes m (map (mo_value o) parents)) by (apply (values_sizes n m o OB); exact P2).
    assert (LV : length (map (mo_value o) parents) = mu) by (rewrite map_length; exact P1).
    destruct (ranks_of m (map (mo_value o) parents) ord mu (repeat 0 mu) SSV V ltac:(lia) ltac:(rewrite repeat_length; lia)) as (F & EF & LFF & RANK). rewrite LV in LFF.
    rewrite EF in E. cbn [obind] in E. set (rank := fun i => nth i F 0) in *.
    set (firsts := fun k => filter (fun i => rank i =? 0) (seq 0 k)).
    assert (CNT : forall k, length (firsts k) <= k) by (intros k; unfold firsts; rewrite <- (seq_length k 0) at 2; apply filter_le).
    destruct (foldM_upto (fun k (st : mpop * nat) => let '(sol, index) := st in
        length (m_bvs sol) = mu /\ length (m_values sol) = mu /\ index = length (firsts k) /\
        firstn index (m_bvs sol) = map (fun i => nth i parents []) (firsts k) /\
        firstn index (m_values sol) = map (fun i => mo_value o (nth i parents [])) (firsts k))
      (fun '(sol, index) i =>
        f <- vget F i ;;
        if f =? 0 then
          b <- vget parents i ;;
          bs <- vset (m_bvs sol) index b ;;
          v <- vget (map (mo_value o) parents) i ;;
          vs <- vset (m_values sol) index v ;;
          Ok (mk_mpop bs vs, index + 1)
        else Ok (sol, index)) mu (ns_solutions (ms_mem s), 0)) as ([sol index] & EL & L1 & L2 & -> & V1 & V2).
    - repeat split; auto.
    - intros i [sol index] Hi (L1 & L2 & -> & V1 & V2).
      assert (FS : firsts (S i) = firsts i ++ (if rank i =? 0 then [i] else [])).
      { unfold firsts. rewrite seq_S, filter_app. cbn [filter Nat.add]. destruct (rank i =? 0); reflexivity. }
      rewrite (vget_nth F i 0) by lia. cbn [bind]. fold (rank i). rewrite FS. destruct (rank i =? 0).
      + specialize (CNT i). rewrite (vget_nth parents i []) by lia. cbn [bind]. rewrite vset_Ok by lia. cbn [bind].
        rewrite (vget_nth (map (mo_value o) parents) i []) by lia. cbn [bind]. rewrite vset_Ok by lia. cbn [bind].
        eexists. split; [reflexivity|]. cbn [m_bvs m_values]. rewrite !length_upd, app_length. cbn [length]. split; [exact L1|]. split; [exact L2|]. split; [lia|].
        assert (FU : forall {A} (l : list A) j (a : A), j < length l -> firstn (j + 1) (upd l j a) = firstn j l ++ [a]).
        { intros A l. induction l as [|x l IH]; intros j a Hj; [cbn in Hj; lia|]. destruct j; [reflexivity|]. cbn [Nat.add upd firstn app]. f_equal. apply IH. cbn in Hj. lia. }
        rewrite !FU by lia. rewrite V1, V2, !map_app. cbn [map]. split; [reflexivity|]. f_equal. f_equal. apply nth_of_map. lia.
      + rewrite app_nil_r. eexists. split; [reflexivity|]. cbn beta iota. repeat (split; [first [assumption|reflexivity]|]). assumption.
    - rewrite EL in E. cbn [bind] in E.
      assert (POS : 0 < length (firsts mu)).
      { destruct (ranks_contiguous (map (mo_value o) parents) m SSV rank RANK 0 0) as (j & J1 & J2); [lia|lia|]. rewrite LV in J1.
        assert (In j (firsts mu)). { unfold firsts. apply filter_In. split; [apply in_seq; lia|]. apply Nat.eqb_eq. exact J2. }
        destruct (firsts mu); [contradiction|]. cbn. lia. }
      specialize (CNT mu). unfold mpop_shrink in E. rewrite (proj2 (Nat.ltb_lt 0 _)) in E by exact POS. cbn [assertb bind] in E.
      rewrite (proj2 (Nat.ltb_ge (length (m_bvs sol)) _)) in E by lia. cbn [bind] in E. apply Some_inj in E. subst r.
      eexists _, rank. split; [reflexivity|]. cbn [ns_solutions m_bvs m_values]. cbv zeta. split; [intros i Hi; apply RANK; lia|].
      split; [exact V1|]. rewrite V1, V2. split; [rewrite map_map; reflexivity|]. destruct (firsts mu); [cbn in POS; lia|discriminate].
  Qed.
End Run.

(** * Runs *)

Section Minimize.
  Variables n m mu : nat.
  Variable o : mobjective.
  Hypothesis OB : objectives n m o.
  Variable p : nsga2_parameters.
  Let ts := np_tournament_size p.
  Hypothesis TS : 2 <= ts < mu.

  Lemma minimize_wp srt bits ord sh garbage b g ord' num s : sorts srt -> visits ord -> visits ord' -> shuffles sh -> fair_breeding n b ->
    (forall t, fair_generation n (g t)) -> nsga2_sized n mu (ms_mem s) -> ms_trace s = [] ->
    let kd := kind_after (ns_mut (ms_mem s)) p in
    wp (nsga2_minimize o srt p bits ord sh garbage b g ord' num)
      (fun _ s' => exists s0 s1, first_generation n m mu ts kd o (b_cross b) s0 /\
         generations n m mu ts kd o (fun t => b_cross (g_breeding (g t))) 0 (Z.to_nat num) s0 s1 /\ returned mu o s1 s')
      (interrupted o s) s.
  Proof.
    intros SRT V V' SH FB FG W T0 kd. unfold nsga2_minimize. apply wp_bind. eapply wp_mono; [apply (init_wp n m mu o OB p TS bits ord sh garbage b s); assumption| |auto].
    cbn beta. intros _ s0 (FI & SOL0). fold ts kd in FI. apply wp_bind. pose proof FI as (BT0 & TR0 & _).
    assert (LATER : forall e s2, interrupted o s0 e s2 -> interrupted o s e s2).
    { intros e s2. apply interrupted_later; [exists (ms_trace s0); rewrite T0; reflexivity|exact SOL0]. }
    eapply wp_mono; [apply (iterations_wp n m mu ts kd o OB srt g (Z.to_nat num) SRT FG 0 s0 BT0)| |exact LATER].
    cbn beta. intros _ s1 (G & BT1 & SOL1).
    apply wp_ms_do.
    - intros r E. destruct (collect_Ok n m mu o OB p TS kd ord' s1 r V' BT1) as (c & rank & -> & R1 & R2 & R3 & R4); [rewrite SOL1, SOL0; apply W|exact E|].
      exists tt, c. split; [reflexivity|]. exists s0, s1. split; [exact FI|]. split; [exact G|]. split; [reflexivity|]. split; [exact R4|]. split; [exact R3|]. exists rank. auto.
    - intros _. split; [|split; [congruence|discriminate]]. exists (ms_trace s1). rewrite T0. reflexivity.
  Qed.
End Minimize.

(** * What the parents keep *)

Section Keep.
  Variables n m mu : nat.
  Variable o : mobjective.
  Hypothesis OB : objectives n m o.
  Let better x y := pareto_better (mo_value o x) (mo_value o y).
  Let long (T : list bv) := Forall (fun x => length x = n) T.

  Lemma dropped pool rank dist kept : survivors (map (mo_value o) pool) m mu rank dist kept ->
    exists rest, (forall j, In j rest -> j < length pool /\ ~ In j kept) /\ (forall j, j < length pool -> In j kept \/ In j rest) /\
      Permutation pool (map (fun i => nth i pool []) kept ++ map (fun i => nth i pool []) rest).
  Proof.
    intros (ND & LK & KL & _). rewrite map_length in KL.
    set (rest := filter (fun j => negb (existsb (Nat.eqb j) kept)) (seq 0 (length pool))).
    assert (IR : forall j, In j rest <-> j < length pool /\ ~ In j kept).
    { intros j. unfold rest. rewrite filter_In, in_seq, Bool.negb_true_iff. split; intros [A B].
      - split; [lia|]. intros C. apply (proj2 (existsb_eqb j kept)) in C. congruence.
      - split; [lia|]. destruct (existsb (Nat.eqb j) kept) eqn:E; [|reflexivity]. apply existsb_eqb in E. contradiction. }
    exists rest. split; [intros j Hj; apply IR; exact Hj|]. split.
    { intros j Hj. destruct (in_dec Nat.eq_dec j kept) as [I|I]; [left; exact I|right; apply IR; auto]. }
    rewrite <- map_app. transitivity (map (fun i => nth i pool []) (seq 0 (length pool))).
    - replace (map (fun i => nth i pool []) (seq 0 (length pool))) with pool; [apply Permutation_refl|].
      apply (nth_ext _ _ [] []); [rewrite map_length, seq_length; reflexivity|]. intros i Hi. rewrite nth_map_seq by exact Hi. reflexivity.
    - apply Permutation_map, NoDup_Permutation; [apply seq_NoDup| |].
      + apply NoDup_app_intro; [exact ND|apply NoDup_filter, seq_NoDup|]. intros j A B. apply IR in B. tauto.
      + intros j. rewrite in_app_iff, in_seq, IR. split.
        * intros Hj. destruct (in_dec Nat.eq_dec j kept); [left; assumption|right; split; [lia|assumption]].
        * intros [Hj|Hj]; [apply KL in Hj; lia|lia].
  Qed.

  (** Parents are some of the evaluated vectors. *)
  Definition among (s : mstate) : Prop := long (ms_trace s) /\ exists other, Permutation (ms_trace s) (m_bvs (ns_parents (ms_mem s)) ++ other).

  Lemma first_among ts kd cross s : first_generation n m mu ts kd o cross s -> among s.
  Proof.
    intros (BT & TR & _). split; [rewrite TR; apply BT|]. exists []. rewrite TR, app_nil_r. apply Permutation_refl.
  Qed.

  Lemma next_among ts kd cross s s' : nsga2_between n m mu ts kd o s -> next_generation n m mu ts kd o cross s s' -> among s -> among s'.
  Proof.
    intros BT (BT' & TR & rank & dist & kept & SU & EP & _) (LO & other & P). split; [unfold long; rewrite TR; apply Forall_app; split; [exact LO|apply BT]|].
    destruct (dropped _ _ _ _ SU) as (rest & _ & _ & PP). eexists. rewrite TR, EP.
    eapply Permutation_trans; [apply Permutation_app_tail; exact P|]. rewrite <- app_assoc.
    eapply Permutation_trans; [apply Permutation_app_head, Permutation_app_comm|]. rewrite app_assoc.
    eapply Permutation_trans; [apply Permutation_app_tail; exact PP|]. rewrite <- app_assoc. apply Permutation_refl.
  Qed.

  (** Individuals left aside although not dominated leave only such individuals in the parents. *)
  Lemma kept_zero values rank dist kept i j : survivors values m mu rank dist kept -> In i kept -> j < length values -> ~ In j kept -> rank j = 0 -> rank i = 0 /\ at_least (dist i) (dist j).
  Proof. intros (_ & _ & _ & _ & _ & H) Hi Hj NJ R. destruct (H i j Hi Hj NJ) as [C|[C D]]; [lia|]. split; [congruence|exact D]. Qed.

  (** ** Extreme values *)

  Lemma infinite_members values rank dist kept : same_sizes m values -> 2 * m <= mu -> survivors values m mu rank dist kept ->
    forall k j, k < m -> j < length values -> exists i, In i kept /\ (val values i k <= val values j k)%Z.
  Proof.
    intros SS Hmu SU k j Hk Hj. set (N := length values) in *. pose proof SU as (ND & LK & KL & RANK & (orders & OR) & _). fold N in KL, RANK, OR.
    destruct (minimal_exists (fun a b => pareto_better (nth a values []) (nth b values [])) (seq 0 N)) with (x := j) as (y & Y1 & Y2 & Y3).
    { intros a b Ha Hb. apply in_seq in Ha, Hb. apply (better_dec values m SS); unfold N in *; lia. } { intros a _. apply pareto_irrefl. }
    { intros a b c Ha Hb _. apply in_seq in Ha, Hb. apply (better_trans values m SS); unfold N in *; lia. } { apply in_seq. lia. }
    apply in_seq in Y1.
    assert (VY : (val values y k <= val values j k)%Z).
    { destruct Y2 as [->|[Y2 _]]; [lia|]. apply Y2. rewrite (value_length m values SS) by (unfold N in *; lia). exact Hk. }
    assert (RY : rank y = 0).
    { destruct (rank y) as [|r] eqn:E; [reflexivity|]. destruct (rank_dominated values m SS rank RANK y) as (z & Z1 & _ & Z3); [unfold N in *; lia|lia|]. destruct (Y3 z); [apply in_seq; unfold N; lia|exact Z3]. }
    destruct (in_dec Nat.eq_dec y kept) as [IY|NY]; [exists y; auto|].
    assert (K0 : forall i, In i kept -> rank i = 0). { intros i Hi. apply (kept_zero values rank dist kept i y); auto. unfold N in *; lia. }
    assert (EX : exists i0, In i0 kept). { destruct kept as [|i0 kept]; [cbn in LK; lia|]. exists i0. left. reflexivity. }
    destruct EX as (i0 & I0). destruct (OR i0 I0) as [O1 O2]. rewrite (K0 i0 I0) in O1, O2.
    destruct (O1 k Hk) as [P S]. set (mem := filter (fun j => rank j =? 0) (seq 0 N)) in *.
    assert (IM : forall x, In x mem <-> x < N /\ rank x = 0) by (intros x; unfold mem; rewrite filter_In, in_seq, Nat.eqb_eq; lia).
    assert (NDM : NoDup mem) by apply NoDup_filter, seq_NoDup.
    assert (YO : In y (orders 0 k)) by (apply (Permutation_in _ P), IM; split; [lia|exact RY]).
    destruct (orders 0 k) as [|e rest] eqn:EO; [destruct YO|].
    assert (VE : (val values e k <= val values y k)%Z).
    { destruct YO as [->|YO]; [lia|]. apply StronglySorted_inv in S as [_ S]. rewrite Forall_forall in S. exact (S y YO). }
    assert (EM : e < N /\ rank e = 0) by (apply IM, (Permutation_in _ (Permutation_sym P)); left; reflexivity).
    assert (NDO : forall k', k' < m -> NoDup (orders 0 k')) by (intros k' Hk'; apply (Permutation_NoDup (proj1 (O1 k' Hk'))); exact NDM).
    assert (INF : dist e = Infinite).
    { specialize (O2 e (proj1 EM) (proj2 EM)). destruct (dist e) as [s|]; [|reflexivity]. exfalso. destruct O2 as (gap & G & _). destruct (G k Hk) as (before & a & b & after & G1 & _).
      pose proof (NDO k Hk) as NDk. rewrite EO in G1, NDk. destruct before as [|x before]; cbn [app] in G1; injection G1 as -> ->.
      - apply NoDup_cons_iff in NDk as [NDk _]. apply NDk. left. reflexivity.
      - apply NoDup_cons_iff in NDk as [NDk _]. apply NDk. apply in_or_app. right. right. left. reflexivity. }
    destruct (in_dec Nat.eq_dec e kept) as [IE|NE]; [exists e; split; [exact IE|lia]|]. exfalso.
    set (ends := flat_map (fun k' => [hd 0 (orders 0 k'); last (orders 0 k') 0]) (seq 0 m)).
    assert (LE : length ends = 2 * m).
    { unfold ends. rewrite <- (seq_length m 0) at 2. induction (seq 0 m) as [|a l IH]; [reflexivity|]. cbn [flat_map app length]. rewrite IH. lia. }
    assert (SUB : forall i, In i (e :: kept) -> In i ends).
    { intros i Hi. assert (Ri : i < N /\ rank i = 0) by (destruct Hi as [<-|Hi]; [exact EM|split; [apply KL; exact Hi|apply K0; exact Hi]]).
      assert (Di : dist i = Infinite).
      { destruct Hi as [<-|Hi]; [exact INF|]. destruct (kept_zero values rank dist kept i e SU Hi) as [_ AL]; [apply EM|exact NE|apply EM|]. rewrite INF in AL. destruct (dist i); [destruct AL|reflexivity]. }
      specialize (O2 i (proj1 Ri) (proj2 Ri)). rewrite Di in O2. destruct O2 as (k' & r & K1 & K2). unfold ends. apply in_flat_map. exists k'. split; [apply in_seq; lia|].
      destruct K2 as [->| ->]; [left; reflexivity|right; left]. apply last_last. }
    assert (NDE : NoDup (e :: kept)) by (constructor; assumption).
    pose proof (NoDup_incl_length NDE SUB) as LEN. cbn [length] in LEN. lia.
  Qed.

  Definition extremes (s : mstate) : Prop :=
    forall k x, k < m -> In x (ms_trace s) -> exists y, In y (m_bvs (ns_parents (ms_mem s))) /\ (nth k (mo_value o y) 0 <= nth k (mo_value o x) 0)%Z.

  Lemma next_extremes ts kd cross s s' : 2 * m <= mu -> nsga2_between n m mu ts kd o s -> next_generation n m mu ts kd o cross s s' -> extremes s -> extremes s'.
  Proof.
    intros Hmu BT (BT' & TR & rank & dist & kept & SU & EP & _) EX k x Hk Hx.
    set (pool := m_bvs (ns_parents (ms_mem s)) ++ m_bvs (ns_offs (ms_mem s))) in *.
    assert (LO : Forall (fun x => length x = n) pool) by (apply Forall_app; split; apply BT).
    assert (HP : exists z, In z pool /\ (nth k (mo_value o z) 0 <= nth k (mo_value o x) 0)%Z).
    { rewrite TR in Hx. apply in_app_or in Hx as [Hx|Hx].
      - destruct (EX k x Hk Hx) as (z & Z1 & Z2). exists z. split; [apply in_or_app; left; exact Z1|exact Z2].
      - exists x. split; [apply in_or_app; right; exact Hx|lia]. }
    destruct HP as (z & Z1 & Z2). apply (In_nth _ _ []) in Z1 as (j & J1 & <-).
    pose proof (values_sizes n m o OB pool LO) as SS.
    destruct (infinite_members _ rank dist kept SS Hmu SU k j Hk) as (i & I1 & I2); [rewrite map_length; exact J1|].
    assert (IL : i < length pool). { destruct SU as (_ & _ & KL & _). rewrite map_length in KL. apply KL. exact I1. }
    unfold val in I2. rewrite !(nth_of_map (mo_value o) pool _ [] []) in I2 by assumption.
    exists (nth i pool []). split; [rewrite EP; apply in_map_iff; exists i; auto|lia].
  Qed.

  (** ** All non-dominated vectors *)

  (** The evaluated vectors which are not parents are dominated. *)
  Definition elite (s : mstate) : Prop :=
    exists other, Permutation (ms_trace s) (m_bvs (ns_parents (ms_mem s)) ++ other) /\ forall x, In x other -> exists y, In y (ms_trace s) /\ better y x.

  Lemma count_front T A B : Permutation T (A ++ B) -> (forall x, In x B -> exists y, In y T /\ better y x) ->
    Permutation (non_dominated o T) (filter (fun x => forallb (fun y => negb (paretob (mo_value o y) (mo_value o x))) T) A).
  Proof.
    intros P H. unfold non_dominated at 1. set (g := fun x => forallb (fun y => negb (paretob (mo_value o y) (mo_value o x))) T).
    assert (PF : forall l l', Permutation l l' -> Permutation (filter g l) (filter g l')).
    { induction 1 as [|a l l' H1 IH|a b l|l l1 l2 H1 IH H2 IH2]; cbn [filter]; [constructor| | |eapply Permutation_trans; eassumption].
      - destruct (g a); [constructor|]; exact IH.
      - destruct (g a), (g b); try apply Permutation_refl. constructor. }
    eapply Permutation_trans; [apply PF; exact P|]. rewrite filter_app.
    replace (filter g B) with (@nil bv); [rewrite app_nil_r; apply Permutation_refl|]. symmetry. apply filter_nil. intros x Hx. destruct (H x Hx) as (y & Y1 & Y2).
    unfold g. apply Bool.not_true_is_false. intros C. rewrite forallb_forall in C. specialize (C y Y1). apply paretob_spec in Y2. rewrite Y2 in C. discriminate.
  Qed.

  (** Being dominated by an evaluated vector is being dominated by one of those kept. *)
  Lemma dominated_in T A B x : long T -> Permutation T (A ++ B) -> (forall x, In x B -> exists y, In y T /\ better y x) ->
    (exists y, In y T /\ better y x) -> exists y, In y A /\ better y x.
  Proof.
    intros LO P H (y & Y1 & Y2). destruct (best_of_all_dominating n m o OB T y LO Y1) as (z & Z1 & Z2 & Z3).
    assert (BZ : better z x).
    { destruct Z2 as [->|Z2]; [exact Y2|]. unfold better in *. apply pareto_trans with (mo_value o y); auto. unfold long in LO. rewrite Forall_forall in LO. rewrite !(proj2 OB) by auto. reflexivity. }
    exists z. split; [|exact BZ]. apply (Permutation_in _ P), in_app_or in Z1 as [Z1|Z1]; [exact Z1|]. destruct (H z Z1) as (w & W1 & W2). destruct (Z3 w W1 W2).
  Qed.

  Lemma next_elite ts kd cross s s' : nsga2_between n m mu ts kd o s -> next_generation n m mu ts kd o cross s s' -> among s -> elite s ->
    length (non_dominated o (ms_trace s')) <= mu -> elite s'.
  Proof.
    intros BT NG AM (other & P & H) CNT. pose proof (next_among _ _ _ _ _ BT NG AM) as [LO' _].
    destruct NG as (BT' & TR & rank & dist & kept & SU & EP & _).
    set (pool := m_bvs (ns_parents (ms_mem s)) ++ m_bvs (ns_offs (ms_mem s))) in *. set (T := ms_trace s') in *.
    assert (LO : Forall (fun x => length x = n) pool) by (apply Forall_app; split; apply BT).
    assert (PT : Permutation T (pool ++ other)).
    { rewrite TR. eapply Permutation_trans; [apply Permutation_app_tail; exact P|]. unfold pool. rewrite <- !app_assoc. apply Permutation_app_head, Permutation_app_comm. }
    assert (HO : forall x, In x other -> exists y, In y T /\ better y x).
    { intros x Hx. destruct (H x Hx) as (y & Y1 & Y2). exists y. split; [rewrite TR; apply in_or_app; left; exact Y1|exact Y2]. }
    destruct (dropped _ _ _ _ SU) as (rest & R1 & R2 & PP). exists (map (fun i => nth i pool []) rest ++ other). rewrite EP. split.
    { eapply Permutation_trans; [exact PT|]. rewrite app_assoc. apply Permutation_app_tail. exact PP. }
    intros x Hx. apply in_app_or in Hx as [Hx|Hx]; [|apply HO; exact Hx]. apply in_map_iff in Hx as (j & <- & Hj). destruct (R1 j Hj) as [J1 J2].
    pose proof SU as (ND & LK & KL & RANK & _). rewrite map_length in KL, RANK.
    destruct (Nat.eq_dec (rank j) 0) as [Z|NZ].
    - exfalso. assert (LS : length (map (fun i => nth i pool []) (j :: kept)) <= length (non_dominated o T)); [|rewrite map_length in LS; cbn [length] in LS; lia].
      rewrite (Permutation_length (count_front T pool other PT HO)).
      set (g := fun x => forallb (fun y => negb (paretob (mo_value o y) (mo_value o x))) T).
      assert (G0 : forall i, i < length pool -> rank i = 0 -> g (nth i pool []) = true).
      { intros i Hi Ri. unfold g. apply forallb_forall. intros y Hy. apply Bool.negb_true_iff. apply Bool.not_true_is_false. intros C. apply paretob_spec in C.
        destruct (dominated_in T pool other (nth i pool []) LO' PT HO) as (z & Z1 & Z2); [exists y; auto|].
        apply (proj1 (rank_zero n m o OB pool rank i LO RANK Hi)) with (y := z) in Ri; [exact (Ri Z2)|exact Z1]. }
      assert (FP : forall l l', Permutation l l' -> length (filter g l) = length (filter g l')) by (intros l l'; apply count_filter).
      rewrite (FP _ _ PP), filter_app, app_length.
      assert (ALL : forall l, (forall x, In x l -> g x = true) -> length (filter g l) = length l).
      { induction l as [|a l IH]; intros HA; [reflexivity|]. cbn [filter]. rewrite (HA a) by (left; reflexivity). cbn [length]. f_equal. apply IH. intros; apply HA; right; assumption. }
      rewrite (ALL (map _ kept)).
      + assert (1 <= length (filter g (map (fun i => nth i pool []) rest))); [|cbn [map length]; lia].
        assert (IG : In (nth j pool []) (filter g (map (fun i => nth i pool []) rest))) by (apply filter_In; split; [apply in_map_iff; exists j; auto|apply G0; assumption]).
        destruct (filter g (map (fun i => nth i pool []) rest)); [destruct IG|cbn; lia].
      + intros x Hx. apply in_map_iff in Hx as (i & <- & Hi). apply G0; [apply KL; exact Hi|]. apply (kept_zero _ rank dist kept i j SU Hi); [rewrite map_length; exact J1|exact J2|exact Z].
    - destruct (rank_dominated (map (mo_value o) pool) m (values_sizes n m o OB pool LO) rank ltac:(rewrite map_length; exact RANK) j) as (i & I1 & _ & I3); [rewrite map_length; exact J1|lia|].
      rewrite map_length in I1. rewrite !(nth_of_map (mo_value o) pool _ [] []) in I3 by assumption. exists (nth i pool []). split; [|exact I3].
      apply (Permutation_in _ (Permutation_sym PT)), in_or_app. left. apply nth_In. exact I1.
  Qed.

  (** * Solutions *)

  Lemma returned_are s s' ts kd : nsga2_between n m mu ts kd o s -> returned mu o s s' ->
    let parents := m_bvs (ns_parents (ms_mem s)) in
    (forall x, In x (m_bvs (ns_solutions (ms_mem s'))) <-> In x parents /\ forall y, In y parents -> ~ better y x) /\
    m_bvs (ns_solutions (ms_mem s')) = filter (fun x => forallb (fun y => negb (paretob (mo_value o y) (mo_value o x))) parents) parents.
  Proof.
    intros BT (_ & _ & _ & rank & RANK & E) parents. fold parents in RANK, E. pose proof BT as (_ & L & LO & _). fold parents in L, LO.
    assert (EQ : m_bvs (ns_solutions (ms_mem s')) = filter (fun x => forallb (fun y => negb (paretob (mo_value o y) (mo_value o x))) parents) parents).
    { rewrite E. assert (MP : map (fun i => nth i parents []) (seq 0 mu) = parents).
      { apply (nth_ext _ _ [] []); [rewrite map_length, seq_length; lia|]. intros i Hi. rewrite map_length, seq_length in Hi. rewrite nth_map_seq by exact Hi. reflexivity. }
      match goal with |- _ = filter ?g _ => transitivity (filter g (map (fun i => nth i parents []) (seq 0 mu))); [|rewrite MP; reflexivity] end.
      assert (FM : forall (g : bv -> bool) (h : nat -> bv) l, filter g (map h l) = map h (filter (fun i => g (h i)) l)).
      { intros g h l. induction l as [|a l IH]; [reflexivity|]. cbn [map filter]. destruct (g (h a)); cbn [map]; rewrite IH; reflexivity. }
      rewrite FM. f_equal. apply filter_ext_in. intros i Hi. apply in_seq in Hi.
      pose proof (rank_zero n m o OB parents rank i LO ltac:(rewrite L; exact RANK) ltac:(lia)) as RZ.
      destruct (Nat.eqb_spec (rank i) 0) as [Z|NZ]; symmetry.
      - apply forallb_forall. intros y Hy. apply Bool.negb_true_iff, Bool.not_true_is_false. intros C. apply paretob_spec in C. exact (proj1 RZ Z y Hy C).
      - apply Bool.not_true_is_false. intros C. apply NZ, RZ. intros y Hy B. rewrite forallb_forall in C. specialize (C y Hy). apply paretob_spec in B. rewrite B in C. discriminate. }
    split; [|exact EQ]. intros x. rewrite EQ, filter_In, forallb_forall. apply and_iff_compat_l. unfold better.
    split; intros A y Hy; specialize (A y Hy); rewrite <- paretob_spec in *.
    - apply Bool.negb_true_iff in A. congruence.
    - apply Bool.negb_true_iff. destruct (paretob (mo_value o y) (mo_value o x)); [destruct (A eq_refl)|reflexivity].
  Qed.

  Lemma generations_inv (I : mstate -> Prop) (C : list bv -> Prop) ts kd cross count : (forall t s s', nsga2_between n m mu ts kd o s -> next_generation n m mu ts kd o (cross t) s s' -> I s -> C (ms_trace s') -> I s') ->
    forall i s s', nsga2_between n m mu ts kd o s -> length (ms_trace s) = mu * (i + 1) -> (forall t, i < t <= i + count -> C (firstn (mu * (t + 1)) (ms_trace s'))) ->
    generations n m mu ts kd o cross i count s s' -> I s -> I s' /\ nsga2_between n m mu ts kd o s' /\ length (ms_trace s') = mu * (i + count + 1) /\ exists post, ms_trace s' = ms_trace s ++ post.
  Proof.
    intros STEP. induction count as [|count IH]; intros i s s' BT LT HC G HI; cbn [generations] in G.
    - subst s'. rewrite Nat.add_0_r. split; [exact HI|]. split; [exact BT|]. split; [exact LT|]. exists []. rewrite app_nil_r. reflexivity.
    - destruct G as (s1 & NG & G). pose proof NG as (BT1 & TR & _). pose proof BT as (_ & _ & _ & _ & LOF & _).
      assert (L1 : length (ms_trace s1) = mu * (i + 1 + 1)) by (rewrite TR, app_length, LT, LOF; lia).
      assert (POST : forall s2 count j, generations n m mu ts kd o cross j count s1 s2 -> exists post, ms_trace s2 = ms_trace s1 ++ post).
      { intros s2 c. clear. revert s1. induction c as [|c IH]; intros s1 j G; cbn [generations] in G; [subst; exists []; rewrite app_nil_r; reflexivity|].
        destruct G as (s3 & (_ & TR & _) & G). destruct (IH _ _ G) as (post & E). eexists. rewrite E, TR, <- app_assoc. reflexivity. }
      destruct (POST _ _ _ G) as (post & EP).
      destruct (IH (i + 1) s1 s' BT1 L1) as (A1 & A2 & A3 & A4).
      + intros t Ht. apply HC. lia.
      + exact G.
      + apply (STEP i s s1 BT NG HI). specialize (HC (i + 1) ltac:(lia)). rewrite EP, firstn_app, <- L1, firstn_all, Nat.sub_diag, firstn_O, app_nil_r in HC. exact HC.
      + split; [exact A1|]. split; [exact A2|]. split; [rewrite A3; f_equal; lia|]. eexists. rewrite EP, TR, <- app_assoc. reflexivity.
  Qed.
End Keep.

Lemma generations_last n m mu ts kd o cross count : forall i s s', generations n m mu ts kd o cross i (S count) s s' ->
  exists s1, generations n m mu ts kd o cross i count s s1 /\ next_generation n m mu ts kd o (cross (i + count)) s1 s'.
Proof.
  induction count as [|count IH]; intros i s s' (s1 & NG & G).
  - cbn [generations] in G. subst s1. exists s. rewrite Nat.add_0_r. split; [reflexivity|exact NG].
  - destruct (IH (i + 1) s1 s' G) as (s2 & G2 & NG2). exists s2. split; [exists s1; auto|]. replace (i + S count) with (i + 1 + count) by lia. exact NG2.
Qed.

(** * What a completed run returns *)

Section Completed.
  Variables n m mu ts : nat.
  Variable kd : nh_kind.
  Variable o : mobjective.
  Hypothesis OB : objectives n m o.
  Variables (cross0 : nat -> bool) (cross : nat -> nat -> bool) (count : nat) (s0 s1 s' : mstate).
  Hypothesis FI : first_generation n m mu ts kd o cross0 s0.
  Hypothesis G : generations n m mu ts kd o cross 0 count s0 s1.
  Hypothesis RT : returned mu o s1 s'.
  Let better x y := pareto_better (mo_value o x) (mo_value o y).
  Let T := ms_trace s'.
  Let sols := m_bvs (ns_solutions (ms_mem s')).
  Let parents := m_bvs (ns_parents (ms_mem s1)).

  Lemma first_trace : length (ms_trace s0) = mu * (0 + 1).
  Proof. destruct FI as ((_ & L & _) & TR & _). rewrite TR, L. lia. Qed.

  Lemma T_is : T = ms_trace s1.
  Proof. apply RT. Qed.

  Lemma completed_between : nsga2_between n m mu ts kd o s1 /\ length T = mu * (count + 1) /\ among n s1.
  Proof.
    destruct (generations_inv n m mu o (among n) (fun _ => True) ts kd cross count) with (i := 0) (s := s0) (s' := s1) as (A & B & C & _).
    - intros t s s2 BT NG AM _. exact (next_among n m mu o _ _ _ _ _ BT NG AM).
    - apply FI.
    - exact first_trace.
    - auto.
    - exact G.
    - exact (first_among n m mu o _ _ _ _ FI).
    - rewrite T_is. split; [exact B|]. split; [exact C|exact A].
  Qed.

  Lemma parents_evaluated x : In x parents -> In x T /\ length x = n.
  Proof.
    intros Hx. destruct completed_between as (BT & _ & LO & other & P). split.
    - rewrite T_is. apply (Permutation_in _ (Permutation_sym P)), in_or_app. left. exact Hx.
    - destruct BT as (_ & _ & L & _). rewrite Forall_forall in L. apply L. exact Hx.
  Qed.

  Lemma solutions_are x : In x sols <-> In x parents /\ forall y, In y parents -> ~ better y x.
  Proof. apply (returned_are n m mu o OB s1 s' ts kd (proj1 completed_between) RT). Qed.

  Lemma solutions_facts : sols <> [] /\ length sols <= mu /\ m_values (ns_solutions (ms_mem s')) = map (mo_value o) sols /\
    (forall x, In x sols -> In x T /\ length x = n) /\ (forall x y, In x sols -> In y sols -> ~ better x y).
  Proof.
    split; [apply RT|]. split.
    { destruct (returned_are n m mu o OB s1 s' ts kd (proj1 completed_between) RT) as [_ E]. fold sols in E. rewrite E.
      destruct completed_between as ((_ & L & _) & _). eapply Nat.le_trans; [apply filter_le|]. rewrite L. apply Nat.le_refl. }
    split; [apply RT|]. split; [intros x Hx; apply solutions_are in Hx; apply parents_evaluated, Hx|].
    intros x y Hx Hy. apply solutions_are in Hx, Hy. apply Hy, Hx.
  Qed.

  Lemma solutions_last x y : In x sols -> In y (skipn (length T - mu) T) -> ~ better y x.
  Proof.
    intros Hx Hy B. apply solutions_are in Hx as [Hx Hn]. rewrite T_is in Hy. destruct count as [|c].
    - pose proof G as G1. cbn [generations] in G1. rewrite G1 in *. pose proof FI as (_ & TR & _). rewrite TR in Hy.
      apply (Hn y); [|exact B]. unfold parents. rewrite G1. rewrite <- (firstn_skipn (length (m_bvs (ns_parents (ms_mem s0))) - mu) (m_bvs (ns_parents (ms_mem s0)))). apply in_or_app. right. exact Hy.
    - destruct (generations_last _ _ _ _ _ _ _ _ _ _ _ G) as (s2 & G2 & NG).
      assert (BT2 : nsga2_between n m mu ts kd o s2).
      { destruct (generations_inv n m mu o (fun _ => True) (fun _ => True) ts kd cross c) with (i := 0) (s := s0) (s' := s2) as (_ & BT2 & _); auto; [apply FI|exact first_trace]. }
      destruct NG as (BT' & TR & rank & dist & kept & SU & EP & _). set (pool := m_bvs (ns_parents (ms_mem s2)) ++ m_bvs (ns_offs (ms_mem s2))) in *.
      assert (LO : Forall (fun x => length x = n) pool) by (apply Forall_app; split; apply BT2).
      assert (YP : In y pool).
      { apply in_or_app. right. rewrite TR in Hy. rewrite app_length in Hy. pose proof BT2 as (_ & _ & _ & _ & LOF & _). rewrite LOF, Nat.add_sub, skipn_app, Nat.sub_diag, skipn_all, skipn_O in Hy. exact Hy. }
      destruct (best_of_all_dominating n m o OB pool y LO YP) as (z & Z1 & Z2 & Z3).
      assert (XP : In x pool).
      { unfold parents in Hx. rewrite EP in Hx. apply in_map_iff in Hx as (i & <- & Hi). apply nth_In. destruct SU as (_ & _ & KL & _). rewrite map_length in KL. apply KL. exact Hi. }
      assert (BZ : pareto_better (mo_value o z) (mo_value o x)).
      { destruct Z2 as [->|Z2]; [exact B|]. apply pareto_trans with (mo_value o y); auto. rewrite Forall_forall in LO. rewrite !(proj2 OB) by auto. reflexivity. }
      pose proof SU as (_ & _ & KL & RANK & _). rewrite map_length in KL, RANK.
      unfold parents in Hx, Hn. rewrite EP in Hx, Hn. apply in_map_iff in Hx as (i & <- & Hi).
      apply (In_nth _ _ []) in Z1 as (j & J1 & <-). destruct (in_dec Nat.eq_dec j kept) as [IJ|NJ].
      + apply (Hn (nth j pool [])); [apply in_map_iff; exists j; auto|exact BZ].
      + assert (RJ : rank j = 0) by (apply (rank_zero n m o OB pool rank j LO RANK J1); exact Z3).
        destruct (kept_zero m mu _ rank dist kept i j SU Hi) as [RI _]; [rewrite map_length; exact J1|exact NJ|exact RJ|].
        apply (proj1 (rank_zero n m o OB pool rank i LO RANK (KL i Hi)) RI (nth j pool [])); [apply nth_In; exact J1|exact BZ].
  Qed.

  (** A parent, or a better solution. *)
  Lemma solution_for z : In z parents -> exists y, In y sols /\ (y = z \/ better y z).
  Proof.
    intros Hz. pose proof (proj1 completed_between) as (_ & _ & LO & _).
    destruct (best_of_all_dominating n m o OB parents z LO Hz) as (y & Y1 & Y2 & Y3). exists y. split; [apply solutions_are; auto|exact Y2].
  Qed.

  Lemma solutions_extremes k x : 2 * m <= mu -> k < m -> In x T -> exists y, In y sols /\ (nth k (mo_value o y) 0 <= nth k (mo_value o x) 0)%Z.
  Proof.
    intros Hmu Hk Hx.
    destruct (generations_inv n m mu o (extremes m o) (fun _ => True) ts kd cross count) with (i := 0) (s := s0) (s' := s1) as (EX & _).
    - intros t s s2 BT NG E _. exact (next_extremes n m mu o OB _ _ _ _ _ Hmu BT NG E).
    - apply FI.
    - exact first_trace.
    - auto.
    - exact G.
    - intros k' z Hk' Hz. exists z. destruct FI as (_ & TR & _). rewrite TR in Hz. split; [exact Hz|lia].
    - rewrite T_is in Hx. destruct (EX k x Hk Hx) as (z & Z1 & Z2). destruct (solution_for z Z1) as (y & Y1 & Y2). exists y. split; [exact Y1|].
      destruct Y2 as [->|[Y2 _]]; [exact Z2|]. apply solutions_facts in Y1 as [_ LY]. specialize (Y2 k). rewrite (proj2 OB) in Y2 by exact LY. specialize (Y2 Hk). lia.
  Qed.

  Lemma solutions_all : (forall t, 0 < t <= count -> length (non_dominated o (firstn (mu * (t + 1)) T)) <= mu) -> Permutation (non_dominated o T) sols.
  Proof.
    intros H. rewrite T_is in H.
    destruct (generations_inv n m mu o (fun s => among n s /\ elite o s) (fun T => length (non_dominated o T) <= mu) ts kd cross count) with (i := 0) (s := s0) (s' := s1) as ((_ & EL) & _).
    - intros t s s2 BT NG [AM E] C. split; [exact (next_among n m mu o _ _ _ _ _ BT NG AM)|exact (next_elite n m mu o OB _ _ _ _ _ BT NG AM E C)].
    - apply FI.
    - exact first_trace.
    - exact H.
    - exact G.
    - split; [exact (first_among n m mu o _ _ _ _ FI)|]. exists []. destruct FI as (_ & TR & _). rewrite TR, app_nil_r. split; [apply Permutation_refl|intros x []].
    - destruct EL as (other & P & D). rewrite T_is. destruct (returned_are n m mu o OB s1 s' ts kd (proj1 completed_between) RT) as [_ E]. fold sols in E. rewrite E.
      eapply Permutation_trans; [apply (count_front o _ _ _ P D)|].
      destruct completed_between as (_ & _ & LO & _).
      replace (filter (fun x => forallb (fun y => negb (paretob (mo_value o y) (mo_value o x))) (ms_trace s1)) (m_bvs (ns_parents (ms_mem s1))))
        with (filter (fun x => forallb (fun y => negb (paretob (mo_value o y) (mo_value o x))) (m_bvs (ns_parents (ms_mem s1)))) (m_bvs (ns_parents (ms_mem s1)))); [apply Permutation_refl|].
      apply filter_ext_in. intros x Hx. apply Bool.eq_iff_eq_true. rewrite !forallb_forall. split; intros A y Hy.
      + apply Bool.negb_true_iff, Bool.not_true_is_false. intros C. apply paretob_spec in C.
        destruct (dominated_in n m o OB (ms_trace s1) _ other x LO P D) as (z & Z1 & Z2); [exists y; auto|]. specialize (A z Z1). apply paretob_spec in Z2. rewrite Z2 in A. discriminate.
      + apply A. apply (Permutation_in _ (Permutation_sym P)), in_or_app. left. exact Hy.
  Qed.
End Completed.

(** * A second run *)

Lemma collect_UB n m mu o ord c rank : objectives n m o -> visits ord -> length (m_bvs (ns_parents c)) = mu -> 0 < mu -> Forall (fun x => length x = n) (m_bvs (ns_parents c)) ->
  m_values (ns_parents c) = map (mo_value o) (m_bvs (ns_parents c)) -> (forall i, i < mu -> in_front (m_values (ns_parents c)) (rank i) i) ->
  length (m_values (ns_solutions c)) = length (m_bvs (ns_solutions c)) -> length (m_bvs (ns_solutions c)) < length (filter (fun i => rank i =? 0) (seq 0 mu)) ->
  nsga2_collect ord c = Some UB.
Proof.
  intros OB V P1 MU P2 P3 RK LS LT. unfold nsga2_collect. set (parents := m_bvs (ns_parents c)) in *. rewrite P1, P3.
  assert (SSV : same_sizes m (map (mo_value o) parents)) by (apply (values_sizes n m o OB); exact P2).
  assert (LV : length (map (mo_value o) parents) = mu) by (rewrite map_length; exact P1).
  destruct (ranks_of m (map (mo_value o) parents) ord mu (repeat 0 mu) SSV V ltac:(lia) ltac:(rewrite repeat_length; lia)) as (F & EF & LFF & RANK). rewrite LV in LFF, RANK.
  rewrite EF. cbn [obind]. set (K := length (m_bvs (ns_solutions c))) in *.
  assert (SAME : forall i, i < mu -> (nth i F 0 =? 0) = (rank i =? 0)).
  { intros i Hi. rewrite P3 in RK. specialize (RK i Hi). specialize (RANK i Hi). apply Bool.eq_iff_eq_true. rewrite !Nat.eqb_eq.
    assert (Z : forall a b, in_front (map (mo_value o) parents) a i -> in_front (map (mo_value o) parents) b i -> a = 0 -> b = 0).
    { intros a b [_ A] [B _] ->. destruct b as [|b]; [reflexivity|]. exfalso. apply B. clear B. induction b as [|b IH]; [exact A|]. left. exact IH. }
    split; intros X; [exact (Z _ _ RANK RK X)|exact (Z _ _ RK RANK X)]. }
  set (step := fun '(sol, index) i =>
        f <- vget F i ;;
        if f =? 0 then
          b <- vget parents i ;;
          bs <- vset (m_bvs sol) index b ;;
          v <- vget (map (mo_value o) parents) i ;;
          vs <- vset (m_values sol) index v ;;
          Ok (mk_mpop bs vs, index + 1)
        else Ok (sol, index)).
  assert (L : forall l, (forall i, In i l -> i < mu) -> forall sol index, length (m_bvs sol) = K -> length (m_values sol) = K -> index <= K ->
     K < index + length (filter (fun i => rank i =? 0) l) -> foldM step l (sol, index) = UB).
  { induction l as [|i l IH]; intros HL sol index L1 L2 HI HK; [cbn in HK; lia|]. cbn [foldM]. pose proof (HL i (or_introl eq_refl)) as Hi.
    unfold step at 1. rewrite (vget_nth F i 0) by lia. cbn [bind filter] in *. rewrite SAME by exact Hi. destruct (rank i =? 0).
    - rewrite (vget_nth parents i []) by lia. cbn [bind]. destruct (Nat.eq_dec index K) as [->|N].
      + rewrite vset_UB by lia. reflexivity.
      + rewrite vset_Ok by lia. cbn [bind]. rewrite (vget_nth (map (mo_value o) parents) i []) by lia. cbn [bind]. rewrite vset_Ok by lia. cbn [bind length] in *.
        apply IH; [intros; apply HL; right; assumption| | |lia|lia]; cbn [m_bvs m_values]; rewrite length_upd; assumption.
    - cbn [bind]. apply IH; auto. intros; apply HL; right; assumption. }
  rewrite (L (seq 0 mu)); [reflexivity|intros i Hi; apply in_seq in Hi; lia|reflexivity|exact LS|lia|cbn [Nat.add]; exact LT].
Qed.
