(** Proofs about MIMIC. *)

From Coq Require Import QArith Qfield Lqa Permutation.
From Verif Require Import Base BaseLemmas BitVector_Model BitVector_Spec BitVector_Proofs Representation_Spec Map_Model Map_Spec Map_Proofs Algorithm_Model Algorithm_Spec Algorithm_Proofs
  Population_Model Population_Spec Population_Proofs PopAlgorithm_Model PopAlgorithm_Spec PopAlgorithm_Proofs Generation_Proofs
  ProbabilityVector_Model ProbabilityVector_Spec ProbabilityVector_Proofs EvolutionaryAlgorithm_Proofs Mimic_Model Mimic_Spec.
Local Open Scope nat_scope.

Lemma perm_valid_Ok n p : Permutation (seq 0 n) p -> perm_is_valid p = Ok true.
Proof.
  intros H. destruct (perm_is_valid_exact p) as (b & -> & E). f_equal. apply E.
  rewrite (perm_seq_length _ _ H). now apply Permutation_sym.
Qed.

Lemma upd_perm {A} (l : list A) : forall i a d, i < length l -> Permutation (nth i l d :: upd l i a) (a :: l).
Proof.
  induction l as [|x l IH]; intros [|i] a d H; cbn in *; try lia; [apply perm_swap|].
  eapply perm_trans; [apply perm_swap|]. eapply perm_trans; [apply perm_skip, IH; lia|]. apply perm_swap.
Qed.
Lemma swap_perm {A} (l : list A) i j d : i < length l -> j < length l -> i <> j ->
  Permutation l (upd (upd l i (nth j l d)) j (nth i l d)).
Proof.
  intros Hi Hj N. apply Permutation_sym, (Permutation_cons_inv (a := nth j l d)).
  eapply perm_trans; [|apply (upd_perm l i (nth j l d) d Hi)].
  pose proof (upd_perm (upd l i (nth j l d)) j (nth i l d) d ltac:(rewrite length_upd; assumption)) as H. rewrite nth_upd_neq in H by auto. exact H.
Qed.

Lemma nth_skipn {A} (l : list A) d : forall i k, nth k (skipn i l) d = nth (i + k) l d.
Proof. induction l as [|x l IH]; intros [|i] k; cbn [skipn]; auto; [destruct k; reflexivity|]. apply IH. Qed.

(** * Sampling *)

Lemma mimic_sample_Ok n m x u : 0 < n -> length x = n -> Permutation (seq 0 n) (mi_perm m) -> length (mi_p0 m) = n -> length (mi_p1 m) = n ->
  exists y, mimic_sample m x u = Ok y /\ drawn_along n (mi_perm m) (mi_p0 m) (mi_p1 m) u y.
Proof.
  intros Hn LX HP L0 L1. pose proof (perm_seq_length _ _ HP) as LP. pose proof (perm_seq_NoDup _ _ HP) as ND.
  set (perm := mi_perm m) in *. unfold mimic_sample. fold perm.
  rewrite (proj2 (Nat.eqb_eq (length x) (length perm))) by congruence. rewrite (proj2 (Nat.eqb_eq (length x) (length (mi_p0 m)))) by congruence.
  rewrite (proj2 (Nat.eqb_eq (length x) (length (mi_p1 m)))) by congruence. cbn [assertb bind]. rewrite (perm_valid_Ok n perm HP). cbn [assertb bind].
  rewrite (vget_nth (mi_p1 m) 0 0%Q), (vget_nth perm 0 0) by lia. cbn [bind].
  assert (PN : forall i, i < n -> nth i perm 0 < n) by (intros; now apply perm_seq_nth).
  rewrite vset_Ok by (rewrite LX; auto). cbn [bind]. rewrite length_upd, LX.
  set (I := fun k y => length y = n /\ (nth (nth 0 perm 0%nat) y false = true <-> (u 0%nat < nth 0 (mi_p1 m) 0)%Q) /\
    forall i, 0 < i < k -> let p := if nth (nth (i - 1) perm 0%nat) y false then nth i (mi_p1 m) 0%Q else nth i (mi_p0 m) 0%Q in
      (nth (nth i perm 0%nat) y false = true <-> (u i < p)%Q)).
  match goal with |- exists y, foldM ?f _ ?s = _ /\ _ => destruct (foldM_seq_inv f I 1 (n - 1) s) as (y & E & HI) end.
  - split; [now rewrite length_upd|]. split; [|intros; lia]. rewrite nth_upd_eq by (rewrite LX; auto). apply qltb_lt.
  - intros i y Hi (H1 & H2 & H3). rewrite (vget_nth perm (i - 1) 0) by lia. cbn [bind]. rewrite (vget_nth y _ false) by (rewrite H1; apply PN; lia). cbn [bind].
    set (p := if nth (nth (i - 1) perm 0) y false then mi_p1 m else mi_p0 m). rewrite (vget_nth p i 0%Q) by (unfold p; destruct (nth (nth (i - 1) perm 0) y false); lia). cbn [bind].
    rewrite (vget_nth perm i 0) by lia. cbn [bind]. rewrite vset_Ok by (rewrite H1; apply PN; lia). eexists. split; [reflexivity|].
    assert (NE : forall j, j < i -> nth j perm 0 <> nth i perm 0). { intros j Hj C. apply (proj1 (NoDup_nth perm 0) ND) in C; lia. }
    split; [now rewrite length_upd|]. split; [rewrite nth_upd_neq by (apply NE; lia); exact H2|].
    intros k Hk. cbn zeta. assert (k = i \/ 0 < k < i) as [->|Hk'] by lia.
    + rewrite nth_upd_eq by (rewrite H1; apply PN; lia). rewrite nth_upd_neq by (apply NE; lia). unfold p. rewrite qltb_lt. destruct (nth (nth (i - 1) perm 0) y false); reflexivity.
    + rewrite !nth_upd_neq by (apply NE; lia). now apply H3.
  - exists y. split; [exact E|]. destruct HI as (H1 & H2 & H3). split; [assumption|]. split; [assumption|]. intros i Hi. apply H3. lia.
Qed.

Definition mimic_sized (size n : nat) (m : mimic) : Prop :=
  well_formed size n (mi_pop m) /\ Permutation (seq 0 n) (mi_perm m) /\ length (mi_p0 m) = n /\ length (mi_p1 m) = n.

Lemma mimic_sample_all_Ok size n m u t : mimic_sized size n m ->
  exists bs, mimic_sample_all u t m = Ok (tt, mi_put (mk_pop bs (p_values (mi_pop m)) (p_perm (mi_pop m))) m) /\
    length bs = size /\ (forall k, k < size -> drawn_along n (mi_perm m) (mi_p0 m) (mi_p1 m) (u t k) (nth k bs [])) /\
    well_formed size n (mk_pop bs (p_values (mi_pop m)) (p_perm (mi_pop m))).
Proof.
  intros ((W1 & W2 & W3 & W4 & W5 & W6) & HP & L0 & L1). unfold mimic_sample_all, pop_size. rewrite W3.
  destruct (foldM_upto (fun k bs' => length bs' = size /\ Forall (fun x => length x = n) bs' /\
      forall j, j < k -> drawn_along n (mi_perm m) (mi_p0 m) (mi_p1 m) (u t j) (nth j bs' []))
    (fun bs k => b <- vget bs k ;; b' <- mimic_sample m b (u t k) ;; vset bs k b') size (p_bvs (mi_pop m))) as (bs' & E & H1 & H2 & H3).
  - repeat split; auto; lia.
  - intros k b Hk (H1 & H2 & H3). rewrite (vget_nth b k []) by lia. cbn [bind].
    destruct (mimic_sample_Ok n m (nth k b []) (u t k) W2 (Forall_nth_len H2 k ltac:(lia)) HP L0 L1) as (y & -> & D). cbn [bind].
    rewrite (vset_Ok b k) by lia. eexists. split; [reflexivity|]. split; [now rewrite length_upd|]. split; [apply Forall_upd; auto; apply D|].
    intros j Hj. destruct (Nat.eq_dec j k) as [->|]; [rewrite nth_upd_eq by lia; exact D|]. rewrite nth_upd_neq by assumption. apply H3. lia.
  - exists bs'. rewrite E. cbn [bind]. split; [reflexivity|]. split; [assumption|]. split; [assumption|]. unfold well_formed; cbn. repeat split; auto.
Qed.

(** * Smallest elements *)

Lemma min_from_spec l : forall best at_ i pre, length pre = i -> at_ < i -> nth at_ pre 0%Q = best ->
  (forall j, j < i -> (best <= nth j pre 0)%Q) ->
  let r := min_from best at_ i l in r < i + length l /\ forall j, j < i + length l -> (nth r (pre ++ l) 0 <= nth j (pre ++ l) 0)%Q.
Proof.
  induction l as [|x l IH]; intros best at_ i pre LP HA HB HM; cbn [min_from length].
  - rewrite app_nil_r, Nat.add_0_r. split; [assumption|]. intros j Hj. rewrite HB. auto.
  - assert (LE : length (pre ++ [x]) = S i) by (rewrite app_length; cbn; lia).
    replace (pre ++ x :: l) with ((pre ++ [x]) ++ l) by (rewrite <- app_assoc; reflexivity).
    replace (i + S (length l)) with (S i + length l) by lia.
    assert (NI : nth i (pre ++ [x]) 0%Q = x). { rewrite <- LP. now rewrite nth_middle. }
    destruct (qltb x best) eqn:E; [apply qltb_lt in E|apply qltb_ge in E]; apply IH; try assumption; try lia.
    + intros j Hj. destruct (Nat.eq_dec j i) as [->|]; [rewrite NI; lra|]. rewrite app_nth1 by lia. specialize (HM j ltac:(lia)). lra.
    + rewrite app_nth1 by lia. assumption.
    + intros j Hj. destruct (Nat.eq_dec j i) as [->|]; [rewrite NI; lra|]. rewrite app_nth1 by lia. apply HM. lia.
Qed.

Lemma min_element_spec l : l <> [] -> min_element l < length l /\ forall j, j < length l -> (nth (min_element l) l 0 <= nth j l 0)%Q.
Proof.
  destruct l as [|x l]; [congruence|]. intros _. unfold min_element.
  destruct (min_from_spec l x 0 1 [x]) as [H1 H2]; try reflexivity; try lia.
  - intros j Hj. replace j with 0 by lia. cbn. lra.
  - split; [exact H1|exact H2].
Qed.

(** * Tables *)

Lemma having_split i a j l : having i a l = having2 i a j false l + having2 i a j true l.
Proof.
  unfold having, having2. induction l as [|y l IH]; cbn [filter]; [reflexivity|].
  destruct (eqb (nth i (fst y) false) a); cbn [andb]; [|exact IH].
  destruct (nth j (fst y) false); cbn [eqb length]; lia.
Qed.
Lemma having_total i l : having i false l + having i true l = length l.
Proof. unfold having. induction l as [|y l IH]; cbn [filter]; [reflexivity|]. destruct (nth i (fst y) false); cbn [eqb length]; lia. Qed.
Lemma having2_snoc i a j b l y : having2 i a j b (l ++ [y]) = having2 i a j b l + (if eqb (nth i (fst y) false) a && eqb (nth j (fst y) false) b then 1 else 0).
Proof. unfold having2. rewrite filter_app, app_length. cbn [filter]. destruct (_ && _); reflexivity. Qed.

Definition table_of (i j : nat) (l : list (bv * Z)) : table :=
  mk_table (having2 i false j false l) (having2 i false j true l) (having2 i true j false l) (having2 i true j true l).

Lemma fill_table_Ok size n selection p i j : well_formed size n p -> selection <= size -> i < n -> j < n ->
  fill_table selection p i j = Ok (table_of i j (map (at_index p) (firstn selection (p_perm p)))).
Proof.
  intros W Hs Hi Hj. pose proof (perm_seq_length _ _ (wf_perm W)) as LP. pose proof W as (W1 & W2 & W3 & W4 & W5 & W6). unfold fill_table.
  match goal with |- foldM ?f _ ?s = _ => destruct (foldM_upto (fun k t => t = table_of i j (map (at_index p) (firstn k (p_perm p)))) f selection s) as (t & E & ->) end.
  - reflexivity.
  - intros k t Hk ->. pose proof (perm_seq_nth _ _ k (wf_perm W) ltac:(lia)) as K. unfold best_bv. rewrite (best_index_Ok W) by lia. cbn [bind].
    rewrite (vget_nth (p_bvs p) _ []) by lia. cbn [bind]. set (b := nth (nth k (p_perm p) 0) (p_bvs p) []).
    assert (LB : length b = n) by (apply (Forall_nth_len W4); lia).
    rewrite (vget_nth b i false), (vget_nth b j false) by lia. cbn [bind]. eexists. split; [reflexivity|].
    rewrite <- Nat.add_1_r, (firstn_S_nth k _ 0) by lia. rewrite map_app. cbn [map]. unfold table_of. rewrite !having2_snoc. 
    assert (F : fst (at_index p (nth k (p_perm p) 0)) = b) by reflexivity. rewrite !F. destruct (nth i b false), (nth j b false); cbn [table_incr eqb andb c00 c01 c10 c11]; f_equal; lia.
  - exact E.
Qed.

Section Learning.
  Variable lg : Q -> Q.
  Hypothesis HLG : forall x, (1 <= x)%Q -> (0 <= lg x)%Q.

  Lemma add_row_term e i a j l :
    (add_row lg e (having2 i a j false l) (having2 i a j true l) == e + (entropy_term lg i a j false l + entropy_term lg i a j true l))%Q.
  Proof.
    unfold add_row, entropy_term. rewrite (having_split i a j l).
    destruct (having2 i a j false l) as [|c0], (having2 i a j true l) as [|c1]; cbn [Nat.add Nat.ltb Nat.leb]; unfold ratio, nat_q; ring.
  Qed.

  Lemma row_parameter_conditional i a j l : row_parameter (having2 i a j false l) (having2 i a j true l) = conditional i a j l.
  Proof.
    unfold row_parameter, conditional. rewrite (having_split i a j l). destruct (having2 i a j false l + having2 i a j true l); reflexivity.
  Qed.

  Lemma entropy_term_nonneg i a j b l : (0 <= entropy_term lg i a j b l)%Q.
  Proof.
    unfold entropy_term. destruct (having2 i a j b l) as [|c] eqn:E; [lra|]. rewrite <- E. 
    assert (P : (0 < inject_Z (Z.of_nat (having2 i a j b l)))%Q). { change 0%Q with (inject_Z 0). rewrite <- Zlt_Qlt. lia. }
    apply Qmult_le_0_compat; [lra|]. apply HLG. unfold ratio. apply Qle_shift_div_l; [assumption|]. rewrite Qmult_1_l.
    rewrite <- Zle_Qle. pose proof (having_split i a j l). destruct b; lia.
  Qed.

  Variables (size n selection : nat) (p : population).
  Hypothesis HW : well_formed size n p.
  Hypothesis HSEL : 0 < selection <= size.
  Let kept := map (at_index p) (firstn selection (p_perm p)).

  Lemma length_kept : length kept = selection.
  Proof. unfold kept. rewrite map_length, firstn_length_le; [reflexivity|]. rewrite (perm_seq_length _ _ (wf_perm HW)). lia. Qed.

  Definition q_sized (q : list Q * list Q * list Q) : Prop :=
    let '(p0, p1, ent) := q in length p0 = n /\ length p1 = n /\ length ent = n.

  Lemma compute_Ok i j index q : q_sized q -> index < n ->
    exists q', compute_conditional_entropy lg selection (table_of i j kept) index q = Ok q' /\ q_sized q' /\
      let '(p0, p1, ent) := q in let '(p0', p1', ent') := q' in
      p0' = upd p0 index (conditional i false j kept) /\ p1' = upd p1 index (conditional i true j kept) /\
      exists e, ent' = upd ent index e /\ (e == conditional_entropy lg i j kept)%Q.
  Proof.
    destruct q as [[p0 p1] ent]. intros (L0 & L1 & LE) HI. unfold compute_conditional_entropy. rewrite (proj2 (Nat.ltb_lt index (length ent))) by lia. cbn [assertb bind].
    unfold table_of. cbn [c00 c01 c10 c11]. rewrite !row_parameter_conditional. rewrite (vset_Ok p0) by lia. cbn [bind]. rewrite (vset_Ok p1) by lia. cbn [bind].
    assert (T : having2 i false j false kept + having2 i false j true kept + (having2 i true j false kept + having2 i true j true kept) = selection).
    { rewrite <- !having_split, having_total. apply length_kept. }
    rewrite T, Nat.eqb_refl. cbn [assertb bind]. set (e := add_row lg _ _ _).
    assert (EQ : (e == conditional_entropy lg i j kept)%Q). { unfold e. rewrite add_row_term, add_row_term. unfold conditional_entropy. ring. }
    assert (NN : (0 <= e)%Q).
    { rewrite EQ. unfold conditional_entropy. pose proof (entropy_term_nonneg i false j false kept). pose proof (entropy_term_nonneg i false j true kept).
      pose proof (entropy_term_nonneg i true j false kept). pose proof (entropy_term_nonneg i true j true kept). lra. }
    rewrite (proj2 (Qle_bool_iff 0 e) NN). cbn [assertb bind]. rewrite vset_Ok by lia. cbn [bind]. eexists. split; [reflexivity|].
    split; [cbn; rewrite !length_upd; auto|]. cbn. split; [reflexivity|]. split; [reflexivity|]. eauto.
  Qed.

  (** Parameters at rank [i] *)
  Definition linked (perm : list nat) (p0 p1 : list Q) (i : nat) : Prop :=
    nth i p0 0%Q = conditional (nth (i - 1) perm 0%nat) false (nth i perm 0%nat) kept /\
    nth i p1 0%Q = conditional (nth (i - 1) perm 0%nat) true (nth i perm 0%nat) kept.

  Definition link_inv (root : nat) (r : Q) (i : nat) (s : list nat * (list Q * list Q * list Q)) : Prop :=
    let '(perm, q) := s in let '(p0, p1, ent) := q in
    Permutation (seq 0 n) perm /\ q_sized q /\ nth 0 perm 0 = root /\ nth 0 p0 0%Q = r /\ nth 0 p1 0%Q = r /\
    (forall k, 0 < k < i -> linked perm p0 p1 k) /\
    (forall k j, 0 < k < i -> k <= j < n ->
       (conditional_entropy lg (nth (k - 1) perm 0%nat) (nth k perm 0%nat) kept <= conditional_entropy lg (nth (k - 1) perm 0%nat) (nth j perm 0%nat) kept)%Q).

  Lemma link_Ok root r i s : 0 < i < n -> link_inv root r i s ->
    exists s', mimic_link lg selection p s i = Ok s' /\ link_inv root r (i + 1) s'.
  Proof.
    destruct s as [perm [[p0 p1] ent]]. intros Hi (HP & (L0 & L1 & LE) & R & R0 & R1 & HK & HM).
    pose proof (perm_seq_length _ _ HP) as LP. pose proof (perm_seq_NoDup _ _ HP) as ND.
    assert (PN : forall i, i < n -> nth i perm 0 < n) by (intros; now apply perm_seq_nth).
    unfold mimic_link. rewrite (vget_nth perm (i - 1) 0) by lia. cbn [bind]. set (first := nth (i - 1) perm 0).
    set (I := fun j q' => q_sized q' /\ let '(p0', p1', ent') := q' in
      (forall k, k < i -> nth k p0' 0%Q = nth k p0 0%Q /\ nth k p1' 0%Q = nth k p1 0%Q) /\
      forall k, i <= k < j -> nth k p0' 0%Q = conditional first false (nth k perm 0) kept /\ nth k p1' 0%Q = conditional first true (nth k perm 0) kept /\
        (nth k ent' 0 == conditional_entropy lg first (nth k perm 0%nat) kept)%Q).
    match goal with |- context[foldM ?f (seq i _) ?s] => destruct (foldM_seq_inv f I i (length perm - i) s) as (q' & E & HI) end.
    - split; [cbn; auto|]. split; [auto|]. intros; lia.
    - intros j [[q0 q1] qe] Hj (QS & Q1 & Q2). rewrite (vget_nth perm j 0) by lia. cbn [bind].
      assert (NE : nth j perm 0 <> first). { intros C. apply (proj1 (NoDup_nth perm 0) ND) in C; lia. }
      rewrite (proj2 (Nat.eqb_neq _ _) NE). cbn [negb assertb bind]. rewrite (fill_table_Ok size n) by (auto; try lia; apply PN; lia). cbn [bind]. fold kept.
      destruct (compute_Ok first (nth j perm 0) j (q0, q1, qe) QS ltac:(lia)) as ([[q0' q1'] qe'] & EC & QS' & -> & -> & (e & -> & EE)). exists (upd q0 j (conditional first false (nth j perm 0) kept), upd q1 j (conditional first true (nth j perm 0) kept), upd qe j e).
      split; [exact EC|]. split; [exact QS'|]. destruct QS as (S0 & S1 & S2). split.
      + intros k Hk. rewrite !nth_upd_neq by lia. now apply Q1.
      + intros k Hk. destruct (Nat.eq_dec k j) as [->|]; [rewrite !nth_upd_eq by lia; auto|]. rewrite !nth_upd_neq by lia. apply Q2. lia.
    - rewrite E. cbn [bind]. destruct q' as [[q0 q1] qe]. replace (i + (length perm - i)) with n in HI by lia. destruct HI as ((S0 & S1 & S2) & Q1 & Q2).
      destruct (min_element_spec (skipn i qe)) as [C1 C2]. { intros C. apply (f_equal (@length Q)) in C. rewrite skipn_length in C. cbn in C. lia. }
      rewrite skipn_length, S2 in C1. set (c := min_element (skipn i qe)) in *.
      assert (MIN : forall j, i <= j < n -> (conditional_entropy lg first (nth (i + c) perm 0%nat) kept <= conditional_entropy lg first (nth j perm 0%nat) kept)%Q).
      { intros j Hj. specialize (C2 (j - i)). rewrite skipn_length, S2 in C2. specialize (C2 ltac:(lia)). rewrite !nth_skipn in C2.
        replace (i + (j - i)) with j in C2 by lia. destruct (Q2 j Hj) as (_ & _ & <-). destruct (Q2 (i + c) ltac:(lia)) as (_ & _ & <-). exact C2. }
      rewrite (proj2 (Nat.ltb_lt (i + c) (length perm))) by lia. cbn [assertb bind].
      destruct (Nat.eqb_spec (i + c) i) as [EC|EC].
      + cbn [bind]. rewrite (perm_valid_Ok n perm HP). cbn [assertb bind]. eexists. split; [reflexivity|]. split; [assumption|]. split; [cbn; auto|]. split; [assumption|].
        destruct (Q1 0 ltac:(lia)) as [-> ->]. split; [assumption|]. split; [assumption|]. split.
        * intros k Hk. destruct (Nat.eq_dec k i) as [->|]; [|unfold linked; destruct (Q1 k ltac:(lia)) as [-> ->]; apply HK; lia].
          split; apply (Q2 i); lia.
        * intros k j Hk Hj. destruct (Nat.eq_dec k i) as [->|]; [|apply HM; lia]. rewrite EC in MIN. apply MIN. lia.
      + rewrite (vget_nth perm i 0) by lia. cbn [bind]. rewrite (vget_nth perm (i + c) 0) by lia. cbn [bind]. rewrite vset_Ok by lia. cbn [bind]. rewrite vset_Ok by (rewrite length_upd; lia). cbn [bind].
        rewrite (vget_nth q0 (i + c) 0%Q) by lia. cbn [bind]. rewrite vset_Ok by lia. cbn [bind]. rewrite (vget_nth q1 (i + c) 0%Q) by lia. cbn [bind]. rewrite vset_Ok by lia. cbn [bind].
        set (perm' := upd (upd perm i _) _ _).
        assert (HP' : Permutation (seq 0 n) perm').
        { apply (perm_trans HP). apply swap_perm; lia. }
        rewrite (perm_valid_Ok n perm' HP'). cbn [assertb bind]. eexists. split; [reflexivity|].
        assert (N1 : forall k, k < i -> nth k perm' 0 = nth k perm 0). { intros k Hk. unfold perm'. rewrite !nth_upd_neq by lia. reflexivity. }
        assert (N2 : nth i perm' 0 = nth (i + c) perm 0). { unfold perm'. rewrite nth_upd_neq by lia. rewrite nth_upd_eq by lia. reflexivity. }
        assert (N3 : forall j, i <= j < n -> exists j', i <= j' < n /\ nth j perm' 0 = nth j' perm 0).
        { intros j Hj. destruct (Nat.eq_dec j i) as [->|]; [exists (i + c); split; [lia|exact N2]|]. destruct (Nat.eq_dec j (i + c)) as [->|].
          - exists i. split; [lia|]. unfold perm'. rewrite nth_upd_eq by (rewrite length_upd; lia). reflexivity.
          - exists j. split; [lia|]. unfold perm'. rewrite !nth_upd_neq by lia. reflexivity. }
        split; [assumption|]. split; [cbn; rewrite !length_upd; auto|]. split; [rewrite N1 by lia; assumption|].
        rewrite !nth_upd_neq by lia. destruct (Q1 0 ltac:(lia)) as [-> ->]. split; [assumption|]. split; [assumption|]. split.
        * intros k Hk. unfold linked. destruct (Nat.eq_dec k i) as [->|].
          -- rewrite !nth_upd_eq by lia. rewrite N2, N1 by lia. fold first. split; apply (Q2 (i + c)); lia.
          -- rewrite !nth_upd_neq by lia. rewrite !N1 by lia. destruct (Q1 k ltac:(lia)) as [-> ->]. apply HK. lia.
        * intros k j Hk Hj. destruct (Nat.eq_dec k i) as [->|].
          -- rewrite N2, N1 by lia. fold first. destruct (N3 j ltac:(lia)) as (j' & Hj' & ->). apply MIN. lia.
          -- rewrite !(N1 k), (N1 (k - 1)) by lia. destruct (Nat.lt_ge_cases j i); [rewrite N1 by lia; apply HM; lia|].
             destruct (N3 j ltac:(lia)) as (j' & Hj' & ->). apply HM; lia.
  Qed.
End Learning.

Lemma uncertainty_min x y : (x == y)%Q -> (qmin x (1 - x) == uncertainty y)%Q.
Proof.
  intros E. unfold qmin, uncertainty. destruct (qltb (1 - x) x) eqn:L; [apply qltb_lt in L|apply qltb_ge in L]; destruct (Qlt_le_dec (1 # 2) y); lra.
Qed.
Lemma frequency_bounds i l : l <> [] -> (0 <= frequency i l <= 1)%Q.
Proof.
  intros N. unfold frequency. assert (P : (0 < inject_Z (Z.of_nat (length l)))%Q). { change 0%Q with (inject_Z 0). rewrite <- Zlt_Qlt. destruct l; [congruence|cbn; lia]. }
  split; [apply Qle_shift_div_l|apply Qle_shift_div_r]; try assumption.
  - rewrite Qmult_0_l. change 0%Q with (inject_Z 0). rewrite <- Zle_Qle. lia.
  - rewrite Qmult_1_l, <- Zle_Qle. unfold ones_at. pose proof (filter_le (fun y : bv * Z => nth i (fst y) false) l). lia.
Qed.
Lemma nth_map_lt {A B} (f : A -> B) l i d e : i < length l -> nth i (map f l) d = f (nth i l e).
Proof. intros H. rewrite (nth_indep _ d (f e)) by (rewrite map_length; assumption). apply map_nth. Qed.

Lemma update_model_Ok lg size n selection m : (forall x, (1 <= x)%Q -> (0 <= lg x)%Q) -> mimic_sized size n m -> 0 < selection <= size ->
  exists m', update_model lg n selection m = Ok m' /\ mi_pop m' = mi_pop m /\ mimic_sized size n m' /\
    (2 <= n -> chain lg n (map (at_index (mi_pop m)) (firstn selection (p_perm (mi_pop m)))) (mi_perm m') (mi_p0 m') (mi_p1 m') /\
       Forall (within n) (mi_p0 m') /\ Forall (within n) (mi_p1 m')).
Proof.
  intros HLG (W & HP & L0 & L1) HS. pose proof W as (W1 & W2 & _). pose proof (perm_seq_length _ _ HP) as LP.
  set (kept := map (at_index (mi_pop m)) (firstn selection (p_perm (mi_pop m)))).
  assert (KN : kept <> []). { intros C. pose proof (length_kept size n selection (mi_pop m) W HS) as LK. fold kept in LK. rewrite C in LK. cbn in LK. lia. }
  unfold update_model. destruct (mean_Ok size n selection (mi_pop m) W HS) as (mean & -> & LM & HM). cbn [bind]. fold kept in HM.
  set (ent := map _ mean). assert (LE : length ent = n) by (unfold ent; now rewrite map_length).
  assert (NE : forall i, i < n -> (nth i ent 0 == uncertainty (frequency i kept))%Q).
  { intros i Hi. unfold ent. rewrite (nth_map_lt _ mean i 0%Q 0%Q) by lia. apply uncertainty_min. auto. }
  assert (FA : forallb (fun x => Qle_bool 0 x) ent = true).
  { apply forallb_forall. intros x Hx. apply Qle_bool_iff. apply (In_nth _ _ 0%Q) in Hx as (i & Hi & <-). rewrite LE in Hi. rewrite (NE i Hi).
    pose proof (frequency_bounds i kept KN). unfold uncertainty. destruct (Qlt_le_dec _ _); lra. }
  rewrite FA. cbn [assertb bind]. destruct (min_element_spec ent) as [R1 R2]. { intros C. rewrite C in LE. cbn in LE. lia. }
  rewrite LE in R1, R2. set (root := min_element ent) in *. rewrite (proj2 (Nat.ltb_lt root (length (mi_perm m)))) by lia. cbn [assertb bind]. rewrite LP.
  assert (LI : length (identity n) = n) by apply seq_length.
  assert (NI : forall i, i < n -> nth i (identity n) 0 = i). { intros i Hi. unfold identity. now rewrite seq_nth. }
  rewrite (vget_nth _ 0 0) by lia. cbn [bind]. rewrite (vget_nth _ root 0) by lia. cbn [bind]. rewrite vset_Ok by lia. cbn [bind]. rewrite vset_Ok by (rewrite length_upd; lia). cbn [bind].
  rewrite (vget_nth mean root 0%Q) by lia. cbn [bind]. rewrite vset_Ok by lia. cbn [bind]. rewrite vset_Ok by lia. cbn [bind].
  set (perm := upd (upd (identity n) 0 _) root _). set (r := nth root mean 0%Q).
  assert (PP : Permutation (seq 0 n) perm).
  { unfold perm. destruct (Nat.eq_dec 0 root) as [<-|N]; [|apply (swap_perm (identity n)); lia].
    replace (upd (upd (identity n) 0 (nth 0 (identity n) 0)) 0 (nth 0 (identity n) 0)) with (identity n); [apply Permutation_refl|].
    destruct n as [|k]; [lia|]. reflexivity. }
  assert (P0 : nth 0 perm 0 = root).
  { unfold perm. destruct (Nat.eq_dec 0 root) as [<-|N]; [rewrite nth_upd_eq by (rewrite length_upd; lia); apply NI; lia|].
    rewrite nth_upd_neq by auto. rewrite nth_upd_eq by lia. now apply NI. }
  assert (LPP : length perm = n) by now apply perm_seq_length. rewrite LPP.
  destruct (foldM_seq_inv (mimic_link lg selection (mi_pop m)) (link_inv lg n selection (mi_pop m) root r) 1 (n - 1) (perm, (upd (mi_p0 m) 0 r, upd (mi_p1 m) 0 r, ent))) as ([perm' [[p0 p1] ent']] & E & HI).
  { split; [assumption|]. split; [cbn; rewrite !length_upd; auto|]. split; [assumption|]. rewrite !nth_upd_eq by lia. split; [reflexivity|]. split; [reflexivity|]. split; intros; lia. }
  { intros i s Hi H. apply (link_Ok lg HLG size n selection (mi_pop m) W HS root r i s); [lia|assumption]. }
  rewrite E. cbn [bind]. replace (1 + (n - 1)) with n in HI by lia. destruct HI as (HP' & (Q0 & Q1 & Q2) & RT & A0 & A1 & HK & HX). fold kept in HX, HK.
  eexists. split; [reflexivity|]. split; [reflexivity|]. split; [split; [assumption|]; split; [assumption|]; cbn; rewrite !length_pv_bound; auto|].
  intros Hn. cbn [mi_perm mi_p0 mi_p1]. split; [|split; now apply bound_within].
  constructor.
  - assumption.
  - now rewrite length_pv_bound.
  - now rewrite length_pv_bound.
  - intros j Hj. rewrite RT, <- (NE j Hj), <- (NE root R1). now apply R2.
  - exact HX.
  - intros q [->| ->]; eapply clamped_ext; try (apply bound_nth_clamped; [assumption|lia]); rewrite ?A0, ?A1, RT; apply HM; assumption.
  - intros i Hi. destruct (HK i Hi) as [B _]. fold kept in B. rewrite <- B. apply bound_nth_clamped; [assumption|lia].
  - intros i Hi. destruct (HK i Hi) as [_ B]. fold kept in B. rewrite <- B. apply bound_nth_clamped; [assumption|lia].
Qed.

(** * Runs *)

Lemma mi_get_put p m : mi_pop (mi_put p m) = p. Proof. reflexivity. Qed.
Lemma mi_put_put p q m : mi_put p (mi_put q m) = mi_put p m. Proof. reflexivity. Qed.
Lemma mi_put_get m : mi_put (mi_pop m) m = m. Proof. now destruct m. Qed.

Section Runs.
  Variables (lg : Q -> Q) (o : objective) (n size selection : nat).
  Variables (u : nat -> nat -> nat -> Q) (shs : nat -> list nat -> list nat).
  Variable srt : (nat -> nat -> bool) -> list nat -> list nat.
  Hypothesis HLG : forall x, (1 <= x)%Q -> (0 <= lg x)%Q.
  Hypothesis HSH : forall t, shuffles (shs t).
  Hypothesis HSO : sorts srt.
  Hypothesis HSEL : 0 < selection < size.

  Lemma mimic_iterate_wp t (s : alg mimic) : mimic_sized size n (a_mem s) -> top_of o (a_trace s) (a_sol s) ->
    wp (mimic_iterate lg n selection o u shs srt t)
      (fun _ s' => exists sampled kept, length sampled = size /\
         (forall k, k < size -> drawn_along n (mi_perm (a_mem s)) (mi_p0 (a_mem s)) (mi_p1 (a_mem s)) (u t k) (nth k sampled [])) /\
         a_trace s' = a_trace s ++ sampled /\
         best_of selection kept (map (fun x => (x, o_value o x)) sampled) /\
         (2 <= n -> chain lg n kept (mi_perm (a_mem s')) (mi_p0 (a_mem s')) (mi_p1 (a_mem s')) /\ Forall (within n) (mi_p0 (a_mem s')) /\ Forall (within n) (mi_p1 (a_mem s'))) /\
         top_of o (a_trace s') (a_sol s') /\ mimic_sized size n (a_mem s') /\ a_last s' = a_last s)
      (fun e s' => lagging o size s' /\ (exists e', e = Some e' /\ o_stop o (length (a_trace s')) = Some e') /\
         mi_perm (a_mem s') = mi_perm (a_mem s) /\ mi_p0 (a_mem s') = mi_p0 (a_mem s) /\ mi_p1 (a_mem s') = mi_p1 (a_mem s)) s.
  Proof.
    intros SZ TO. pose proof SZ as (W & HP & L0 & L1). unfold mimic_iterate.
    destruct (mimic_sample_all_Ok size n (a_mem s) u t SZ) as (bs & E & LB & D & WB).
    apply wp_bind. eapply wp_on_mem; [exact E|]. set (s1 := put_mem _ s).
    pose proof (evaluate_sort_wp mi_pop mi_put mi_get_put mi_put_put mi_put_get o (shs t) srt (HSH t) HSO size n s1 WB TO) as G. cbn zeta in G.
    match type of G with wp _ ?A ?B _ => assert (G' : forall (k : act (alg mimic) unit) (P : unit -> alg mimic -> Prop) (F : option exn -> alg mimic -> Prop),
      (forall s', A tt s' -> wp k P F s') -> (forall e s', B e s' -> F e s') ->
      wp (_ <~ eval_pop mi_pop mi_put o ;; _ <~ sort_pop mi_pop mi_put (shs t) srt ;; _ <~ update_with_best mi_pop ;; k) P F s1) end.
    { intros k P F HA HB. clear -G HA HB. revert G HA HB. unfold wp, abind.
      destruct (eval_pop mi_pop mi_put o s1) as [[[]|e| |] s2]; try solve [intros H HA HB; try apply HB; assumption].
      destruct (sort_pop mi_pop mi_put (shs t) srt s2) as [[[]|e| |] s3]; try solve [intros H HA HB; try apply HB; assumption].
      destruct (update_with_best mi_pop s3) as [[[]|e| |] s4]; try solve [intros H HA HB; try apply HB; assumption].
      intros H HA _. now apply HA. }
    apply G'.
    - intros s2 (T2 & TO2 & LA2 & _ & _ & (p & M2 & (WP & PB & PV & BO))).
      assert (SZ2 : mimic_sized size n (a_mem s2)). { rewrite M2. split; [exact WP|]. auto. }
      destruct (update_model_Ok lg size n selection (a_mem s2) HLG SZ2 ltac:(lia)) as (m' & EU & MP & SZ3 & CH).
      eapply wp_on_mem; [rewrite EU; cbn [bind]; reflexivity|]. exists bs, (map (at_index (mi_pop (a_mem s2))) (firstn selection (p_perm (mi_pop (a_mem s2))))).
      cbn [put_mem a_mem a_trace a_sol a_last]. split; [assumption|]. split; [assumption|]. split; [exact T2|].
      split; [rewrite M2; cbn [mi_put mi_pop]; apply BO; lia|]. split; [exact CH|]. auto.
    - intros e s2 (H1 & H2 & _ & (p & M2 & WP)). split; [assumption|]. split; [assumption|]. rewrite M2. auto.
  Qed.

  Definition model_within (m : mimic) : Prop := Forall (within n) (mi_p0 m) /\ Forall (within n) (mi_p1 m).

  Lemma mimic_run bit sh num fuel (s : alg mimic) : shuffles sh -> well_formed size n (mi_pop (a_mem s)) -> length (mi_perm (a_mem s)) = n ->
    length (mi_p0 (a_mem s)) = n -> length (mi_p1 (a_mem s)) = n -> a_trace s = [] -> length (fst (a_sol s)) = n ->
    let '(r, s') := loop (mimic_init selection o bit sh) (mimic_iterate lg n selection o u shs srt) num fuel s in
    run_top o size r s' /\ (a_trace s' = [] \/ (Permutation (seq 0 n) (mi_perm (a_mem s')) /\ length (mi_p0 (a_mem s')) = n /\ length (mi_p1 (a_mem s')) = n /\ (2 <= n -> model_within (a_mem s')))).
  Proof.
    intros HS W LP L0 L1 T LS. pose proof W as (W1 & W2 & W3 & _).
    set (K := fun s' : alg mimic => Permutation (seq 0 n) (mi_perm (a_mem s')) /\ length (mi_p0 (a_mem s')) = n /\ length (mi_p1 (a_mem s')) = n /\ (2 <= n -> model_within (a_mem s'))).
    pose proof (run_generic o size (fun s' => mimic_sized size n (a_mem s') /\ (2 <= n -> model_within (a_mem s'))) K
      (mimic_init selection o bit sh) (mimic_iterate lg n selection o u shs srt) num fuel s W1) as R.
    destruct (loop _ _ _ _ _) as [r s']. match type of R with _ -> _ -> _ -> ?D => enough D as (G1 & G2 & _) by (split; assumption); apply R end.
    - unfold mimic_init. apply wp_bind, wp_assert; [apply Nat.ltb_lt; lia|]. apply wp_bind, wp_get, wp_bind, wp_assert; [apply Nat.ltb_lt; unfold pop_size; lia|].
      apply wp_bind. eapply wp_mono; [apply (random_solution_wp o n bit s T LS)| |].
      + cbn beta. intros _ s1 (T1 & _ & _ & M1). apply wp_modify. cbn [put_mem put_last a_mem a_trace a_sol a_last]. rewrite M1.
        split; [assumption|]. split.
        * split; [exact W|]. cbn [mi_perm mi_p0 mi_p1]. unfold pv_uniform. rewrite !repeat_length. rewrite LP. split; [apply HS|auto].
        * intros Hn. split; cbn [mi_p0 mi_p1]; apply Forall_forall; intros p Hp; apply repeat_spec in Hp as ->; now apply half_between.
      + cbn beta. intros e s1 (E1 & E2). split; [assumption|]. now left.
    - intros s1 [(_ & H) H2]. unfold K. tauto.
    - intros i s1 (SZ1 & F1) TO LA. eapply wp_mono; [apply (mimic_iterate_wp i s1 SZ1 TO)| |].
      + cbn beta. intros _ s2 (sampled & kept & _ & _ & _ & _ & C & L7 & L8 & _). split; [assumption|]. split; [assumption|]. intros Hn. now apply C.
      + cbn beta. intros e s2 (H1 & (e' & -> & H2) & H3 & H4 & H5). split; [assumption|]. split; [|assumption]. unfold K, model_within. rewrite H3, H4, H5.
        destruct SZ1 as (_ & S1 & S2 & S3). auto.
  Qed.
End Runs.

(** Any vector may be drawn when the parameters are within the bounds. *)
Lemma drawn_any n perm p0 p1 x : 2 <= n -> Permutation (seq 0 n) perm -> length p0 = n -> length p1 = n -> Forall (within n) p0 -> Forall (within n) p1 -> length x = n ->
  exists u, (forall i, 0 <= u i < 1)%Q /\ drawn_along n perm p0 p1 u x.
Proof.
  intros Hn HP L0 L1 F0 F1 LX. exists (fun i => if nth (nth i perm 0) x false then 0%Q else (1 - ratio 1 n)%Q).
  pose proof (half_between n Hn) as HB.
  assert (WB : forall p i, p = p0 \/ p = p1 -> i < n -> (1 / inject_Z (Z.of_nat n) <= nth i p 0 <= 1 - 1 / inject_Z (Z.of_nat n))%Q).
  { intros p i [->| ->] Hi; [apply (proj1 (Forall_forall _ _) F0)|apply (proj1 (Forall_forall _ _) F1)]; apply nth_In; lia. }
  assert (RP : (0 < 1 / inject_Z (Z.of_nat n))%Q).
  { apply Qlt_shift_div_l; [change 0%Q with (inject_Z 0); rewrite <- Zlt_Qlt; lia|]. lra. }
  change (ratio 1 n) with (1 / inject_Z (Z.of_nat n))%Q. set (d := (1 / inject_Z (Z.of_nat n))%Q) in *. clearbody d.
  split; [intros i; destruct (nth _ x false); lra|]. split; [assumption|].
  assert (A : forall (b : bool) (q : Q), (d <= q <= 1 - d)%Q -> (b = true <-> ((if b then 0 else 1 - d) < q)%Q)).
  { intros b q Hq. destruct b; split; intros H; try lra; try reflexivity; discriminate. }
  split; [apply A, WB; auto; lia|]. intros i Hi. apply A. destruct (nth (nth (i - 1) perm 0) x false); apply WB; auto; lia.
Qed.
