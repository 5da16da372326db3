(** Proofs about tournament selection and parallel evaluation. *)

From Coq Require Import ZArith Permutation Sorted.
From Verif Require Import Base BaseLemmas BitVector_Model Representation_Spec Map_Spec Representation_Proofs.
From Verif Require Import Population_Model Population_Spec Population_Proofs.
Local Open Scope nat_scope.

Section Tournament.
  Context {T : Type} (better : T -> T -> bool) (bvs : list bv) (values : list T) (size : nat).
  Hypothesis SWO : strict_weak_order better.
  Hypothesis LB : length bvs = size.
  Hypothesis LV : length values = size.

  Local Notation best_among := (Population_Spec.best_among better values).
  Local Notation selections := (Population_Spec.selections better bvs values).

  Lemma in_slice t w : in_round size t ->
    (In w (slice_of t) <-> exists i, t_start t <= i < t_stop t /\ w = nth i (t_perm t) 0).
  Proof.
    intros (H2 & HS & HL & P). pose proof (perm_seq_length _ _ P) as L. unfold slice_of.
    assert (N : forall i, i < t_stop t - t_start t ->
      nth i (firstn (t_stop t - t_start t) (skipn (t_start t) (t_perm t))) 0 = nth (t_start t + i) (t_perm t) 0).
    { intros i Hi. transitivity (nth i (skipn (t_start t) (t_perm t)) 0).
      - rewrite <- (firstn_skipn (t_stop t - t_start t) (skipn (t_start t) (t_perm t))) at 2.
        rewrite app_nth1; [reflexivity|]. rewrite firstn_length, skipn_length. lia.
      - rewrite <- (firstn_skipn (t_start t) (t_perm t)) at 2.
        rewrite app_nth2; rewrite firstn_length; [|lia]. f_equal. lia. }
    split.
    - intros I. apply (In_nth _ _ 0) in I as (i & Hi & <-). rewrite firstn_length, skipn_length in Hi.
      exists (t_start t + i). split; [lia|]. apply N. lia.
    - intros (i & Hi & ->). replace i with (t_start t + (i - t_start t)) by lia. rewrite <- N by lia.
      apply nth_In. rewrite firstn_length, skipn_length. lia.
  Qed.

  Lemma select_Ok t : in_round size t ->
    exists w, t_start t <= w < t_stop t /\ best_among (slice_of t) (nth w (t_perm t) 0) /\
    forall sh, shuffles sh -> exists t',
      tournament_select better bvs values sh t = Ok (nth (nth w (t_perm t') 0) bvs [], t') /\ in_round size t' /\
      t_size t' = t_size t /\
      if size <? t_stop t + t_size t
      then t_perm t' = sh (t_perm t) /\ t_start t' = 0
      else t_perm t' = t_perm t /\ t_start t' = t_stop t.
  Proof.
    intros R. pose proof R as (H2 & HS & HL & P). pose proof (perm_seq_length _ _ P) as L.
    destruct values as [|d vs] eqn:EV; [cbn in LV; lia|]. rewrite <- EV in *. clear EV vs.
    assert (B : forall i, i < size -> nth i (t_perm t) 0 < size) by (intros; apply perm_seq_nth; auto).
    destruct (foldM_seq_inv
      (fun (s : nat * T) challenger => k <- vget (t_perm t) challenger ;; v <- vget values k ;;
         Ok (if better v (snd s) then (challenger, v) else s))
      (fun c s => t_start t <= fst s < c /\ snd s = nth (nth (fst s) (t_perm t) 0) values d /\
         forall i, t_start t <= i < c -> better (nth (nth i (t_perm t) 0) values d) (snd s) = false)
      (S (t_start t)) (t_stop t - S (t_start t)) (t_start t, nth (nth (t_start t) (t_perm t) 0) values d))
      as [[w v] (E & Hw & Hv & Hb)].
    - cbn. split; [lia|]. split; [auto|]. intros i Hi. replace i with (t_start t) by lia. apply SWO.
    - intros c [w v] Hc (Hw & Hv & Hb). cbn [fst snd] in *.
      rewrite (vget_nth _ _ 0) by lia. cbn [bind].
      rewrite (vget_nth values _ d) by (rewrite LV; apply B; lia). cbn [bind].
      eexists; split; [reflexivity|].
      destruct (better (nth (nth c (t_perm t) 0) values d) v) eqn:Bt; cbn [fst snd].
      + split; [lia|]. split; [auto|]. intros i Hi. destruct (Nat.eq_dec i c) as [->|N]; [apply SWO|].
        destruct SWO as (Ir & Tr & Ng). apply (Ng _ v); [apply Hb; lia|].
        destruct (better v (nth (nth c (t_perm t) 0) values d)) eqn:F; auto.
        rewrite <- (Ir v). symmetry. eapply Tr; eauto.
      + split; [lia|]. split; [auto|]. intros i Hi. destruct (Nat.eq_dec i c) as [->|N]; [exact Bt|]. apply Hb. lia.
    - cbn [fst snd] in *.
      replace (S (t_start t) + (t_stop t - S (t_start t))) with (t_stop t) in * by lia.
      exists w. split; [lia|]. split.
      { split; [apply in_slice; eauto|]. intros j x y Hj Hx Hy.
        apply in_slice in Hj as (i & Hi & ->); [|auto].
        apply (nth_error_nth _ _ d) in Hx, Hy. subst x y. rewrite <- Hv. apply Hb. auto. }
      intros sh Hs.
      unfold tournament_select. rewrite (proj2 (Nat.leb_le _ _)), (proj2 (Nat.ltb_lt _ _)) by lia. cbn [andb assertb bind].
      rewrite (vget_nth _ _ 0) by lia. cbn [bind].
      rewrite (vget_nth values _ d) by (rewrite LV; apply B; lia). cbn [bind].
      rewrite E. cbn [bind fst snd t_stop t_perm] in *.
      set (t1 := mk_tournament (t_perm t) (t_stop t) (t_stop t + t_size t) (t_size t)).
      set (t2 := if length bvs <? t_stop t + t_size t then tournament_init sh t1 else t1).
      assert (R2 : in_round size t2).
      { unfold t2. rewrite LB. destruct (Nat.ltb_spec size (t_stop t + t_size t)) as [G|G].
        - unfold in_round; cbn. split; [auto|]. split; [auto|]. split; [lia|]. eapply Permutation_trans; [exact P|apply Hs].
        - unfold in_round; cbn. repeat split; auto. }
      change (if length bvs <? t_stop t1 then tournament_init sh t1 else t1) with t2.
      pose proof R2 as (_ & _ & _ & P2). pose proof (perm_seq_length _ _ P2) as L2.
      rewrite (vget_nth _ _ 0) by lia. cbn [bind].
      rewrite (vget_nth bvs _ []) by (rewrite LB; apply perm_seq_nth; auto; lia). cbn [bind].
      exists t2. split; [reflexivity|]. split; [auto|]. split.
      + unfold t2. destruct (_ <? _); reflexivity.
      + unfold t2. rewrite LB. destruct (size <? t_stop t + t_size t); cbn; auto.
  Qed.

  Lemma round_Ok shs t m : (forall i, shuffles (shs i)) -> in_round size t -> t_start t = 0 ->
    (m + 1) * t_size t <= size ->
    exists bs t',
      selections shs m t = Ok (bs, t') /\ in_round size t' /\
      t_perm t' = t_perm t /\ t_start t' = m * t_size t /\ t_size t' = t_size t /\ length bs = m /\
      forall k, k < m -> exists i,
        best_among (firstn (t_size t) (skipn (k * t_size t) (t_perm t))) i /\ nth k bs [] = nth i bvs [].
  Proof.
    intros Hs R H0. induction m as [|m IH]; intros Hm.
    - exists [], t. cbn. split; [auto|]. split; [auto|]. split; [auto|]. split; [lia|]. split; [auto|]. split; [auto|]. intros; lia.
    - destruct IH as (bs & t' & E & R' & P' & S' & Z' & L' & B); [lia|].
      cbn [Population_Spec.selections]. rewrite E. cbn [bind].
      destruct (select_Ok t' R') as (w & Hw & Bw & Sel).
      destruct (Sel (shs m) (Hs m)) as (t2 & E2 & R2 & Z2 & N).
      rewrite E2. cbn [bind]. pose proof R' as (_ & ST & _).
      destruct (Nat.ltb_spec size (t_stop t' + t_size t')) as [G|G]; [lia|]. destruct N as [N1 N2].
      eexists _, t2. split; [reflexivity|]. split; [auto|]. split; [congruence|]. split; [lia|]. split; [congruence|].
      split; [rewrite app_length; cbn; lia|].
      intros k Hk. destruct (Nat.eq_dec k m) as [->|NE].
      + exists (nth w (t_perm t') 0). split.
        * unfold slice_of in Bw. rewrite ST, S', P', Z' in Bw.
          replace (m * t_size t + t_size t - m * t_size t) with (t_size t) in Bw by lia. rewrite P'. exact Bw.
        * rewrite app_nth2 by lia. replace (m - length bs) with 0 by lia. cbn. congruence.
      + destruct (B k) as (i & Bi & Ei); [lia|]. exists i. split; [auto|]. rewrite app_nth1 by lia. auto.
  Qed.

  (** The last selection of a round may return any individual. *)
  Lemma last_any t j : in_round size t -> size < t_stop t + t_size t -> j < size ->
    exists sh t', shuffles sh /\ tournament_select better bvs values sh t = Ok (nth j bvs [], t').
  Proof.
    intros R G Hj. pose proof R as (H2 & HS & HL & P).
    destruct (select_Ok t R) as (w & Hw & Bw & Sel).
    pose proof (perm_seq_length _ _ P) as L.
    (* swap the places of the winner and of [j] *)
    assert (IJ : In j (t_perm t)) by (apply (Permutation_in _ P), in_seq; lia).
    apply (In_nth _ _ 0) in IJ as (u & Hu & Eu).
    set (a := nth w (t_perm t) 0).
    set (sw := fun k => if k =? a then j else if k =? j then a else k).
    assert (Ha : a < size) by (apply perm_seq_nth; auto; lia).
    assert (SwI : forall k, sw (sw k) = k).
    { intros k. unfold sw. destruct (Nat.eqb_spec k a), (Nat.eqb_spec k j); subst; try (rewrite Nat.eqb_refl).
      all: repeat match goal with |- context [?x =? ?y] => destruct (Nat.eqb_spec x y) end; subst; try congruence; auto. }
    assert (SwL : forall k, k < size -> sw k < size).
    { intros k Hk. unfold sw. destruct (k =? a), (k =? j); auto. }
    assert (PS : Permutation (t_perm t) (map sw (t_perm t))).
    { apply NoDup_Permutation.
      - apply (perm_seq_NoDup size); auto.
      - apply FinFun.Injective_map_NoDup; [|apply (perm_seq_NoDup size); auto].
        intros x y Exy. rewrite <- (SwI x), <- (SwI y). congruence.
      - intros x. split; intros I.
        + apply in_map_iff. exists (sw x). split; [apply SwI|]. apply (Permutation_in _ P), in_seq.
          split; [lia|]. cbn. apply SwL. apply (perm_seq_lt size (t_perm t)); auto.
        + apply in_map_iff in I as (y & <- & Iy). apply (Permutation_in _ P), in_seq. split; [lia|]. cbn.
          apply SwL, (perm_seq_lt size (t_perm t)); auto. }
    set (sh := fun l : list nat => if list_eq_dec Nat.eq_dec l (t_perm t) then map sw l else l).
    assert (Sh : shuffles sh).
    { intros l. unfold sh. destruct (list_eq_dec Nat.eq_dec l (t_perm t)) as [->|]; auto. }
    destruct (Sel sh Sh) as (t2 & E2 & R2 & Z2 & M).
    rewrite (proj2 (Nat.ltb_lt _ _) G) in M. destruct M as [M1 M2].
    exists sh, t2. split; [exact Sh|]. rewrite E2. f_equal. f_equal.
    f_equal. rewrite M1. unfold sh. destruct (list_eq_dec _ _ _) as [_|C]; [|congruence].
    rewrite (nth_indep _ 0 (sw 0)) by (rewrite map_length; lia). rewrite map_nth. fold a. unfold sw.
    rewrite Nat.eqb_refl. reflexivity.
  Qed.
End Tournament.

(** Evaluation of a population. *)
Lemma store_values {A} (d : A) (g : nat -> A) vs l : (forall i, In i l -> i < length vs) ->
  exists vs', foldM (fun vs i => vset vs i (g i)) l vs = Ok vs' /\ length vs' = length vs /\
    forall i, i < length vs -> nth i vs' d = if in_dec Nat.eq_dec i l then g i else nth i vs d.
Proof.
  revert vs. induction l as [|a l IH]; intros vs H.
  - exists vs. cbn. repeat split; auto.
  - cbn [foldM]. rewrite (vset_Ok vs a) by (apply H; left; auto). cbn [bind].
    destruct (IH (upd vs a (g a))) as (vs' & E & L & N).
    { intros i Hi. rewrite length_upd. apply H. right; auto. }
    rewrite length_upd in *. exists vs'. split; [exact E|]. split; [auto|].
    intros i Hi. rewrite N by auto.
    destruct (in_dec Nat.eq_dec i (a :: l)) as [I|I], (in_dec Nat.eq_dec i l) as [J|J]; auto.
    + destruct I as [->|I]; [|contradiction]. apply nth_upd_eq. auto.
    + exfalso. apply I. right; auto.
    + rewrite nth_upd_neq; auto. intros ->. apply I. left; auto.
Qed.

Lemma foldM_ext {St A} (f g : St -> A -> outcome St) l s : (forall s a, In a l -> f s a = g s a) -> foldM f l s = foldM g l s.
Proof.
  revert s. induction l as [|a l IH]; intros s H; cbn; [reflexivity|].
  rewrite H by (left; auto). destruct (g s a); cbn; auto. apply IH. intros; apply H; right; auto.
Qed.

Lemma evaluate_Ok f size n p : well_formed size n p ->
  pop_evaluate f p = Ok (mk_pop (p_bvs p) (map f (p_bvs p)) (p_perm p)).
Proof.
  intros (_ & _ & LB & _ & LV & _). unfold pop_evaluate, pop_size. rewrite LB, LV, Nat.eqb_refl. cbn [assertb bind].
  rewrite (foldM_ext _ (fun vs i => vset vs i (f (nth i (p_bvs p) [])))).
  2:{ intros vs i Hi. apply in_seq in Hi. rewrite (vget_nth _ _ []) by lia. reflexivity. }
  destruct (store_values 0%Z (fun i => f (nth i (p_bvs p) [])) (p_values p) (seq 0 size)) as (vs & -> & L & N).
  { intros i Hi. apply in_seq in Hi. lia. }
  cbn [bind]. do 2 f_equal. apply (nth_ext _ _ 0%Z (f [])); [rewrite map_length; lia|].
  intros i Hi. rewrite N, map_nth by lia. destruct (in_dec Nat.eq_dec i (seq 0 size)) as [I|I]; auto.
  exfalso. apply I, in_seq. lia.
Qed.

Lemma evaluate_in_parallel_Ok f size n fns thread schedule p : well_formed size n p ->
  Permutation (seq 0 size) schedule -> (forall i, i < size -> thread i < length fns) ->
  (forall fn x, In fn fns -> length x = n -> fn x = f x) ->
  pop_evaluate_in_parallel fns thread schedule p =
    Ok (mk_pop (p_bvs p) (map f (p_bvs p)) (p_perm p), combine (p_bvs p) (map f (p_bvs p))).
Proof.
  intros (S0 & _ & LB & FB & LV & _) PS HT HF. unfold pop_evaluate_in_parallel, pop_size.
  rewrite LB, LV, Nat.eqb_refl. cbn [assertb bind].
  specialize (HT 0 S0) as T0. rewrite (proj2 (Nat.ltb_lt 0 (length fns))) by lia. cbn [assertb bind].
  rewrite (foldM_ext _ (fun vs i => vset vs i (f (nth i (p_bvs p) [])))).
  2:{ intros vs i Hi. apply (Permutation_in _ (Permutation_sym PS)), in_seq in Hi.
      rewrite (proj2 (Nat.ltb_lt _ _)) by (apply HT; lia). cbn [assertb bind].
      rewrite (vget_nth fns _ f) by (apply HT; lia). cbn [bind].
      rewrite (vget_nth _ _ []) by lia. cbn [bind]. f_equal. apply HF.
      - apply nth_In, HT. lia.
      - apply (Forall_nth_len FB). lia. }
  destruct (store_values 0%Z (fun i => f (nth i (p_bvs p) [])) (p_values p) schedule) as (vs & -> & L & N).
  { intros i Hi. apply (Permutation_in _ (Permutation_sym PS)), in_seq in Hi. lia. }
  cbn [bind].
  assert (EV : vs = map f (p_bvs p)).
  { apply (nth_ext _ _ 0%Z (f [])); [rewrite map_length; lia|].
    intros i Hi. rewrite N, map_nth by lia. destruct (in_dec Nat.eq_dec i schedule) as [I|I]; auto.
    exfalso. apply I, (Permutation_in _ PS), in_seq. lia. }
  rewrite EV.
  destruct (foldM_upto (fun k us => us = firstn k (combine (p_bvs p) (map f (p_bvs p))))
    (fun us i => b <- vget (p_bvs p) i ;; v <- vget (map f (p_bvs p)) i ;; Ok (us ++ [(b, v)])) size []) as (us & E & EU).
  - reflexivity.
  - intros i us Hi ->. rewrite (vget_nth _ _ []) by lia. cbn [bind].
    rewrite (vget_nth _ _ (f [])) by (rewrite map_length; lia). cbn [bind]. eexists; split; [reflexivity|].
    assert (LC : i < length (combine (p_bvs p) (map f (p_bvs p)))) by (rewrite combine_length, map_length; lia).
    rewrite <- (combine_nth (p_bvs p) (map f (p_bvs p)) i [] (f [])) by (rewrite map_length; auto).
    revert LC. generalize (combine (p_bvs p) (map f (p_bvs p))) as l. clear. revert i.
    induction i; intros [|a l] H; cbn in *; try lia; auto. f_equal. apply IHi. lia.
  - rewrite E. cbn [bind]. rewrite EU, firstn_all2; [reflexivity|]. rewrite combine_length, map_length. lia.
Qed.
