(** Proofs about populations, replacement selections and tournaments. *)

From Coq Require Import ZArith Permutation Sorted.
From Verif Require Import Base BaseLemmas BitVector_Model Representation_Spec Map_Spec Representation_Proofs.
From Verif Require Import Population_Model Population_Spec.
Local Open Scope nat_scope.

Lemma by_value_order : forall vs, strict_weak_order (by_value vs).
Proof.
  intros vs. unfold by_value. split; [|split]; intros.
  - apply Z.ltb_irrefl.
  - apply Z.ltb_lt in H, H0. apply Z.ltb_lt. lia.
  - apply Z.ltb_ge in H, H0. apply Z.ltb_ge. lia.
Qed.

Lemma StronglySorted_nth {A} (R : A -> A -> Prop) l : StronglySorted R l ->
  forall i j a b, i < j -> nth_error l i = Some a -> nth_error l j = Some b -> R a b.
Proof.
  induction 1; intros i j x y Hij Hi Hj.
  - destruct i; discriminate.
  - destruct j; [lia|]. cbn in Hj. destruct i; cbn in Hi.
    + injection Hi as ->. rewrite Forall_forall in H0. apply H0. eapply nth_error_In; eauto.
    + eapply IHStronglySorted; [|eauto|eauto]. lia.
Qed.

Lemma perm_seq_length n l : Permutation (seq 0 n) l -> length l = n.
Proof. intros H. apply Permutation_length in H. rewrite seq_length in H. auto. Qed.

Lemma perm_seq_lt n l k : Permutation (seq 0 n) l -> In k l -> k < n.
Proof. intros H I. apply (Permutation_in _ (Permutation_sym H)), in_seq in I. lia. Qed.

Lemma perm_seq_NoDup n l : Permutation (seq 0 n) l -> NoDup l.
Proof. intros H. apply (Permutation_NoDup H), seq_NoDup. Qed.

Lemma perm_seq_nth n l i : Permutation (seq 0 n) l -> i < n -> nth i l 0 < n.
Proof.
  intros H L. apply (perm_seq_lt n l); auto. apply nth_In. rewrite (perm_seq_length n l); auto.
Qed.

Lemma vget_nth {A} (l : list A) i d : i < length l -> vget l i = Ok (nth i l d).
Proof. intros H. apply vget_Ok; auto. Qed.

(** Reading best individuals. *)
Section Reading.
  Context {size n : nat} {p : population} (W : well_formed size n p).

  Lemma wf_perm : Permutation (seq 0 size) (p_perm p). Proof. apply W. Qed.

  Lemma best_index_Ok i : i < size -> best_index p i = Ok (nth i (p_perm p) 0).
  Proof.
    intros H. unfold best_index. pose proof (perm_seq_length _ _ wf_perm) as L.
    rewrite (proj2 (Nat.ltb_lt _ _)) by lia. cbn. apply vget_nth. lia.
  Qed.
  Lemma best_bv_Ok i : i < size -> best_bv p i = Ok (nth (nth i (p_perm p) 0) (p_bvs p) []).
  Proof.
    intros H. unfold best_bv. rewrite best_index_Ok by auto. cbn. apply vget_nth.
    destruct W as (_ & _ & L & _). rewrite L. apply perm_seq_nth; auto using wf_perm.
  Qed.
  Lemma best_value_Ok i : i < size -> best_value p i = Ok (nth (nth i (p_perm p) 0) (p_values p) 0%Z).
  Proof.
    intros H. unfold best_value. rewrite best_index_Ok by auto. cbn. apply vget_nth.
    destruct W as (_ & _ & _ & _ & L & _). rewrite L. apply perm_seq_nth; auto using wf_perm.
  Qed.
End Reading.

Lemma wf_reperm size n b v q q' : well_formed size n (mk_pop b v q) -> Permutation q q' ->
  well_formed size n (mk_pop b v q').
Proof. unfold well_formed; cbn. intros (A & B & C & D & E & F) P. repeat split; auto. eapply Permutation_trans; eauto. Qed.

Lemma sort_wf sh srt size n p : shuffles sh -> sorts srt -> well_formed size n p ->
  well_formed size n (pop_sort sh srt p).
Proof.
  intros Hs Hr W. destruct p as [b v q]. apply (wf_reperm _ _ _ _ q); auto. cbn.
  eapply Permutation_trans; [apply Hs|]. apply Hr. apply by_value_order.
Qed.

Lemma sort_values sh srt size n p i j : shuffles sh -> sorts srt -> well_formed size n p -> i < j < size ->
  let p' := pop_sort sh srt p in
  (nth (nth j (p_perm p') 0%nat) (p_values p') 0 <= nth (nth i (p_perm p') 0%nat) (p_values p') 0)%Z.
Proof.
  intros Hs Hr W H p'. pose proof (sort_wf _ _ _ _ _ Hs Hr W) as W'. fold p' in W'.
  pose proof (perm_seq_length _ _ (wf_perm W')) as L.
  destruct (Hr (by_value (p_values p)) (sh (p_perm p)) (by_value_order _)) as [_ S].
  pose proof (StronglySorted_nth _ _ S i j (nth i (p_perm p') 0%nat) (nth j (p_perm p') 0%nat) (proj1 H)) as K.
  cbn beta in K. change (srt (by_value (p_values p)) (sh (p_perm p))) with (p_perm p') in K.
  specialize (K ltac:(apply nth_error_nth'; lia) ltac:(apply nth_error_nth'; lia)).
  unfold by_value in K. apply Z.ltb_ge in K. exact K.
Qed.

Lemma partial_sort_Ok sh psrt size n p k : shuffles sh -> partially_sorts psrt -> well_formed size n p ->
  0 < k <= size ->
  exists q, pop_partial_sort sh psrt p k = Ok (mk_pop (p_bvs p) (p_values p) q) /\
    well_formed size n (mk_pop (p_bvs p) (p_values p) q) /\
    forall i j, i < k -> i < j < size -> (nth (nth j q 0%nat) (p_values p) 0 <= nth (nth i q 0%nat) (p_values p) 0)%Z.
Proof.
  intros Hs Hp W Hk. pose proof (perm_seq_length _ _ (wf_perm W)) as L.
  unfold pop_partial_sort. rewrite (proj2 (Nat.ltb_lt _ _)) by lia. cbn.
  rewrite (proj2 (Nat.leb_le _ _)) by lia. cbn.
  eexists; split; [reflexivity|].
  pose proof (Permutation_length (Hs (p_perm p))) as L'.
  destruct (Hp k (by_value (p_values p)) (sh (p_perm p)) (by_value_order _) ltac:(lia)) as [P S].
  set (q := psrt k (by_value (p_values p)) (sh (p_perm p))) in *.
  split.
  - destruct p as [b v q0]. apply (wf_reperm _ _ _ _ q0); auto. eapply Permutation_trans; [apply Hs|exact P].
  - intros i j Hi Hj. pose proof (Permutation_length P) as L''.
    specialize (S i j (nth i q 0%nat) (nth j q 0%nat) Hi (proj1 Hj)
                  ltac:(apply nth_error_nth'; lia) ltac:(apply nth_error_nth'; lia)).
    unfold by_value in S. apply Z.ltb_ge in S. exact S.
Qed.

(** Equal ranges. *)
Lemma prefix_length_le {A} (f : A -> bool) l : prefix_length f l <= length l.
Proof. induction l as [|a l IH]; cbn; [auto|]. destruct (f a); lia. Qed.

Lemma prefix_length_spec {A} (f : A -> bool) l d :
  (forall i j, i <= j -> j < length l -> f (nth j l d) = true -> f (nth i l d) = true) ->
  forall i, i < length l -> (i < prefix_length f l <-> f (nth i l d) = true).
Proof.
  induction l as [|a l IH]; cbn [length prefix_length]; intros M i Hi; [lia|].
  destruct (f a) eqn:Fa.
  - destruct i as [|i]; cbn [nth]; [split; [auto|lia]|].
    rewrite <- IH; [lia| |lia]. intros u v Huv Hv. apply (M (S u) (S v)); lia.
  - split; [lia|]. intros F. exfalso. specialize (M 0 i ltac:(lia) ltac:(lia) F). cbn in M. congruence.
Qed.

Definition ordered (size : nat) (p : population) : Prop := forall i j, i <= j -> j < size ->
  (nth (nth j (p_perm p) 0%nat) (p_values p) 0 <= nth (nth i (p_perm p) 0%nat) (p_values p) 0)%Z.

Lemma equivalent_ordered size n p' index : well_formed size n p' -> ordered size p' -> index < size ->
  exists lo hi, get_equivalent_bvs p' index = Ok (lo, hi) /\ lo <= index < hi /\ hi <= size /\
    forall i, i < size -> (lo <= i < hi <-> best_value p' i = best_value p' index).
Proof.
  intros W' M H. pose proof (perm_seq_length _ _ (wf_perm W')) as L.
  unfold get_equivalent_bvs. rewrite (proj2 (Nat.ltb_lt _ _)) by lia. cbn [assertb bind].
  rewrite (vget_nth _ _ 0) by lia. cbn [bind]. unfold equal_range.
  eexists _, _; split; [reflexivity|].
  set (v := nth index (p_perm p') 0%nat).
  assert (A : forall i, i < size -> (i < prefix_length (fun e => by_value (p_values p') e v) (p_perm p') <->
      (nth v (p_values p') 0 < nth (nth i (p_perm p') 0%nat) (p_values p') 0)%Z)).
  { intros i Hi. rewrite (prefix_length_spec _ _ 0); [|intros a b Hab Hb|lia].
    - unfold by_value. apply Z.ltb_lt.
    - unfold by_value. rewrite !Z.ltb_lt. specialize (M a b Hab ltac:(lia)). lia. }
  assert (B : forall i, i < size -> (i < prefix_length (fun e => negb (by_value (p_values p') v e)) (p_perm p') <->
      (nth v (p_values p') 0 <= nth (nth i (p_perm p') 0%nat) (p_values p') 0)%Z)).
  { intros i Hi. rewrite (prefix_length_spec _ _ 0); [|intros a b Hab Hb|lia].
    - unfold by_value. rewrite negb_true_iff, Z.ltb_ge. lia.
    - unfold by_value. rewrite !negb_true_iff, !Z.ltb_ge. specialize (M a b Hab ltac:(lia)). lia. }
  assert (C : forall i, i < size ->
     (prefix_length (fun e => by_value (p_values p') e v) (p_perm p') <= i <
      prefix_length (fun e => negb (by_value (p_values p') v e)) (p_perm p') <->
      best_value p' i = best_value p' index)).
  { intros i Hi. rewrite (best_value_Ok W'), (best_value_Ok W') by auto. fold v.
    specialize (A i Hi). specialize (B i Hi). split.
    - intros E. f_equal. lia.
    - intros E. apply Ok_inj in E. lia. }
  split; [|split].
  - apply C; auto.
  - rewrite <- L. apply prefix_length_le.
  - exact C.
Qed.

Lemma sort_ordered sh srt size n p : shuffles sh -> sorts srt -> well_formed size n p -> ordered size (pop_sort sh srt p).
Proof.
  intros Hs Hr W i j Hij Hj. destruct (Nat.eq_dec i j) as [->|N]; [lia|].
  apply (sort_values sh srt size n p i j); auto. lia.
Qed.

Lemma equivalent_bvs sh srt size n p index : shuffles sh -> sorts srt -> well_formed size n p -> index < size ->
  let p' := pop_sort sh srt p in
  exists lo hi, get_equivalent_bvs p' index = Ok (lo, hi) /\ lo <= index < hi /\ hi <= size /\
    forall i, i < size -> (lo <= i < hi <-> best_value p' i = best_value p' index).
Proof.
  intros Hs Hr W H p'. apply (equivalent_ordered size n); [now apply sort_wf|now apply (sort_ordered _ _ size n)|assumption].
Qed.

(** Individuals of a list of indices. *)
Definition at_index (p : population) (k : nat) : bv * Z := (nth k (p_bvs p) [], nth k (p_values p) 0%Z).

Lemma individuals_seq size n p : well_formed size n p -> individuals p = map (at_index p) (seq 0 size).
Proof.
  intros (_ & _ & L & _ & L' & _). unfold individuals.
  apply (nth_ext _ _ ([], 0%Z) ([], 0%Z)).
  - rewrite combine_length, map_length, seq_length. lia.
  - intros i Hi. rewrite combine_length in Hi. rewrite combine_nth by lia.
    rewrite (nth_indep _ ([], 0%Z) (at_index p 0)) by (rewrite map_length, seq_length; lia).
    rewrite map_nth, seq_nth by lia. reflexivity.
Qed.

Lemma individuals_perm size n p : well_formed size n p -> Permutation (individuals p) (map (at_index p) (p_perm p)).
Proof. intros W. rewrite (individuals_seq size n) by auto. apply Permutation_map, (wf_perm W). Qed.

(** swap_at *)
Lemma swap_at_Ok {A} (l1 l2 : list A) i j d : i < length l1 -> j < length l2 ->
  swap_at l1 i l2 j = Ok (upd l1 i (nth j l2 d), upd l2 j (nth i l1 d)).
Proof.
  intros Hi Hj. unfold swap_at. rewrite (vget_nth _ _ d), (vget_nth _ _ d) by auto. cbn.
  rewrite (vset_Ok l1 i) by auto. cbn. rewrite (vset_Ok l2 j) by auto. reflexivity.
Qed.

Lemma Forall_nth_len {n} {l : list bv} : Forall (fun x => length x = n) l -> forall i, i < length l -> length (nth i l []) = n.
Proof. intros F i H. rewrite Forall_forall in F. apply F, nth_In; auto. Qed.

Lemma Forall_upd {A} (P : A -> Prop) l i a : Forall P l -> P a -> Forall P (upd l i a).
Proof.
  intros F Pa. revert i. induction F; intros i; cbn; [constructor|].
  destruct i; constructor; auto.
Qed.

Lemma foldM_upto {St} (Inv : nat -> St -> Prop) (f : St -> nat -> outcome St) n s :
  Inv 0 s ->
  (forall i s, i < n -> Inv i s -> exists s', f s i = Ok s' /\ Inv (S i) s') ->
  exists s', foldM f (seq 0 n) s = Ok s' /\ Inv n s'.
Proof.
  intros H0 HS. apply (foldM_seq_inv f Inv 0 n s); auto.
  intros i s' Hi I. destruct (HS i s') as (s2 & E & I2); auto; [lia|]. exists s2. rewrite Nat.add_1_r. auto.
Qed.

(** The loop that takes the best of the source. *)
Lemma take_best_Ok mu size n parents source :
  well_formed mu n parents -> well_formed size n source -> mu <= size ->
  exists parents' source',
    foldM take_best (seq 0 mu) (parents, source) = Ok (parents', source') /\
    well_formed mu n parents' /\ well_formed size n source' /\
    p_perm parents' = p_perm parents /\
    p_perm source' = p_perm source /\ p_values source' = p_values source /\
    individuals parents' = map (at_index source) (firstn mu (p_perm source)).
Proof.
  intros WP WS Hmu.
  pose proof (perm_seq_length _ _ (wf_perm WS)) as LQ.
  pose proof (perm_seq_NoDup _ _ (wf_perm WS)) as ND.
  assert (Q : forall i, i < size -> nth i (p_perm source) 0 < size) by (intros; apply perm_seq_nth; auto; apply (wf_perm WS)).
  destruct (foldM_upto (St := population * population)
    (fun k s =>
       well_formed mu n (fst s) /\ well_formed size n (snd s) /\
       p_perm (fst s) = p_perm parents /\
       p_perm (snd s) = p_perm source /\ p_values (snd s) = p_values source /\
       (forall i, i < k -> at_index (fst s) i = at_index source (nth i (p_perm source) 0%nat)) /\
       (forall i, k <= i < size -> nth (nth i (p_perm source) 0%nat) (p_bvs (snd s)) [] = nth (nth i (p_perm source) 0%nat) (p_bvs source) []))
    take_best mu (parents, source)) as [[ps ss] (E & W1 & W2 & P1 & P2 & V2 & I & _)].
  - cbn [fst snd]. split; [auto|]. split; [auto|]. repeat split; auto. intros; lia.
  - intros k [ps ss] Hk (W1 & W2 & P1 & P2 & V2 & I & J). cbn [fst snd] in *.
    unfold take_best. rewrite (best_value_Ok W2) by lia. cbn [bind].
    pose proof W1 as (p1 & p2 & LB & FB & LV & PP). pose proof W2 as (p3 & _ & LB2 & FB2 & LV2 & PP2).
    rewrite (vset_Ok (p_values ps) k) by lia. cbn [bind].
    rewrite (best_index_Ok W2) by lia. cbn [bind].
    rewrite P2, V2 in *.
    set (q := nth k (p_perm source) 0%nat) in *. assert (Hq : q < size) by (apply Q; lia).
    rewrite (swap_at_Ok _ _ _ _ []) by lia. cbn [bind].
    eexists; split; [reflexivity|]. cbn [fst snd p_bvs p_values p_perm].
    assert (Lk : length (nth k (p_bvs ps) []) = n) by (apply (Forall_nth_len FB); lia).
    assert (Lq : length (nth q (p_bvs ss) []) = n) by (apply (Forall_nth_len FB2); lia).
    split; [|split; [|split; [|split; [|split; [|split]]]]]; auto.
    + unfold well_formed; cbn [p_bvs p_values p_perm]. rewrite !length_upd.
      repeat split; auto. apply Forall_upd; auto.
    + unfold well_formed; cbn [p_bvs p_values p_perm]. rewrite !length_upd.
      split; [auto|]. split; [auto|]. split; [auto|]. split; [apply Forall_upd; auto|]. split; assumption.
    + intros i Hi. unfold at_index. cbn [p_bvs p_values].
      destruct (Nat.eq_dec i k) as [->|N].
      * rewrite !nth_upd_eq by lia. unfold q. f_equal. apply J. lia.
      * rewrite !nth_upd_neq by lia. apply I. lia.
    + intros i Hi. rewrite nth_upd_neq.
      * apply J. lia.
      * unfold q. intros EQ. apply (proj1 (NoDup_nth _ 0) ND) in EQ; lia.
  - exists ps, ss. cbn [fst snd] in *.
    split; [exact E|]. split; [auto|]. split; [auto|]. split; [auto|]. split; [auto|]. split; [auto|].
    rewrite (individuals_seq mu n) by auto.
    apply (nth_ext _ _ (at_index ps 0) (at_index source 0)).
    + rewrite !map_length, seq_length, firstn_length. lia.
    + intros i Hi. rewrite map_length, seq_length in Hi.
      rewrite !map_nth, seq_nth by auto. cbn. rewrite I by auto.
      f_equal. rewrite <- (firstn_skipn mu (p_perm source)) at 1. rewrite app_nth1; [reflexivity|].
      rewrite firstn_length. lia.
Qed.

Lemma reset_wf size n p : well_formed size n p -> well_formed size n (reset_perm p).
Proof.
  intros W. pose proof (perm_seq_length _ _ (wf_perm W)) as L. destruct W as (A & B & C & D & F & G).
  unfold well_formed, reset_perm, identity; cbn. rewrite L. repeat split; auto.
Qed.

Lemma selected_best mu size n source q0 : well_formed size n source -> mu <= size ->
  (forall i j, i < mu -> i < j < size ->
    (nth (nth j (p_perm source) 0%nat) (p_values source) 0 <= nth (nth i (p_perm source) 0%nat) (p_values source) 0)%Z) ->
  Permutation q0 (individuals source) ->
  best_of mu (map (at_index source) (firstn mu (p_perm source))) q0 /\
  non_increasing (map (at_index source) (firstn mu (p_perm source))).
Proof.
  intros W Hmu S HQ. pose proof (perm_seq_length _ _ (wf_perm W)) as L.
  assert (Fst : forall i a, nth_error (firstn mu (p_perm source)) i = Some a -> i < mu /\ a = nth i (p_perm source) 0%nat).
  { intros i a E. assert (i < length (firstn mu (p_perm source))) by (apply nth_error_Some; congruence).
    rewrite firstn_length in H. split; [lia|].
    apply (nth_error_nth _ _ 0) in E. rewrite <- E.
    rewrite <- (firstn_skipn mu (p_perm source)) at 2. rewrite app_nth1; [reflexivity|]. rewrite firstn_length. lia. }
  split.
  - split; [rewrite map_length, firstn_length; lia|].
    exists (map (at_index source) (skipn mu (p_perm source))). split.
    + rewrite <- map_app, firstn_skipn. eapply Permutation_trans; [exact HQ|]. apply (individuals_perm size n); auto.
    + intros a b Ha Hb. apply in_map_iff in Ha as (i & <- & Hi). apply in_map_iff in Hb as (j & <- & Hj).
      apply In_nth_error in Hi as [i' Hi]. apply Fst in Hi as [Hi ->].
      apply (In_nth _ _ 0) in Hj as (j' & Hj' & <-). rewrite skipn_length in Hj'.
      unfold at_index; cbn.
      assert (E : nth j' (skipn mu (p_perm source)) 0 = nth (mu + j') (p_perm source) 0%nat).
      { rewrite <- (firstn_skipn mu (p_perm source)) at 2. rewrite app_nth2; rewrite firstn_length; [|lia].
        f_equal. lia. }
      rewrite E. apply S; lia.
  - intros i j a b Hij Hi Hj. rewrite nth_error_map in Hi, Hj.
    destruct (nth_error _ i) as [x|] eqn:X; [|discriminate]. destruct (nth_error _ j) as [y|] eqn:Y; [|discriminate].
    apply Some_inj in Hi, Hj. apply Fst in X as [X ->]. apply Fst in Y as [Y ->].
    rewrite <- Hi, <- Hj. unfold at_index; cbn [snd]. apply S; lia.
Qed.

Lemma comma_select_Ok sh psrt mu lambda n parents offsprings :
  shuffles sh -> partially_sorts psrt ->
  well_formed mu n parents -> well_formed lambda n offsprings -> mu <= lambda ->
  exists parents' offsprings',
    comma_select sh psrt parents offsprings = Ok (parents', offsprings') /\
    well_formed mu n parents' /\ well_formed lambda n offsprings' /\
    p_perm parents' = seq 0 mu /\
    best_of mu (individuals parents') (individuals offsprings) /\
    non_increasing (individuals parents').
Proof.
  intros Hs Hp WP WO Hle. unfold comma_select.
  assert (SP : pop_size parents = mu) by apply WP. rewrite SP.
  assert (0 < mu) by apply WP.
  destruct (partial_sort_Ok sh psrt lambda n offsprings mu Hs Hp WO ltac:(lia)) as (q & -> & WO' & S). cbn [bind].
  set (off := mk_pop (p_bvs offsprings) (p_values offsprings) q) in *.
  destruct (take_best_Ok mu lambda n parents off WP WO' Hle) as (ps & ss & -> & W1 & W2 & P1 & P2 & V2 & I). cbn [bind].
  exists (reset_perm ps), ss. split; [reflexivity|]. split; [apply reset_wf; auto|]. split; [auto|].
  split; [cbn; unfold identity; rewrite P1, (perm_seq_length mu); auto; apply (wf_perm WP)|].
  change (individuals (reset_perm ps)) with (individuals ps). rewrite I.
  apply (selected_best mu lambda n); auto.
Qed.

(** The loops that fill the pool. *)
Lemma give_Ok offset size total n pool source :
  well_formed total n pool -> well_formed size n source -> offset + size <= total ->
  exists pool' source',
    foldM (give offset) (seq 0 size) (pool, source) = Ok (pool', source') /\
    well_formed total n pool' /\ well_formed size n source' /\
    p_perm source' = p_perm source /\
    forall i, i < total -> at_index pool' i = if (offset <=? i) && (i <? offset + size) then at_index source (i - offset) else at_index pool i.
Proof.
  intros WP WS Hle.
  destruct (foldM_upto (St := population * population)
    (fun k s =>
       well_formed total n (fst s) /\ well_formed size n (snd s) /\
       p_perm (snd s) = p_perm source /\ p_values (snd s) = p_values source /\
       (forall i, k <= i < size -> nth i (p_bvs (snd s)) [] = nth i (p_bvs source) []) /\
       (forall i, i < total -> at_index (fst s) i =
          if (offset <=? i) && (i <? offset + k) then at_index source (i - offset) else at_index pool i))
    (give offset) size (pool, source)) as [[ps ss] (E & W1 & W2 & P2 & V2 & J & I)].
  - cbn [fst snd]. split; [auto|]. split; [auto|]. repeat split; auto.
    intros i Hi. destruct (Nat.leb_spec offset i), (Nat.ltb_spec i (offset + 0)); cbn; try lia; auto.
  - intros k [ps ss] Hk (W1 & W2 & P2 & V2 & J & I). cbn [fst snd] in *.
    pose proof W1 as (p1 & p2 & LB & FB & LV & PP). pose proof W2 as (p3 & _ & LB2 & FB2 & LV2 & PP2).
    unfold give. rewrite (vget_nth _ _ 0%Z) by lia. cbn [bind].
    rewrite (vset_Ok (p_values ps)) by lia. cbn [bind].
    rewrite (swap_at_Ok _ _ _ _ []) by lia. cbn [bind].
    eexists; split; [reflexivity|]. cbn [fst snd p_bvs p_values p_perm].
    assert (Lk : length (nth k (p_bvs ss) []) = n) by (apply (Forall_nth_len FB2); lia).
    assert (Lq : length (nth (offset + k) (p_bvs ps) []) = n) by (apply (Forall_nth_len FB); lia).
    split; [|split; [|split; [|split; [|split]]]]; auto.
    + unfold well_formed; cbn [p_bvs p_values p_perm]. rewrite !length_upd.
      repeat split; auto. apply Forall_upd; auto.
    + unfold well_formed; cbn [p_bvs p_values p_perm]. rewrite !length_upd.
      repeat split; auto. apply Forall_upd; auto.
    + intros i Hi. rewrite nth_upd_neq by lia. apply J. lia.
    + intros i Hi. unfold at_index at 1. cbn [p_bvs p_values].
      destruct (Nat.eq_dec i (offset + k)) as [->|N].
      * rewrite !nth_upd_eq by lia.
        rewrite (proj2 (Nat.leb_le _ _)), (proj2 (Nat.ltb_lt _ _)) by lia. cbn [andb].
        replace (offset + k - offset) with k by lia. unfold at_index. f_equal; [apply J; lia|congruence].
      * rewrite !nth_upd_neq by lia. fold (at_index ps i). rewrite I by auto.
        destruct (Nat.leb_spec offset i), (Nat.ltb_spec i (offset + k)), (Nat.ltb_spec i (offset + S k)); cbn; auto; lia.
  - exists ps, ss. cbn [fst snd] in *. split; [exact E|]. split; [auto|]. split; [auto|]. split; auto.
Qed.

Lemma seq_shift_map a n : seq a n = map (fun i => a + i) (seq 0 n).
Proof.
  revert a. induction n; intros a; cbn; [reflexivity|]. f_equal; [lia|].
  rewrite (IHn (S a)), (IHn 1), map_map. apply map_ext. intros; lia.
Qed.

Lemma plus_select_Ok sh psrt mu lambda n parents offsprings pool :
  shuffles sh -> partially_sorts psrt ->
  well_formed mu n parents -> well_formed lambda n offsprings -> well_formed (mu + lambda) n pool ->
  exists parents' offsprings' pool',
    plus_select sh psrt parents offsprings pool = Ok (parents', offsprings', pool') /\
    well_formed mu n parents' /\ well_formed lambda n offsprings' /\ well_formed (mu + lambda) n pool' /\
    p_perm parents' = seq 0 mu /\
    best_of mu (individuals parents') (individuals parents ++ individuals offsprings) /\
    non_increasing (individuals parents').
Proof.
  intros Hs Hp WP WO WQ. unfold plus_select.
  assert (SP : pop_size parents = mu) by apply WP. rewrite SP. assert (0 < mu) by apply WP.
  destruct (give_Ok 0 mu (mu + lambda) n pool parents WQ WP ltac:(lia)) as (q1 & ps1 & -> & WQ1 & WP1 & PP1 & I1). cbn [bind].
  assert (SP1 : pop_size ps1 = mu) by apply WP1. assert (SO : pop_size offsprings = lambda) by apply WO.
  rewrite SP1, SO.
  destruct (give_Ok mu lambda (mu + lambda) n q1 offsprings WQ1 WO ltac:(lia)) as (q2 & os2 & -> & WQ2 & WO2 & PO2 & I2). cbn [bind].
  destruct (partial_sort_Ok sh psrt (mu + lambda) n q2 mu Hs Hp WQ2 ltac:(lia)) as (q & -> & WQ3 & S). cbn [bind].
  set (q3 := mk_pop (p_bvs q2) (p_values q2) q) in *. rewrite ?SP1.
  destruct (take_best_Ok mu (mu + lambda) n ps1 q3 WP1 WQ3 ltac:(lia)) as (ps & ss & -> & W1 & W2 & P1 & P2 & V2 & I). cbn [bind].
  exists (reset_perm ps), os2, ss. split; [reflexivity|]. split; [apply reset_wf; auto|]. split; [auto|]. split; [auto|].
  split; [cbn; unfold identity; rewrite P1, PP1, (perm_seq_length mu); auto; apply (wf_perm WP)|].
  change (individuals (reset_perm ps)) with (individuals ps). rewrite I.
  apply (selected_best mu (mu + lambda) n); auto; [lia|].
  replace (individuals q3) with (individuals parents ++ individuals offsprings); [apply Permutation_refl|].
  rewrite (individuals_seq mu n parents), (individuals_seq lambda n offsprings), (individuals_seq (mu + lambda) n q3) by auto.
  rewrite seq_app, map_app. f_equal.
  - apply map_ext_in. intros i Hi. apply in_seq in Hi. change (at_index q3 i) with (at_index q2 i).
    rewrite I2, I1 by lia. rewrite (proj2 (Nat.leb_gt mu i)), (proj2 (Nat.leb_le 0 i)), (proj2 (Nat.ltb_lt i (0 + mu))) by lia.
    cbn [andb]. f_equal. lia.
  - rewrite Nat.add_0_l, (seq_shift_map mu), map_map. apply map_ext_in. intros i Hi. apply in_seq in Hi.
    change (at_index q3 (mu + i)) with (at_index q2 (mu + i)).
    rewrite I2 by lia. rewrite (proj2 (Nat.leb_le _ _)), (proj2 (Nat.ltb_lt _ _)) by lia. cbn. f_equal. lia.
Qed.

Lemma pop_make_wf size n : 0 < size -> 0 < n -> exists p, pop_make size n = Ok p /\ well_formed size n p.
Proof.
  intros Hs Hn. unfold pop_make. rewrite (proj2 (Nat.ltb_lt _ _)), (proj2 (Nat.ltb_lt 0 n)) by auto. cbn.
  eexists; split; [reflexivity|]. unfold well_formed; cbn. rewrite !repeat_length. repeat split; auto.
  - apply Forall_forall. intros x Hx. apply repeat_spec in Hx as ->. apply repeat_length.
Qed.

Lemma plus_make_Ok mu lambda n parents offsprings :
  well_formed mu n parents -> well_formed lambda n offsprings ->
  exists pool, plus_make parents offsprings = Ok pool /\ well_formed (mu + lambda) n pool.
Proof.
  intros WP WO. unfold plus_make, pop_bv_size.
  destruct WP as (A1 & A2 & A3 & A4 & _), WO as (B1 & _ & B3 & B4 & _).
  rewrite (vget_nth (p_bvs parents) _ []) by lia. cbn [bind]. rewrite (Forall_nth_len A4) by lia.
  unfold pop_size. rewrite A3, B3.
  destruct (pop_make_wf (mu + lambda) n ltac:(lia) A2) as (pool & -> & W). cbn [bind].
  rewrite (vget_nth (p_bvs offsprings) _ []) by lia. cbn [bind]. rewrite (Forall_nth_len B4) by lia.
  rewrite Nat.eqb_refl. cbn. eauto.
Qed.
