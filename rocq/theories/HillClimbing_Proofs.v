(** Proofs about first and steepest ascent hill climbing. *)

From Verif Require Import Base BaseLemmas BitVector_Model BitVector_Spec BitVector_Proofs Iterator_Model Iterator_Proofs Map_Spec Neighborhood_Model Neighborhood_Spec
  Algorithm_Model Algorithm_Spec Algorithm_Proofs.

(** * Neighborhood iterators *)

Lemma bv_flip_length x i y : bv_flip x i = Ok y -> length y = length x.
Proof.
  unfold bv_flip. intros E. apply bind_Ok in E as (b & _ & E). unfold vset in E. destruct (i <? length x); [|discriminate].
  apply Ok_inj in E as <-. apply length_upd.
Qed.

Definition ngood n r (x : bv) (t : nit) : Prop := nit_reachable n r t /\ nit_current t = x.

Lemma enum_single n s L : enum (fun s => Ok (sb_has_next s)) sb_next (fun x s' => length x = n /\ sb_current s' = x) s L ->
  enum nit_has_next nit_next (ngood n 1) (NSingle s) L.
Proof.
  induction 1 as [s H|s x s' L H N [G1 G2] E IH].
  - now constructor.
  - econstructor; eauto; cbn [nit_next].
    + now rewrite N.
    + subst x. repeat split; auto.
Qed.

Lemma enum_sphere n r s L : 0 < r -> enum hs_has_next hs_next (fun x s' => hs_reachable n r s' /\ hs_current s' = x) s L ->
  enum nit_has_next nit_next (ngood n r) (NSphere s) L.
Proof.
  intros Hr. induction 1 as [s H|s x s' L H N [G1 G2] E IH].
  - now constructor.
  - econstructor; eauto; cbn [nit_next].
    + now rewrite N.
    + subst x. repeat split; auto.
Qed.

Lemma nit_enum n r t : nit_reachable n r t ->
  exists L, enum nit_has_next nit_next (ngood n r) (nit_init t) L /\ NoDup L /\ (forall y, In y L <-> neighbor n r (nit_current t) y).
Proof.
  intros H. destruct t as [s|s]; cbn [nit_reachable nit_init nit_current] in *.
  - destruct H as [H ->]. destruct (single_bit_flip_enumerates n (sb_current s) s s) as (s' & l & D & _ & _ & I & N); auto.
    { unfold sb_set_origin. rewrite Nat.eqb_refl. destruct s; reflexivity. }
    exists l. split; [|split; auto]. apply enum_single.
    apply (drain_enum _ _ _ (fun s => length (sb_current s) = n) (S n)) with (s' := s'); auto.
    intros s1 x s2 H1 E. unfold sb_next in E. apply bind_Ok in E as (? & _ & E). destruct (sb_initial s1).
    + apply bind_Ok in E as (c & C & E). apply Ok_inj in E. injection E as <- <-. apply bv_flip_length in C. cbn. repeat split; congruence.
    + apply bind_Ok in E as (c & C & E). apply bind_Ok in E as (c2 & C2 & E). apply Ok_inj in E. injection E as <- <-.
      apply bv_flip_length in C. apply bv_flip_length in C2. cbn. repeat split; congruence.
  - destruct H as [H Hr]. destruct (hamming_sphere_enumerates n r (hs_current s) s s) as (s' & l & D & N & I); auto.
    { unfold hs_set_origin. rewrite Nat.eqb_refl. destruct s; reflexivity. }
    exists l. split; [|split; auto]. apply enum_sphere; auto.
    apply (drain_enum _ _ _ (hs_reachable n r) (S (length l))) with (s' := s'); auto; [|now apply hs_reach_init].
    intros s1 x s2 H1 E. assert (hs_reachable n r s2) by (eapply hs_reach_next; eauto). repeat split; auto.
    unfold hs_next in E. apply bind_Ok in E as (? & _ & E). apply bind_Ok in E as (? & _ & E). apply bind_Ok in E as ([c1 idx] & _ & E).
    apply bind_Ok in E as (c2 & _ & E). apply Ok_inj in E. now injection E as <- <-.
Qed.

Lemma nit_length n r t : nit_reachable n r t -> length (nit_current t) = n.
Proof. destruct t as [s|s]; cbn; [easy|]. intros [H _]. now apply hs_reachable_inv in H. Qed.

Lemma nit_set_origin_ok n r t x : nit_reachable n r t -> length x = n ->
  exists t', nit_set_origin t x = Ok t' /\ nit_reachable n r t' /\ nit_current t' = x.
Proof.
  intros H L. pose proof (nit_length n r t H) as L0. destruct t as [s|s]; cbn [nit_set_origin nit_reachable nit_current] in *.
  - unfold sb_set_origin. rewrite L, L0, Nat.eqb_refl. cbn. eexists. split; [reflexivity|]. cbn. intuition.
  - assert (E : exists s', hs_set_origin s x = Ok s' /\ hs_current s' = x).
    { unfold hs_set_origin. rewrite L, L0, Nat.eqb_refl. cbn. eexists. split; reflexivity. }
    destruct E as (s' & E & C). rewrite E. cbn. eexists. split; [reflexivity|]. split; [|exact C]. split; [|apply H].
    eapply hs_reach_origin; [apply H|exact E].
Qed.

Lemma neighbor_length n r x L : NoDup L -> (forall y, In y L <-> neighbor n r x y) -> length L <= 2 ^ n.
Proof.
  intros N H. destruct (all_bvs_spec n) as (A1 & A2 & A3 & _). rewrite <- A1. apply NoDup_incl_length; [assumption|].
  intros y Hy. apply A3. apply H in Hy. apply Hy.
Qed.

(** A neighbor exists. *)
Lemma neighbor_exists n r x : length x = n -> r <= n -> exists y, neighbor n r x y.
Proof.
  intros Hx Hr. exists (flips x (seq 0 r)). assert (V : forall i, In i (seq 0 r) -> i < length x) by (intros i Hi; apply in_seq in Hi; lia).
  assert (D : diffs n x (flips x (seq 0 r)) = seq 0 r).
  { apply diffs_flips; auto; [apply SortedLemmas.increasing_seq|]. intros i Hi. rewrite <- Hx. now apply V. }
  split; [now rewrite length_flips|]. rewrite D. apply seq_length.
Qed.

(** * The measure: vectors better than the solution *)

Definition better_count {X} (o : objective) (n : nat) (s : alg X) : nat :=
  length (filter (fun y => snd (a_sol s) <? o_value o y)%Z (all_bvs n)).

Lemma filter_length_le' {A} (p q : A -> bool) l : (forall x, p x = true -> q x = true) -> length (filter p l) <= length (filter q l).
Proof.
  intros H. induction l as [|x l IH]; [auto|]. cbn. destruct (p x) eqn:P.
  - rewrite (H x P). cbn. lia.
  - destruct (q x); cbn; lia.
Qed.

Lemma better_count_lt {X} o n (s s' : alg X) : length (fst (a_sol s')) = n -> snd (a_sol s') = o_value o (fst (a_sol s')) ->
  (snd (a_sol s) < snd (a_sol s'))%Z -> better_count o n s' < better_count o n s.
Proof.
  intros L V H. destruct (all_bvs_spec n) as (_ & _ & A3 & _). apply A3 in L. unfold better_count.
  apply in_split in L as (l1 & l2 & ->). rewrite !filter_app, !app_length. cbn [filter]. rewrite <- V.
  rewrite Z.ltb_irrefl. apply Z.ltb_lt in H as H'. rewrite H'. cbn [length].
  pose proof (filter_length_le' (fun y => snd (a_sol s') <? o_value o y)%Z (fun y => snd (a_sol s) <? o_value o y)%Z l1) as F1.
  pose proof (filter_length_le' (fun y => snd (a_sol s') <? o_value o y)%Z (fun y => snd (a_sol s) <? o_value o y)%Z l2) as F2.
  assert (forall y, (snd (a_sol s') <? o_value o y)%Z = true -> (snd (a_sol s) <? o_value o y)%Z = true).
  { intros y. rewrite !Z.ltb_lt. lia. }
  specialize (F1 H0). specialize (F2 H0). lia.
Qed.

Lemma better_count_le {X} o n (s : alg X) : better_count o n s <= 2 ^ n.
Proof.
  destruct (all_bvs_spec n) as (A1 & _). rewrite <- A1. unfold better_count. generalize (all_bvs n). intros l. induction l as [|x l IH]; cbn; [lia|].
  destruct (snd (a_sol s) <? o_value o x)%Z; cbn; lia.
Qed.

Definition raised (o : objective) (e : option exn) : Prop := match e with Some e => thrown_by o e | None => False end.

(** * First ascent *)

Lemma first_loop_ok o n r fuel : forall t L s, enum nit_has_next nit_next (ngood n r) t L -> a_mem s = t -> length L < fuel -> best o s -> nit_reachable n r t ->
  wp (first_loop o fuel)
    (fun b s' => best o s' /\ a_last s' = a_last s /\ nit_reachable n r (a_mem s') /\
       if b : bool then In (fst (a_sol s')) L /\ (snd (a_sol s) < snd (a_sol s'))%Z /\ nit_current (a_mem s') = fst (a_sol s')
       else a_sol s' = a_sol s /\ forall y, In y L -> (o_value o y <= snd (a_sol s))%Z)
    (fun e s' => best o s' /\ a_sol s' = a_sol s /\ raised o e) s.
Proof.
  induction fuel as [|fuel IH]; intros t L s E M F B R; [lia|]. cbn [first_loop].
  destruct E as [t H|t x t' L H N G E]; apply wp_bind; eapply wp_on_mem; [now rewrite M, H| |now rewrite M, H|].
  - apply wp_ret. cbn [put_mem a_sol a_last a_mem]. split; [exact B|]. split; [reflexivity|]. split; [now rewrite ?M|]. split; [reflexivity|]. cbn; intros; lia.
  - apply wp_bind. eapply wp_on_mem; [exact N|]. apply wp_bind. apply wp_evaluate.
    { cbn [put_mem a_trace]. intros e He. split; [exact B|]. split; [reflexivity|]. eexists. exact He. }
    apply wp_bind, wp_get. cbn [put_mem put_trace a_sol a_trace a_last a_mem].
    pose proof (update_best o s x B) as U. unfold wp, update_solution in U. cbn [put_trace a_sol] in U.
    destruct (snd (a_sol s) <? o_value o x)%Z eqn:C.
    + apply wp_bind, wp_modify, wp_ret. cbn [put_sol a_sol a_last a_mem fst snd]. apply Z.ltb_lt in C.
      destruct U as (U & _). split; [exact U|]. split; [reflexivity|]. split; [apply G|]. split; [now left|]. split; [assumption|]. apply G.
    + destruct U as (U & _). eapply wp_mono; [apply (IH t' L); [exact E|reflexivity|cbn in F; lia|exact U|apply G]| |].
      * cbn [put_mem put_trace a_sol a_trace a_last a_mem]. intros b s' (Q1 & Q2 & QR & Q3). split; [exact Q1|]. split; [exact Q2|]. split; [exact QR|].
        destruct b; [|destruct Q3 as [Q3 Q4]; split; [exact Q3|]; intros y [<-|Hy]; auto; apply Z.ltb_ge in C; lia].
        destruct Q3 as (Q3 & Q4). split; [now right|exact Q4].
      * cbn [put_mem put_trace a_sol a_trace a_last a_mem]. auto.
Qed.

(** What holds between iterations *)
Definition first_inv o n r (s : alg nit) : Prop :=
  best o s /\ length (fst (a_sol s)) = n /\ nit_reachable n r (a_mem s) /\ (a_last s = false -> nit_current (a_mem s) = fst (a_sol s)) /\
  (a_last s = true -> local_maximum (o_value o) n r (fst (a_sol s))).

Lemma first_iterate_ok o n r fuel i s : 2 ^ n < fuel -> best o s -> length (fst (a_sol s)) = n -> nit_reachable n r (a_mem s) -> nit_current (a_mem s) = fst (a_sol s) ->
  wp (first_iterate o fuel i)
    (fun _ s' => best o s' /\ nit_reachable n r (a_mem s') /\
       ((neighbor n r (fst (a_sol s)) (fst (a_sol s')) /\ (snd (a_sol s) < snd (a_sol s'))%Z /\ a_last s' = a_last s /\
         nit_current (a_mem s') = fst (a_sol s')) \/
        (a_sol s' = a_sol s /\ a_last s' = true /\ local_maximum (o_value o) n r (fst (a_sol s)))))
    (fun e s' => best o s' /\ a_sol s' = a_sol s /\ raised o e) s.
Proof.
  intros F B HL R C. assert (R0 : nit_reachable n r (nit_init (a_mem s))).
  { destruct (a_mem s) as [t|t]; cbn [nit_reachable nit_init] in *; [exact R|]. split; [now apply hs_reach_init|apply R]. }
  destruct (nit_enum n r (a_mem s) R) as (L & E & N & I). rewrite C in I.
  unfold first_iterate. apply wp_bind, wp_modify. apply wp_bind.
  eapply wp_mono; [apply (first_loop_ok o n r fuel (nit_init (a_mem s)) L); [exact E|reflexivity|pose proof (neighbor_length n r _ L N I); lia|exact B|exact R0]| |].
  2:{ cbn. auto. }
  cbn [put_mem a_sol a_last]. intros b s' (Q1 & Q2 & QR & Q3). destruct b.
  - apply wp_ret. split; [exact Q1|]. split; [exact QR|]. left. destruct Q3 as (Q3 & Q4 & Q5). apply I in Q3. auto.
  - apply wp_modify. cbn [put_last a_sol a_last a_mem]. split; [exact Q1|]. split; [exact QR|]. right. destruct Q3 as [Q3 Q4]. split; [exact Q3|]. split; [reflexivity|].
    intros y Hy. apply I in Hy. specialize (Q4 y Hy). destruct B as [_ BV]. lia.
Qed.

(** The algorithm before a run: nothing has been evaluated yet in this run. *)
Definition begun {X} (n : nat) (m : X) (s : alg X) : Prop := a_trace s = [] /\ length (fst (a_sol s)) = n /\ a_mem s = m.
Lemma begun_make {X} n (m : X) s : alg_make n m = Ok s -> begun n m s.
Proof.
  unfold alg_make. intros E. apply bind_Ok in E as (u & _ & E). apply Ok_inj in E. subst s. split; [reflexivity|]. split; [apply repeat_length|reflexivity].
Qed.

Theorem first_ascent_from o n r t st num fuel1 fuel s0 : nit_reachable n r t -> start_sized n st -> 2 ^ n < fuel1 -> 2 ^ n + 1 < fuel ->
  begun n t s0 ->
  match loop (hc_alg_init o st) (first_iterate o fuel1) num fuel s0 with
  | (Ret _, s') => (best o s' /\ length (fst (a_sol s')) = n /\
      (a_last s' = true -> local_maximum (o_value o) n r (fst (a_sol s'))) /\ ((num <= 0)%Z -> a_last s' = true)) /\ nit_reachable n r (a_mem s')
  | (Exc e, s') => thrown_by o e /\ (a_trace s' <> [] -> best o s')
  | _ => False
  end.
Proof.
  intros R ST F1 F (G1 & G2 & G3).
  assert (W : wp (loop (hc_alg_init o st) (first_iterate o fuel1) num fuel)
    (fun _ s' => exists k, (best o s' /\ length (fst (a_sol s')) = n /\ nit_reachable n r (a_mem s') /\ (a_last s' = false -> nit_current (a_mem s') = fst (a_sol s')) /\
        (a_last s' = true -> local_maximum (o_value o) n r (fst (a_sol s')))) /\ (a_last s' = true \/ (0 < num <= Z.of_nat k)%Z))
    (fun e s' => raised o e /\ (a_trace s' <> [] -> best o s')) s0).
  { unfold loop, hc_alg_init. apply wp_bind, wp_bind. eapply wp_mono; [apply (start_wp o n st s0 ST); auto| |].
    2:{ intros e s' (Q1 & Q2 & Q3 & _). split; [|congruence]. destruct e as [e|]; [|congruence]. now exists 0. }
    cbn beta. intros _ s1 (B1 & L1 & T1 & LA1 & M1). rewrite G3 in M1. apply wp_bind, wp_get. rewrite <- M1 in R.
    destruct (nit_set_origin_ok n r _ _ R L1) as (t' & E' & R' & C'). eapply wp_on_mem; [now rewrite E'|].
    apply wp_bind, wp_modify. set (s2 := put_last _ _).
    apply (loop_from_measure (first_iterate o fuel1) (fun _ s' => best o s' /\ length (fst (a_sol s')) = n /\ nit_reachable n r (a_mem s') /\ (a_last s' = false -> nit_current (a_mem s') = fst (a_sol s')) /\
        (a_last s' = true -> local_maximum (o_value o) n r (fst (a_sol s')))) (better_count o n)).
    2:{ split; [exact B1|]. split; [exact L1|]. split; [exact R'|]. split; [intros _; exact C'|discriminate]. }
    2:{ left. pose proof (better_count_le o n s2). lia. }
    intros i s (B & L & H0 & H1 & H2) LA.
    eapply wp_mono; [apply (first_iterate_ok o n r fuel1 i s F1 B L H0 (H1 LA))| |].
    - cbn beta. intros _ s' (B' & R1 & [(Q1 & Q2 & Q3 & Q5)|(Q1 & Q2 & Q3)]).
      + split.
        * split; [exact B'|]. split; [apply Q1|]. split; [exact R1|]. split; [auto|]. intros; congruence.
        * right. apply better_count_lt; [apply Q1|apply B'|exact Q2].
      + split; [|now left]. split; [exact B'|]. rewrite Q1. split; [exact L|]. split; [exact R1|]. split; [intros; congruence|auto].
    - cbn beta. intros e s' (B' & _ & Q). auto. }
  apply wp_result in W. destruct (loop _ _ _ _ _) as [[a|e| |] s'].
  - destruct W as (k & (W1 & W2 & W3 & W4 & W6) & W5). split; [|exact W3]. split; [exact W1|]. split; [exact W2|]. split; [exact W6|]. intros; destruct W5; auto; lia.
  - exact W.
  - exact W.
  - exact (proj1 W).
Qed.

Theorem first_ascent_run o n r t st num fuel1 fuel s : 0 < n -> nit_reachable n r t -> start_sized n st -> 2 ^ n < fuel1 -> 2 ^ n + 1 < fuel ->
  alg_make n t = Ok s ->
  match loop (hc_alg_init o st) (first_iterate o fuel1) num fuel s with
  | (Ret _, s') => best o s' /\ length (fst (a_sol s')) = n /\
      (a_last s' = true -> local_maximum (o_value o) n r (fst (a_sol s'))) /\ ((num <= 0)%Z -> a_last s' = true)
  | (Exc e, s') => thrown_by o e /\ (a_trace s' <> [] -> best o s')
  | _ => False
  end.
Proof.
  intros _ R ST F1 F E. pose proof (first_ascent_from o n r t st num fuel1 fuel s R ST F1 F (begun_make _ _ _ E)) as H.
  destruct (loop _ _ _ _ _) as [[a|e| |] s']; auto. apply H.
Qed.

(** * Steepest ascent *)

Lemma on_nit_wp {A} (g : nit -> outcome (A * nit)) a t (Q : A -> alg sahc -> Prop) E s :
  g (sa_nit (a_mem s)) = Ok (a, t) -> Q a (put_mem (mk_sahc t (sa_cands (a_mem s))) s) -> wp (on_nit g) Q E s.
Proof. intros H1 H2. eapply wp_on_mem; [|exact H2]. now rewrite H1. Qed.

Lemma store_wp x index (Q : nat -> alg sahc -> Prop) E s : index < length (sa_cands (a_mem s)) ->
  Q (index + 1) (put_mem (mk_sahc (sa_nit (a_mem s)) (upd (sa_cands (a_mem s)) index x)) s) -> wp (store_candidate x index) Q E s.
Proof. intros H1 H2. eapply wp_on_mem; [|exact H2]. now rewrite vset_Ok. Qed.

(** [best] is the maximum of the values of [L0], and the first [index] candidates
    reach it. *)
Definition cands_inv (o : objective) (n : nat) (L0 : list bv) (best : Z) (index : nat) (c : list bv) : Prop :=
  1 <= index <= length c /\ length c = n /\ (forall y, In y L0 -> (o_value o y <= best)%Z) /\
  (forall k, k < index -> In (nth k c []) L0 /\ o_value o (nth k c []) = best).

Lemma steepest_loop_ok o n r fuel : forall t L L0 bst index s, enum nit_has_next nit_next (ngood n r) t L -> sa_nit (a_mem s) = t -> length L < fuel ->
  cands_inv o n L0 bst index (sa_cands (a_mem s)) ->
  wp (steepest_loop o fuel bst index)
    (fun b s' => a_sol s' = a_sol s /\ a_last s' = a_last s /\ a_trace s' = a_trace s ++ L /\ (nit_reachable n r t -> nit_reachable n r (sa_nit (a_mem s'))) /\
       cands_inv o n (L0 ++ L) (fst b) (snd b) (sa_cands (a_mem s')))
    (fun e s' => a_sol s' = a_sol s /\ (exists K, a_trace s' = a_trace s ++ K) /\ raised o e) s.
Proof.
  induction fuel as [|fuel IH]; intros t L L0 bst index s E M F C; [lia|]. cbn [steepest_loop].
  destruct E as [t H|t x t' L H N G E]; apply wp_bind; eapply on_nit_wp; [now rewrite M, H| |now rewrite M, H|].
  - apply wp_ret. cbn [put_mem a_sol a_last a_trace a_mem sa_nit sa_cands fst snd]. rewrite !app_nil_r. repeat split; auto; apply C; auto.
  - apply wp_bind. eapply on_nit_wp; [exact N|]. cbn [put_mem a_sol a_last a_trace a_mem sa_nit sa_cands]. apply wp_bind, wp_evaluate.
    { cbn [put_mem a_sol a_last a_trace a_mem]. intros e He. split; [reflexivity|]. split; [exists []; now rewrite app_nil_r|eexists; exact He]. }
    cbn [put_mem put_trace a_sol a_last a_trace a_mem sa_nit sa_cands].
    assert (K : forall b' i' c', cands_inv o n (L0 ++ [x]) b' i' c' ->
      wp (steepest_loop o fuel b' i')
        (fun b s' => a_sol s' = a_sol s /\ a_last s' = a_last s /\ a_trace s' = a_trace s ++ x :: L /\ (nit_reachable n r t -> nit_reachable n r (sa_nit (a_mem s'))) /\
           cands_inv o n (L0 ++ x :: L) (fst b) (snd b) (sa_cands (a_mem s')))
        (fun e s' => a_sol s' = a_sol s /\ (exists K, a_trace s' = a_trace s ++ K) /\ raised o e)
        (mk_alg (a_trace s ++ [x]) (a_sol s) (a_last s) (mk_sahc t' c'))).
    { intros b' i' c' C'. eapply wp_mono; [apply (IH t' L (L0 ++ [x]) b' i'); [exact E|reflexivity|cbn in F; lia|exact C']| |].
      - cbn [a_sol a_last a_trace a_mem]. intros b s' (Q1 & Q2 & Q3 & Q4 & Q5). rewrite <- app_assoc in Q3, Q5. repeat (split; [assumption|]). split; [|exact Q5].
        intros _. apply Q4. apply G.
      - cbn [a_sol a_last a_trace a_mem]. intros e s' (Q1 & (K & Q2) & Q3). split; [assumption|]. split; [|assumption].
        exists (x :: K). rewrite Q2, <- app_assoc. reflexivity. }
    destruct C as (C1 & C2 & C3 & C4).
    destruct (Z.ltb_spec bst (o_value o x)) as [LT|GE].
    + apply wp_bind, store_wp; [cbn; lia|]. cbn [put_mem put_trace a_sol a_last a_trace a_mem sa_nit sa_cands]. apply K. unfold cands_inv. rewrite length_upd.
      split; [lia|]. split; [assumption|]. split.
      * intros y Hy. apply in_app_or in Hy as [Hy|[<-|[]]]; [specialize (C3 y Hy)|]; lia.
      * intros k Hk. assert (k = 0) as -> by lia. rewrite nth_upd_eq by lia. split; [apply in_or_app; right; now left|reflexivity].
    + destruct (Z.eqb_spec (o_value o x) bst) as [EQ|NE].
      * apply wp_bind, wp_get. cbn [put_mem put_trace a_sol a_last a_trace a_mem sa_nit sa_cands]. destruct (Nat.ltb_spec index (length (sa_cands (a_mem s)))) as [LI|GI].
        -- apply wp_bind, store_wp; [cbn; lia|]. cbn [put_mem put_trace a_sol a_last a_trace a_mem sa_nit sa_cands]. apply K. unfold cands_inv. rewrite length_upd.
           split; [lia|]. split; [assumption|]. split.
           ++ intros y Hy. apply in_app_or in Hy as [Hy|[<-|[]]]; [specialize (C3 y Hy)|]; lia.
           ++ intros k Hk. destruct (Nat.eq_dec k index) as [->|NK].
              ** rewrite nth_upd_eq by lia. split; [apply in_or_app; right; now left|assumption].
              ** rewrite nth_upd_neq by lia. destruct (C4 k ltac:(lia)). split; [apply in_or_app; now left|assumption].
        -- apply K. split; [lia|]. split; [assumption|]. split.
           ++ intros y Hy. apply in_app_or in Hy as [Hy|[<-|[]]]; [specialize (C3 y Hy)|]; lia.
           ++ intros k Hk. destruct (C4 k Hk). split; [apply in_or_app; now left|assumption].
      * apply K. split; [lia|]. split; [assumption|]. split.
        -- intros y Hy. apply in_app_or in Hy as [Hy|[<-|[]]]; [specialize (C3 y Hy)|]; lia.
        -- intros k Hk. destruct (C4 k Hk). split; [apply in_or_app; now left|assumption].
Qed.

Lemma nit_radius n r t : 0 < n -> nit_reachable n r t -> r <= n.
Proof. intros Hn. destruct t; cbn; [lia|]. intros [H _]. now apply hs_reachable_inv in H. Qed.

Lemma steepest_iterate_ok o n r pick fuel i s : 0 < n -> (forall i, in_range (pick i)) -> 2 ^ n < fuel -> top o s -> length (fst (a_sol s)) = n ->
  nit_reachable n r (sa_nit (a_mem s)) -> nit_current (sa_nit (a_mem s)) = fst (a_sol s) -> length (sa_cands (a_mem s)) = n ->
  wp (steepest_iterate o pick fuel i)
    (fun _ s' => top o s' /\ length (sa_cands (a_mem s')) = n /\ nit_reachable n r (sa_nit (a_mem s')) /\
       ((best_neighbor o n r (fst (a_sol s)) (fst (a_sol s')) /\ (snd (a_sol s) < snd (a_sol s'))%Z /\ a_last s' = a_last s /\
         nit_current (sa_nit (a_mem s')) = fst (a_sol s')) \/
        (a_sol s' = a_sol s /\ a_last s' = true /\ local_maximum (o_value o) n r (fst (a_sol s)))))
    (fun e s' => consistent o s' /\ a_sol s' = a_sol s /\ raised o e) s.
Proof.
  intros Hn PK F [[CI CV] TOP] HL R C LC. destruct (nit_enum n r (sa_nit (a_mem s)) R) as (L & E & N & I). rewrite C in I.
  pose proof (neighbor_length n r _ L N I) as LL.
  unfold steepest_iterate. apply wp_bind. eapply on_nit_wp; [reflexivity|]. cbn [put_mem a_sol a_last a_trace a_mem sa_nit sa_cands].
  remember (nit_init (sa_nit (a_mem s))) as t eqn:Et.
  destruct E as [t H|t x t' L H NX G E].
  { exfalso. destruct (neighbor_exists n r (fst (a_sol s)) HL (nit_radius n r _ Hn R)) as (y & Hy). apply I in Hy. destruct Hy. }
  apply wp_bind. eapply on_nit_wp; [cbn [put_mem a_mem sa_nit]; now rewrite H|]. apply wp_bind, wp_assert; [reflexivity|].
  apply wp_bind. eapply on_nit_wp; [exact NX|]. cbn [put_mem a_sol a_last a_trace a_mem sa_nit sa_cands]. apply wp_bind, wp_evaluate.
  { cbn [a_trace]. intros e He. split; [split; assumption|]. split; [reflexivity|eexists; exact He]. }
  apply wp_bind, store_wp; [cbn; lia|]. cbn [put_mem put_trace a_sol a_last a_trace a_mem sa_nit sa_cands]. cbn [Nat.add].
  apply wp_bind. eapply wp_mono; [apply (steepest_loop_ok o n r fuel t' L [x]); [exact E|reflexivity|cbn in LL; lia|]| |].
  - cbn [put_mem put_trace a_mem sa_cands]. unfold cands_inv. rewrite length_upd. split; [lia|]. split; [assumption|]. split.
    + intros y [<-|[]]. lia.
    + intros k Hk. assert (k = 0) as -> by lia. rewrite nth_upd_eq by lia. split; [now left|reflexivity].
  - cbn [put_mem put_trace a_sol a_last a_trace a_mem]. intros [bst index] s' (Q1 & Q2 & Q3 & Q4 & Q5). cbn [fst snd] in Q5. specialize (Q4 (proj1 G)).
    rewrite <- app_assoc in Q3. cbn [app] in Q3, Q5. destruct Q5 as (C1 & C2 & C3 & C4).
    apply wp_bind, wp_get, wp_bind, wp_assert.
    { apply andb_true_iff. split; apply Nat.leb_le; lia. }
    apply wp_bind, wp_get. rewrite Q1. destruct (Z.ltb_spec (snd (a_sol s)) bst) as [LT|GE].
    + assert (P : pick i 0 (index - 1) < index) by (destruct (PK i 0 (index - 1)); lia).
      destruct (C4 _ P) as [Y1 Y2]. set (y := nth (pick i 0 (index - 1)) (sa_cands (a_mem s')) []) in *.
      apply wp_bind. eapply wp_on_mem; [rewrite (vget_Ok _ _ []) by lia; reflexivity|]. fold y. apply wp_bind, wp_modify.
      pose proof Y1 as NY. apply I in NY. destruct (nit_set_origin_ok n r _ y Q4 (proj1 NY)) as (t2 & T1 & T2 & T3).
      eapply on_nit_wp; [cbn; rewrite T1; reflexivity|]. cbn [put_mem put_sol a_sol a_last a_trace a_mem sa_nit sa_cands].
      split; [|split; [assumption|split; [assumption|left]]].
      * split; [split; [cbn [put_mem put_sol a_sol a_trace fst]; rewrite Q3; apply in_or_app; now right|now symmetry]|]. cbn [put_mem put_sol a_sol a_trace snd]. rewrite Q3. intros z Hz.
        apply in_app_or in Hz as [Hz|Hz]; [specialize (TOP z Hz); lia|apply C3; exact Hz].
      * cbn [put_mem put_sol a_sol a_trace fst snd]. split; [|split; [exact LT|split; [assumption|assumption]]]. split; [exact NY|]. intros z Hz. apply I in Hz. rewrite Y2. now apply C3.
    + apply wp_modify. cbn [put_last a_sol a_last a_trace a_mem sa_nit sa_cands].
      split; [|split; [assumption|split; [assumption|right]]].
      * split; [split; cbn [put_last a_sol a_trace]; rewrite Q1; [rewrite Q3; apply in_or_app; now left|assumption]|]. cbn [put_last a_sol a_trace]. rewrite Q1, Q3. intros z Hz.
        apply in_app_or in Hz as [Hz|Hz]; [now apply TOP|specialize (C3 z Hz); lia].
      * split; [assumption|]. split; [reflexivity|]. intros z Hz. apply I in Hz. specialize (C3 z Hz). lia.
  - cbn [put_mem put_trace a_sol a_trace]. intros e s' (Q1 & (K & Q2) & Q3). split; [|auto]. unfold consistent. rewrite Q1, Q2. split; [|assumption].
    apply in_or_app. left. apply in_or_app. now left.
Qed.

Lemma best_top {X} o (s : alg X) : best o s -> top o s.
Proof.
  intros [B V]. apply first_best_max in B as [B1 B2]. split; [split; assumption|]. intros y Hy. rewrite V. now apply B2.
Qed.

Theorem steepest_ascent_from o n r c st pick num fuel1 fuel s0 : 0 < n -> nit_reachable n r (sa_nit c) -> length (sa_cands c) = n -> start_sized n st -> (forall i, in_range (pick i)) ->
  2 ^ n < fuel1 -> 2 ^ n + 1 < fuel ->
  begun n c s0 ->
  match loop (sahc_init o st) (steepest_iterate o pick fuel1) num fuel s0 with
  | (Ret _, s') => (top o s' /\ length (fst (a_sol s')) = n /\
      (a_last s' = true -> local_maximum (o_value o) n r (fst (a_sol s'))) /\ ((num <= 0)%Z -> a_last s' = true)) /\
      nit_reachable n r (sa_nit (a_mem s')) /\ length (sa_cands (a_mem s')) = n
  | (Exc e, s') => thrown_by o e /\ (a_trace s' <> [] -> consistent o s')
  | _ => False
  end.
Proof.
  intros Hn R LC ST PK F1 F (G1 & G2 & G3).
  set (I := fun s' : alg sahc => top o s' /\ length (fst (a_sol s')) = n /\ nit_reachable n r (sa_nit (a_mem s')) /\ length (sa_cands (a_mem s')) = n /\
        (a_last s' = false -> nit_current (sa_nit (a_mem s')) = fst (a_sol s')) /\
        (a_last s' = true -> local_maximum (o_value o) n r (fst (a_sol s')))).
  assert (W : wp (loop (sahc_init o st) (steepest_iterate o pick fuel1) num fuel)
    (fun _ s' => exists k : nat, I s' /\ (a_last s' = true \/ (0 < num <= Z.of_nat k)%Z))
    (fun e s' => raised o e /\ (a_trace s' <> [] -> consistent o s')) s0).
  { unfold loop, sahc_init. apply wp_bind, wp_bind. eapply wp_mono; [apply (start_wp o n st s0 ST); auto| |].
    2:{ intros e s' (Q1 & Q2 & Q3 & _). split; [|congruence]. destruct e as [e|]; [|congruence]. now exists 0. }
    cbn beta. intros _ s1 (B1 & L1 & T1 & LA1 & M1). rewrite G3 in M1. apply wp_bind, wp_get.
    destruct (nit_set_origin_ok n r _ _ R L1) as (t' & E' & R' & C'). eapply on_nit_wp; [rewrite M1; now rewrite E'|].
    apply wp_bind, wp_modify. set (s2 := put_last _ _).
    apply (loop_from_measure (steepest_iterate o pick fuel1) (fun _ => I) (better_count o n)).
    2:{ apply best_top in B1. split; [exact B1|]. split; [exact L1|]. split; [exact R'|].
        split; [cbn; rewrite M1; exact LC|]. split; [intros _; assumption|discriminate]. }
    2:{ left. pose proof (better_count_le o n s2). lia. }
    intros i s (B & L & H3 & H4 & H5 & H6) LA.
    eapply wp_mono; [apply (steepest_iterate_ok o n r pick fuel1 i s Hn PK F1 B L H3 (H5 LA) H4)| |].
    - cbn beta. intros _ s' (B' & LC' & R1 & [(Q1 & Q2 & Q3 & Q4)|(Q1 & Q2 & Q3)]).
      + split.
        * split; [exact B'|]. split; [apply Q1|]. split; [assumption|]. split; [assumption|]. split; [auto|]. intros; congruence.
        * right. apply better_count_lt; [apply Q1|apply B'|exact Q2].
      + split; [|now left]. split; [exact B'|]. rewrite Q1. split; [exact L|]. split; [assumption|]. split; [assumption|]. split; [intros; congruence|auto].
    - cbn beta. intros e s' (B' & _ & Q). auto. }
  apply wp_result in W. destruct (loop _ _ _ _ _) as [[a|e| |] s'].
  - destruct W as (k & (W1 & W2 & W3 & W4 & W6 & W7) & W5). split; [|split; assumption]. split; [assumption|]. split; [assumption|]. split; [assumption|]. intros; destruct W5; auto; lia.
  - exact W.
  - exact W.
  - exact (proj1 W).
Qed.

Theorem steepest_ascent_run o n r t st pick num fuel1 fuel s : 0 < n -> nit_reachable n r t -> start_sized n st -> (forall i, in_range (pick i)) ->
  2 ^ n < fuel1 -> 2 ^ n + 1 < fuel ->
  alg_make n (sahc_make n t) = Ok s ->
  match loop (sahc_init o st) (steepest_iterate o pick fuel1) num fuel s with
  | (Ret _, s') => top o s' /\ length (fst (a_sol s')) = n /\
      (a_last s' = true -> local_maximum (o_value o) n r (fst (a_sol s'))) /\ ((num <= 0)%Z -> a_last s' = true)
  | (Exc e, s') => thrown_by o e /\ (a_trace s' <> [] -> consistent o s')
  | _ => False
  end.
Proof.
  intros N R ST PK F1 F E.
  pose proof (steepest_ascent_from o n r (sahc_make n t) st pick num fuel1 fuel s N R (repeat_length _ _) ST PK F1 F (begun_make _ _ _ E)) as H.
  destruct (loop _ _ _ _ _) as [[a|e| |] s']; auto. apply H.
Qed.
