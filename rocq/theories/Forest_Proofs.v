(** Proofs about the Bayesian networks of hBOA. *)

From Coq Require Import Lia Permutation Sorted.
From Verif Require Import Base BaseLemmas Forest_Model Forest_Spec.
Local Open Scope nat_scope.

Lemma memb_In i l : memb i l = true <-> In i l.
Proof. unfold memb. rewrite existsb_exists. split; [intros (x & I & E); apply Nat.eqb_eq in E; now subst|intros I; exists i; split; [exact I|apply Nat.eqb_refl]]. Qed.
Lemma memb_not i l : memb i l = false <-> ~ In i l.
Proof. rewrite <- memb_In. destruct (memb i l); split; congruence. Qed.
Lemma insert_all_In i s new : In i (insert_all s new) <-> In i s \/ In i new.
Proof.
  unfold insert_all. rewrite in_app_iff, filter_In, negb_true_iff, memb_not. split; [tauto|]. intros [H|H]; [now left|]. destruct (in_dec Nat.eq_dec i s); tauto.
Qed.
Lemma NoDup_app' {A} (l m : list A) : NoDup l -> NoDup m -> (forall x, In x l -> In x m -> False) -> NoDup (l ++ m).
Proof.
  induction 1 as [|a l NA ND IH]; intros NM D; [exact NM|]. cbn. constructor; [|apply IH; [exact NM|intros x I; apply D; now right]].
  rewrite in_app_iff. intros [I|I]; [contradiction|]. apply (D a); [now left|exact I].
Qed.
Lemma insert_all_NoDup s new : NoDup s -> NoDup new -> NoDup (insert_all s new).
Proof.
  intros A B. unfold insert_all. apply NoDup_app'; [exact A|now apply NoDup_filter|]. intros x I J. apply filter_In in J. destruct J as (_ & J). apply negb_true_iff, memb_not in J. contradiction.
Qed.

(** The loops which update the sets *)
Lemma update_loop t l : forall m : nat -> list nat, NoDup l -> ~ In t l -> forall b,
  fold_left (fun m a => set_at m a (insert_all (m a) (m t))) l m b = if memb b l then insert_all (m b) (m t) else m b.
Proof.
  induction l as [|a l IH]; intros m ND NT b; cbn [fold_left]; [reflexivity|]. inversion ND as [|? ? NA ND']; subst.
  assert (TA : (t =? a) = false) by (apply Nat.eqb_neq; intros ->; apply NT; now left).
  rewrite IH; [|exact ND'|intros I; apply NT; now right]. unfold set_at. rewrite TA. cbn [memb existsb]. fold (memb b l).
  destruct (b =? a) eqn:BA; [|reflexivity]. apply Nat.eqb_eq in BA. subst b. cbn [orb]. destruct (memb a l) eqn:M; [apply memb_In in M; contradiction|reflexivity].
Qed.

(** The relation kept in the sets: a partial order *)
Record ordered (n : nat) (fo : forest) : Prop := mk_ordered {
  or_dual : forall a b, In a (fo_prev fo b) <-> In b (fo_post fo a);
  or_refl : forall a, In a (fo_prev fo a);
  or_trans : forall a b c, In a (fo_prev fo b) -> In b (fo_prev fo c) -> In a (fo_prev fo c);
  or_antisym : forall a b, In a (fo_prev fo b) -> In b (fo_prev fo a) -> a = b;
  or_NoDup : forall a, NoDup (fo_prev fo a) /\ NoDup (fo_post fo a);
  or_tests : forall t u, t < n -> tests (fo_trees fo t) u -> u <> t /\ u < n /\ In u (fo_prev fo t) }.

Lemma tests_split t path u v : tests (split t path u) v -> tests t v \/ v = u.
Proof.
  revert path. induction t as [s|i l IHl r IHr]; intros [|[] path] H; cbn in *; try tauto.
  - destruct H as [H|[H|H]]; [tauto|tauto|]. destruct (IHr _ H); tauto.
  - destruct H as [H|[H|H]]; [tauto| |tauto]. destruct (IHl _ H); tauto.
Qed.

Lemma grow_one_ordered n fo c : ordered n fo -> ordered n (grow_one n fo c).
Proof.
  intros V. destruct c as [[t path] u]. unfold grow_one. destruct ((t <? n) && (u <? n) && leaf_at (fo_trees fo t) path && negb (memb u (fo_post fo t))) eqn:C; [|exact V].
  apply andb_prop in C. destruct C as (C & C4). apply andb_prop in C. destruct C as (C & C3). apply andb_prop in C. destruct C as (C1 & C2).
  apply Nat.ltb_lt in C1, C2. apply negb_true_iff, memb_not in C4.
  destruct V as [DU RE TR AN ND TE]. pose proof C4 as C5. rewrite <- DU in C5.
  set (post' := fold_left _ (fo_prev fo u) (fo_post fo)).
  assert (PO : forall b, post' b = if memb b (fo_prev fo u) then insert_all (fo_post fo b) (fo_post fo t) else fo_post fo b) by (intros b; apply update_loop; [apply ND|exact C5]).
  assert (PT : post' t = fo_post fo t). { rewrite PO. destruct (memb t (fo_prev fo u)) eqn:M; [apply memb_In in M; contradiction|reflexivity]. }
  rewrite PT. set (prev' := fold_left _ (fo_post fo t) (fo_prev fo)).
  assert (PR : forall b, prev' b = if memb b (fo_post fo t) then insert_all (fo_prev fo b) (fo_prev fo u) else fo_prev fo b) by (intros b; apply update_loop; [apply ND|exact C4]).
  assert (PRI : forall a b, In a (prev' b) <-> In a (fo_prev fo b) \/ (In a (fo_prev fo u) /\ In t (fo_prev fo b))).
  { intros a b. rewrite PR. destruct (memb b (fo_post fo t)) eqn:M.
    - apply memb_In in M. rewrite <- DU in M. rewrite insert_all_In. tauto.
    - apply memb_not in M. rewrite <- DU in M. tauto. }
  assert (POI : forall a b, In b (post' a) <-> In a (fo_prev fo b) \/ (In a (fo_prev fo u) /\ In t (fo_prev fo b))).
  { intros a b. rewrite PO. destruct (memb a (fo_prev fo u)) eqn:M.
    - apply memb_In in M. rewrite insert_all_In, <- !DU. tauto.
    - apply memb_not in M. rewrite <- DU. tauto. }
  constructor; cbn [fo_prev fo_post fo_trees].
  - intros a b. now rewrite PRI, POI.
  - intros a. rewrite PRI. left. apply RE.
  - intros a b c. rewrite !PRI. intros [H1|(H1 & H2)] [H3|(H3 & H4)].
    + left. now apply (TR a b c).
    + right. split; [now apply (TR a b u)|exact H4].
    + right. split; [exact H1|now apply (TR t b c)].
    + right. split; [exact H1|exact H4].
  - intros a b. rewrite !PRI. intros [H1|(H1 & H2)] [H3|(H3 & H4)].
    + now apply AN.
    + exfalso. apply C5. apply (TR t a u); [exact H4|]. now apply (TR a b u).
    + exfalso. apply C5. apply (TR t b u); [exact H2|]. now apply (TR b a u).
    + exfalso. apply C5. apply (TR t a u); [exact H4|exact H1].
  - intros a. split; [rewrite PR|rewrite PO]; destruct (memb a _); try apply ND; apply insert_all_NoDup; apply ND.
  - intros k v K H. unfold set_at in H. rewrite PRI. destruct (k =? t) eqn:KT.
    + apply Nat.eqb_eq in KT. subst k. apply tests_split in H. destruct H as [H| ->]; [destruct (TE t v K H) as (A & B & D); split; [exact A|split; [exact B|now left]]|].
      split; [|split; [exact C2|right; split; apply RE]]. intros ->. apply C5. apply RE.
    + destruct (TE k v K H) as (A & B & D). split; [exact A|split; [exact B|now left]].
Qed.

Lemma make_ordered n selected : ordered n (forest_make selected).
Proof.
  constructor; cbn.
  - intros a b. split; intros [H|[]]; left; congruence.
  - intros a. now left.
  - intros a b c [H|[]] [H'|[]]. left. congruence.
  - intros a b [H|[]] _. congruence.
  - intros a. split; (constructor; [intros []|constructor]).
  - intros t u _ [].
Qed.
Lemma build_ordered n selected choices : ordered n (build_forest n selected choices).
Proof.
  unfold build_forest. assert (H : forall fo, ordered n fo -> ordered n (fold_left (grow_one n) choices fo)); [|apply H, make_ordered].
  induction choices as [|c l IH]; intros fo V; [exact V|]. cbn. apply IH. now apply grow_one_ordered.
Qed.

Lemma prev_length n fo u t : ordered n fo -> In u (fo_prev fo t) -> u <> t -> length (fo_prev fo u) < length (fo_prev fo t).
Proof.
  intros [DU RE TR AN ND TE] I NE. assert (NT : ~ In t (fo_prev fo u)) by (intros H; apply NE; now apply AN).
  assert (L : length (t :: fo_prev fo u) <= length (fo_prev fo t)); [|cbn in L; lia].
  apply NoDup_incl_length; [constructor; [exact NT|apply ND]|]. intros a [<-|A]; [apply RE|now apply (TR a u t)].
Qed.

Lemma sorted_before (m : nat -> nat) l u t : StronglySorted (fun a b => m a <= m b) l -> In u l -> In t l -> m u < m t -> before u t l.
Proof.
  induction 1 as [|a l SS IH FA]; intros U T LT; [destruct U|]. destruct U as [->|U].
  - destruct T as [->|T]; [lia|]. apply in_split in T. destruct T as (l2 & l3 & ->). now exists [], l2, l3.
  - destruct T as [->|T].
    + rewrite Forall_forall in FA. specialize (FA u U). lia.
    + destruct (IH U T LT) as (l1 & l2 & l3 & ->). now exists (a :: l1), l2, l3.
Qed.

Lemma build_before n selected choices ordering t u : sorted_order n (build_forest n selected choices) ordering -> t < n -> tests (fo_trees (build_forest n selected choices) t) u ->
  u < n /\ before u t ordering.
Proof.
  intros (P & SS) T TE. pose proof (build_ordered n selected choices) as V. destruct (or_tests n _ V t u T TE) as (NE & U & I). split; [exact U|].
  apply (sorted_before (fun a => length (fo_prev (build_forest n selected choices) a)) ordering u t SS).
  - apply (Permutation_in _ (Permutation_sym P)). apply in_seq. lia.
  - apply (Permutation_in _ (Permutation_sym P)). apply in_seq. lia.
  - now apply (prev_length n).
Qed.

(** ** Generation *)
Lemma set_bit_spec coin t n tr x : length x = n -> t < n -> (forall u, tests tr u -> u < n) ->
  set_bit coin t tr x = Ok (upd x t (coin (ones t (reached tr x)) (length (reached tr x)))).
Proof.
  intros L T. induction tr as [s|i l IHl r IHr]; intros B; cbn [set_bit reached]; [now rewrite vset_Ok by lia|].
  unfold vget. rewrite (nth_error_nth' x false) by (rewrite L; apply B; now left). cbn [bind].
  destruct (nth i x false); [apply IHr|apply IHl]; intros u U; apply B; cbn; tauto.
Qed.
Lemma reached_same tr x y : (forall u, tests tr u -> nth u x false = nth u y false) -> reached tr x = reached tr y.
Proof.
  induction tr as [s|i l IHl r IHr]; intros B; cbn [reached]; [reflexivity|]. rewrite (B i) by now left. destruct (nth i y false); [apply IHr|apply IHl]; intros u U; apply B; cbn; tauto.
Qed.

Lemma generate_from n coins fo order : forall done x y, length x = n -> length y = n -> NoDup (done ++ order) -> (forall t, In t order -> t < n) ->
  (forall u, In u done -> nth u x false = nth u y false) ->
  (forall t u, In t order -> tests (fo_trees fo t) u -> u < n /\ before u t (done ++ order)) ->
  exists x' y', generate coins fo order x = Ok x' /\ generate coins fo order y = Ok y' /\ length x' = n /\ length y' = n /\
    (forall u, In u (done ++ order) -> nth u x' false = nth u y' false) /\ (forall u, ~ In u order -> nth u x' false = nth u x false) /\
    forall t, In t order -> nth t x' false = coins t (ones t (reached (fo_trees fo t) x')) (length (reached (fo_trees fo t) x')).
Proof.
  unfold generate. induction order as [|t order IH]; intros done x y LX LY ND B E TE; cbn [foldM].
  - exists x, y. rewrite app_nil_r. split; [reflexivity|]. split; [reflexivity|]. split; [exact LX|]. split; [exact LY|]. split; [exact E|]. split; [intros; reflexivity|intros t []].
  - assert (T : t < n) by (apply B; now left).
    assert (TD : forall u, tests (fo_trees fo t) u -> u < n /\ In u done).
    { intros u U. destruct (TE t u (or_introl eq_refl) U) as (UN & l1 & l2 & l3 & EQ). split; [exact UN|].
      destruct (in_dec Nat.eq_dec u done) as [|NU]; [assumption|exfalso].
      assert (ND2 : NoDup (l1 ++ u :: l2 ++ t :: l3)) by now rewrite <- EQ.
      assert (EQ2 : done = l1 ++ u :: l2).
      { apply NoDup_remove_2 in ND. clear - EQ ND ND2. replace (l1 ++ u :: l2 ++ t :: l3) with ((l1 ++ u :: l2) ++ t :: l3) in * by now rewrite <- app_assoc.
        revert done EQ ND. generalize (l1 ++ u :: l2) as l, ND2. clear. induction l as [|a l IH]; intros ND2 [|d done] EQ ND; cbn in *; [reflexivity| | |].
        - inversion EQ; subst. exfalso. apply ND. now left.
        - inversion EQ; subst. inversion ND2 as [|? ? N1 _]; subst. exfalso. apply N1. apply in_or_app. right. now left.
        - inversion EQ; subst. f_equal. apply (IH (proj2 (proj1 (NoDup_cons_iff _ _) ND2))); [assumption|]. intros H. apply ND. now right. }
      apply NU. rewrite EQ2. apply in_or_app. right. now left. }
    rewrite (set_bit_spec (coins t) t n _ x LX T), (set_bit_spec (coins t) t n _ y LY T) by (intros u U; now apply TD). cbn [bind].
    assert (RE : reached (fo_trees fo t) x = reached (fo_trees fo t) y) by (apply reached_same; intros u U; apply E; now apply TD).
    rewrite <- RE. set (c := coins t _ _).
    assert (ND' : NoDup ((done ++ [t]) ++ order)) by now rewrite <- app_assoc.
    destruct (IH (done ++ [t]) (upd x t c) (upd y t c)) as (x' & y' & GX & GY & LX' & LY' & EE & KX & CO).
    + now rewrite length_upd.
    + now rewrite length_upd.
    + exact ND'.
    + intros k K. apply B. now right.
    + intros u U. apply in_app_or in U. destruct (Nat.eq_dec u t) as [->|NE]; [now rewrite !nth_upd_eq by lia|]. rewrite !nth_upd_neq by congruence. apply E. destruct U as [U|[->|[]]]; [exact U|congruence].
    + intros k u K U. rewrite <- app_assoc. apply (TE k u); [now right|exact U].
    + assert (NT : ~ In t order /\ ~ In t done). { apply NoDup_remove_2 in ND. rewrite in_app_iff in ND. tauto. }
      exists x', y'. split; [exact GX|]. split; [exact GY|]. split; [exact LX'|]. split; [exact LY'|]. rewrite <- app_assoc in EE. split; [exact EE|]. split.
      * intros u U. rewrite KX by (intros H; apply U; now right). apply nth_upd_neq. intros ->. apply U. now left.
      * intros k [<-|K]; [|now apply CO]. rewrite KX by apply NT. rewrite nth_upd_eq by lia. unfold c.
        assert (RX : reached (fo_trees fo t) x' = reached (fo_trees fo t) x); [|now rewrite RX].
        apply reached_same. intros u U. destruct (TD u U) as (UN & UD). rewrite KX. { apply nth_upd_neq. intros ->. now apply NT. }
        intros H. clear - ND UD H. revert ND. apply in_split in UD. destruct UD as (a & b & ->). apply in_split in H. destruct H as (c & d & ->). rewrite <- app_assoc. cbn. intros ND. apply NoDup_remove_2 in ND. apply ND. rewrite !in_app_iff. cbn. rewrite in_app_iff. cbn. tauto.
Qed.

(** ** Leaves *)
Fixpoint leaves (t : tree) (selected : list (list bool)) : Prop :=
  match t with
  | Leaf s => s = selected
  | Node u l r => leaves l (filter (fun s => negb (nth u s false)) selected) /\ leaves r (filter (fun s => nth u s false) selected)
  end.
Lemma split_leaves t u : forall path selected, leaves t selected -> leaves (split t path u) selected.
Proof. induction t as [s|i l IHl r IHr]; intros [|[] path] selected H; cbn in *; try exact H; [now subst|destruct H; split; auto|destruct H; split; auto]. Qed.
Lemma build_leaves n selected choices t : leaves (fo_trees (build_forest n selected choices) t) selected.
Proof.
  unfold build_forest. assert (H : forall fo, (forall t, leaves (fo_trees fo t) selected) -> forall t, leaves (fo_trees (fold_left (grow_one n) choices fo) t) selected).
  { induction choices as [|[[k path] u] l IH]; intros fo V; [exact V|]. cbn [fold_left]. apply IH. intros j. unfold grow_one. destruct (_ && _); [|apply V]. cbn [fo_trees]. unfold set_at. destruct (j =? k); [|apply V]. now apply split_leaves. }
  apply H. intros j. reflexivity.
Qed.
Lemma filter_filter {A} (p q : A -> bool) l : filter p (filter q l) = filter (fun x => q x && p x) l.
Proof. induction l as [|a l IH]; cbn; [reflexivity|]. destruct (q a); cbn; [destruct (p a); now rewrite IH|exact IH]. Qed.
Lemma leaves_reached t x : forall selected, leaves t selected -> reached t x = filter (agree (tested t x) x) selected.
Proof.
  induction t as [s|i l IHl r IHr]; intros selected H; cbn [reached tested] in *.
  - cbn in H. subst s. symmetry. clear. induction selected as [|a l IH]; cbn; [reflexivity|]. now rewrite IH.
  - destruct H as (HL & HR). destruct (nth i x false) eqn:E.
    + rewrite (IHr _ HR), filter_filter. apply filter_ext. intros s. unfold agree. cbn [forallb]. rewrite E. now destruct (nth i s false).
    + rewrite (IHl _ HL), filter_filter. apply filter_ext. intros s. unfold agree. cbn [forallb]. rewrite E. now destruct (nth i s false).
Qed.
