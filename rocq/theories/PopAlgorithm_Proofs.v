(** Proofs about algorithms that handle populations. *)

From Coq Require Import Permutation.
From Verif Require Import Base BaseLemmas BitVector_Model BitVector_Spec BitVector_Proofs Representation_Spec Map_Spec Algorithm_Model Algorithm_Spec Algorithm_Proofs
  Population_Model Population_Spec Population_Proofs PopAlgorithm_Model PopAlgorithm_Spec.

(** * Rules *)

Lemma wp_lift {S A} (m : outcome A) a (Q : A -> S -> Prop) E s : m = Ok a -> Q a s -> wp (lift m) Q E s.
Proof. now intros ->. Qed.

Lemma wp_afor {St} (f : nat -> act St unit) (I : nat -> St -> Prop) (E : option exn -> St -> Prop) n : forall a s,
  I a s -> (forall i s, a <= i < a + n -> I i s -> wp (f i) (fun _ s' => I (i + 1) s') E s) ->
  wp (afor f (seq a n)) (fun _ s' => I (a + n) s') E s.
Proof.
  induction n as [|n IH]; intros a s H0 HS; cbn [seq afor].
  - apply wp_ret. now rewrite Nat.add_0_r.
  - apply wp_bind. eapply wp_mono; [apply HS; [lia|exact H0]| |auto]. cbn. intros _ s1 H1.
    replace (a + S n) with (S a + n) by lia. rewrite Nat.add_1_r in H1. apply IH; [exact H1|]. intros i s2 Hi. apply HS. lia.
Qed.

(** * Best vectors *)

Lemma top_top_of {X} o (s : alg X) : top o s <-> top_of o (a_trace s) (a_sol s).
Proof. unfold top, consistent, top_of. tauto. Qed.

Lemma top_of_update o T L sol b : top_of o T sol -> In b L -> (forall y, In y L -> (o_value o y <= o_value o b)%Z) ->
  top_of o (T ++ L) (if (snd sol <? o_value o b)%Z then (b, o_value o b) else sol).
Proof.
  intros (H1 & H2 & H3) HB HM. destruct (Z.ltb_spec (snd sol) (o_value o b)); unfold top_of; cbn [fst snd].
  - split; [apply in_or_app; auto|]. split; [reflexivity|]. intros y Hy. apply in_app_or in Hy as [Hy|Hy]; [|auto]. specialize (H3 y Hy). lia.
  - split; [apply in_or_app; auto|]. split; [assumption|]. intros y Hy. apply in_app_or in Hy as [Hy|Hy]; [auto|]. specialize (HM y Hy). lia.
Qed.

Lemma top_of_same o T L sol : top_of o T sol -> (forall y, In y L -> (o_value o y <= snd sol)%Z) -> top_of o (T ++ L) sol.
Proof.
  intros (H1 & H2 & H3) HM. split; [apply in_or_app; auto|]. split; [assumption|]. intros y Hy. apply in_app_or in Hy as [Hy|Hy]; auto.
Qed.

Lemma lagging_top {X} o lag (s : alg X) : 0 < lag -> top_of o (a_trace s) (a_sol s) -> lagging o lag s.
Proof. intros L H. exists (a_trace s), []. rewrite app_nil_r. auto. Qed.

(** * Evaluation of a population *)

Section Pop.
  Context {X : Type} (get : X -> population) (put : population -> X -> X).
  Hypothesis get_put : forall p m, get (put p m) = p.
  Hypothesis put_put : forall p q m, put p (put q m) = put p m.
  Hypothesis put_get : forall m, put (get m) m = m.
  Variable o : objective.
  Notation f := (o_value o).

  Lemma firstn_S_nth {A} k (l : list A) d : k < length l -> firstn (k + 1) l = firstn k l ++ [nth k l d].
  Proof.
    revert k. induction l as [|a l IH]; intros [|k] H; cbn in *; try lia; [reflexivity|]. f_equal. apply IH. lia.
  Qed.

  Lemma eval_pop_wp size n (s : alg X) : well_formed size n (get (a_mem s)) ->
    let p := get (a_mem s) in
    wp (eval_pop get put o)
      (fun _ s' => s' = mk_alg (a_trace s ++ p_bvs p) (a_sol s) (a_last s) (put (mk_pop (p_bvs p) (map f (p_bvs p)) (p_perm p)) (a_mem s)))
      (fun e s' => exists k vs e', k < size /\ length vs = size /\ e = Some e' /\ o_stop o (length (a_trace s) + k) = Some e' /\
         s' = mk_alg (a_trace s ++ firstn k (p_bvs p)) (a_sol s) (a_last s) (put (mk_pop (p_bvs p) vs (p_perm p)) (a_mem s))) s.
  Proof.
    intros W p. fold p in W. pose proof W as (W1 & W2 & W3 & W4 & W5 & W6). unfold eval_pop. apply wp_bind, wp_get. fold p. apply wp_bind, wp_assert.
    { apply Nat.eqb_eq. congruence. }
    unfold pop_size. rewrite W3.
    set (I := fun k (s' : alg X) => exists vs, length vs = size /\ firstn k vs = map f (firstn k (p_bvs p)) /\
      s' = mk_alg (a_trace s ++ firstn k (p_bvs p)) (a_sol s) (a_last s) (put (mk_pop (p_bvs p) vs (p_perm p)) (a_mem s))).
    match goal with |- wp _ _ ?EX _ => eapply wp_mono; [apply (wp_afor _ I EX)| |] end.
    - exists (p_values p). split; [assumption|]. split; [reflexivity|]. cbn [firstn]. rewrite app_nil_r.
      replace (mk_pop (p_bvs p) (p_values p) (p_perm p)) with p by now destruct p. unfold p. rewrite put_get. now destruct s.
    - cbn [Nat.add]. intros i s1 Hi (vs & L1 & F1 & ->). apply wp_bind, wp_get. cbn [a_mem]. rewrite get_put. cbn [p_bvs].
      apply wp_bind. eapply wp_lift; [apply (vget_nth _ _ []); lia|]. apply wp_bind, wp_evaluate.
      { cbn [a_trace]. rewrite app_length, firstn_length_le by lia. intros e He. exists i, vs, e. repeat split; auto; lia. }
      unfold on_pop. eapply wp_on_mem.
      { cbn [put_trace a_mem]. rewrite get_put. cbn [p_values p_bvs p_perm]. rewrite (vset_Ok vs i) by lia. cbn [bind]. reflexivity. }
      exists (upd vs i (f (nth i (p_bvs p) []))). split; [now rewrite length_upd|]. split.
      + assert (UP : forall (l : list Z) k a, firstn k (upd l k a) = firstn k l).
        { induction l as [|z l IH]; intros [|k] a; cbn; auto. now rewrite IH. }
        rewrite (firstn_S_nth i (upd _ _ _) 0%Z) by (rewrite length_upd; lia). rewrite (firstn_S_nth i (p_bvs p) []) by lia.
        rewrite map_app, UP, F1, nth_upd_eq by lia. reflexivity.
      + unfold put_mem, put_trace. cbn [a_trace a_sol a_last a_mem]. rewrite put_put, <- app_assoc. rewrite (firstn_S_nth i (p_bvs p) []) by lia. reflexivity.
    - cbn [Nat.add]. intros _ s1 (vs & L1 & F1 & ->). rewrite <- W3, firstn_all in F1. rewrite <- L1 in W3. rewrite W3 in F1. rewrite firstn_all in F1.
      subst vs. rewrite <- L1, <- W3, firstn_all. reflexivity.
    - auto.
  Qed.

  (** An evaluated population *)
  Definition evaluated (p : population) : Prop := p_values p = map f (p_bvs p).

  Lemma sorted_best sh srt size n p : shuffles sh -> sorts srt -> well_formed size n p -> evaluated p ->
    let p' := pop_sort sh srt p in
    exists b, best_bv p' 0 = Ok b /\ best_value p' 0 = Ok (f b) /\ In b (p_bvs p) /\ length b = n /\ forall y, In y (p_bvs p) -> (f y <= f b)%Z.
  Proof.
    intros Hs Hr W EV p'. pose proof (sort_wf _ _ _ _ _ Hs Hr W) as W'. fold p' in W'.
    pose proof (sort_values sh srt size n p 0) as SV. cbn zeta in SV. fold p' in SV.
    pose proof W as (W1 & W2 & W3 & W4 & W5 & W6). pose proof (perm_seq_nth _ _ 0 (wf_perm W') W1) as K. set (k := nth 0 (p_perm p') 0) in *.
    assert (V : forall j, j < size -> nth j (p_values p') 0%Z = f (nth j (p_bvs p) [])).
    { intros j Hj. change (p_values p') with (p_values p). rewrite EV. rewrite (nth_indep _ 0%Z (f [])) by (rewrite map_length; lia). apply map_nth. }
    exists (nth k (p_bvs p) []). unfold best_bv, best_value. rewrite !(best_index_Ok W') by lia. fold k. cbn [bind].
    change (p_bvs p') with (p_bvs p). rewrite (vget_nth (p_bvs p) k []) by lia. rewrite (vget_nth (p_values p') k 0%Z) by (change (p_values p') with (p_values p); lia). rewrite (V k K).
    split; [reflexivity|]. split; [reflexivity|]. split; [apply nth_In; lia|]. split; [apply (Forall_nth_len W4); lia|].
    intros y Hy. apply (In_nth _ _ []) in Hy as (j & Hj & <-). rewrite W3 in Hj.
    assert (J : In j (p_perm p')). { apply (Permutation_in _ (wf_perm W')). apply in_seq. lia. }
    apply (In_nth _ _ 0) in J as (i & Hi & J). rewrite (perm_seq_length _ _ (wf_perm W')) in Hi.
    destruct i as [|i]; [fold k in J; subst j; lia|]. specialize (SV (S i) Hs Hr W ltac:(lia)). rewrite J in SV. fold k in SV.
    rewrite (V k K), (V j Hj) in SV. exact SV.
  Qed.

  Lemma sort_update_wp sh srt size n p0 (s : alg X) T : shuffles sh -> sorts srt ->
    get (a_mem s) = p0 -> well_formed size n p0 -> evaluated p0 -> a_trace s = T ++ p_bvs p0 -> top_of o T (a_sol s) ->
    forall (Q : unit -> alg X -> Prop) E,
    (forall sol, top_of o (a_trace s) sol -> (snd (a_sol s) <= snd sol)%Z -> (length (fst (a_sol s)) = n -> length (fst sol) = n) -> Q tt (mk_alg (a_trace s) sol (a_last s) (put (pop_sort sh srt p0) (a_mem s)))) ->
    wp (_ <~ sort_pop get put sh srt ;; update_with_best get) Q E s.
  Proof.
    intros Hs Hr G W EV TR TO Q E H. apply wp_bind. unfold sort_pop, on_pop. eapply wp_on_mem; [cbn [bind]; reflexivity|]. rewrite G.
    destruct (sorted_best sh srt size n p0 Hs Hr W EV) as (b & B1 & B2 & B3 & BL & B4). unfold update_with_best.
    apply wp_bind, wp_get. cbn [put_mem a_mem]. rewrite get_put. apply wp_bind. eapply wp_lift; [exact B1|]. apply wp_bind. eapply wp_lift; [exact B2|].
    unfold wp, update_solution. cbn [put_mem a_sol]. pose proof (top_of_update o T (p_bvs p0) (a_sol s) b TO B3 B4) as U. rewrite <- TR in U.
    destruct (Z.ltb_spec (snd (a_sol s)) (f b)).
    - apply (H _ U); cbn; auto; lia.
    - apply (H _ U); auto; lia.
  Qed.
End Pop.

(** * Runs *)

(** What is left when a call does not return *)
Definition left_at {X} (o : objective) (lag : nat) (K : alg X -> Prop) (e : option exn) (s : alg X) : Prop :=
  lagging o lag s /\ K s /\ match e with Some e => o_stop o (length (a_trace s)) = Some e | None => True end.

Lemma run_generic {X} o lag (J K : alg X -> Prop) (init : act (alg X) unit) iterate num fuel s :
  0 < lag ->
  wp init (fun _ s' => top_of o (a_trace s') (a_sol s') /\ J (put_last false s'))
    (fun e s' => (exists e', e = Some e' /\ o_stop o (length (a_trace s')) = Some e') /\ (a_trace s' = [] \/ (lagging o lag s' /\ K s'))) s ->
  (forall s, J s -> K s) ->
  (forall i s, J s -> top_of o (a_trace s) (a_sol s) -> a_last s = false ->
     wp (iterate i) (fun _ s' => top_of o (a_trace s') (a_sol s') /\ J s') (left_at o lag K) s) ->
  let '(r, s') := loop init iterate num fuel s in
  run_top o lag r s' /\ (a_trace s' = [] \/ K s') /\ (forall u, r = Ret u -> J s' /\ (a_last s' = true \/ (0 < num)%Z)).
Proof.
  intros HL HI JK HS.
  assert (W : wp (loop init iterate num fuel)
    (fun _ s' => (top_of o (a_trace s') (a_sol s') /\ J s') /\ (a_last s' = true \/ (0 < num)%Z))
    (fun e s' => (a_trace s' = [] /\ e <> None \/ (lagging o lag s' /\ K s')) /\ match e with Some e => o_stop o (length (a_trace s')) = Some e | None => True end) s).
  { unfold loop. apply wp_bind. eapply wp_mono; [exact HI| |].
    2:{ intros e s' ((e' & -> & H1) & H2). split; [|exact H1]. destruct H2; [left; split; [assumption|discriminate]|auto]. }
    cbn beta. intros _ s1 (T1 & J1). apply wp_bind, wp_modify.
    eapply wp_mono; [apply (loop_from_wp iterate (fun _ s => top_of o (a_trace s) (a_sol s) /\ J s) (left_at o lag K))| |].
    - intros i s2 (H1 & H2) LA. apply HS; auto.
    - intros i s2 (H1 & H2). split; [now apply lagging_top|]. split; [auto|exact I].
    - split; assumption.
    - cbn. intros _ s2 (k & H & H2). split; [exact H|]. destruct H2; [auto|right; lia].
    - intros e s2 (H1 & H2 & H3). auto. }
  apply wp_result in W. destruct (loop init iterate num fuel s) as [[u|e| |] s']; cbn [run_top].
  - destruct W as ((W1 & W2) & W3). split; [assumption|]. split; [auto|]. auto.
  - destruct W as (W1 & W2). split; [|split; [|discriminate]].
    + split; [assumption|]. tauto.
    + tauto.
  - contradiction.
  - destruct W as ([[W1 W2]|W1] & _); [congruence|]. split; [tauto|]. split; [tauto|discriminate].
Qed.
