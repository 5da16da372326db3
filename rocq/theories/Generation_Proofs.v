(** A generation of any algorithm which fills a population, evaluates and sorts it
    and updates the solution with its best individual. *)

From Coq Require Import Permutation.
From Verif Require Import Base BaseLemmas BitVector_Model BitVector_Spec BitVector_Proofs Representation_Spec Map_Spec Algorithm_Model Algorithm_Spec Algorithm_Proofs
  Population_Model Population_Spec Population_Proofs PopAlgorithm_Model PopAlgorithm_Spec PopAlgorithm_Proofs.

(** The population [p] sorted, the vectors being [bs] with their values. *)
Definition ranked (o : objective) (size n : nat) (bs : list bv) (p : population) : Prop :=
  well_formed size n p /\ p_bvs p = bs /\ (p_values p = map (o_value o) bs /\ ordered size p) /\
  forall k, k <= size -> best_of k (map (at_index p) (firstn k (p_perm p))) (map (fun x => (x, o_value o x)) bs).

Section Generation.
  Context {X : Type} (get : X -> population) (put : population -> X -> X).
  Hypothesis get_put : forall p m, get (put p m) = p.
  Hypothesis put_put : forall p q m, put p (put q m) = put p m.
  Hypothesis put_get : forall m, put (get m) m = m.
  Variables (o : objective) (sh : list nat -> list nat) (srt : (nat -> nat -> bool) -> list nat -> list nat).
  Hypothesis HSH : shuffles sh.
  Hypothesis HSO : sorts srt.

  Lemma ranked_sort size n bs p : well_formed size n p -> p_bvs p = bs -> p_values p = map (o_value o) bs -> ranked o size n bs (pop_sort sh srt p).
  Proof.
    intros W B V. pose proof (sort_wf _ _ _ _ _ HSH HSO W) as WS. split; [assumption|]. split; [assumption|]. split; [split; [assumption|now apply (sort_ordered _ _ size n)]|].
    intros k Hk. apply (selected_best k size n _ (map (fun x => (x, o_value o x)) bs) WS); [assumption| |].
    - intros i j Hi Hj. apply (sort_values sh srt size n p i j); auto; lia.
    - unfold individuals. cbn [pop_sort p_bvs p_values]. rewrite V, B.
      assert (C : forall l, combine l (map (o_value o) l) = map (fun x => (x, o_value o x)) l). { induction l as [|a l IHl]; cbn; [reflexivity|]. now rewrite IHl. }
      rewrite C. apply Permutation_refl.
  Qed.

  Lemma evaluate_sort_wp size n (s : alg X) : well_formed size n (get (a_mem s)) -> top_of o (a_trace s) (a_sol s) ->
    let bs := p_bvs (get (a_mem s)) in
    wp (_ <~ eval_pop get put o ;; _ <~ sort_pop get put sh srt ;; update_with_best get)
      (fun _ s' => a_trace s' = a_trace s ++ bs /\ top_of o (a_trace s') (a_sol s') /\ a_last s' = a_last s /\
         (length (fst (a_sol s)) = n -> length (fst (a_sol s')) = n) /\ (snd (a_sol s) <= snd (a_sol s'))%Z /\
         exists p, a_mem s' = put p (a_mem s) /\ ranked o size n bs p)
      (fun e s' => lagging o size s' /\ (exists e', e = Some e' /\ o_stop o (length (a_trace s')) = Some e') /\ a_sol s' = a_sol s /\
         exists p, a_mem s' = put p (a_mem s) /\ well_formed size n p /\ p_bvs p = bs) s.
  Proof.
    intros W TO bs. pose proof W as (W1 & W2 & W3 & W4 & W5 & W6).
    apply wp_bind. eapply wp_mono; [apply (eval_pop_wp get put get_put put_put put_get o size n s W)| |].
    - cbn beta zeta. fold bs. intros _ s' ->. set (p0 := mk_pop bs (map (o_value o) bs) (p_perm (get (a_mem s)))).
      assert (W0 : well_formed size n p0). { unfold well_formed, p0, bs; cbn. rewrite map_length. repeat split; auto. }
      eapply (sort_update_wp get put get_put o sh srt size n p0 _ (a_trace s)); try reflexivity; try apply get_put; auto.
      cbn [a_trace a_sol a_last a_mem]. intros sol TS LE LS. split; [reflexivity|]. split; [assumption|]. split; [reflexivity|]. split; [assumption|]. split; [assumption|].
      exists (pop_sort sh srt p0). rewrite put_put. split; [reflexivity|]. now apply ranked_sort.
    - cbn beta zeta. fold bs. intros e s' (k & vs & e' & K & LV & -> & ST & ->). cbn [a_trace a_sol a_last a_mem].
      split; [|split; [|split; [reflexivity|]]].
      + exists (a_trace s), (firstn k bs). split; [reflexivity|]. split; [rewrite firstn_length; lia|exact TO].
      + exists e'. split; [reflexivity|]. unfold bs. now rewrite app_length, firstn_length_le by lia.
      + eexists. split; [reflexivity|]. split; [|reflexivity]. unfold well_formed, bs; cbn. repeat split; auto.
  Qed.
End Generation.
