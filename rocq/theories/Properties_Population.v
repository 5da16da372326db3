(** Properties of populations, selections and Pareto fronts: C43-C47, C62. *)

From Coq Require Import ZArith Permutation.
From Verif Require Import Base BitVector_Model Representation_Spec Map_Spec Adapter_Proofs.
From Verif Require Import Population_Model Population_Spec Population_Proofs Tournament_Proofs.
From Verif Require Import Pareto_Model Pareto_Spec Pareto_Proofs.
Local Open Scope nat_scope.

(** A concrete population, and sorting functions, for the examples. *)
Definition example_pop : population :=
  mk_pop [[false; false]; [true; false]; [false; true]; [true; true]] [3; 5; 3; 4]%Z [0; 1; 2; 3].
Definition insertion_sort (lt : nat -> nat -> bool) (l : list nat) : list nat := fold_right (ins lt) [] l.
Lemma insertion_sort_sorts : sorts insertion_sort.
Proof. intros lt l H. destruct (insertion_sorts lt l H). auto. Qed.
Lemma example_pop_wf : well_formed 4 2 example_pop.
Proof. unfold well_formed; cbn. repeat split; auto; repeat constructor. Qed.
Lemma insertion_partially_sorts : partially_sorts (fun _ => insertion_sort).
Proof.
  intros k lt l H _. destruct (insertion_sort_sorts lt l H) as [P S]. split; [exact P|].
  intros i j a b _ Hij Ha Hb. exact (StronglySorted_nth _ _ S i j a b Hij Ha Hb).
Qed.
Lemma rev_shuffles : shuffles (@rev nat).
Proof. intros l. apply Permutation_rev. Qed.

(** ** C43: sorting only permutes the indices, and lists values in non-increasing
    order. *)
Theorem C43_sort sh srt size n p : shuffles sh -> sorts srt -> well_formed size n p ->
  let p' := pop_sort sh srt p in
  p_bvs p' = p_bvs p /\ p_values p' = p_values p /\ Permutation (seq 0 size) (p_perm p') /\
  (forall i, i < size -> exists k b v,
     best_index p' i = Ok k /\ best_bv p' i = Ok b /\ best_value p' i = Ok v /\
     nth_error (p_bvs p) k = Some b /\ nth_error (p_values p) k = Some v) /\
  (forall i j v w, i < j < size -> best_value p' i = Ok v -> best_value p' j = Ok w -> (w <= v)%Z).
Proof.
  intros Hs Hr W p'. pose proof (sort_wf sh srt size n p Hs Hr W) as W'. fold p' in W'.
  split; [reflexivity|]. split; [reflexivity|]. split; [apply (wf_perm W')|]. split.
  - intros i Hi. pose proof (perm_seq_nth size _ i (wf_perm W') Hi) as B.
    exists (nth i (p_perm p') 0), (nth (nth i (p_perm p') 0) (p_bvs p) []), (nth (nth i (p_perm p') 0) (p_values p) 0%Z).
    rewrite (best_index_Ok W'), (best_bv_Ok W'), (best_value_Ok W') by auto.
    repeat split; auto; apply nth_error_nth'; destruct W as (_ & _ & E & _ & F & _); lia.
  - intros i j v w H Ev Ew. rewrite (best_value_Ok W') in Ev, Ew by lia.
    apply BaseLemmas.Ok_inj in Ev, Ew. subst. exact (sort_values sh srt size n p i j Hs Hr W H).
Qed.
Print Assumptions C43_sort.

(** In a sorted population, the range returned holds exactly the individuals with
    the same value. *)
Theorem C43_equivalent_bvs sh srt size n p index : shuffles sh -> sorts srt -> well_formed size n p -> index < size ->
  let p' := pop_sort sh srt p in
  exists lo hi, get_equivalent_bvs p' index = Ok (lo, hi) /\ lo <= index < hi /\ hi <= size /\
    forall i, i < size -> (lo <= i < hi <-> best_value p' i = best_value p' index).
Proof. exact (equivalent_bvs sh srt size n p index). Qed.
Print Assumptions C43_equivalent_bvs.

(** Partial sorting puts the k best first, in non-increasing order. *)
Theorem C43_partial_sort sh psrt size n p k : shuffles sh -> partially_sorts psrt -> well_formed size n p -> 0 < k <= size ->
  exists p', pop_partial_sort sh psrt p k = Ok p' /\ p_bvs p' = p_bvs p /\ p_values p' = p_values p /\
    Permutation (seq 0 size) (p_perm p') /\
    forall i j v w, i < k -> i < j < size -> best_value p' i = Ok v -> best_value p' j = Ok w -> (w <= v)%Z.
Proof.
  intros Hs Hp W Hk. destruct (partial_sort_Ok sh psrt size n p k Hs Hp W Hk) as (q & E & W' & S).
  eexists; split; [exact E|]. split; [reflexivity|]. split; [reflexivity|]. split; [apply (wf_perm W')|].
  intros i j v w Hi Hj Ev Ew. rewrite (best_value_Ok W') in Ev, Ew by lia.
  apply BaseLemmas.Ok_inj in Ev, Ew. subst. apply S; auto.
Qed.
Print Assumptions C43_partial_sort.

(** The constructor builds such populations. *)
Theorem C43_constructor size n :
  (0 < size -> 0 < n -> exists p, pop_make size n = Ok p /\ well_formed size n p) /\
  (size = 0 \/ n = 0 -> pop_make size n = Throw RuntimeError).
Proof.
  split; [exact (pop_make_wf size n)|]. unfold pop_make. intros [->| ->]; [reflexivity|]. destruct size; reflexivity.
Qed.
Print Assumptions C43_constructor.

Example C43_case : well_formed 4 2 example_pop /\
  p_perm (pop_sort (@rev nat) insertion_sort example_pop) = [1; 3; 2; 0] /\
  get_equivalent_bvs (pop_sort (@rev nat) insertion_sort example_pop) 3 = Ok (2, 4).
Proof. split; [exact example_pop_wf|]. split; reflexivity. Qed.

(** ** C44: after plus selection the parents are mu best individuals of the union of
    parents and offsprings, best first; nothing fails, whatever the shuffles, and
    the populations can be used again. *)
Theorem C44_plus sh psrt mu lambda n parents offsprings pool :
  shuffles sh -> partially_sorts psrt ->
  well_formed mu n parents -> well_formed lambda n offsprings -> well_formed (mu + lambda) n pool ->
  exists parents' offsprings' pool',
    plus_select sh psrt parents offsprings pool = Ok (parents', offsprings', pool') /\
    well_formed mu n parents' /\ well_formed lambda n offsprings' /\ well_formed (mu + lambda) n pool' /\
    p_perm parents' = seq 0 mu /\
    best_of mu (individuals parents') (individuals parents ++ individuals offsprings) /\
    non_increasing (individuals parents').
Proof. exact (plus_select_Ok sh psrt mu lambda n parents offsprings pool). Qed.
Print Assumptions C44_plus.

Theorem C44_plus_constructor mu lambda n parents offsprings :
  well_formed mu n parents -> well_formed lambda n offsprings ->
  exists pool, plus_make parents offsprings = Ok pool /\ well_formed (mu + lambda) n pool.
Proof. exact (plus_make_Ok mu lambda n parents offsprings). Qed.
Print Assumptions C44_plus_constructor.

(** After comma selection they are mu best individuals of the offsprings; the
    constructor refuses fewer offsprings than parents. *)
Theorem C44_comma sh psrt mu lambda n parents offsprings :
  shuffles sh -> partially_sorts psrt ->
  well_formed mu n parents -> well_formed lambda n offsprings ->
  (comma_make parents offsprings = Ok tt <-> mu <= lambda) /\
  (comma_make parents offsprings = Ok tt ->
   exists parents' offsprings',
    comma_select sh psrt parents offsprings = Ok (parents', offsprings') /\
    well_formed mu n parents' /\ well_formed lambda n offsprings' /\
    p_perm parents' = seq 0 mu /\
    best_of mu (individuals parents') (individuals offsprings) /\
    non_increasing (individuals parents')).
Proof.
  intros Hs Hp WP WO.
  assert (H : comma_make parents offsprings = Ok tt <-> mu <= lambda).
  { unfold comma_make, pop_size. destruct WP as (_ & _ & -> & _), WO as (_ & _ & -> & _).
    destruct (Nat.leb_spec mu lambda); cbn; split; auto; try lia; discriminate. }
  split; [exact H|]. intros E. apply H in E. exact (comma_select_Ok sh psrt mu lambda n parents offsprings Hs Hp WP WO E).
Qed.
Print Assumptions C44_comma.

Example C44_case : exists parents pool parents' offsprings' pool',
  pop_make 2 2 = Ok parents /\ well_formed 2 2 parents /\ plus_make parents example_pop = Ok pool /\
  plus_select (@rev nat) (fun _ => insertion_sort) parents example_pop pool = Ok (parents', offsprings', pool') /\
  individuals parents' = [([true; false], 5%Z); ([true; true], 4%Z)].
Proof.
  destruct (pop_make_wf 2 2 ltac:(lia) ltac:(lia)) as (ps & E & W). injection E as <-.
  eexists _, _, _, _, _. split; [reflexivity|]. split; [exact W|]. split; [reflexivity|]. split; reflexivity.
Qed.
Example C44_case_comma : exists parents parents' offsprings',
  pop_make 2 2 = Ok parents /\ comma_make parents example_pop = Ok tt /\
  comma_select (@rev nat) (fun _ => insertion_sort) parents example_pop = Ok (parents', offsprings') /\
  individuals parents' = [([true; false], 5%Z); ([true; true], 4%Z)].
Proof. eexists _, _, _. split; [reflexivity|]. split; [reflexivity|]. split; reflexivity. Qed.

(** ** C45: tournament selection.  Within a round, the k-th selection returns a best
    individual of the k-th slice of the permutation shuffled at the beginning of the
    round, whatever the strict weak order, as long as another slice follows. *)
Theorem C45_round {T : Type} (better : T -> T -> bool) (bvs : list bv) (values : list T) size :
  strict_weak_order better -> length bvs = size -> length values = size ->
  forall shs t m, (forall i, shuffles (shs i)) -> in_round size t -> t_start t = 0 -> (m + 1) * t_size t <= size ->
  exists bs t',
    selections better bvs values shs m t = Ok (bs, t') /\ in_round size t' /\
    t_perm t' = t_perm t /\ t_start t' = m * t_size t /\ t_size t' = t_size t /\ length bs = m /\
    forall k, k < m -> exists i,
      best_among better values (firstn (t_size t) (skipn (k * t_size t) (t_perm t))) i /\ nth k bs [] = nth i bvs [].
Proof. intros S L1 L2 shs t m. exact (round_Ok better bvs values size S L1 L2 shs t m). Qed.
Print Assumptions C45_round.

(** Slices of a round are disjoint. *)
Theorem C45_disjoint size t k l i : in_round size t -> k < l ->
  In i (firstn (t_size t) (skipn (k * t_size t) (t_perm t))) ->
  ~ In i (firstn (t_size t) (skipn (l * t_size t) (t_perm t))).
Proof.
  intros (_ & _ & _ & P) Hkl I J. pose proof (perm_seq_NoDup _ _ P) as ND.
  assert (K : forall s, In i (firstn (t_size t) (skipn (s * t_size t) (t_perm t))) ->
              exists u, s * t_size t <= u < (s + 1) * t_size t /\ u < length (t_perm t) /\ nth u (t_perm t) 0 = i).
  { intros s H. apply (In_nth _ _ 0) in H as (u & Hu & E). rewrite firstn_length, skipn_length in Hu.
    exists (s * t_size t + u). split; [lia|]. split; [lia|]. rewrite <- E.
    transitivity (nth u (skipn (s * t_size t) (t_perm t)) 0).
    - rewrite <- (firstn_skipn (s * t_size t) (t_perm t)) at 1. rewrite app_nth2; rewrite firstn_length; [|lia]. f_equal. lia.
    - rewrite <- (firstn_skipn (t_size t) (skipn (s * t_size t) (t_perm t))) at 1. rewrite app_nth1; [reflexivity|].
      rewrite firstn_length, skipn_length. lia. }
  apply K in I as (u & Hu & Lu & Eu). apply K in J as (v & Hv & Lv & Ev).
  assert (u = v) by (apply (proj1 (NoDup_nth _ 0) ND); congruence).
  subst v. assert ((k + 1) * t_size t <= l * t_size t) by (apply Nat.mul_le_mono_r; lia). lia.
Qed.
Print Assumptions C45_disjoint.

(** Every selection succeeds, returns an individual, and the next one can be done: a
    new round starts with a shuffle when fewer than a tournament remain. *)
Theorem C45_select {T : Type} (better : T -> T -> bool) (bvs : list bv) (values : list T) size :
  strict_weak_order better -> length bvs = size -> length values = size ->
  forall sh t, shuffles sh -> in_round size t ->
  exists b t', tournament_select better bvs values sh t = Ok (b, t') /\ In b bvs /\ in_round size t' /\
    (size < t_stop t + t_size t -> t_start t' = 0 /\ t_perm t' = sh (t_perm t)).
Proof.
  intros S L1 L2 sh t Hs R. destruct (select_Ok better bvs values size S L1 L2 t R) as (w & Hw & _ & Sel).
  destruct (Sel sh Hs) as (t' & E & R' & _ & N). eexists _, t'. split; [exact E|]. split; [|split; [exact R'|]].
  - apply nth_In. rewrite L1. apply perm_seq_nth; [apply R'|]. destruct R as (_ & _ & ? & _). lia.
  - intros G. rewrite (proj2 (Nat.ltb_lt _ _) G) in N. tauto.
Qed.
Print Assumptions C45_select.

(** The last selection of a round reads its winner through the new shuffle: it may
    return any individual, even a worst one. *)
Theorem C45_last {T : Type} (better : T -> T -> bool) (bvs : list bv) (values : list T) size :
  strict_weak_order better -> length bvs = size -> length values = size ->
  forall t j, in_round size t -> size < t_stop t + t_size t -> j < size ->
  exists sh t', shuffles sh /\ tournament_select better bvs values sh t = Ok (nth j bvs [], t').
Proof. intros S L1 L2 t j. exact (last_any better bvs values size S L1 L2 t j). Qed.
Print Assumptions C45_last.

(** Initialization starts a round, for the sizes that set_tournament_size accepts. *)
Theorem C45_init sh bvs t0 ts t : shuffles sh -> Permutation (seq 0 (length bvs)) (t_perm t0) ->
  set_tournament_size bvs t0 ts = Ok t -> in_round (length bvs) (tournament_init sh t) /\ t_start (tournament_init sh t) = 0 /\ 2 <= ts < length bvs.
Proof.
  unfold set_tournament_size. intros Hs P. destruct (Nat.leb_spec 2 ts), (Nat.ltb_spec ts (length bvs)); cbn; intros E; try discriminate.
  injection E as <-. unfold in_round, tournament_init; cbn. repeat split; auto; try lia. eapply Permutation_trans; [exact P|apply Hs].
Qed.
Print Assumptions C45_init.

Example C45_case : exists t0 t t1 b t2,
  tournament_make (p_bvs example_pop) (p_values example_pop) (77, 78) = Ok t0 /\
  set_tournament_size (p_bvs example_pop) t0 2 = Ok t /\
  in_round 4 (tournament_init (@rev nat) t) /\ (1 + 1) * t_size t <= 4 /\
  strict_weak_order (fun a b => Z.ltb b a) /\
  selections (fun a b => Z.ltb b a) (p_bvs example_pop) (p_values example_pop) (fun _ => @rev nat) 1 (tournament_init (@rev nat) t) = Ok ([[true; true]], t1) /\
  (* best of the second slice {1, 0} is 1, of value 5, but the individual returned is 2, of value 3 *)
  slice_of t1 = [1; 0] /\ 4 < t_stop t1 + t_size t1 /\
  tournament_select (fun a b => Z.ltb b a) (p_bvs example_pop) (p_values example_pop) (@rev nat) t1 = Ok (b, t2) /\ b = [false; true].
Proof.
  eexists _, _, _, _, _. split; [reflexivity|]. split; [reflexivity|]. split.
  { refine (proj1 (C45_init (@rev nat) (p_bvs example_pop) (mk_tournament [0; 1; 2; 3] 77 78 2) 2 _ rev_shuffles _ _)); [apply Permutation_refl|reflexivity]. }
  split; [cbn; lia|]. split.
  { split; [|split]; intros; rewrite ?Z.ltb_irrefl, ?Z.ltb_lt, ?Z.ltb_ge in *; auto; lia. }
  split; [reflexivity|]. split; [reflexivity|]. split; [cbn; lia|]. split; reflexivity.
Qed.

(** ** C46: Pareto dominance is the strict partial order it should be. *)
Theorem C46_dominates a b : length a = length b -> exists r, dominates a b = Ok r /\ (r = true <-> pareto_better a b).
Proof. exact (dominates_spec a b). Qed.
Print Assumptions C46_dominates.
Theorem C46_sizes a b : length a <> length b -> dominates a b = UB.
Proof. intros H. unfold dominates. rewrite (proj2 (Nat.eqb_neq _ _) H). reflexivity. Qed.
Print Assumptions C46_sizes.
Theorem C46_strict_order a b c : length a = length b -> length b = length c ->
  dominates a a = Ok false /\
  (dominates a b = Ok true -> dominates b a = Ok false) /\
  (dominates a b = Ok true -> dominates b c = Ok true -> dominates a c = Ok true).
Proof.
  intros L1 L2.
  assert (R : forall u v r, length u = length v -> dominates u v = Ok r -> (r = true <-> pareto_better u v)).
  { intros u v r L E. destruct (dominates_spec u v L) as (r' & E' & H). rewrite E' in E. injection E as ->. exact H. }
  split; [|split].
  - destruct (dominates_spec a a eq_refl) as ([] & E & H); auto. destruct (pareto_irrefl a). apply H. reflexivity.
  - intros E. destruct (dominates_spec b a (eq_sym L1)) as ([] & E' & H); auto.
    destruct (pareto_irrefl a). apply (pareto_trans a b a L1); [apply (R a b true L1 E); reflexivity|apply H; reflexivity].
  - intros E F. destruct (dominates_spec a c (eq_trans L1 L2)) as (r & E' & H). rewrite E'. f_equal. apply H.
    apply (pareto_trans a b c L1); [apply (R a b true L1 E)|apply (R b c true L2 F)]; reflexivity.
Qed.
Print Assumptions C46_strict_order.
Example C46_case : dominates [1; 2; 3]%Z [1; 4; 3]%Z = Ok true /\ dominates [1; 4; 3]%Z [1; 2; 3]%Z = Ok false /\
  dominates [0; 5]%Z [5; 0]%Z = Ok false /\ dominates [5; 0]%Z [0; 5]%Z = Ok false.
Proof. repeat split. Qed.

(** ** C47: the computation of Pareto fronts terminates, never fails, and gives
    each individual its front, whatever the order in which the sets are visited. *)
Theorem C47_fronts m values ord fuel fronts : same_sizes m values -> visits ord ->
  length values <= fuel -> length fronts = length values ->
  exists F, compute_fronts values ord fuel fronts = Some (Ok F) /\ length F = length values /\
    forall i k, i < length values -> (nth i F 0 = k <-> in_front values k i).
Proof. intros S. exact (compute_Ok m values S ord fuel fronts). Qed.
Print Assumptions C47_fronts.

Theorem C47_order_independent m values ord ord' fuel fuel' fronts fronts' : same_sizes m values -> visits ord -> visits ord' ->
  length values <= fuel -> length values <= fuel' -> length fronts = length values -> length fronts' = length values ->
  compute_fronts values ord fuel fronts = compute_fronts values ord' fuel' fronts'.
Proof.
  intros S V V' H H' L L'.
  destruct (compute_Ok m values S ord fuel fronts V H L) as (F & -> & LF & A).
  destruct (compute_Ok m values S ord' fuel' fronts' V' H' L') as (F' & -> & LF' & A').
  do 2 f_equal. apply (nth_ext _ _ 0 0); [congruence|]. intros i Hi. apply A; [lia|]. apply A'; [lia|]. reflexivity.
Qed.
Print Assumptions C47_order_independent.

(** The first front is the set of non-dominated individuals. *)
Theorem C47_first_front values i : in_front values 0 i <->
  forall j, j < length values -> ~ pareto_better (nth j values []) (nth i values []).
Proof.
  unfold in_front; cbn. split.
  - intros [_ [[]|H]] j Hj. apply H; auto.
  - intros H. split; [auto|]. right. intros j Hj _. auto.
Qed.
Print Assumptions C47_first_front.

Example C47_case :
  let values := [[3; 3]; [1; 4]; [2; 2]; [4; 1]; [4; 4]]%Z in
  same_sizes 2 values /\ visits (fun _ _ => @rev nat) /\
  compute_fronts values (fun _ _ => @rev nat) 5 [9; 9; 9; 9; 9] = Some (Ok [1; 0; 0; 0; 2]) /\
  compute_fronts values (fun _ _ l => l) 5 [8; 8; 8; 8; 8] = Some (Ok [1; 0; 0; 0; 2]).
Proof. cbv zeta. split; [repeat constructor|]. split; [intros f k l; apply Permutation_rev|]. split; reflexivity. Qed.

(** ** C62: parallel evaluation computes what sequential evaluation computes,
    whatever the order of the iterations and the threads that run them, and
    announces each individual once with its value, in order. *)
Theorem C62_parallel_evaluation f size n fns thread schedule p : well_formed size n p ->
  Permutation (seq 0 size) schedule -> (forall i, i < size -> thread i < length fns) ->
  (forall fn x, In fn fns -> length x = n -> fn x = f x) ->
  exists p', pop_evaluate f p = Ok p' /\ p_bvs p' = p_bvs p /\ p_perm p' = p_perm p /\
    p_values p' = map f (p_bvs p) /\
    pop_evaluate_in_parallel fns thread schedule p = Ok (p', individuals p').
Proof.
  intros W PS HT HF. eexists. split; [exact (evaluate_Ok f size n p W)|]. do 3 (split; [reflexivity|]).
  exact (evaluate_in_parallel_Ok f size n fns thread schedule p W PS HT HF).
Qed.
Print Assumptions C62_parallel_evaluation.
Definition count_ones (x : bv) : Z := Z.of_nat (length (filter (fun b => b) x)).
Example C62_case : well_formed 4 2 example_pop /\ Permutation (seq 0 4) [3; 1; 0; 2] /\
  pop_evaluate_in_parallel [count_ones; count_ones] (fun i => i mod 2) [3; 1; 0; 2] example_pop =
    Ok (mk_pop (p_bvs example_pop) [0; 1; 1; 2]%Z [0; 1; 2; 3],
        [([false; false], 0); ([true; false], 1); ([false; true], 1); ([true; true], 2)]%Z).
Proof.
  split; [exact example_pop_wf|]. split; [|reflexivity].
  apply NoDup_Permutation; [apply seq_NoDup|repeat constructor; cbn; intuition discriminate|]. intros x; cbn; intuition.
Qed.
