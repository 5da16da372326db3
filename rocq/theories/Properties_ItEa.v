(** Properties of the information-theoretic evolutionary algorithm: C97 and C98. *)

From Coq Require Import QArith Lqa Permutation.
From Verif Require Import Base BaseLemmas BitVector_Model BitVector_Spec Neighborhood_Model Neighborhood_Spec Representation_Spec Map_Spec Algorithm_Model Algorithm_Spec Algorithm_Proofs
  Population_Model Population_Spec Population_Proofs PopAlgorithm_Model PopAlgorithm_Spec PopAlgorithm_Proofs ProbabilityVector_Model ProbabilityVector_Spec
  EvolutionaryAlgorithm_Model EvolutionaryAlgorithm_Spec EvolutionaryAlgorithm_Proofs Mimic_Model Properties_Algorithm Properties_Population Properties_ProbabilityVector Properties_EvolutionaryAlgorithm
  ItEa_Model ItEa_Spec ItEa_Proofs.
Local Open Scope nat_scope.

Lemma it_start n size garbage m s : it_make n size garbage = Ok m -> alg_make n m = Ok s -> it_sized size n s /\ a_trace s = [] /\ 0 < size.
Proof.
  intros E1 E2. unfold alg_make in E2. destruct (0 <? n) eqn:Hn; [|discriminate]. destruct (0 <? size) eqn:Hs.
  2:{ unfold it_make, pop_make in E1. rewrite Hs in E1. discriminate. }
  apply Nat.ltb_lt in Hs, Hn. destruct (it_make_Ok n size garbage Hn Hs) as (m' & E & W). rewrite E in E1. apply Ok_inj in E1. subst m'.
  cbn [ensureb bind] in E2. apply Ok_inj in E2. subst. auto.
Qed.

(** ** C97: an iteration, in every state of a run.  As many mutants of the center as the
    population holds are evaluated, then the center is replaced as told by the parameter
    and the mutation rate moves towards the mean rate of the selected mutants, within
    its bounds; individuals with equal values share the last places of the selection,
    so that neither the order of the population nor the sorting matters. The
    solution is always a best vector of all those evaluated. An iteration which does not
    return has been interrupted by the function, or by a mutation whose draws
    are not over. *)
Theorem C97_iteration o n size p small d shs srt coin pick flip bit u garbage m s0 t s :
  it_admissible size n p -> fair_mutations n d -> (forall t, shuffles (shs t)) -> sorts srt -> fair_picks pick -> (forall i, 0 <= u i /\ u i < 1)%Q ->
  it_make n size garbage = Ok m -> alg_make n m = Ok s0 ->
  reached (it_init o p bit u) (it_iterate o n p small d shs srt coin pick flip) s0 t s ->
  it_valid o size n p s /\
  match it_iterate o n p small d shs srt coin pick flip t s with
  | (Ret _, s') => it_step o n size p (coin t) (flip t) s s' /\ top_of o (a_trace s') (a_sol s')
  | (Exc e, s') => o_stop o (length (a_trace s')) = Some e /\ lagging o size s'
  | (Bad, _) => False
  | (Pending, s') => lagging o size s'
  end.
Proof.
  intros ADM HD HH HR HP HU E1 E2 RE. destruct (it_start _ _ _ _ _ E1 E2) as (SZ & T & S0).
  assert (IN : it_inv o n size p s /\ top_of o (a_trace s) (a_sol s)).
  { refine (reached_inv (fun s => it_inv o n size p s /\ top_of o (a_trace s) (a_sol s)) _ _ (fun _ _ => True) (fun _ _ => True) s0 _ (fun j s1 H => _) t s RE).
    - eapply wp_mono; [now apply (it_init_wp o n size p ADM bit u s0 HU SZ T)| |auto]. cbn beta. intros _ s1 (X1 & (X2 & _) & _). split; [exact X2|exact X1].
    - eapply wp_mono; [apply (it_iterate_wp o n size p small d shs srt coin pick flip HD HH HR HP ADM j s1 (proj1 H) (proj2 H))| |auto]. cbn beta. tauto. }
  destruct IN as (IN & TO). split; [destruct IN as (X1 & X2 & X3 & X4); split; [assumption|split; [assumption|split; [assumption|split; assumption]]]|].
  pose proof (it_iterate_wp o n size p small d shs srt coin pick flip HD HH HR HP ADM t s IN TO) as G. apply wp_result in G.
  destruct (it_iterate _ _ _ _ _ _ _ _ _ _ _ _) as [[x|e| |] s']; tauto.
Qed.
Print Assumptions C97_iteration.

(** What is selected: parts between 0 and 1 whose sum is the size of the selection *)
Theorem C97_shares o n L k : 0 < n -> Forall (fun x => length x = n) L -> 1 <= k < length L ->
  let pool := map (fun x => (x, o_value o x)) L in
  (forall v, 0 <= share k pool v <= 1)%Q /\ (selected_total k pool (fun _ => 1) == inject_Z (Z.of_nat k))%Q.
Proof. intros N F K pool. split; [intros v; apply share_bounds|now apply (shares_exact o n)]. Qed.
Print Assumptions C97_shares.

(** The component flipped by the incremental update is the one whose number is drawn
    among all those with an extremal likelihood. *)
Theorem C97_component pick values : values <> [] -> (forall lo hi, lo <= hi -> lo <= pick lo hi <= hi) ->
  forall largest : bool, exists candidates i,
    (forall j, In j candidates <-> j < length values /\ forall k, k < length values ->
       if largest then (nth k values 0 <= nth j values 0)%Q else (nth j values 0 <= nth k values 0)%Q) /\ NoDup candidates /\
    sample_from_arg (if largest then max_element else min_element) pick values = Ok i /\ In i candidates /\
    (1 < length candidates -> i = nth (pick 0 (length candidates - 1)) candidates 0).
Proof.
  intros N P largest. set (op := if largest then max_element else min_element).
  assert (OP : op values < length values /\ forall j, j < length values -> if largest then (nth j values 0 <= nth (op values) values 0)%Q else (nth (op values) values 0 <= nth j values 0)%Q).
  { unfold op. destruct largest; [now apply max_element_spec|now apply Mimic_Proofs.min_element_spec]. }
  destruct OP as (O1 & O2). destruct (sample_from_arg_Ok op pick values N O1 P) as (S1 & S2). set (candidates := filter _ _) in *.
  exists candidates, (if 1 <? length candidates then nth (pick 0 (length candidates - 1)) candidates 0 else op values).
  split; [|split; [apply NoDup_filter, seq_NoDup|split; [exact S1|split; [exact S2|intros H; now rewrite (proj2 (Nat.ltb_lt _ _)) by assumption]]]].
  intros j. unfold candidates. rewrite filter_In, in_seq, Qeq_bool_iff. split.
  - intros (H1 & H2). split; [lia|]. intros k Hk. specialize (O2 k Hk). destruct largest; lra.
  - intros (H1 & H2). split; [lia|]. specialize (O2 j H1). specialize (H2 _ O1). destruct largest; lra.
Qed.
Print Assumptions C97_component.

(** ** C98: runs.  The solution of a run is a best vector of those evaluated, as far as
    the interruption allows. With elitist replacement the center is as
    good as the solution; without replacement it keeps the initial Hamming weight;
    the mutation rate is the initial one or is within its bounds. *)
Theorem C98_run o n size p small d shs srt coin pick flip bit u num fuel garbage m s0 :
  it_admissible size n p -> fair_mutations n d -> (forall t, shuffles (shs t)) -> sorts srt -> fair_picks pick -> (forall i, 0 <= u i /\ u i < 1)%Q ->
  it_make n size garbage = Ok m -> alg_make n m = Ok s0 ->
  let '(r, s) := loop (it_init o p bit u) (it_iterate o n p small d shs srt coin pick flip) num fuel s0 in
  run_top o size r s /\ (a_trace s = [] \/ it_sized size n s) /\
  (r = Ret tt -> snd (it_center (a_mem s)) = o_value o (fst (it_center (a_mem s))) /\
     (ip_replacement p = Elitist -> snd (it_center (a_mem s)) = snd (a_sol s)) /\
     (ip_replacement p = NoReplacement -> length (BitVector_Spec.ones (fst (it_center (a_mem s)))) = ip_weight p) /\
     (it_rate (a_mem s) = ip_init p \/ (ip_min p <= it_rate (a_mem s) <= ip_max p)%Q)).
Proof.
  intros ADM HD HH HR HP HU E1 E2. destruct (it_start _ _ _ _ _ E1 E2) as (SZ & T & S0).
  pose proof (it_run o n size p small d shs srt coin pick flip HD HH HR HP ADM bit u num fuel s0 HU SZ T) as R. destruct (loop _ _ _ _ _) as [r s].
  destruct R as (R1 & R2 & R3). split; [assumption|]. split; [assumption|]. intros E. destruct (R3 tt E) as (((_ & _ & _ & D1) & D2) & _). tauto.
Qed.
Print Assumptions C98_run.

(** In every state of a run, with elitist replacement the value of the center is the
    one of the solution, hence never decreases; without replacement the center never moves. *)
Theorem C98_center o n size p small d shs srt coin pick flip bit u garbage m s0 t s s' :
  it_admissible size n p -> fair_mutations n d -> (forall t, shuffles (shs t)) -> sorts srt -> fair_picks pick -> (forall i, 0 <= u i /\ u i < 1)%Q ->
  it_make n size garbage = Ok m -> alg_make n m = Ok s0 ->
  reached (it_init o p bit u) (it_iterate o n p small d shs srt coin pick flip) s0 t s ->
  it_iterate o n p small d shs srt coin pick flip t s = (Ret tt, s') ->
  (ip_replacement p = Elitist -> snd (it_center (a_mem s)) = snd (a_sol s) /\ (snd (it_center (a_mem s)) <= snd (it_center (a_mem s')))%Z) /\
  (ip_replacement p = NoReplacement -> it_center (a_mem s') = it_center (a_mem s)).
Proof.
  intros ADM HD HH HR HP HU E1 E2 RE EI. destruct (it_start _ _ _ _ _ E1 E2) as (SZ & T & S0).
  assert (IN : it_inv o n size p s /\ top_of o (a_trace s) (a_sol s) /\ (ip_replacement p = Elitist -> snd (it_center (a_mem s)) = snd (a_sol s))).
  { refine (reached_inv (fun s => it_inv o n size p s /\ top_of o (a_trace s) (a_sol s) /\ (ip_replacement p = Elitist -> snd (it_center (a_mem s)) = snd (a_sol s))) _ _ (fun _ _ => True) (fun _ _ => True) s0 _ (fun j s1 H => _) t s RE).
    - eapply wp_mono; [now apply (it_init_wp o n size p ADM bit u s0 HU SZ T)| |auto]. cbn beta. intros _ s1 (X1 & (X2 & X3 & _) & _). split; [exact X2|split; [exact X1|exact X3]].
    - destruct H as (H1 & H2 & H3). eapply wp_mono; [apply (it_iterate_wp o n size p small d shs srt coin pick flip HD HH HR HP ADM j s1 H1 H2)| |auto]. cbn beta.
      intros _ s2 (I1 & I2 & I3 & _). split; [assumption|]. split; [assumption|]. intros ER. apply (elitist_value o n size p s1 s2 _ _ ER H2 I2 I3). auto. }
  destruct IN as (IN & TO & EL).
  pose proof (it_iterate_wp o n size p small d shs srt coin pick flip HD HH HR HP ADM t s IN TO) as G. apply wp_result in G. rewrite EI in G. destruct G as (_ & TO' & ST & VS).
  split.
  - intros ER. specialize (EL ER). split; [assumption|]. rewrite (elitist_value o n size p s s' _ _ ER TO TO' ST EL). lia.
  - intros ER. destruct ST as (L & ev & _ & _ & _ & S4 & _). cbv zeta in S4. rewrite ER in S4. inversion S4; reflexivity.
Qed.
Print Assumptions C98_center.

(** The constructor refuses empty populations and vectors; the default parameters are
    admissible exactly for two individuals and two bits at least. *)
Theorem C98_make n size garbage : 
  match it_make n size garbage with
  | Ok m => 0 < n /\ 0 < size /\ it_rate m = garbage
  | Throw e => e = RuntimeError /\ (n = 0 \/ size = 0)
  | UB => False
  end /\ (0 < n -> (it_admissible size n (it_default n) <-> 2 <= size /\ 2 <= n)).
Proof.
  split; [|apply default_admissible]. unfold it_make, pop_make, nh_make. destruct (Nat.ltb_spec 0 size); cbn [ensureb bind]; [|split; [reflexivity|lia]].
  destruct (Nat.ltb_spec 0 n); cbn [ensureb assertb bind]; [|split; [reflexivity|lia]]. auto.
Qed.
Print Assumptions C98_make.

(** The setter of the selection size accepts exactly the sizes from one to less than the
    size of the population (others violate an assertion), and keeps admissible parameters
    admissible, changing nothing else. *)
Theorem C98_selection n size garbage m p k : it_make n size garbage = Ok m ->
  match it_set_selection m p k with
  | Ok p' => 1 <= k < size /\ ip_selection p' = k /\ ip_learning p' = ip_learning p /\ ip_init p' = ip_init p /\ ip_min p' = ip_min p /\ ip_max p' = ip_max p /\
      ip_weight p' = ip_weight p /\ ip_replacement p' = ip_replacement p /\ ip_allow p' = ip_allow p /\ (it_admissible size n p -> it_admissible size n p')
  | Throw _ => False
  | UB => k = 0 \/ size <= k
  end.
Proof.
  intros E. assert (S0 : 0 < size /\ 0 < n).
  { unfold it_make, pop_make, nh_make in E. destruct (Nat.ltb_spec 0 size); cbn [ensureb bind] in E; [|discriminate]. destruct (Nat.ltb_spec 0 n); cbn [ensureb assertb bind] in E; [auto|discriminate]. }
  destruct (it_make_Ok n size garbage (proj2 S0) (proj1 S0)) as (m' & E' & W). rewrite E' in E. apply Ok_inj in E. subst m'.
  assert (PS : pop_size (it_pop m) = size).
  { unfold it_make, pop_make, nh_make in E'. rewrite (proj2 (Nat.ltb_lt 0 size)) in E' by apply S0. cbn [ensureb bind] in E'. rewrite (proj2 (Nat.ltb_lt 0 n)) in E' by apply S0.
    cbn [ensureb assertb bind] in E'. apply Ok_inj in E'. subst m. unfold pop_size. cbn. now rewrite repeat_length. }
  unfold it_set_selection. rewrite PS. destruct (Nat.leb_spec 1 k); cbn [assertb bind]; [|lia]. destruct (Nat.ltb_spec k size); cbn [assertb bind]; [|lia].
  repeat split; auto; try lia; intros; unfold it_admissible in *; cbn in *; tauto.
Qed.
Print Assumptions C98_selection.

(** Parameters which are not admissible are accepted, but no iteration returns: a
    selection as large as the population, as with the default one and a single individual,
    reads the population out of bounds; crossed bounds of the rate, as with the default ones
    and a single bit, call std::clamp out of its domain; an unknown replacement is refused
    only after the evaluation of the population; a large initial weight violates an
    assertion when the run starts. *)
Theorem C98_misuse o n size p small d shs srt coin pick flip t s :
  fair_mutations n d -> (forall t, shuffles (shs t)) -> sorts srt -> fair_picks pick -> never_stops o -> it_valid o size n p s ->
  let r := it_iterate o n p small d shs srt coin pick flip t s in
  (ip_selection p = 0 \/ size <= ip_selection p -> fst r = Bad \/ fst r = Pending) /\
  (1 <= ip_selection p < size -> ip_replacement p <> OtherReplacement -> (ip_max p < ip_min p)%Q -> fst r = Bad \/ fst r = Pending) /\
  (1 <= ip_selection p < size -> ip_replacement p = OtherReplacement ->
     (fst r = Exc RuntimeError /\ exists L, length L = size /\ a_trace (snd r) = a_trace s ++ L) \/ fst r = Pending) /\
  (ip_replacement p = NoReplacement -> n < ip_weight p -> forall bit u, fst (it_init o p bit u s) = Bad).
Proof.
  intros HD HH HR HP NS V r. split; [|split; [|split]].
  - intros H. now apply (misuse_selection o n size p small d shs srt coin pick flip HD HH HR t s).
  - intros H1 H2 H3. now apply (misuse_bounds o n size p small d shs srt coin pick flip HD HH HR HP t s).
  - intros H1 H2. now apply (misuse_replacement o n size p small d shs srt coin pick flip HD HH HR t s).
  - intros H1 H2 bit u. apply (misuse_weight o n p); auto. apply V.
Qed.
Print Assumptions C98_misuse.

Definition example_it (r : replacement) : it_params := mk_it_params 2 (1 # 2) (1 # 4) (1 # 8) (3 # 4) 2 r true.
Definition example_it_run (r : replacement) (stop : nat) :=
  observe (it_make 4 4 7) 4 (it_init (example_objective stop) (example_it r) Nat.even (fun _ => 1 # 3)%Q)
    (it_iterate (example_objective stop) 4 (example_it r) (fun _ => true) (example_mutations 4) (fun _ => @rev nat) insertion_sort (fun _ => Nat.odd) (example_pick 1) Nat.odd) 3 9
    (fun m => (it_center m, Qred (it_rate m))).
Lemma example_it_admissible r : r <> OtherReplacement -> it_admissible 4 4 (example_it r).
Proof. intros H. unfold it_admissible, example_it. cbn. repeat split; try lia; try assumption. discriminate. Qed.

(** The hypotheses hold together, and runs of each kind return. *)
Example C97_case : it_admissible 4 4 (example_it MlUpdate) /\ fair_mutations 4 (example_mutations 4) /\ fair_picks (example_pick 1) /\
  (exists m s0 s, it_make 4 4 7 = Ok m /\ alg_make 4 m = Ok s0 /\
     reached (it_init (example_objective 99) (example_it MlUpdate) Nat.even (fun _ => 1 # 3)%Q)
       (it_iterate (example_objective 99) 4 (example_it MlUpdate) (fun _ => true) (example_mutations 4) (fun _ => @rev nat) insertion_sort (fun _ => Nat.odd) (example_pick 1) Nat.odd) s0 0 s) /\
  example_it_run Elitist 99 = Ok (Ret tt, 13, ([true; true; true; true], 4%Z), ([true; true; true; true], 4%Z, 1 # 8)%Q) /\
  example_it_run NonElitist 99 = Ok (Ret tt, 13, ([true; true; true; true], 4%Z), ([true; true; true; true], 4%Z, 1 # 8)%Q) /\
  example_it_run MlUpdate 99 = Ok (Ret tt, 16, ([true; true; true; true], 4%Z), ([true; true; true; true], 4%Z, 1 # 8)%Q) /\
  example_it_run IncrementalMlUpdate 99 = Ok (Ret tt, 13, ([true; false; true; true], 3%Z), ([true; false; true; false], 2%Z, 3 # 16)%Q).
Proof.
  split; [now apply example_it_admissible|]. split; [now apply example_fair|]. split; [apply example_picks|]. split.
  - eexists _, _, _. split; [vm_compute; reflexivity|]. split; [vm_compute; reflexivity|]. apply reached_start. vm_compute. reflexivity.
  - repeat split; vm_compute; reflexivity.
Qed.
(** Values 3, 2, 2, 1 and two places: the first individual is selected, the two next ones
    share a place. *)
Example C97_case_shares : let pool := [([true], 2%Z); ([false], 3%Z); ([false], 1%Z); ([true], 2%Z)] in
  map (fun v => Qred (share 2 pool v)) [1; 2; 3]%Z = [0; 1 # 2; 1]%Q /\ Qred (selected_total 2 pool (bit_at 0)) = 1%Q.
Proof. vm_compute. auto. Qed.
Example C97_case_component : sample_from_arg max_element (fun lo hi => hi) [1; 3; 2; 3]%Q = Ok 3 /\ sample_from_arg min_element (fun lo hi => lo) [1; 3; 2; 3]%Q = Ok 0.
Proof. vm_compute. auto. Qed.
Example C98_case : example_it_run NoReplacement 99 = Ok (Ret tt, 13, ([true; false; true; true], 3%Z), ([true; false; true; false], 2%Z, 3 # 16)%Q) /\
  example_it_run MlUpdate 5 = Ok (Exc LastEvaluation, 5, ([true; false; true; true], 3%Z), ([true; true; true; true], 2%Z, 1 # 4)%Q) /\
  example_it_run OtherReplacement 99 = Ok (Exc RuntimeError, 5, ([true; false; true; true], 3%Z), ([true; false; true; false], 2%Z, 1 # 4)%Q).
Proof. vm_compute. auto. Qed.
Example C98_case_selection : exists m p, it_make 4 4 7 = Ok m /\ it_set_selection m (it_default 4) 3 = Ok p /\ it_set_selection m (it_default 4) 4 = UB.
Proof. eexists _, _. split; [vm_compute; reflexivity|]. split; vm_compute; reflexivity. Qed.
Example C98_case_default :
  observe (it_make 4 1 7) 4 (it_init (example_objective 99) (it_default 4) Nat.even (fun _ => 1 # 3)%Q)
    (it_iterate (example_objective 99) 4 (it_default 4) (fun _ => true) (example_mutations 4) (fun _ => @rev nat) insertion_sort (fun _ => Nat.odd) (example_pick 1) Nat.odd) 3 9
    it_center = Ok (Bad, 2, ([true; false; true; false], 2%Z), ([true; false; true; false], 2%Z)).
Proof. vm_compute. reflexivity. Qed.
