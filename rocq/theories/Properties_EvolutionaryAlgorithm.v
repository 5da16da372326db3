(** Properties of the evolutionary algorithms: C67-C74. *)

From Coq Require Import QArith Lqa Permutation.
From Verif Require Import Base BaseLemmas BitVector_Model BitVector_Spec Representation_Spec Map_Spec
  Neighborhood_Model Neighborhood_Spec Algorithm_Model Algorithm_Spec Algorithm_Proofs
  Population_Model Population_Spec Population_Proofs PopAlgorithm_Model PopAlgorithm_Spec PopAlgorithm_Proofs
  ProbabilityVector_Model ProbabilityVector_Proofs EvolutionaryAlgorithm_Model EvolutionaryAlgorithm_Spec EvolutionaryAlgorithm_Proofs SelfAdjusting_Proofs
  LambdaLambda_Proofs Properties_Algorithm Properties_Population.
Local Open Scope nat_scope.

(** * New algorithms *)

Lemma pop_make_inv size n p : pop_make size n = Ok p -> well_formed size n p.
Proof.
  intros E. destruct (Nat.ltb_spec 0 size) as [S0|S0].
  - destruct (Nat.ltb_spec 0 n) as [N0|N0].
    + destruct (pop_make_wf size n S0 N0) as (q & E1 & W). rewrite E in E1. apply Ok_inj in E1. now subst.
    + unfold pop_make in E. rewrite (proj2 (Nat.ltb_lt 0 size) S0), (proj2 (Nat.ltb_ge 0 n) N0) in E. discriminate.
  - unfold pop_make in E. rewrite (proj2 (Nat.ltb_ge 0 size) S0) in E. discriminate.
Qed.

Lemma nh_make_inv kd n h : nh_make kd n = Ok h -> nh_reachable n h Settled /\ nh_class h = kd.
Proof.
  intros E. split; [exact (reach_make n kd h E)|]. unfold nh_make in E. destruct (0 <? n); [|discriminate]. cbn [assertb bind] in E.
  destruct kd; try (apply Ok_inj in E; now subst);
    (destruct (0 <? _); [|discriminate]; destruct (_ <=? _); [|discriminate]; cbn [assertb bind] in E; apply Ok_inj in E; now subst).
Qed.

Lemma alg_make_inv {X} n (m : X) s : alg_make n m = Ok s -> s = mk_alg [] (repeat false n, 0%Z) false m.
Proof. unfold alg_make. destruct (0 <? n); [|discriminate]. cbn [ensureb bind]. intros E. apply Ok_inj in E. congruence. Qed.

Ltac unbind E := match type of E with
  | context[bind ?x _] => let e := fresh "E" in destruct x eqn:e; cbn [bind] in E; try discriminate; try unbind E end.

Lemma mupl_start n mu lambda m s : mupl_make n mu lambda = Ok m -> alg_make n m = Ok s ->
  between mu lambda n (well_formed (mu + lambda) n) s /\ nh_class (ea_mut (a_mem s)) = StandardBitMutation false false /\
  a_trace s = [] /\ a_sol s = (repeat false n, 0%Z).
Proof.
  intros E1 E2. apply alg_make_inv in E2 as ->. unfold mupl_make in E1. unbind E1.
  apply Ok_inj in E1. subst. apply pop_make_inv in E, E0. destruct (nh_make_inv _ _ _ E3) as [R K].
  destruct (plus_make_Ok _ _ _ _ _ E E0) as (q & E' & W). rewrite E' in E2. apply Ok_inj in E2. subst.
  cbn [a_mem ea_mut a_trace a_sol]. split; [|auto]. unfold between. cbn [a_mem ea_parents ea_offs ea_mut ea_extra]. eauto 10.
Qed.

Lemma mucl_start n mu lambda m s : mucl_make n mu lambda = Ok m -> alg_make n m = Ok s ->
  between mu lambda n (fun _ => True) s /\ nh_class (ea_mut (a_mem s)) = StandardBitMutation false false /\
  a_trace s = [] /\ length (fst (a_sol s)) = n /\ mu <= lambda.
Proof.
  intros E1 E2. apply alg_make_inv in E2 as ->. unfold mucl_make in E1. unbind E1.
  apply Ok_inj in E1. subst. apply pop_make_inv in E, E0. destruct (nh_make_inv _ _ _ E3) as [R K].
  unfold comma_make, pop_size in E2. assert (length (p_bvs a) = mu) as L1 by apply E. assert (length (p_bvs a0) = lambda) as L2 by apply E0. rewrite L1, L2 in E2.
  destruct (Nat.leb_spec mu lambda); [|discriminate].
  cbn [a_mem ea_mut a_trace a_sol fst]. rewrite repeat_length. split; [|auto]. unfold between. cbn [a_mem ea_parents ea_offs ea_mut ea_extra]. eauto 10.
Qed.

Lemma ga_start n mu garbage m s : ga_make n mu garbage = Ok m -> alg_make n m = Ok s ->
  between mu mu n (fun t => Permutation (seq 0 mu) (t_perm t)) s /\ nh_class (ea_mut (a_mem s)) = StandardBitMutation false false /\
  a_trace s = [] /\ a_sol s = (repeat false n, 0%Z).
Proof.
  intros E1 E2. apply alg_make_inv in E2 as ->. unfold ga_make in E1. unbind E1.
  apply Ok_inj in E1. subst. apply pop_make_inv in E. destruct (nh_make_inv _ _ _ E3) as [R K].
  unfold tournament_make in E2. assert (length (p_bvs a) = mu) as L1 by apply E. rewrite L1 in E2. destruct (_ =? _); [|discriminate]. cbn [ensureb bind] in E2. apply Ok_inj in E2. subst.
  cbn [a_mem ea_mut a_trace a_sol fst]. split; [|auto]. unfold between. cbn [a_mem ea_parents ea_offs ea_mut ea_extra t_perm]. split; [assumption|]. split; [assumption|]. split; [assumption|].
  split; [eauto|]. apply Permutation_refl.
Qed.

Lemma trea_start n lambda garbage m s : trea_make n lambda garbage = Ok m -> alg_make n m = Ok s ->
  well_formed lambda n (tr_pop (a_mem s)) /\ nh_reachable n (tr_nh (a_mem s)) Settled /\ standard (tr_nh (a_mem s)) /\
  a_trace s = [] /\ length (fst (a_sol s)) = n.
Proof.
  intros E1 E2. apply alg_make_inv in E2 as ->. unfold trea_make in E1. unbind E1. apply Ok_inj in E1. subst.
  apply pop_make_inv in E. destruct (nh_make_inv _ _ _ E0) as [R K]. cbn [a_mem tr_pop tr_nh a_trace a_sol fst]. rewrite repeat_length. unfold standard. eauto 10.
Qed.

Lemma saea_start n garbage m s : saea_make n garbage = Ok m -> alg_make n m = Ok s ->
  nh_reachable n (sx_nh (a_mem s)) Settled /\ standard (sx_nh (a_mem s)) /\ a_trace s = [] /\ length (fst (a_sol s)) = n.
Proof.
  intros E1 E2. apply alg_make_inv in E2 as ->. unfold saea_make in E1. unbind E1. apply Ok_inj in E1. subst.
  destruct (nh_make_inv _ _ _ E) as [R K]. cbn [a_mem sx_nh a_trace a_sol fst]. rewrite repeat_length. unfold standard. eauto 10.
Qed.

Lemma llga_start n lambda m s : llga_make n lambda = Ok m -> alg_make n m = Ok s ->
  well_formed lambda n (ll_offs (a_mem s)) /\ nh_reachable n (ll_mut (a_mem s)) Settled /\ (exists r, nh_class (ll_mut (a_mem s)) = HammingSphere r) /\
  a_trace s = [] /\ length (fst (a_sol s)) = n.
Proof.
  intros E1 E2. apply alg_make_inv in E2 as ->. unfold llga_make in E1. unbind E1. apply Ok_inj in E1. subst.
  apply pop_make_inv in E. destruct (nh_make_inv _ _ _ E0) as [R K]. cbn [a_mem ll_offs ll_mut a_trace a_sol fst]. rewrite repeat_length. eauto 10.
Qed.

(** The kind of mutation after its parameters are set *)
Lemma set_class h small allow : nh_class h = StandardBitMutation false false ->
  nh_class (nh_set_allow_no_mutation (nh_set_mutation_rate h small) allow) = StandardBitMutation small allow.
Proof. intros H. unfold nh_set_allow_no_mutation, nh_set_mutation_rate. rewrite H. cbn. now destruct small. Qed.

(** ** C67: the (mu+lambda) EA.  Each iteration evaluates [lambda] mutants of parents;
    the next parents are [mu] best among parents and offsprings, in decreasing order
    of values; hence they are at any time [mu] best among all the individuals
    evaluated so far. *)
Theorem C67_generation o n mu lambda pick d shs psrt small allow bits sh srt m s0 i s :
  (forall t, fair_picks (pick t)) -> fair_mutations n d -> (forall t, shuffles (shs t)) -> partially_sorts psrt -> shuffles sh -> sorts srt ->
  mupl_make n mu lambda = Ok m -> alg_make n m = Ok s0 ->
  reached (mupl_init o small allow bits sh srt) (mupl_iterate o pick d shs psrt) s0 i s ->
  best_of mu (individuals (ea_parents (a_mem s))) (valued o (a_trace s)) /\
  match mupl_iterate o pick d shs psrt i s with
  | (Ret _, s') => generation (StandardBitMutation small allow) (drawn_parent (pick i)) (fun parents offs => parents ++ offs) o n mu lambda s s'
  | (Exc e, s') => o_stop o (length (a_trace s')) = Some e
  | (Bad, _) => False
  | (Pending, _) => True
  end.
Proof.
  intros PK DR SH PS HS HR E1 E2 RE. destruct (mupl_start _ _ _ _ _ E1 E2) as (BT & KD & T & SOL).
  assert (IT : forall i s, (top_of o (a_trace s) (a_sol s) /\ mupl_inv o n mu lambda s /\ nh_class (ea_mut (a_mem s)) = StandardBitMutation small allow) ->
    wp (mupl_iterate o pick d shs psrt i)
      (fun _ s' => (top_of o (a_trace s') (a_sol s') /\ mupl_inv o n mu lambda s' /\ nh_class (ea_mut (a_mem s')) = StandardBitMutation small allow) /\
         generation (StandardBitMutation small allow) (drawn_parent (pick i)) (fun a b => a ++ b) o n mu lambda s s')
      (fun e s' => match e with Some e => o_stop o (length (a_trace s')) = Some e | None => True end) s).
  { intros j s1 (H1 & H2 & H3). eapply wp_mono; [apply (mupl_iterate_wp o n mu lambda pick d shs psrt PK DR SH PS j s1 H2 H1)| |].
    - cbn beta. rewrite H3. tauto.
    - cbn beta. tauto. }
  assert (IN : top_of o (a_trace s) (a_sol s) /\ mupl_inv o n mu lambda s /\ nh_class (ea_mut (a_mem s)) = StandardBitMutation small allow).
  { refine (reached_inv (fun s => top_of o (a_trace s) (a_sol s) /\ mupl_inv o n mu lambda s /\ nh_class (ea_mut (a_mem s)) = StandardBitMutation small allow)
      _ _ (fun _ _ => True) (fun _ _ => True) s0 _ (fun j s1 H => _) i s RE).
    - eapply wp_mono; [now apply (mupl_init_wp o n mu lambda)| |auto]. cbn beta. intros _ s1 (H1 & H2 & H3). split; [exact H1|]. split; [exact H2|].
      cbn [put_last a_mem]. rewrite H3. now apply set_class.
    - eapply wp_mono; [apply (IT j s1 H)| |auto]. cbn beta. tauto. }
  split; [apply IN|]. specialize (IT i s IN). apply wp_result in IT. destruct (mupl_iterate _ _ _ _ _ _ _) as [[u|e| |] s']; tauto.
Qed.
Print Assumptions C67_generation.

(** A run which was not interrupted returns a best vector among all those evaluated;
    one interrupted by the function after the evaluation of the initial population
    returns a best vector among all those evaluated except the last incomplete
    generation. A run interrupted before the end of the evaluation of the initial
    population leaves the solution unset: a zero vector with the value zero. *)
Theorem C67_run o n mu lambda pick d shs psrt small allow bits sh srt num fuel m s0 :
  (forall t, fair_picks (pick t)) -> fair_mutations n d -> (forall t, shuffles (shs t)) -> partially_sorts psrt -> shuffles sh -> sorts srt ->
  mupl_make n mu lambda = Ok m -> alg_make n m = Ok s0 ->
  let '(r, s) := loop (mupl_init o small allow bits sh srt) (mupl_iterate o pick d shs psrt) num fuel s0 in
  too_early o n mu r s \/ run_top o lambda r s.
Proof.
  intros PK DR SH PS HS HR E1 E2. destruct (mupl_start _ _ _ _ _ E1 E2) as (BT & KD & T & SOL).
  pose proof (mupl_run o n mu lambda pick d shs psrt PK DR SH PS small allow bits sh srt num fuel s0 HS HR BT T SOL) as R.
  destruct (loop _ _ _ _ _) as [r s]. tauto.
Qed.
Print Assumptions C67_run.

(** The random numbers of the examples, for four or eight bits *)
Definition example_mutations (n t k : nat) : draws :=
  mk_draws (fun i => Z.of_nat ((t + k + 2 * i) mod 4) # 4)%Q [(t + k) mod n; (t + 2 * k + 1) mod n; 0; 1; 2; 3] 1 [k mod 2; 1; 2; 1]
    [false; (k <=? 1); (t =? 1); false; true; false; false; true].
Lemma example_fair n : 4 <= n -> fair_mutations n (example_mutations n).
Proof.
  intros N t k. split; [|split; [|split]].
  - intros i. cbn [example_mutations d_uniform]. pose proof (Nat.mod_upper_bound (t + k + 2 * i) 4 ltac:(lia)). unfold Qle, Qlt. cbn [Qnum Qden]. lia.
  - cbn [example_mutations d_index]. repeat constructor; try lia; apply Nat.mod_upper_bound; lia.
  - exact I.
  - cbn [example_mutations d_binomial]. pose proof (Nat.mod_upper_bound k 2 ltac:(lia)). repeat constructor; lia.
Qed.
Definition example_pick (t k lo hi : nat) : nat := lo + (t + k) mod (hi - lo + 1).
Lemma example_picks t : fair_picks (example_pick t).
Proof. intros k lo hi H. unfold example_pick. pose proof (Nat.mod_upper_bound (t + k) (hi - lo + 1) ltac:(lia)). lia. Qed.
Definition example_bits (i j : nat) : bool := (i + j) mod 3 =? 0.

(** What is seen of a run: its result, the number of evaluations and the solution *)
Definition observe {X B} (make : outcome X) (n : nat) (init : act (alg X) unit) (iterate : nat -> act (alg X) unit) (num : Z) (fuel : nat) (look : X -> B)
    : outcome (res unit * nat * (list bool * Z) * B) :=
  m <- make ;;
  s <- alg_make n m ;;
  let '(r, s') := loop init iterate num fuel s in
  Ok (r, length (a_trace s'), a_sol s', look (a_mem s')).

Example C67_case : fair_mutations 4 (example_mutations 4) /\ observe (mupl_make 4 2 3) 4 (mupl_init (example_objective 99) true false example_bits (@rev nat) insertion_sort)
    (mupl_iterate (example_objective 99) example_pick (example_mutations 4) (fun _ => @rev nat) (fun _ => insertion_sort)) 3 9 (fun m => p_values (ea_parents m)) =
  Ok (Ret tt, 11, ([true; false; true; true], 3%Z), [3; 3]%Z).
Proof. split; [now apply example_fair|]. vm_compute. reflexivity. Qed.
Example C67_case_early :
  observe (mupl_make 4 2 3) 4 (mupl_init (example_objective 1) true false example_bits (@rev nat) insertion_sort)
    (mupl_iterate (example_objective 1) example_pick (example_mutations 4) (fun _ => @rev nat) (fun _ => insertion_sort)) 3 9 (fun m => p_values (ea_parents m)) =
  Ok (Exc LastEvaluation, 1, ([false; false; false; false], 0%Z), [2; 0]%Z).
Proof. vm_compute. reflexivity. Qed.

(** ** C68: the (mu,lambda) EA.  Each iteration evaluates [lambda] mutants of parents,
    [mu] best of which, in decreasing order of values, become the parents; a run
    returns a best vector among all those evaluated, even if the population lost it,
    except those of the last incomplete generation. *)
Theorem C68_generation o n mu lambda pick d shs psrt small allow bits bit m s0 i s :
  (forall t, fair_picks (pick t)) -> fair_mutations n d -> (forall t, shuffles (shs t)) -> partially_sorts psrt ->
  mucl_make n mu lambda = Ok m -> alg_make n m = Ok s0 ->
  reached (mucl_init o small allow bits bit) (mucl_iterate o pick d shs psrt) s0 i s ->
  match mucl_iterate o pick d shs psrt i s with
  | (Ret _, s') => generation (StandardBitMutation small allow) (drawn_parent (pick i)) (fun _ offs => offs) o n mu lambda s s'
  | (Exc e, s') => o_stop o (length (a_trace s')) = Some e
  | (Bad, _) => False
  | (Pending, _) => True
  end.
Proof.
  intros PK DR SH PS E1 E2 RE. destruct (mucl_start _ _ _ _ _ E1 E2) as (BT & KD & T & SOL & LE).
  assert (IT : forall i s, (top_of o (a_trace s) (a_sol s) /\ between mu lambda n (fun _ => True) s /\ nh_class (ea_mut (a_mem s)) = StandardBitMutation small allow) ->
    wp (mucl_iterate o pick d shs psrt i)
      (fun _ s' => (top_of o (a_trace s') (a_sol s') /\ between mu lambda n (fun _ => True) s' /\ nh_class (ea_mut (a_mem s')) = StandardBitMutation small allow) /\
         generation (StandardBitMutation small allow) (drawn_parent (pick i)) (fun _ b => b) o n mu lambda s s')
      (fun e s' => match e with Some e => o_stop o (length (a_trace s')) = Some e | None => True end) s).
  { intros j s1 (H1 & H2 & H3). eapply wp_mono; [apply (mucl_iterate_wp o n mu lambda pick d shs psrt PK DR SH PS LE j s1 H2 H1)| |].
    - cbn beta. rewrite H3. tauto.
    - cbn beta. tauto. }
  assert (IN : top_of o (a_trace s) (a_sol s) /\ between mu lambda n (fun _ => True) s /\ nh_class (ea_mut (a_mem s)) = StandardBitMutation small allow).
  { refine (reached_inv (fun s => top_of o (a_trace s) (a_sol s) /\ between mu lambda n (fun _ => True) s /\ nh_class (ea_mut (a_mem s)) = StandardBitMutation small allow)
      _ _ (fun _ _ => True) (fun _ _ => True) s0 _ (fun j s1 H => _) i s RE).
    - eapply wp_mono; [now apply (mucl_init_wp o n mu lambda)| |auto]. cbn beta. intros _ s1 (H1 & H2 & H3). split; [exact H1|]. split; [exact H2|].
      cbn [put_last a_mem]. rewrite H3. now apply set_class.
    - eapply wp_mono; [apply (IT j s1 H)| |auto]. cbn beta. tauto. }
  specialize (IT i s IN). apply wp_result in IT. destruct (mucl_iterate _ _ _ _ _ _ _) as [[u|e| |] s']; tauto.
Qed.
Print Assumptions C68_generation.

Theorem C68_run o n mu lambda pick d shs psrt small allow bits bit num fuel m s0 :
  (forall t, fair_picks (pick t)) -> fair_mutations n d -> (forall t, shuffles (shs t)) -> partially_sorts psrt ->
  mucl_make n mu lambda = Ok m -> alg_make n m = Ok s0 ->
  let '(r, s) := loop (mucl_init o small allow bits bit) (mucl_iterate o pick d shs psrt) num fuel s0 in
  run_top o lambda r s.
Proof.
  intros PK DR SH PS E1 E2. destruct (mucl_start _ _ _ _ _ E1 E2) as (BT & KD & T & SOL & LE).
  exact (mucl_run o n mu lambda pick d shs psrt PK DR SH PS LE small allow bits bit num fuel s0 BT T SOL).
Qed.
Print Assumptions C68_run.

(** More parents than offsprings are refused by the constructor. *)
Theorem C68_sizes n mu lambda : 0 < n -> 0 < mu -> 0 < lambda ->
  if mu <=? lambda then exists m, mucl_make n mu lambda = Ok m else mucl_make n mu lambda = Throw RuntimeError.
Proof.
  intros N M L. unfold mucl_make, comma_make, pop_size. destruct (pop_make_wf mu n M N) as (p & -> & W). destruct (pop_make_wf lambda n L N) as (q & -> & W').
  cbn [bind]. assert (length (p_bvs p) = mu) as -> by apply W. assert (length (p_bvs q) = lambda) as -> by apply W'.
  destruct (mu <=? lambda); [|reflexivity]. cbn [ensureb bind]. unfold nh_make. rewrite (proj2 (Nat.ltb_lt 0 n) N). cbn. eauto.
Qed.
Print Assumptions C68_sizes.

Example C68_case :
  observe (mucl_make 4 2 3) 4 (mucl_init (example_objective 99) false true example_bits Nat.even)
    (mucl_iterate (example_objective 99) example_pick (example_mutations 4) (fun _ => @rev nat) (fun _ => insertion_sort)) 3 9 (fun m => p_values (ea_parents m)) =
  Ok (Ret tt, 10, ([true; true; true; true], 4%Z), [4; 1]%Z).
Proof. vm_compute. reflexivity. Qed.

(** ** C69: the genetic algorithm.  Each iteration evaluates [mu] mutants of parents or
    of mixes of two parents, which become the parents, in decreasing order of values. *)
Theorem C69_generation o n mu cross coin sh1 sh2 d shs psrt tsize small allow bits sh0 sh srt garbage m s0 i s :
  (forall t k, shuffles (sh1 t k)) -> (forall t k, shuffles (sh2 t k)) -> fair_mutations n d -> (forall t, shuffles (shs t)) -> partially_sorts psrt ->
  shuffles sh0 -> shuffles sh -> sorts srt -> 2 <= tsize < mu ->
  ga_make n mu garbage = Ok m -> alg_make n m = Ok s0 ->
  reached (ga_init o tsize small allow bits sh0 sh srt) (ga_iterate o cross coin sh1 sh2 d shs psrt) s0 i s ->
  match ga_iterate o cross coin sh1 sh2 d shs psrt i s with
  | (Ret _, s') => generation (StandardBitMutation small allow) (mixed_source n (cross i)) (fun _ offs => offs) o n mu mu s s'
  | (Exc e, s') => o_stop o (length (a_trace s')) = Some e
  | (Bad, _) => False
  | (Pending, _) => True
  end.
Proof.
  intros HS1 HS2 DR SH PS HS0 HS HR TS E1 E2 RE. destruct (ga_start _ _ _ _ _ E1 E2) as (BT & KD & T & SOL).
  assert (IT : forall i s, (top_of o (a_trace s) (a_sol s) /\ between mu mu n (in_round mu) s /\ nh_class (ea_mut (a_mem s)) = StandardBitMutation small allow) ->
    wp (ga_iterate o cross coin sh1 sh2 d shs psrt i)
      (fun _ s' => (top_of o (a_trace s') (a_sol s') /\ between mu mu n (in_round mu) s' /\ nh_class (ea_mut (a_mem s')) = StandardBitMutation small allow) /\
         generation (StandardBitMutation small allow) (mixed_source n (cross i)) (fun _ b => b) o n mu mu s s')
      (fun e s' => match e with Some e => o_stop o (length (a_trace s')) = Some e | None => True end) s).
  { intros j s1 (H1 & H2 & H3). eapply wp_mono; [apply (ga_iterate_wp o n mu cross coin sh1 sh2 d shs psrt HS1 HS2 DR SH PS j s1 H2 H1)| |].
    - cbn beta. rewrite H3. tauto.
    - cbn beta. tauto. }
  assert (IN : top_of o (a_trace s) (a_sol s) /\ between mu mu n (in_round mu) s /\ nh_class (ea_mut (a_mem s)) = StandardBitMutation small allow).
  { refine (reached_inv (fun s => top_of o (a_trace s) (a_sol s) /\ between mu mu n (in_round mu) s /\ nh_class (ea_mut (a_mem s)) = StandardBitMutation small allow)
      _ _ (fun _ _ => True) (fun _ _ => True) s0 _ (fun j s1 H => _) i s RE).
    - eapply wp_mono; [now apply (ga_init_wp o n mu)| |auto]. cbn beta. intros _ s1 (H1 & H2 & H3). split; [exact H1|]. split; [exact H2|].
      cbn [put_last a_mem]. rewrite H3. now apply set_class.
    - eapply wp_mono; [apply (IT j s1 H)| |auto]. cbn beta. tauto. }
  specialize (IT i s IN). apply wp_result in IT. destruct (ga_iterate _ _ _ _ _ _ _ _ _ _) as [[u|e| |] s']; tauto.
Qed.
Print Assumptions C69_generation.

(** Its solution is as that of the (mu+lambda) EA. The tournament size, which the
    run sets, must be at least two and less than [mu]: if it is not, and its default
    value 10 is not for 10 individuals or less, the run throws, without any evaluation. *)
Theorem C69_run o n mu cross coin sh1 sh2 d shs psrt tsize small allow bits sh0 sh srt garbage num fuel m s0 :
  (forall t k, shuffles (sh1 t k)) -> (forall t k, shuffles (sh2 t k)) -> fair_mutations n d -> (forall t, shuffles (shs t)) -> partially_sorts psrt ->
  shuffles sh0 -> shuffles sh -> sorts srt ->
  ga_make n mu garbage = Ok m -> alg_make n m = Ok s0 ->
  let '(r, s) := loop (ga_init o tsize small allow bits sh0 sh srt) (ga_iterate o cross coin sh1 sh2 d shs psrt) num fuel s0 in
  if (2 <=? tsize) && (tsize <? mu) then too_early o n mu r s \/ run_top o mu r s
  else r = Exc RuntimeError /\ s = s0.
Proof.
  intros HS1 HS2 DR SH PS HS0 HS HR E1 E2. destruct (ga_start _ _ _ _ _ E1 E2) as (BT & KD & T & SOL).
  destruct ((2 <=? tsize) && (tsize <? mu)) eqn:TS.
  - apply andb_prop in TS as [TS1 TS2]. apply Nat.leb_le in TS1. apply Nat.ltb_lt in TS2.
    exact (ga_run o n mu cross coin sh1 sh2 d shs psrt HS1 HS2 DR SH PS tsize small allow bits sh0 sh srt num fuel s0 HS0 HS HR BT T SOL (conj TS1 TS2)).
  - rewrite (ga_refused o n mu cross coin sh1 sh2 d shs psrt tsize small allow bits sh0 sh srt num fuel s0); [auto|apply BT|].
    apply andb_false_iff in TS as [TS|TS]; [apply Nat.leb_gt in TS|apply Nat.ltb_ge in TS]; lia.
Qed.
Print Assumptions C69_run.

Example C69_case :
  observe (ga_make 4 4 (7, 8)) 4 (ga_init (example_objective 99) 2 false true example_bits (@rev nat) (@rev nat) insertion_sort)
    (ga_iterate (example_objective 99) (fun t k => k <=? 1) (fun t k i => Nat.even (t + k + i)) (fun _ _ => @rev nat) (fun _ _ => @rev nat)
       (example_mutations 4) (fun _ => @rev nat) (fun _ => insertion_sort)) 3 9 (fun m => p_values (ea_parents m)) =
  Ok (Ret tt, 16, ([true; true; true; true], 4%Z), [4; 3; 1; 1]%Z).
Proof. vm_compute. reflexivity. Qed.
Example C69_case_refused :
  observe (ga_make 4 4 (7, 8)) 4 (ga_init (example_objective 99) 10 false true example_bits (@rev nat) (@rev nat) insertion_sort)
    (ga_iterate (example_objective 99) (fun t k => k <=? 1) (fun t k i => Nat.even (t + k + i)) (fun _ _ => @rev nat) (fun _ _ => @rev nat)
       (example_mutations 4) (fun _ => @rev nat) (fun _ => insertion_sort)) 3 9 (fun m => p_values (ea_parents m)) =
  Ok (Exc RuntimeError, 0, ([false; false; false; false], 0%Z), [0; 0; 0; 0]%Z).
Proof. vm_compute. reflexivity. Qed.

(** ** C70: the self-adjusting (1+1) EA.  An iteration evaluates one mutant of the
    current vector. If the mutant is not worse, it becomes the current vector and the
    rate is multiplied by a coefficient, up to its maximum; otherwise the rate is
    divided by the update strength, down to its minimum. *)
Theorem C70_step o n p small d bit garbage m s0 i s :
  (forall t, in_bounds (StandardBitMutation false false) n (d t)) -> (sp_incremental p && o_provides o = true -> right_increments n o) ->
  saea_make n garbage = Ok m -> alg_make n m = Ok s0 ->
  reached (saea_init o p small bit) (saea_iterate o p small d) s0 i s ->
  match saea_iterate o p small d i s with
  | (Ret _, s') => exists y,
      mutant (StandardBitMutation true (sp_allow p)) n (fst (a_sol (saea_finalize s))) y /\ a_trace s' = a_trace s ++ [y] /\
      let rate := sx_rate (a_mem s) in
      if (snd (a_sol s) <=? o_value o y)%Z
      then a_sol (saea_finalize s') = (y, o_value o y) /\
        sx_rate (a_mem s') = (if Qlt_le_dec (sp_max p) (rate * sp_coefficient p) then sp_max p else rate * sp_coefficient p)%Q
      else a_sol (saea_finalize s') = a_sol (saea_finalize s) /\
        sx_rate (a_mem s') = (if Qlt_le_dec (rate / sp_strength p) (sp_min p) then sp_min p else rate / sp_strength p)%Q
  | (Exc e, s') => o_stop o (length (a_trace s')) = Some e
  | (Bad, _) => False
  | (Pending, _) => True
  end.
Proof.
  intros DR RI E1 E2 RE. destruct (saea_start _ _ _ _ E1 E2) as (R & ST & T & L).
  assert (IN : saea_at o n p Settled s).
  { refine (reached_inv (saea_at o n p Settled) _ _ (fun _ _ => True) (fun _ _ => True) s0 _ (fun j s1 H => _) i s RE).
    - eapply wp_mono; [now apply (saea_init_wp o n p small)| |auto]. cbn beta. tauto.
    - eapply wp_mono; [apply (saea_iterate_wp o n p small d DR RI j s1 H)| |auto]. cbn beta. tauto. }
  pose proof (saea_iterate_wp o n p small d DR RI i s IN) as W. apply wp_result in W. destruct (saea_iterate _ _ _ _ _ _) as [[u|e| |] s']; try tauto.
  destruct W as (AT & _ & y & Y1 & Y2 & Y3). exists y. destruct IN as (_ & (rej & KD) & TO). rewrite KD in Y1. apply weaker_mutant in Y1.
  split; [exact Y1|]. split; [exact Y2|]. cbv zeta. destruct AT as (_ & _ & (AT1 & AT2 & AT3)). cbn [fst snd] in AT2. destruct TO as (_ & TO & _). cbn [fst snd] in TO.
  destruct (snd (a_sol s) <=? o_value o y)%Z; destruct Y3 as (Y3 & Y4); rewrite Y4; cbn [saea_finalize put_sol a_sol]; rewrite AT2, Y3.
  - rewrite qmin_spec. auto.
  - rewrite qmax_spec, <- TO. auto.
Qed.
Print Assumptions C70_step.

(** After finalize the solution is a best vector among all those evaluated, and the
    rate lies between its bounds if it does at the beginning. *)
Theorem C70_run o n p small d bit garbage num fuel m s0 :
  (forall t, in_bounds (StandardBitMutation false false) n (d t)) -> (sp_incremental p && o_provides o = true -> right_increments n o) ->
  (0 <= sp_min p)%Q -> (1 <= sp_coefficient p)%Q -> (1 <= sp_strength p)%Q -> (sp_min p <= sp_init p <= sp_max p)%Q ->
  saea_make n garbage = Ok m -> alg_make n m = Ok s0 ->
  let '(r, s) := loop (saea_init o p small bit) (saea_iterate o p small d) num fuel s0 in
  run_top o 1 r (saea_finalize s) /\ (sp_min p <= sx_rate (a_mem s) <= sp_max p)%Q.
Proof.
  intros DR RI H1 H2 H3 H4 E1 E2. destruct (saea_start _ _ _ _ E1 E2) as (R & ST & T & L).
  pose proof (saea_run o n p small d DR RI (rate_within p) H4 (fun q => rate_up p q H1 H2) (fun q => rate_down p q H1 H3) bit num fuel s0 R ST T L) as G.
  destruct (loop _ _ _ _ _) as [r s]. destruct G as (G1 & G2 & _). split; [exact G1|exact G2].
Qed.
Print Assumptions C70_run.

Definition example_saea : saea_parameters := mk_saea_parameters (1 # 4) (1 # 16) (1 # 2) 2 (3 # 2) false true.
Example C70_case : right_increments 4 (example_objective 99) /\
  observe (saea_make 4 7) 4 (saea_init (example_objective 99) example_saea (fun _ => true) Nat.even)
    (saea_iterate (example_objective 99) example_saea (fun _ => true) (fun t => example_mutations 4 t 0)) 3 9
    (fun m => (nh_origin (sx_nh m), Qred (sx_rate m))) = Ok (Ret tt, 4, ([true; false; true; false], 3%Z), ([true; true; true; false], (3 # 32)%Q)).
Proof. split; [apply example_right|]. vm_compute. reflexivity. Qed.

(** ** C71: the (1+1) EA.  After finalize the solution is a best vector among all those
    evaluated; before, it is the zero vector, with the value zero, whatever happened. *)
Theorem C71_run o n garbage small allow incremental bit d num fuel p :
  op_make n garbage = Ok p -> (incremental && o_provides o = true -> right_increments n o) ->
  (forall t, in_bounds (StandardBitMutation false false) n (d t)) ->
  let '(r, p') := op_maximize o small allow incremental bit d num fuel p in
  op_sol p' = (repeat false n, 0%Z) /\
  (a_trace (op_rls p') <> [] -> top_of o (a_trace (op_rls p')) (op_sol (op_finalize p'))) /\
  match r with
  | Ret _ => a_trace (op_rls p') <> [] /\ (0 < num)%Z
  | Exc e => thrown_by o e
  | Bad => False
  | Pending => True
  end.
Proof. exact (opoea_run o n garbage small allow incremental bit d num fuel p). Qed.
Print Assumptions C71_run.

Example C71_case : exists p p', op_make 4 7 = Ok p /\
  op_maximize (example_objective 99) false true true Nat.even (fun t => example_mutations 4 t 0) 3 9 p = (Ret tt, p') /\
  op_sol p' = ([false; false; false; false], 0%Z) /\ op_sol (op_finalize p') = ([true; true; true; false], 3%Z) /\ length (a_trace (op_rls p')) = 4.
Proof. eexists _, _. split; [reflexivity|]. split; [vm_compute; reflexivity|]. vm_compute. auto. Qed.

(** ** C72: the two-rate (1+lambda) EA, with at least 8 bits and an initial rate in
    [2/n, 1/4], for instance the default one, 2/n.  An iteration evaluates [lambda]
    mutants of the solution. Then, with probability 1/4 each, the rate is halved or
    doubled; otherwise it is halved or doubled according to the half of the
    offsprings where a best one is; in all cases it is kept in [2/n, 1/4]. *)
Theorem C72_step o n lambda allow init small d sh srt u bit garbage m s0 i s :
  8 <= n -> fair_mutations n d -> (forall t, shuffles (sh t)) -> sorts srt -> (2 / inject_Z (Z.of_nat n) <= init <= 1 # 4)%Q ->
  trea_make n lambda garbage = Ok m -> alg_make n m = Ok s0 ->
  reached (trea_init o init allow bit) (trea_iterate o n small d sh srt u) s0 i s ->
  top_of o (a_trace s) (a_sol s) /\
  match trea_iterate o n small d sh srt u i s with
  | (Ret _, s') => two_rate_step o n lambda allow (u i) s s'
  | (Exc e, s') => o_stop o (length (a_trace s')) = Some e
  | (Bad, _) => False
  | (Pending, _) => True
  end.
Proof.
  intros N DR SH SR HI E1 E2 RE. destruct (trea_start _ _ _ _ _ E1 E2) as (W & R & ST & T & L).
  assert (IN : trea_inv n lambda allow s /\ top_of o (a_trace s) (a_sol s)).
  { refine (reached_inv (fun s => trea_inv n lambda allow s /\ top_of o (a_trace s) (a_sol s)) _ _ (fun _ _ => True) (fun _ _ => True) s0 _ (fun j s1 H => _) i s RE).
    - eapply wp_mono; [now apply (trea_init_wp o n lambda allow init)| |auto]. cbn beta. tauto.
    - eapply wp_mono; [apply (trea_iterate_wp o n lambda allow small d sh srt u DR SH SR j s1 (proj1 H) (proj2 H) (or_introl N))| |auto]. cbn beta. tauto. }
  split; [apply IN|].
  pose proof (trea_iterate_wp o n lambda allow small d sh srt u DR SH SR i s (proj1 IN) (proj2 IN) (or_introl N)) as G. apply wp_result in G.
  destruct (trea_iterate _ _ _ _ _ _ _ _ _) as [[x|e| |] s']; tauto.
Qed.
Print Assumptions C72_step.

Theorem C72_run o n lambda allow init small d sh srt u bit garbage num fuel m s0 :
  8 <= n -> fair_mutations n d -> (forall t, shuffles (sh t)) -> sorts srt -> (2 / inject_Z (Z.of_nat n) <= init <= 1 # 4)%Q ->
  trea_make n lambda garbage = Ok m -> alg_make n m = Ok s0 ->
  let '(r, s) := loop (trea_init o init allow bit) (trea_iterate o n small d sh srt u) num fuel s0 in
  run_top o lambda r s /\ (a_trace s = [] \/ (2 / inject_Z (Z.of_nat n) <= tr_rate (a_mem s) <= 1 # 4)%Q).
Proof.
  intros N DR SH SR HI E1 E2. destruct (trea_start _ _ _ _ _ E1 E2) as (W & R & ST & T & L).
  exact (trea_run o n lambda allow init small d sh srt u bit num fuel s0 N DR SH SR HI W R ST T L).
Qed.
Print Assumptions C72_run.

(** With less than 8 bits the lower bound of the rate is greater than the upper one:
    no iteration which clamps the rate returns, it calls std::clamp out of its domain. *)
Theorem C72_few_bits o n small d sh srt u i s : 0 < n < 8 -> (1 # 2 <= u i)%Q ->
  forall x s', trea_iterate o n small d sh srt u i s <> (Ret x, s').
Proof. intros N U x s' E. pose proof (trea_few_bits o n small d sh srt u i s N U) as H. unfold if_returns in H. now rewrite E in H. Qed.
Print Assumptions C72_few_bits.

Example C72_case : fair_mutations 8 (example_mutations 8) /\ (2 / inject_Z (Z.of_nat 8) <= 1 # 4 <= 1 # 4)%Q /\
  observe (trea_make 16 4 7) 16 (trea_init (example_objective 99) (1 # 8) true Nat.even)
    (trea_iterate (example_objective 99) 16 (fun _ => true) (example_mutations 16) (fun _ => @rev nat) insertion_sort (fun t => Z.of_nat (t mod 4) # 4)%Q) 3 9
    (fun m => Qred (tr_rate m)) = Ok (Ret tt, 13, ([true; false; true; true; true; true; true; false; true; false; true; false; true; false; true; false], 10%Z), (1 # 4)%Q).
Proof. split; [apply example_fair; lia|]. split; [split; discriminate|]. vm_compute. reflexivity. Qed.
Example C72_case_few :
  observe (trea_make 4 4 7) 4 (trea_init (example_objective 99) (1 # 2) true Nat.even)
    (trea_iterate (example_objective 99) 4 (fun _ => true) (example_mutations 4) (fun _ => @rev nat) insertion_sort (fun t => 3 # 4)%Q) 3 9
    (fun m => Qred (tr_rate m)) = Ok (Bad, 5, ([true; false; true; true], 3%Z), (1 # 2)%Q).
Proof. vm_compute. reflexivity. Qed.

(** ** C73: the (1+(lambda,lambda)) GA.  An iteration evaluates [lambda] mutants of the
    solution, at the same distance of it, then [lambda] mixes of the solution and of a
    best mutant; the solution is replaced by a best mix, if it is not worse, and is
    never replaced by a mutant.  But if all the mutants have the same value, or all
    the mixes, when they are not worse than the solution, the iteration reads its
    population out of bounds. *)
Theorem C73_step o n lambda radius d coin sh1 sh2 srt pick1 pick2 bias bit m s0 i s :
  (forall t, radius t <= n) -> fair_mutations n d -> (forall t, shuffles (sh1 t)) -> (forall t, shuffles (sh2 t)) -> sorts srt ->
  fair_picks pick1 -> fair_picks pick2 -> (0 < bias < 1)%Q ->
  llga_make n lambda = Ok m -> alg_make n m = Ok s0 ->
  reached (llga_init o bias bit) (llga_iterate o radius d coin sh1 sh2 srt pick1 pick2) s0 i s ->
  match llga_iterate o radius d coin sh1 sh2 srt pick1 pick2 i s with
  | (Ret _, s') => llga_step o n lambda (radius i) s s'
  | (Exc e, s') => a_sol s' = a_sol s /\ o_stop o (length (a_trace s')) = Some e
  | (Bad, s') => a_sol s' = a_sol s /\ all_equal o lambda (a_trace s')
  | (Pending, s') => a_sol s' = a_sol s
  end.
Proof.
  intros RD DR H1 H2 SR P1 P2 BI E1 E2 RE. destruct (llga_start _ _ _ _ E1 E2) as (W & R & HR & T & L).
  assert (IT : forall j s1, ll_inv n lambda s1 -> oc (llga_iterate o radius d coin sh1 sh2 srt pick1 pick2 j)
      (fun _ s' => ll_inv n lambda s' /\ llga_step o n lambda (radius j) s1 s')
      (fun e s' => a_sol s' = a_sol s1 /\ match e with Some e => o_stop o (length (a_trace s')) = Some e | None => True end)
      (fun s' => a_sol s' = a_sol s1 /\ all_equal o lambda (a_trace s')) s1).
  { intros j s1 J. eapply oc_mono; [apply (llga_iterate_oc o n lambda radius d coin sh1 sh2 srt pick1 pick2 RD DR H1 H2 SR P1 P2 j s1 J)| | |]; cbn beta; tauto. }
  assert (IN : ll_inv n lambda s).
  { clear - RE IT W R HR T L BI. induction RE as [s1 H|i s1 s2 RE IH H].
    - unfold llga_init, abind, lift, set_bias in H. assert (qltb 0 bias = true) as A by (apply qltb_lt; tauto). assert (qltb bias 1 = true) as B by (apply qltb_lt; tauto).
      rewrite A, B in H. change (random_solution o bit s0 = (Ret tt, s1)) in H. pose proof (random_solution_wp o n bit s0 T L) as G. unfold wp in G. rewrite H in G. destruct G as (_ & G2 & _ & G4).
      unfold ll_inv. cbn [put_last a_mem a_sol]. rewrite G4. auto.
    - specialize (IT i s1 IH). unfold oc in IT. rewrite H in IT. apply IT. }
  specialize (IT i s IN). unfold oc in IT. destruct (llga_iterate _ _ _ _ _ _ _ _ _ _ _) as [[x|e| |] s']; tauto.
Qed.
Print Assumptions C73_step.

(** The solution was evaluated and is not worse than the first vector evaluated; only
    offsprings with equal values can lead the run out of its domain. *)
Theorem C73_run o n lambda radius d coin sh1 sh2 srt pick1 pick2 bias bit num fuel m s0 :
  (forall t, radius t <= n) -> fair_mutations n d -> (forall t, shuffles (sh1 t)) -> (forall t, shuffles (sh2 t)) -> sorts srt ->
  fair_picks pick1 -> fair_picks pick2 -> (0 < bias < 1)%Q ->
  llga_make n lambda = Ok m -> alg_make n m = Ok s0 ->
  let '(r, s) := loop (llga_init o bias bit) (llga_iterate o radius d coin sh1 sh2 srt pick1 pick2) num fuel s0 in
  (a_trace s = [] \/
   (In (fst (a_sol s)) (a_trace s) /\ snd (a_sol s) = o_value o (fst (a_sol s)) /\ (o_value o (hd [] (a_trace s)) <= snd (a_sol s))%Z)) /\
  match r with
  | Ret _ => a_trace s <> []
  | Exc e => o_stop o (length (a_trace s)) = Some e
  | Bad => all_equal o lambda (a_trace s)
  | Pending => True
  end.
Proof.
  intros RD DR H1 H2 SR P1 P2 BI E1 E2. destruct (llga_start _ _ _ _ E1 E2) as (W & R & HR & T & L).
  exact (llga_run o n lambda radius d coin sh1 sh2 srt pick1 pick2 bias bit num fuel s0 RD DR H1 H2 SR P1 P2 BI W R HR T L).
Qed.
Print Assumptions C73_run.

(** With [lambda] = 1 the default bias, 1/lambda, violates an assertion, and any other
    bias leads the first complete iteration out of its domain. *)
Theorem C73_one_offspring o radius d coin sh1 sh2 srt pick1 pick2 bit num fuel n m s0 :
  llga_make n 1 = Ok m -> alg_make n m = Ok s0 ->
  loop (llga_init o (1 / inject_Z (Z.of_nat 1)) bit) (llga_iterate o radius d coin sh1 sh2 srt pick1 pick2) num fuel s0 = (Bad, s0) /\
  forall bias i s x s', (forall t, radius t <= n) -> fair_mutations n d -> (forall t, shuffles (sh1 t)) -> (forall t, shuffles (sh2 t)) -> sorts srt ->
    fair_picks pick1 -> fair_picks pick2 -> (0 < bias < 1)%Q ->
    reached (llga_init o bias bit) (llga_iterate o radius d coin sh1 sh2 srt pick1 pick2) s0 i s ->
    llga_iterate o radius d coin sh1 sh2 srt pick1 pick2 i s <> (Ret x, s').
Proof.
  intros E1 E2. split; [reflexivity|]. intros bias i s x s' RD DR H1 H2 SR P1 P2 BI RE E.
  pose proof (C73_step o n 1 radius d coin sh1 sh2 srt pick1 pick2 bias bit m s0 i s RD DR H1 H2 SR P1 P2 BI E1 E2 RE) as G. rewrite E in G.
  destruct G as (M & p & C & LM & _ & I & _ & (y & Y1 & Y2) & _). destruct M as [|a [|b M]]; try discriminate.
  destruct I as [<-|[]], Y1 as [<-|[]]. lia.
Qed.
Print Assumptions C73_one_offspring.

Example C73_case : fair_picks (example_pick 0) /\
  observe (llga_make 4 3) 4 (llga_init (example_objective 99) (1 # 3) Nat.even)
    (llga_iterate (example_objective 99) (fun t => 1 + t mod 2) (example_mutations 4) (fun t k i => i <=? k) (fun _ => @rev nat) (fun _ => @rev nat) insertion_sort
       (example_pick 0) (example_pick 1)) 2 9 (fun m => p_values (ll_offs m)) = Ok (Ret tt, 13, ([true; true; true; false], 3%Z), [3; 2; 2]%Z).
Proof. split; [apply example_picks|]. vm_compute. reflexivity. Qed.

(** A mutant better than the solution, and than any vector evaluated, may be lost. *)
Example C73_case_lost :
  observe (llga_make 4 3) 4 (llga_init (example_objective 99) (1 # 3) Nat.even)
    (llga_iterate (example_objective 99) (fun t => 2) (example_mutations 4) (fun t k i => i =? 2 * k + 1) (fun _ => @rev nat) (fun _ => @rev nat) insertion_sort
       (example_pick 0) (example_pick 1)) 1 9 (fun m => (ll_parent m, p_values (ll_offs m))) =
  Ok (Ret tt, 7, ([true; false; true; true], 3%Z), ([true; true; true; true], [3; 3; 2]%Z)).
Proof. vm_compute. reflexivity. Qed.
Example C73_case_equal :
  observe (llga_make 4 3) 4 (llga_init (example_objective 99) (1 # 3) Nat.even)
    (llga_iterate (example_objective 99) (fun t => 1) (example_mutations 4) (fun t k i => false) (fun _ => @rev nat) (fun _ => @rev nat) insertion_sort
       (example_pick 0) (example_pick 1)) 1 9 (fun m => (ll_parent m, p_values (ll_offs m))) =
  Ok (Bad, 7, ([true; false; true; false], 2%Z), ([true; true; true; false], [2; 2; 2]%Z)).
Proof. vm_compute. reflexivity. Qed.

(** ** C74: crossovers.  Each bit of the offspring is that of one of the parents, chosen
    by the coins; hence the offspring lies between its parents: the distances to them
    add up to the distance between them. *)
Lemma mix_distances n x y z : mixes n x y z -> length (diffs n x z) + length (diffs n z y) = length (diffs n x y).
Proof.
  intros [_ H]. unfold diffs. assert (G : Forall (fun i => nth i z false = nth i x false \/ nth i z false = nth i y false) (seq 0 n)).
  { apply Forall_forall. intros i Hi. apply in_seq in Hi. apply H. lia. }
  clear H. induction G as [|i l H G IH]; [reflexivity|]. cbn [filter].
  destruct H as [-> | ->]; rewrite xorb_nilpotent; [destruct (xorb (nth i x false) (nth i y false)) | destruct (xorb (nth i x false) (nth i y false))]; cbn [length]; lia.
Qed.

Theorem C74_crossovers coin n x y z : length x = n -> length y = n -> length z = n ->
  (exists z', uniform_crossover coin x y z = Ok z' /\ length z' = n /\ (forall i, i < n -> nth i z' false = nth i (if coin i then x else y) false) /\
     length (diffs n x z') + length (diffs n z' y) = length (diffs n x y)) /\
  (exists z', biased_crossover coin x y z = Ok z' /\ length z' = n /\ (forall i, i < n -> nth i z' false = nth i (if coin i then y else x) false) /\
     length (diffs n x z') + length (diffs n z' y) = length (diffs n x y)).
Proof.
  intros LX LY LZ. split.
  - destruct (uniform_Ok coin x y z n LX LY LZ) as (z' & E & L & H). exists z'. split; [exact E|]. split; [exact L|]. split; [exact H|].
    apply mix_distances. split; [exact L|]. intros i Hi. rewrite H by exact Hi. destruct (coin i); auto.
  - destruct (biased_Ok coin x y z n LX LY LZ) as (z' & E & L & H). exists z'. split; [exact E|]. split; [exact L|]. split; [exact H|].
    apply mix_distances. split; [exact L|]. intros i Hi. rewrite H by exact Hi. destruct (coin i); auto.
Qed.
Print Assumptions C74_crossovers.

(** Vectors of other sizes violate an assertion. *)
Theorem C74_sizes coin x y z : length z <> length x \/ length z <> length y ->
  uniform_crossover coin x y z = UB /\ biased_crossover coin x y z = UB.
Proof.
  intros H. unfold uniform_crossover, biased_crossover. destruct (Nat.eqb_spec (length z) (length x)) as [E|E]; [|auto].
  destruct (Nat.eqb_spec (length z) (length y)) as [E'|E']; [|auto]. tauto.
Qed.
Print Assumptions C74_sizes.

Example C74_case : uniform_crossover Nat.even [true; true; false; false] [false; true; true; true] [false; false; false; false] = Ok [true; true; false; true] /\
  biased_crossover Nat.even [true; true; false; false] [false; true; true; true] [false; false; false; false] = Ok [false; true; true; false].
Proof. split; reflexivity. Qed.
