(** Properties of the algorithms which the application makes from its options: C124. *)

From Coq Require Import ZArith QArith Lia.
From Verif Require Import Base BaseLemmas BitVector_Model BitVector_Spec Map_Model Map_Spec Iterator_Model Neighborhood_Model Neighborhood_Spec
  Double Controller_Model Controller_Spec Decorator_Model Decorator_Spec ControllerStack_Spec Application_Model Application_Spec
  Search_Model Search_Spec Properties_Neighborhood Properties_Decorator Properties_Application Algorithm_Model Algorithm_Spec EvolutionaryAlgorithm_Model
  AlgorithmMachine_Model AlgorithmMachine_Spec AlgorithmPrograms_Proofs.
Local Open Scope nat_scope.

(** * C124: local searches, from the options to what is printed *)

(** Random walk, random local search, steepest and first ascent hill climbing, simulated
    annealing and the (1+1) EA, made by the factory and run by the application.
    [iterations] bounds the number of iterations explored. *)
Theorem C124_program ap co m F mid target i n f g o d neighbors iterations garbage others : 0 < i -> options_ok o i -> draws_ok o d i ->
  2 ^ i < neighbors -> (climber o = true -> 2 ^ i + 1 < iterations) ->
  optimizes ap -> ap_restart ap = false -> make_function_controller co F = Ok (mid, target) ->
  map_fits m i n -> kind_known m -> fp_size (f_props F) = i -> total (f_obj F) (f_init F) i f -> finite_values i f g ->
  exists N, forall fuel, N < fuel ->
  let p := program ap co (Ok (Some (m, F))) (make_algorithm o d neighbors iterations garbage others) fuel in
  (exists r x success, p = Some (report ap co m i r x success) /\
     rs_success r = (match co_stop_on_maximum co, co_target co with false, None => None | _, _ => Some success end) /\
     local_search_ends o co target f i r x success) \/
  (p = None /\ climber o = false /\
     (draws_last d i -> (ao_num_iterations o <= 0 \/ Z.of_nat iterations <= ao_num_iterations o)%Z /\
        (co_cache co = false -> (0 < co_budget co)%Z -> (Z.of_nat (first_calls o + iterations) <= co_budget co)%Z))).
Proof. apply local_search_program. Qed.
Print Assumptions C124_program.

(** Hill climbing always ends; the other local searches end if the number of iterations or,
    without cache, that of evaluations is bounded.  The value which is shown is that of the
    solution which is shown, except for steepest ascent out of budget. *)
Corollary C124_ends ap co m F mid target i n f g o d neighbors iterations garbage others : 0 < i -> options_ok o i -> draws_ok o d i ->
  2 ^ i < neighbors -> (climber o = true -> 2 ^ i + 1 < iterations) ->
  optimizes ap -> ap_restart ap = false -> make_function_controller co F = Ok (mid, target) ->
  map_fits m i n -> kind_known m -> fp_size (f_props F) = i -> total (f_obj F) (f_init F) i f -> finite_values i f g ->
  climber o = true \/
  (draws_last d i /\ ((0 < ao_num_iterations o < Z.of_nat iterations)%Z \/
                      (co_cache co = false /\ (0 < co_budget co < Z.of_nat iterations)%Z))) ->
  exists N, forall fuel, N < fuel -> exists r x success,
    program ap co (Ok (Some (m, F))) (make_algorithm o d neighbors iterations garbage others) fuel = Some (report ap co m i r x success) /\
    length x = i /\ (ao_algorithm o <> 150%Z \/ (co_budget co <= 0)%Z \/ success = true -> rs_value r = Some (f x)) /\
    (success = true -> exists t, target = Some t /\ dge (f x) t = true) /\
    (co_cache co = false -> (0 < co_budget co)%Z -> (Z.of_nat (rs_total r) <= co_budget co)%Z).
Proof.
  intros N OK DO NB IT HO HR HC HM HK HF HT HV E.
  destruct (C124_program ap co m F mid target i n f g o d neighbors iterations garbage others) as [M H]; auto.
  exists M. intros fuel HFu. destruct (H fuel HFu) as [(r & x & success & P & _ & L)|(_ & C & D)].
  - exists r, x, success. split; [exact P|]. destruct L as [T r x S1 S2 S3 S4 [S5 _] S6 S7|T r x S1 S2 S3 S4 S5 S6 S7|T r x t S1 S2 S3 S4 S8 S5 S6].
    + rewrite Forall_forall in S1. split; [auto|]. split; [auto|]. split; [discriminate|].
      intros C B. destruct S6 as (S6 & _). specialize (S4 C B). lia.
    + rewrite Forall_forall in S1. split; [auto|]. split; [intros [X|[X|X]]; [now apply S6|lia|discriminate]|]. split; [discriminate|].
      intros C B. destruct S7 as (S7 & _). rewrite (S3 C). lia.
    + rewrite Forall_forall in S1. split; [apply S1, in_app_iff; cbn; auto|]. split; [auto|]. split; [eauto|].
      intros C B. destruct S5 as (S5 & _). specialize (S8 C B). lia.
  - exfalso. destruct E as [E|(E & [E1|[E1 E2]])]; [congruence| |]; destruct (D E) as [D1 D2]; [lia|].
    specialize (D2 E1 ltac:(lia)). lia.
Qed.
Print Assumptions C124_ends.

(** Hill climbing without budget and without target ends with a local maximum. *)
Corollary C124_climbing ap co m F mid i n f g o d neighbors iterations garbage others : 0 < i -> options_ok o i -> draws_ok o d i -> climber o = true ->
  2 ^ i < neighbors -> 2 ^ i + 1 < iterations -> (ao_num_iterations o <= 0)%Z -> (co_budget co <= 0)%Z ->
  optimizes ap -> ap_restart ap = false -> make_function_controller co F = Ok (mid, None) ->
  map_fits m i n -> kind_known m -> fp_size (f_props F) = i -> total (f_obj F) (f_init F) i f -> finite_values i f g ->
  exists N, forall fuel, N < fuel -> exists r x,
    program ap co (Ok (Some (m, F))) (make_algorithm o d neighbors iterations garbage others) fuel = Some (report ap co m i r x false) /\
    length x = i /\ rs_value r = Some (f x) /\ (forall y, neighbor i (climbing_radius o) x y -> dle (f y) (f x) = true).
Proof.
  intros N OK DO CL NB IT NI BU HO HR HC HM HK HF HT HV.
  destruct (C124_program ap co m F mid None i n f g o d neighbors iterations garbage others) as [M H]; auto.
  exists M. intros fuel HFu. destruct (H fuel HFu) as [(r & x & success & P & _ & L)|(_ & C & D)]; [|congruence].
  destruct L as [T r x S1 S2 S3 S4 [S5 _] S6 S7|T r x S1 S2 S3 S4 S5 S6 S7|T r x t S1 S2 S3 S4 S8 S5 S6]; [|lia|discriminate].
  exists r, x. rewrite Forall_forall in S1. split; [exact P|]. split; [auto|]. split; [auto|]. destruct S2 as [X|T1 T2 X|X Y]; [lia| |exact Y].
  unfold climber in CL. rewrite X in CL. discriminate.
Qed.
Print Assumptions C124_climbing.

(** The neighborhood of random walk, random local search and simulated annealing is the one
    which the options tell: the sets of bits which it flips are those of the right sizes. *)
Theorem C124_neighborhood o n : 0 < n -> neighborhood_ok o n -> exists h, make_neighborhood o n = Ok h /\ nh_reachable n h Settled /\
  (forall l, (exists d, in_bounds (nh_class h) n d /\ sample_bits h d = Some (Ok l)) <-> index_set n l /\ may_flip o n (length l)).
Proof.
  intros N OK.
  assert (X : exists h, make_neighborhood o n = Ok h /\ nh_reachable n h Settled /\ forall k, flip_count (nh_class h) n k <-> may_flip o n k).
  { unfold make_neighborhood, may_flip. assert (NN : (0 <? n) = true) by now apply Nat.ltb_lt.
    assert (M : forall kd, (forall r, kd = HammingBall r \/ kd = HammingSphere r -> 0 < r <= n) -> exists h, nh_make kd n = Ok h /\ nh_class h = kd /\ nh_reachable n h Settled).
    { intros kd H. assert (E : exists h, nh_make kd n = Ok h /\ nh_class h = kd).
      { unfold nh_make. rewrite NN. destruct kd as [|re al|r|r]; cbn [assertb bind]; try (eexists; split; reflexivity);
          (destruct (H r) as [H1 H2]; [auto|]; apply Nat.ltb_lt in H1; apply Nat.leb_le in H2; rewrite H1, H2; eexists; split; reflexivity). }
      destruct E as (h & E & C). exists h. split; [exact E|]. split; [exact C|]. econstructor. exact E. }
    destruct OK as [T|[T|[T R]]].
    - rewrite T. cbn [Z.eqb]. destruct (M SingleBitFlip) as (h & E & C & R); [intros r [X|X]; discriminate|]. exists h. split; [exact E|]. split; [exact R|].
      intros k. rewrite C. cbn [flip_count]. split; [auto|]. intros [[_ X]|[[X _]|[[X _]|[X _]]]]; [exact X|discriminate..].
    - rewrite T. cbn [Z.eqb Pos.eqb]. destruct (M (StandardBitMutation false false)) as (h & E & C & R); [intros r [X|X]; discriminate|]. rewrite E. cbn [bind].
      assert (C1 : nh_class (nh_set_allow_no_mutation h (ao_allow_no_mutation o)) = StandardBitMutation false (ao_allow_no_mutation o)).
      { unfold nh_set_allow_no_mutation. rewrite C. reflexivity. }
      destruct (ao_mutation_rate o) as [small|].
      + eexists. split; [reflexivity|]. split; [apply reach_rate, reach_allow, R|]. intros k. unfold nh_set_mutation_rate. rewrite C1. cbn [nh_class flip_count orb]. split.
        * intros [[X Y]|X]; right; left; (split; [reflexivity|]); [right|now left]. split; [exact Y|]. exists small. split; [reflexivity|now destruct (small n)].
        * intros [[X _]|[[_ X]|[[X _]|[X _]]]]; [discriminate| |discriminate..]. destruct X as [X|(X & s & Y & Z)]; [now right|]. left. injection Y as <-. rewrite Z. now split.
      + eexists. split; [reflexivity|]. split; [apply reach_allow, R|]. intros k. rewrite C1. cbn [flip_count]. split.
        * intros [[X _]|X]; [discriminate|]. right; left; auto.
        * intros [[X _]|[[_ X]|[[X _]|[X _]]]]; [discriminate| |discriminate..]. destruct X as [X|(X & s & Y & Z)]; [now right|discriminate].
    - assert (TT : ao_neighborhood o = 2%Z \/ ao_neighborhood o = 3%Z) by lia. clear T. destruct TT as [T|T]; rewrite T; cbn [Z.eqb Pos.eqb].
      + destruct (M (HammingBall (Z.to_nat (ao_radius o)))) as (h & E & C & RR); [intros r [X|X]; [injection X as <-; lia|discriminate]|].
        exists h. split; [exact E|]. split; [exact RR|]. intros k. rewrite C. cbn [flip_count]. split; [intros X; right; right; left; repeat split; lia|].
        intros [[X _]|[[X _]|[[_ X]|[X _]]]]; [discriminate..|lia|discriminate].
      + destruct (M (HammingSphere (Z.to_nat (ao_radius o)))) as (h & E & C & RR); [intros r [X|X]; [discriminate|injection X as <-; lia]|].
        exists h. split; [exact E|]. split; [exact RR|]. intros k. rewrite C. cbn [flip_count]. split; [intros X; right; right; right; split; [reflexivity|lia]|].
        intros [[X _]|[[X _]|[[X _]|[_ X]]]]; [discriminate..|lia]. }
  destruct X as (h & E & R & K). exists h. split; [exact E|]. split; [exact R|]. intros l. rewrite <- K. split.
  - intros (d & B & S1). destruct (C38_sample n h Settled d (Ok l) R B S1) as (l' & X & Y). apply Ok_inj in X. now subst l'.
  - intros [H1 H2]. exact (C38_all_sampled n h Settled l R H1 H2).
Qed.
Print Assumptions C124_neighborhood.

(** Complete search and random search are those of C116 and C117. *)
Theorem C124_searches o d neighbors iterations garbage others n : 0 < n ->
  (ao_algorithm o = 0%Z -> make_algorithm o d neighbors iterations garbage others n = make_complete_search n) /\
  (ao_algorithm o = 10%Z -> make_algorithm o d neighbors iterations garbage others n = make_random_search (ao_num_iterations o) (ad_vectors d) n).
Proof. intros N. unfold make_algorithm. split; intros ->; reflexivity. Qed.
Print Assumptions C124_searches.

(** Options which are refused.  Unknown algorithms, neighborhoods and neighborhood iterators
    are errors; so is, but uncaught, a negative radius for neighborhood iterators; other
    wrong radiuses are undefined behaviour. *)
Definition wrong_radius (o : algo_options) (n : nat) : Prop := (ao_radius o < 1 \/ Z.of_nat n < ao_radius o)%Z.
Theorem C124_errors ap co m F mid target i o d neighbors iterations garbage others fuel : 0 < i -> fp_size (f_props F) = i ->
  optimizes ap -> make_function_controller co F = Ok (mid, target) ->
  let p := program ap co (Ok (Some (m, F))) (make_algorithm o d neighbors iterations garbage others) fuel in
  (~ In (ao_algorithm o) ([0; 10]%Z ++ local_searches ++ other_types) -> p = Some ([], Exit 1)) /\
  (In (ao_algorithm o) [20; 100; 200]%Z -> (ao_algorithm o <> 200%Z -> ao_incremental o = false) ->
     (~ In (ao_neighborhood o) [0; 1; 2; 3]%Z -> p = Some ([], Exit 1)) /\
     (In (ao_neighborhood o) [2; 3]%Z -> wrong_radius o i -> p = Some ([], Undefined))) /\
  (In (ao_algorithm o) [150; 160]%Z ->
     (~ In (ao_neighborhood_iterator o) [0; 1]%Z -> p = Some ([], Exit 1)) /\
     (ao_neighborhood_iterator o = 1%Z -> (ao_radius o < 0)%Z -> p = Some ([], Uncaught)) /\
     (ao_neighborhood_iterator o = 1%Z -> (Z.of_nat i < ao_radius o)%Z -> p = Some ([], Undefined))).
Proof.
  intros N HF HO HC.
  assert (PF : forall r, make_algorithm o d neighbors iterations garbage others i = r -> (forall A, r <> Ok A) ->
    program ap co (Ok (Some (m, F))) (make_algorithm o d neighbors iterations garbage others) fuel =
      Some ([], match r with Throw e => ending_of e | _ => Undefined end)).
  { intros r E ND. destruct HO as (H1 & H2 & H3 & H4 & H5 & H6 & H7). unfold program, app_init. rewrite H1.
    destruct (Z.ltb_spec (ap_threads ap) 1); [lia|]. rewrite HC. unfold load_solution, print_information. rewrite H3, H4, H5, H6, H7.
    cbn [when andthen snd fst app]. rewrite HF, E. destruct r as [A|e|]; [now destruct (ND A)|now destruct e|reflexivity]. }
  intros p. split; [|split].
  - intros NI. apply (PF (Throw RuntimeError)); [|discriminate]. unfold make_algorithm.
    assert (Z0 : forall t, In t ([0; 10]%Z ++ local_searches ++ other_types) -> (ao_algorithm o =? t)%Z = false) by (intros t Ht; apply Z.eqb_neq; intros Et; rewrite Et in NI; auto).
    destruct (existsb (Z.eqb (ao_algorithm o)) other_types) eqn:EX.
    { exfalso. apply existsb_exists in EX as (t & Ht & E). rewrite Z0 in E; [discriminate|]. do 2 (apply in_app_iff; right). assumption. }
    rewrite !Z0 by (cbn; auto 20). reflexivity.
  - intros HT HI.
    assert (PN : forall r : outcome nh, make_neighborhood o i = r -> (forall h, r <> Ok h) -> p = Some ([], match r with Throw e => ending_of e | _ => Undefined end)).
    { intros r E ND. unfold p. rewrite (PF (match r with Ok _ => UB | Throw e => Throw e | UB => UB end)).
      - destruct r as [h|e|]; [now destruct (ND h)|reflexivity|reflexivity].
      - unfold make_algorithm. destruct HT as [T|[T|[T|[]]]]; rewrite <- T; rewrite <- T in HI; cbn [existsb other_types Z.eqb Pos.eqb orb]; try rewrite HI by discriminate; rewrite E;
          destruct r as [h|e|]; try (now destruct (ND h)); reflexivity.
      - destruct r; discriminate. }
    split.
    + intros NI. apply (PN (Throw RuntimeError)); [|discriminate]. unfold make_neighborhood.
      assert (Z0 : forall t, In t [0; 1; 2; 3]%Z -> (ao_neighborhood o =? t)%Z = false) by (intros t Ht; apply Z.eqb_neq; intros Et; rewrite Et in NI; auto).
      now rewrite !Z0 by (cbn; auto).
    + intros HN WR. apply (PN UB); [|discriminate]. unfold make_neighborhood, nh_make.
      assert (W : (0 <? Z.to_nat (ao_radius o)) = false \/ (0 <? Z.to_nat (ao_radius o)) = true /\ (Z.to_nat (ao_radius o) <=? i) = false).
      { unfold wrong_radius in WR. destruct (Nat.ltb_spec 0 (Z.to_nat (ao_radius o))); [right|auto]. split; [reflexivity|]. apply Nat.leb_gt. lia. }
      destruct (Nat.ltb_spec 0 i); [|lia]. destruct HN as [<-|[<-|[]]]; cbn [Z.eqb Pos.eqb]; destruct W as [->|[-> ->]]; reflexivity.
  - intros HT.
    assert (PN : forall r : outcome nit, make_neighborhood_iterator o (Z.to_nat garbage) i = r -> (forall h, r <> Ok h) -> p = Some ([], match r with Throw e => ending_of e | _ => Undefined end)).
    { intros r E ND. unfold p. rewrite (PF (match r with Ok _ => UB | Throw e => Throw e | UB => UB end)).
      - destruct r as [h|e|]; [now destruct (ND h)|reflexivity|reflexivity].
      - unfold make_algorithm. destruct HT as [T|[T|[]]]; rewrite <- T; cbn [existsb other_types Z.eqb Pos.eqb orb]; rewrite E;
          destruct r as [h|e|]; try (now destruct (ND h)); reflexivity.
      - destruct r; discriminate. }
    split; [|split].
    + intros NI. apply (PN (Throw RuntimeError)); [|discriminate]. unfold make_neighborhood_iterator.
      assert (Z0 : forall t, In t [0; 1]%Z -> (ao_neighborhood_iterator o =? t)%Z = false) by (intros t Ht; apply Z.eqb_neq; intros Et; rewrite Et in NI; auto).
      now rewrite !Z0 by (cbn; auto).
    + intros HN WR. apply (PN (Throw OtherException)); [|discriminate]. unfold make_neighborhood_iterator. rewrite HN. cbn [Z.eqb Pos.eqb].
      destruct (Z.ltb_spec (ao_radius o) 0); [reflexivity|lia].
    + intros HN WR. apply (PN UB); [|discriminate]. unfold make_neighborhood_iterator, hs_make. rewrite HN. cbn [Z.eqb Pos.eqb].
      destruct (Z.ltb_spec (ao_radius o) 0); [lia|]. destruct (Nat.leb_spec (Z.to_nat (ao_radius o)) i); [lia|reflexivity].
Qed.
Print Assumptions C124_errors.

(** Three bits, random numbers which start at 000, choose the bits in turn, and accept
    nothing worse *)
Definition example_algo (t num : Z) (patience : Z) (strict : bool) : algo_options := mk_algo_options t num false 0 0 1 false None patience strict 0.
Definition example_moves (k : nat) : draws := mk_draws (fun _ => 1 # 2)%Q ((k mod 3) :: seq 0 3) 1 [1] (repeat true 3).
Definition example_algo_draws : algo_draws :=
  mk_algo_draws (fun _ _ => false) (fun _ _ _ => false) (fun _ => example_moves) (fun _ => example_moves) (fun _ _ lo _ => lo) (fun _ _ => false) (fun _ _ => false).
Definition example_run (ap : app_options) (co : controller_options) (o : algo_options) :=
  program ap co (example_made 0) (make_algorithm o example_algo_draws 9 20 0 (fun _ => UB)) 100.

Definition example_shown (v : Z) (num total : nat) (success : option bool) (x : bv) : option (list output * ending) :=
  Some ([OResults Printed (mk_results (Some (DFin v)) num total success None); OSolution Printed x], Exit 0).

(** Random local search, with a budget, with a target and with patience; hill climbing,
    from the neighbor to the neighbor; random walk, simulated annealing and the (1+1) EA,
    with a number of iterations; and the (1+1) EA without limit *)
Example C124_case : let ap := example_app None false false false in
  example_run ap (example_co 3 false) (example_algo 100 0 0 false) = example_shown 2 3 3 None [true; true; false] /\
  example_run ap (example_co 0 true) (example_algo 100 0 0 false) = example_shown 3 4 4 (Some true) [true; true; true] /\
  example_run ap (example_co 0 false) (example_algo 100 0 2 true) = example_shown 3 4 6 None [true; true; true] /\
  example_run ap (example_co 0 false) (example_algo 150 0 0 true) = example_shown 3 10 13 None [true; true; true] /\
  example_run ap (example_co 0 false) (example_algo 160 0 0 true) = example_shown 3 7 10 None [true; true; true] /\
  example_run ap (example_co 0 false) (example_algo 20 2 0 true) = example_shown 2 3 3 None [true; true; false] /\
  example_run ap (example_co 0 false) (example_algo 200 2 0 true) = example_shown 2 3 3 None [true; true; false] /\
  example_run ap (example_co 0 false) (example_algo 300 2 0 true) = example_shown 2 3 3 None [true; true; false] /\
  example_run ap (example_co 0 false) (example_algo 300 0 0 true) = None.
Proof. vm_compute. repeat split. Qed.

(** Out of budget, steepest ascent hill climbing prints a solution, 000, whose value, 0, is
    not the one which is printed. *)
Example C124_steepest : example_run (example_app None false false false) (example_co 3 false) (example_algo 150 0 0 true) =
  example_shown 1 2 3 None [false; false; false].
Proof. reflexivity. Qed.

(** The hypotheses hold for these examples. *)
Lemma example_plenty k : plenty 3 (example_moves k).
Proof.
  intros h L1 L2. destruct h as [kd orig cand idx]. cbn [nh_origin nh_candidate] in L1, L2. unfold nh_propose, with_sample.
  destruct (bv_eqb _ _); [|discriminate]. unfold sample_bits. cbn [nh_candidate nh_class]. rewrite L2. destruct kd as [|rejection allow|r|r].
  - discriminate.
  - destruct rejection; [destruct allow; discriminate|discriminate].
  - discriminate.
  - unfold below_sqrt. destruct r as [|[|r]]; [discriminate|discriminate|]. destruct (Nat.ltb_spec (S (S r) * S (S r)) 3); [lia|discriminate].
Qed.
Example C124_hypotheses : (forall t, In t local_searches -> options_ok (example_algo t 2 0 true) 3) /\
  (forall t, draws_ok (example_algo t 2 0 true) example_algo_draws 3) /\ draws_last example_algo_draws 3 /\
  optimizes (example_app None false false false) /\ finite_values 3 ones_of (fun x => units (ones_of x)) /\
  exists F, example_made 0 = Ok (Some (None, F)) /\ make_function_controller (example_co 3 false) F = Ok (MidBudget 3, None) /\
    map_fits None 3 3 /\ kind_known None /\ fp_size (f_props F) = 3 /\ total (f_obj F) (f_init F) 3 ones_of.
Proof.
  assert (B : forall k, in_bounds SingleBitFlip 3 (example_moves k)).
  { intros k. split; [intros i; cbn; split; [discriminate|reflexivity]|]. split; [|split; [exact I|repeat constructor]].
    constructor; [apply Nat.mod_upper_bound; lia|repeat constructor]. }
  split; [|split; [|split; [|split; [|split]]]].
  - intros t Ht. split; [exact Ht|]. split; [now left|]. split; [now left|reflexivity].
  - intros t. assert (E : bounding_kind (example_algo t 2 0 true) = SingleBitFlip) by reflexivity. unfold draws_ok. rewrite E. split; [|split]; [exact (fun i => B i)|exact (fun i => B i)|].
    intros i a b. cbn. lia.
  - split; intros i; apply example_plenty.
  - repeat split; cbn; lia.
  - intros x _. reflexivity.
  - eexists. split; [vm_compute; reflexivity|]. split; [reflexivity|]. split; [reflexivity|]. split; [exact I|]. split; [reflexivity|].
    intros l H. induction H as [|x l _ _ IH]; cbn; [reflexivity|]. f_equal. exact IH.
Qed.

(** Refused options: an unknown algorithm; a neighborhood with a radius larger than the
    size; a neighborhood iterator with a negative radius *)
Example C124_refused : let ap := example_app None false false false in let co := example_co 3 false in
  example_run ap co (mk_algo_options 7 0 false 0 0 1 false None 0 true 0) = Some ([], Exit 1) /\
  example_run ap co (mk_algo_options 100 0 false 2 0 4 false None 0 true 0) = Some ([], Undefined) /\
  example_run ap co (mk_algo_options 160 0 false 0 1 (-1) false None 0 true 0) = Some ([], Uncaught).
Proof. vm_compute. repeat split. Qed.
