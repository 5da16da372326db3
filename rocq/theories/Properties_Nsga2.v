(** Properties of NSGA-II: C89-C91. *)

From Coq Require Import QArith ZArith Permutation Sorted.
From Verif Require Import Base BaseLemmas BitVector_Model BitVector_Spec Representation_Spec Map_Spec
  Neighborhood_Model Neighborhood_Spec Algorithm_Model Algorithm_Spec Algorithm_Proofs
  Population_Model PopAlgorithm_Model EvolutionaryAlgorithm_Spec
  Pareto_Model Pareto_Spec Nsga2_Model Nsga2_Spec Crowding_Proofs Nsga2_Proofs Nsga2Run_Proofs Properties_Population Properties_EvolutionaryAlgorithm.
Local Open Scope nat_scope.

(** ** C89: each generation of NSGA-II. *)

Lemma kind_of_new n m mu garbage c p : nsga2_make n m mu garbage = Ok c -> kind_after (ns_mut c) p = StandardBitMutation (np_small p) (np_allow p).
Proof.
  intros E. apply nsga2_make_Ok in E as (_ & _ & _ & _ & E & _). unfold kind_after, nh_set_allow_no_mutation, nh_set_mutation_rate. rewrite E. cbn [nh_class].
  destruct (np_small p); reflexivity.
Qed.

(** C89 A run of a new algorithm either completes the given number of generations, and returns the
    non-dominated members of the last population, or is interrupted by an exception of the function
    (or by endless draws of random numbers) and leaves its solutions as they were. In particular it
    never reads or writes out of bounds and never violates an assertion. *)
Theorem C89_run : forall n m mu garbage' c o srt p bits ord sh garbage b g ord' num,
  nsga2_make n m mu garbage' = Ok c -> objectives n m o -> 2 <= np_tournament_size p < mu ->
  sorts srt -> visits ord -> visits ord' -> shuffles sh -> fair_breeding n b -> (forall t, fair_generation n (g t)) ->
  let kd := StandardBitMutation (np_small p) (np_allow p) in
  let ts := np_tournament_size p in
  match nsga2_minimize o srt p bits ord sh garbage b g ord' num (mk_mstate [] c) with
  | (Ret _, s') =>
      exists s0 s1, first_generation n m mu ts kd o (b_cross b) s0 /\
        generations n m mu ts kd o (fun t => b_cross (g_breeding (g t))) 0 (Z.to_nat num) s0 s1 /\ returned mu o s1 s'
  | (Exc e, s') => mo_stop o (length (ms_trace s')) = Some e /\ ns_solutions (ms_mem s') = ns_solutions c
  | (Pending, s') => ns_solutions (ms_mem s') = ns_solutions c
  | (Bad, _) => False
  end.
Proof.
  intros n m mu garbage' c o srt p bits ord sh garbage b g ord' num E OB TS SRT V V' SH FB FG kd ts.
  pose proof (kind_of_new n m mu garbage' c p E) as KD. apply nsga2_make_Ok in E as (_ & _ & _ & W & _ & _).
  pose proof (minimize_wp n m mu o OB p TS srt bits ord sh garbage b g ord' num (mk_mstate [] c) SRT V V' SH FB FG W eq_refl) as H.
  cbv zeta in H. cbn [ms_mem] in H. rewrite KD in H. unfold wp in H.
  destruct (nsga2_minimize o srt p bits ord sh garbage b g ord' num (mk_mstate [] c)) as [[x|e| |] s'].
  - exact H.
  - destruct H as (_ & H1 & H2). split; [exact (H2 e eq_refl)|exact H1].
  - exact H.
  - apply H.
Qed.
Print Assumptions C89_run.

(** C89 The number of evaluations of a completed run. *)
Theorem C89_evaluations : forall n m mu garbage' c o srt p bits ord sh garbage b g ord' num s',
  nsga2_make n m mu garbage' = Ok c -> objectives n m o -> 2 <= np_tournament_size p < mu ->
  sorts srt -> visits ord -> visits ord' -> shuffles sh -> fair_breeding n b -> (forall t, fair_generation n (g t)) ->
  nsga2_minimize o srt p bits ord sh garbage b g ord' num (mk_mstate [] c) = (Ret tt, s') ->
  Z.of_nat (length (ms_trace s')) = (Z.of_nat mu * (1 + Z.max 0 num))%Z.
Proof.
  intros n m mu garbage' c o srt p bits ord sh garbage b g ord' num s' E OB TS SRT V V' SH FB FG R.
  pose proof (C89_run n m mu garbage' c o srt p bits ord sh garbage b g ord' num E OB TS SRT V V' SH FB FG) as H. cbv zeta in H. rewrite R in H.
  destruct H as (s0 & s1 & FI & G & RT). destruct (completed_between n m mu _ _ o _ _ _ _ _ _ FI G RT) as (_ & L & _). rewrite L. lia.
Qed.
Print Assumptions C89_evaluations.

(** C89 Crowded comparison used by selection: a strict order. *)
Theorem C89_comparison : forall a b, pair_lt a b = true <-> preferred a b.
Proof. exact pair_lt_spec. Qed.
Print Assumptions C89_comparison.

(** Minimize the number of ones, and the number of zeros in the first half. *)
Definition halves (stop : nat -> option exn) : mobjective :=
  mk_mobjective (fun x => [count_ones x; count_ones (map negb (firstn 2 x))]) stop 2.
Lemma halves_objectives stop : objectives 4 2 (halves stop).
Proof. split; [reflexivity|]. intros x _. reflexivity. Qed.

Definition example_breeding (t : nat) : breeding :=
  mk_breeding (fun k => Nat.even (k + t)) (fun k i => Nat.even (i + k + t)) (fun _ => @rev nat) (fun _ => @rev nat) (example_mutations 4 t).
Lemma example_breeding_fair t : fair_breeding 4 (example_breeding t).
Proof.
  split; [intros k l; apply Permutation_rev|]. split; [intros k l; apply Permutation_rev|]. intros k. apply (example_fair 4 (le_n 4) t k).
Qed.
Definition example_generation (t : nat) : generation_draws := mk_generation_draws (fun _ _ => @rev nat) (@rev nat) (@rev nat) (example_breeding (t + 1)).

Definition nsga2_example (o : mobjective) (mu ts : nat) (num : Z) (bits : nat -> nat -> bool) : outcome (res unit * nat * mpop) :=
  c <- nsga2_make 4 2 mu (7, 8) ;;
  let (r, s) := nsga2_minimize o insertion_sort (mk_nsga2_parameters ts false false) bits (fun _ _ => @rev nat) (@rev nat) (7, 8)
                  (example_breeding 0) example_generation (fun _ _ => @rev nat) num (mk_mstate [] c) in
  Ok (r, length (ms_trace s), ns_solutions (ms_mem s)).

Lemma example_generation_fair t : fair_generation 4 (example_generation t).
Proof.
  split; [intros f k l; apply Permutation_rev|]. split; [intros l; apply Permutation_rev|]. split; [intros l; apply Permutation_rev|]. apply example_breeding_fair.
Qed.

Example C89_case : objectives 4 2 (halves (fun _ => None)) /\ fair_breeding 4 (example_breeding 0) /\ (forall t, fair_generation 4 (example_generation t)) /\ sorts insertion_sort /\
  nsga2_example (halves (fun _ => None)) 4 2 3 (fun i j => Nat.even (i + j)) =
    Ok (Ret tt, 16, mk_mpop [[true; true; false; false]; [false; false; false; false]; [true; false; false; false]; [true; false; false; false]] [[2; 0]; [0; 2]; [1; 1]; [1; 1]]%Z).
Proof.
  split; [apply halves_objectives|]. split; [apply example_breeding_fair|]. split; [exact example_generation_fair|]. split; [exact insertion_sort_sorts|]. vm_compute. reflexivity.
Qed.

(** ** C90: the solutions returned by NSGA-II. *)

(** A run of a new algorithm which completed. *)
Definition completed (n m mu : nat) (o : mobjective) (num : Z) (s' : mstate) : Prop :=
  objectives n m o /\
  exists garbage' c srt p bits ord sh garbage b g ord',
    nsga2_make n m mu garbage' = Ok c /\ 2 <= np_tournament_size p < mu /\
    sorts srt /\ visits ord /\ visits ord' /\ shuffles sh /\ fair_breeding n b /\ (forall t, fair_generation n (g t)) /\
    nsga2_minimize o srt p bits ord sh garbage b g ord' num (mk_mstate [] c) = (Ret tt, s').

Lemma completed_run n m mu o num s' : completed n m mu o num s' -> objectives n m o /\
  exists ts kd cross0 cross s0 s1, first_generation n m mu ts kd o cross0 s0 /\
    generations n m mu ts kd o cross 0 (Z.to_nat num) s0 s1 /\ returned mu o s1 s' /\ 2 <= ts < mu.
Proof.
  intros (OB & garbage' & c & srt & p & bits & ord & sh & garbage & b & g & ord' & E & TS & SRT & V & V' & SH & FB & FG & R). split; [exact OB|].
  pose proof (C89_run n m mu garbage' c o srt p bits ord sh garbage b g ord' num E OB TS SRT V V' SH FB FG) as H. cbv zeta in H. rewrite R in H.
  destruct H as (s0 & s1 & FI & G & RT). do 6 eexists. split; [exact FI|]. split; [exact G|]. split; [exact RT|exact TS].
Qed.

Section C90.
  Variables (n m mu : nat) (o : mobjective) (num : Z) (s' : mstate).
  Hypothesis R : completed n m mu o num s'.
  Let T := ms_trace s'.
  Let solutions := m_bvs (ns_solutions (ms_mem s')).

  (** C90 There is at least one solution and at most [mu]. The solutions have been evaluated, their
      values are those of the function, and none dominates another. *)
  Theorem C90_solutions : 0 < length solutions <= mu /\
    m_values (ns_solutions (ms_mem s')) = map (mo_value o) solutions /\
    (forall x, In x solutions -> In x T /\ length x = n) /\
    (forall x y, In x solutions -> In y solutions -> ~ pareto_better (mo_value o x) (mo_value o y)).
  Proof.
    destruct (completed_run _ _ _ _ _ _ R) as (OB & ts & kd & cross0 & cross & s0 & s1 & FI & G & RT & _).
    destruct (solutions_facts n m mu ts kd o OB cross0 cross _ s0 s1 s' FI G RT) as (A & B & C). split; [|exact C]. split; [|exact B].
    fold solutions in A. destruct solutions; [congruence|cbn; lia].
  Qed.

  (** C90 No solution is dominated by one of the last [mu] evaluated vectors. *)
  Theorem C90_last : forall x y, In x solutions -> In y (skipn (length T - mu) T) -> ~ pareto_better (mo_value o y) (mo_value o x).
  Proof.
    destruct (completed_run _ _ _ _ _ _ R) as (OB & ts & kd & cross0 & cross & s0 & s1 & FI & G & RT & _).
    exact (solutions_last n m mu ts kd o OB cross0 cross _ s0 s1 s' FI G RT).
  Qed.

  (** C90 If the population is at least twice as large as the number of objectives then, for each
      objective, some solution is at least as good as any evaluated vector. *)
  Theorem C90_extremes : 2 * m <= mu -> forall k x, k < m -> In x T ->
    exists y, In y solutions /\ (nth k (mo_value o y) 0 <= nth k (mo_value o x) 0)%Z.
  Proof.
    destruct (completed_run _ _ _ _ _ _ R) as (OB & ts & kd & cross0 & cross & s0 & s1 & FI & G & RT & _).
    intros H k x. exact (solutions_extremes n m mu ts kd o OB cross0 cross _ s0 s1 s' FI G RT k x H).
  Qed.

  (** C90 With a single objective, the solutions are among the best evaluated vectors. *)
  Theorem C90_single : m = 1 -> forall x y, In x solutions -> In y T -> (nth 0 (mo_value o x) 0 <= nth 0 (mo_value o y) 0)%Z.
  Proof.
    intros M x y Hx Hy. assert (MU : 2 * m <= mu) by (destruct (completed_run _ _ _ _ _ _ R) as (_ & ts & _ & _ & _ & _ & _ & _ & _ & _ & TS); lia).
    destruct (C90_extremes MU 0 y) as (z & Z1 & Z2); [lia|exact Hy|]. destruct C90_solutions as (_ & _ & EV & ND). specialize (ND z x Z1 Hx).
    destruct (Z_lt_dec (nth 0 (mo_value o z) 0%Z) (nth 0 (mo_value o x) 0%Z)) as [L|L]; [|lia]. exfalso. apply ND.
    assert (LZ : length (mo_value o z) = 1) by (rewrite (proj2 (proj1 R)); [exact M|apply EV; exact Z1]).
    split; [intros i Hi|exists 0; split; [lia|exact L]]. replace i with 0 by lia. lia.
  Qed.

  (** C90 As long as the non-dominated evaluated vectors never outnumber the population, the solutions
      are all of them. *)
  Theorem C90_all : (forall t, 0 < t <= Z.to_nat num -> length (non_dominated o (firstn (mu * (t + 1)) T)) <= mu) ->
    Permutation (non_dominated o T) solutions.
  Proof.
    destruct (completed_run _ _ _ _ _ _ R) as (OB & ts & kd & cross0 & cross & s0 & s1 & FI & G & RT & _).
    exact (solutions_all n m mu ts kd o OB cross0 cross _ s0 s1 s' FI G RT).
  Qed.
End C90.
Print Assumptions C90_solutions.
Print Assumptions C90_last.
Print Assumptions C90_extremes.
Print Assumptions C90_single.
Print Assumptions C90_all.

(** C90 [non_dominated] lists the vectors that no vector of the list dominates. *)
Theorem C90_non_dominated : forall o T x, In x (non_dominated o T) <-> In x T /\ forall y, In y T -> ~ pareto_better (mo_value o y) (mo_value o x).
Proof. exact in_non_dominated. Qed.
Print Assumptions C90_non_dominated.

(** A run like that of [C89_case] *)
Definition example_start : nsga2 := Eval vm_compute in match nsga2_make 4 2 4 (7, 8) with Ok c => c | _ => mk_nsga2 (mk_mpop [] []) (mk_mpop [] []) (mk_mpop [] []) (mk_mpop [] [])
  (mk_nh SingleBitFlip [] [] []) [] [] [] [] (mk_tournament [] 0 0 0) end.
Definition example_run : res unit * mstate := nsga2_minimize (halves (fun _ => None)) insertion_sort (mk_nsga2_parameters 2 false false) (fun i j => Nat.even (i + j)) (fun _ _ => @rev nat) (@rev nat) (7, 8)
  (example_breeding 0) example_generation (fun _ _ => @rev nat) 2 (mk_mstate [] example_start).
Lemma example_run_trace : fst example_run = Ret tt /\ m_values (ns_solutions (ms_mem (snd example_run))) = [[2; 0]; [1; 1]; [1; 1]]%Z /\
  length (non_dominated (halves (fun _ => None)) (firstn (4 * (1 + 1)) (ms_trace (snd example_run)))) = 2 /\
  length (non_dominated (halves (fun _ => None)) (firstn (4 * (2 + 1)) (ms_trace (snd example_run)))) = 3.
Proof. vm_compute. auto. Qed.
Lemma pair_from_fst {A B} (p : A * B) a : fst p = a -> p = (a, snd p).
Proof. destruct p. cbn. intros ->. reflexivity. Qed.
Example C90_case : exists s', completed 4 2 4 (halves (fun _ => None)) 2 s' /\ 2 * 2 <= 4 /\
  (forall t, 0 < t <= 2 -> length (non_dominated (halves (fun _ => None)) (firstn (4 * (t + 1)) (ms_trace s'))) <= 4) /\
  m_values (ns_solutions (ms_mem s')) = [[2; 0]; [1; 1]; [1; 1]]%Z.
Proof.
  exists (snd example_run). destruct example_run_trace as (RT & V & L1 & L2). split.
  { split; [apply halves_objectives|]. exists (7, 8), example_start, insertion_sort, (mk_nsga2_parameters 2 false false), (fun i j => Nat.even (i + j)), (fun _ _ => @rev nat), (@rev nat), (7, 8),
      (example_breeding 0), example_generation, (fun _ _ => @rev nat).
    split; [reflexivity|]. split; [cbn; lia|]. split; [exact insertion_sort_sorts|]. split; [intros f k l; apply Permutation_rev|]. split; [intros f k l; apply Permutation_rev|].
    split; [intros l; apply Permutation_rev|]. split; [apply example_breeding_fair|]. split; [exact example_generation_fair|].
    exact (pair_from_fst example_run _ RT). }
  split; [lia|]. split; [|exact V]. intros t Ht.
  assert (C : t = 1 \/ t = 2) by (clear - Ht; lia). destruct C as [-> | ->]; [rewrite L1|rewrite L2]; clear; lia.
Qed.

(** ** C91: runs of NSGA-II which are refused, interrupted or repeated. *)

(** C91 Tournament sizes out of bounds are refused before anything is evaluated. Since the
    size must be at least two and less than the population size, populations of less than three
    individuals are always refused. *)
Theorem C91_refused : forall n m mu garbage' c o srt p bits ord sh garbage b g ord' num trace,
  nsga2_make n m mu garbage' = Ok c -> ~ (2 <= np_tournament_size p < mu) ->
  nsga2_minimize o srt p bits ord sh garbage b g ord' num (mk_mstate trace c) = (Exc RuntimeError, mk_mstate trace c).
Proof.
  intros n m mu garbage' c o srt p bits ord sh garbage b g ord' num trace E H. apply nsga2_make_Ok in E as (_ & _ & _ & W & _).
  apply (refused_run n mu o p); auto.
Qed.
Print Assumptions C91_refused.

(** C91 New algorithms: sizes must be positive. *)
Theorem C91_make : forall n m mu garbage,
  (0 < n -> 0 < m -> 0 < mu -> exists c, nsga2_make n m mu garbage = Ok c /\ length (m_bvs (ns_solutions c)) = mu /\ Forall (fun x => x = repeat false n) (m_bvs (ns_solutions c))) /\
  (n = 0 \/ m = 0 \/ mu = 0 -> nsga2_make n m mu garbage = Throw RuntimeError).
Proof.
  intros n m mu garbage. split.
  - intros N M MU. unfold nsga2_make, mpop_make, nh_make, tournament_make. rewrite (proj2 (Nat.ltb_lt 0 n) N), (proj2 (Nat.ltb_lt 0 m) M), (proj2 (Nat.ltb_lt 0 mu) MU), (proj2 (Nat.ltb_lt 0 (2 * mu))) by lia.
    cbn [ensureb assertb bind m_bvs m_values]. rewrite !repeat_length, Nat.eqb_refl. cbn [ensureb bind]. eexists. split; [reflexivity|]. cbn [ns_solutions m_bvs]. rewrite repeat_length. split; [reflexivity|].
    apply Forall_forall. intros x Hx. apply repeat_spec in Hx. exact Hx.
  - intros H. unfold nsga2_make, mpop_make. destruct (Nat.ltb_spec 0 n); [|reflexivity]. destruct (Nat.ltb_spec 0 m); [|reflexivity]. cbn [ensureb bind]. destruct (Nat.ltb_spec 0 mu); [lia|reflexivity].
Qed.
Print Assumptions C91_make.

(** C91 An exception of the function leaves the solutions of a new algorithm as they were built:
    [mu] null vectors with null values, whether or not they have been evaluated. *)
Theorem C91_interrupted : forall n m mu garbage' c o srt p bits ord sh garbage b g ord' num e s',
  nsga2_make n m mu garbage' = Ok c -> objectives n m o -> 2 <= np_tournament_size p < mu ->
  sorts srt -> visits ord -> visits ord' -> shuffles sh -> fair_breeding n b -> (forall t, fair_generation n (g t)) ->
  nsga2_minimize o srt p bits ord sh garbage b g ord' num (mk_mstate [] c) = (Exc e, s') ->
  mo_stop o (length (ms_trace s')) = Some e /\
  ns_solutions (ms_mem s') = mk_mpop (repeat (repeat false n) mu) (repeat (repeat 0%Z m) mu).
Proof.
  intros n m mu garbage' c o srt p bits ord sh garbage b g ord' num e s' E OB TS SRT V V' SH FB FG R.
  pose proof (C89_run n m mu garbage' c o srt p bits ord sh garbage b g ord' num E OB TS SRT V V' SH FB FG) as H. cbv zeta in H. rewrite R in H.
  apply nsga2_make_Ok in E as (_ & _ & _ & _ & _ & E). rewrite <- E. exact H.
Qed.
Print Assumptions C91_interrupted.

(** C91 The solutions are stored in a population which each run shrinks: when a run ends with more
    non-dominated parents than the previous run returned solutions, it writes out of bounds. *)
Theorem C91_second_run : forall n m mu o ord c rank,
  objectives n m o -> visits ord ->
  length (m_bvs (ns_parents c)) = mu -> 0 < mu -> Forall (fun x => length x = n) (m_bvs (ns_parents c)) ->
  m_values (ns_parents c) = map (mo_value o) (m_bvs (ns_parents c)) ->
  (forall i, i < mu -> in_front (m_values (ns_parents c)) (rank i) i) ->
  length (m_values (ns_solutions c)) = length (m_bvs (ns_solutions c)) ->
  length (m_bvs (ns_solutions c)) < length (filter (fun i => rank i =? 0) (seq 0 mu)) ->
  nsga2_collect ord c = Some UB.
Proof. exact collect_UB. Qed.
Print Assumptions C91_second_run.

(** Two runs of the same algorithm *)
Definition nsga2_twice (o : mobjective) (mu ts : nat) (num : Z) (bits bits' : nat -> nat -> bool) : outcome (res unit * res unit * nat) :=
  c <- nsga2_make 4 2 mu (7, 8) ;;
  let minimize bits := nsga2_minimize o insertion_sort (mk_nsga2_parameters ts false false) bits (fun _ _ => @rev nat) (@rev nat) (7, 8)
                  (example_breeding 0) example_generation (fun _ _ => @rev nat) num in
  let (r, s) := minimize bits (mk_mstate [] c) in
  let (r', s') := minimize bits' s in
  Ok (r, r', length (m_bvs (ns_solutions (ms_mem s)))).
Example C91_case :
  nsga2_example (halves (fun c => if c =? 9 then Some TargetReached else None)) 4 2 3 (fun i j => Nat.even (i + j)) =
    Ok (Exc TargetReached, 9, mk_mpop (repeat (repeat false 4) 4) (repeat [0; 0]%Z 4)) /\
  nsga2_example (halves (fun _ => None)) 4 4 3 (fun i j => Nat.even (i + j)) = Ok (Exc RuntimeError, 0, mk_mpop (repeat (repeat false 4) 4) (repeat [0; 0]%Z 4)) /\
  nsga2_example (halves (fun _ => None)) 2 2 3 (fun i j => Nat.even (i + j)) = Ok (Exc RuntimeError, 0, mk_mpop (repeat (repeat false 4) 2) (repeat [0; 0]%Z 2)) /\
  nsga2_twice (halves (fun _ => None)) 4 2 0 (fun i j => if i =? 0 then j <=? 1 else true) (fun i j => Nat.even (i + j)) = Ok (Ret tt, Bad, 1).
Proof. vm_compute. auto. Qed.
