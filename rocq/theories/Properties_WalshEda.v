(** Properties of the herding evolutionary algorithm and of the Boltzmann machine PBIL:
    C102 to C105. *)

From Coq Require Import QArith Lqa Permutation.
From Verif Require Import Base BaseLemmas BitVector_Model BitVector_Spec Representation_Spec Map_Spec Algorithm_Model Algorithm_Spec Algorithm_Proofs
  Population_Model Population_Spec Population_Proofs PopAlgorithm_Model PopAlgorithm_Spec PopAlgorithm_Proofs ProbabilityVector_Model ProbabilityVector_Spec
  Properties_Algorithm Properties_Population Properties_ProbabilityVector Properties_EvolutionaryAlgorithm
  WalshMoment_Model WalshMoment_Spec WalshMoment_Proofs Herding_Proofs Properties_WalshMoment Frame_Proofs WalshEda_Model WalshEda_Spec Hea_Proofs HeaKinds_Proofs BmPbil_Proofs BmPbilRuns_Proofs.
Local Open Scope nat_scope.

Lemma alg_make_fresh {X} n (m : X) s : alg_make n m = Ok s -> 0 < n /\ a_trace s = [] /\ a_sol s = (repeat false n, 0%Z) /\ a_last s = false /\ a_mem s = m.
Proof. unfold alg_make. destruct (Nat.ltb_spec 0 n); cbn [ensureb bind]; intros E; [|discriminate]. apply Ok_inj in E. subst s. auto. Qed.

Lemma he_start k n size garbage m s : he_make k n size garbage = Ok m -> alg_make n m = Ok s -> he_sized k n size (a_mem s) /\ a_trace s = [] /\ length (fst (a_sol s)) = n /\ 0 < size.
Proof.
  intros E1 E2. destruct (alg_make_fresh n m s E2) as (N & T & SO & _ & M). destruct (Nat.lt_ge_cases 0 size) as [S0|S0].
  - destruct (he_make_Ok k n size garbage N S0) as (m' & E & SZ). rewrite E in E1. apply Ok_inj in E1. subst. rewrite SO. cbn [fst]. rewrite repeat_length. auto.
  - unfold he_make, pop_make in E1. rewrite (proj2 (Nat.ltb_lt 0 n)), !make_Ok in E1 by assumption. rewrite (proj2 (Nat.ltb_ge 0 size)) in E1 by lia. discriminate.
Qed.

(** ** C102: an iteration of the herding evolutionary algorithm, in every state of a run.
    The samples of the iteration are those which herding gives with the target, after the samples taken since
    it has been reset for the last time; they are all evaluated. The target, whose numbers
    are between -1 and 1, moves towards the mean moment of best of them. If an evaluation
    throws then the target is left unchanged. *)
Theorem C102_iteration k o n size p shb shs srt bit garbage m s0 t s :
  he_admissible size p -> (hp_random p = true -> forall t i, shuffles (shb t i)) -> (forall t, shuffles (shs t)) -> sorts srt ->
  he_make k n size garbage = Ok m -> alg_make n m = Ok s0 ->
  reached (he_init o bit) (he_iterate k o p shb shs srt) s0 t s ->
  length (a_trace s) = 1 + size * t /\ top_of o (a_trace s) (a_sol s) /\
  all_entries (in_interval (-1) 1) n (he_target (a_mem s)) /\
  match he_iterate k o p shb shs srt t s with
  | (Ret _, s') => exists samples kept,
      length samples = size /\ a_trace s' = a_trace s ++ samples /\
      he_samples n p (shb t) (he_target (a_mem s)) (he_past size p t (a_trace s)) samples /\
      best_of (hp_selection p) kept (valued o samples) /\
      he_target_moved k n p kept (he_target (a_mem s)) (he_target (a_mem s')) /\
      top_of o (a_trace s') (a_sol s')
  | (Exc e, s') => o_stop o (length (a_trace s')) = Some e /\ lagging o size s' /\ he_target (a_mem s') = he_target (a_mem s)
  | (Bad, _) | (Pending, _) => False
  end.
Proof.
  intros ADM HB HSH HSO E1 E2 RE. destruct (he_start _ _ _ _ _ _ E1 E2) as (SZ & T & L & S0).
  destruct (he_reached k o n size p shb shs srt HB HSH HSO ADM bit s0 SZ T L t s RE) as (TO & LT & LS & past & IN & EP).
  split; [assumption|]. split; [assumption|]. split; [apply IN|].
  pose proof (he_iterate_wp k o n size p shb shs srt HB HSH HSO ADM t past s IN TO) as G. apply wp_result in G. cbv zeta in G. rewrite EP in G.
  destruct (he_iterate k o p shb shs srt t s) as [[x|e| |] s'].
  - destruct G as (samples & kept & B1 & B2 & B3 & B4 & B5 & B6 & B7 & B8 & B9 & B10). exists samples, kept. auto 10.
  - destruct G as (G1 & (e' & E & G2) & G3 & _). injection E as <-. auto.
  - destruct G.
  - destruct G as (_ & (e' & E & _) & _). discriminate.
Qed.
Print Assumptions C102_iteration.

(** The target at the start of a run is the moment of the uniform distribution. *)
Theorem C102_initialization k o n size bit garbage m s0 : he_make k n size garbage = Ok m -> alg_make n m = Ok s0 ->
  match he_init o bit s0 with
  | (Ret _, s) => a_trace s = [map bit (seq 0 n)] /\ a_sol s = (map bit (seq 0 n), o_value o (map bit (seq 0 n))) /\
      (forall i, i < n -> (mom1 (he_target (a_mem s)) i == 0)%Q) /\ (forall i j, j < i < n -> (mom2 (he_target (a_mem s)) i j == 0)%Q)
  | (Exc e, s) => o_stop o 0 = Some e /\ a_trace s = []
  | (Bad, _) | (Pending, _) => False
  end.
Proof.
  intros E1 E2. destruct (he_start _ _ _ _ _ _ E1 E2) as (SZ & T & L & S0). destruct (alg_make_fresh _ _ _ E2) as (_ & _ & SO & _).
  unfold he_init, random_solution, abind, amodify, aget, evaluate. cbn [put_sol a_trace]. rewrite T. cbn [length]. destruct (o_stop o 0) eqn:ST; [cbn; auto|].
  cbn [put_sol put_trace put_mem a_trace a_sol a_mem he_target fst snd]. rewrite T. unfold bv_random. rewrite L. split; [reflexivity|]. split; [reflexivity|]. split; intros; rewrite ?init_mom1, ?init_mom2; reflexivity.
Qed.
Print Assumptions C102_initialization.

(** ** C103: runs of the herding evolutionary algorithm.  The solution of a run is a best
    vector of those evaluated, as far as the interruption allows; a run which returns has evaluated
    one random vector and a population for each one of its iterations; the numbers of the target
    are always between -1 and 1. *)
Theorem C103_run k o n size p shb shs srt bit garbage num fuel m s0 :
  he_admissible size p -> (hp_random p = true -> forall t i, shuffles (shb t i)) -> (forall t, shuffles (shs t)) -> sorts srt ->
  he_make k n size garbage = Ok m -> alg_make n m = Ok s0 ->
  let '(r, s) := loop (he_init o bit) (he_iterate k o p shb shs srt) num fuel s0 in
  run_top o size r s /\
  (r = Ret tt -> (0 < num)%Z /\ length (a_trace s) = 1 + size * Z.to_nat num) /\
  (a_trace s = [] \/ all_entries (in_interval (-1) 1) n (he_target (a_mem s))).
Proof.
  intros ADM HB HSH HSO E1 E2. destruct (he_start _ _ _ _ _ _ E1 E2) as (SZ & T & L & S0).
  pose proof (he_run k o n size p shb shs srt HB HSH HSO ADM bit num fuel s0 S0 SZ T L) as R.
  assert (C : forall u s, loop (he_init o bit) (he_iterate k o p shb shs srt) num fuel s0 = (Ret u, s) -> (0 < num)%Z /\ he_at k o n size p (Z.to_nat num) s).
  { clear R. intros u s. apply (loop_counts (he_at k o n size p) _ _ (fun _ _ => True)).
    - pose proof (he_init_wp k o n size bit s0 SZ T L) as G. unfold wp in G |- *. destruct (he_init o bit s0) as [[[]|e| |] s1] eqn:EI; auto.
      apply (he_reached k o n size p shb shs srt HB HSH HSO ADM bit s0 SZ T L). now apply reached_start.
    - intros i a IN LA. pose proof IN as (TO & A2 & A3 & past & A4 & A5). eapply wp_mono; [apply (he_iterate_wp k o n size p shb shs srt HB HSH HSO ADM i past a A4 TO)| |auto]. cbn beta.
      intros _ a' (samples & kept & B1 & B2 & B3 & B4 & B5 & B6 & B7 & B8 & B9 & B10). cbv zeta in *. rewrite A5 in *. split; [|congruence].
      split; [assumption|]. split; [rewrite B4, app_length, A2, B1; lia|]. split; [auto|]. eexists. split; [exact B10|]. rewrite B4. now apply past_next. }
  destruct (loop _ _ _ _ _) as [r s]. destruct R as (R1 & R2 & R3). split; [assumption|]. split.
  - intros ->. destruct (C tt s eq_refl) as (C1 & (_ & C2 & _)). auto.
  - destruct R2 as [R2|(past & R2)]; [now left|right; apply R2].
Qed.
Print Assumptions C103_run.

(** Triangular and full moments give the same runs, for the same random numbers: the same
    evaluations in the same order, the same solution, the same exceptions. *)
Theorem C103_kinds o n size p shb shs srt bit garbage garbage' num fuel m m' s0 s0' :
  he_admissible size p -> (hp_random p = true -> forall t i, shuffles (shb t i)) -> (forall t, shuffles (shs t)) -> sorts srt ->
  he_make Triangular n size garbage = Ok m -> alg_make n m = Ok s0 -> he_make Full n size garbage' = Ok m' -> alg_make n m' = Ok s0' ->
  let '(r, s) := loop (he_init o bit) (he_iterate Triangular o p shb shs srt) num fuel s0 in
  let '(r', s') := loop (he_init o bit) (he_iterate Full o p shb shs srt) num fuel s0' in
  r = r' /\ a_trace s = a_trace s' /\ a_sol s = a_sol s' /\
  (r = Ret tt -> (forall i, i < n -> (mom1 (he_target (a_mem s)) i == mom1 (he_target (a_mem s')) i)%Q) /\
     (forall i j, j < i < n -> (mom2 (he_target (a_mem s)) i j == mom2 (he_target (a_mem s')) i j)%Q)).
Proof.
  intros ADM HB HSH HSO E1 E2 E1' E2'. destruct (he_start _ _ _ _ _ _ E1 E2) as (SZ & T & L & S0). destruct (he_start _ _ _ _ _ _ E1' E2') as (SZ' & T' & L' & _).
  destruct (alg_make_fresh _ _ _ E2) as (N & _ & SO & LA & M). destruct (alg_make_fresh _ _ _ E2') as (_ & _ & SO' & LA' & M').
  assert (PO : he_pop (a_mem s0) = he_pop (a_mem s0')).
  { rewrite M, M'. unfold he_make, herding_make in E1, E1'. rewrite (proj2 (Nat.ltb_lt 0 n)), !make_Ok in E1, E1' by assumption. cbn [ensureb bind] in E1, E1'.
    destruct (pop_make size n) as [q|e|]; cbn [bind] in E1, E1'; try discriminate. apply Ok_inj in E1, E1'. subst. reflexivity. }
  pose proof (runs_alike Triangular Full o n size p shb shs srt HB HSH HSO ADM bit num fuel s0 s0' SZ SZ' PO T T' L ltac:(congruence) ltac:(congruence)) as (R1 & R2 & R3 & R4).
  destruct (loop (he_init o bit) (he_iterate Triangular o p shb shs srt) num fuel s0) as [r s], (loop (he_init o bit) (he_iterate Full o p shb shs srt) num fuel s0') as [r' s']. cbn [fst snd] in *.
  split; [assumption|]. split; [assumption|]. split; [assumption|]. intros E. destruct (R2 E) as (_ & _ & _ & _ & _ & SN & _). exact SN.
Qed.
Print Assumptions C103_kinds.

(** The constructor refuses empty vectors and populations; the default parameters are
    admissible exactly if there are at least two bits. *)
Theorem C103_make k n size garbage :
  match he_make k n size garbage with
  | Ok m => 0 < n /\ 0 < size
  | Throw e => e = RuntimeError /\ (n = 0 \/ size = 0)
  | UB => False
  end /\ (0 < n -> 0 < size -> (he_admissible size (he_default n) <-> 2 <= n)).
Proof.
  split.
  - unfold he_make, pop_make, herding_make. destruct (Nat.ltb_spec 0 n); cbn [ensureb bind]; [|split; [reflexivity|lia]]. rewrite !make_Ok by assumption. cbn [bind].
    destruct (Nat.ltb_spec 0 size); cbn [ensureb bind]; [|split; [reflexivity|lia]]. auto.
  - intros N S0. assert (P : (0 < inject_Z (Z.of_nat n))%Q). { change 0%Q with (inject_Z 0). rewrite <- Zlt_Qlt. lia. } unfold he_admissible, he_default. cbn [hp_selection hp_rate hp_bound hp_margin]. split.
    + intros (_ & _ & H). destruct (H eq_refl) as (_ & H2). destruct n as [|[|c]]; [lia| |lia]. exfalso. vm_compute in H2. discriminate.
    + intros H. split; [lia|]. split; [split; discriminate|]. intros _. assert (P2 : (1 < inject_Z (Z.of_nat n))%Q). { change 1%Q with (inject_Z 1). rewrite <- Zlt_Qlt. lia. }
      split; [apply Qle_shift_div_l; lra|apply Qlt_shift_div_r; lra].
Qed.
Print Assumptions C103_make.

(** Parameters which are not admissible are accepted, but the first iteration violates an
    assertion after the evaluation of the population: a selection larger than the population, or bounds
    with a margin which is not in [0, 1), as the default one with a single bit. *)
Theorem C103_misuse k o n size p shb shs srt bit garbage m s0 s :
  (hp_random p = true -> forall t i, shuffles (shb t i)) -> (forall t, shuffles (shs t)) -> sorts srt -> never_stops o ->
  he_make k n size garbage = Ok m -> alg_make n m = Ok s0 -> reached (he_init o bit) (he_iterate k o p shb shs srt) s0 0 s ->
  size < hp_selection p \/ (hp_selection p <= size /\ (0 <= hp_rate p <= 1)%Q /\ hp_bound p = true /\ ~ (0 <= hp_margin p < 1)%Q) ->
  exists samples s', he_iterate k o p shb shs srt 0 s = (Bad, s') /\ length samples = size /\ a_trace s' = a_trace s ++ samples.
Proof.
  intros HB HSH HSO NS E1 E2 RE H. destruct (he_start _ _ _ _ _ _ E1 E2) as (SZ & T & L & S0).
  assert (IN : he_inv k size n [] (a_mem s) /\ top_of o (a_trace s) (a_sol s)).
  { inversion RE as [s1 EI ES1 ES2|]; [|lia]. subst s. pose proof (he_init_wp k o n size bit s0 SZ T L) as G. unfold wp in G. rewrite EI in G. cbn [put_last a_mem a_trace a_sol]. tauto. }
  destruct IN as (IN & TO). destruct H as [H|(H1 & H2 & H3 & H4)].
  - now apply (he_misuse_selection k o n size p shb shs srt HB HSH HSO 0 []).
  - now apply (he_misuse_margin k o n size p shb shs srt HB HSH HSO 0 []).
Qed.
Print Assumptions C103_misuse.

(** ** C104: an iteration of the Boltzmann machine PBIL, in every state of a run.  The
    samples of the iteration are reached one from the other by Gibbs sampling with the model,
    in the sampling mode and with the resets asked for, the first one from the last sample of the
    previous iteration; they are all evaluated. The model moves by the
    difference of the mean moments of best samples, and of all samples or of worst ones. If an evaluation throws then the model is
    left unchanged. *)
Lemma bm_fresh k n size m s : bm_make k n size = Ok m -> alg_make n m = Ok s -> bm_inv k size n (a_mem s) /\ a_trace s = [] /\ length (fst (a_sol s)) = n /\ 0 < size.
Proof.
  intros E1 E2. destruct (alg_make_fresh n m s E2) as (N & T & SO & _ & M). destruct (Nat.lt_ge_cases 0 size) as [S0|S0].
  - destruct (bm_make_Ok k n size N S0) as (m' & E & SZ & _). rewrite E in E1. apply Ok_inj in E1. subst. rewrite SO. cbn [fst]. rewrite repeat_length. auto.
  - unfold bm_make, pop_make in E1. rewrite (proj2 (Nat.ltb_lt 0 n)) in E1 by assumption. cbn [ensureb bind] in E1. rewrite (proj2 (Nat.ltb_ge 0 size)) in E1 by lia. discriminate.
Qed.

Theorem C104_iteration logistic k o n size p d srt bit gbit m s0 t s :
  (forall a b, (a == b)%Q -> (logistic a == logistic b)%Q) -> bm_admissible k size p -> bm_fair n d -> sorts srt ->
  bm_make k n size = Ok m -> alg_make n m = Ok s0 ->
  reached (bm_init o bit gbit) (bm_iterate logistic k o n p d srt) s0 t s ->
  length (a_trace s) = 1 + size * t /\ top_of o (a_trace s) (a_sol s) /\
  bm_state (a_mem s) = (if t =? 0 then map gbit (seq 0 n) else last (a_trace s) []) /\
  match bm_iterate logistic k o n p d srt t s with
  | (Ret _, s') => exists samples best other,
      length samples = size /\ a_trace s' = a_trace s ++ samples /\
      bm_samples logistic n p d (bm_model (a_mem s)) t (bm_state (a_mem s)) samples /\
      best_of (bp_selection p) best (valued o samples) /\
      (if bp_negative p then worst_of (bp_selection p) other (valued o samples) else other = valued o samples) /\
      bm_moved k n p best other (bm_model (a_mem s)) (bm_model (a_mem s')) /\
      top_of o (a_trace s') (a_sol s')
  | (Exc e, s') => o_stop o (length (a_trace s')) = Some e /\ lagging o size s' /\ bm_model (a_mem s') = bm_model (a_mem s)
  | (Bad, _) | (Pending, _) => False
  end.
Proof.
  intros LP ADM FAIR HSO E1 E2 RE. destruct (bm_fresh _ _ _ _ _ E1 E2) as (IN0 & T & L & S0).
  destruct (bm_reached_at logistic k o n size p d srt LP FAIR HSO bit gbit s0 ADM IN0 T L t s RE) as (TO & LT & LS & IN & ST).
  split; [assumption|]. split; [assumption|]. split.
  { destruct (Nat.eqb_spec t 0) as [->|NE]; [|apply ST; lia]. inversion RE as [s1 EI ES1 ES2|]; [|lia]. subst s. pose proof (bm_start_wp k o n size bit gbit s0 IN0 T L) as G. unfold wp in G. rewrite EI in G. cbn [put_last a_mem]. tauto. }
  pose proof (bm_iterate_wp logistic k o n size p d srt LP FAIR HSO t s ADM IN TO) as G. apply wp_result in G.
  destruct (bm_iterate logistic k o n p d srt t s) as [[x|e| |] s'].
  - destruct G as (samples & best & other & B1 & B2 & B3 & B4 & B5 & B6 & B7 & B8 & B9 & B10 & B11 & B12). exists samples, best, other. auto 10.
  - destruct G as (G1 & (e' & E & G2) & G3 & _). injection E as <-. auto.
  - destruct G.
  - destruct G as (_ & (e' & E & _) & _). discriminate.
Qed.
Print Assumptions C104_iteration.

(** The model at the start of a run is zero, hence the first Gibbs samples are uniform. *)
Theorem C104_initialization k o n size bit gbit m s0 : bm_make k n size = Ok m -> alg_make n m = Ok s0 ->
  match bm_init o bit gbit s0 with
  | (Ret _, s) => a_trace s = [map bit (seq 0 n)] /\ a_sol s = (map bit (seq 0 n), o_value o (map bit (seq 0 n))) /\ bm_state (a_mem s) = map gbit (seq 0 n) /\
      (forall i x, i < n -> length x = n -> (gain n (bm_model (a_mem s)) i x == 0)%Q)
  | (Exc e, s) => o_stop o 0 = Some e /\ a_trace s = []
  | (Bad, _) | (Pending, _) => False
  end.
Proof.
  intros E1 E2. destruct (bm_fresh _ _ _ _ _ E1 E2) as (SZ & T & L & S0). pose proof (bm_start_wp k o n size bit gbit s0 SZ T L) as G. unfold wp in G. revert G.
  unfold bm_init, random_solution, abind, amodify, aget, evaluate. cbn [put_sol a_trace]. rewrite T. cbn [length]. destruct (o_stop o 0) eqn:ST; [cbn; auto|].
  cbn [put_sol put_trace put_mem a_trace a_sol a_mem bm_model bm_state fst snd]. rewrite T. intros (_ & _ & _ & _ & G5 & G6 & G7). assert (EB : bv_random (fst (a_sol s0)) bit = map bit (seq 0 n)) by (unfold bv_random; now rewrite L). rewrite EB. split; [reflexivity|]. split; [reflexivity|]. split; [exact G7|].
  intros i x Hi LX. set (z := moment_init _) in *. assert (E : forall y, (energy n z y == 0)%Q).
  { intros y. rewrite (energy_same n z (zero_moment k n)); [|split; intros; [rewrite G5, zero_mom1 by assumption|rewrite G6, zero_mom2 by assumption]; reflexivity].
    unfold energy. rewrite <- (ItEa_Proofs.total_zero (fun _ => 0%Q) (seq 0 n)) by reflexivity. apply ItEa_Proofs.total_ext. intros a _. rewrite zero_mom1.
    rewrite (ItEa_Proofs.total_zero _ (seq 0 a)); [ring|]. intros b _. rewrite zero_mom2. ring. }
  unfold gain. rewrite !E. ring.
Qed.
Print Assumptions C104_initialization.

(** ** C105: runs of the Boltzmann machine PBIL. *)
Theorem C105_run logistic k o n size p d srt bit gbit num fuel m s0 :
  (forall a b, (a == b)%Q -> (logistic a == logistic b)%Q) -> bm_admissible k size p -> bm_fair n d -> sorts srt ->
  bm_make k n size = Ok m -> alg_make n m = Ok s0 ->
  let '(r, s) := loop (bm_init o bit gbit) (bm_iterate logistic k o n p d srt) num fuel s0 in
  run_top o size r s /\
  (r = Ret tt -> (0 < num)%Z /\ length (a_trace s) = 1 + size * Z.to_nat num) /\
  (a_trace s = [] \/ (shaped k n (bm_model (a_mem s)) /\ (k = Full -> symmetric n (bm_model (a_mem s))))).
Proof.
  intros LP ADM FAIR HSO E1 E2. destruct (bm_fresh _ _ _ _ _ E1 E2) as (IN0 & T & L & S0).
  pose proof (bm_run logistic k o n size p d srt LP FAIR HSO bit gbit num fuel s0 ADM IN0 T L) as R.
  assert (C : forall u s, loop (bm_init o bit gbit) (bm_iterate logistic k o n p d srt) num fuel s0 = (Ret u, s) -> (0 < num)%Z /\ bm_at k o n size (Z.to_nat num) s).
  { clear R. intros u s. apply (loop_counts (bm_at k o n size) _ _ (fun _ _ => True)).
    - pose proof (bm_start_wp k o n size bit gbit s0 IN0 T L) as G. unfold wp in G |- *. destruct (bm_init o bit gbit s0) as [[[]|e| |] s1] eqn:EI; auto.
      apply (bm_reached_at logistic k o n size p d srt LP FAIR HSO bit gbit s0 ADM IN0 T L). now apply reached_start.
    - intros i a IN LA. pose proof IN as (TO & A2 & A3 & A4 & A5). eapply wp_mono; [apply (bm_iterate_wp logistic k o n size p d srt LP FAIR HSO i a ADM A4 TO)| |auto]. cbn beta.
      intros _ a' (samples & best & other & B1 & B2 & B3 & B4 & B5 & B6 & B7 & B8 & B9 & B10 & B11 & B12). split; [|congruence].
      split; [assumption|]. split; [rewrite B4, app_length, A2, B1; lia|]. split; [auto|]. split; [assumption|]. intros _. rewrite B8, B4. symmetry. apply last_app.
      destruct samples; [|discriminate]. cbn in B1. lia. }
  destruct (loop _ _ _ _ _) as [r s]. destruct R as (R1 & R2 & R3). split; [assumption|]. split.
  - intros ->. destruct (C tt s eq_refl) as (C1 & (_ & C2 & _)). auto.
  - destruct R2 as [R2|R2]; [now left|right; split; apply R2].
Qed.
Print Assumptions C105_run.

(** Triangular and full moments give the same runs, for the same random numbers, in the
    sampling modes which triangular moments support. *)
Theorem C105_kinds logistic o n size p d srt bit gbit num fuel m m' s0 s0' :
  (forall a b, (a == b)%Q -> (logistic a == logistic b)%Q) -> bm_admissible Triangular size p -> bm_fair n d -> sorts srt ->
  bm_make Triangular n size = Ok m -> alg_make n m = Ok s0 -> bm_make Full n size = Ok m' -> alg_make n m' = Ok s0' ->
  let '(r, s) := loop (bm_init o bit gbit) (bm_iterate logistic Triangular o n p d srt) num fuel s0 in
  let '(r', s') := loop (bm_init o bit gbit) (bm_iterate logistic Full o n p d srt) num fuel s0' in
  r = r' /\ a_trace s = a_trace s' /\ a_sol s = a_sol s' /\
  (r = Ret tt -> (forall i, i < n -> (mom1 (bm_model (a_mem s)) i == mom1 (bm_model (a_mem s')) i)%Q) /\
     (forall i j, j < i < n -> (mom2 (bm_model (a_mem s)) i j == mom2 (bm_model (a_mem s')) i j)%Q)).
Proof.
  intros LP ADM FAIR HSO E1 E2 E1' E2'. destruct (bm_fresh _ _ _ _ _ E1 E2) as (SZ & T & L & S0). destruct (bm_fresh _ _ _ _ _ E1' E2') as (SZ' & T' & L' & _).
  destruct (alg_make_fresh _ _ _ E2) as (N & _ & SO & LA & M). destruct (alg_make_fresh _ _ _ E2') as (_ & _ & SO' & LA' & M').
  assert (ADM' : bm_admissible Full size p) by (destruct ADM as (D1 & D2 & _); split; [assumption|split; [assumption|auto]]).
  assert (PO : bm_pop (a_mem s0) = bm_pop (a_mem s0')).
  { rewrite M, M'. unfold bm_make in E1, E1'. rewrite (proj2 (Nat.ltb_lt 0 n)), !make_Ok in E1, E1' by assumption. cbn [ensureb bind] in E1, E1'.
    destruct (pop_make size n) as [q|e|]; cbn [bind] in E1, E1'; try discriminate. apply Ok_inj in E1, E1'. subst. reflexivity. }
  pose proof (bm_runs_alike logistic Triangular Full o n size p d srt LP FAIR HSO ADM ADM' bit gbit num fuel s0 s0' SZ SZ' PO T T' L ltac:(congruence) ltac:(congruence)) as (R1 & R2 & R3 & R4).
  destruct (loop (bm_init o bit gbit) (bm_iterate logistic Triangular o n p d srt) num fuel s0) as [r s], (loop (bm_init o bit gbit) (bm_iterate logistic Full o n p d srt) num fuel s0') as [r' s']. cbn [fst snd] in *.
  split; [assumption|]. split; [assumption|]. split; [assumption|]. intros E. destruct (R2 E) as (_ & _ & _ & _ & _ & _ & SN & _). exact SN.
Qed.
Print Assumptions C105_kinds.

(** The constructor refuses empty vectors and populations; the default parameters are
    admissible. *)
Theorem C105_make k n size :
  match bm_make k n size with
  | Ok m => 0 < n /\ 0 < size
  | Throw e => e = RuntimeError /\ (n = 0 \/ size = 0)
  | UB => False
  end /\ (0 < size -> bm_admissible k size bm_default).
Proof.
  split.
  - unfold bm_make, pop_make. destruct (Nat.ltb_spec 0 n); cbn [ensureb bind]; [|split; [reflexivity|lia]]. 
    destruct (Nat.ltb_spec 0 size); cbn [ensureb bind]; [|split; [reflexivity|lia]]. rewrite make_Ok by assumption. cbn [bind]. auto.
  - intros S0. unfold bm_admissible, bm_default. cbn. split; [lia|]. split; discriminate.
Qed.
Print Assumptions C105_make.

(** Parameters which are not admissible are accepted by the constructor and the setters, but the first iteration
    fails: an empty selection, or one larger than the population, violates an assertion after the evaluation of
    the population; an unknown sampling mode is refused only there, and before any evaluation; synchronous sampling
    with triangular moments reads out of bounds. *)
Theorem C105_misuse logistic k o n size p d srt bit gbit m s0 s :
  (forall a b, (a == b)%Q -> (logistic a == logistic b)%Q) -> bm_fair n d -> sorts srt -> never_stops o ->
  bm_make k n size = Ok m -> alg_make n m = Ok s0 -> reached (bm_init o bit gbit) (bm_iterate logistic k o n p d srt) s0 0 s ->
  let r := bm_iterate logistic k o n p d srt 0 s in
  (bp_sampling p <> OtherSampling -> (bp_sampling p = Synchronous -> k = Full) -> bp_selection p = 0 \/ size < bp_selection p ->
     fst r = Bad /\ exists samples, length samples = size /\ a_trace (snd r) = a_trace s ++ samples) /\
  (bp_sampling p = OtherSampling -> fst r = Exc RuntimeError /\ a_trace (snd r) = a_trace s) /\
  (bp_sampling p = Synchronous -> k = Triangular -> 2 <= n -> 0 < bp_cycles p -> fst r = Bad).
Proof.
  intros LP FAIR HSO NS E1 E2 RE r. destruct (bm_fresh _ _ _ _ _ E1 E2) as (SZ & T & L & S0).
  assert (IN : bm_inv k size n (a_mem s) /\ top_of o (a_trace s) (a_sol s)).
  { inversion RE as [s1 EI ES1 ES2|]; [|lia]. subst s. pose proof (bm_start_wp k o n size bit gbit s0 SZ T L) as G. unfold wp in G. rewrite EI in G. cbn [put_last a_mem a_trace a_sol]. tauto. }
  destruct IN as (IN & TO). destruct (bm_misuse_sampling logistic k o n size p d srt 0 s IN) as (M1 & M2). split; [|split].
  - intros H1 H2 H3. destruct (bm_misuse_selection logistic k o n size p d srt LP FAIR HSO 0 s NS IN TO H1 H2 H3) as (samples & s' & E & X1 & X2). unfold r. rewrite E. cbn [fst snd]. eauto.
  - intros H. unfold r. rewrite M1 by assumption. auto.
  - intros H1 H2 H3 H4. unfold r. now rewrite M2.
Qed.
Print Assumptions C105_misuse.

(** ** Concrete cases *)

Definition example_he : he_params := mk_he_params (1 # 4) 2 2 (1 # 2) true true.
Definition example_he_run (k : kind) (stop : nat) :=
  observe (he_make k 3 4 7) 3 (he_init (example_objective stop) Nat.even)
    (he_iterate k (example_objective stop) example_he (fun _ i => if Nat.even i then @rev nat else fun l => l) (fun _ => @rev nat) insertion_sort) 3 9
    (fun m => (map Qred (first_moment (he_target m)), h_time (he_herding m))).
Definition example_bm (s : sampling_mode) (neg : bool) : bm_params := mk_bm_params 2 (1 # 2) 3 2 neg s EachIteration.
Definition example_logistic (q : Q) : Q := if Qlt_le_dec q 0 then 1 # 4 else if Qlt_le_dec 0 q then 3 # 4 else 1 # 2.
Definition example_bm_draws : bm_draws :=
  mk_bm_draws (fun t i c => Nat.modulo (t + i + c) 3) (fun t i c => if Nat.even c then @rev nat else fun l => l) (fun t i c j => (Z.of_nat (Nat.modulo (t * 5 + i * 3 + c * 2 + j) 7) # 7)) (fun t => Nat.odd) (fun t i => Nat.even) (fun _ => @rev nat).
Definition example_bm_run (k : kind) (s : sampling_mode) (neg : bool) (stop : nat) :=
  observe (bm_make k 3 4) 3 (bm_init (example_objective stop) Nat.even Nat.odd)
    (bm_iterate example_logistic k (example_objective stop) 3 (example_bm s neg) example_bm_draws insertion_sort) 3 9
    (fun m => (map Qred (first_moment (bm_model m)), bm_state m)).
Lemma example_he_admissible : he_admissible 4 example_he.
Proof. unfold he_admissible. cbn. split; [lia|]. split; [split; discriminate|]. intros _. split; [discriminate|reflexivity]. Qed.
Lemma rev_or_id_shuffles b : shuffles (if b : bool then @rev nat else fun l => l).
Proof. destruct b; intros l; [apply Permutation_rev|apply Permutation_refl]. Qed.

(** The hypotheses hold together; runs return or are interrupted by the function. The herding is reset
    every two iterations: it holds the samples of one iteration after the third one. *)
Example C102_case : he_admissible 4 example_he /\ (forall t i : nat, shuffles (if Nat.even i then @rev nat else fun l => l)) /\
  (exists m s0 s, he_make Triangular 3 4 7 = Ok m /\ alg_make 3 m = Ok s0 /\
     reached (he_init (example_objective 99) Nat.even)
       (he_iterate Triangular (example_objective 99) example_he (fun _ i => if Nat.even i then @rev nat else fun l => l) (fun _ => @rev nat) insertion_sort) s0 1 s) /\
  example_he_run Triangular 99 = Ok (Ret tt, 13, ([true; true; true], 3%Z), ([(-3) # 4; (-3) # 4; (-3) # 4]%Q, 4%Z)) /\
  example_he_run Full 99 = Ok (Ret tt, 13, ([true; true; true], 3%Z), ([(-3) # 4; (-3) # 4; (-3) # 4]%Q, 4%Z)) /\
  example_he_run Full 7 = Ok (Exc LastEvaluation, 7, ([true; true; true], 3%Z), ([(-1) # 2; 0; 0]%Q, 8%Z)).
Proof.
  split; [apply example_he_admissible|]. split; [intros; apply rev_or_id_shuffles|]. split.
  - eexists _, _, _. split; [vm_compute; reflexivity|]. split; [vm_compute; reflexivity|]. refine (reached_next _ _ _ 0 _ _ (reached_start _ _ _ _ _) _); vm_compute; reflexivity.
  - repeat split; vm_compute; reflexivity.
Qed.

(** With the default parameters and one bit the first iteration violates an assertion. *)
Example C103_case : observe (he_make Triangular 1 2 0) 1 (he_init (example_objective 99) Nat.even)
    (he_iterate Triangular (example_objective 99) (he_default 1) (fun _ _ => @rev nat) (fun _ => @rev nat) insertion_sort) 3 9 (fun m => h_time (he_herding m)) =
  Ok (Bad, 3, ([true], 1%Z), 2%Z).
Proof. vm_compute. reflexivity. Qed.

Lemma example_logistic_proper a b : (a == b)%Q -> (example_logistic a == example_logistic b)%Q.
Proof. intros E. unfold example_logistic. destruct (Qlt_le_dec a 0), (Qlt_le_dec b 0), (Qlt_le_dec 0 a), (Qlt_le_dec 0 b); try reflexivity; exfalso; lra. Qed.
Lemma example_bm_fair : bm_fair 3 example_bm_draws.
Proof.
  unfold bm_fair, example_bm_draws. cbn [d_choose d_shuffle d_sort]. split; [intros; apply Nat.mod_upper_bound; lia|]. split; [intros; apply rev_or_id_shuffles|]. intros _ l. apply Permutation_rev.
Qed.
Example C104_case : (forall a b, (a == b)%Q -> (example_logistic a == example_logistic b)%Q) /\ bm_fair 3 example_bm_draws /\ bm_admissible Triangular 4 (example_bm Asynchronous false) /\
  bm_admissible Full 4 (example_bm Synchronous true) /\
  (exists m s0 s, bm_make Full 3 4 = Ok m /\ alg_make 3 m = Ok s0 /\
     reached (bm_init (example_objective 99) Nat.even Nat.odd) (bm_iterate example_logistic Full (example_objective 99) 3 (example_bm Synchronous false) example_bm_draws insertion_sort) s0 1 s) /\
  example_bm_run Triangular Asynchronous false 99 = Ok (Ret tt, 13, ([true; true; true], 3%Z), ([(-1) # 2; (-1) # 2; (-1) # 4]%Q, [true; true; true])) /\
  example_bm_run Full Asynchronous false 99 = Ok (Ret tt, 13, ([true; true; true], 3%Z), ([(-1) # 2; (-1) # 2; (-1) # 4]%Q, [true; true; true])) /\
  example_bm_run Full FullScan true 99 = Ok (Ret tt, 13, ([true; true; true], 3%Z), ([(-3) # 2; (-3) # 2; (-1) # 2]%Q, [true; true; true])) /\
  example_bm_run Full Synchronous false 99 = Ok (Ret tt, 13, ([true; true; true], 3%Z), ([(-3) # 4; (-3) # 4; 0]%Q, [true; true; true])).
Proof.
  split; [apply example_logistic_proper|]. split; [apply example_bm_fair|]. split; [split; [cbn; lia|split; cbn; discriminate]|]. split; [split; [cbn; lia|split; cbn; [discriminate|reflexivity]]|]. split.
  - eexists _, _, _. split; [vm_compute; reflexivity|]. split; [vm_compute; reflexivity|]. refine (reached_next _ _ _ 0 _ _ (reached_start _ _ _ _ _) _); vm_compute; reflexivity.
  - repeat split; vm_compute; reflexivity.
Qed.
Example C105_case : example_bm_run Triangular Synchronous false 99 = Ok (Bad, 1, ([true; false; true], 2%Z), ([0; 0; 0]%Q, [false; true; false])) /\
  example_bm_run Triangular OtherSampling false 99 = Ok (Exc RuntimeError, 1, ([true; false; true], 2%Z), ([0; 0; 0]%Q, [false; true; false])).
Proof. split; vm_compute; reflexivity. Qed.
