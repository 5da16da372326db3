(** The number of calls of the information-theoretic EA, of UMDA with random affine maps,
    of the herding evolutionary algorithm, of Boltzmann machine PBIL and of MIMIC, and the sizes of
    their vectors. *)

From Coq Require Import ZArith QArith.
From Verif Require Import Base BaseLemmas BitVector_Model BitVector_Spec BitVector_Proofs Transvection_Model Map_Model Neighborhood_Model Population_Model
  Algorithm_Model Algorithm_Spec Algorithm_Proofs PopAlgorithm_Model ProbabilityVector_Model EvolutionaryAlgorithm_Model
  ItEa_Model RamUmda_Model WalshMoment_Model WalshEda_Model Mimic_Model
  AlgorithmMachine_Model AlgorithmMachine_Spec AlgorithmMachine_Proofs AlgorithmRuns_Proofs PopulationCosts_Proofs EstimationMachine_Spec.
Local Open Scope nat_scope.
Local Notation T := (fun _ => True).

Section Between.
  Context {X : Type} (n : nat) (L : Prop) (R : X -> Prop).
  (** Between [lo] and [hi] calls *)
  Definition costs_in {A} (m : act (alg X) A) (lo hi : nat) (P : A -> Prop) : Prop :=
    forall s, fits n R s -> fits n R (snd (m s)) /\ (L -> fst (m s) <> Pending) /\
      forall a, fst (m s) = Ret a -> P a /\ length (a_trace s) + lo <= length (a_trace (snd (m s))) <= length (a_trace s) + hi /\ a_last (snd (m s)) = a_last s.

  Lemma costs_within {A} (m : act (alg X) A) k lo hi P : costs n L R m k P -> lo <= k <= hi -> costs_in m lo hi P.
  Proof. intros H K s F. destruct (H s F) as (H1 & H2 & H3). split; [exact H1|]. split; [exact H2|]. intros a E. destruct (H3 a E) as (H4 & H5 & H6). split; [exact H4|]. split; [lia|exact H6]. Qed.
  Lemma within_bind {A B} (m : act (alg X) A) (c : A -> act (alg X) B) lo hi lo' hi' P Q : costs_in m lo hi P -> (forall a, P a -> costs_in (c a) lo' hi' Q) ->
    costs_in (abind m c) (lo + lo') (hi + hi') Q.
  Proof.
    intros M K s F. unfold abind. destruct (M s F) as (F' & V0 & V). destruct (m s) as [[a|e| |] s']; cbn [fst snd] in *;
      try (split; [auto|split; [intros H; first [discriminate|now destruct (V0 H)]|intros; discriminate]]).
    destruct (V a eq_refl) as (V1 & V2 & V3). destruct (K a V1 s' F') as (K1 & K2 & K3). split; [exact K1|]. split; [exact K2|].
    intros b Eb. destruct (K3 b Eb) as (K4 & K5 & K6). split; [exact K4|]. split; [lia|congruence].
  Qed.
  Lemma within_quiet {A B} (m : act (alg X) A) (c : A -> act (alg X) B) lo hi (P : A -> Prop) (Q : B -> Prop) : costs n L R m 0 P -> (forall a, P a -> costs_in (c a) lo hi Q) -> costs_in (abind m c) lo hi Q.
  Proof. intros M K. apply (within_bind m c 0 0 lo hi P Q); [|exact K]. apply (costs_within m 0); [exact M|lia]. Qed.

  Lemma within_loop_from iterate num lo hi : (forall i, costs_in (iterate i) lo hi T) ->
    forall fuel i s, fits n R s -> a_last s = false -> ((0 < num)%Z -> (Z.of_nat i <= num)%Z) ->
    let '(r, s') := loop_from iterate num i fuel s in
    fits n R s' /\
    match r with
    | Ret _ => (0 < num)%Z /\ (Z.of_nat (length (a_trace s)) + (num - Z.of_nat i) * Z.of_nat lo <= Z.of_nat (length (a_trace s')) <= Z.of_nat (length (a_trace s)) + (num - Z.of_nat i) * Z.of_nat hi)%Z
    | Pending => L -> (num <= 0 \/ Z.of_nat (i + fuel) <= num)%Z /\ length (a_trace s) + fuel * lo <= length (a_trace s')
    | _ => True
    end.
  Proof.
    intros K. induction fuel as [|fuel IH]; intros i s F HL Hi; cbn [loop_from].
    { split; [exact F|]. intros _. rewrite Nat.add_0_r. split; lia. }
    destruct (Z.ltb_spec 0 num); cbn [andb].
    1: destruct (Z.leb_spec num (Z.of_nat i)).
    1: { split; [exact F|]. split; [lia|]. replace (num - Z.of_nat i)%Z with 0%Z by lia. lia. }
    all: rewrite HL; unfold abind; destruct (K i s F) as (F' & NP & V); destruct (iterate i s) as [[[]|e| |] s1] eqn:E1; cbn [fst snd] in *; auto;
      try (split; [exact F'|]; intros l; now destruct (NP l)); destruct (V tt eq_refl) as (_ & V1 & V2); rewrite HL in V2;
      (assert (Hi1 : (0 < num)%Z -> (Z.of_nat (i + 1) <= num)%Z) by lia);
      specialize (IH (i + 1) s1 F' V2 Hi1);
      destruct (loop_from iterate num (i + 1) fuel s1) as [[[]|e| |] s2]; destruct IH as [IH1 IH2]; (split; [exact IH1|]); auto;
      [destruct IH2 as [IH2 IH3]; split; [assumption|]; replace (Z.of_nat (i + 1)) with (Z.of_nat i + 1)%Z in IH3 by lia;
        replace ((num - Z.of_nat i) * Z.of_nat lo)%Z with ((num - (Z.of_nat i + 1)) * Z.of_nat lo + Z.of_nat lo)%Z by ring;
        replace ((num - Z.of_nat i) * Z.of_nat hi)%Z with ((num - (Z.of_nat i + 1)) * Z.of_nat hi + Z.of_nat hi)%Z by ring; lia
      |intros l; destruct (IH2 l) as [IH3 IH4]; split; [lia|]; cbn [Nat.mul]; lia].
  Qed.
  Lemma within_loop init iterate num fuel first lo hi : costs n L R init first T -> (forall i, costs_in (iterate i) lo hi T) ->
    forall s, fits n R s ->
    let '(r, s') := loop init iterate num fuel s in
    fits n R s' /\
    match r with
    | Ret _ => (0 < num)%Z /\ (Z.of_nat (length (a_trace s) + first) + num * Z.of_nat lo <= Z.of_nat (length (a_trace s')) <= Z.of_nat (length (a_trace s) + first) + num * Z.of_nat hi)%Z
    | Pending => L -> (num <= 0 \/ Z.of_nat fuel <= num)%Z /\ length (a_trace s) + first + fuel * lo <= length (a_trace s')
    | _ => True
    end.
  Proof.
    intros KI K s F. unfold loop, abind. destruct (KI s F) as (F' & NP & V). destruct (init s) as [[[]|e| |] s1] eqn:E1; cbn [fst snd] in *; auto.
    - cbn [amodify]. assert (F2 : fits n R (put_last false s1)) by exact F'. destruct (V tt eq_refl) as (_ & V1 & _).
      pose proof (within_loop_from iterate num lo hi K fuel 0 (put_last false s1) F2 eq_refl) as H. specialize (H ltac:(lia)).
      destruct (loop_from iterate num 0 fuel (put_last false s1)) as [[[]|e| |] s2]; destruct H as [H1 H2]; (split; [exact H1|]); auto; cbn [put_last a_trace] in H2.
      + destruct H2 as [H2 H3]. split; [exact H2|]. rewrite V1, Z.sub_0_r in H3. exact H3.
      + intros l. specialize (H2 l). rewrite V1 in H2. exact H2.
    - split; [exact F'|]. intros l. now destruct (NP l).
  Qed.

  (** The evaluation of a population *)
  Section Member.
    Context (get : X -> population) (put : population -> X -> X) (size : nat).
    Context (RG : forall m, R m -> pop_sized n size (get m)) (RP : forall m p, R m -> pop_sized n size p -> R (put p m)).
    Lemma costs_evaluation o sh srt B (c : unit -> act (alg X) B) (P : B -> Prop) : (forall u, costs n L R (c u) 0 P) ->
      costs n L R (abind (eval_pop get put o) (fun _ => abind (sort_pop get put sh srt) (fun _ => abind (update_with_best get) c))) size P.
    Proof.
      intros C. apply costs_last with (P := T); [now apply costs_eval_pop|]. intros _ _. apply costs_quiet with (P := T); [now apply (costs_sort_pop n L R get put size)|]. intros _ _.
      apply costs_quiet with (P := T); [now apply (costs_update_best n L R get size)|]. intros u _. apply C.
    Qed.
  End Member.
End Between.

Lemma vset_length {A} (l l' : list A) i a : vset l i a = Ok l' -> length l' = length l.
Proof. unfold vset. destruct (i <? length l); [|discriminate]. intros E. apply Ok_inj in E as <-. apply length_upd. Qed.
Lemma vset_vget_sized n (bs bs' : list bv) size i b : length bs = size /\ Forall (fun x => length x = n) bs -> length b = n -> vset bs i b = Ok bs' -> length bs' = size /\ Forall (fun x => length x = n) bs'.
Proof. intros [H1 H2] Lb E. apply (sized_vset n) in E; auto. destruct E. split; congruence. Qed.
Lemma in_sized n (bs : list bv) size i b : length bs = size /\ Forall (fun x => length x = n) bs -> vget bs i = Ok b -> length b = n.
Proof. intros H. exact (sized_vget n size (mk_pop bs [] []) i b H). Qed.

(** The first operation of a sequence succeeds. *)
Ltac succeeds := match goal with |- bind ?z _ = _ -> _ => let a := fresh "a" in destruct z as [a| |]; try discriminate; cbn [bind] end.

(** * Herding evolutionary algorithm *)
Definition he_sized n size (m : hea) : Prop := pop_sized n size (he_pop m).
Lemma herding_sample_sized n k rand sh t x h y h' : length x = n -> herding_sample k rand sh t x h = Ok (y, h') -> length y = n.
Proof.
  intros Lx. unfold herding_sample. cbv zeta. destruct (assertb _); try discriminate. cbn [bind]. destruct (scaled_difference _ _ _ _ _) as [delta| |]; try discriminate. cbn [bind].
  destruct (foldM _ _ x) as [x'| |] eqn:E; try discriminate. cbn [bind]. destruct (moment_add _ _); try discriminate. cbn [bind]. intros E'. apply Ok_inj in E'. injection E' as <- _.
  apply (fold_sized (fun z => length z = n)) in E; [exact E| |exact Lx]. intros s p s' Ls. do 3 succeeds. intros Ev. apply vset_length in Ev. congruence.
Qed.
Lemma costs_he n size (L : Prop) k o p shb shs srt bit : costs n L (he_sized n size) (he_init o bit) 1 T /\ forall i, costs n L (he_sized n size) (he_iterate k o p shb shs srt i) size T.
Proof.
  split.
  - unfold he_init. apply costs_last with (P := T); [apply costs_random_solution|]. intros _ _. apply (costs_put_mem n L (he_sized n size) (fun s => let m := a_mem s in _)); [|exact I].
    intros s (_ & _ & F). exact F.
  - intros i. unfold he_iterate. apply costs_quiet with (P := T).
    + apply costs_on_mem. intros m a m' Rm. unfold he_sample. destruct (foldM _ _ _) as [[bs h]| |] eqn:E; try discriminate. cbn [bind]. intros E'. apply Ok_inj in E'. injection E' as _ <-.
      split; [|exact I]. apply (fold_sized (fun s => length (fst s) = size /\ Forall (fun x => length x = n) (fst s))) in E; [exact E| |exact Rm].
      intros [bs0 h0] j [bs1 h1] B. cbn [fst] in *. destruct (vget bs0 j) as [b| |] eqn:Eb; try discriminate. cbn [bind].
      destruct (herding_sample _ _ _ _ _ _) as [[b' h']| |] eqn:Es; try discriminate. cbn [bind]. destruct (vset bs0 j b') as [bs2| |] eqn:Ev; try discriminate. cbn [bind].
      intros E'. apply Ok_inj in E'. injection E' as <- _. apply (herding_sample_sized n) in Es; [|exact (in_sized n bs0 size j b B Eb)]. exact (vset_vget_sized n bs0 bs2 size j b' B Es Ev).
    + intros _ _. apply (costs_evaluation n L (he_sized n size) he_pop he_put size); [intros m H; exact H|intros m q _ H; exact H|]. intros _.
      apply costs_on_mem. intros m a m' Rm. unfold he_learn. destruct (moment_sum _ _ _); try discriminate. cbn [bind]. destruct (if 1 <? _ then _ else _); try discriminate. cbn [bind].
      destruct (moment_update _ _ _ _); try discriminate. cbn [bind]. destruct (if hp_bound p then _ else _); try discriminate. cbn [bind]. intros E'. apply Ok_inj in E'. injection E' as _ <-.
      split; [exact Rm|exact I].
Qed.

(** * Boltzmann machine PBIL *)
Definition bm_sized n size (m : bmpbil) : Prop := pop_sized n size (bm_pop m) /\ length (bm_state m) = n.
Lemma gibbs_sized n lgs m i u x y : length x = n -> gibbs_update lgs m i u x = Ok y -> length y = n.
Proof.
  intros Lx. unfold gibbs_update. cbv zeta. destruct (assertb _); try discriminate. cbn [bind]. destruct (get1 _ _); try discriminate. cbn [bind].
  destruct (foldM _ (seq 0 i) _); try discriminate. cbn [bind]. destruct (foldM _ _ _); try discriminate. cbn [bind]. intros E. apply vset_length in E. congruence.
Qed.
Lemma bm_sample_sized n lgs p d m t i s s' : length (fst s) = n -> bm_sample lgs n p d m t i s = Ok s' -> length (fst s') = n.
Proof.
  intros Ls. unfold bm_sample. destruct (bp_sampling p); try discriminate.
  - unfold sample_asynchronous. apply (fold_sized (fun s : bv * list nat => length (fst s) = n)); [|exact Ls]. intros s0 c s1 L0. destruct (gibbs_update _ _ _ _ _) as [x| |] eqn:E; try discriminate. cbn [bind].
    intros E'. apply Ok_inj in E' as <-. now apply (gibbs_sized n) in E.
  - unfold sample_full_scan. apply (fold_sized (fun s : bv * list nat => length (fst s) = n)); [|exact Ls]. intros s0 c s1 L0. cbv zeta. destruct (foldM _ _ (fst s0)) as [x| |] eqn:E; try discriminate. cbn [bind].
    intros E'. apply Ok_inj in E' as <-. cbn. apply (fold_sized (fun x => length x = n)) in E; [exact E| |exact L0]. intros x0 j x1 Lx. destruct (vget _ j); try discriminate. cbn [bind]. now apply gibbs_sized.
  - unfold sample_synchronous. apply (fold_sized (fun s : bv * list nat => length (fst s) = n)); [|exact Ls]. intros s0 c s1 L0. destruct (gibbs_update_sync _ _ _ _ _) as [x| |] eqn:E; try discriminate. cbn [bind].
    intros E'. apply Ok_inj in E' as <-. cbn. revert E. unfold gibbs_update_sync. destruct (foldM _ _ _); try discriminate. cbn [bind]. now apply pv_sample_sized.
Qed.
Lemma costs_bm n size (L : Prop) lgs k o p d srt bit gbit : costs n L (bm_sized n size) (bm_init o bit gbit) 1 T /\
  forall i, costs n L (bm_sized n size) (bm_iterate lgs k o n p d srt i) size T.
Proof.
  split.
  - unfold bm_init. apply costs_last with (P := T); [apply costs_random_solution|]. intros _ _. apply (costs_put_mem n L (bm_sized n size) (fun s => let m := a_mem s in _)); [|exact I].
    intros s (_ & _ & [F1 F2]). split; [exact F1|]. cbn. now rewrite length_bv_random.
  - intros i. unfold bm_iterate. apply costs_quiet with (P := T).
    + apply costs_on_mem. intros m a m' [R1 R2]. unfold bm_sample_all. cbv zeta.
      set (x0 := match bp_reset p with EachIteration => _ | _ => _ end). assert (Lx : length x0 = n) by (unfold x0; destruct (bp_reset p); rewrite ?length_bv_random; exact R2). clearbody x0.
      destruct (foldM _ _ _) as [[bs [x perm]]| |] eqn:E; try discriminate. cbn [bind]. intros E'. apply Ok_inj in E'. injection E' as _ <-. split; [|exact I].
      apply (fold_sized (fun s : list bv * (bv * list nat) => (length (fst s) = size /\ Forall (fun x => length x = n) (fst s)) /\ length (fst (snd s)) = n)) in E; [exact E| |split; [exact R1|exact Lx]].
      intros [bs0 [y0 q0]] j [bs1 [y1 q1]] [B LY]. cbn [fst snd] in *. destruct (vget bs0 j) as [b| |]; try discriminate. cbn [bind].
      set (y := match bp_reset p with EachVector => _ | _ => _ end). assert (Ly : length y = n) by (unfold y; destruct (bp_reset p); rewrite ?length_bv_random; exact LY). clearbody y.
      destruct (bm_sample _ _ _ _ _ _ _ _) as [[y' q']| |] eqn:Es; try discriminate. cbn [bind]. apply (bm_sample_sized n) in Es; [|exact Ly]. cbn [fst] in Es.
      destruct (vset bs0 j y') as [bs2| |] eqn:Ev; try discriminate. cbn [bind]. intros E'. apply Ok_inj in E'. injection E' as <- <- _. split; [|exact Es].
      exact (vset_vget_sized n bs0 bs2 size j y' B Es Ev).
    + intros _ _. apply (costs_evaluation n L (bm_sized n size) bm_pop bm_put size); [intros m H; apply H|intros m q [_ H2] H; split; [exact H|exact H2]|]. intros _.
      apply costs_on_mem. intros m a m' Rm. unfold bm_learn. destruct (moment_sum _ _ _); try discriminate. cbn [bind]. destruct (moment_average _ _ _); try discriminate. cbn [bind].
      destruct (bp_negative p); (destruct (moment_sum _ _ _); try discriminate; cbn [bind]); (destruct (moment_average _ _ _); try discriminate; cbn [bind]);
        (destruct (moment_update2 _ _ _ _ _); try discriminate; cbn [bind]); intros E'; apply Ok_inj in E'; injection E' as _ <-; (split; [exact Rm|exact I]).
Qed.

(** * MIMIC *)
Definition mimic_fits n size (m : mimic) : Prop := pop_sized n size (mi_pop m).
Lemma mimic_sample_sized n m x u y : length x = n -> mimic_sample m x u = Ok y -> length y = n.
Proof.
  intros Lx. unfold mimic_sample. do 3 (destruct (assertb _); try discriminate; cbn [bind]). destruct (perm_is_valid _); try discriminate. cbn [bind].
  destruct (assertb _); try discriminate. cbn [bind]. destruct (vget (mi_p1 m) 0); try discriminate. cbn [bind]. destruct (vget (mi_perm m) 0); try discriminate. cbn [bind].
  destruct (vset x _ _) as [x1| |] eqn:E1; try discriminate. cbn [bind]. apply vset_length in E1. intros E. apply (fold_sized (fun z => length z = n)) in E; [exact E| |congruence].
  intros s i s' Ls. repeat succeeds. intros Ev. apply vset_length in Ev. congruence.
Qed.
Lemma costs_mimic n size (L : Prop) lg selection o u shs srt bit sh : costs n L (mimic_fits n size) (mimic_init selection o bit sh) 1 T /\
  forall i, costs n L (mimic_fits n size) (mimic_iterate lg n selection o u shs srt i) size T.
Proof.
  split.
  - unfold mimic_init. apply costs_quiet with (P := T); [now apply costs_assert|]. intros _ _. apply costs_quiet with (P := T); [now apply costs_get|]. intros p _.
    apply costs_quiet with (P := T); [now apply costs_assert|]. intros _ _. apply costs_last with (P := T); [apply costs_random_solution|]. intros _ _.
    apply (costs_put_mem n L (mimic_fits n size) (fun s => let m := a_mem s in _)); [|exact I]. intros s (_ & _ & F). exact F.
  - intros i. unfold mimic_iterate. apply costs_quiet with (P := T).
    + apply costs_on_mem. intros m a m' Rm. unfold mimic_sample_all. destruct (foldM _ _ _) as [bs| |] eqn:E; try discriminate. cbn [bind]. intros E'. apply Ok_inj in E'. injection E' as _ <-.
      split; [|exact I]. apply (fold_sized (fun bs => length bs = size /\ Forall (fun x => length x = n) bs)) in E; [exact E| |exact Rm].
      intros bs0 j bs1 B. destruct (vget bs0 j) as [b| |] eqn:Eb; try discriminate. cbn [bind]. destruct (mimic_sample _ _ _) as [b'| |] eqn:Es; try discriminate. cbn [bind]. intros Ev.
      apply (mimic_sample_sized n) in Es; [|exact (in_sized n bs0 size j b B Eb)]. exact (vset_vget_sized n bs0 bs1 size j b' B Es Ev).
    + intros _ _. apply (costs_evaluation n L (mimic_fits n size) mi_pop mi_put size); [intros m H; exact H|intros m q _ H; exact H|]. intros _.
      apply costs_on_mem. intros m a m' Rm. destruct (update_model _ _ _ m) as [m1| |] eqn:E; try discriminate. cbn [bind]. intros E'. apply Ok_inj in E'. injection E' as _ <-.
      split; [|exact I]. revert E. unfold update_model. cbv zeta. repeat succeeds. destruct a10 as [? [[] ?]]. intros E'. apply Ok_inj in E' as <-. exact Rm.
Qed.

(** * UMDA with random affine maps *)
Definition ram_sized n size (B : Z) (m : ram) : Prop := pop_sized n size (r_x m) /\ pop_sized n size (r_y m) /\ (r_len m <= B)%Z.
Definition is_affine (m : hmap) : Prop := exists ts b, m = MTsAffine ts b.
Lemma affine_sized n m x out m' z : is_affine m -> length out = n -> map_apply m x out = Ok (m', z) -> length z = n.
Proof.
  intros (ts & b & ->) Lo. cbn [map_apply]. destruct (Nat.eqb_spec (length x) (length b)) as [H1|]; [|discriminate]. cbn [assertb bind].
  destruct (Nat.eqb_spec (length out) (length b)) as [H2|]; [|discriminate]. cbn [assertb bind]. destruct (ts_multiply_bv x ts) as [y| |] eqn:Ey; try discriminate. cbn [bind].
  unfold bv_add. destruct (Nat.eqb_spec (length y) (length b)) as [H3|]; [|discriminate]. cbn [assertb bind]. intros E. apply Ok_inj in E. injection E as _ <-.
  apply length_map2_eq; congruence.
Qed.
Lemma pairs_last n : forall t l, t <= distinct_pairs l -> ts_random_loop n t l <> Ok None.
Proof.
  assert (G : forall k l, length l <= k -> 0 < distinct_pairs l -> exists tv l', tv_random_loop l = Some (tv, l') /\ distinct_pairs l = S (distinct_pairs l')).
  { induction k as [|k IH]; intros [|i [|j l]] HK Hp; cbn [length distinct_pairs] in *; try lia. cbn [tv_random_loop]. destruct (i =? j) eqn:E.
    - destruct (IH l) as (tv & l' & E1 & E2); [lia|lia|]. exists tv, l'. split; [exact E1|]. lia.
    - exists (mk_tv i j), l. split; [reflexivity|lia]. }
  induction t as [|t IH]; intros l H; cbn [ts_random_loop]; [discriminate|]. unfold tv_random. destruct (1 <? n); [|discriminate]. cbn [assertb bind].
  destruct (G (length l) l) as (tv & l' & E1 & E2); [lia|lia|]. rewrite E1. specialize (IH l' ltac:(lia)). destruct (ts_random_loop n t l') as [[q|]| |]; cbn [bind option_map]; try discriminate. contradiction.
Qed.
Lemma costs_lift_opt {X A} n (L : Prop) (R : X -> Prop) (r : outcome (option A)) : (L -> r <> Ok None) -> costs n L R (lift_opt r) 0 T.
Proof.
  intros H s F. split; [exact F|]. unfold lift_opt. cbn [fst snd]. split.
  - intros l. specialize (H l). destruct r as [[a|]| |]; try discriminate. contradiction.
  - intros a _. auto.
Qed.
Lemma length_bounded B c it ud gd len len' : lc_mode c <> LengthOther -> (lc_lower c <= lc_upper c <= B)%Z -> (ud <= lc_upper c)%Z -> (len <= B)%Z ->
  compute_ts_length c it ud gd len = Ok len' -> (len' <= B)%Z.
Proof.
  intros M U D H. unfold compute_ts_length. destruct (lc_mode c); try contradiction; try discriminate.
  - intros E. apply Ok_inj in E. lia.
  - destruct (_ =? 0)%Z; [discriminate|]. cbv zeta. destruct (_ =? _)%Z; intros E; apply Ok_inj in E; lia.
  - destruct (_ =? 0)%Z; [discriminate|]. cbv zeta. destruct (_ =? _)%Z; intros E; apply Ok_inj in E; lia.
  - destruct (_ <=? _)%Z; [|discriminate]. intros E. apply Ok_inj in E. lia.
  - destruct (_ && _); [|discriminate]. intros E. apply Ok_inj in E. lia.
  - destruct (_ && _); [|discriminate]. intros E. apply Ok_inj in E. lia.
Qed.
Lemma latent_sized n size selection mp x ys ys' : is_affine mp -> length ys = size /\ Forall (fun x => length x = n) ys -> to_latent selection mp x ys = Ok ys' -> length ys' = size /\ Forall (fun x => length x = n) ys'.
Proof.
  intros A B. unfold to_latent. apply (fold_sized (fun ys => length ys = size /\ Forall (fun x => length x = n) ys)); [|exact B]. intros ys0 i ys1 B0.
  destruct (best_bv x i); try discriminate. cbn [bind]. destruct (vget ys0 i) as [out| |] eqn:Eo; try discriminate. cbn [bind].
  destruct (map_apply _ _ _) as [[m' z]| |] eqn:Ez; try discriminate. cbn [bind]. intros Ev. apply (affine_sized n) in Ez; [|exact A|exact (in_sized n ys0 size i out B0 Eo)].
  exact (vset_vget_sized n ys0 ys1 size i z B0 Ez Ev).
Qed.

Section Ram.
  Context (n size : nat) (B : Z) (L : Prop) (o : objective) (selection : nat) (c : length_config).
  Context (ud : nat -> Z) (gd : nat -> nat) (tb : nat -> nat -> bool) (td : nat -> list nat) (u : nat -> nat -> nat -> Q) (shs : nat -> list nat -> list nat).
  Context (srt : (nat -> nat -> bool) -> list nat -> list nat).
  Context (HM : lc_mode c <> LengthOther) (HB : (lc_lower c <= lc_upper c <= B)%Z) (HU : forall t, (ud t <= lc_upper c)%Z) (HL : L -> forall t, (B <= Z.of_nat (distinct_pairs (td t)))%Z).
  Local Notation R := (ram_sized n size B).

  Lemma costs_ram_init bit bits : costs n L R (ram_init o bit bits) 1 T.
  Proof.
    unfold ram_init. apply costs_last with (P := T); [apply costs_random_solution|]. intros _ _.
    apply (costs_put_mem n L R (fun s => r_put (pop_random bits (r_x (a_mem s))) (a_mem s))); [|exact I]. intros s (_ & _ & [[F1 F2] F3]). split; [|exact F3].
    unfold pop_random, r_put, pop_size. split; cbn [r_x p_bvs].
    - now rewrite map_length, seq_length.
    - apply Forall_forall. intros y Hy. apply in_map_iff in Hy as (i & <- & Hi). apply in_seq in Hi. rewrite length_bv_random. rewrite Forall_forall in F2. apply F2. apply nth_In. lia.
  Qed.
  Lemma costs_ram_maps t : costs n L R (ram_maps n c ud gd tb td t) 0 (fun maps => is_affine (fst maps) /\ is_affine (snd maps)).
  Proof.
    unfold ram_maps. apply costs_quiet with (P := T).
    { apply costs_on_mem. intros m a m' (R1 & R2 & R3). destruct (compute_ts_length _ _ _ _ _) as [len| |] eqn:E; try discriminate. cbn [bind]. intros E'. apply Ok_inj in E'. injection E' as _ <-.
      split; [|exact I]. split; [exact R1|]. split; [exact R2|]. exact (length_bounded B _ _ _ _ _ _ HM HB (HU t) R3 E). }
    intros _ _. apply costs_quiet with (P := fun len => (len <= B)%Z); [apply costs_get; intros s (_ & _ & (_ & _ & F)); exact F|]. intros len Hlen.
    apply costs_quiet with (P := T).
    { apply costs_lift_opt. intros l. unfold ts_affine_random, ts_random. destruct (0 <? n); [|discriminate]. destruct (0 <=? len)%Z eqn:E0; [|discriminate]. cbn [assertb bind].
      destruct (1 <? n); [|discriminate]. cbn [assertb bind]. pose proof (pairs_last n (Z.to_nat len) (td t)) as H. specialize (HL l t). specialize (H ltac:(lia)).
      destruct (ts_random_loop n (Z.to_nat len) (td t)) as [[q|]| |]; cbn [bind option_map]; try discriminate. contradiction. }
    intros p _. apply costs_quiet with (P := is_affine).
    { apply costs_lift. intros a. unfold ts_affine_invert. cbv zeta. destruct (ts_multiply_bv _ _) as [b'| |]; try discriminate. cbn [bind]. intros E. apply Ok_inj in E as <-. eexists _, _. reflexivity. }
    intros inv Hi. apply costs_ret. split; [eexists _, _; reflexivity|exact Hi].
  Qed.
  Lemma costs_ram t : costs n L R (ram_iterate o n selection c ud gd tb td u shs srt t) size T.
  Proof.
    unfold ram_iterate. apply costs_last with (P := T).
    { unfold ram_generation. apply costs_last with (P := T); [apply (costs_eval_pop n L R r_x r_put size); [intros m H; apply H|intros m q H Q; split; [exact Q|apply H]]|]. intros _ _.
      apply costs_quiet with (P := T); [apply (costs_sort_pop n L R r_x r_put size); [intros m H; apply H|intros m q H Q; split; [exact Q|apply H]]|]. intros _ _.
      apply (costs_update_best n L R r_x size). intros m H; apply H. }
    intros _ _. apply costs_quiet with (P := fun maps => is_affine (fst maps) /\ is_affine (snd maps)); [apply costs_ram_maps|]. intros [f g] [A1 A2]. cbn [fst snd] in *.
    apply costs_on_mem. intros m a m' (R1 & R2 & R3). destruct (to_latent _ _ _ _) as [ys| |] eqn:Ey; try discriminate. cbn [bind]. succeeds.
    destruct (foldM _ _ _) as [xs| |] eqn:Ex; try discriminate. cbn [bind]. intros E'. apply Ok_inj in E'. injection E' as _ <-. split; [|exact I].
    split; [|split; [exact (latent_sized n size selection f (r_x m) _ ys A1 R2 Ey)|exact R3]].
    apply (fold_sized (fun xs => length xs = size /\ Forall (fun x => length x = n) xs)) in Ex; [exact Ex| |exact R1]. intros xs0 k xs1 B0. succeeds.
    destruct (vget xs0 k) as [out| |] eqn:Eo; try discriminate. cbn [bind]. destruct (map_apply _ _ _) as [[g' z]| |] eqn:Ez; try discriminate. cbn [bind]. intros Ev.
    apply (affine_sized n) in Ez; [|exact A2|exact (in_sized n xs0 size k out B0 Eo)]. exact (vset_vget_sized n xs0 xs1 size k z B0 Ez Ev).
  Qed.
  Lemma costs_ram2 uc ul ux coin pc pl t : costs n L R (ram2_iterate o n selection c ud gd tb td u shs srt uc ul ux coin pc pl t) size T.
  Proof.
    unfold ram2_iterate. apply costs_last with (P := T).
    { unfold ram_generation. apply costs_last with (P := T); [apply (costs_eval_pop n L R r_x r_put size); [intros m H; apply H|intros m q H Q; split; [exact Q|apply H]]|]. intros _ _.
      apply costs_quiet with (P := T); [apply (costs_sort_pop n L R r_x r_put size); [intros m H; apply H|intros m q H Q; split; [exact Q|apply H]]|]. intros _ _.
      apply (costs_update_best n L R r_x size). intros m H; apply H. }
    intros _ _. apply costs_quiet with (P := T).
    { apply costs_on_mem. intros m a m' Rm. succeeds. intros E'. apply Ok_inj in E'. injection E' as _ <-. split; [exact Rm|exact I]. }
    intros _ _. apply costs_quiet with (P := fun maps => is_affine (fst maps) /\ is_affine (snd maps)); [apply costs_ram_maps|]. intros [f g] [A1 A2]. cbn [fst snd] in *.
    apply costs_on_mem. intros m a m' (R1 & R2 & R3). destruct (to_latent _ _ _ _) as [ys| |] eqn:Ey; try discriminate. cbn [bind]. succeeds.
    destruct (foldM _ _ _) as [xs| |] eqn:Ex; try discriminate. cbn [bind]. intros E'. apply Ok_inj in E'. injection E' as _ <-. split; [|exact I].
    split; [|split; [exact (latent_sized n size selection f (r_x m) _ ys A1 R2 Ey)|exact R3]].
    apply (fold_sized (fun xs => length xs = size /\ Forall (fun x => length x = n) xs)) in Ex; [exact Ex| |exact R1]. intros xs0 k xs1 B0.
    destruct (vget xs0 k) as [out| |] eqn:Eo; try discriminate. cbn [bind]. pose proof (in_sized n xs0 size k out B0 Eo) as Lo.
    match goal with |- bind ?w _ = _ -> _ => destruct w as [z| |] eqn:Ez; try discriminate; cbn [bind] end. intros Ev. assert (Lz : length z = n).
    { revert Ez. destruct (qltb (uc t k) pc); [|destruct (qltb (ul t k) pl)].
      - succeeds. destruct (map_apply _ _ _) as [[g' b]| |]; try discriminate. cbn [bind]. succeeds. now apply crossover_sized.
      - succeeds. destruct (map_apply _ _ _) as [[g' b]| |] eqn:Eb; try discriminate. cbn [bind]. intros E'. apply Ok_inj in E' as <-. now apply (affine_sized n) in Eb.
      - now apply pv_sample_sized. }
    exact (vset_vget_sized n xs0 xs1 size k z B0 Lz Ev).
  Qed.
End Ram.

(** * Information-theoretic EA *)
Definition itea_sized n size (m : itea) : Prop := pop_sized n size (it_pop m) /\ nh_sized n (it_nh m) /\ length (fst (it_center m)) = n.
Lemma random_weight_sized x k u y c : bv_random_weight x k u = Ok (y, c) -> length y = length x.
Proof.
  unfold bv_random_weight. destruct (assertb _); try discriminate. cbn [bind]. generalize (length x) at 1 as m. generalize 0 as c0. revert k y c.
  induction x as [|b x IH]; intros k y c c0 m; cbn [bv_random_weight_loop]; [intros E; apply Ok_inj in E; now injection E as <- _|].
  destruct (0 <? k); [destruct (assertb _); try discriminate; cbn [bind]; cbv zeta; destruct (negb _)|];
    destruct (bv_random_weight_loop _ _ _ _ _) as [[r c']| |] eqn:E; try discriminate; cbn [bind]; intros E'; apply Ok_inj in E'; injection E' as <- _; cbn [length]; f_equal; now apply IH in E.
Qed.
Lemma flip_sized n x i y : length x = n -> bv_flip x i = Ok y -> length y = n.
Proof. intros Lx. unfold bv_flip. succeeds. intros E. apply vset_length in E. congruence. Qed.
Section ItEa.
  Context (n size : nat) (L : Prop) (o : objective) (pr : it_params) (small : Q -> bool) (d : nat -> nat -> draws) (shs : nat -> list nat -> list nat).
  Context (srt : (nat -> nat -> bool) -> list nat -> list nat) (coin : nat -> nat -> bool) (pick : nat -> nat -> nat -> nat) (flip : nat -> bool).
  Context (HL : L -> forall t k, plenty n (d t k)).
  Local Notation R := (itea_sized n size).

  Lemma costs_it_init bit u : costs n L R (it_init o pr bit u) 1 T.
  Proof.
    unfold it_init. apply costs_last with (P := T).
    - destruct (ip_replacement pr); try apply costs_random_solution.
      apply costs_quiet with (P := fun x => length x = n); [apply costs_get; intros s (_ & F & _); exact F|]. intros x Lx.
      apply costs_quiet with (P := fun r => length (fst r) = n); [apply costs_lift; intros [y c] E; apply random_weight_sized in E; cbn; congruence|]. intros r Lr.
      apply costs_quiet with (P := T); [apply (costs_put_sol n L R (fun s => (fst r, snd (a_sol s)))); [intros; exact Lr|exact I]|]. intros _ _.
      apply costs_last with (P := T); [now apply costs_evaluate|]. intros v _. apply (costs_put_sol n L R (fun _ => (fst r, v))); [intros; exact Lr|exact I].
    - intros _ _. apply (costs_put_mem n L R (fun s => put_nh _ _)); [|exact I]. intros s (_ & F2 & (F3 & F4 & _)). split; [exact F3|]. split; [now apply allow_sized|]. cbn. exact F2.
  Qed.
  Lemma costs_evaluate_center : costs n L R (evaluate_center o) 1 T.
  Proof.
    unfold evaluate_center. apply costs_quiet with (P := fun c => length (fst c) = n); [apply costs_get; intros s (_ & _ & (_ & _ & F)); exact F|]. intros c Lc.
    apply costs_last with (P := T); [now apply costs_evaluate|]. intros v _. apply costs_quiet with (P := T).
    - apply (costs_put_mem n L R (fun s => put_center (fst c, v) (a_mem s))); [|exact I]. intros s (_ & _ & (F1 & F2 & _)). split; [exact F1|]. split; [exact F2|exact Lc].
    - intros _ _. now apply costs_update.
  Qed.
  Lemma costs_flip_center i : costs n L R (flip_center o i) 1 T.
  Proof.
    unfold flip_center. apply costs_quiet with (P := T); [|intros _ _; apply costs_evaluate_center]. apply costs_on_mem. intros m a m' (R1 & R2 & R3).
    destruct (bv_flip _ _) as [x| |] eqn:E; try discriminate. cbn [bind]. intros E'. apply Ok_inj in E'. injection E' as _ <-. split; [|exact I]. split; [exact R1|]. split; [exact R2|].
    cbn. now apply (flip_sized n) in E.
  Qed.
  Lemma costs_replace cls t : costs_in n L R (replace_center o n pr coin pick flip cls t)
    (match ip_replacement pr with MlUpdate => 1 | _ => 0 end) (match ip_replacement pr with MlUpdate | IncrementalMlUpdate => 1 | _ => 0 end) T.
  Proof.
    unfold replace_center. destruct (ip_replacement pr).
    - apply costs_within with (k := 0); [|lia]. apply costs_on_mem. intros m a m' (R1 & R2 & R3). succeeds. destruct (_ <=? _)%Z.
      + destruct (best_bv (it_pop m) 0) as [b| |] eqn:E; try discriminate. cbn [bind]. intros E'. apply Ok_inj in E'. injection E' as _ <-. split; [|exact I]. split; [exact R1|]. split; [exact R2|].
        exact (sized_best n size (it_pop m) 0 b R1 E).
      + intros E'. apply Ok_inj in E'. injection E' as _ <-. repeat split; auto; apply R1 || apply R2.
    - apply costs_within with (k := 0); [|lia]. apply costs_on_mem. intros m a m' (R1 & R2 & R3).
      destruct (best_bv (it_pop m) 0) as [b| |] eqn:E; try discriminate. cbn [bind]. succeeds. intros E'. apply Ok_inj in E'. injection E' as _ <-. split; [|exact I]. split; [exact R1|]. split; [exact R2|].
      exact (sized_best n size (it_pop m) 0 b R1 E).
    - apply costs_within with (k := 1); [|lia]. unfold ml_update. apply costs_quiet with (P := T); [|intros _ _; apply costs_evaluate_center]. apply costs_on_mem. intros m a m' (R1 & R2 & R3).
      do 2 succeeds. cbv zeta. intros E'. apply Ok_inj in E'. injection E' as _ <-. split; [|exact I]. split; [exact R1|]. split; [exact R2|]. cbn [put_center it_center fst].
      rewrite app_length, map_length, seq_length, skipn_length. lia.
    - unfold incremental_ml_update. apply within_quiet with (P := T); [now apply costs_get|]. intros m _. apply within_quiet with (P := T); [now apply costs_lift|]. intros l _. cbv zeta.
      apply within_quiet with (P := T); [now apply costs_lift|]. intros i _. apply within_quiet with (P := T); [now apply costs_assert|]. intros _ _. apply within_quiet with (P := T); [now apply costs_lift|]. intros v _.
      match goal with |- costs_in _ _ _ (if ?b then _ else _) _ _ _ => destruct b end; [apply costs_within with (k := 1); [apply costs_flip_center|lia]|].
      destruct (Qeq_bool _ _); [destruct (flip t); [apply costs_within with (k := 1); [apply costs_flip_center|lia]|]|]; (apply costs_within with (k := 0); [now apply costs_ret|lia]).
    - apply costs_within with (k := 0); [now apply costs_ret|lia].
    - intros s F. split; [exact F|]. split; discriminate.
  Qed.
  Lemma costs_it_mutate k dr : (L -> plenty n dr) -> costs n L R (it_mutate k dr) 0 T.
  Proof.
    intros HP. unfold it_mutate. apply costs_quiet with (P := R); [apply costs_get; intros s (_ & _ & F); exact F|]. intros m (R1 & R2 & R3).
    apply costs_quiet with (P := fun z => length z = n); [apply costs_lift; intros z; now apply sized_vget with (size := size)|]. intros z Lz.
    destruct (map_sized n (it_nh m) (fst (it_center m)) z dr R2) as [M1 M2]. destruct (nh_map _ _ _ _) as [r|]; [|apply costs_pending; intros l; now destruct (M1 (HP l))].
    apply costs_quiet with (P := fun r => nh_sized n (fst r) /\ length (snd r) = n).
    - apply costs_lift. intros [h y] E. apply M2. now rewrite E.
    - intros [h y] [S1 S2]. cbn [fst snd] in *. apply costs_on_mem. intros m0 a m' (Q1 & Q2 & Q3). destruct (vset _ _ _) as [bs| |] eqn:E; try discriminate. cbn [bind]. intros E'.
      apply Ok_inj in E'. injection E' as _ <-. split; [|exact I]. split; [exact (vset_vget_sized n _ bs size k y Q1 S2 E)|]. split; [exact S1|exact Q3].
  Qed.
  Lemma costs_it t : costs_in n L R (it_iterate o n pr small d shs srt coin pick flip t)
    (size + match ip_replacement pr with MlUpdate => 1 | _ => 0 end) (size + match ip_replacement pr with MlUpdate | IncrementalMlUpdate => 1 | _ => 0 end) T.
  Proof.
    unfold it_iterate. apply within_quiet with (P := T); [now apply costs_get|]. intros s0 _. apply within_quiet with (P := T); [now apply costs_assert|]. intros _ _.
    apply within_quiet with (P := T).
    { apply (costs_put_mem n L R (fun s => put_nh _ _)); [|exact I]. intros s (_ & _ & (F1 & F2 & F3)). split; [exact F1|]. split; [now apply rate_sized|exact F3]. }
    intros _ _. apply within_quiet with (P := T); [apply costs_afor_quiet; intros k _; apply costs_it_mutate; auto|]. intros _ _.
    apply within_bind with (P := T).
    { apply costs_within with (k := size); [|lia]. apply costs_last with (P := T); [apply (costs_eval_pop n L R it_pop it_put size); [intros m H; apply H|intros m q H Q; split; [exact Q|apply H]]|]. intros _ _.
      apply costs_quiet with (P := T); [apply (costs_sort_pop n L R it_pop it_put size); [intros m H; apply H|intros m q H Q; split; [exact Q|apply H]]|]. intros _ _.
      apply (costs_update_best n L R it_pop size). intros m H; apply H. }
    intros _ _. apply within_quiet with (P := T); [now apply costs_get|]. intros m _. apply within_quiet with (P := T); [now apply costs_lift|]. intros cls _.
    apply within_quiet with (P := T).
    { apply costs_on_mem. intros m0 a m' Rm. succeeds. intros E'. apply Ok_inj in E'. injection E' as _ <-. split; [exact Rm|exact I]. }
    intros _ _. rewrite <- (Nat.add_0_r (match ip_replacement pr with MlUpdate => 1 | _ => 0 end)), <- (Nat.add_0_r (match ip_replacement pr with MlUpdate | IncrementalMlUpdate => 1 | _ => 0 end)).
    apply within_bind with (P := T); [apply costs_replace|]. intros _ _. apply costs_within with (k := 0); [|lia]. unfold igo_update. apply costs_on_mem. intros m0 a m' Rm. cbv zeta. repeat succeeds.
    intros E'. apply Ok_inj in E'. injection E' as _ <-. split; [exact Rm|exact I].
  Qed.
End ItEa.
