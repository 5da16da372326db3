(** The population algorithms only know their function by its calls; the sizes of their vectors
    and the number of their calls. *)

From Coq Require Import ZArith QArith.
From Verif Require Import Base BaseLemmas BitVector_Model BitVector_Spec BitVector_Proofs Neighborhood_Model Population_Model
  Algorithm_Model Algorithm_Spec Algorithm_Proofs PopAlgorithm_Model ProbabilityVector_Model EvolutionaryAlgorithm_Model
  AlgorithmMachine_Model AlgorithmMachine_Spec AlgorithmMachine_Proofs AlgorithmRuns_Proofs.
Local Open Scope nat_scope.

(** * Outcomes *)

Ltac own_more := repeat first
  [ own_step
  | match goal with |- own_outcome (let '(_, _) := ?p in _) => destruct p end
  | apply own_foldM; intros ].

Lemma own_best_index p i : own_outcome (best_index p i).
Proof. unfold best_index. own_more. Qed.
Lemma own_best_bv p i : own_outcome (best_bv p i).
Proof. unfold best_bv. apply own_bind; [apply own_best_index|]. intros. own_more. Qed.
Lemma own_best_value p i : own_outcome (best_value p i).
Proof. unfold best_value. apply own_bind; [apply own_best_index|]. intros. own_more. Qed.
Lemma own_swap {A} (l1 : list A) i l2 j : own_outcome (swap_at l1 i l2 j).
Proof. unfold swap_at. own_more. Qed.
Lemma own_take s i : own_outcome (take_best s i).
Proof.
  unfold take_best. destruct s. apply own_bind; [apply own_best_value|]. intros v. apply own_bind; [apply own_vset|]. intros vs.
  apply own_bind; [apply own_best_index|]. intros k. apply own_bind; [apply own_swap|]. intros []. apply own_ok.
Qed.
Lemma own_give k s i : own_outcome (give k s i).
Proof.
  unfold give. destruct s. apply own_bind; [apply own_vget|]. intros v. apply own_bind; [apply own_vset|]. intros vs.
  apply own_bind; [apply own_swap|]. intros []. apply own_ok.
Qed.
Lemma own_partial_sort sh psrt p k : own_outcome (pop_partial_sort sh psrt p k).
Proof. unfold pop_partial_sort. own_more. Qed.
Lemma own_comma sh psrt ps os : own_outcome (comma_select sh psrt ps os).
Proof.
  unfold comma_select. apply own_bind; [apply own_partial_sort|]. intros os'. apply own_bind; [apply own_foldM; intros; apply own_take|]. intros []. apply own_ok.
Qed.
Lemma own_plus sh psrt ps os pool : own_outcome (plus_select sh psrt ps os pool).
Proof.
  unfold plus_select. apply own_bind; [apply own_foldM; intros; apply own_give|]. intros [pool1 ps1].
  apply own_bind; [apply own_foldM; intros; apply own_give|]. intros [pool2 os2]. apply own_bind; [apply own_partial_sort|]. intros pool3.
  apply own_bind; [apply own_foldM; intros; apply own_take|]. intros []. apply own_ok.
Qed.
Lemma own_tournament {T} better bvs (values : list T) sh t : own_outcome (tournament_select better bvs values sh t).
Proof. unfold tournament_select. cbv zeta. own_more. Qed.
Lemma own_set_size bvs t n : own_outcome (set_tournament_size bvs t n).
Proof. unfold set_tournament_size. own_more. Qed.
Lemma own_mutate h x d r : nh_mutate h x d = Some r -> own_outcome r.
Proof.
  unfold nh_mutate, with_sample. destruct (_ =? _); [|intros [= <-]; own_more]. destruct (sample_bits h d) as [u|] eqn:E; [|discriminate].
  intros [= <-]. apply own_bind; [exact (own_sample h d u E)|]. intros l. own_more.
Qed.
Lemma own_map h x z d r : nh_map h x z d = Some r -> own_outcome r.
Proof.
  unfold nh_map, with_sample. destruct (_ && _); [|intros [= <-]; own_more]. destruct (sample_bits h d) as [u|] eqn:E; [|discriminate].
  intros [= <-]. apply own_bind; [exact (own_sample h d u E)|]. intros l. own_more.
Qed.
Lemma own_pv_sample pv x u : own_outcome (pv_sample pv x u).
Proof. unfold pv_sample. own_more. Qed.
Lemma own_pv_add pv x : own_outcome (pv_add pv x).
Proof. unfold pv_add. own_more. Qed.
Lemma own_pv_update pv x r : own_outcome (pv_update pv x r).
Proof. unfold pv_update. own_more. Qed.
Lemma own_pv_update2 pv x y r : own_outcome (pv_update2 pv x y r).
Proof. unfold pv_update2. own_more. Qed.
Lemma own_mean selection p size : own_outcome (mean_of_best selection p size).
Proof.
  unfold mean_of_best. apply own_bind; [apply own_foldM; intros; apply own_bind; [apply own_best_bv|intros; apply own_pv_add]|].
  intros. unfold pv_average. own_more.
Qed.
Lemma own_uniform_crossover c x y z : own_outcome (uniform_crossover c x y z).
Proof. unfold uniform_crossover. own_more. Qed.

(** * Silent parts *)

Lemma silent_bind {X A B} (m : act (alg X) A) (k : A -> act (alg X) B) : silent m -> (forall a, silent (k a)) -> silent (abind m k).
Proof.
  intros M K s. unfold abind. destruct (M s) as [M1 M2]. destruct (m s) as [[a|e| |] s']; cbn [fst snd] in *; try (split; [exact M1|split; destruct M2; congruence]).
  destruct (K a s') as [K1 K2]. split; [congruence|exact K2].
Qed.
Lemma silent_lift {X A} (r : outcome A) : own_outcome r -> silent (X := X) (lift r).
Proof. intros [H1 H2] s. split; [reflexivity|]. destruct r as [a|e|]; split; cbn; congruence. Qed.
Lemma silent_afor {X} (f : nat -> act (alg X) unit) l : (forall i, silent (f i)) -> silent (afor f l).
Proof. intros H. induction l as [|i l IH]; cbn; [apply silent_ret|]. apply silent_bind; auto. Qed.
Lemma silent_set_solution {X} x v : silent (X := X) (set_solution x v).
Proof. apply silent_modify. reflexivity. Qed.
Lemma silent_on_pop {X} (get : X -> population) put h : (forall p, own_outcome (h p)) -> silent (on_pop get put h).
Proof. intros H. apply silent_on_mem. intros m. apply own_bind; [apply H|]. intros. apply own_ok. Qed.
Lemma silent_sort {X} (get : X -> population) put sh srt : silent (sort_pop get put sh srt).
Proof. apply silent_on_pop. intros. apply own_ok. Qed.
Lemma silent_update_best {X} (get : X -> population) : silent (update_with_best get).
Proof.
  unfold update_with_best. apply silent_bind; [apply silent_get|]. intros p. apply silent_bind; [apply silent_lift, own_best_bv|]. intros b.
  apply silent_bind; [apply silent_lift, own_best_value|]. intros v. apply silent_update.
Qed.
Lemma silent_set_mutation {Y} small allow : silent (set_mutation (Y := Y) small allow).
Proof. apply silent_modify. reflexivity. Qed.
Lemma silent_set_offspring {Y} k x : silent (set_offspring (Y := Y) k x).
Proof. apply silent_on_mem. intros. own_more. Qed.
Lemma silent_mutate {Y} k d : silent (mutate_offspring (Y := Y) k d).
Proof.
  unfold mutate_offspring. apply silent_bind; [apply silent_get|]. intros m. apply silent_bind; [apply silent_lift, own_vget|]. intros x.
  destruct (nh_mutate (ea_mut m) x d) as [r|] eqn:E; [|apply silent_pending].
  apply silent_bind; [exact (silent_lift r (own_mutate _ _ _ _ E))|]. intros []. apply silent_bind; [apply silent_set_offspring|]. intros _. apply silent_modify. reflexivity.
Qed.
Lemma silent_random_parents {Y} bits : silent (random_parents (Y := Y) bits).
Proof. apply silent_modify. reflexivity. Qed.
Lemma silent_copy {Y} k j : silent (copy_parent (Y := Y) k j).
Proof.
  unfold copy_parent. apply silent_bind; [apply silent_get|]. intros p. apply silent_bind; [apply silent_lift, own_vget|]. intros x. apply silent_set_offspring.
Qed.
Lemma silent_offsprings {Y} pick d : silent (make_offsprings (Y := Y) pick d).
Proof.
  unfold make_offsprings. apply silent_bind; [apply silent_get|]. intros m. apply silent_afor. intros k.
  apply silent_bind; [apply silent_copy|]. intros _. apply silent_mutate.
Qed.
Lemma silent_comma {Y} sh psrt : silent (comma_replace (Y := Y) sh psrt).
Proof. apply silent_on_mem. intros m. apply own_bind; [apply own_comma|]. intros []. apply own_ok. Qed.
Lemma silent_select sh : silent (select_parent sh).
Proof. apply silent_on_mem. intros m. apply own_bind; [apply own_tournament|]. intros []. apply own_ok. Qed.
Lemma silent_ga_offspring cross coin sh1 sh2 d k : silent (ga_offspring cross coin sh1 sh2 d k).
Proof.
  unfold ga_offspring. apply silent_bind; [|intros _; apply silent_mutate]. destruct cross.
  - apply silent_bind; [apply silent_select|]. intros x. apply silent_bind; [apply silent_select|]. intros y. apply silent_bind; [apply silent_get|]. intros p.
    apply silent_bind; [apply silent_lift, own_vget|]. intros z. apply silent_bind; [apply silent_lift, own_uniform_crossover|]. intros z'. apply silent_set_offspring.
  - apply silent_bind; [apply silent_select|]. intros x. apply silent_set_offspring.
Qed.
Lemma silent_tr_mutate k d : silent (tr_mutate k d).
Proof.
  unfold tr_mutate. apply silent_bind; [apply silent_get|]. intros x. apply silent_bind; [apply silent_get|]. intros m.
  apply silent_bind; [apply silent_lift, own_vget|]. intros z. destruct (nh_map (tr_nh m) x z d) as [r|] eqn:E; [|apply silent_pending].
  apply silent_bind; [exact (silent_lift r (own_map _ _ _ _ _ E))|]. intros []. apply silent_bind; [apply silent_on_mem; intros; own_more|]. intros _. apply silent_modify. reflexivity.
Qed.
Lemma silent_tr_rate small p : silent (tr_set_rate small p).
Proof. apply silent_modify. reflexivity. Qed.
Lemma silent_tr_keep p : silent (tr_keep_rate p).
Proof. apply silent_modify. reflexivity. Qed.
Lemma silent_set_rate small p : silent (set_rate small p).
Proof. apply silent_modify. reflexivity. Qed.
Lemma silent_sample u t : silent (eda_sample u t).
Proof.
  apply silent_on_mem. intros m. apply own_bind; [|intros; apply own_ok]. apply own_foldM. intros. apply own_bind; [apply own_vget|]. intros.
  apply own_bind; [apply own_pv_sample|]. intros. apply own_vset.
Qed.
Lemma silent_learn n learn : (forall m, own_outcome (learn m)) -> silent (eda_learn n learn).
Proof. intros H. apply silent_on_mem. intros m. apply own_bind; [apply H|]. intros. apply own_ok. Qed.
Lemma silent_mmas_learn n rate : silent (mmas_learn n rate).
Proof.
  unfold mmas_learn. apply silent_bind; [apply silent_get|]. intros x. apply silent_on_mem. intros m. apply own_bind; [apply own_pv_update|]. intros. apply own_ok.
Qed.

(** * The algorithms *)

Definition ad_afor {X} (f : objective -> nat -> act (alg X) unit) l : (forall i, adaptive (fun o => f o i)) -> adaptive (fun o => afor (f o) l).
Proof.
  intros H. induction l as [|i l IH]; cbn [afor]; [apply ad_silent, silent_ret|]. apply (ad_bind (fun o => f o i) (fun _ o => afor (f o) l)); auto.
Defined.
Definition ad_eval_pop {X} (get : X -> population) put : adaptive (eval_pop get put).
Proof.
  unfold eval_pop. apply ad_bind; [apply ad_silent, silent_get|intros p]. apply ad_bind; [apply ad_silent, silent_assert|intros _].
  apply (ad_afor (fun o i => _)). intros i. apply ad_bind; [apply ad_silent, silent_get|intros q]. apply ad_bind; [apply ad_silent, silent_lift, own_vget|intros b].
  apply ad_bind; [apply ad_evaluate|intros v]. apply ad_silent, silent_on_pop. intros. own_more.
Defined.
Definition ad_random {X} bit : adaptive (X := X) (fun o => random_solution o bit).
Proof. exact (ad_start (RandomStart bit)). Defined.

Definition ad_start_parents {Y} bits sh srt : adaptive (fun o => start_parents (Y := Y) o bits sh srt).
Proof.
  unfold start_parents. apply ad_bind; [apply ad_silent, silent_random_parents|intros _]. apply ad_bind; [apply ad_eval_pop|intros _].
  apply ad_silent. apply silent_bind; [apply silent_sort|]. intros _. apply silent_bind; [apply silent_get|]. intros p.
  apply silent_bind; [apply silent_lift, own_best_bv|]. intros b. apply silent_bind; [apply silent_lift, own_best_value|]. intros v. apply silent_set_solution.
Defined.
Definition ad_mupl small allow bits sh srt pick d shs psrt num fuel :
  adaptive (fun o => loop (mupl_init o small allow bits sh srt) (mupl_iterate o pick d shs psrt) num fuel).
Proof.
  apply (ad_loop (fun o => mupl_init o small allow bits sh srt) (fun o => mupl_iterate o pick d shs psrt)).
  - unfold mupl_init. apply ad_bind; [apply ad_silent, silent_set_mutation|intros _]. apply ad_start_parents.
  - intros i. unfold mupl_iterate. apply ad_bind; [apply ad_silent, silent_offsprings|intros _]. apply ad_bind; [apply ad_eval_pop|intros _].
    apply ad_silent. apply silent_bind; [|intros _; apply silent_update_best]. apply silent_on_mem. intros m. apply own_bind; [apply own_plus|]. intros [[] ?]. apply own_ok.
Defined.
Definition ad_mucl small allow bits bit pick d shs psrt num fuel :
  adaptive (fun o => loop (mucl_init o small allow bits bit) (mucl_iterate o pick d shs psrt) num fuel).
Proof.
  apply (ad_loop (fun o => mucl_init o small allow bits bit) (fun o => mucl_iterate o pick d shs psrt)).
  - unfold mucl_init. apply ad_bind; [apply ad_silent, silent_set_mutation|intros _]. apply ad_bind; [apply ad_silent, silent_random_parents|intros _]. apply ad_random.
  - intros i. unfold mucl_iterate. apply ad_bind; [apply ad_silent, silent_offsprings|intros _]. apply ad_bind; [apply ad_eval_pop|intros _].
    apply ad_silent. apply silent_bind; [apply silent_comma|intros _; apply silent_update_best].
Defined.
Definition ad_ga tsize small allow bits sh0 sh srt cross coin sh1 sh2 d shs psrt num fuel :
  adaptive (fun o => loop (ga_init o tsize small allow bits sh0 sh srt) (ga_iterate o cross coin sh1 sh2 d shs psrt) num fuel).
Proof.
  apply (ad_loop (fun o => ga_init o tsize small allow bits sh0 sh srt) (fun o => ga_iterate o cross coin sh1 sh2 d shs psrt)).
  - unfold ga_init. apply ad_bind; [apply ad_silent, silent_on_mem; intros; apply own_bind; [apply own_set_size|intros; apply own_ok]|intros _].
    apply ad_bind; [apply ad_silent, silent_set_mutation|intros _]. apply ad_start_parents.
  - intros i. unfold ga_iterate. apply ad_bind; [apply ad_silent, silent_get|intros m].
    apply ad_bind; [apply ad_silent, silent_afor; intros; apply silent_ga_offspring|intros _]. apply ad_bind; [apply ad_eval_pop|intros _].
    apply ad_silent. apply silent_bind; [apply silent_comma|intros _; apply silent_update_best].
Defined.
Definition ad_saea p small bit d num fuel : sp_incremental p = false -> adaptive (fun o => loop (saea_init o p small bit) (saea_iterate o p small d) num fuel).
Proof.
  intros HP. apply (ad_loop (fun o => saea_init o p small bit) (fun o => saea_iterate o p small d)).
  - unfold saea_init. apply ad_bind; [apply ad_silent, silent_set_rate|intros _]. apply ad_bind; [adapt|intros _]. apply ad_bind; [apply ad_random|intros _]. adapt.
  - intros i. unfold saea_iterate. apply ad_bind; [apply ad_silent, (silent_propose sx_nh (fun h m => mk_saea h (sx_rate m)))|intros _].
    apply ad_bind; [adapt|intros h]. apply ad_bind; [adapt|intros cur]. apply ad_bind; [adapt|intros v]. apply ad_bind; [adapt|intros rate].
    apply ad_if.
    + apply ad_bind; [adapt|intros _]. apply ad_bind; [adapt|intros _]. apply ad_silent, silent_set_rate.
    + apply ad_bind; [adapt|intros _]. apply ad_silent, silent_set_rate.
Defined.
Definition ad_trea init allow bit n small d sh srt u num fuel :
  adaptive (fun o => loop (trea_init o init allow bit) (trea_iterate o n small d sh srt u) num fuel).
Proof.
  apply (ad_loop (fun o => trea_init o init allow bit) (fun o => trea_iterate o n small d sh srt u)).
  - unfold trea_init. apply ad_bind; [apply ad_random|intros _]. apply ad_bind; [apply ad_silent, silent_tr_keep|intros _]. adapt.
  - intros i. unfold trea_iterate. apply ad_bind; [adapt|intros m]. cbv zeta. apply ad_bind; [apply ad_silent, silent_tr_rate|intros _].
    apply ad_bind; [apply ad_silent, silent_afor; intros; apply silent_tr_mutate|intros _]. apply ad_bind; [apply ad_silent, silent_tr_rate|intros _].
    apply ad_bind; [apply ad_silent, silent_afor; intros; apply silent_tr_mutate|intros _]. apply ad_bind; [apply ad_eval_pop|intros _].
    apply ad_bind; [apply ad_silent, silent_sort|intros _]. apply ad_bind; [apply ad_silent, silent_update_best|intros _].
    apply ad_if; [apply ad_silent, silent_tr_keep|]. apply ad_if; [apply ad_silent, silent_tr_keep|]. apply ad_silent.
    apply silent_bind; [apply silent_get|]. intros p. apply silent_bind; [apply silent_lift, own_best_index|]. intros b.
    apply silent_bind; [apply silent_lift; unfold clamp; own_more|]. intros r. apply silent_tr_keep.
Defined.
Definition ad_eda_generation u shs srt i : adaptive (fun o => eda_generation o u shs srt i).
Proof.
  unfold eda_generation. apply ad_bind; [apply ad_silent, silent_sample|intros _]. apply ad_bind; [apply ad_eval_pop|intros _].
  apply ad_silent. apply silent_bind; [apply silent_sort|intros _; apply silent_update_best].
Defined.
Definition ad_eda_init bit : adaptive (fun o => eda_init o bit).
Proof. unfold eda_init. apply ad_bind; [apply ad_random|intros _]. adapt. Defined.
Definition ad_pbil n selection rate u shs srt bit num fuel : adaptive (fun o => loop (eda_init o bit) (pbil_iterate o n selection rate u shs srt) num fuel).
Proof.
  apply (ad_loop (fun o => eda_init o bit) (fun o => pbil_iterate o n selection rate u shs srt)); [apply ad_eda_init|].
  intros i. unfold pbil_iterate. apply ad_bind; [apply ad_eda_generation|intros _]. apply ad_silent, silent_learn. intros m. apply own_bind; [apply own_mean|intros; apply own_pv_update].
Defined.
Definition ad_nps n selection rate u shs srt bit num fuel : adaptive (fun o => loop (eda_init o bit) (nps_iterate o n selection rate u shs srt) num fuel).
Proof.
  apply (ad_loop (fun o => eda_init o bit) (fun o => nps_iterate o n selection rate u shs srt)); [apply ad_eda_init|].
  intros i. unfold nps_iterate. apply ad_bind; [apply ad_eda_generation|intros _]. apply ad_silent, silent_learn. intros m.
  apply own_bind; [apply own_mean|intros]. apply own_bind; [apply own_mean|intros]. apply own_pv_update2.
Defined.
Definition ad_umda n selection u shs srt bit num fuel : adaptive (fun o => loop (eda_init o bit) (umda_iterate o n selection u shs srt) num fuel).
Proof.
  apply (ad_loop (fun o => eda_init o bit) (fun o => umda_iterate o n selection u shs srt)); [apply ad_eda_init|].
  intros i. unfold umda_iterate. apply ad_bind; [apply ad_eda_generation|intros _]. apply ad_silent, silent_learn. intros m. apply own_mean.
Defined.
Definition ad_mmas n rate u cmp bit num fuel : adaptive (fun o => loop (mmas_init o n rate bit) (mmas_iterate o n rate u cmp) num fuel).
Proof.
  apply (ad_loop (fun o => mmas_init o n rate bit) (fun o => mmas_iterate o n rate u cmp)).
  - unfold mmas_init. apply ad_bind; [apply ad_random|intros _]. apply ad_bind; [adapt|intros _]. apply ad_silent, silent_mmas_learn.
  - intros i. unfold mmas_iterate. apply ad_bind; [apply ad_silent, silent_on_mem; intros; apply own_bind; [apply own_pv_sample|intros; apply own_ok]|intros _].
    apply ad_bind; [adapt|intros x]. apply ad_bind; [adapt|intros v]. apply ad_bind; [adapt|intros best].
    apply ad_bind; [apply ad_if; [apply ad_silent, silent_set_solution|adapt]|intros _]. apply ad_silent, silent_mmas_learn.
Defined.
Definition ad_cga n rate u debug bit num fuel : adaptive (fun o => loop (cga_init o bit) (cga_iterate o n rate u debug) num fuel).
Proof.
  apply (ad_loop (fun o => cga_init o bit) (fun o => cga_iterate o n rate u debug)).
  - unfold cga_init. apply ad_bind; [apply ad_random|intros _]. adapt.
  - intros i. unfold cga_iterate.
    do 2 (apply ad_bind; [apply ad_silent, silent_on_mem; intros; apply own_bind; [apply own_pv_sample|intros; apply own_ok]|intros _]).
    apply ad_bind; [adapt|intros x]. apply ad_bind; [adapt|intros y]. apply ad_bind; [adapt|intros v0]. apply ad_bind; [adapt|intros v1]. cbv zeta.
    apply ad_bind; [adapt|intros _]. apply ad_bind; [apply ad_if; [|adapt]|intros _].
    + apply ad_bind; [adapt|intros b]. apply ad_bind; [adapt|intros w]. adapt.
    + apply ad_silent, silent_on_mem. intros. apply own_ok.
Defined.
