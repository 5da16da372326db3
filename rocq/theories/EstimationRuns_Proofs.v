(** The information-theoretic EA, UMDA with random affine maps, the herding evolutionary
    algorithm, Boltzmann machine PBIL and MIMIC only know their function by its calls; the sizes of
    their vectors and the numbers of their calls. *)

From Coq Require Import ZArith QArith.
From Verif Require Import Base BaseLemmas BitVector_Model BitVector_Spec BitVector_Proofs BitMatrix_Model Transvection_Model Map_Model Neighborhood_Model Population_Model
  Algorithm_Model Algorithm_Spec Algorithm_Proofs PopAlgorithm_Model ProbabilityVector_Model EvolutionaryAlgorithm_Model
  ItEa_Model RamUmda_Model WalshMoment_Model WalshEda_Model Mimic_Model
  AlgorithmMachine_Model AlgorithmMachine_Spec AlgorithmMachine_Proofs AlgorithmRuns_Proofs PopulationRuns_Proofs PopulationCosts_Proofs
  PopulationMachine_Model EstimationMachine_Model EstimationMachine_Spec.
Local Open Scope nat_scope.

(** * Outcomes *)

Lemma own_throw {A} : own_outcome (@Throw A RuntimeError).
Proof. split; discriminate. Qed.
Ltac own_run := repeat first
  [ apply own_throw | apply own_best_bv | apply own_best_value | apply own_best_index | apply own_pv_sample | apply own_pv_add | apply own_mean | apply own_uniform_crossover
  | own_step
  | match goal with |- own_outcome (let '(_, _) := ?p in _) => destruct p end
  | apply own_foldM; intros ].

Lemma own_clamp v lo hi : own_outcome (EvolutionaryAlgorithm_Model.clamp v lo hi).
Proof. unfold EvolutionaryAlgorithm_Model.clamp. own_run. Qed.
Lemma own_get1 m i : own_outcome (get1 m i).
Proof. unfold get1. own_run. Qed.
Lemma own_get2 m i j : own_outcome (get2 m i j).
Proof. unfold get2. own_run. Qed.
Lemma own_set1 m i v : own_outcome (set1 m i v).
Proof. unfold set1. own_run. Qed.
Lemma own_set2 m i j v : own_outcome (set2 m i j v).
Proof. unfold set2. own_run. Qed.
Lemma own_moment_map mirror check f1 f2 m : (forall i a, own_outcome (f1 i a)) -> (forall i j a, own_outcome (f2 i j a)) -> own_outcome (moment_map mirror check f1 f2 m).
Proof.
  intros H1 H2. unfold moment_map. apply own_foldM. intros s i. apply own_bind; [apply own_get1|]. intros a. apply own_bind; [apply H1|]. intros v.
  apply own_bind; [apply own_set1|]. intros m1. apply own_bind; [apply own_assert|]. intros _. apply own_foldM. intros m2 j.
  apply own_bind; [apply own_get2|]. intros b. apply own_bind; [apply H2|]. intros w. apply own_bind; [apply own_set2|]. intros m3. apply own_bind; [apply own_assert|]. intros _.
  destruct mirror; [apply own_set2|apply own_ok].
Qed.
Lemma own_moment_add m x : own_outcome (moment_add m x).
Proof. unfold moment_add. apply own_bind; [apply own_assert|]. intros _. apply own_moment_map; intros; own_run. Qed.
Lemma own_check k m : own_outcome (check_symmetric k m).
Proof. destruct k; cbn; [apply own_ok|]. unfold matrix_is_symmetric. own_run. Qed.
Lemma own_average k c m : own_outcome (moment_average k c m).
Proof. unfold moment_average. cbv zeta. apply own_bind; [apply own_moment_map; intros; own_run|]. intros. apply own_check. Qed.
Lemma own_moment_update k tm r m : own_outcome (moment_update k tm r m).
Proof.
  unfold moment_update. apply own_bind; [apply own_assert|]. intros _. apply own_bind; [|intros; apply own_check].
  apply own_moment_map; intros; (apply own_bind; [first [apply own_get1|apply own_get2]|intros; apply own_ok]).
Qed.
Lemma own_moment_update2 k t1 t2 r m : own_outcome (moment_update2 k t1 t2 r m).
Proof.
  unfold moment_update2. apply own_bind; [apply own_assert|]. intros _. apply own_bind; [apply own_assert|]. intros _.
  apply own_moment_map; intros; do 2 (apply own_bind; [first [apply own_get1|apply own_get2]|intros]); apply own_ok.
Qed.
Lemma own_difference k l t1 t2 m : own_outcome (scaled_difference k l t1 t2 m).
Proof.
  unfold scaled_difference. apply own_bind; [apply own_assert|]. intros _. apply own_bind; [apply own_assert|]. intros _.
  apply own_moment_map; intros; do 2 (apply own_bind; [first [apply own_get1|apply own_get2]|intros]); apply own_ok.
Qed.
Lemma own_bound k g m : own_outcome (moment_bound k g m).
Proof.
  unfold moment_bound. cbv zeta. apply own_bind; [apply own_assert|]. intros _. apply own_bind; [apply own_assert|]. intros _. apply own_moment_map; intros; apply own_clamp.
Qed.
Lemma own_moment_sum m bvs c : (forall i, own_outcome (bvs i)) -> own_outcome (moment_sum m bvs c).
Proof. intros H. unfold moment_sum. apply own_foldM. intros s i. apply own_bind; [apply H|]. intros. apply own_moment_add. Qed.
Lemma own_herding_sample k r sh t x h : own_outcome (herding_sample k r sh t x h).
Proof.
  unfold herding_sample. cbv zeta. apply own_bind; [apply own_assert|]. intros _. apply own_bind; [apply own_difference|]. intros delta. apply own_bind.
  - apply own_foldM. intros s p. apply own_bind; [own_run|]. intros i. apply own_bind.
    + apply own_foldM. intros acc l. apply own_bind; [own_run|]. intros j. apply own_bind; [apply own_vget|]. intros b. apply own_bind; [|intros; apply own_ok].
      unfold second_at. destruct k; [destruct (j <? i)|]; apply own_get2.
    + intros acc. apply own_bind; [apply own_get1|]. intros. apply own_vset.
  - intros y. apply own_bind; [apply own_moment_add|]. intros. apply own_ok.
Qed.
Lemma own_gibbs lgs m i u x : own_outcome (gibbs_update lgs m i u x).
Proof.
  unfold gibbs_update. cbv zeta. apply own_bind; [apply own_assert|]. intros _. apply own_bind; [apply own_get1|]. intros a.
  do 2 (apply own_bind; [apply own_foldM; intros; apply own_bind; [apply own_get2|intros; own_run]|intros ?]). apply own_vset.
Qed.
Lemma own_gibbs_sync lgs n m u x : own_outcome (gibbs_update_sync lgs n m u x).
Proof.
  unfold gibbs_update_sync. apply own_bind; [|intros; apply own_pv_sample]. apply own_foldM. intros pv i. apply own_bind; [apply own_get1|]. intros a.
  apply own_bind; [|intros; apply own_ok]. apply own_foldM. intros q j. destruct (j =? i); [apply own_ok|]. apply own_bind; [apply own_vget|]. intros b.
  apply own_bind; [apply own_get2|]. intros. apply own_ok.
Qed.
Lemma own_bm_sample lgs n p d m t i s : own_outcome (bm_sample lgs n p d m t i s).
Proof.
  unfold bm_sample. destruct (bp_sampling p); [| | |apply own_throw].
  - unfold sample_asynchronous. apply own_foldM. intros s' c. apply own_bind; [apply own_gibbs|]. intros. apply own_ok.
  - unfold sample_full_scan. apply own_foldM. intros s' c. cbv zeta. apply own_bind; [|intros; apply own_ok]. apply own_foldM. intros x j.
    apply own_bind; [apply own_vget|]. intros. apply own_gibbs.
  - unfold sample_synchronous. apply own_foldM. intros s' c. apply own_bind; [apply own_gibbs_sync|]. intros. apply own_ok.
Qed.
Lemma own_worst_bv p i : own_outcome (worst_bv p i).
Proof. unfold worst_bv. apply own_bind; [apply own_assert|]. intros. apply own_best_bv. Qed.
Lemma own_perm_check n l : forall c, own_outcome (perm_check n c l).
Proof.
  induction l as [|p l IH]; intros c; cbn [perm_check]; [apply own_ok|]. destruct (n <=? p); [apply own_ok|]. apply own_bind; [apply own_vget|]. intros [|]; [apply own_ok|].
  apply own_bind; [apply own_vset|]. intros. apply IH.
Qed.
Lemma own_perm_valid p : own_outcome (perm_is_valid p).
Proof. apply own_perm_check. Qed.
Lemma own_mimic_sample m x u : own_outcome (mimic_sample m x u).
Proof.
  unfold mimic_sample. do 3 (apply own_bind; [apply own_assert|intros _]). apply own_bind; [apply own_perm_valid|]. intros. own_run.
Qed.
Lemma own_update_model lg n selection m : own_outcome (update_model lg n selection m).
Proof.
  unfold update_model. apply own_bind; [apply own_mean|]. intros mean. cbv zeta. do 2 (apply own_bind; [apply own_assert|intros _]).
  do 7 (apply own_bind; [own_run|intros ?]). apply own_bind; [|intros; own_run]. apply own_foldM. intros s i. unfold mimic_link. destruct s as [perm q].
  apply own_bind; [apply own_vget|]. intros first. apply own_bind.
  - apply own_foldM. intros q' j. apply own_bind; [apply own_vget|]. intros second. apply own_bind; [apply own_assert|]. intros _.
    apply own_bind; [unfold fill_table; own_run|]. intros t. unfold compute_conditional_entropy. cbv zeta. own_run.
  - intros [[p0 p1] ent]. cbv zeta. apply own_bind; [apply own_assert|]. intros _. apply own_bind; [own_run|]. intros [[perm' p0'] p1'].
    apply own_bind; [apply own_perm_valid|]. intros. own_run.
Qed.
Lemma own_ts_multiply x ts : own_outcome (ts_multiply_bv x ts).
Proof. unfold ts_multiply_bv, tv_multiply_bv. own_run. Qed.
Lemma own_bv_add x y : own_outcome (bv_add x y).
Proof. unfold bv_add. own_run. Qed.
Lemma own_affine_apply ts b x out : own_outcome (map_apply (MTsAffine ts b) x out).
Proof.
  cbn [map_apply]. do 2 (apply own_bind; [apply own_assert|intros _]). apply own_bind; [apply own_ts_multiply|]. intros. apply own_bind; [apply own_bv_add|]. intros. apply own_ok.
Qed.
Lemma own_invert ts b : own_outcome (ts_affine_invert ts b).
Proof. unfold ts_affine_invert. cbv zeta. apply own_bind; [apply own_ts_multiply|]. intros. apply own_ok. Qed.
Lemma own_ts_random n t : forall draws, own_outcome (ts_random_loop n t draws).
Proof.
  induction t as [|t IH]; intros draws; cbn [ts_random_loop]; [apply own_ok|]. apply own_bind; [unfold tv_random; own_run|]. intros [[tv draws']|]; [|apply own_ok].
  apply own_bind; [apply IH|]. intros. apply own_ok.
Qed.
Lemma own_affine_random n t bits draws : own_outcome (ts_affine_random n t bits draws).
Proof.
  unfold ts_affine_random. do 2 (apply own_bind; [apply own_assert|intros _]). apply own_bind; [|intros; apply own_ok]. unfold ts_random. apply own_bind; [apply own_assert|]. intros. apply own_ts_random.
Qed.
Lemma own_length c it ud gd len : own_outcome (compute_ts_length c it ud gd len).
Proof. unfold compute_ts_length. cbv zeta. destruct (lc_mode c); own_run. Qed.
Lemma own_random_weight x k u : own_outcome (bv_random_weight x k u).
Proof.
  unfold bv_random_weight. apply own_bind; [apply own_assert|]. intros _. generalize (length x), 0. revert k. induction x as [|b x IH]; intros k n c; cbn [bv_random_weight_loop]; [apply own_ok|].
  destruct (0 <? k).
  - apply own_bind; [apply own_assert|]. intros _. destruct (negb _); (apply own_bind; [apply IH|]; intros []; apply own_ok).
  - apply own_bind; [apply IH|]. intros []. apply own_ok.
Qed.
Lemma own_class selection p : own_outcome (equivalence_class selection p).
Proof.
  unfold equivalence_class. cbv zeta. apply own_bind; [apply own_assert|]. intros _. do 2 (apply own_bind; [apply own_best_value|intros ?]). destruct (_ =? _)%Z; [|apply own_ok].
  unfold get_equivalent_bvs. own_run.
Qed.
Lemma own_masks selection cls c p masks : own_outcome (compute_masks selection cls c p masks).
Proof. unfold compute_masks, bv_add3. own_run. Qed.
Lemma own_weighted {A} selection cls (add : A -> Q -> nat -> outcome A) a : (forall a c k, own_outcome (add a c k)) -> own_outcome (weighted selection cls add a).
Proof.
  intros H. unfold weighted. destruct cls as [[[lo hi] c]|]; [apply own_bind; [|intros]|]; apply own_foldM; intros; apply H.
Qed.
Lemma own_arg op pick l : own_outcome (sample_from_arg op pick l).
Proof. unfold sample_from_arg. cbv zeta. own_run. Qed.

(** * Silent parts *)

Lemma silent_lift_opt {X A} (r : outcome (option A)) : own_outcome r -> silent (X := X) (lift_opt r).
Proof. intros [H1 H2] s. split; [reflexivity|]. destruct r as [[a|]|e|]; split; cbn; congruence. Qed.
Lemma silent_it_mutate k d : silent (it_mutate k d).
Proof.
  unfold it_mutate. apply silent_bind; [apply silent_get|]. intros m. apply silent_bind; [apply silent_lift, own_vget|]. intros z.
  destruct (nh_map (it_nh m) (fst (it_center m)) z d) as [r|] eqn:E; [|apply silent_pending].
  apply silent_bind; [exact (silent_lift r (own_map _ _ _ _ _ E))|]. intros r'. apply silent_on_mem. intros. own_run.
Qed.
Lemma silent_igo n pr cls : silent (igo_update n pr cls).
Proof.
  apply silent_on_mem. intros m. apply own_bind; [apply own_weighted; intros; own_run|]. intros q. apply own_bind; [apply own_assert|]. intros _. cbv zeta.
  apply own_bind; [apply own_clamp|]. intros. apply own_ok.
Qed.
Lemma silent_maps n c ud gd tb td t : silent (ram_maps n c ud gd tb td t).
Proof.
  unfold ram_maps. apply silent_bind; [apply silent_on_mem; intros; apply own_bind; [apply own_length|intros; apply own_ok]|]. intros _.
  apply silent_bind; [apply silent_get|]. intros len. apply silent_bind; [apply silent_lift_opt, own_affine_random|]. intros p.
  apply silent_bind; [apply silent_lift, own_invert|]. intros inv. apply silent_ret.
Qed.

(** * The algorithms *)

Definition ad_evaluate_center : adaptive evaluate_center.
Proof.
  unfold evaluate_center. apply ad_bind; [apply ad_silent, silent_get|intros c]. apply ad_bind; [apply ad_evaluate|intros v].
  apply ad_silent. apply silent_bind; [apply silent_modify; reflexivity|intros _; apply silent_update].
Defined.
Definition ad_flip_center i : adaptive (fun o => flip_center o i).
Proof.
  unfold flip_center. apply ad_bind; [apply ad_silent, silent_on_mem; intros; own_run|intros _]. apply ad_evaluate_center.
Defined.
Definition ad_it n pr small d shs srt coin pick flip bit u num fuel :
  adaptive (fun o => loop (it_init o pr bit u) (it_iterate o n pr small d shs srt coin pick flip) num fuel).
Proof.
  apply (ad_loop (fun o => it_init o pr bit u) (fun o => it_iterate o n pr small d shs srt coin pick flip)).
  - unfold it_init. apply ad_bind; [|intros _; apply ad_silent, silent_modify; reflexivity].
    destruct (ip_replacement pr); try apply ad_random.
    apply ad_bind; [apply ad_silent, silent_get|intros x]. apply ad_bind; [apply ad_silent, silent_lift, own_random_weight|intros r].
    apply ad_bind; [apply ad_silent, silent_modify; reflexivity|intros _]. apply ad_bind; [apply ad_evaluate|intros v]. apply ad_silent, silent_modify. reflexivity.
  - intros t. unfold it_iterate. apply ad_bind; [apply ad_silent, silent_get|intros s0]. apply ad_bind; [apply ad_silent, silent_assert|intros _].
    apply ad_bind; [apply ad_silent, silent_modify; reflexivity|intros _]. apply ad_bind; [apply ad_silent, silent_afor; intros; apply silent_it_mutate|intros _].
    apply ad_bind; [|intros _].
    { apply ad_bind; [apply ad_eval_pop|intros _]. apply ad_silent. apply silent_bind; [apply silent_sort|intros _; apply silent_update_best]. }
    apply ad_bind; [apply ad_silent, silent_get|intros m]. apply ad_bind; [apply ad_silent, silent_lift, own_class|intros cls].
    apply ad_bind; [apply ad_silent, silent_on_mem; intros; apply own_bind; [apply own_masks|intros; apply own_ok]|intros _].
    apply ad_bind; [|intros _; apply ad_silent, silent_igo]. unfold replace_center. destruct (ip_replacement pr).
    + apply ad_silent, silent_on_mem. intros. own_run.
    + apply ad_silent, silent_on_mem. intros. own_run.
    + unfold ml_update. apply ad_bind; [|intros _; apply ad_evaluate_center]. apply ad_silent, silent_on_mem. intros m'.
      apply own_bind; [apply own_weighted; intros; unfold add_bits; own_run|]. intros l. cbv zeta. own_run.
    + unfold incremental_ml_update. apply ad_bind; [apply ad_silent, silent_get|intros m']. 
      apply ad_bind; [apply ad_silent, silent_lift, own_weighted; intros; unfold add_bits; own_run|intros l]. cbv zeta.
      apply ad_bind; [apply ad_silent, silent_lift, own_arg|intros i]. apply ad_bind; [apply ad_silent, silent_assert|intros _].
      apply ad_bind; [apply ad_silent, silent_lift, own_vget|intros v]. apply ad_if; [apply ad_flip_center|]. apply ad_if; [|apply ad_silent, silent_ret].
      apply ad_if; [apply ad_flip_center|apply ad_silent, silent_ret].
    + apply ad_silent, silent_ret.
    + apply ad_silent. intros s. cbn. split; [reflexivity|split; discriminate].
Defined.
Definition ad_ram_generation shs srt t : adaptive (fun o => ram_generation o shs srt t).
Proof.
  unfold ram_generation. apply ad_bind; [apply ad_eval_pop|intros _]. apply ad_silent. apply silent_bind; [apply silent_sort|intros _; apply silent_update_best].
Defined.
Lemma own_rows x : forall M, own_outcome (multiply_rows M x).
Proof. induction M as [|r M IH]; cbn [multiply_rows]; [apply own_ok|]. unfold bv_dot_product. own_run. exact IH. Qed.
Lemma own_multiply y M x : own_outcome (bm_multiply y M x).
Proof.
  unfold bm_multiply. apply own_bind; [apply own_assert|intros _]. apply own_bind; [unfold bm_num_columns; own_run|intros k]. do 2 (apply own_bind; [apply own_assert|intros _]). apply own_rows.
Qed.
Lemma own_map_apply mp : forall x out, own_outcome (map_apply mp x out).
Proof.
  induction mp as [b|p|M|M b|pos k|pos k|ts b|outer IHo inner IHi buf]; intros x out; cbn [map_apply].
  - do 2 (apply own_bind; [apply own_assert|intros _]). apply own_bind; [apply own_bv_add|]. intros. apply own_ok.
  - do 2 (apply own_bind; [apply own_assert|intros _]). apply own_bind; [apply own_perm_valid|]. intros. own_run.
  - apply own_bind; [apply own_assert|intros _]. apply own_bind; [apply own_multiply|]. intros. apply own_ok.
  - apply own_bind; [apply own_assert|intros _]. apply own_bind; [apply own_multiply|]. intros y. apply own_bind; [apply own_bv_add|]. intros. apply own_ok.
  - own_run.
  - own_run.
  - apply own_affine_apply.
  - apply own_bind; [apply IHi|]. intros []. apply own_bind; [apply IHo|]. intros []. apply own_ok.
Qed.
Lemma own_latent selection mp p ys : own_outcome (to_latent selection mp p ys).
Proof.
  unfold to_latent. apply own_foldM. intros s i. apply own_bind; [apply own_best_bv|]. intros b. apply own_bind; [apply own_vget|]. intros out.
  apply own_bind; [apply own_map_apply|]. intros []. apply own_vset.
Qed.
Lemma own_first n selection size bs : own_outcome (mean_of_first n selection size bs).
Proof. unfold mean_of_first, pv_average. own_run. Qed.
Definition ad_ram (second : bool) n selection c ud gd tb td u shs srt uc ul ux coin pc pl bit bits num fuel :
  adaptive (fun o => loop (ram_init o bit bits)
    (if second then ram2_iterate o n selection c ud gd tb td u shs srt uc ul ux coin pc pl else ram_iterate o n selection c ud gd tb td u shs srt) num fuel).
Proof.
  apply (ad_loop (fun o => ram_init o bit bits) (fun o => if second then _ else _)).
  - unfold ram_init. apply ad_bind; [apply ad_random|intros _]. apply ad_silent, silent_modify. reflexivity.
  - intros t. destruct second.
    + unfold ram2_iterate. apply ad_bind; [apply ad_ram_generation|intros _].
      apply ad_bind; [apply ad_silent, silent_on_mem; intros; apply own_bind; [apply own_first|intros; apply own_ok]|intros _].
      apply ad_bind; [apply ad_silent, silent_maps|intros maps]. apply ad_silent, silent_on_mem. intros m. apply own_bind; [apply own_latent|]. intros ys.
      apply own_bind; [apply own_first|]. intros pvy. apply own_bind; [|intros; apply own_ok]. apply own_foldM. intros xs k. apply own_bind; [apply own_vget|]. intros out.
      apply own_bind; [|intros; apply own_vset]. destruct (qltb _ _); [|destruct (qltb _ _)].
      * apply own_bind; [apply own_pv_sample|]. intros a. apply own_bind; [apply own_map_apply|]. intros []. apply own_bind; [apply own_pv_sample|]. intros. apply own_uniform_crossover.
      * apply own_bind; [apply own_pv_sample|]. intros a. apply own_bind; [apply own_map_apply|]. intros []. apply own_ok.
      * apply own_pv_sample.
    + unfold ram_iterate. apply ad_bind; [apply ad_ram_generation|intros _].
      apply ad_bind; [apply ad_silent, silent_maps|intros maps]. apply ad_silent, silent_on_mem. intros m. apply own_bind; [apply own_latent|]. intros ys.
      apply own_bind; [apply own_first|]. intros pvy. apply own_bind; [|intros; apply own_ok]. apply own_foldM. intros xs k. apply own_bind; [apply own_pv_sample|]. intros a.
      apply own_bind; [apply own_vget|]. intros out. apply own_bind; [apply own_map_apply|]. intros []. apply own_vset.
Defined.
Definition ad_he k p shb shs srt bit num fuel : adaptive (fun o => loop (he_init o bit) (he_iterate k o p shb shs srt) num fuel).
Proof.
  apply (ad_loop (fun o => he_init o bit) (fun o => he_iterate k o p shb shs srt)).
  - unfold he_init. apply ad_bind; [apply ad_random|intros _]. apply ad_silent, silent_modify. reflexivity.
  - intros t. unfold he_iterate. apply ad_bind; [|intros _; apply ad_bind; [apply ad_eval_pop|intros _]].
    + apply ad_silent, silent_on_mem. intros m. unfold he_sample. apply own_bind; [|intros []; apply own_ok]. apply own_foldM. intros [bs h] i.
      apply own_bind; [apply own_vget|]. intros b. apply own_bind; [apply own_herding_sample|]. intros []. apply own_bind; [apply own_vset|]. intros. apply own_ok.
    + apply ad_silent. apply silent_bind; [apply silent_sort|intros _]. apply silent_bind; [apply silent_update_best|intros _]. apply silent_on_mem. intros m. unfold he_learn.
      apply own_bind; [apply own_moment_sum; intros; apply own_best_bv|]. intros s. apply own_bind; [destruct (1 <? _); [apply own_average|apply own_ok]|]. intros s'.
      apply own_bind; [apply own_moment_update|]. intros t'. apply own_bind; [destruct (hp_bound p); [apply own_bound|apply own_ok]|]. intros. apply own_ok.
Defined.
Definition ad_bm lgs k n p d srt bit gbit num fuel : adaptive (fun o => loop (bm_init o bit gbit) (bm_iterate lgs k o n p d srt) num fuel).
Proof.
  apply (ad_loop (fun o => bm_init o bit gbit) (fun o => bm_iterate lgs k o n p d srt)).
  - unfold bm_init. apply ad_bind; [apply ad_random|intros _]. apply ad_silent, silent_modify. reflexivity.
  - intros t. unfold bm_iterate. apply ad_bind; [|intros _; apply ad_bind; [apply ad_eval_pop|intros _]].
    + apply ad_silent, silent_on_mem. intros m. unfold bm_sample_all. cbv zeta. apply own_bind; [|intros [? []]; apply own_ok]. apply own_foldM. intros [bs [x perm]] i.
      apply own_bind; [apply own_vget|]. intros b. apply own_bind; [apply own_bm_sample|]. intros []. apply own_bind; [apply own_vset|]. intros. apply own_ok.
    + apply ad_silent. apply silent_bind; [apply silent_sort|intros _]. apply silent_bind; [apply silent_update_best|intros _]. apply silent_on_mem. intros m. unfold bm_learn.
      apply own_bind; [apply own_moment_sum; intros; apply own_best_bv|]. intros b. apply own_bind; [apply own_average|]. intros b'. destruct (bp_negative p).
      * apply own_bind; [apply own_moment_sum; intros; apply own_worst_bv|]. intros w. apply own_bind; [apply own_average|]. intros w'.
        apply own_bind; [apply own_moment_update2|]. intros. apply own_ok.
      * apply own_bind; [apply own_moment_sum; intros; apply own_vget|]. intros w. apply own_bind; [apply own_average|]. intros w'.
        apply own_bind; [apply own_moment_update2|]. intros. apply own_ok.
Defined.
Definition ad_mimic lg n selection u shs srt bit sh num fuel : adaptive (fun o => loop (mimic_init selection o bit sh) (mimic_iterate lg n selection o u shs srt) num fuel).
Proof.
  apply (ad_loop (fun o => mimic_init selection o bit sh) (fun o => mimic_iterate lg n selection o u shs srt)).
  - unfold mimic_init. apply ad_bind; [apply ad_silent, silent_assert|intros _]. apply ad_bind; [apply ad_silent, silent_get|intros p].
    apply ad_bind; [apply ad_silent, silent_assert|intros _]. apply ad_bind; [apply ad_random|intros _]. apply ad_silent, silent_modify. reflexivity.
  - intros t. unfold mimic_iterate. apply ad_bind; [|intros _; apply ad_bind; [apply ad_eval_pop|intros _]].
    + apply ad_silent, silent_on_mem. intros m. unfold mimic_sample_all. apply own_bind; [|intros; apply own_ok]. apply own_foldM. intros bs k.
      apply own_bind; [apply own_vget|]. intros b. apply own_bind; [apply own_mimic_sample|]. intros. apply own_vset.
    + apply ad_silent. apply silent_bind; [apply silent_sort|intros _]. apply silent_bind; [apply silent_update_best|intros _]. apply silent_on_mem. intros m.
      apply own_bind; [apply own_update_model|]. intros. apply own_ok.
Defined.
