(** Proofs about UMDA with random affine maps. *)

From Coq Require Import QArith Qfield Lqa Permutation.
From Verif Require Import Base BaseLemmas BitVector_Model BitVector_Spec BitVector_Proofs Representation_Spec Transvection_Model Transvection_Proofs
  Map_Model Map_Spec Map_Proofs Algorithm_Model Algorithm_Spec Algorithm_Proofs
  Population_Model Population_Spec Population_Proofs PopAlgorithm_Model PopAlgorithm_Spec PopAlgorithm_Proofs Generation_Proofs
  ProbabilityVector_Model ProbabilityVector_Spec ProbabilityVector_Proofs EvolutionaryAlgorithm_Model EvolutionaryAlgorithm_Proofs RamUmda_Model RamUmda_Spec.
Local Open Scope nat_scope.

(** * Lengths *)

Lemma compute_length_Ok c t ud gd len : valid_lengths c -> (lc_lower c <= ud <= lc_upper c)%Z -> (0 <= len)%Z ->
  exists l, compute_ts_length c t ud gd len = Ok l /\ (0 <= l)%Z.
Proof.
  intros (H1 & H2 & H3 & H4) HU HL. unfold compute_ts_length.
  assert (P : qltb 0 (lc_param c) && qltb (lc_param c) 1 = true). { apply andb_true_iff. now rewrite !qltb_lt. }
  rewrite P. rewrite (proj2 (Z.eqb_neq (lc_period c) 0)) by lia. rewrite (proj2 (Z.leb_le (lc_lower c) (lc_upper c))) by lia.
  destruct (lc_mode c); try congruence; eexists; (split; [reflexivity|]); try destruct (_ =? 0)%Z; lia.
Qed.

Lemma period_step p t : (0 < p)%Z ->
  ((Z.of_nat (S t) + 1) / p = (Z.of_nat t + 1) / p + (if Z.rem (Z.of_nat (S t) + 1) p =? 0 then 1 else 0))%Z.
Proof.
  intros H. rewrite Z.rem_mod_nonneg by lia. set (a := (Z.of_nat t + 1)%Z). replace (Z.of_nat (S t) + 1)%Z with (a + 1)%Z by (unfold a; lia).
  pose proof (Z.div_mod a p ltac:(lia)) as E1. pose proof (Z.mod_pos_bound a p H) as B1.
  destruct (Z.eqb_spec ((a + 1) mod p) 0) as [Z0|Z0].
  - pose proof (Z.div_mod (a + 1) p ltac:(lia)) as E2. rewrite Z0 in E2.
    assert (A : (p * ((a + 1) / p - a / p) = a mod p + 1)%Z) by lia.
    assert (((a + 1) / p - a / p = 1)%Z); [|lia]. set (d := ((a + 1) / p - a / p)%Z) in *.
    assert (0 < d)%Z by (apply Z.nle_gt; intros C; assert (p * d <= 0)%Z by (apply Z.mul_nonneg_nonpos; lia); lia).
    assert (d < 2)%Z; [|lia]. apply Z.nle_gt. intros C. assert (p * 2 <= p * d)%Z by (apply Z.mul_le_mono_nonneg_l; lia). lia.
  - rewrite Z.add_0_r. apply (Z.div_unique_pos a p ((a + 1) / p) ((a + 1) mod p - 1)).
    + pose proof (Z.mod_pos_bound (a + 1) p H). lia.
    + pose proof (Z.div_mod (a + 1) p ltac:(lia)). lia.
Qed.
Lemma period_first p : (0 < p)%Z -> ((Z.of_nat 0 + 1) / p = if Z.rem (Z.of_nat 0 + 1) p =? 0 then 1 else 0)%Z.
Proof.
  intros H. cbn [Z.of_nat Z.add]. rewrite Z.rem_mod_nonneg by lia. destruct (Z.eq_dec p 1) as [->|N]; [reflexivity|].
  rewrite Z.div_small, Z.mod_small by lia. reflexivity.
Qed.

Lemma increasing_length c ud gd len t : lc_mode c = LengthIncreasing -> (0 < lc_period c)%Z ->
  length_at c ud gd len t = Ok (Z.min (lc_upper c) (len + (Z.of_nat t + 1) / lc_period c)).
Proof.
  intros HM HP. induction t as [|t IH]; cbn [length_at].
  - unfold compute_ts_length. rewrite HM, (proj2 (Z.eqb_neq _ 0)) by lia. rewrite period_first by assumption. destruct (_ =? 0)%Z; f_equal; lia.
  - rewrite IH. cbn [bind]. unfold compute_ts_length. rewrite HM, (proj2 (Z.eqb_neq _ 0)) by lia. rewrite (period_step _ t HP). destruct (_ =? 0)%Z; f_equal; lia.
Qed.
Lemma decreasing_length c ud gd len t : lc_mode c = LengthDecreasing -> (0 < lc_period c)%Z ->
  length_at c ud gd len t = Ok (Z.max (lc_lower c) (len - (Z.of_nat t + 1) / lc_period c)).
Proof.
  intros HM HP. induction t as [|t IH]; cbn [length_at].
  - unfold compute_ts_length. rewrite HM, (proj2 (Z.eqb_neq _ 0)) by lia. rewrite period_first by assumption. destruct (_ =? 0)%Z; f_equal; lia.
  - rewrite IH. cbn [bind]. unfold compute_ts_length. rewrite HM, (proj2 (Z.eqb_neq _ 0)) by lia. rewrite (period_step _ t HP). destruct (_ =? 0)%Z; f_equal; lia.
Qed.

(** * Maps *)

Lemma clean_ts ts b x : clean (MTsAffine ts b) x.
Proof. intros k H. cbn in H. contradiction. Qed.

Lemma apply_ts n ts b x out : length b = n -> Forall (tv_ok n) ts -> length x = n -> length out = n ->
  map_apply (MTsAffine ts b) x out = Ok (MTsAffine ts b, affine ts b x) /\ length (affine ts b x) = n.
Proof.
  intros <- HF HX HO. destruct (map_apply_good _ _ _ (good_ts_affine ts b HF) x out HX HO (clean_ts ts b out)) as (m' & E & _ & _ & _ & L & _).
  cbn [map_fn] in *. fold (affine ts b x) in *. split; [|exact L]. rewrite E. f_equal. f_equal.
  cbn [map_apply] in E. destruct (assertb _); [|discriminate|discriminate]. cbn [bind] in E. destruct (assertb _); [|discriminate|discriminate]. cbn [bind] in E.
  destruct (ts_multiply_bv x ts); [|discriminate|discriminate]. cbn [bind] in E. destruct (bv_add _ b); [|discriminate|discriminate]. cbn [bind] in E. congruence.
Qed.

Lemma invert_ts n ts b : length b = n -> Forall (tv_ok n) ts ->
  exists ts' b', ts_affine_invert ts b = Ok (MTsAffine ts' b') /\ length b' = n /\ Forall (tv_ok n) ts' /\
    forall x, length x = n -> affine ts' b' (affine ts b x) = x /\ affine ts b (affine ts' b' x) = x.
Proof. intros <- HF. destruct (ts_affine_invert_correct ts b HF) as (ts' & b' & H1 & H2 & H3 & H4 & _). exists ts', b'. repeat (split; [assumption|]). exact H4. Qed.

Lemma bv_random_length x bits : length (bv_random x bits) = length x.
Proof. unfold bv_random. now rewrite map_length, seq_length. Qed.

Lemma ts_affine_random_spec n t bits draws : 1 < n -> (0 <= t)%Z -> Forall (fun k => k < n) draws ->
  ts_affine_random n t bits draws = Ok None \/
  exists ts b, ts_affine_random n t bits draws = Ok (Some (ts, b)) /\ random_map n (Z.to_nat t) ts b.
Proof.
  intros Hn Ht HD. unfold ts_affine_random. rewrite (proj2 (Nat.ltb_lt 0 n)) by lia. rewrite (proj2 (Z.leb_le 0 t)) by lia. cbn [assertb bind].
  destruct (ts_random_spec n (Z.to_nat t) draws Hn HD) as [->|(ts & -> & L & F)]; cbn [bind option_map]; [now left|]. right.
  eexists _, _. split; [reflexivity|]. split; [assumption|]. split; [assumption|]. now rewrite bv_random_length, repeat_length.
Qed.

(** * Estimation *)

Lemma ones_at_fst i l l' : map fst l = map fst l' -> ones_at i l = ones_at i l'.
Proof.
  unfold ones_at. revert l'. induction l as [|y l IH]; intros [|y' l'] E; cbn in E; try discriminate; [reflexivity|].
  injection E as E1 E2. cbn [filter]. rewrite E1. specialize (IH l' E2). destruct (nth i (fst y') false); cbn [length]; congruence.
Qed.
Lemma frequency_fst i l l' : map fst l = map fst l' -> frequency i l = frequency i l'.
Proof.
  intros E. unfold frequency. rewrite (ones_at_fst i l l' E). apply (f_equal (@length _)) in E. rewrite !map_length in E. now rewrite E.
Qed.

Lemma mean_of_first_Ok n selection bs l : 2 <= n -> 0 < selection <= length bs -> Forall (fun x => length x = n) bs -> map fst l = firstn selection bs ->
  exists pv, mean_of_first n selection n bs = Ok pv /\ estimated n l pv /\ Forall (within n) pv.
Proof.
  intros Hn HS FB HL. unfold mean_of_first. set (z := fun k => map (fun b => (b, 0%Z)) (firstn k bs)).
  destruct (foldM_upto (fun k m => length m = n /\ forall i, i < n -> (nth i m 0 == inject_Z (Z.of_nat (ones_at i (z k))))%Q)
    (fun m i => b <- vget bs i ;; pv_add m b) selection (repeat 0%Q n)) as (m & E & L & H).
  - split; [apply repeat_length|]. intros i Hi. rewrite nth_repeat_lt by lia. reflexivity.
  - intros k m Hk (L & H). rewrite (vget_nth bs k []) by lia. cbn [bind]. set (b := nth k bs []). assert (LB : length b = n) by (apply (Forall_nth_len FB); lia).
    unfold pv_add. rewrite (proj2 (Nat.eqb_eq (length b) (length m))) by congruence. cbn [assertb bind]. eexists. split; [reflexivity|].
    split; [now apply length_map2_eq|]. intros i Hi. rewrite (nth_map2 _ m b i 0%Q false) by lia. specialize (H i Hi).
    unfold z in *. rewrite <- Nat.add_1_r, (firstn_S_nth k _ []) by lia. rewrite map_app, ones_at_app. cbn [map]. fold b.
    assert (O : ones_at i [(b, 0%Z)] = if nth i b false then 1 else 0). { unfold ones_at. cbn [filter fst]. now destruct (nth i b false). }
    rewrite O, Nat2Z.inj_add, inject_Z_plus. destruct (nth i b false); rewrite H; [change (inject_Z (Z.of_nat 1)) with 1%Q|change (inject_Z (Z.of_nat 0)) with 0%Q]; ring.
  - rewrite E. cbn [bind]. unfold pv_average. rewrite (proj2 (Nat.ltb_lt 0 selection)) by lia. cbn [bind]. eexists. split; [reflexivity|].
    set (g := fun q => (q / inject_Z (Z.of_nat selection))%Q). assert (LM : length (map g m) = n) by now rewrite map_length. split; [|now apply bound_within].
    split; [now rewrite length_pv_bound|]. intros i Hi. eapply clamped_ext; [|apply bound_nth_clamped; [assumption|lia]].
    rewrite (nth_indep _ 0%Q (g 0%Q)) by lia. rewrite map_nth. unfold g. rewrite H by assumption.
    rewrite (frequency_fst i l (z selection)).
    + unfold frequency, z at 3. rewrite map_length, firstn_length_le by lia. reflexivity.
    + unfold z. rewrite map_map. cbn [fst]. now rewrite map_id.
Qed.

Lemma to_latent_Ok size n selection ts b p ys : well_formed size n p -> selection <= size -> length b = n -> Forall (tv_ok n) ts ->
  length ys = size -> Forall (fun x => length x = n) ys ->
  exists ys', to_latent selection (MTsAffine ts b) p ys = Ok ys' /\ length ys' = size /\ Forall (fun x => length x = n) ys' /\
    map fst (images (affine ts b) (map (at_index p) (firstn selection (p_perm p)))) = firstn selection ys'.
Proof.
  intros W HS LB HF LY FY. pose proof (perm_seq_length _ _ (wf_perm W)) as LP. pose proof W as (W1 & W2 & W3 & W4 & W5 & W6). unfold to_latent.
  match goal with |- exists _, foldM ?f _ ?s = _ /\ _ => destruct (foldM_upto (fun k ys' => length ys' = size /\ Forall (fun x => length x = n) ys' /\
      firstn k ys' = map (fun j => affine ts b (nth j (p_bvs p) [])) (firstn k (p_perm p))) f selection s) as (ys' & E & H1 & H2 & H3) end.
  - auto.
  - intros k y Hk (H1 & H2 & H3). pose proof (perm_seq_nth _ _ k (wf_perm W) ltac:(lia)) as K. unfold best_bv. rewrite (best_index_Ok W) by lia. cbn [bind].
    rewrite (vget_nth (p_bvs p) _ []) by lia. cbn [bind]. rewrite (vget_nth y k []) by lia. cbn [bind].
    destruct (apply_ts n ts b (nth (nth k (p_perm p) 0) (p_bvs p) []) (nth k y []) LB HF (Forall_nth_len W4 (nth k (p_perm p) 0) ltac:(lia)) (Forall_nth_len H2 k ltac:(lia))) as [-> LA].
    cbn [bind]. rewrite vset_Ok by lia. eexists. split; [reflexivity|]. split; [now rewrite length_upd|]. split; [apply Forall_upd; auto|].
    assert (UP : forall (l : list bv) j a, firstn j (upd l j a) = firstn j l). { induction l as [|z l IH]; intros [|j] a; cbn; auto. now rewrite IH. }
    rewrite <- Nat.add_1_r, (firstn_S_nth k (upd _ _ _) []) by (rewrite length_upd; lia). rewrite UP, H3, nth_upd_eq by lia.
    rewrite (firstn_S_nth k (p_perm p) 0) by lia. now rewrite map_app.
  - exists ys'. split; [exact E|]. split; [assumption|]. split; [assumption|]. rewrite H3. unfold images. rewrite !map_map. apply map_ext. intros j. reflexivity.
Qed.

(** * Runs *)

Lemma r_get_put p m : r_x (r_put p m) = p. Proof. reflexivity. Qed.
Lemma r_put_put p q m : r_put p (r_put q m) = r_put p m. Proof. reflexivity. Qed.
Lemma r_put_get m : r_put (r_x m) m = m. Proof. now destruct m. Qed.

Definition ram_sized (size n : nat) (m : ram) : Prop :=
  well_formed size n (r_x m) /\ well_formed size n (r_y m) /\ length (r_pv m) = n /\ length (r_pvy m) = n.

Lemma well_formed_bvs size n p bs : well_formed size n p -> length bs = size -> Forall (fun x => length x = n) bs ->
  well_formed size n (mk_pop bs (p_values p) (p_perm p)).
Proof. intros (W1 & W2 & W3 & W4 & W5 & W6) H1 H2. unfold well_formed; cbn. auto 10. Qed.

Section Runs.
  Variables (o : objective) (n size selection : nat) (c : length_config).
  Variables (ud : nat -> Z) (gd : nat -> nat) (tb : nat -> nat -> bool) (td : nat -> list nat).
  Variables (u : nat -> nat -> nat -> Q) (shs : nat -> list nat -> list nat).
  Variable srt : (nat -> nat -> bool) -> list nat -> list nat.
  Hypothesis Hn : 2 <= n.
  Hypothesis HSEL : 0 < selection <= size.
  Hypothesis HC : valid_lengths c.
  Hypothesis HU : within_lengths c ud.
  Hypothesis HD : forall t, Forall (fun k => k < n) (td t).
  Hypothesis HSH : forall t, shuffles (shs t).
  Hypothesis HSO : sorts srt.

  (** The maps drawn at the iteration [t] from the state [s] *)
  Lemma ram_maps_wp t (s : alg ram) (P : hmap * hmap -> alg ram -> Prop) (E : option exn -> alg ram -> Prop) : (0 <= r_len (a_mem s))%Z ->
    (forall l, compute_ts_length c t (ud t) (gd t) (r_len (a_mem s)) = Ok l -> (0 <= l)%Z ->
       let m := a_mem s in let s' := put_mem (mk_ram (r_x m) (r_y m) (r_pv m) (r_pvy m) l) s in
       E None s' /\ forall ts b ts' b', random_map n (Z.to_nat l) ts b -> Forall (tv_ok n) ts' -> length b' = n ->
         (forall x, length x = n -> affine ts' b' (affine ts b x) = x /\ affine ts b (affine ts' b' x) = x) ->
         P (MTsAffine ts b, MTsAffine ts' b') s') ->
    wp (ram_maps n c ud gd tb td t) P E s.
  Proof.
    clear HSEL. intros HL H. unfold ram_maps. destruct (compute_length_Ok c t (ud t) (gd t) (r_len (a_mem s)) HC (HU t) HL) as (l & EL & L0).
    apply wp_bind. eapply wp_on_mem; [rewrite EL; cbn [bind]; reflexivity|]. apply wp_bind, wp_get. cbn [put_mem a_mem r_len].
    destruct (H l EL L0) as [HN HP]. apply wp_bind. destruct (ts_affine_random_spec n l (tb t) (td t) ltac:(lia) L0 (HD t)) as [ER|(ts & b & ER & RM)].
    - unfold wp, lift_opt. rewrite ER. exact HN.
    - unfold wp at 1, lift_opt. rewrite ER. cbn [fst snd]. pose proof RM as (R1 & R2 & R3). destruct (invert_ts n ts b R3 R2) as (ts' & b' & EI & I1 & I2 & I3).
      apply wp_bind. eapply wp_lift; [exact EI|]. apply wp_ret. now apply HP.
  Qed.

  (** Individuals generated one after the other *)
  Lemma generate_Ok (R : nat -> bv -> Prop) f xs : length xs = size -> Forall (fun x => length x = n) xs ->
    (forall ys k, k < size -> length ys = size -> Forall (fun x => length x = n) ys -> exists z, f ys k = Ok (upd ys k z) /\ length z = n /\ R k z) ->
    exists ys, foldM f (seq 0 size) xs = Ok ys /\ length ys = size /\ Forall (fun x => length x = n) ys /\ forall k, k < size -> R k (nth k ys []).
  Proof.
    clear. intros L F H.
    destruct (foldM_upto (fun k ys => length ys = size /\ Forall (fun x => length x = n) ys /\ forall j, j < k -> R j (nth j ys [])) f size xs) as (ys & E & H1 & H2 & H3).
    - split; [assumption|]. split; [assumption|]. intros; lia.
    - intros k ys Hk (H1 & H2 & H3). destruct (H ys k Hk H1 H2) as (z & -> & LZ & RZ). eexists. split; [reflexivity|]. split; [now rewrite length_upd|].
      split; [now apply Forall_upd|]. intros j Hj. destruct (Nat.eq_dec k j) as [<-|N]; [rewrite nth_upd_eq by lia; assumption|]. rewrite nth_upd_neq by auto. apply H3. lia.
    - eauto.
  Qed.

  Definition bounded (pv : list Q) : Prop := pv = repeat 0%Q n \/ Forall (within n) pv.

  Lemma ram_iterate_wp t (s : alg ram) : ram_sized size n (a_mem s) -> (0 <= r_len (a_mem s))%Z -> top_of o (a_trace s) (a_sol s) ->
    wp (ram_iterate o n selection c ud gd tb td u shs srt t)
      (fun _ s' => exists kept ts b,
         a_trace s' = a_trace s ++ p_bvs (r_x (a_mem s)) /\
         best_of selection kept (map (fun x => (x, o_value o x)) (p_bvs (r_x (a_mem s)))) /\
         compute_ts_length c t (ud t) (gd t) (r_len (a_mem s)) = Ok (r_len (a_mem s')) /\
         random_map n (Z.to_nat (r_len (a_mem s'))) ts b /\
         estimated n (images (affine ts b) kept) (r_pv (a_mem s')) /\
         (forall k, k < size -> drawn_through n (affine ts b) (r_pv (a_mem s')) (u t k) (nth k (p_bvs (r_x (a_mem s'))) [])) /\
         Forall (within n) (r_pv (a_mem s')) /\ r_pvy (a_mem s') = r_pvy (a_mem s) /\
         top_of o (a_trace s') (a_sol s') /\ ram_sized size n (a_mem s') /\ (0 <= r_len (a_mem s'))%Z /\ a_last s' = a_last s)
      (fun e s' => r_pv (a_mem s') = r_pv (a_mem s) /\ r_pvy (a_mem s') = r_pvy (a_mem s) /\
         ram_sized size n (a_mem s') /\ p_bvs (r_x (a_mem s')) = p_bvs (r_x (a_mem s)) /\ (0 <= r_len (a_mem s'))%Z /\
         match e with
         | Some e => o_stop o (length (a_trace s')) = Some e /\ lagging o size s'
         | None => a_trace s' = a_trace s ++ p_bvs (r_x (a_mem s)) /\ top_of o (a_trace s') (a_sol s')
         end) s.
  Proof.
    intros (W & WY & L0 & L1) HL TO. unfold ram_iterate, ram_generation. apply wp_bind.
    eapply wp_mono; [apply (evaluate_sort_wp r_x r_put r_get_put r_put_put r_put_get o (shs t) srt (HSH t) HSO size n s W TO)| |].
    2:{ cbn beta. intros e s1 (H1 & (e' & -> & H2) & _ & (p & M1 & WP & PB)). rewrite M1. cbn [r_pv r_pvy r_put r_x r_y r_len]. unfold ram_sized. cbn. auto 10. }
    cbn beta zeta. intros _ s1 (T1 & TO1 & LA1 & _ & _ & (p & M1 & (WP & PB & PV & BO))).
    apply wp_bind, ram_maps_wp; [rewrite M1; exact HL|]. rewrite M1. cbn zeta. cbn [r_put r_x r_y r_pv r_pvy r_len]. intros l EL HL1. split.
    { cbn [put_mem a_mem a_trace a_sol r_pv r_pvy r_x r_y r_len]. unfold ram_sized. cbn. auto 10. }
    intros ts b ts' b' RM F' LB' INV. pose proof RM as (R1 & R2 & R3). cbn [fst snd].
    pose proof WY as (_ & _ & Y3 & Y4 & _). pose proof WP as (_ & _ & X3 & X4 & _).
    destruct (to_latent_Ok size n selection ts b p (p_bvs (r_y (a_mem s))) WP ltac:(lia) R3 R2 Y3 Y4) as (ys & EY & LY & FY & HY).
    destruct (mean_of_first_Ok n selection ys _ Hn ltac:(lia) FY HY) as (pv & EP & ES & FP).
    assert (LPV : length pv = n) by apply ES.
    match goal with |- wp (on_mem ?F) _ _ _ => set (step := F) end.
    destruct (generate_Ok (fun k x => drawn_through n (affine ts b) pv (u t k) x)
      (fun xs k => a <- pv_sample pv (repeat false n) (u t k) ;; out <- vget xs k ;; '(_, z) <- map_apply (MTsAffine ts' b') a out ;; vset xs k z) (p_bvs p) X3 X4) as (xs & EX & LX & FX & DX).
    { intros zs k Hk LZ FZ. destruct (pv_sample_Ok n pv (repeat false n) (u t k) LPV (repeat_length _ _)) as (a & -> & DA). cbn [bind]. pose proof DA as [LA _].
      rewrite (vget_nth zs k []) by lia. cbn [bind]. destruct (apply_ts n ts' b' a (nth k zs []) LB' F' LA (Forall_nth_len FZ k ltac:(lia))) as [-> LZ'].
      cbn [bind]. rewrite vset_Ok by lia. eexists. split; [reflexivity|]. split; [assumption|]. split; [assumption|]. now rewrite (proj2 (INV a LA)). }
    eapply wp_on_mem.
    { unfold step. cbn [put_mem a_mem r_x r_y r_pv r_pvy r_len]. rewrite L0, EY. cbn [bind]. rewrite EP. cbn [bind].
      unfold pop_size. rewrite X3, EX. cbn [bind]. reflexivity. }
    clear step. exists (map (at_index p) (firstn selection (p_perm p))), ts, b. cbn [put_mem a_mem a_trace a_sol a_last r_x r_y r_pv r_pvy r_len p_bvs].
    split; [assumption|]. split; [apply BO; lia|]. split; [assumption|]. split; [assumption|]. split; [assumption|]. split; [assumption|]. split; [assumption|].
    split; [reflexivity|]. split; [assumption|]. split; [|auto]. unfold ram_sized. cbn [r_x r_y r_pv r_pvy]. split; [now apply well_formed_bvs|]. split; [now apply well_formed_bvs|]. auto.
  Qed.

  Variables (uc ul : nat -> nat -> Q) (ux : nat -> nat -> nat -> Q) (coin : nat -> nat -> nat -> bool) (pc pl : Q).

  Lemma ram2_iterate_wp t (s : alg ram) : ram_sized size n (a_mem s) -> (0 <= r_len (a_mem s))%Z -> top_of o (a_trace s) (a_sol s) ->
    wp (ram2_iterate o n selection c ud gd tb td u shs srt uc ul ux coin pc pl t)
      (fun _ s' => exists kept ts b,
         a_trace s' = a_trace s ++ p_bvs (r_x (a_mem s)) /\
         best_of selection kept (map (fun x => (x, o_value o x)) (p_bvs (r_x (a_mem s)))) /\
         compute_ts_length c t (ud t) (gd t) (r_len (a_mem s)) = Ok (r_len (a_mem s')) /\
         random_map n (Z.to_nat (r_len (a_mem s'))) ts b /\
         estimated n (images (affine ts b) kept) (r_pvy (a_mem s')) /\
         estimated n (map (fun x => (x, o_value o x)) (firstn selection (p_bvs (r_x (a_mem s))))) (r_pv (a_mem s')) /\
         (forall k, k < size -> generated n (affine ts b) (r_pv (a_mem s')) (r_pvy (a_mem s')) pc pl (uc t k) (ul t k) (u t k) (ux t k) (coin t k)
            (nth k (p_bvs (r_x (a_mem s'))) [])) /\
         Forall (within n) (r_pv (a_mem s')) /\ Forall (within n) (r_pvy (a_mem s')) /\
         top_of o (a_trace s') (a_sol s') /\ ram_sized size n (a_mem s') /\ (0 <= r_len (a_mem s'))%Z /\ a_last s' = a_last s)
      (fun e s' => (r_pv (a_mem s') = r_pv (a_mem s) \/ (e = None /\ Forall (within n) (r_pv (a_mem s')))) /\ r_pvy (a_mem s') = r_pvy (a_mem s) /\
         ram_sized size n (a_mem s') /\ p_bvs (r_x (a_mem s')) = p_bvs (r_x (a_mem s)) /\ (0 <= r_len (a_mem s'))%Z /\
         match e with
         | Some e => o_stop o (length (a_trace s')) = Some e /\ lagging o size s'
         | None => a_trace s' = a_trace s ++ p_bvs (r_x (a_mem s)) /\ top_of o (a_trace s') (a_sol s')
         end) s.
  Proof.
    intros (W & WY & L0 & L1) HL TO. unfold ram2_iterate, ram_generation. apply wp_bind.
    eapply wp_mono; [apply (evaluate_sort_wp r_x r_put r_get_put r_put_put r_put_get o (shs t) srt (HSH t) HSO size n s W TO)| |].
    2:{ cbn beta. intros e s1 (H1 & (e' & -> & H2) & _ & (p & M1 & WP & PB)). rewrite M1. cbn [r_pv r_pvy r_put r_x r_y r_len]. unfold ram_sized. cbn. auto 10. }
    cbn beta zeta. intros _ s1 (T1 & TO1 & LA1 & _ & _ & (p & M1 & (WP & PB & PV & BO))).
    pose proof WY as (_ & _ & Y3 & Y4 & _). pose proof WP as (_ & _ & X3 & X4 & _).
    destruct (mean_of_first_Ok n selection (p_bvs p) (map (fun x => (x, o_value o x)) (firstn selection (p_bvs p))) Hn ltac:(lia) X4) as (pv & EP & ES & FP).
    { rewrite map_map. cbn [fst]. apply map_id. }
    apply wp_bind. eapply wp_on_mem. { rewrite M1. cbn [r_put r_x r_y r_pv r_pvy r_len]. rewrite L0, EP. cbn [bind]. reflexivity. }
    assert (LPV : length pv = n) by apply ES.
    apply wp_bind, ram_maps_wp; [exact HL|]. cbn zeta. cbn [put_mem a_mem a_trace a_sol a_last]. cbn [r_put r_x r_y r_pv r_pvy r_len]. intros l EL HL1. split.
    { cbn [put_mem a_mem a_trace a_sol r_pv r_pvy r_x r_y r_len]. unfold ram_sized. cbn. auto 10. }
    intros ts b ts' b' RM F' LB' INV. pose proof RM as (R1 & R2 & R3). cbn [fst snd].
    destruct (to_latent_Ok size n selection ts b p (p_bvs (r_y (a_mem s))) WP ltac:(lia) R3 R2 Y3 Y4) as (ys & EY & LY & FY & HY).
    destruct (mean_of_first_Ok n selection ys _ Hn ltac:(lia) FY HY) as (pvy & EP' & ES' & FP').
    assert (LPV' : length pvy = n) by apply ES'.
    match goal with |- wp (on_mem ?F) _ _ _ => set (step := F) end.
    destruct (generate_Ok (fun k x => generated n (affine ts b) pv pvy pc pl (uc t k) (ul t k) (u t k) (ux t k) (coin t k) x)
      (fun xs k =>
              out <- vget xs k ;;
              z <-
                (if qltb (uc t k) pc then
                   a <- pv_sample pvy (repeat false n) (u t k) ;;
                   '(_, b) <- map_apply (MTsAffine ts' b') a (repeat false n) ;;
                   c <- pv_sample pv (repeat false n) (ux t k) ;;
                   uniform_crossover (coin t k) b c out
                 else if qltb (ul t k) pl then
                   a <- pv_sample pvy (repeat false n) (u t k) ;;
                   '(_, b) <- map_apply (MTsAffine ts' b') a out ;;
                   Ok b
                 else pv_sample pv out (ux t k)) ;;
              vset xs k z) (p_bvs p) X3 X4) as (xs & EX & LX & FX & DX).
    { intros zs k Hk LZ FZ. rewrite (vget_nth zs k []) by lia. cbn [bind]. assert (LO : length (nth k zs []) = n) by (apply (Forall_nth_len FZ); lia). set (out := nth k zs []) in *.
      destruct (pv_sample_Ok n pvy (repeat false n) (u t k) LPV' (repeat_length _ _)) as (a & EA & DA). rewrite EA. cbn [bind]. pose proof DA as [LA _].
      destruct (qltb (uc t k) pc) eqn:QC; [|destruct (qltb (ul t k) pl) eqn:QL].
      - destruct (apply_ts n ts' b' a (repeat false n) LB' F' LA (repeat_length _ _)) as [-> LZ']. cbn [bind].
        destruct (pv_sample_Ok n pv (repeat false n) (ux t k) LPV (repeat_length _ _)) as (c0 & -> & DC). cbn [bind].
        destruct (uniform_Ok (coin t k) _ c0 out n LZ' (proj1 DC) LO) as (z & -> & LZ2 & HZ). cbn [bind]. rewrite vset_Ok by lia. eexists. split; [reflexivity|].
        split; [assumption|]. apply qltb_lt in QC. split; [|split; intros C; exfalso; apply (Qlt_not_le _ _ QC C)]. intros _. exists (affine ts' b' a), c0.
        split; [split; [assumption|]; now rewrite (proj2 (INV a LA))|]. auto.
      - destruct (apply_ts n ts' b' a out LB' F' LA LO) as [-> LZ']. cbn [bind]. rewrite vset_Ok by lia. eexists. split; [reflexivity|]. split; [assumption|].
        apply qltb_ge in QC. apply qltb_lt in QL. split; [intros C; exfalso; apply (Qlt_not_le _ _ C QC)|]. split; [|intros _ C; exfalso; apply (Qlt_not_le _ _ QL C)].
        intros _ _. split; [assumption|]. now rewrite (proj2 (INV a LA)).
      - destruct (pv_sample_Ok n pv out (ux t k) LPV LO) as (c0 & -> & DC). cbn [bind]. rewrite vset_Ok by lia. eexists. split; [reflexivity|]. split; [apply DC|].
        apply qltb_ge in QC. apply qltb_ge in QL. split; [intros C; exfalso; apply (Qlt_not_le _ _ C QC)|]. split; [intros _ C; exfalso; apply (Qlt_not_le _ _ C QL)|]. auto. }
    eapply wp_on_mem.
    { unfold step. cbn [put_mem a_mem r_x r_y r_pv r_pvy r_len]. rewrite L1, EY. cbn [bind]. rewrite EP'. cbn [bind].
      unfold pop_size. rewrite X3, EX. cbn [bind]. reflexivity. }
    clear step. exists (map (at_index p) (firstn selection (p_perm p))), ts, b. cbn [put_mem a_mem a_trace a_sol a_last r_x r_y r_pv r_pvy r_len p_bvs].
    split; [assumption|]. split; [apply BO; lia|]. split; [assumption|]. split; [assumption|]. split; [assumption|]. split; [rewrite <- PB; assumption|]. split; [assumption|]. split; [assumption|].
    split; [assumption|]. split; [assumption|]. split; [|auto]. unfold ram_sized. cbn [r_x r_y r_pv r_pvy]. split; [now apply well_formed_bvs|]. split; [now apply well_formed_bvs|]. auto.
  Qed.

  Definition ram_kept (s : alg ram) : Prop := ram_sized size n (a_mem s) /\ (0 <= r_len (a_mem s))%Z /\ bounded (r_pv (a_mem s)) /\ bounded (r_pvy (a_mem s)).

  Lemma ram_run (second : bool) bit bits num fuel (s : alg ram) : ram_kept s -> a_trace s = [] -> length (fst (a_sol s)) = n ->
    let '(r, s') := loop (ram_init o bit bits)
      (if second then ram2_iterate o n selection c ud gd tb td u shs srt uc ul ux coin pc pl else ram_iterate o n selection c ud gd tb td u shs srt) num fuel s in
    run_top o size r s' /\ (a_trace s' = [] \/ ram_kept s').
  Proof.
    intros HK T LS. pose proof HK as ((W & WY & P0 & P1) & HL & B0 & B1). pose proof W as (W1 & W2 & W3 & _).
    pose proof (run_generic o size ram_kept ram_kept (ram_init o bit bits)
      (if second then ram2_iterate o n selection c ud gd tb td u shs srt uc ul ux coin pc pl else ram_iterate o n selection c ud gd tb td u shs srt) num fuel s W1) as R.
    destruct (loop _ _ _ _ _) as [r s']. match type of R with _ -> _ -> _ -> ?D => enough D as (G1 & G2 & _) by (split; assumption); apply R end; clear R.
    - unfold ram_init. apply wp_bind. eapply wp_mono; [apply (random_solution_wp o n bit s T LS)| |].
      + cbn beta. intros _ s1 (T1 & _ & _ & M1). apply wp_modify. unfold ram_kept, ram_sized. cbn [put_mem put_last a_mem a_trace a_sol a_last r_put]. rewrite M1. cbn [r_x r_y r_pv r_pvy r_len].
        split; [assumption|]. split; [|auto]. split; [now apply pop_random_wf|auto].
      + cbn beta. intros e s1 (E1 & E2). split; [assumption|]. now left.
    - auto.
    - intros i s1 (SZ1 & LE & F1 & F2) TO LA. destruct second.
      + eapply wp_mono; [apply (ram2_iterate_wp i s1 SZ1 LE TO)| |].
        * cbn beta. intros _ s2 (kept & ts & b & _ & _ & _ & _ & _ & _ & _ & H1 & H2 & H3 & H4 & H5 & _). split; [assumption|]. unfold ram_kept, bounded. auto.
        * cbn beta. intros e s2 (H1 & H2 & H3 & H4 & H5 & H6). unfold left_at. assert (B : bounded (r_pv (a_mem s2))) by (destruct H1 as [->|[_ H1]]; [assumption|now right]).
          assert (K2 : ram_kept s2). { split; [assumption|]. split; [assumption|]. split; [assumption|]. now rewrite H2. }
          destruct e as [e|]; [destruct H6; auto|]. destruct H6 as [_ H6]. split; [apply lagging_top; assumption|auto].
      + eapply wp_mono; [apply (ram_iterate_wp i s1 SZ1 LE TO)| |].
        * cbn beta. intros _ s2 (kept & ts & b & _ & _ & _ & _ & _ & _ & H1 & H2 & H3 & H4 & H5 & _). split; [assumption|]. unfold ram_kept, bounded. rewrite H2. auto.
        * cbn beta. intros e s2 (H1 & H2 & H3 & H4 & H5 & H6). unfold left_at.
          assert (K2 : ram_kept s2). { split; [assumption|]. split; [assumption|]. rewrite H1, H2. auto. }
          destruct e as [e|]; [destruct H6; auto|]. destruct H6 as [_ H6]. split; [apply lagging_top; assumption|auto].
  Qed.
End Runs.

(** * Other facts *)

Lemma affine_bijection n t ts b : random_map n t ts b -> bijection (affine ts b) n.
Proof. intros (_ & F & <-). exact (ts_affine_bijection ts b F). Qed.

Lemma drawn_within n pv y : 2 <= n -> length pv = n -> Forall (within n) pv -> length y = n -> exists u, (forall i, 0 <= u i < 1)%Q /\ drawn n pv u y.
Proof.
  intros Hn L F LY. exists (fun i => if nth i y false then 0%Q else (1 - 1 / inject_Z (Z.of_nat n))%Q). pose proof (half_between n Hn) as HB.
  assert (RP : (0 < 1 / inject_Z (Z.of_nat n))%Q).
  { apply Qlt_shift_div_l; [change 0%Q with (inject_Z 0); rewrite <- Zlt_Qlt; lia|]. lra. }
  assert (WB : forall i, i < n -> (1 / inject_Z (Z.of_nat n) <= nth i pv 0 <= 1 - 1 / inject_Z (Z.of_nat n))%Q).
  { intros i Hi. apply (proj1 (Forall_forall _ _) F). apply nth_In; lia. }
  set (d := (1 / inject_Z (Z.of_nat n))%Q) in *. clearbody d.
  split; [intros i; destruct (nth i y false); lra|]. split; [assumption|]. intros i Hi. specialize (WB i Hi).
  destruct (nth i y false); split; intros H; try lra; try reflexivity; discriminate.
Qed.

Lemma drawn_through_any n t ts b pv x : 2 <= n -> random_map n t ts b -> length pv = n -> Forall (within n) pv -> length x = n ->
  exists u, (forall i, 0 <= u i < 1)%Q /\ drawn_through n (affine ts b) pv u x.
Proof.
  intros Hn RM L F LX. destruct (affine_bijection n t ts b RM) as (g & H). destruct (H x LX) as (LF & _).
  destruct (drawn_within n pv (affine ts b x) Hn L F LF) as (u & U1 & U2). exists u. unfold drawn_through. auto.
Qed.

Lemma seq_cut a b : a < b -> seq 0 b = seq 0 a ++ a :: seq (S a) (b - a - 1).
Proof. intros H. replace b with (a + S (b - a - 1)) at 1 by lia. rewrite seq_app. reflexivity. Qed.

Lemma to_latent_outside size n selection ts b p ys : well_formed size n p -> size < selection -> length b = n -> Forall (tv_ok n) ts ->
  length ys = size -> Forall (fun x => length x = n) ys -> to_latent selection (MTsAffine ts b) p ys = UB.
Proof.
  intros W H LB HF LY FY. destruct (to_latent_Ok size n size ts b p ys W (le_n _) LB HF LY FY) as (ys' & E & _). unfold to_latent in *.
  rewrite (seq_cut size selection H), foldM_app, E. cbn [bind foldM].
  unfold best_bv, best_index. now rewrite (perm_seq_length _ _ (wf_perm W)), Nat.ltb_irrefl.
Qed.

Lemma mean_outside n selection bs : 0 < n -> (selection = 0 \/ length bs < selection) -> Forall (fun x => length x = n) bs -> mean_of_first n selection n bs = UB.
Proof.
  intros Hn [->|H] F; unfold mean_of_first; [reflexivity|]. rewrite (seq_cut _ _ H), foldM_app.
  destruct (foldM_upto (fun _ m => length m = n) (fun m i => b <- vget bs i ;; pv_add m b) (length bs) (repeat 0%Q n)) as (m & -> & L).
  - apply repeat_length.
  - intros k m Hk L. rewrite (vget_nth bs k []) by lia. cbn [bind]. unfold pv_add. rewrite (Forall_nth_len F k Hk), L, Nat.eqb_refl. cbn [assertb bind]. eexists. split; [reflexivity|].
    apply length_map2_eq; [assumption|]. now apply (Forall_nth_len F).
  - cbn [bind foldM]. unfold vget. now rewrite (proj2 (nth_error_None bs (length bs)) (le_n _)).
Qed.

Section Misuse.
  Variables (o : objective) (n size selection : nat) (c : length_config).
  Variables (ud : nat -> Z) (gd : nat -> nat) (tb : nat -> nat -> bool) (td : nat -> list nat).
  Variables (u : nat -> nat -> nat -> Q) (shs : nat -> list nat -> list nat).
  Variable srt : (nat -> nat -> bool) -> list nat -> list nat.
  Hypothesis HSEL : n = 1 \/ selection = 0 \/ size < selection.
  Hypothesis HC : valid_lengths c.
  Hypothesis HU : within_lengths c ud.
  Hypothesis HD : forall t, Forall (fun k => k < n) (td t).
  Hypothesis HSH : forall t, shuffles (shs t).
  Hypothesis HSO : sorts srt.
  Hypothesis HST : forall k, o_stop o k = None.

  Lemma ram_generation_Ok t (s : alg ram) : ram_sized size n (a_mem s) -> (0 <= r_len (a_mem s))%Z -> top_of o (a_trace s) (a_sol s) ->
    exists s1, ram_generation o shs srt t s = (Ret tt, s1) /\ ram_sized size n (a_mem s1) /\ (0 <= r_len (a_mem s1))%Z.
  Proof.
    intros (W & WY & L0 & L1) HL TO.
    pose proof (evaluate_sort_wp r_x r_put r_get_put r_put_put r_put_get o (shs t) srt (HSH t) HSO size n s W TO) as R. apply wp_result in R. unfold ram_generation.
    destruct (abind _ _ s) as [[[]|e| |] s1].
    - destruct R as (_ & _ & _ & _ & _ & (p & M & (WP & _))). exists s1. split; [reflexivity|]. rewrite M. split; [|exact HL]. split; [exact WP|]. auto.
    - destruct R as (_ & (e' & _ & R) & _). rewrite HST in R. discriminate.
    - contradiction.
    - destruct R as (_ & (e' & R & _) & _). discriminate.
  Qed.

  (** The maps: undefined for one bit *)
  Lemma ram_maps_one t (s : alg ram) : n = 1 -> (0 <= r_len (a_mem s))%Z -> fst (ram_maps n c ud gd tb td t s) = Bad.
  Proof.
    intros E HL. destruct (compute_length_Ok c t (ud t) (gd t) (r_len (a_mem s)) HC (HU t) HL) as (l & EL & L0).
    unfold ram_maps, abind, on_mem, aget. rewrite EL. cbn [bind put_mem a_mem r_len]. unfold lift_opt, ts_affine_random. rewrite E.
    rewrite (proj2 (Z.leb_le 0 l)) by lia. reflexivity.
  Qed.

  Lemma ram_misuse t (s : alg ram) : ram_sized size n (a_mem s) -> (0 <= r_len (a_mem s))%Z -> top_of o (a_trace s) (a_sol s) ->
    let r := fst (ram_iterate o n selection c ud gd tb td u shs srt t s) in r = Bad \/ r = Pending.
  Proof.
    intros SZ HL TO. destruct (ram_generation_Ok t s SZ HL TO) as (s1 & E & (W & WY & L0 & L1) & HL1). cbv zeta. unfold ram_iterate, abind. rewrite E.
    pose proof W as (_ & W2 & W3 & W4 & _). destruct (Nat.eq_dec n 1) as [N|N].
    { pose proof (ram_maps_one t s1 N HL1) as B. destruct (ram_maps _ _ _ _ _ _ _ _) as [[p|e| |] s2]; cbn in B; try discriminate. now left. }
    pose proof (ram_maps_wp n c ud gd tb td ltac:(lia) HC HU HD t s1 (fun p s2 => exists ts b, fst p = MTsAffine ts b /\ random_map n (length ts) ts b /\ ram_sized size n (a_mem s2))
      (fun e _ => e = None) HL1) as M.
    assert (M' : wp (ram_maps n c ud gd tb td t) (fun p s2 => exists ts b, fst p = MTsAffine ts b /\ random_map n (length ts) ts b /\ ram_sized size n (a_mem s2))
      (fun e _ => e = None) s1).
    { apply M. intros l _ _. split; [reflexivity|]. intros ts b ts' b' (R1 & R2 & R3) _ _ _. exists ts, b. split; [reflexivity|]. split; [repeat split; assumption|].
      cbn [put_mem a_mem]. split; [exact W|auto]. }
    apply wp_result in M'. destruct (ram_maps _ _ _ _ _ _ _ _) as [[p|e| |] s2]; [|discriminate|contradiction|right; reflexivity].
    destruct M' as (ts & b & -> & (_ & R2 & R3) & (V & VY & K0 & K1)). left. unfold on_mem. pose proof VY as (_ & _ & Y3 & Y4 & _).
    destruct (Nat.le_gt_cases selection size) as [HS|HS].
    - destruct (to_latent_Ok size n selection ts b _ _ V HS R3 R2 Y3 Y4) as (ys & -> & LY & FY & _). cbn [bind]. rewrite K0, mean_outside; [reflexivity|lia|lia|assumption].
    - now rewrite (to_latent_outside size n selection ts b _ _ V HS R3 R2 Y3 Y4).
  Qed.

  Variables (uc ul : nat -> nat -> Q) (ux : nat -> nat -> nat -> Q) (coin : nat -> nat -> nat -> bool) (pc pl : Q).
  Lemma ram2_misuse t (s : alg ram) : ram_sized size n (a_mem s) -> (0 <= r_len (a_mem s))%Z -> top_of o (a_trace s) (a_sol s) ->
    let r := fst (ram2_iterate o n selection c ud gd tb td u shs srt uc ul ux coin pc pl t s) in r = Bad \/ r = Pending.
  Proof.
    intros SZ HL TO. destruct (ram_generation_Ok t s SZ HL TO) as (s1 & E & (W & WY & L0 & L1) & HL1). cbv zeta. unfold ram2_iterate, abind. rewrite E.
    pose proof W as (_ & W2 & W3 & W4 & _). left. unfold on_mem at 1. rewrite L0.
    destruct (Nat.le_gt_cases selection size) as [HS|HS]; [destruct (Nat.eq_dec selection 0) as [Z0|Z0]|].
    - now rewrite mean_outside by auto.
    - assert (N : n = 1) by lia. destruct (mean_of_first n selection n (p_bvs (r_x (a_mem s1)))) as [pv|e|] eqn:EM; cbn [bind].
      + set (s2 := put_mem _ s1). assert (B : fst (ram_maps n c ud gd tb td t s2) = Bad) by now apply ram_maps_one.
        destruct (ram_maps _ _ _ _ _ _ _ _) as [[p|e| |] s3]; cbn in B; try discriminate. reflexivity.
      + exfalso. unfold mean_of_first in EM. destruct (foldM_upto (fun _ m => length m = n) (fun m i => b <- vget (p_bvs (r_x (a_mem s1))) i ;; pv_add m b) selection (repeat 0%Q n)) as (m & EF & L).
        * apply repeat_length.
        * intros k m Hk L. rewrite (vget_nth _ k []) by lia. cbn [bind]. unfold pv_add. rewrite (Forall_nth_len W4 k ltac:(lia)), L, Nat.eqb_refl. cbn [assertb bind]. eexists. split; [reflexivity|].
          apply length_map2_eq; [assumption|]. apply (Forall_nth_len W4). lia.
        * rewrite EF in EM. cbn [bind] in EM. unfold pv_average in EM. destruct (0 <? selection); discriminate.
      + reflexivity.
    - rewrite mean_outside; [reflexivity|lia|lia|assumption].
  Qed.
End Misuse.
