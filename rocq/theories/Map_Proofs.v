From Coq Require Import Permutation.
From Verif Require Import Base BaseLemmas BitVector_Model BitVector_Spec GF2 BitVector_Proofs
  BitMatrix_Model BitMatrix_Spec BitMatrix_Pure BitMatrix_Proofs Transvection_Model Map_Model Map_Spec
  Transvection_Proofs.

(** * Loops *)

Lemma perm_check_Ok n l checked : length checked = n ->
  exists b, perm_check n checked l = Ok b /\
    (b = true <-> Forall (fun k => k < n) l /\ NoDup l /\ forall k, In k l -> nth k checked false = false).
Proof.
  revert checked. induction l as [|p l IH]; intros checked HL; cbn [perm_check].
  - exists true. split; auto. split; auto. intros _. split; [constructor|]. split; [constructor|]. intros k [].
  - destruct (Nat.leb_spec n p).
    + exists false. split; auto. split; [discriminate|]. intros [HF _]. inversion HF; lia.
    + rewrite (vget_Ok checked p false) by lia. cbn [bind].
      destruct (nth p checked false) eqn:Ep.
      * exists false. split; auto. split; [discriminate|]. intros (_ & _ & HC). rewrite HC in Ep; [discriminate|now left].
      * rewrite vset_Ok by lia. cbn [bind]. destruct (IH (upd checked p true)) as (b & E & HB); [now rewrite length_upd|].
        exists b. split; auto. rewrite HB. clear E HB IH.
        assert (p <? length checked = true) as Hp by (apply Nat.ltb_lt; lia).
        split; intros (A1 & A2 & A3).
        -- split; [now constructor|]. split.
           ++ constructor; auto. intros K. apply A3 in K. rewrite nth_upd, Nat.eqb_refl, Hp in K. discriminate.
           ++ intros k [<-|K]; auto. pose proof (A3 k K) as K'. rewrite nth_upd in K'.
              destruct ((k =? p) && (p <? length checked)); [discriminate|auto].
        -- inversion A1; inversion A2; subst. split; auto. split; auto. intros k K.
           rewrite nth_upd. destruct (Nat.eqb_spec k p) as [->|]; [contradiction|]. cbn. apply A3. now right.
Qed.

Lemma perm_is_valid_exact p : exists b, perm_is_valid p = Ok b /\ (b = true <-> Permutation p (seq 0 (length p))).
Proof.
  unfold perm_is_valid. destruct (perm_check_Ok (length p) p (repeat false (length p))) as (b & E & HB); [apply repeat_length|].
  exists b. split; auto. rewrite HB. split.
  - intros (A1 & A2 & _). apply NoDup_Permutation_bis; auto; [now rewrite seq_length|].
    intros k Hk. rewrite Forall_forall in A1. apply in_seq. specialize (A1 k Hk). lia.
  - intros P. split.
    + apply Forall_forall. intros k Hk. apply (Permutation_in k P) in Hk. apply in_seq in Hk. lia.
    + split; [apply (Permutation_NoDup (Permutation_sym P)), seq_NoDup|]. intros k _. apply nth_repeat.
Qed.

(** writing every position of a buffer *)
Lemma fill_Ok (g : nat -> outcome bool) (f : nat -> bool) (out : bv) :
  (forall i, i < length out -> g i = Ok (f i)) ->
  foldM (fun out i => b <- g i ;; vset out i b) (seq 0 (length out)) out = Ok (map f (seq 0 (length out))).
Proof.
  intros H. set (n := length out) in *.
  assert (forall m, m <= n -> exists out', foldM (fun out i => b <- g i ;; vset out i b) (seq 0 m) out = Ok out' /\
     length out' = n /\ forall i, i < m -> nth i out' false = f i) as G.
  { induction m as [|m IH]; intros Hm.
    - exists out. split; auto. split; auto. intros; lia.
    - destruct IH as (o & E & L & N); [lia|]. rewrite seq_S, foldM_app, E. cbn [bind foldM Nat.add].
      rewrite H by lia. cbn [bind]. rewrite vset_Ok by lia. cbn [bind]. eexists. split; [reflexivity|].
      split; [now rewrite length_upd|]. intros i Hi. rewrite nth_upd.
      assert (m <? length o = true) as -> by (apply Nat.ltb_lt; lia). rewrite andb_true_r.
      destruct (Nat.eqb_spec i m) as [->|]; auto. apply N. lia. }
  destruct (G n ltac:(lia)) as (o & E & L & N). rewrite E. f_equal.
  apply (bv_ext n); [auto|now rewrite map_length, seq_length|]. intros i Hi. rewrite N by auto. now rewrite nth_map_seq.
Qed.

Lemma nth_map_nat (x : list bool) (p : list nat) i : i < length p ->
  nth i (map (fun k => nth k x false) p) false = nth (nth i p 0) x false.
Proof.
  intros Hi. rewrite (nth_indep (map (fun k => nth k x false) p) false (nth 0 x false)) by now rewrite map_length.
  now rewrite (map_nth (fun k => nth k x false) p 0 i).
Qed.

Lemma map_as_seq (x : list bool) (p : list nat) :
  map (fun i => nth (nth i p 0) x false) (seq 0 (length p)) = map (fun k => nth k x false) p.
Proof.
  apply (bv_ext (length p)); rewrite ?map_length, ?seq_length; auto. intros i Hi.
  rewrite nth_map_seq by auto. now rewrite nth_map_nat.
Qed.

Lemma foldM_ext_in {S A} (f g : S -> A -> outcome S) l s :
  (forall s a, In a l -> f s a = g s a) -> foldM f l s = foldM g l s.
Proof.
  intros H. revert s. induction l as [|a l IH]; intros s; cbn; auto. rewrite H by now left.
  destruct (g s a); cbn; auto. apply IH. intros; apply H; now right.
Qed.

Lemma gather_Ok (p : list nat) (x out : bv) : length out = length p -> Forall (fun k => k < length x) p ->
  foldM (fun out i => k <- vget p i ;; b <- vget x k ;; vset out i b) (seq 0 (length p)) out
  = Ok (map (fun k => nth k x false) p).
Proof.
  intros HL HF. rewrite <- HL.
  rewrite (foldM_ext_in _ (fun out i => b <- (k <- vget p i ;; vget x k) ;; vset out i b)) by (intros; apply bind_assoc2).
  rewrite (fill_Ok _ (fun i => nth (nth i p 0) x false)).
  - rewrite HL. now rewrite map_as_seq.
  - intros i Hi. rewrite (vget_Ok p i 0) by lia. cbn [bind].
    rewrite Forall_forall in HF. apply vget_Ok. apply HF, nth_In. lia.
Qed.

(** scatter *)
Lemma scatter_Ok (pos : list nat) (x out : bv) : length x = length pos -> NoDup pos ->
  Forall (fun k => k < length out) pos ->
  exists out', foldM (fun out i => k <- vget pos i ;; b <- vget x i ;; vset out k b) (seq 0 (length pos)) out = Ok out' /\
    length out' = length out /\
    (forall j, j < length pos -> nth (nth j pos 0) out' false = nth j x false) /\
    (forall k, ~ In k pos -> nth k out' false = nth k out false).
Proof.
  intros HL HN HF. rewrite Forall_forall in HF.
  assert (forall m, m <= length pos -> exists out',
    foldM (fun out i => k <- vget pos i ;; b <- vget x i ;; vset out k b) (seq 0 m) out = Ok out' /\
    length out' = length out /\
    (forall j, j < m -> nth (nth j pos 0) out' false = nth j x false) /\
    (forall k, ~ In k pos -> nth k out' false = nth k out false)) as G.
  { induction m as [|m IH]; intros Hm.
    - exists out. split; auto. split; auto. split; auto. intros; lia.
    - destruct IH as (o & E & L & N1 & N2); [lia|]. rewrite seq_S, foldM_app, E. cbn [bind foldM Nat.add].
      rewrite (vget_Ok pos m 0), (vget_Ok x m false) by lia. cbn [bind].
      assert (nth m pos 0 < length out) as Hk by (apply HF, nth_In; lia).
      rewrite vset_Ok by lia. cbn [bind]. eexists. split; [reflexivity|]. split; [now rewrite length_upd|].
      assert (nth m pos 0 <? length o = true) as Hk' by (apply Nat.ltb_lt; lia).
      split.
      + intros j Hj. rewrite nth_upd, Hk', andb_true_r.
        destruct (Nat.eqb_spec (nth j pos 0) (nth m pos 0)) as [Eq|Hne].
        * assert (j = m) as -> by (eapply NoDup_nth; eauto; lia). auto.
        * apply N1. destruct (Nat.eq_dec j m) as [->|]; [congruence|lia].
      + intros k Hk2. rewrite nth_upd. destruct (Nat.eqb_spec k (nth m pos 0)) as [->|]; [|apply N2; auto].
        exfalso. apply Hk2, nth_In. lia. }
  apply (G (length pos)). auto.
Qed.

Lemma nth_inject pos n x k : k < n -> nth k (inject pos n x) false =
  existsb (fun j => (nth j pos 0 =? k) && nth j x false) (seq 0 (length pos)).
Proof. intros Hk. unfold inject. now rewrite nth_map_seq. Qed.

Lemma length_inject pos n x : length (inject pos n x) = n.
Proof. unfold inject. now rewrite map_length, seq_length. Qed.

Lemma nth_inject_pos pos n x j : NoDup pos -> Forall (fun k => k < n) pos -> j < length pos ->
  nth (nth j pos 0) (inject pos n x) false = nth j x false.
Proof.
  intros HN HF Hj. rewrite Forall_forall in HF. rewrite nth_inject by (apply HF, nth_In; auto).
  destruct (nth j x false) eqn:E.
  - apply existsb_exists. exists j. split; [apply in_seq; lia|]. now rewrite Nat.eqb_refl, E.
  - apply not_true_is_false. intros K. apply existsb_exists in K as (i & Hi & K). apply in_seq in Hi.
    apply andb_true_iff in K as [K1 K2]. apply Nat.eqb_eq in K1.
    assert (i = j) as -> by (eapply NoDup_nth; eauto; lia). congruence.
Qed.

Lemma nth_inject_other pos n x k : ~ In k pos -> nth k (inject pos n x) false = false.
Proof.
  intros Hk. destruct (Nat.lt_ge_cases k n).
  - rewrite nth_inject by auto. apply not_true_is_false. intros K. apply existsb_exists in K as (i & Hi & K).
    apply in_seq in Hi. apply andb_true_iff in K as [K1 K2]. apply Nat.eqb_eq in K1. apply Hk. rewrite <- K1. apply nth_In. lia.
  - apply nth_overflow. rewrite length_inject. auto.
Qed.

(** * Maps in any reachable state *)

(** output positions a map does not write *)
Fixpoint untouched (m : hmap) (k : nat) : Prop :=
  match m with
  | MInjection pos _ => ~ In k pos
  | MComposition outer _ _ => untouched outer k
  | _ => False
  end.

Definition clean (m : hmap) (out : bv) : Prop := forall k, untouched m k -> nth k out false = false.

Inductive good : hmap -> nat -> nat -> Prop :=
| good_translation b : good (MTranslation b) (length b) (length b)
| good_permutation p : Permutation p (seq 0 (length p)) -> good (MPermutation p) (length p) (length p)
| good_linear nr nc M : is_matrix nr nc M -> good (MLinear M) nc nr
| good_affine nr nc M b : is_matrix nr nc M -> length b = nr -> good (MAffine M b) nc nr
| good_injection pos n : NoDup pos -> Forall (fun k => k < n) pos -> good (MInjection pos n) (length pos) n
| good_projection pos n : NoDup pos -> Forall (fun k => k < n) pos -> good (MProjection pos n) n (length pos)
| good_ts_affine ts b : Forall (tv_ok (length b)) ts -> good (MTsAffine ts b) (length b) (length b)
| good_composition outer inner buf i k o : good outer k o -> good inner i k -> length buf = k -> clean inner buf ->
    good (MComposition outer inner buf) i o.

Lemma NoDup_bound_length pos n : NoDup pos -> Forall (fun k => k < n) pos -> length pos <= n.
Proof.
  intros HN HF. rewrite <- (seq_length n 0). apply NoDup_incl_length; auto.
  intros k Hk. rewrite Forall_forall in HF. apply in_seq. specialize (HF k Hk). lia.
Qed.

Lemma good_output_size m i o : good m i o -> map_output_size m = o.
Proof.
  induction 1; cbn; auto; match goal with H : is_matrix _ _ _ |- _ => unfold is_matrix in H; unfold bm_num_rows; tauto end.
Qed.

Lemma good_input_size m i o : good m i o -> map_input_size m = Ok i.
Proof.
  induction 1; cbn; auto; match goal with H : is_matrix _ _ _ |- _ => apply is_matrix_wf in H as (? & ? & ?) end;
    eapply num_columns_Ok; eauto.
Qed.

Lemma built_good m i o : built m i o -> good m i o.
Proof.
  induction 1; try (constructor; auto; fail).
  - unfold make_injection in H1. destruct (n <? length pos); [discriminate|]. injection H1 as <-. now constructor.
  - unfold make_projection in H1. destruct (n <? length pos); [discriminate|]. injection H1 as <-. now constructor.
  - unfold make_composition in H1. rewrite (good_input_size _ _ _ IHbuilt1) in H1. cbn [bind] in H1.
    rewrite (good_output_size _ _ _ IHbuilt2) in H1. rewrite Nat.eqb_refl in H1. cbn [assertb bind] in H1.
    injection H1 as <-. econstructor; eauto; [apply repeat_length|]. intros j _. apply nth_repeat.
Qed.

(** the constructors accept the documented parameters *)
Lemma make_injection_Ok pos n : NoDup pos -> Forall (fun k => k < n) pos -> make_injection pos n = Ok (MInjection pos n).
Proof.
  intros HN HF. unfold make_injection. pose proof (NoDup_bound_length pos n HN HF).
  destruct (Nat.ltb_spec n (length pos)); auto; lia.
Qed.

Lemma make_projection_Ok pos n : NoDup pos -> Forall (fun k => k < n) pos -> make_projection pos n = Ok (MProjection pos n).
Proof.
  intros HN HF. unfold make_projection. pose proof (NoDup_bound_length pos n HN HF).
  destruct (Nat.ltb_spec n (length pos)); auto; lia.
Qed.

Lemma make_composition_spec outer inner i k1 k2 o : built outer k2 o -> built inner i k1 ->
  (k1 = k2 -> exists m, make_composition outer inner = Ok m /\ built m i o /\
     forall x, map_fn m x = map_fn outer (map_fn inner x)) /\
  (k1 <> k2 -> make_composition outer inner = UB).
Proof.
  intros HO HI.
  assert (make_composition outer inner = (_ <- assertb (k2 =? k1) ;;
    Ok (MComposition outer inner (repeat false (map_output_size inner))))) as E.
  { unfold make_composition. rewrite (good_input_size _ _ _ (built_good _ _ _ HO)). cbn [bind].
    now rewrite (good_output_size _ _ _ (built_good _ _ _ HI)). }
  split.
  - intros ->. rewrite Nat.eqb_refl in E. cbn [assertb bind] in E. eexists. split; [exact E|].
    split; [eapply built_composition; eauto|]. auto.
  - intros Hne. rewrite E. destruct (Nat.eqb_spec k2 k1); [congruence|]. auto.
Qed.

Lemma map2_xorb_vxor x y : map2 xorb x y = vxor x y.
Proof. reflexivity. Qed.

Lemma map_apply_good m i o : good m i o -> forall x out, length x = i -> length out = o -> clean m out ->
  exists m', map_apply m x out = Ok (m', map_fn m x) /\ good m' i o /\
    (forall y, map_fn m' y = map_fn m y) /\ (forall k, untouched m' k <-> untouched m k) /\
    length (map_fn m x) = o /\ clean m (map_fn m x) /\ map_is_surjective m' = map_is_surjective m.
Proof.
  induction 1 as [b|p HP|nr nc M HM|nr nc M b HM Hb|pos n HN HF|pos n HN HF|ts b HF|outer inner buf i k o HO IHO HI IHI Hbuf Hcl];
    intros x out Hx Hout Hclean; cbn [map_apply map_fn].
  - rewrite Hx, Hout, Nat.eqb_refl. cbn [assertb bind]. rewrite bv_add_Ok by auto. cbn [bind].
    eexists. split; [reflexivity|]. split; [constructor|]. split; auto. split; [tauto|].
    split; [rewrite map2_xorb_vxor; now apply length_vxor|]. split; [intros ? []|auto].
  - rewrite Hx, Hout, Nat.eqb_refl. cbn [assertb bind].
    destruct (perm_is_valid_exact p) as (b & E & HB). rewrite E. cbn [bind]. apply HB in HP as Hb. rewrite Hb. cbn [assertb bind].
    rewrite gather_Ok; auto.
    2: { apply Forall_forall. intros k Hk. apply (Permutation_in k HP) in Hk. apply in_seq in Hk. lia. }
    cbn [bind]. eexists. split; [reflexivity|]. split; [now constructor|]. split; auto. split; [tauto|].
    split; [now rewrite map_length|]. split; [intros ? []|auto].
  - pose proof HM as HM'. apply is_matrix_wf in HM' as (Hr & Hc & HW).
    rewrite Hout, (proj1 HW), Nat.eqb_refl. cbn [assertb bind].
    rewrite (bm_multiply_Ok nr nc) by auto. cbn [bind]. eexists. split; [reflexivity|]. split; [now constructor|].
    split; auto. split; [tauto|]. split; [rewrite (mat_vec_mulv nr nc), length_mulv by auto; apply HW|].
    split; [intros ? []|auto].
  - pose proof HM as HM'. apply is_matrix_wf in HM' as (Hr & Hc & HW).
    rewrite Hout, (proj1 HW), Nat.eqb_refl. cbn [assertb bind].
    rewrite (bm_multiply_Ok nr nc) by auto. cbn [bind].
    assert (length (mat_vec M x) = nr) as HL by (rewrite (mat_vec_mulv nr nc), length_mulv by auto; apply HW).
    rewrite bv_add_Ok by lia. cbn [bind].
    eexists. split; [reflexivity|]. split; [now constructor|].
    split; auto. split; [tauto|]. split; [now apply length_vxor|]. split; [intros ? []|auto].
  - rewrite Hx, Hout, !Nat.eqb_refl. cbn [assertb bind]. subst n.
    destruct (scatter_Ok pos x out Hx HN HF) as (out' & E & L & N1 & N2). rewrite E. cbn [bind].
    assert (out' = inject pos (length out) x) as ->.
    { apply (bv_ext (length out)); auto using length_inject. intros k Hk.
      destruct (in_dec Nat.eq_dec k pos) as [Hin|Hin].
      - apply (In_nth _ _ 0) in Hin as (j & Hj & <-). rewrite N1, nth_inject_pos by auto. auto.
      - rewrite N2, nth_inject_other by auto. now apply Hclean. }
    eexists. split; [reflexivity|]. split; [now constructor|]. split; auto. split; [tauto|].
    split; [apply length_inject|]. split; auto. intros k Hk. now apply nth_inject_other.
  - rewrite Hx, Hout, !Nat.eqb_refl. cbn [assertb bind].
    rewrite gather_Ok; auto; [|now rewrite Hx]. cbn [bind].
    eexists. split; [reflexivity|]. split; [now constructor|]. split; auto. split; [tauto|].
    split; [now rewrite map_length|]. split; [intros ? []|auto].
  - rewrite Hx, Hout, !Nat.eqb_refl. cbn [assertb bind]. rewrite ts_multiply_bv_Ok by now rewrite Hx. cbn [bind].
    assert (length (ts_action ts x) = length b) by now rewrite length_ts_action.
    rewrite bv_add_Ok by auto. cbn [bind].
    eexists. split; [reflexivity|]. split; [now constructor|]. split; auto. split; [tauto|].
    split; [now apply length_vxor|]. split; [intros ? []|auto].
  - destruct (IHI x buf Hx Hbuf Hcl) as (inner' & E1 & G1 & F1 & U1 & L1 & C1 & S1). rewrite E1. cbn [bind].
    destruct (IHO (map_fn inner x) out L1 Hout Hclean) as (outer' & E2 & G2 & F2 & U2 & L2 & C2 & S2). rewrite E2. cbn [bind].
    eexists. split; [reflexivity|]. split.
    + econstructor; eauto. intros j Hj. apply U1 in Hj. auto.
    + split; [intros y; cbn [map_fn]; now rewrite F2, F1|]. split; [exact U2|]. split; auto. split; auto.
      cbn [map_is_surjective]. now rewrite S1, S2.
Qed.

Theorem map_run_correct m i o inputs : built m i o -> Forall (fun x => length x = i) inputs ->
  map_run m (zerov o) inputs = Ok (map (map_fn m) inputs) /\ Forall (fun y => length y = o) (map (map_fn m) inputs).
Proof.
  intros HB HF. apply built_good in HB as HG. clear HB.
  assert (forall out, length out = o -> clean m out ->
    map_run m out inputs = Ok (map (map_fn m) inputs) /\ Forall (fun y => length y = o) (map (map_fn m) inputs)) as G.
  { revert m HG. induction HF as [|x inputs Hx HF IH]; intros m HG out Hout Hc; cbn [map_run map].
    - split; auto. 
    - destruct (map_apply_good m i o HG x out Hx Hout Hc) as (m' & E & G' & F' & U' & L' & C' & S'). rewrite E. cbn [bind].
      destruct (IH m' G' (map_fn m x) L') as [E1 E2].
      + intros k Hk. apply C', U', Hk.
      + rewrite E1. cbn [bind].
        assert (map (map_fn m') inputs = map (map_fn m) inputs) as <- by (apply map_ext; auto).
        split; auto. }
  apply G; [apply length_zerov|]. intros k _. apply nth_zerov.
Qed.

Lemma map_fn_length m i o x : good m i o -> length x = i -> length (map_fn m x) = o.
Proof.
  intros HG Hx. destruct (map_apply_good m i o HG x (zerov o) Hx (length_zerov o)) as (m' & _ & _ & _ & _ & L & _); auto.
  intros k _. apply nth_zerov.
Qed.

Lemma map_sizes m i o : built m i o -> map_input_size m = Ok i /\ map_output_size m = o.
Proof. intros HB. apply built_good in HB. split; [eapply good_input_size|eapply good_output_size]; eauto. Qed.

(** * Surjectivity *)

Definition monto (nr nc : nat) (A : bm) : Prop := onto (mulv A) nc nr.

Lemma monto_swapr nr nc A i j : wf nr nc A -> i < nr -> j < nr -> i <> j -> monto nr nc A -> monto nr nc (swapr A i j).
Proof.
  intros HW Hi Hj Hne H y Hy. destruct (H (bswap y i j)) as (x & Hx & E); [now rewrite length_bswap|].
  exists x. split; auto. rewrite (mulv_swapr nr nc) by auto. rewrite E. apply bswap_involutive; lia.
Qed.

Lemma monto_addr nr nc A d s : wf nr nc A -> d < nr -> s < nr -> d <> s -> monto nr nc A -> monto nr nc (addr A d s).
Proof.
  intros HW Hi Hj Hne H y Hy. destruct (H (badd y d s)) as (x & Hx & E); [now rewrite length_badd|].
  exists x. split; auto. rewrite (mulv_addr nr nc) by auto. rewrite E. apply badd_involutive; lia.
Qed.

Lemma echelon_full_onto nr nc A piv : wf nr nc A -> echelon nr nc A piv -> length piv = nr -> monto nr nc A.
Proof.
  intros HW (E1 & E2 & E3 & E4) HL y Hy.
  assert (forall m, m <= nr -> exists x, length x = nc /\ forall k, nr - m <= k < nr -> dot (nth k A []) x = nth k y false) as G.
  { induction m as [|m IH]; intros Hm.
    - exists (zerov nc). split; [apply length_zerov|]. intros; lia.
    - destruct IH as (x & Hx & HK); [lia|]. set (k0 := nr - S m) in *.
      assert (length (nth k0 A []) = nc) by (apply (wf_row nr nc); auto; lia).
      destruct (Bool.bool_dec (dot (nth k0 A []) x) (nth k0 y false)) as [Eq|Hne].
      + exists x. split; auto. intros k Hk. destruct (Nat.eq_dec k k0) as [->|]; auto. apply HK. lia.
      + exists (vxor x (unitv nc (nth k0 piv 0))). assert (length (unitv nc (nth k0 piv 0)) = nc) by apply length_unitv.
        split; [now apply length_vxor|]. intros k Hk.
        destruct (E3 k0) as (P1 & P2 & _); [lia|].
        assert (length (nth k A []) = nc) by (apply (wf_row nr nc); auto; lia).
        rewrite (dot_vxor_r nc), dot_unitv by auto.
        destruct (Nat.eq_dec k k0) as [->|Hk0].
        * unfold entry in P2. rewrite P2. destruct (dot (nth k0 A []) x), (nth k0 y false); auto; congruence.
        * destruct (E3 k) as (_ & _ & P3); [lia|]. specialize (P3 (nth k0 piv 0)). unfold entry in P3.
          rewrite P3 by (apply E2; lia). rewrite HK by lia. apply xorb_false_r. }
  destruct (G nr ltac:(lia)) as (x & Hx & HK). exists x. split; auto.
  apply (bv_ext nr); auto; [now rewrite length_mulv, (proj1 HW)|]. intros k Hk. rewrite nth_mulv. apply HK. lia.
Qed.

Lemma echelon_short_not_onto nr nc A piv : wf nr nc A -> echelon nr nc A piv -> length piv < nr -> ~ monto nr nc A.
Proof.
  intros HW (E1 & E2 & E3 & E4) HL H. destruct (H (unitv nr (nr - 1))) as (x & Hx & E); [apply length_unitv|].
  apply (f_equal (fun l => nth (nr - 1) l false)) in E. rewrite nth_mulv, nth_unitv, Nat.eqb_refl in E by lia.
  assert (nth (nr - 1) A [] = zerov nc) as EZ.
  { apply (bv_ext nc); auto using length_zerov; [apply (wf_row nr nc); auto; lia|]. intros c Hc. rewrite nth_zerov. apply (E4 (nr - 1)). lia. }
  rewrite EZ, dot_zero_l in E. discriminate.
Qed.

Theorem matrix_surjective_exact nr nc M : is_matrix nr nc M ->
  exists b, matrix_is_surjective M = Ok b /\ (b = true <-> onto (mat_vec M) nc nr).
Proof.
  intros HM. apply is_matrix_wf in HM as (Hr & Hc & HW).
  assert (forall B, wf nr nc B -> (onto (mat_vec B) nc nr <-> monto nr nc B)) as EQ.
  { intros B HB. split; intros H y Hy; destruct (H y Hy) as (x & Hx & E); exists x; split; auto;
      [rewrite <- (mat_vec_mulv nr nc)|rewrite (mat_vec_mulv nr nc)]; auto. }
  destruct (row_echelon_Ok nr nc (fun B => wf nr nc B /\ (monto nr nc B <-> monto nr nc M)) Hr) with (A := M) as (A' & piv & E & W & G & HE); auto.
  - intros B i j W Hi Hj Hne [_ G]. split; [now apply wf_swapr|]. rewrite <- G. split; [|now apply monto_swapr].
    intros H. rewrite <- (swapr_involutive nr nc B i j) by auto. apply monto_swapr; auto. now apply wf_swapr.
  - intros B d s W Hi Hj Hne [_ G]. split; [now apply wf_addr|]. rewrite <- G. split; [|now apply monto_addr].
    intros H. rewrite <- (addr_involutive nr nc B d s) by auto. apply monto_addr; auto. now apply wf_addr.
  - split; auto. tauto.
  - unfold matrix_is_surjective. rewrite E. cbn [bind]. rewrite (echelon_rank nr nc A' piv) by auto. cbn [bind].
    eexists. split; [reflexivity|]. rewrite EQ by auto. destruct G as [_ <-]. unfold bm_num_rows. rewrite (proj1 HW).
    destruct (Nat.eqb_spec (length piv) nr) as [HL|HL].
    + split; auto. intros _. now apply (echelon_full_onto nr nc A' piv).
    + split; [discriminate|]. intros H. exfalso. revert H. apply (echelon_short_not_onto nr nc A' piv); auto. destruct HE; lia.
Qed.

Lemma onto_xor f i o b : length b = o -> (forall x, length x = i -> length (f x) = o) ->
  (onto (fun x => map2 xorb (f x) b) i o <-> onto f i o).
Proof.
  intros Hb Hf. split; intros H y Hy.
  - destruct (H (vxor y b)) as (x & Hx & E); [now apply length_vxor|]. exists x. split; auto.
    apply (f_equal (fun z => vxor z b)) in E. cbv beta in E.
    change (map2 xorb (f x) b) with (vxor (f x) b) in E.
    rewrite !(vxor_cancel o) in E; auto.
  - destruct (H (vxor y b)) as (x & Hx & E); [now apply length_vxor|]. exists x. split; auto.
    rewrite E. rewrite map2_xorb_vxor. now apply (vxor_cancel o).
Qed.

Lemma linear_surjective_exact nr nc M : is_matrix nr nc M ->
  exists b, map_is_surjective (MLinear M) = Ok b /\ (b = true <-> onto (map_fn (MLinear M)) nc nr).
Proof. apply matrix_surjective_exact. Qed.

Lemma affine_surjective_exact nr nc M b : is_matrix nr nc M -> length b = nr ->
  exists s, map_is_surjective (MAffine M b) = Ok s /\ (s = true <-> onto (map_fn (MAffine M b)) nc nr).
Proof.
  intros HM Hb. destruct (matrix_surjective_exact nr nc M HM) as (s & E & H). exists s. split; auto.
  rewrite H. symmetry. cbn [map_fn]. apply (onto_xor (mat_vec M)); auto.
  intros x Hx. apply is_matrix_wf in HM as (_ & _ & HW). rewrite (mat_vec_mulv nr nc), length_mulv; auto. apply HW.
Qed.

(** bijections *)

Lemma translation_bijection b : bijection (map_fn (MTranslation b)) (length b).
Proof.
  exists (fun x => vxor x b). intros x Hx. cbn [map_fn]. rewrite map2_xorb_vxor.
  rewrite !(vxor_cancel (length b)) by auto. repeat split; auto; now apply length_vxor.
Qed.

Lemma permutation_bijection p : Permutation p (seq 0 (length p)) -> bijection (map_fn (MPermutation p)) (length p).
Proof.
  intros HP. exists (inject p (length p)). set (n := length p).
  assert (NoDup p) as HN by apply (Permutation_NoDup (Permutation_sym HP)), seq_NoDup.
  assert (forall k, In k p <-> k < n) as HI.
  { intros k. split; intros K.
    - apply (Permutation_in k HP) in K. apply in_seq in K. lia.
    - apply (Permutation_in k (Permutation_sym HP)). apply in_seq. lia. }
  assert (Forall (fun k => k < n) p) as HF by (apply Forall_forall; intros; now apply HI).
  intros x Hx. cbn [map_fn]. split; [now rewrite map_length|]. split; [apply length_inject|]. split.
  - apply (bv_ext n); auto using length_inject. intros k Hk.
    apply HI in Hk as Hin. apply (In_nth _ _ 0) in Hin as (j & Hj & <-).
    rewrite nth_inject_pos by auto. now rewrite nth_map_nat.
  - apply (bv_ext n); auto; [now rewrite map_length|]. intros j Hj. rewrite nth_map_nat by auto.
    now rewrite nth_inject_pos.
Qed.

Lemma ts_affine_bijection ts b : Forall (tv_ok (length b)) ts -> bijection (map_fn (MTsAffine ts b)) (length b).
Proof.
  intros HF. exists (fun y => ts_action (rev ts) (vxor y b)). intros x Hx. cbn [map_fn]. rewrite map2_xorb_vxor.
  assert (length (vxor x b) = length b) as HL by now apply length_vxor.
  split; [apply length_vxor; now rewrite ?length_ts_action|]. split; [now rewrite length_ts_action|]. split.
  - rewrite (vxor_cancel (length b)) by now rewrite ?length_ts_action. apply ts_action_rev. now rewrite Hx.
  - rewrite ts_action_rev' by now rewrite HL. now apply (vxor_cancel (length b)).
Qed.

Lemma ts_action_zero ts n : Forall (tv_ok n) ts -> ts_action ts (zerov n) = zerov n.
Proof.
  intros HF. assert (vxor (zerov n) (zerov n) = zerov n) as E by (rewrite vxor_nilpotent, length_zerov; auto).
  pose proof (ts_action_vxor ts n (zerov n) (zerov n) (length_zerov n) (length_zerov n) HF) as H.
  rewrite E, vxor_nilpotent, length_ts_action, length_zerov in H. auto.
Qed.

Lemma ts_affine_invert_correct ts b : Forall (tv_ok (length b)) ts ->
  exists ts' b', ts_affine_invert ts b = Ok (MTsAffine ts' b') /\ length b' = length b /\ Forall (tv_ok (length b)) ts' /\
    (forall x, length x = length b ->
      map_fn (MTsAffine ts' b') (map_fn (MTsAffine ts b) x) = x /\
      map_fn (MTsAffine ts b) (map_fn (MTsAffine ts' b') x) = x) /\
    ts_affine_invert ts' b' = Ok (MTsAffine ts b).
Proof.
  intros HF. set (n := length b) in *. unfold ts_affine_invert.
  assert (Forall (tv_ok n) (rev ts)) as HR by now apply Forall_rev.
  rewrite ts_multiply_bv_Ok by auto. cbn [bind]. exists (rev ts), (ts_action (rev ts) b).
  assert (length (ts_action (rev ts) b) = n) as HL by now rewrite length_ts_action.
  split; auto. split; auto. split; auto. split.
  - intros x Hx. cbn [map_fn]. rewrite !map2_xorb_vxor.
    assert (length (ts_action ts x) = n) as L1 by now rewrite length_ts_action.
    assert (length (ts_action (rev ts) x) = n) as L2 by now rewrite length_ts_action.
    split.
    + rewrite (ts_action_vxor (rev ts) n) by auto. rewrite ts_action_rev by now rewrite Hx. now apply (vxor_cancel n).
    + rewrite (ts_action_vxor ts n) by auto. rewrite !ts_action_rev' by (rewrite ?Hx; auto). now apply (vxor_cancel n).
  - rewrite ts_multiply_bv_Ok by (rewrite HL, rev_involutive; auto). cbn [bind].
    rewrite rev_involutive. f_equal. f_equal. now apply ts_action_rev'.
Qed.

Lemma bijection_onto f n : bijection f n -> onto f n n.
Proof. intros (g & H) y Hy. exists (g y). destruct (H y Hy) as (_ & L & _ & E). auto. Qed.

(** injection and projection *)

Lemma projection_after_injection pos n x : NoDup pos -> Forall (fun k => k < n) pos -> length x = length pos ->
  map_fn (MProjection pos n) (map_fn (MInjection pos n) x) = x.
Proof.
  intros HN HF Hx. cbn [map_fn]. apply (bv_ext (length pos)); auto; [now rewrite map_length|].
  intros j Hj. rewrite nth_map_nat by auto. now rewrite nth_inject_pos.
Qed.

Lemma projection_onto pos n : NoDup pos -> Forall (fun k => k < n) pos -> onto (map_fn (MProjection pos n)) n (length pos).
Proof.
  intros HN HF y Hy. exists (inject pos n y). split; [apply length_inject|]. now apply projection_after_injection.
Qed.

Lemma injection_onto_iff pos n : NoDup pos -> Forall (fun k => k < n) pos ->
  (n = length pos <-> onto (map_fn (MInjection pos n)) (length pos) n).
Proof.
  intros HN HF. split.
  - intros E y Hy. assert (Permutation pos (seq 0 (length pos))) as HP.
    { apply NoDup_Permutation_bis; auto; [now rewrite seq_length|]. intros k Hk. rewrite Forall_forall in HF.
      apply in_seq. specialize (HF k Hk). lia. }
    destruct (permutation_bijection pos HP) as (g & _). exists (map (fun k => nth k y false) pos).
    split; [now rewrite map_length|]. cbn [map_fn].
    apply (bv_ext n); auto using length_inject. intros k Hk.
    assert (In k pos) as Hin by (apply (Permutation_in k (Permutation_sym HP)), in_seq; lia).
    apply (In_nth _ _ 0) in Hin as (j & Hj & <-). rewrite nth_inject_pos by auto. now apply nth_map_nat.
  - intros H. destruct (Nat.eq_dec n (length pos)) as [|Hne]; auto. exfalso.
    pose proof (NoDup_bound_length pos n HN HF) as HL.
    assert (exists k, k < n /\ ~ In k pos) as (k & Hk & Hni).
    { destruct (Exists_dec (fun k => ~ In k pos) (seq 0 n)) as [E|E].
      - intros k. destruct (in_dec Nat.eq_dec k pos); [right; tauto|left; auto].
      - apply Exists_exists in E as (k & K1 & K2). apply in_seq in K1. exists k. split; auto; lia.
      - exfalso. assert (incl (seq 0 n) pos) as HI.
        { intros k Hk. destruct (in_dec Nat.eq_dec k pos); auto. exfalso. apply E, Exists_exists. eauto. }
        apply NoDup_incl_length in HI; [|apply seq_NoDup]. rewrite seq_length in HI. lia. }
    destruct (H (unitv n k)) as (x & Hx & E); [apply length_unitv|].
    apply (f_equal (fun l => nth k l false)) in E. cbn [map_fn] in E. rewrite nth_inject_other, nth_unitv, Nat.eqb_refl in E by auto.
    discriminate.
Qed.

Lemma injection_injective pos n x y : NoDup pos -> Forall (fun k => k < n) pos ->
  length x = length pos -> length y = length pos ->
  map_fn (MInjection pos n) x = map_fn (MInjection pos n) y -> x = y.
Proof.
  intros HN HF Hx Hy E. rewrite <- (projection_after_injection pos n x), <- (projection_after_injection pos n y) by auto.
  now rewrite E.
Qed.

(** the code of the injection leaves the other positions of the output buffer *)
Lemma injection_keeps_others pos n x out : NoDup pos -> Forall (fun k => k < n) pos ->
  length x = length pos -> length out = n ->
  exists out', map_apply (MInjection pos n) x out = Ok (MInjection pos n, out') /\ length out' = n /\
    (forall j, j < length pos -> nth (nth j pos 0) out' false = nth j x false) /\
    (forall k, ~ In k pos -> nth k out' false = nth k out false).
Proof.
  intros HN HF Hx Hout. cbn [map_apply]. rewrite Hx, Hout, !Nat.eqb_refl. cbn [assertb bind]. subst n.
  destruct (scatter_Ok pos x out Hx HN HF) as (out' & E & L & N1 & N2). rewrite E. cbn [bind]. eauto 6.
Qed.

(** soundness of is_surjective for every map *)
Theorem surjective_sound m i o : good m i o -> exists b, map_is_surjective m = Ok b /\ (b = true -> onto (map_fn m) i o).
Proof.
  induction 1 as [b|p HP|nr nc M HM|nr nc M b HM Hb|pos n HN HF|pos n HN HF|ts b HF|outer inner buf i k o HO IHO HI IHI Hbuf Hcl];
    cbn [map_is_surjective].
  - exists true. split; auto. intros _. apply bijection_onto, translation_bijection.
  - exists true. split; auto. intros _. now apply bijection_onto, permutation_bijection.
  - destruct (linear_surjective_exact nr nc M HM) as (b & E & H). exists b. split; auto. apply H.
  - destruct (affine_surjective_exact nr nc M b HM Hb) as (s & E & H). exists s. split; auto. apply H.
  - eexists. split; [reflexivity|]. intros E. apply Nat.eqb_eq in E. now apply injection_onto_iff.
  - exists true. split; auto. intros _. now apply projection_onto.
  - exists true. split; auto. intros _. now apply bijection_onto, ts_affine_bijection.
  - destruct IHO as (bo & EO & SO). destruct IHI as (bi & EI & SI). rewrite EO. cbn [bind].
    destruct bo; [|exists false; split; auto; discriminate]. exists bi. split; auto. intros E y Hy.
    destruct (SO eq_refl y Hy) as (z & Hz & Ez). destruct (SI E z Hz) as (x & Hx & Ex).
    exists x. split; auto. cbn [map_fn]. now rewrite Ex.
Qed.

(** exactness for maps which are not compositions *)

Theorem surjective_exact m i o : good m i o -> elementary m ->
  exists b, map_is_surjective m = Ok b /\ (b = true <-> onto (map_fn m) i o).
Proof.
  intros HG HE. destruct (surjective_sound m i o HG) as (b & E & S). exists b. split; auto. split; auto.
  destruct HG as [b'|p HP|nr nc M HM|nr nc M b' HM Hb|pos n HN HF|pos n HN HF|ts b' HF|]; cbn in E, HE;
    try (injection E as <-; auto; fail); try contradiction.
  - destruct (linear_surjective_exact nr nc M HM) as (b1 & E1 & H1). cbn in E1. rewrite E in E1. injection E1 as <-. apply H1.
  - destruct (affine_surjective_exact nr nc M b' HM Hb) as (b1 & E1 & H1). cbn in E1. rewrite E in E1. injection E1 as <-. apply H1.
  - injection E as <-. intros H. apply Nat.eqb_eq. now apply injection_onto_iff.
Qed.

(** random surjective linear map *)
Lemma random_surjective_spec nr nc ms : Forall (is_matrix nr nc) ms ->
  exists r, random_surjective ms = Ok r /\
    match r with
    | Some M => In M ms /\ onto (mat_vec M) nc nr
    | None => Forall (fun M => ~ onto (mat_vec M) nc nr) ms
    end.
Proof.
  induction 1 as [|M ms HM HF IH]; cbn [random_surjective].
  - exists None. auto.
  - destruct (matrix_surjective_exact nr nc M HM) as (b & E & H). rewrite E. cbn [bind]. destruct b.
    + exists (Some M). split; auto. split; [now left|]. now apply H.
    + destruct IH as (r & E' & H'). exists r. split; auto. destruct r as [M'|].
      * destruct H' as [H1 H2]. split; auto. now right.
      * constructor; auto. intros K. apply H in K. discriminate.
Qed.

Lemma linear_map_random_spec nr nc surj ms : 0 < nr -> 0 < nc -> Forall (is_matrix nr nc) ms ->
  (surj = true /\ nc < nr -> linear_map_random nr nc surj ms = Throw RuntimeError /\ forall M, is_matrix nr nc M -> ~ onto (mat_vec M) nc nr) /\
  (surj = false \/ nr <= nc -> exists r, linear_map_random nr nc surj ms = Ok r /\
     match r with
     | Some m => exists M, m = MLinear M /\ In M ms /\ built m nc nr /\ (surj = true -> onto (map_fn m) nc nr)
     | None => surj = true -> Forall (fun M => ~ onto (mat_vec M) nc nr) ms
     end).
Proof.
  intros Hr Hc HF. unfold linear_map_random. apply Nat.ltb_lt in Hr as Hr', Hc as Hc'. rewrite Hr', Hc'. cbn [assertb bind].
  split.
  - intros [-> Hlt]. apply Nat.ltb_lt in Hlt as Hlt'. rewrite Hlt'. split; auto. intros M HM H.
    apply is_matrix_wf in HM as HM'. destruct HM' as (_ & _ & HW).
    destruct (bm_echelon_rank_correct nr nc M HM) as (A' & piv & E & HA' & HE & HS & HR & HD).
    destruct (matrix_surjective_exact nr nc M HM) as (b & E' & HB). apply HB in H. subst b.
    unfold matrix_is_surjective in E'. rewrite E in E'. cbn [bind] in E'. rewrite HR in E'. cbn [bind] in E'.
    injection E' as E'. apply Nat.eqb_eq in E'. unfold bm_num_rows in E'. rewrite (proj1 HW) in E'.
    destruct HE as (_ & HE2 & HE3 & _). pose proof (increasing_ge piv HE2) as HI.
    destruct (HE3 (nr - 1)) as (K & _); [lia|]. specialize (HI (nr - 1)). lia.
  - intros HS. destruct surj.
    + destruct (Nat.ltb_spec nc nr); [destruct HS; [discriminate|lia]|].
      destruct (random_surjective_spec nr nc ms HF) as (r & E & H1). rewrite E. cbn [bind].
      eexists. split; [reflexivity|]. destruct r as [M|]; cbn [option_map]; auto.
      destruct H1 as [H1 H2]. exists M. split; auto. split; auto. rewrite Forall_forall in HF. split; auto.
      constructor. auto.
    + destruct ms as [|M ms].
      * exists None. split; [auto|discriminate].
      * eexists. split; [reflexivity|]. exists M. split; auto. split; [now left|]. inversion HF; subst.
        split; [now constructor|discriminate].
Qed.

(** * Function-map composition *)


Theorem fmc_run_correct {V} (f : bfunction V) m i : built m i (fn_size f) ->
  exists c, make_fmc f m = Ok c /\ fmc_size c = Ok i /\
    forall xs, Forall (fun x => length x = i) xs ->
      fmc_run c xs = Ok (map (fun x => fn_eval f (map_fn m x)) xs).
Proof.
  intros HB. apply built_good in HB as HG. unfold make_fmc. rewrite (good_output_size _ _ _ HG), Nat.eqb_refl.
  eexists. split; [reflexivity|]. split; [apply (good_input_size _ _ _ HG)|].
  intros xs HF. 
  assert (forall m' out, good m' i (fn_size f) -> (forall x, map_fn m' x = map_fn m x) -> (forall k, untouched m' k <-> untouched m k) ->
    length out = fn_size f -> clean m out ->
    fmc_run (mk_fmc f m' out) xs = Ok (map (fun x => fn_eval f (map_fn m x)) xs)) as G.
  { induction HF as [|x xs Hx HF IH]; intros m' out HG' HF' HU' HL HC; cbn [fmc_run map]; auto.
    unfold fmc_evaluate. cbn [fmc_map fmc_output fmc_function].
    destruct (map_apply_good m' i (fn_size f) HG' x out Hx HL) as (m2 & E & G2 & F2 & U2 & L2 & C2 & _).
    { intros k Hk. apply HC, HU', Hk. }
    rewrite E. cbn [bind]. rewrite IH; auto.
    - cbn [bind]. now rewrite HF'.
    - intros y. now rewrite F2.
    - intros k. now rewrite U2.
    - intros k Hk. apply C2, HU', Hk. }
  apply G; auto; [tauto|apply repeat_length|]. intros k _. apply nth_repeat.
Qed.


Theorem fmc_maximum {V} (le : V -> V -> Prop) (f : bfunction V) m i :
  built m i (fn_size f) ->
  (forall v, fn_maximum f = Some v -> maximum_of le (fn_size f) (fn_eval f) v) ->
  exists c, make_fmc f m = Ok c /\
    exists b, fmc_has_known_maximum c = Ok b /\
    (if b then exists v, fn_maximum f = Some v /\ fmc_get_maximum c = Ok v /\
               maximum_of le i (fun x => fn_eval f (map_fn m x)) v
     else fmc_get_maximum c = Throw RuntimeError) /\
    (elementary m -> (b = true <-> fn_maximum f <> None /\ onto (map_fn m) i (fn_size f))).
Proof.
  intros HB HM. apply built_good in HB as HG. unfold make_fmc. rewrite (good_output_size _ _ _ HG), Nat.eqb_refl.
  eexists. split; [reflexivity|]. unfold fmc_get_maximum, fmc_has_known_maximum. cbn [fmc_function fmc_map].
  destruct (fn_maximum f) as [v|].
  - destruct (surjective_sound m i _ HG) as (b & E & S). rewrite E. exists b. split; auto. cbn [bind]. split.
    + destruct b; auto. exists v. split; auto. split; auto. destruct (HM v eq_refl) as [M1 (y & Hy & Ey)]. split.
      * intros x Hx. apply M1. now apply (map_fn_length m i).
      * destruct (S eq_refl y Hy) as (x & Hx & Ex). exists x. split; auto. congruence.
    + intros HE. destruct (surjective_exact m i _ HG HE) as (b' & E' & S'). rewrite E in E'. injection E' as <-.
      rewrite S'. split; [intros; split; auto; discriminate|tauto].
  - exists false. split; auto. split; auto. intros _. split; [discriminate|]. intros [[] _]; auto.
Qed.

Lemma make_fmc_size_mismatch {V} (f : bfunction V) m i o : built m i o -> o <> fn_size f -> make_fmc f m = Throw RuntimeError.
Proof.
  intros HB Hne. unfold make_fmc. rewrite (proj2 (map_sizes m i o HB)). apply Nat.eqb_neq in Hne. now rewrite Hne.
Qed.

(** * Transvections generate the invertible matrices *)

Lemma elim_good n (Good : bm -> Prop) A r j l :
  (forall A d s, wf n n A -> d < n -> s < n -> d <> s -> Good A -> Good (addr A d s)) ->
  wf n n A -> r < n -> Forall (fun i => i < n) l -> ~ In r l -> Good A -> Good (elim A r j l) /\ wf n n (elim A r j l).
Proof.
  intros HA. unfold elim. revert A. induction l as [|i l IH]; intros A HW Hr HF Hn HG; cbn [fold_left]; auto.
  inversion HF; subst. apply IH; auto.
  - unfold elim1. destruct (entry A i j); auto. apply wf_addr; auto.
  - intros K; apply Hn; now right.
  - unfold elim1. destruct (entry A i j); auto. apply HA; auto. intros ->. apply Hn. now left.
Qed.

Definition reachable_by_ts (n : nat) (M B : bm) : Prop :=
  exists ts, Forall (tv_ok n) ts /\ forall x, mulv B x = ts_action ts (mulv M x).

Lemma reach_addr n M B d s : wf n n B -> d < n -> s < n -> d <> s -> reachable_by_ts n M B -> reachable_by_ts n M (addr B d s).
Proof.
  intros HW Hd Hs Hne (ts & HF & E). exists (ts ++ [mk_tv d s]).
  assert (tv_ok n (mk_tv d s)) as HT by (unfold tv_ok; cbn; auto). split.
  - apply Forall_app. auto.
  - intros x. rewrite ts_action_app, <- E. cbn. rewrite tv_action_badd; [|now rewrite length_mulv, (proj1 HW)].
    now apply (mulv_addr n n).
Qed.

Lemma swapr_addr n B i j : wf n n B -> i < n -> j < n -> i <> j ->
  swapr B i j = addr (addr (addr B i j) j i) i j.
Proof.
  intros HW Hi Hj Hne.
  assert (wf n n (addr B i j)) as W1 by now apply wf_addr.
  assert (wf n n (addr (addr B i j) j i)) as W2 by now apply wf_addr.
  apply (wf_ext n n); [now apply wf_swapr|now apply wf_addr|]. intros r c Hr Hc.
  rewrite (entry_swapr n n), !(entry_addr n n) by auto.
  destruct (Nat.eqb_spec j i); [congruence|]. destruct (Nat.eqb_spec i j); [congruence|].
  rewrite !Nat.eqb_refl.
  destruct (Nat.eqb_spec r i); destruct (Nat.eqb_spec r j); try congruence;
    destruct (entry B i c), (entry B j c); auto.
Qed.

Lemma reach_swapr n M B i j : wf n n B -> i < n -> j < n -> i <> j -> reachable_by_ts n M B -> reachable_by_ts n M (swapr B i j).
Proof.
  intros HW Hi Hj Hne H. rewrite (swapr_addr n) by auto.
  assert (wf n n (addr B i j)) as W1 by now apply wf_addr.
  assert (wf n n (addr (addr B i j) j i)) as W2 by now apply wf_addr.
  apply reach_addr; auto. apply reach_addr; auto. apply reach_addr; auto.
Qed.

Lemma pdown_reach n M B i : wf n n B -> i <= n -> reachable_by_ts n M B ->
  reachable_by_ts n M (snd (pdown n B (seq i (n - i)))).
Proof.
  remember (n - i) as m eqn:Em. revert B i Em. induction m as [|m IH]; intros B i Em HW Hi HG; cbn [seq pdown]; auto.
  destruct (find (fun k => entry B k i) (seq i (n - i))) as [p|] eqn:Ep; auto.
  apply find_seq_Some in Ep as [Hp Ep].
  destruct (pivot_step_spec n n B i i p) as (W & _); auto; try lia.
  apply IH; auto; try lia. unfold pivot_step.
  apply (elim_good n (reachable_by_ts n M)); auto.
  - intros; now apply reach_addr.
  - destruct (p =? i); auto. apply wf_swapr; auto; lia.
  - lia.
  - apply Forall_seq_lt. lia.
  - rewrite in_seq. lia.
  - destruct (Nat.eqb_spec p i); auto. apply reach_swapr; auto; lia.
Qed.

Lemma pup_reach n M B i : wf n n B -> i <= n -> reachable_by_ts n M B -> reachable_by_ts n M (pup B i).
Proof.
  revert B; induction i as [|i IH]; intros B HW Hi HG; cbn [pup]; auto.
  destruct (elim_good n (reachable_by_ts n M) B i i (seq 0 i)) as [G W]; auto.
  - intros; now apply reach_addr.
  - apply Forall_seq_lt. lia.
  - rewrite in_seq. lia.
  - apply IH; auto. lia.
Qed.

Theorem transvections_generate n M : is_matrix n n M -> invertible n M ->
  exists ts, Forall (tv_ok n) ts /\ forall x, length x = n -> ts_action ts x = mat_vec M x.
Proof.
  intros HM HI. apply is_matrix_wf in HM as (Hn & _ & HW).
  assert (reachable_by_ts n M M) as H0 by (exists []; split; auto).
  destruct (pdown_spec n M 0 HW ltac:(lia) (down_ok_0 n M)) as (W1 & D1 & D2). rewrite Nat.sub_0_r in *.
  pose proof (pdown_reach n M M 0 HW ltac:(lia) H0) as R1. rewrite Nat.sub_0_r in R1.
  destruct (fst (pdown n M (seq 0 n))) eqn:E.
  - set (B := snd (pdown n M (seq 0 n))) in *.
    pose proof (pup_reach n M B n W1 ltac:(lia) R1) as R2.
    rewrite (pup_spec n B n) in R2; auto.
    2: { intros k c Hc. lia. }
    destruct R2 as (ts & HF & H2). exists (rev ts). split; [now apply Forall_rev|]. intros x Hx.
    rewrite (mat_vec_mulv n n) by auto.
    rewrite <- (mulv_identity n x) at 1 by auto. rewrite H2. apply ts_action_rev. now rewrite length_mulv, (proj1 HW).
  - exfalso. destruct (D2 eq_refl) as (i0 & Hi0 & D & Z).
    destruct (kernel_vector n _ i0 W1 Hi0 D Z) as (z & Hz & N & K).
    destruct R1 as (ts & HF & H2). rewrite H2 in K.
    assert (mulv M z = zerov n) as K'.
    { rewrite <- (ts_action_rev ts (mulv M z)) by now rewrite length_mulv, (proj1 HW). rewrite K.
      apply ts_action_zero. now apply Forall_rev. }
    apply (invertible_kernel n M z) in K'; auto. subst z. rewrite nth_zerov in N. discriminate.
Qed.

(** conversely sequences of transvections are invertible linear maps; affine form *)
Theorem ts_affine_represents n M b : is_matrix n n M -> length b = n ->
  (invertible n M <-> exists ts, Forall (tv_ok n) ts /\
     forall x, length x = n -> map_fn (MTsAffine ts b) x = map_fn (MAffine M b) x).
Proof.
  intros HM Hb. pose proof HM as HM'. apply is_matrix_wf in HM' as (Hn & _ & HW). split.
  - intros HI. destruct (transvections_generate n M HM HI) as (ts & HF & E). exists ts. split; auto.
    intros x Hx. cbn [map_fn]. now rewrite E.
  - intros (ts & HF & E).
    assert (forall x, length x = n -> ts_action ts x = mulv M x) as E'.
    { intros x Hx. specialize (E x Hx). cbn [map_fn] in E. apply (f_equal (fun y => vxor y b)) in E.
      cbv beta in E. change (map2 xorb (ts_action ts x) b) with (vxor (ts_action ts x) b) in E.
      change (map2 xorb (mat_vec M x) b) with (vxor (mat_vec M x) b) in E.
      rewrite !(vxor_cancel n) in E; auto.
      - now rewrite (mat_vec_mulv n n) in E.
      - rewrite (mat_vec_mulv n n), length_mulv; auto. apply HW.
      - now rewrite length_ts_action. }
    destruct (bm_invert_raw n M M Hn HW HW) as [(N' & _ & W & HN)|(M' & N' & _ & z & Hz & Hz0 & Hk)].
    + exists N'. now apply mulv_inverse_of.
    + exfalso. apply Hz0. rewrite <- E' in Hk by auto.
      rewrite <- (ts_action_rev ts z), Hk by now rewrite Hz. apply ts_action_zero. now apply Forall_rev.
Qed.

(** * Semantic forms *)

Lemma commute_exact' n a b : tv_ok n a -> tv_ok n b -> (transvections_commute a b = true <-> commute n a b).
Proof. apply commute_exact. Qed.

Lemma all_pairs_commute n ts : Forall (tv_ok n) ts -> pairwise transvections_commute ts -> all_pairs (commute n) ts.
Proof.
  intros HF HP i j a b _ Ha Hb. apply nth_error_In in Ha, Hb. rewrite Forall_forall in HF.
  apply commute_exact'; auto.
Qed.

Lemma all_pairs_disjoint ts : pairwise_distinct transvections_are_disjoint ts -> all_pairs disjoint ts.
Proof.
  intros HP i j a b Hij Ha Hb. refine (proj1 (disjoint_exact a b) _).
  assert (i < length ts) by (apply nth_error_Some; congruence).
  assert (j < length ts) by (apply nth_error_Some; congruence).
  apply (nth_error_nth ts i (mk_tv 0 0)) in Ha. apply (nth_error_nth ts j (mk_tv 0 0)) in Hb. subst. apply HP; lia.
Qed.

Lemma consecutive_pairs_commute n ts : Forall (tv_ok n) ts -> consecutive_non_commuting ts ->
  consecutive_pairs (fun a b => ~ commute n a b) ts.
Proof.
  intros HF HC i a b Ha Hb K. rewrite Forall_forall in HF.
  assert (S i < length ts) as HS by (apply nth_error_Some; congruence). specialize (HC i HS).
  pose proof (nth_error_In _ _ Ha). pose proof (nth_error_In _ _ Hb).
  apply (nth_error_nth ts i (mk_tv 0 0)) in Ha. apply (nth_error_nth ts (S i) (mk_tv 0 0)) in Hb.
  rewrite Ha, Hb in HC. apply (commute_exact' n a b) in K; auto. rewrite commute_sym in K. congruence.
Qed.

Theorem samplers_commuting sh1 sh2 pick coin n t :
  shuffles sh1 -> shuffles sh2 -> in_range pick -> 1 < n -> 0 < t ->
  exists ts, ts_random_commuting sh1 sh2 pick coin [] n t = Ok ts /\
    length ts = Nat.min t (n * n / 4) /\
    Forall (tv_ok n) ts /\ NoDup ts /\ all_pairs (commute n) ts.
Proof.
  intros H1 H2 H3 H4 H5. destruct (ts_random_commuting_spec sh1 sh2 pick coin n t H1 H2 H3 H4 H5) as (ts & E & L & F & N & P).
  exists ts. split; auto. split; [|split; auto; split; auto; now apply all_pairs_commute].
  rewrite L. f_equal. pose proof (Nat.div_mod n 2 ltac:(lia)) as Hdm. pose proof (Nat.mod_upper_bound n 2 ltac:(lia)) as Hm.
  set (k := n / 2) in *. clearbody k. destruct (Nat.eqb_spec (n mod 2) 0) as [E0|E0].
  - assert (n = 2 * k) as En by lia. rewrite En. apply Nat.div_unique_exact; lia.
  - assert (n = 2 * k + 1) as En by lia. rewrite En. apply (Nat.div_unique _ 4 _ 1); lia.
Qed.

Theorem samplers_unique_source sh1 sh2 pick n t :
  shuffles sh1 -> shuffles sh2 -> (forall i, in_range (pick i)) -> 1 < n -> 0 < t ->
  exists ts, ts_random_unique_source sh1 sh2 pick [] n t = Ok ts /\
    length ts = Nat.min t (n - 1) /\ Forall (tv_ok n) ts /\
    NoDup (map row_index ts) /\ all_pairs (commute n) ts.
Proof.
  intros H1 H2 H3 H4 H5. destruct (ts_random_unique_source_spec sh1 sh2 pick n t H1 H2 H3 H4 H5) as (ts & E & L & F & N & P).
  exists ts. split; auto. split; auto. split; auto. split; auto. now apply all_pairs_commute.
Qed.

Theorem samplers_unique_destination sh1 sh2 pick n t :
  shuffles sh1 -> shuffles sh2 -> (forall i, in_range (pick i)) -> 1 < n -> 0 < t ->
  exists ts, ts_random_unique_destination sh1 sh2 pick [] n t = Ok ts /\
    length ts = Nat.min t (n - 1) /\ Forall (tv_ok n) ts /\
    NoDup (map column_index ts) /\ all_pairs (commute n) ts.
Proof.
  intros H1 H2 H3 H4 H5. destruct (ts_random_unique_destination_spec sh1 sh2 pick n t H1 H2 H3 H4 H5) as (ts & E & L & F & N & P).
  exists ts. split; auto. split; auto. split; auto. split; auto. now apply all_pairs_commute.
Qed.

Theorem samplers_disjoint sh1 ts0 n t : shuffles sh1 -> 1 < n -> 0 < t ->
  exists ts, ts_random_disjoint sh1 ts0 n t = Ok ts /\
    length ts = Nat.min t (n / 2) /\ Forall (tv_ok n) ts /\ all_pairs disjoint ts.
Proof.
  intros H1 H2 H3. destruct (ts_random_disjoint_spec sh1 ts0 n t H1 H2 H3) as (ts & E & L & F & P).
  exists ts. split; auto. split; auto. split; auto. now apply all_pairs_disjoint.
Qed.

Theorem samplers_non_commuting n t coins draws ts0 : 1 < n -> 0 < t -> Forall (fun k => k < n) draws ->
  ts_random_non_commuting coins draws ts0 n t = Ok None \/
  exists ts, ts_random_non_commuting coins draws ts0 n t = Ok (Some ts) /\ length ts = t /\ Forall (tv_ok n) ts /\
    consecutive_pairs (fun a b => ~ commute n a b) ts.
Proof.
  intros H1 H2 H3. destruct (ts_random_non_commuting_spec n t coins draws ts0 H1 H2 H3) as [E|(ts & E & L & F & C)]; auto.
  right. exists ts. split; auto. split; auto. split; auto. now apply consecutive_pairs_commute.
Qed.
