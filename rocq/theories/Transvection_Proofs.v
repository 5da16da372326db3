From Coq Require Import Permutation.
From Verif Require Import Base BaseLemmas BitVector_Model BitVector_Spec GF2 BitVector_Proofs
  BitMatrix_Model BitMatrix_Spec BitMatrix_Pure BitMatrix_Proofs Transvection_Model Map_Model Map_Spec.

Lemma tv_is_valid_n_iff tv n : tv_is_valid_n tv n = true <-> tv_ok n tv.
Proof.
  unfold tv_is_valid_n, tv_is_valid, tv_ok. rewrite !andb_true_iff, !negb_true_iff, !Nat.leb_gt, Nat.eqb_neq. tauto.
Qed.

Lemma tv_ok_is_valid tv n : tv_ok n tv -> tv_is_valid tv = true.
Proof. unfold tv_is_valid, tv_ok. intros (_ & _ & H). now apply negb_true_iff, Nat.eqb_neq. Qed.

Lemma ts_is_valid_n_iff ts n : ts_is_valid_n ts n = true <-> Forall (tv_ok n) ts.
Proof.
  unfold ts_is_valid_n. rewrite forallb_forall, Forall_forall.
  split; intros H x Hx; specialize (H x Hx); now apply tv_is_valid_n_iff.
Qed.

Lemma ts_ok_is_valid ts n : Forall (tv_ok n) ts -> ts_is_valid ts = true.
Proof.
  intros H. unfold ts_is_valid. rewrite forallb_forall. rewrite Forall_forall in H. intros x Hx.
  eapply tv_ok_is_valid; eauto.
Qed.

Lemma length_tv_action tv x : length (tv_action tv x) = length x.
Proof. unfold tv_action. now rewrite map_length, seq_length. Qed.

Lemma nth_tv_action tv x i : i < length x ->
  nth i (tv_action tv x) false =
  if i =? row_index tv then xorb (nth i x false) (nth (column_index tv) x false) else nth i x false.
Proof. intros Hi. unfold tv_action. now rewrite nth_map_seq. Qed.

Lemma tv_action_involutive tv x : tv_ok (length x) tv -> tv_action tv (tv_action tv x) = x.
Proof.
  intros (H1 & H2 & H3). apply (bv_ext (length x)); rewrite ?length_tv_action; auto. intros i Hi.
  rewrite !nth_tv_action by (rewrite ?length_tv_action; auto).
  destruct (Nat.eqb_spec i (row_index tv)); auto.
  destruct (Nat.eqb_spec (column_index tv) (row_index tv)); [congruence|].
  now destruct (nth i x false), (nth (column_index tv) x false).
Qed.

Lemma tv_multiply_bv_Ok tv x : tv_ok (length x) tv -> tv_multiply_bv tv x = Ok (tv_action tv x).
Proof.
  intros H. unfold tv_multiply_bv. rewrite (tv_ok_is_valid _ _ H). cbn [assertb bind].
  apply tv_is_valid_n_iff in H as Hv. rewrite Hv. cbn [assertb bind].
  destruct H as (H1 & H2 & H3). rewrite (vget_Ok x _ false) by auto. cbn [bind].
  destruct (nth (column_index tv) x false) eqn:E.
  - rewrite bv_flip_Ok by auto. f_equal. unfold flip1.
    apply (bv_ext (length x)); rewrite ?length_upd, ?length_tv_action; auto. intros i Hi.
    rewrite nth_tv_action, E, nth_upd by auto. apply Nat.ltb_lt in H1 as H1'. rewrite H1', andb_true_r.
    destruct (Nat.eqb_spec i (row_index tv)); subst; auto; now destruct (nth (row_index tv) x false).
  - f_equal. apply (bv_ext (length x)); rewrite ?length_tv_action; auto. intros i Hi.
    rewrite nth_tv_action, E by auto. destruct (i =? row_index tv); auto. now rewrite xorb_false_r.
Qed.

Lemma tv_multiply_bv_UB tv x : ~ tv_ok (length x) tv -> tv_multiply_bv tv x = UB.
Proof.
  intros H. unfold tv_multiply_bv. destruct (tv_is_valid tv); auto. cbn [assertb bind].
  destruct (tv_is_valid_n tv (length x)) eqn:E; auto. apply tv_is_valid_n_iff in E. contradiction.
Qed.

Lemma length_ts_action ts x : length (ts_action ts x) = length x.
Proof.
  unfold ts_action. revert x; induction ts as [|tv ts IH]; intros x; cbn; auto. now rewrite IH, length_tv_action.
Qed.

Lemma foldM_tv_Ok ts x : Forall (tv_ok (length x)) ts ->
  foldM (fun x tv => tv_multiply_bv tv x) ts x = Ok (ts_action ts x).
Proof.
  unfold ts_action. revert x; induction ts as [|tv ts IH]; intros x H; cbn [foldM fold_left]; auto.
  inversion H; subst. rewrite tv_multiply_bv_Ok by auto. cbn [bind]. apply IH. now rewrite length_tv_action.
Qed.

Lemma ts_multiply_bv_Ok ts x : Forall (tv_ok (length x)) ts -> ts_multiply_bv x ts = Ok (ts_action ts x).
Proof.
  intros H. unfold ts_multiply_bv. rewrite (ts_ok_is_valid _ _ H). cbn [assertb bind].
  apply ts_is_valid_n_iff in H as Hv. rewrite Hv. cbn [assertb bind]. now apply foldM_tv_Ok.
Qed.

Lemma ts_multiply_bv_UB ts x : ~ Forall (tv_ok (length x)) ts -> ts_multiply_bv x ts = UB.
Proof.
  intros H. unfold ts_multiply_bv. destruct (ts_is_valid ts); auto. cbn [assertb bind].
  destruct (ts_is_valid_n ts (length x)) eqn:E; auto. apply ts_is_valid_n_iff in E. contradiction.
Qed.

Lemma ts_action_app ts ts' x : ts_action (ts ++ ts') x = ts_action ts' (ts_action ts x).
Proof. unfold ts_action. apply fold_left_app. Qed.

Lemma ts_action_rev ts x : Forall (tv_ok (length x)) ts -> ts_action (rev ts) (ts_action ts x) = x.
Proof.
  revert x; induction ts as [|tv ts IH]; intros x H; auto. inversion H; subst.
  cbn [rev]. rewrite ts_action_app. change (ts_action (tv :: ts) x) with (ts_action ts (tv_action tv x)).
  rewrite IH by now rewrite length_tv_action. cbn. now apply tv_action_involutive.
Qed.

Lemma ts_action_rev' ts x : Forall (tv_ok (length x)) ts -> ts_action ts (ts_action (rev ts) x) = x.
Proof.
  intros H. rewrite <- (rev_involutive ts) at 1. apply ts_action_rev. now apply Forall_rev.
Qed.

Lemma tv_action_vxor tv n x y : length x = n -> length y = n -> tv_ok n tv ->
  tv_action tv (vxor x y) = vxor (tv_action tv x) (tv_action tv y).
Proof.
  intros Hx Hy (H1 & H2 & H3). assert (length (vxor x y) = n) as HL by now apply length_vxor.
  apply (bv_ext n); [now rewrite length_tv_action| apply length_vxor; now rewrite length_tv_action|].
  intros i Hi. rewrite (nth_vxor n) by now rewrite length_tv_action. rewrite !nth_tv_action by lia.
  rewrite !(nth_vxor n) by auto. destruct (i =? row_index tv); auto.
  now destruct (nth i x false), (nth i y false), (nth (column_index tv) x false), (nth (column_index tv) y false).
Qed.

Lemma ts_action_vxor ts n x y : length x = n -> length y = n -> Forall (tv_ok n) ts ->
  ts_action ts (vxor x y) = vxor (ts_action ts x) (ts_action ts y).
Proof.
  intros Hx Hy HF. revert x y Hx Hy. induction HF as [|tv ts Ht HF IH]; intros x y Hx Hy; auto.
  cbn. rewrite (tv_action_vxor tv n) by auto. apply IH; now rewrite length_tv_action.
Qed.

(** * Sequences and inverses *)

Lemma tv_involution tv x : tv_ok (length x) tv ->
  exists y, tv_multiply_bv tv x = Ok y /\ y = tv_action tv x /\ tv_multiply_bv tv y = Ok x.
Proof.
  intros H. exists (tv_action tv x). split; [now apply tv_multiply_bv_Ok|]. split; auto.
  rewrite tv_multiply_bv_Ok by now rewrite length_tv_action. f_equal. now apply tv_action_involutive.
Qed.

Lemma ts_inverse_bv ts x : Forall (tv_ok (length x)) ts ->
  exists y ts', ts_multiply_bv x ts = Ok y /\ y = ts_action ts x /\ ts_invert ts = Ok ts' /\
    ts_multiply_bv y ts' = Ok x /\ exists z, ts_multiply_bv x ts' = Ok z /\ ts_multiply_bv z ts = Ok x.
Proof.
  intros H. exists (ts_action ts x), (rev ts). split; [now apply ts_multiply_bv_Ok|]. split; auto. split.
  - unfold ts_invert. now rewrite (ts_ok_is_valid _ _ H).
  - split.
    + rewrite ts_multiply_bv_Ok by (rewrite length_ts_action; now apply Forall_rev). f_equal. now apply ts_action_rev.
    + exists (ts_action (rev ts) x). split; [apply ts_multiply_bv_Ok; now apply Forall_rev|].
      rewrite ts_multiply_bv_Ok by now rewrite length_ts_action. f_equal. now apply ts_action_rev'.
Qed.

(** matrices *)
Definition tv_bm (M : bm) (tv : transvection) : bm := addr M (row_index tv) (column_index tv).

Lemma tv_multiply_bm_Ok nr nc tv M : wf nr nc M -> tv_ok nr tv -> tv_multiply_bm tv M = Ok (tv_bm M tv).
Proof.
  intros HW H. unfold tv_multiply_bm. rewrite (tv_ok_is_valid _ _ H). cbn [assertb bind].
  unfold bm_num_rows. rewrite (proj1 HW). apply tv_is_valid_n_iff in H as Hv. rewrite Hv. cbn [assertb bind].
  destruct H as (H1 & H2 & H3). now rewrite (add_rows_Ok nr nc).
Qed.

Lemma ts_multiply_bm_Ok nr nc ts M : wf nr nc M -> Forall (tv_ok nr) ts ->
  ts_multiply_bm M ts = Ok (fold_left tv_bm ts M) /\ wf nr nc (fold_left tv_bm ts M).
Proof.
  intros HW H. unfold ts_multiply_bm. rewrite (ts_ok_is_valid _ _ H). cbn [assertb bind].
  unfold bm_num_rows. rewrite (proj1 HW). apply ts_is_valid_n_iff in H as Hv. rewrite Hv. cbn [assertb bind]. clear Hv.
  revert M HW. induction H as [|tv ts Ht HF IH]; intros M HW; cbn [foldM fold_left]; auto.
  rewrite (tv_multiply_bm_Ok nr nc) by auto. cbn [bind]. apply IH.
  destruct Ht as (H1 & H2 & H3). now apply wf_addr.
Qed.

Lemma tv_action_badd tv x : tv_ok (length x) tv -> tv_action tv x = badd x (row_index tv) (column_index tv).
Proof.
  intros (H1 & H2 & H3). apply (bv_ext (length x)); rewrite ?length_tv_action, ?length_badd; auto. intros i Hi.
  rewrite nth_tv_action, nth_badd by auto. destruct (Nat.eqb_spec i (row_index tv)); subst; auto. apply xorb_comm.
Qed.

Lemma fold_tv_bm_mulv nr nc ts M x : wf nr nc M -> Forall (tv_ok nr) ts ->
  mulv (fold_left tv_bm ts M) x = ts_action ts (mulv M x).
Proof.
  intros HW H. revert M HW. induction H as [|tv ts Ht HF IH]; intros M HW; cbn [fold_left]; auto.
  pose proof Ht as (H1 & H2 & H3). rewrite IH by now apply wf_addr.
  change (ts_action (tv :: ts) (mulv M x)) with (ts_action ts (tv_action tv (mulv M x))). f_equal.
  unfold tv_bm. rewrite (mulv_addr nr nc) by auto. rewrite tv_action_badd; auto. rewrite length_mulv. now rewrite (proj1 HW).
Qed.

Lemma tv_bm_involutive nr nc M tv : wf nr nc M -> tv_ok nr tv -> tv_bm (tv_bm M tv) tv = M.
Proof. intros HW (H1 & H2 & H3). now apply (addr_involutive nr nc). Qed.

Lemma fold_tv_bm_rev nr nc ts M : wf nr nc M -> Forall (tv_ok nr) ts ->
  fold_left tv_bm (rev ts) (fold_left tv_bm ts M) = M.
Proof.
  intros HW H. revert M HW. induction H as [|tv ts Ht HF IH]; intros M HW; auto.
  cbn [rev fold_left]. rewrite fold_left_app. pose proof Ht as (H1 & H2 & H3).
  rewrite IH by now apply wf_addr. cbn. now apply (tv_bm_involutive nr nc).
Qed.

Lemma ts_inverse_bm nr nc ts M : is_matrix nr nc M -> Forall (tv_ok nr) ts ->
  exists M' ts', ts_multiply_bm M ts = Ok M' /\ is_matrix nr nc M' /\ ts_invert ts = Ok ts' /\
    ts_multiply_bm M' ts' = Ok M /\
    forall x, length x = nc -> mat_vec M' x = ts_action ts (mat_vec M x).
Proof.
  intros HM H. apply is_matrix_wf in HM as (Hr & Hc & HW).
  destruct (ts_multiply_bm_Ok nr nc ts M) as [E W]; auto.
  exists (fold_left tv_bm ts M), (rev ts). split; auto. split; [unfold is_matrix; destruct W; auto|]. split.
  - unfold ts_invert. now rewrite (ts_ok_is_valid _ _ H).
  - split.
    + destruct (ts_multiply_bm_Ok nr nc (rev ts) (fold_left tv_bm ts M)) as [E' _]; auto using Forall_rev.
      rewrite E'. f_equal. now apply (fold_tv_bm_rev nr nc).
    + intros x Hx. rewrite !(mat_vec_mulv nr nc) by auto. now apply (fold_tv_bm_mulv nr nc).
Qed.

(** * Commutation *)

Lemma commute_exact n a b : tv_ok n a -> tv_ok n b ->
  (transvections_commute a b = true <->
   forall x, length x = n -> tv_action b (tv_action a x) = tv_action a (tv_action b x)).
Proof.
  assert (forall a b, tv_ok n a -> tv_ok n b -> row_index a = column_index b ->
    exists x, length x = n /\ tv_action b (tv_action a x) <> tv_action a (tv_action b x)) as G.
  { intros a' b' (A1 & A2 & A3) (B1 & B2 & B3) E. exists (unitv n (column_index a')).
    split; [apply length_unitv|]. intros H. apply (f_equal (fun l => nth (row_index b') l false)) in H.
    rewrite !nth_tv_action in H by (rewrite ?length_tv_action, ?length_unitv; auto).
    rewrite !nth_unitv in H by auto. rewrite Nat.eqb_refl in H. rewrite <- E in *. rewrite !Nat.eqb_refl in H.
    destruct (Nat.eqb_spec (row_index b') (row_index a')); [congruence|].
    destruct (Nat.eqb_spec (row_index a') (column_index a')); [congruence|].
    destruct (Nat.eqb_spec (column_index a') (row_index b')), (Nat.eqb_spec (row_index b') (column_index a')); cbn in H; congruence. }
  intros Ha Hb. split.
  - intros HC x Hx. pose proof Ha as (A1 & A2 & A3). pose proof Hb as (B1 & B2 & B3).
    unfold transvections_commute in HC.
    destruct (Nat.eqb_spec (row_index a) (column_index b)); [discriminate|].
    destruct (Nat.eqb_spec (row_index b) (column_index a)); [discriminate|].
    apply (bv_ext n); rewrite ?length_tv_action; auto. intros i Hi.
    rewrite !nth_tv_action by (rewrite ?length_tv_action; lia).
    destruct (Nat.eqb_spec (column_index b) (row_index a)); [congruence|].
    destruct (Nat.eqb_spec (column_index a) (row_index b)); [congruence|].
    destruct (i =? row_index b), (i =? row_index a); auto.
    now destruct (nth i x false), (nth (column_index b) x false), (nth (column_index a) x false).
  - intros H. unfold transvections_commute.
    destruct (Nat.eqb_spec (row_index a) (column_index b)) as [E|_].
    { destruct (G a b Ha Hb E) as (x & Hx & K). exfalso. auto. }
    destruct (Nat.eqb_spec (row_index b) (column_index a)) as [E|_]; auto.
    destruct (G b a Hb Ha E) as (x & Hx & K). exfalso. apply K. symmetry. auto.
Qed.

Lemma commute_sym a b : transvections_commute a b = transvections_commute b a.
Proof. unfold transvections_commute. now destruct (row_index a =? column_index b), (row_index b =? column_index a). Qed.

Lemma disjoint_exact a b :
  transvections_are_disjoint a b = true <->
  forall i, In i [row_index a; column_index a] -> ~ In i [row_index b; column_index b].
Proof.
  unfold transvections_are_disjoint. cbn [In]. split.
  - intros H i.
    destruct (Nat.eqb_spec (row_index a) (row_index b)); [discriminate|].
    destruct (Nat.eqb_spec (row_index a) (column_index b)); [discriminate|].
    destruct (Nat.eqb_spec (column_index a) (row_index b)); [discriminate|].
    destruct (Nat.eqb_spec (column_index a) (column_index b)); [discriminate|].
    intros [<-|[<-|[]]] [|[|[]]]; congruence.
  - intros H.
    destruct (Nat.eqb_spec (row_index a) (row_index b)) as [E|_]; [exfalso; apply (H (row_index a)); auto|].
    destruct (Nat.eqb_spec (row_index a) (column_index b)) as [E|_]; [exfalso; apply (H (row_index a)); auto|].
    destruct (Nat.eqb_spec (column_index a) (row_index b)) as [E|_]; [exfalso; apply (H (column_index a)); auto|].
    destruct (Nat.eqb_spec (column_index a) (column_index b)) as [E|_]; [exfalso; apply (H (column_index a)); auto|]. auto.
Qed.

(** * Samplers *)

Lemma tv_random_loop_spec n draws tv rest : Forall (fun k => k < n) draws ->
  tv_random_loop draws = Some (tv, rest) -> tv_ok n tv /\ Forall (fun k => k < n) rest.
Proof.
  remember (length draws) as k eqn:Hk. assert (length draws <= k) as Hlen by lia. clear Hk. revert draws Hlen.
  induction k as [|k IH]; intros [|i [|j draws]] Hlen HF H; cbn in H, Hlen; try discriminate; try lia.
  pose proof (Forall_inv HF) as Hi. pose proof (Forall_inv_tail HF) as HF'.
  pose proof (Forall_inv HF') as Hj. pose proof (Forall_inv_tail HF') as HF''.
  destruct (Nat.eqb_spec i j).
  - apply (IH draws); auto; lia.
  - injection H as <- <-. split; auto. unfold tv_ok; cbn; auto.
Qed.

(** Draws that are not all equal let the loop stop. *)
Lemma tv_random_loop_stops i j draws pre : i <> j ->
  (forall k, In k pre -> fst k = snd k) ->
  tv_random_loop (flat_map (fun k => [fst k; snd k]) pre ++ i :: j :: draws) = Some (mk_tv i j, draws).
Proof.
  intros Hne. induction pre as [|[a b] pre IH]; intros H; cbn.
  - apply Nat.eqb_neq in Hne. now rewrite Hne.
  - pose proof (H (a, b) (or_introl eq_refl)) as E; cbn in E; subst b. rewrite Nat.eqb_refl. apply IH. intros k Hk. apply H. now right.
Qed.

Lemma tv_random_spec n draws : 1 < n -> Forall (fun k => k < n) draws ->
  tv_random n draws = Ok None \/ exists tv rest, tv_random n draws = Ok (Some (tv, rest)) /\ tv_ok n tv /\ Forall (fun k => k < n) rest.
Proof.
  intros Hn HF. unfold tv_random. apply Nat.ltb_lt in Hn. rewrite Hn. cbn [assertb bind].
  destruct (tv_random_loop draws) as [[tv rest]|] eqn:E; auto. right. exists tv, rest. split; auto.
  now apply (tv_random_loop_spec n draws).
Qed.

Lemma draw_other_spec n avoid draws i rest : Forall (fun k => k < n) draws ->
  draw_other avoid draws = Some (i, rest) -> i < n /\ i <> avoid /\ Forall (fun k => k < n) rest.
Proof.
  induction draws as [|d draws IH]; intros HF H; cbn in H; [discriminate|]. inversion HF; subst.
  destruct (Nat.eqb_spec d avoid); auto. injection H as <- <-. auto.
Qed.

Lemma tv_random_non_commuting_spec n a coin draws : 1 < n -> tv_ok n a -> Forall (fun k => k < n) draws ->
  tv_random_non_commuting n a coin draws = Ok None \/
  exists tv rest, tv_random_non_commuting n a coin draws = Ok (Some (tv, rest)) /\ tv_ok n tv /\
    transvections_commute tv a = false /\ Forall (fun k => k < n) rest.
Proof.
  intros Hn (A1 & A2 & A3) HF. unfold tv_random_non_commuting. apply Nat.ltb_lt in Hn. rewrite Hn. cbn [assertb bind].
  destruct coin; cbv zeta.
  - destruct (draw_other (column_index a) draws) as [[i rest]|] eqn:E; [|now left]. right.
    apply (draw_other_spec n) in E as (E1 & E2 & E3); auto.
    assert (tv_ok n (mk_tv (column_index a) i)) as K by (unfold tv_ok; cbn; auto).
    apply tv_is_valid_n_iff in K as K'. rewrite K'. cbn [assertb bind].
    assert (transvections_commute (mk_tv (column_index a) i) a = false) as C.
    { unfold transvections_commute; cbn. rewrite Nat.eqb_refl. auto. }
    rewrite C. cbn. eauto 6.
  - destruct (draw_other (row_index a) draws) as [[i rest]|] eqn:E; [|now left]. right.
    apply (draw_other_spec n) in E as (E1 & E2 & E3); auto.
    assert (tv_ok n (mk_tv i (row_index a))) as K by (unfold tv_ok; cbn; auto).
    apply tv_is_valid_n_iff in K as K'. rewrite K'. cbn [assertb bind].
    assert (transvections_commute (mk_tv i (row_index a)) a = false) as C.
    { unfold transvections_commute; cbn. rewrite Nat.eqb_refl. now destruct (i =? column_index a). }
    rewrite C. cbn. eauto 6.
Qed.

Lemma ts_random_spec n t draws : 1 < n -> Forall (fun k => k < n) draws ->
  ts_random n t draws = Ok None \/
  exists ts, ts_random n t draws = Ok (Some ts) /\ length ts = t /\ Forall (tv_ok n) ts.
Proof.
  intros Hn HF. unfold ts_random. apply Nat.ltb_lt in Hn as Hn'. rewrite Hn'. cbn [assertb bind].
  revert draws HF. induction t as [|t IH]; intros draws HF; cbn [ts_random_loop].
  - right. exists []. auto.
  - destruct (tv_random_spec n draws Hn HF) as [E|(tv & rest & E & T & F)]; rewrite E; cbn [bind]; auto.
    destruct (IH rest F) as [E'|(ts & E' & L & V)]; rewrite E'; cbn [bind option_map]; auto.
    right. exists (tv :: ts). cbn. auto.
Qed.

Definition consecutive_non_commuting (ts : list transvection) : Prop :=
  forall k, S k < length ts ->
    transvections_commute (nth (S k) ts (mk_tv 0 0)) (nth k ts (mk_tv 0 0)) = false.

Lemma ts_random_non_commuting_spec n t coins draws ts0 : 1 < n -> 0 < t -> Forall (fun k => k < n) draws ->
  ts_random_non_commuting coins draws ts0 n t = Ok None \/
  exists ts, ts_random_non_commuting coins draws ts0 n t = Ok (Some ts) /\ length ts = t /\ Forall (tv_ok n) ts /\
    consecutive_non_commuting ts.
Proof.
  intros Hn Ht HF. unfold ts_random_non_commuting. apply Nat.ltb_lt in Hn as Hn'. rewrite Hn'. cbn [assertb bind].
  destruct (Nat.leb_spec t 0); [lia|]. destruct t as [|t]; [lia|]. cbn [Nat.sub]. rewrite Nat.sub_0_r.
  destruct (tv_random_spec n draws Hn HF) as [E|(tv & rest & E & T & F)]; rewrite E; cbn [bind]; auto.
  clear E draws HF H Ht.
  assert (non_commuting_loop n t tv coins rest = Ok None \/
    exists ts, non_commuting_loop n t tv coins rest = Ok (Some ts) /\ length ts = t /\ Forall (tv_ok n) ts /\
      consecutive_non_commuting (tv :: ts)) as G.
  { revert tv T coins rest F. induction t as [|t IH]; intros tv T coins rest F; cbn [non_commuting_loop].
    - right. exists []. repeat split; auto. intros k Hk. cbn in Hk. lia.
    - destruct coins as [|coin coins]; auto.
      destruct (tv_random_non_commuting_spec n tv coin rest Hn T F) as [E|(tv' & rest' & E & T' & C' & F')];
        rewrite E; cbn [bind]; auto.
      destruct (IH tv' T' coins rest' F') as [E'|(ts & E' & L & V & C)]; rewrite E'; cbn [bind option_map]; auto.
      right. exists (tv' :: ts). split; auto. split; [cbn; auto|]. split; auto.
      intros [|k] Hk; cbn [nth]; auto. apply (C k). cbn in *. lia. }
  destruct G as [E|(ts & E & L & V & C)]; rewrite E; cbn [bind option_map]; auto.
  right. exists (tv :: ts). cbn [length]. auto.
Qed.

(** Shuffled variables *)

Lemma shuffled_vars sh n : shuffles sh ->
  let v := sh (all_variables n) in
  length v = n /\ NoDup v /\ (forall k, In k v <-> k < n) /\ forall i, i < n -> nth i v 0 < n.
Proof.
  intros H v. pose proof (H (all_variables n)) as P. fold v in P. unfold all_variables in *.
  assert (length v = n) as L by (rewrite <- (Permutation_length P), seq_length; auto).
  assert (forall k, In k v <-> k < n) as HI.
  { intros k. split; intros K.
    - apply (Permutation_in k (Permutation_sym P)) in K. apply in_seq in K. lia.
    - apply (Permutation_in k P). apply in_seq. lia. }
  split; auto. split; [apply (Permutation_NoDup P), seq_NoDup|]. split; auto.
  intros i Hi. apply HI. apply nth_In. lia.
Qed.

Lemma NoDup_nth_neq (v : list nat) i j : NoDup v -> i < length v -> j < length v -> i <> j -> nth i v 0 <> nth j v 0.
Proof. intros H Hi Hj Hne E. apply Hne. eapply NoDup_nth; eauto. Qed.

Lemma tv_of_Ok v i j : i < length v -> j < length v -> tv_of v i j = Ok (mk_tv (nth i v 0) (nth j v 0)).
Proof. intros Hi Hj. unfold tv_of. now rewrite (vget_Ok v i 0), (vget_Ok v j 0) by auto. Qed.

Lemma foldM_push {A B} (f : A -> outcome B) (g : A -> B) l acc :
  (forall a, In a l -> f a = Ok (g a)) ->
  foldM (fun acc a => b <- f a ;; Ok (acc ++ [b])) l acc = Ok (acc ++ map g l).
Proof.
  revert acc. induction l as [|a l IH]; intros acc H; cbn [foldM map].
  - now rewrite app_nil_r.
  - rewrite H by now left. cbn [bind]. rewrite IH by (intros; apply H; now right). now rewrite <- app_assoc.
Qed.

(** pairwise commuting *)
Definition pairwise (R : transvection -> transvection -> bool) (ts : list transvection) : Prop :=
  forall a b, In a ts -> In b ts -> R a b = true.

Definition pairwise_distinct (R : transvection -> transvection -> bool) (ts : list transvection) : Prop :=
  forall i j, i < length ts -> j < length ts -> i <> j -> R (nth i ts (mk_tv 0 0)) (nth j ts (mk_tv 0 0)) = true.


Lemma split_bound n t r (coin : bool) :
  1 < n -> 0 < t ->
  t <= (if n mod 2 =? 0 then n / 2 * (n / 2) else n / 2 * (n / 2 + 1)) ->
  (if n mod 2 =? 0 then r <= commuting_bound_even n t else 1 <= r <= commuting_bound_odd n t) ->
  let split := if n mod 2 =? 0 then (if coin then n / 2 + r else n / 2 - r)
               else (if coin : bool then n / 2 + r else n / 2 + 1 - r) in
  split <= n /\ t <= split * (n - split).
Proof.
  intros Hn Ht HT Hr. pose proof (Nat.div_mod n 2 ltac:(lia)) as Hdm. pose proof (Nat.mod_upper_bound n 2 ltac:(lia)) as Hm.
  set (k := n / 2) in *. destruct (Nat.eqb_spec (n mod 2) 0) as [E|E].
  - assert (n = 2 * k) as En by lia. unfold commuting_bound_even in Hr. fold k in Hr.
    assert (n * n / 4 = k * k) as Eq by (rewrite En; replace (2 * k * (2 * k)) with (k * k * 4) by lia; apply Nat.div_mul; lia).
    rewrite Eq in Hr.
    assert (r <= k - 1) by lia.
    assert (r <= Nat.sqrt (k * k - t)) as Hs by lia.
    assert (r * r <= k * k - t) as Hs2.
    { pose proof (Nat.sqrt_spec (k * k - t) ltac:(lia)) as [S1 _].
      pose proof (Nat.mul_le_mono _ _ _ _ Hs Hs). lia. }
    clearbody k. assert (exists d, k = d + r) as (d & ->) by (exists (k - r); lia). clear - HT Hs2 En.
    destruct coin; cbv zeta.
    + split; [lia|]. replace (n - (d + r + r)) with d by lia. lia.
    + split; [lia|]. replace (n - (d + r - r)) with (d + r + r) by lia. replace (d + r - r) with d by lia. lia.
  - assert (n = 2 * k + 1) as En by lia. unfold commuting_bound_odd in Hr. fold k in Hr.
    set (s := Nat.sqrt (n * n - 4 * t)) in *.
    assert (2 * r <= s + 1) as Hs.
    { pose proof (Nat.mul_div_le (s + 1) 2 ltac:(lia)). lia. }
    assert (r <= k) by lia.
    assert (s * s <= n * n - 4 * t) as Hs2.
    { pose proof (Nat.sqrt_spec (n * n - 4 * t) ltac:(lia)) as [S1 _]. fold s in S1. lia. }
    assert ((2 * r - 1) * (2 * r - 1) <= n * n - 4 * t) as H3.
    { assert (2 * r - 1 <= s) as Hq by lia. pose proof (Nat.mul_le_mono _ _ _ _ Hq Hq). lia. }
    clearbody k. rewrite En in H3.
    assert (exists d, k = d + r) as (d & ->) by (exists (k - r); lia).
    assert (exists q, r = S q) as (q & ->) by (exists (r - 1); lia).
    replace (2 * S q - 1) with (2 * q + 1) in H3 by lia.
    clear - HT H3 En.
    assert (4 * t <= (2 * (d + S q) + 1) * (2 * (d + S q) + 1)) by lia.
    destruct coin; cbv zeta.
    + split; [lia|]. replace (n - (d + S q + S q)) with (d + 1) by lia. lia.
    + split; [lia|]. replace (d + S q + 1 - S q) with (d + 1) by lia. replace (n - (d + 1)) with (d + S q + S q) by lia. lia.
Qed.

Lemma commuting_bound_odd_pos n t : 1 < n -> n mod 2 <> 0 -> t <= n / 2 * (n / 2 + 1) -> 1 <= commuting_bound_odd n t.
Proof.
  intros Hn Hm HT. pose proof (Nat.div_mod n 2 ltac:(lia)) as Hdm. pose proof (Nat.mod_upper_bound n 2 ltac:(lia)) as Hm2.
  set (k := n / 2) in *. assert (n = 2 * k + 1) as En by lia.
  unfold commuting_bound_odd. fold k. apply Nat.min_glb; [lia|].
  apply Nat.div_le_lower_bound; [lia|].
  assert (1 <= Nat.sqrt (n * n - 4 * t)); [|lia].
  apply Nat.sqrt_le_square. rewrite En. clear - HT. lia.
Qed.

Lemma length_flat_map_const {A B} (f : A -> list B) l c : (forall a, In a l -> length (f a) = c) ->
  length (flat_map f l) = length l * c.
Proof.
  induction l as [|a l IH]; intros H; cbn; auto. rewrite app_length, H by now left. rewrite IH; auto. intros; apply H; now right.
Qed.

Lemma NoDup_flat_map_disj {A B} (f : A -> list B) l : NoDup l -> (forall a, In a l -> NoDup (f a)) ->
  (forall a a' b, In a l -> In a' l -> In b (f a) -> In b (f a') -> a = a') -> NoDup (flat_map f l).
Proof.
  induction 1 as [|a l Ha HN IH]; intros H1 H2; cbn; [constructor|].
  apply NoDup_app_intro; auto.
  - apply H1; now left.
  - apply IH; [intros; apply H1; now right|]. intros; eapply H2; eauto; now right.
  - intros b Hb Hb'. apply in_flat_map in Hb' as (a' & Ha' & Hb'). apply Ha.
    rewrite (H2 a a' b); auto; [now left|now right].
Qed.

Lemma firstn_NoDup {T} k (l : list T) : NoDup l -> NoDup (firstn k l).
Proof.
  revert k. induction l as [|x l IH]; intros [|k] H; cbn; try constructor; inversion H; subst; auto.
  intros K. apply firstn_In in K. contradiction.
Qed.

Theorem ts_random_commuting_spec sh1 sh2 pick coin n t :
  shuffles sh1 -> shuffles sh2 -> in_range pick -> 1 < n -> 0 < t ->
  exists ts, ts_random_commuting sh1 sh2 pick coin [] n t = Ok ts /\
    length ts = Nat.min t (if n mod 2 =? 0 then n / 2 * (n / 2) else n / 2 * (n / 2 + 1)) /\
    Forall (tv_ok n) ts /\ NoDup ts /\ pairwise transvections_commute ts.
Proof.
  intros H1 H2 Hp Hn Ht. unfold ts_random_commuting. apply Nat.ltb_lt in Hn as Hn'. rewrite Hn'. cbn [assertb bind].
  destruct (Nat.leb_spec t 0); [lia|]. cbv zeta.
  set (lmax := if n mod 2 =? 0 then n / 2 * (n / 2) else n / 2 * (n / 2 + 1)).
  assert (0 < lmax) as Hl.
  { assert (0 < n / 2) by (apply Nat.div_str_pos; lia). unfold lmax. destruct (n mod 2 =? 0); apply Nat.mul_pos_pos; lia. }
  set (t1 := if lmax <? t then lmax else t).
  assert (t1 = Nat.min t lmax) as Et1 by (unfold t1; destruct (Nat.ltb_spec lmax t); lia).
  set (v := sh1 (all_variables n)).
  destruct (shuffled_vars sh1 n H1) as (V1 & V2 & V3 & V4). fold v in V1, V2, V3, V4.
  assert (exists s, (if n mod 2 =? 0
     then r <- dist_uniform pick 0 (commuting_bound_even n t1) ;; Ok (if coin then n / 2 + r else n / 2 - r)
     else r <- dist_uniform pick 1 (commuting_bound_odd n t1) ;; Ok (if coin then n / 2 + r else n / 2 + 1 - r)) = Ok s /\
     s <= n /\ t1 <= s * (n - s)) as (s & Es & Hs1 & Hs2).
  { pose proof (fun r => split_bound n t1 r coin Hn ltac:(lia)) as SB.
    assert (t1 <= lmax) as Ht1 by lia. unfold lmax in Ht1.
    destruct (Nat.eqb_spec (n mod 2) 0) as [E|E].
    - unfold dist_uniform. cbn [Nat.leb bind]. eexists. split; [reflexivity|].
      apply SB; auto. apply Hp. lia.
    - pose proof (commuting_bound_odd_pos n t1 Hn E Ht1) as HB. unfold dist_uniform.
      apply Nat.leb_le in HB as HB'. rewrite HB'. cbn [bind]. eexists. split; [reflexivity|].
      apply SB; auto. }
  rewrite Es. cbn [bind].
  set (rows := fun i => map (fun j => mk_tv (nth i v 0) (nth j v 0)) (seq s (n - s))).
  assert (foldM (fun ts i => foldM (fun ts j => tv <- tv_of v i j ;; Ok (ts ++ [tv])) (seq s (n - s)) ts)
         (seq 0 s) [] = Ok (flat_map rows (seq 0 s))) as EF.
  { assert (forall l acc, (forall i, In i l -> i < n) ->
      foldM (fun ts i => foldM (fun ts j => tv <- tv_of v i j ;; Ok (ts ++ [tv])) (seq s (n - s)) ts) l acc
      = Ok (acc ++ flat_map rows l)) as G.
    { induction l as [|i l IH]; intros acc HI; cbn [foldM flat_map]; [now rewrite app_nil_r|].
      rewrite (foldM_push (fun j => tv_of v i j) (fun j => mk_tv (nth i v 0) (nth j v 0))).
      - cbn [bind]. rewrite IH by (intros; apply HI; now right). unfold rows at 2. now rewrite <- app_assoc.
      - intros j Hj. apply in_seq in Hj. apply tv_of_Ok; rewrite V1; [|lia]. apply HI. now left. }
    apply (G (seq 0 s) []). intros i Hi. apply in_seq in Hi. lia. }
  rewrite EF. cbn [bind].
  set (L := flat_map rows (seq 0 s)). pose proof (H2 L) as PL.
  assert (length L = s * (n - s)) as LL.
  { unfold L. rewrite (length_flat_map_const _ _ (n - s)), seq_length; auto.
    intros i _. unfold rows. now rewrite map_length, seq_length. }
  assert (forall tv, In tv L -> exists i j, i < s /\ s <= j < n /\ tv = mk_tv (nth i v 0) (nth j v 0)) as HL.
  { intros tv Htv. apply in_flat_map in Htv as (i & Hi & Htv). apply in_map_iff in Htv as (j & <- & Hj).
    apply in_seq in Hi, Hj. exists i, j. split; [lia|]. split; [lia|]. auto. }
  assert (NoDup L) as NL.
  { apply NoDup_flat_map_disj.
    - apply seq_NoDup.
    - intros i Hi. apply NoDup_map_inj; [|apply seq_NoDup]. intros j j' Hj Hj' E. injection E as E.
      apply in_seq in Hj, Hj'. eapply NoDup_nth; eauto; lia.
    - intros i i' tv Hi Hi' Htv Htv'. apply in_map_iff in Htv as (j & <- & Hj), Htv' as (j' & E & Hj').
      injection E as E _. apply in_seq in Hi, Hi'. eapply NoDup_nth; eauto; lia. }
  exists (if t1 <? length (sh2 L) then firstn t1 (sh2 L) else sh2 L). split; auto.
  assert (length (sh2 L) = s * (n - s)) as LL2 by (rewrite <- (Permutation_length PL); auto).
  assert (forall tv, In tv (if t1 <? length (sh2 L) then firstn t1 (sh2 L) else sh2 L) -> In tv L) as HI.
  { intros tv Htv. apply (Permutation_in tv (Permutation_sym PL)). destruct (t1 <? length (sh2 L)); auto. eapply firstn_In; eauto. }
  split; [|split; [|split]].
  - rewrite <- Et1. destruct (Nat.ltb_spec t1 (length (sh2 L))); [rewrite firstn_length; lia|lia].
  - apply Forall_forall. intros tv Htv. apply HI, HL in Htv as (i & j & Hi & Hj & ->).
    split; [apply V4; lia|]. split; [apply V4; lia|]. cbn. apply NoDup_nth_neq; auto; lia.
  - assert (NoDup (sh2 L)) by (eapply Permutation_NoDup; eauto). destruct (t1 <? length (sh2 L)); auto. now apply firstn_NoDup.
  - intros a b Ha Hb. apply HI, HL in Ha as (i & j & Hi & Hj & ->). apply HI, HL in Hb as (i' & j' & Hi' & Hj' & ->).
    unfold transvections_commute; cbn.
    destruct (Nat.eqb_spec (nth i v 0) (nth j' v 0)) as [E|_]; [exfalso; revert E; apply NoDup_nth_neq; auto; lia|].
    destruct (Nat.eqb_spec (nth i' v 0) (nth j v 0)) as [E|_]; [exfalso; revert E; apply NoDup_nth_neq; auto; lia|]. auto.
Qed.

Lemma uniform_cols n t (pick : nat -> nat -> nat -> nat) i : (forall i, in_range (pick i)) -> t <= n - 1 -> 0 < n ->
  dist_uniform (pick i) t (n - 1) = Ok (pick i t (n - 1)) /\ t <= pick i t (n - 1) < n.
Proof.
  intros Hp Ht Hn. unfold dist_uniform. apply Nat.leb_le in Ht as Ht'. rewrite Ht'. split; auto.
  specialize (Hp i t (n - 1) Ht). lia.
Qed.

Lemma bind_assoc2 {A B C} (m : outcome A) (f : A -> outcome B) (g : B -> outcome C) :
  (x <- m ;; (y <- f x ;; g y)) = (y <- (x <- m ;; f x) ;; g y).
Proof. destruct m; auto. Qed.

Lemma foldM_ext {S A} (f g : S -> A -> outcome S) l s : (forall s a, f s a = g s a) -> foldM f l s = foldM g l s.
Proof. intros H. revert s. induction l as [|a l IH]; intros s; cbn; auto. rewrite H. destruct (g s a); cbn; auto. Qed.

Theorem ts_random_unique_source_spec sh1 sh2 pick n t :
  shuffles sh1 -> shuffles sh2 -> (forall i, in_range (pick i)) -> 1 < n -> 0 < t ->
  exists ts, ts_random_unique_source sh1 sh2 pick [] n t = Ok ts /\
    length ts = Nat.min t (n - 1) /\ Forall (tv_ok n) ts /\
    NoDup (map row_index ts) /\ pairwise transvections_commute ts.
Proof.
  intros H1 H2 Hp Hn Ht. unfold ts_random_unique_source. apply Nat.ltb_lt in Hn as Hn'. rewrite Hn'. cbn [assertb bind].
  destruct (Nat.leb_spec t 0); [lia|]. cbv zeta.
  set (t1 := if n - 1 <? t then n - 1 else t).
  assert (t1 = Nat.min t (n - 1)) as Et1 by (unfold t1; destruct (Nat.ltb_spec (n - 1) t); lia).
  set (v := sh1 (all_variables n)).
  destruct (shuffled_vars sh1 n H1) as (V1 & V2 & V3 & V4). fold v in V1, V2, V3, V4.
  rewrite (foldM_ext _ (fun ts i => tv <- (j <- dist_uniform (pick i) t1 (n - 1) ;; tv_of v i j) ;; Ok (ts ++ [tv])))
    by (intros; apply bind_assoc2).
  rewrite (foldM_push _ (fun i => mk_tv (nth i v 0) (nth (pick i t1 (n - 1)) v 0))).
  2: { intros i Hi. apply in_seq in Hi. destruct (uniform_cols n t1 pick i Hp) as [E B]; try lia. rewrite E. cbn [bind].
       apply tv_of_Ok; lia. }
  cbn [bind app]. rewrite map_length, seq_length, Nat.eqb_refl. cbn [assertb bind].
  set (L := map _ _). pose proof (H2 L) as PL. exists (sh2 L). split; auto.
  assert (forall tv, In tv (sh2 L) -> exists i j, i < t1 /\ t1 <= j < n /\ tv = mk_tv (nth i v 0) (nth j v 0)) as HL.
  { intros tv Htv. apply (Permutation_in tv (Permutation_sym PL)) in Htv. apply in_map_iff in Htv as (i & <- & Hi).
    apply in_seq in Hi. destruct (uniform_cols n t1 pick i Hp) as [E B]; try lia.
    exists i, (pick i t1 (n - 1)). split; [lia|]. auto. }
  split; [|split; [|split]].
  - rewrite <- (Permutation_length PL). unfold L. rewrite map_length, seq_length. auto.
  - apply Forall_forall. intros tv Htv. apply HL in Htv as (i & j & Hi & Hj & ->).
    split; [apply V4; lia|]. split; [apply V4; lia|]. cbn. apply NoDup_nth_neq; auto; lia.
  - apply (Permutation_NoDup (Permutation_map row_index PL)). unfold L. rewrite map_map. cbn.
    apply NoDup_map_inj; [|apply seq_NoDup]. intros i i' Hi Hi' E. apply in_seq in Hi, Hi'. eapply NoDup_nth; eauto; lia.
  - intros a b Ha Hb. apply HL in Ha as (i & j & Hi & Hj & ->). apply HL in Hb as (i' & j' & Hi' & Hj' & ->).
    unfold transvections_commute; cbn.
    destruct (Nat.eqb_spec (nth i v 0) (nth j' v 0)) as [E|_]; [exfalso; revert E; apply NoDup_nth_neq; auto; lia|].
    destruct (Nat.eqb_spec (nth i' v 0) (nth j v 0)) as [E|_]; [exfalso; revert E; apply NoDup_nth_neq; auto; lia|]. auto.
Qed.

Theorem ts_random_unique_destination_spec sh1 sh2 pick n t :
  shuffles sh1 -> shuffles sh2 -> (forall i, in_range (pick i)) -> 1 < n -> 0 < t ->
  exists ts, ts_random_unique_destination sh1 sh2 pick [] n t = Ok ts /\
    length ts = Nat.min t (n - 1) /\ Forall (tv_ok n) ts /\
    NoDup (map column_index ts) /\ pairwise transvections_commute ts.
Proof.
  intros H1 H2 Hp Hn Ht. unfold ts_random_unique_destination. apply Nat.ltb_lt in Hn as Hn'. rewrite Hn'. cbn [assertb bind].
  destruct (Nat.leb_spec t 0); [lia|]. cbv zeta.
  set (t1 := if n - 1 <? t then n - 1 else t).
  assert (t1 = Nat.min t (n - 1)) as Et1 by (unfold t1; destruct (Nat.ltb_spec (n - 1) t); lia).
  set (v := sh1 (all_variables n)).
  destruct (shuffled_vars sh1 n H1) as (V1 & V2 & V3 & V4). fold v in V1, V2, V3, V4.
  rewrite (foldM_ext _ (fun ts j => tv <- (i <- dist_uniform (pick j) t1 (n - 1) ;; tv_of v i j) ;; Ok (ts ++ [tv])))
    by (intros; apply bind_assoc2).
  rewrite (foldM_push _ (fun i => mk_tv (nth (pick i t1 (n - 1)) v 0) (nth i v 0))).
  2: { intros i Hi. apply in_seq in Hi. destruct (uniform_cols n t1 pick i Hp) as [E B]; try lia. rewrite E. cbn [bind].
       apply tv_of_Ok; lia. }
  cbn [bind app]. rewrite map_length, seq_length, Nat.eqb_refl. cbn [assertb bind].
  set (L := map _ _). pose proof (H2 L) as PL. exists (sh2 L). split; auto.
  assert (forall tv, In tv (sh2 L) -> exists i j, i < t1 /\ t1 <= j < n /\ tv = mk_tv (nth j v 0) (nth i v 0)) as HL.
  { intros tv Htv. apply (Permutation_in tv (Permutation_sym PL)) in Htv. apply in_map_iff in Htv as (i & <- & Hi).
    apply in_seq in Hi. destruct (uniform_cols n t1 pick i Hp) as [E B]; try lia.
    exists i, (pick i t1 (n - 1)). split; [lia|]. auto. }
  split; [|split; [|split]].
  - rewrite <- (Permutation_length PL). unfold L. rewrite map_length, seq_length. auto.
  - apply Forall_forall. intros tv Htv. apply HL in Htv as (i & j & Hi & Hj & ->).
    split; [apply V4; lia|]. split; [apply V4; lia|]. cbn. apply NoDup_nth_neq; auto; lia.
  - apply (Permutation_NoDup (Permutation_map column_index PL)). unfold L. rewrite map_map. cbn.
    apply NoDup_map_inj; [|apply seq_NoDup]. intros i i' Hi Hi' E. apply in_seq in Hi, Hi'. eapply NoDup_nth; eauto; lia.
  - intros a b Ha Hb. apply HL in Ha as (i & j & Hi & Hj & ->). apply HL in Hb as (i' & j' & Hi' & Hj' & ->).
    unfold transvections_commute; cbn.
    destruct (Nat.eqb_spec (nth j v 0) (nth i' v 0)) as [E|_]; [exfalso; revert E; apply NoDup_nth_neq; auto; lia|].
    destruct (Nat.eqb_spec (nth j' v 0) (nth i v 0)) as [E|_]; [exfalso; revert E; apply NoDup_nth_neq; auto; lia|]. auto.
Qed.

Theorem ts_random_disjoint_spec sh1 ts0 n t :
  shuffles sh1 -> 1 < n -> 0 < t ->
  exists ts, ts_random_disjoint sh1 ts0 n t = Ok ts /\
    length ts = Nat.min t (n / 2) /\ Forall (tv_ok n) ts /\ pairwise_distinct transvections_are_disjoint ts.
Proof.
  intros H1 Hn Ht. unfold ts_random_disjoint. apply Nat.ltb_lt in Hn as Hn'. rewrite Hn'. cbn [assertb bind].
  destruct (Nat.leb_spec t 0); [lia|]. cbv zeta.
  set (t1 := if n <? 2 * t then n / 2 else t).
  pose proof (Nat.div_mod n 2 ltac:(lia)) as Hdm. pose proof (Nat.mod_upper_bound n 2 ltac:(lia)) as Hm.
  assert (t1 = Nat.min t (n / 2)) as Et1 by (unfold t1; destruct (Nat.ltb_spec n (2 * t)); lia).
  assert (2 * t1 <= n) as H2 by lia. apply Nat.leb_le in H2 as H2'. rewrite H2'. cbn [assertb bind].
  set (v := sh1 (all_variables n)).
  destruct (shuffled_vars sh1 n H1) as (V1 & V2 & V3 & V4). fold v in V1, V2, V3, V4.
  set (f := fun i => mk_tv (nth (2 * i) v 0) (nth (2 * i + 1) v 0)).
  assert (forall i, i < t1 -> tv_ok n (f i)) as HV.
  { intros i Hi. unfold f, tv_ok; cbn. split; [apply V4; lia|]. split; [apply V4; lia|]. apply NoDup_nth_neq; auto; lia. }
  assert (forall (l : list nat) acc, (forall i, In i l -> i < t1) ->
    foldM (fun ts i => tv <- tv_of v (2 * i) (2 * i + 1) ;; _ <- assertb (tv_is_valid_n tv n) ;; Ok (ts ++ [tv])) l acc
    = Ok (acc ++ map f l)) as G.
  { induction l as [|i l IH]; intros acc HI; cbn [foldM map]; [now rewrite app_nil_r|].
    assert (i < t1) as Hi by (apply HI; now left).
    rewrite tv_of_Ok by lia. cbn [bind]. fold (f i). pose proof (HV i Hi) as K. apply tv_is_valid_n_iff in K. rewrite K.
    cbn [assertb bind]. rewrite IH by (intros; apply HI; now right). now rewrite <- app_assoc. }
  rewrite (G (seq 0 t1) []) by (intros i Hi; apply in_seq in Hi; lia). cbn [app].
  exists (map f (seq 0 t1)). split; auto. split; [now rewrite map_length, seq_length|]. split.
  - apply Forall_forall. intros tv Htv. apply in_map_iff in Htv as (i & <- & Hi). apply in_seq in Hi. apply HV. lia.
  - intros i j Hi Hj Hne. rewrite map_length, seq_length in Hi, Hj.
    rewrite !(nth_indep (map f (seq 0 t1)) (mk_tv 0 0) (f 0)) by (rewrite map_length, seq_length; auto).
    rewrite !map_nth, !seq_nth by auto. cbn [Nat.add].
    apply disjoint_exact. cbn [In f row_index column_index]. intros k [<-|[<-|[]]] [E|[E|[]]];
      symmetry in E; revert E; apply NoDup_nth_neq; auto; lia.
Qed.

(** length 0: nothing is done *)
Lemma ts_random_zero sh1 sh2 pick1 pick coin coins draws ts n : 1 < n ->
  ts_random_commuting sh1 sh2 pick1 coin ts n 0 = Ok ts /\
  ts_random_unique_source sh1 sh2 pick ts n 0 = Ok ts /\
  ts_random_unique_destination sh1 sh2 pick ts n 0 = Ok ts /\
  ts_random_disjoint sh1 ts n 0 = Ok ts /\
  ts_random_non_commuting coins draws ts n 0 = Ok (Some ts).
Proof.
  intros Hn. apply Nat.ltb_lt in Hn.
  unfold ts_random_commuting, ts_random_unique_source, ts_random_unique_destination, ts_random_disjoint, ts_random_non_commuting.
  rewrite Hn. cbn. auto.
Qed.

(** The samplers for unique sources and destinations need an empty sequence. *)
Lemma ts_random_unique_not_empty sh1 sh2 pick n t ts :
  shuffles sh1 -> (forall i, in_range (pick i)) -> 1 < n -> 0 < t -> ts <> [] ->
  ts_random_unique_source sh1 sh2 pick ts n t = UB /\ ts_random_unique_destination sh1 sh2 pick ts n t = UB.
Proof.
  intros H1 Hp Hn Ht Hts. unfold ts_random_unique_source, ts_random_unique_destination.
  apply Nat.ltb_lt in Hn as Hn'. rewrite Hn'. cbn [assertb bind].
  destruct (Nat.leb_spec t 0); [lia|]. cbv zeta.
  set (t1 := if n - 1 <? t then n - 1 else t).
  assert (t1 = Nat.min t (n - 1)) as Et1 by (unfold t1; destruct (Nat.ltb_spec (n - 1) t); lia).
  set (v := sh1 (all_variables n)).
  destruct (shuffled_vars sh1 n H1) as (V1 & V2 & V3 & V4). fold v in V1, V2, V3, V4.
  assert (0 < length ts) by (destruct ts; [contradiction|cbn; lia]).
  split.
  - rewrite (foldM_ext _ (fun ts i => tv <- (j <- dist_uniform (pick i) t1 (n - 1) ;; tv_of v i j) ;; Ok (ts ++ [tv])))
      by (intros; apply bind_assoc2).
    rewrite (foldM_push _ (fun i => mk_tv (nth i v 0) (nth (pick i t1 (n - 1)) v 0))).
    2: { intros i Hi. apply in_seq in Hi. destruct (uniform_cols n t1 pick i Hp) as [E B]; try lia. rewrite E. cbn [bind].
         apply tv_of_Ok; lia. }
    cbn [bind]. rewrite app_length, map_length, seq_length. destruct (Nat.eqb_spec t1 (length ts + t1)); auto. lia.
  - rewrite (foldM_ext _ (fun ts j => tv <- (i <- dist_uniform (pick j) t1 (n - 1) ;; tv_of v i j) ;; Ok (ts ++ [tv])))
      by (intros; apply bind_assoc2).
    rewrite (foldM_push _ (fun i => mk_tv (nth (pick i t1 (n - 1)) v 0) (nth i v 0))).
    2: { intros i Hi. apply in_seq in Hi. destruct (uniform_cols n t1 pick i Hp) as [E B]; try lia. rewrite E. cbn [bind].
         apply tv_of_Ok; lia. }
    cbn [bind]. rewrite app_length, map_length, seq_length. destruct (Nat.eqb_spec t1 (length ts + t1)); auto. lia.
Qed.
