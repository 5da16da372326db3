(** Pure row operations and their effect on entries and products. *)

From Verif Require Import Base BaseLemmas BitVector_Model BitVector_Spec GF2 BitVector_Proofs
  BitMatrix_Model BitMatrix_Spec.

Definition wf (nr nc : nat) (A : bm) : Prop := length A = nr /\ Forall (fun row => length row = nc) A.

Definition mulv (A : bm) (x : bv) : bv := map (fun row => dot row x) A.

Lemma is_matrix_wf nr nc A : is_matrix nr nc A -> 0 < nr /\ 0 < nc /\ wf nr nc A.
Proof. unfold is_matrix, wf. tauto. Qed.

Lemma gf2_sum_xsum n f : gf2_sum n f = xsum n f.
Proof.
  unfold gf2_sum. induction n; auto. rewrite seq_S, map_app. cbn [xsum]. rewrite <- IHn.
  clear. induction (map f (seq 0 n)) as [|b l IH]; cbn in *.
  - now destruct (f n).
  - rewrite IH. now rewrite xorb_assoc.
Qed.

Lemma mat_vec_mulv nr nc A x : wf nr nc A -> length x = nc -> mat_vec A x = mulv A x.
Proof.
  intros [_ H] Hx. unfold mat_vec, mulv. apply map_ext_in. intros row Hr.
  rewrite Forall_forall in H. rewrite gf2_sum_xsum, (dot_xsum nc); auto. now rewrite Hx.
Qed.

Lemma length_mulv A x : length (mulv A x) = length A.
Proof. apply map_length. Qed.

Lemma nth_mulv A x i : nth i (mulv A x) false = dot (nth i A []) x.
Proof. exact (map_nth (fun row => dot row x) A [] i). Qed.

Lemma wf_row nr nc A i : wf nr nc A -> i < nr -> length (nth i A []) = nc.
Proof.
  intros [H1 H2] Hi. rewrite Forall_forall in H2. apply H2, nth_In. lia.
Qed.

Lemma wf_ext nr nc A B : wf nr nc A -> wf nr nc B ->
  (forall i j, i < nr -> j < nc -> entry A i j = entry B i j) -> A = B.
Proof.
  intros HA HB H. apply (nth_ext_len []); [destruct HA, HB; lia|]. intros i Hi.
  assert (i < nr) by (destruct HA; lia).
  apply (bv_ext nc); [eapply wf_row; eauto|eapply wf_row; eauto|]. intros j Hj. now apply H.
Qed.

Lemma wf_upd nr nc A i row : wf nr nc A -> length row = nc -> wf nr nc (upd A i row).
Proof.
  intros [H1 H2] Hr. split; [now rewrite length_upd|]. rewrite Forall_forall in *. intros r Hi.
  apply In_upd in Hi as [->|Hi]; auto.
Qed.

Definition swapr (A : bm) (i j : nat) : bm := upd (upd A i (nth j A [])) j (nth i A []).
Definition addr (A : bm) (d s : nat) : bm := upd A d (vxor (nth d A []) (nth s A [])).
Definition bswap (b : bv) (i j : nat) : bv := upd (upd b i (nth j b false)) j (nth i b false).
Definition badd (b : bv) (d s : nat) : bv := upd b d (xorb (nth s b false) (nth d b false)).

Lemma wf_swapr nr nc A i j : wf nr nc A -> i < nr -> j < nr -> wf nr nc (swapr A i j).
Proof.
  intros H Hi Hj. unfold swapr. apply wf_upd; [apply wf_upd|]; auto; eapply wf_row; eauto.
Qed.

Lemma wf_addr nr nc A d s : wf nr nc A -> d < nr -> s < nr -> wf nr nc (addr A d s).
Proof.
  intros H Hd Hs. unfold addr. apply wf_upd; auto. apply length_vxor; eapply wf_row; eauto.
Qed.

Lemma mget_Ok nr nc A i j : wf nr nc A -> i < nr -> j < nc -> mget A i j = Ok (entry A i j).
Proof.
  intros H Hi Hj. unfold mget. rewrite (vget_Ok A i []) by (destruct H; lia). cbn [bind].
  rewrite (vget_Ok _ j false) by (erewrite wf_row; eauto). auto.
Qed.

Lemma mset_Ok nr nc A i j b : wf nr nc A -> i < nr -> j < nc ->
  mset A i j b = Ok (upd A i (upd (nth i A []) j b)).
Proof.
  intros H Hi Hj. unfold mset. rewrite (vget_Ok A i []) by (destruct H; lia). cbn [bind].
  rewrite vset_Ok by (erewrite wf_row; eauto). cbn [bind].
  rewrite vset_Ok by (destruct H; lia). auto.
Qed.

Lemma num_columns_Ok nr nc A : wf nr nc A -> 0 < nr -> bm_num_columns A = Ok nc.
Proof.
  intros H Hr. unfold bm_num_columns. rewrite (vget_Ok A 0 []) by (destruct H; lia). cbn [bind].
  now rewrite (wf_row nr nc).
Qed.

Lemma is_square_Ok n A : wf n n A -> 0 < n -> bm_is_square A = Ok true.
Proof.
  intros H Hn. unfold bm_is_square. rewrite (num_columns_Ok n n) by auto. cbn [bind].
  unfold bm_num_rows. destruct H as [-> _]. now rewrite Nat.eqb_refl.
Qed.

Lemma bm_is_valid_Ok nr nc A : wf nr nc A -> 0 < nr -> 0 < nc -> bm_is_valid A = true.
Proof.
  intros [H1 H2] Hr Hc. destruct A as [|row A]; [cbn in H1; lia|]. cbn [bm_is_valid].
  inversion H2 as [|? ? Hrow HF]; subst. destruct (Nat.eqb_spec (length row) 0); [lia|]. cbn [negb andb forallb].
  rewrite Nat.eqb_refl. cbn [andb]. apply forallb_forall. intros r Hin.
  rewrite Forall_forall in HF. apply Nat.eqb_eq. auto.
Qed.

Lemma bm_is_valid_iff M : bm_is_valid M = true <-> exists nr nc, is_matrix nr nc M.
Proof.
  split.
  - destruct M as [|row M]; [discriminate|]. cbn [bm_is_valid]. intros H. apply andb_true_iff in H as [H1 H2].
    exists (length (row :: M)), (length row). unfold is_matrix. repeat split; cbn; try lia.
    + destruct (length row); [discriminate|lia].
    + apply Forall_forall. intros r Hr. rewrite forallb_forall in H2. now apply Nat.eqb_eq, H2.
  - intros (nr & nc & H). apply is_matrix_wf in H as (H1 & H2 & H3). eapply bm_is_valid_Ok; eauto.
Qed.

Lemma swap_rows_Ok nr nc A i j : wf nr nc A -> i < nr -> j < nr ->
  bm_swap_rows A i j = Ok (swapr A i j).
Proof.
  intros H Hi Hj. unfold bm_swap_rows, bm_num_rows. pose proof (proj1 H) as HL.
  rewrite HL. apply Nat.ltb_lt in Hi as Hi'. apply Nat.ltb_lt in Hj as Hj'. rewrite Hi', Hj'. cbn [assertb bind].
  rewrite (num_columns_Ok nr nc) by (auto; lia). cbn [bind].
  rewrite (vget_Ok A i []), (vget_Ok A j []) by lia. cbn [bind].
  rewrite !(wf_row nr nc) by auto. rewrite Nat.leb_refl. cbn [andb].
  rewrite !firstn_all2, !skipn_all2, !app_nil_r by (rewrite (wf_row nr nc); auto).
  rewrite vset_Ok by lia. cbn [bind]. rewrite vset_Ok by (rewrite length_upd; lia). auto.
Qed.

Lemma add_rows_Ok nr nc A d s : wf nr nc A -> d < nr -> s < nr -> d <> s ->
  bm_add_rows A d s = Ok (addr A d s).
Proof.
  intros H Hd Hs Hne. unfold bm_add_rows, bm_num_rows. pose proof (proj1 H) as HL.
  rewrite HL. apply Nat.ltb_lt in Hd as Hd'. apply Nat.ltb_lt in Hs as Hs'. rewrite Hd', Hs'. cbn [assertb bind].
  replace (s =? d) with false by (symmetry; apply Nat.eqb_neq; auto). cbn [negb assertb bind].
  rewrite (vget_Ok A d []), (vget_Ok A s []) by lia. cbn [bind].
  rewrite bv_add_Ok by (rewrite !(wf_row nr nc); auto). cbn [bind].
  rewrite vset_Ok by lia. auto.
Qed.

Lemma add_rows_UB nr nc A d s : wf nr nc A -> ~ (d < nr /\ s < nr /\ d <> s) -> bm_add_rows A d s = UB.
Proof.
  intros [HL _] H. unfold bm_add_rows, bm_num_rows. rewrite HL.
  destruct (Nat.ltb_spec s nr); auto. destruct (Nat.ltb_spec d nr); auto. cbn [assertb bind].
  destruct (Nat.eqb_spec s d); auto. exfalso. apply H. auto.
Qed.

Lemma entry_swapr nr nc A i j k c : wf nr nc A -> i < nr -> j < nr ->
  entry (swapr A i j) k c = if k =? j then entry A i c else if k =? i then entry A j c else entry A k c.
Proof.
  intros [HL _] Hi Hj. unfold entry, swapr. rewrite nth_upd, length_upd, nth_upd, HL.
  apply Nat.ltb_lt in Hi, Hj. rewrite Hi, Hj, !andb_true_r.
  destruct (k =? j); auto. destruct (k =? i); auto.
Qed.

Lemma entry_addr nr nc A d s k c : wf nr nc A -> d < nr -> s < nr ->
  entry (addr A d s) k c = if k =? d then xorb (entry A d c) (entry A s c) else entry A k c.
Proof.
  intros H Hd Hs. unfold entry, addr. rewrite nth_upd. pose proof (proj1 H) as HL. rewrite HL.
  apply Nat.ltb_lt in Hd as Hd'. rewrite Hd', andb_true_r. destruct (k =? d); auto.
  apply (nth_vxor nc); eapply wf_row; eauto.
Qed.

Lemma length_bswap b i j : length (bswap b i j) = length b.
Proof. unfold bswap. now rewrite !length_upd. Qed.
Lemma length_badd b i j : length (badd b i j) = length b.
Proof. unfold badd. now rewrite !length_upd. Qed.

Lemma nth_bswap b i j k : i < length b -> j < length b ->
  nth k (bswap b i j) false = if k =? j then nth i b false else if k =? i then nth j b false else nth k b false.
Proof.
  intros Hi Hj. unfold bswap. rewrite nth_upd, length_upd, nth_upd.
  apply Nat.ltb_lt in Hi, Hj. now rewrite Hi, Hj, !andb_true_r.
Qed.

Lemma nth_badd b d s k : d < length b ->
  nth k (badd b d s) false = if k =? d then xorb (nth s b false) (nth d b false) else nth k b false.
Proof. intros Hd. unfold badd. rewrite nth_upd. apply Nat.ltb_lt in Hd. now rewrite Hd, andb_true_r. Qed.

Lemma bswap_involutive b i j : i < length b -> j < length b -> bswap (bswap b i j) i j = b.
Proof.
  intros Hi Hj. apply (bv_ext (length b)); rewrite ?length_bswap; auto. intros k Hk.
  rewrite !nth_bswap by (rewrite ?length_bswap; auto).
  destruct (Nat.eqb_spec k j), (Nat.eqb_spec i j), (Nat.eqb_spec k i), (Nat.eqb_spec i i), (Nat.eqb_spec j j), (Nat.eqb_spec j i); subst; auto; congruence.
Qed.

Lemma badd_involutive b d s : d < length b -> s < length b -> d <> s -> badd (badd b d s) d s = b.
Proof.
  intros Hd Hs Hne. apply (bv_ext (length b)); rewrite ?length_badd; auto. intros k Hk.
  rewrite !nth_badd by (rewrite ?length_badd; auto).
  destruct (Nat.eqb_spec k d); auto. subst. rewrite Nat.eqb_refl.
  destruct (Nat.eqb_spec s d); [congruence|]. now destruct (nth s b false), (nth d b false).
Qed.

Lemma mulv_swapr nr nc A i j x : wf nr nc A -> i < nr -> j < nr ->
  mulv (swapr A i j) x = bswap (mulv A x) i j.
Proof.
  intros H Hi Hj. pose proof (proj1 H) as HL. apply (bv_ext nr).
  - rewrite length_mulv. apply (wf_swapr nr nc); auto.
  - now rewrite length_bswap, length_mulv.
  - intros k Hk. rewrite nth_mulv, nth_bswap, !nth_mulv by (rewrite length_mulv; lia).
    unfold swapr. rewrite nth_upd, length_upd, nth_upd, HL. apply Nat.ltb_lt in Hi, Hj.
    rewrite Hi, Hj, !andb_true_r. destruct (k =? j); auto. destruct (k =? i); auto.
Qed.

Lemma mulv_addr nr nc A d s x : wf nr nc A -> d < nr -> s < nr ->
  mulv (addr A d s) x = badd (mulv A x) d s.
Proof.
  intros H Hd Hs. pose proof (proj1 H) as HL. apply (bv_ext nr).
  - rewrite length_mulv. apply (wf_addr nr nc); auto.
  - now rewrite length_badd, length_mulv.
  - intros k Hk. rewrite nth_mulv, nth_badd, !nth_mulv by (rewrite length_mulv; lia).
    unfold addr. rewrite nth_upd, HL. apply Nat.ltb_lt in Hd as Hd'.
    rewrite Hd', andb_true_r. destruct (k =? d); auto.
    rewrite (dot_vxor_l nc); try (eapply wf_row; eauto). apply xorb_comm.
Qed.

Lemma mulv_vxor nr nc A x y : wf nr nc A -> length x = nc -> length y = nc ->
  mulv A (vxor x y) = vxor (mulv A x) (mulv A y).
Proof.
  intros H Hx Hy. pose proof (proj1 H) as HL. apply (bv_ext nr); [now rewrite length_mulv|apply length_vxor; now rewrite length_mulv|].
  intros i Hi. rewrite (nth_vxor nr), !nth_mulv by (now rewrite length_mulv). now apply (dot_vxor_r nc).
Qed.

Lemma mulv_zero nr nc A : wf nr nc A -> mulv A (zerov nc) = zerov nr.
Proof.
  intros H. pose proof (proj1 H) as HL. apply (bv_ext nr); [now rewrite length_mulv|apply length_zerov|].
  intros i Hi. rewrite nth_mulv, nth_zerov. apply dot_zero_r.
Qed.

Lemma wf_identity n : wf n n (identity_matrix n).
Proof.
  unfold identity_matrix. split; [now rewrite map_length, seq_length|].
  apply Forall_forall. intros r Hr. apply in_map_iff in Hr as (i & <- & _). apply length_unitv.
Qed.

Lemma entry_identity n i j : i < n -> j < n -> entry (identity_matrix n) i j = (i =? j).
Proof.
  intros Hi Hj. unfold entry, identity_matrix. rewrite (nth_map_seq (unitv n)) by auto.
  rewrite nth_unitv by auto. apply Nat.eqb_sym.
Qed.

Lemma mulv_identity n x : length x = n -> mulv (identity_matrix n) x = x.
Proof.
  intros Hx. apply (bv_ext n); auto; [rewrite length_mulv; apply wf_identity|].
  intros i Hi. rewrite nth_mulv. unfold identity_matrix. rewrite (nth_map_seq (unitv n)) by auto.
  rewrite dot_comm. now apply dot_unitv.
Qed.

(** * Pivot search *)

Lemma find_pivot_Ok nr nc A col l : wf nr nc A -> col < nc -> Forall (fun i => i < nr) l ->
  find_pivot A col l = Ok (find (fun i => entry A i col) l).
Proof.
  intros H Hc. induction 1 as [|i l Hi HF IH]; auto. cbn [find_pivot find].
  rewrite (mget_Ok nr nc) by auto. cbn [bind]. destruct (entry A i col); auto.
Qed.

(** * Elimination of a column below or above a pivot *)

Definition elim1 (j r : nat) (A : bm) (i : nat) : bm := if entry A i j then addr A i r else A.
Definition elim (A : bm) (r j : nat) (l : list nat) : bm := fold_left (elim1 j r) l A.

Lemma wf_elim nr nc A r j l : wf nr nc A -> r < nr -> Forall (fun i => i < nr) l -> wf nr nc (elim A r j l).
Proof.
  unfold elim. intros H Hr HF. revert A H; induction HF as [|i l Hi HF IH]; intros A H; cbn; auto.
  apply IH. unfold elim1. destruct (entry A i j); auto. apply wf_addr; auto.
Qed.

Lemma entry_elim nr nc A r j l k c : wf nr nc A -> r < nr -> Forall (fun i => i < nr) l ->
  NoDup l -> ~ In r l ->
  entry (elim A r j l) k c =
  if in_dec Nat.eq_dec k l then xorb (entry A k c) (entry A k j && entry A r c) else entry A k c.
Proof.
  intros H Hr HF. revert A H; induction HF as [|i l Hi HF IH]; intros A H ND Hnr; cbn [elim fold_left]; auto.
  inversion ND; subst. change (fold_left (elim1 j r) l (elim1 j r A i)) with (elim (elim1 j r A i) r j l).
  assert (wf nr nc (elim1 j r A i)) as HW by (unfold elim1; destruct (entry A i j); auto; apply wf_addr; auto).
  rewrite IH; auto; [|intros K; apply Hnr; now right].
  assert (forall k c, entry (elim1 j r A i) k c = if k =? i then xorb (entry A k c) (entry A k j && entry A r c) else entry A k c) as E.
  { intros k' c'. unfold elim1. destruct (entry A i j) eqn:Eij.
    - rewrite (entry_addr nr nc) by auto. destruct (Nat.eqb_spec k' i) as [->|]; auto. now rewrite Eij.
    - destruct (Nat.eqb_spec k' i) as [->|]; auto. rewrite Eij. cbn. now rewrite xorb_false_r. }
  assert (r =? i = false) as Er by (apply Nat.eqb_neq; intros ->; apply Hnr; now left).
  rewrite !E, Er.
  destruct (in_dec Nat.eq_dec k l) as [Hk|Hk], (in_dec Nat.eq_dec k (i :: l)) as [Hk'|Hk'];
    destruct (Nat.eqb_spec k i) as [->|Hki]; auto; try contradiction.
  - exfalso. apply Hk'. now right.
  - destruct Hk' as [->|]; congruence.
  - exfalso. apply Hk'. now left.
Qed.

(** Loops whose state contains the matrix and satisfies some invariant [Good]. *)
Lemma foldM_elim {S} (mat : S -> bm) (Good : S -> Prop) (step : S -> nat -> outcome S) nr nc r j l s :
  (forall s i, Good s -> wf nr nc (mat s) -> i < nr -> i <> r -> In i l ->
     exists s', step s i = Ok s' /\ Good s' /\ mat s' = elim1 j r (mat s) i) ->
  r < nr -> Forall (fun i => i < nr) l -> ~ In r l ->
  Good s -> wf nr nc (mat s) ->
  exists s', foldM step l s = Ok s' /\ Good s' /\ mat s' = elim (mat s) r j l.
Proof.
  intros Hstep Hr HF Hnr HG HW. revert s HG HW.
  induction l as [|i l IH]; intros s HG HW; cbn [foldM elim fold_left].
  - eauto.
  - inversion HF; subst. destruct (Hstep s i) as (s1 & E1 & G1 & M1); auto.
    { intros ->; apply Hnr; now left. } { now left. }
    rewrite E1. cbn [bind]. destruct (IH) with (s := s1) as (s2 & E2 & G2 & M2); auto.
    + intros s' i' ? ? ? ? ?. apply Hstep; auto. now right.
    + intros K; apply Hnr; now right.
    + rewrite M1. unfold elim1. destruct (entry (mat s) i j); auto. apply wf_addr; auto.
    + exists s2. repeat split; auto. rewrite M2, M1. reflexivity.
Qed.

(** One step of Gaussian elimination. *)
Definition pivot_step (nr : nat) (A : bm) (r j p : nat) : bm :=
  elim (if p =? r then A else swapr A r p) r j (seq (r + 1) (nr - (r + 1))).

Lemma Forall_seq_lt a b n : a + b <= n -> Forall (fun i => i < n) (seq a b).
Proof. intros H. apply Forall_forall. intros i Hi. apply in_seq in Hi. lia. Qed.

Lemma find_seq_Some f a b p : find f (seq a b) = Some p -> a <= p < a + b /\ f p = true.
Proof. intros H. apply find_some in H as [H1 H2]. apply in_seq in H1. auto. Qed.

Lemma find_seq_None f a b i : find f (seq a b) = None -> a <= i < a + b -> f i = false.
Proof. intros H Hi. eapply find_none; eauto. apply in_seq. auto. Qed.

Lemma pivot_step_spec nr nc A r j p :
  wf nr nc A -> r <= p < nr -> j < nc -> entry A p j = true ->
  wf nr nc (pivot_step nr A r j p) /\
  (forall k c, k < r -> entry (pivot_step nr A r j p) k c = entry A k c) /\
  (forall c, entry (pivot_step nr A r j p) r c = entry A p c) /\
  (forall k, r < k < nr -> entry (pivot_step nr A r j p) k j = false) /\
  (forall c, (forall k, r <= k < nr -> entry A k c = false) ->
             forall k, r <= k < nr -> entry (pivot_step nr A r j p) k c = false).
Proof.
  intros HW Hp Hj Epj. unfold pivot_step. set (A1 := if p =? r then A else swapr A r p).
  assert (wf nr nc A1) as HW1 by (unfold A1; destruct (p =? r); auto; apply wf_swapr; auto; lia).
  assert (forall k c, entry A1 k c = if k =? p then entry A r c else if k =? r then entry A p c else entry A k c) as E1.
  { intros k c. unfold A1. destruct (Nat.eqb_spec p r) as [->|Hne].
    - destruct (Nat.eqb_spec k r) as [->|]; auto.
    - now rewrite (entry_swapr nr nc) by (auto; lia). }
  assert (Forall (fun i => i < nr) (seq (r + 1) (nr - (r + 1)))) as HF by (apply Forall_seq_lt; lia).
  assert (~ In r (seq (r + 1) (nr - (r + 1)))) as Hnr by (rewrite in_seq; lia).
  assert (r < nr) as Hr by lia.
  pose proof (fun k c => entry_elim nr nc A1 r j _ k c HW1 Hr HF (seq_NoDup _ _) Hnr) as EE.
  assert (forall c, entry A1 r c = entry A p c) as Er.
  { intros c. rewrite E1, Nat.eqb_refl. destruct (Nat.eqb_spec r p) as [->|]; auto. }
  split; [apply wf_elim; auto|]. split; [|split; [|split]].
  - intros k c Hk. rewrite EE. destruct (in_dec _ k _) as [Hi|_]; [apply in_seq in Hi; lia|].
    rewrite E1. destruct (Nat.eqb_spec k p); [lia|]. destruct (Nat.eqb_spec k r); [lia|]. auto.
  - intros c. rewrite EE. destruct (in_dec _ r _) as [Hi|_]; [contradiction|]. auto.
  - intros k Hk. rewrite EE. destruct (in_dec _ k _) as [_|Hi]; [|exfalso; apply Hi, in_seq; lia].
    rewrite Er, Epj. rewrite andb_true_r. apply xorb_nilpotent.
  - intros c Hz k Hk. rewrite EE.
    assert (forall k, r <= k < nr -> entry A1 k c = false) as Hz1.
    { intros k' Hk'. rewrite E1. destruct (k' =? p); [apply Hz; lia|]. destruct (k' =? r); apply Hz; lia. }
    rewrite !Hz1 by lia. rewrite andb_false_r. destruct (in_dec _ k _); auto.
Qed.
