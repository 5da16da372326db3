(** Proofs about linear categories, permutations, value sets and adapters. *)

From Coq Require Import ZArith NArith QArith Permutation Sorted.
From Verif Require Import Base BaseLemmas BitVector_Model BitVector_Spec GF2 BitVector_Proofs Iterator_Model SortedLemmas Iterator_Proofs
  BitMatrix_Model BitMatrix_Spec BitMatrix_Pure BitMatrix_Proofs Map_Model Map_Spec Map_Proofs
  Representation_Model Representation_Spec Representation_Proofs.
Local Open Scope nat_scope.

(** * Linear categorical representation *)

Lemma fill_columns_Ok nr nc ys : forall A j, is_matrix nr nc A -> j + length ys <= nc ->
  Forall (fun y => length y = nr) ys ->
  exists B, fill_columns nc ys (A, j) = Ok (B, j + length ys) /\ is_matrix nr nc B /\
    forall k c, k < nr -> c < nc ->
      entry B k c = if (j <=? c) && (c <? j + length ys) then nth k (nth (c - j) ys []) false else entry A k c.
Proof.
  induction ys as [|y ys IH]; intros A j HA Hj HF.
  - exists A. cbn [length fill_columns foldM]. rewrite !Nat.add_0_r. split; [reflexivity|]. split; [assumption|]. intros k c _ _.
    destruct (Nat.leb_spec j c), (Nat.ltb_spec c j); cbn [andb]; auto; lia.
  - cbn [length] in Hj. inversion HF as [|? ? Hy HF']; subst.
    unfold fill_columns. cbn [foldM]. ok_assert.
    destruct (set_column_correct (length y) nc A j y HA ltac:(lia) eq_refl) as (B & E & HB & EB). rewrite E. cbn [bind].
    fold (fill_columns nc ys (B, j + 1)). destruct (IH B (j + 1) HB ltac:(lia) HF') as (C & E' & HC & EC).
    exists C. split; [rewrite E'; do 2 f_equal; cbn; lia|]. split; [assumption|]. intros k c Hk Hc.
    rewrite EC, EB by assumption. cbn [length].
    destruct (Nat.leb_spec (j + 1) c), (Nat.ltb_spec c (j + 1 + length ys)), (Nat.leb_spec j c), (Nat.ltb_spec c (j + S (length ys)));
      cbn [andb]; try lia; destruct (Nat.eqb_spec c j); try lia; auto.
    + replace (c - j) with (S (c - (j + 1))) by lia. reflexivity.
    + subst c. rewrite Nat.sub_diag. reflexivity.
Qed.

Lemma testbit_xor_filter (f : nat -> bool) (g : nat -> N) n i :
  N.testbit (fold_right N.lxor 0%N (map g (filter f (seq 0 n)))) i = xsum n (fun j => f j && N.testbit (g j) i).
Proof.
  assert (A : forall l a, fold_right N.lxor a l = N.lxor (fold_right N.lxor 0%N l) a).
  { induction l as [|b l IH]; intros a; cbn [fold_right]; [symmetry; apply N.lxor_0_l|]. rewrite IH. apply eq_sym, N.lxor_assoc. }
  induction n as [|n IH]; [apply N.bits_0|].
  rewrite seq_S, filter_app, map_app, fold_right_app, A, N.lxor_spec, IH. cbn [xsum Nat.add filter].
  destruct (f n); cbn [map fold_right andb]; [|now rewrite N.bits_0].
  now rewrite N.lxor_0_r.
Qed.

Lemma tl_nth {A} (l : list A) i d : nth i (tl l) d = nth (S i) l d.
Proof. destruct l; [now destruct i|reflexivity]. Qed.

Theorem lincat_make_Ok w n : w <= 64 -> 1 < n -> n <= 2 ^ (w - 1) -> 0 < w ->
  exists r, lincat_make w n = Ok r /\ lc_num r = n /\ lc_rows r = Nat.log2_up n /\ lc_cols r = 2 ^ Nat.log2_up n - 1 /\
  decodes (lincat_rep r) (fun p => (xor_indices p mod N.of_nat n)%N).
Proof.
  intros W H1 Hn W0. assert (Hw : n < 2 ^ w).
  { replace w with (S (w - 1)) by lia. rewrite Nat.pow_succ_r'. lia. }
  destruct (category_bits w n H1 Hw) as (A & B & C). cbv zeta in A, B, C. set (s := if _ =? 1 then _ else _) in *.
  assert (Sw : s < w).
  { rewrite A. pose proof (Nat.log2_up_le_mono n (2 ^ (w - 1)) Hn) as M. rewrite Nat.log2_up_pow2 in M by lia. lia. }
  unfold lincat_make. ok_assert.
  assert (M : msb w n < w). { rewrite msb_log2 by lia. apply Nat.log2_lt_pow2; lia. }
  ok_assert.
  assert (E1 : (if bit_count w n =? 1 then Ok (msb w n, n) else _ <- assertb (msb w n + 1 <? w);; Ok (msb w n + 1, 2 ^ (msb w n + 1))) = Ok (s, 2 ^ s)).
  { destruct (Nat.eqb_spec (bit_count w n) 1) as [Q|Q].
    - unfold s. apply bit_count_pow2 in Q; [|lia]. rewrite msb_log2 by lia. now rewrite <- Q.
    - unfold s in *. ok_assert. reflexivity. }
  rewrite E1. cbn [bind]. clear E1 M. clearbody s. subst s. set (s := Nat.log2_up n) in *.
  assert (S0 : 0 < s) by lia. assert (P2 : 2 <= 2 ^ s). { change 2 with (2 ^ 1) at 1. apply Nat.pow_le_mono_r; lia. }
  ok_assert. rewrite rectangular_Ok by lia. cbn [bind].
  pose proof (hypercube_drain s (hc_make s) (S (2 ^ s)) S0 (repeat_length false s) ltac:(lia)) as D.
  change (hc_init (hc_make s)) with (hc_make s) in D. cbn [drain] in D.
  assert (HN : hc_has_next (hc_make s) = true). { unfold hc_has_next. cbn [hc_make hc_initial hc_current]. rewrite repeat_length. now apply Nat.ltb_lt. }
  rewrite HN in D |- *. cbn [assertb bind] in D |- *.
  destruct (hc_next (hc_make s)) as [[y it]| |] eqn:EN; try discriminate. cbn [bind] in D |- *.
  destruct (drain (fun s0 => Ok (hc_has_next s0)) hc_next (2 ^ s) it) as [[[ys it'] bb]| |] eqn:ED; try discriminate. cbn [bind] in D |- *.
  apply Ok_inj in D. injection D as D1 D2 D3. subst it' bb.
  destruct (all_bvs_spec s) as (L1 & L2 & L3 & L4).
  assert (Zy : bv_is_zero y = true).
  { unfold hc_next in EN. rewrite HN in EN. cbn [assertb bind hc_make hc_initial hc_current] in EN.
    apply Ok_inj in EN. injection EN as EN1 EN2. subst y. apply bv_is_zero_iff. intros c. unfold bv_clear.
    revert c. clear. induction (repeat false s) as [|a l IH]; intros [|c]; cbn; auto. }
  rewrite Zy. cbn [assertb bind].
  assert (Lys : length ys = 2 ^ s - 1). { rewrite <- D1 in L1. cbn in L1. lia. }
  assert (Fys : Forall (fun y => length y = s) ys).
  { apply Forall_forall. intros z Hz. apply L3. rewrite <- D1. cbn. auto. }
  assert (HA : is_matrix s (2 ^ s - 1) (repeat (repeat false (2 ^ s - 1)) s)).
  { unfold is_matrix. destruct (wf_rectangular s (2 ^ s - 1)). repeat split; auto; lia. }
  destruct (fill_columns_Ok s (2 ^ s - 1) ys _ 0 HA ltac:(lia) Fys) as (Bm & EB & HB & EEB). rewrite EB. cbn [bind].
  eexists. split; [reflexivity|]. cbn [lc_num lc_rows lc_cols]. split; [reflexivity|]. split; [reflexivity|]. split; [reflexivity|].
  split; cbn [lincat_rep rep_size rep_unpack lc_cols]; [lia|]. intros x start Hx.
  unfold lincat_unpack. cbn [lc_cols lc_rows lc_num lc_A]. do 2 ok_assert.
  fold (slice x start (2 ^ s - 1)). set (p := slice x start (2 ^ s - 1)).
  assert (Lp : length p = 2 ^ s - 1) by (apply slice_length; assumption).
  rewrite (bm_multiply_Ok s (2 ^ s - 1)) by (auto; apply repeat_length). cbn [bind]. ok_assert.
  assert (Lm : length (mat_vec Bm p) = s). { unfold mat_vec. rewrite map_length. apply HB. }
  rewrite bv_to_size_type_Ok by lia. cbn [bind]. do 2 f_equal.
  apply N.bits_inj. intros i. rewrite <- (N2Nat.id i). set (k := N.to_nat i). clearbody k. clear i.
  rewrite value_lsb_testbit. unfold xor_indices, ones. rewrite testbit_xor_filter.
  destruct (Nat.lt_ge_cases k s) as [Hk|Hk].
  - unfold mat_vec. rewrite (nth_indep _ false ((fun row => gf2_sum (length p) (fun j => nth j row false && nth j p false)) []))
      by (rewrite map_length; unfold is_matrix in HB; lia).
    rewrite map_nth with (f := fun row => gf2_sum (length p) (fun j => nth j row false && nth j p false)).
    rewrite gf2_sum_xsum. apply xsum_ext. intros j Hj. fold (entry Bm k j). rewrite EEB by lia.
    rewrite Nat.sub_0_r. destruct (Nat.ltb_spec j (0 + length ys)); [|lia]. cbn [Nat.leb andb].
    rewrite andb_comm. f_equal.
    replace (nth j ys []) with (nth (j + 1) (all_bvs s) []).
    + rewrite <- value_lsb_testbit, L4 by lia. reflexivity.
    + rewrite <- D1. now rewrite Nat.add_1_r.
  - rewrite nth_overflow by lia. symmetry. transitivity (xsum (length p) (fun _ => false)).
    + apply xsum_ext. intros j Hj.
      replace (N.testbit (N.of_nat (j + 1)) (N.of_nat k)) with false; [apply andb_false_r|]. symmetry.
      destruct (N.eq_dec (N.of_nat (j + 1)) 0) as [Z0|Z0]; [lia|].
      apply N.bits_above_log2. apply N.log2_lt_pow2; [lia|]. rewrite <- pow2_of_nat.
      assert (2 ^ s <= 2 ^ k) by (apply Nat.pow_le_mono_r; lia). lia.
    + clear. induction (length p) as [|m IH]; cbn; [reflexivity|now rewrite IH].
Qed.

Lemma ones_unitv n j : j < n -> ones (unitv n j) = [j].
Proof.
  intros H. unfold ones, unitv. rewrite map_length, seq_length.
  rewrite (filter_ext_in _ (fun i => i =? j)).
  - assert (Z0 : forall a m, j < a -> filter (fun i => i =? j) (seq a m) = []).
    { intros a m. revert a; induction m as [|m IH]; intros a Ha; [reflexivity|]. cbn. destruct (Nat.eqb_spec a j); [lia|]. apply IH. lia. }
    enough (G : forall m a, a <= j < a + m -> filter (fun i => i =? j) (seq a m) = [j]) by (apply G; lia).
    induction m as [|m IH]; intros a Ha; [lia|]. cbn. destruct (Nat.eqb_spec a j) as [->|]; [f_equal; apply Z0; lia|apply IH; lia].
  - intros i Hi. apply in_seq in Hi. apply (nth_map_seq (fun k => k =? j)). lia.
Qed.

Lemma ones_zero n : ones (repeat false n) = [].
Proof.
  unfold ones. rewrite repeat_length. induction (seq 0 n) as [|a l IH]; [reflexivity|]. cbn [filter].
  replace (nth a (repeat false n) false) with false; [assumption|]. symmetry.
  destruct (Nat.lt_ge_cases a n); [now apply nth_repeat_lt|]. apply nth_overflow. now rewrite repeat_length.
Qed.

Theorem lincat_onto n c : 1 < n -> (c < N.of_nat n)%N ->
  exists p, length p = 2 ^ Nat.log2_up n - 1 /\ (xor_indices p mod N.of_nat n)%N = c.
Proof.
  intros H1 Hc. pose proof (Nat.log2_up_spec n H1) as S. set (s := Nat.log2_up n) in *.
  destruct (N.eq_dec c 0) as [->|Hz].
  - exists (repeat false (2 ^ s - 1)). split; [apply repeat_length|]. unfold xor_indices. rewrite ones_zero. cbn [map fold_right]. apply N.mod_0_l. lia.
  - exists (unitv (2 ^ s - 1) (N.to_nat c - 1)). split; [unfold unitv; now rewrite map_length, seq_length|].
    unfold xor_indices. rewrite ones_unitv by lia. cbn [map fold_right]. rewrite N.lxor_0_r.
    replace (N.of_nat (N.to_nat c - 1 + 1)) with c by lia. now apply N.mod_small.
Qed.

(** * Permutations *)

Lemma perm_values_Ok num element x start : 0 < element <= 31 -> start + num * element <= length x ->
  perm_values num element x start =
    Ok (map (fun i => Z.of_N (value_lsb (slice x (start + i * element) element))) (seq 0 num)).
Proof.
  intros He. revert start; induction num as [|num IH]; intros start H; [reflexivity|].
  cbn [perm_values]. rewrite range_Ok by (cbn in H; lia). cbn [bind]. rewrite IH by (cbn in H; lia). cbn [bind].
  f_equal. cbn [seq map]. rewrite Nat.mul_0_l, Nat.add_0_r. f_equal.
  - unfold to_int. pose proof (value_lsb_lt (slice x start element)) as V. rewrite slice_length in V by (cbn in H; lia).
    assert (V' : (value_lsb (slice x start element) < 2 ^ 31)%N).
    { eapply N.lt_le_trans; [exact V|]. apply N.pow_le_mono_r; lia. }
    assert (2 ^ 31 < 2 ^ 32)%N by reflexivity.
    rewrite N.mod_small by (eapply N.lt_trans; eassumption). apply N.ltb_lt in V'. now rewrite V'.
  - rewrite <- seq_shift, map_map. apply map_ext. intros i. do 3 f_equal. cbn [Nat.mul]. lia.
Qed.

Lemma key_order (v : nat -> Z) : strict_weak_order (fun i j : nat => (v i <? v j)%Z).
Proof.
  split; [|split]; intros.
  - apply Z.ltb_irrefl.
  - rewrite Z.ltb_lt in *. lia.
  - rewrite Z.ltb_ge in *. lia.
Qed.

Lemma StronglySorted_impl {A} (R R' : A -> A -> Prop) l : (forall a b, In a l -> In b l -> R a b -> R' a b) ->
  StronglySorted R l -> StronglySorted R' l.
Proof.
  induction l as [|a l IH]; intros H S; constructor.
  - apply IH; [|now inversion S]. intros b c Hb Hc. apply H; cbn; auto.
  - inversion S as [|? ? _ F]; subst. rewrite Forall_forall in *. intros b Hb. apply H; cbn; auto.
Qed.

Lemma permrep_values r x start : 0 < pr_element r <= 31 -> start + pr_size r <= length x ->
  perm_values (pr_num r) (pr_element r) x start =
    Ok (map (fun i => Z.of_N (element_value r (slice x start (pr_size r)) i)) (seq 0 (pr_num r))).
Proof.
  intros He H. rewrite perm_values_Ok by assumption. f_equal. apply map_ext_in. intros i Hi. apply in_seq in Hi.
  unfold element_value. do 2 f_equal. unfold slice.
  assert (B : i * pr_element r + pr_element r <= pr_size r).
  { unfold pr_size. replace (i * pr_element r + pr_element r) with (S i * pr_element r) by (cbn; lia). apply Nat.mul_le_mono_r. lia. }
  set (a := i * pr_element r) in *. set (e := pr_element r) in *. set (sz := pr_size r) in *.
  rewrite skipn_firstn_comm, firstn_firstn, skipn_add, Nat.min_l by lia. reflexivity.
Qed.

Theorem permrep_unpack_Ok sh srt r perm x start : shuffles sh -> sorts srt ->
  0 < pr_element r <= 31 -> length perm = pr_num r -> start + pr_size r <= length x ->
  exists p, permrep_unpack sh srt r perm x start = Ok p /\
    Permutation p (seq 0 (pr_num r)) /\
    StronglySorted (fun i j => (element_value r (slice x start (pr_size r)) i <= element_value r (slice x start (pr_size r)) j)%N) p.
Proof.
  intros Hsh Hsrt He Hp H. unfold permrep_unpack. rewrite Hp, Nat.eqb_refl. cbn [assertb bind].
  rewrite permrep_values by assumption. cbn [bind]. set (values := map _ _). set (n := pr_num r) in *.
  destruct (Hsrt (fun i j => (nth i values 0 <? nth j values 0)%Z) (sh (seq 0 n)) (key_order (fun i => nth i values 0%Z))) as [P S].
  set (p := srt _ _) in *.
  assert (PP : Permutation p (seq 0 n)). { rewrite <- P. symmetry. apply Hsh. }
  assert (Lp : length p = n) by (rewrite (Permutation_length PP); apply seq_length).
  destruct (perm_is_valid_exact p) as (b & E & Hb). rewrite E. cbn [bind].
  assert (b = true) as ->. { apply Hb. now rewrite Lp. }
  cbn [assertb bind]. exists p. split; [reflexivity|]. split; [assumption|].
  eapply StronglySorted_impl; [|exact S]. intros a c Ha Hc. cbv beta.
  apply (Permutation_in _ PP) in Ha, Hc. apply in_seq in Ha, Hc. unfold values.
  rewrite !(nth_map_seq (fun i => Z.of_N (element_value r (slice x start (pr_size r)) i))) by lia. rewrite Z.ltb_ge. lia.
Qed.

Theorem permrep_decodes sh srt r : shuffles sh -> sorts srt -> 0 < pr_num r -> 0 < pr_element r <= 31 ->
  exists dec, decodes (permrep_rep sh srt r) dec /\
  forall p, length p = pr_size r -> Permutation (dec p) (seq 0 (pr_num r)) /\
    StronglySorted (fun i j => (element_value r p i <= element_value r p j)%N) (dec p).
Proof.
  intros Hsh Hsrt Hn He.
  exists (fun p => srt (fun i j => (nth i (map (fun k => Z.of_N (element_value r p k)) (seq 0 (pr_num r))) 0 <?
                     nth j (map (fun k => Z.of_N (element_value r p k)) (seq 0 (pr_num r))) 0)%Z) (sh (seq 0 (pr_num r)))).
  assert (K : forall x start, start + pr_size r <= length x ->
    permrep_unpack sh srt r (repeat 0 (pr_num r)) x start = Ok ((fun p => srt (fun i j => (nth i (map (fun k => Z.of_N (element_value r p k)) (seq 0 (pr_num r))) 0 <?
                     nth j (map (fun k => Z.of_N (element_value r p k)) (seq 0 (pr_num r))) 0)%Z) (sh (seq 0 (pr_num r)))) (slice x start (pr_size r)))).
  { intros x start H. destruct (permrep_unpack_Ok sh srt r (repeat 0 (pr_num r)) x start Hsh Hsrt He (repeat_length _ _) H) as (p & E & _).
    rewrite E. f_equal. unfold permrep_unpack in E. rewrite repeat_length, Nat.eqb_refl, permrep_values in E by assumption. cbn [assertb bind] in E.
    destruct (perm_is_valid _) as [[]| |]; try discriminate. cbn [assertb bind] in E. apply Ok_inj in E. symmetry. exact E. }
  split.
  - split; cbn [permrep_rep rep_size rep_unpack]; [unfold pr_size; apply Nat.mul_pos_pos; lia|]. exact K.
  - intros p Lp. destruct (permrep_unpack_Ok sh srt r (repeat 0 (pr_num r)) p 0 Hsh Hsrt He (repeat_length _ _) ltac:(lia)) as (q & E & P & S).
    rewrite K in E by lia. apply Ok_inj in E.
    assert (SL : slice p 0 (pr_size r) = p). { unfold slice. cbn [skipn]. apply firstn_all2. lia. }
    rewrite SL in E, S. cbv beta in E. rewrite E. auto.
Qed.

(** Position of an element in a list. *)
Fixpoint pos (q : list nat) (i : nat) : nat :=
  match q with
  | [] => 0
  | a :: t => if i =? a then 0 else S (pos t i)
  end.

Lemma pos_nth q k : NoDup q -> k < length q -> pos q (nth k q 0) = k.
Proof.
  revert k; induction q as [|a q IH]; intros k N H; [cbn in H; lia|]. inversion N as [|? ? Na N']; subst.
  destruct k as [|k]; cbn [nth pos]; [now rewrite Nat.eqb_refl|]. cbn in H.
  destruct (Nat.eqb_spec (nth k q 0) a) as [E|E]; [|f_equal; apply IH; [assumption|lia]].
  exfalso. apply Na. rewrite <- E. apply nth_In. lia.
Qed.

Lemma sorted_le_unique l l' : StronglySorted le l -> StronglySorted le l' -> Permutation l l' -> l = l'.
Proof.
  revert l'; induction l as [|a l IH]; intros l' S S' P.
  - apply Permutation_nil in P. now subst.
  - destruct l' as [|b l']; [apply Permutation_sym, Permutation_nil in P; discriminate|].
    inversion S as [|? ? S1 F1]; inversion S' as [|? ? S2 F2]; subst. rewrite Forall_forall in F1, F2.
    assert (a = b) as ->.
    { assert (Ha : In a (b :: l')) by (rewrite <- P; left; reflexivity).
      assert (Hb : In b (a :: l)) by (rewrite P; left; reflexivity).
      destruct Ha as [->|Ha]; [reflexivity|]. destruct Hb as [->|Hb]; [reflexivity|].
      apply F2 in Ha. apply F1 in Hb. lia. }
    f_equal. apply IH; auto. now apply Permutation_cons_inv in P.
Qed.

Lemma StronglySorted_map {A B} (R : B -> B -> Prop) (f : A -> B) l : StronglySorted (fun a b => R (f a) (f b)) l -> StronglySorted R (map f l).
Proof.
  induction 1 as [|a l S IH F]; cbn; constructor; auto. rewrite Forall_forall in *. intros b Hb. apply in_map_iff in Hb as (c & <- & Hc). auto.
Qed.

Lemma seq_sorted_le s n : StronglySorted le (seq s n).
Proof.
  revert s; induction n as [|n IH]; intros s; cbn; constructor; auto. apply Forall_forall. intros x Hx. apply in_seq in Hx. lia.
Qed.

Lemma slice_concat_const (f : nat -> bv) e n i : (forall k, length (f k) = e) -> i < n ->
  slice (concat (map f (seq 0 n))) (i * e) e = f i.
Proof.
  intros Hf. enough (G : forall s n i, i < n -> slice (concat (map f (seq s n))) (i * e) e = f (s + i)) by (intros; now rewrite G).
  clear n i. intros s n. revert s; induction n as [|n IH]; intros s i Hi; [lia|]. cbn [seq map concat]. unfold slice in *.
  destruct i as [|i].
  - cbn [Nat.mul skipn]. rewrite firstn_app, Hf, Nat.sub_diag, firstn_O, app_nil_r, Nat.add_0_r. apply firstn_all2. rewrite Hf. lia.
  - cbn [Nat.mul]. rewrite skipn_app, Hf. rewrite skipn_all2 by (rewrite Hf; lia). cbn [app].
    replace (e + i * e - e) with (i * e) by lia. rewrite IH by lia. f_equal. lia.
Qed.

Lemma length_concat_const (f : nat -> bv) e n s : (forall k, length (f k) = e) -> length (concat (map f (seq s n))) = n * e.
Proof.
  intros Hf. revert s; induction n as [|n IH]; intros s; [reflexivity|]. cbn [seq map concat]. rewrite app_length, IH, Hf. cbn. lia.
Qed.

(** Every permutation is decoded from some bits, whatever the shuffle and the sort. *)
Theorem permrep_onto r q : 0 < pr_element r <= 31 -> pr_num r <= 2 ^ pr_element r -> Permutation q (seq 0 (pr_num r)) ->
  exists x, length x = pr_size r /\
  forall sh srt perm, shuffles sh -> sorts srt -> length perm = pr_num r -> permrep_unpack sh srt r perm x 0 = Ok q.
Proof.
  intros He Hn Hq. set (n := pr_num r) in *. set (e := pr_element r) in *.
  assert (Lq : length q = n) by (rewrite (Permutation_length Hq); apply seq_length).
  assert (Nq : NoDup q). { apply (Permutation_NoDup (l := seq 0 n)); [now symmetry|apply seq_NoDup]. }
  assert (Hpos : forall i, i < n -> pos q i < n).
  { intros i Hi. assert (Hin : In i q). { apply (Permutation_in i (Permutation_sym Hq)). apply in_seq. lia. }
    destruct (In_nth q i 0 Hin) as (k & Hk & <-). rewrite pos_nth; [lia|assumption|assumption]. }
  set (f := fun i => bits_of e (pos q i)). assert (Lf : forall k, length (f k) = e) by (intros k; apply length_bits_of).
  exists (concat (map f (seq 0 n))). split; [unfold pr_size; fold n e; now apply length_concat_const|].
  intros sh srt perm Hsh Hsrt Lperm.
  assert (Lx : 0 + pr_size r <= length (concat (map f (seq 0 n)))) by (unfold pr_size; fold n e; rewrite (length_concat_const f e) by assumption; lia).
  destruct (permrep_unpack_Ok sh srt r perm _ 0 Hsh Hsrt He Lperm Lx) as (p & E & P & S).
  rewrite E. f_equal. fold n in P.
  assert (Lp : length p = n) by (rewrite (Permutation_length P); apply seq_length).
  assert (EV : forall i, i < n -> element_value r (slice (concat (map f (seq 0 n))) 0 (pr_size r)) i = N.of_nat (pos q i)).
  { intros i Hi. unfold element_value. fold e. replace (slice (concat (map f (seq 0 n))) 0 (pr_size r)) with (concat (map f (seq 0 n))).
    - rewrite slice_concat_const by assumption. apply value_bits_of. specialize (Hpos i Hi). lia.
    - unfold slice. cbn [skipn]. symmetry. apply firstn_all2. rewrite (length_concat_const f e) by assumption. unfold pr_size. fold n e. lia. }
  assert (SP : StronglySorted le (map (pos q) p)).
  { apply StronglySorted_map. eapply StronglySorted_impl; [|exact S]. intros a b Ha Hb. cbv beta.
    apply (Permutation_in _ P) in Ha, Hb. apply in_seq in Ha, Hb. rewrite !EV by lia. lia. }
  assert (MQ : map (pos q) q = seq 0 n).
  { apply (nth_ext_len 0); [now rewrite map_length, seq_length|]. intros i Hi. rewrite map_length in Hi.
    rewrite (nth_indep _ 0 (pos q 0)) by (now rewrite map_length). rewrite map_nth, pos_nth, seq_nth by (assumption || lia). reflexivity. }
  assert (MP : map (pos q) p = seq 0 n).
  { apply sorted_le_unique; [assumption|apply seq_sorted_le|]. rewrite <- MQ. apply Permutation_map. rewrite P. now symmetry. }
  apply (nth_ext_len 0); [lia|]. intros i Hi.
  assert (Hi' : nth i p 0 < n). { assert (In (nth i p 0) (seq 0 n)) by (apply (Permutation_in _ P), nth_In; assumption). apply in_seq in H. lia. }
  assert (Ei : pos q (nth i p 0) = i).
  { rewrite <- (map_nth (pos q) p 0 i). rewrite (nth_indep _ (pos q 0) 0) by (now rewrite map_length). rewrite MP, seq_nth by lia. reflexivity. }
  assert (Hin : In (nth i p 0) q). { apply (Permutation_in _ (Permutation_sym Hq)). apply in_seq. lia. }
  destruct (In_nth q _ 0 Hin) as (k & Hk & Ek). rewrite <- Ek in Ei. rewrite pos_nth in Ei by assumption. subst k. now symmetry.
Qed.

(** * Value sets *)

Theorem valueset_Ok w lg values sorted : w <= 64 -> Permutation values sorted -> 1 < length values ->
  let n := Z.of_nat (length values) in
  (n <= int_max w)%Z -> 0 < lg n < w ->
  exists v, valueset_make w lg sorted = Ok v /\
  exists dec, decodes (valueset_rep v) dec /\
    (forall p, In (dec p) values) /\
    ((n <= 2 ^ Z.of_nat (lg n))%Z -> forall a, In a values -> exists p, length p = rep_size (valueset_rep v) /\ dec p = a).
Proof.
  intros W P Hl n Hm Hlg. pose proof (Permutation_length P) as L. unfold valueset_make, dint_count. rewrite <- L. fold n.
  ok_assert.
  assert (A : dint_args w lg 0 (n - 1)).
  { unfold dint_args. replace (n - 1 - 0 + 1)%Z with n by lia. repeat split; lia. }
  pose proof (dint_full_Ok w lg 0 (n - 1) A) as E. cbv zeta in E. rewrite E. cbn [bind].
  replace (n - 1 - 0 + 1)%Z with n in * by lia. set (d := mk_dint (lg n) (lg n) 0 (n - 1)) in *.
  eexists. split; [reflexivity|].
  assert (OK : dint_ok d). { unfold dint_ok. cbn. lia. }
  destruct (dint_decodes d OK) as [D1 D2]. cbn [dint_rep rep_size rep_unpack] in D1, D2.
  assert (R : forall p, (0 <= dint_decode d p < n)%Z). { intros p. pose proof (dint_decode_range d p OK) as Q. cbn [d di_lower di_upper] in Q. fold d in Q. lia. }
  exists (fun p => nth (Z.to_nat (dint_decode d p)) sorted 0%Z). split; [|split].
  - split; [exact D1|]. intros x start H. cbn [valueset_rep rep_size rep_unpack snd fst] in *. unfold valueset_unpack. cbn [fst snd].
    assert (start < length x) by (cbn [d di_size] in D1, H; lia). ok_assert. rewrite D2 by assumption. cbn [bind].
    specialize (R (slice x start (di_size d))). rewrite <- L. fold n. ok_assert. apply vget_Ok. lia.
  - intros p. apply (Permutation_in _ (Permutation_sym P)). apply nth_In. specialize (R p). lia.
  - intros Hc a Ha. apply (Permutation_in _ P) in Ha. destruct (In_nth sorted a 0%Z Ha) as (k & Hk & <-).
    destruct (dint_decode_onto d (Z.of_nat k) OK eq_refl) as (p & Lp & Ep).
    + cbn [d di_upper di_lower di_exact]. lia.
    + cbn [d di_upper di_lower]. lia.
    + exists p. split; [exact Lp|]. rewrite Ep. f_equal. lia.
Qed.

(** * Adapters *)

Lemma total_size_cons {D} (r : rep D) reps : total_size (r :: reps) = rep_size r + total_size reps.
Proof.
  unfold total_size. cbn [fold_left Nat.add]. generalize (rep_size r) as a. intros a.
  enough (G : forall l b, fold_left (fun result (r : rep D) => result + rep_size r) l (a + b) = a + fold_left (fun result r => result + rep_size r) l b)
    by (rewrite <- (G reps 0); f_equal; lia).
  induction l as [|c l IH]; intros b; [reflexivity|]. cbn [fold_left]. rewrite <- IH. f_equal. lia.
Qed.

Lemma slice_middle (pre p rest : bv) : slice (pre ++ p ++ rest) (length pre) (length p) = p.
Proof.
  unfold slice. rewrite skipn_app, skipn_all2, Nat.sub_diag by lia. cbn [skipn app].
  rewrite firstn_app, firstn_all2, Nat.sub_diag, firstn_O, app_nil_r by lia. reflexivity.
Qed.

Lemma unpack_vars_Ok {D} (reps : list (rep D)) decs ps : Forall2 decodes reps decs -> pieces_of reps ps ->
  forall pre post, unpack_vars reps (pre ++ concat ps ++ post) (length pre) =
    Ok (decode_all decs ps, length pre + length (concat ps)).
Proof.
  intros HD. revert ps; induction HD as [|r dec reps decs [Hd1 Hd2] HD IH]; intros ps HP pre post; inversion HP as [|r0 p reps0 ps' H1 HP']; subst.
  - cbn. now rewrite Nat.add_0_r.
  - cbn [unpack_vars concat]. rewrite <- app_assoc.
    rewrite Hd2 by (rewrite !app_length; lia). cbn [bind].
    replace (slice (pre ++ p ++ concat ps' ++ post) (length pre) (rep_size r)) with p by (rewrite <- H1; symmetry; apply slice_middle).
    replace (pre ++ p ++ concat ps' ++ post) with ((pre ++ p) ++ concat ps' ++ post) by (symmetry; apply app_assoc).
    replace (length pre + rep_size r) with (length (pre ++ p)) by (rewrite app_length; lia).
    rewrite IH by assumption. cbn [bind]. unfold decode_all. cbn [map2]. do 2 f_equal. rewrite !app_length. lia.
Qed.

Lemma pieces_length {D} (reps : list (rep D)) ps : pieces_of reps ps -> length (concat ps) = total_size reps.
Proof.
  induction 1 as [|r p reps ps H HP IH]; [reflexivity|]. rewrite total_size_cons. cbn [concat]. rewrite app_length. lia.
Qed.

Lemma pieces_exist {D} (reps : list (rep D)) : forall x, length x = total_size reps -> exists ps, pieces_of reps ps /\ concat ps = x.
Proof.
  induction reps as [|r reps IH]; intros x H.
  - exists []. split; [constructor|]. destruct x; [reflexivity|discriminate].
  - rewrite total_size_cons in H. destruct (IH (skipn (rep_size r) x)) as (ps & HP & E); [rewrite skipn_length; lia|].
    exists (firstn (rep_size r) x :: ps). split; [constructor; [rewrite firstn_length; lia|assumption]|].
    cbn [concat]. rewrite E. apply firstn_skipn.
Qed.

Lemma pieces_unique {D} (reps : list (rep D)) ps qs : pieces_of reps ps -> pieces_of reps qs -> concat ps = concat qs -> ps = qs.
Proof.
  intros HP. revert qs; induction HP as [|r p reps ps H HP IH]; intros qs HQ E; inversion HQ; subst; [reflexivity|].
  cbn [concat] in E. apply app_inj_len in E as [-> E]; [|lia]. f_equal. now apply IH.
Qed.

Theorem adapter_Ok {D V} (reps : list (rep D)) decs (f : list D -> outcome V) : Forall2 decodes reps decs ->
  (forall ps, pieces_of reps ps -> length (concat ps) = total_size reps /\ adapter_evaluate reps f (concat ps) = f (decode_all decs ps)) /\
  (forall x, length x = total_size reps -> exists ps, pieces_of reps ps /\ concat ps = x /\ forall qs, pieces_of reps qs -> concat qs = x -> qs = ps).
Proof.
  intros HD. split.
  - intros ps HP. pose proof (pieces_length reps ps HP) as L. split; [assumption|].
    unfold adapter_evaluate. rewrite L, Nat.eqb_refl. cbn [assertb bind].
    pose proof (unpack_vars_Ok reps decs ps HD HP [] []) as E. rewrite app_nil_r in E. cbn [app length] in E. rewrite E. reflexivity.
  - intros x Hx. destruct (pieces_exist reps x Hx) as (ps & HP & E). exists ps. split; [assumption|]. split; [assumption|].
    intros qs HQ EQ. apply (pieces_unique reps); auto. congruence.
Qed.

Theorem universal_Ok {I F C K P V} nb (ri : list (rep I)) (rf : list (rep F)) (rc : list (rep C)) (rk : list (rep K)) (rp : list (rep P))
    di df dc dk dp (f : bv -> list I -> list F -> list C -> list K -> list P -> outcome V) :
  Forall2 decodes ri di -> Forall2 decodes rf df -> Forall2 decodes rc dc -> Forall2 decodes rk dk -> Forall2 decodes rp dp ->
  forall b pi pf pc pk pp, length b = nb ->
  pieces_of ri pi -> pieces_of rf pf -> pieces_of rc pc -> pieces_of rk pk -> pieces_of rp pp ->
  universal_evaluate nb ri rf rc rk rp f (b ++ concat pi ++ concat pf ++ concat pc ++ concat pk ++ concat pp) =
    f b (decode_all di pi) (decode_all df pf) (decode_all dc pc) (decode_all dk pk) (decode_all dp pp).
Proof.
  intros Hi Hf Hc Hk Hp b pi pf pc pk pp Hb Pi Pf Pc Pk Pp. unfold universal_evaluate.
  rewrite !app_length, (pieces_length ri pi), (pieces_length rf pf), (pieces_length rc pc), (pieces_length rk pk), (pieces_length rp pp), Hb by assumption.
  rewrite assertb_true by (apply Nat.eqb_eq; lia). cbn [bind].
  assert (E0 : firstn nb (b ++ concat pi ++ concat pf ++ concat pc ++ concat pk ++ concat pp) = b).
  { rewrite firstn_app, firstn_all2, Hb, Nat.sub_diag, firstn_O by lia. apply app_nil_r. }
  rewrite E0. rewrite <- Hb.
  pose proof (unpack_vars_Ok ri di pi Hi Pi b (concat pf ++ concat pc ++ concat pk ++ concat pp)) as E1. rewrite E1. cbn [bind].
  pose proof (unpack_vars_Ok rf df pf Hf Pf (b ++ concat pi) (concat pc ++ concat pk ++ concat pp)) as E2.
  rewrite <- app_assoc, !app_length in E2. rewrite E2. cbn [bind].
  pose proof (unpack_vars_Ok rc dc pc Hc Pc (b ++ concat pi ++ concat pf) (concat pk ++ concat pp)) as E3.
  rewrite <- !app_assoc, !app_length in E3. rewrite <- Nat.add_assoc, E3. cbn [bind].
  pose proof (unpack_vars_Ok rk dk pk Hk Pk (b ++ concat pi ++ concat pf ++ concat pc) (concat pp)) as E4.
  rewrite <- !app_assoc, !app_length in E4. rewrite <- !Nat.add_assoc, E4. cbn [bind].
  pose proof (unpack_vars_Ok rp dp pp Hp Pp (b ++ concat pi ++ concat pf ++ concat pc ++ concat pk) []) as E5.
  rewrite <- !app_assoc, !app_length, app_nil_r in E5. rewrite <- !Nat.add_assoc, E5. reflexivity.
Qed.

(** * Final forms *)

Lemma dint_unpack_exact d lower upper : dint_ok d -> di_lower d = lower -> di_upper d = upper ->
  exists dec, decodes (dint_rep d) dec /\
  forall p, length p = di_size d ->
    (lower <= dec p <= upper)%Z /\
    dec p = Z.min upper (lower + Z.of_N (value_lsb p) * 2 ^ Z.of_nat (di_exact d - di_size d)).
Proof.
  intros OK <- <-. exists (dint_decode d). split; [now apply dint_decodes|]. intros p _. split; [now apply dint_decode_range|reflexivity].
Qed.

Lemma dint_full_onto w lg lower upper : w <= 64 -> dint_args w lg lower upper ->
  (upper - lower + 1 <= 2 ^ Z.of_nat (lg (upper - lower + 1)))%Z ->
  exists d dec, dint_full w lg lower upper = Ok d /\ rep_size (dint_rep d) = lg (upper - lower + 1)%Z /\ decodes (dint_rep d) dec /\
  forall z, (lower <= z <= upper)%Z -> exists p, length p = rep_size (dint_rep d) /\ dec p = z.
Proof.
  intros W A H. pose proof (dint_full_Ok w lg lower upper A) as E. cbv zeta in E. set (e := lg (upper - lower + 1)%Z) in *.
  set (d := mk_dint e e lower upper) in *.
  assert (OK : dint_ok d). { destruct A as (A1 & A2 & A3). fold e in A3. unfold dint_ok. cbn. lia. }
  exists d, (dint_decode d). split; [assumption|]. split; [reflexivity|]. split; [now apply dint_decodes|].
  intros z Hz. apply (dint_decode_onto d z OK eq_refl); [exact H|exact Hz].
Qed.

Lemma dint_full_short w lg lower upper d : w <= 64 -> dint_full w lg lower upper = Ok d ->
  (2 ^ Z.of_nat (lg (upper - lower + 1)) < upper - lower + 1)%Z ->
  exists dec, decodes (dint_rep d) dec /\ forall p, length p = di_size d -> (dec p < upper)%Z.
Proof.
  intros W E H. destruct (dint_constructors w lg (fun _ => 0%Z) lower upper 0 0 d W (or_intror (or_introl E))) as (OK & <- & <- & EE).
  exists (dint_decode d). split; [now apply dint_decodes|]. intros p Hp. apply dint_decode_short; auto. now rewrite EE.
Qed.

Lemma dfloat_exact lower upper size : (lower < upper)%Q -> 0 < size ->
  exists d dec, dfloat_make lower upper size = Ok d /\ rep_size (dfloat_rep d) = size /\ decodes (dfloat_rep d) dec /\
  (forall p, length p = size ->
    (lower <= dec p < upper)%Q /\
    (dec p == lower + (upper - lower) * (inject_Z (Z.of_N (value_msb p)) / qpow2 size))%Q) /\
  (forall p q, length p = size -> length q = size -> ((dec p < dec q)%Q <-> (value_msb p < value_msb q)%N)) /\
  (forall p q, length p = size -> length q = size -> (dec p == dec q)%Q -> p = q).
Proof.
  intros H Hs. set (d := mk_dfloat (dyadic_lengths size (1 # 2)) lower (upper - lower)).
  exists d, (dfloat_decode d). split; [now apply dfloat_make_Ok|]. split; [apply length_dyadic_lengths|].
  destruct (dfloat_decodes lower upper size Hs) as [F1 F2]. fold d in F1, F2. split; [exact F1|].
  assert (L : forall p q, length p = size -> length q = size -> ((dfloat_decode d p < dfloat_decode d q)%Q <-> (value_msb p < value_msb q)%N)).
  { intros p q Hp Hq. apply dfloat_lt; auto. }
  split; [|split; [exact L|]].
  - intros p Hp. split; [now apply dfloat_range|now apply F2].
  - intros p q Hp Hq E. apply (value_msb_inj size); auto.
    destruct (N.lt_trichotomy (value_msb p) (value_msb q)) as [T|[T|T]]; [|assumption|].
    + apply L in T; auto. rewrite E in T. now apply Qlt_irrefl in T.
    + apply L in T; auto. rewrite E in T. now apply Qlt_irrefl in T.
Qed.

Lemma dfloat_precision_exact sz lower upper precision : (lower < upper)%Q -> (0 < precision)%Q ->
  let size := sz ((upper - lower) / precision)%Q in
  0 < size -> ((upper - lower) / precision <= qpow2 size)%Q ->
  dfloat_precision sz lower upper precision = dfloat_make lower upper size /\
  ((upper - lower) / qpow2 size <= precision)%Q.
Proof.
  intros H Hp size Hs Hl. destruct (dfloat_precision_Ok sz lower upper precision H Hp Hs Hl) as [E L].
  split; [|exact L]. rewrite E. symmetry. now apply dfloat_make_Ok.
Qed.

Lemma intcat_exact w n : w <= 64 -> 1 < n -> n < 2 ^ w ->
  exists r dec, intcat_make w n = Ok r /\ rep_size (intcat_rep r) = Nat.log2_up n /\ decodes (intcat_rep r) dec /\
  (forall p, (dec p < N.of_nat n)%N /\ dec p = (value_lsb p mod N.of_nat n)%N) /\
  (forall c, (c < N.of_nat n)%N -> exists p, length p = rep_size (intcat_rep r) /\ dec p = c).
Proof.
  intros W H1 Hw. destruct (intcat_make_Ok w n W H1 Hw) as (r & E & <- & S & D & O). exists r, (intcat_decode r).
  repeat split; auto. - apply D. - apply D. - apply N.mod_lt. lia.
Qed.

Lemma lincat_exact w n : 0 < w <= 64 -> 1 < n -> n <= 2 ^ (w - 1) ->
  exists r dec, lincat_make w n = Ok r /\ rep_size (lincat_rep r) = 2 ^ Nat.log2_up n - 1 /\ decodes (lincat_rep r) dec /\
  (forall p, (dec p < N.of_nat n)%N /\ dec p = (xor_indices p mod N.of_nat n)%N) /\
  (forall c, (c < N.of_nat n)%N -> exists p, length p = rep_size (lincat_rep r) /\ dec p = c).
Proof.
  intros [W0 W] H1 Hn. destruct (lincat_make_Ok w n W H1 Hn W0) as (r & E & N1 & R & C & D).
  exists r, (fun p => (xor_indices p mod N.of_nat n)%N). split; [assumption|]. split; [exact C|]. split; [assumption|]. split.
  - intros p. split; [apply N.mod_lt; lia|reflexivity].
  - intros c Hc. cbn [lincat_rep rep_size]. rewrite C. now apply lincat_onto.
Qed.

Lemma permrep_exact sh srt lg n additional : shuffles sh -> sorts srt -> 0 < n -> 0 < additional ->
  lg (Z.of_nat n) + additional <= 31 ->
  exists r dec, permrep_make lg n additional = Ok r /\ rep_size (permrep_rep sh srt r) = n * (lg (Z.of_nat n) + additional) /\
  decodes (permrep_rep sh srt r) dec /\
  forall p, length p = rep_size (permrep_rep sh srt r) -> Permutation (dec p) (seq 0 n) /\
    StronglySorted (fun i j => (element_value r p i <= element_value r p j)%N) (dec p).
Proof.
  intros Hsh Hsrt Hn Ha He. set (r := mk_permrep n (lg (Z.of_nat n) + additional)).
  destruct (permrep_decodes sh srt r Hsh Hsrt) as (dec & D & P); [exact Hn|cbn; lia|].
  exists r, dec. split; [unfold permrep_make; do 2 ok_assert; reflexivity|]. split; [reflexivity|]. split; [exact D|]. exact P.
Qed.

Lemma singletons w lg a : valueset_make w lg [a] = UB /\ dint_count w lg 1 = UB /\
  lincat_make w 1 = UB /\ forall r x start, intcat_make w 1 = Ok r -> intcat_unpack r x start = UB.
Proof.
  split; [reflexivity|]. split; [reflexivity|].
  assert (M : msb w 1 = 0).
  { induction w as [|w IH]; [reflexivity|]. cbn [msb]. destruct w as [|w]; [reflexivity|].
    replace (Nat.testbit 1 (S w)) with false by (symmetry; apply Nat.bits_above_log2; cbn; lia). exact IH. }
  assert (B : 0 < w -> bit_count w 1 =? 1 = true).
  { intros W. apply Nat.eqb_eq. apply bit_count_pow2; [|reflexivity]. split; [lia|]. apply Nat.pow_gt_1; lia. }
  split.
  - unfold lincat_make. cbn [Nat.ltb Nat.leb assertb bind]. rewrite M. destruct w as [|w]; [reflexivity|]. rewrite B by lia. reflexivity.
  - intros r x start. unfold intcat_make. cbn [Nat.ltb Nat.leb assertb bind]. rewrite M. destruct w as [|w]; [discriminate|]. rewrite B by lia.
    intros E. change (0 <? S w) with true in E. cbn [assertb bind] in E. apply Ok_inj in E. subst r. unfold intcat_unpack. cbn [ic_size].
    destruct (start <? length x); [|reflexivity]. cbn [assertb bind].
    destruct (Nat.leb_spec (start + 1) (start + 0)); [lia|]. reflexivity.
Qed.

(** * A sort *)

Section Insertion.
  Variable lt : nat -> nat -> bool.
  Hypothesis O : strict_weak_order lt.
  Fixpoint ins (a : nat) (l : list nat) : list nat :=
    match l with
    | [] => [a]
    | b :: t => if lt b a then b :: ins a t else a :: l
    end.
  Lemma ins_perm a l : Permutation (a :: l) (ins a l).
  Proof.
    induction l as [|b l IH]; cbn; [reflexivity|]. destruct (lt b a); [|reflexivity]. rewrite perm_swap. now constructor.
  Qed.
  Lemma ins_sorted a l : StronglySorted (fun a b => lt b a = false) l -> StronglySorted (fun a b => lt b a = false) (ins a l).
  Proof.
    destruct O as (O1 & O2 & O3). induction 1 as [|b l S IH F]; cbn; [repeat constructor|].
    destruct (lt b a) eqn:E.
    - constructor; [assumption|]. apply (Permutation_Forall (ins_perm a l)). constructor; [|assumption].
      destruct (lt a b) eqn:E'; [|reflexivity]. pose proof (O2 _ _ _ E E') as Q. now rewrite O1 in Q.
    - constructor; [constructor; assumption|]. constructor; [assumption|]. rewrite Forall_forall in *. intros c Hc.
      eapply O3; [now apply F|assumption].
  Qed.
End Insertion.

Lemma insertion_sorts : sorts (fun lt l => fold_right (ins lt) [] l).
Proof.
  intros lt l O. induction l as [|a l [IH1 IH2]]; cbn; [split; [reflexivity|constructor]|]. split.
  - rewrite <- ins_perm. now constructor.
  - now apply ins_sorted.
Qed.
