From Verif Require Import Base BaseLemmas BitVector_Model BitVector_Spec GF2 BitVector_Proofs
  SortedLemmas Iterator_Model.
From Coq Require Import NArith Sorted.

(** * Generic enumeration lemma *)

Lemma drain_exact {St} (has_next : St -> outcome bool) next m (st : nat -> St) (out : nat -> bv) :
  (forall k, k < m -> has_next (st k) = Ok true /\ next (st k) = Ok (out k, st (k + 1))) ->
  has_next (st m) = Ok false ->
  forall fuel, m < fuel ->
  drain has_next next fuel (st 0) = Ok (map out (seq 0 m), st m, true).
Proof.
  intros Hstep Hend.
  assert (forall j k fuel, k + j = m -> j < fuel ->
    drain has_next next fuel (st k) = Ok (map out (seq k j), st m, true)) as G.
  { induction j as [|j IH]; intros k [|fuel] Hk Hf; try lia; cbn [drain].
    - replace k with m by lia. rewrite Hend. auto.
    - destruct (Hstep k ltac:(lia)) as [-> ->]. cbn [bind].
      rewrite (IH (k + 1)) by lia. cbn [bind]. cbn. rewrite Nat.add_1_r. auto. }
  intros fuel Hf. now apply G.
Qed.

(** * Hypercube *)

Definition bits_of (n k : nat) : bv := map (fun i => N.testbit (N.of_nat k) (N.of_nat i)) (seq 0 n).

Lemma length_bits_of n k : length (bits_of n k) = n.
Proof. unfold bits_of. now rewrite map_length, seq_length. Qed.

Lemma pow2_of_nat n : N.of_nat (2 ^ n) = (2 ^ N.of_nat n)%N.
Proof. induction n; auto. rewrite Nat.pow_succ_r', Nat2N.inj_mul, IHn, (Nat2N.inj_succ n), N.pow_succ_r'. auto. Qed.

Lemma value_bits_of n k : k < 2 ^ n -> value_lsb (bits_of n k) = N.of_nat k.
Proof.
  intros H. unfold bits_of. rewrite value_lsb_of_bits. apply N.mod_small. rewrite <- pow2_of_nat. lia.
Qed.

Lemma value_lsb_inj n x y : length x = n -> length y = n -> value_lsb x = value_lsb y -> x = y.
Proof.
  intros Hx Hy H. apply (bv_ext n); auto. intros i _. rewrite <- !value_lsb_testbit, H. auto.
Qed.

Lemma bits_of_value n x : length x = n -> bits_of n (N.to_nat (value_lsb x)) = x.
Proof.
  intros H. apply (value_lsb_inj n); auto using length_bits_of.
  pose proof (value_lsb_lt x). rewrite value_bits_of; [lia|].
  rewrite H, <- pow2_of_nat in *. lia.
Qed.

Lemma length_hc_increment x : length (hc_increment x) = length x.
Proof. induction x as [|[] x IH]; cbn; auto. Qed.

Lemma value_hc_increment x : existsb (fun b => negb b) x = true ->
  value_lsb (hc_increment x) = (value_lsb x + 1)%N.
Proof.
  induction x as [|[] x IH]; cbn [existsb hc_increment value_lsb negb orb]; intros H; try discriminate.
  - rewrite IH by auto. lia.
  - lia.
Qed.

Lemma exists_zero_value n x : length x = n ->
  existsb (fun b => negb b) x = true <-> (value_lsb x + 1 < 2 ^ N.of_nat n)%N.
Proof.
  intros <-. induction x as [|[] x IH]; cbn [existsb value_lsb negb orb length].
  - cbn. split; [discriminate|lia].
  - rewrite IH, Nat2N.inj_succ, N.pow_succ_r'. lia.
  - rewrite Nat2N.inj_succ, N.pow_succ_r'. pose proof (value_lsb_lt x). split; auto. intros _. lia.
Qed.

Lemma bits_of_increment n k : k + 1 < 2 ^ n ->
  existsb (fun b => negb b) (bits_of n k) = true /\ hc_increment (bits_of n k) = bits_of n (k + 1).
Proof.
  intros H. assert (existsb (fun b => negb b) (bits_of n k) = true) as E.
  { apply (exists_zero_value n); auto using length_bits_of.
    rewrite value_bits_of, <- pow2_of_nat; lia. }
  split; auto. apply (value_lsb_inj n); rewrite ?length_hc_increment; auto using length_bits_of.
  rewrite value_hc_increment, !value_bits_of; auto; lia.
Qed.

Lemma bits_of_last n : existsb (fun b => negb b) (bits_of n (2 ^ n - 1)) = false.
Proof.
  pose proof (Nat.pow_nonzero 2 n).
  apply not_true_is_false. rewrite (exists_zero_value n) by auto using length_bits_of.
  rewrite value_bits_of, <- pow2_of_nat; lia.
Qed.

Lemma bits_of_0 n x : length x = n -> bv_clear x = bits_of n 0.
Proof.
  intros <-. unfold bv_clear, bits_of. induction x as [|b x IH]; cbn; auto. f_equal.
  rewrite IH, <- seq_shift, map_map. auto.
Qed.

Definition all_bvs (n : nat) : list bv := map (bits_of n) (seq 0 (2 ^ n)).

Lemma all_bvs_spec n :
  length (all_bvs n) = 2 ^ n /\
  NoDup (all_bvs n) /\
  (forall x, In x (all_bvs n) <-> length x = n) /\
  (forall k, k < 2 ^ n -> value_lsb (nth k (all_bvs n) []) = N.of_nat k).
Proof.
  unfold all_bvs. repeat split.
  - now rewrite map_length, seq_length.
  - apply NoDup_map_inj; [|apply seq_NoDup]. intros a b Ha Hb E.
    apply in_seq in Ha, Hb. apply Nat2N.inj. rewrite <- !(value_bits_of n), E; auto; lia.
  - rewrite in_map_iff. intros (k & <- & _). apply length_bits_of.
  - intros H. rewrite in_map_iff. exists (N.to_nat (value_lsb x)). split; [now apply bits_of_value|].
    apply in_seq. pose proof (value_lsb_lt x). rewrite H, <- pow2_of_nat in *. lia.
  - intros k Hk. rewrite (nth_map_seq (bits_of n)) by auto. now apply value_bits_of.
Qed.

Lemma hypercube_drain n s fuel :
  0 < n -> length (hc_current s) = n -> 2 ^ n < fuel ->
  drain (fun s => Ok (hc_has_next s)) hc_next fuel (hc_init s) = Ok (all_bvs n, mk_hc (bits_of n (2 ^ n - 1)) false, true).
Proof.
  intros Hn Hs Hf. pose proof (Nat.pow_nonzero 2 n ltac:(lia)) as Hp.
  pose (st := fun k => match k with 0 => hc_init s | S k' => mk_hc (bits_of n k') false end).
  rewrite (drain_exact _ _ (2 ^ n) st (bits_of n)); auto.
  - unfold all_bvs. subst st. destruct (2 ^ n); [lia|]. cbn [Nat.sub]. now rewrite Nat.sub_0_r.
  - intros [|k] Hk; subst st; cbn [Nat.add].
    + unfold hc_next, hc_has_next, hc_init; cbn [hc_initial hc_current]. rewrite Hs.
      replace (0 <? n) with true by (symmetry; apply Nat.ltb_lt; auto). split; auto. cbn [assertb bind].
      now rewrite (bits_of_0 n).
    + destruct (bits_of_increment n k) as [E1 E2]; [lia|].
      unfold hc_next, hc_has_next; cbn [hc_initial hc_current]. rewrite E1. split; auto. cbn [assertb bind].
      rewrite E2, Nat.add_1_r. auto.
  - subst st. destruct (2 ^ n) as [|k] eqn:E; [lia|]. unfold hc_has_next; cbn [hc_initial hc_current].
    f_equal. replace k with (2 ^ n - 1) by lia. apply bits_of_last.
Qed.

Theorem hypercube_enumerates n s :
  0 < n -> length (hc_current s) = n ->
  exists s' l,
    (forall fuel, 2 ^ n < fuel -> drain (fun s => Ok (hc_has_next s)) hc_next fuel (hc_init s) = Ok (l, s', true)) /\
    length l = 2 ^ n /\ NoDup l /\ (forall x, In x l <-> length x = n) /\
    (forall k, k < 2 ^ n -> value_lsb (nth k l []) = N.of_nat k).
Proof.
  intros. exists (mk_hc (bits_of n (2 ^ n - 1)) false), (all_bvs n). split; [|apply all_bvs_spec].
  intros. now apply hypercube_drain.
Qed.

Theorem hypercube_empty s : length (hc_current s) = 0 ->
  hc_has_next (hc_init s) = false /\ hc_next (hc_init s) = UB.
Proof. intros H. unfold hc_next, hc_has_next, hc_init; cbn. now rewrite H. Qed.

Lemma extended_hypercube_drain n s fuel :
  length (hc_current s) = n -> 2 ^ n < fuel ->
  drain (fun s => Ok (ehc_has_next s)) ehc_next fuel (hc_init s) = Ok (all_bvs n, mk_hc (bits_of n (2 ^ n - 1)) false, true).
Proof.
  intros Hs Hf. pose proof (Nat.pow_nonzero 2 n ltac:(lia)) as Hp.
  pose (st := fun k => match k with 0 => hc_init s | S k' => mk_hc (bits_of n k') false end).
  rewrite (drain_exact _ _ (2 ^ n) st (bits_of n)); auto.
  - unfold all_bvs. subst st. destruct (2 ^ n); [lia|]. cbn [Nat.sub]. now rewrite Nat.sub_0_r.
  - intros [|k] Hk; subst st; cbn [Nat.add].
    + unfold ehc_next, ehc_has_next, hc_init; cbn [hc_initial hc_current]. rewrite Hs.
      split; auto. cbn [assertb bind]. rewrite <- (bits_of_0 n (hc_current s)) by auto.
      destruct (Nat.ltb_spec 0 n); auto.
      assert (hc_current s = []) as -> by (destruct (hc_current s); auto; cbn in *; lia). auto.
    + destruct (bits_of_increment n k) as [E1 E2]; [lia|].
      unfold ehc_next, ehc_has_next; cbn [hc_initial hc_current]. rewrite E1. split; auto. cbn [assertb bind].
      rewrite E2, Nat.add_1_r. auto.
  - subst st. destruct (2 ^ n) as [|k] eqn:E; [lia|]. unfold ehc_has_next; cbn [hc_initial hc_current].
    f_equal. replace k with (2 ^ n - 1) by lia. apply bits_of_last.
Qed.

Theorem extended_hypercube_enumerates n s :
  length (hc_current s) = n ->
  exists s' l,
    (forall fuel, 2 ^ n < fuel -> drain (fun s => Ok (ehc_has_next s)) ehc_next fuel (hc_init s) = Ok (l, s', true)) /\
    length l = 2 ^ n /\ NoDup l /\ (forall x, In x l <-> length x = n) /\
    (forall k, k < 2 ^ n -> value_lsb (nth k l []) = N.of_nat k).
Proof.
  intros. exists (mk_hc (bits_of n (2 ^ n - 1)) false), (all_bvs n). split; [|apply all_bvs_spec].
  intros. now apply extended_hypercube_drain.
Qed.

(** * Flips at increasing positions *)

Lemma increasing_valid c n : increasing c -> (forall i, In i c -> i < n) -> sbv_is_valid c n = true.
Proof.
  intros H1 H2. unfold sbv_is_valid. apply andb_true_iff. split.
  - clear H2. induction H1 as [|a l H IH HF]; auto. cbn. destruct l as [|b l]; auto.
    rewrite IH, andb_true_r. inversion HF; subst. apply Nat.leb_le. lia.
  - apply forallb_forall. intros i Hi. apply Nat.ltb_lt. auto.
Qed.

Lemma diffs_flips n x c : length x = n -> increasing c -> (forall i, In i c -> i < n) ->
  diffs n x (flips x c) = c.
Proof.
  intros Hx Hc Hr. apply increasing_ext; auto.
  - apply increasing_filter, increasing_seq.
  - intros j. unfold diffs. rewrite filter_In, in_seq.
    rewrite nth_flips by (apply Forall_forall; intros; rewrite Hx; auto).
    pose proof (increasing_NoDup _ Hc) as ND. unfold times.
    rewrite (NoDup_count_occ' Nat.eq_dec) in ND.
    destruct (in_dec Nat.eq_dec j c) as [Hj|Hj].
    + rewrite ND by auto. split; auto. intros _. split; [specialize (Hr j Hj); lia|].
      now destruct (nth j x false).
    + rewrite (proj1 (count_occ_not_In Nat.eq_dec c j)) by auto. rewrite xorb_false_r, xorb_nilpotent.
      split; [intros [_ ?]; discriminate|tauto].
Qed.

Lemma flips_diffs n x y : length x = n -> length y = n -> flips x (diffs n x y) = y.
Proof.
  intros Hx Hy.
  assert (Forall (fun i => i < length x) (diffs n x y)) as HF.
  { apply Forall_forall. intros i Hi. unfold diffs in Hi. apply filter_In in Hi as [Hi _]. apply in_seq in Hi. lia. }
  apply (bv_ext n); rewrite ?length_flips; auto. intros j Hj. rewrite nth_flips by auto.
  unfold times.
  assert (NoDup (diffs n x y)) as ND by (apply NoDup_filter, seq_NoDup).
  rewrite (NoDup_count_occ' Nat.eq_dec) in ND.
  destruct (in_dec Nat.eq_dec j (diffs n x y)) as [Hi|Hi].
  - rewrite ND by auto. unfold diffs in Hi. apply filter_In in Hi as [_ Hi].
    now destruct (nth j x false), (nth j y false).
  - rewrite (proj1 (count_occ_not_In Nat.eq_dec _ j)) by auto. unfold diffs in Hi. rewrite filter_In, in_seq in Hi.
    destruct (nth j x false), (nth j y false); auto; exfalso; apply Hi; split; auto; lia.
Qed.

(** * Single bit flip *)

Lemma flip1_involutive x i : flip1 (flip1 x i) i = x.
Proof.
  destruct (Nat.lt_ge_cases i (length x)) as [H|H].
  - apply (bv_ext (length x)); rewrite ?length_flip1; auto. intros j Hj.
    rewrite !nth_flip1 by (rewrite ?length_flip1; auto). now destruct (nth j x false), (j =? i).
  - unfold flip1. rewrite !upd_out; auto. now rewrite upd_out.
Qed.

Lemma flip1_diffs n x i : length x = n -> i < n -> diffs n x (flip1 x i) = [i].
Proof.
  intros Hx Hi. apply increasing_ext.
  - apply increasing_filter, increasing_seq.
  - constructor; constructor.
  - intros j. unfold diffs. rewrite filter_In, in_seq, nth_flip1 by lia.
    cbn. split.
    + intros [Hj H]. left. destruct (Nat.eqb_spec j i); auto. rewrite xorb_false_r, xorb_nilpotent in H. discriminate.
    + intros [->|[]]. split; [lia|]. rewrite Nat.eqb_refl. now destruct (nth j x false).
Qed.

Theorem single_bit_flip_enumerates n x s s0 :
  sb_set_origin s x = Ok s0 -> length x = n ->
  exists s' l,
    (forall fuel, n < fuel -> drain (fun s => Ok (sb_has_next s)) sb_next fuel (sb_init s0) = Ok (l, s', true)) /\
    length l = n /\
    (forall k, k < n -> length (nth k l []) = n /\ diffs n x (nth k l []) = [k]) /\
    (forall y, In y l <-> length y = n /\ length (diffs n x y) = 1) /\ NoDup l.
Proof.
  intros Hs0 Hx. unfold sb_set_origin in Hs0. apply bind_Ok in Hs0 as (? & _ & E0). injection E0 as <-.
  exists (match n with 0 => sb_init (mk_sb x (sb_initial s) (sb_index s)) | S k => mk_sb (flip1 x k) false k end),
    (map (flip1 x) (seq 0 n)).
  pose (st := fun k => match k with 0 => sb_init (mk_sb x (sb_initial s) (sb_index s)) | S k' => mk_sb (flip1 x k') false k' end).
  assert (forall k, k < n -> length (nth k (map (flip1 x) (seq 0 n)) []) = n
            /\ diffs n x (nth k (map (flip1 x) (seq 0 n)) []) = [k]) as HD.
  { intros k Hk. rewrite (nth_map_seq (flip1 x)) by auto. split; [now rewrite length_flip1|now apply flip1_diffs]. }
  split; [|split; [|split; [|split]]].
  - intros fuel Hf. rewrite (drain_exact _ _ n st (flip1 x)); auto.
    + intros [|k] Hk; subst st; cbn [Nat.add].
      * unfold sb_next, sb_has_next, sb_init; cbn [sb_initial sb_current]. rewrite Hx.
        replace (0 <? n) with true by (symmetry; apply Nat.ltb_lt; auto). split; auto. cbn [assertb bind].
        rewrite bv_flip_Ok by lia. auto.
      * unfold sb_next, sb_has_next; cbn [sb_initial sb_current sb_index]. rewrite length_flip1, Hx.
        replace (k + 1 <? n) with true by (symmetry; apply Nat.ltb_lt; lia). split; auto. cbn [assertb bind].
        rewrite bv_flip_Ok by (rewrite length_flip1; lia). cbn [bind]. rewrite flip1_involutive.
        rewrite bv_flip_Ok by lia. cbn [bind]. now rewrite Nat.add_1_r.
    + subst st. unfold sb_has_next. destruct n as [|n]; cbn [sb_initial sb_current sb_index sb_init].
      * now rewrite Hx.
      * rewrite length_flip1, Hx. f_equal. apply Nat.ltb_ge. lia.
  - now rewrite map_length, seq_length.
  - exact HD.
  - intros y. rewrite in_map_iff. split.
    + intros (k & <- & Hk). apply in_seq in Hk. rewrite length_flip1, flip1_diffs; auto; lia.
    + intros [Hy H]. destruct (diffs n x y) as [|k [|? ?]] eqn:E; try discriminate.
      assert (In k (diffs n x y)) as Hk by (rewrite E; now left).
      unfold diffs in Hk. apply filter_In in Hk as [Hk _]. apply in_seq in Hk.
      exists k. split; [|apply in_seq; lia].
      rewrite <- (flips_diffs n x y), E; auto.
  - apply NoDup_map_inj; [|apply seq_NoDup]. intros a b Ha Hb E. apply in_seq in Ha, Hb.
    assert ([a] = [b]) as F; [|now injection F].
    rewrite <- (flip1_diffs n x a), <- (flip1_diffs n x b), E; auto; lia.
Qed.

(** * Combinations *)

Fixpoint combs (m lo r : nat) : list (list nat) :=
  match r with
  | 0 => [[]]
  | S r' =>
      match m with
      | 0 => []
      | S m' => map (cons lo) (combs m' (S lo) r') ++ combs m' (S lo) r
      end
  end.

Lemma combs_0 m lo : combs m lo 0 = [[]].
Proof. destruct m; auto. Qed.

Lemma In_combs m lo r c :
  In c (combs m lo r) <-> increasing c /\ length c = r /\ (forall i, In i c -> lo <= i < lo + m).
Proof.
  revert lo r c; induction m as [|m IH]; intros lo [|r] c; cbn [combs].
  - split; [intros [<-|[]]; repeat split; auto; [constructor|contradiction|contradiction]|].
    intros (_ & H & _). destruct c; [now left|discriminate].
  - split; [contradiction|]. intros (_ & H & H'). destruct c as [|a c]; [discriminate|].
    specialize (H' a (or_introl eq_refl)). lia.
  - split; [intros [<-|[]]; repeat split; auto; [constructor|contradiction|contradiction]|].
    intros (_ & H & _). destruct c; [now left|discriminate].
  - rewrite in_app_iff, in_map_iff. split.
    + intros [(t & <- & Ht)|H].
      * apply IH in Ht as (H1 & H2 & H3). split; [|split].
        -- constructor; auto. apply Forall_forall. intros i Hi. specialize (H3 i Hi). lia.
        -- cbn. auto.
        -- intros i [<-|Hi]; [lia|]. specialize (H3 i Hi). lia.
      * apply IH in H as (H1 & H2 & H3). split; [|split]; auto. intros i Hi. specialize (H3 i Hi). lia.
    + intros (H1 & H2 & H3). destruct c as [|a c]; [discriminate|].
      inversion H1 as [|? ? Hc HF]; subst. rewrite Forall_forall in HF.
      pose proof (H3 a (or_introl eq_refl)) as Ha.
      destruct (Nat.eq_dec a lo) as [->|Hne].
      * left. exists c. split; auto. apply IH. split; [|split]; auto.
        intros i Hi. specialize (HF i Hi). specialize (H3 i (or_intror Hi)). lia.
      * right. apply IH. split; [|split]; auto.
        intros i Hi. pose proof (H3 i Hi). destruct Hi as [<-|Hi]; [lia|]. specialize (HF i Hi). lia.
Qed.

Lemma combs_NoDup m lo r : NoDup (combs m lo r).
Proof.
  revert lo r; induction m as [|m IH]; intros lo [|r]; cbn [combs]; try (repeat constructor; cbn; tauto).
  apply NoDup_app_intro; auto.
  - apply NoDup_map_inj; auto. intros x y _ _ E. now injection E.
  - intros c H1 H2. apply in_map_iff in H1 as (t & <- & _). apply In_combs in H2 as (_ & _ & H).
    specialize (H lo (or_introl eq_refl)). lia.
Qed.

Lemma combs_empty m lo r : m < r -> combs m lo r = [].
Proof.
  revert lo r; induction m as [|m IH]; intros lo [|r] H; cbn [combs]; try lia; auto.
  rewrite !IH by lia. auto.
Qed.

Lemma combs_first m lo r : r <= m -> exists L, combs m lo r = seq lo r :: L.
Proof.
  revert lo r; induction m as [|m IH]; intros lo [|r] H; cbn [combs seq]; try lia; eauto.
  destruct (IH (S lo) r) as (L & E); [lia|]. rewrite E. cbn. eauto.
Qed.

Lemma combs_last m lo r : r <= m -> exists L, combs m lo r = L ++ [seq (lo + m - r) r].
Proof.
  revert lo r; induction m as [|m IH]; intros lo [|r] H; cbn [combs seq]; try lia.
  - now exists [].
  - now exists [].
  - destruct (Nat.eq_dec r m) as [->|Hne].
    + rewrite (combs_empty m (S lo) (S m)) by lia. destruct (IH (S lo) m) as (L & E); [lia|].
      rewrite E, map_app, app_nil_r. replace (S lo + m - m) with (S lo) by lia.
      replace (lo + S m - S m) with lo by lia. cbn [map]. eauto.
    + destruct (IH (S lo) (S r)) as (L & E); [lia|]. rewrite E.
      rewrite app_assoc. replace (lo + S m - S r) with (S lo + m - S r) by lia. eauto.
Qed.

Fixpoint csucc (n : nat) (c : list nat) : option (list nat) :=
  match c with
  | [] => None
  | a :: t =>
      match csucc n t with
      | Some t' => Some (a :: t')
      | None => if a + 1 <? hd n t then Some (seq (a + 1) (S (length t))) else None
      end
  end.

Fixpoint chain (n : nat) (L : list (list nat)) (z : option (list nat)) : Prop :=
  match L with
  | [] => True
  | c :: L' => match L' with
               | [] => csucc n c = z
               | c' :: _ => csucc n c = Some c'
               end /\ chain n L' z
  end.

Lemma chain_app n L1 c L2 z : chain n L1 (Some c) -> chain n (c :: L2) z -> chain n (L1 ++ c :: L2) z.
Proof.
  induction L1 as [|a L1 IH]; cbn [app]; auto. intros [H1 H2] H. split; [|now apply IH].
  destruct L1; cbn [app]; auto.
Qed.

Lemma chain_map n a L t z :
  chain n (L ++ [t]) None -> csucc n (a :: t) = z -> chain n (map (cons a) (L ++ [t])) z.
Proof.
  induction L as [|c L IH]; cbn [app map].
  - intros _ H. split; auto. exact I.
  - intros [H1 H2] H. split; [|now apply IH].
    destruct L; cbn [app map csucc] in *; now rewrite H1.
Qed.

Lemma combs_chain m lo r : chain (lo + m) (combs m lo r) None.
Proof.
  revert lo r; induction m as [|m IH]; intros lo [|r]; cbn [combs]; try (split; cbn; auto).
  destruct (Nat.lt_ge_cases m r) as [Hr|Hr].
  { rewrite !combs_empty by lia. exact I. }
  assert (forall L t, combs m (S lo) r = L ++ [t] -> csucc (lo + S m) t = None) as Hlast.
  { intros L t E. specialize (IH (S lo) r). rewrite E in IH. clear -IH. replace (lo + S m) with (S lo + m) by lia.
    induction L as [|c L IH']; cbn [app chain] in IH; [tauto|]. apply IH'. apply IH. }
  destruct (combs_last m (S lo) r) as (L & E); [lia|]. specialize (Hlast _ _ E).
  set (t := seq (S lo + m - r) r) in *.
  assert (length t = r) as Lt by (unfold t; apply seq_length).
  assert (hd (lo + S m) t = S lo + m - r) as Ht by (unfold t; destruct r; cbn; lia).
  pose proof (IH (S lo) r) as IHA. rewrite E in *. replace (S lo + m) with (lo + S m) in IHA by lia.
  destruct (Nat.eq_dec r m) as [->|Hne].
  - rewrite (combs_empty m (S lo) (S m)), app_nil_r by lia. apply chain_map; auto.
    cbn [csucc]. rewrite Hlast, Ht. destruct (Nat.ltb_spec (lo + 1) (S lo + m - m)); auto. lia.
  - destruct (combs_first m (S lo) (S r)) as (L2 & E2); [lia|].
    pose proof (IH (S lo) (S r)) as IHB. rewrite E2 in *. replace (S lo + m) with (lo + S m) in IHB by lia.
    apply chain_app; auto. apply chain_map; auto.
    cbn [csucc]. rewrite Hlast, Ht, Lt. destruct (Nat.ltb_spec (lo + 1) (S lo + m - r)); [|lia].
    now rewrite Nat.add_1_r.
Qed.

Lemma chain_nth n L k : chain n L None -> k < length L ->
  csucc n (nth k L []) = if k + 1 <? length L then Some (nth (k + 1) L []) else None.
Proof.
  revert k; induction L as [|c L IH]; intros k H Hk; cbn [length] in Hk; [lia|]. destruct H as [H1 H2].
  destruct k as [|k].
  - cbn [nth]. destruct L as [|c' L]; cbn; auto.
  - cbn [nth Nat.add length]. rewrite IH by (auto; lia).
    destruct (Nat.ltb_spec (k + 1) (length L)), (Nat.ltb_spec (S (k + 1)) (S (length L))); auto; lia.
Qed.

(** The right-to-left scan of the code finds the same successor. *)

Fixpoint lastp (P : nat -> bool) (r : nat) : option nat :=
  match r with 0 => None | S r' => if P r' then Some r' else lastp P r' end.

Lemma lastp_cons P r :
  lastp P (S r) = match lastp (fun i => P (S i)) r with
                  | Some j => Some (S j)
                  | None => if P 0 then Some 0 else None
                  end.
Proof.
  induction r as [|r IH]; auto. cbn [lastp] in *. destruct (P (S r)) eqn:E; auto.
Qed.

Lemma lastp_ext P Q r : (forall i, i < r -> P i = Q i) -> lastp P r = lastp Q r.
Proof. induction r; intros H; auto. cbn. rewrite H, IHr; auto. Qed.

Lemma lastp_lt P r j : lastp P r = Some j -> j < r.
Proof.
  induction r; cbn; [discriminate|]. destruct (P r); intros E; [injection E as <-; lia|].
  apply IHr in E. lia.
Qed.

Definition can_inc (n : nat) (idx : list nat) (i : nat) : bool :=
  nth i idx 0 + 1 <? nth (i + 1) idx n.

Lemma csucc_lastp n idx :
  csucc n idx = match lastp (can_inc n idx) (length idx) with
                | Some j => Some (firstn j idx ++ (nth j idx 0 + 1) :: seq (nth j idx 0 + 2) (length idx - (j + 1)))
                | None => None
                end.
Proof.
  induction idx as [|a t IH]; auto. cbn [csucc length]. rewrite lastp_cons, IH.
  change (fun i => can_inc n (a :: t) (S i)) with (can_inc n t).
  destruct (lastp (can_inc n t) (length t)) as [j|] eqn:E.
  - cbn. auto.
  - unfold can_inc. cbn [nth Nat.add]. replace (nth 0 t n) with (hd n t) by now destruct t.
    destruct (a + 1 <? hd n t); auto. cbn [firstn app nth seq]. repeat f_equal; lia.
Qed.

Lemma hs_scan_lastp n idx i : i < length idx ->
  hs_scan idx i = Ok (lastp (can_inc n idx) i).
Proof.
  induction i as [|i IH]; intros H; auto. cbn [hs_scan lastp].
  rewrite (vget_Ok idx i 0), (vget_Ok idx (i + 1) n) by lia. cbn [bind].
  unfold can_inc at 1. replace (nth i idx 0 <? nth (i + 1) idx n - 1) with (nth i idx 0 + 1 <? nth (i + 1) idx n).
  - destruct (nth i idx 0 + 1 <? nth (i + 1) idx n); auto. apply IH. lia.
  - destruct (Nat.ltb_spec (nth i idx 0 + 1) (nth (i + 1) idx n)), (Nat.ltb_spec (nth i idx 0) (nth (i + 1) idx n - 1)); auto; lia.
Qed.

Lemma hs_find_lastp n idx : 0 < length idx ->
  hs_find n (length idx) idx = Ok (lastp (can_inc n idx) (length idx)).
Proof.
  intros H. unfold hs_find. rewrite (vget_Ok idx (length idx - 1) 0) by lia. cbn [bind].
  destruct (length idx) as [|r] eqn:E; [lia|]. cbn [Nat.sub lastp]. rewrite Nat.sub_0_r.
  unfold can_inc at 1. rewrite (nth_overflow idx n) by lia.
  destruct (Nat.ltb_spec (nth r idx 0) (n - 1)), (Nat.ltb_spec (nth r idx 0 + 1) n); auto; try lia.
  apply hs_scan_lastp. lia.
Qed.

Lemma hs_find_csucc n idx : 0 < length idx ->
  exists o, hs_find n (length idx) idx = Ok o /\
    match o with
    | Some i => exists c, hs_advance idx i = Ok c /\ csucc n idx = Some c
    | None => csucc n idx = None
    end.
Proof.
  intros H. rewrite hs_find_lastp, csucc_lastp by auto. eexists. split; [reflexivity|].
  destruct (lastp (can_inc n idx) (length idx)) as [j|] eqn:E; auto.
  apply lastp_lt in E. unfold hs_advance. rewrite (vget_Ok idx j 0) by auto. cbn [bind]. eauto.
Qed.

(** * Hamming sphere *)

Lemma hs_reachable_inv n r s : hs_reachable n r s ->
  r <= n /\ hs_radius s = r /\ length (hs_indexes s) = r /\ length (hs_current s) = n.
Proof.
  induction 1 as [s H|s x s' H IH E|s H IH|s x s' H IH E].
  - unfold hs_make in H. destruct (Nat.leb_spec r n) as [Hrn|]; [|discriminate]. cbn in H. injection H as <-.
    cbn [hs_radius hs_indexes hs_current]. rewrite !repeat_length. auto.
  - unfold hs_set_origin in E. destruct (Nat.eqb_spec (length x) (length (hs_current s))); [|discriminate].
    cbn in E. injection E as <-. cbn [hs_radius hs_indexes hs_current]. intuition congruence.
  - exact IH.
  - destruct IH as (I1 & I2 & I3 & I4). unfold hs_next in E.
    apply bind_Ok in E as (h & _ & E). apply bind_Ok in E as (? & _ & E). apply bind_Ok in E as ([cur idx] & E1 & E).
    apply bind_Ok in E as (cur' & E2 & E). injection E as <- <-. cbn [hs_radius hs_indexes hs_current].
    assert (forall x l y, bv_flip_sbv x l = Ok y -> length y = length x) as Hlen.
    { intros a l y Hy. destruct (sbv_is_valid l (length a)) eqn:EV.
      - rewrite bv_flip_sbv_Ok in Hy by auto. injection Hy as <-. apply length_flips.
      - unfold bv_flip_sbv in Hy. rewrite EV in Hy. discriminate. }
    apply Hlen in E2. destruct (hs_initial s).
    + injection E1 as <- <-. rewrite seq_length. repeat split; auto. congruence.
    + apply bind_Ok in E1 as (c & E1 & E3). apply Hlen in E1. apply bind_Ok in E3 as ([i|] & E3 & E4).
      * apply bind_Ok in E4 as (idx' & E4 & E5). injection E5 as <- <-.
        unfold hs_advance in E4. apply bind_Ok in E4 as (a & E4 & E5). injection E5 as <-.
        apply vget_inv in E4 as [Hi _].
        rewrite app_length, firstn_length. cbn [length]. rewrite seq_length. repeat split; auto; lia.
      * injection E4 as <- <-. repeat split; auto; lia.
Qed.

Theorem hamming_sphere_enumerates n r x s1 s2 :
  hs_reachable n r s1 ->
  hs_set_origin s1 x = Ok s2 ->
  0 < r ->
  exists s' l,
    (forall fuel, length l < fuel -> drain hs_has_next hs_next fuel (hs_init s2) = Ok (l, s', true)) /\
    NoDup l /\
    (forall y, In y l <-> length y = n /\ length (diffs n x y) = r).
Proof.
  intros H0 Ho Hr. apply hs_reachable_inv in H0 as (Hrn & Hr1 & Hi1 & Hc1).
  unfold hs_set_origin in Ho. destruct (Nat.eqb_spec (length x) (length (hs_current s1))) as [Hx|]; [|discriminate].
  cbn in Ho. injection Ho as <-. rewrite Hc1 in Hx.
  set (C := combs n 0 r) in *.
  assert (forall k, k < length C -> increasing (nth k C []) /\ length (nth k C []) = r /\ forall i, In i (nth k C []) -> i < n) as HC.
  { intros k Hk. assert (In (nth k C []) C) as H by now apply nth_In. apply In_combs in H as (A & B & D).
    repeat split; auto. intros i Hi. specialize (D i Hi). lia. }
  destruct (combs_first n 0 r Hrn) as (L & EC). fold C in EC.
  assert (0 < length C) as HC0 by (rewrite EC; cbn; lia).
  pose (st := fun k => match k with
    | 0 => hs_init (mk_hs x (hs_initial s1) (hs_radius s1) (hs_indexes s1))
    | S k' => mk_hs (flips x (nth k' C [])) false r (nth k' C []) end).
  exists (st (length C)), (map (flips x) C). split; [|split; [|intros y; split]].
  - intros fuel Hf. rewrite map_length in Hf.
    replace (map (flips x) C) with (map (fun k => flips x (nth k C [])) (seq 0 (length C))).
    2: { rewrite <- (map_map (fun k => nth k C []) (flips x)). f_equal.
         apply (nth_ext_len []); rewrite map_length, seq_length; auto. intros i Hi.
         now rewrite (nth_map_seq (fun k => nth k C [])). }
    change (hs_init (mk_hs x (hs_initial s1) (hs_radius s1) (hs_indexes s1))) with (st 0).
    apply drain_exact; auto.
    + intros [|k] Hk; subst st; cbn [Nat.add].
      * unfold hs_next, hs_has_next, hs_init; cbn [hs_initial hs_current hs_radius hs_indexes].
        rewrite Hx, Hr1, Hi1.
        replace (0 <? n) with true by (symmetry; apply Nat.ltb_lt; lia).
        replace (0 <? r) with true by (symmetry; apply Nat.ltb_lt; lia). split; auto. cbn [assertb bind andb].
        rewrite EC. cbn [nth].
        rewrite bv_flip_sbv_Ok; auto. apply increasing_valid; [apply increasing_seq|].
        intros i Hi. apply in_seq in Hi. lia.
      * destruct (HC k ltac:(lia)) as (I1 & I2 & I3). destruct (HC (k + 1) ltac:(lia)) as (J1 & J2 & J3).
        assert (hs_has_next (mk_hs (flips x (nth k C [])) false r (nth k C [])) = Ok true /\
                exists i, hs_find n r (nth k C []) = Ok (Some i) /\ hs_advance (nth k C []) i = Ok (nth (k + 1) C [])) as [E1 (i & E2 & E3)].
        { unfold hs_has_next; cbn [hs_initial hs_current hs_radius hs_indexes].
          destruct (Nat.leb_spec r 0); [lia|]. rewrite length_flips, Hx.
          destruct (hs_find_csucc n (nth k C [])) as (o & Eo & Ho); [lia|]. rewrite I2 in Eo. rewrite Eo. cbn [bind].
          rewrite (chain_nth n C k) in Ho; [|apply (combs_chain n 0 r)|lia].
          replace (k + 1 <? length C) with true in Ho by (symmetry; apply Nat.ltb_lt; lia).
          destruct o as [i|]; [|discriminate]. destruct Ho as (c & A & B). injection B as <-. eauto. }
        split; [exact E1|].
        unfold hs_next. rewrite E1. cbn [bind assertb hs_initial hs_current hs_radius hs_indexes].
        rewrite bv_flip_sbv_Ok by (rewrite length_flips; apply increasing_valid; auto; rewrite Hx; auto). cbn [bind].
        rewrite flips_involutive by (apply Forall_forall; rewrite Hx; auto).
        rewrite Hx, E2. cbn [bind]. rewrite E3. cbn [bind].
        rewrite bv_flip_sbv_Ok by (apply increasing_valid; auto; rewrite Hx; auto). cbn [bind].
        rewrite Nat.add_1_r in *. auto.
    + subst st. destruct (length C) as [|k] eqn:ELC; [lia|].
      destruct (HC k ltac:(lia)) as (I1 & I2 & I3).
      unfold hs_has_next; cbn [hs_initial hs_current hs_radius hs_indexes].
      destruct (Nat.leb_spec r 0); [lia|]. rewrite length_flips, Hx.
      destruct (hs_find_csucc n (nth k C [])) as (o & Eo & Ho); [lia|]. rewrite I2 in Eo. rewrite Eo. cbn [bind].
      rewrite (chain_nth n C k) in Ho; [|apply (combs_chain n 0 r)|lia].
      replace (k + 1 <? length C) with false in Ho by (symmetry; apply Nat.ltb_ge; lia).
      destruct o as [i|]; auto. destruct Ho as (c & _ & B). discriminate.
  - apply NoDup_map_inj; [|apply combs_NoDup]. intros c1 c2 H1 H2 E.
    apply In_combs in H1 as (A1 & B1 & D1). apply In_combs in H2 as (A2 & B2 & D2).
    rewrite <- (diffs_flips n x c1), <- (diffs_flips n x c2), E; auto.
    + intros i Hi. specialize (D2 i Hi). lia.
    + intros i Hi. specialize (D1 i Hi). lia.
  - intros H. apply in_map_iff in H as (c & <- & Hc). apply In_combs in Hc as (A & B & D).
    rewrite length_flips, diffs_flips; auto. intros i Hi. specialize (D i Hi). lia.
  - intros [Hy Hd]. apply in_map_iff. exists (diffs n x y). split; [now apply flips_diffs|].
    apply In_combs. repeat split; auto.
    + apply increasing_filter, increasing_seq.
    + lia.
    + unfold diffs in H. apply filter_In in H as [H _]. apply in_seq in H. lia.
Qed.

Theorem hamming_sphere_radius_0 s : hs_radius s = 0 -> hs_has_next s = Ok false.
Proof. intros H. unfold hs_has_next. rewrite H. destruct (hs_initial s); auto. now rewrite andb_false_r. Qed.
