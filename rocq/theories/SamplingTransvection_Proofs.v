(** Proofs about the distribution of random transvections. *)

From Verif Require Import Base BaseLemmas BitVector_Model BitMatrix_Model Transvection_Model Map_Spec Transvection_Proofs Sampling_Spec Sampling_Proofs.

Lemma sum_const {A} (l : list A) c : list_sum (map (fun _ => c) l) = length l * c.
Proof. induction l as [|a l IH]; [reflexivity|]. unfold list_sum in *. cbn [map fold_right length]. rewrite IH. lia. Qed.
Lemma sum_point n i X Y : i < n -> list_sum (map (fun a => if a =? i then X else Y) (seq 0 n)) = X + (n - 1) * Y.
Proof.
  intros H. replace n with (i + S (n - i - 1)) by lia. rewrite seq_app, map_app, list_sum_app. cbn [seq map list_sum fold_right Nat.add]. fold (list_sum (map (fun a => if a =? i then X else Y) (seq (S i) (n - i - 1)))).
  rewrite Nat.eqb_refl.
  rewrite (list_sum_ext _ (fun _ => Y) (seq 0 i)), (list_sum_ext _ (fun _ => Y) (seq (S i) _)); rewrite ?sum_const, ?seq_length.
  - replace (i + S (n - i - 1) - 1) with (i + (n - i - 1)) by lia. ring.
  - intros a Ha. apply in_seq in Ha. destruct (Nat.eqb_spec a i); [lia|reflexivity].
  - intros a Ha. apply in_seq in Ha. destruct (Nat.eqb_spec a i); [lia|reflexivity].
Qed.

Definition tv_hit (i j : nat) (o : option (transvection * list nat)) : bool := match o with Some (tv, _) => (row_index tv =? i) && (column_index tv =? j) | None => false end.

Fixpoint pair_ways (n P : nat) : nat := match P with 0 => 0 | S P' => n ^ (2 * P') + n * pair_ways n P' end.

Lemma tv_random_count n i j : i < n -> j < n -> i <> j -> forall P,
  tally (fun dr => tv_hit i j (tv_random_loop dr)) (sequences (seq 0 n) (2 * P)) = pair_ways n P.
Proof.
  intros Hi Hj NE. induction P as [|P IH]; [reflexivity|]. replace (2 * S P) with (S (S (2 * P))) by lia. cbn [pair_ways].
  rewrite tally_sum. rewrite (list_sum_ext _ (fun a => if a =? i then n ^ (2 * P) + pair_ways n P else pair_ways n P)).
  - rewrite sum_point by auto. destruct n as [|n]; [lia|]. rewrite Nat.sub_succ, Nat.sub_0_r. ring.
  - intros a Ha. apply in_seq in Ha. rewrite tally_sum. destruct (Nat.eqb_spec a i) as [->|AI].
    + rewrite (list_sum_ext _ (fun b => if b =? i then pair_ways n P else if b =? j then n ^ (2 * P) else 0)).
      * assert (list_sum (map (fun b => if b =? i then pair_ways n P else if b =? j then n ^ (2 * P) else 0) (seq 0 n)) =
          list_sum (map (fun b => if b =? i then pair_ways n P else 0) (seq 0 n)) + list_sum (map (fun b => if b =? j then n ^ (2 * P) else 0) (seq 0 n))) as ->.
        { generalize (seq 0 n). intros l. induction l as [|b l IHl]; [reflexivity|]. cbn [map list_sum fold_right]. fold (list_sum (map (fun b => if b =? i then pair_ways n P else if b =? j then n ^ (2 * P) else 0) l)). rewrite IHl.
          unfold list_sum. destruct (Nat.eqb_spec b i), (Nat.eqb_spec b j); lia. }
        rewrite !sum_point by auto. lia.
      * intros b _. destruct (Nat.eqb_spec b i) as [->|BI].
        -- rewrite <- IH. apply tally_ext. intros s _. cbn [tv_random_loop]. now rewrite Nat.eqb_refl.
        -- destruct (Nat.eqb_spec b j) as [->|BJ].
           ++ rewrite (tally_ext _ (fun _ => true)); [now rewrite tally_true, sequences_length, seq_length|]. intros s _. cbn [tv_random_loop]. destruct (Nat.eqb_spec i j); [lia|]. cbn. now rewrite !Nat.eqb_refl.
           ++ apply tally_false. intros s _. cbn [tv_random_loop]. destruct (Nat.eqb_spec i b); [lia|]. cbn. rewrite Nat.eqb_refl. now apply Nat.eqb_neq.
    + rewrite (list_sum_ext _ (fun b => if b =? a then pair_ways n P else 0)).
      * rewrite sum_point by lia. lia.
      * intros b _. destruct (Nat.eqb_spec b a) as [->|BA].
        -- rewrite <- IH. apply tally_ext. intros s _. cbn [tv_random_loop]. now rewrite Nat.eqb_refl.
        -- apply tally_false. intros s _. cbn [tv_random_loop]. destruct (Nat.eqb_spec a b); [lia|]. cbn. apply Nat.eqb_neq in AI. now rewrite AI.
Qed.

Lemma tv_random_pending n : forall P, tally (fun dr => pending (tv_random_loop dr)) (sequences (seq 0 n) (2 * P)) = n ^ P.
Proof.
  induction P as [|P IH]; [reflexivity|]. replace (2 * S P) with (S (S (2 * P))) by lia. cbn [Nat.pow]. rewrite tally_sum.
  rewrite (list_sum_ext _ (fun _ => n ^ P)); [now rewrite sum_const, seq_length|].
  intros a Ha. apply in_seq in Ha. rewrite tally_sum. rewrite (list_sum_ext _ (fun b => if b =? a then n ^ P else 0)); [rewrite sum_point by lia; lia|].
  intros b _. destruct (Nat.eqb_spec b a) as [->|BA].
  - rewrite <- IH. apply tally_ext. intros s _. cbn [tv_random_loop]. now rewrite Nat.eqb_refl.
  - apply tally_false. intros s _. cbn [tv_random_loop]. destruct (Nat.eqb_spec a b); [lia|reflexivity].
Qed.

(** * Transvections which do not commute with a given one *)

Fixpoint other_ways (n L : nat) : nat := match L with 0 => 0 | S L' => n ^ L' + other_ways n L' end.
Definition other_hit (i : nat) (o : option (nat * list nat)) : bool := match o with Some (k, _) => k =? i | None => false end.

Lemma draw_other_count n avoid i : avoid < n -> i < n -> i <> avoid -> forall L,
  tally (fun dr => other_hit i (draw_other avoid dr)) (sequences (seq 0 n) L) = other_ways n L.
Proof.
  intros HA Hi NE. induction L as [|L IH]; [reflexivity|]. cbn [other_ways]. rewrite tally_sum.
  rewrite (list_sum_ext _ (fun a => (if a =? avoid then other_ways n L else 0) + (if a =? i then n ^ L else 0))).
  - assert (forall l, list_sum (map (fun a => (if a =? avoid then other_ways n L else 0) + (if a =? i then n ^ L else 0)) l) =
      list_sum (map (fun b => if b =? avoid then other_ways n L else 0) l) + list_sum (map (fun b => if b =? i then n ^ L else 0) l)) as ->.
    { induction l as [|b l IHl]; [reflexivity|]. unfold list_sum in *. cbn [map fold_right]. rewrite IHl. lia. }
    rewrite !sum_point by auto. lia.
  - intros a _. destruct (Nat.eqb_spec a avoid) as [->|AA].
    + destruct (Nat.eqb_spec avoid i); [lia|]. rewrite Nat.add_0_r, <- IH. apply tally_ext. intros s _. cbn [draw_other]. now rewrite Nat.eqb_refl.
    + destruct (Nat.eqb_spec a i) as [->|AI].
      * rewrite (tally_ext _ (fun _ => true)); [now rewrite tally_true, sequences_length, seq_length|]. intros s _. cbn [draw_other]. apply Nat.eqb_neq in AA. rewrite AA. cbn. apply Nat.eqb_refl.
      * apply tally_false. intros s _. cbn [draw_other]. apply Nat.eqb_neq in AA. rewrite AA. cbn. now apply Nat.eqb_neq.
Qed.
Lemma draw_other_pending n avoid : avoid < n -> forall L, tally (fun dr => pending (draw_other avoid dr)) (sequences (seq 0 n) L) = 1.
Proof.
  intros HA. induction L as [|L IH]; [reflexivity|]. rewrite tally_sum. rewrite (list_sum_ext _ (fun a => if a =? avoid then 1 else 0)); [rewrite sum_point by auto; lia|].
  intros a _. destruct (Nat.eqb_spec a avoid) as [->|AA].
  - rewrite <- IH. apply tally_ext. intros s _. cbn [draw_other]. now rewrite Nat.eqb_refl.
  - apply tally_false. intros s _. cbn [draw_other]. apply Nat.eqb_neq in AA. now rewrite AA.
Qed.

Lemma non_commuting_step n a c dr : 1 < n -> tv_ok n a -> Forall (fun k => k < n) dr ->
  tv_random_non_commuting n a c dr =
  Ok (match draw_other (if c then column_index a else row_index a) dr with
      | Some (k, rest) => Some (if c then mk_tv (column_index a) k else mk_tv k (row_index a), rest)
      | None => None end).
Proof.
  intros Hn (A1 & A2 & A3) HF. unfold tv_random_non_commuting. apply Nat.ltb_lt in Hn. rewrite Hn. cbn [assertb bind].
  destruct c; cbv zeta.
  - destruct (draw_other (column_index a) dr) as [[i rest]|] eqn:E; [|reflexivity].
    apply (draw_other_spec n) in E as (E1 & E2 & E3); auto.
    assert (tv_ok n (mk_tv (column_index a) i)) as K by (unfold tv_ok; cbn; auto).
    apply tv_is_valid_n_iff in K as K'. rewrite K'. cbn [assertb bind].
    assert (transvections_commute (mk_tv (column_index a) i) a = false) as C.
    { unfold transvections_commute; cbn. rewrite Nat.eqb_refl. auto. }
    rewrite C. reflexivity.
  - destruct (draw_other (row_index a) dr) as [[i rest]|] eqn:E; [|reflexivity].
    apply (draw_other_spec n) in E as (E1 & E2 & E3); auto.
    assert (tv_ok n (mk_tv i (row_index a))) as K by (unfold tv_ok; cbn; auto).
    apply tv_is_valid_n_iff in K as K'. rewrite K'. cbn [assertb bind].
    assert (transvections_commute (mk_tv i (row_index a)) a = false) as C.
    { unfold transvections_commute; cbn. rewrite Nat.eqb_refl. now destruct (i =? column_index a). }
    rewrite C. reflexivity.
Qed.

Lemma draws_bounded n L dr : In dr (sequences (seq 0 n) L) -> Forall (fun k => k < n) dr.
Proof. intros H. apply in_sequences in H as [_ H]. eapply Forall_impl; [|apply H]. intros k Hk. apply in_seq in Hk. lia. Qed.

Lemma tally_prod {A B} (P : A * B -> bool) (l : list A) (k : list B) : tally P (list_prod l k) = list_sum (map (fun a => tally (fun b => P (a, b)) k) l).
Proof.
  induction l as [|a l IH]; [reflexivity|]. cbn [list_prod]. rewrite tally_app, tally_map, IH. reflexivity.
Qed.

Lemma non_commuting_count n a tv L : 1 < n -> tv_ok n a -> tv_ok n tv ->
  tally (fun p => match tv_random_non_commuting n a (fst p) (snd p) with Ok o => tv_hit (row_index tv) (column_index tv) o | _ => false end) (list_prod (coin 1 1) (sequences (seq 0 n) L))
  = other_ways n L * ((if row_index tv =? column_index a then 1 else 0) + (if column_index tv =? row_index a then 1 else 0)).
Proof.
  intros Hn HA HT. rewrite tally_prod. change (coin 1 1) with [true; false]. cbn [map list_sum fold_right fst snd]. destruct HA as (A1 & A2 & A3), HT as (T1 & T2 & T3).
  rewrite Nat.add_0_r, Nat.mul_add_distr_l. f_equal.
  - rewrite (tally_ext _ (fun dr => if row_index tv =? column_index a then other_hit (column_index tv) (draw_other (column_index a) dr) else false)).
    + destruct (Nat.eqb_spec (row_index tv) (column_index a)) as [E|E]; [rewrite draw_other_count by lia; lia|]. rewrite tally_false by auto. lia.
    + intros dr Hd. rewrite non_commuting_step by (auto; unfold tv_ok; auto; now apply draws_bounded in Hd). destruct (draw_other (column_index a) dr) as [[k rest]|]; [|destruct (_ =? _); reflexivity].
      cbn. rewrite (Nat.eqb_sym (column_index a)). destruct (row_index tv =? column_index a); reflexivity.
  - rewrite (tally_ext _ (fun dr => if column_index tv =? row_index a then other_hit (row_index tv) (draw_other (row_index a) dr) else false)).
    + destruct (Nat.eqb_spec (column_index tv) (row_index a)) as [E|E]; [rewrite draw_other_count by lia; lia|]. rewrite tally_false by auto. lia.
    + intros dr Hd. rewrite non_commuting_step by (auto; unfold tv_ok; auto; now apply draws_bounded in Hd). destruct (draw_other (row_index a) dr) as [[k rest]|]; [|destruct (_ =? _); reflexivity].
      cbn. rewrite (Nat.eqb_sym (row_index a)). destruct (column_index tv =? row_index a); [apply Bool.andb_true_r|apply Bool.andb_false_r].
Qed.
Lemma non_commuting_pending n a L : 1 < n -> tv_ok n a ->
  tally (fun p => match tv_random_non_commuting n a (fst p) (snd p) with Ok o => pending o | _ => false end) (list_prod (coin 1 1) (sequences (seq 0 n) L)) = 2.
Proof.
  intros Hn HA. rewrite tally_prod. change (coin 1 1) with [true; false]. cbn [map list_sum fold_right fst snd]. pose proof HA as (A1 & A2 & A3).
  rewrite <- (draw_other_pending n (column_index a) A2 L) at 1.
  assert (E : forall c, tally (fun dr => match tv_random_non_commuting n a c dr with Ok o => pending o | _ => false end) (sequences (seq 0 n) L) = 1).
  { intros c. rewrite <- (draw_other_pending n (if c then column_index a else row_index a) ltac:(destruct c; auto) L). apply tally_ext. intros dr Hd.
    rewrite non_commuting_step by (auto; now apply draws_bounded in Hd). destruct (draw_other _ dr) as [[k rest]|]; reflexivity. }
  rewrite !E. rewrite (draw_other_pending n _ A2). reflexivity.
Qed.
Lemma other_ways_pos n L : 0 < n -> 0 < L -> 0 < other_ways n L.
Proof. intros H HL. destruct L as [|L]; [lia|]. cbn [other_ways]. pose proof (Nat.pow_nonzero n L ltac:(lia)). lia. Qed.
Lemma pair_ways_pos n P : 0 < n -> 0 < P -> 0 < pair_ways n P.
Proof. intros H HL. destruct P as [|P]; [lia|]. cbn [pair_ways]. pose proof (Nat.pow_nonzero n (2 * P) ltac:(lia)). lia. Qed.
