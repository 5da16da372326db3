(** Proofs about the distribution of the bits flipped by neighborhoods. *)

From Coq Require Import QArith Sorted Permutation.
From Verif Require Import Base BaseLemmas BitVector_Model GF2 SortedLemmas Neighborhood_Model Neighborhood_Spec Neighborhood_Proofs Sampling_Spec Sampling_Proofs SamplingProducts_Proofs SamplingTransvection_Proofs SamplingNk_Proofs.
Local Open Scope nat_scope.


Lemma bits_are_map l o : bits_are l (option_map Ok o) = returned' indices_dec o l.
Proof. destruct o; reflexivity. Qed.

Lemma list_prod_tally {A B} (P : A * B -> bool) (Q : B -> bool) (l : list A) (k : list B) : (forall a b, P (a, b) = Q b) -> tally P (list_prod l k) = length l * tally Q k.
Proof. intros H. rewrite tally_prod. rewrite (list_sum_ext _ (fun _ => tally Q k)); [now rewrite sum_const|]. intros a _. apply tally_ext. auto. Qed.
Lemma list_prod_tally' {A B} (P : A * B -> bool) (Q : A -> bool) (l : list A) (k : list B) : (forall a b, P (a, b) = Q a) -> tally P (list_prod l k) = tally Q l * length k.
Proof.
  intros H. rewrite tally_prod. induction l as [|a l IH]; [reflexivity|]. unfold list_sum in *. cbn [map fold_right]. rewrite IH, tally_cons.
  rewrite (tally_ext (fun b => P (a, b)) (fun _ => Q a)) by auto. destruct (Q a); [rewrite tally_true; lia|rewrite tally_false by auto; lia].
Qed.

Lemma mul_cancel a b c : 0 < c -> a * c = b * c -> a = b.
Proof. intros H E. apply Nat.mul_cancel_r in E; lia. Qed.


Section Sets.
  Variables (N n L : nat) (ch : nat) (bn : list nat) (co : list bool).
  Hypothesis F : fine N n.
  Definition draws_of (p : list Q * list nat) : draws := mk_draws (drawn (fst p)) (snd p) ch bn co.

  Lemma rejection_equal k l1 l2 : index_set n l1 -> index_set n l2 -> length l1 = length l2 ->
    tally (fun p => bits_are l1 (option_map Ok (rejection_sampling k (draws_of p)))) (source N n L) =
    tally (fun p => bits_are l2 (option_map Ok (rejection_sampling k (draws_of p)))) (source N n L).
  Proof.
    intros H1 H2 E. unfold source.
    assert (G : forall l, tally (fun p => bits_are l (option_map Ok (rejection_sampling k (draws_of p)))) (list_prod (sequences (grid N) n) (sequences (seq 0 n) L)) =
      length (sequences (grid N) n) * tally (fun ix => returned' indices_dec (rejection_sampling k (mk_draws (drawn []) ix ch bn co)) l) (sequences (seq 0 n) L)).
    { intros l. apply list_prod_tally. intros us ix. now rewrite bits_are_map. }
    rewrite !G. f_equal. destruct (Nat.eq_dec (length l1) k) as [<-|NE].
    - rewrite (rejection_sampling_count n (length l1) L _ _ _ _ l1), (rejection_sampling_count n (length l1) L _ _ _ _ l2); auto.
    - assert (Z : forall l, length l = length l1 -> tally (fun ix => returned' indices_dec (rejection_sampling k (mk_draws (drawn []) ix ch bn co)) l) (sequences (seq 0 n) L) = 0).
      { intros l Hl. apply tally_false. intros ix Hix. apply draws_bounded in Hix. destruct (rejection_sampling k _) as [l'|] eqn:X; [|reflexivity].
        apply (rejection_spec n) in X as (_ & _ & X); [|exact Hix]. cbn. destruct (indices_dec l' l); [subst; lia|reflexivity]. }
      rewrite !Z by auto. reflexivity.
  Qed.

  Lemma trials_equal k l1 l2 : k <= n -> index_set n l1 -> index_set n l2 -> length l1 = length l2 ->
    tally (fun p => bits_are l1 (Some (bernoulli_trials n k (draws_of p)))) (source N n L) =
    tally (fun p => bits_are l2 (Some (bernoulli_trials n k (draws_of p)))) (source N n L).
  Proof.
    intros Hk H1 H2 E. unfold source.
    assert (G : forall l, tally (fun p => bits_are l (Some (bernoulli_trials n k (draws_of p)))) (list_prod (sequences (grid N) n) (sequences (seq 0 n) L)) =
      tally (fun us => returned indices_dec (bernoulli_trials n k (mk_draws (drawn us) [] ch bn co)) l) (sequences (grid N) n) * length (sequences (seq 0 n) L)).
    { intros l. apply list_prod_tally'. reflexivity. }
    rewrite !G. f_equal. destruct (Nat.eq_dec (length l1) k) as [<-|NE].
    - apply (mul_cancel _ _ (binom n (length l1))); [now apply binom_pos|]. rewrite !(bernoulli_trials_count N n (length l1) n); auto.
    - assert (Z : forall l, length l = length l1 -> tally (fun us => returned indices_dec (bernoulli_trials n k (mk_draws (drawn us) [] ch bn co)) l) (sequences (grid N) n) = 0).
      { intros l Hl. apply tally_false. intros us Hus. unfold bernoulli_trials. cbn [d_uniform]. destruct (trials_spec (drawn us) n 0 k (drawn_range N us n Hus) Hk) as (l' & E1 & E2 & _ & _).
        rewrite E1. cbn. destruct (indices_dec l' l); [subst; lia|reflexivity]. }
      rewrite !Z by auto. reflexivity.
  Qed.

  Theorem bits_equal s l1 l2 : nh_ok n s -> (forall allow, nh_class s <> StandardBitMutation false allow) -> (match nh_class s with HammingBall r => 1 <= ch <= r | _ => True end) ->
    index_set n l1 -> index_set n l2 -> length l1 = length l2 ->
    tally (fun p => bits_are l1 (sample_bits s (draws_of p))) (source N n L) = tally (fun p => bits_are l2 (sample_bits s (draws_of p))) (source N n L).
  Proof.
    intros (N0 & HO & HC & K) NS HB H1 H2 E. unfold sample_bits. rewrite HC. destruct (nh_class s) as [|rej allow|r|r] eqn:EC.
    - unfold source. assert (G : forall l, tally (fun p => bits_are l (match d_index (draws_of p) with [] => None | i :: _ => Some (_ <- assertb (length (nh_flipped s) =? 1) ;; vset (nh_flipped s) 0 i) end))
          (list_prod (sequences (grid N) n) (sequences (seq 0 n) L)) =
        length (sequences (grid N) n) * tally (fun ix => match ix with [] => false | i :: _ => if indices_dec [i] l then true else false end) (sequences (seq 0 n) L)).
      { intros l. apply list_prod_tally. intros us ix. cbn [draws_of d_index snd]. destruct ix as [|i ix]; [reflexivity|]. cbn [bits_are]. rewrite K. cbn [Nat.eqb assertb bind].
        destruct (nh_flipped s) as [|a [|? ?]]; try discriminate. reflexivity. }
      rewrite !G. f_equal. destruct L as [|L'].
      { reflexivity. }
      destruct l1 as [|i1 [|j1 l1]], l2 as [|i2 [|j2 l2]]; try discriminate.
      + reflexivity.
      + assert (Z : forall i, i < n -> tally (fun ix => match ix with [] => false | k :: _ => if indices_dec [k] [i] then true else false end) (sequences (seq 0 n) (S L')) = n ^ L').
        { intros i Hi. rewrite tally_sum. rewrite (list_sum_ext _ (fun a => if a =? i then n ^ L' else 0)); [rewrite sum_point by auto; lia|].
          intros a _. destruct (Nat.eqb_spec a i) as [->|NE].
          - rewrite (tally_ext _ (fun _ => true)); [now rewrite tally_true, sequences_length, seq_length|]. intros ix _. destruct (indices_dec [i] [i]); [reflexivity|contradiction].
          - apply tally_false. intros ix _. destruct (indices_dec [a] [i]); [exfalso; congruence|reflexivity]. }
        destruct H1 as [_ H1], H2 as [_ H2]. inversion H1; inversion H2; subst. rewrite !Z by auto. reflexivity.
      + rewrite !tally_false; [reflexivity| |]; intros ix _; destruct ix as [|i ix]; auto; destruct (indices_dec _ _); try discriminate; reflexivity.
    - destruct rej; [|destruct (NS allow); reflexivity]. cbn [d_binomial draws_of]. destruct (if allow then hd_error bn else binomial_loop bn) as [k|]; [|reflexivity].
      now apply rejection_equal.
    - cbn [d_choose draws_of]. destruct ((0 <? ch) && (ch <=? n)) eqn:EG; [|reflexivity]. apply andb_true_iff in EG as [_ EG]. apply Nat.leb_le in EG.
      destruct (below_sqrt ch n); [now apply rejection_equal|now apply trials_equal].
    - destruct (below_sqrt r n); [now apply rejection_equal|now apply trials_equal].
  Qed.
End Sets.
