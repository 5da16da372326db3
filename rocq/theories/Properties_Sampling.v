(** Properties C112, C113 and C114: the distributions of random samples.  A probability is a
    number of sequences of draws divided by the number of all sequences of draws, see
    Sampling_Spec. *)

From Coq Require Import QArith Sorted Permutation.
From Verif Require Import Base BaseLemmas BitVector_Model BitVector_Spec BitMatrix_Model Transvection_Model Map_Spec Neighborhood_Model Neighborhood_Spec Neighborhood_Proofs
  ProbabilityVector_Model Population_Model EvolutionaryAlgorithm_Model EvolutionaryAlgorithm_Proofs Mimic_Model Collection_Model
  Sampling_Spec Sampling_Proofs SamplingNk_Proofs SamplingProducts_Proofs SamplingTransvection_Proofs SamplingNeighborhood_Proofs.
Local Open Scope nat_scope.

(** * C112: subsets of a given size *)

(** Vectors of a given weight all have the probability 1 / C(n, k). *)
Theorem C112_random_weight N x k r :
  fine N (length x) -> length r = length x -> weight r = k ->
  tally (fun us => returned bits_dec (p <- bv_random_weight x k (drawn us) ;; Ok (fst p)) r) (sequences (grid N) (length x)) * binom (length x) k
  = N ^ length x.
Proof. intros HF Hr Hk. now apply random_weight_count. Qed.
Print Assumptions C112_random_weight.

(** So have the sets of k bits drawn by trials. *)
Theorem C112_trials N n k l ix ch bn co :
  fine N n -> index_set n l -> length l = k ->
  tally (fun us => returned indices_dec (bernoulli_trials n k (mk_draws (drawn us) ix ch bn co)) l) (sequences (grid N) n) * binom n k = N ^ n.
Proof. intros HF Hl Hk. now apply bernoulli_trials_count. Qed.
Print Assumptions C112_trials.

(** By rejection, sets of the same size are obtained by as many sequences of draws, whatever the number
    of draws; the sequences which are too short are rare. *)
Theorem C112_rejection n k L l1 l2 u ch bn co :
  index_set n l1 -> index_set n l2 -> length l1 = k -> length l2 = k ->
  tally (fun dr => returned' indices_dec (rejection_sampling k (mk_draws u dr ch bn co)) l1) (sequences (seq 0 n) L) =
  tally (fun dr => returned' indices_dec (rejection_sampling k (mk_draws u dr ch bn co)) l2) (sequences (seq 0 n) L).
Proof. intros H1 H2 K1 K2. now rewrite (rejection_sampling_count n k L u ch bn co l1), (rejection_sampling_count n k L u ch bn co l2). Qed.
Print Assumptions C112_rejection.

Theorem C112_rejection_ends n k L u ch bn co :
  1 <= k <= n ->
  length (sequences (seq 0 n) L) = n ^ L /\
  tally (fun dr => pending (rejection_sampling k (mk_draws u dr ch bn co))) (sequences (seq 0 n) L) <= binom n (k - 1) * (k - 1) ^ L.
Proof. intros H. split; [now rewrite sequences_length, seq_length|]. now apply rejection_sampling_pending. Qed.
Print Assumptions C112_rejection_ends.

(** A neighborhood flips all the sets of bits of a given size with the same probability, given the size. *)
Theorem C112_neighborhood N n L s p l1 l2 ch bn co :
  fine N n -> nh_reachable n s p -> (forall allow, nh_class s <> StandardBitMutation false allow) ->
  (match nh_class s with HammingBall r => 1 <= ch <= r | _ => True end) ->
  index_set n l1 -> index_set n l2 -> length l1 = length l2 ->
  tally (fun d => bits_are l1 (sample_bits s (mk_draws (drawn (fst d)) (snd d) ch bn co))) (source N n L) =
  tally (fun d => bits_are l2 (sample_bits s (mk_draws (drawn (fst d)) (snd d) ch bn co))) (source N n L).
Proof. intros HF HR. apply reachable_inv in HR as [HR _]. intros. now apply bits_equal. Qed.
Print Assumptions C112_neighborhood.

(** The k neighbors of a site of a random NK landscape are any k other sites with the same probability,
    whatever the draws for the other sites. *)
Theorem C112_nk_neighbors N n k i others l :
  fine N n -> 0 < k <= 29 -> k < n -> i < n -> (forall r j, (0 <= others r j < 1)%Q) ->
  StronglySorted lt l -> (forall j, In j l -> j < n /\ j <> i) -> length l = k ->
  tally (fun us => returned indices_dec (o <- random_structure n k (site_draws i us others) (mk_nk [] []) ;; Ok (nth i (nk_neighbors o) [])) (rev l ++ [i])) (sequences (grid N) n)
    * binom (n - 1) k = N ^ n.
Proof. intros HF Hk Hkn Hi HO HS HI Hl. now apply structure_count. Qed.
Print Assumptions C112_nk_neighbors.

(** Two bits out of four: each of the six vectors has one sixth of the 12^4 sequences. *)
Definition C112_fine : fine 12 4.
Proof.
  split; [lia|]. intros j Hj. assert (j = 1 \/ j = 2 \/ j = 3 \/ j = 4) as [->|[->|[->| ->]]] by lia.
  - now exists 12.
  - now exists 6.
  - now exists 4.
  - now exists 3.
Qed.
Example C112_case :
  tally (fun us => returned bits_dec (p <- bv_random_weight [false; false; false; false] 2 (drawn us) ;; Ok (fst p)) [true; false; false; true]) (sequences (grid 12) 4) = 12 ^ 4 / 6 /\
  tally (fun us => returned indices_dec (bernoulli_trials 4 2 (mk_draws (drawn us) [] 0 [] [])) [1; 3]) (sequences (grid 12) 4) = 12 ^ 4 / 6 /\
  map (fun l => tally (fun dr => returned' indices_dec (rejection_sampling 2 (mk_draws (drawn []) dr 0 [] [])) l) (sequences (seq 0 4) 5)) [[0; 1]; [0; 3]; [2; 3]] = [170; 170; 170] /\
  tally (fun dr => pending (rejection_sampling 2 (mk_draws (drawn []) dr 0 [] []))) (sequences (seq 0 4) 5) = 4 /\ 6 * 170 + 4 = 4 ^ 5 /\ binom 4 1 * 1 ^ 5 = 4.
Proof.
  pose proof (C112_random_weight 12 [false; false; false; false] 2 [true; false; false; true] C112_fine eq_refl eq_refl) as H1.
  pose proof (C112_trials 12 4 2 [1; 3] [] 0 [] [] C112_fine) as H2.
  change (binom (length [false; false; false; false]) 2) with 6 in H1. change (binom 4 2) with 6 in H2.
  change (length [false; false; false; false]) with 4 in H1.
  split; [apply Nat.div_unique_exact; [lia|]; rewrite Nat.mul_comm; symmetry; exact H1|]. split; [|vm_compute; repeat split].
  apply Nat.div_unique_exact; [lia|]. rewrite Nat.mul_comm. symmetry. apply H2; [|reflexivity]. split; repeat constructor.
Qed.
Example C112_nk_case :
  tally (fun us => returned indices_dec (o <- random_structure 4 2 (site_draws 1 us (fun _ _ => 0%Q)) (mk_nk [] []) ;; Ok (nth 1 (nk_neighbors o) [])) [3; 0; 1]) (sequences (grid 12) 4) * 3 = 12 ^ 4.
Proof.
  assert (HI : forall j, In j [0; 3] -> j < 4 /\ j <> 1) by (intros j [<-|[<-|[]]]; lia).
  assert (HO : forall r j : nat, (0 <= (fun _ _ : nat => 0%Q) r j < 1)%Q) by (intros; split; [apply Qle_refl|reflexivity]).
  pose proof (C112_nk_neighbors 12 4 2 1 (fun _ _ => 0%Q) [0; 3] C112_fine ltac:(lia) ltac:(lia) ltac:(lia) HO ltac:(repeat constructor) HI eq_refl) as H.
  change (binom (4 - 1) 2) with 3 in H. change (rev [0; 3] ++ [1]) with [3; 0; 1] in H. exact H.
Qed.
Example C112_neighborhood_case :
  exists s, nh_make (HammingSphere 2) 4 = Ok s /\ nh_reachable 4 s Settled /\
    map (fun l => tally (fun d => bits_are l (sample_bits s (mk_draws (drawn (fst d)) (snd d) 0 [] []))) (list_prod [[0%Q; (1 # 2)%Q; 0%Q; 0%Q]] (sequences (seq 0 4) 2))) [[0; 2]; [0; 1]] = [16; 0].
Proof. eexists. split; [reflexivity|]. split; [now apply reach_make with (kd := HammingSphere 2)|]. vm_compute. reflexivity. Qed.

(** * C113: independent bits *)

(** Uniformly random vectors: all of them have the probability 1 / 2^n. *)
Theorem C113_random x y :
  length y = length x ->
  tally (fun cs => if bits_dec (bv_random x (fun i => nth i cs false)) y then true else false) (sequences (coin 1 1) (length x)) = 1 /\
  length (sequences (coin 1 1) (length x)) = 2 ^ length x.
Proof. intros H. split; [now apply random_count|]. now rewrite sequences_length. Qed.
Print Assumptions C113_random.

(** Vectors sampled from a probability vector: the probability of a vector is the product of those of its bits. *)
Theorem C113_probability_vector N ps x y :
  0 < N -> Forall (fun a => a <= N) ps -> length x = length ps -> length y = length ps ->
  tally (fun us => returned bits_dec (pv_sample (over N ps) x (drawn us)) y) (sequences (grid N) (length ps))
  = product (map (fun i => if nth i y false then nth i ps 0 else N - nth i ps 0) (seq 0 (length ps))).
Proof. intros. now apply pv_sample_count. Qed.
Print Assumptions C113_probability_vector.

(** MIMIC: the probability of a vector is the product of those of its bits given the previous ones along the permutation. *)
Theorem C113_mimic N n pop perm a0 a1 x y :
  0 < N -> 0 < n -> Permutation (seq 0 n) perm -> length a0 = n -> length a1 = n -> length x = n -> length y = n ->
  Forall (fun a => a <= N) a0 -> Forall (fun a => a <= N) a1 ->
  tally (fun us => returned bits_dec (mimic_sample (mk_mimic pop perm (over N a0) (over N a1)) x (drawn us)) y) (sequences (grid N) n)
  = product (map (chain_chance N perm a0 a1 y) (seq 0 n)).
Proof. intros. now apply mimic_count. Qed.
Print Assumptions C113_mimic.

(** Crossovers: each bit comes from one of the parents by its own coin; it is the first parent of a uniform
    crossover, the second of a biased one, which is chosen by the side [true] of the coin. *)
Theorem C113_uniform_crossover n x y z w :
  length x = n -> length y = n -> length z = n -> length w = n ->
  tally (fun cs => returned bits_dec (uniform_crossover (fun i => nth i cs false) x y z) w) (sequences (coin 1 1) n)
  = product (map (fun i => (if Bool.eqb (nth i x false) (nth i w false) then 1 else 0) + (if Bool.eqb (nth i y false) (nth i w false) then 1 else 0)) (seq 0 n)).
Proof.
  intros LX LY LZ LW. apply (crossover_count 1 1 uniform_crossover false n); auto. intros c.
  destruct (uniform_Ok c x y z n LX LY LZ) as (z' & E & L & H). exists z'. split; [exact E|]. split; [exact L|]. intros i Hi. rewrite H by auto. destruct (c i); reflexivity.
Qed.
Print Assumptions C113_uniform_crossover.
Theorem C113_biased_crossover a b n x y z w :
  length x = n -> length y = n -> length z = n -> length w = n ->
  tally (fun cs => returned bits_dec (biased_crossover (fun i => nth i cs false) x y z) w) (sequences (coin a b) n)
  = product (map (fun i => (if Bool.eqb (nth i y false) (nth i w false) then a else 0) + (if Bool.eqb (nth i x false) (nth i w false) then b else 0)) (seq 0 n)).
Proof.
  intros LX LY LZ LW. apply (crossover_count a b biased_crossover true n); auto. intros c.
  destruct (biased_Ok c x y z n LX LY LZ) as (z' & E & L & H). exists z'. split; [exact E|]. split; [exact L|]. intros i Hi. rewrite H by auto. destruct (c i); reflexivity.
Qed.
Print Assumptions C113_biased_crossover.

(** Standard bit mutation, each bit being flipped with the probability a / (a + b): the probability of a
    non-empty set of bits is the one it has if coins are thrown once for each bit, given that something is flipped;
    after P passes, nothing has been flipped with the probability (b / (a + b))^(n P).  To allow no mutation
    changes nothing. *)
Theorem C113_standard_bit_mutation a b n s p allow :
  0 < n -> nh_reachable n s p -> nh_class s = StandardBitMutation false allow ->
  forall P u ix ch bn,
  (exists K, (0 < a + b -> 0 < P -> 0 < K) /\
    forall l, index_set n l -> l <> [] ->
      tally (fun cs => bits_are l (sample_bits s (mk_draws u ix ch bn cs))) (sequences (coin a b) (n * P)) = K * (a ^ length l * b ^ (n - length l))) /\
  tally (fun cs => pending (sample_bits s (mk_draws u ix ch bn cs))) (sequences (coin a b) (n * P)) = (b ^ n) ^ P /\
  tally (fun cs => bits_are [] (sample_bits s (mk_draws u ix ch bn cs))) (sequences (coin a b) (n * P)) = 0.
Proof.
  intros Hn HR HC P u ix ch bn. apply reachable_inv in HR as [(_ & _ & LC & _) _].
  assert (E : forall cs, sample_bits s (mk_draws u ix ch bn cs) = option_map Ok (bernoulli_process n (mk_draws u ix ch bn cs))) by (intros; unfold sample_bits; now rewrite HC, LC).
  split; [|split].
  - exists (retries a b n P). split; [intros; now apply retries_pos|]. intros l HI NE. rewrite <- (bernoulli_process_count a b n P l u ix ch bn Hn HI NE).
    apply tally_ext. intros cs _. now rewrite E, bits_are_map.
  - rewrite <- (bernoulli_process_pending a b n P u ix ch bn Hn). apply tally_ext. intros cs _. rewrite E. destruct (bernoulli_process _ _); reflexivity.
  - apply tally_false. intros cs _. rewrite E, bits_are_map. destruct (bernoulli_process _ _) as [l|] eqn:X; [|reflexivity].
    apply process_loop_spec in X as (_ & _ & X). destruct l; [cbn in X; lia|reflexivity].
Qed.
Print Assumptions C113_standard_bit_mutation.

Example C113_case :
  tally (fun us => returned bits_dec (pv_sample (over 4 [1; 4; 2]) [true; true; true] (drawn us)) [true; true; false]) (sequences (grid 4) 3) = 1 * 4 * 2 /\
  tally (fun us => returned bits_dec (mimic_sample (mk_mimic (mk_pop [] [] []) [2; 0; 1] (over 4 [0; 1; 3]) (over 4 [3; 2; 1])) [false; false; false] (drawn us)) [false; true; true]) (sequences (grid 4) 3)
    = 3 * 2 * 3 /\
  map (fun w => tally (fun cs => returned bits_dec (biased_crossover (fun i => nth i cs false) [true; true; false] [true; false; true] [false; false; false]) w) (sequences (coin 1 2) 3))
    [[true; true; false]; [true; false; true]; [false; true; true]] = [3 * 2 * 2; 3 * 1 * 1; 0] /\
  (exists s, nh_make (StandardBitMutation false true) 3 = Ok s /\
    map (fun l => tally (fun cs => bits_are l (sample_bits s (mk_draws (drawn []) [] 0 [] cs))) (sequences (coin 1 2) 6)) [[0]; [0; 2]; [0; 1; 2]; []] = [35 * 4; 35 * 2; 35 * 1; 0] /\
    tally (fun cs => pending (sample_bits s (mk_draws (drawn []) [] 0 [] cs))) (sequences (coin 1 2) 6) = 8 * 8).
Proof.
  split; [vm_compute; reflexivity|]. split; [vm_compute; reflexivity|]. split; [vm_compute; reflexivity|].
  eexists. split; [reflexivity|]. split; vm_compute; reflexivity.
Qed.

(** * C114: transvections *)

(** All the transvections are drawn with the same probability; one pair out of n is rejected. *)
Theorem C114_uniform n P :
  1 < n ->
  (exists K, (0 < P -> 0 < K) /\ forall tv, tv_ok n tv ->
    tally (fun dr => match tv_random n dr with Ok (Some (tv', _)) => (row_index tv' =? row_index tv) && (column_index tv' =? column_index tv) | _ => false end) (sequences (seq 0 n) (2 * P)) = K) /\
  tally (fun dr => match tv_random n dr with Ok None => true | _ => false end) (sequences (seq 0 n) (2 * P)) = n ^ P.
Proof.
  intros Hn. unfold tv_random. apply Nat.ltb_lt in Hn as Hb. rewrite Hb. cbn [assertb bind]. split.
  - exists (pair_ways n P). split; [apply pair_ways_pos; lia|]. intros tv (T1 & T2 & T3). rewrite <- (tv_random_count n (row_index tv) (column_index tv) T1 T2 T3 P).
    apply tally_ext. intros dr _. destruct (tv_random_loop dr) as [[tv' rest]|]; reflexivity.
  - rewrite <- (tv_random_pending n P). apply tally_ext. intros dr _. destruct (tv_random_loop dr) as [[tv' rest]|]; reflexivity.
Qed.
Print Assumptions C114_uniform.

(** The transvections which do not commute with a given one are not drawn uniformly: the one with the same
    indices exchanged is twice as likely as the other ones. *)
Theorem C114_non_commuting n a L :
  1 < n -> tv_ok n a ->
  (exists K, (0 < L -> 0 < K) /\ forall tv, tv_ok n tv ->
    tally (fun d => match tv_random_non_commuting n a (fst d) (snd d) with
                    | Ok (Some (tv', _)) => (row_index tv' =? row_index tv) && (column_index tv' =? column_index tv) | _ => false end) (list_prod (coin 1 1) (sequences (seq 0 n) L))
    = K * if transvections_commute tv a then 0 else if (row_index tv =? column_index a) && (column_index tv =? row_index a) then 2 else 1) /\
  tally (fun d => match tv_random_non_commuting n a (fst d) (snd d) with Ok None => true | _ => false end) (list_prod (coin 1 1) (sequences (seq 0 n) L)) = 2.
Proof.
  intros Hn HA. split.
  - exists (other_ways n L). split; [apply other_ways_pos; lia|]. intros tv HT.
    rewrite (tally_ext _ (fun p => match tv_random_non_commuting n a (fst p) (snd p) with Ok o => tv_hit (row_index tv) (column_index tv) o | _ => false end)).
    + rewrite non_commuting_count by auto. f_equal. unfold transvections_commute. rewrite (Nat.eqb_sym (row_index a)). destruct (row_index tv =? column_index a), (column_index tv =? row_index a); reflexivity.
    + intros d _. destruct (tv_random_non_commuting _ _ _ _) as [[[tv' rest]|]|e|]; reflexivity.
  - rewrite <- (non_commuting_pending n a L Hn HA). apply tally_ext. intros d _. destruct (tv_random_non_commuting _ _ _ _) as [[[tv' rest]|]|e|]; reflexivity.
Qed.
Print Assumptions C114_non_commuting.

Example C114_case :
  map (fun tv => tally (fun dr => match tv_random 3 dr with Ok (Some (tv', _)) => (row_index tv' =? row_index tv) && (column_index tv' =? column_index tv) | _ => false end) (sequences (seq 0 3) 4))
    [mk_tv 0 1; mk_tv 2 0; mk_tv 1 1] = [12; 12; 0] /\
  map (fun tv => tally (fun d => match tv_random_non_commuting 3 (mk_tv 0 1) (fst d) (snd d) with
                    | Ok (Some (tv', _)) => (row_index tv' =? row_index tv) && (column_index tv' =? column_index tv) | _ => false end) (list_prod (coin 1 1) (sequences (seq 0 3) 3)))
    [mk_tv 1 0; mk_tv 1 2; mk_tv 2 0; mk_tv 0 2] = [26; 13; 13; 0].
Proof. vm_compute. split; reflexivity. Qed.
