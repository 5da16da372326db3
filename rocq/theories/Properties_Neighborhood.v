(** Properties of neighborhoods: C37-C38. *)

From Coq Require Import QArith.
From Verif Require Import Base BitVector_Spec Neighborhood_Model Neighborhood_Spec Neighborhood_Proofs.
Local Open Scope nat_scope.

(** ** C37: protocol.  Between rounds candidate and origin are equal. *)
Theorem C37_settled n s : nh_reachable n s Settled -> nh_candidate s = nh_origin s.
Proof. exact (fun R => proj2 (reachable_inv n s Settled R)). Qed.
Print Assumptions C37_settled.

(** A call to propose which returns has not failed, has left the origin untouched
    and the candidate differs from it exactly at the flipped bits announced. *)
Theorem C37_propose n s d o : nh_reachable n s Settled -> in_bounds (nh_class s) n d -> nh_propose s d = Some o ->
  exists s', o = Ok s' /\ nh_origin s' = nh_origin s /\ diffs n (nh_origin s') (nh_candidate s') = nh_flipped s' /\
    index_set n (nh_flipped s') /\ flip_count (nh_class s) n (length (nh_flipped s')).
Proof. exact (propose_final n s d o). Qed.
Print Assumptions C37_propose.

(** Then keep moves the origin to the candidate and forget restores the candidate;
    none of them fails. *)
Theorem C37_keep_forget n s : nh_reachable n s Proposed ->
  diffs n (nh_origin s) (nh_candidate s) = nh_flipped s /\
  (exists s', nh_keep s = Ok s' /\ nh_origin s' = nh_candidate s /\ nh_candidate s' = nh_candidate s) /\
  (exists s', nh_forget s = Ok s' /\ nh_origin s' = nh_origin s /\ nh_candidate s' = nh_origin s).
Proof. exact (proposed_final n s). Qed.
Print Assumptions C37_keep_forget.

(** Mutation flips exactly the announced bits of its argument; origin and candidate
    are not concerned; map does the same on a copy. *)
Theorem C37_mutate n s p x d o : nh_reachable n s p -> in_bounds (nh_class s) n d -> length x = n -> nh_mutate s x d = Some o ->
  exists s' y, o = Ok (s', y) /\ nh_origin s' = nh_origin s /\ nh_candidate s' = nh_candidate s /\
    diffs n x y = nh_flipped s' /\ length y = n /\ flip_count (nh_class s) n (length (nh_flipped s')).
Proof. exact (mutate_final n s p x d o). Qed.
Print Assumptions C37_mutate.
Theorem C37_map s x y d : length y = length (nh_origin s) -> nh_map s x y d = nh_mutate s x d.
Proof. exact (map_is_mutate s x y d). Qed.
Print Assumptions C37_map.

(** Mutating between a proposal and keep or forget makes their assertions fail,
    unless the same bits are drawn. *)
Theorem C37_misuse n s x d s' y : nh_reachable n s Proposed -> in_bounds (nh_class s) n d -> nh_mutate s x d = Some (Ok (s', y)) ->
  nh_flipped s' <> nh_flipped s -> nh_keep s' = UB /\ nh_forget s' = UB.
Proof. exact (misuse n s x d s' y). Qed.
Print Assumptions C37_misuse.

Definition example_draws : draws := mk_draws (fun _ => 1 # 2)%Q [2; 2; 0] 2 [2] [false; true; false; false].
Example C37_case : exists s1 s2 s3, nh_make (HammingSphere 1) 4 = Ok s1 /\ in_bounds (nh_class s1) 4 example_draws /\
  nh_propose s1 example_draws = Some (Ok s2) /\ nh_candidate s2 = [false; false; true; false] /\ nh_flipped s2 = [2] /\
  nh_keep s2 = Ok s3 /\ nh_origin s3 = [false; false; true; false] /\ nh_reachable 4 s3 Settled.
Proof.
  assert (B : in_bounds (HammingSphere 1) 4 example_draws).
  { split; [intros i; cbn; split; [discriminate|reflexivity]|]. split; [repeat constructor|]. split; [exact I|repeat constructor]. }
  eexists _, _, _. split; [reflexivity|]. split; [exact B|]. split; [reflexivity|]. do 2 (split; [reflexivity|]). split; [reflexivity|]. split; [reflexivity|].
  eapply reach_keep; [eapply reach_propose; [apply (reach_make 4 (HammingSphere 1)); reflexivity|exact B|reflexivity]|reflexivity].
Qed.

(** ** C38: samplers.  Whatever the draws, when sample_bits returns it has not
    failed, and it has drawn distinct positions in range, in increasing order, in
    the right number: 1, r, from 1 to r, or at least 1. *)
Theorem C38_sample n s p d o : nh_reachable n s p -> in_bounds (nh_class s) n d -> sample_bits s d = Some o ->
  exists l, o = Ok l /\ index_set n l /\ flip_count (nh_class s) n (length l).
Proof. exact (fun R => sample_exact n s d o (proj1 (reachable_inv n s p R))). Qed.
Print Assumptions C38_sample.

(** All such sets are drawn. *)
Theorem C38_all_sampled n s p l : nh_reachable n s p -> index_set n l -> flip_count (nh_class s) n (length l) ->
  exists d, in_bounds (nh_class s) n d /\ sample_bits s d = Some (Ok l).
Proof. exact (fun R => sample_reaches n s l (proj1 (reachable_inv n s p R))). Qed.
Print Assumptions C38_all_sampled.

(** Bernoulli trials always return; rejection sampling of k indices returns as soon
    as k distinct indices have been drawn. *)
Theorem C38_trials n k d : (forall i, 0 <= d_uniform d i < 1)%Q -> k <= n ->
  exists l, bernoulli_trials n k d = Ok l /\ index_set n l /\ length l = k.
Proof. exact (bernoulli_trials_exact n k d). Qed.
Print Assumptions C38_trials.
Theorem C38_rejection n k d : Forall (fun i => i < n) (d_index d) ->
  (forall l, rejection_sampling k d = Some l -> index_set n l /\ length l = k) /\
  (k <= length (nodup Nat.eq_dec (d_index d)) -> exists l, rejection_sampling k d = Some l).
Proof. exact (rejection_exact n k d). Qed.
Print Assumptions C38_rejection.

(** A radius larger than the dimension is accepted by set_radius, but the next
    proposal fails. *)
Theorem C38_radius_too_large n s r d : nh_reachable n s Settled -> nh_class s = HammingSphere r ->
  in_bounds (nh_class s) n d -> forall r', n < r' -> nh_propose (nh_set_radius s r') d = Some UB.
Proof. exact (radius_too_large n s r d). Qed.
Print Assumptions C38_radius_too_large.

Example C38_case :
  rejection_sampling 2 example_draws = Some [0; 2] /\ bernoulli_trials 4 2 example_draws = Ok [1; 3] /\
  bernoulli_process 2 example_draws = Some [1] /\
  flip_count (HammingBall 3) 4 2 /\ index_set 4 [0; 2].
Proof.
  do 3 (split; [reflexivity|]). split; [cbn; lia|]. split.
  - apply Sorted.SSorted_cons; [apply Sorted.SSorted_cons; constructor|]. constructor; [lia|constructor].
  - constructor; [lia|]. constructor; [lia|constructor].
Qed.
