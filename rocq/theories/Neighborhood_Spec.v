(** Vocabulary of the statements about neighborhoods. *)

From Coq Require Import QArith Sorted.
From Verif Require Import Base BitVector_Model Neighborhood_Model.
Local Open Scope nat_scope.

(** What the random generator guarantees about the numbers drawn for vectors of
    size [n]: uniform numbers are in [0, 1), indices are less than n, the radius
    chosen by a Hamming ball is in [1, r], a binomial number is at most n. *)
Definition in_bounds (kd : nh_kind) (n : nat) (d : draws) : Prop :=
  (forall i, 0 <= d_uniform d i < 1)%Q /\ Forall (fun i => i < n) (d_index d) /\
  match kd with HammingBall r => 1 <= d_choose d <= r | _ => True end /\
  Forall (fun k => k <= n) (d_binomial d).

(** Number of bits a neighborhood may flip. *)
Definition flip_count (kd : nh_kind) (n k : nat) : Prop :=
  match kd with
  | SingleBitFlip => k = 1
  | StandardBitMutation rejection allow_none => (rejection = true /\ allow_none = true) \/ 0 < k
  | HammingBall r => 1 <= k <= r
  | HammingSphere r => k = r
  end.

(** Distinct positions of a vector of size [n], in increasing order. *)
Definition index_set (n : nat) (l : list nat) : Prop := StronglySorted lt l /\ Forall (fun i => i < n) l.

(** A client which respects the protocol: a proposal is followed by keep or forget
    (or by a new origin), and vectors are not mutated in between. *)
Inductive phase := Settled | Proposed.
Inductive nh_reachable (n : nat) : nh -> phase -> Prop :=
| reach_make kd s : nh_make kd n = Ok s -> nh_reachable n s Settled
| reach_origin s p x : nh_reachable n s p -> length x = n -> nh_reachable n (nh_set_origin s x) Settled
| reach_propose s d s' : nh_reachable n s Settled -> in_bounds (nh_class s) n d ->
    nh_propose s d = Some (Ok s') -> nh_reachable n s' Proposed
| reach_keep s s' : nh_reachable n s Proposed -> nh_keep s = Ok s' -> nh_reachable n s' Settled
| reach_forget s s' : nh_reachable n s Proposed -> nh_forget s = Ok s' -> nh_reachable n s' Settled
| reach_mutate s x d s' y : nh_reachable n s Settled -> in_bounds (nh_class s) n d ->
    nh_mutate s x d = Some (Ok (s', y)) -> nh_reachable n s' Settled
| reach_map s x z d s' y : nh_reachable n s Settled -> in_bounds (nh_class s) n d ->
    nh_map s x z d = Some (Ok (s', y)) -> nh_reachable n s' Settled
| reach_radius s p r : nh_reachable n s p -> r <= n -> nh_reachable n (nh_set_radius s r) p
| reach_rate s p b : nh_reachable n s p -> nh_reachable n (nh_set_mutation_rate s b) p
| reach_allow s p b : nh_reachable n s p -> nh_reachable n (nh_set_allow_no_mutation s b) p.
