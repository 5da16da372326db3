(** Vocabulary for the statements about the information-theoretic evolutionary algorithm. *)

From Coq Require Import QArith.
From Verif Require Import Base BitVector_Model BitVector_Spec Neighborhood_Model Neighborhood_Spec Population_Model Population_Spec Algorithm_Model PopAlgorithm_Spec ProbabilityVector_Spec EvolutionaryAlgorithm_Spec ItEa_Model.
Local Open Scope nat_scope.

(** Numbers of individuals of a pool with a greater value, with the same value *)
Definition above (v : Z) (pool : list (bv * Z)) : nat := length (filter (fun y => v <? snd y)%Z pool).
Definition equals (v : Z) (pool : list (bv * Z)) : nat := length (filter (fun y => snd y =? v)%Z pool).

(** The part of each individual of value [v] in a selection of [k] individuals of the pool: 1
    if all those which are as good fit, 0 if those which are better fill the selection;
    otherwise those with the same value share the remaining places equally. *)
Definition share (k : nat) (pool : list (bv * Z)) (v : Z) : Q :=
  if above v pool + equals v pool <=? k then 1%Q
  else if k <=? above v pool then 0%Q
  else (inject_Z (Z.of_nat (k - above v pool)) / inject_Z (Z.of_nat (equals v pool)))%Q.

Definition total {A} (f : A -> Q) (l : list A) : Q := fold_right (fun y a => f y + a)%Q 0%Q l.
(** Sum over the selection *)
Definition selected_total (k : nat) (pool : list (bv * Z)) (f : list bool -> Q) : Q :=
  total (fun y => share k pool (snd y) * f (fst y))%Q pool.

Definition bit_at (i : nat) (x : list bool) : Q := if nth i x false then 1%Q else 0%Q.
(** Difference to the center at the component [i] *)
Definition moved_at (c : list bool) (i : nat) (x : list bool) : Q := if xorb (nth i c false) (nth i x false) then 1%Q else 0%Q.
(** Number of differences *)
Definition moves (n : nat) (c x : list bool) : Q := inject_Z (Z.of_nat (length (diffs n c x))).

(** [y] is a best individual of the pool. *)
Definition is_best (pool : list (bv * Z)) (y : bv * Z) : Prop := In y pool /\ forall z, In z pool -> (snd z <= snd y)%Z.

(** The center [c'] which replaces [c] after the pool has been evaluated, [rate] being the
    mutation rate, and the vectors [ev] which are evaluated again to that end *)
Inductive replaced (o : objective) (n k : nat) (rate : Q) (pool : list (bv * Z)) (coin : nat -> bool) (flip : bool) (c : bv * Z) :
    replacement -> bv * Z -> list bv -> Prop :=
| replaced_elitist y c' : is_best pool y -> ((snd c <= snd y)%Z -> c' = y) -> ((snd y < snd c)%Z -> c' = c) ->
    replaced o n k rate pool coin flip c Elitist c' []
| replaced_non_elitist y : is_best pool y -> replaced o n k rate pool coin flip c NonElitist y []
(** Maximum likelihood: the most frequent bits if the mutation rate is less than one
    half, the least frequent ones otherwise *)
| replaced_ml x : length x = n ->
    (forall i, i < n -> let l := selected_total k pool (bit_at i) in let q := inject_Z (Z.of_nat k) in
       ((q < 2 * l)%Q -> nth i x false = true <-> (rate < 1 # 2)%Q) /\
       ((2 * l < q)%Q -> nth i x false = true <-> ~ (rate < 1 # 2)%Q) /\
       ((2 * l == q)%Q -> nth i x false = coin i)) ->
    replaced o n k rate pool coin flip c MlUpdate (x, o_value o x) [x]
(** The component most often moved is flipped if it is moved more often than not (the
    least often moved one, if it is moved less often than not, when the rate is not
    less than one half); ties are broken by a coin. *)
| replaced_flip i : i < n -> let l := fun j => selected_total k pool (moved_at (fst c) j) in let q := inject_Z (Z.of_nat k) in
    (forall j, j < n -> if Qlt_le_dec rate (1 # 2) then (l j <= l i)%Q else (l i <= l j)%Q) ->
    (if Qlt_le_dec rate (1 # 2) then (q < 2 * l i)%Q else (2 * l i < q)%Q) \/ ((2 * l i == q)%Q /\ flip = true) ->
    let x := upd (fst c) i (negb (nth i (fst c) false)) in
    replaced o n k rate pool coin flip c IncrementalMlUpdate (x, o_value o x) [x]
| replaced_still i : i < n -> let l := fun j => selected_total k pool (moved_at (fst c) j) in let q := inject_Z (Z.of_nat k) in
    (forall j, j < n -> if Qlt_le_dec rate (1 # 2) then (l j <= l i)%Q else (l i <= l j)%Q) ->
    (if Qlt_le_dec rate (1 # 2) then (2 * l i < q)%Q else (q < 2 * l i)%Q) \/ ((2 * l i == q)%Q /\ flip = false) ->
    replaced o n k rate pool coin flip c IncrementalMlUpdate c []
| replaced_none : replaced o n k rate pool coin flip c NoReplacement c [].

(** The mutation rate moves towards the mean rate of the selection. *)
Definition rate_target (n k : nat) (pool : list (bv * Z)) (c : list bool) : Q :=
  (selected_total k pool (moves n c) / inject_Z (Z.of_nat (k * n)))%Q.

(** Admissible parameters for populations of [size] vectors of size [n] *)
Definition it_admissible (size n : nat) (p : it_params) : Prop :=
  1 <= ip_selection p < size /\ (ip_min p <= ip_max p)%Q /\ ip_replacement p <> OtherReplacement /\
  (ip_replacement p = NoReplacement -> ip_weight p <= n).

(** What an iteration does: [size] mutants of the center are evaluated, the center is
    replaced and the mutation rate updated, with the draws [coin] and [flip]. *)
Definition it_step (o : objective) (n size : nat) (p : it_params) (coin : nat -> bool) (flip : bool) (s s' : alg itea) : Prop :=
  exists L ev,
    let m := a_mem s in let m' := a_mem s' in let pool := map (fun x => (x, o_value o x)) L in
    length L = size /\ Forall (mutant (StandardBitMutation true (ip_allow p)) n (fst (it_center m))) L /\
    a_trace s' = a_trace s ++ L ++ ev /\
    replaced o n (ip_selection p) (it_rate m) pool coin flip (it_center m) (ip_replacement p) (it_center m') ev /\
    clamped (ip_min p) (ip_max p)
      (it_rate m + ip_learning p * (rate_target n (ip_selection p) pool (fst (it_center m)) - it_rate m))%Q (it_rate m').

(** The members have the sizes given to the constructor; this is left by any run. *)
Definition it_sized (size n : nat) (s : alg itea) : Prop :=
  let m := a_mem s in
  well_formed size n (it_pop m) /\ length (it_masks m) = size /\ Forall (fun x => length x = n) (it_masks m) /\
  nh_reachable n (it_nh m) Settled /\ (exists a b, nh_class (it_nh m) = StandardBitMutation a b) /\
  length (fst (it_center m)) = n /\ length (fst (a_sol s)) = n.

(** The states between two iterations of a run *)
Definition it_valid (o : objective) (size n : nat) (p : it_params) (s : alg itea) : Prop :=
  it_sized size n s /\ (exists r, nh_class (it_nh (a_mem s)) = StandardBitMutation r (ip_allow p)) /\
  (snd (it_center (a_mem s)) <= snd (a_sol s))%Z /\ snd (it_center (a_mem s)) = o_value o (fst (it_center (a_mem s))) /\
  top_of o (a_trace s) (a_sol s).
