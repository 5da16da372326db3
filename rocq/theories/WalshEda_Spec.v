(** Vocabulary for the statements about the herding evolutionary algorithm and the
    Boltzmann machine PBIL. *)

From Coq Require Import QArith Permutation.
From Verif Require Import Base BitVector_Model Map_Spec Algorithm_Model Population_Model Population_Spec ProbabilityVector_Spec ItEa_Spec
  WalshMoment_Model WalshMoment_Spec WalshEda_Model.
Local Open Scope nat_scope.

(** The means of the signs, and of the products of signs, of selected individuals; they
    are zero if there are none. *)
Definition mean1 (l : list (list bool * Z)) (i : nat) : Q := mean (fun y => sign_at i (fst y)) l.
Definition mean2 (l : list (list bool * Z)) (i j : nat) : Q := mean (fun y => sign_at i (fst y) * sign_at j (fst y))%Q l.

(** Vectors with their values *)
Definition valued (o : objective) (l : list (list bool)) : list (list bool * Z) := map (fun x => (x, o_value o x)) l.

(** [kept] holds [mu] worst elements of [pool]. *)
Definition worst_of (mu : nat) (kept pool : list (list bool * Z)) : Prop :=
  length kept = mu /\
  exists rest, Permutation pool (kept ++ rest) /\
    forall a b, In a kept -> In b rest -> (snd a <= snd b)%Z.

(** * Herding evolutionary algorithm *)

(** Parameters with which the algorithm works *)
Definition he_admissible (size : nat) (p : he_params) : Prop :=
  hp_selection p <= size /\ (0 <= hp_rate p <= 1)%Q /\ (hp_bound p = true -> (0 <= hp_margin p < 1)%Q).

(** A number of the target after the learning *)
Definition he_moved (p : he_params) (old mean new : Q) : Prop :=
  let v := ((1 - hp_rate p) * old + hp_rate p * mean)%Q in
  if hp_bound p then clamped (hp_margin p - 1) (1 - hp_margin p) v new else (new == v)%Q.

(** The target moves towards the moment of the individuals [kept]. *)
Definition he_target_moved (k : kind) (n : nat) (p : he_params) (kept : list (list bool * Z)) (t t' : moment) : Prop :=
  shaped k n t' /\ (k = Full -> symmetric n t') /\
  (forall i, i < n -> he_moved p (mom1 t i) (mean1 kept i) (mom1 t' i)) /\
  (forall i j, j < i < n -> he_moved p (mom2 t i j) (mean2 kept i j) (mom2 t' i j)).

(** The iteration at which the herding has been initialized for the last time, at the iteration [t] *)
Definition he_epoch (p : he_params) (t : nat) : nat :=
  match hp_period p with 0 => 0 | period => period * (t / period) end.
(** The samples taken since then: all those of the trace of evaluations but the ones
    before. The first evaluation is the one of a random vector, and each iteration evaluates [size] samples. *)
Definition he_past (size : nat) (p : he_params) (t : nat) (trace : list (list bool)) : list (list bool) :=
  skipn (1 + size * he_epoch p t) trace.

(** Consecutive samples of the herding after the samples [past] *)
Definition he_samples (n : nat) (p : he_params) (shb : nat -> list nat -> list nat) (target : moment) (past samples : list (list bool)) : Prop :=
  forall i, i < length samples -> herded n target (past ++ firstn i samples) (bit_order (hp_random p) (shb i) n) (nth i samples []).

(** * Boltzmann machine PBIL *)

(** The component [i] is drawn given the others, or all components at once. *)
Definition redrawn (logistic : Q -> Q) (n : nat) (m : moment) (x : list bool) (i : nat) (u : Q) : list bool :=
  with_bit x i (if Qlt_le_dec u (logistic (gain n m i x)) then true else false).
Definition redrawn_all (logistic : Q -> Q) (n : nat) (m : moment) (x : list bool) (u : nat -> Q) : list bool :=
  map (fun i => if Qlt_le_dec (u i) (logistic (gain n m i x)) then true else false) (seq 0 n).

(** The vector reached from [x] by the sampling of the individual [i] of the iteration [t]:
    as many components drawn as there are steps, each one chosen at random; or as many
    cycles, where all components are drawn in a random order; or where they are all drawn at once. *)
Definition bm_reached (logistic : Q -> Q) (n : nat) (p : bm_params) (d : bm_draws) (m : moment) (t i : nat) (x : list bool) : list bool :=
  match bp_sampling p with
  | Asynchronous => fold_left (fun x c => redrawn logistic n m x (d_choose d t i c) (d_uniform d t i c 0)) (seq 0 (bp_steps p)) x
  | FullScan => fold_left (fun x c =>
      fold_left (fun x j => redrawn logistic n m x (nth j (d_shuffle d t i c (seq 0 n)) 0) (d_uniform d t i c j)) (seq 0 n) x) (seq 0 (bp_cycles p)) x
  | Synchronous => fold_left (fun x c => redrawn_all logistic n m x (d_uniform d t i c)) (seq 0 (bp_cycles p)) x
  | OtherSampling => x
  end.

(** Where the chain starts at the iteration [t], [x] being the last state, and before the
    sampling of the individual [i] *)
Definition bm_start (n : nat) (p : bm_params) (d : bm_draws) (t : nat) (x : list bool) : list bool :=
  match bp_reset p with EachIteration => map (d_iteration d t) (seq 0 n) | _ => x end.
Definition bm_restart (n : nat) (p : bm_params) (d : bm_draws) (t i : nat) (x : list bool) : list bool :=
  match bp_reset p with EachVector => map (d_vector d t i) (seq 0 n) | _ => x end.

(** The samples of the iteration [t]: each one is reached from the previous one. *)
Definition bm_samples (logistic : Q -> Q) (n : nat) (p : bm_params) (d : bm_draws) (m : moment) (t : nat) (x : list bool) (samples : list (list bool)) : Prop :=
  forall i, i < length samples ->
    nth i samples [] = bm_reached logistic n p d m t i (bm_restart n p d t i (match i with 0 => bm_start n p d t x | S j => nth j samples [] end)).

(** Parameters with which the algorithm works *)
Definition bm_admissible (k : kind) (size : nat) (p : bm_params) : Prop :=
  0 < bp_selection p <= size /\ bp_sampling p <> OtherSampling /\ (bp_sampling p = Synchronous -> k = Full).
(** Random numbers in their ranges *)
Definition bm_fair (n : nat) (d : bm_draws) : Prop :=
  (forall t i c, d_choose d t i c < n) /\ (forall t i c, shuffles (d_shuffle d t i c)) /\ (forall t, shuffles (d_sort d t)).

(** The model moves by the difference of the moments of the individuals [best] and [other]. *)
Definition bm_moved (k : kind) (n : nat) (p : bm_params) (best other : list (list bool * Z)) (m m' : moment) : Prop :=
  holds k n m' (fun i => mom1 m i + bp_rate p * (mean1 best i - mean1 other i))%Q
               (fun i j => mom2 m i j + bp_rate p * (mean2 best i j - mean2 other i j))%Q.
