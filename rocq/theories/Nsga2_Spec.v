(** Vocabulary for the statements about NSGA-II. *)

From Coq Require Import ZArith Permutation Sorted.
From Verif Require Import Base BitVector_Model BitVector_Spec Neighborhood_Model Neighborhood_Spec Map_Spec Function_Spec Pareto_Spec
  Population_Model EvolutionaryAlgorithm_Spec Nsga2_Model.
Local Open Scope nat_scope.

(** Objective [k] of individual [i]. *)
Definition val (values : list (list Z)) (i k : nat) : Z := nth k (nth i values []) 0%Z.

(** [l] lists the individuals of [members] in increasing order of objective [k]. *)
Definition ranked_by (values : list (list Z)) (k : nat) (members l : list nat) : Prop :=
  Permutation members l /\ StronglySorted (fun i j => (val values i k <= val values j k)%Z) l.

(** The crowding distance of individual [i] of a front ordered by each of the [m] objectives:
    infinite for an individual at one end of one of the orders, otherwise the sum over
    the objectives of the difference between the next individual and the previous one. *)
Definition crowding (values : list (list Z)) (m : nat) (orders : nat -> list nat) (i : nat) (d : cdist) : Prop :=
  match d with
  | Infinite => exists k rest, k < m /\ (orders k = i :: rest \/ orders k = rest ++ [i])
  | Dist s => exists gap,
      (forall k, k < m -> exists before a b after,
         orders k = before ++ a :: i :: b :: after /\ gap k = (val values b k - val values a k)%Z) /\
      s = sum_n m gap
  end.

Definition at_least (a b : cdist) : Prop :=
  match a, b with
  | Infinite, _ => True
  | Dist _, Infinite => False
  | Dist x, Dist y => (y <= x)%Z
  end.

(** Crowded comparison: a smaller front, or the same front and a greater distance. *)
Definition preferred (a b : nat * cdist) : Prop := fst a < fst b \/ fst a = fst b /\ ~ at_least (snd b) (snd a).

(** [kept] are [mu] individuals of a population of size [N], none of which should give way to
    one left aside: fronts first, then crowding distances, which are given by [rank] and [dist]. *)
Definition survivors (values : list (list Z)) (m mu : nat) (rank : nat -> nat) (dist : nat -> cdist) (kept : list nat) : Prop :=
  let N := length values in
  NoDup kept /\ length kept = mu /\ (forall i, In i kept -> i < N) /\
  (forall i, i < N -> in_front values (rank i) i) /\
  (exists orders, forall i, In i kept ->
     (forall k, k < m -> ranked_by values k (filter (fun j => rank j =? rank i) (seq 0 N)) (orders (rank i) k)) /\
     (forall j, j < N -> rank j = rank i -> crowding values m (orders (rank i)) j (dist j))) /\
  (forall i j, In i kept -> j < N -> ~ In j kept -> rank i < rank j \/ rank i = rank j /\ at_least (dist i) (dist j)).

(** [i] is one of [size] individuals, and is not beaten in a tournament between [ts] of them. *)
Definition wins {T} (better : T -> T -> Prop) (size ts : nat) (quality : nat -> T) (i : nat) : Prop :=
  exists l, NoDup l /\ length l = ts /\ (forall j, In j l -> j < size) /\ In i l /\
    forall j, In j l -> ~ better (quality j) (quality i).

(** Selection number [c] (from 0) of a population of [size] individuals: the winner of a tournament, except for the
    last selection of each round, which is any individual (see C46). *)
Definition selected {T} (better : T -> T -> Prop) (size ts : nat) (quality : nat -> T) (c i : nat) : Prop :=
  i < size /\ ((c + 1) mod (size / ts) <> 0 -> wins better size ts quality i).

(** Number of selections made before offspring [k], knowing which offsprings use two. *)
Definition selections_before (cross : nat -> bool) (k : nat) : nat := list_sum (map (fun j => if cross j then 2 else 1) (seq 0 k)).

(** Offsprings of [parents]: mutants of a mix of two selected parents, or of one selected parent. *)
Definition bred {T} (better : T -> T -> Prop) (ts : nat) (quality : nat -> T) (kd : nh_kind) (n : nat) (cross : nat -> bool)
    (parents offs : list (list bool)) : Prop :=
  let size := length parents in
  length offs = size /\
  forall k, k < size ->
    let c := selections_before cross k in
    exists x,
      mutant kd n x (nth k offs []) /\
      if cross k
      then exists i j, selected better size ts quality c i /\ selected better size ts quality (c + 1) j /\
             mixes n (nth i parents []) (nth j parents []) x
      else exists i, selected better size ts quality c i /\ x = nth i parents [].

(** The function has [m] objectives. *)
Definition objectives (n m : nat) (o : mobjective) : Prop := mo_outputs o = m /\ forall x, length x = n -> length (mo_value o x) = m.

(** The random numbers are possible ones. *)
Definition fair_breeding (n : nat) (b : breeding) : Prop :=
  (forall k, shuffles (b_sh1 b k)) /\ (forall k, shuffles (b_sh2 b k)) /\
  forall k, in_bounds (StandardBitMutation false false) n (b_draws b k).
Definition fair_generation (n : nat) (g : generation_draws) : Prop :=
  visits (g_ord g) /\ shuffles (g_sh g) /\ shuffles (g_sel g) /\ fair_breeding n (g_breeding g).

(** A state between two iterations. *)
Definition nsga2_between (n m mu ts : nat) (kd : nh_kind) (o : mobjective) (s : mstate) : Prop :=
  let c := ms_mem s in
  2 <= ts < mu /\
  length (m_bvs (ns_parents c)) = mu /\ Forall (fun x => length x = n) (m_bvs (ns_parents c)) /\
  m_values (ns_parents c) = map (mo_value o) (m_bvs (ns_parents c)) /\
  length (m_bvs (ns_offs c)) = mu /\ Forall (fun x => length x = n) (m_bvs (ns_offs c)) /\ length (m_values (ns_offs c)) = mu /\
  length (m_bvs (ns_full c)) = 2 * mu /\ Forall (fun x => length x = n) (m_bvs (ns_full c)) /\ length (m_values (ns_full c)) = 2 * mu /\
  nh_reachable n (ns_mut c) Settled /\ nh_class (ns_mut c) = kd /\ (exists rejection allow, kd = StandardBitMutation rejection allow) /\
  length (ns_fronts c) = 2 * mu /\ length (ns_dists c) = 2 * mu /\ length (ns_perm c) = 2 * mu /\
  length (ns_pairs c) = mu /\ Permutation (seq 0 mu) (t_perm (ns_sel c)) /\ t_size (ns_sel c) = ts.

(** The first parents and their offsprings, whose selection is based on fronts only. *)
Definition first_generation (n m mu ts : nat) (kd : nh_kind) (o : mobjective) (cross : nat -> bool) (s : mstate) : Prop :=
  let parents := m_bvs (ns_parents (ms_mem s)) in
  nsga2_between n m mu ts kd o s /\
  ms_trace s = parents /\
  exists rank, (forall i, i < mu -> in_front (map (mo_value o) parents) (rank i) i) /\
    bred lt ts rank kd n cross parents (m_bvs (ns_offs (ms_mem s))).

(** What an iteration does: the offsprings are evaluated, the survivors of the parents and offsprings are
    the new parents, which have new offsprings. *)
Definition next_generation (n m mu ts : nat) (kd : nh_kind) (o : mobjective) (cross : nat -> bool) (s s' : mstate) : Prop :=
  let offs := m_bvs (ns_offs (ms_mem s)) in
  let pool := m_bvs (ns_parents (ms_mem s)) ++ offs in
  let parents := m_bvs (ns_parents (ms_mem s')) in
  nsga2_between n m mu ts kd o s' /\
  ms_trace s' = ms_trace s ++ offs /\
  exists rank dist kept,
    survivors (map (mo_value o) pool) m mu rank dist kept /\
    parents = map (fun i => nth i pool []) kept /\
    bred preferred ts (fun i => let j := nth i kept 0 in (rank j, dist j)) kd n cross parents (m_bvs (ns_offs (ms_mem s'))).

(** [count] successive generations, the first of which is number [i]. *)
Fixpoint generations (n m mu ts : nat) (kd : nh_kind) (o : mobjective) (cross : nat -> nat -> bool) (i count : nat) (s s' : mstate) : Prop :=
  match count with
  | 0 => s' = s
  | S count' => exists s1, next_generation n m mu ts kd o (cross i) s s1 /\ generations n m mu ts kd o cross (i + 1) count' s1 s'
  end.

(** The function or an unfinished draw of random numbers interrupted the run, which left the solutions as they were. *)
Definition interrupted (o : mobjective) (s : mstate) (e : option exn) (s' : mstate) : Prop :=
  (exists post, ms_trace s' = ms_trace s ++ post) /\ ns_solutions (ms_mem s') = ns_solutions (ms_mem s) /\
  forall e', e = Some e' -> mo_stop o (length (ms_trace s')) = Some e'.

(** The evaluated vectors, with repetitions, which are dominated by no evaluated vector. *)
Definition paretob (a b : list Z) : bool :=
  forallb (fun i => nth i a 0 <=? nth i b 0)%Z (seq 0 (length a)) && existsb (fun i => nth i a 0 <? nth i b 0)%Z (seq 0 (length a)).
Definition non_dominated (o : mobjective) (T : list (list bool)) : list (list bool) :=
  filter (fun x => forallb (fun y => negb (paretob (mo_value o y) (mo_value o x))) T) T.

(** The solutions returned after state [s]: the parents that no parent dominates, with their values. *)
Definition returned (mu : nat) (o : mobjective) (s s' : mstate) : Prop :=
  let parents := m_bvs (ns_parents (ms_mem s)) in
  let solutions := ns_solutions (ms_mem s') in
  ms_trace s' = ms_trace s /\ m_bvs solutions <> [] /\ m_values solutions = map (mo_value o) (m_bvs solutions) /\
  exists rank, (forall i, i < mu -> in_front (map (mo_value o) parents) (rank i) i) /\
    m_bvs solutions = map (fun i => nth i parents []) (filter (fun i => rank i =? 0) (seq 0 mu)).
