(** Vocabulary for the statements about evolutionary algorithms. *)

From Coq Require Import QArith.
From Verif Require Import Base BitVector_Model BitVector_Spec Neighborhood_Model Neighborhood_Spec Algorithm_Model
  Population_Model Population_Spec PopAlgorithm_Spec EvolutionaryAlgorithm_Model.
Local Open Scope nat_scope.

(** [y] is a mutant of [x]: the number of bits where they differ is one that the
    mutation operator can flip. *)
Definition mutant (kd : nh_kind) (n : nat) (x y : list bool) : Prop :=
  length y = n /\ flip_count kd n (length (diffs n x y)).

(** Each bit of [z] is that of [x] or that of [y]. *)
Definition mixes (n : nat) (x y z : list bool) : Prop :=
  length z = n /\ forall i, i < n -> nth i z false = nth i x false \/ nth i z false = nth i y false.

(** Vectors with their values. *)
Definition valued (o : objective) (L : list (list bool)) : list (list bool * Z) := map (fun x => (x, o_value o x)) L.

(** The numbers drawn for mutations are within bounds. *)
Definition fair_mutations (n : nat) (d : nat -> nat -> draws) : Prop :=
  forall t k, in_bounds (StandardBitMutation false false) n (d t k).

(** Numbers drawn in an interval. *)
Definition fair_picks (pick : nat -> nat -> nat -> nat) : Prop := forall k lo hi, lo <= hi -> lo <= pick k lo hi <= hi.

(** What a generation of an evolutionary algorithm does: [lambda] offsprings, offspring k
    being a mutant of a vector related to the parents by [source k], are evaluated, and the new parents
    are [mu] best of the [candidates], best first. *)
Definition generation {Y} (kd : nh_kind) (source : nat -> list (list bool) -> list bool -> Prop)
    (candidates : list (list bool * Z) -> list (list bool * Z) -> list (list bool * Z))
    (o : objective) (n mu lambda : nat) (s s' : alg (ea Y)) : Prop :=
  exists L,
    length L = lambda /\
    (forall k, k < lambda -> exists x, source k (p_bvs (ea_parents (a_mem s))) x /\ mutant kd n x (nth k L [])) /\
    a_trace s' = a_trace s ++ L /\
    best_of mu (individuals (ea_parents (a_mem s'))) (candidates (individuals (ea_parents (a_mem s))) (valued o L)) /\
    non_increasing (individuals (ea_parents (a_mem s'))).

(** A state of an evolutionary algorithm between two iterations. *)
Definition between {Y} (mu lambda n : nat) (extra : Y -> Prop) (s : alg (ea Y)) : Prop :=
  well_formed mu n (ea_parents (a_mem s)) /\ well_formed lambda n (ea_offs (a_mem s)) /\
  nh_reachable n (ea_mut (a_mem s)) Settled /\
  (exists rejection allow, nh_class (ea_mut (a_mem s)) = StandardBitMutation rejection allow) /\
  extra (ea_extra (a_mem s)).

(** The parent of offspring [k] has the place drawn for it. *)
Definition drawn_parent (pick : nat -> nat -> nat -> nat) (k : nat) (parents : list (list bool)) (x : list bool) : Prop :=
  nth_error parents (pick k 0 (length parents - 1)) = Some x.

(** The parent used by the genetic algorithm for offspring [k]: a mix of two parents if there is
    a crossover, and a parent otherwise. *)
Definition mixed_source (n : nat) (cross : nat -> bool) (k : nat) (parents : list (list bool)) (z : list bool) : Prop :=
  if cross k then exists x y, In x parents /\ In y parents /\ mixes n x y z else In z parents.

(** The run was interrupted by the function before it gave its [count]-th value, and
    the solution is that of a new algorithm. *)
Definition too_early {X} (o : objective) (n count : nat) (r : res unit) (s : alg X) : Prop :=
  exists e, r = Exc e /\ o_stop o (length (a_trace s)) = Some e /\ length (a_trace s) < count /\
    a_sol s = (repeat false n, 0%Z).

(** An iteration of the two-rate EA: [lambda] mutants of the solution are evaluated;
    [best] is the place among them of one with the greatest value. *)
Definition half_rates (n : nat) (rate u : Q) (best lambda : nat) (rate' : Q) : Prop :=
  let low := (rate / 2)%Q in
  let high := (rate * 2)%Q in
  let least := (2 / inject_Z (Z.of_nat n))%Q in
  (u < 1 # 4 -> rate' == if Qlt_le_dec low least then least else low)%Q /\
  (1 # 4 <= u -> u < 1 # 2 -> rate' == if Qlt_le_dec (1 # 4) high then 1 # 4 else high)%Q /\
  (1 # 2 <= u -> let r := if best <? lambda / 2 then low else high in
     rate' == if Qlt_le_dec r least then least else if Qlt_le_dec (1 # 4) r then 1 # 4 else r)%Q.

Definition two_rate_step (o : objective) (n lambda : nat) (allow : bool) (u : Q) (s s' : alg trea) : Prop :=
  exists L best,
    length L = lambda /\ (forall y, In y L -> mutant (StandardBitMutation true allow) n (fst (a_sol s)) y) /\
    a_trace s' = a_trace s ++ L /\
    best < lambda /\ (forall y, In y L -> (o_value o y <= o_value o (nth best L []))%Z) /\
    half_rates n (tr_rate (a_mem s)) u best lambda (tr_rate (a_mem s')).

(** An iteration of the (1+(lambda,lambda)) GA: mutants of the solution at a given
    distance are evaluated, then mixes of the solution and of a best mutant, one of
    the best of which replaces the solution if it is not worse. The mutants do not
    all have the same value, nor do the mixes if one is to replace the solution. *)
Definition llga_step (o : objective) (n lambda radius : nat) (s s' : alg llga) : Prop :=
  exists M p C,
    length M = lambda /\ (forall y, In y M -> length y = n /\ length (diffs n (fst (a_sol s)) y) = radius) /\
    In p M /\ (forall y, In y M -> (o_value o y <= o_value o p)%Z) /\ (exists y, In y M /\ (o_value o y < o_value o p)%Z) /\
    length C = lambda /\ (forall y, In y C -> mixes n (fst (a_sol s)) p y) /\
    a_trace s' = a_trace s ++ M ++ C /\
    exists c, In c C /\ (forall y, In y C -> (o_value o y <= o_value o c)%Z) /\
      if (snd (a_sol s) <=? o_value o c)%Z
      then a_sol s' = (c, o_value o c) /\ (exists y, In y C /\ (o_value o y < o_value o c)%Z)
      else a_sol s' = a_sol s.

(** The last [lambda] vectors evaluated have the same value. *)
Definition all_equal (o : objective) (lambda : nat) (T : list (list bool)) : Prop :=
  exists T' L, T = T' ++ L /\ length L = lambda /\ forall y z, In y L -> In z L -> o_value o y = o_value o z.
