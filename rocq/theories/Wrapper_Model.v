(** Model of the algorithms which call other libraries: P3, LTGA and hBOA
    (lib/hnco/algorithms/fast-efficient-p3, with the class Middle_Layer of
    lib/fast-efficient-p3) and GOMEA (lib/hnco/algorithms/gomea).

    What the library does is an argument: the vector which it asks to evaluate after the
    values it has received, or nothing when it ends by itself.  The random numbers which
    it draws are part of this argument.  The library does not catch the exceptions of the
    function (there is no handler for them in it).  Its configuration is not modelled.
    Inside the library, the calls go through other middle layers, which only count. *)

From Coq Require Import ZArith.
From Verif Require Import Base BitVector_Model Double Rounding_Model Controller_Model.
Local Open Scope nat_scope.

(** * Conversion from double to float

    IEEE 754, to the nearest and ties to even.  Finite numbers are multiples of 2^-1074
    (see Double): a float is a multiple of 2^-149, that is 2^925 of them, of 24 bits. *)
Definition exponent24 (z : Z) : Z := Z.max 925 (Z.log2 (Z.abs z) - 23).
Definition round24 (z : Z) : Z := (nearest_multiple z (exponent24 z) * 2 ^ exponent24 z)%Z.

(** With overflow: 2^128 is 2^1202 multiples of 2^-1074. *)
Definition to_float (d : dbl) : dbl :=
  match d with
  | DFin z =>
      let r := round24 z in
      if (r <? 2 ^ 1202)%Z then if (- 2 ^ 1202 <? r)%Z then DFin r else DNegInf else DPosInf
  | _ => d
  end.

(** * The loop of the library

    How it ended after at most [k] evaluations; [Running] if it goes on. *)
Inductive ending := Running | Finished | Raised (e : exn) | Undefined.

Fixpoint optimize {St X : Type} (evaluate : St -> X -> St * outcome dbl) (asks : list dbl -> option X) (k : nat) (answers : list dbl) (s : St) : St * ending :=
  match k with
  | 0 => (s, Running)
  | S k =>
      match asks answers with
      | None => (s, Finished)
      | Some x =>
          match evaluate s x with
          | (s', Ok v) => optimize evaluate asks k (answers ++ [v]) s'
          | (s', Throw e) => (s', Raised e)
          | (s', UB) => (s', Undefined)
          end
      end
  end.

(** A call of Function::evaluate, which returns a value *)
Definition call {S : Type} (o : fobj S) (s : S) (x : bv) : S * outcome dbl :=
  let '(s', a) := o s (REval x) in
  (s', r <- a ;; match r with RValue v => Ok v | RVoid => UB end).

(** * P3, LTGA, hBOA *)

(** HncoEvaluator::evaluate, hnco-evaluator.hh:56-61. The vector _bv, of the size of the
    function, is overwritten. The double is returned as a float. *)
Definition evaluator_evaluate {S : Type} (o : fobj S) (n : nat) (s : S) (x : list bool) : S * outcome dbl :=
  match (_ <- assertb (length x =? n) ;; bv_from_vector_bool (repeat false n) x) with
  | Ok bv => let '(s', v) := call o s bv in (s', v <- v ;; Ok (to_float v))
  | Throw e => (s, Throw e)
  | UB => (s, UB)
  end.

(** Middle_Layer, MiddleLayer.h:20-50. The record of results and the file are not
    modelled. *)
Record layer := mk_layer {
  l_evaluations : nat;
  l_best_fitness : dbl;
  l_best_found : nat;
  l_best_solution : list bool }.

(** std::numeric_limits<int>::min(), as a float *)
Definition int_min : dbl := DFin (- 2 ^ 31 * 2 ^ 1074).

(** MiddleLayer.h:30-40 *)
Definition layer_make : layer := mk_layer 0 int_min 0 [].

(** MiddleLayer.cpp:9-31. The counter is increased even if the evaluation throws. *)
Definition layer_evaluate {S : Type} (o : fobj S) (n : nat) (st : layer * S) (x : list bool) : (layer * S) * outcome dbl :=
  let '(l, s) := st in
  let count := l_evaluations l + 1 in
  let '(s', a) := evaluator_evaluate o n s x in
  match a with
  | Ok fitness =>
      if dlt (l_best_fitness l) fitness then ((mk_layer count fitness count x, s'), a)
      else ((mk_layer count (l_best_fitness l) (l_best_found l) (l_best_solution l), s'), a)
  | _ => ((mk_layer count (l_best_fitness l) (l_best_found l) (l_best_solution l), s'), a)
  end.

(** The algorithm: the pointer to its middle layer, null before the first maximization
    (implementation.hh:46), and its solution, of the size [n] of the algorithm.

    maximize, p3.cc:51-77, ltga.cc:50-75, hboa.cc:50-68, until the library has asked for
    [k] evaluations *)
Definition p3_maximize {S : Type} (o : fobj S) (n : nat) (asks : list dbl -> option (list bool)) (k : nat) (a : option layer) (s : S) : (option layer * S) * ending :=
  let '((l, s), e) := optimize (layer_evaluate o n) asks k [] (layer_make, s) in
  ((Some l, s), e).

(** finalize, p3.cc:81-85, ltga.cc:79-83, hboa.cc:72-76 *)
Definition p3_finalize (n : nat) (a : option layer) : outcome (bv * dbl) :=
  match a with
  | None => UB
  | Some l => x <- bv_from_vector_bool (repeat false n) (l_best_solution l) ;; Ok (x, l_best_fitness l)
  end.

(** * GOMEA *)

(** HncoFitness::objectiveFunction, hnco-fitness.hh:55-62: the vector of the library is
    made of char, which must be 0 or 1. *)
Definition fitness_evaluate {St : Type} (o : fobj St) (n : nat) (s : St) (x : list Z) : St * outcome dbl :=
  match (_ <- assertb (length x =? n) ;; _ <- assertb (forallb (fun c => (c =? 0)%Z || (c =? 1)%Z) x) ;; Ok (map (fun c => (c =? 1)%Z) x)) with
  | Ok bv => call o s bv
  | Throw e => (s, Throw e)
  | UB => (s, UB)
  end.

(** maximize, gomea.cc:32-60: the function is wrapped into a new progress tracker, which
    records bit vectors. *)
Definition gomea_maximize {S : Type} (o : fobj S) (n : nat) (asks : list dbl -> option (list Z)) (k : nat) (a : option improvement) (s : S) : (option improvement * S) * ending :=
  let '((i, (_, s)), e) := optimize (fitness_evaluate (progress_tracker o true) n) asks k [] (tracker_make n, (0, s)) in
  ((Some i, s), e).

(** finalize, gomea.cc:63-68. The value is that of the event, not initialised (None) when
    there was no evaluation. *)
Definition gomea_finalize (a : option improvement) : outcome (bv * option dbl) :=
  match a with
  | None => UB
  | Some i => Ok (imp_bv i, imp_value i)
  end.
