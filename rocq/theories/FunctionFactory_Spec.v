(** The functions which are made from options, independently of the code. *)

From Coq Require Import ZArith NArith.
From Verif Require Import Base BitVector_Model BitVector_Spec Function_Spec Double FunctionFactory_Model.
Local Open Scope nat_scope.

(** The types of functions which are modelled *)
Definition by_options : list Z := [0; 1; 5; 10; 11; 20; 30; 31; 40; 41; 110; 120; 130; 140]%Z.

(** [s] ones followed by zeros, [n] bits *)
Definition ones_first (n s : nat) : bv := repeat true s ++ repeat false (n - s).

(** The maximizer which comes first in the order of numbers, the first bit being the lowest:
    no bit for Hiff; a bit for each positive weight of a linear function; [threshold + 1] ones
    for the peaks; [prefix_length] ones for the long path; otherwise only ones. *)
Definition first_maximizer (o : fn_options) : bv :=
  let n := Z.to_nat (fn_bv_size o) in
  match fn_type o with
  | 1%Z => match fn_weights o with Ok w => map (fun a => (0 <? a)%Z) w | _ => [] end
  | 40%Z | 41%Z => ones_first n (Z.to_nat (fn_threshold o + 1))
  | 120%Z => ones_first n 0
  | 140%Z => ones_first n (Z.to_nat (fn_prefix_length o))
  | _ => ones_first n n
  end.

(** The maximum, as the documentation gives it, in multiples of 2^-1074 *)
Definition documented_maximum (o : fn_options) : Z :=
  let n := fn_bv_size o in
  let t := fn_threshold o in
  let k := fn_prefix_length o in
  match fn_type o with
  | 1%Z => match fn_weights o with Ok w => fold_right Z.add 0%Z (map (Z.max 0) w) | _ => 0%Z end
  | 5%Z => (2 ^ n - 1) * 2 ^ 1074
  | 11%Z => 2 * n * 2 ^ 1074
  | 20%Z => 2 ^ 1074
  | 31%Z => (n + t) * 2 ^ 1074
  | 40%Z | 41%Z => (2 * n - t - 1) * 2 ^ 1074
  | 120%Z => (Z.log2 n + 1) * n * 2 ^ 1074
  | 130%Z => (n + 2) * 2 ^ 1074
  | 140%Z => (k * 2 ^ (n / k) - k + 1) * 2 ^ 1074
  | _ => n * 2 ^ 1074
  end%Z.

(** The options for which the maximum is right: the threshold of the peaks is at least -1,
    the size of Hiff fits in 32 bits, the values of the long path are at most 2^53, and a
    linear function has at least one weight. *)
Definition usual (o : fn_options) : Prop :=
  In (fn_type o) by_options /\
  (fn_type o = 40 \/ fn_type o = 41 -> -1 <= fn_threshold o)%Z /\
  (fn_type o = 120 -> fn_bv_size o < 2 ^ 32)%Z /\
  (fn_type o = 140 -> fn_prefix_length o * 2 ^ (fn_bv_size o / fn_prefix_length o) <= 2 ^ 53)%Z /\
  (fn_type o = 1%Z -> fn_weights o <> Ok []).

(** [x] begins with exactly [a] bits equal to [b]. *)
Definition run_of (b : bool) (x : bv) (a : nat) : Prop := (exists u, x = repeat b a ++ negb b :: u) \/ x = repeat b a.

(** The value of a vector, as the documentation gives it, in multiples of [unit] *)
Definition documented_value (o : fn_options) (x : bv) (v : Z) : Prop :=
  let n := Z.to_nat (fn_bv_size o) in
  let t := fn_threshold o in
  let unit := (2 ^ 1074)%Z in
  let wx := Z.of_nat (weight x) in
  match fn_type o with
  | 0%Z => v = wx * unit
  | 1%Z => exists w, fn_weights o = Ok w /\ v = sum_n (length w) (fun i => if nth i x false then nth i w 0%Z else 0%Z)
  | 5%Z => v = Z.of_N (value_lsb x) * unit
  | 10%Z => exists a, run_of true x a /\ v = Z.of_nat a * unit
  | 11%Z => (exists a, (a <= n)%nat /\ x = ones_first n a /\ v = (Z.of_nat n + Z.of_nat a) * unit) \/
            ((forall a, (a <= n)%nat -> x <> ones_first n a) /\ v = (Z.of_nat n - wx) * unit)
  | 20%Z => v = (if (weight x =? n)%nat then 1 else 0) * unit
  | 30%Z => v = (if (Z.of_nat n - t <? wx) && (wx <? Z.of_nat n) then 0 else wx) * unit
  | 31%Z => v = (if (Z.of_nat n - t <? wx) && (wx <? Z.of_nat n) then Z.of_nat n - wx else t + wx) * unit
  | 40%Z => exists a b, run_of true x a /\ run_of false (rev x) b /\
      v = (Z.of_nat (Nat.max a b) + (if (t <? Z.of_nat a) && (t <? Z.of_nat b) then Z.of_nat n else 0)) * unit
  | 41%Z => exists a a' b b', run_of true x a /\ run_of false x a' /\ run_of false (rev x) b /\ run_of true (rev x) b' /\
      v = (Z.of_nat (Nat.max (Nat.max a b) (Nat.max a' b')) +
           (if ((t <? Z.of_nat a) && (t <? Z.of_nat b)) || ((t <? Z.of_nat a') && (t <? Z.of_nat b')) then Z.of_nat n else 0)) * unit
  | 110%Z => exists k s, k = Z.to_nat (fn_num_traps o) /\ (n = k * s)%nat /\
      v = zsum (map (fun b => let w := weight (firstn s (skipn (b * s)%nat x)) in if (w =? s)%nat then Z.of_nat s else Z.of_nat s - 1 - Z.of_nat w) (seq 0 k)) * unit
  | 120%Z => exists d, n = (2 ^ d)%nat /\ v = Z.of_nat (hiff_value d x) * unit
  | 130%Z => (x = onesv n /\ v = (Z.of_nat n + 2) * unit) \/
             (exists a, (a < n)%nat /\ x = ones_first n a /\ v = (Z.of_nat n + 1) * unit) \/
             ((forall a, (a <= n)%nat -> x <> ones_first n a) /\ v = (Z.of_nat n - wx) * unit)
  | 140%Z =>
      let k := Z.to_nat (fn_prefix_length o) in
      (exists i, nth_error (long_path k (n / k)%nat) i = Some x /\ v = (Z.of_nat i + 1) * unit) \/
      (~ In x (long_path k (n / k)%nat) /\ v = - (Z.of_nat n * Z.of_nat (weight (firstn k x)) + Z.of_nat (weight (skipn k x))) * unit)
  | _ => False
  end%Z.

(** The options for which the documentation promises a function *)
Definition acceptable (o : fn_options) : Prop :=
  let n := fn_bv_size o in
  let t := fn_threshold o in
  let k := fn_prefix_length o in
  (0 < n)%Z /\
  match fn_type o with
  | 1%Z => exists w, fn_weights o = Ok w
  | 5%Z => n <= 30
  | 30%Z | 31%Z => 1 <= t
  | 40%Z | 41%Z => t <= n / 2 - 1
  | 110%Z => 0 < fn_num_traps o /\ (fn_num_traps o | n)
  | 120%Z => exists d, 0 <= d /\ n = 2 ^ d
  | 140%Z => 2 <= k /\ (k | n)
  | _ => True
  end%Z.

(** The options which are refused by an exception *)
Definition refused (o : fn_options) : Prop :=
  let n := fn_bv_size o in
  let t := fn_threshold o in
  let k := fn_prefix_length o in
  (n <= 0)%Z \/
  match fn_type o with
  | 1%Z => fn_weights o = Throw RuntimeError
  | 5%Z => False
  | 30%Z | 31%Z => t < 1
  | 40%Z | 41%Z => n / 2 - 1 < t
  | 110%Z => 0 < fn_num_traps o /\ ~ (fn_num_traps o | n)
  | 120%Z => ~ exists d, 0 <= d /\ n = 2 ^ d
  | 140%Z => 0 < k /\ (k = 1 \/ ~ (k | n))
  | _ => False
  end%Z.
