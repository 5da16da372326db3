(** Properties of the test functions: announced maxima, maximizers and values. *)

From Coq Require Import ZArith.
From Verif Require Import Base BitVector_Model BitVector_Spec Theory_Model Function_Spec Theory_Proofs Hiff_Proofs
  Peaks_Proofs LongPath_Proofs.
Local Open Scope nat_scope.

(** * C19 *)

Theorem C19_onemax_maximum : forall n,
  is_maximum n (fun x => Ok (onemax_evaluate x)) (onemax_maximum n) /\
  maximizers n (fun x => Ok (onemax_evaluate x)) (onemax_maximum n) [onesv n].
Proof. exact onemax_max. Qed.
Print Assumptions C19_onemax_maximum.

Theorem C19_leadingones_maximum : forall n,
  is_maximum n (fun x => Ok (leadingones_evaluate x)) (leadingones_maximum n) /\
  maximizers n (fun x => Ok (leadingones_evaluate x)) (leadingones_maximum n) [onesv n].
Proof. exact leadingones_max. Qed.
Print Assumptions C19_leadingones_maximum.

Theorem C19_needle_maximum : forall n,
  is_maximum n (fun x => Ok (needle_evaluate x)) (needle_maximum n) /\
  maximizers n (fun x => Ok (needle_evaluate x)) (needle_maximum n) [onesv n].
Proof. exact needle_max. Qed.
Print Assumptions C19_needle_maximum.

Theorem C19_ridge_maximum : forall n,
  is_maximum n (ridge_evaluate n) (ridge_maximum n) /\
  maximizers n (ridge_evaluate n) (ridge_maximum n) [onesv n].
Proof. exact ridge_max. Qed.
Print Assumptions C19_ridge_maximum.

Theorem C19_plateau_maximum : forall n,
  is_maximum n (plateau_evaluate n) (plateau_maximum n) /\
  maximizers n (plateau_evaluate n) (plateau_maximum n) [onesv n].
Proof. exact plateau_max. Qed.
Print Assumptions C19_plateau_maximum.

Example C19_case :
  ridge_evaluate 4 [true; true; false; false] = Ok 6%Z /\ ridge_evaluate 4 [false; true; false; true] = Ok 2%Z /\
  ridge_maximum 4 = 8%Z /\ plateau_evaluate 4 [true; true; false; false] = Ok 5%Z /\
  leadingones_evaluate [true; true; false; true] = 2%Z.
Proof. repeat split. Qed.

(** * C20 *)

(** The constructor accepts exactly the powers of two. *)
Theorem C20_hiff_accepts_powers_of_two : forall n d, 0 < n -> (Z.of_nat n < 2 ^ 32)%Z ->
  (hiff_make n = Ok d <-> n = 2 ^ d).
Proof. exact hiff_make_spec. Qed.
Print Assumptions C20_hiff_accepts_powers_of_two.

Theorem C20_hiff_rejects_others : forall n, 0 < n -> (Z.of_nat n < 2 ^ 32)%Z ->
  (forall d, n <> 2 ^ d) -> hiff_make n = Throw RuntimeError.
Proof. exact hiff_make_throws. Qed.
Print Assumptions C20_hiff_rejects_others.

Theorem C20_hiff_maximum : forall n d, 0 < n -> (Z.of_nat n < 2 ^ 32)%Z -> hiff_make n = Ok d ->
  is_maximum n (hiff_evaluate n d) (hiff_maximum n d) /\
  maximizers n (hiff_evaluate n d) (hiff_maximum n d) [repeat false n; onesv n] /\
  (forall x, length x = n -> hiff_evaluate n d x = Ok (Z.of_nat (hiff_value d x))).
Proof. exact hiff_max. Qed.
Print Assumptions C20_hiff_maximum.

Example C20_case : hiff_make 8 = Ok 3 /\
  hiff_evaluate 8 3 [true; true; false; false; true; true; true; true] = Ok 20%Z /\
  hiff_make 12 = Throw RuntimeError.
Proof. repeat split. Qed.

(** * C21 *)

Theorem C21_trap_maximum : forall n k s, 0 < n -> trap_make n k = Ok s ->
  is_maximum n (trap_evaluate k s) (trap_maximum n) /\
  maximizers n (trap_evaluate k s) (trap_maximum n) [onesv n].
Proof. exact trap_max. Qed.
Print Assumptions C21_trap_maximum.

Theorem C21_jump_maximum : forall n g, jump_make n g = Ok tt ->
  is_maximum n (jump_evaluate n g) (jump_maximum n) /\
  maximizers n (jump_evaluate n g) (jump_maximum n) [onesv n].
Proof. exact jump_max. Qed.
Print Assumptions C21_jump_maximum.

Theorem C21_deceptivejump_maximum : forall n g, jump_make n g = Ok tt ->
  is_maximum n (deceptivejump_evaluate n g) (deceptivejump_maximum n g) /\
  maximizers n (deceptivejump_evaluate n g) (deceptivejump_maximum n g) [onesv n].
Proof. exact deceptivejump_max. Qed.
Print Assumptions C21_deceptivejump_maximum.

Theorem C21_fourpeaks_maximum : forall n t m, peaks_make n t = Ok m -> (-1 <= t)%Z ->
  is_maximum n (fun x => Ok (fourpeaks_evaluate t x)) m /\
  exists s, Z.of_nat s = (t + 1)%Z /\
    maximizers n (fun x => Ok (fourpeaks_evaluate t x)) m
      [repeat true (n - s) ++ repeat false s; repeat true s ++ repeat false (n - s)].
Proof. exact fourpeaks_max. Qed.
Print Assumptions C21_fourpeaks_maximum.

Theorem C21_sixpeaks_maximum : forall n t m, peaks_make n t = Ok m -> (-1 <= t)%Z ->
  is_maximum n (fun x => Ok (sixpeaks_evaluate t x)) m /\
  exists s, Z.of_nat s = (t + 1)%Z /\
    maximizers n (fun x => Ok (sixpeaks_evaluate t x)) m
      [repeat true (n - s) ++ repeat false s; repeat true s ++ repeat false (n - s);
       repeat false (n - s) ++ repeat true s; repeat false s ++ repeat true (n - s)].
Proof. exact sixpeaks_max. Qed.
Print Assumptions C21_sixpeaks_maximum.

Example C21_case : trap_make 6 2 = Ok 3 /\ trap_evaluate 2 3 [true; true; true; false; false; false] = Ok 5%Z /\
  jump_make 5 2%Z = Ok tt /\ jump_evaluate 5 2 [true; true; true; true; false] = Ok 0%Z /\
  peaks_make 6 1 = Ok 10%Z /\ fourpeaks_evaluate 1 [true; true; true; true; false; false] = 10%Z.
Proof. repeat split. Qed.

(** * C22 *)

Theorem C22_longpath_structure : forall n k, longpath_make n k = Ok tt ->
  let P := long_path k (n / k) in
  length P = k * 2 ^ (n / k) - k + 1 /\
  NoDup P /\ Forall (fun x => length x = n) P /\
  (forall i x y, nth_error P i = Some x -> nth_error P (S i) = Some y -> distance x y = 1) /\
  nth_error P 0 = Some (repeat false n).
Proof. exact longpath_structure. Qed.
Print Assumptions C22_longpath_structure.

Theorem C22_longpath_values : forall n k, longpath_make n k = Ok tt ->
  (forall i x, nth_error (long_path k (n / k)) i = Some x -> longpath_evaluate n k x = Ok (Z.of_nat i + 1)%Z) /\
  (forall x, length x = n -> ~ In x (long_path k (n / k)) ->
     longpath_evaluate n k x =
       Ok (- (Z.of_nat n * Z.of_nat (weight (firstn k x)) + Z.of_nat (weight (skipn k x))))%Z).
Proof. exact longpath_value. Qed.
Print Assumptions C22_longpath_values.

Theorem C22_longpath_off_path_below : forall n k x y, longpath_make n k = Ok tt -> length x = n ->
  ~ In x (long_path k (n / k)) -> In y (long_path k (n / k)) ->
  exists a b, longpath_evaluate n k x = Ok a /\ longpath_evaluate n k y = Ok b /\ (a < b)%Z.
Proof. exact longpath_off_path. Qed.
Print Assumptions C22_longpath_off_path_below.

Theorem C22_longpath_maximum : forall n k, longpath_make n k = Ok tt ->
  let v := (Z.of_nat k * 2 ^ Z.of_nat (n / k) - Z.of_nat k + 1)%Z in
  is_maximum n (longpath_evaluate n k) v /\
  maximizers n (longpath_evaluate n k) v [repeat true k ++ repeat false (n - k)] /\
  longpath_maximum n k = (if longpath_has_known_maximum n k then Ok v else Throw RuntimeError).
Proof. exact longpath_max. Qed.
Print Assumptions C22_longpath_maximum.

Example C22_case : longpath_make 6 3 = Ok tt /\ longpath_has_known_maximum 6 3 = true /\
  longpath_maximum 6 3 = Ok 10%Z /\
  nth_error (long_path 3 2) 4 = Some [false; false; true; true; true; true] /\
  longpath_evaluate 6 3 [false; false; true; true; true; true] = Ok 5%Z /\
  longpath_evaluate 6 3 [true; false; true; false; true; false] = Ok (-13)%Z.
Proof. repeat split. Qed.

(** * C53: values of the test functions *)

Theorem C53_leadingones_value : forall x i, leadingones_evaluate x = Z.of_nat i <->
  (exists t, x = repeat true i ++ false :: t) \/ x = repeat true i.
Proof. exact leadingones_value. Qed.
Print Assumptions C53_leadingones_value.

Theorem C53_ridge_value : forall n x, length x = n ->
  (forall i, i <= n -> x = repeat true i ++ repeat false (n - i) ->
     ridge_evaluate n x = Ok (Z.of_nat n + Z.of_nat i)%Z) /\
  ((forall i, i <= n -> x <> repeat true i ++ repeat false (n - i)) ->
     ridge_evaluate n x = Ok (Z.of_nat n - Z.of_nat (weight x))%Z).
Proof. exact ridge_value. Qed.
Print Assumptions C53_ridge_value.

Theorem C53_plateau_value : forall n x, length x = n ->
  (x = onesv n -> plateau_evaluate n x = Ok (Z.of_nat n + 2)%Z) /\
  (forall i, i < n -> x = repeat true i ++ repeat false (n - i) ->
     plateau_evaluate n x = Ok (Z.of_nat n + 1)%Z) /\
  ((forall i, i <= n -> x <> repeat true i ++ repeat false (n - i)) ->
     plateau_evaluate n x = Ok (Z.of_nat n - Z.of_nat (weight x))%Z).
Proof. exact plateau_value. Qed.
Print Assumptions C53_plateau_value.

Theorem C53_jump_value : forall n g x, length x = n ->
  jump_evaluate n g x =
    Ok (if (Z.of_nat n - g <? Z.of_nat (weight x))%Z && (weight x <? n) then 0%Z else Z.of_nat (weight x)).
Proof. exact jump_value. Qed.
Print Assumptions C53_jump_value.

Theorem C53_deceptivejump_value : forall n g x, length x = n ->
  deceptivejump_evaluate n g x =
    Ok (if (Z.of_nat n - g <? Z.of_nat (weight x))%Z && (weight x <? n)
        then (Z.of_nat n - Z.of_nat (weight x))%Z else (g + Z.of_nat (weight x))%Z).
Proof. exact deceptivejump_value. Qed.
Print Assumptions C53_deceptivejump_value.

(** The trap function is the sum, over consecutive blocks of [s] bits, of [s] for
    a block of ones and [s - 1 - w] for another block of weight [w]. *)
Theorem C53_trap_value : forall k s x, length x = k * s ->
  trap_evaluate k s x = Ok (zsum (map (fun b =>
    let w := weight (firstn s (skipn (b * s) x)) in
    if w =? s then Z.of_nat s else (Z.of_nat s - 1 - Z.of_nat w)%Z) (seq 0 k))).
Proof. exact trap_value_sum. Qed.
Print Assumptions C53_trap_value.

Theorem C53_linear_value : forall w x, length x = length w ->
  linear_evaluate w x = Ok (sum_n (length w) (fun i => if nth i x false then nth i w 0%Z else 0%Z)).
Proof. exact linear_evaluate_sum. Qed.
Print Assumptions C53_linear_value.

(** A vector with exactly [a] leading ones and [b] trailing zeros. *)
Theorem C53_fourpeaks_value : forall t x a b,
  (exists u, x = repeat true a ++ false :: u) -> (exists u, x = u ++ true :: repeat false b) ->
  fourpeaks_evaluate t x =
    (Z.of_nat (Nat.max a b) +
     (if (t <? Z.of_nat a)%Z && (t <? Z.of_nat b)%Z then Z.of_nat (length x) else 0))%Z.
Proof. exact fourpeaks_value. Qed.
Print Assumptions C53_fourpeaks_value.

Example C53_case : 
  fourpeaks_evaluate 1 [true; true; false; true; true; false; false] = 9%Z /\
  linear_evaluate [5; -3; 2]%Z [true; false; true] = Ok 7%Z /\
  trap_evaluate 2 3 [true; true; false; false; false; false] = Ok 2%Z /\
  plateau_evaluate 3 [true; false; false] = Ok 4%Z /\ deceptivejump_evaluate 5 2 [true; true; true; true; false] = Ok 1%Z.
Proof. repeat split. Qed.

(** * C54: thresholds below -1 *)

Theorem C54_peaks_low_threshold : forall n t, (t < -1)%Z ->
  peaks_make n t = Ok (2 * Z.of_nat n - t - 1)%Z /\ (2 * Z.of_nat n < 2 * Z.of_nat n - t - 1)%Z /\
  is_maximum n (fun x => Ok (fourpeaks_evaluate t x)) (2 * Z.of_nat n) /\
  is_maximum n (fun x => Ok (sixpeaks_evaluate t x)) (2 * Z.of_nat n).
Proof. exact peaks_low_threshold. Qed.
Print Assumptions C54_peaks_low_threshold.

Example C54_case : peaks_make 4 (-5) = Ok 12%Z.
Proof. reflexivity. Qed.
