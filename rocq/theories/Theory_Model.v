(** Model of functions with known structure:
    lib/hnco/functions/collection/theory.{hh,cc}, trap.{hh,cc}, jump.{hh,cc},
    four-peaks.{hh,cc}, long-path.{hh,cc}, linear-function.{hh,cc}.

    Function values are doubles in the code.  Here they are integers with exact
    arithmetic.  The functions of the first files only compute integers.  For
    linear functions the integers count multiples of the smallest positive
    double, 2^-1074, of which every finite double is an integer multiple; what
    is simplified is the rounding of additions.  Overflow of int is not
    modelled. *)

From Coq Require Import ZArith.
From Verif Require Import Base BitVector_Model.
Local Open Scope Z_scope.
Local Open Scope nat_scope.

(** theory.cc:34-38 *)
Definition onemax_evaluate (x : bv) : Z := Z.of_nat (bv_hamming_weight x).

(** theory.hh:52 *)
Definition onemax_maximum (n : nat) : Z := Z.of_nat n.

(** theory.cc:40-50 *)
Definition onemax_incremental (x : bv) (v : Z) (flipped : list nat) : outcome Z :=
  delta <- foldM (fun delta index =>
    b <- vget x index ;;
    Ok (if (b : bool) then (delta - 1)%Z else (delta + 1)%Z)) flipped 0%Z ;;
  Ok (v + delta)%Z.

(** theory.cc:52-60: index of the first zero, or the size *)
Fixpoint leading_ones (x : bv) : nat :=
  match x with
  | true :: x' => S (leading_ones x')
  | _ => 0
  end.
Definition leadingones_evaluate (x : bv) : Z := Z.of_nat (leading_ones x).

(** theory.hh:98 *)
Definition leadingones_maximum (n : nat) : Z := Z.of_nat n.

(** theory.cc:62-69 *)
Definition needle_evaluate (x : bv) : Z := if forallb (fun b => b) x then 1%Z else 0%Z.

(** theory.hh:129 *)
Definition needle_maximum (n : nat) : Z := 1%Z.

(** theory.cc:71-84.  std::bitset<32>(bv_size); the result is _depth. *)
Definition hiff_make (bv_size : nat) : outcome nat :=
  _ <- assertb (0 <? bv_size) ;;
  let bits := filter (Nat.testbit bv_size) (seq 0 32) in
  match bits with
  | [d] => Ok d
  | _ => Throw RuntimeError
  end.

(** theory.cc:93-94: all_of over the block of [size] bits starting at [offset]
    compared with its first bit; UB when the range leaves the vector *)
Definition block_uniform (x : bv) (offset size : nat) : outcome bool :=
  b0 <- vget x offset ;;
  _ <- assertb (offset + size <=? length x) ;;
  Ok (forallb (fun b => Bool.eqb b b0) (firstn size (skipn offset x))).

(** inner loop theory.cc:92-98: sum and the flag [last] *)
Fixpoint hiff_level (x : bv) (num_blocks offset block_size : nat) (result : nat) (last : bool) : outcome (nat * bool) :=
  match num_blocks with
  | 0 => Ok (result, last)
  | S k =>
      u <- block_uniform x offset block_size ;;
      if (u : bool) then hiff_level x k (offset + block_size) block_size (result + block_size) false
      else hiff_level x k (offset + block_size) block_size result last
  end.

(** outer loop theory.cc:90-101; [levels] is the number of values of i left *)
Fixpoint hiff_loop (x : bv) (levels num_blocks block_size result : nat) : outcome nat :=
  match levels with
  | 0 => Ok result
  | S l =>
      '(result', last) <- hiff_level x num_blocks 0 block_size result true ;;
      if (last : bool) then Ok result'
      else hiff_loop x l (num_blocks / 2) (block_size * 2) result'
  end.

(** theory.cc:86-103 *)
Definition hiff_evaluate (bv_size depth : nat) (x : bv) : outcome Z :=
  r <- hiff_loop x (depth + 1) bv_size 1 0 ;; Ok (Z.of_nat r).

(** theory.hh:165 *)
Definition hiff_maximum (bv_size depth : nat) : Z := Z.of_nat ((depth + 1) * bv_size).

(** theory.cc:106-118.  [leading_ones x] is the distance to the first 0. *)
Definition ridge_evaluate (bv_size : nat) (x : bv) : outcome Z :=
  let length := leading_ones x in
  if forallb negb (skipn length x) then
    _ <- assertb (bv_hamming_weight x =? length) ;;
    Ok (Z.of_nat bv_size + Z.of_nat length)%Z
  else Ok (Z.of_nat bv_size - Z.of_nat (bv_hamming_weight x))%Z.

(** theory.hh:197 *)
Definition ridge_maximum (n : nat) : Z := (2 * Z.of_nat n)%Z.

(** theory.cc:121-135 *)
Definition plateau_evaluate (bv_size : nat) (x : bv) : outcome Z :=
  let it := leading_ones x in
  if it =? length x then
    _ <- assertb (bv_hamming_weight x =? bv_size) ;;
    Ok (Z.of_nat bv_size + 2)%Z
  else if forallb negb (skipn it x) then Ok (Z.of_nat bv_size + 1)%Z
  else Ok (Z.of_nat bv_size - Z.of_nat (bv_hamming_weight x))%Z.

(** theory.hh:228 *)
Definition plateau_maximum (n : nat) : Z := (Z.of_nat n + 2)%Z.

(** trap.hh:63-71; the result is _trap_size *)
Definition trap_make (bv_size num_traps : nat) : outcome nat :=
  _ <- assertb (0 <? num_traps) ;;
  if bv_size mod num_traps =? 0 then Ok (bv_size / num_traps) else Throw RuntimeError.

(** inner loop trap.cc:38-39 *)
Definition trap_weight (x : bv) (first trap_size : nat) : outcome nat :=
  foldM (fun (w : nat) j => b <- vget x j ;; Ok (w + b2n b)) (seq first trap_size) 0.

(** trap.cc:29-48 *)
Definition trap_evaluate (num_traps trap_size : nat) (x : bv) : outcome Z :=
  '(result, _) <- foldM (fun '(result, first) _ =>
      weight <- trap_weight x first trap_size ;;
      if weight =? trap_size then Ok ((result + Z.of_nat trap_size)%Z, first + trap_size)
      else
        _ <- assertb (weight <? trap_size) ;;
        Ok ((result + (Z.of_nat trap_size - Z.of_nat weight - 1))%Z, first + trap_size))
    (seq 0 num_traps) (0%Z, 0) ;;
  Ok result.

(** trap.hh:88 *)
Definition trap_maximum (n : nat) : Z := Z.of_nat n.

(** jump.cc:32-40, 62-70 *)
Definition jump_make (bv_size : nat) (gap : Z) : outcome unit :=
  _ <- assertb (0 <? bv_size) ;;
  if (gap <? 1)%Z then Throw RuntimeError else Ok tt.

(** jump.cc:43-59 *)
Definition jump_evaluate (bv_size : nat) (gap : Z) (x : bv) : outcome Z :=
  _ <- assertb (length x =? bv_size) ;;
  let weight := bv_hamming_weight x in
  if weight =? length x then Ok (Z.of_nat weight)
  else
    _ <- assertb (weight <? length x) ;;
    if (Z.of_nat (length x) - gap <? Z.of_nat weight)%Z then Ok 0%Z
    else Ok (Z.of_nat weight).

(** jump.hh:64 *)
Definition jump_maximum (n : nat) : Z := Z.of_nat n.

(** jump.cc:73-85 *)
Definition deceptivejump_evaluate (bv_size : nat) (gap : Z) (x : bv) : outcome Z :=
  _ <- assertb (length x =? bv_size) ;;
  let weight := bv_hamming_weight x in
  if (weight <? length x) && (Z.of_nat (length x) - gap <? Z.of_nat weight)%Z
  then Ok (Z.of_nat (length x) - Z.of_nat weight)%Z
  else Ok (gap + Z.of_nat weight)%Z.

(** jump.hh:108 *)
Definition deceptivejump_maximum (n : nat) (gap : Z) : Z := (Z.of_nat n + gap)%Z.

(** four-peaks.cc:34-43 *)
Fixpoint head (x : bv) (b : bool) : nat :=
  match x with
  | c :: x' => if Bool.eqb c b then S (head x' b) else 0
  | [] => 0
  end.

(** four-peaks.cc:45-54 *)
Definition tail (x : bv) (b : bool) : nat := head (rev x) b.

(** four-peaks.cc:57-67, 81-91: division of int truncates toward zero; the
    result is _maximum *)
Definition peaks_make (bv_size : nat) (threshold : Z) : outcome Z :=
  if (Z.quot (Z.of_nat bv_size) 2 - 1 <? threshold)%Z then Throw RuntimeError
  else Ok (2 * Z.of_nat bv_size - threshold - 1)%Z.

(** four-peaks.cc:69-78 *)
Definition fourpeaks_evaluate (threshold : Z) (x : bv) : Z :=
  let h1 := Z.of_nat (head x true) in
  let t0 := Z.of_nat (tail x false) in
  let result := Z.max h1 t0 in
  if (threshold <? h1)%Z && (threshold <? t0)%Z then (result + Z.of_nat (length x))%Z else result.

(** four-peaks.cc:93-105 *)
Definition sixpeaks_evaluate (threshold : Z) (x : bv) : Z :=
  let h0 := Z.of_nat (head x false) in
  let h1 := Z.of_nat (head x true) in
  let t0 := Z.of_nat (tail x false) in
  let t1 := Z.of_nat (tail x true) in
  let result := Z.max (Z.max h0 h1) (Z.max t0 t1) in
  if (threshold <? h0)%Z && (threshold <? t1)%Z || (threshold <? h1)%Z && (threshold <? t0)%Z
  then (result + Z.of_nat (length x))%Z else result.

(** long-path.cc:36-48 *)
Definition longpath_make (bv_size prefix_length : nat) : outcome unit :=
  _ <- assertb (0 <? bv_size) ;;
  _ <- assertb (0 <? prefix_length) ;;
  if negb (bv_size mod prefix_length =? 0) then Throw RuntimeError
  else if prefix_length <? 2 then Throw RuntimeError
  else Ok tt.

(** long-path.cc:51-58: log2(k) + n / k <= 53, that is k * 2^(n/k) <= 2^53
    (exact; the rounding of std::log is not modelled) *)
Definition longpath_has_known_maximum (bv_size k : nat) : bool :=
  (Z.of_nat k * 2 ^ Z.of_nat (bv_size / k) <=? 2 ^ 53)%Z.

(** long-path.cc:61-68 *)
Definition longpath_maximum (bv_size k : nat) : outcome Z :=
  if longpath_has_known_maximum bv_size k
  then Ok (Z.of_nat k * 2 ^ Z.of_nat (bv_size / k) - Z.of_nat k + 1)%Z
  else Throw RuntimeError.

(** index of the first 1 from the start of the range: std::find(first, last, 1) *)
Fixpoint find_one (x : bv) : nat :=
  match x with
  | false :: x' => S (find_one x')
  | _ => 0
  end.

(** long-path.cc:72-83 (the range is never empty) *)
Definition is_bridge (x : bv) : outcome bool :=
  b <- vget x 0 ;;
  if (b : bool) then Ok false
  else
    let iter := find_one x in
    if iter =? length x then Ok false
    else Ok (forallb (fun b => b) (skipn iter x)).

(** long-path.cc:100, 117: [m] is last - prefix_last *)
Definition suffix_path_length (m k : nat) : Z :=
  (Z.of_nat k * 2 ^ Z.of_nat (m / k) - (Z.of_nat k - 1))%Z.

(** long-path.cc:86-123; [fuel] bounds the recursion depth (UB when exhausted,
    which does not happen with fuel >= length x when k > 0) *)
Fixpoint compute_index (fuel : nat) (x : bv) (k : nat) : outcome Z :=
  match x with
  | [] => Ok 0%Z
  | _ =>
    match fuel with
    | 0 => UB
    | S fuel' =>
      _ <- assertb (k <=? length x) ;;
      let prefix := firstn k x in
      let suffix := skipn k x in
      if forallb negb prefix then compute_index fuel' suffix k
      else
        b <- is_bridge prefix ;;
        if (b : bool) then
          let path_length := suffix_path_length (length suffix) k in
          idx <- compute_index fuel' suffix k ;;
          if (idx =? path_length - 1)%Z then
            Ok (path_length + (Z.of_nat k - Z.of_nat (find_one prefix)) - 1)%Z
          else Ok (-1)%Z
        else if forallb (fun b => b) prefix then
          index <- compute_index fuel' suffix k ;;
          if (index <? 0)%Z then Ok (-1)%Z
          else
            let path_length := suffix_path_length (length suffix) k in
            Ok (path_length + (Z.of_nat k - 1) + (path_length - 1) - index)%Z
        else Ok (-1)%Z
    end
  end.

(** long-path.cc:126-139 *)
Definition longpath_evaluate (bv_size k : nat) (x : bv) : outcome Z :=
  _ <- assertb (length x =? bv_size) ;;
  index <- compute_index (length x) x k ;;
  if (index <? 0)%Z then
    Ok (- (Z.of_nat bv_size * Z.of_nat (bv_hamming_weight (firstn k x)) +
           Z.of_nat (bv_hamming_weight (skipn k x))))%Z
  else Ok (index + 1)%Z.

(** linear-function.cc:34-42 *)
Definition linear_maximum (weights : list Z) : Z :=
  fold_left (fun result w => if (0 <? w)%Z then (result + w)%Z else result) weights 0%Z.

(** linear-function.cc:45-55 *)
Definition linear_evaluate (weights : list Z) (x : bv) : outcome Z :=
  _ <- assertb (length x =? length weights) ;;
  foldM (fun result i =>
    b <- vget x i ;;
    if (b : bool) then w <- vget weights i ;; Ok (result + w)%Z else Ok result)
    (seq 0 (length x)) 0%Z.

(** linear-function.cc:58-69 *)
Definition linear_incremental (weights : list Z) (x : bv) (value : Z) (flipped : list nat) : outcome Z :=
  foldM (fun value index =>
    b <- vget x index ;;
    w <- vget weights index ;;
    Ok (if (b : bool) then (value - w)%Z else (value + w)%Z)) flipped value.
