(** Model of further functions of lib/hnco/functions/collection: Labs, Partition,
    EqualProducts, SummationCancellation, Factorization, Tsp, NkLandscape and Qubo.
    Values of type double are integers or rationals with exact arithmetic; rounding is
    not modelled. *)

From Coq Require Import ZArith NArith QArith Qabs String Ascii.
From Verif Require Import Base BitVector_Model Text_Model.
Local Open Scope string_scope.
Local Open Scope list_scope.
Local Open Scope nat_scope.

Notation len := List.length.

(** * Labs: labs.{hh,cc} *)

(** labs.cc:32-51. The buffer [_sequence], of size [n], is overwritten before it is read. *)
Definition labs_autocorrelation (n : nat) (x : bv) : outcome Z :=
  _ <- assertb (len x =? n) ;;
  let s := map (fun b : bool => if b then 1%Z else (-1)%Z) x in
  foldM (fun E k =>
    C <- foldM (fun C i => a <- vget s i ;; b <- vget s (i + k) ;; Ok (C + a * b)%Z) (seq 0 (len x - k)) 0%Z ;;
    Ok (E + C * C)%Z) (seq 1 (len x - 1)) 0%Z.

(** Values of Labs: a rational, or what the division of doubles gives when the divisor is
    null. *)
Inductive labs_value := LValue (q : Q) | LInfinite | LNaN.

(** labs.cc:54-63 *)
Definition labs_evaluate (merit : bool) (n : nat) (x : bv) : outcome labs_value :=
  _ <- assertb (len x =? n) ;;
  E <- labs_autocorrelation n x ;;
  if merit then
    let size := Z.of_nat (len x) in
    match (2 * E)%Z with
    | Z0 => Ok (if (size * size =? 0)%Z then LNaN else LInfinite)
    | d => Ok (LValue (inject_Z (size * size) / inject_Z d))
    end
  else Ok (LValue (inject_Z (- E))).

(** * Partition: partition.{hh,cc} *)

(** Result of an addition of ints of 32 bits: overflow is undefined behaviour. *)
Definition int_result (z : Z) : outcome Z := if int_range z then Ok z else UB.

(** partition.cc:31-44; std::abs is undefined on INT_MIN *)
Definition partition_evaluate (numbers : list Z) (s : bv) : outcome Z :=
  _ <- assertb (len s =? len numbers) ;;
  '(sum0, sum1) <- foldM (fun '(sum0, sum1) i =>
      b <- vget s i ;;
      a <- vget numbers i ;;
      if (b : bool) then r <- int_result (sum1 + a)%Z ;; Ok (sum0, r)
      else r <- int_result (sum0 + a)%Z ;; Ok (r, sum1)) (seq 0 (len s)) (0%Z, 0%Z) ;;
  d <- int_result (sum1 - sum0)%Z ;;
  a <- int_result (Z.abs d) ;;
  Ok (- a)%Z.

(** partition.hh:83-106: [random(n, upper_bound)]. [draw i] is the i-th number drawn from
    [1..upper_bound]. *)
Definition partition_random (n : nat) (upper_bound : Z) (draw : nat -> Z) : outcome (list Z) :=
  _ <- assertb (0 <? n) ;;
  _ <- assertb (0 <? upper_bound)%Z ;;
  Ok (map draw (seq 0 n)).

(** * EqualProducts: equal-products.{hh,cc} *)

(** equal-products.cc:33-44 *)
Definition equal_products_evaluate (numbers : list Q) (s : bv) : outcome Q :=
  '(p0, p1) <- foldM (fun '(p0, p1) i =>
      b <- vget s i ;;
      a <- vget numbers i ;;
      Ok (if (b : bool) then (p0, p1 * a)%Q else (p0 * a, p1)%Q)) (seq 0 (len numbers)) (1%Q, 1%Q) ;;
  Ok (- Qabs (p1 - p0))%Q.

(** * SummationCancellation: cancellation.{hh,cc} *)

(** cancellation.hh:68-74; the size is not negative *)
Definition cancellation_make (n : nat) : outcome nat :=
  if (n mod 9 =? 0) then Ok (n / 9) else Throw RuntimeError.

(** The loop of cancellation.cc:41-48, with [one] = true, and of cancellation.cc:53-60, with
    [one] = false: sum of powers of two at the positions where the bit is [one]. *)
Definition cancellation_bits (x : bv) (offset : nat) (one : bool) : outcome Z :=
  '(r, _) <- foldM (fun '(r, base) j =>
      b <- vget x j ;;
      Ok (if Bool.eqb b one then r + base else r, 2 * base)%Z) (seq (offset + 1) 8) (0%Z, 1%Z) ;;
  Ok r.

(** cancellation.cc:33-68; [size] is the size of the buffer *)
Definition cancellation_convert (size : nat) (x : bv) : outcome (list Q) :=
  _ <- assertb (9 * size <=? len x) ;;
  foldM (fun buffer i =>
    let offset := 9 * i in
    sign <- vget x offset ;;
    tmp <- (if negb sign then
              r <- cancellation_bits x offset true ;;
              _ <- assertb (0 <=? r)%Z ;; _ <- assertb (r <=? 255)%Z ;;
              Ok (inject_Z r / 100)%Q
            else
              r <- cancellation_bits x offset false ;;
              let r := (r + 1)%Z in
              _ <- assertb (1 <=? r)%Z ;; _ <- assertb (r <=? 256)%Z ;;
              Ok (inject_Z (- r) / 100)%Q) ;;
    vset buffer i tmp) (seq 0 size) (repeat 0%Q size).

(** std::partial_sum in place *)
Fixpoint partial_sums (acc : Q) (l : list Q) : list Q :=
  match l with
  | [] => []
  | a :: t => (acc + a)%Q :: partial_sums (acc + a)%Q t
  end.

(** std::transform with fabs, then the opposite of std::accumulate: cancellation.cc:76-78 and
    88-90 *)
Definition minus_sum_abs (l : list Q) : Q := (- fold_left (fun acc a => acc + Qabs a) l 0)%Q.

(** cancellation.cc:71-79. std::partial_sum copies the first element; the model adds it to 0. *)
Definition cancellation_evaluate (size : nat) (x : bv) : outcome Q :=
  buffer <- cancellation_convert size x ;;
  Ok (minus_sum_abs (partial_sums 0 buffer)).

(** cancellation.cc:82-91; [sn] is the sine *)
Definition sinus_cancellation_evaluate (sn : Q -> Q) (size : nat) (x : bv) : outcome Q :=
  buffer <- cancellation_convert size x ;;
  buffer <- foldM (fun buffer i =>
      p <- vget buffer (i - 1) ;;
      a <- vget buffer i ;;
      vset buffer i (a + sn p)%Q) (seq 1 (len buffer - 1)) buffer ;;
  Ok (minus_sum_abs buffer).

(** * Factorization: factorization.{hh,cc} *)

(** mpz_set_str(s, 10) of GMP: leading blanks, an optional minus sign, then a digit followed
    by digits and blanks. [None] when it fails. *)
Fixpoint without_spaces (s : string) : string :=
  match s with
  | EmptyString => EmptyString
  | String c s' => if is_space c then without_spaces s' else String c (without_spaces s')
  end.
Fixpoint every_char (P : ascii -> bool) (s : string) : bool :=
  match s with
  | EmptyString => true
  | String c s' => P c && every_char P s'
  end.
Definition mpz_set_str10 (s : string) : option Z :=
  let s := fst (take (fun c => negb (Ascii.eqb c zero)) s) in
  let s := skip is_space s in
  let '(neg, s) := match s with
                   | String c s' => if Ascii.eqb c "-" then (true, s') else (false, s)
                   | EmptyString => (false, s)
                   end in
  match s with
  | EmptyString => None
  | String c _ =>
      if is_digit c && every_char (fun c => is_digit c || is_space c) s then
        let v := Z.of_N (digits_value (without_spaces s) 0) in
        Some (if neg : bool then (- v)%Z else v)
      else None
  end.

(** mpz_sizeinbase(z, 2): number of binary digits of the absolute value, 1 for zero *)
Definition size_in_base2 (z : Z) : nat := if (z =? 0)%Z then 1 else N.size_nat (Z.to_N (Z.abs z)).

(** Members of the class. [f_second] is the last value of the second factor, null at
    construction. *)
Record factorization := mk_factorization
  { f_number : Z; f_number_size : nat; f_first_size : nat; f_second_size : nat; f_second : Z }.

(** factorization.cc:57-79; [second] is the second factor of the object, unchanged *)
Definition set_number (second : Z) (number : string) : outcome factorization :=
  match mpz_set_str10 number with
  | None => Throw RuntimeError
  | Some n =>
      let size := size_in_base2 n in
      Ok (mk_factorization n size (if Nat.even size then size / 2 else size / 2 + 1) (size - 1) second)
  end.

(** The number whose binary digits, most significant first, are x[first], ..., x[first + size - 1]:
    the loops writing characters and the calls of mpz_set_str at factorization.cc:89-101 *)
Definition binary_number (x : bv) (first size : nat) : outcome Z :=
  foldM (fun acc i => b <- vget x (first + i) ;; Ok (2 * acc + (if (b : bool) then 1 else 0))%Z) (seq 0 size) 0%Z.

(** factorization.cc:82-102: the factors. mpz_set_str fails on the empty string, and then
    leaves the second factor unchanged. *)
Definition convert (f : factorization) (x : bv) : outcome (Z * Z) :=
  _ <- assertb (len x =? f_first_size f + f_second_size f) ;;
  a <- binary_number x 0 (f_first_size f) ;;
  b <- binary_number x (f_first_size f) (f_second_size f) ;;
  Ok (a, if f_second_size f =? 0 then f_second f else b).

(** Sum of i + 1 for the i in the list satisfying the test: the loops of
    factorization.cc:118-131 *)
Definition ranks (test : nat -> bool) (l : list nat) (result : Z) : Z :=
  fold_left (fun result i => if test i then (result + Z.of_nat (i + 1))%Z else result) l result.

(** factorization.cc:105-134: value, and the new state of the object *)
Definition factorization_evaluate (f : factorization) (x : bv) : outcome (Z * factorization) :=
  '(a, b) <- convert f x ;;
  _ <- assertb (0 <=? a)%Z ;;
  _ <- assertb (0 <=? b)%Z ;;
  let product := (a * b)%Z in
  let psize := size_in_base2 product in
  let nsize := f_number_size f in
  let low := Nat.min nsize psize in
  let high := Nat.max nsize psize in
  let pbit i := Z.testbit product (Z.of_nat i) in
  let nbit i := Z.testbit (f_number f) (Z.of_nat i) in
  let r := ranks (fun i => negb (Bool.eqb (pbit i) (nbit i))) (seq 0 low) 0%Z in
  let r := if high =? psize then ranks pbit (seq low (high - low)) r else ranks nbit (seq low (high - low)) r in
  Ok ((- r)%Z, mk_factorization (f_number f) nsize (f_first_size f) (f_second_size f) b).

(** * Tsp: tsp.{hh,cc} *)

(** v.resize(n, a) *)
Definition resize {A} (n : nat) (a : A) (l : list A) : list A := firstn n l ++ repeat a (n - len l).

(** m[i][j] = a *)
Definition mset {A} (m : list (list A)) (i j : nat) (a : A) : outcome (list (list A)) :=
  row <- vget m i ;; row <- vset row j a ;; vset m i row.

(** m[i][j] *)
Definition mget {A} (m : list (list A)) (i j : nat) : outcome A := row <- vget m i ;; vget row j.

(** _distances.resize(n) and the resize of each row: tsp.hh:100-102 and tsp.cc:108-110 *)
Definition tsp_resize (n : nat) (d : list (list Z)) : list (list Z) := map (resize n 0%Z) (resize n [] d).

(** tsp.hh:97-109. [d] is the matrix before the call, [gen c] the c-th number generated, as
    stored in a float. *)
Definition tsp_generate (n : nat) (gen : nat -> Z) (d : list (list Z)) : outcome (list (list Z)) :=
  _ <- assertb (0 <? n) ;;
  '(d, _) <- foldM (fun '(d, c) i =>
      foldM (fun '(d, c) j =>
        d <- mset d i j (gen c) ;;
        d <- mset d j i (gen c) ;;
        Ok (d, c + 1)) (seq 0 i) (d, c)) (seq 0 n) (tsp_resize n d, 0) ;;
  Ok d.

(** Types of edge weight: tsp.hh:61-68 *)
Inductive edge_weight := ATT | EUC_2D.

(** tsp.cc:133-140, with exact arithmetic on integer coordinates: [t] is the integer part of
    sqrt(s / 10) + 1/2 and the test is t < sqrt(s / 10). *)
Definition att_length (dx dy : Z) : Z :=
  let s := (dx * dx + dy * dy)%Z in
  let t := ((Z.sqrt (40 * s) + 10) / 20)%Z in
  if (10 * (t * t) <? s)%Z then (t + 1)%Z else t.

(** tsp.cc:155-157, with exact arithmetic on integer coordinates: integer part of
    sqrt(s) + 1/2 *)
Definition euc_length (dx dy : Z) : Z :=
  let s := (dx * dx + dy * dy)%Z in ((Z.sqrt (4 * s) + 1) / 2)%Z.

Definition edge_length (t : edge_weight) : Z -> Z -> Z :=
  match t with ATT => att_length | EUC_2D => euc_length end.

(** compute_distances: tsp.cc:100-161. The coordinates are integers. *)
Definition tsp_distances (t : edge_weight) (n : nat) (xs ys : list Z) (d : list (list Z)) : outcome (list (list Z)) :=
  _ <- assertb (0 <? n) ;;
  let xs := resize n 0%Z xs in
  let ys := resize n 0%Z ys in
  d <- foldM (fun d i => mset d i i 0%Z) (seq 0 n) (tsp_resize n d) ;;
  foldM (fun d i =>
    foldM (fun d j =>
      xi <- vget xs i ;; xj <- vget xs j ;;
      yi <- vget ys i ;; yj <- vget ys j ;;
      let dij := edge_length t (xi - xj)%Z (yi - yj)%Z in
      d <- mset d i j dij ;;
      mset d j i dij) (seq 0 i) d) (seq 1 (n - 1)) d.

(** tsp.cc:192-202 *)
Definition tsp_evaluate (d : list (list Z)) (permutation : list nat) : outcome Z :=
  _ <- assertb (0 <? len d) ;;
  let last := len d - 1 in
  result <- foldM (fun result i =>
      a <- vget permutation i ;; b <- vget permutation (i + 1) ;;
      w <- mget d a b ;; Ok (result + w)%Z) (seq 0 last) 0%Z ;;
  a <- vget permutation last ;; b <- vget permutation 0 ;;
  w <- mget d a b ;;
  Ok (- (result + w))%Z.

(** * NkLandscape: nk-landscape.{hh,cc} *)

Record nk := mk_nk { nk_neighbors : list (list nat); nk_functions : list (list Q) }.

(** nk-landscape.cc:54-64: sampling the neighbors of site [i] among [n] sites, [u j] being the
    uniform draw for site [j]. The row is [row], [a] neighbors are missing, [b] sites are left. *)
Fixpoint sample_neighbors (i : nat) (sites : list nat) (u : nat -> Q) (row : list nat) (a b : nat)
  : outcome (list nat * nat) :=
  match sites with
  | [] => Ok (row, a)
  | j :: sites' =>
      if a =? 0 then Ok (row, a)
      else if j =? i then sample_neighbors i sites' u row a b
      else
        _ <- assertb (a <=? b) ;;
        if negb (Qle_bool (inject_Z (Z.of_nat a) / inject_Z (Z.of_nat b)) (u j)) then
          row <- vset row (a - 1) j ;;
          sample_neighbors i sites' u row (a - 1) (b - 1)
        else sample_neighbors i sites' u row a (b - 1)
  end.

(** nk-landscape.cc:33-67 on the object [o]. [u i j] is the uniform draw for the sites i and
    j. The shift of an int by more than 30 bits overflows. *)
Definition random_structure (n k : nat) (u : nat -> nat -> Q) (o : nk) : outcome nk :=
  _ <- assertb (0 <? n) ;; _ <- assertb (0 <? k) ;;
  _ <- assertb (k + 1 <=? 30) ;;
  let neighbors := resize n (repeat 0 (k + 1)) (nk_neighbors o) in
  let functions := resize n (repeat 0%Q (2 ^ (k + 1))) (nk_functions o) in
  let length := len functions in
  neighbors <- foldM (fun neighbors i =>
      row <- vget neighbors i ;;
      _ <- assertb (0 <? len row) ;;
      let a := len row - 1 in
      let b := length - 1 in
      row <- vset row a i ;;
      '(row, a) <- sample_neighbors i (seq 0 length) (u i) row a b ;;
      _ <- assertb (a =? 0) ;;
      vset neighbors i row) (seq 0 length) neighbors ;;
  Ok (mk_nk neighbors functions).

(** nk-landscape.hh:88-98. [gen i j] is the number generated for value j of function i. *)
Definition nk_generate (n k : nat) (u : nat -> nat -> Q) (gen : nat -> nat -> Q) (o : nk) : outcome nk :=
  _ <- assertb (0 <? n) ;; _ <- assertb (0 <? k) ;;
  o <- random_structure n k u o ;;
  functions <- foldM (fun functions i =>
      row <- vget functions i ;;
      row <- foldM (fun row j => vset row j (gen i j)) (seq 0 (len row)) row ;;
      vset functions i row) (seq 0 (len (nk_functions o))) (nk_functions o) ;;
  Ok (mk_nk (nk_neighbors o) functions).

(** nk-landscape.cc:76-83: the index of the value of a partial function *)
Definition nk_index (s : bv) (nh : list nat) : outcome nat :=
  '(index, _) <- foldM (fun '(index, base) j =>
      b <- vget s j ;; Ok (if (b : bool) then index + base else index, 2 * base)) nh (0, 1) ;;
  Ok index.

(** nk-landscape.cc:70-89 *)
Definition nk_evaluate (o : nk) (s : bv) : outcome Q :=
  result <- foldM (fun result i =>
      nh <- vget (nk_neighbors o) i ;;
      index <- nk_index s nh ;;
      f <- vget (nk_functions o) i ;;
      v <- vget f index ;;
      Ok (result + v)%Q) (seq 0 (len (nk_functions o))) 0%Q ;;
  Ok (result / inject_Z (Z.of_nat (len (nk_functions o))))%Q.

(** * Qubo: qubo.{hh,cc} *)

(** qubo.cc:140-160 *)
Definition qubo_evaluate (q : list (list Z)) (x : bv) : outcome Z :=
  _ <- assertb (len x =? len q) ;;
  foldM (fun result i =>
    b <- vget x i ;;
    if negb b then Ok result
    else
      line <- vget q i ;;
      d <- vget line i ;;
      foldM (fun result j =>
        c <- vget x j ;;
        if (c : bool) then w <- vget line j ;; Ok (result + w)%Z else Ok result)
        (seq (i + 1) (len q - (i + 1))) (result + d)%Z) (seq 0 (len q)) 0%Z.

(** Local variables of load: the counts of the p line once it is read, the matrix, and the
    numbers of elements read. *)
Record qubo_state := mk_qubo { q_spec : bool; q_dimension : Z; q_num_diagonal : Z; q_num_other : Z;
  q_matrix : list (list Z); q_count_diagonal : Z; q_count_other : Z }.

(** qubo.cc:58-95: a line starting with p *)
Definition qubo_spec (line : string) (s : qubo_state) : outcome qubo_state :=
  if q_spec s then Throw RuntimeError
  else
    let bad {A} : outcome A := Throw RuntimeError in
    match read_word (open_string line) with
    | Some (w, i) =>
        if negb (String.eqb w "p") then bad
        else match read_word i with
        | Some (w, i) =>
            if negb (String.eqb w "qubo") then bad
            else match read_int i with
            | Some (n, i) =>
                if negb (n =? 0)%Z then bad
                else match read_int i with
                | Some (dimension, i) =>
                    if (dimension <=? 0)%Z then bad
                    else match read_int i with
                    | Some (nd, i) =>
                        if (nd <? 0)%Z then bad
                        else match read_int i with
                        | Some (no, _) =>
                            if (no <? 0)%Z then bad
                            else Ok (mk_qubo true dimension nd no
                                   (repeat (repeat 0%Z (Z.to_nat dimension)) (Z.to_nat dimension))
                                   (q_count_diagonal s) (q_count_other s))
                        | None => bad
                        end
                    | None => bad
                    end
                | None => bad
                end
            | None => bad
            end
        | None => bad
        end
    | None => bad
    end.

(** qubo.cc:97-129: any other line. [read_float] reads a float from the stream. *)
Definition qubo_element (read_float : istr -> option (Z * istr)) (line : string) (s : qubo_state)
  : outcome qubo_state :=
  if negb (q_spec s) then Throw RuntimeError
  else
    _ <- assertb (0 <? q_dimension s)%Z ;;
    let bad {A} : outcome A := Throw RuntimeError in
    match read_int (open_string line) with
    | Some (i, r) =>
        if (i <? 0)%Z || negb (i <? q_dimension s)%Z then bad
        else match read_int r with
        | Some (j, r) =>
            if (j <? 0)%Z || negb (j <? q_dimension s)%Z then bad
            else if (j <? i)%Z then bad
            else match read_float r with
            | Some (value, _) =>
                if (value =? 0)%Z then bad
                else
                  m <- mset (q_matrix s) (Z.to_nat i) (Z.to_nat j) (- value)%Z ;;
                  let d := if (i =? j)%Z then 1%Z else 0%Z in
                  Ok (mk_qubo true (q_dimension s) (q_num_diagonal s) (q_num_other s) m
                    (q_count_diagonal s + d)%Z (q_count_other s + (1 - d))%Z)
            | None => bad
            end
        | None => bad
        end
    | None => bad
    end.

(** qubo.cc:47-130: the body of the loop *)
Definition qubo_line (read_float : istr -> option (Z * istr)) (s : qubo_state) (line : string) : outcome qubo_state :=
  match line with
  | EmptyString => Ok s
  | String c _ =>
      if Ascii.eqb c "c" then Ok s
      else if Ascii.eqb c "p" then qubo_spec line s
      else qubo_element read_float line s
  end.

(** qubo.cc:37-137 on the object with matrix [q] *)
Definition qubo_load (read_float : istr -> option (Z * istr)) (q : list (list Z)) (text : string)
  : outcome (list (list Z)) :=
  s <- foldM (qubo_line read_float) (split_lines text) (mk_qubo false 0 0 0 q 0 0) ;;
  if negb (q_count_other s =? q_num_other s)%Z then Throw RuntimeError
  else if negb (q_count_diagonal s =? q_num_diagonal s)%Z then Throw RuntimeError
  else Ok (q_matrix s).
