(** Model of the representations (lib/hnco/representations/) and of the function
    adapters (lib/hnco/functions/multivariate-function-adapter.hh,
    permutation-function-adapter.hh, universal-function-adapter.hh).

    Integers are exact; overflow of signed arithmetic in the constructors is UB.
    Values computed with std::log are arguments of the model ([lg] stands for
    ceil(log(x) / log(2)) as computed in floating point): nothing is assumed on
    their rounding.  Floating point numbers are exact rationals. *)

From Coq Require Import ZArith NArith QArith Permutation.
From Verif Require Import Base BitVector_Model BitMatrix_Model Iterator_Model Map_Model.
Local Open Scope nat_scope.

(** A representation with values in [D]: its size and unpack. *)
Record rep (D : Type) := mk_rep { rep_size : nat; rep_unpack : bv -> nat -> outcome D }.
Arguments mk_rep {D}.
Arguments rep_size {D}.
Arguments rep_unpack {D}.

(** * Dyadic integers, integer.hh *)

(** std::numeric_limits<T>::max() for a signed type of [w] bits *)
Definition int_max (w : nat) : Z := (2 ^ (Z.of_nat w - 1) - 1)%Z.

(** integer.hh:50-68 *)
Definition difference_is_safe (w : nat) (a b : Z) : outcome bool :=
  _ <- assertb (a <? b)%Z ;;
  if (a <? 0)%Z && (b <? 0)%Z then Ok true
  else if (0 <=? a)%Z && (0 <=? b)%Z then Ok true
  else
    _ <- assertb (a <? 0)%Z ;;
    _ <- assertb (0 <=? b)%Z ;;
    _ <- assertb (- a <=? int_max w)%Z ;; (* no overflow *)
    Ok (- a <=? int_max w - b)%Z.

Record dint := mk_dint { di_size : nat; di_exact : nat; di_lower : Z; di_upper : Z }.

(** integer.hh:88-95 *)
Definition exact_size (w : nat) (lg : Z -> nat) (lower upper : Z) : outcome nat :=
  _ <- assertb (lower <? upper)%Z ;;
  safe <- difference_is_safe w lower upper ;;
  _ <- assertb safe ;;
  _ <- assertb (upper - lower + 1 <=? int_max w)%Z ;; (* no overflow *)
  let e := lg (upper - lower + 1)%Z in
  _ <- assertb (0 <? e) ;;
  _ <- assertb (e <? w) ;;
  Ok e.

(** integer.hh:121-132 *)
Definition dint_sized (w : nat) (lg : Z -> nat) (lower upper : Z) (size : nat) : outcome dint :=
  _ <- assertb (0 <? size) ;;
  _ <- assertb (size <? w) ;;
  e <- exact_size w lg lower upper ;;
  Ok (mk_dint (if e <? size then e else size) e lower upper).

(** integer.hh:142-148 *)
Definition dint_full (w : nat) (lg : Z -> nat) (lower upper : Z) : outcome dint :=
  e <- exact_size w lg lower upper ;;
  Ok (mk_dint e e lower upper).

(** integer.hh:159-170; [sz e] is std::ceil(e - log(precision) / log(2)) *)
Definition dint_precision (w : nat) (lg : Z -> nat) (sz : nat -> Z) (lower upper precision : Z) : outcome dint :=
  if (precision <? 1)%Z then Throw RuntimeError
  else
    e <- exact_size w lg lower upper ;;
    Ok (mk_dint (Z.to_nat (Z.max 1 (Z.min (sz e) (Z.of_nat e)))) e lower upper).

(** integer.hh:177-184 *)
Definition dint_count (w : nat) (lg : Z -> nat) (n : Z) : outcome dint :=
  _ <- assertb (0 <? n)%Z ;;
  dint_full w lg 0 (n - 1).

(** integer.hh:190-201; [size_t] has 64 bits *)
Definition dint_unpack (d : dint) (x : bv) (start : nat) : outcome Z :=
  u0 <- bv_to_size_type_range x start (start + di_size d) ;;
  let u1 := if di_size d <? di_exact d then wrap64 (N.shiftl u0 (N.of_nat (di_exact d - di_size d))) else u0 in
  let m := Z.to_N (di_upper d - di_lower d) in
  let u := if (m <? u1)%N then m else u1 in
  let result := (di_lower d + Z.of_N u)%Z in
  _ <- assertb (di_lower d <=? result)%Z ;;
  Ok (if (di_upper d <? result)%Z then di_upper d else result).

Definition dint_rep (d : dint) : rep Z := mk_rep (di_size d) (dint_unpack d).

(** * Dyadic floats, float.hh *)

Record dfloat := mk_dfloat { df_lengths : list Q; df_lower : Q; df_length : Q }.

(** float.hh:63-73 *)
Fixpoint dyadic_lengths (size : nat) (x : Q) : list Q :=
  match size with
  | 0 => []
  | S size' => x :: dyadic_lengths size' (x / 2)
  end.

(** float.hh:89-97 *)
Definition dfloat_make (lower upper : Q) (size : nat) : outcome dfloat :=
  _ <- assertb (negb (Qle_bool upper lower)) ;;
  _ <- assertb (0 <? size) ;;
  Ok (mk_dfloat (dyadic_lengths size (1 # 2)) lower (upper - lower)).

(** float.hh:108-117; [sz] is the size computed with std::log *)
Definition dfloat_precision (sz : Q -> nat) (lower upper precision : Q) : outcome dfloat :=
  _ <- assertb (negb (Qle_bool upper lower)) ;;
  _ <- assertb (negb (Qle_bool precision 0)) ;;
  let size := sz ((upper - lower) / precision)%Q in
  _ <- assertb (0 <? size) ;;
  Ok (mk_dfloat (dyadic_lengths size (1 # 2)) lower (upper - lower)).

(** float.hh:129-135 *)
Fixpoint dyadic_sum (p : bv) (lengths : list Q) (result : Q) : Q :=
  match p, lengths with
  | b :: p', l :: ls => dyadic_sum p' ls (if b then (result + l)%Q else result)
  | _, _ => result
  end.

(** float.hh:123-137 *)
Definition dfloat_unpack (d : dfloat) (x : bv) (start : nat) : outcome Q :=
  let size := length (df_lengths d) in
  _ <- assertb (start <? length x) ;;
  _ <- assertb ((start + 1 <=? start + size) && (start + size <? length x + 1)) ;;
  Ok (df_lower d + df_length d * dyadic_sum (firstn size (skipn start x)) (df_lengths d) 0)%Q.

Definition dfloat_rep (d : dfloat) : rep Q := mk_rep (length (df_lengths d)) (dfloat_unpack d).

(** * Complex numbers, complex.hh:83-92 *)
Definition complex_rep {D : Type} (re im : rep D) : rep (D * D) :=
  mk_rep (rep_size re + rep_size im) (fun x start =>
    _ <- assertb (start <? length x) ;;
    a <- rep_unpack re x start ;;
    b <- rep_unpack im x (start + rep_size re) ;;
    Ok (a, b)).

(** * Categories, categorical.hh *)

(** categorical.hh:78-84, 165-171: index of the most significant bit of the
    bitset, 0 when there is none *)
Fixpoint msb (index : nat) (n : nat) : nat :=
  match index with
  | 0 => 0
  | S i => if Nat.testbit n i then i else msb i n
  end.

(** std::bitset::count *)
Definition bit_count (w n : nat) : nat := length (filter (Nat.testbit n) (seq 0 w)).

Record lincat := mk_lincat { lc_num : nat; lc_rows : nat; lc_cols : nat; lc_A : bm }.

(** categorical.hh:110-115: the columns are set to the vectors returned by the
    iterator, which does not depend on the matrix *)
Definition fill_columns (ncols : nat) (ys : list bv) (st : bm * nat) : outcome (bm * nat) :=
  foldM (fun '(A, j) y =>
    _ <- assertb (j <? ncols) ;;
    A' <- bm_set_column A j y ;;
    Ok (A', j + 1)) ys st.

(** categorical.hh:72-116; [w] = 8 * sizeof(unsigned) *)
Definition lincat_make (w : nat) (num_categories : nat) : outcome lincat :=
  _ <- assertb (0 <? num_categories) ;;
  let index := msb w num_categories in
  _ <- assertb (index <? w) ;;
  '(index, b) <- (if bit_count w num_categories =? 1 then Ok (index, num_categories)
                  else _ <- assertb (index + 1 <? w) ;; Ok (index + 1, 2 ^ (index + 1))) ;;
  let nrows := index in
  let ncols := b - 1 in
  _ <- assertb (0 <? ncols) ;;
  A <- bm_rectangular nrows ncols ;;
  _ <- assertb (hc_has_next (hc_make nrows)) ;;
  '(y, it) <- hc_next (hc_make nrows) ;;
  _ <- assertb (bv_is_zero y) ;;
  '(ys, _, _) <- drain (fun s => Ok (hc_has_next s)) hc_next (2 ^ nrows) it ;;
  '(A', _) <- fill_columns ncols ys (A, 0) ;;
  Ok (mk_lincat num_categories nrows ncols A').

(** categorical.hh:122-131 *)
Definition lincat_unpack (r : lincat) (x : bv) (start : nat) : outcome N :=
  _ <- assertb (start <? length x) ;;
  _ <- assertb ((start + 1 <=? start + lc_cols r) && (start + lc_cols r <? length x + 1)) ;;
  y <- bm_multiply (repeat false (lc_rows r)) (lc_A r) (firstn (lc_cols r) (skipn start x)) ;;
  _ <- assertb (0 <? lc_num r) ;;
  u <- bv_to_size_type y ;;
  Ok (u mod N.of_nat (lc_num r))%N.

Definition lincat_rep (r : lincat) : rep N := mk_rep (lc_cols r) (lincat_unpack r).

Record intcat := mk_intcat { ic_num : nat; ic_size : nat }.

(** categorical.hh:160-177; [w] = 8 * sizeof(std::size_t) *)
Definition intcat_make (w : nat) (num_categories : nat) : outcome intcat :=
  _ <- assertb (0 <? num_categories) ;;
  let index := msb w num_categories in
  _ <- assertb (index <? w) ;;
  Ok (mk_intcat num_categories (if bit_count w num_categories =? 1 then index else index + 1)).

(** categorical.hh:183-189 *)
Definition intcat_unpack (r : intcat) (x : bv) (start : nat) : outcome N :=
  _ <- assertb (start <? length x) ;;
  _ <- assertb ((start + 1 <=? start + ic_size r) && (start + ic_size r <? length x + 1)) ;;
  _ <- assertb (0 <? ic_num r) ;;
  u <- bv_to_size_type_range x start (start + ic_size r) ;;
  Ok (u mod N.of_nat (ic_num r))%N.

Definition intcat_rep (r : intcat) : rep N := mk_rep (ic_size r) (intcat_unpack r).

(** * Permutations, permutation.hh *)

Record permrep := mk_permrep { pr_num : nat; pr_element : nat }.

(** permutation.hh:62-71 *)
Definition permrep_make (lg : Z -> nat) (num_elements additional : nat) : outcome permrep :=
  _ <- assertb (0 <? num_elements) ;;
  _ <- assertb (0 <? additional) ;;
  Ok (mk_permrep num_elements (lg (Z.of_nat num_elements) + additional)).

Definition pr_size (r : permrep) : nat := pr_num r * pr_element r.

(** conversion from std::size_t to int (32 bits) *)
Definition to_int (u : N) : Z :=
  let m := (u mod 2 ^ 32)%N in
  if (m <? 2 ^ 31)%N then Z.of_N m else (Z.of_N m - 2 ^ 32)%Z.

(** permutation.hh:84-88 *)
Fixpoint perm_values (num element : nat) (x : bv) (start : nat) : outcome (list Z) :=
  match num with
  | 0 => Ok []
  | S num' =>
      u <- bv_to_size_type_range x start (start + element) ;;
      vs <- perm_values num' element x (start + element) ;;
      Ok (to_int u :: vs)
  end.

(** permutation.hh:80-94; [sh] is std::shuffle, [srt] is std::sort *)
Definition permrep_unpack (sh : list nat -> list nat) (srt : (nat -> nat -> bool) -> list nat -> list nat)
    (r : permrep) (perm : list nat) (x : bv) (start : nat) : outcome (list nat) :=
  _ <- assertb (length perm =? pr_num r) ;;
  values <- perm_values (pr_num r) (pr_element r) x start ;;
  let p := srt (fun i j => (nth i values 0 <? nth j values 0)%Z) (sh (seq 0 (pr_num r))) in
  valid <- perm_is_valid p ;;
  _ <- assertb valid ;;
  Ok p.

(** The permutation filled by the adapters has the right size,
    permutation-function-adapter.hh:72, universal-function-adapter.hh:155-157 *)
Definition permrep_rep sh srt (r : permrep) : rep (list nat) :=
  mk_rep (pr_size r) (permrep_unpack sh srt r (repeat 0 (pr_num r))).

(** * Value sets, value-set.hh *)

(** value-set.hh:53-57; [sorted] is the result of std::sort *)
Definition valueset_make (w : nat) (lg : Z -> nat) (sorted : list Z) : outcome (list Z * dint) :=
  d <- dint_count w lg (Z.of_nat (length sorted)) ;; Ok (sorted, d).

(** value-set.hh:61-66 *)
Definition valueset_unpack (v : list Z * dint) (x : bv) (start : nat) : outcome Z :=
  _ <- assertb (start <? length x) ;;
  index <- dint_unpack (snd v) x start ;;
  _ <- assertb ((0 <=? index)%Z && (index <? Z.of_nat (length (fst v)))%Z) ;;
  vget (fst v) (Z.to_nat index).

Definition valueset_rep (v : list Z * dint) : rep Z := mk_rep (di_size (snd v)) (valueset_unpack v).

(** * Adapters *)

(** multivariate-function-adapter.hh:65-71, 166-173; also returns the final value
    of [start] *)
Fixpoint unpack_vars {D : Type} (reps : list (rep D)) (x : bv) (start : nat) : outcome (list D * nat) :=
  match reps with
  | [] => Ok ([], start)
  | r :: reps' =>
      v <- rep_unpack r x start ;;
      '(vs, e) <- unpack_vars reps' x (start + rep_size r) ;;
      Ok (v :: vs, e)
  end.

(** multivariate-function-adapter.hh:97-102, 195-200 *)
Definition total_size {D : Type} (reps : list (rep D)) : nat :=
  fold_left (fun result r => result + rep_size r) reps 0.

(** multivariate-function-adapter.hh:109-113, 207-211; [f] is the function followed
    by the converter *)
Definition adapter_evaluate {D V : Type} (reps : list (rep D)) (f : list D -> outcome V) (x : bv) : outcome V :=
  _ <- assertb (length x =? total_size reps) ;;
  '(vs, _) <- unpack_vars reps x 0 ;;
  f vs.

(** universal-function-adapter.hh:134-171, 176-180, 89-114.  The five kinds of
    representations. *)
Definition universal_evaluate {I F C K P V : Type} (num_boolean : nat)
    (ri : list (rep I)) (rf : list (rep F)) (rc : list (rep C)) (rk : list (rep K)) (rp : list (rep P))
    (f : bv -> list I -> list F -> list C -> list K -> list P -> outcome V) (x : bv) : outcome V :=
  _ <- assertb (length x =? num_boolean + total_size ri + total_size rf + total_size rc + total_size rk + total_size rp) ;;
  let b := firstn num_boolean x in
  '(vi, s1) <- unpack_vars ri x num_boolean ;;
  '(vf, s2) <- unpack_vars rf x s1 ;;
  '(vc, s3) <- unpack_vars rc x s2 ;;
  '(vk, s4) <- unpack_vars rk x s3 ;;
  '(vp, _) <- unpack_vars rp x s4 ;;
  f b vi vf vc vk vp.
