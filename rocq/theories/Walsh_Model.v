(** Model of Walsh expansions, Ising models and Walsh transforms:
    lib/hnco/functions/collection/walsh/*.{hh,cc},
    lib/hnco/functions/collection/ising/*.{hh,cc},
    lib/hnco/functions/function.cc.

    Coefficients and values are integers with exact arithmetic (multiples of the
    smallest positive double); rounding of additions is not modelled. *)

From Coq Require Import ZArith NArith.
From Verif Require Import Base BitVector_Model Iterator_Model.
Local Open Scope nat_scope.

(** functions/walsh-term.hh:33-54: feature and coefficient *)
Definition walsh_term := (list bool * Z)%type.

(** walsh-expansion.cc:33-44 *)
Definition walsh_evaluate (terms : list walsh_term) (x : bv) : outcome Z :=
  foldM (fun result t =>
    d <- bv_dot_product x (fst t) ;;
    Ok (if (d : bool) then (result - snd t)%Z else (result + snd t)%Z)) terms 0%Z.

(** walsh-expansion-1.cc:34-44 *)
Definition walsh1_maximum (linear : list Z) : Z :=
  fold_left (fun result w => if (0 <? w)%Z then (result + w)%Z else (result - w)%Z) linear 0%Z.

(** Loop "if (s[i]) result -= a[i]; else result += a[i];" shared by
    walsh-expansion-1.cc:55-59, walsh-expansion-2.cc:61-65 and
    nearest-neighbor-ising-model-1.cc:70-74 *)
Definition spin_loop (a : list Z) (s : bv) (is_ : list nat) (result : Z) : outcome Z :=
  foldM (fun result i =>
    b <- vget s i ;;
    c <- vget a i ;;
    Ok (if (b : bool) then (result - c)%Z else (result + c)%Z)) is_ result.

(** Loop "if (x[index]) value += 2 * a[index]; else value -= 2 * a[index];"
    shared by walsh-expansion-1.cc:72-76 and
    nearest-neighbor-ising-model-1.cc:139-144 *)
Definition spin_incremental (a : list Z) (x : bv) (flipped : list nat) (value : Z) : outcome Z :=
  foldM (fun value index =>
    b <- vget x index ;;
    c <- vget a index ;;
    Ok (if (b : bool) then (value + 2 * c)%Z else (value - 2 * c)%Z)) flipped value.

(** walsh-expansion-1.cc:47-62 *)
Definition walsh1_evaluate (linear : list Z) (s : bv) : outcome Z :=
  _ <- assertb (length s =? length linear) ;;
  spin_loop linear s (seq 0 (length linear)) 0%Z.

(** walsh-expansion-1.cc:65-78 *)
Definition walsh1_incremental (linear : list Z) (x : bv) (value : Z) (flipped : list nat) : outcome Z :=
  _ <- assertb (length x =? length linear) ;;
  spin_incremental linear x flipped value.

(** walsh-expansion-2.cc:52-79 *)
Definition walsh2_evaluate (linear : list Z) (quadratic : list (list Z)) (s : bv) : outcome Z :=
  _ <- assertb (length s =? length linear) ;;
  _ <- assertb (length s =? length quadratic) ;;
  result <- spin_loop linear s (seq 0 (length linear)) 0%Z ;;
  foldM (fun result i =>
    line <- vget quadratic i ;;
    b <- vget s i ;;
    foldM (fun result j =>
      c <- vget s j ;;
      q <- vget line j ;;
      Ok (if Bool.eqb c b then (result + q)%Z else (result - q)%Z)) (seq 0 i) result)
    (seq 0 (length quadratic)) result.

(** * Ising models *)

(** Body of the interaction loops: couple the sites [a] and [b] with weight [c],
    nearest-neighbor-ising-model-1.cc:58-61 and similar *)
Definition couple (s : bv) (a b : nat) (c : Z) (result : Z) : outcome Z :=
  sa <- vget s a ;;
  sb <- vget s b ;;
  Ok (if Bool.eqb sa sb then (result + c)%Z else (result - c)%Z).

(** Body of the incremental interaction loops,
    nearest-neighbor-ising-model-1.cc:106-111 and similar *)
Definition couple_incremental (x flips : bv) (index neighbor : nat) (c : outcome Z) (value : Z) : outcome Z :=
  f <- vget flips neighbor ;;
  if (f : bool) then Ok value
  else
    a <- vget x index ;;
    b <- vget x neighbor ;;
    c <- c ;;
    Ok (if Bool.eqb a b then (value - 2 * c)%Z else (value + 2 * c)%Z).

(** nearest-neighbor-ising-model-1.cc:45-77 *)
Definition ising1_evaluate (coupling field : list Z) (periodic : bool) (s : bv) : outcome Z :=
  _ <- assertb (0 <? length coupling) ;;
  _ <- assertb (length s =? length coupling) ;;
  let n := length coupling in
  let last := n - 1 in
  result <- foldM (fun result i => c <- vget coupling i ;; couple s i (i + 1) c result) (seq 0 last) 0%Z ;;
  result <- (if periodic then c <- vget coupling last ;; couple s last 0 c result else Ok result) ;;
  spin_loop field s (seq 0 n) result.

(** nearest-neighbor-ising-model-1.cc:80-147.  [flips] is the member
    _flipped_bits; its value after the call is returned too. *)
Definition ising1_incremental (coupling field : list Z) (periodic : bool) (flips : bv)
    (x : bv) (value : Z) (flipped : list nat) : outcome (Z * bv) :=
  _ <- assertb (0 <? length coupling) ;;
  _ <- assertb (length x =? length coupling) ;;
  let n := length coupling in
  let last := n - 1 in
  _ <- assertb (bv_is_zero flips) ;;
  flips <- bv_flip_sbv flips flipped ;;
  (* right *)
  value <- foldM (fun value index =>
    if index =? last then
      if periodic then
        _ <- assertb (0 <? n) ;; couple_incremental x flips index 0 (vget coupling index) value
      else Ok value
    else
      _ <- assertb (index + 1 <? n) ;;
      couple_incremental x flips index (index + 1) (vget coupling index) value) flipped value ;;
  (* left *)
  value <- foldM (fun value index =>
    if index =? 0 then
      if periodic then
        _ <- assertb (last <? n) ;; couple_incremental x flips index last (vget coupling last) value
      else Ok value
    else
      _ <- assertb (index - 1 <? n) ;;
      couple_incremental x flips index (index - 1) (vget coupling (index - 1)) value) flipped value ;;
  flips <- bv_flip_sbv flips flipped ;;
  _ <- assertb (bv_is_zero flips) ;;
  value <- spin_incremental field x flipped value ;;
  Ok (value, flips).

Definition mget (m : list (list Z)) (i j : nat) : outcome Z := row <- vget m i ;; vget row j.

(** nearest-neighbor-ising-model-2.cc:48-130; [nr] and [nc] are _field.size()
    and _field[0].size().  The variable start is i * num_columns at each
    iteration. *)
Definition ising2_evaluate (right below field : list (list Z)) (periodic : bool) (s : bv) : outcome Z :=
  let nr := length field in
  _ <- assertb (0 <? nr) ;;
  row0 <- vget field 0 ;;
  let nc := length row0 in
  _ <- assertb (0 <? nc) ;;
  _ <- assertb (length s =? nr * nc) ;;
  let last_row := nr - 1 in
  let last_column := nc - 1 in
  result <- foldM (fun result i => foldM (fun result j =>
      let site := i * nc + j in
      _ <- assertb (site + 1 <? length s) ;;
      c <- mget right i j ;; couple s site (site + 1) c result) (seq 0 last_column) result)
    (seq 0 nr) 0%Z ;;
  result <- foldM (fun result i => foldM (fun result j =>
      let site := i * nc + j in
      _ <- assertb (site + nc <? length s) ;;
      c <- mget below i j ;; couple s site (site + nc) c result) (seq 0 nc) result)
    (seq 0 last_row) result ;;
  result <- (if periodic then
      result <- foldM (fun result i =>
        let start := i * nc in
        c <- mget right i last_column ;; couple s (start + last_column) start c result) (seq 0 nr) result ;;
      foldM (fun result j =>
        let start := last_row * nc in
        c <- mget below last_row j ;; couple s (start + j) j c result) (seq 0 nc) result
    else Ok result) ;;
  foldM (fun result i => foldM (fun result j =>
      b <- vget s (i * nc + j) ;;
      h <- mget field i j ;;
      Ok (if (b : bool) then (result - h)%Z else (result + h)%Z)) (seq 0 nc) result)
    (seq 0 nr) result.

(** nearest-neighbor-ising-model-2.cc:133-267 *)
Definition ising2_incremental (right below field : list (list Z)) (periodic : bool) (flips : bv)
    (x : bv) (value : Z) (flipped : list nat) : outcome (Z * bv) :=
  let nr := length field in
  _ <- assertb (0 <? nr) ;;
  row0 <- vget field 0 ;;
  let nc := length row0 in
  _ <- assertb (0 <? nc) ;;
  let n := nr * nc in
  _ <- assertb (length x =? n) ;;
  let last_row := nr - 1 in
  let last_column := nc - 1 in
  _ <- assertb (bv_is_zero flips) ;;
  flips <- bv_flip_sbv flips flipped ;;
  (* right, lines 153-174 *)
  value <- foldM (fun value index =>
    let i := index / nc in
    let j := index mod nc in
    if j =? last_column then
      if periodic then
        _ <- assertb (last_column <=? index) ;;
        let neighbor := index - last_column in
        _ <- assertb ((index <? n) && (neighbor <? n)) ;;
        couple_incremental x flips index neighbor (mget right i j) value
      else Ok value
    else
      let neighbor := index + 1 in
      _ <- assertb ((index <? n) && (neighbor <? n)) ;;
      couple_incremental x flips index neighbor (mget right i j) value) flipped value ;;
  (* left, lines 176-201 *)
  value <- foldM (fun value index =>
    let i := index / nc in
    let j := index mod nc in
    if j =? 0 then
      if periodic then
        let neighbor := index + last_column in
        _ <- assertb ((index <? n) && (neighbor <? n) && (last_column <? nc)) ;;
        couple_incremental x flips index neighbor (mget right i last_column) value
      else Ok value
    else
      _ <- assertb (0 <? index) ;;
      let neighbor := index - 1 in
      _ <- assertb ((index <? n) && (neighbor <? n) && (j - 1 <? nc)) ;;
      couple_incremental x flips index neighbor (mget right i (j - 1)) value) flipped value ;;
  (* below, lines 203-223 *)
  value <- foldM (fun value index =>
    let i := index / nc in
    let j := index mod nc in
    if i =? last_row then
      if periodic then
        _ <- assertb ((index <? n) && (j <? n)) ;;
        couple_incremental x flips index j (mget below i j) value
      else Ok value
    else
      let neighbor := index + nc in
      _ <- assertb ((index <? n) && (neighbor <? n)) ;;
      couple_incremental x flips index neighbor (mget below i j) value) flipped value ;;
  (* above, lines 225-251 *)
  value <- foldM (fun value index =>
    let i := index / nc in
    let j := index mod nc in
    if i =? 0 then
      if periodic then
        let neighbor := (n + j) - nc in
        _ <- assertb ((index <? n) && (neighbor <? n) && (last_row <? nr)) ;;
        couple_incremental x flips index neighbor (mget below last_row j) value
      else Ok value
    else
      _ <- assertb (nc <=? index) ;;
      let neighbor := index - nc in
      _ <- assertb ((index <? n) && (neighbor <? n) && (i - 1 <? nr)) ;;
      couple_incremental x flips index neighbor (mget below (i - 1) j) value) flipped value ;;
  flips <- bv_flip_sbv flips flipped ;;
  _ <- assertb (bv_is_zero flips) ;;
  value <- foldM (fun value index =>
    let i := index / nc in
    let j := index mod nc in
    b <- vget x index ;;
    h <- mget field i j ;;
    Ok (if (b : bool) then (value + 2 * h)%Z else (value - 2 * h)%Z)) flipped value ;;
  Ok (value, flips).

(** * Walsh transforms *)

(** function.cc:59-72 and 115-128: non zero terms.  The buffers bv and feature
    are overwritten at each iteration; [n] is their size. *)
Definition collect_terms (n : nat) (coefficients : list Z) : outcome (list walsh_term) :=
  foldM (fun terms i =>
    c <- vget coefficients i ;;
    if (c =? 0)%Z then Ok terms
    else
      u <- bv_from_size_type (repeat false n) (N.of_nat i) ;;
      feature <- bv_to_vector_bool (repeat false n) u ;;
      Ok (terms ++ [(feature, c)])) (seq 0 (length coefficients)) [].

(** 1 << n on int *)
Definition shift_one (n : nat) : outcome nat := _ <- assertb (n <? 31) ;; Ok (2 ^ n).

(** function.cc:32-74.  A loop over an iterator is modelled by draining the
    iterator first: the body does not use the iterator. *)
Definition walsh_transform (n : nat) (f : bv -> outcome Z) : outcome (list walsh_term) :=
  size <- shift_one n ;;
  '(xs, _, _) <- drain (fun s => Ok (hc_has_next s)) hc_next (2 ^ n + 1) (hc_init (hc_make n)) ;;
  '(coefficients, _) <- foldM (fun '(coefficients, features_it) x =>
      value <- f x ;;
      '(us, features_it, _) <- drain (fun s => Ok (hc_has_next s)) hc_next (2 ^ n + 1) (hc_init features_it) ;;
      coefficients <- foldM (fun coefficients u =>
        index <- bv_to_size_type u ;;
        _ <- assertb (N.to_nat index <? length coefficients) ;;
        d <- bv_dot_product x u ;;
        c <- vget coefficients (N.to_nat index) ;;
        vset coefficients (N.to_nat index) (if (d : bool) then (c - value)%Z else (c + value)%Z))
        us coefficients ;;
      Ok (coefficients, features_it)) xs (repeat 0%Z size, hc_make n) ;;
  collect_terms n coefficients.

(** std::copy(u.begin(), u.end(), x.begin()) *)
Definition copy_front (u x : bv) : outcome bv :=
  _ <- assertb (length u <=? length x) ;; Ok (u ++ skipn (length u) x).

(** std::copy_backward(v.begin(), v.end(), x.end()) *)
Definition copy_back (v x : bv) : outcome bv :=
  _ <- assertb (length v <=? length x) ;; Ok (firstn (length x - length v) x ++ v).

(** function.cc:92-110: body of the inner loop *)
Definition butterfly (f : bv -> outcome Z) (k : nat) (coefficients : list Z) (x : bv) (v : bv) : outcome (list Z * bv) :=
  x <- copy_back v x ;;
  x0 <- vset x k false ;;
  index0 <- bv_to_size_type x0 ;;
  _ <- assertb (N.to_nat index0 <? length coefficients) ;;
  x1 <- vset x0 k true ;;
  index1 <- bv_to_size_type x1 ;;
  _ <- assertb (N.to_nat index1 <? length coefficients) ;;
  '(f0, f1) <- (if k =? 0 then
      f0 <- f x0 ;; f1 <- f x1 ;; Ok (f0, f1)
    else
      f0 <- vget coefficients (N.to_nat index0) ;;
      f1 <- vget coefficients (N.to_nat index1) ;;
      Ok (f0, f1)) ;;
  coefficients <- vset coefficients (N.to_nat index0) (f0 + f1)%Z ;;
  coefficients <- vset coefficients (N.to_nat index1) (f0 - f1)%Z ;;
  Ok (coefficients, x1).

(** function.cc:76-130 *)
Definition fast_walsh_transform (n : nat) (f : bv -> outcome Z) : outcome (list walsh_term) :=
  size <- shift_one n ;;
  '(coefficients, _) <- foldM (fun '(coefficients, x) k =>
      '(us, _, _) <- drain (fun s => Ok (ehc_has_next s)) ehc_next (2 ^ k + 1) (hc_make k) ;;
      foldM (fun '(coefficients, x) u =>
        x <- copy_front u x ;;
        '(vs, _, _) <- drain (fun s => Ok (ehc_has_next s)) ehc_next (2 ^ (n - k - 1) + 1) (hc_make (n - k - 1)) ;;
        foldM (fun '(coefficients, x) v => butterfly f k coefficients x v) vs (coefficients, x))
        us (coefficients, x)) (seq 0 n) (repeat 0%Z size, repeat false n) ;;
  collect_terms n coefficients.

(** * Opposite function *)

(** modifiers/modifier.cc:29-33 *)
Definition opposite_evaluate (f : bv -> outcome Z) (x : bv) : outcome Z := v <- f x ;; Ok (- v)%Z.

(** modifiers/modifier.cc:35-39 *)
Definition opposite_incremental (inc : bv -> Z -> list nat -> outcome Z) (x : bv) (value : Z) (flipped : list nat) : outcome Z :=
  v <- inc x (- value)%Z flipped ;; Ok (- v)%Z.

(** function.hh:91-95: default implementation *)
Definition no_incremental (x : bv) (value : Z) (flipped : list nat) : outcome Z := Throw RuntimeError.

(** modifiers/modifier.hh:66 *)
Definition opposite_provides_incremental : bool := true.
