(** Model of bit matrices: lib/hnco/bit-matrix.hh and lib/hnco/bit-matrix.cc.
    A matrix is the list of its rows.  Every element access is checked. *)

From Verif Require Import Base BitVector_Model.

Notation bm := (list (list bool)) (only parsing).

(** bit-matrix.hh:90 *)
Definition bm_num_rows (M : bm) : nat := length M.

(** bit-matrix.hh:93: M[0].size(), undefined on the matrix without rows *)
Definition bm_num_columns (M : bm) : outcome nat :=
  row <- vget M 0 ;; Ok (length row).

(** bit-matrix.hh:96 *)
Definition bm_is_square (M : bm) : outcome bool :=
  c <- bm_num_columns M ;; Ok (bm_num_rows M =? c).

(** M[i][j] as an rvalue *)
Definition mget (M : bm) (i j : nat) : outcome bool :=
  row <- vget M i ;; vget row j.

(** M[i][j] = b *)
Definition mset (M : bm) (i j : nat) (b : bool) : outcome bm :=
  row <- vget M i ;; row' <- vset row j b ;; vset M i row'.

(** bit-matrix.cc:31-37 *)
Definition bm_rectangular (nrows ncols : nat) : outcome bm :=
  _ <- assertb (0 <? nrows) ;; _ <- assertb (0 <? ncols) ;;
  Ok (repeat (repeat false ncols) nrows).

(** bit-matrix.cc:93-110 (bv_is_valid holds by construction) *)
Definition bm_is_valid (M : bm) : bool :=
  match M with
  | [] => false
  | row0 :: _ =>
      let ncols := length row0 in
      negb (ncols =? 0) && forallb (fun row => length row =? ncols) M
  end.

(** bit-matrix.hh:112 *)
Definition bm_clear (M : bm) : bm := map bv_clear M.

(** bit-matrix.cc:39-48 *)
Definition bm_identity_ (M : bm) : outcome bm :=
  _ <- assertb (bm_is_valid M) ;;
  sq <- bm_is_square M ;; _ <- assertb sq ;;
  foldM (fun M i => mset M i i true) (seq 0 (bm_num_rows M)) (bm_clear M).

(** bit-matrix.cc:50-57 *)
Definition bm_identity (n : nat) : outcome bm :=
  _ <- assertb (0 <? n) ;;
  M <- bm_rectangular n n ;; bm_identity_ M.

(** bit-matrix.cc:59-71 *)
Definition bm_transpose_ (N M : bm) : outcome bm :=
  _ <- assertb (bm_is_valid M) ;;
  nc <- bm_num_columns N ;; _ <- assertb (nc =? bm_num_rows M) ;;
  ncols <- bm_num_columns M ;; _ <- assertb (bm_num_rows N =? ncols) ;;
  foldM (fun N i =>
    foldM (fun N j => b <- mget M j i ;; mset N i j b) (seq 0 (bm_num_rows M)) N)
    (seq 0 ncols) N.

(** bit-matrix.cc:73-83 *)
Definition bm_transpose (M : bm) : outcome bm :=
  _ <- assertb (bm_is_valid M) ;;
  ncols <- bm_num_columns M ;;
  R <- bm_rectangular ncols (bm_num_rows M) ;;
  bm_transpose_ R M.

(** all elements of a list of (row, column) pairs satisfy a test, stopping at
    the first failure (early "return false") *)
Fixpoint all_entries (test : nat -> nat -> bool -> bool) (M : bm) (l : list (nat * nat)) : outcome bool :=
  match l with
  | [] => Ok true
  | (i, j) :: l' => b <- mget M i j ;; if test i j b then all_entries test M l' else Ok false
  end.

(** bit-matrix.cc:112-136 *)
Definition bm_is_identity (M : bm) : outcome bool :=
  if bm_is_valid M then
    sq <- bm_is_square M ;;
    if (sq : bool) then
      all_entries (fun i j b => if i =? j then b else negb b) M
        (list_prod (seq 0 (bm_num_rows M)) (seq 0 (bm_num_rows M)))
    else Ok false
  else Ok false.

(** bit-matrix.cc:138-149 *)
Definition bm_is_upper_triangular (M : bm) : outcome bool :=
  ncols <- bm_num_columns M ;;
  all_entries (fun _ _ b => negb b) M
    (flat_map (fun i => map (fun j => (i, j)) (seq 0 (Nat.min i ncols))) (seq 0 (bm_num_rows M))).

(** bit-matrix.cc:167-176: the first [ncols] elements of the two rows are
    swapped *)
Definition bm_swap_rows (M : bm) (i j : nat) : outcome bm :=
  _ <- assertb (i <? bm_num_rows M) ;; _ <- assertb (j <? bm_num_rows M) ;;
  ncols <- bm_num_columns M ;;
  ri <- vget M i ;; rj <- vget M j ;;
  if (ncols <=? length ri) && (ncols <=? length rj) then
    M' <- vset M i (firstn ncols rj ++ skipn ncols ri) ;;
    vset M' j (firstn ncols ri ++ skipn ncols rj)
  else UB.

(** bit-matrix.cc:178-185 *)
Definition bm_add_rows (M : bm) (dest src : nat) : outcome bm :=
  _ <- assertb (src <? bm_num_rows M) ;; _ <- assertb (dest <? bm_num_rows M) ;;
  _ <- assertb (negb (src =? dest)) ;;
  rd <- vget M dest ;; rs <- vget M src ;;
  r <- bv_add rd rs ;;
  vset M dest r.

(** bit-matrix.cc:187-200 *)
Definition bm_add_columns (M : bm) (dest src : nat) : outcome bm :=
  ncols <- bm_num_columns M ;;
  _ <- assertb (dest <? ncols) ;; _ <- assertb (src <? ncols) ;;
  _ <- assertb (negb (src =? dest)) ;;
  foldM (fun M i =>
    row <- vget M i ;; b <- vget row src ;;
    if (b : bool) then row' <- bv_flip row dest ;; vset M i row' else Ok M)
    (seq 0 (bm_num_rows M)) M.

(** bit-matrix.cc:202-211 *)
Definition bm_set_column (M : bm) (j : nat) (b : bv) : outcome bm :=
  ncols <- bm_num_columns M ;;
  _ <- assertb (j <? ncols) ;; _ <- assertb (length b =? bm_num_rows M) ;;
  foldM (fun M i => v <- vget b i ;; mset M i j v) (seq 0 (bm_num_rows M)) M.

(** Pivot search: first index of the list whose row has a 1 in column [col];
    bit-matrix.cc:221-228, 270-277, 326-333 *)
Fixpoint find_pivot (M : bm) (col : nat) (l : list nat) : outcome (option nat) :=
  match l with
  | [] => Ok None
  | i :: l' => b <- mget M i col ;; if (b : bool) then Ok (Some i) else find_pivot M col l'
  end.

(** Loop bit-matrix.cc:220-241, over the remaining columns [cols] *)
Fixpoint echelon_loop (A : bm) (r : nat) (cols : list nat) : outcome bm :=
  let nrows := bm_num_rows A in
  match cols with
  | [] => Ok A
  | j :: cols' =>
      p <- find_pivot A j (seq r (nrows - r)) ;;
      match p with
      | None => echelon_loop A r cols'
      | Some pivot =>
          A1 <- (if negb (pivot =? r) then bm_swap_rows A pivot r else Ok A) ;;
          A2 <- foldM (fun A i => b <- mget A i j ;; if (b : bool) then bm_add_rows A i r else Ok A)
                  (seq (r + 1) (nrows - (r + 1))) A1 ;;
          if r + 1 =? nrows then Ok A2 else echelon_loop A2 (r + 1) cols'
      end
  end.

(** bit-matrix.cc:213-242 *)
Definition bm_row_echelon_form (A : bm) : outcome bm :=
  ncols <- bm_num_columns A ;;
  echelon_loop A 0 (seq 0 ncols).

(** bit-matrix.cc:250-254 *)
Fixpoint leading_nonzero (A : bm) : nat :=
  match A with
  | [] => 0
  | row :: A' => if bv_is_zero row then 0 else S (leading_nonzero A')
  end.

(** bit-matrix.cc:244-260 *)
Definition bm_rank (A : bm) : outcome nat :=
  let rank := leading_nonzero A in
  _ <- assertb (rank <=? bm_num_rows A) ;;
  ncols <- bm_num_columns A ;;
  _ <- assertb (rank <=? ncols) ;;
  Ok rank.

(** std::swap(b[i], b[j]) *)
Definition vswap {X : Type} (b : list X) (i j : nat) : outcome (list X) :=
  x <- vget b i ;; y <- vget b j ;;
  b1 <- vset b i y ;; vset b1 j x.

(** bm_add_rows(A, dest, src); b[dest] = (b[src] + b[dest]) % 2;
    bit-matrix.cc:286-287 and 307-308 *)
Definition add_rows_with (A : bm) (b : bv) (dest src : nat) : outcome (bm * bv) :=
  A' <- bm_add_rows A dest src ;;
  x <- vget b src ;; y <- vget b dest ;;
  b' <- vset b dest (xorb x y) ;;
  Ok (A', b').

(** bit-matrix.cc:295-314; the result is (return value, A, b) *)
Definition bm_solve_upper_triangular (A : bm) (b : bv) : outcome (bool * bm * bv) :=
  sq <- bm_is_square A ;; _ <- assertb sq ;;
  _ <- assertb (bm_num_rows A =? length b) ;;
  up <- bm_is_upper_triangular A ;; _ <- assertb up ;;
  let nrows := bm_num_rows A in
  '(A', b') <-
    foldM (fun s k =>
      let i := nrows - 1 - k in
      foldM (fun (s : bm * bv) j =>
        let '(A, b) := s in
        v <- mget A j i ;; if (v : bool) then add_rows_with A b j i else Ok (A, b))
        (seq 0 i) s)
      (seq 0 nrows) (A, b) ;;
  id <- bm_is_identity A' ;; _ <- assertb id ;;
  Ok (true, A', b').

(** bit-matrix.cc:269-289: [None] in the boolean slot is not needed, the first
    component is false on the early "return false" *)
Fixpoint solve_down (A : bm) (b : bv) (l : list nat) : outcome (bool * bm * bv) :=
  let nrows := bm_num_rows A in
  match l with
  | [] => Ok (true, A, b)
  | i :: l' =>
      p <- find_pivot A i (seq i (nrows - i)) ;;
      match p with
      | None => Ok (false, A, b)
      | Some pivot =>
          '(A1, b1) <-
            (if negb (pivot =? i)
             then A1 <- bm_swap_rows A i pivot ;; b1 <- vswap b i pivot ;; Ok (A1, b1)
             else Ok (A, b)) ;;
          '(A2, b2) <-
            foldM (fun (s : bm * bv) j =>
              let '(A, b) := s in
              v <- mget A j i ;; if (v : bool) then add_rows_with A b j i else Ok (A, b))
              (seq (i + 1) (nrows - (i + 1))) (A1, b1) ;;
          solve_down A2 b2 l'
      end
  end.

(** bit-matrix.cc:262-293 *)
Definition bm_solve (A : bm) (b : bv) : outcome (bool * bm * bv) :=
  sq <- bm_is_square A ;; _ <- assertb sq ;;
  _ <- assertb (bm_num_rows A =? length b) ;;
  '(ok, A', b') <- solve_down A b (seq 0 (bm_num_rows A)) ;;
  if (ok : bool) then
    up <- bm_is_upper_triangular A' ;; _ <- assertb up ;;
    bm_solve_upper_triangular A' b'
  else Ok (false, A', b').

(** bm_add_rows on both matrices, bit-matrix.cc:342-343 and 352-353 *)
Definition add_rows_both (M N : bm) (dest src : nat) : outcome (bm * bm) :=
  M' <- bm_add_rows M dest src ;; N' <- bm_add_rows N dest src ;; Ok (M', N').

(** bit-matrix.cc:325-345 *)
Fixpoint invert_down (M N : bm) (l : list nat) : outcome (bool * bm * bm) :=
  let nrows := bm_num_rows M in
  match l with
  | [] => Ok (true, M, N)
  | i :: l' =>
      p <- find_pivot M i (seq i (nrows - i)) ;;
      match p with
      | None => Ok (false, M, N)
      | Some pivot =>
          '(M1, N1) <-
            (if negb (pivot =? i)
             then M1 <- bm_swap_rows M i pivot ;; N1 <- bm_swap_rows N i pivot ;; Ok (M1, N1)
             else Ok (M, N)) ;;
          '(M2, N2) <-
            foldM (fun (s : bm * bm) j =>
              let '(M, N) := s in
              v <- mget M j i ;; if (v : bool) then add_rows_both M N j i else Ok (M, N))
              (seq (i + 1) (nrows - (i + 1))) (M1, N1) ;;
          invert_down M2 N2 l'
      end
  end.

(** bit-matrix.cc:316-358; the result is (return value, M, N) *)
Definition bm_invert (M N : bm) : outcome (bool * bm * bm) :=
  sqM <- bm_is_square M ;; _ <- assertb sqM ;;
  sqN <- bm_is_square N ;; _ <- assertb sqN ;;
  _ <- assertb (bm_num_rows M =? bm_num_rows N) ;;
  let nrows := bm_num_rows M in
  N0 <- bm_identity_ N ;;
  '(ok, M1, N1) <- invert_down M N0 (seq 0 nrows) ;;
  if (ok : bool) then
    up <- bm_is_upper_triangular M1 ;; _ <- assertb up ;;
    '(M2, N2) <-
      foldM (fun s k =>
        let i := nrows - 1 - k in
        foldM (fun (s : bm * bm) j =>
          let '(M, N) := s in
          v <- mget M j i ;; if (v : bool) then add_rows_both M N j i else Ok (M, N))
          (seq 0 i) s)
        (seq 0 nrows) (M1, N1) ;;
    id <- bm_is_identity M2 ;; _ <- assertb id ;;
    Ok (true, M2, N2)
  else Ok (false, M1, N1).

(** dot products of the rows with [x], bit-matrix.cc:366-367 *)
Fixpoint multiply_rows (M : bm) (x : bv) : outcome bv :=
  match M with
  | [] => Ok []
  | row :: M' => d <- bv_dot_product row x ;; r <- multiply_rows M' x ;; Ok (d :: r)
  end.

(** bit-matrix.cc:360-368; [y] only gives the size of the output *)
Definition bm_multiply (y : bv) (M : bm) (x : bv) : outcome bv :=
  _ <- assertb (bm_is_valid M) ;;
  ncols <- bm_num_columns M ;; _ <- assertb (length x =? ncols) ;;
  _ <- assertb (length y =? bm_num_rows M) ;;
  multiply_rows M x.
