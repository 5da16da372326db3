(** Model of the moments, the herding and the Gibbs samplers of
    lib/hnco/algorithms/walsh-moment. Moments are exact rational numbers. The classes
    come in two versions, triangular and full, which share their loops: the version is
    an argument. *)

From Coq Require Import QArith Qabs.
From Verif Require Import Base BitVector_Model Neighborhood_Model Algorithm_Model Population_Model PopAlgorithm_Model
  ProbabilityVector_Model EvolutionaryAlgorithm_Model.
Local Open Scope nat_scope.

(** * Moments *)

Inductive kind := Triangular | Full.

(** TriangularMoment and FullMoment: walsh-moment.hh:35-39 and 128-132. *)
Record moment := mk_moment { first_moment : list Q; second_moment : list (list Q) }.

(** Constructors: walsh-moment.cc:35-43 and 235-243. *)
Definition zero_moment (k : kind) (n : nat) : moment :=
  mk_moment (repeat 0%Q n) (map (fun i => repeat 0%Q (match k with Triangular => i | Full => n end)) (seq 0 n)).
Definition moment_make (k : kind) (n : nat) : outcome moment :=
  _ <- assertb (0 <? n) ;;
  Ok (zero_moment k n).

(** first_moment[i], second_moment[i][j] and their assignments *)
Definition get1 (m : moment) (i : nat) : outcome Q := vget (first_moment m) i.
Definition get2 (m : moment) (i j : nat) : outcome Q := row <- vget (second_moment m) i ;; vget row j.
Definition set1 (m : moment) (i : nat) (v : Q) : outcome moment :=
  l <- vset (first_moment m) i v ;; Ok (mk_moment l (second_moment m)).
Definition set2 (m : moment) (i j : nat) (v : Q) : outcome moment :=
  row <- vget (second_moment m) i ;;
  row <- vset row j v ;;
  l <- vset (second_moment m) i row ;;
  Ok (mk_moment (first_moment m) l).

(** display: walsh-moment.cc:45-56 and 245-259. The numbers printed on each line. *)
Definition row_of (f : nat -> outcome Q) (l : list nat) : outcome (list Q) :=
  foldM (fun r j => q <- f j ;; Ok (r ++ [q])) l [].
Definition moment_display (k : kind) (m : moment) : outcome (list (list Q)) :=
  let n := length (first_moment m) in
  foldM (fun rows i =>
    row <-
      (match k with
       | Triangular =>
           before <- row_of (fun j => get2 m i j) (seq 0 i) ;;
           d <- get1 m i ;;
           after <- row_of (fun j => get2 m j i) (seq (i + 1) (n - (i + 1))) ;;
           Ok (before ++ [d] ++ after)
       | Full => row_of (fun j => if i =? j then get1 m i else get2 m i j) (seq 0 n)
       end) ;;
    Ok (rows ++ [row])) (seq 0 n) [].

(** init: walsh-moment.cc:58-64 and 261-267. *)
Definition moment_init (m : moment) : moment :=
  mk_moment (map (fun _ => 0%Q) (first_moment m)) (map (map (fun _ => 0%Q)) (second_moment m)).

(** is_in_interval(v, -1, 1): util.hh:84 *)
Definition in_unit (v : Q) : bool := Qle_bool (-1) v && Qle_bool v 1.

(** The loops common to add, average, update, scaled_difference and bound:
    first_moment[i] = f1(i, first_moment[i]) and, for all j < i, second_moment[i][j] =
    f2(i, j, second_moment[i][j]); with [check], the new values must be in the interval
    [-1, 1]; with [mirror], second_moment[j][i] = second_moment[i][j]. *)
Definition moment_map (mirror check : bool) (f1 : nat -> Q -> outcome Q) (f2 : nat -> nat -> Q -> outcome Q) (m : moment) : outcome moment :=
  foldM (fun m i =>
    a <- get1 m i ;;
    v <- f1 i a ;;
    m <- set1 m i v ;;
    _ <- assertb (negb check || in_unit v) ;;
    foldM (fun m j =>
      a <- get2 m i j ;;
      v <- f2 i j a ;;
      m <- set2 m i j v ;;
      _ <- assertb (negb check || in_unit v) ;;
      if mirror then set2 m j i v else Ok m) (seq 0 i) m) (seq 0 (length (first_moment m))) m.

Definition mirrored (k : kind) : bool := match k with Triangular => false | Full => true end.

(** add: walsh-moment.cc:66-89 and 269-292. The full version does not mirror. *)
Definition moment_add (m : moment) (x : bv) : outcome moment :=
  _ <- assertb (length x =? length (first_moment m)) ;;
  moment_map false false
    (fun i a => b <- vget x i ;; Ok (if b : bool then a - 1 else a + 1)%Q)
    (fun i j a => b <- vget x i ;; c <- vget x j ;; Ok (if (b : bool) then (if (c : bool) then a + 1 else a - 1) else (if (c : bool) then a - 1 else a + 1))%Q)
    m.

(** matrix_is_symmetric: matrix.hh:32-42. *)
Definition matrix_is_symmetric (a : list (list Q)) : outcome bool :=
  foldM (fun ok i => foldM (fun (ok : bool) j =>
    if ok then
      r <- vget a i ;; x <- vget r j ;; r <- vget a j ;; y <- vget r i ;; Ok (Qeq_bool x y)
    else Ok false) (seq 0 i) ok) (seq 0 (length a)) true.
(** assert(matrix_is_symmetric(second_moment)), only in the full version *)
Definition check_symmetric (k : kind) (m : moment) : outcome moment :=
  match k with
  | Triangular => Ok m
  | Full => b <- matrix_is_symmetric (second_moment m) ;; _ <- assertb b ;; Ok m
  end.

(** average: walsh-moment.cc:91-104 and 294-310. A count of zero gives NaN or infinite
    numbers, which violate the assertions. *)
Definition moment_average (k : kind) (count : nat) (m : moment) : outcome moment :=
  let f a := if 0 <? count then Ok (a / inject_Z (Z.of_nat count))%Q else UB in
  m <- moment_map (mirrored k) true (fun _ a => f a) (fun _ _ a => f a) m ;;
  check_symmetric k m.

(** update(tm, rate): walsh-moment.cc:106-122 and 312-331. *)
Definition moment_update (k : kind) (tm : moment) (rate : Q) (m : moment) : outcome moment :=
  _ <- assertb (length (first_moment tm) =? length (first_moment m)) ;;
  m <- moment_map (mirrored k) true
         (fun i a => b <- get1 tm i ;; Ok (a + rate * (b - a))%Q)
         (fun i j a => b <- get2 tm i j ;; Ok (a + rate * (b - a))%Q) m ;;
  check_symmetric k m.

(** update(tm1, tm2, rate): walsh-moment.cc:124-140 and 333-351. *)
Definition moment_update2 (k : kind) (tm1 tm2 : moment) (rate : Q) (m : moment) : outcome moment :=
  _ <- assertb (length (first_moment tm1) =? length (first_moment m)) ;;
  _ <- assertb (length (first_moment tm2) =? length (first_moment m)) ;;
  moment_map (mirrored k) false
    (fun i a => b <- get1 tm1 i ;; c <- get1 tm2 i ;; Ok (a + rate * (b - c))%Q)
    (fun i j a => b <- get2 tm1 i j ;; c <- get2 tm2 i j ;; Ok (a + rate * (b - c))%Q) m.

(** scaled_difference: walsh-moment.cc:142-157 and 353-371. *)
Definition scaled_difference (k : kind) (lambda : Q) (tm1 tm2 : moment) (m : moment) : outcome moment :=
  _ <- assertb (length (first_moment tm1) =? length (first_moment m)) ;;
  _ <- assertb (length (first_moment tm2) =? length (first_moment m)) ;;
  moment_map (mirrored k) false
    (fun i _ => b <- get1 tm1 i ;; c <- get1 tm2 i ;; Ok (lambda * b - c)%Q)
    (fun i j _ => b <- get2 tm1 i j ;; c <- get2 tm2 i j ;; Ok (lambda * b - c)%Q) m.

(** bound: walsh-moment.cc:159-178 and 373-394. *)
Definition moment_bound (k : kind) (margin : Q) (m : moment) : outcome moment :=
  _ <- assertb (Qle_bool 0 margin && Qle_bool margin 1) ;;
  let high := (1 - margin)%Q in
  let low := (margin - 1)%Q in
  _ <- assertb (qltb low high) ;;
  moment_map (mirrored k) true (fun _ a => clamp a low high) (fun _ _ a => clamp a low high) m.

(** The loops of the norms: first_moment[i], then second_moment[i][j] for all j < i *)
Definition moment_fold (op : Q -> Q -> Q) (f1 : nat -> outcome Q) (f2 : nat -> nat -> outcome Q) (n : nat) : outcome Q :=
  foldM (fun r i =>
    a <- f1 i ;;
    foldM (fun r j => b <- f2 i j ;; Ok (op r b)) (seq 0 i) (op r a)) (seq 0 n) 0%Q.

(** norm_1: walsh-moment.cc:180-191 and 396-407. *)
Definition norm_1 (m : moment) : outcome Q :=
  moment_fold (fun r a => r + Qabs a)%Q (get1 m) (get2 m) (length (first_moment m)).
(** norm_2: walsh-moment.cc:193-204 and 409-420. The square of the result: std::sqrt is
    not modelled. *)
Definition norm_2_square (m : moment) : outcome Q :=
  moment_fold (fun r a => r + a * a)%Q (get1 m) (get2 m) (length (first_moment m)).
(** norm_infinite: walsh-moment.cc:206-217 and 422-433. *)
Definition norm_infinite (m : moment) : outcome Q := moment_fold qmax (get1 m) (get2 m) (length (first_moment m)).
(** distance: walsh-moment.cc:219-233 and 435-449. The square of the result. *)
Definition distance_square (tm m : moment) : outcome Q :=
  _ <- assertb (length (first_moment tm) =? length (first_moment m)) ;;
  moment_fold (fun r a => r + a * a)%Q
    (fun i => a <- get1 m i ;; b <- get1 tm i ;; Ok (a - b)%Q)
    (fun i j => a <- get2 m i j ;; b <- get2 tm i j ;; Ok (a - b)%Q) (length (first_moment m)).

(** * Herding *)

(** Members: herding.hh:33-52 and 94-113, without _error, which is overwritten before it
    is read. *)
Record herding := mk_herding { h_delta : moment; h_count : moment; h_perm : list nat; h_time : Z }.

(** Constructors: herding.hh:61-65 and 122-126. [_time] is left uninitialized: [garbage]. *)
Definition herding_make (k : kind) (n : nat) (garbage : Z) : outcome herding :=
  d <- moment_make k n ;;
  c <- moment_make k n ;;
  Ok (mk_herding d c (repeat 0 n) garbage).

(** init: herding.cc:29-35 and 83-89. *)
Definition herding_init (h : herding) : herding :=
  mk_herding (h_delta h) (moment_init (h_count h)) (identity (length (h_perm h))) 0%Z.

(** error: herding.cc:37-42 and 91-96. The square of the result; [e] is _error. *)
Definition herding_error (k : kind) (target e : moment) (h : herding) : outcome Q :=
  e <- scaled_difference k (inject_Z (h_time h)) target (h_count h) e ;;
  norm_2_square e.

(** The second moment of the components [i] and [j]: herding.cc:62-72 and 117-119. *)
Definition second_at (k : kind) (m : moment) (i j : nat) : outcome Q :=
  match k with
  | Triangular => if j <? i then get2 m i j else get2 m j i
  | Full => get2 m i j
  end.

(** sample: herding.cc:44-81 and 98-128. [rand] is _randomize_bit_order, [sh] the shuffle
    of perm_random. The number of samples is not bounded (_time is an int). *)
Definition herding_sample (k : kind) (rand : bool) (sh : list nat -> list nat) (target : moment) (x : bv) (h : herding) : outcome (bv * herding) :=
  _ <- assertb (length x =? length (h_perm h)) ;;
  let perm := if rand then sh (identity (length (h_perm h))) else h_perm h in
  let time := (h_time h + 1)%Z in
  delta <- scaled_difference k (inject_Z time) target (h_count h) (h_delta h) ;;
  x <- foldM (fun x p =>
    i <- (if rand then vget perm p else Ok p) ;;
    acc <- foldM (fun acc l =>
      j <- (if rand then vget perm l else Ok l) ;;
      b <- vget x j ;;
      q <- second_at k delta i j ;;
      Ok (if b : bool then acc - q else acc + q)%Q) (seq 0 p) 0%Q ;;
    d <- get1 delta i ;;
    vset x i (if qltb 0 (d + acc) then false else true)) (seq 0 (length (h_perm h))) x ;;
  count <- moment_add (h_count h) x ;;
  Ok (x, mk_herding delta count perm time).

(** * Gibbs samplers *)

Section Gibbs.
  (** logistic: util.hh:97-105 *)
  Variable logistic : Q -> Q.

  (** update: gibbs-sampler.cc:39-65 and 94-120, the same in both versions. [x] is _state
      and [u] the result of Generator::uniform. *)
  Definition gibbs_update (m : moment) (i : nat) (u : Q) (x : bv) : outcome bv :=
    _ <- assertb (i <? length x) ;;
    let add delta j q := b <- vget x j ;; Ok (if b : bool then delta - q else delta + q)%Q in
    delta <- get1 m i ;;
    delta <- foldM (fun delta j => q <- get2 m i j ;; add delta j q) (seq 0 i) delta ;;
    delta <- foldM (fun delta j => q <- get2 m j i ;; add delta j q) (seq (i + 1) (length x - (i + 1))) delta ;;
    let delta := (delta * -2)%Q in
    vset x i (qltb u (logistic delta)).

  (** update_sync: gibbs-sampler.cc:67-86 and 122-141, the same in both versions.
      [n] is the size of _pv, which is overwritten. *)
  Definition gibbs_update_sync (n : nat) (m : moment) (u : nat -> Q) (x : bv) : outcome bv :=
    pv <- foldM (fun pv i =>
      delta <- get1 m i ;;
      delta <- foldM (fun delta j =>
        if j =? i then Ok delta
        else b <- vget x j ;; q <- get2 m i j ;; Ok (if b : bool then delta - q else delta + q)%Q)
        (seq 0 (length x)) delta ;;
      Ok (pv ++ [logistic (delta * -2)%Q])) (seq 0 n) [] ;;
    pv_sample pv x u.
End Gibbs.
