(** Model of transvections: lib/hnco/maps/transvection.hh and transvection.cc.

    Indices are natural numbers (the tests "row_index < 0" of is_valid() are
    therefore always false).  Draws of std::uniform_int_distribution are lists
    of numbers: a rejection loop consumes the list and [Ok None] means that the
    list is exhausted while the loop is still running.  std::shuffle is a
    function argument. *)

From Verif Require Import Base BitVector_Model BitMatrix_Model.

(** transvection.hh:61-81 *)
Record transvection := mk_tv { row_index : nat; column_index : nat }.

(** transvection.cc:34-44 *)
Definition tv_is_valid (tv : transvection) : bool :=
  negb (row_index tv =? column_index tv).

(** transvection.cc:47-57 *)
Definition tv_is_valid_n (tv : transvection) (n : nat) : bool :=
  tv_is_valid tv && negb (n <=? row_index tv) && negb (n <=? column_index tv).

(** transvection.cc:104-113 (bv_is_valid holds by construction) *)
Definition tv_multiply_bv (tv : transvection) (x : bv) : outcome bv :=
  _ <- assertb (tv_is_valid tv) ;;
  _ <- assertb (tv_is_valid_n tv (length x)) ;;
  b <- vget x (column_index tv) ;;
  if (b : bool) then bv_flip x (row_index tv) else Ok x.

(** transvection.cc:116-123 *)
Definition tv_multiply_bm (tv : transvection) (M : bm) : outcome bm :=
  _ <- assertb (tv_is_valid tv) ;;
  _ <- assertb (tv_is_valid_n tv (bm_num_rows M)) ;;
  bm_add_rows M (row_index tv) (column_index tv).

(** transvection.cc:126-133 *)
Definition transvections_commute (a b : transvection) : bool :=
  if row_index a =? column_index b then false
  else if row_index b =? column_index a then false
  else true.

(** transvection.cc:136-147 *)
Definition transvections_are_disjoint (a b : transvection) : bool :=
  if row_index a =? row_index b then false
  else if row_index a =? column_index b then false
  else if column_index a =? row_index b then false
  else if column_index a =? column_index b then false
  else true.

(** transvection.cc:150-153 *)
Definition ts_is_valid (ts : list transvection) : bool := forallb tv_is_valid ts.

(** transvection.cc:156-159 *)
Definition ts_is_valid_n (ts : list transvection) (n : nat) : bool :=
  forallb (fun tv => tv_is_valid_n tv n) ts.

(** transvection.cc:356-363 *)
Definition ts_multiply_bv (x : bv) (ts : list transvection) : outcome bv :=
  _ <- assertb (ts_is_valid ts) ;;
  _ <- assertb (ts_is_valid_n ts (length x)) ;;
  foldM (fun x tv => tv_multiply_bv tv x) ts x.

(** transvection.cc:366-373 *)
Definition ts_multiply_bm (M : bm) (ts : list transvection) : outcome bm :=
  _ <- assertb (ts_is_valid ts) ;;
  _ <- assertb (ts_is_valid_n ts (bm_num_rows M)) ;;
  foldM (fun M tv => tv_multiply_bm tv M) ts M.

(** transvection.cc:375-380 *)
Definition ts_invert (ts : list transvection) : outcome (list transvection) :=
  _ <- assertb (ts_is_valid ts) ;; Ok (rev ts).

(** loop transvection.cc:67-70 *)
Fixpoint tv_random_loop (draws : list nat) : option (transvection * list nat) :=
  match draws with
  | i :: j :: draws' =>
      if i =? j then tv_random_loop draws' else Some (mk_tv i j, draws')
  | _ => None
  end.

(** transvection.cc:60-73; [draws] are the numbers returned by index_dist *)
Definition tv_random (n : nat) (draws : list nat) : outcome (option (transvection * list nat)) :=
  _ <- assertb (1 <? n) ;; Ok (tv_random_loop draws).

(** loops transvection.cc:86-88 and 93-95: first draw different from [avoid] *)
Fixpoint draw_other (avoid : nat) (draws : list nat) : option (nat * list nat) :=
  match draws with
  | i :: draws' => if i =? avoid then draw_other avoid draws' else Some (i, draws')
  | [] => None
  end.

(** transvection.cc:76-101; [coin] is the result of Generator::bernoulli() *)
Definition tv_random_non_commuting (n : nat) (a : transvection) (coin : bool) (draws : list nat)
  : outcome (option (transvection * list nat)) :=
  _ <- assertb (1 <? n) ;;
  let r :=
    if coin then
      match draw_other (column_index a) draws with
      | Some (i, draws') => Some (mk_tv (column_index a) i, draws')
      | None => None
      end
    else
      match draw_other (row_index a) draws with
      | Some (i, draws') => Some (mk_tv i (row_index a), draws')
      | None => None
      end in
  match r with
  | None => Ok None
  | Some (tv, draws') =>
      _ <- assertb (tv_is_valid_n tv n) ;;
      _ <- assertb (negb (transvections_commute tv a)) ;;
      Ok (Some (tv, draws'))
  end.

(** loop transvection.cc:178-179, [t] transvections to draw *)
Fixpoint ts_random_loop (n t : nat) (draws : list nat) : outcome (option (list transvection)) :=
  match t with
  | 0 => Ok (Some [])
  | S t' =>
      r <- tv_random n draws ;;
      match r with
      | None => Ok None
      | Some (tv, draws') =>
          q <- ts_random_loop n t' draws' ;;
          Ok (option_map (cons tv) q)
      end
  end.

(** transvection.cc:172-180; the previous content of [ts] is overwritten *)
Definition ts_random (n t : nat) (draws : list nat) : outcome (option (list transvection)) :=
  _ <- assertb (1 <? n) ;; ts_random_loop n t draws.

(** std::vector<int> variables(n) filled with 0, ..., n-1:
    transvection.cc:203-205, 259-261, 292-294, 318-320 *)
Definition all_variables (n : nat) : list nat := seq 0 n.

(** double M = sqrt(n*n/4.0 - t), then int(M) when n is even:
    transvection.cc:208, 212.  Exact floor of the square root of the integer
    (n/2)^2 - t (rounding of std::sqrt is not modelled). *)
Definition commuting_bound_even (n t : nat) : nat :=
  Nat.min (n / 2 - 1) (Nat.sqrt (n * n / 4 - t)).

(** int(M + 0.5) when n is odd: transvection.cc:208, 220.  Since
    M = sqrt(n*n - 4t) / 2, this is floor((sqrt(n*n - 4t) + 1) / 2). *)
Definition commuting_bound_odd (n t : nat) : nat :=
  Nat.min (n / 2) ((Nat.sqrt (n * n - 4 * t) + 1) / 2).

(** std::uniform_int_distribution<int> dist(lo, hi): undefined if lo > hi;
    [pick lo hi] is the number drawn *)
Definition dist_uniform (pick : nat -> nat -> nat) (lo hi : nat) : outcome nat :=
  if lo <=? hi then Ok (pick lo hi) else UB.

(** variables[i] for the transvection between position i and position j *)
Definition tv_of (variables : list nat) (i j : nat) : outcome transvection :=
  r <- vget variables i ;; c <- vget variables j ;; Ok (mk_tv r c).

(** transvection.cc:183-242.  [sh1] and [sh2] are the two shuffles, [pick] the
    uniform draw and [coin] the result of Generator::bernoulli(). *)
Definition ts_random_commuting (sh1 : list nat -> list nat) (sh2 : list transvection -> list transvection)
  (pick : nat -> nat -> nat) (coin : bool)
  (ts : list transvection) (n t : nat) : outcome (list transvection) :=
  _ <- assertb (1 <? n) ;;
  if t <=? 0 then Ok ts else
  let k := n / 2 in
  let length_max := if n mod 2 =? 0 then k * k else k * (k + 1) in
  let t := if length_max <? t then length_max else t in
  let variables := sh1 (all_variables n) in
  split <-
    (if n mod 2 =? 0 then
       r <- dist_uniform pick 0 (commuting_bound_even n t) ;;
       Ok (if coin then k + r else k - r)
     else
       r <- dist_uniform pick 1 (commuting_bound_odd n t) ;;
       Ok (if coin then k + r else k + 1 - r)) ;;
  ts' <- foldM (fun ts i =>
           foldM (fun ts j => tv <- tv_of variables i j ;; Ok (ts ++ [tv])) (seq split (n - split)) ts)
         (seq 0 split) ts ;;
  let ts'' := sh2 ts' in
  Ok (if t <? length ts'' then firstn t ts'' else ts'').

(** transvection.cc:245-275; [pick] gives the successive draws of dist *)
Definition ts_random_unique_source (sh1 : list nat -> list nat) (sh2 : list transvection -> list transvection)
  (pick : nat -> nat -> nat -> nat)
  (ts : list transvection) (n t : nat) : outcome (list transvection) :=
  _ <- assertb (1 <? n) ;;
  if t <=? 0 then Ok ts else
  let length_max := n - 1 in
  let t := if length_max <? t then length_max else t in
  let variables := sh1 (all_variables n) in
  ts' <- foldM (fun ts i =>
           j <- dist_uniform (pick i) t (n - 1) ;;
           tv <- tv_of variables i j ;; Ok (ts ++ [tv])) (seq 0 t) ts ;;
  _ <- assertb (t =? length ts') ;;
  Ok (sh2 ts').

(** transvection.cc:278-308 *)
Definition ts_random_unique_destination (sh1 : list nat -> list nat) (sh2 : list transvection -> list transvection)
  (pick : nat -> nat -> nat -> nat)
  (ts : list transvection) (n t : nat) : outcome (list transvection) :=
  _ <- assertb (1 <? n) ;;
  if t <=? 0 then Ok ts else
  let length_max := n - 1 in
  let t := if length_max <? t then length_max else t in
  let variables := sh1 (all_variables n) in
  ts' <- foldM (fun ts j =>
           i <- dist_uniform (pick j) t (n - 1) ;;
           tv <- tv_of variables i j ;; Ok (ts ++ [tv])) (seq 0 t) ts ;;
  _ <- assertb (t =? length ts') ;;
  Ok (sh2 ts').

(** transvection.cc:311-338.  ts.resize(t) followed by the assignment of every
    element is modelled by building the new sequence. *)
Definition ts_random_disjoint (sh1 : list nat -> list nat)
  (ts : list transvection) (n t : nat) : outcome (list transvection) :=
  _ <- assertb (1 <? n) ;;
  if t <=? 0 then Ok ts else
  let variables := sh1 (all_variables n) in
  let t := if n <? 2 * t then n / 2 else t in
  _ <- assertb (2 * t <=? n) ;;
  foldM (fun ts i =>
    tv <- tv_of variables (2 * i) (2 * i + 1) ;;
    _ <- assertb (tv_is_valid_n tv n) ;;
    Ok (ts ++ [tv])) (seq 0 t) [].

(** loop transvection.cc:350-352: [last] is ts[i-1] and [coins] the coin flips;
    the result lists the transvections drawn *)
Fixpoint non_commuting_loop (n t : nat) (last : transvection) (coins : list bool) (draws : list nat)
  : outcome (option (list transvection)) :=
  match t with
  | 0 => Ok (Some [])
  | S t' =>
      match coins with
      | [] => Ok None
      | coin :: coins' =>
          r <- tv_random_non_commuting n last coin draws ;;
          match r with
          | None => Ok None
          | Some (tv, draws') =>
              q <- non_commuting_loop n t' tv coins' draws' ;;
              Ok (option_map (cons tv) q)
          end
      end
  end.

(** transvection.cc:341-353 *)
Definition ts_random_non_commuting (coins : list bool) (draws : list nat)
  (ts : list transvection) (n t : nat) : outcome (option (list transvection)) :=
  _ <- assertb (1 <? n) ;;
  if t <=? 0 then Ok (Some ts) else
  r <- tv_random n draws ;;
  match r with
  | None => Ok None
  | Some (tv, draws') =>
      q <- non_commuting_loop n (t - 1) tv coins draws' ;;
      Ok (option_map (cons tv) q)
  end.
