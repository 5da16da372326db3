(** Model of maps between bit vectors: lib/hnco/maps/map.hh and map.cc,
    permutations: lib/hnco/permutation.hh and permutation.cc.

    A map object is a value of type [hmap]; map(input, output) is the function
    [map_apply m input output], where the second vector is the output buffer
    given by the caller.  It returns the map (a composition owns an
    intermediate buffer, which changes) and the new content of the output
    buffer. *)

From Verif Require Import Base BitVector_Model BitMatrix_Model Transvection_Model.

(** loop permutation.cc:31-39 *)
Fixpoint perm_check (n : nat) (checked : list bool) (l : list nat) : outcome bool :=
  match l with
  | [] => Ok true
  | p :: l' =>
      if n <=? p then Ok false
      else
        c <- vget checked p ;;
        if (c : bool) then Ok false
        else checked' <- vset checked p true ;; perm_check n checked' l'
  end.

(** permutation.cc:27-41 (elements are natural numbers) *)
Definition perm_is_valid (p : list nat) : outcome bool :=
  perm_check (length p) (repeat false (length p)) p.

(** map.hh:79-157 (Translation), 166-239 (Permutation), 247-321 (LinearMap),
    330-415 (AffineMap), 492-529 (Injection), 548-588 (Projection), 601-684
    (TsAffineMap), 423-473 (MapComposition, with its buffer) *)
Inductive hmap : Type :=
| MTranslation (b : bv)
| MPermutation (p : list nat)
| MLinear (M : bm)
| MAffine (M : bm) (b : bv)
| MInjection (positions : list nat) (output_size : nat)
| MProjection (positions : list nat) (input_size : nat)
| MTsAffine (ts : list transvection) (b : bv)
| MComposition (outer inner : hmap) (buffer : bv).

(** get_input_size: map.hh:112, 208, 290, 381, 462, 521, 577, 655 *)
Fixpoint map_input_size (m : hmap) : outcome nat :=
  match m with
  | MTranslation b => Ok (length b)
  | MPermutation p => Ok (length p)
  | MLinear M => bm_num_columns M
  | MAffine M _ => bm_num_columns M
  | MInjection pos _ => Ok (length pos)
  | MProjection _ n => Ok n
  | MTsAffine _ b => Ok (length b)
  | MComposition _ inner _ => map_input_size inner
  end.

(** get_output_size: map.hh:115, 211, 293, 384, 465, 524, 580, 657 *)
Fixpoint map_output_size (m : hmap) : nat :=
  match m with
  | MTranslation b => length b
  | MPermutation p => length p
  | MLinear M => bm_num_rows M
  | MAffine M _ => bm_num_rows M
  | MInjection _ n => n
  | MProjection pos _ => length pos
  | MTsAffine _ b => length b
  | MComposition outer _ _ => map_output_size outer
  end.

(** map.cc:97-103 and 138-144: rank of a copy of the matrix *)
Definition matrix_is_surjective (M : bm) : outcome bool :=
  M' <- bm_row_echelon_form M ;;
  r <- bm_rank M' ;; Ok (r =? bm_num_rows M).

(** is_surjective: map.hh:121, 217, 471, 527, 586, 662, map.cc:97-103, 138-144 *)
Fixpoint map_is_surjective (m : hmap) : outcome bool :=
  match m with
  | MTranslation _ => Ok true
  | MPermutation _ => Ok true
  | MLinear M => matrix_is_surjective M
  | MAffine M _ => matrix_is_surjective M
  | MInjection pos n => Ok (n =? length pos)
  | MProjection _ _ => Ok true
  | MTsAffine _ _ => Ok true
  | MComposition outer inner _ =>
      o <- map_is_surjective outer ;;
      if (o : bool) then map_is_surjective inner else Ok false
  end.

(** map.cc:33-40 (Translation), 58-68 (Permutation), 89-95 (LinearMap), 129-136
    (AffineMap), 165-173 (Injection), 183-191 (Projection), 233-242
    (TsAffineMap), map.hh:456-459 (MapComposition) *)
Fixpoint map_apply (m : hmap) (input output : bv) : outcome (hmap * bv) :=
  match m with
  | MTranslation b =>
      _ <- assertb (length input =? length b) ;;
      _ <- assertb (length output =? length b) ;;
      out <- bv_add input b ;; Ok (m, out)
  | MPermutation p =>
      _ <- assertb (length p =? length input) ;;
      _ <- assertb (length p =? length output) ;;
      v <- perm_is_valid p ;; _ <- assertb v ;;
      out <- foldM (fun out i => k <- vget p i ;; b <- vget input k ;; vset out i b)
               (seq 0 (length output)) output ;;
      Ok (m, out)
  | MLinear M =>
      _ <- assertb (length output =? length M) ;;
      out <- bm_multiply output M input ;; Ok (m, out)
  | MAffine M b =>
      _ <- assertb (length output =? length M) ;;
      y <- bm_multiply output M input ;;
      out <- bv_add y b ;; Ok (m, out)
  | MInjection pos n =>
      _ <- assertb (length input =? length pos) ;;
      _ <- assertb (length output =? n) ;;
      out <- foldM (fun out i => k <- vget pos i ;; b <- vget input i ;; vset out k b)
               (seq 0 (length pos)) output ;;
      Ok (m, out)
  | MProjection pos n =>
      _ <- assertb (length input =? n) ;;
      _ <- assertb (length output =? length pos) ;;
      out <- foldM (fun out i => k <- vget pos i ;; b <- vget input k ;; vset out i b)
               (seq 0 (length pos)) output ;;
      Ok (m, out)
  | MTsAffine ts b =>
      _ <- assertb (length input =? length b) ;;
      _ <- assertb (length output =? length b) ;;
      y <- ts_multiply_bv input ts ;;
      out <- bv_add y b ;; Ok (m, out)
  | MComposition outer inner buf =>
      '(inner', buf') <- map_apply inner input buf ;;
      '(outer', out) <- map_apply outer buf' output ;;
      Ok (MComposition outer' inner' buf', out)
  end.

(** map.cc:157-163 *)
Definition make_injection (positions : list nat) (output_size : nat) : outcome hmap :=
  if output_size <? length positions then Throw RuntimeError
  else Ok (MInjection positions output_size).

(** map.cc:175-181 *)
Definition make_projection (positions : list nat) (input_size : nat) : outcome hmap :=
  if input_size <? length positions then Throw RuntimeError
  else Ok (MProjection positions input_size).

(** map.hh:447-453; the buffer is zero-initialised by std::vector::resize *)
Definition make_composition (outer inner : hmap) : outcome hmap :=
  i <- map_input_size outer ;;
  _ <- assertb (i =? map_output_size inner) ;;
  Ok (MComposition outer inner (repeat false (map_output_size inner))).

(** TsAffineMap::invert: map.cc:250-255 *)
Definition ts_affine_invert (ts : list transvection) (b : bv) : outcome hmap :=
  let ts' := rev ts in
  b' <- ts_multiply_bv b ts' ;; Ok (MTsAffine ts' b').

(** do bm_random(_bm) while (!is_surjective()): map.cc:81-83 and 116-118.
    [matrices] are the successive random matrices; [Ok None] when they run
    out. *)
Fixpoint random_surjective (matrices : list bm) : outcome (option bm) :=
  match matrices with
  | [] => Ok None
  | M :: matrices' =>
      s <- matrix_is_surjective M ;;
      if (s : bool) then Ok (Some M) else random_surjective matrices'
  end.

(** LinearMap::random: map.cc:70-87 *)
Definition linear_map_random (rows cols : nat) (surjective : bool) (matrices : list bm) : outcome (option hmap) :=
  _ <- assertb (0 <? rows) ;; _ <- assertb (0 <? cols) ;;
  if surjective then
    if cols <? rows then Throw RuntimeError
    else r <- random_surjective matrices ;; Ok (option_map MLinear r)
  else match matrices with [] => Ok None | M :: _ => Ok (Some (MLinear M)) end.

(** FunctionMapComposition: lib/hnco/functions/modifiers/modifier.hh:83-142 and
    modifier.cc:42-47.  The decorated function is given by its size, its
    evaluation and its maximum when it is known. *)
Record bfunction (V : Type) := mk_function {
  fn_size : nat;
  fn_eval : bv -> V;
  fn_maximum : option V }.
Arguments mk_function {V}.
Arguments fn_size {V}.
Arguments fn_eval {V}.
Arguments fn_maximum {V}.

(** function, map and output buffer *)
Record fmc (V : Type) := mk_fmc {
  fmc_function : bfunction V;
  fmc_map : hmap;
  fmc_output : bv }.
Arguments mk_fmc {V}.
Arguments fmc_function {V}.
Arguments fmc_map {V}.
Arguments fmc_output {V}.

(** modifier.hh:95-103 *)
Definition make_fmc {V : Type} (f : bfunction V) (m : hmap) : outcome (fmc V) :=
  if map_output_size m =? fn_size f then Ok (mk_fmc f m (repeat false (fn_size f)))
  else Throw RuntimeError.

(** modifier.hh:110 *)
Definition fmc_size {V : Type} (c : fmc V) : outcome nat := map_input_size (fmc_map c).

(** modifier.hh:125-129 *)
Definition fmc_has_known_maximum {V : Type} (c : fmc V) : outcome bool :=
  match fn_maximum (fmc_function c) with
  | None => Ok false
  | Some _ => map_is_surjective (fmc_map c)
  end.

(** modifier.hh:115-120 *)
Definition fmc_get_maximum {V : Type} (c : fmc V) : outcome V :=
  k <- fmc_has_known_maximum c ;;
  if (k : bool) then
    match fn_maximum (fmc_function c) with Some v => Ok v | None => Throw RuntimeError end
  else Throw RuntimeError.

(** modifier.cc:42-47 *)
Definition fmc_evaluate {V : Type} (c : fmc V) (x : bv) : outcome (fmc V * V) :=
  '(m', out) <- map_apply (fmc_map c) x (fmc_output c) ;;
  Ok (mk_fmc (fmc_function c) m' out, fn_eval (fmc_function c) out).
