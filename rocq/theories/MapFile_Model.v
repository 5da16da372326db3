(** Model of the files of maps: the program mapgen, app/mapgen.cc, and the loading of maps
    by the application, lib/hnco/app/decorated-function-factory.cc:39-53 and 56-151, with
    the serialization of maps, lib/hnco/maps/map.hh and transvection.hh.

    A text archive of Boost is the list of its numbers: a vector is its size followed by
    its elements and the members of an object follow each other.  The header of the
    archive, the versions of the classes and the versions of the items, which are the same
    in all the files, are left out.  An exception of type archive_exception is
    [Throw OtherException]: it derives from std::exception but not from
    std::runtime_error.  Negative sizes of vectors and sizes beyond the memory, for which
    std::vector throws other exceptions, are not modelled: the reading fails. *)

From Coq Require Import ZArith.
From Verif Require Import Base BitVector_Model BitMatrix_Model Transvection_Model Map_Model Decorator_Model Application_Model.
Local Open Scope nat_scope.

Definition archive := list Z.

(** ** Writing *)

Definition save_vector {T} (save : T -> archive) (l : list T) : archive := Z.of_nat (length l) :: flat_map save l.
Definition save_index (k : nat) : archive := [Z.of_nat k].
(** bit_t is std::uint8_t, bit-vector.hh:47; 8-bit numbers are written in decimal *)
Definition save_bit (b : bool) : archive := [if b then 1 else 0]%Z.
Definition save_bv : bv -> archive := save_vector save_bit.
Definition save_bm : bm -> archive := save_vector save_bv.
(** transvection.hh:62-68 *)
Definition save_transvection (tv : transvection) : archive := save_index (row_index tv) ++ save_index (column_index tv).

(** map.hh:85-90, 173-178, 253-258, 336-342, 606-611; mapgen.cc:72 writes a permutation then a
    translation. *)
Definition save_map (m : hmap) : archive :=
  match m with
  | MTranslation b => save_bv b
  | MPermutation p => save_vector save_index p
  | MLinear M => save_bm M
  | MAffine M b => save_bm M ++ save_bv b
  | MTsAffine ts b => save_bv b ++ save_vector save_transvection ts
  | MInjection _ _ | MProjection _ _ | MComposition _ _ _ => []
  end.

(** ** Reading *)

(** The extraction of a number fails at the end of the file, or if it does not fit. *)
Definition read_number (fits : Z -> bool) (a : archive) : outcome (Z * archive) :=
  match a with
  | [] => Throw OtherException
  | z :: a' => if fits z then Ok (z, a') else Throw OtherException
  end.
Definition read_size : archive -> outcome (Z * archive) := read_number (fun z => 0 <=? z)%Z.
Definition read_int : archive -> outcome (Z * archive) := read_number (fun z => (- 2 ^ 31 <=? z) && (z <? 2 ^ 31))%Z.
(** An 8-bit number is read as a 16-bit unsigned number, then truncated. *)
Definition read_byte (a : archive) : outcome (Z * archive) :=
  '(z, a) <- read_number (fun z => (- 2 ^ 16 <? z) && (z <? 2 ^ 16))%Z a ;; Ok ((z mod 256)%Z, a).

Fixpoint read_items {T} (read : archive -> outcome (T * archive)) (n : nat) (a : archive) : outcome (list T * archive) :=
  match n with
  | 0 => Ok ([], a)
  | S n' =>
      '(x, a) <- read a ;;
      '(l, a) <- read_items read n' a ;; Ok (x :: l, a)
  end.
Definition read_vector {T} (read : archive -> outcome (T * archive)) (a : archive) : outcome (list T * archive) :=
  '(n, a) <- read_size a ;; read_items read (Z.to_nat n) a.

(** bv_is_valid, bit-vector.hh:103 *)
Definition bits_valid (l : list Z) : bool := forallb (fun z => (z =? 0) || (z =? 1))%Z l.
Definition to_bits (l : list Z) : bv := map (Z.eqb 1) l.

(** Translation::load, map.hh:93-99 *)
Definition load_translation (a : archive) : outcome (hmap * archive) :=
  '(l, a) <- read_vector read_byte a ;;
  _ <- assertb (bits_valid l) ;; Ok (MTranslation (to_bits l), a).

(** Permutation::load, map.hh:181-187; perm_is_valid refuses negative numbers,
    permutation.cc:32-33 *)
Definition load_permutation (a : archive) : outcome (hmap * archive) :=
  '(l, a) <- read_vector read_int a ;;
  _ <- assertb (forallb (Z.leb 0) l) ;;
  let p := map Z.to_nat l in
  v <- perm_is_valid p ;; _ <- assertb v ;; Ok (MPermutation p, a).

(** LinearMap::load, map.hh:261-267; bm_is_valid checks the sizes, then the bits *)
Definition load_linear (a : archive) : outcome (hmap * archive) :=
  '(M, a) <- read_vector (read_vector read_byte) a ;;
  _ <- assertb (bm_is_valid (map to_bits M) && forallb bits_valid M) ;;
  Ok (MLinear (map to_bits M), a).

(** AffineMap::load, map.hh:345-354 *)
Definition load_affine (a : archive) : outcome (hmap * archive) :=
  '(M, a) <- read_vector (read_vector read_byte) a ;;
  '(b, a) <- read_vector read_byte a ;;
  _ <- assertb (bm_is_valid (map to_bits M) && forallb bits_valid M) ;;
  _ <- assertb (bits_valid b) ;;
  _ <- assertb (length M =? length b) ;;
  Ok (MAffine (map to_bits M) (to_bits b), a).

(** Transvection::load, transvection.hh:70-76; [is_valid()], transvection.cc:34-44 *)
Definition load_transvection (a : archive) : outcome (transvection * archive) :=
  '(i, a) <- read_int a ;;
  '(j, a) <- read_int a ;;
  _ <- assertb ((0 <=? i) && (0 <=? j) && negb (i =? j))%Z ;;
  Ok (mk_tv (Z.to_nat i) (Z.to_nat j), a).

(** TsAffineMap::load, map.hh:614-620 *)
Definition load_ts_affine (a : archive) : outcome (hmap * archive) :=
  '(b, a) <- read_vector read_byte a ;;
  '(ts, a) <- read_vector load_transvection a ;;
  _ <- assertb (bits_valid b) ;;
  _ <- assertb (ts_is_valid_n ts (length b)) ;;
  Ok (MTsAffine ts (to_bits b), a).

(** catch (boost::archive::archive_exception& e), decorated-function-factory.cc:50-52 and
    100-102 *)
Definition rethrow {T} (r : outcome T) : outcome T :=
  match r with Throw OtherException => Throw RuntimeError | _ => r end.

(** decorated-function-factory.cc:39-53 and 62-147 for the maps which are loaded; the file is
    None when it cannot be opened.  What follows in the file is not read. *)
Definition load_map (kind : Z) (file : option archive) : outcome hmap :=
  match file with
  | None => Throw RuntimeError
  | Some a =>
      match kind with
      | 1%Z => '(m, _) <- rethrow (load_translation a) ;; Ok m
      | 2%Z => '(m, _) <- rethrow (load_permutation a) ;; Ok m
      | 3%Z =>
          '(p, t) <- rethrow ('(p, a) <- load_permutation a ;; '(t, _) <- load_translation a ;; Ok (p, t)) ;;
          make_composition p t
      | 4%Z => '(m, _) <- rethrow (load_linear a) ;; Ok m
      | 5%Z => '(m, _) <- rethrow (load_affine a) ;; Ok m
      | 6%Z => '(m, _) <- rethrow (load_ts_affine a) ;; Ok m
      | _ => Throw RuntimeError
      end
  end.

(** ** mapgen *)

(** mapgen-options.hh *)
Record mapgen_options := mk_mapgen_options {
  mg_kind : Z;
  mg_input_size : Z;
  mg_output_size : Z;
  mg_surjective : bool;
  mg_ts_length : Z;
  mg_ts_mode : Z }.

(** The switch of mapgen.cc:38-121 without the writing: the maps to be written, one after
    the other.  An unknown type ends the program by exit(1), mapgen.cc:114-117: it is
    [Throw RuntimeError] here, which ends it in the same way.  [Ok None] when the draws run
    out. *)
Definition generate_map (o : mapgen_options) (d : map_draws) : outcome (option (list hmap)) :=
  let n := Z.to_nat (mg_output_size o) in
  let one := map_some (fun m => [m]) in
  match mg_kind o with
  | 1%Z => m <- translation_random n d ;; Ok (Some [m])
  | 2%Z => m <- permutation_random n d ;; Ok (Some [m])
  | 3%Z => p <- permutation_random n d ;; t <- translation_random n d ;; Ok (Some [p; t])
  | 4%Z => one (linear_map_random n (Z.to_nat (mg_input_size o)) (mg_surjective o) (md_matrices d))
  | 5%Z => one (affine_map_random n (Z.to_nat (mg_input_size o)) (mg_surjective o) d)
  | 6%Z => one (ts_affine_map_random (Z.to_nat (mg_input_size o)) (mg_ts_length o) (mg_ts_mode o) d)
  | _ => Throw RuntimeError
  end.

(** main, mapgen.cc:124-145: the archive which is written, if any, and the end of the
    program.  The stream is not checked: when the file is not [writable], the archive throws
    archive_exception, which is not caught.  None when the draws run out. *)
Definition mapgen (o : mapgen_options) (d : map_draws) (writable : bool) : option (option archive * ending) :=
  match generate_map o d with
  | Ok None => None
  | Ok (Some l) => Some (if writable then (Some (flat_map save_map l), Exit 0) else (None, Uncaught))
  | Throw OtherException => Some (None, Uncaught)
  | Throw _ => Some (None, Exit 1)
  | UB => Some (None, Undefined)
  end.
