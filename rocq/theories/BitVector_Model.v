(** Model of bit vectors: lib/hnco/bit-vector.hh, lib/hnco/bit-vector.cc and
    lib/hnco/sparse-bit-vector.cc.

    A [bit_t] is a char holding 0 or 1; it is modelled by [bool] (the byte
    values 2..255 are not modelled).  Functions that write through a reference
    return the new value.  Loops running over the whole of two vectors of equal
    (asserted) size are written with [map2]. *)

From Coq Require Import NArith QArith String Ascii.
From Verif Require Import Base.
Local Close Scope Q_scope.
Local Open Scope nat_scope.
Local Open Scope list_scope.

(** bit-vector.hh:94 *)
Notation bv := (list bool) (only parsing).

(** bit-vector.hh:55 *)
Definition bit_add (b1 b2 : bool) : bool := xorb b1 b2.

(** bit-vector.hh:63 *)
Definition bit_flip_if (b c : bool) : bool := xorb b c.

(** bit-vector.hh:69 *)
Definition bit_flip (b : bool) : bool := bit_flip_if b true.

(** bit-vector.hh:106 *)
Definition bv_is_zero (x : bv) : bool := forallb (fun b => negb b) x.

Definition b2n (b : bool) : nat := if b then 1 else 0.

(** bit-vector.hh:109 (std::accumulate) *)
Definition bv_hamming_weight (x : bv) : nat := fold_left (fun (acc : nat) (b : bool) => acc + b2n b) x 0.

(** bit-vector.cc:46-54, overload for std::vector<bool> *)
Definition bv_hamming_weight_vb (x : list bool) : nat :=
  fold_left (fun (acc : nat) (b : bool) => if b then acc + 1 else acc) x 0.

(** bit-vector.cc:56-66 *)
Definition bv_hamming_distance (x y : bv) : outcome nat :=
  _ <- assertb (length x =? length y) ;;
  Ok (fold_left (fun d p => if negb (Bool.eqb (fst p) (snd p)) then d + 1 else d) (combine x y) 0).

(** bit-vector.cc:68-78 (and the identical overload 80-90) *)
Definition bv_dot_product (x y : bv) : outcome bool :=
  _ <- assertb (length x =? length y) ;;
  Ok (Nat.odd (fold_left (fun r p => if fst p && snd p then r + 1 else r) (combine x y) 0)).

(** bit-vector.hh:124 *)
Definition bv_clear (x : bv) : bv := map (fun _ => false) x.

(** bit-vector.cc:123-131 *)
Definition bv_add (dest src : bv) : outcome bv :=
  _ <- assertb (length dest =? length src) ;;
  Ok (map2 bit_flip_if dest src).

(** bit-vector.cc:133-142; only the size of the old [dest] matters *)
Definition bv_add3 (dest x y : bv) : outcome bv :=
  _ <- assertb (length dest =? length x) ;;
  _ <- assertb (length dest =? length y) ;;
  Ok (map2 bit_add x y).

(** bit-vector.hh:150 *)
Definition bv_flip (x : bv) (i : nat) : outcome bv :=
  b <- vget x i ;; vset x i (bit_flip b).

(** std::is_sorted *)
Fixpoint is_sorted (l : list nat) : bool :=
  match l with
  | a :: ((b :: _) as t) => (a <=? b) && is_sorted t
  | _ => true
  end.

(** sparse-bit-vector.cc:29-49; indices are ints in C++, naturals here, so the
    test "index < 0" is dropped *)
Definition sbv_is_valid (sbv : list nat) (n : nat) : bool :=
  is_sorted sbv && forallb (fun i => i <? n) sbv.

(** bit-vector.cc:92-99 *)
Definition bv_flip_sbv (x : bv) (sbv : list nat) : outcome bv :=
  _ <- assertb (sbv_is_valid sbv (length x)) ;;
  foldM bv_flip sbv x.

(** bit-vector.hh:160; [bit i] is the value of the i-th call to
    random::Generator::bernoulli *)
Definition bv_random (x : bv) (bit : nat -> bool) : bv := map bit (seq 0 (length x)).

(** bit-vector.cc:101-121.  [u c] is the value returned by the c-th call to
    random::Generator::uniform, [k] and [n] are the decreasing variables of
    the loop; the result contains the number of calls.  The double quotient
    k / n is taken exactly. *)
Fixpoint bv_random_weight_loop (x : bv) (k n : nat) (u : nat -> Q) (c : nat)
  : outcome (bv * nat) :=
  match x with
  | [] => Ok ([], c)
  | _ :: x' =>
      if 0 <? k then
        _ <- assertb (0 <? n) ;;
        let p := Qmake (Z.of_nat k) (Pos.of_nat n) in
        if negb (Qle_bool p (u c)) then
          '(r, c') <- bv_random_weight_loop x' (k - 1) (n - 1) u (c + 1) ;; Ok (true :: r, c')
        else
          '(r, c') <- bv_random_weight_loop x' k (n - 1) u (c + 1) ;; Ok (false :: r, c')
      else
        '(r, c') <- bv_random_weight_loop x' k n u c ;; Ok (false :: r, c')
  end.

Definition bv_random_weight (x : bv) (k : nat) (u : nat -> Q) : outcome (bv * nat) :=
  _ <- assertb (k <=? length x) ;;
  bv_random_weight_loop x k (length x) u 0.

(** bit-vector.cc:144-155 and 157-168: [y] is the output vector, whose size is
    checked *)
Definition bv_to_vector_bool (y : list bool) (x : bv) : outcome (list bool) :=
  _ <- assertb (length y =? length x) ;; Ok (map (fun b : bool => if b then true else false) x).
Definition bv_from_vector_bool (x : bv) (y : list bool) : outcome bv :=
  _ <- assertb (length y =? length x) ;; Ok (map (fun b : bool => if b then true else false) y).

(** std::size_t: 64 bits *)
Definition size_bits : nat := 64.
Definition wrap64 (n : N) : N := (n mod 2 ^ 64)%N.

(** Body of the loops bit-vector.cc:175-181 and 192-198 *)
Fixpoint to_size_loop (x : bv) (result mask : N) : N :=
  match x with
  | [] => result
  | b :: x' => to_size_loop x' (if b then N.lor result mask else result) (wrap64 (N.shiftl mask 1))
  end.

(** bit-vector.cc:170-183 *)
Definition bv_to_size_type (x : bv) : outcome N :=
  _ <- assertb (length x <=? size_bits) ;;
  Ok (to_size_loop x 0%N 1%N).

(** bit-vector.cc:185-200; the loop over i in [start, stop) reads the slice *)
Definition bv_to_size_type_range (x : bv) (start stop : nat) : outcome N :=
  _ <- assertb (start <? length x) ;;
  _ <- assertb ((start + 1 <=? stop) && (stop <? length x + 1)) ;;
  _ <- assertb (stop - start <=? size_bits) ;;
  Ok (to_size_loop (firstn (stop - start) (skipn start x)) 0%N 1%N).

(** bit-vector.cc:207-214 *)
Fixpoint from_size_loop (n : nat) (u mask : N) : bv :=
  match n with
  | 0 => []
  | S n' => negb (N.land u mask =? 0)%N :: from_size_loop n' u (wrap64 (N.shiftl mask 1))
  end.

(** bit-vector.cc:202-215; only the size of the old [x] matters *)
Definition bv_from_size_type (x : bv) (u : N) : outcome bv :=
  _ <- assertb (length x <=? size_bits) ;;
  Ok (from_size_loop (length x) u 1%N).

(** bit-vector.cc:36-44: characters sent to the stream *)
Fixpoint bv_display (x : bv) : string :=
  match x with
  | [] => EmptyString
  | b :: x' => String (if b then "1"%char else "0"%char) (bv_display x')
  end.

(** bit-vector.cc:217-231 *)
Fixpoint bv_from_string (s : string) : bv :=
  match s with
  | EmptyString => []
  | String c s' => (if Ascii.eqb c "0"%char then false else true) :: bv_from_string s'
  end.

Definition newline : ascii := ascii_of_nat 10.

(** std::getline on a stream whose remaining content is [s]: [None] when no
    character is left, otherwise the line without its newline and the rest. *)
Fixpoint line_of (s : string) : string * string :=
  match s with
  | EmptyString => (EmptyString, EmptyString)
  | String c s' =>
      if Ascii.eqb c newline then (EmptyString, s')
      else let (l, r) := line_of s' in (String c l, r)
  end.
Definition getline (s : string) : option (string * string) :=
  match s with EmptyString => None | _ => Some (line_of s) end.

(** bit-vector.cc:233-242 *)
Definition bv_from_stream (s : string) : bv :=
  match getline s with
  | Some (line, _) => bv_from_string line
  | None => []
  end.
