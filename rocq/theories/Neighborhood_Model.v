(** Model of the neighborhoods: lib/hnco/neighborhoods/neighborhood.hh and
    lib/hnco/neighborhoods/neighborhood.cc. *)

From Coq Require Import QArith.
From Verif Require Import Base BitVector_Model.
Local Open Scope nat_scope.

(** The random numbers drawn by one call of sample_bits: the successive values of
    Generator::uniform, of _index_dist, of _choose_k, of _binomial_dist and of
    _bernoulli_dist.  Loops repeated until a condition on the draws holds read a
    finite list; when it is exhausted the call has not returned yet ([None]). *)
Record draws := mk_draws {
  d_uniform : nat -> Q;
  d_index : list nat;
  d_choose : nat;
  d_binomial : list nat;
  d_coins : list bool
}.

(** neighborhood.cc:39-46: the loop from position [i], with [m] positions left; [k]
    is an int, the quotient k / n of doubles is taken exactly, n being [m]. *)
Fixpoint trials_loop (u : nat -> Q) (m i : nat) (k : Z) : list nat * Z :=
  match m with
  | 0 => ([], k)
  | S m' =>
      if negb (Qle_bool (Qmake k (Pos.of_nat m)) (u i)) then
        let (l, k') := trials_loop u m' (i + 1) (k - 1) in (i :: l, k')
      else trials_loop u m' (i + 1) k
  end.

(** neighborhood.cc:33-48 *)
Definition bernoulli_trials (n : nat) (k : nat) (d : draws) : outcome (list nat) :=
  let (l, k') := trials_loop (d_uniform d) n 0 (Z.of_nat k) in
  _ <- assertb (k' =? 0)%Z ;;
  Ok l.

(** neighborhood.cc:55-61: [todo] indices are still to be drawn; indices already in
    [acc] are drawn again (std::find) *)
Fixpoint rejection_loop (dr : list nat) (todo : nat) (acc : list nat) {struct dr} : option (list nat) :=
  match todo with
  | 0 => Some acc
  | S todo' =>
      match dr with
      | [] => None
      | i :: dr' => if existsb (Nat.eqb i) acc then rejection_loop dr' todo acc else rejection_loop dr' todo' (acc ++ [i])
      end
  end.

(** std::sort on ints: the sorted list is determined by the input *)
Fixpoint insert_int (a : nat) (l : list nat) : list nat :=
  match l with
  | [] => [a]
  | b :: t => if a <=? b then a :: l else b :: insert_int a t
  end.
Definition sort_ints (l : list nat) : list nat := fold_right insert_int [] l.

(** neighborhood.cc:51-63 *)
Definition rejection_sampling (k : nat) (d : draws) : option (list nat) :=
  match rejection_loop (d_index d) k [] with
  | Some l => Some (sort_ints l)
  | None => None
  end.

(** neighborhood.cc:91-95: one pass of the loop over the positions from [i], [m]
    being left; [None] when the coins are exhausted *)
Fixpoint process_pass (coins : list bool) (m i : nat) {struct m} : option (list nat * list bool) :=
  match m with
  | 0 => Some ([], coins)
  | S m' =>
      match coins with
      | [] => None
      | c :: coins' =>
          match process_pass coins' m' (i + 1) with
          | Some (l, rest) => Some ((if c then i :: l else l), rest)
          | None => None
          end
      end
  end.

(** neighborhood.cc:85-97: do ... while (again), each pass reading at least a coin;
    [fuel] bounds the number of passes.  The vector of flipped bits is not cleared
    between passes: a pass that is followed by another one has flipped nothing. *)
Fixpoint process_loop (fuel : nat) (coins : list bool) (n : nat) (acc : list nat) : option (list nat) :=
  match fuel with
  | 0 => None
  | S fuel' =>
      match process_pass coins n 0 with
      | None => None
      | Some (l, rest) => match l with [] => process_loop fuel' rest n (acc ++ l) | _ => Some (acc ++ l) end
      end
  end.
Definition bernoulli_process (n : nat) (d : draws) : option (list nat) :=
  process_loop (S (length (d_coins d))) (d_coins d) n [].

(** neighborhood.cc:74-76: while (k == 0) k = _binomial_dist(...) *)
Fixpoint binomial_loop (dr : list nat) : option nat :=
  match dr with
  | [] => None
  | k :: dr' => if k =? 0 then binomial_loop dr' else Some k
  end.

(** The classes and their own members: neighborhood.hh:163-180 SingleBitFlip,
    222-292 StandardBitMutation (_rejection_sampling and _allow_no_mutation),
    302-326 HammingBall (r), 334-361 HammingSphere (_radius) *)
Inductive nh_kind :=
| SingleBitFlip
| StandardBitMutation (rejection allow_none : bool)
| HammingBall (r : nat)
| HammingSphere (r : nat).

(** neighborhood.hh:61-75: _origin, _candidate, _flipped_bits *)
Record nh := mk_nh { nh_class : nh_kind; nh_origin : bv; nh_candidate : bv; nh_flipped : list nat }.

(** neighborhood.hh:86-92 and the constructors of the classes; vectors are
    initialised to zeros *)
Definition nh_make (kd : nh_kind) (n : nat) : outcome nh :=
  _ <- assertb (0 <? n) ;;
  match kd with
  | SingleBitFlip => Ok (mk_nh kd (repeat false n) (repeat false n) [0])
  | StandardBitMutation _ _ => Ok (mk_nh kd (repeat false n) (repeat false n) [])
  | HammingBall r | HammingSphere r =>
      _ <- assertb (0 <? r) ;;
      _ <- assertb (r <=? n) ;;
      Ok (mk_nh kd (repeat false n) (repeat false n) [])
  end.

(** k < std::sqrt(n), neighborhood.cc:108 and 118; exact for the ints involved *)
Definition below_sqrt (k n : nat) : bool := k * k <? n.

(** The new value of _flipped_bits after sample_bits: neighborhood.hh:167-170,
    neighborhood.cc:66-82, 100-112 and 115-122 *)
Definition sample_bits (s : nh) (d : draws) : option (outcome (list nat)) :=
  let n := length (nh_candidate s) in
  match nh_class s with
  | SingleBitFlip =>
      match d_index d with
      | [] => None
      | i :: _ => Some (_ <- assertb (length (nh_flipped s) =? 1) ;; vset (nh_flipped s) 0 i)
      end
  | StandardBitMutation rejection allow_none =>
      if rejection then
        match (if allow_none then hd_error (d_binomial d) else binomial_loop (d_binomial d)) with
        | None => None
        | Some k => option_map Ok (rejection_sampling k d)
        end
      else option_map Ok (bernoulli_process n d)
  | HammingBall _ =>
      let k := d_choose d in
      if (0 <? k) && (k <=? n) then
        if below_sqrt k n then option_map Ok (rejection_sampling k d) else Some (bernoulli_trials n k d)
      else Some UB
  | HammingSphere r =>
      if below_sqrt r n then option_map Ok (rejection_sampling r d) else Some (bernoulli_trials n r d)
  end.

(** neighborhood.hh:98-101 *)
Definition nh_set_origin (s : nh) (x : bv) : nh := mk_nh (nh_class s) x x (nh_flipped s).

(** operator== on std::vector<bit_t> *)
Fixpoint bv_eqb (x y : bv) : bool :=
  match x, y with
  | [], [] => true
  | a :: x', b :: y' => Bool.eqb a b && bv_eqb x' y'
  | _, _ => false
  end.

(** Sampling, then using the sampled bits *)
Definition with_sample {A} (s : nh) (d : draws) (k : list nat -> outcome A) : option (outcome A) :=
  match sample_bits s d with
  | None => None
  | Some o => Some (l <- o ;; k l)
  end.

(** neighborhood.hh:113-117 *)
Definition nh_propose (s : nh) (d : draws) : option (outcome nh) :=
  if bv_eqb (nh_candidate s) (nh_origin s) then
    with_sample s d (fun l =>
      c <- bv_flip_sbv (nh_candidate s) l ;;
      Ok (mk_nh (nh_class s) (nh_origin s) c l))
  else Some UB.

(** neighborhood.hh:120-123 *)
Definition nh_keep (s : nh) : outcome nh :=
  o <- bv_flip_sbv (nh_origin s) (nh_flipped s) ;;
  _ <- assertb (bv_eqb (nh_candidate s) o) ;;
  Ok (mk_nh (nh_class s) o (nh_candidate s) (nh_flipped s)).

(** neighborhood.hh:126-129 *)
Definition nh_forget (s : nh) : outcome nh :=
  c <- bv_flip_sbv (nh_candidate s) (nh_flipped s) ;;
  _ <- assertb (bv_eqb c (nh_origin s)) ;;
  Ok (mk_nh (nh_class s) (nh_origin s) c (nh_flipped s)).

(** neighborhood.hh:137-141; returns the new state and the mutated vector *)
Definition nh_mutate (s : nh) (x : bv) (d : draws) : option (outcome (nh * bv)) :=
  if length x =? length (nh_origin s) then
    with_sample s d (fun l =>
      y <- bv_flip_sbv x l ;;
      Ok (mk_nh (nh_class s) (nh_origin s) (nh_candidate s) l, y))
  else Some UB.

(** neighborhood.hh:151-157; the old content of [output] is lost *)
Definition nh_map (s : nh) (input output : bv) (d : draws) : option (outcome (nh * bv)) :=
  if (length input =? length (nh_origin s)) && (length output =? length (nh_origin s)) then
    with_sample s d (fun l =>
      y <- bv_flip_sbv input l ;;
      Ok (mk_nh (nh_class s) (nh_origin s) (nh_candidate s) l, y))
  else Some UB.

(** neighborhood.hh:359: no check *)
Definition nh_set_radius (s : nh) (r : nat) : nh :=
  match nh_class s with
  | HammingSphere _ => mk_nh (HammingSphere r) (nh_origin s) (nh_candidate s) (nh_flipped s)
  | _ => s
  end.

(** neighborhood.hh:282-287; [small] is p < 1 / sqrt(n).  The flag is never reset. *)
Definition nh_set_mutation_rate (s : nh) (small : bool) : nh :=
  match nh_class s with
  | StandardBitMutation rejection a =>
      mk_nh (StandardBitMutation (if small then true else rejection) a) (nh_origin s) (nh_candidate s) (nh_flipped s)
  | _ => s
  end.

(** neighborhood.hh:290 *)
Definition nh_set_allow_no_mutation (s : nh) (b : bool) : nh :=
  match nh_class s with
  | StandardBitMutation rejection _ => mk_nh (StandardBitMutation rejection b) (nh_origin s) (nh_candidate s) (nh_flipped s)
  | _ => s
  end.
