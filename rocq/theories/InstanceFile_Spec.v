(** The files of functions and the functions which are read from them, independently of the
    code. *)

From Coq Require Import ZArith NArith QArith Qabs Permutation Sorted.
From Verif Require Import Base BitVector_Spec Function_Spec Double Controller_Model FunctionFactory_Model Rounding_Model Rounding_Spec Collection_Spec InstanceFile_Model.
Local Open Scope nat_scope.

(** ** Functions *)

(** The type of a function, for the option --function *)
Definition type_of (i : instance) : Z :=
  match i with
  | ILinear _ => 1
  | INk _ _ => 60
  | IEqualProducts _ => 90
  | IPartition _ => 91
  | IWalsh _ => 160
  | IWalsh1 _ => 161
  | IWalsh2 _ _ => 162
  | IIsing1 _ _ _ => 171
  | IIsing2 _ _ _ _ => 172
  end.

Definition archive_types : list Z := [1; 60; 90; 91; 160; 161; 162; 171; 172]%Z.

(** No number is infinite or undefined. *)
Definition is_finite (v : dbl) : Prop := exists z, v = DFin z.
Definition finite (i : instance) : Prop :=
  match i with
  | ILinear l | IEqualProducts l | IWalsh1 l => Forall is_finite l
  | INk _ m => Forall (Forall is_finite) m
  | IPartition _ => True
  | IWalsh t => Forall (fun t => is_finite (snd t)) t
  | IWalsh2 l m => Forall is_finite l /\ Forall (Forall is_finite) m
  | IIsing1 c f _ => Forall is_finite c /\ Forall is_finite f
  | IIsing2 r b f _ => Forall (Forall is_finite) r /\ Forall (Forall is_finite) b /\ Forall (Forall is_finite) f
  end.

(** Integers are of type int. *)
Definition is_int (z : Z) : Prop := (- 2 ^ 31 <= z < 2 ^ 31)%Z.
Definition ints_fit (i : instance) : Prop :=
  match i with
  | INk ns _ => Forall (Forall is_int) ns
  | IPartition l => Forall is_int l
  | _ => True
  end.

(** A rectangular array *)
Definition array {A} (nr nc : nat) (m : list (list A)) : Prop := length m = nr /\ Forall (fun row => length row = nc) m.

(** All the sizes agree, indices are those of bits, and the numbers of partitions are not negative. *)
Definition well_formed (i : instance) : Prop :=
  match i with
  | ILinear _ | IEqualProducts _ | IWalsh1 _ => True
  | INk ns fs => exists k neighbors, 0 < length fs /\ ns = map (map Z.of_nat) neighbors /\ nk_sites (length fs) k neighbors /\ nk_tables (length fs) k fs
  | IPartition l => Forall (fun a => 0 <= a)%Z l
  | IWalsh t => exists n, t <> [] /\ Forall (fun t => length (fst t) = n) t
  | IWalsh2 l q => length l = length q /\ forall i, i < length q -> i <= length (nth i q [])
  | IIsing1 c f _ => 0 < length c /\ length f = length c
  | IIsing2 r b f _ => exists nr nc, 0 < nr /\ 0 < nc /\ array nr nc r /\ array nr nc b /\ array nr nc f
  end.

Definition size_of (i : instance) : nat :=
  match i with
  | ILinear l | IEqualProducts l | IWalsh1 l => length l
  | INk _ m => length m
  | IPartition l => length l
  | IWalsh t => length (fst (hd ([], DFin 0) t))
  | IWalsh2 _ q => length q
  | IIsing1 c _ _ => length c
  | IIsing2 _ _ f _ => length f * length (hd [] f)
  end.

(** The number of index [j], in multiples of 2^-1074, and the spin of the bit of index [j] *)
Definition at_ (l : list dbl) (j : nat) : Z := units (nth j l (DFin 0)).
Definition at2 (m : list (list dbl)) (i j : nat) : Z := at_ (nth i m []) j.
Definition spin_at (x : list bool) (j : nat) : Z := spin (nth j x false).

(** The value of a vector: the documentation of the classes.  [near] is the double nearest
    to a rational number. *)
Definition value_of (near : Q -> dbl) (i : instance) (x : list bool) : dbl :=
  match i with
  | ILinear w => DFin (sum_n (length w) (fun j => if nth j x false then at_ w j else 0%Z))
  | INk ns fs =>
      let n := length fs in
      near (qsum (map (contribution (map (map Z.to_nat) ns) (map (map rational) fs) x) (seq 0 n)) / inject_Z (Z.of_nat n))%Q
  | IEqualProducts l =>
      let p b := qprod (part b (map rational l) x) in near (- Qabs (p true - p false))%Q
  | IPartition l =>
      let s b := zsum (part b l x) in dint (- Z.abs (s true - s false))
  | IWalsh t => DFin (zsum (map (fun t => walsh_sign (fst t) x * units (snd t))%Z t))
  | IWalsh1 l => DFin (sum_n (length l) (fun j => at_ l j * spin_at x j)%Z)
  | IWalsh2 l q =>
      DFin (sum_n (length l) (fun i => at_ l i * spin_at x i) + sum_n (length q) (fun i => sum_n i (fun j => at2 q i j * spin_at x i * spin_at x j)))%Z
  | IIsing1 c f p =>
      let n := length c in
      let next j := if j =? n - 1 then 0 else j + 1 in
      DFin (sum_n (if p then n else n - 1) (fun j => at_ c j * spin_at x j * spin_at x (next j)) + sum_n n (fun j => at_ f j * spin_at x j))%Z
  | IIsing2 r b f p =>
      let nr := length f in
      let nc := length (hd [] f) in
      let site i j := spin_at x ((if i =? nr then 0 else i) * nc + (if j =? nc then 0 else j)) in
      DFin (sum_n nr (fun i => sum_n (if p then nc else nc - 1) (fun j => at2 r i j * site i j * site i (j + 1)%nat)) +
            sum_n (if p then nr else nr - 1) (fun i => sum_n nc (fun j => at2 b i j * site i j * site (i + 1)%nat j)) +
            sum_n nr (fun i => sum_n nc (fun j => at2 f i j * site i j)))%Z
  end.

(** The sums of integers, on both sides of a partition, are of type int. *)
Definition no_overflow (i : instance) (x : list bool) : Prop :=
  match i with IPartition l => forall b, (zsum (part b l x) < 2 ^ 31)%Z | _ => True end.

(** The functions whose maximum is known, and those which have incremental evaluation *)
Definition maximum_known (k : Z) : bool := ((k =? 1) || (k =? 161))%Z.
Definition has_incremental (k : Z) : bool := ((k =? 1) || (k =? 161) || (k =? 171) || (k =? 172))%Z.

(** Equal rational numbers have the same nearest double. *)
Definition respects (near : Q -> dbl) : Prop := forall q q', (q == q')%Q -> near q = near q'.

(** The requests for values of vectors of the right size, and for increments whose starting
    value is right and whose positions are increasing; and their answers *)
Definition proper (near : Q -> dbl) (i : instance) (r : request) : Prop :=
  match r with
  | REval x | RSafe x => length x = size_of i /\ no_overflow i x
  | RInc x v l => length x = size_of i /\ v = value_of near i x /\ StronglySorted lt l /\ Forall (fun j => j < size_of i) l
  | RUpdate _ _ => True
  end.
Definition answer (near : Q -> dbl) (i : instance) (r : request) : outcome reply :=
  match r with
  | REval x | RSafe x => Ok (RValue (value_of near i x))
  | RInc x v l => if has_incremental (type_of i) then Ok (RValue (value_of near i (flipped_at x l))) else Throw RuntimeError
  | RUpdate _ _ => Ok RVoid
  end.

(** [m] is the greatest value. *)
Definition greatest_value (near : Q -> dbl) (i : instance) (m : dbl) : Prop :=
  (forall x, length x = size_of i -> dle (value_of near i x) m = true) /\
  exists x, length x = size_of i /\ value_of near i x = m.

(** ** ffgen *)

Definition known_type (o : ffgen_options) : Prop := In (fg_type o) (70 :: 190 :: archive_types)%Z.
Definition known_generator (o : ffgen_options) : Prop :=
  match fg_type o with
  | 1 => 0 <= fg_lin_generator o <= 2
  | 162 => 0 <= fg_walsh2_generator o <= 1
  | 171 => 0 <= fg_nn1_generator o <= 3
  | 172 => 0 <= fg_nn2_generator o <= 3
  | _ => True
  end%Z.
Definition arguments_ok (o : ffgen_options) : Prop :=
  match fg_type o with
  | 60 => 0 < fg_nk_k o <= 29 /\ fg_nk_k o < fg_size o
  | 70 => 0 < fg_ms_literals o <= fg_size o /\ 0 < fg_ms_clauses o
  | 91 => 0 < fg_size o /\ 0 < fg_part_bound o
  | 160 => 0 < fg_size o /\ 0 < fg_walsh_features o
  | 172 => 0 < fg_rows o /\ 0 < fg_columns o
  | 190 => 0 < fg_sudoku_cells o <= 81
  | _ => 0 < fg_size o
  end%Z.
Definition refused (o : ffgen_options) : Prop := ~ known_type o \/ ~ known_generator o.
Definition accepted (o : ffgen_options) : Prop := known_type o /\ known_generator o /\ arguments_ok o.
(** The vector of the planted solution cannot be made. *)
Definition negative_solution (o : ffgen_options) : Prop := (fg_type o = 70 /\ fg_ms_planted o = true /\ fg_size o < 0)%Z.

(** The options are of type int. *)
Definition options_fit (o : ffgen_options) : Prop :=
  (fg_size o < 2 ^ 31 /\ fg_part_bound o < 2 ^ 31 /\ fg_ms_clauses o < 2 ^ 31)%Z.

Definition draws_fit (o : ffgen_options) (d : ffgen_draws) : Prop :=
  (1 <= fg_part_bound o -> forall i, 1 <= fd_int d i <= fg_part_bound o)%Z /\
  (forall i j, 0 <= fd_neighbors d i j < 1)%Q /\ (forall i j, 0 <= fd_variables d i j < 1)%Q /\ (forall i, 0 <= fd_erased d i < 1)%Q /\
  (forall i lo hi, lo <= hi -> lo <= fd_index d i lo hi <= hi) /\
  Permutation (fd_shuffle d (seq 0 9)) (seq 0 9).

(** The size of the vectors *)
Definition expected_size (o : ffgen_options) : nat :=
  if (fg_type o =? 172)%Z then Z.to_nat (fg_rows o) * Z.to_nat (fg_columns o) else Z.to_nat (fg_size o).

(** The draw number [k] of the normal distribution of the given standard deviation *)
Definition noise (o : ffgen_options) (d : ffgen_draws) (k : nat) : dbl := fmul (fg_stddev o) (fd_normal d k).
Definition vector_is (n : nat) (l : list dbl) (f : nat -> dbl) : Prop := length l = n /\ forall j, j < n -> nth j l (DFin 0) = f j.
Definition array_is (nr nc : nat) (m : list (list dbl)) (f : nat -> nat -> dbl) : Prop :=
  array nr nc m /\ forall i j, i < nr -> j < nc -> nth j (nth i m []) (DFin 0) = f i j.

(** What is asked by the options; the order of the draws matters: those of Ising models are
    made site by site. *)
Definition as_asked (o : ffgen_options) (d : ffgen_draws) (i : instance) : Prop :=
  let n := Z.to_nat (fg_size o) in
  let nr := Z.to_nat (fg_rows o) in
  let nc := Z.to_nat (fg_columns o) in
  match i with
  | ILinear w =>
      length w = n /\
      match fg_lin_generator o with
      | 0%Z => vector_is n w (noise o d)
      | 1%Z => nth 0 w (DFin 0) = fg_lin_initial o /\
          forall j, j + 1 < n -> nth (j + 1) w (DFin 0) = fadd (nth j w (DFin 0)) (fg_lin_distance o)
      | _ => nth 0 w (DFin 0) = fg_lin_initial o /\
          forall j, j + 1 < n -> nth (j + 1) w (DFin 0) = fmul (nth j w (DFin 0)) (fg_lin_ratio o)
      end
  | INk ns fs =>
      let k := Z.to_nat (fg_nk_k o) in
      (exists neighbors, ns = map (map Z.of_nat) neighbors /\ nk_sites n k neighbors) /\
      array_is n (2 ^ (k + 1)) fs (fun i j => noise o d (i * 2 ^ (k + 1) + j))
  | IEqualProducts l => vector_is n l (fun j => fmul (fg_ep_bound o) (fd_uniform d j))
  | IPartition l => l = map (fd_int d) (seq 0 n)
  | IWalsh t =>
      let m := Z.to_nat (fg_walsh_features o) in
      vector_is m (map snd t) (noise o d) /\ forall j, j < m -> fst (nth j t ([], DFin 0)) = map (fd_feature d j) (seq 0 n)
  | IWalsh1 l => vector_is n l (noise o d)
  | IWalsh2 l q =>
      length q = n /\ (forall i, i < n -> length (nth i q []) = i) /\
      if (fg_walsh2_generator o =? 0)%Z then
        vector_is n l (noise o d) /\
        forall i j, i < n -> j < i -> nth j (nth i q []) (DFin 0) = noise o d (n + pair_rank i j)
      else
        vector_is n l (fun _ => DFin 0) /\
        forall i j, i < n -> j < i -> nth j (nth i q []) (DFin 0) = fd_pow d (dint (Z.of_nat i - Z.of_nat j)) (fopp (fg_walsh2_alpha o))
  | IIsing1 c f p =>
      p = fg_periodic o /\
      match fg_nn1_generator o with
      | 0%Z => vector_is n c (fun j => noise o d (2 * j)) /\ vector_is n f (fun j => noise o d (2 * j + 1))
      | 1%Z => vector_is n c (noise o d) /\ vector_is n f (fun _ => fg_field o)
      | 2%Z => vector_is n c (fun _ => fg_coupling o) /\ vector_is n f (noise o d)
      | _ => vector_is n c (fun _ => fg_coupling o) /\ vector_is n f (fun _ => fg_field o)
      end
  | IIsing2 r b f p =>
      p = fg_periodic o /\
      let site i j := i * nc + j in
      match fg_nn2_generator o with
      | 0%Z => array_is nr nc r (fun i j => noise o d (3 * site i j)) /\ array_is nr nc b (fun i j => noise o d (3 * site i j + 1)) /\
               array_is nr nc f (fun i j => noise o d (3 * site i j + 2))
      | 1%Z => array_is nr nc r (fun i j => noise o d (2 * site i j)) /\ array_is nr nc b (fun i j => noise o d (2 * site i j + 1)) /\
               array_is nr nc f (fun _ _ => fg_field o)
      | 2%Z => array_is nr nc r (fun _ _ => fg_coupling o) /\ array_is nr nc b (fun _ _ => fg_coupling o) /\
               array_is nr nc f (fun i j => noise o d (site i j))
      | _ => array_is nr nc r (fun _ _ => fg_coupling o) /\ array_is nr nc b (fun _ _ => fg_coupling o) /\
             array_is nr nc f (fun _ _ => fg_field o)
      end
  end.

(** [a] is the beginning of [b], without its end. *)
Definition truncated (a b : tokens) : Prop := exists c, c <> [] /\ b = a ++ c.
