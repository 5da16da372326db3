(** Properties of linear functions, Walsh expansions, Ising models, incremental
    evaluation and Walsh transforms. *)

From Coq Require Import ZArith.
From Verif Require Import Base BitVector_Model BitVector_Spec SortedLemmas Theory_Model Function_Spec Theory_Proofs
  Walsh_Model Walsh_Proofs Ising_Proofs Transform_Proofs.
Local Open Scope nat_scope.

(** * C23 *)

Theorem C23_linear_maximum : forall w, is_maximum (length w) (linear_evaluate w) (linear_maximum w).
Proof. exact linear_max. Qed.
Print Assumptions C23_linear_maximum.

Theorem C23_walsh1_maximum : forall a, is_maximum (length a) (walsh1_evaluate a) (walsh1_maximum a).
Proof. exact walsh1_max. Qed.
Print Assumptions C23_walsh1_maximum.

Example C23_case : linear_maximum [3; -2; 5]%Z = 8%Z /\ walsh1_maximum [3; -2; 5]%Z = 10%Z /\
  walsh1_evaluate [3; -2; 5]%Z [false; true; false] = Ok 10%Z.
Proof. repeat split. Qed.

(** * C24 *)

Theorem C24_onemax_incremental : forall x l, positions (length x) l ->
  incremental_right (fun x => Ok (onemax_evaluate x)) onemax_incremental x l.
Proof. exact onemax_incremental_right. Qed.
Print Assumptions C24_onemax_incremental.

Theorem C24_linear_incremental : forall w x l, length x = length w -> positions (length w) l ->
  incremental_right (linear_evaluate w) (linear_incremental w) x l.
Proof. exact linear_incremental_right. Qed.
Print Assumptions C24_linear_incremental.

Theorem C24_walsh1_incremental : forall a x l, length x = length a -> positions (length a) l ->
  incremental_right (walsh1_evaluate a) (walsh1_incremental a) x l.
Proof. exact walsh1_incremental_right. Qed.
Print Assumptions C24_walsh1_incremental.

(** The buffer of flipped bits is zero before and after the call, hence the
    property holds for any sequence of calls. *)
Theorem C24_ising1_incremental : forall J h periodic x l,
  0 < length J -> length h = length J -> length x = length J ->
  increasing l -> Forall (fun i => i < length J) l ->
  exists v w, ising1_evaluate J h periodic x = Ok v /\ ising1_evaluate J h periodic (flipped_at x l) = Ok w /\
    ising1_incremental J h periodic (repeat false (length J)) x v l = Ok (w, repeat false (length J)).
Proof. exact ising1_incremental_right. Qed.
Print Assumptions C24_ising1_incremental.

Theorem C24_ising2_incremental : forall nr nc right below field periodic,
  0 < nr -> 0 < nc -> grid nr nc right -> grid nr nc below -> grid nr nc field ->
  forall x l, length x = nr * nc -> increasing l -> Forall (fun i => i < nr * nc) l ->
  exists v w, ising2_evaluate right below field periodic x = Ok v /\
    ising2_evaluate right below field periodic (flipped_at x l) = Ok w /\
    ising2_incremental right below field periodic (repeat false (nr * nc)) x v l = Ok (w, repeat false (nr * nc)).
Proof. exact ising2_incremental_right. Qed.
Print Assumptions C24_ising2_incremental.

Theorem C24_opposite_incremental : forall ev inc x l,
  incremental_right ev inc x l -> incremental_right (opposite_evaluate ev) (opposite_incremental inc) x l.
Proof. exact opposite_incremental_right. Qed.
Print Assumptions C24_opposite_incremental.

Example C24_case :
  positions 4 [3; 1] /\ increasing [0; 3] /\
  ising1_evaluate [1; 2; 3; 4]%Z [5; 6; 7; 8]%Z true [true; false; false; true] = Ok 2%Z /\
  ising1_incremental [1; 2; 3; 4]%Z [5; 6; 7; 8]%Z true (repeat false 4) [true; false; false; true] 2%Z [0; 3] =
    Ok (36%Z, repeat false 4) /\
  ising1_evaluate [1; 2; 3; 4]%Z [5; 6; 7; 8]%Z true [false; false; false; false] = Ok 36%Z.
Proof.
  split; [|split; [|repeat split]].
  - split; repeat constructor; cbn; intuition lia.
  - repeat constructor; lia.
Qed.

Example C24_case_ising2 :
  ising2_incremental [[1; 2]; [3; 4]]%Z [[5; 6]; [7; 8]]%Z [[1; 1]; [2; 2]]%Z true (repeat false 4)
    [true; false; false; true] (-36)%Z [0; 3] = Ok (42%Z, repeat false 4) /\
  ising2_evaluate [[1; 2]; [3; 4]]%Z [[5; 6]; [7; 8]]%Z [[1; 1]; [2; 2]]%Z true [true; false; false; true] = Ok (-36)%Z /\
  ising2_evaluate [[1; 2]; [3; 4]]%Z [[5; 6]; [7; 8]]%Z [[1; 1]; [2; 2]]%Z true [false; false; false; false] = Ok 42%Z.
Proof. repeat split. Qed.

(** * C25 *)

Theorem C25_walsh_transforms : forall n f g, 0 < n -> n < 31 -> (forall x, length x = n -> f x = Ok (g x)) ->
  exists terms, walsh_transform n f = Ok terms /\ fast_walsh_transform n f = Ok terms /\
    NoDup (map fst terms) /\
    (forall u c, In (u, c) terms <-> length u = n /\ c = walsh_coefficient n g u /\ c <> 0%Z) /\
    (forall x, length x = n -> walsh_evaluate terms x = Ok (2 ^ Z.of_nat n * g x)%Z).
Proof. exact walsh_transforms. Qed.
Print Assumptions C25_walsh_transforms.

Example C25_case :
  let f := fun x : list bool => Ok (match x with [true; true] => 4%Z | [true; false] => 1%Z | _ => 0%Z end) in
  walsh_transform 2 f = Ok [([false; false], 5%Z); ([true; false], (-5)%Z); ([false; true], (-3)%Z); ([true; true], 3%Z)] /\
  fast_walsh_transform 2 f = Ok [([false; false], 5%Z); ([true; false], (-5)%Z); ([false; true], (-3)%Z); ([true; true], 3%Z)].
Proof. repeat split. Qed.

(** * C26 *)

Theorem C26_ising1_value : forall J h periodic s, 0 < length J -> length h = length J -> length s = length J ->
  ising1_evaluate J h periodic s =
    Ok (sum_n (length J - 1) (fun i => nth i J 0 * spin (nth i s false) * spin (nth (i + 1) s false)) +
        (if periodic then nth (length J - 1) J 0 * spin (nth (length J - 1) s false) * spin (nth 0 s false) else 0) +
        sum_n (length J) (fun i => nth i h 0 * spin (nth i s false)))%Z.
Proof. exact ising1_value. Qed.
Print Assumptions C26_ising1_value.

(** The site at row [i] and column [j] is the bit [i * nc + j]. *)
Theorem C26_ising2_value : forall nr nc right below field periodic,
  0 < nr -> 0 < nc -> grid nr nc right -> grid nr nc below -> grid nr nc field ->
  forall s, length s = nr * nc ->
  ising2_evaluate right below field periodic s =
    Ok (sum_n nr (fun i => sum_n (nc - 1) (fun j =>
          entry right i j * spin (nth (i * nc + j) s false) * spin (nth (i * nc + (j + 1)) s false))) +
        sum_n (nr - 1) (fun i => sum_n nc (fun j =>
          entry below i j * spin (nth (i * nc + j) s false) * spin (nth ((i + 1) * nc + j) s false))) +
        (if periodic then
           sum_n nr (fun i => entry right i (nc - 1) * spin (nth (i * nc + (nc - 1)) s false) * spin (nth (i * nc + 0) s false)) +
           sum_n nc (fun j => entry below (nr - 1) j * spin (nth ((nr - 1) * nc + j) s false) * spin (nth (0 * nc + j) s false))
         else 0) +
        sum_n nr (fun i => sum_n nc (fun j => entry field i j * spin (nth (i * nc + j) s false))))%Z.
Proof. exact ising2_value. Qed.
Print Assumptions C26_ising2_value.

Theorem C26_walsh2_value : forall a q s, length s = length a -> length s = length q ->
  (forall i, i < length q -> i <= length (nth i q [])) ->
  walsh2_evaluate a q s =
    Ok (sum_n (length s) (fun i => nth i a 0 * spin (nth i s false)) +
        sum_n (length s) (fun i => sum_n i (fun j => nth j (nth i q []) 0 * spin (nth i s false) * spin (nth j s false))))%Z.
Proof. exact walsh2_value. Qed.
Print Assumptions C26_walsh2_value.

Theorem C26_walsh1_value : forall a s, length s = length a ->
  walsh1_evaluate a s = Ok (sum_n (length a) (fun i => nth i a 0 * spin (nth i s false)))%Z.
Proof. exact walsh1_value. Qed.
Print Assumptions C26_walsh1_value.

(** General Walsh expansion. *)
Theorem C26_walsh_value : forall terms x, (forall t, In t terms -> length (fst t) = length x) ->
  walsh_evaluate terms x = Ok (zsum (map (fun t => walsh_sign (fst t) x * snd t)%Z terms)).
Proof. exact walsh_value. Qed.
Print Assumptions C26_walsh_value.

Example C26_case :
  ising1_evaluate [1; 2; 3]%Z [0; 0; 1]%Z true [true; false; true] = Ok (-1)%Z /\
  walsh2_evaluate [1; 1]%Z [[]; [3]]%Z [true; false] = Ok (-3)%Z /\
  walsh_evaluate [([true; true], 2%Z); ([false; true], 5%Z)] [true; false] = Ok 3%Z.
Proof. repeat split. Qed.

(** * C55: incremental evaluation with repeated positions *)

(** Listing a position twice passes the checks but is not the identity, although
    flipping a bit twice is. *)
Theorem C55_repeated_position : forall x i v, i < length x ->
  sbv_is_valid [i; i] (length x) = true /\ bv_flip_sbv x [i; i] = Ok x /\
  exists w, onemax_incremental x v [i; i] = Ok w /\ w <> v.
Proof. exact onemax_incremental_repeated. Qed.
Print Assumptions C55_repeated_position.

Theorem C55_repeated_position_ising : exists J h x v l w flips,
  sbv_is_valid l (length x) = true /\ ising1_evaluate J h true x = Ok v /\
  bv_flip_sbv x l = Ok x /\
  ising1_incremental J h true (repeat false (length x)) x v l = Ok (w, flips) /\ w <> v.
Proof.
  exists [1; 1; 1]%Z, [0; 0; 0]%Z, [false; false; false], 3%Z, [1; 1], (-5)%Z, [false; false; false].
  repeat split. discriminate.
Qed.
Print Assumptions C55_repeated_position_ising.

(** * C56: the opposite of a function without incremental evaluation *)

Theorem C56_opposite_announces_incremental : forall x v l,
  opposite_provides_incremental = true /\ opposite_incremental no_incremental x v l = Throw RuntimeError.
Proof. split; reflexivity. Qed.
Print Assumptions C56_opposite_announces_incremental.
