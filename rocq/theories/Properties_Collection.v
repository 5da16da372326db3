(** C80-C88: further functions of the collection. *)

From Coq Require Import ZArith NArith QArith Qabs String Ascii Permutation.
From Verif Require Import Base BaseLemmas BitVector_Model BitVector_Spec Function_Spec Text_Model Text_Proofs.
From Verif Require Import Collection_Model Collection_Spec Labs_Proofs Collection_Proofs Factorization_Proofs Tsp_Proofs Nk_Proofs Qubo_Proofs.
Local Close Scope Q_scope.
Local Open Scope string_scope.
Local Open Scope list_scope.
Local Open Scope nat_scope.

(** * C80: low autocorrelation binary sequences *)

(** C80 Without merit factor, the value is the opposite of the energy; with it, it is n^2 / (2 E)
    as soon as n is at least two, and orders the vectors in the same way. *)
Theorem C80_value : forall n x, List.length x = n ->
  labs_evaluate false n x = Ok (LValue (inject_Z (- energy x))) /\
  (2 <= n -> (0 < energy x)%Z /\
   labs_evaluate true n x = Ok (LValue (inject_Z (Z.of_nat n * Z.of_nat n) / inject_Z (2 * energy x)))).
Proof. intros n x H. split; [now apply labs_plain|]. intros N. now apply labs_merit. Qed.
Print Assumptions C80_value.

Theorem C80_same_order : forall n x y vx vy, 2 <= n -> List.length x = n -> List.length y = n ->
  labs_evaluate true n x = Ok (LValue vx) -> labs_evaluate true n y = Ok (LValue vy) ->
  ((vx < vy)%Q <-> (energy y < energy x)%Z).
Proof.
  intros n x y vx vy N Lx Ly Ex Ey. destruct (labs_merit n x N Lx) as [_ Ex']. destruct (labs_merit n y N Ly) as [_ Ey'].
  rewrite Ex' in Ex. rewrite Ey' in Ey. injection Ex as <-. injection Ey as <-. now apply merit_order.
Qed.
Print Assumptions C80_same_order.

(** C80 Complementing, reversing, or flipping every other bit changes neither value. *)
Theorem C80_symmetries : forall merit n x,
  labs_evaluate merit n (complement x) = labs_evaluate merit n x /\
  labs_evaluate merit n (rev x) = labs_evaluate merit n x /\
  labs_evaluate merit n (alternate x) = labs_evaluate merit n x.
Proof.
  intros merit n x. destruct (Nat.eq_dec (List.length x) n) as [L|L].
  - assert (A : forall y, List.length y = n -> energy y = energy x -> labs_evaluate merit n y = labs_evaluate merit n x).
    { intros y Ly E. unfold labs_evaluate. rewrite !autocorrelation_Ok by assumption. now rewrite E, L, Ly. }
    split; [|split]; apply A; rewrite ?length_complement, ?rev_length, ?length_alternate; auto using energy_complement, energy_rev, energy_alternate.
  - rewrite !labs_wrong_size by (rewrite ?length_complement, ?rev_length, ?length_alternate; assumption). auto.
Qed.
Print Assumptions C80_symmetries.

(** C80 The energy is at least n / 2, hence no merit factor exceeds n; it is greatest for constant
    vectors. *)
Theorem C80_bounds : forall x, let n := List.length x in
  (Z.of_nat (n / 2) <= energy x)%Z /\ forall b, (energy x <= energy (repeat b n))%Z.
Proof. intros x n. split; [apply energy_lower|]. intros b. rewrite energy_constant. apply energy_upper. Qed.
Print Assumptions C80_bounds.

(** C80 With the merit factor, the value is infinite for a single bit, not a number for none. *)
Theorem C80_small : forall b, labs_evaluate true 1 [b] = Ok LInfinite /\ labs_evaluate true 0 [] = Ok LNaN.
Proof. exact labs_small. Qed.
Print Assumptions C80_small.

(** The Barker sequence of length 13 *)
Example C80_case : let x := [true; true; true; true; true; false; false; true; true; false; true; false; true] in
  energy x = 6%Z /\ labs_evaluate false 13 x = Ok (LValue (-6 # 1)) /\
  labs_evaluate true 13 x = Ok (LValue (inject_Z 169 / inject_Z 12)).
Proof. vm_compute. auto. Qed.

(** * C81: partitions *)

(** C81 The value is minus the difference between the sums of the parts, as long as the sums are
    ints; otherwise the evaluation overflows. *)
Theorem C81_value : forall numbers x, Forall (fun a => 0 <= a)%Z numbers -> List.length x = List.length numbers ->
  let s0 := zsum (part false numbers x) in
  let s1 := zsum (part true numbers x) in
  ((s0 < 2 ^ 31 /\ s1 < 2 ^ 31)%Z -> partition_evaluate numbers x = Ok (- Z.abs (s1 - s0))%Z) /\
  ((2 ^ 31 <= s0 \/ 2 ^ 31 <= s1)%Z -> partition_evaluate numbers x = UB).
Proof. intros numbers x P L s0 s1. split; [intros [A B]; now apply partition_value|now apply partition_overflow]. Qed.
Print Assumptions C81_value.

(** C81 Values are not positive, have the parity of the sum of all numbers, and are null exactly
    when both parts have the same sum. A vector and its complement have the same value. *)
Theorem C81_shape : forall numbers x v, Forall (fun a => 0 <= a)%Z numbers -> partition_evaluate numbers x = Ok v ->
  (v <= 0)%Z /\ Z.odd v = Z.odd (zsum numbers) /\
  (v = 0%Z <-> zsum (part true numbers x) = zsum (part false numbers x)) /\
  partition_evaluate numbers (complement x) = Ok v.
Proof.
  intros numbers x v P E. destruct (partition_parity numbers x v P E) as (A & B & C). rewrite partition_complement. auto.
Qed.
Print Assumptions C81_shape.

(** C81 Random instances have n numbers between 1 and the upper bound, and every such instance
    can be drawn. *)
Theorem C81_random : forall n ub, 0 < n -> (0 < ub)%Z ->
  (forall draw, (forall i, 1 <= draw i <= ub)%Z ->
     exists l, partition_random n ub draw = Ok l /\ List.length l = n /\ Forall (fun a => 1 <= a <= ub)%Z l) /\
  forall l, List.length l = n -> Forall (fun a => 1 <= a <= ub)%Z l ->
    exists draw, (forall i, 1 <= draw i <= ub)%Z /\ partition_random n ub draw = Ok l.
Proof. intros n ub N U. split; [intros; now apply partition_random_Ok|intros; now apply partition_random_any]. Qed.
Print Assumptions C81_random.

Example C81_case :
  partition_evaluate [3; 1; 1; 2; 2; 1]%Z [true; false; false; true; false; false] = Ok 0%Z /\
  partition_evaluate [3; 1; 1]%Z [true; true; false] = Ok (-3)%Z /\
  partition_evaluate [2147483647; 1]%Z [true; true] = UB /\
  partition_evaluate [2147483647; 1]%Z [true; false] = Ok (-2147483646)%Z.
Proof. vm_compute. auto. Qed.

(** * C82: equal products *)

(** C82 The value is minus the distance between the products of the parts; it is not positive, and
    is null exactly when they are equal; a vector and its complement have the same value. *)
Theorem C82_value : forall numbers x, List.length numbers <= List.length x ->
  exists r, equal_products_evaluate numbers x = Ok r /\
    (r == - Qabs (qprod (part true numbers x) - qprod (part false numbers x)))%Q /\ (r <= 0)%Q /\
    ((r == 0)%Q <-> (qprod (part true numbers x) == qprod (part false numbers x))%Q) /\
    exists r', equal_products_evaluate numbers (complement x) = Ok r' /\ (r' == r)%Q.
Proof.
  intros numbers x L. destruct (equal_products_value numbers x L) as (r & E & V). exists r. split; [assumption|]. split; [assumption|].
  destruct (equal_products_max numbers x r E) as [A B]. split; [assumption|]. split; [assumption|].
  destruct (equal_products_complement numbers x L) as (r1 & r2 & E1 & E2 & Q). rewrite E in E1. injection E1 as <-.
  exists r2. split; [assumption|]. now symmetry.
Qed.
Print Assumptions C82_value.

(** C82 The size of the vector is not checked: a shorter one is read out of bounds. *)
Theorem C82_short : forall numbers x, List.length x < List.length numbers -> equal_products_evaluate numbers x = UB.
Proof. exact equal_products_short. Qed.
Print Assumptions C82_short.

Example C82_case :
  (exists r, equal_products_evaluate [2; 3; 6; 1 # 2]%Q [true; true; false; false] = Ok r /\ r == -3 # 1)%Q /\
  (exists r, equal_products_evaluate [2; 3; 6]%Q [true; true; false] = Ok r /\ r == 0)%Q.
Proof. split; eexists; split; reflexivity. Qed.

(** * C83: summation cancellation *)

(** C83 Each block of nine bits is a number in hundredths, in two's complement; the value is minus
    the sum of the absolute values of the partial sums. Zero, the maximum, is reached by the null
    vector only. *)
Theorem C83_value : forall size x, List.length x = 9 * size -> exists r, cancellation_evaluate size x = Ok r /\
  (r == - qsum (map (fun i => Qabs (qsum (firstn (i + 1) (hundredths size x)))) (seq 0 size)))%Q /\
  (r <= 0)%Q /\ ((r == 0)%Q <-> x = zerov (9 * size)).
Proof.
  intros size x L. destruct (cancellation_value size x ltac:(lia)) as (r & E & V). destruct (cancellation_max size x L) as (r' & E' & A & B).
  rewrite E in E'. injection E' as <-. eauto.
Qed.
Print Assumptions C83_value.

(** C83 The same with y_1 = a_1 and y_i = a_i + sin(y_(i - 1)), for any function vanishing at zero
    in the place of the sine. *)
Theorem C83_sinus : forall sn size x, (forall a, a == 0 -> sn a == 0)%Q -> List.length x = 9 * size ->
  exists r, sinus_cancellation_evaluate sn size x = Ok r /\
  (r == - qsum (map Qabs (sinus_sequence sn (hundredths size x))))%Q /\
  (r <= 0)%Q /\ ((r == 0)%Q <-> x = zerov (9 * size)).
Proof.
  intros sn size x S L. destruct (sinus_value sn size x ltac:(lia)) as (r & E & V). destruct (sinus_max sn size x S L) as (r' & E' & A & B).
  rewrite E in E'. injection E' as <-. eauto.
Qed.
Print Assumptions C83_sinus.

(** C83 The constructor refuses sizes that are not multiples of nine. *)
Theorem C83_make : forall n, (exists k, n = 9 * k /\ cancellation_make n = Ok k) \/
  ((forall k, n <> 9 * k) /\ cancellation_make n = Throw RuntimeError).
Proof.
  intros n. unfold cancellation_make. assert (D := Nat.div_mod n 9 ltac:(lia)). destruct (Nat.eqb_spec (n mod 9) 0) as [E|E].
  - left. exists (n / 9). split; [lia|reflexivity].
  - right. split; [|reflexivity]. intros k ->. apply E. rewrite Nat.mul_comm. apply Nat.mod_mul. lia.
Qed.
Print Assumptions C83_make.

Example C83_case : let o := false in let i := true in
  signed9 [i; i; i; i; i; i; i; i; i] = (-1)%Z /\ signed9 [i; o; o; o; o; o; o; o; o] = (-256)%Z /\ signed9 [o; o; i; o; o; o; o; o; o] = 2%Z /\
  (exists r, cancellation_evaluate 2 ([o; i; o; o; o; o; o; o; o] ++ [i; i; i; i; i; i; i; i; i]) = Ok r /\ (r == -1 # 100)%Q).
Proof. split; [reflexivity|]. split; [reflexivity|]. split; [reflexivity|]. eexists. split; reflexivity. Qed.

(** * C84: factorization *)

(** C84 The decimal representation of a number of at least two gives an object for it. A vector is
    the binary representations of two factors; the value is minus the sum of the ranks of the
    digits where their product and the number differ. It is null exactly when the product is the
    number. *)
Theorem C84_value : forall second n, (2 <= n)%N ->
  exists f, set_number second (show_N n) = Ok f /\
    forall x, List.length x = f_first_size f + f_second_size f ->
    let p := (value_msb (firstn (f_first_size f) x) * value_msb (skipn (f_first_size f) x))%Z in
    exists v f', factorization_evaluate f x = Ok (v, f') /\
    (forall m, Z.of_N n < 2 ^ Z.of_nat m -> p < 2 ^ Z.of_nat m -> v = - digit_distance m p (Z.of_N n))%Z /\
    (v <= 0)%Z /\ (v = 0%Z <-> p = Z.of_N n).
Proof.
  intros second n N. destruct (set_number_show second n) as (f & E & FN). exists f. split; [assumption|].
  destruct (set_number_sizes _ _ _ E) as (_ & FS & F1 & F2 & _). rewrite FN in FS.
  intros x L p. destruct (evaluate_value f (Z.of_N n) FN FS F1 F2 ltac:(lia) x L) as (v & f' & EV & V & _).
  destruct (evaluate_zero f (Z.of_N n) FN FS F1 F2 ltac:(lia) x L) as (v' & f'' & EV' & A & B).
  rewrite EV in EV'. injection EV' as <- <-. exists v, f'. auto.
Qed.
Print Assumptions C84_value.

(** C84 The value zero is reached exactly when the number is composite. *)
Theorem C84_composite : forall second n f, (2 <= n)%N -> set_number second (show_N n) = Ok f ->
  ((exists x v f', List.length x = f_first_size f + f_second_size f /\ factorization_evaluate f x = Ok (v, f') /\ v = 0%Z) <->
   composite (Z.of_N n)).
Proof.
  intros second n f N E. destruct (set_number_show second n) as (f0 & E0 & FN). rewrite E in E0. injection E0 as <-.
  destruct (set_number_sizes _ _ _ E) as (_ & FS & F1 & F2 & _). rewrite FN in FS.
  exact (zero_iff_composite f (Z.of_N n) FN FS F1 F2 ltac:(lia)).
Qed.
Print Assumptions C84_composite.

(** C84 Evaluations leave the number and the sizes unchanged: for a number of at least two, the
    same vector always has the same value. *)
Theorem C84_stable : forall second n f x v f', (2 <= n)%N -> set_number second (show_N n) = Ok f ->
  factorization_evaluate f x = Ok (v, f') -> forall y, List.length y = f_first_size f + f_second_size f ->
  exists w g g', factorization_evaluate f y = Ok (w, g) /\ factorization_evaluate f' y = Ok (w, g').
Proof.
  intros second n f x v f' N E EV y Ly. destruct (set_number_show second n) as (f0 & E0 & FN). rewrite E in E0. injection E0 as <-.
  destruct (set_number_sizes _ _ _ E) as (_ & FS & F1 & F2 & _). rewrite FN in FS.
  assert (Lx : List.length x = f_first_size f + f_second_size f).
  { unfold factorization_evaluate, convert in EV. destruct (Nat.eqb_spec (List.length x) (f_first_size f + f_second_size f)); [assumption|discriminate]. }
  destruct (evaluate_value f (Z.of_N n) FN FS F1 F2 ltac:(lia) x Lx) as (v0 & f0 & EV0 & _ & G1 & G2 & G3 & G4).
  rewrite EV in EV0. injection EV0 as <- <-.
  destruct (evaluate_value f (Z.of_N n) FN FS F1 F2 ltac:(lia) y Ly) as (w & g & EW & W & _).
  destruct (evaluate_value f' (Z.of_N n) G1 ltac:(congruence) ltac:(congruence) ltac:(congruence) ltac:(lia) y ltac:(congruence)) as (w' & g' & EW' & W' & _).
  assert (P : factor1 f' y = factor1 f y /\ factor2 f' y = factor2 f y) by (unfold factor1, factor2; rewrite G3; auto). destruct P as [P1 P2].
  rewrite P1, P2 in W'. set (p := (factor1 f y * factor2 f y)%Z) in *.
  assert (M : exists m, (Z.of_N n < 2 ^ Z.of_nat m /\ p < 2 ^ Z.of_nat m)%Z).
  { exists (Z.to_nat (Z.max (Z.of_N n) p)). rewrite Z2Nat.id by lia. assert (T := Z.pow_gt_lin_r 2 (Z.max (Z.of_N n) p) ltac:(lia) ltac:(lia)). lia. }
  destruct M as (m & M1 & M2). rewrite (W m M1 M2) in EW. rewrite (W' m M1 M2) in EW'. eauto.
Qed.
Print Assumptions C84_stable.

(** C84 For the number one, the second factor has no bit and keeps the value that it had before
    the number was set: zero on a new object, where value zero is then never reached. *)
Theorem C84_one : forall second b, (0 <= second)%Z ->
  exists f v f', set_number second "1" = Ok f /\ List.length [b] = f_first_size f + f_second_size f /\
  factorization_evaluate f [b] = Ok (v, f') /\ (v = 0%Z <-> b = true /\ second = 1%Z).
Proof.
  intros second b H. eexists. destruct (evaluate_one (mk_factorization 1 1 1 0 second) b eq_refl eq_refl eq_refl eq_refl H) as (v & f' & E & V).
  exists v, f'. split; [reflexivity|]. split; [reflexivity|]. split; [exact E|exact V].
Qed.
Print Assumptions C84_one.

Example C84_case : exists f, set_number 0 (show_N 15) = Ok f /\ f_first_size f = 2 /\ f_second_size f = 3 /\
  (exists f', factorization_evaluate f [true; true; true; false; true] = Ok (0%Z, f')) /\
  (exists f', factorization_evaluate f [true; false; true; true; true] = Ok (-1, f'))%Z /\
  set_number 0 "12x" = Throw RuntimeError.
Proof. eexists. split; [reflexivity|]. vm_compute. eauto 10. Qed.

(** * C85: traveling salesman *)

(** C85 The value of a tour is minus its length, closing leg included; tours that visit the
    cities in the same circular order have the same value, and so do reversed ones when distances
    are symmetric. *)
Theorem C85_value : forall n d p, 0 < n -> grid n n d -> Permutation p (seq 0 n) ->
  tsp_evaluate d p = Ok (- tour_length d p)%Z /\
  (forall a b, p = a ++ b -> tsp_evaluate d (b ++ a) = tsp_evaluate d p) /\
  (symmetric n d -> tsp_evaluate d (rev p) = tsp_evaluate d p).
Proof.
  intros n d p N G P. assert (L : List.length p = n) by (apply Permutation_length in P; now rewrite seq_length in P).
  assert (F : Forall (fun i => i < n) p). { apply Forall_forall. intros i Hi. apply (Permutation_in i P) in Hi. apply in_seq in Hi. lia. }
  assert (V := tsp_value n d p N G L F). split; [assumption|]. split.
  - intros a b ->. rewrite V, (tsp_value n) by (assumption || (rewrite app_length in *; lia) || (rewrite Forall_app in *; tauto)).
    now rewrite tour_rotation.
  - intros S. rewrite V, (tsp_value n) by (assumption || (now rewrite rev_length) || (now apply Forall_rev)). now rewrite (tour_reversal n).
Qed.
Print Assumptions C85_value.

(** C85 Random instances: the i(i-1)/2 + j-th number generated is the distance between i and j,
    j < i, both ways; the diagonal is that of the object before, hence zero on a new one. *)
Theorem C85_generate : forall n gen before, 0 < n -> exists d, tsp_generate n gen before = Ok d /\ grid n n d /\ symmetric n d /\
  (forall i j, j < i < n -> entry d i j = gen (pair_rank i j)) /\
  (before = [] -> forall i, i < n -> entry d i i = 0%Z).
Proof.
  intros n gen before N. destruct (generate_Ok n gen before N) as (d & E & G & V). exists d. split; [assumption|]. split; [assumption|].
  split; [exact (filled_symmetric n d (fun i j => gen (pair_rank i j)) (entry (tsp_resize n before)) V)|]. split.
  - intros i j H. rewrite V by lia. destruct (Nat.eqb_spec i j); [lia|]. now rewrite Nat.max_l, Nat.min_r by lia.
  - intros -> i Hi. rewrite V, Nat.eqb_refl by lia. apply entry_resize_nil.
Qed.
Print Assumptions C85_generate.

(** C85 Distances computed from integer coordinates: symmetric, null on the diagonal, the
    Euclidean distance rounded to the nearest integer (EUC_2D), or that distance divided by the
    square root of ten rounded up (ATT). *)
Theorem C85_distances : forall t n xs ys before, 0 < n -> List.length xs = n -> List.length ys = n ->
  exists d, tsp_distances t n xs ys before = Ok d /\ grid n n d /\ symmetric n d /\ (forall i, i < n -> entry d i i = 0%Z) /\
  forall i j, i < n -> j < n -> i <> j ->
    let dx := (nth i xs 0 - nth j xs 0)%Z in
    let dy := (nth i ys 0 - nth j ys 0)%Z in
    match t with
    | EUC_2D => nearest_root (dx * dx + dy * dy) (entry d i j)
    | ATT => ceiling_root10 (dx * dx + dy * dy) (entry d i j)
    end.
Proof.
  intros t n xs ys before N Lx Ly. destruct (distances_Ok t n xs ys before N Lx Ly) as (d & E & G & V). exists d. split; [assumption|]. split; [assumption|].
  split; [exact (filled_symmetric n d (fun a b => edge_length t (nth a xs 0 - nth b xs 0)%Z (nth a ys 0 - nth b ys 0)%Z) (fun _ _ => 0%Z) V)|].
  split; [intros i Hi; rewrite V, Nat.eqb_refl by assumption; reflexivity|].
  intros i j Hi Hj NE dx dy. rewrite V by assumption. destruct (Nat.eqb_spec i j); [contradiction|]. cbn zeta.
  assert (S : forall k, (nth (Nat.max i j) k 0 - nth (Nat.min i j) k 0)%Z = (nth i k 0 - nth j k 0)%Z \/
                        (nth (Nat.max i j) k 0 - nth (Nat.min i j) k 0)%Z = (- (nth i k 0 - nth j k 0))%Z).
  { intros k. destruct (Nat.le_ge_cases i j); [right|left]; rewrite ?Nat.max_l, ?Nat.max_r, ?Nat.min_l, ?Nat.min_r by assumption; lia. }
  assert (Q : (dx * dx + dy * dy)%Z = ((nth (Nat.max i j) xs 0 - nth (Nat.min i j) xs 0) * (nth (Nat.max i j) xs 0 - nth (Nat.min i j) xs 0) +
     (nth (Nat.max i j) ys 0 - nth (Nat.min i j) ys 0) * (nth (Nat.max i j) ys 0 - nth (Nat.min i j) ys 0))%Z).
  { unfold dx, dy. destruct (S xs) as [-> | ->], (S ys) as [-> | ->]; rewrite ?Z.mul_opp_opp; reflexivity. }
  rewrite Q. destruct t; [apply att_ceiling|apply euc_nearest].
Qed.
Print Assumptions C85_distances.

Example C85_case :
  tsp_distances EUC_2D 3 [0; 3; 3]%Z [0; 0; 4]%Z [] = Ok [[0; 3; 5]; [3; 0; 4]; [5; 4; 0]]%Z /\
  tsp_distances ATT 3 [0; 3; 3]%Z [0; 0; 4]%Z [] = Ok [[0; 1; 2]; [1; 0; 2]; [2; 2; 0]]%Z /\
  tsp_evaluate [[0; 3; 5]; [3; 0; 4]; [5; 4; 0]]%Z [1; 2; 0] = Ok (-12)%Z /\
  tsp_generate 3 (fun c => Z.of_nat c + 7)%Z [] = Ok [[0; 7; 8]; [7; 0; 9]; [8; 9; 0]]%Z /\ pair_rank 2 1 = 2.
Proof. vm_compute. repeat split. Qed.

(** * C86: NK landscapes *)

(** C86 The value is the mean of the contributions of the sites, each read in the partial function
    of the site at the bits of its neighbors; it lies between bounds of these functions. *)
Theorem C86_value : forall n k o x, 0 < n -> nk_sites n k (nk_neighbors o) -> nk_tables n k (nk_functions o) -> List.length x = n ->
  exists v, nk_evaluate o x = Ok v /\
    (v == qsum (map (contribution (nk_neighbors o) (nk_functions o) x) (seq 0 n)) / inject_Z (Z.of_nat n))%Q /\
    forall lo hi, Forall (Forall (fun q => lo <= q <= hi)%Q) (nk_functions o) -> (lo <= v <= hi)%Q.
Proof.
  intros n k o x N S T L. destruct (nk_evaluate_Ok n k o x N S T L) as (v & E & V). exists v. split; [assumption|]. split; [assumption|].
  intros lo hi B. exact (nk_between n k o x lo hi S T N L B v V).
Qed.
Print Assumptions C86_value.

(** C86 A generated instance meets these hypotheses: each site has itself and k other distinct
    sites as neighbors, and a function of 2^(k + 1) values; on a new object, or one generated
    before with the same k. *)
Theorem C86_generate : forall n k u gen o, 0 < k <= 29 -> k < n -> (forall i j, (0 <= u i j < 1)%Q) ->
  Forall (fun row => List.length row = k + 1) (nk_neighbors o) -> Forall (fun f => List.length f = 2 ^ (k + 1)) (nk_functions o) ->
  exists o', nk_generate n k u gen o = Ok o' /\ nk_sites n k (nk_neighbors o') /\ nk_tables n k (nk_functions o') /\
    forall i j, i < n -> j < 2 ^ (k + 1) -> nth j (nth i (nk_functions o') []) 0%Q = gen i j.
Proof.
  intros n k u gen o K N U W1 W2. destruct (generate_width n k u gen o K N (conj W1 W2) U) as (o' & E & S & T & V & _). eauto 6.
Qed.
Print Assumptions C86_generate.

(** C86 Any choice of k other sites for each site can be drawn. *)
Theorem C86_generate_any : forall n k (choice : nat -> list nat) gen, 0 < k <= 29 -> k < n ->
  (forall i, i < n -> List.length (choice i) = k /\ NoDup (choice i) /\ forall j, In j (choice i) -> j < n /\ j <> i) ->
  exists u o', (forall i j, (0 <= u i j < 1)%Q) /\ nk_generate n k u gen (mk_nk [] []) = Ok o' /\
    forall i, i < n -> Permutation (nth i (nk_neighbors o') []) (i :: choice i).
Proof. intros n k choice gen K N C. apply generate_any; auto. split; constructor. Qed.
Print Assumptions C86_generate_any.

(** C86 As many neighbors as sites, or more: an assertion fails. *)
Theorem C86_too_many : forall n k u gen, n <= k -> nk_generate n k u gen (mk_nk [] []) = UB.
Proof. exact generate_too_many. Qed.
Print Assumptions C86_too_many.

(** C86 An object generated before with w neighbors per site and at least n sites keeps w, whatever
    the k asked for. *)
Theorem C86_generate_again : forall n k w u gen o, 0 < k <= 29 -> w < n -> (forall i j, (0 <= u i j < 1)%Q) ->
  Forall (fun row => List.length row = w + 1) (nk_neighbors o) -> Forall (fun f => List.length f = 2 ^ (w + 1)) (nk_functions o) ->
  n <= List.length (nk_neighbors o) -> n <= List.length (nk_functions o) ->
  exists o', nk_generate n k u gen o = Ok o' /\ nk_sites n w (nk_neighbors o') /\ nk_tables n w (nk_functions o').
Proof. intros n k w u gen o K W U F1 F2 N1 N2. apply generate_again; auto. now split. Qed.
Print Assumptions C86_generate_again.

Definition nk_case (k : nat) (o : nk) := nk_generate 3 k (fun i j => Z.of_nat ((i + j) mod 2) # 2)%Q (fun i j => inject_Z (Z.of_nat (10 * i + j))) o.
Example C86_case : exists o, nk_case 1 (mk_nk [] []) = Ok o /\ nk_neighbors o = [[2; 0]; [2; 1]; [0; 2]] /\
  (exists v, nk_evaluate o [true; false; true] = Ok v /\ v == 37 # 3)%Q /\
  exists o', nk_case 2 o = Ok o' /\ map (@List.length nat) (nk_neighbors o') = [2; 2; 2].
Proof. eexists. split; [vm_compute; reflexivity|]. split; [reflexivity|]. split; [eexists; split; reflexivity|]. eexists. split; vm_compute; reflexivity. Qed.

(** * C87: quadratic unconstrained binary optimization *)

(** C87 The value is x^T Q x over the upper triangle of Q; vectors of another size fail an
    assertion. *)
Theorem C87_value : forall n q x, grid n n q ->
  (List.length x = n -> qubo_evaluate q x = Ok (quadratic_form q x)) /\
  (List.length x <> n -> qubo_evaluate q x = UB).
Proof. intros n q x G. split; [now apply qubo_value|]. intros H. apply qubo_wrong_size. destruct G as [-> _]. assumption. Qed.
Print Assumptions C87_value.

Example C87_case : qubo_evaluate [[1; 2; -4]; [9; 5; 0]; [9; 9; 7]]%Z [true; false; true] = Ok 4%Z.
Proof. reflexivity. Qed.

(** * C88: QUBO files *)

(** C88 A file whose elements are acceptable is loaded if it has the numbers of elements announced
    on its line p, refused otherwise: the matrix holds the opposites of the elements, the last one
    when a pair is given several times, and zero elsewhere. [show] and [read] stand for the
    printing of numbers and the reading of floats. *)
Theorem C88_load : forall read show (range : Z -> Prop) before comments n nd no l, reads_back read show range ->
  0 < n -> (Z.of_nat n < 2 ^ 31)%Z -> (0 <= nd < 2 ^ 31)%Z -> (0 <= no < 2 ^ 31)%Z ->
  Forall (fun c => ~ In newline (list_ascii_of_string c)) comments -> Forall (good_element n) l -> Forall (fun e => range (snd e)) l ->
  let counts := Z.of_nat (List.length (filter on_diagonal l)) = nd /\ Z.of_nat (List.length (filter (fun e => negb (on_diagonal e)) l)) = no in
  (counts -> exists q, qubo_load read before (qubo_text show comments n nd no l) = Ok q /\ grid n n q /\
     forall i j, i < n -> j < n -> entry q i j = match last_value l i j with Some v => (- v)%Z | None => 0%Z end) /\
  (~ counts -> qubo_load read before (qubo_text show comments n nd no l) = Throw RuntimeError).
Proof.
  intros read show range before comments n nd no l RB N Hn Hd Ho C GD R counts.
  assert (C' : Forall (fun c => no_newline c = true) comments) by (revert C; apply Forall_impl; intros c; apply no_newline_iff).
  destruct (load_Ok read show range RB before comments n nd no l N Hn Hd Ho C' GD R) as (q & E & G & V). rewrite E. unfold diag_count, other_count.
  destruct (Z.eqb_spec (Z.of_nat (len (filter on_diagonal l))) nd) as [A|A], (Z.eqb_spec (Z.of_nat (len (filter (fun e => negb (on_diagonal e)) l))) no) as [B|B];
    cbn [andb]; split; intros H; unfold counts in H; try tauto; try reflexivity. exists q. auto.
Qed.
Print Assumptions C88_load.

(** C88 Elements out of bounds, below the diagonal or null are refused. *)
Theorem C88_bad_element : forall read show (range : Z -> Prop) before comments n nd no l i j v l', reads_back read show range ->
  0 < n -> (Z.of_nat n < 2 ^ 31)%Z -> (0 <= nd < 2 ^ 31)%Z -> (0 <= no < 2 ^ 31)%Z ->
  Forall (fun c => ~ In newline (list_ascii_of_string c)) comments -> Forall (good_element n) l -> Forall (fun e => range (snd e)) (l ++ (i, j, v) :: l') ->
  (Z.of_nat i < 2 ^ 31)%Z -> (Z.of_nat j < 2 ^ 31)%Z -> ~ good_element n (i, j, v) ->
  qubo_load read before (qubo_text show comments n nd no (l ++ (i, j, v) :: l')) = Throw RuntimeError.
Proof.
  intros read show range before comments n nd no l i j v l' RB N Hn Hd Ho C GD R Hi Hj B. apply (load_bad read show range RB); auto.
  revert C; apply Forall_impl; intros c; apply no_newline_iff.
Qed.
Print Assumptions C88_bad_element.

(** C88 Elements before the line p are refused. *)
Theorem C88_no_header : forall read show (range : Z -> Prop) before e text, reads_back read show range -> range (snd e) ->
  qubo_load read before (line_of (qubo_element_text show e) ++ text) = Throw RuntimeError.
Proof. intros. now apply (load_no_header read show range). Qed.
Print Assumptions C88_no_header.

(** C88 Whatever the text, what is loaded is a square matrix, null below the diagonal, on which
    evaluation is safe, or else the object is left as it was. *)
Theorem C88_sound : forall read before text q, qubo_load read before text = Ok q ->
  q = before \/ exists n, 0 < n /\ grid n n q /\ (forall i j, i < n -> j < i -> entry q i j = 0%Z) /\
    forall x, List.length x = n -> qubo_evaluate q x = Ok (quadratic_form q x).
Proof.
  intros read before text q H. apply load_sound in H as [H|(n & N & G & V)]; [now left|right]. exists n. repeat split; auto; try apply G.
  intros x Lx. now apply (qubo_value n).
Qed.
Print Assumptions C88_sound.

(** C88 The empty file is accepted and changes nothing. *)
Theorem C88_empty : forall read before, qubo_load read before "" = Ok before.
Proof. exact load_empty. Qed.
Print Assumptions C88_empty.

(** With ints in the place of floats *)
Example C88_case : reads_back read_int show_Z (fun v => - 2 ^ 31 <= v < 2 ^ 31)%Z /\
  qubo_text show_Z [" a comment"] 3 1 2 [(0, 0, 5%Z); (0, 2, (-1)%Z); (1, 2, 4%Z)] = "c a comment
p qubo 0 3 1 2
0 0 5
0 2 -1
1 2 4
" /\
  qubo_load read_int [] (qubo_text show_Z [" a comment"] 3 1 2 [(0, 0, 5%Z); (0, 2, (-1)%Z); (1, 2, 4%Z)]) = Ok [[-5; 0; 1]; [0; 0; -4]; [0; 0; 0]]%Z /\
  qubo_load read_int [] (qubo_text show_Z [] 2 2 0 [(0, 0, 5%Z); (0, 0, 6%Z)]) = Ok [[-6; 0]; [0; 0]]%Z /\
  qubo_load read_int [] (qubo_text show_Z [] 2 0 1 [(1, 0, 5%Z)]) = Throw RuntimeError.
Proof. split; [exact int_reads_back|]. vm_compute. auto. Qed.
