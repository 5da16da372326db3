(** Properties of Walsh moments, herding and Gibbs sampling: C99, C100 and C101. *)

From Coq Require Import QArith Qabs Lqa Permutation.
From Verif Require Import Base BaseLemmas BitVector_Model BitVector_Spec Map_Spec ProbabilityVector_Model ProbabilityVector_Spec
  ItEa_Spec ItEa_Proofs WalshMoment_Model WalshMoment_Spec WalshMoment_Proofs Herding_Proofs.
Local Open Scope nat_scope.

(** ** C99: Walsh moments.  The moment of a list of bit vectors, as computed by init,
    add and average, holds the means of their signs and of the products of their signs. *)
Theorem C99_mean k n m bs : shaped k n m -> Forall (fun x => length x = n) bs -> bs <> [] ->
  exists m', (m1 <- foldM moment_add bs (moment_init m) ;; moment_average k (length bs) m1) = Ok m' /\
    holds k n m' (fun i => mean (sign_at i) bs) (fun i j => mean (fun x => sign_at i x * sign_at j x)%Q bs) /\
    all_entries (in_interval (-1) 1) n m'.
Proof.
  intros H1 H2 H3. destruct (mean_Ok k n m bs H1 H2 H3) as (m' & E & HO). exists m'. split; [assumption|]. split; [assumption|].
  destruct HO as (_ & M1 & M2 & _). assert (P : (0 < inject_Z (Z.of_nat (length bs)))%Q). { change 0%Q with (inject_Z 0). rewrite <- Zlt_Qlt. destruct bs; [congruence|cbn; lia]. }
  assert (G : forall f : list bool -> Q, (forall x, (f x == 1)%Q \/ (f x == -1)%Q) -> in_interval (-1) 1 (mean f bs)).
  { intros f PM. unfold in_interval, mean.
    assert (B : (- inject_Z (Z.of_nat (length bs)) <= total f bs <= inject_Z (Z.of_nat (length bs)))%Q).
    { clear -PM. induction bs as [|a l IH]; [rewrite total_nil; cbn [length]; change (inject_Z (Z.of_nat 0)) with 0%Q; lra|]. rewrite total_cons. cbn [length]. replace (Z.of_nat (S (length l))) with (Z.of_nat (length l) + 1)%Z by lia.
      rewrite inject_Z_plus. change (inject_Z 1) with 1%Q. destruct (PM a); lra. }
    split; [apply Qle_shift_div_l; lra|apply Qle_shift_div_r; lra]. }
  split; intros.
  - unfold in_interval. rewrite M1 by assumption. apply G. intros x. unfold sign_at. destruct (nth i x false); cbn [sign]; [now right|now left].
  - unfold in_interval. rewrite M2 by assumption. apply G. intros x. unfold sign_at. destruct (nth i x false), (nth j x false); cbn [sign]; auto; try (now left); now right.
Qed.
Print Assumptions C99_mean.

(** An update with a rate between zero and one moves every number towards the target and
    keeps it in [-1, 1]; the update with two moments and the scaled difference compute what their
    names say. *)
Theorem C99_update k n tm rate m : shaped k n m -> shaped k n tm -> all_entries (in_interval (-1) 1) n m -> all_entries (in_interval (-1) 1) n tm -> (0 <= rate <= 1)%Q ->
  exists m', moment_update k tm rate m = Ok m' /\
    holds k n m' (fun i => (1 - rate) * mom1 m i + rate * mom1 tm i)%Q (fun i j => (1 - rate) * mom2 m i j + rate * mom2 tm i j)%Q /\
    all_entries (in_interval (-1) 1) n m'.
Proof.
  intros H1 H2 H3 H4 H5. destruct (update_Ok k n tm rate m H1 H2 H3 H4 H5) as (m' & E & (SH & M1 & M2 & SY) & A). exists m'. split; [assumption|]. split; [|assumption].
  split; [assumption|]. split; [|split; [|assumption]]; intros; [rewrite M1 by assumption|rewrite M2 by assumption]; ring.
Qed.
Print Assumptions C99_update.

Theorem C99_difference k n a b rate m : shaped k n m -> shaped k n a -> shaped k n b ->
  (exists m', moment_update2 k a b rate m = Ok m' /\
    holds k n m' (fun i => mom1 m i + rate * (mom1 a i - mom1 b i))%Q (fun i j => mom2 m i j + rate * (mom2 a i j - mom2 b i j))%Q) /\
  (exists m', scaled_difference k rate a b m = Ok m' /\
    holds k n m' (fun i => rate * mom1 a i - mom1 b i)%Q (fun i j => rate * mom2 a i j - mom2 b i j)%Q).
Proof. intros H1 H2 H3. split; [now apply update2_Ok|now apply difference_Ok]. Qed.
Print Assumptions C99_difference.

(** Bounds: every number is clamped to the margin. A margin which is not in [0, 1), as
    the default one of the herding evolutionary algorithm with a single bit, violates an
    assertion. *)
Theorem C99_bound k n margin m : shaped k n m ->
  if Qlt_le_dec margin 0 then moment_bound k margin m = UB
  else if Qlt_le_dec margin 1 then
    exists m', moment_bound k margin m = Ok m' /\ shaped k n m' /\ (k = Full -> symmetric n m') /\
      (forall i, i < n -> clamped (margin - 1) (1 - margin) (mom1 m i) (mom1 m' i)) /\
      (forall i j, j < i < n -> clamped (margin - 1) (1 - margin) (mom2 m i j) (mom2 m' i j)) /\
      all_entries (in_interval (margin - 1) (1 - margin)) n m'
  else moment_bound k margin m = UB.
Proof.
  intros H. destruct (Qlt_le_dec margin 0); [apply bound_UB; lra|]. destruct (Qlt_le_dec margin 1); [apply bound_Ok; auto|apply bound_UB; lra].
Qed.
Print Assumptions C99_bound.

(** Display: both kinds print the same symmetric matrix, with the first moments on the
    diagonal. *)
Theorem C99_display k n m : shaped k n m -> (k = Full -> symmetric n m) ->
  exists rows, moment_display k m = Ok rows /\ length rows = n /\
    forall i j, i < n -> j < n -> length (nth i rows []) = n /\ (nth j (nth i rows []) 0 == printed m i j)%Q /\ printed m i j = printed m j i.
Proof.
  intros H SY. exists (map (row_printed k n m) (seq 0 n)). split; [now apply display_rows|]. split; [now rewrite map_length, seq_length|].
  intros i j Hi Hj. rewrite (Mimic_Proofs.nth_map_lt _ _ i [] 0) by (rewrite seq_length; lia). rewrite seq_nth by lia.
  destruct (row_entries k n m i j SY Hi Hj) as (R1 & R2). split; [exact R1|]. split; [exact R2|apply printed_sym].
Qed.
Print Assumptions C99_display.

(** Norms: sums over all the numbers, in absolute value or squared, of a moment or of a difference.
    The infinite norm is the greatest of zero and all the numbers: they are not taken in
    absolute value. *)
Theorem C99_norms k n m tm : shaped k n m -> shaped k n tm ->
  (exists q, norm_1 m = Ok q /\ (q == total Qabs (numbers n m))%Q) /\
  (exists q, norm_2_square m = Ok q /\ (q == squares n (mom1 m) (mom2 m))%Q) /\
  (exists q, distance_square tm m = Ok q /\ (q == squares n (fun i => mom1 m i - mom1 tm i) (fun i j => mom2 m i j - mom2 tm i j))%Q) /\
  (exists q, norm_infinite m = Ok q /\ (0 <= q)%Q /\ (forall a, In a (numbers n m) -> (a <= q)%Q) /\ (q = 0%Q \/ In q (numbers n m))).
Proof.
  intros H HT. split; [|split; [|split]].
  - unfold norm_1. rewrite (fold_numbers k n _ m H). eexists. split; [reflexivity|]. rewrite fold_sum. ring.
  - unfold norm_2_square. rewrite (fold_numbers k n _ m H). eexists. split; [reflexivity|]. rewrite (fold_sum (fun a => a * a)%Q). unfold squares, numbers. change (fun a => a * a)%Q with square. ring.
  - unfold distance_square. pose proof H as (L & _). pose proof HT as (LT & _). rewrite L, LT, Nat.eqb_refl. cbn [assertb bind].
    rewrite (fold_Ok _ _ _ (fun i => mom1 m i - mom1 tm i)%Q (fun i j => mom2 m i j - mom2 tm i j)%Q).
    + eexists. split; [reflexivity|]. rewrite (fold_sum (fun a => a * a)%Q). unfold squares. change (fun a => a * a)%Q with square. ring.
    + intros i Hi. rewrite !(get1_Ok k n) by auto. reflexivity.
    + intros i j Hi. rewrite !(get2_Ok k n) by (auto; try lia; unfold width; destruct k; lia). reflexivity.
  - unfold norm_infinite. rewrite (fold_numbers k n _ m H). eexists. split; [reflexivity|]. apply fold_max.
Qed.
Print Assumptions C99_norms.

(** Hence the infinite norm of a moment all of whose numbers are negative is zero. *)
Theorem C99_negative k n m : shaped k n m -> all_entries (fun q => q <= 0)%Q n m -> exists q, norm_infinite m = Ok q /\ (q == 0)%Q.
Proof.
  intros H (A1 & A2). destruct (C99_norms k n m m H H) as (_ & _ & _ & q & E & Q0 & _ & [Q1|Q1]); exists q; split; auto; [rewrite Q1; reflexivity|].
  assert (q <= 0)%Q; [|lra]. unfold numbers, listed in Q1. apply in_flat_map in Q1 as (i & Hi & [<-|Q1]); apply in_seq in Hi; [apply A1; lia|].
  apply in_map_iff in Q1 as (j & <- & Hj). apply in_seq in Hj. apply A2. lia.
Qed.
Print Assumptions C99_negative.

(** ** C100: herding.  A sample is greedy: the components are set one after the other, in
    their order or in a random order, so that the moments of all samples since the last initialization,
    including the new one, get nearer to the target; which ones are the samples depends neither on the kind
    of moments nor on the contents of the vector. *)
Theorem C100_sample k n rand sh target past x h : (rand = true -> shuffles sh) -> shaped k n target -> herding_state k n past h -> length x = n ->
  exists y h', herding_sample k rand sh target x h = Ok (y, h') /\ herding_state k n (past ++ [y]) h' /\ herded n target past (bit_order rand sh n) y /\
    holds k n (h_delta h') (residual1 target past) (residual2 target past).
Proof. apply sample_Ok. Qed.
Print Assumptions C100_sample.

(** From the constructor and the initialization, all the samples *)
Theorem C100_herd k n rand shs garbage h target xs : herding_make k n garbage = Ok h ->
  (rand = true -> forall t, shuffles (shs t)) -> shaped k n target -> Forall (fun x => length x = n) xs ->
  exists ys h', herd k rand shs target xs (herding_init h) = Ok (ys, h') /\ length ys = length xs /\ herding_state k n ys h' /\
    forall t, t < length xs -> herded n target (firstn t ys) (bit_order rand (shs t) n) (nth t ys []).
Proof.
  intros HM HS ST HX. apply herd_Ok; auto. unfold herding_make, moment_make in HM. destruct (Nat.ltb_spec 0 n); cbn [assertb bind] in HM; [|discriminate].
  apply Ok_inj in HM. subst h. apply init_state; cbn [h_delta h_count h_perm]; auto using zero_shaped. apply repeat_length.
Qed.
Print Assumptions C100_herd.

(** The greedy sample is determined by the target, the past and the order. *)
Theorem C100_unique n target past order x y : Permutation (seq 0 n) order -> herded n target past order x -> herded n target past order y -> x = y.
Proof.
  intros P (LX & GX) (LY & GY). pose proof (Permutation_length P) as LP. rewrite seq_length in LP.
  assert (G : forall p, p <= n -> forall q, q < p -> nth (nth q order 0) x false = nth (nth q order 0) y false).
  { induction p as [|p IH]; intros Hp q Hq; [lia|]. destruct (Nat.eq_dec q p) as [->|NE]; [|apply IH; lia]. specialize (GX p ltac:(lia)). specialize (GY p ltac:(lia)). cbv zeta in GX, GY.
    assert (E : (total (fun j => residual2 target past (nth p order 0%nat) j * sign_at j x) (firstn p order) == total (fun j => residual2 target past (nth p order 0%nat) j * sign_at j y) (firstn p order))%Q).
    { apply total_ext. intros j Hj. apply (In_nth _ _ 0) in Hj as (q & Hq' & <-). rewrite firstn_length in Hq'. rewrite nth_firstn_lt by lia. unfold sign_at. rewrite IH by lia. reflexivity. }
    rewrite E in GX. destruct (nth (nth p order 0) x false), (nth (nth p order 0) y false); auto; [apply GX, GY|symmetry; apply GY, GX]; reflexivity. }
  apply (nth_ext _ _ false false); [congruence|]. intros i Hi.
  assert (IN : In i order) by (apply (Permutation_in _ P), in_seq; lia). apply (In_nth _ _ 0) in IN as (q & Hq & <-). apply (G n); lia.
Qed.
Print Assumptions C100_unique.

(** The error is the distance of the sum of the moments of all samples from the target times their number. A sample adds at
    most one per moment to the square of the discrepancy which was before it. *)
Theorem C100_error k n rand sh target past x h e y h' : (rand = true -> shuffles sh) -> shaped k n target -> shaped k n e -> herding_state k n past h -> length x = n ->
  herding_sample k rand sh target x h = Ok (y, h') ->
  exists q, herding_error k target e h' = Ok q /\ (q == squares n (lack1 target (past ++ [y])) (lack2 target (past ++ [y])))%Q /\
    (q <= squares n (residual1 target past) (residual2 target past) + inject_Z (Z.of_nat n * (Z.of_nat n + 1)) / 2)%Q /\
    (forall i j, j < i < n -> (residual1 target past i == lack1 target past i + mom1 target i)%Q /\ (residual2 target past i j == lack2 target past i j + mom2 target i j)%Q).
Proof.
  intros HS ST SE HH L ES. destruct (sample_Ok k n rand sh target past x h HS ST HH L) as (y' & h1 & E & HH' & HE & HD). rewrite E in ES. apply Ok_inj in ES. injection ES as -> ->.
  destruct (error_Ok k n target (past ++ [y]) h' e ST SE HH') as (q & EQ & Q1). exists q. split; [assumption|]. split; [assumption|].
  destruct (sample_error k n (h_delta h') target past _ y (bit_order_perm rand sh n HS) HD HE) as (N & S). split.
  - rewrite Q1, S. lra.
  - intros i j Hi. rewrite residual_lack1, residual_lack2 by lia. split; ring.
Qed.
Print Assumptions C100_error.

(** With the uniform target, all of whose moments are zero, as at the start of the herding evolutionary
    algorithm, the square of the error after t samples of n bits is at most t n (n + 1) / 2, so that the
    moments of the samples go to zero. *)
Theorem C100_uniform k n rand shs garbage h target xs e : herding_make k n garbage = Ok h ->
  (rand = true -> forall t, shuffles (shs t)) -> shaped k n target -> all_entries (fun q => q == 0)%Q n target -> Forall (fun x => length x = n) xs -> shaped k n e ->
  exists ys h' q, herd k rand shs target xs (herding_init h) = Ok (ys, h') /\ herding_error k target e h' = Ok q /\
    (q <= inject_Z (Z.of_nat (length xs)) * (inject_Z (Z.of_nat n * (Z.of_nat n + 1)) / 2))%Q /\
    (q == squares n (fun i => total (sign_at i) ys) (fun i j => total (fun x => sign_at i x * sign_at j x) ys))%Q.
Proof.
  intros HM HS ST (Z1 & Z2) HX SE. destruct (C100_herd k n rand shs garbage h target xs HM HS ST HX) as (ys & h' & E & L & HH & HT).
  destruct (error_Ok k n target ys h' e ST SE HH) as (q & EQ & Q1). exists ys, h', q. split; [assumption|]. split; [assumption|]. split.
  - rewrite Q1, <- L. apply (uniform_bound n target rand shs ys HS Z1 Z2). now rewrite L.
  - rewrite Q1. unfold squares. rewrite !total_listed. apply total_ext. intros i Hi. apply in_seq in Hi. apply Qplus_comp.
    + unfold square, lack1. rewrite (Z1 i) by lia. ring.
    + apply total_ext. intros j Hj. apply in_seq in Hj. unfold square, lack2. rewrite (Z2 i j) by lia. ring.
Qed.
Print Assumptions C100_uniform.

(** ** C101: Gibbs sampling.  An update changes at most the given component, which becomes one if the number drawn is less than the
    logistic function of the increase of the energy. *)
Theorem C101_update logistic k n m i u x : (forall a b, (a == b)%Q -> (logistic a == logistic b)%Q) -> shaped k n m -> length x = n -> i < n ->
  exists y, gibbs_update logistic m i u x = Ok y /\ length y = n /\ (forall j, j <> i -> nth j y false = nth j x false) /\
    (nth i y false = true <-> (u < logistic (gain n m i x))%Q).
Proof.
  intros LP H L Hi. rewrite (gibbs_update_Ok logistic LP k n) by assumption. eexists. split; [reflexivity|]. unfold with_bit. rewrite length_upd. split; [assumption|]. split.
  - intros j Hj. now apply nth_upd_neq.
  - rewrite nth_upd_eq by lia. apply ProbabilityVector_Proofs.qltb_lt.
Qed.
Print Assumptions C101_update.

(** The synchronous update does it for all the components at once, given the state before it, but only with full
    moments: with triangular ones it reads out of the bounds of the rows as soon as there are two bits. *)
Theorem C101_synchronous logistic n m u x : (forall a b, (a == b)%Q -> (logistic a == logistic b)%Q) -> length x = n ->
  (shaped Full n m -> symmetric n m ->
   exists y, gibbs_update_sync logistic n m u x = Ok y /\ length y = n /\ forall i, i < n -> (nth i y false = true <-> (u i < logistic (gain n m i x))%Q)) /\
  (shaped Triangular n m -> 2 <= n -> gibbs_update_sync logistic n m u x = UB).
Proof.
  intros LP L. split.
  - intros H SY. destruct (sync_Ok logistic LP n m u x H SY L) as (y & E & LY & HY). exists y. split; [assumption|]. split; [assumption|]. intros i Hi. rewrite HY by assumption. apply ProbabilityVector_Proofs.qltb_lt.
  - intros H Hn. now apply sync_UB.
Qed.
Print Assumptions C101_synchronous.

(** ** Concrete cases *)

Definition example_vectors : list (list bool) := [[false; false; true]; [false; true; true]; [false; true; false]; [true; true; false]].
Example C99_case :
  (m <- moment_make Triangular 3 ;; m <- foldM moment_add example_vectors (moment_init m) ;; m <- moment_average Triangular 4 m ;; Ok (map (map Qred) (second_moment m), map Qred (first_moment m)))
    = Ok ([[]; [0]; [(-1) # 2; (-1) # 2]]%Q, [1 # 2; (-1) # 2; 0]%Q) /\
  (m <- moment_make Full 3 ;; m <- foldM moment_add example_vectors (moment_init m) ;; m <- moment_average Full 4 m ;; rows <- moment_display Full m ;; Ok (map (map Qred) rows))
    = Ok [[1 # 2; 0; (-1) # 2]; [0; (-1) # 2; (-1) # 2]; [(-1) # 2; (-1) # 2; 0]]%Q.
Proof. vm_compute. auto. Qed.
Example C99_case_norms : let m := mk_moment [-1; 1 # 2]%Q [[]; [-2]]%Q in
  norm_infinite m = Ok (1 # 2)%Q /\ norm_infinite (mk_moment [-1; -3]%Q [[]; [-2]]%Q) = Ok 0%Q /\
  (q <- norm_1 m ;; Ok (Qred q)) = Ok (7 # 2)%Q /\ (q <- norm_2_square m ;; Ok (Qred q)) = Ok (21 # 4)%Q.
Proof. vm_compute. auto. Qed.
Example C99_case_bound : moment_bound Triangular 1 (zero_moment Triangular 1) = UB /\
  (m <- moment_bound Full (1 # 2) (mk_moment [-1; 1]%Q [[0; 1]; [1; 0]]%Q) ;; Ok (map Qred (first_moment m), map (map Qred) (second_moment m))) = Ok ([(-1) # 2; 1 # 2]%Q, [[0; 1 # 2]; [1 # 2; 0]]%Q).
Proof. vm_compute. auto. Qed.
Definition example_herd (k : kind) (rand : bool) :=
  (h <- herding_make k 2 7 ;; s <- herd k rand (fun t => if Nat.even t then @rev nat else fun l => l) (zero_moment k 2) (repeat [false; false] 5) (herding_init h) ;;
   q <- herding_error k (zero_moment k 2) (zero_moment k 2) (snd s) ;; Ok (fst s, Qred q)).
Example C100_case : example_herd Triangular false = example_herd Full false /\
  example_herd Triangular false = Ok ([[true; true]; [false; true]; [true; false]; [false; false]; [true; true]], 3%Q) /\
  example_herd Triangular true = example_herd Full true.
Proof. vm_compute. auto. Qed.
Example C101_case : let m := mk_moment [1; 0; -1]%Q [[]; [1]; [2; 1 # 2]]%Q in let logistic := (fun q => if qltb 0 q then 3 # 4 else 1 # 4)%Q in
  gibbs_update logistic m 1 (1 # 2) [true; false; true] = Ok [true; true; true] /\ gibbs_update logistic m 0 (1 # 2) [false; false; true] = Ok [false; false; true] /\
  gibbs_update_sync logistic 3 m (fun _ => 1 # 2)%Q [true; false; true] = UB /\
  gibbs_update_sync logistic 3 (mk_moment [1; 0; -1]%Q [[0; 1; 2]; [1; 0; 1 # 2]; [2; 1 # 2; 0]]%Q) (fun _ => 1 # 2)%Q [true; false; true] = Ok [false; true; true].
Proof. vm_compute. auto. Qed.
