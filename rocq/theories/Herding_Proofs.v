(** Proofs about the norms of Walsh moments, herding and Gibbs sampling. *)

From Coq Require Import QArith Qabs Qfield Lqa Permutation.
From Verif Require Import Base BaseLemmas BitVector_Model BitVector_Spec BitVector_Proofs Representation_Spec Map_Spec Algorithm_Model
  Population_Model Population_Proofs PopAlgorithm_Proofs ProbabilityVector_Model ProbabilityVector_Spec ProbabilityVector_Proofs EvolutionaryAlgorithm_Model
  Mimic_Proofs ItEa_Spec ItEa_Proofs WalshMoment_Model WalshMoment_Spec WalshMoment_Proofs.
Local Open Scope nat_scope.

(** * Display and norms *)

Lemma row_of_Ok f g l : (forall j, In j l -> f j = Ok (g j)) -> row_of f l = Ok (map g l).
Proof.
  intros H. unfold row_of.
  assert (G : forall l r, (forall j, In j l -> f j = Ok (g j)) -> foldM (fun r j => q <- f j ;; Ok (r ++ [q])) l r = Ok (r ++ map g l)).
  { clear. induction l as [|a l IH]; intros r H; cbn [foldM map]; [now rewrite app_nil_r|]. rewrite (H a) by now left. cbn [bind]. rewrite IH by (intros; apply H; now right).
    now rewrite <- app_assoc. }
  now rewrite G.
Qed.

Lemma rows_Ok {A} (f : nat -> outcome A) g l : (forall i, In i l -> f i = Ok (g i)) -> forall r,
  foldM (fun rows i => row <- f i ;; Ok (rows ++ [row])) l r = Ok (r ++ map g l).
Proof.
  induction l as [|a l IH]; intros H r; cbn [foldM map]; [now rewrite app_nil_r|]. rewrite (H a) by now left. cbn [bind]. rewrite IH by (intros; apply H; now right).
  now rewrite <- app_assoc.
Qed.

Definition row_printed (k : kind) (n : nat) (m : moment) (i : nat) : list Q :=
  match k with
  | Triangular => map (mom2 m i) (seq 0 i) ++ [mom1 m i] ++ map (fun j => mom2 m j i) (seq (i + 1) (n - (i + 1)))
  | Full => map (fun j => if i =? j then mom1 m i else mom2 m i j) (seq 0 n)
  end.

Lemma display_rows k n m : shaped k n m -> moment_display k m = Ok (map (row_printed k n m) (seq 0 n)).
Proof.
  intros SH. unfold moment_display. pose proof SH as (L & _). rewrite L. rewrite (rows_Ok _ (row_printed k n m)); [reflexivity|].
  intros i Hi. apply in_seq in Hi. destruct k.
  - rewrite (row_of_Ok _ (mom2 m i)). 2:{ intros j Hj. apply in_seq in Hj. apply (get2_Ok Triangular n); auto; cbn; lia. }
    cbn [bind]. rewrite (get1_Ok Triangular n m i SH) by lia. cbn [bind]. rewrite (row_of_Ok _ (fun j => mom2 m j i)); [reflexivity|].
    intros j Hj. apply in_seq in Hj. apply (get2_Ok Triangular n); auto; cbn; lia.
  - rewrite (row_of_Ok _ (fun j => if i =? j then mom1 m i else mom2 m i j)); [reflexivity|]. intros j Hj. apply in_seq in Hj.
    destruct (i =? j); [apply (get1_Ok Full n); auto; lia|apply (get2_Ok Full n); auto; cbn; lia].
Qed.

Lemma row_entries k n m i j : (k = Full -> symmetric n m) -> i < n -> j < n ->
  length (row_printed k n m i) = n /\ (nth j (row_printed k n m i) 0 == printed m i j)%Q.
Proof.
  intros SY Hi Hj. unfold row_printed, printed. destruct k.
  - split; [rewrite !app_length, !map_length, !seq_length; cbn; lia|].
    destruct (Nat.ltb_spec j i); [|destruct (Nat.ltb_spec i j)].
    + rewrite app_nth1 by (rewrite map_length, seq_length; lia). rewrite (nth_map_lt _ _ j 0%Q 0) by (rewrite seq_length; lia). rewrite seq_nth by lia. reflexivity.
    + rewrite app_nth2 by (rewrite map_length, seq_length; lia). rewrite map_length, seq_length, app_nth2 by (cbn; lia). cbn [length].
      rewrite (nth_map_lt _ _ (j - i - 1) 0%Q 0) by (rewrite seq_length; lia). rewrite seq_nth by lia. now replace (i + 1 + (j - i - 1)) with j by lia.
    + assert (j = i) by lia. subst j. rewrite app_nth2 by (rewrite map_length, seq_length; lia). rewrite map_length, seq_length, Nat.sub_diag. reflexivity.
  - split; [now rewrite map_length, seq_length|]. rewrite (nth_map_lt _ _ j 0%Q 0) by (rewrite seq_length; lia). rewrite seq_nth by lia. cbn [Nat.add].
    destruct (Nat.eqb_spec i j) as [->|NE]; [now rewrite Nat.ltb_irrefl|]. destruct (Nat.ltb_spec j i); [reflexivity|].
    replace (i <? j) with true by (symmetry; apply Nat.ltb_lt; lia). apply SY; auto.
Qed.

Lemma fold_Ok op f1 f2 g1 g2 n : (forall i, i < n -> f1 i = Ok (g1 i)) -> (forall i j, j < i < n -> f2 i j = Ok (g2 i j)) ->
  moment_fold op f1 f2 n = Ok (fold_left op (listed n g1 g2) 0%Q).
Proof.
  intros F1 F2. unfold moment_fold, listed.
  assert (IN : forall i l r, (forall j, In j l -> f2 i j = Ok (g2 i j)) -> foldM (fun r j => b <- f2 i j ;; Ok (op r b)) l r = Ok (fold_left op (map (g2 i) l) r)).
  { intros i l. induction l as [|j l IH]; intros r H; cbn [foldM map fold_left]; [reflexivity|]. rewrite (H j) by now left. cbn [bind]. apply IH. intros; apply H; now right. }
  assert (OUT : forall l r, (forall i, In i l -> i < n) -> foldM (fun r i => a <- f1 i ;; foldM (fun r j => b <- f2 i j ;; Ok (op r b)) (seq 0 i) (op r a)) l r
    = Ok (fold_left op (flat_map (fun i => g1 i :: map (g2 i) (seq 0 i)) l) r)).
  { induction l as [|i l IH]; intros r H; cbn [foldM flat_map]; [reflexivity|]. pose proof (H i (or_introl eq_refl)). rewrite F1 by assumption. cbn [bind].
    rewrite IN. 2:{ intros j Hj. apply in_seq in Hj. apply F2. lia. } cbn [bind]. rewrite IH by (intros; apply H; now right). cbn [app fold_left]. rewrite fold_left_app. reflexivity. }
  apply OUT. intros i Hi. apply in_seq in Hi. lia.
Qed.

Lemma fold_numbers k n op m : shaped k n m -> moment_fold op (get1 m) (get2 m) (length (first_moment m)) = Ok (fold_left op (numbers n m) 0%Q).
Proof.
  intros SH. pose proof SH as (L & _). rewrite L. apply fold_Ok; intros; [apply (get1_Ok k n); auto|apply (get2_Ok k n); auto; [lia|unfold width; destruct k; lia]].
Qed.

Lemma fold_sum (f : Q -> Q) l : forall r, (fold_left (fun r a => r + f a) l r == r + total f l)%Q.
Proof. induction l as [|a l IH]; intros r; cbn [fold_left]; [rewrite total_nil; lra|]. rewrite IH, total_cons. lra. Qed.

Lemma fold_max l : forall r, let q := fold_left qmax l r in (r <= q)%Q /\ (forall a, In a l -> (a <= q)%Q) /\ (q = r \/ In q l).
Proof.
  cbv zeta. induction l as [|a l IH]; intros r; cbn [fold_left].
  - split; [lra|]. split; [intros a []|auto].
  - destruct (IH (qmax r a)) as (H1 & H2 & H3). assert (M : (r <= qmax r a)%Q /\ (a <= qmax r a)%Q /\ (qmax r a = r \/ qmax r a = a)).
    { unfold qmax. destruct (qltb r a) eqn:E; [apply qltb_lt in E|apply qltb_ge in E]; repeat split; auto; lra. }
    split; [lra|]. split.
    + intros b [<-|Hb]; [lra|auto].
    + cbn [In]. destruct H3 as [H3|H3]; [|auto]. rewrite H3. destruct M as (_ & _ & [M|M]); rewrite M; auto.
Qed.

(** * Sums over pairs *)

Fixpoint psum (w : nat -> nat -> Q) (l : list nat) : Q :=
  match l with [] => 0%Q | a :: l' => (total (w a) l' + psum w l')%Q end.

Lemma psum_perm w l l' : (forall a b, w a b == w b a)%Q -> Permutation l l' -> (psum w l == psum w l')%Q.
Proof.
  intros SY. induction 1; cbn [psum].
  - reflexivity.
  - rewrite IHPermutation, (total_perm (w x) l l') by assumption. reflexivity.
  - rewrite !total_cons, (SY x y). lra.
  - now rewrite IHPermutation1.
Qed.

Lemma psum_ext w w' l : (forall a b, In a l -> In b l -> (w a b == w' a b)%Q) -> (psum w l == psum w' l)%Q.
Proof.
  induction l as [|a l IH]; intros H; cbn [psum]; [reflexivity|]. rewrite IH by (intros; apply H; now right).
  rewrite (total_ext (w a) (w' a)); [reflexivity|]. intros b Hb. apply H; [now left|now right].
Qed.

Lemma psum_snoc w l a : (psum w (l ++ [a]) == psum w l + total (fun b => w b a) l)%Q.
Proof.
  induction l as [|b l IH]; cbn [app psum]; [rewrite !total_nil; lra|]. rewrite IH, total_app, !total_cons, !total_nil. lra.
Qed.

Lemma total_add {A} (f g : A -> Q) l : (total (fun x => f x + g x) l == total f l + total g l)%Q.
Proof. induction l as [|a l IH]; [rewrite !total_nil; lra|]. rewrite !total_cons, IH. lra. Qed.
Lemma total_scale {A} (c : Q) (f : A -> Q) l : (total (fun x => c * f x) l == c * total f l)%Q.
Proof. induction l as [|a l IH]; [rewrite !total_nil; lra|]. rewrite !total_cons, IH. lra. Qed.

Lemma psum_prefix w order : (psum w order == total (fun p => total (fun b => w b (nth p order 0%nat)) (firstn p order)) (seq 0 (length order)))%Q.
Proof.
  assert (G : forall p, p <= length order -> (psum w (firstn p order) == total (fun p => total (fun b => w b (nth p order 0%nat)) (firstn p order)) (seq 0 p))%Q).
  { induction p as [|p IH]; intros H; [reflexivity|]. replace (S p) with (p + 1) at 1 by lia. rewrite (firstn_S_nth p order 0) by lia. rewrite psum_snoc, IH by lia.
    rewrite seq_S. rewrite (total_app _ (seq 0 p)), total_cons, total_nil. cbn [Nat.add]. lra. }
  rewrite <- G by lia. now rewrite firstn_all.
Qed.

Lemma nth_firstn_lt {T} n (l : list T) : forall k d, k < n -> nth k (firstn n l) d = nth k l d.
Proof. revert l; induction n; intros l k d H; [lia|]. destruct l, k; cbn; auto; [apply IHn; lia]. Qed.

Lemma firstn_seq p n a : p <= n -> firstn p (seq a n) = seq a p.
Proof. revert a n; induction p as [|p IH]; intros a n H; [reflexivity|]. destruct n; [lia|]. cbn [seq firstn]. now rewrite IH by lia. Qed.

(** The numbers of a pair of distinct components *)
Lemma printed_sym m i j : printed m i j = printed m j i.
Proof. unfold printed. destruct (Nat.ltb_spec j i), (Nat.ltb_spec i j); auto; try lia. now replace j with i by lia. Qed.
Lemma printed_lt m i j : j < i -> printed m i j = mom2 m i j.
Proof. intros H. unfold printed. apply Nat.ltb_lt in H. now rewrite H. Qed.
Lemma printed_gt m i j : i < j -> printed m i j = mom2 m j i.
Proof. intros H. rewrite printed_sym. now apply printed_lt. Qed.

Definition pairw (d2 : nat -> nat -> Q) (x : list bool) (i j : nat) : Q := (d2 i j * (sign_at i x * sign_at j x))%Q.

(** The energy in any order *)
Lemma energy_psum n m x : (energy n m x == total (fun i => mom1 m i * sign_at i x) (seq 0 n) + psum (pairw (printed m) x) (seq 0 n))%Q.
Proof.
  unfold energy. rewrite total_add. apply Qplus_comp; [reflexivity|]. rewrite psum_prefix, seq_length. apply total_ext. intros i Hi. apply in_seq in Hi.
  rewrite seq_nth by lia. rewrite firstn_seq by lia. cbn [Nat.add]. apply total_ext. intros j Hj. apply in_seq in Hj. unfold pairw.
  rewrite printed_sym, printed_lt by lia. lra.
Qed.

Lemma pairw_sym d2 x : (forall i j, d2 i j == d2 j i)%Q -> forall i j, (pairw d2 x i j == pairw d2 x j i)%Q.
Proof. intros H i j. unfold pairw. rewrite (H i j). lra. Qed.

Lemma energy_order n m x order : Permutation (seq 0 n) order ->
  (energy n m x == total (fun i => mom1 m i * sign_at i x) order + psum (pairw (printed m) x) order)%Q.
Proof.
  intros P. rewrite energy_psum, (total_perm _ _ _ P). rewrite (psum_perm _ _ _ (pairw_sym _ x ltac:(intros; now rewrite printed_sym)) P). reflexivity.
Qed.

(** The energy as a sum over the components in their order *)
Lemma energy_fields n m x order : Permutation (seq 0 n) order ->
  (energy n m x == total (fun p => let i := nth p order 0%nat in sign_at i x * (mom1 m i + total (fun j => printed m i j * sign_at j x) (firstn p order))) (seq 0 n))%Q.
Proof.
  intros P. rewrite (energy_order n m x order P). cbv zeta. pose proof (Permutation_length P) as L. rewrite seq_length in L.
  rewrite psum_prefix, <- L.
  assert (E : (total (fun i => mom1 m i * sign_at i x) order == total (fun p => mom1 m (nth p order 0%nat) * sign_at (nth p order 0%nat) x) (seq 0 n))%Q).
  { rewrite <- (map_nth_seq order 0) at 1. rewrite total_map, <- L. reflexivity. }
  rewrite E, <- total_add. apply total_ext. intros p Hp. rewrite Qmult_plus_distr_r. apply Qplus_comp; [ring|]. rewrite <- total_scale.
  apply total_ext. intros j Hj. unfold pairw. rewrite printed_sym. ring.
Qed.

Lemma greedy_energy n m order x : Permutation (seq 0 n) order -> greedy n (mom1 m) (printed m) order x ->
  (energy n m x == total (fun p => let i := nth p order 0%nat in Qabs (mom1 m i + total (fun j => printed m i j * sign_at j x) (firstn p order))) (seq 0 n))%Q.
Proof.
  intros P (L & G). rewrite (energy_fields n m x order P). apply total_ext. cbv zeta. intros p Hp. apply in_seq in Hp. specialize (G p ltac:(lia)). cbv zeta in G.
  unfold sign_at at 1. destruct (nth (nth p order 0%nat) x false); cbn [sign].
  - destruct (Qlt_le_dec 0 (mom1 m (nth p order 0%nat) + total (fun j => printed m (nth p order 0%nat) j * sign_at j x) (firstn p order))%Q) as [H|H]; [apply G in H; discriminate|].
    rewrite (Qabs_neg _ H). ring.
  - assert (H : (0 <= mom1 m (nth p order 0%nat) + total (fun j => printed m (nth p order 0%nat) j * sign_at j x) (firstn p order))%Q) by (apply Qlt_le_weak; now apply G).
    rewrite (Qabs_pos _ H). ring.
Qed.

Lemma total_nonneg {A} (f : A -> Q) l : (forall x, In x l -> (0 <= f x)%Q) -> (0 <= total f l)%Q.
Proof. induction l as [|a l IH]; intros H; [rewrite total_nil; lra|]. rewrite total_cons. pose proof (H a (or_introl eq_refl)). specialize (IH ltac:(intros; apply H; now right)). lra. Qed.

(** * Herding *)

Lemma second_at_Ok k n m i j : shaped k n m -> (k = Full -> symmetric n m) -> i < n -> j < n -> j <> i ->
  exists q, second_at k m i j = Ok q /\ (q == printed m i j)%Q.
Proof.
  intros SH SY Hi Hj NE. unfold second_at. destruct k.
  - destruct (Nat.ltb_spec j i).
    + rewrite (get2_Ok Triangular n) by (auto; cbn; lia). eexists. split; [reflexivity|]. now rewrite printed_lt.
    + rewrite (get2_Ok Triangular n) by (auto; cbn; lia). eexists. split; [reflexivity|]. now rewrite printed_gt by lia.
  - rewrite (get2_Ok Full n) by (auto; cbn; lia). eexists. split; [reflexivity|]. destruct (Nat.lt_trichotomy i j) as [L|[L|L]]; [|congruence|].
    + rewrite printed_gt by assumption. apply SY; auto.
    + now rewrite printed_lt.
Qed.

Lemma greedy_ext n d1 d2 e1 e2 order x : Permutation (seq 0 n) order -> (forall i, i < n -> (d1 i == e1 i)%Q) -> (forall i j, i < n -> j < n -> i <> j -> (d2 i j == e2 i j)%Q) ->
  greedy n d1 d2 order x -> greedy n e1 e2 order x.
Proof.
  intros P H1 H2 (L & G). split; [assumption|]. intros p Hp. specialize (G p Hp). cbv zeta in *. rewrite G.
  pose proof (Permutation_length P) as LP. rewrite seq_length in LP.
  assert (ND : NoDup order) by (apply (Permutation_NoDup P), seq_NoDup).
  assert (IN : forall j, In j order -> j < n). { intros j Hj. apply (Permutation_in _ (Permutation_sym P)), in_seq in Hj. lia. }
  assert (HI : nth p order 0 < n) by (apply IN, nth_In; lia).
  assert (E : (d1 (nth p order 0%nat) + total (fun j => d2 (nth p order 0%nat) j * sign_at j x) (firstn p order) ==
    e1 (nth p order 0%nat) + total (fun j => e2 (nth p order 0%nat) j * sign_at j x) (firstn p order))%Q).
  { rewrite (H1 _ HI). apply Qplus_comp; [reflexivity|]. apply total_ext. intros j Hj. rewrite (H2 (nth p order 0) j); auto; [reflexivity| |].
    - apply IN. rewrite <- (firstn_skipn p order). apply in_or_app; now left.
    - intros <-. apply (In_nth _ _ 0) in Hj as (q & Hq & E). rewrite firstn_length in Hq. rewrite nth_firstn_lt in E by lia.
      assert (q = p); [|lia]. apply (proj1 (NoDup_nth order 0) ND); try lia. }
  rewrite E. reflexivity.
Qed.

Lemma perm_order n order p : Permutation (seq 0 n) order -> p < n -> nth p order 0 < n /\ (forall j, In j (firstn p order) -> j < n /\ j <> nth p order 0) /\
  (forall q, q < n -> q <> p -> nth q order 0 <> nth p order 0).
Proof.
  intros P Hp. pose proof (Permutation_length P) as LP. rewrite seq_length in LP. assert (ND : NoDup order) by (apply (Permutation_NoDup P), seq_NoDup).
  assert (IN : forall j, In j order -> j < n). { intros j Hj. apply (Permutation_in _ (Permutation_sym P)), in_seq in Hj. lia. }
  assert (DIFF : forall q, q < n -> q <> p -> nth q order 0 <> nth p order 0). { intros q Hq NE E. apply NE. apply (proj1 (NoDup_nth order 0) ND); auto; lia. }
  split; [apply IN, nth_In; lia|]. split; [|exact DIFF]. intros j Hj. split; [apply IN; rewrite <- (firstn_skipn p order); apply in_or_app; now left|].
  apply (In_nth _ _ 0) in Hj as (q & Hq & <-). rewrite firstn_length in Hq. rewrite nth_firstn_lt by lia. apply DIFF; lia.
Qed.

Lemma sign_upd x i j b : j <> i -> sign_at j (upd x i b) = sign_at j x.
Proof. intros H. unfold sign_at. now rewrite nth_upd_neq. Qed.

Section Sample.
  Variables (k : kind) (n : nat) (rand : bool) (perm : list nat) (delta : moment).
  Hypothesis SD : shaped k n delta.
  Hypothesis SY : k = Full -> symmetric n delta.
  Let order := if rand then perm else seq 0 n.
  Hypothesis PO : Permutation (seq 0 n) order.

  Lemma index_Ok p : p < n -> (if rand then vget perm p else Ok p) = Ok (nth p order 0).
  Proof.
    intros Hp. pose proof (Permutation_length PO) as L. rewrite seq_length in L. unfold order in *. destruct rand.
    - apply vget_Ok. lia.
    - now rewrite seq_nth by lia.
  Qed.

  Lemma acc_Ok x i p : length x = n -> i < n -> p <= n -> (forall j, In j (firstn p order) -> j < n /\ j <> i) ->
    exists q, foldM (fun acc l =>
      j <- (if rand then vget perm l else Ok l) ;;
      b <- vget x j ;;
      q <- second_at k delta i j ;;
      Ok (if b : bool then acc - q else acc + q)%Q) (seq 0 p) 0%Q = Ok q /\ (q == total (fun j => printed delta i j * sign_at j x) (firstn p order))%Q.
  Proof.
    intros L Hi Hp HJ. pose proof (Permutation_length PO) as LO. rewrite seq_length in LO.
    match goal with |- exists q, foldM ?f _ _ = _ /\ _ =>
      apply (foldM_upto (fun l q => (q == total (fun j => printed delta i j * sign_at j x) (firstn l order))%Q) f p 0%Q) end; [reflexivity|].
    intros l acc Hl I. rewrite index_Ok by lia. cbn [bind].
    assert (IN : In (nth l order 0) (firstn p order)). { rewrite <- (nth_firstn_lt p order l 0) by lia. apply nth_In. rewrite firstn_length. lia. }
    destruct (HJ _ IN) as (J1 & J2). rewrite (vget_Ok _ _ false) by lia. cbn [bind].
    destruct (second_at_Ok k n delta i _ SD SY Hi J1 J2) as (q & E & EQ). rewrite E. cbn [bind]. eexists. split; [reflexivity|].
    rewrite <- Nat.add_1_r, (firstn_S_nth l order 0) by lia. rewrite total_app, total_cons, total_nil. unfold sign_at at 2.
    destruct (nth (nth l order 0) x false); cbn [sign]; rewrite I, EQ; ring.
  Qed.

  Lemma bits_Ok x : length x = n -> exists y, foldM (fun x p =>
    i <- (if rand then vget perm p else Ok p) ;;
    acc <- foldM (fun acc l =>
      j <- (if rand then vget perm l else Ok l) ;;
      b <- vget x j ;;
      q <- second_at k delta i j ;;
      Ok (if b : bool then acc - q else acc + q)%Q) (seq 0 p) 0%Q ;;
    d <- get1 delta i ;;
    vset x i (if qltb 0 (d + acc) then false else true)) (seq 0 n) x = Ok y /\ greedy n (mom1 delta) (printed delta) order y.
  Proof.
    intros L. pose proof (Permutation_length PO) as LO. rewrite seq_length in LO.
    match goal with |- exists y, foldM ?f _ _ = _ /\ _ =>
      destruct (foldM_upto (fun p y => length y = n /\ forall q, q < p -> (nth (nth q order 0) y false = false <->
        (0 < mom1 delta (nth q order 0%nat) + total (fun j => printed delta (nth q order 0%nat) j * sign_at j y) (firstn q order))%Q)) f n x) as (y & E & I1 & I2) end.
    - split; [assumption|]. intros q Hq. lia.
    - intros p y Hp (I1 & I2). rewrite index_Ok by assumption. cbn [bind]. destruct (perm_order n order p PO Hp) as (O1 & O2 & O3).
      destruct (acc_Ok y (nth p order 0) p I1 O1 ltac:(lia) O2) as (acc & E & EQ). rewrite E. cbn [bind]. rewrite (get1_Ok k n) by auto. cbn [bind].
      rewrite vset_Ok by lia. eexists. split; [reflexivity|]. rewrite length_upd. split; [assumption|]. intros q Hq.
      assert (SAME : q <= p -> forall b, (total (fun j => printed delta (nth q order 0%nat) j * sign_at j (upd y (nth p order 0%nat) b)) (firstn q order) == total (fun j => printed delta (nth q order 0%nat) j * sign_at j y) (firstn q order))%Q).
      { intros QP b. apply total_ext. intros j Hj. rewrite sign_upd; [reflexivity|]. apply O2. replace q with (Nat.min q p) in Hj by lia. rewrite <- firstn_firstn in Hj.
        rewrite <- (firstn_skipn q (firstn p order)). apply in_or_app; now left. }
      rewrite SAME by lia. destruct (Nat.eq_dec q p) as [->|NE].
      + rewrite nth_upd_eq by lia. rewrite <- EQ. destruct (qltb 0 (mom1 delta (nth p order 0) + acc)) eqn:B; [apply qltb_lt in B|apply qltb_ge in B].
        * split; auto.
        * split; [discriminate|]. intros C. lra.
      + rewrite nth_upd_neq by (apply O3; lia). apply I2. lia.
    - exists y. split; [assumption|]. split; [assumption|]. intros p Hp. cbv zeta. now apply I2.
  Qed.
End Sample.

Lemma total_snoc {A} (f : A -> Q) l a : (total f (l ++ [a]) == total f l + f a)%Q.
Proof. rewrite total_app, total_cons, total_nil. lra. Qed.

Lemma sample_Ok k n rand sh target past x h : (rand = true -> shuffles sh) -> shaped k n target -> herding_state k n past h -> length x = n ->
  exists y h', herding_sample k rand sh target x h = Ok (y, h') /\ herding_state k n (past ++ [y]) h' /\ herded n target past (bit_order rand sh n) y /\
    holds k n (h_delta h') (residual1 target past) (residual2 target past).
Proof.
  intros HSH ST (H1 & H2 & H3 & H4 & H5 & H6) L. unfold herding_sample. rewrite L, H3, Nat.eqb_refl. cbn [assertb bind].
  destruct (difference_Ok k n target (h_count h) (inject_Z (h_time h + 1)) (h_delta h) H1 ST H2) as (delta & E & HD). rewrite E. cbn [bind].
  pose proof HD as (SD & D1 & D2 & D3).
  assert (R1 : forall i, i < n -> (mom1 delta i == residual1 target past i)%Q). { intros i Hi. rewrite (D1 i Hi), (H5 i Hi), H4. reflexivity. }
  assert (R2 : forall i j, j < i < n -> (mom2 delta i j == residual2 target past i j)%Q).
  { intros i j Hi. rewrite (D2 i j Hi), (H6 i j Hi), H4. unfold residual2. rewrite printed_lt by lia. reflexivity. }
  assert (RS : forall i j, (residual2 target past i j == residual2 target past j i)%Q).
  { intros i j. unfold residual2. rewrite printed_sym. rewrite (total_ext (fun x => sign_at i x * sign_at j x)%Q (fun x => sign_at j x * sign_at i x)%Q); [reflexivity|]. intros; ring. }
  set (perm := if rand then sh (identity n) else h_perm h).
  assert (EO : (if rand then perm else seq 0 n) = bit_order rand sh n) by (unfold perm, bit_order; destruct rand; reflexivity).
  assert (PO : Permutation (seq 0 n) (bit_order rand sh n)). { unfold bit_order. destruct rand; [now apply HSH|apply Permutation_refl]. }
  destruct (bits_Ok k n rand perm delta SD D3) with (x := x) as (y & EY & GY); [now rewrite EO|assumption|]. rewrite EO in GY.
  rewrite EY. cbn [bind]. pose proof GY as (LY & _). destruct (add_Ok k n (h_count h) y H2 LY) as (c & EC & SC & C1 & C2). rewrite EC. cbn [bind].
  exists y. eexists. split; [reflexivity|]. split; [|split].
  - split; [exact SD|]. split; [exact SC|]. split; [|split; [|split]].
    + cbn [h_perm]. unfold perm. destruct rand; [|assumption]. pose proof (Permutation_length PO) as LP. unfold bit_order in LP. now rewrite seq_length in LP.
    + cbn [h_time]. rewrite app_length, H4. cbn. lia.
    + intros i Hi. cbn [h_count]. rewrite (C1 i Hi), (H5 i Hi), total_snoc. reflexivity.
    + intros i j Hi. cbn [h_count]. rewrite (C2 i j Hi), (H6 i j Hi), total_snoc. reflexivity.
  - apply (greedy_ext n (mom1 delta) (printed delta)); auto. intros i j Hi Hj NE. destruct (Nat.lt_trichotomy i j) as [LT|[->|LT]]; [|congruence|].
    + rewrite printed_gt by assumption. rewrite (R2 j i) by lia. apply RS.
    + rewrite printed_lt by assumption. apply R2. lia.
  - cbn [h_delta]. split; [assumption|]. split; [exact R1|]. split; [exact R2|exact D3].
Qed.

(** Herding without previous samples *)
Lemma init_state k n h : shaped k n (h_delta h) -> shaped k n (h_count h) -> length (h_perm h) = n -> herding_state k n [] (herding_init h).
Proof.
  intros H1 H2 H3. unfold herding_init. split; [exact H1|]. split; [apply (init_shaped k n _ H2)|]. split; [cbn [h_perm]; unfold identity; rewrite seq_length; exact H3|].
  split; [reflexivity|]. split; intros; cbn [h_count]; rewrite ?init_mom1, ?init_mom2, total_nil; reflexivity.
Qed.

(** The energy of the residual with the new sample *)
Lemma delta_greedy k n delta target past order y : Permutation (seq 0 n) order -> holds k n delta (residual1 target past) (residual2 target past) -> herded n target past order y ->
  greedy n (mom1 delta) (printed delta) order y.
Proof.
  intros P (SD & D1 & D2 & D3) H.
  assert (RS : forall i j, (residual2 target past i j == residual2 target past j i)%Q).
  { intros i j. unfold residual2. rewrite printed_sym. rewrite (total_ext (fun x => sign_at i x * sign_at j x)%Q (fun x => sign_at j x * sign_at i x)%Q); [reflexivity|]. intros; ring. }
  apply (greedy_ext n (residual1 target past) (residual2 target past)); auto.
  - intros i Hi. symmetry. now apply D1.
  - intros i j Hi Hj NE. symmetry. destruct (Nat.lt_trichotomy i j) as [LT|[->|LT]]; [|congruence|].
    + rewrite printed_gt by assumption. rewrite (D2 j i) by lia. apply RS.
    + rewrite printed_lt by assumption. apply D2. lia.
Qed.

(** * Errors *)

Lemma total_listed g n f1 f2 : (total g (listed n f1 f2) == total (fun i => g (f1 i) + total (fun j => g (f2 i j)) (seq 0 i)) (seq 0 n))%Q.
Proof.
  unfold listed. induction (seq 0 n) as [|i l IH]; [reflexivity|]. cbn [flat_map app]. rewrite total_cons, total_app, IH, (total_cons _ i l), total_map. ring.
Qed.

Lemma listed_count n : (total (fun i => 1 + total (fun _ => 1) (seq 0 i)) (seq 0 n) == inject_Z (Z.of_nat n * (Z.of_nat n + 1)) / 2)%Q.
Proof.
  induction n as [|n IH]; [reflexivity|]. rewrite seq_S, total_app, total_cons, total_nil, IH. rewrite total_const.
  replace (Z.of_nat (S n)) with (Z.of_nat n + 1)%Z by lia. cbn [Nat.add]. rewrite !inject_Z_mult, !inject_Z_plus. change (inject_Z 1) with 1%Q. field.
Qed.

Lemma listed_squares n d1 d2 e1 e2 x m : (forall i, i < n -> (mom1 m i == d1 i)%Q) -> (forall i j, j < i < n -> (mom2 m i j == d2 i j)%Q) ->
  (forall i, i < n -> (e1 i == d1 i - sign_at i x)%Q) -> (forall i j, j < i < n -> (e2 i j == d2 i j - sign_at i x * sign_at j x)%Q) ->
  (total square (listed n e1 e2) == total square (listed n d1 d2) - 2 * energy n m x + inject_Z (Z.of_nat n * (Z.of_nat n + 1)) / 2)%Q.
Proof.
  intros M1 M2 E1 E2. rewrite !total_listed, <- listed_count. unfold energy.
  assert (G : forall (a b c d : nat -> Q) l, (forall i, In i l -> (a i == b i - 2 * c i + d i)%Q) -> (total a l == total b l - 2 * total c l + total d l)%Q).
  { intros a b c d l. induction l as [|i l IH]; intros H; [reflexivity|]. rewrite !total_cons, IH, (H i) by (try (now left); intros; apply H; now right). ring. }
  apply G. intros i Hi. apply in_seq in Hi. rewrite (G (fun j => square (e2 i j)) (fun j => square (d2 i j)) (fun j => mom2 m i j * (sign_at i x * sign_at j x))%Q (fun _ => 1%Q)).
  - rewrite (M1 i) by lia. unfold square at 1. rewrite (E1 i) by lia. unfold square at 2. pose proof (sign_sq (nth i x false)) as S. fold (sign_at i x) in S.
    assert (EX : forall a s t u v w : Q, (s * s == 1)%Q -> ((a - s) * (a - s) + (t - 2 * u + v) == a * a + t - 2 * (a * s + u) + (1 + v))%Q).
    { intros a s t u v w Hs. transitivity (a * a - 2 * a * s + s * s + (t - 2 * u + v))%Q; [ring|]. rewrite Hs. ring. }
    apply EX; auto.
  - intros j Hj. apply in_seq in Hj. rewrite (M2 i j) by lia. unfold square. rewrite (E2 i j) by lia.
    pose proof (sign_sq (nth i x false)) as S. fold (sign_at i x) in S. pose proof (sign_sq (nth j x false)) as S'. fold (sign_at j x) in S'.
    transitivity (d2 i j * d2 i j - 2 * (d2 i j * (sign_at i x * sign_at j x)) + (sign_at i x * sign_at i x) * (sign_at j x * sign_at j x))%Q; [ring|]. rewrite S, S'. ring.
Qed.

Lemma error_Ok k n target past h e : shaped k n target -> shaped k n e -> herding_state k n past h ->
  exists q, herding_error k target e h = Ok q /\ (q == squares n (lack1 target past) (lack2 target past))%Q.
Proof.
  intros ST SE (H1 & H2 & H3 & H4 & H5 & H6). unfold herding_error.
  destruct (difference_Ok k n target (h_count h) (inject_Z (h_time h)) e SE ST H2) as (d & E & SD & D1 & D2 & D3). rewrite E. cbn [bind].
  unfold norm_2_square. rewrite (fold_numbers k n _ d SD). eexists. split; [reflexivity|]. rewrite (fold_sum (fun a => a * a)%Q), Qplus_0_l.
  change (fun a => a * a)%Q with square. unfold numbers, squares. rewrite !total_listed. apply total_ext. intros i Hi. apply in_seq in Hi. apply Qplus_comp.
  - unfold square. rewrite (D1 i), (H5 i), H4 by lia. reflexivity.
  - apply total_ext. intros j Hj. apply in_seq in Hj. unfold square. rewrite (D2 i j), (H6 i j), H4 by lia. reflexivity.
Qed.

Lemma residual_lack1 target past i : (residual1 target past i == mom1 target i + lack1 target past i)%Q.
Proof. unfold residual1, lack1. rewrite inject_Z_plus. change (inject_Z 1) with 1%Q. ring. Qed.
Lemma residual_lack2 target past i j : j < i -> (residual2 target past i j == mom2 target i j + lack2 target past i j)%Q.
Proof. intros H. unfold residual2, lack2. rewrite inject_Z_plus, printed_lt by assumption. change (inject_Z 1) with 1%Q. ring. Qed.
Lemma lack_snoc1 target past y i : (lack1 target (past ++ [y]) i == residual1 target past i - sign_at i y)%Q.
Proof. unfold residual1, lack1. rewrite app_length, total_snoc. cbn [length]. rewrite Nat2Z.inj_add. change (Z.of_nat 1) with 1%Z. ring. Qed.
Lemma lack_snoc2 target past y i j : j < i -> (lack2 target (past ++ [y]) i j == residual2 target past i j - sign_at i y * sign_at j y)%Q.
Proof. intros H. unfold residual2, lack2. rewrite app_length, (total_snoc (fun x => sign_at i x * sign_at j x)%Q), printed_lt by assumption. cbn [length]. rewrite Nat2Z.inj_add. change (Z.of_nat 1) with 1%Z. ring. Qed.

(** One more sample adds at most one per moment. *)
Lemma sample_error k n delta target past order y : Permutation (seq 0 n) order -> holds k n delta (residual1 target past) (residual2 target past) -> herded n target past order y ->
  (0 <= energy n delta y)%Q /\
  (squares n (lack1 target (past ++ [y])) (lack2 target (past ++ [y])) ==
    squares n (residual1 target past) (residual2 target past) - 2 * energy n delta y + inject_Z (Z.of_nat n * (Z.of_nat n + 1)) / 2)%Q.
Proof.
  intros P HD HH. split.
  - rewrite (greedy_energy n delta order y P (delta_greedy k n delta target past order y P HD HH)). apply total_nonneg. intros; apply Qabs_nonneg.
  - destruct HD as (SD & D1 & D2 & D3). apply listed_squares; auto.
    + intros i Hi. apply lack_snoc1.
    + intros i j Hi. apply lack_snoc2. lia.
Qed.

(** * Successive samples *)

Lemma herd_Ok k n rand shs target xs h : (rand = true -> forall t, shuffles (shs t)) -> shaped k n target -> herding_state k n [] h -> Forall (fun x => length x = n) xs ->
  exists ys h', herd k rand shs target xs h = Ok (ys, h') /\ length ys = length xs /\ herding_state k n ys h' /\
    forall t, t < length xs -> herded n target (firstn t ys) (bit_order rand (shs t) n) (nth t ys []).
Proof.
  intros HSH ST HS HX. unfold herd.
  assert (G : forall xs ys h, Forall (fun x => length x = n) xs -> herding_state k n ys h -> exists zs h',
    foldM (fun s x => '(y, h) <- herding_sample k rand (shs (length (fst s))) target x (snd s) ;; Ok (fst s ++ [y], h)) xs (ys, h) = Ok (ys ++ zs, h') /\ length zs = length xs /\
    herding_state k n (ys ++ zs) h' /\ forall t, t < length xs -> herded n target (ys ++ firstn t zs) (bit_order rand (shs (length ys + t)) n) (nth t zs [])).
  { clear xs h HS HX. intros xs. induction xs as [|x xs IH]; intros ys h HX HS.
    - exists [], h. rewrite app_nil_r. split; [reflexivity|]. split; [reflexivity|]. split; [exact HS|]. intros t Ht. cbn in Ht. lia.
    - inversion HX as [|? ? LX HX']; subst. cbn [foldM fst snd].
      destruct (sample_Ok k (length x) rand (shs (length ys)) target ys x h ltac:(auto) ST HS eq_refl) as (y & h1 & E & HS1 & HH & _). rewrite E. cbn [bind].
      destruct (IH (ys ++ [y]) h1 HX' HS1) as (zs & h' & E2 & L & HS2 & HT). exists (y :: zs), h'. rewrite <- app_assoc in E2, HS2. cbn [app] in E2, HS2.
      split; [exact E2|]. split; [cbn; now rewrite L|]. split; [exact HS2|]. intros t Ht. destruct t as [|t].
      + cbn [firstn nth]. rewrite app_nil_r, Nat.add_0_r. exact HH.
      + cbn [firstn nth]. cbn [length] in Ht. specialize (HT t ltac:(lia)). rewrite <- app_assoc, app_length in HT. cbn [app length] in HT.
        replace (length ys + S t) with (length ys + 1 + t) by lia. exact HT. }
  destruct (G xs [] h HX HS) as (zs & h' & E & L & HS' & HT). exists zs, h'. cbn [app length Nat.add] in *. auto.
Qed.

(** With a target whose moments are zero, the moments of the samples go to zero. *)
Lemma bit_order_perm rand sh n : (rand = true -> shuffles sh) -> Permutation (seq 0 n) (bit_order rand sh n).
Proof. intros H. unfold bit_order. destruct rand; [now apply H|apply Permutation_refl]. Qed.

Lemma exists_holds n f1 f2 : exists m, holds Triangular n m f1 f2.
Proof.
  exists (mk_moment (map f1 (seq 0 n)) (map (fun i => map (f2 i) (seq 0 i)) (seq 0 n))). split; [|split; [|split]].
  - split; [cbn; now rewrite map_length, seq_length|]. split; [cbn; now rewrite map_length, seq_length|]. intros i Hi. cbn [second_moment].
    rewrite (nth_map_lt _ _ i [] 0) by (rewrite seq_length; lia). rewrite map_length, seq_length. rewrite seq_nth by lia. reflexivity.
  - intros i Hi. unfold mom1. cbn [first_moment]. rewrite (nth_map_lt _ _ i 0%Q 0) by (rewrite seq_length; lia). rewrite seq_nth by lia. reflexivity.
  - intros i j Hi. unfold mom2. cbn [second_moment]. rewrite (nth_map_lt _ _ i [] 0) by (rewrite seq_length; lia). rewrite seq_nth by lia. cbn [Nat.add].
    rewrite (nth_map_lt _ _ j 0%Q 0) by (rewrite seq_length; lia). rewrite seq_nth by lia. reflexivity.
  - discriminate.
Qed.

Lemma squares_ext n e1 e2 d1 d2 : (forall i, i < n -> (e1 i == d1 i)%Q) -> (forall i j, j < i < n -> (e2 i j == d2 i j)%Q) -> (squares n e1 e2 == squares n d1 d2)%Q.
Proof.
  intros H1 H2. unfold squares. rewrite !total_listed. apply total_ext. intros i Hi. apply in_seq in Hi. apply Qplus_comp.
  - unfold square. rewrite (H1 i) by lia. reflexivity.
  - apply total_ext. intros j Hj. apply in_seq in Hj. unfold square. rewrite (H2 i j) by lia. reflexivity.
Qed.

Lemma uniform_bound n target rand shs ys : (rand = true -> forall t, shuffles (shs t)) ->
  (forall i, i < n -> (mom1 target i == 0)%Q) -> (forall i j, j < i < n -> (mom2 target i j == 0)%Q) ->
  (forall t, t < length ys -> herded n target (firstn t ys) (bit_order rand (shs t) n) (nth t ys [])) ->
  (squares n (lack1 target ys) (lack2 target ys) <= inject_Z (Z.of_nat (length ys)) * (inject_Z (Z.of_nat n * (Z.of_nat n + 1)) / 2))%Q.
Proof.
  intros HSH T1 T2 HH.
  assert (G : forall t, t <= length ys -> (squares n (lack1 target (firstn t ys)) (lack2 target (firstn t ys)) <= inject_Z (Z.of_nat t) * (inject_Z (Z.of_nat n * (Z.of_nat n + 1)) / 2))%Q).
  { induction t as [|t IH]; intros Ht.
    - cbn [firstn]. rewrite (squares_ext n _ _ (fun _ => 0%Q) (fun _ _ => 0%Q)).
      + unfold squares. rewrite total_listed. rewrite total_zero; [change (inject_Z (Z.of_nat 0)) with 0%Q; lra|]. intros i Hi. rewrite total_zero; [reflexivity|]. intros; reflexivity.
      + intros i Hi. unfold lack1. rewrite total_nil. cbn [length]. change (inject_Z (Z.of_nat 0)) with 0%Q. ring.
      + intros i j Hi. unfold lack2. rewrite total_nil. cbn [length]. change (inject_Z (Z.of_nat 0)) with 0%Q. ring.
    - specialize (IH ltac:(lia)). specialize (HH t ltac:(lia)). rewrite <- Nat.add_1_r, (firstn_S_nth t ys []) by lia.
      destruct (exists_holds n (residual1 target (firstn t ys)) (residual2 target (firstn t ys))) as (delta & HD).
      destruct (sample_error Triangular n delta target _ _ _ (bit_order_perm rand (shs t) n ltac:(auto)) HD HH) as (EN & SQ). rewrite SQ.
      rewrite (squares_ext n _ _ (lack1 target (firstn t ys)) (lack2 target (firstn t ys))).
      + rewrite Nat2Z.inj_add, inject_Z_plus. change (inject_Z (Z.of_nat 1)) with 1%Q. lra.
      + intros i Hi. rewrite residual_lack1, T1 by assumption. lra.
      + intros i j Hi. rewrite residual_lack2, T2 by lia. lra. }
  specialize (G (length ys) ltac:(lia)). now rewrite firstn_all in G.
Qed.

(** * Gibbs sampling *)

Definition field (n : nat) (m : moment) (i : nat) (x : list bool) : Q :=
  (mom1 m i + total (fun j => printed m i j * sign_at j x) (seq 0 i ++ seq (i + 1) (n - (i + 1))))%Q.

Lemma energy_upd n m x i : i < n -> length x = n -> exists rest, forall b, (energy n m (upd x i b) == sign b * field n m i x + rest)%Q.
Proof.
  intros Hi L. set (others := seq 0 i ++ seq (i + 1) (n - (i + 1))).
  assert (P : Permutation (seq 0 n) (i :: others)).
  { replace n with (i + (1 + (n - (i + 1)))) at 1 by lia. rewrite seq_app. cbn [Nat.add seq]. rewrite <- Nat.add_1_r. apply Permutation_sym, Permutation_middle. }
  assert (NI : forall j, In j others -> j <> i). { intros j Hj ->. unfold others in Hj. rewrite in_app_iff, !in_seq in Hj. lia. }
  exists (total (fun j => mom1 m j * sign_at j x) others + psum (pairw (printed m) x) others)%Q. intros c.
  rewrite (energy_order n m _ _ P), total_cons. cbn [psum].
  rewrite (total_ext (fun j => mom1 m j * sign_at j (upd x i c))%Q (fun j => mom1 m j * sign_at j x)%Q) by (intros j Hj; rewrite sign_upd by auto; reflexivity).
  rewrite (psum_ext _ (pairw (printed m) x) others) by (intros j j' Hj Hj'; unfold pairw; rewrite !sign_upd by auto; reflexivity).
  rewrite (total_ext (pairw (printed m) (upd x i c) i) (fun j => sign c * (printed m i j * sign_at j x))%Q).
  - rewrite total_scale. unfold field. fold others. unfold sign_at at 1. rewrite nth_upd_eq by lia. ring.
  - intros j Hj. unfold pairw. rewrite (sign_upd x i j) by auto. unfold sign_at at 1. rewrite nth_upd_eq by lia. ring.
Qed.

Lemma gain_field n m i x : i < n -> length x = n -> (gain n m i x == field n m i x * -2)%Q.
Proof. intros Hi L. destruct (energy_upd n m x i Hi L) as (r & E). unfold gain, with_bit. rewrite !E. cbn [sign]. ring. Qed.

Lemma signed_add a q (b : bool) : ((if b then a - q else a + q) == a + q * sign b)%Q.
Proof. destruct b; cbn [sign]; ring. Qed.

Lemma foldM_terms (f : Q -> nat -> outcome Q) (g : nat -> Q) l : (forall a j, In j l -> exists q, f a j = Ok q /\ (q == a + g j)%Q) ->
  forall a, exists q, foldM f l a = Ok q /\ (q == a + total g l)%Q.
Proof.
  induction l as [|j l IH]; intros H a; cbn [foldM]; [exists a; split; [reflexivity|rewrite total_nil; lra]|].
  destruct (H a j (or_introl eq_refl)) as (q & E & EQ). rewrite E. cbn [bind]. destruct (IH ltac:(intros; apply H; now right) q) as (q' & E' & EQ').
  exists q'. split; [assumption|]. rewrite EQ', EQ, total_cons. lra.
Qed.

Lemma qltb_ext u a b : (a == b)%Q -> qltb u a = qltb u b.
Proof. intros H. destruct (qltb u a) eqn:A, (qltb u b) eqn:B; auto; [apply qltb_lt in A; apply qltb_ge in B|apply qltb_ge in A; apply qltb_lt in B]; lra. Qed.

Section GibbsProofs.
  Variable logistic : Q -> Q.
  Hypothesis LP : forall a b, (a == b)%Q -> (logistic a == logistic b)%Q.

  Lemma gibbs_update_Ok k n m i u x : shaped k n m -> length x = n -> i < n ->
    gibbs_update logistic m i u x = Ok (with_bit x i (qltb u (logistic (gain n m i x)))).
  Proof.
    intros SH L Hi. unfold gibbs_update. rewrite L. replace (i <? n) with true by (symmetry; apply Nat.ltb_lt; lia). cbn [assertb bind]. cbv zeta.
    rewrite (get1_Ok k n) by auto. cbn [bind].
    match goal with |- context [foldM ?f (seq 0 i)] => destruct (foldM_terms f (fun j => printed m i j * sign_at j x)%Q (seq 0 i)) with (a := mom1 m i) as (q & E & EQ) end.
    { intros a j Hj. apply in_seq in Hj. rewrite (get2_Ok k n) by (auto; try lia; unfold width; destruct k; lia). cbn [bind]. rewrite (vget_Ok _ _ false) by lia. cbn [bind].
      eexists. split; [reflexivity|]. rewrite signed_add, printed_lt by lia. reflexivity. }
    rewrite E. cbn [bind].
    match goal with |- context [foldM ?f (seq (i + 1) ?c)] => destruct (foldM_terms f (fun j => printed m i j * sign_at j x)%Q (seq (i + 1) c)) with (a := q) as (q' & E' & EQ') end.
    { intros a j Hj. apply in_seq in Hj. rewrite (get2_Ok k n) by (auto; try lia; unfold width; destruct k; lia). cbn [bind]. rewrite (vget_Ok _ _ false) by lia. cbn [bind].
      eexists. split; [reflexivity|]. rewrite signed_add, printed_gt by lia. reflexivity. }
    rewrite E'. cbn [bind]. rewrite vset_Ok by lia. unfold with_bit. do 2 f_equal. apply qltb_ext, LP. rewrite gain_field by auto. unfold field. rewrite EQ', EQ, total_app. ring.
  Qed.

  Lemma sync_Ok n m u x : shaped Full n m -> symmetric n m -> length x = n ->
    exists y, gibbs_update_sync logistic n m u x = Ok y /\ length y = n /\ forall i, i < n -> nth i y false = qltb (u i) (logistic (gain n m i x)).
  Proof.
    intros SH SY L. unfold gibbs_update_sync.
    assert (G : exists pv, foldM (fun pv i =>
      delta <- get1 m i ;;
      delta <- foldM (fun delta j =>
        if j =? i then Ok delta
        else b <- vget x j ;; q <- get2 m i j ;; Ok (if b : bool then delta - q else delta + q)%Q)
        (seq 0 (length x)) delta ;;
      Ok (pv ++ [logistic (delta * -2)%Q])) (seq 0 n) [] = Ok pv /\ (length pv = n /\ forall i, i < n -> (nth i pv 0 == logistic (gain n m i x))%Q)).
    { match goal with |- exists pv, foldM ?f _ _ = _ /\ _ => destruct (foldM_upto (fun t pv => length pv = t /\ forall i, i < t -> (nth i pv 0 == logistic (gain n m i x))%Q) f n []) as (pv & E & I) end.
      - split; [reflexivity|]. intros i Hi. lia.
      - intros t pv Ht (I1 & I2). rewrite (get1_Ok Full n) by auto. cbn [bind]. rewrite L.
        match goal with |- context [foldM ?f (seq 0 n)] => destruct (foldM_terms f (fun j => if j =? t then 0 else printed m t j * sign_at j x)%Q (seq 0 n)) with (a := mom1 m t) as (q & E & EQ) end.
        { intros a j Hj. apply in_seq in Hj. destruct (Nat.eqb_spec j t); [eexists; split; [reflexivity|lra]|]. rewrite (vget_Ok _ _ false) by lia. cbn [bind].
          destruct (second_at_Ok Full n m t j SH ltac:(auto) Ht ltac:(lia) ltac:(lia)) as (q & E & EQ). cbn [second_at] in E. rewrite E. cbn [bind]. eexists. split; [reflexivity|].
          rewrite signed_add, EQ. reflexivity. }
        rewrite E. cbn [bind]. eexists. split; [reflexivity|]. rewrite app_length, I1. split; [cbn; lia|]. intros i Hi. destruct (Nat.eq_dec i t) as [->|NE].
        + rewrite app_nth2 by lia. rewrite I1, Nat.sub_diag. cbn [nth]. apply LP. rewrite gain_field by auto. unfold field. rewrite EQ.
          replace n with (t + (1 + (n - (t + 1)))) at 1 by lia. rewrite seq_app, !total_app. cbn [Nat.add seq]. rewrite total_cons, Nat.eqb_refl, <- Nat.add_1_r.
          rewrite (total_ext (fun j => if j =? t then 0 else printed m t j * sign_at j x)%Q (fun j => printed m t j * sign_at j x)%Q (seq 0 t)).
          2:{ intros j Hj. apply in_seq in Hj. replace (j =? t) with false by (symmetry; apply Nat.eqb_neq; lia). reflexivity. }
          rewrite (total_ext (fun j => if j =? t then 0 else printed m t j * sign_at j x)%Q (fun j => printed m t j * sign_at j x)%Q (seq (t + 1) _)).
          2:{ intros j Hj. apply in_seq in Hj. replace (j =? t) with false by (symmetry; apply Nat.eqb_neq; lia). reflexivity. }
          ring.
        + rewrite app_nth1 by lia. apply I2. lia.
      - exists pv. auto. }
    destruct G as (pv & E & LV & HV). rewrite E. cbn [bind]. unfold pv_sample. rewrite L, LV, Nat.eqb_refl. cbn [assertb bind]. eexists. split; [reflexivity|].
    split; [now rewrite map_length, seq_length|]. intros i Hi. rewrite (nth_map_lt _ _ i false 0) by (rewrite seq_length; lia). rewrite seq_nth by lia. cbn [Nat.add].
    apply qltb_ext. now apply HV.
  Qed.

  Lemma sync_UB n m u x : 2 <= n -> shaped Triangular n m -> length x = n -> gibbs_update_sync logistic n m u x = UB.
  Proof.
    intros Hn SH L. unfold gibbs_update_sync. destruct n as [|[|n]]; try lia. cbn [seq foldM]. rewrite (get1_Ok Triangular (S (S n))) by (auto; lia). cbn [bind].
    rewrite L. cbn [seq foldM Nat.eqb bind]. rewrite (vget_Ok x 1 false) by lia. cbn [bind]. unfold get2. destruct SH as (_ & S2 & S3).
    rewrite (vget_Ok _ _ []) by lia. cbn [bind]. unfold vget. rewrite (proj2 (nth_error_None _ _)); [reflexivity|]. rewrite S3 by lia. lia.
  Qed.
End GibbsProofs.
