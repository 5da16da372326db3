(** Proofs about the scores of hBOA. *)

From Coq Require Import Lia Factorial.
From Verif Require Import Base BaseLemmas Fraction_Model Fraction_Spec.
Local Open Scope nat_scope.

Lemma powers_pos l : forall k, 0 < powers k l.
Proof. induction l as [|c l IH]; intros k; cbn [powers]; [lia|]. specialize (IH (S k)). destruct (k <? 2) eqn:E; [lia|]. apply Nat.ltb_ge in E. assert (k ^ c <> 0) by (apply Nat.pow_nonzero; lia). nia. Qed.
Lemma powers_zeros m : forall k, powers k (repeat 0 m) = 1.
Proof. induction m as [|m IH]; intros k; cbn [repeat powers]; [reflexivity|]. rewrite IH. now destruct (k <? 2). Qed.
Lemma powers_app l m : forall k, powers k (l ++ m) = powers k l * powers (k + length l) m.
Proof. induction l as [|c l IH]; intros k; cbn [powers app length]; [rewrite Nat.add_0_r; lia|]. rewrite IH. replace (S k + length l) with (k + S (length l)) by lia. lia. Qed.
Lemma powers_upd l : forall k i c d, i < length l -> 2 <= k + i -> nth i l 0 = c -> powers k (upd l i (c + d)) = (k + i) ^ d * powers k l.
Proof.
  induction l as [|a l IH]; intros k [|i] c d L B E; cbn [length] in L; try lia; cbn [upd nth powers] in *.
  - subst a. replace (k <? 2) with false by (symmetry; apply Nat.ltb_ge; lia). rewrite Nat.pow_add_r, Nat.add_0_r. lia.
  - rewrite (IH (S k) i c d) by (try lia; exact E). replace (S k + i) with (k + S i) by lia. lia.
Qed.

Lemma resize_long l k : length l <= k -> resize l k = l ++ repeat 0 (k - length l).
Proof. intros L. unfold resize. apply firstn_all2. rewrite app_length, repeat_length. lia. Qed.
Lemma safe_size_spec fr n a b : stands_for fr a b -> stands_for (safe_size fr n) a b /\ n < length (fr_upper (safe_size fr n)) /\ length (fr_upper fr) <= length (fr_upper (safe_size fr n)).
Proof.
  intros (L & A & B). unfold safe_size. destruct (length (fr_upper fr) <=? n) eqn:E; [apply Nat.leb_le in E|apply Nat.leb_gt in E].
  - rewrite !resize_long by lia. unfold stands_for. cbn [fr_upper fr_lower]. rewrite !app_length, !repeat_length, !powers_app, !powers_zeros. lia.
  - split; [now split|]. lia.
Qed.

Lemma bump_spec l i k : i < length l -> 2 <= i -> exists l', bump l i k = Ok l' /\ length l' = length l /\ powers 0 l' = i ^ k * powers 0 l.
Proof.
  intros L B. unfold bump, vget. rewrite (nth_error_nth' l 0 L). cbn [bind]. rewrite vset_Ok by exact L. eexists. split; [reflexivity|]. split; [apply length_upd|].
  now rewrite (powers_upd l 0 i (nth i l 0) k L B eq_refl).
Qed.
Lemma seq_fact n : fold_right Nat.mul 1 (seq 2 (n - 1)) = fact n.
Proof.
  destruct n as [|n]; [reflexivity|]. replace (S n - 1) with n by lia. induction n as [|n IH]; [reflexivity|]. rewrite seq_S, fold_right_app. cbn [fold_right].
  assert (H : forall l x, fold_right Nat.mul x l = fold_right Nat.mul 1 l * x). { induction l as [|c l IHl]; intros x; cbn [fold_right]; [lia|]. rewrite IHl. lia. }
  rewrite H, IH. change (fact (S (S n))) with (S (S n) * fact (S n)). lia.
Qed.
Lemma bump_all is : forall l, (forall i, In i is -> 2 <= i < length l) ->
  exists l', foldM (fun l i => bump l i 1) is l = Ok l' /\ length l' = length l /\ powers 0 l' = fold_right Nat.mul 1 is * powers 0 l.
Proof.
  induction is as [|i is IH]; intros l H; cbn [foldM fold_right]; [exists l; split; [reflexivity|]; split; [reflexivity|lia]|].
  destruct (bump_spec l i 1) as (l1 & E1 & L1 & P1); [apply H; now left|apply H; now left|]. rewrite E1. cbn [bind].
  destruct (IH l1) as (l2 & E2 & L2 & P2); [intros j J; rewrite L1; apply H; now right|]. exists l2. split; [exact E2|]. split; [congruence|]. rewrite P2, P1. cbn [Nat.pow]. lia.
Qed.

Lemma mul_spec fr n a b : stands_for fr a b -> exists fr', mul_by_factorial fr n = Ok fr' /\ stands_for fr' (a * fact n) b.
Proof.
  intros H. destruct (safe_size_spec fr n a b H) as ((L & A & B) & N & _). unfold mul_by_factorial.
  destruct (bump_all (seq 2 (n - 1)) (fr_upper (safe_size fr n))) as (l' & E & L' & P); [intros i I; apply in_seq in I; lia|].
  cbv zeta. rewrite E. cbn [bind]. eexists. split; [reflexivity|]. unfold stands_for. cbn [fr_upper fr_lower]. rewrite P, seq_fact, A. split; [congruence|]. split; [lia|exact B].
Qed.
Lemma div_spec fr n a b : stands_for fr a b -> exists fr', div_by_factorial fr n = Ok fr' /\ stands_for fr' a (b * fact n).
Proof.
  intros H. destruct (safe_size_spec fr n a b H) as ((L & A & B) & N & _). unfold div_by_factorial.
  destruct (bump_all (seq 2 (n - 1)) (fr_lower (safe_size fr n))) as (l' & E & L' & P); [intros i I; apply in_seq in I; lia|].
  cbv zeta. rewrite E. cbn [bind]. eexists. split; [reflexivity|]. unfold stands_for. cbn [fr_upper fr_lower]. rewrite P, seq_fact, B. split; [congruence|]. split; [exact A|lia].
Qed.

Lemma skipn_nth {A} (l : list A) d : forall i, i < length l -> skipn i l = nth i l d :: skipn (S i) l.
Proof. induction l as [|a l IH]; intros [|i] L; cbn [length] in L; try lia; [reflexivity|]. cbn [skipn nth]. now apply IH; lia. Qed.
Lemma powers_two l : powers 0 l = powers 2 (skipn 2 l).
Proof. destruct l as [|a [|b l]]; cbn; lia. Qed.

Lemma add_all p q : length p = length q -> forall m start upper lower, 2 <= start -> start + m = length p -> length p <= length upper -> length p <= length lower ->
  exists upper' lower', foldM (fun '(upper, lower) i =>
    u <- vget p i ;; upper <- bump upper i u ;; l <- vget q i ;; lower <- bump lower i l ;; Ok (upper, lower)) (seq start m) (upper, lower) = Ok (upper', lower') /\
    length upper' = length upper /\ length lower' = length lower /\
    powers 0 upper' = powers start (skipn start p) * powers 0 upper /\ powers 0 lower' = powers start (skipn start q) * powers 0 lower.
Proof.
  intros LPQ. induction m as [|m IH]; intros start upper lower B M LU LL; cbn [seq foldM].
  - exists upper, lower. rewrite !skipn_all2 by lia. cbn [powers]. split; [reflexivity|]. lia.
  - unfold vget at 1. rewrite (nth_error_nth' p 0) by lia. cbn [bind]. destruct (bump_spec upper start (nth start p 0)) as (u1 & E1 & L1 & P1); [lia|lia|]. rewrite E1. cbn [bind].
    unfold vget at 1. rewrite (nth_error_nth' q 0) by lia. cbn [bind]. destruct (bump_spec lower start (nth start q 0)) as (l1 & E2 & L2 & P2); [lia|lia|]. rewrite E2. cbn [bind].
    destruct (IH (S start) u1 l1) as (u' & l' & E & LU' & LL' & PU & PL); [lia|lia|lia|lia|]. exists u', l'. split; [exact E|]. split; [congruence|]. split; [congruence|].
    rewrite (skipn_nth p 0 start), (skipn_nth q 0 start) by lia. cbn [powers]. replace (start <? 2) with false by (symmetry; apply Nat.ltb_ge; lia). rewrite PU, PL, P1, P2. lia.
Qed.
Lemma add_two p q upper lower : length p = length q -> length p <= length upper -> length p <= length lower ->
  exists upper' lower', foldM (fun '(upper, lower) i =>
    u <- vget p i ;; upper <- bump upper i u ;; l <- vget q i ;; lower <- bump lower i l ;; Ok (upper, lower)) (seq 2 (length p - 2)) (upper, lower) = Ok (upper', lower') /\
    length upper' = length upper /\ length lower' = length lower /\ powers 0 upper' = powers 0 p * powers 0 upper /\ powers 0 lower' = powers 0 q * powers 0 lower.
Proof.
  intros LPQ LU LL. destruct (Nat.le_gt_cases 2 (length p)) as [H|H].
  - destruct (add_all p q LPQ (length p - 2) 2 upper lower) as (u & l & E & H1 & H2 & H3 & H4); [lia|lia|exact LU|exact LL|]. exists u, l. rewrite (powers_two p), (powers_two q). split; [exact E|]. split; [exact H1|]. split; [exact H2|]. now split.
  - replace (length p - 2) with 0 by lia. exists upper, lower. cbn [seq foldM]. rewrite (powers_two p), (powers_two q), !skipn_all2 by lia. cbn [powers]. split; [reflexivity|]. lia.
Qed.

Lemma times_spec x y a b c d : stands_for x a b -> stands_for y c d -> exists z, fr_times x y = Ok z /\ stands_for z (a * c) (b * d).
Proof.
  intros H (LY & C & D). destruct (safe_size_spec x (length (fr_upper y)) a b H) as ((L & A & B) & N & _). unfold fr_times. cbv zeta.
  destruct (add_two (fr_upper y) (fr_lower y) (fr_upper (safe_size x (length (fr_upper y)))) (fr_lower (safe_size x (length (fr_upper y))))) as (u & l & E & H1 & H2 & H3 & H4); [exact LY|lia|lia|].
  rewrite E. cbn [bind]. eexists. split; [reflexivity|]. unfold stands_for. cbn [fr_upper fr_lower]. rewrite H3, H4, A, B, C, D. lia.
Qed.
Lemma over_spec x y a b c d : stands_for x a b -> stands_for y c d -> exists z, fr_over x y = Ok z /\ stands_for z (a * d) (b * c).
Proof.
  intros H (LY & C & D). destruct (safe_size_spec x (length (fr_upper y)) a b H) as ((L & A & B) & N & _). unfold fr_over. cbv zeta.
  destruct (add_two (fr_lower y) (fr_upper y) (fr_upper (safe_size x (length (fr_upper y)))) (fr_lower (safe_size x (length (fr_upper y))))) as (u & l & E & H1 & H2 & H3 & H4); [now symmetry|lia|lia|].
  rewrite <- LY in E. rewrite E. cbn [bind]. eexists. split; [reflexivity|]. unfold stands_for. cbn [fr_upper fr_lower]. rewrite H3, H4, A, B, C, D. lia.
Qed.

Lemma simplify_all m : forall start upper lower, 2 <= start -> start + m <= length upper -> length upper = length lower ->
  exists upper' lower' g, foldM (fun '(upper, lower) i =>
    u <- vget upper i ;; l <- vget lower i ;; let extra := Nat.min u l in
    upper <- vset upper i (u - extra) ;; lower <- vset lower i (l - extra) ;; Ok (upper, lower)) (seq start m) (upper, lower) = Ok (upper', lower') /\
    length upper' = length upper /\ length lower' = length lower /\ powers 0 upper = g * powers 0 upper' /\ powers 0 lower = g * powers 0 lower' /\
    (forall i, i < start -> nth i upper' 0 = nth i upper 0 /\ nth i lower' 0 = nth i lower 0) /\
    forall i, start <= i < start + m -> nth i upper' 0 = 0 \/ nth i lower' 0 = 0.
Proof.
  induction m as [|m IH]; intros start upper lower B M L; cbn [seq foldM].
  - exists upper, lower, 1. split; [reflexivity|]. split; [reflexivity|]. split; [reflexivity|]. split; [lia|]. split; [lia|]. split; [now intros|]. intros i I. lia.
  - unfold vget at 1. rewrite (nth_error_nth' upper 0) by lia. cbn [bind]. unfold vget at 1. rewrite (nth_error_nth' lower 0) by lia. cbn [bind]. cbv zeta. set (u := nth start upper 0). set (l := nth start lower 0). set (e := Nat.min u l).
    rewrite !vset_Ok by lia. cbn [bind]. set (upper1 := upd upper start (u - e)). set (lower1 := upd lower start (l - e)).
    assert (PU : powers 0 upper = start ^ e * powers 0 upper1).
    { subst upper1. pose proof (powers_upd (upd upper start (u - e)) 0 start (u - e) e) as H. rewrite length_upd, upd_upd in H. replace (u - e + e) with u in H by lia. cbn [Nat.add] in H. rewrite <- H; [|lia|lia|apply nth_upd_eq; lia]. unfold u. now rewrite upd_nth. }
    assert (PL : powers 0 lower = start ^ e * powers 0 lower1).
    { subst lower1. pose proof (powers_upd (upd lower start (l - e)) 0 start (l - e) e) as H. rewrite length_upd, upd_upd in H. replace (l - e + e) with l in H by lia. cbn [Nat.add] in H. rewrite <- H; [|lia|lia|apply nth_upd_eq; lia]. unfold l. now rewrite upd_nth. }
    assert (LU1 : length upper1 = length upper) by apply length_upd. assert (LL1 : length lower1 = length lower) by apply length_upd.
    destruct (IH (S start) upper1 lower1) as (u' & l' & g & E & H1 & H2 & H3 & H4 & H5 & H6); [lia|lia|lia|]. exists u', l', (start ^ e * g). split; [exact E|]. split; [congruence|]. split; [congruence|].
    split; [rewrite PU, H3; lia|]. split; [rewrite PL, H4; lia|]. split.
    + intros i I. destruct (H5 i ltac:(lia)) as (X & Y). rewrite X, Y. unfold upper1, lower1. rewrite !nth_upd_neq by lia. now split.
    + intros i I. destruct (Nat.eq_dec i start) as [->|NE]; [|apply H6; lia]. destruct (H5 start ltac:(lia)) as (X & Y). rewrite X, Y. unfold upper1, lower1. rewrite !nth_upd_eq by lia. lia.
Qed.
Lemma simplify_spec fr a b : stands_for fr a b -> exists fr' g, simplify fr = Ok fr' /\ (exists a' b', stands_for fr' a' b' /\ a = g * a' /\ b = g * b') /\
  forall i, 2 <= i -> nth i (fr_upper fr') 0 = 0 \/ nth i (fr_lower fr') 0 = 0.
Proof.
  intros (L & A & B). unfold simplify. destruct (Nat.le_gt_cases 2 (length (fr_upper fr))) as [H|H].
  - destruct (simplify_all (length (fr_upper fr) - 2) 2 (fr_upper fr) (fr_lower fr)) as (u & l & g & E & H1 & H2 & H3 & H4 & _ & H6); [lia|lia|exact L|].
    exists (mk_fraction u l), g. split; [match goal with |- bind ?X _ = _ => replace X with (@Ok (list nat * list nat) (u, l)) by (symmetry; exact E) end; reflexivity|].
    cbn [fr_upper fr_lower]. split; [exists (powers 0 u), (powers 0 l); split; [split; [cbn; congruence|now split]|lia]|]. intros i I. destruct (Nat.lt_ge_cases i (length u)) as [X|X]; [apply H6; lia|left; now apply nth_overflow].
  - replace (length (fr_upper fr) - 2) with 0 by lia. cbn [seq foldM bind]. eexists. exists 1. split; [reflexivity|]. cbn [fr_upper fr_lower].
    split; [exists a, b; split; [now split|lia]|]. intros i I. left. apply nth_overflow. lia.
Qed.

(** * The conversion *)

Definition left_to_do (l : list nat) (t : nat) : nat := (length l - t) + list_sum (skipn t l).
Lemma step_zero l t : t < length l -> 2 <= t -> nth t l 0 = 0 -> powers t (skipn t l) = powers (t + 1) (skipn (t + 1) l) /\ left_to_do l t = S (left_to_do l (t + 1)).
Proof.
  intros L B Z. unfold left_to_do. rewrite (skipn_nth l 0 t L), Z, Nat.add_1_r. cbn [powers list_sum fold_right]. replace (t <? 2) with false by (symmetry; apply Nat.ltb_ge; lia). cbn [Nat.pow]. unfold list_sum. cbn [fold_right]. split; lia.
Qed.
Lemma skipn_upd {A} (l : list A) a : forall t, skipn (S t) (upd l t a) = skipn (S t) l.
Proof. induction l as [|b l IH]; intros [|t]; cbn [upd skipn]; try reflexivity. apply IH. Qed.
Lemma step_one l t : t < length l -> 2 <= t -> nth t l 0 <> 0 ->
  powers t (skipn t l) = t * powers t (skipn t (upd l t (nth t l 0 - 1))) /\ left_to_do l t = S (left_to_do (upd l t (nth t l 0 - 1)) t).
Proof.
  intros L B Z. unfold left_to_do. rewrite length_upd. rewrite (skipn_nth l 0 t L), (skipn_nth (upd l t (nth t l 0 - 1)) 0 t) by now rewrite length_upd. rewrite nth_upd_eq by exact L. rewrite skipn_upd.
  destruct (nth t l 0) as [|c]; [congruence|]. replace (S c - 1) with c by lia. cbn [powers]. replace (t <? 2) with false by (symmetry; apply Nat.ltb_ge; lia). unfold list_sum. cbn [fold_right Nat.pow]. split; lia.
Qed.

Definition converting (s : conversion) (a b : nat) : Prop :=
  2 <= cv_t s /\ 2 <= cv_b s /\ cv_num s * powers (cv_t s) (skipn (cv_t s) (cv_top s)) = a /\ cv_den s * powers (cv_b s) (skipn (cv_b s) (cv_bot s)) = b.
Definition to_do (s : conversion) : nat := left_to_do (cv_top s) (cv_t s) + left_to_do (cv_bot s) (cv_b s).

Lemma one_top_spec s a b : converting s a b -> cv_t s < length (cv_top s) -> exists s', one_top s = Ok s' /\ converting s' a b /\ to_do s = S (to_do s').
Proof.
  destruct s as [num den t b0 top bot]. unfold converting, to_do. cbn [cv_num cv_den cv_t cv_b cv_top cv_bot one_top]. intros (T & B & A & D) L. unfold vget. rewrite (nth_error_nth' top 0 L). cbn [bind].
  destruct (nth t top 0 =? 0) eqn:Z; [apply Nat.eqb_eq in Z|apply Nat.eqb_neq in Z].
  - destruct (step_zero top t L T Z) as (P & M). eexists. split; [reflexivity|]. cbn [cv_num cv_den cv_t cv_b cv_top cv_bot]. rewrite <- P. split; [split; [lia|]; split; [lia|]; now split|lia].
  - destruct (step_one top t L T Z) as (P & M). rewrite vset_Ok by exact L. cbn [bind]. eexists. split; [reflexivity|]. cbn [cv_num cv_den cv_t cv_b cv_top cv_bot]. rewrite P in A. split; [split; [lia|]; split; [lia|]; split; [lia|exact D]|lia].
Qed.
Lemma one_bottom_spec s a b : converting s a b -> cv_b s < length (cv_bot s) -> exists s', one_bottom s = Ok s' /\ converting s' a b /\ to_do s = S (to_do s').
Proof.
  destruct s as [num den t b0 top bot]. unfold converting, to_do. cbn [cv_num cv_den cv_t cv_b cv_top cv_bot one_bottom]. intros (T & B & A & D) L. unfold vget. rewrite (nth_error_nth' bot 0 L). cbn [bind].
  destruct (nth b0 bot 0 =? 0) eqn:Z; [apply Nat.eqb_eq in Z|apply Nat.eqb_neq in Z].
  - destruct (step_zero bot b0 L B Z) as (P & M). eexists. split; [reflexivity|]. cbn [cv_num cv_den cv_t cv_b cv_top cv_bot]. rewrite <- P. split; [split; [lia|]; split; [lia|]; now split|lia].
  - destruct (step_one bot b0 L B Z) as (P & M). rewrite vset_Ok by exact L. cbn [bind]. eexists. split; [reflexivity|]. cbn [cv_num cv_den cv_t cv_b cv_top cv_bot]. rewrite P in D. split; [split; [lia|]; split; [lia|]; split; [exact A|lia]|lia].
Qed.
Lemma convert_spec a b fuel : forall s, converting s a b -> to_do s < fuel -> convert fuel s = Ok (Some (a, b)).
Proof.
  induction fuel as [|fuel IH]; intros s C F; [lia|]. cbn [convert]. destruct (cv_t s <? length (cv_top s)) eqn:T, (cv_b s <? length (cv_bot s)) eqn:B; cbn [andb].
  - apply Nat.ltb_lt in T, B. destruct (cv_den s <? cv_num s).
    + destruct (one_bottom_spec s a b C B) as (s' & -> & C' & M). cbn [bind]. apply IH; [exact C'|lia].
    + destruct (one_top_spec s a b C T) as (s' & -> & C' & M). cbn [bind]. apply IH; [exact C'|lia].
  - apply Nat.ltb_lt in T. destruct (one_top_spec s a b C T) as (s' & -> & C' & M). cbn [bind]. apply IH; [exact C'|lia].
  - apply Nat.ltb_lt in B. destruct (one_bottom_spec s a b C B) as (s' & -> & C' & M). cbn [bind]. apply IH; [exact C'|lia].
  - apply Nat.ltb_ge in T, B. destruct C as (_ & _ & A & D). rewrite skipn_all2 in A, D by lia. cbn [powers] in A, D. do 3 f_equal; lia.
Qed.
Lemma sum_skipn l : forall t, list_sum (skipn t l) <= list_sum l.
Proof. induction l as [|c l IH]; intros [|t]; cbn [skipn]; try lia. unfold list_sum in *. cbn [fold_right]. specialize (IH t). lia. Qed.
Lemma to_real_spec fr a b fuel : stands_for fr a b -> turns fr <= fuel -> to_real fuel fr = Ok (Some (a, b)).
Proof.
  intros (L & A & B) F. unfold to_real. apply convert_spec.
  - unfold converting. cbn [cv_num cv_den cv_t cv_b cv_top cv_bot]. rewrite <- !powers_two. lia.
  - unfold to_do, left_to_do. cbn [cv_t cv_b cv_top cv_bot]. unfold turns in F. pose proof (sum_skipn (fr_upper fr) 2). pose proof (sum_skipn (fr_lower fr) 2). lia.
Qed.
