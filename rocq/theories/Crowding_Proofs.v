(** Proofs about crowding distances and the ranking of individuals by NSGA-II. *)

From Coq Require Import ZArith Permutation Sorted.
From Verif Require Import Base BaseLemmas BitVector_Model Representation_Spec Map_Spec Function_Spec Population_Model Population_Proofs
  Pareto_Model Pareto_Spec Tournament_Proofs Pareto_Proofs Nsga2_Model Nsga2_Spec.
Local Open Scope nat_scope.

Lemma sum_n_S m f : sum_n (S m) f = (sum_n m f + f m)%Z.
Proof.
  unfold sum_n. rewrite seq_S, map_app. cbn [Nat.add map]. induction (map f (seq 0 m)) as [|a l IH]; cbn [app zsum fold_right] in *; [lia|].
  unfold zsum in IH. lia.
Qed.

Lemma sum_n_ext m f g : (forall k, k < m -> f k = g k) -> sum_n m f = sum_n m g.
Proof. intros H. unfold sum_n. f_equal. apply map_ext_in. intros k Hk. apply H. apply in_seq in Hk. lia. Qed.

Lemma by_objective_order values k : strict_weak_order (by_objective values k).
Proof. unfold strict_weak_order, by_objective. repeat split; intros *; rewrite ?Z.ltb_lt, ?Z.ltb_ge; lia. Qed.

Lemma by_rank_order (F : list nat) : strict_weak_order (fun i j => nth i F 0 <? nth j F 0).
Proof. unfold strict_weak_order. repeat split; intros *; rewrite ?Nat.ltb_lt, ?Nat.ltb_ge; lia. Qed.

Lemma by_distance_order (ds : list cdist) : strict_weak_order (fun i j => dist_gt (nth i ds (Dist 0)) (nth j ds (Dist 0))).
Proof.
  unfold strict_weak_order. repeat split; intros *;
    repeat match goal with |- context [nth ?x ds (Dist 0)] => destruct (nth x ds (Dist 0)) end; cbn; rewrite ?Z.ltb_lt, ?Z.ltb_ge; try lia; auto; discriminate.
Qed.

Lemma dist_gt_false a b : dist_gt a b = false <-> at_least b a.
Proof. destruct a, b; cbn; rewrite ?Z.ltb_ge; split; auto; try discriminate; lia. Qed.

Lemma pair_lt_spec a b : pair_lt a b = true <-> preferred a b.
Proof.
  unfold pair_lt, preferred. rewrite Bool.orb_true_iff, Bool.andb_true_iff, Nat.ltb_lt, Nat.eqb_eq.
  apply or_iff_compat_l, and_iff_compat_l. pose proof (dist_gt_false (snd a) (snd b)) as H. destruct (dist_gt (snd a) (snd b)).
  - split; [|auto]. intros _ C. apply H in C. discriminate.
  - split; [discriminate|]. intros C. destruct (C (proj1 H eq_refl)).
Qed.

Lemma StronglySorted_mono {A} (R R' : A -> A -> Prop) l : (forall a b, R a b -> R' a b) -> StronglySorted R l -> StronglySorted R' l.
Proof. intros H. induction 1 as [|a l S IH F]; constructor; auto. revert F. apply Forall_impl. auto. Qed.

(** * One objective *)

Section Objective.
  Variable srt : (nat -> nat -> bool) -> list nat -> list nat.
  Hypothesis SRT : sorts srt.
  Variable values : list (list Z).
  Variable m : nat.
  Hypothesis SS : same_sizes m values.
  Let N := length values.

  Lemma objective_at_Ok i k : i < N -> k < m -> objective_at values i k = Ok (val values i k).
  Proof.
    intros Hi Hk. unfold objective_at. rewrite (vget_nth _ _ []) by auto. cbn [bind].
    rewrite (vget_nth _ _ 0%Z); [reflexivity|]. rewrite (value_length m values SS) by auto. auto.
  Qed.

  Lemma crowd_objective_Ok slice ds k : NoDup slice -> slice <> [] -> (forall i, In i slice -> i < N) -> k < m -> length ds = N ->
    exists l ds', crowd_objective srt values (slice, ds) k = Ok (l, ds') /\ ranked_by values k slice l /\ length ds' = N /\
      (forall i, ~ In i slice -> nth i ds' (Dist 0) = nth i ds (Dist 0)) /\
      (forall i, In i slice ->
         (exists rest, l = i :: rest \/ l = rest ++ [i]) /\ nth i ds' (Dist 0) = Infinite \/
         exists before a b after, l = before ++ a :: i :: b :: after /\
           nth i ds' (Dist 0) = dist_add (nth i ds (Dist 0)) (val values b k - val values a k)).
  Proof.
    intros ND NE LT Hk LD. unfold crowd_objective.
    destruct (SRT (by_objective values k) slice (by_objective_order values k)) as [P S]. set (l := srt (by_objective values k) slice) in *.
    assert (R : ranked_by values k slice l).
    { split; [exact P|]. revert S. apply StronglySorted_mono. unfold by_objective, val. intros a b H. apply Z.ltb_ge in H. exact H. }
    clearbody l. clear S.
    pose proof (Permutation_NoDup P ND) as NDl. assert (LTl : forall p, p < length l -> nth p l 0 < N).
    { intros p Hp. apply LT. apply (Permutation_in _ (Permutation_sym P)), nth_In. exact Hp. }
    assert (L0 : 0 < length l). { destruct l; [|cbn; lia]. apply Permutation_sym, Permutation_nil in P. congruence. }
    set (L := length l) in *.
    rewrite (vget_nth l 0 0) by exact L0. cbn [bind].
    rewrite vset_Ok by (rewrite LD; apply LTl; lia). cbn [bind].
    rewrite (vget_nth l (L - 1) 0) by (unfold L; lia). cbn [bind].
    rewrite vset_Ok by (rewrite length_upd, LD; apply LTl; lia). cbn [bind].
    set (f := fun p => nth p l 0) in *. change (nth 0 l 0) with (f 0). change (nth (L - 1) l 0) with (f (L - 1)).
    assert (INJ : forall p q, p < L -> q < L -> f p = f q -> p = q). { intros p q Hp Hq. apply (proj1 (NoDup_nth l 0) NDl); auto. }
    set (ds1 := upd (upd ds (f 0) Infinite) (f (L - 1)) Infinite).
    assert (L1 : length ds1 = N) by (unfold ds1; rewrite !length_upd; exact LD).
    assert (D0 : nth (f 0) ds1 (Dist 0) = Infinite /\ nth (f (L - 1)) ds1 (Dist 0) = Infinite).
    { unfold ds1. split; [|apply nth_upd_eq; rewrite length_upd, LD; apply LTl; lia].
      destruct (Nat.eq_dec (f 0) (f (L - 1))) as [E|E].
      - rewrite E at 1. apply nth_upd_eq; rewrite length_upd, LD; apply LTl; lia.
      - rewrite nth_upd_neq by auto. apply nth_upd_eq. rewrite LD. apply LTl. lia. }
    assert (D1 : forall i, i <> f 0 -> i <> f (L - 1) -> nth i ds1 (Dist 0) = nth i ds (Dist 0)).
    { intros i A B. unfold ds1. rewrite !nth_upd_neq by auto. reflexivity. }
    assert (Loop : exists ds2, (if 3 <=? L then
        foldM (fun dists p => next <- vget l (p + 1) ;; a <- objective_at values next k ;; prev <- vget l (p - 1) ;; b <- objective_at values prev k ;;
          _ <- assertb (0 <=? a - b)%Z ;; i <- vget l p ;; d <- vget dists i ;; vset dists i (dist_add d (a - b))) (seq 1 (L - 2)) ds1
        else Ok ds1) = Ok ds2 /\ length ds2 = N /\
        (forall i, (forall p, 1 <= p < L - 1 -> i <> f p) -> nth i ds2 (Dist 0) = nth i ds1 (Dist 0)) /\
        (forall p, 1 <= p < L - 1 -> nth (f p) ds2 (Dist 0) = dist_add (nth (f p) ds1 (Dist 0)) (val values (f (p + 1)) k - val values (f (p - 1)) k))).
    { destruct (Nat.leb_spec 3 L) as [G|G].
      - destruct (foldM_seq_inv (fun dists p => next <- vget l (p + 1) ;; a <- objective_at values next k ;; prev <- vget l (p - 1) ;; b <- objective_at values prev k ;;
          _ <- assertb (0 <=? a - b)%Z ;; i <- vget l p ;; d <- vget dists i ;; vset dists i (dist_add d (a - b)))
          (fun q ds2 => length ds2 = N /\
            (forall i, (forall p, 1 <= p < q -> i <> f p) -> nth i ds2 (Dist 0) = nth i ds1 (Dist 0)) /\
            (forall p, 1 <= p < q -> nth (f p) ds2 (Dist 0) = dist_add (nth (f p) ds1 (Dist 0)) (val values (f (p + 1)) k - val values (f (p - 1)) k)))
          1 (L - 2) ds1) as (ds2 & E & I).
        + split; [exact L1|]. split; [auto|]. intros; lia.
        + intros q ds2 Hq (A & B & C).
          rewrite (vget_nth l (q + 1) 0) by (unfold L in Hq; lia). cbn [bind].
          rewrite objective_at_Ok by (auto; apply LTl; lia). cbn [bind].
          rewrite (vget_nth l (q - 1) 0) by (unfold L in Hq; lia). cbn [bind].
          rewrite objective_at_Ok by (auto; apply LTl; lia). cbn [bind].
          assert (G0 : (val values (f (q - 1)%nat) k <= val values (f (q + 1)%nat) k)%Z).
          { destruct R as [_ R]. apply (StronglySorted_nth _ _ R (q - 1) (q + 1)); [lia| |]; apply nth_error_nth'; unfold L in Hq; lia. }
          change (nth (q + 1) l 0) with (f (q + 1)); change (nth (q - 1) l 0) with (f (q - 1)). rewrite (proj2 (Z.leb_le 0 _)) by lia. cbn [assertb bind].
          rewrite (vget_nth l q 0) by (unfold L in Hq; lia). cbn [bind].
          rewrite (vget_nth ds2 _ (Dist 0)) by (rewrite A; apply LTl; lia). cbn [bind].
          rewrite vset_Ok by (rewrite A; apply LTl; lia). eexists. split; [reflexivity|].
          split; [rewrite length_upd; exact A|]. split.
          * intros i Hi. rewrite nth_upd_neq by (apply Hi; lia). apply B. intros p Hp. apply Hi. lia.
          * intros p Hp. change (nth q l 0) with (f q). destruct (Nat.eq_dec p q) as [->|NEQ].
            -- rewrite nth_upd_eq by (rewrite A; apply LTl; lia). rewrite B; [reflexivity|]. intros p Hp' EQ. apply INJ in EQ; lia.
            -- rewrite nth_upd_neq by (intros EQ; apply INJ in EQ; lia). apply C. lia.
        + exists ds2. split; [exact E|]. replace (1 + (L - 2)) with (L - 1) in I by lia. exact I.
      - exists ds1. split; [reflexivity|]. split; [exact L1|]. split; [auto|]. intros; lia. }
    destruct Loop as (ds2 & E & A & B & C). refine (ex_intro _ l (ex_intro _ ds2 (conj _ _))).
    { rewrite E. reflexivity. }
    split; [exact R|]. split; [exact A|]. split.
    - intros i Hi. assert (NI : forall p, p < L -> i <> f p). { intros p Hp ->. apply Hi. apply (Permutation_in _ (Permutation_sym P)), nth_In. exact Hp. }
      rewrite B by (intros; apply NI; lia). apply D1; apply NI; lia.
    - intros i Hi. apply (Permutation_in _ P), (In_nth _ _ 0) in Hi as (p & Hp & <-). fold L in Hp. change (nth p l 0) with (f p).
      destruct (Nat.eq_dec p 0) as [->|N0]; [|destruct (Nat.eq_dec p (L - 1)) as [->|N1]].
      + left. split.
        * exists (tl l). left. unfold f. destruct l; [cbn in L; lia|reflexivity].
        * rewrite B; [apply D0|]. intros p Hp' EQ. apply INJ in EQ; lia.
      + left. split.
        * exists (removelast l). right. unfold f, L. assert (NL : l <> []) by (intros ->; cbn in L; lia).
          rewrite (app_removelast_last 0 NL) at 1. f_equal. f_equal. clear. induction l as [|a l IH]; [reflexivity|].
          destruct l as [|b l]; [reflexivity|]. change (last (a :: b :: l) 0) with (last (b :: l) 0). rewrite IH. cbn [length]. replace (S (S (length l)) - 1) with (S (length l)) by lia.
          replace (S (length l) - 1) with (length l) by lia. reflexivity.
        * rewrite B; [apply D0|]. intros q Hq EQ. apply INJ in EQ; lia.
      + right. destruct p as [|p]; [lia|]. exists (firstn p l), (f p), (f (S p + 1)), (skipn (p + 3) l). split.
        * rewrite <- (firstn_skipn p l) at 1. f_equal.
          assert (SK : forall q, q < L -> skipn q l = f q :: skipn (S q) l).
          { subst f L. clear. induction l as [|a l IH]; intros q Hq; [cbn in Hq; lia|]. destruct q; [reflexivity|]. cbn [skipn nth]. apply IH. cbn in Hq. lia. }
          rewrite (SK p) by lia. f_equal. rewrite (SK (S p)) by lia. f_equal. rewrite (SK (S (S p))) by lia.
          replace (S p + 1) with (S (S p)) by lia. replace (p + 3) with (S (S (S p))) by lia. reflexivity.
        * rewrite C by lia. replace (S p - 1) with p by lia. rewrite D1; [reflexivity| |]; intros EQ; apply INJ in EQ; lia.
  Qed.

  (** * All objectives *)

  Lemma crowd_objectives_Ok slice ds : NoDup slice -> slice <> [] -> (forall i, In i slice -> i < N) -> length ds = N ->
    (forall i, In i slice -> nth i ds (Dist 0) = Dist 0) ->
    exists l ds' orders, foldM (crowd_objective srt values) (seq 0 m) (slice, ds) = Ok (l, ds') /\ Permutation slice l /\ length ds' = N /\
      (forall i, ~ In i slice -> nth i ds' (Dist 0) = nth i ds (Dist 0)) /\
      (forall k, k < m -> ranked_by values k slice (orders k)) /\
      (forall i, In i slice -> crowding values m orders i (nth i ds' (Dist 0))).
  Proof.
    intros ND NE LT LD Z0.
    destruct (foldM_upto (fun j (s : list nat * list cdist) => let '(l, ds') := s in exists orders, Permutation slice l /\ length ds' = N /\
      (forall i, ~ In i slice -> nth i ds' (Dist 0) = nth i ds (Dist 0)) /\
      (forall k, k < j -> ranked_by values k slice (orders k)) /\
      (forall i, In i slice -> crowding values j orders i (nth i ds' (Dist 0)))) (crowd_objective srt values) m (slice, ds)) as ([l ds'] & E & orders & I).
    - exists (fun _ => []). split; [apply Permutation_refl|]. split; [exact LD|]. split; [auto|]. split; [intros; lia|].
      intros i Hi. rewrite (Z0 i Hi). cbn. exists (fun _ => 0%Z). split; [intros; lia|reflexivity].
    - intros k [l d] Hk (orders & P & A & B & C & D).
      destruct (crowd_objective_Ok l d k) as (l' & d' & E' & R' & A' & B' & C'); auto.
      { exact (Permutation_NoDup P ND). } { intros ->. apply Permutation_sym, Permutation_nil in P. congruence. }
      { intros i Hi. apply LT. exact (Permutation_in _ (Permutation_sym P) Hi). }
      exists (l', d'). split; [exact E'|]. exists (fun j => if j =? k then l' else orders j).
      assert (P' : Permutation slice l') by (eapply Permutation_trans; [exact P|apply R']).
      split; [exact P'|]. split; [exact A'|]. split; [|split].
      + intros i Hi. rewrite B'; [apply B; exact Hi|]. intros X. apply Hi. exact (Permutation_in _ (Permutation_sym P) X).
      + intros j Hj. destruct (Nat.eqb_spec j k) as [->|NEQ]; [split; [exact P'|apply R']|apply C; lia].
      + intros i Hi. specialize (D i Hi). destruct (C' i (Permutation_in _ P Hi)) as [[(rest & END) INF]|(before & a & b & after & EQ & ADD)].
        * rewrite INF. exists k, rest. split; [lia|]. rewrite Nat.eqb_refl. exact END.
        * rewrite ADD. destruct (nth i d (Dist 0)) as [s|]; cbn [dist_add crowding] in *.
          -- destruct D as (gap & G1 & G2). exists (fun j => if j =? k then (val values b k - val values a k)%Z else gap j). split.
             ++ intros j Hj. destruct (Nat.eqb_spec j k) as [->|NEQ]; [exists before, a, b, after; auto|apply G1; lia].
             ++ rewrite sum_n_S, Nat.eqb_refl, G2. f_equal. apply sum_n_ext. intros j Hj. destruct (Nat.eqb_spec j k); [lia|reflexivity].
          -- destruct D as (j & rest & D1 & D2). exists j, rest. split; [lia|]. destruct (Nat.eqb_spec j k); [lia|exact D2].
    - exists l, ds', orders. split; [exact E|exact I].
  Qed.
End Objective.

(** * Fronts are contiguous *)

Lemma minimal_exists {A} (R : A -> A -> Prop) (L : list A) : (forall a b, In a L -> In b L -> R a b \/ ~ R a b) -> (forall a, In a L -> ~ R a a) ->
  (forall a b c, In a L -> In b L -> In c L -> R a b -> R b c -> R a c) ->
  forall x, In x L -> exists y, In y L /\ (y = x \/ R y x) /\ forall z, In z L -> ~ R z y.
Proof.
  intros DEC IRR TR.
  assert (G : forall l x, In x L -> (forall a, In a l -> In a L) -> exists y, In y L /\ (y = x \/ R y x) /\ forall z, In z l -> ~ R z y).
  { induction l as [|a l IH]; intros x Hx Hl; [exists x; repeat split; auto; intros z []|].
    destruct (IH x Hx) as (y & Y1 & Y2 & Y3); [intros; apply Hl; right; assumption|].
    destruct (DEC a y) as [H|H]; [apply Hl; left; reflexivity|exact Y1| |].
    - exists a. assert (Ha : In a L) by (apply Hl; left; reflexivity). split; [exact Ha|]. split.
      + right. destruct Y2 as [->|Y2]; [exact H|apply (TR a y x); assumption].
      + intros z [<-|Hz]; [apply IRR; exact Ha|]. intros C. apply (Y3 z Hz). apply (TR z a y); auto. apply Hl; right; exact Hz.
    - exists y. split; [exact Y1|]. split; [exact Y2|]. intros z [<-|Hz]; auto. }
  intros x Hx. apply G; auto.
Qed.

Section Ranks.
  Variable values : list (list Z).
  Variable m : nat.
  Hypothesis SS : same_sizes m values.
  Let N := length values.
  Let better i j := pareto_better (nth i values []) (nth j values []).

  Lemma better_dec i j : i < N -> j < N -> better i j \/ ~ better i j.
  Proof.
    intros Hi Hj. pose proof (D_spec m values SS i j Hi Hj) as H. unfold better. destruct (D values i j); [left; apply H; reflexivity|].
    right. intros C. apply H in C. discriminate.
  Qed.

  Lemma better_trans i j k : i < N -> j < N -> better i j -> better j k -> better i k.
  Proof. intros Hi Hj. apply pareto_trans. rewrite !(value_length m values SS) by assumption. reflexivity. Qed.

  Variable rank : nat -> nat.
  Hypothesis RANK : forall i, i < N -> in_front values (rank i) i.

  Lemma peeled_mono k k' i : k <= k' -> peeled values k i -> peeled values k' i.
  Proof. induction 1 as [|k' L IH]; auto. intros H. left. auto. Qed.

  Lemma peeled_rank k i : i < N -> (peeled values k i <-> rank i < k).
  Proof.
    intros Hi. destruct (RANK i Hi) as [A B]. split.
    - intros P. apply Nat.nle_gt. intros L. apply A. exact (peeled_mono _ _ _ L P).
    - intros L. exact (peeled_mono _ _ _ L B).
  Qed.

  (** An individual is not dominated by those of its front and of later fronts, and those of a front but the first are dominated by some of the previous one. *)
  Lemma rank_minimal i j : i < N -> j < N -> rank i <= rank j -> ~ better j i.
  Proof.
    intros Hi Hj L B. assert (P : peeled values (S (rank i)) i) by (apply peeled_rank; [exact Hi|lia]). destruct P as [P|P].
    - apply peeled_rank in P; [lia|exact Hi].
    - apply (P j Hj); [|exact B]. rewrite peeled_rank by exact Hj. lia.
  Qed.

  Lemma rank_dominated i : i < N -> 0 < rank i -> exists j, j < N /\ rank j + 1 = rank i /\ better j i.
  Proof.
    intros Hi L. destruct (rank i) as [|r] eqn:E; [lia|]. clear L.
    set (L := filter (fun j => r <=? rank j) (seq 0 N)).
    assert (IL : forall j, In j L <-> j < N /\ r <= rank j).
    { intros j. unfold L. rewrite filter_In, in_seq, Nat.leb_le. lia. }
    assert (X : exists j, j < N /\ r <= rank j /\ better j i).
    { assert (D : (exists j, In j L /\ better j i) \/ forall j, In j L -> ~ better j i).
      { assert (SUB : forall j, In j L -> j < N) by (intros j Hj; apply IL; exact Hj). clear IL. induction L as [|a L IH]; [right; intros j []|].
        destruct (better_dec a i) as [B|B]; [apply SUB; left; reflexivity|exact Hi|left; exists a; split; [left; reflexivity|exact B]|].
        destruct IH as [(j & J1 & J2)|H]; [intros; apply SUB; right; assumption|left; exists j; split; [right; exact J1|exact J2]|].
        right. intros j [<-|Hj]; auto. }
      destruct D as [(j & J1 & J2)|D]; [exists j; apply IL in J1; tauto|]. exfalso.
      assert (P : peeled values (S r) i). { right. intros j Hj NP. apply D. apply IL. split; [exact Hj|]. rewrite peeled_rank in NP by exact Hj. lia. }
      apply peeled_rank in P; [lia|exact Hi]. }
    destruct X as (j & J1 & J2 & J3).
    destruct (minimal_exists better L) with (x := j) as (y & Y1 & Y2 & Y3).
    { intros a b Ha Hb. apply better_dec; apply IL; assumption. } { intros a _. apply pareto_irrefl. }
    { intros a b c Ha Hb Hc. apply better_trans; apply IL; assumption. } { apply IL. auto. }
    apply IL in Y1. exists y. split; [apply Y1|]. split.
    - destruct Y1 as [Y1 Y1']. assert (P : peeled values (S r) y).
      { right. intros z Hz NP. apply Y3. apply IL. split; [exact Hz|]. rewrite peeled_rank in NP by exact Hz. lia. }
      apply peeled_rank in P; [lia|exact Y1].
    - destruct Y2 as [->|Y2]; [exact J3|]. apply better_trans with j; auto. apply Y1.
  Qed.

  Lemma ranks_contiguous i k : i < N -> k <= rank i -> exists j, j < N /\ rank j = k.
  Proof.
    intros Hi L. remember (rank i - k) as d eqn:E. revert i Hi L E. induction d as [|d IH]; intros i Hi L E; [exists i; split; [exact Hi|lia]|].
    destruct (rank_dominated i Hi ltac:(lia)) as (j & J1 & J2 & _). apply (IH j J1); lia.
  Qed.
End Ranks.

(** * One front *)

Lemma prefix_length_app {A} (f : A -> bool) l : exists c d, l = c ++ d /\ prefix_length f l = length c /\ Forall (fun a => f a = true) c /\
  (forall a d', d = a :: d' -> f a = false).
Proof.
  induction l as [|a l IH]; [exists [], []; repeat split; [constructor|discriminate]|]. destruct IH as (c & d & -> & L & F & H). cbn [prefix_length].
  destruct (f a) eqn:E; [exists (a :: c), d|exists [], (a :: c ++ d)]; repeat split; cbn; auto. intros b d' X. injection X as <- _. exact E.
Qed.

Lemma StronglySorted_app_inv {A} (R : A -> A -> Prop) l l' : StronglySorted R (l ++ l') ->
  StronglySorted R l /\ StronglySorted R l' /\ forall a b, In a l -> In b l' -> R a b.
Proof.
  induction l as [|x l IH]; cbn [app]; intros H; [repeat split; auto; [constructor|intros ? ? []]|].
  apply StronglySorted_inv in H as [H F]. destruct (IH H) as (A1 & A2 & A3). apply Forall_app in F as [F1 F2].
  repeat split; auto; [constructor; auto|]. intros a b [<-|Ha] Hb; [|auto]. rewrite Forall_forall in F2. auto.
Qed.

Lemma StronglySorted_app_intro {A} (R : A -> A -> Prop) l l' : StronglySorted R l -> StronglySorted R l' -> (forall a b, In a l -> In b l' -> R a b) ->
  StronglySorted R (l ++ l').
Proof.
  induction l as [|x l IH]; cbn [app]; intros H H' C; [exact H'|]. apply StronglySorted_inv in H as [H F]. constructor; [apply IH; auto; intros; apply C; cbn; auto|].
  apply Forall_app. split; [exact F|]. apply Forall_forall. intros b Hb. apply C; cbn; auto.
Qed.

Lemma NoDup_suffix {A} (l l' : list A) : NoDup (l ++ l') -> NoDup l'.
Proof. induction l as [|a l IH]; cbn [app]; [auto|]. intros H. apply NoDup_cons_iff in H as [_ H]. auto. Qed.

Lemma NoDup_prefix {A} (l l' : list A) : NoDup (l ++ l') -> NoDup l.
Proof. intros H. apply (NoDup_suffix l'). apply (Permutation_NoDup (Permutation_app_comm l l')). exact H. Qed.

Section Fronts.
  Variable srt : (nat -> nat -> bool) -> list nat -> list nat.
  Hypothesis SRT : sorts srt.
  Variable values : list (list Z).
  Variable m : nat.
  Hypothesis SS : same_sizes m values.
  Let N := length values.
  Variable F : list nat.
  Hypothesis LF : length F = N.
  Let rank i := nth i F 0.
  Hypothesis RANK : forall i, i < N -> in_front values (rank i) i.

  Definition members (f : nat) : list nat := filter (fun j => rank j =? f) (seq 0 N).
  Lemma in_members f i : In i (members f) <-> i < N /\ rank i = f.
  Proof. unfold members. rewrite filter_In, in_seq, Nat.eqb_eq. lia. Qed.

  Let le_rank i j := rank i <= rank j.

  Definition crowd_inv (f : nat) (s : list nat * list cdist * nat) : Prop :=
    let '(perm, ds, start) := s in
    exists A B orders, perm = A ++ B /\ start = length A /\ Permutation (seq 0 N) perm /\ length ds = N /\
      (forall i, In i A -> rank i < f) /\ (forall i, In i B -> f <= rank i) /\ StronglySorted le_rank A /\ StronglySorted le_rank B /\
      (forall i, i < N -> f <= rank i -> nth i ds (Dist 0) = Dist 0) /\
      (forall g k, g < f -> k < m -> ranked_by values k (members g) (orders g k)) /\
      (forall i, i < N -> rank i < f -> crowding values m (orders (rank i)) i (nth i ds (Dist 0))).

  Lemma crowd_front_Ok f s : (exists i, i < N /\ rank i = f) -> crowd_inv f s ->
    exists s', crowd_front srt values F m s f = Ok s' /\ crowd_inv (f + 1) s'.
  Proof.
    destruct s as [[perm ds] start]. intros (w & Hw & Ew) (A & B & orders & -> & -> & P & LD & RA & RB & SA & SB & Z0 & OR & CR).
    assert (IN : forall i, i < N -> In i (A ++ B)) by (intros i Hi; apply (Permutation_in _ P), in_seq; lia).
    assert (OUT : forall i, In i (A ++ B) -> i < N) by (intros i Hi; exact (perm_seq_lt N _ _ P Hi)).
    assert (WB : In w B). { destruct (in_app_or _ _ _ (IN w Hw)) as [H|H]; [apply RA in H; lia|exact H]. }
    destruct B as [|b B]; [destruct WB|].
    assert (Eb : rank b = f).
    { destruct WB as [->|WB]; [exact Ew|]. apply StronglySorted_inv in SB as [_ FB]. rewrite Forall_forall in FB. specialize (FB w WB). unfold le_rank in FB.
      specialize (RB b (or_introl eq_refl)). lia. }
    unfold crowd_front. assert (LA : length A < length (A ++ b :: B)) by (rewrite app_length; cbn; lia).
    rewrite (vget_nth _ _ 0) by exact LA. cbn [bind]. rewrite app_nth2, Nat.sub_diag by lia. cbn [nth].
    rewrite (vget_nth F b 0) by (rewrite LF; apply OUT, in_or_app; cbn; auto). cbn [bind]. fold (rank b). rewrite Eb, Nat.eqb_refl. cbn [assertb bind].
    replace (skipn (length A + 1) (A ++ b :: B)) with B by (rewrite skipn_app, skipn_all2 by lia; replace (length A + 1 - length A) with 1 by lia; reflexivity).
    destruct (prefix_length_app (in_this_front F f) B) as (C & D & -> & LP & FC & HD). rewrite LP.
    replace (length A + 1 + length C - length A) with (length (b :: C)) by (cbn; lia).
    replace (skipn (length A) (A ++ b :: C ++ D)) with ((b :: C) ++ D) by (rewrite skipn_app, skipn_all, Nat.sub_diag; reflexivity).
    rewrite firstn_app, Nat.sub_diag, firstn_all, firstn_O, app_nil_r.
    assert (RC : forall i, In i (b :: C) -> rank i = f).
    { intros i [<-|Hi]; [exact Eb|]. rewrite Forall_forall in FC. specialize (FC i Hi). apply Nat.eqb_eq in FC. exact FC. }
    apply StronglySorted_inv in SB as [SB FB]. destruct (StronglySorted_app_inv _ _ _ SB) as (SC & SD & CD).
    assert (RD : forall i, In i D -> f + 1 <= rank i).
    { destruct D as [|d D]; [intros i []|]. specialize (HD d D eq_refl). unfold in_this_front in HD. apply Nat.eqb_neq in HD. fold (rank d) in HD.
      assert (Hd : f <= rank d) by (apply RB; right; apply in_or_app; right; left; reflexivity).
      intros i [<-|Hi]; [lia|]. apply StronglySorted_inv in SD as [_ FD]. rewrite Forall_forall in FD. specialize (FD i Hi). unfold le_rank in FD. lia. }
    pose proof (perm_seq_NoDup _ _ P) as ND.
    assert (NDC : NoDup (b :: C)). { change (b :: C ++ D) with ((b :: C) ++ D) in ND. exact (NoDup_prefix _ _ (NoDup_suffix _ _ ND)). }
    assert (PM : Permutation (members f) (b :: C)).
    { apply NoDup_Permutation; [apply NoDup_filter, seq_NoDup|exact NDC|]. intros i. rewrite in_members. split.
      - intros [Hi Ri]. destruct (in_app_or _ _ _ (IN i Hi)) as [H|H]; [apply RA in H; lia|]. change (b :: C ++ D) with ((b :: C) ++ D) in H.
        apply in_app_or in H as [H|H]; [exact H|apply RD in H; lia].
      - intros H. split; [|apply RC; exact H]. apply OUT. apply in_or_app. right. change (b :: C ++ D) with ((b :: C) ++ D). apply in_or_app. auto. }
    destruct (crowd_objectives_Ok srt SRT values m SS (b :: C) ds) as (l & ds' & ords & E & PL & LD' & OUT' & OR' & CR').
    { exact NDC. } { discriminate. } { intros i Hi. apply (Permutation_in _ (Permutation_sym PM)), in_members in Hi. apply Hi. } { exact LD. }
    { intros i Hi. apply Z0; [apply (Permutation_in _ (Permutation_sym PM)), in_members in Hi; apply Hi|rewrite (RC i Hi); lia]. }
    rewrite E. cbn [bind]. eexists. split; [reflexivity|].
    assert (SK : skipn (length A + 1 + length C) (A ++ b :: C ++ D) = D).
    { rewrite skipn_app, skipn_all2 by lia. replace (length A + 1 + length C - length A) with (S (length C)) by lia. cbn [skipn app].
      rewrite skipn_app, skipn_all, Nat.sub_diag. reflexivity. }
    rewrite SK, firstn_app, Nat.sub_diag, firstn_all, firstn_O, app_nil_r.
    assert (PP : Permutation (A ++ b :: C ++ D) ((A ++ l) ++ D)).
    { rewrite <- app_assoc. apply Permutation_app_head. change (b :: C ++ D) with ((b :: C) ++ D). apply Permutation_app_tail. exact PL. }
    exists (A ++ l), D, (fun g => if g =? f then ords else orders g).
    split; [apply app_assoc|]. split; [rewrite app_length, <- (Permutation_length PL); cbn [length]; lia|].
    split; [rewrite app_assoc; eapply Permutation_trans; [exact P|exact PP]|]. split; [exact LD'|].
    assert (RL : forall i, In i l -> rank i = f) by (intros i Hi; apply RC; exact (Permutation_in _ (Permutation_sym PL) Hi)).
    split; [|split; [exact RD|split; [|split; [exact SD|split; [|split]]]]].
    - intros i Hi. apply in_app_or in Hi as [Hi|Hi]; [apply RA in Hi; lia|apply RL in Hi; lia].
    - apply StronglySorted_app_intro; [exact SA| |].
      + clear - RL. induction l as [|a l IH]; constructor; [apply IH; intros; apply RL; right; assumption|].
        apply Forall_forall. intros j Hj. unfold le_rank. rewrite (RL a), (RL j); auto; [right; exact Hj|left; reflexivity].
      + intros i j Hi Hj. apply RA in Hi. apply RL in Hj. unfold le_rank. lia.
    - intros i Hi Ri. rewrite OUT'; [apply Z0; [exact Hi|lia]|]. intros X. apply RC in X. lia.
    - intros g k Hg Hk. destruct (Nat.eqb_spec g f) as [->|NE].
      + destruct (OR' k Hk) as [O1 O2]. split; [eapply Permutation_trans; [exact PM|exact O1]|exact O2].
      + apply OR; [lia|exact Hk].
    - intros i Hi Ri. destruct (Nat.eqb_spec (rank i) f) as [EQ|NE].
      + apply CR'. apply (Permutation_in _ PM), in_members. auto.
      + rewrite OUT' by (intros X; apply RC in X; lia). apply CR; [exact Hi|lia].
  Qed.

  Lemma count_perm (g : nat -> bool) l l' : Permutation l l' -> length (filter g l) = length (filter g l').
  Proof. induction 1 as [|a l l' H IH|a b l|l l1 l2 H IH H' IH']; cbn [filter]; try (destruct (g a)); try (destruct (g b)); cbn [length]; lia. Qed.
  Lemma count_all (g : nat -> bool) l : (forall i, In i l -> g i = true) -> length (filter g l) = length l.
  Proof.
    induction l as [|a l IH]; intros H; [reflexivity|]. cbn [filter]. rewrite (H a) by (left; reflexivity). cbn [length]. f_equal. apply IH. intros; apply H; right; assumption.
  Qed.
  Lemma count_none (g : nat -> bool) l : (forall i, In i l -> g i = false) -> length (filter g l) = 0.
  Proof.
    induction l as [|a l IH]; intros H; [reflexivity|]. cbn [filter]. rewrite (H a) by (left; reflexivity). apply IH. intros; apply H; right; assumption.
  Qed.
  Lemma count_le (g : nat -> bool) l : length (filter g l) <= length l.
  Proof. induction l as [|a l IH]; [reflexivity|]. cbn [filter]. destruct (g a); cbn [length]; lia. Qed.

  Lemma rank_individuals_Ok sh mu perm ds : shuffles sh -> 0 < mu <= N -> length perm = N -> length ds = N ->
    exists perm' ds', rank_individuals srt values F sh mu m perm ds = Ok (perm', ds') /\ Permutation (seq 0 N) perm' /\ length ds' = N /\
      survivors values m mu rank (fun i => nth i ds' (Dist 0)) (firstn mu perm').
  Proof.
    intros SH Hmu LP LD. unfold rank_individuals. rewrite LP, LD.
    destruct (SRT (fun i j => nth i F 0 <? nth j F 0) (sh (identity N)) (by_rank_order F)) as [P0 S0].
    set (p0 := srt (fun i j => nth i F 0 <? nth j F 0) (sh (identity N))) in *.
    assert (P : Permutation (seq 0 N) p0) by (eapply Permutation_trans; [apply (SH (seq 0 N))|exact P0]).
    assert (S : StronglySorted le_rank p0).
    { revert S0. apply StronglySorted_mono. intros a b H. apply Nat.ltb_ge in H. exact H. }
    clearbody p0. clear P0 S0. pose proof (perm_seq_length _ _ P) as L0. pose proof (perm_seq_NoDup _ _ P) as ND0.
    rewrite (proj2 (Nat.ltb_lt 0 mu)) by lia. cbn [assertb bind]. rewrite (vget_nth p0 (mu - 1) 0) by lia. cbn [bind].
    assert (Hp : nth (mu - 1) p0 0 < N) by (apply perm_seq_nth; [exact P|lia]).
    rewrite (vget_nth F _ 0) by (rewrite LF; exact Hp). cbn [bind]. fold (rank (nth (mu - 1) p0 0)). set (last := rank (nth (mu - 1) p0 0)) in *.
    assert (C1 : mu <= length (filter (fun i => rank i <=? last) p0)).
    { rewrite <- (firstn_skipn mu p0), filter_app, app_length, (count_all _ (firstn mu p0)); [rewrite firstn_length; lia|].
      intros i Hi. apply Nat.leb_le. apply (In_nth _ _ 0) in Hi as (p & Hp1 & <-). rewrite firstn_length in Hp1.
      replace (nth p (firstn mu p0) 0) with (nth p p0 0) by (rewrite <- (firstn_skipn mu p0) at 1; apply app_nth1; rewrite firstn_length; exact Hp1).
      destruct (Nat.eq_dec p (mu - 1)) as [->|NE]; [unfold last; lia|].
      apply (StronglySorted_nth _ _ S p (mu - 1)); [lia| |]; apply nth_error_nth'; lia. }
    assert (C2 : length (filter (fun i => rank i <? last) p0) <= mu - 1).
    { rewrite <- (firstn_skipn (mu - 1) p0), filter_app, app_length, (count_none _ (skipn (mu - 1) p0)).
      - rewrite Nat.add_0_r. eapply Nat.le_trans; [apply count_le|]. rewrite firstn_length. lia.
      - intros i Hi. apply Nat.ltb_ge. apply (In_nth _ _ 0) in Hi as (p & Hp1 & <-). rewrite skipn_length in Hp1.
        replace (nth p (skipn (mu - 1) p0) 0) with (nth (mu - 1 + p) p0 0)
          by (rewrite <- (firstn_skipn (mu - 1) p0) at 1; rewrite app_nth2 by (rewrite firstn_length; lia); f_equal; rewrite firstn_length; lia).
        destruct p as [|p]; [rewrite Nat.add_0_r; unfold last; lia|].
        apply (StronglySorted_nth _ _ S (mu - 1) (mu - 1 + Datatypes.S p)); [lia| |]; apply nth_error_nth'; lia. }
    destruct (foldM_seq_inv (crowd_front srt values F m) crowd_inv 0 (last + 1) (p0, repeat (Dist 0) N, 0)) as ([[p1 ds1] st] & E & I).
    { exists [], p0, (fun _ _ => []). split; [reflexivity|]. split; [reflexivity|]. split; [exact P|]. split; [apply repeat_length|]. split; [intros i []|].
      split; [intros; lia|]. split; [constructor|]. split; [exact S|]. split; [intros i Hi _; apply nth_repeat_lt; exact Hi|]. split; intros; lia. }
    { intros f s Hf Hs. apply crowd_front_Ok; [|exact Hs]. apply (ranks_contiguous values m SS rank RANK (nth (mu - 1) p0 0)); [exact Hp|unfold last in Hf; lia]. }
    rewrite E. cbn [bind]. clear E. destruct I as (A & B & orders & -> & _ & P1 & LD1 & RA & RB & SA & SB & _ & OR & CR). replace (0 + (last + 1)) with (last + 1) in * by lia.
    unfold sort_last.
    destruct (prefix_length_app (fun i => negb (in_this_front F last i)) (A ++ B)) as (A1 & R1 & EQ & LA1 & FA1 & H1). rewrite LA1.
    assert (PC : forall g : nat -> bool, length (filter g p0) = length (filter g (A ++ B))).
    { intros g. apply count_perm. eapply Permutation_trans; [apply Permutation_sym; exact P|exact P1]. }
    assert (SAB : StronglySorted le_rank (A ++ B)).
    { apply StronglySorted_app_intro; auto. intros a b Ha Hb. apply RA in Ha. apply RB in Hb. unfold le_rank. lia. }
    rewrite EQ in *. clear A B EQ RA RB SA SB. destruct (StronglySorted_app_inv _ _ _ SAB) as (SA1 & SR1 & X1).
    pose proof (perm_seq_length _ _ P1) as L1. rewrite app_length in L1.
    assert (WIN : exists w, In w R1 /\ rank w = last).
    { assert (Iw : In (nth (mu - 1) p0 0) (A1 ++ R1)) by (apply (Permutation_in _ P1), in_seq; lia).
      exists (nth (mu - 1) p0 0). split; [|reflexivity]. apply in_app_or in Iw as [Iw|Iw]; [|exact Iw]. rewrite Forall_forall in FA1. specialize (FA1 _ Iw). cbn beta in FA1.
      unfold in_this_front in FA1. fold (rank (nth (mu - 1) p0 0)) in FA1. fold last in FA1. rewrite Nat.eqb_refl in FA1. discriminate. }
    destruct R1 as [|c R1]; [destruct WIN as (w & [] & _)|].
    assert (Rc : rank c = last). { specialize (H1 c R1 eq_refl). apply Bool.negb_false_iff, Nat.eqb_eq in H1. exact H1. }
    assert (RA : forall i, In i A1 -> rank i < last).
    { intros i Hi. specialize (X1 i c Hi (or_introl eq_refl)). unfold le_rank in X1. rewrite Forall_forall in FA1. specialize (FA1 _ Hi). apply Bool.negb_true_iff, Nat.eqb_neq in FA1.
      fold (rank i) in FA1. lia. }
    replace (skipn (length A1 + 1) (A1 ++ c :: R1)) with R1 by (rewrite skipn_app, skipn_all2 by lia; replace (length A1 + 1 - length A1) with 1 by lia; reflexivity).
    rewrite (proj2 (Nat.ltb_lt (length A1) _)) by (rewrite app_length; cbn; lia). cbn [assertb bind].
    destruct (prefix_length_app (in_this_front F last) R1) as (C & B & -> & LC & FC & HB). rewrite LC.
    replace (length A1 + 1 + length C - length A1) with (length (c :: C)) by (cbn; lia).
    replace (skipn (length A1) (A1 ++ c :: C ++ B)) with ((c :: C) ++ B) by (rewrite skipn_app, skipn_all, Nat.sub_diag; reflexivity).
    rewrite firstn_app, Nat.sub_diag, firstn_all, firstn_O, app_nil_r.
    assert (SK : skipn (length A1 + 1 + length C) (A1 ++ c :: C ++ B) = B).
    { rewrite skipn_app, skipn_all2 by lia. replace (length A1 + 1 + length C - length A1) with (Datatypes.S (length C)) by lia. cbn [skipn app].
      rewrite skipn_app, skipn_all, Nat.sub_diag. reflexivity. }
    rewrite SK, firstn_app, Nat.sub_diag, firstn_all, firstn_O, app_nil_r.
    apply StronglySorted_inv in SR1 as [SR1 _]. destruct (StronglySorted_app_inv _ _ _ SR1) as (SC & SB & X2).
    assert (RC : forall i, In i (c :: C) -> rank i = last).
    { intros i [<-|Hi]; [exact Rc|]. rewrite Forall_forall in FC. apply Nat.eqb_eq. exact (FC i Hi). }
    assert (RB : forall i, In i B -> last < rank i).
    { destruct B as [|b B]; [intros i []|]. specialize (HB b B eq_refl). apply Nat.eqb_neq in HB. fold (rank b) in HB.
      assert (Hb : last <= rank b). { rewrite <- Rc. apply StronglySorted_app_inv in SAB as (_ & SX & _). apply StronglySorted_inv in SX as [_ FX]. rewrite Forall_forall in FX.
        apply FX. apply in_or_app. right. left. reflexivity. }
      intros i [<-|Hi]; [lia|]. apply StronglySorted_inv in SB as [_ FB]. rewrite Forall_forall in FB. specialize (FB i Hi). unfold le_rank in FB. lia. }
    destruct (SRT _ (c :: C) (by_distance_order ds1)) as [PD SD].
    set (l := srt (fun i j => dist_gt (nth i ds1 (Dist 0)) (nth j ds1 (Dist 0))) (c :: C)) in *. clearbody l.
    assert (RL : forall i, In i l -> rank i = last) by (intros i Hi; apply RC; exact (Permutation_in _ (Permutation_sym PD) Hi)).
    assert (PF : Permutation (seq 0 N) (A1 ++ l ++ B)).
    { eapply Permutation_trans; [exact P1|]. apply Permutation_app_head. change (c :: C ++ B) with ((c :: C) ++ B). apply Permutation_app_tail. exact PD. }
    exists (A1 ++ l ++ B), ds1. split; [reflexivity|]. split; [exact PF|]. split; [exact LD1|].
    pose proof (perm_seq_NoDup _ _ PF) as NDF. pose proof (perm_seq_length _ _ PF) as LLF.
    assert (M1 : length A1 < mu).
    { assert (length (filter (fun i => rank i <? last) p0) = length A1); [|lia]. rewrite PC, filter_app, app_length, count_all, count_none; [lia| |].
      - intros i Hi. apply Nat.ltb_ge. change (c :: C ++ B) with ((c :: C) ++ B) in Hi. apply in_app_or in Hi as [Hi|Hi]; [rewrite (RC i Hi); lia|apply RB in Hi; lia].
      - intros i Hi. apply Nat.ltb_lt. apply RA. exact Hi. }
    assert (M2 : mu <= length (A1 ++ l)).
    { eapply Nat.le_trans; [exact C1|]. rewrite PC. change (A1 ++ c :: C ++ B) with (A1 ++ (c :: C) ++ B). rewrite app_assoc, filter_app, app_length, (count_none _ B).
      - rewrite Nat.add_0_r. eapply Nat.le_trans; [apply count_le|]. rewrite !app_length, (Permutation_length PD). lia.
      - intros i Hi. apply Nat.leb_gt. apply RB. exact Hi. }
    assert (KEPT : firstn mu (A1 ++ l ++ B) = A1 ++ firstn (mu - length A1) l).
    { rewrite firstn_app, firstn_all2 by lia. f_equal. rewrite firstn_app. rewrite app_length in M2. replace (mu - length A1 - length l) with 0 by lia. rewrite firstn_O. apply app_nil_r. }
    assert (SPLIT : A1 ++ l ++ B = firstn mu (A1 ++ l ++ B) ++ skipn (mu - length A1) l ++ B).
    { rewrite KEPT, <- app_assoc. f_equal. rewrite app_assoc, firstn_skipn. reflexivity. }
    unfold survivors. fold N. split; [|split; [|split; [|split; [|split]]]].
    - rewrite SPLIT in NDF. exact (NoDup_prefix _ _ NDF).
    - rewrite firstn_length, LLF. lia.
    - intros i Hi. apply (perm_seq_lt N _ _ PF). rewrite SPLIT. apply in_or_app. left. exact Hi.
    - exact RANK.
    - exists orders. intros i Hi. assert (Ri : rank i < last + 1).
      { rewrite KEPT in Hi. apply in_app_or in Hi as [Hi|Hi]; [apply RA in Hi; lia|]. rewrite (RL i); [lia|]. rewrite <- (firstn_skipn (mu - length A1) l). apply in_or_app. auto. }
      split.
      + intros k Hk. apply OR; [exact Ri|exact Hk].
      + intros j Hj RJ. rewrite <- RJ. apply CR; [exact Hj|lia].
    - intros i j Hi Hj NJ. assert (IJ : In j (A1 ++ l ++ B)) by (apply (Permutation_in _ PF), in_seq; lia). rewrite SPLIT in IJ.
      apply in_app_or in IJ as [IJ|IJ]; [contradiction|]. rewrite KEPT in Hi. apply in_app_or in IJ as [IJ|IJ].
      + assert (Jl : In j l) by (rewrite <- (firstn_skipn (mu - length A1) l); apply in_or_app; auto). rewrite (RL j Jl).
        apply in_app_or in Hi as [Hi|Hi]; [left; apply RA; exact Hi|]. right.
        assert (Il : In i l) by (rewrite <- (firstn_skipn (mu - length A1) l); apply in_or_app; auto). split; [apply RL; exact Il|].
        rewrite <- (firstn_skipn (mu - length A1) l) in SD. destruct (StronglySorted_app_inv _ _ _ SD) as (_ & _ & X). apply dist_gt_false. exact (X i j Hi IJ).
      + left. specialize (RB j IJ). apply in_app_or in Hi as [Hi|Hi]; [apply RA in Hi; lia|].
        rewrite (RL i); [exact RB|]. rewrite <- (firstn_skipn (mu - length A1) l); apply in_or_app; auto.
  Qed.
End Fronts.
