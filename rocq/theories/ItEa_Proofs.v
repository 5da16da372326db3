(** Proofs about the information-theoretic evolutionary algorithm. *)

From Coq Require Import QArith Lqa Permutation.
From Verif Require Import Base BaseLemmas GF2 BitVector_Model BitVector_Spec BitVector_Proofs Representation_Spec Map_Spec Neighborhood_Model Neighborhood_Spec Neighborhood_Proofs
  Algorithm_Model Algorithm_Spec Algorithm_Proofs Population_Model Population_Spec Population_Proofs PopAlgorithm_Model PopAlgorithm_Spec PopAlgorithm_Proofs
  ProbabilityVector_Model ProbabilityVector_Spec ProbabilityVector_Proofs EvolutionaryAlgorithm_Model EvolutionaryAlgorithm_Spec EvolutionaryAlgorithm_Proofs SelfAdjusting_Proofs
  Generation_Proofs Mimic_Model Mimic_Proofs Properties_Population ItEa_Model ItEa_Spec.
Local Open Scope nat_scope.

(** * Counting in a list *)

Lemma filter_none {A} (P : A -> bool) l : (forall x, In x l -> P x = false) -> filter P l = [].
Proof. induction l as [|a l IH]; intros H; cbn; [reflexivity|]. rewrite H by now left. apply IH. intros x Hx. apply H. now right. Qed.
Lemma filter_all {A} (P : A -> bool) l : (forall x, In x l -> P x = true) -> filter P l = l.
Proof. induction l as [|a l IH]; intros H; cbn; [reflexivity|]. rewrite H by now left. f_equal. apply IH. intros x Hx. apply H. now right. Qed.

Lemma filter_range P N a b : a <= b -> b <= N -> (forall j, j < N -> P j = true <-> a <= j < b) -> filter P (seq 0 N) = seq a (b - a).
Proof.
  intros H1 H2 H. replace N with (a + ((b - a) + (N - b))) by lia. rewrite !seq_app, !filter_app. cbn [Nat.add].
  rewrite filter_none, filter_all, filter_none, app_nil_r; [reflexivity| | |].
  - intros x Hx. apply in_seq in Hx. destruct (P x) eqn:E; [|reflexivity]. apply H in E; lia.
  - intros x Hx. apply in_seq in Hx. apply H; lia.
  - intros x Hx. apply in_seq in Hx. destruct (P x) eqn:E; [|reflexivity]. apply H in E; lia.
Qed.

Lemma map_nth_seq {A} (l : list A) d : map (fun i => nth i l d) (seq 0 (length l)) = l.
Proof.
  apply (nth_ext _ _ d d); rewrite map_length, seq_length; [reflexivity|]. intros i Hi. rewrite (nth_indep _ d (nth 0 l d)) by now rewrite map_length, seq_length.
  rewrite (map_nth (fun i => nth i l d)), seq_nth by assumption. reflexivity.
Qed.

Lemma length_filter_map {A B} (f : A -> B) P l : length (filter P (map f l)) = length (filter (fun x => P (f x)) l).
Proof. induction l as [|a l IH]; cbn; [reflexivity|]. destruct (P (f a)); cbn; now rewrite IH. Qed.

Lemma count_range {A} (P : A -> bool) l d a b : a <= b -> b <= length l -> (forall j, j < length l -> P (nth j l d) = true <-> a <= j < b) -> length (filter P l) = b - a.
Proof.
  intros H1 H2 H. rewrite <- (map_nth_seq l d) at 1. rewrite length_filter_map, (filter_range _ _ a b) by assumption. apply seq_length.
Qed.

Lemma filter_perm {A} (P : A -> bool) l l' : Permutation l l' -> length (filter P l) = length (filter P l').
Proof.
  induction 1; cbn; [reflexivity| | |congruence].
  - destruct (P x); cbn; congruence.
  - destruct (P x), (P y); reflexivity.
Qed.

(** * Sums *)

Lemma total_nil {A} (f : A -> Q) : total f [] = 0%Q. Proof. reflexivity. Qed.
Lemma total_cons {A} (f : A -> Q) x l : total f (x :: l) = (f x + total f l)%Q. Proof. reflexivity. Qed.
Lemma total_ext {A} (f g : A -> Q) l : (forall x, In x l -> (f x == g x)%Q) -> (total f l == total g l)%Q.
Proof. induction l as [|a l IH]; intros H; [reflexivity|]. rewrite !total_cons, (H a) by now left. rewrite IH; [reflexivity|]. intros x Hx. apply H. now right. Qed.
Lemma total_app {A} (f : A -> Q) l l' : (total f (l ++ l') == total f l + total f l')%Q.
Proof. induction l as [|a l IH]; cbn [app]; [rewrite total_nil; lra|]. rewrite !total_cons, IH. lra. Qed.
Lemma total_perm {A} (f : A -> Q) l l' : Permutation l l' -> (total f l == total f l')%Q.
Proof. induction 1; rewrite ?total_cons; [reflexivity|rewrite IHPermutation; reflexivity|lra|now rewrite IHPermutation1]. Qed.
Lemma total_map {A B} (g : A -> B) (f : B -> Q) l : total f (map g l) = total (fun x => f (g x)) l.
Proof. induction l as [|a l IH]; cbn [map]; [reflexivity|]. now rewrite !total_cons, IH. Qed.
Lemma total_zero {A} (f : A -> Q) l : (forall x, In x l -> (f x == 0)%Q) -> (total f l == 0)%Q.
Proof. induction l as [|a l IH]; intros H; [reflexivity|]. rewrite total_cons, (H a) by now left. rewrite IH; [lra|]. intros x Hx. apply H. now right. Qed.

(** * Shares *)

(** The weights given to the ranks of a sorted population *)
Definition weight_of (selection : nat) (cls : option (nat * nat * Q)) (k : nat) : Q :=
  match cls with
  | Some (lo, hi, c) => if k <? lo then 1%Q else if k <? hi then c else 0%Q
  | None => if k <? selection then 1%Q else 0%Q
  end.

(** Values by ranks *)
Definition value_at (p : population) (i : nat) : Z := nth (nth i (p_perm p) 0) (p_values p) 0%Z.
Definition vector_at (p : population) (i : nat) : bv := nth (nth i (p_perm p) 0) (p_bvs p) [].

Section Ranked.
  Variables (o : objective) (size n : nat) (bs : list bv) (p : population).
  Hypothesis RK : ranked o size n bs p.
  Notation pool := (map (fun x => (x, o_value o x)) bs).

  Lemma ranked_pool : Permutation pool (map (at_index p) (p_perm p)).
  Proof.
    destruct RK as (W & B & (V & _) & _). rewrite <- (individuals_perm size n p W). unfold individuals. rewrite B, V.
    assert (C : forall l, combine l (map (o_value o) l) = map (fun x => (x, o_value o x)) l). { induction l as [|a l IHl]; cbn; [reflexivity|]. now rewrite IHl. }
    now rewrite C.
  Qed.

  Lemma ranked_length : length (p_perm p) = size.
  Proof. destruct RK as (W & _). apply (perm_seq_length _ _ (wf_perm W)). Qed.

  Lemma value_Ok i : i < size -> best_value p i = Ok (value_at p i).
  Proof. intros H. destruct RK as (W & _). exact (best_value_Ok W i H). Qed.
  Lemma vector_Ok i : i < size -> best_bv p i = Ok (vector_at p i).
  Proof. intros H. destruct RK as (W & _). exact (best_bv_Ok W i H). Qed.

  (** Classes of individuals with the same value *)
  Lemma class_of i : i < size -> exists lo hi, get_equivalent_bvs p i = Ok (lo, hi) /\ lo <= i < hi /\ hi <= size /\
    (forall j, j < size -> lo <= j < hi <-> value_at p j = value_at p i) /\
    above (value_at p i) pool = lo /\ equals (value_at p i) pool = hi - lo.
  Proof.
    intros Hi. destruct RK as (W & _ & (_ & OR) & _). destruct (equivalent_ordered size n p i W OR Hi) as (lo & hi & E & H1 & H2 & H3).
    assert (H4 : forall j, j < size -> lo <= j < hi <-> value_at p j = value_at p i).
    { intros j Hj. rewrite (H3 j Hj), (value_Ok j Hj), (value_Ok i Hi). split; [intros X; now injection X|congruence]. }
    exists lo, hi. split; [assumption|]. split; [assumption|]. split; [assumption|]. split; [assumption|].
    assert (NV : forall j, j < size -> snd (nth j (map (at_index p) (p_perm p)) (at_index p 0)) = value_at p j).
    { intros j Hj. rewrite map_nth. reflexivity. }
    assert (LL : length (map (at_index p) (p_perm p)) = size) by (rewrite map_length; apply ranked_length).
    unfold above, equals. rewrite !(filter_perm _ _ _ ranked_pool). split.
    - rewrite (count_range _ _ (at_index p 0) 0 lo); [lia|lia|lia|]. intros j Hj. rewrite LL in Hj. rewrite NV by assumption. rewrite Z.ltb_lt. specialize (H4 j Hj).
      split; [intros X|intros X].
      + split; [lia|]. destruct (Nat.lt_ge_cases j lo); [assumption|]. destruct (Nat.lt_ge_cases j hi) as [J|J].
        * assert (value_at p j = value_at p i) by (apply H4; lia). lia.
        * pose proof (OR i j ltac:(lia) ltac:(lia)) as Y. unfold value_at in X, Y. lia.
      + pose proof (OR j i ltac:(lia) ltac:(lia)) as Y. fold (value_at p j) (value_at p i) in Y.
        assert (value_at p j <> value_at p i) by (intros Z0; apply H4 in Z0; lia). lia.
    - rewrite (count_range _ _ (at_index p 0) lo hi); [lia|lia|lia|]. intros j Hj. rewrite LL in Hj. rewrite NV by assumption. rewrite Z.eqb_eq. symmetry. apply H4. assumption.
  Qed.

  Definition class_bounds (selection : nat) (cls : option (nat * nat * Q)) : Prop :=
    match cls with Some (lo, hi, c) => lo < selection < hi /\ hi <= size | None => selection < size end.

  Lemma equivalence_class_Ok selection : 1 <= selection < size ->
    exists cls, equivalence_class selection p = Ok cls /\ class_bounds selection cls /\
      forall i, i < size -> (weight_of selection cls i == share selection pool (value_at p i))%Q.
  Proof.
    intros Hs. unfold equivalence_class. rewrite (proj2 (Nat.leb_le 1 selection)) by lia. cbn [assertb bind].
    rewrite (value_Ok (selection - 1)), (value_Ok (selection - 1 + 1)) by lia. cbn [bind].
    destruct (class_of (selection - 1) ltac:(lia)) as (lo & hi & E & H1 & H2 & H3 & H4 & H5).
    replace (selection - 1 + 1) with selection by lia.
    destruct (Z.eqb_spec (value_at p (selection - 1)) (value_at p selection)) as [V|V].
    - rewrite E. cbn [bind]. assert (S0 : lo <= selection < hi) by (apply H3; [lia|congruence]).
      set (c := (inject_Z (Z.of_nat (selection - 1) - Z.of_nat lo + 1) / inject_Z (Z.of_nat hi - Z.of_nat lo))%Q).
      assert (D : (0 < inject_Z (Z.of_nat hi - Z.of_nat lo))%Q). { change 0%Q with (inject_Z 0). rewrite <- Zlt_Qlt. lia. }
      assert (C0 : Qle_bool 0 c = true).
      { apply Qle_bool_iff. unfold c. apply Qle_shift_div_l; [assumption|]. change 0%Q with (inject_Z 0). rewrite <- inject_Z_mult, <- Zle_Qle. lia. }
      assert (C1 : Qle_bool c 1 = true).
      { apply Qle_bool_iff. unfold c. apply Qle_shift_div_r; [assumption|]. change 1%Q with (inject_Z 1). rewrite <- inject_Z_mult, <- Zle_Qle. lia. }
      rewrite C0, C1. cbn [andb assertb bind]. exists (Some (lo, hi, c)). split; [reflexivity|]. split; [cbn; lia|].
      intros i Hi. destruct (class_of i Hi) as (a & b & _ & A1 & A2 & A3 & A4 & A5). unfold share. rewrite A4, A5. replace (a + (b - a)) with b by lia. cbn [weight_of].
      destruct (Nat.ltb_spec i lo) as [I1|I1].
      + assert (b <= lo). { destruct (Nat.lt_ge_cases lo b); [|assumption]. assert (X : value_at p lo = value_at p i) by (apply A3; lia).
          assert (Y : value_at p lo = value_at p (selection - 1)) by (apply H3; lia). assert (lo <= i < hi) by (apply H3; [assumption|congruence]). lia. }
        rewrite (proj2 (Nat.leb_le _ _)) by lia. reflexivity.
      + destruct (Nat.ltb_spec i hi) as [I2|I2].
        * assert (X : value_at p i = value_at p (selection - 1)) by (apply H3; lia).
          assert (a = lo /\ b = hi) as [-> ->].
          { assert (lo <= a < hi) by (apply H3; [lia|]; rewrite <- X; apply A3; lia). assert (a <= lo < b) by (apply A3; [lia|]; rewrite X; apply H3; lia).
            assert (lo <= b - 1 < hi) by (apply H3; [lia|]; rewrite <- X; apply A3; lia). assert (a <= hi - 1 < b) by (apply A3; [lia|]; rewrite X; apply H3; lia). lia. }
          rewrite (proj2 (Nat.leb_gt _ _)), (proj2 (Nat.leb_gt _ _)) by lia. unfold c.
          replace (Z.of_nat (selection - lo)) with (Z.of_nat (selection - 1) - Z.of_nat lo + 1)%Z by lia. replace (Z.of_nat (hi - lo)) with (Z.of_nat hi - Z.of_nat lo)%Z by lia. reflexivity.
        * assert (hi <= a). { destruct (Nat.lt_ge_cases a hi); [|assumption]. assert (Y : value_at p (hi - 1) = value_at p i) by (apply A3; lia).
            assert (X : value_at p (hi - 1) = value_at p (selection - 1)) by (apply H3; lia). assert (lo <= i < hi) by (apply H3; [assumption|congruence]). lia. }
          rewrite (proj2 (Nat.leb_gt _ _)), (proj2 (Nat.leb_le _ _)) by lia. reflexivity.
    - exists None. split; [reflexivity|]. split; [cbn; lia|].
      intros i Hi. destruct (class_of i Hi) as (a & b & _ & A1 & A2 & A3 & A4 & A5). unfold share. rewrite A4, A5. replace (a + (b - a)) with b by lia. cbn [weight_of].
      assert (NB : ~ (a < selection /\ selection < b)).
      { intros (X & Y). apply V. transitivity (value_at p i); [|symmetry]; apply A3; lia. }
      destruct (Nat.ltb_spec i selection) as [I1|I1].
      + rewrite (proj2 (Nat.leb_le _ _)) by lia. reflexivity.
      + rewrite (proj2 (Nat.leb_gt _ _)), (proj2 (Nat.leb_le _ _)) by lia. reflexivity.
  Qed.

  (** Sums by ranks are sums over the selection *)
  Lemma ranks_total selection cls (g : list bool -> Q) : (forall i, i < size -> (weight_of selection cls i == share selection pool (value_at p i))%Q) ->
    (total (fun k => weight_of selection cls k * g (vector_at p k)) (seq 0 size) == selected_total selection pool g)%Q.
  Proof.
    intros H. unfold selected_total. rewrite (total_perm _ _ _ ranked_pool), <- (map_nth_seq (p_perm p) 0), ranked_length, !map_map, total_map.
    apply total_ext. intros i Hi. apply in_seq in Hi. rewrite H by lia. reflexivity.
  Qed.
End Ranked.

(** * The loops over the selection *)

Lemma foldM_weights {A J} (P : A -> Prop) (pi : J -> A -> Q) (g : J -> nat -> Q) (add : A -> Q -> nat -> outcome A) (c : Q) : forall ks a,
  P a -> (forall a k, In k ks -> P a -> exists a', add a c k = Ok a' /\ P a' /\ forall j, (pi j a' == pi j a + c * g j k)%Q) ->
  exists a', foldM (fun a k => add a c k) ks a = Ok a' /\ P a' /\ forall j, (pi j a' == pi j a + total (fun k => c * g j k) ks)%Q.
Proof.
  induction ks as [|k ks IH]; intros a Ha H; cbn [foldM].
  - exists a. split; [reflexivity|]. split; [assumption|]. intros j. rewrite total_nil. lra.
  - destruct (H a k) as (a1 & E1 & P1 & Q1); [now left|assumption|]. rewrite E1. cbn [bind]. destruct (IH a1 P1) as (a2 & E2 & P2 & Q2).
    { intros a' k' Hk. apply H. now right. }
    exists a2. split; [assumption|]. split; [assumption|]. intros j. rewrite Q2, Q1, total_cons. lra.
Qed.

Lemma weighted_Ok {A J} size selection cls (P : A -> Prop) (pi : J -> A -> Q) (g : J -> nat -> Q) (add : A -> Q -> nat -> outcome A) a :
  class_bounds size selection cls -> P a ->
  (forall a c k, k < (match cls with Some (_, hi, _) => hi | None => selection end) -> P a -> exists a', add a c k = Ok a' /\ P a' /\ forall j, (pi j a' == pi j a + c * g j k)%Q) ->
  exists a', weighted selection cls add a = Ok a' /\ P a' /\ forall j, (pi j a' == pi j a + total (fun k => weight_of selection cls k * g j k) (seq 0 size))%Q.
Proof.
  intros CB Pa H. destruct cls as [[[lo hi] c]|]; cbn [weighted class_bounds weight_of] in *.
  - destruct (foldM_weights P pi g add 1%Q (seq 0 lo) a Pa) as (a1 & E1 & P1 & Q1). { intros a' k Hk. apply in_seq in Hk. apply H. lia. }
    rewrite E1. cbn [bind]. destruct (foldM_weights P pi g add c (seq lo (hi - lo)) a1 P1) as (a2 & E2 & P2 & Q2). { intros a' k Hk. apply in_seq in Hk. apply H. lia. }
    exists a2. split; [assumption|]. split; [assumption|]. intros j. rewrite Q2, Q1.
    replace size with (lo + ((hi - lo) + (size - hi))) by lia. rewrite !seq_app, !total_app. cbn [Nat.add].
    rewrite (total_ext (fun k => (if k <? lo then 1 else if k <? hi then c else 0) * g j k)%Q (fun k => 1 * g j k)%Q (seq 0 lo)).
    2:{ intros x Hx. apply in_seq in Hx. rewrite (proj2 (Nat.ltb_lt _ _)) by lia. reflexivity. }
    rewrite (total_ext (fun k => (if k <? lo then 1 else if k <? hi then c else 0) * g j k)%Q (fun k => c * g j k)%Q (seq lo (hi - lo))).
    2:{ intros x Hx. apply in_seq in Hx. rewrite (proj2 (Nat.ltb_ge _ _)), (proj2 (Nat.ltb_lt _ _)) by lia. reflexivity. }
    rewrite (total_zero _ (seq (lo + (hi - lo)) _)).
    2:{ intros x Hx. apply in_seq in Hx. rewrite (proj2 (Nat.ltb_ge _ _)), (proj2 (Nat.ltb_ge _ _)) by lia. lra. }
    lra.
  - destruct (foldM_weights P pi g add 1%Q (seq 0 selection) a Pa) as (a1 & E1 & P1 & Q1). { intros a' k Hk. apply in_seq in Hk. apply H. lia. }
    exists a1. split; [assumption|]. split; [assumption|]. intros j. rewrite Q1.
    replace size with (selection + (size - selection)) by lia. rewrite seq_app, total_app. cbn [Nat.add].
    rewrite (total_ext (fun k => (if k <? selection then 1 else 0) * g j k)%Q (fun k => 1 * g j k)%Q (seq 0 selection)).
    2:{ intros x Hx. apply in_seq in Hx. rewrite (proj2 (Nat.ltb_lt _ _)) by lia. reflexivity. }
    rewrite (total_zero _ (seq selection _)).
    2:{ intros x Hx. apply in_seq in Hx. rewrite (proj2 (Nat.ltb_ge _ _)) by lia. lra. }
    lra.
Qed.

Lemma add_bits_Ok n l c x : length l = n -> length x = n ->
  exists l', add_bits n l c x = Ok l' /\ length l' = n /\ forall j, (nth j l' 0 == nth j l 0 + c * bit_at j x)%Q.
Proof.
  intros L X. unfold add_bits. rewrite X, Nat.leb_refl. cbn [assertb bind]. eexists. split; [reflexivity|].
  assert (LE : length (map2 (fun a (b : bool) => (a + c * (if b then 1 else 0))%Q) l x) = n) by now apply length_map2_eq.
  split; [assumption|]. intros j. destruct (Nat.lt_ge_cases j n) as [Hj|Hj].
  - rewrite (nth_map2 _ _ _ _ 0%Q false) by lia. reflexivity.
  - unfold bit_at. rewrite !nth_overflow by lia. lra.
Qed.

(** * The largest element, and a draw among the extremal ones *)

Lemma max_from_spec : forall l best at_ i done, length done = i -> at_ < i -> nth at_ done 0%Q = best ->
  (forall j, j < i -> (nth j done 0 <= best)%Q) ->
  let k := max_from best at_ i l in k < length (done ++ l) /\ forall j, j < length (done ++ l) -> (nth j (done ++ l) 0 <= nth k (done ++ l) 0)%Q.
Proof.
  induction l as [|x l IH]; intros best at_ i done L A N M; cbn [max_from].
  - cbv zeta. rewrite app_nil_r, N, L. split; [assumption|exact M].
  - replace (done ++ x :: l) with ((done ++ [x]) ++ l) by now rewrite <- app_assoc.
    assert (NI : nth i (done ++ [x]) 0%Q = x) by (rewrite <- L; apply nth_middle).
    destruct (qltb best x) eqn:E; [apply qltb_lt in E|apply qltb_ge in E]; apply IH; rewrite ?app_length; cbn [length]; try lia.
    + exact NI.
    + intros j Hj. destruct (Nat.eq_dec j i) as [->|]; [rewrite NI; lra|]. rewrite app_nth1 by lia. specialize (M j ltac:(lia)). lra.
    + rewrite app_nth1 by lia. exact N.
    + intros j Hj. destruct (Nat.eq_dec j i) as [->|]; [rewrite NI; lra|]. rewrite app_nth1 by lia. apply M. lia.
Qed.
Lemma max_element_spec l : l <> [] -> max_element l < length l /\ forall j, j < length l -> (nth j l 0 <= nth (max_element l) l 0)%Q.
Proof.
  destruct l as [|x l]; [congruence|]. intros _. unfold max_element.
  destruct (max_from_spec l x 0 1 [x]) as [H1 H2]; try reflexivity; try lia.
  - intros j Hj. replace j with 0 by lia. cbn. lra.
  - split; [exact H1|exact H2].
Qed.

Lemma sample_from_arg_Ok op pick values : values <> [] -> op values < length values -> (forall lo hi, lo <= hi -> lo <= pick lo hi <= hi) ->
  let candidates := filter (fun i => Qeq_bool (nth i values 0%Q) (nth (op values) values 0%Q)) (seq 0 (length values)) in
  sample_from_arg op pick values = Ok (if 1 <? length candidates then nth (pick 0 (length candidates - 1)) candidates 0 else op values) /\
  In (if 1 <? length candidates then nth (pick 0 (length candidates - 1)) candidates 0 else op values) candidates.
Proof.
  intros N H P candidates. assert (IN : In (op values) candidates).
  { apply filter_In. split; [apply in_seq; lia|]. apply Qeq_bool_iff. reflexivity. }
  assert (1 <= length candidates) by (destruct candidates; [destruct IN|cbn; lia]).
  unfold sample_from_arg. rewrite (proj2 (Nat.ltb_lt _ _)) by assumption. cbn [assertb bind]. rewrite (vget_nth _ _ 0%Q) by assumption. cbn [bind].
  fold candidates. rewrite (proj2 (Nat.leb_le _ _)) by assumption. cbn [assertb bind].
  specialize (P 0 (length candidates - 1) ltac:(lia)).
  destruct (Nat.ltb_spec 1 (length candidates)).
  - rewrite (proj2 (Nat.ltb_lt _ _)) by lia. cbn [assertb bind]. rewrite (vget_nth _ _ 0) by lia. split; [reflexivity|]. apply nth_In. lia.
  - auto.
Qed.

(** * The iterations *)

Lemma it_get_put p m : it_pop (it_put p m) = p. Proof. reflexivity. Qed.
Lemma it_put_put p q m : it_put p (it_put q m) = it_put p m. Proof. reflexivity. Qed.
Lemma it_put_get m : it_put (it_pop m) m = m. Proof. now destruct m. Qed.

Lemma compute_masks_Ok o size n bs p center masks selection cls : ranked o size n bs p -> class_bounds size selection cls -> length center = n ->
  length masks = size -> Forall (fun x => length x = n) masks ->
  exists masks', compute_masks selection cls center p masks = Ok masks' /\ length masks' = size /\ Forall (fun x => length x = n) masks' /\
    forall k, k < (match cls with Some (_, hi, _) => hi | None => selection end) -> nth k masks' [] = vxor center (vector_at p k).
Proof.
  intros RK CB LC LM FM. unfold compute_masks. set (m := match cls with Some (_, hi, _) => hi | None => selection end).
  assert (HM : m <= size). { unfold m. destruct cls as [[[lo hi] c]|]; cbn in CB; lia. }
  assert (VL : forall k, k < size -> length (vector_at p k) = n).
  { intros k Hk. destruct RK as ((W1 & W2 & W3 & W4 & W5 & W6) & _). apply (Forall_nth_len W4). rewrite W3. apply (perm_seq_nth _ _ _ W6 Hk). }
  destruct (foldM_upto (fun k (ms : list bv) => length ms = size /\ Forall (fun x => length x = n) ms /\ forall j, j < k -> nth j ms [] = vxor center (vector_at p j))
    (fun masks k => b <- best_bv p k ;; m <- vget masks k ;; m <- bv_add3 m center b ;; vset masks k m) m masks) as (ms & E & H1 & H2 & H3).
  - split; [assumption|]. split; [assumption|]. intros; lia.
  - intros k ms Hk (H1 & H2 & H3). rewrite (vector_Ok o size n bs p RK) by lia. cbn [bind]. rewrite (vget_nth _ _ []) by lia. cbn [bind].
    assert (LK : length (nth k ms []) = n) by (apply (Forall_nth_len H2); lia).
    rewrite bv_add3_Ok by (rewrite ?VL by lia; congruence). cbn [bind]. rewrite (vset_Ok ms k) by lia. eexists. split; [reflexivity|].
    split; [now rewrite length_upd|]. split.
    + apply Forall_upd; [assumption|]. unfold vxor. apply length_map2_eq; [assumption|apply VL; lia].
    + intros j Hj. destruct (Nat.eq_dec j k) as [->|NE]; [apply nth_upd_eq; lia|]. rewrite nth_upd_neq by assumption. apply H3. lia.
  - exists ms. auto.
Qed.

Lemma moved_bit n c x i : length c = n -> length x = n -> bit_at i (vxor c x) = moved_at c i x.
Proof.
  intros LC LX. unfold bit_at, moved_at, vxor. destruct (Nat.lt_ge_cases i n).
  - rewrite (nth_map2 _ _ _ _ false false) by lia. reflexivity.
  - rewrite !nth_overflow by (rewrite ?length_map2; lia). reflexivity.
Qed.

Section ItEaProofs.
  Variables (o : objective) (n size : nat) (pr : it_params).
  Variables (small : Q -> bool) (d : nat -> nat -> draws) (shs : nat -> list nat -> list nat).
  Variable srt : (nat -> nat -> bool) -> list nat -> list nat.
  Variables (coin : nat -> nat -> bool) (pick : nat -> nat -> nat -> nat) (flip : nat -> bool).
  Hypothesis HD : fair_mutations n d.
  Hypothesis HSH : forall t, shuffles (shs t).
  Hypothesis HSO : sorts srt.
  Hypothesis HP : fair_picks pick.
  Hypothesis ADM : it_admissible size n pr.
  Notation sel := (ip_selection pr).

  (** Mutation *)

  Definition it_stage (s0 : alg itea) (k : nat) (s : alg itea) : Prop :=
    exists bs h, s = mk_alg (a_trace s0) (a_sol s0) (a_last s0)
        (put_nh h (it_put (mk_pop bs (p_values (it_pop (a_mem s0))) (p_perm (it_pop (a_mem s0)))) (a_mem s0))) /\
      length bs = size /\ Forall (fun x => length x = n) bs /\ nh_reachable n h Settled /\ allows (ip_allow pr) h /\
      forall j, j < k -> mutant (StandardBitMutation true (ip_allow pr)) n (fst (it_center (a_mem s0))) (nth j bs []).

  Definition it_left (s0 : alg itea) (e : option exn) (s : alg itea) : Prop :=
    e = None /\ exists k, k < size /\ it_stage s0 k s.

  Lemma it_mutate_wp s0 k dr s : k < size -> length (fst (it_center (a_mem s0))) = n -> in_bounds (StandardBitMutation false false) n dr -> it_stage s0 k s ->
    wp (it_mutate k dr) (fun _ s' => it_stage s0 (k + 1) s') (it_left s0) s.
  Proof.
    clear HD HSH HSO HP ADM.
    intros K LS B ST. pose proof ST as (bs & h & -> & L1 & L2 & L3 & (rej & L4) & L5). unfold it_mutate. apply wp_bind, wp_get. cbn [a_mem it_pop it_nh it_put put_nh it_center p_bvs].
    apply wp_bind. eapply wp_lift; [apply (vget_nth bs k []); lia|].
    destruct (reachable_inv n h _ L3) as [OK _]. assert (B' : in_bounds (nh_class h) n dr) by (rewrite L4; exact B).
    rewrite map_is_mutate. 2:{ destruct OK as (_ & -> & _). apply (Forall_nth_len L2). lia. }
    destruct (nh_mutate h (fst (it_center (a_mem s0))) dr) as [r|] eqn:EM.
    2:{ cbn. split; [reflexivity|]. exists k. auto. }
    destruct (mutate_exact n h _ dr r OK LS B' EM) as (l & E1 & A1 & A2 & ->). destruct (index_set_flip n _ l LS A1) as (_ & F2 & _ & F4).
    apply wp_bind. eapply wp_lift; [reflexivity|]. cbn [fst snd]. eapply wp_on_mem.
    { cbn [a_mem it_pop put_nh it_put p_bvs p_values p_perm]. rewrite (vset_Ok bs k) by lia. reflexivity. }
    eexists (upd bs k (flips (fst (it_center (a_mem s0))) l)), _. split; [reflexivity|]. split; [now rewrite length_upd|]. split; [apply Forall_upd; assumption|].
    split; [exact (reach_mutate n h _ dr _ _ L3 B' EM)|]. split; [exists rej; exact L4|].
    intros j Hj. destruct (Nat.eq_dec j k) as [->|NE].
    - rewrite nth_upd_eq by lia. apply (weaker_mutant rej). split; [assumption|]. rewrite F2, <- L4. exact A2.
    - rewrite nth_upd_neq by assumption. apply L5. lia.
  Qed.

  (** The state after the generation: [p] is the sorted population. *)
  Definition masked (p : population) (center : bv) (cls : option (nat * nat * Q)) (masks : list bv) : Prop :=
    length masks = size /\ Forall (fun x => length x = n) masks /\
    forall k, k < (match cls with Some (_, hi, _) => hi | None => sel end) -> nth k masks [] = vxor center (vector_at p k).

  Lemma evaluate_center_wp (s : alg itea) c v0 : it_center (a_mem s) = (c, v0) -> top_of o (a_trace s) (a_sol s) -> length c = n ->
    wp (evaluate_center o)
      (fun _ s' => a_trace s' = a_trace s ++ [c] /\ top_of o (a_trace s') (a_sol s') /\ (length (fst (a_sol s)) = n -> length (fst (a_sol s')) = n) /\
         (o_value o c <= snd (a_sol s'))%Z /\ (snd (a_sol s) <= snd (a_sol s'))%Z /\ a_last s' = a_last s /\ a_mem s' = put_center (c, o_value o c) (a_mem s))
      (fun e s' => s' = s /\ exists e', e = Some e' /\ o_stop o (length (a_trace s)) = Some e') s.
  Proof.
    clear HD HSH HSO HP ADM. intros EC TO LC. unfold evaluate_center. apply wp_bind, wp_get. rewrite EC. cbn [fst]. apply wp_bind. apply wp_evaluate.
    { intros e He. split; [reflexivity|]. eauto. }
    apply wp_bind, wp_modify. pose proof (top_of_update o (a_trace s) [c] (a_sol s) c TO ltac:(now left)) as TU.
    assert (ED : (forall y, In y [c] -> (o_value o y <= o_value o c)%Z)). { intros y [<-|[]]. lia. } specialize (TU ED).
    eapply wp_returns.
    { instantiate (1 := mk_alg (a_trace s ++ [c]) (if (snd (a_sol s) <? o_value o c)%Z then (c, o_value o c) else a_sol s) (a_last s) (put_center (c, o_value o c) (a_mem s))).
      unfold update_solution. cbn [put_trace put_mem a_sol a_mem a_trace a_last]. destruct (_ <? _)%Z; reflexivity. }
    cbn [a_trace a_sol a_last a_mem]. split; [reflexivity|]. split; [exact TU|].
    destruct (Z.ltb_spec (snd (a_sol s)) (o_value o c)); cbn [fst snd]; repeat split; auto; lia.
  Qed.

  Section After.
    Variables (t : nat) (L : list bv) (p : population) (cls : option (nat * nat * Q)) (c : bv * Z).
    Notation pool := (map (fun x => (x, o_value o x)) L).
    Hypothesis RK : ranked o size n L p.
    Hypothesis CB : class_bounds size sel cls.
    Hypothesis CW : forall i, i < size -> (weight_of sel cls i == share sel pool (value_at p i))%Q.
    Hypothesis LC : length (fst c) = n.

    Lemma vector_length k : k < size -> length (vector_at p k) = n.
    Proof.
      clear HD HSH HSO HP ADM CB CW LC. intros Hk. destruct RK as ((W1 & W2 & W3 & W4 & W5 & W6) & _). apply (Forall_nth_len W4). rewrite W3. apply (perm_seq_nth _ _ _ W6 Hk).
    Qed.

    Lemma class_size k : k < (match cls with Some (_, hi, _) => hi | None => sel end) -> k < size.
    Proof. clear HD HSH HSO HP ADM CW LC. destruct cls as [[[lo hi] q]|]; cbn in CB; lia. Qed.

    Lemma likelihoods_Ok : exists l, weighted sel cls (fun l c k => b <- best_bv p k ;; add_bits n l c b) (repeat 0%Q n) = Ok l /\ length l = n /\
      forall j, (nth j l 0 == selected_total sel pool (bit_at j))%Q.
    Proof.
      clear HD HSH HSO HP ADM.
      destruct (weighted_Ok size sel cls (fun l => length l = n) (fun j l => nth j l 0%Q) (fun j k => bit_at j (vector_at p k))
        (fun l c k => b <- best_bv p k ;; add_bits n l c b) (repeat 0%Q n) CB) as (l & E & H1 & H2).
      - apply repeat_length.
      - intros a q k Hk La. pose proof (class_size k Hk) as Hs. rewrite (vector_Ok o size n L p RK) by assumption. cbn [bind].
        apply add_bits_Ok; [assumption|now apply vector_length].
      - exists l. split; [assumption|]. split; [assumption|]. intros j. rewrite H2. rewrite (ranks_total o size n L p RK sel cls (bit_at j) CW).
        rewrite nth_repeat. lra.
    Qed.

    Lemma mask_likelihoods_Ok masks : masked p (fst c) cls masks ->
      exists l, weighted sel cls (fun l c k => x <- vget masks k ;; add_bits n l c x) (repeat 0%Q n) = Ok l /\ length l = n /\
      forall j, (nth j l 0 == selected_total sel pool (moved_at (fst c) j))%Q.
    Proof.
      clear HD HSH HSO HP ADM. intros (M1 & M2 & M3).
      destruct (weighted_Ok size sel cls (fun l => length l = n) (fun j l => nth j l 0%Q) (fun j k => moved_at (fst c) j (vector_at p k))
        (fun l c k => x <- vget masks k ;; add_bits n l c x) (repeat 0%Q n) CB) as (l & E & H1 & H2).
      - apply repeat_length.
      - intros a q k Hk La. pose proof (class_size k Hk) as Hs. rewrite (vget_nth _ _ []) by lia. cbn [bind].
        destruct (add_bits_Ok n a q (nth k masks []) La) as (a' & E & H1 & H2); [apply (Forall_nth_len M2); lia|]. exists a'. split; [assumption|]. split; [assumption|].
        intros j. rewrite H2, (M3 k Hk), (moved_bit n) by (auto using vector_length). reflexivity.
      - exists l. split; [assumption|]. split; [assumption|]. intros j. rewrite H2. rewrite (ranks_total o size n L p RK sel cls (moved_at (fst c) j) CW).
        rewrite nth_repeat. lra.
    Qed.

    Lemma target_Ok masks : masked p (fst c) cls masks ->
      exists q, weighted sel cls (fun a c k => x <- vget masks k ;; Ok (a + c * inject_Z (Z.of_nat (bv_hamming_weight x)))%Q) 0%Q = Ok q /\
      (q == selected_total sel pool (moves n (fst c)))%Q.
    Proof.
      clear HD HSH HSO HP ADM. intros (M1 & M2 & M3).
      destruct (weighted_Ok size sel cls (fun _ => True) (fun (j : unit) q => q) (fun j k => moves n (fst c) (vector_at p k))
        (fun a c k => x <- vget masks k ;; Ok (a + c * inject_Z (Z.of_nat (bv_hamming_weight x)))%Q) 0%Q CB I) as (q & E & _ & H2).
      - intros a w k Hk _. pose proof (class_size k Hk) as Hs. rewrite (vget_nth _ _ []) by lia. cbn [bind]. eexists. split; [reflexivity|]. split; [exact I|]. intros _.
        rewrite (M3 k Hk), bv_hamming_weight_spec. unfold moves. rewrite (diffs_vxor n) by auto using vector_length. reflexivity.
      - exists q. split; [assumption|]. rewrite (H2 tt), (ranks_total o size n L p RK sel cls (moves n (fst c)) CW). lra.
    Qed.

    Lemma best_is : exists b, best_bv p 0 = Ok b /\ best_value p 0 = Ok (o_value o b) /\ is_best pool (b, o_value o b) /\ length b = n.
    Proof.
      clear HD HSH HSO HP ADM CB CW LC. assert (S0 : 0 < size) by apply RK. exists (vector_at p 0). rewrite (vector_Ok o size n L p RK), (value_Ok o size n L p RK) by assumption. split; [reflexivity|].
      assert (EV : forall i, i < size -> value_at p i = o_value o (vector_at p i)).
      { intros i Hi. destruct RK as ((W1 & W2 & W3 & W4 & W5 & W6) & B & (V & _) & _). pose proof (perm_seq_nth _ _ _ W6 Hi) as K. unfold value_at, vector_at. rewrite V, <- B.
        rewrite (nth_indep _ 0%Z (o_value o [])) by (rewrite map_length; lia). now rewrite map_nth. }
      split; [f_equal; auto|]. split; [|now apply vector_length].
      split.
      - apply (Permutation_in _ (Permutation_sym (ranked_pool o size n L p RK))). apply in_map_iff. exists (nth 0 (p_perm p) 0). split.
        + unfold at_index. rewrite <- EV by assumption. reflexivity.
        + apply nth_In. rewrite (ranked_length o size n L p RK). assumption.
      - intros z Hz. apply (Permutation_in _ (ranked_pool o size n L p RK)) in Hz. apply in_map_iff in Hz as (k & <- & Hk). apply (In_nth _ _ 0) in Hk as (j & Hj & <-).
        rewrite (ranked_length o size n L p RK) in Hj. cbn [snd at_index]. rewrite <- EV by assumption. destruct RK as (_ & _ & (_ & OR) & _). apply (OR 0 j); lia.
    Qed.

    (** What replacement does *)
    Definition after_replacement (s s' : alg itea) : Prop :=
      exists c' ev, replaced o n sel (it_rate (a_mem s)) pool (coin t) (flip t) c (ip_replacement pr) c' ev /\
        a_trace s' = a_trace s ++ ev /\ top_of o (a_trace s') (a_sol s') /\ a_last s' = a_last s /\ a_mem s' = put_center c' (a_mem s) /\
        length (fst c') = n /\ (snd c' <= snd (a_sol s'))%Z /\ snd c' = o_value o (fst c') /\ (length (fst (a_sol s)) = n -> length (fst (a_sol s')) = n) /\
        (ip_replacement pr = Elitist -> a_sol s' = a_sol s).

    Lemma replace_center_wp (s : alg itea) : it_center (a_mem s) = c -> it_pop (a_mem s) = p -> masked p (fst c) cls (it_masks (a_mem s)) ->
      top_of o (a_trace s) (a_sol s) -> (forall y, In y L -> In y (a_trace s)) -> (snd c <= snd (a_sol s))%Z -> snd c = o_value o (fst c) ->
      wp (replace_center o n pr coin pick flip cls t) (fun _ s' => after_replacement s s')
        (fun e s' => (exists e', e = Some e' /\ o_stop o (length (a_trace s)) = Some e') /\ exists x, length x = n /\ s' = put_mem (put_center (x, snd c) (a_mem s)) s) s.
    Proof.
      intros EC EP MK TO INC CS CV. destruct best_is as (b & B1 & B2 & B3 & B4). destruct ADM as (A1 & A2 & A3 & A4).
      assert (BV : (o_value o b <= snd (a_sol s))%Z).
      { apply TO, INC. destruct B3 as (X & _). apply in_map_iff in X as (y & E & Hy). injection E as E _. now subst. }
      assert (MC : forall c0, a_mem (put_mem (put_center c0 (a_mem s)) s) = put_center c0 (a_mem s)) by reflexivity.
      assert (SAME : put_center c (a_mem s) = a_mem s) by (rewrite <- EC; now destruct (a_mem s)).
      unfold replace_center. destruct (ip_replacement pr) eqn:ER.
      - destruct (Z.leb_spec (snd c) (o_value o b)) as [LE|LT].
        + eapply wp_on_mem. { rewrite EP, B2. cbn [bind]. rewrite EC, (proj2 (Z.leb_le _ _)) by assumption. rewrite B1. cbn [bind]. reflexivity. }
          exists (b, o_value o b), []. rewrite ER. cbn [put_mem a_trace a_sol a_last a_mem fst snd]. rewrite app_nil_r. split; [|auto 12].
          apply (replaced_elitist _ _ _ _ _ _ _ _ (b, o_value o b)); [assumption|reflexivity|cbn [snd]; lia].
        + eapply wp_on_mem. { rewrite EP, B2. cbn [bind]. rewrite EC, (proj2 (Z.leb_gt _ _)) by assumption. reflexivity. }
          exists c, []. rewrite ER. cbn [put_mem a_trace a_sol a_last a_mem fst snd]. rewrite app_nil_r. split; [|split; [reflexivity|split; [assumption|split; [reflexivity|split; [now rewrite SAME|auto 12]]]]].
          apply (replaced_elitist _ _ _ _ _ _ _ _ (b, o_value o b)); [assumption|cbn [snd]; lia|reflexivity].
      - eapply wp_on_mem. { rewrite EP, B1. cbn [bind]. rewrite B2. cbn [bind]. reflexivity. }
        exists (b, o_value o b), []. rewrite ER. cbn [put_mem a_trace a_sol a_last a_mem fst snd]. rewrite app_nil_r. split; [|split; [reflexivity|split; [assumption|split; [reflexivity|split; [reflexivity|split; [assumption|split; [assumption|split; [reflexivity|split; [auto|congruence]]]]]]]]].
        now apply replaced_non_elitist.
      - destruct likelihoods_Ok as (l & E1 & E2 & E3). unfold ml_update. apply wp_bind. eapply wp_on_mem.
        { rewrite EP, E1. cbn [bind]. rewrite EC, LC, Nat.leb_refl. cbn [assertb bind]. reflexivity. }
        set (bits := map _ (seq 0 n)). assert (LB : length bits = n) by (unfold bits; now rewrite map_length, seq_length).
        rewrite skipn_all2, app_nil_r by lia.
        eapply wp_mono; [apply (evaluate_center_wp (put_mem (put_center (bits, snd c) (a_mem s)) s) bits (snd c)); [reflexivity|assumption|assumption]| |].
        + cbn beta. cbn [put_mem a_trace a_sol a_last a_mem]. intros _ s' (F1 & F2 & F3 & F4 & F5 & F6 & F7). exists (bits, o_value o bits), [bits]. rewrite ER. cbn [fst snd].
          split; [|split; [assumption|split; [assumption|split; [assumption|split; [exact F7|split; [assumption|split; [assumption|split; [reflexivity|split; [assumption|congruence]]]]]]]]].
          apply replaced_ml; [assumption|]. intros i Hi. cbv zeta.
          assert (NB : nth i bits false = (if qltb (inject_Z (Z.of_nat sel)) (2 * nth i l 0%Q) then qltb (it_rate (a_mem s)) (1 # 2)
                        else if qltb (2 * nth i l 0%Q) (inject_Z (Z.of_nat sel)) then negb (qltb (it_rate (a_mem s)) (1 # 2)) else coin t i)).
          { unfold bits. rewrite (nth_map_lt _ _ _ false 0) by now rewrite seq_length. rewrite seq_nth by assumption. reflexivity. }
          rewrite NB. clear NB. specialize (E3 i).
          assert (R1 : qltb (it_rate (a_mem s)) (1 # 2) = true <-> (it_rate (a_mem s) < 1 # 2)%Q) by apply qltb_lt.
          split; [intros H; split|split; [intros H; split|intros H]].
          * destruct (qltb _ (2 * _)) eqn:Q1; [now apply R1|]. apply qltb_ge in Q1. lra.
          * intros R. assert (qltb (inject_Z (Z.of_nat sel)) (2 * nth i l 0%Q) = true) as -> by (apply qltb_lt; lra). now apply R1.
          * destruct (qltb _ (2 * _)) eqn:Q1; [apply qltb_lt in Q1; lra|]. destruct (qltb (2 * _) _) eqn:Q2; [|apply qltb_ge in Q2; lra].
            intros X R. apply R1 in R. rewrite R in *. discriminate.
          * assert (qltb (inject_Z (Z.of_nat sel)) (2 * nth i l 0%Q) = false) as -> by (apply qltb_ge; lra).
            assert (qltb (2 * nth i l 0%Q) (inject_Z (Z.of_nat sel)) = true) as -> by (apply qltb_lt; lra). intros R. destruct (qltb _ (1 # 2)); [exfalso; apply R, R1; reflexivity|reflexivity].
          * assert (qltb (inject_Z (Z.of_nat sel)) (2 * nth i l 0%Q) = false) as -> by (apply qltb_ge; lra).
            assert (qltb (2 * nth i l 0%Q) (inject_Z (Z.of_nat sel)) = false) as -> by (apply qltb_ge; lra). reflexivity.
        + cbn beta. intros e s' (-> & X). split; [exact X|]. exists bits. auto.
      - destruct (mask_likelihoods_Ok _ MK) as (l & E1 & E2 & E3). unfold incremental_ml_update. apply wp_bind, wp_get. apply wp_bind. eapply wp_lift; [exact E1|]. cbv zeta.
        set (less := qltb (it_rate (a_mem s)) (1 # 2)). set (op := if less then max_element else min_element).
        assert (N0 : 0 < n) by apply RK. assert (NL : l <> []) by (destruct l; [cbn in E2; lia|discriminate]).
        assert (OP : op l < length l /\ forall j, j < length l -> if less then (nth j l 0 <= nth (op l) l 0)%Q else (nth (op l) l 0 <= nth j l 0)%Q).
        { unfold op. destruct less; [now apply max_element_spec|now apply min_element_spec]. }
        destruct OP as (O1 & O2). destruct (sample_from_arg_Ok op (pick t) l NL O1 (HP t)) as (S1 & S2). set (i := if _ <? _ then _ else _) in *.
        apply filter_In in S2 as (S2 & S3). apply in_seq in S2. apply Qeq_bool_iff in S3.
        apply wp_bind. eapply wp_lift; [exact S1|]. apply wp_bind. apply wp_assert; [apply Nat.ltb_lt; lia|]. apply wp_bind. eapply wp_lift; [apply (vget_nth l i 0%Q); lia|].
        assert (EXT : forall j, j < n -> if Qlt_le_dec (it_rate (a_mem s)) (1 # 2) then (selected_total sel pool (moved_at (fst c) j) <= selected_total sel pool (moved_at (fst c) i))%Q
          else (selected_total sel pool (moved_at (fst c) i) <= selected_total sel pool (moved_at (fst c) j))%Q).
        { intros j Hj. specialize (O2 j ltac:(lia)). pose proof (E3 j) as Ej. pose proof (E3 i) as Ei. unfold less in O2. destruct (Qlt_le_dec (it_rate (a_mem s)) (1 # 2)) as [D|D].
          - assert (X : qltb (it_rate (a_mem s)) (1 # 2) = true) by now apply qltb_lt. rewrite X in O2. lra.
          - assert (X : qltb (it_rate (a_mem s)) (1 # 2) = false) by now apply qltb_ge. rewrite X in O2. lra. }
        assert (FLIP : ((if Qlt_le_dec (it_rate (a_mem s)) (1 # 2) then (inject_Z (Z.of_nat sel) < 2 * selected_total sel pool (moved_at (fst c) i))%Q else (2 * selected_total sel pool (moved_at (fst c) i) < inject_Z (Z.of_nat sel))%Q) \/
            ((2 * selected_total sel pool (moved_at (fst c) i) == inject_Z (Z.of_nat sel))%Q /\ flip t = true)) ->
          wp (flip_center o i) (fun _ s' => after_replacement s s')
            (fun e s' => (exists e', e = Some e' /\ o_stop o (length (a_trace s)) = Some e') /\ exists x, length x = n /\ s' = put_mem (put_center (x, snd c) (a_mem s)) s) s).
        { intros HF. unfold flip_center. apply wp_bind. eapply wp_on_mem. { rewrite EC, bv_flip_Ok by lia. cbn [bind]. reflexivity. }
          assert (LX : length (flip1 (fst c) i) = n) by now rewrite length_flip1.
          eapply wp_mono; [apply (evaluate_center_wp (put_mem (put_center (flip1 (fst c) i, snd c) (a_mem s)) s) (flip1 (fst c) i) (snd c)); [reflexivity|assumption|assumption]| |].
          + cbn beta. cbn [put_mem a_trace a_sol a_last a_mem]. intros _ s' (F1 & F2 & F3 & F4 & F5 & F6 & F7). exists (flip1 (fst c) i, o_value o (flip1 (fst c) i)), [flip1 (fst c) i]. rewrite ER. cbn [fst snd].
            split; [|split; [assumption|split; [assumption|split; [assumption|split; [exact F7|split; [assumption|split; [assumption|split; [reflexivity|split; [assumption|congruence]]]]]]]]].
            apply (replaced_flip _ _ _ _ _ _ _ _ i); [lia|exact EXT|exact HF].
          + cbn beta. intros e s' (-> & X). split; [exact X|]. eexists. split; [exact LX|]. reflexivity. }
        assert (STILL : ((if Qlt_le_dec (it_rate (a_mem s)) (1 # 2) then (2 * selected_total sel pool (moved_at (fst c) i) < inject_Z (Z.of_nat sel))%Q else (inject_Z (Z.of_nat sel) < 2 * selected_total sel pool (moved_at (fst c) i))%Q) \/
            ((2 * selected_total sel pool (moved_at (fst c) i) == inject_Z (Z.of_nat sel))%Q /\ flip t = false)) -> after_replacement s s).
        { intros HF. exists c, []. rewrite ER, app_nil_r, SAME. split; [|split; [reflexivity|split; [assumption|split; [reflexivity|split; [reflexivity|split; [assumption|split; [assumption|split; [assumption|split; [auto|congruence]]]]]]]]].
          apply (replaced_still _ _ _ _ _ _ _ _ i); [lia|exact EXT|exact HF]. }
        pose proof (E3 i) as E3i. unfold less in *. clear S1 S3 O1 O2 E1 E3 MK.
        destruct (Qlt_le_dec (it_rate (a_mem s)) (1 # 2)) as [D|D].
        + assert (X : qltb (it_rate (a_mem s)) (1 # 2) = true) by now apply qltb_lt. rewrite X.
          destruct (qltb _ (2 * _)) eqn:Q1; [apply qltb_lt in Q1; apply FLIP; left; lra|apply qltb_ge in Q1].
          destruct (Qeq_bool _ _) eqn:Q2.
          * apply Qeq_bool_iff in Q2. destruct (flip t) eqn:FT; [apply FLIP; right; split; [lra|reflexivity]|apply wp_ret, STILL; right; split; [lra|reflexivity]].
          * apply wp_ret, STILL. left. apply Qeq_bool_neq in Q2. assert (~ (2 * nth i l 0 == inject_Z (Z.of_nat sel))%Q) by exact Q2. lra.
        + assert (X : qltb (it_rate (a_mem s)) (1 # 2) = false) by now apply qltb_ge. rewrite X.
          destruct (qltb (2 * _) _) eqn:Q1; [apply qltb_lt in Q1; apply FLIP; left; lra|apply qltb_ge in Q1].
          destruct (Qeq_bool _ _) eqn:Q2.
          * apply Qeq_bool_iff in Q2. destruct (flip t) eqn:FT; [apply FLIP; right; split; [lra|reflexivity]|apply wp_ret, STILL; right; split; [lra|reflexivity]].
          * apply wp_ret, STILL. left. apply Qeq_bool_neq in Q2. assert (~ (2 * nth i l 0 == inject_Z (Z.of_nat sel))%Q) by exact Q2. lra.
      - apply wp_ret. exists c, []. rewrite ER, app_nil_r, SAME. split; [apply replaced_none|]. split; [reflexivity|]. split; [assumption|]. split; [reflexivity|]. split; [reflexivity|]. split; [assumption|]. split; [assumption|]. split; [assumption|]. split; [auto|congruence].
      - congruence.
    Qed.

    Lemma igo_update_wp (s : alg itea) (P : unit -> alg itea -> Prop) E : masked p (fst c) cls (it_masks (a_mem s)) ->
      (forall q, clamped (ip_min pr) (ip_max pr) (it_rate (a_mem s) + ip_learning pr * (rate_target n sel pool (fst c) - it_rate (a_mem s)))%Q q -> P tt (put_mem (put_rate q (a_mem s)) s)) ->
      wp (igo_update n pr cls) P E s.
    Proof.
      clear HD HSH HSO HP. intros MK HQ. destruct (target_Ok _ MK) as (q & E1 & E2). destruct ADM as (A1 & A2 & A3 & A4). assert (N0 : 0 < n) by apply RK.
      unfold igo_update. set (v := (it_rate (a_mem s) + ip_learning pr * (q / inject_Z (Z.of_nat (sel * n)) - it_rate (a_mem s)))%Q).
      eapply wp_on_mem.
      { rewrite E1. cbn [bind]. assert (0 < sel * n) by (apply Nat.mul_pos_pos; lia). rewrite (proj2 (Nat.ltb_lt _ _)) by assumption. cbn [assertb bind]. unfold clamp.
        assert (qltb (ip_max pr) (ip_min pr) = false) as -> by now apply qltb_ge. cbn [bind]. fold v. reflexivity. }
      apply HQ. unfold rate_target. assert (EV : (v == it_rate (a_mem s) + ip_learning pr * (selected_total sel pool (moves n (fst c)) / inject_Z (Z.of_nat (sel * n)) - it_rate (a_mem s)))%Q).
      { unfold v. rewrite E2. reflexivity. }
      revert EV. generalize v. intros v0 EV. unfold clamped. rewrite <- EV.
      destruct (qltb v0 (ip_min pr)) eqn:Q1; [apply qltb_lt in Q1|apply qltb_ge in Q1].
      - repeat split; intros; lra.
      - destruct (qltb (ip_max pr) v0) eqn:Q2; [apply qltb_lt in Q2|apply qltb_ge in Q2]; repeat split; intros; lra.
    Qed.
  End After.

  (** An iteration *)
  Definition it_inv (s : alg itea) : Prop :=
    it_sized size n s /\ allows (ip_allow pr) (it_nh (a_mem s)) /\ (snd (it_center (a_mem s)) <= snd (a_sol s))%Z /\
    snd (it_center (a_mem s)) = o_value o (fst (it_center (a_mem s))).

  Lemma it_generation_wp (s : alg itea) t : it_inv s -> top_of o (a_trace s) (a_sol s) ->
    forall (P : unit -> alg itea -> Prop) (E : option exn -> alg itea -> Prop) k,
    (forall L p h s', length L = size -> Forall (mutant (StandardBitMutation true (ip_allow pr)) n (fst (it_center (a_mem s)))) L -> ranked o size n L p ->
       nh_reachable n h Settled -> allows (ip_allow pr) h -> a_trace s' = a_trace s ++ L -> top_of o (a_trace s') (a_sol s') -> length (fst (a_sol s')) = n -> (snd (a_sol s) <= snd (a_sol s'))%Z ->
       a_mem s' = put_nh h (it_put p (a_mem s)) -> wp k P E s') ->
    (forall e s', lagging o size s' -> it_sized size n s' -> match e with Some e => o_stop o (length (a_trace s')) = Some e | None => True end -> E e s') ->
    wp (_ <~ amodify (fun s => put_mem (put_nh (nh_set_mutation_rate (it_nh (a_mem s)) (small (it_rate (a_mem s)))) (a_mem s)) s) ;;
        _ <~ afor (fun k => it_mutate k (d t k)) (seq 0 (pop_size (it_pop (a_mem s)))) ;;
        _ <~ (_ <~ eval_pop it_pop it_put o ;; _ <~ sort_pop it_pop it_put (shs t) srt ;; update_with_best it_pop) ;; k) P E s.
  Proof.
    clear HP ADM. intros ((W & M1 & M2 & NR & NS & LC & LS) & AL & CS & CV) TO P E k HK HE. pose proof W as (W1 & W2 & W3 & W4 & W5 & W6).
    apply wp_bind, wp_modify. unfold pop_size. rewrite W3.
    set (h0 := nh_set_mutation_rate _ _). set (s0 := put_mem _ s).
    assert (S0 : it_stage s 0 s0).
    { exists (p_bvs (it_pop (a_mem s))), h0. split; [|split; [assumption|split; [assumption|split; [now apply reach_rate|split; [now apply allows_rate|intros; lia]]]]].
      unfold s0. destruct s as [T sol last [[bs vs pm] ms h c y]]. reflexivity. }
    assert (SW : forall bs, length bs = size -> Forall (fun x => length x = n) bs -> well_formed size n (mk_pop bs (p_values (it_pop (a_mem s))) (p_perm (it_pop (a_mem s))))).
    { intros bs L1 L2. unfold well_formed. cbn [p_bvs p_values p_perm]. auto 10. }
    assert (STD : forall h, allows (ip_allow pr) h -> exists a b, nh_class h = StandardBitMutation a b). { intros h (a & Ha). eauto. }
    apply wp_bind. eapply wp_mono; [apply (wp_afor (fun k => it_mutate k (d t k)) (it_stage s) (it_left s) size 0 s0 S0)| |].
    { intros i s1 Hi H. apply it_mutate_wp; auto. lia. }
    2:{ cbn beta. intros e s1 (-> & i & Hi & bs & h & -> & L1 & L2 & L3 & L4 & L5). apply HE; [| |exact I].
        - apply lagging_top; [assumption|exact TO].
        - unfold it_sized. cbn [a_mem put_nh it_put it_pop it_masks it_nh it_center a_sol]. auto 12. }
    cbn beta. cbn [Nat.add]. intros _ s1 (bs & h & -> & L1 & L2 & L3 & L4 & L5). apply wp_bind.
    eapply wp_mono; [apply (evaluate_sort_wp it_pop it_put it_get_put it_put_put it_put_get o (shs t) srt (HSH t) HSO size n)| |].
    - apply SW; assumption.
    - exact TO.
    - cbn beta zeta. cbn [a_mem put_nh it_put it_pop p_bvs a_trace a_sol a_last]. intros _ s2 (T2 & TO2 & LA & LS2 & VS & p & MM & RK).
      apply (HK bs p h s2); auto.
      apply Forall_forall. intros y Hy. apply (In_nth _ _ []) in Hy as (j & Hj & <-). apply L5. lia.
    - cbn beta zeta. cbn [a_mem put_nh it_put it_pop p_bvs a_trace a_sol a_last]. intros e s2 (LG & (e' & -> & ST) & SOL & p & MM & WP & PB). apply HE; [assumption| |assumption].
      unfold it_sized. rewrite MM, SOL. cbn [a_mem put_nh it_put it_pop it_masks it_nh it_center a_sol]. auto 12.
  Qed.

  Lemma it_iterate_wp t (s : alg itea) : it_inv s -> top_of o (a_trace s) (a_sol s) ->
    wp (it_iterate o n pr small d shs srt coin pick flip t)
      (fun _ s' => it_inv s' /\ top_of o (a_trace s') (a_sol s') /\ it_step o n size pr (coin t) (flip t) s s' /\ (snd (a_sol s) <= snd (a_sol s'))%Z)
      (fun e s' => lagging o size s' /\ it_sized size n s' /\ match e with Some e => o_stop o (length (a_trace s')) = Some e | None => True end) s.
  Proof.
    intros INV TO. pose proof INV as ((W & M1 & M2 & NR & NS & LC & LS) & AL & CS & CV). unfold it_iterate. apply wp_bind, wp_get. cbn [fst snd].
    apply wp_bind. apply wp_assert; [now apply Z.leb_le|]. apply (it_generation_wp s t INV TO); [|auto].
    intros L p h s1 LL MU RK RH AH T1 TO1 LS1 VS MM. assert (S0 : 0 < size) by apply W.
    apply wp_bind, wp_get. rewrite MM. cbn [put_nh it_put it_pop].
    destruct (equivalence_class_Ok o size n L p RK (ip_selection pr) (proj1 ADM)) as (cls & E1 & CB & CW).
    apply wp_bind. eapply wp_lift; [exact E1|].
    destruct (compute_masks_Ok o size n L p (fst (it_center (a_mem s))) (it_masks (a_mem s)) (ip_selection pr) cls RK CB LC M1 M2) as (masks & E2 & K1 & K2 & K3).
    apply wp_bind. eapply wp_on_mem. { rewrite MM. cbn [put_nh it_put it_pop it_center it_masks]. rewrite E2. cbn [bind]. reflexivity. }
    set (m2 := put_masks masks _). assert (MK : masked p (fst (it_center (a_mem s))) cls masks) by (split; [assumption|split; assumption]).
    assert (WP : well_formed size n p) by apply RK.
    assert (STD : exists a b, nh_class h = StandardBitMutation a b) by (destruct AH as (a & Ha); eauto).
    apply wp_bind. eapply wp_mono; [apply (replace_center_wp t L p cls (it_center (a_mem s)) RK CB CW LC (put_mem m2 s1))| |].
    - reflexivity.
    - reflexivity.
    - exact MK.
    - exact TO1.
    - cbn [put_mem a_trace]. rewrite T1. intros y Hy. apply in_or_app. now right.
    - cbn [put_mem a_sol]. lia.
    - exact CV.
    - cbn beta. intros _ s3 (c' & ev & RP & T3 & TO3 & LA3 & MM3 & LC3 & CS3 & CV3 & LS3 & _). cbn [put_mem a_trace a_sol a_last a_mem] in *.
      assert (MK3 : masked p (fst (it_center (a_mem s))) cls (it_masks (a_mem s3))). { rewrite MM3. exact MK. }
      apply (igo_update_wp L p cls (it_center (a_mem s)) RK CB CW LC s3 _ _ MK3). intros q CL. cbn [put_mem a_trace a_sol a_mem].
      assert (VS3 : (snd (a_sol s1) <= snd (a_sol s3))%Z).
      { destruct TO1 as (I1 & I2 & _), TO3 as (_ & _ & I3). rewrite I2. apply I3. rewrite T3. apply in_or_app. now left. }
      split; [|split; [assumption|split; [|lia]]].
      + unfold it_inv, it_sized. cbn [put_mem a_sol a_mem]. rewrite MM3. unfold m2. cbn [put_rate put_center put_masks put_nh it_put it_pop it_masks it_nh it_center it_rate]. auto 15.
      + exists L, ev. cbv zeta. cbn [put_mem a_sol a_mem a_trace]. split; [assumption|]. split; [assumption|]. split; [rewrite T3, T1, app_assoc; reflexivity|].
        rewrite MM3 in CL |- *. unfold m2 in *. cbn [put_rate put_center put_masks put_nh it_put it_pop it_masks it_nh it_center it_rate] in *. split; [exact RP|exact CL].
    - cbn beta. intros e s3 ((e' & -> & ST) & x & LX & ->). cbn [put_mem a_trace a_sol a_mem] in *. split; [|split; [|exact ST]].
      + apply lagging_top; [assumption|exact TO1].
      + unfold it_sized. cbn [put_mem a_sol a_mem]. unfold m2. cbn [put_rate put_center put_masks put_nh it_put it_pop it_masks it_nh it_center it_rate fst]. auto 15.
  Qed.

  (** With elitist replacement the center has the value of the solution. *)
  Lemma elitist_value s s' c f : ip_replacement pr = Elitist -> top_of o (a_trace s) (a_sol s) -> top_of o (a_trace s') (a_sol s') -> it_step o n size pr c f s s' ->
    snd (it_center (a_mem s)) = snd (a_sol s) -> snd (it_center (a_mem s')) = snd (a_sol s').
  Proof.
    clear HD HSH HSO HP ADM. intros ER TO TO' (L & ev & L1 & L2 & L3 & L4 & _) V. cbv zeta in *. rewrite ER in L4. inversion L4 as [y c' (B1 & B2) C1 C2 X1 X2 X3| | | | | ]. subst. rewrite app_nil_r in L3.
    destruct TO as (I1 & I2 & I3), TO' as (J1 & J2 & J3). apply in_map_iff in B1 as (b & <- & Hb). cbn [snd fst] in *.
    assert (G1 : (o_value o b <= snd (a_sol s'))%Z). { apply J3. rewrite L3. apply in_or_app. now right. }
    assert (G2 : (snd (a_sol s) <= snd (a_sol s'))%Z). { rewrite I2. apply J3. rewrite L3. apply in_or_app. now left. }
    assert (G3 : (snd (a_sol s') <= snd (a_sol s))%Z \/ (snd (a_sol s') <= o_value o b)%Z).
    { rewrite L3 in J1. apply in_app_or in J1 as [J1|J1]; [left; rewrite J2; now apply I3|right]. rewrite J2. apply (B2 (fst (a_sol s'), o_value o (fst (a_sol s')))). apply in_map_iff. eauto. }
    destruct (Z_le_gt_dec (snd (it_center (a_mem s))) (o_value o b)) as [X|X].
    - rewrite C1 by assumption. cbn [snd]. lia.
    - rewrite C2 by lia. lia.
  Qed.

  (** What the runs keep *)
  Definition it_during (s : alg itea) : Prop :=
    it_inv s /\ (ip_replacement pr = Elitist -> snd (it_center (a_mem s)) = snd (a_sol s)) /\
    (ip_replacement pr = NoReplacement -> length (ones (fst (it_center (a_mem s)))) = ip_weight pr) /\
    (it_rate (a_mem s) = ip_init pr \/ (ip_min pr <= it_rate (a_mem s) <= ip_max pr)%Q).

  Lemma it_init_wp bit u (s : alg itea) : (forall i, 0 <= u i /\ u i < 1)%Q -> it_sized size n s -> a_trace s = [] ->
    wp (it_init o pr bit u) (fun _ s' => top_of o (a_trace s') (a_sol s') /\ it_during (put_last false s') /\ it_center (a_mem s') = a_sol s' /\ it_rate (a_mem s') = ip_init pr)
      (fun e s' => (exists e', e = Some e' /\ o_stop o (length (a_trace s')) = Some e') /\ a_trace s' = []) s.
  Proof.
    clear HD HSH HSO HP. intros HU (W & M1 & M2 & NR & NS & LC & LS) T. unfold it_init. destruct ADM as (A1 & A2 & A3 & A4).
    assert (RH : nh_reachable n (nh_set_allow_no_mutation (it_nh (a_mem s)) (ip_allow pr)) Settled) by now apply reach_allow.
    assert (AH : allows (ip_allow pr) (nh_set_allow_no_mutation (it_nh (a_mem s)) (ip_allow pr))).
    { destruct NS as (a & b & E). unfold allows, nh_set_allow_no_mutation. rewrite E. cbn. eauto. }
    assert (FIN : forall s1 : alg itea, top_of o (a_trace s1) (a_sol s1) -> length (fst (a_sol s1)) = n -> a_mem s1 = a_mem s -> (ip_replacement pr = NoReplacement -> length (ones (fst (a_sol s1))) = ip_weight pr) ->
      wp (amodify (fun s => put_mem (put_nh (nh_set_allow_no_mutation (it_nh (a_mem s)) (ip_allow pr)) (put_rate (ip_init pr) (put_center (a_sol s) (a_mem s)))) s))
       (fun _ s' => top_of o (a_trace s') (a_sol s') /\ it_during (put_last false s') /\ it_center (a_mem s') = a_sol s' /\ it_rate (a_mem s') = ip_init pr)
       (fun e s' => (exists e', e = Some e' /\ o_stop o (length (a_trace s')) = Some e') /\ a_trace s' = []) s1).
    { intros s1 TO1 LS1 MM1 WT. apply wp_modify. cbn [put_mem a_trace a_sol a_mem]. split; [assumption|]. rewrite MM1. split; [|split; reflexivity].
      destruct TO1 as (_ & VV & _). assert (STD : exists a b, nh_class (nh_set_allow_no_mutation (it_nh (a_mem s)) (ip_allow pr)) = StandardBitMutation a b) by (destruct AH as (a & Ha); eauto).
      unfold it_during, it_inv, it_sized. cbn [put_last put_mem a_sol a_mem put_rate put_center put_masks put_nh it_put it_pop it_masks it_nh it_center it_rate fst]. assert (snd (a_sol s1) <= snd (a_sol s1))%Z by lia. auto 20. }
    apply wp_bind. destruct (ip_replacement pr) eqn:ER.
    all: try (eapply wp_mono; [apply (random_solution_wp o n bit s T LS)| |auto]; cbn beta; intros _ s1 (TO1 & LS1 & _ & MM1); apply FIN; auto; congruence).
    apply wp_bind, wp_get. destruct (proj1 (bv_random_weight_exact (fst (a_sol s)) (ip_weight pr) u HU) ltac:(rewrite LS; auto)) as (r & c & E & R1 & R2).
    apply wp_bind. eapply wp_lift; [exact E|]. cbn [fst snd]. apply wp_bind, wp_modify. apply wp_bind. apply wp_evaluate.
    - cbn [put_sol a_trace]. intros e He. split; [eauto|exact T].
    - apply wp_modify. apply FIN; cbn [put_sol put_trace a_trace a_sol a_mem fst snd]; [|congruence|reflexivity|auto].
      rewrite T. split; [now left|]. split; [reflexivity|]. intros y [<-|[]]. cbn. lia.
  Qed.

  Lemma it_run bit u num fuel (s : alg itea) : (forall i, 0 <= u i /\ u i < 1)%Q -> it_sized size n s -> a_trace s = [] ->
    let '(r, s') := loop (it_init o pr bit u) (it_iterate o n pr small d shs srt coin pick flip) num fuel s in
    run_top o size r s' /\ (a_trace s' = [] \/ it_sized size n s') /\ (forall w, r = Ret w -> it_during s' /\ (a_last s' = true \/ (0 < num)%Z)).
  Proof.
    intros HU SZ T. assert (S0 : 0 < size) by apply SZ. apply (run_generic o size it_during (it_sized size n)); [assumption| | |].
    - eapply wp_mono; [apply (it_init_wp bit u s HU SZ T)| |].
      + cbn beta. intros _ s1 (H1 & H2 & _). auto.
      + cbn beta. intros e s1 (H1 & H2). auto.
    - intros s1 H. apply H.
    - intros i s1 (INV & EL & NW & RT) TO LA. eapply wp_mono; [apply (it_iterate_wp i s1 INV TO)| |].
      + cbn beta. intros _ s2 (INV2 & TO2 & ST & _). split; [assumption|]. split; [assumption|]. split; [intros ER; apply (elitist_value s1 s2 _ _ ER TO TO2 ST); auto|].
        destruct ST as (L & ev & S1 & S2 & S3 & S4 & S5). cbv zeta in *. split.
        * intros ER. rewrite ER in S4. inversion S4; subst. auto.
        * right. destruct ADM as (_ & A2 & _). destruct S5 as (C1 & C2 & C3). set (v := (it_rate _ + _)%Q) in *. clearbody v.
          destruct (Qlt_le_dec v (ip_min pr)) as [D1|D1]; [rewrite C1 by assumption; lra|]. destruct (Qlt_le_dec (ip_max pr) v) as [D2|D2]; [rewrite C3 by assumption; lra|]. rewrite C2 by lra. lra.
      + cbn beta. intros e s2 (H1 & H2 & H3). split; [assumption|]. split; assumption.
  Qed.
End ItEaProofs.

(** * Sums of shares *)

Lemma total_const (c : Q) m : forall a, (total (fun _ : nat => c) (seq a m) == c * inject_Z (Z.of_nat m))%Q.
Proof.
  induction m as [|m IH]; intros a; cbn [seq]; [rewrite total_nil; change (inject_Z (Z.of_nat 0)) with 0%Q; lra|].
  rewrite total_cons, IH. replace (Z.of_nat (S m)) with (Z.of_nat m + 1)%Z by lia. rewrite inject_Z_plus. change (inject_Z 1) with 1%Q. lra.
Qed.

Lemma shares_total o size n L p k : ranked o size n L p -> 1 <= k < size ->
  (selected_total k (map (fun x => (x, o_value o x)) L) (fun _ => 1) == inject_Z (Z.of_nat k))%Q.
Proof.
  intros RK Hk. destruct (equivalence_class_Ok o size n L p RK k Hk) as (cls & E & CB & CW).
  rewrite <- (ranks_total o size n L p RK k cls (fun _ => 1%Q) CW).
  assert (CC : match cls with Some (lo, hi, c) => (c * inject_Z (Z.of_nat hi - Z.of_nat lo) == inject_Z (Z.of_nat k - Z.of_nat lo))%Q | None => True end).
  { destruct cls as [[[lo hi] c]|]; [|exact I]. cbn in CB. unfold equivalence_class in E. rewrite (proj2 (Nat.leb_le 1 k)) in E by lia. cbn [assertb bind] in E.
    rewrite (value_Ok o size n L p RK), (value_Ok o size n L p RK) in E by lia. cbn [bind] in E. destruct (_ =? _)%Z; [|discriminate].
    apply bind_Ok in E as ([a b] & E1 & E). set (q := (_ / _)%Q) in E. destruct (_ && _); cbn [assertb bind] in E; [|discriminate]. apply Ok_inj in E. injection E as -> -> <-.
    unfold q. replace (Z.of_nat (k - 1) - Z.of_nat lo + 1)%Z with (Z.of_nat k - Z.of_nat lo)%Z by lia. field.
    change 0%Q with (inject_Z 0). intros X. apply (proj1 (inject_Z_injective _ _)) in X. lia. }
  destruct cls as [[[lo hi] c]|]; cbn [weight_of class_bounds] in *.
  - replace size with (lo + ((hi - lo) + (size - hi))) by lia. rewrite !seq_app, !total_app. cbn [Nat.add].
    rewrite (total_ext _ (fun _ => 1%Q) (seq 0 lo)). 2:{ intros x Hx. apply in_seq in Hx. cbv beta. rewrite (proj2 (Nat.ltb_lt _ _)) by lia. lra. }
    rewrite (total_ext _ (fun _ => c) (seq lo (hi - lo))). 2:{ intros x Hx. apply in_seq in Hx. cbv beta. rewrite (proj2 (Nat.ltb_ge _ _)), (proj2 (Nat.ltb_lt _ _)) by lia. lra. }
    rewrite (total_zero _ (seq (lo + (hi - lo)) _)). 2:{ intros x Hx. apply in_seq in Hx. cbv beta. rewrite (proj2 (Nat.ltb_ge _ _)), (proj2 (Nat.ltb_ge _ _)) by lia. lra. }
    rewrite !total_const. replace (Z.of_nat (hi - lo)) with (Z.of_nat hi - Z.of_nat lo)%Z by lia. rewrite CC.
    replace (Z.of_nat k) with (Z.of_nat lo + (Z.of_nat k - Z.of_nat lo))%Z at 2 by lia. rewrite inject_Z_plus. lra.
  - replace size with (k + (size - k)) by lia. rewrite seq_app, total_app. cbn [Nat.add].
    rewrite (total_ext _ (fun _ => 1%Q) (seq 0 k)). 2:{ intros x Hx. apply in_seq in Hx. cbv beta. rewrite (proj2 (Nat.ltb_lt _ _)) by lia. lra. }
    rewrite (total_zero _ (seq k _)). 2:{ intros x Hx. apply in_seq in Hx. cbv beta. rewrite (proj2 (Nat.ltb_ge _ _)) by lia. lra. }
    rewrite total_const. lra.
Qed.

Lemma share_bounds k pool v : (0 <= share k pool v <= 1)%Q.
Proof.
  unfold share. destruct (Nat.leb_spec (above v pool + equals v pool) k); [lra|]. destruct (Nat.leb_spec k (above v pool)); [lra|].
  assert (D : (0 < inject_Z (Z.of_nat (equals v pool)))%Q). { change 0%Q with (inject_Z 0). rewrite <- Zlt_Qlt. lia. }
  split; [apply Qle_shift_div_l|apply Qle_shift_div_r]; try assumption; [change 0%Q with (inject_Z 0)|change 1%Q with (inject_Z 1)]; rewrite <- inject_Z_mult, <- Zle_Qle; lia.
Qed.

Lemma shares_exact o n L k : 0 < n -> Forall (fun x => length x = n) L -> 1 <= k < length L ->
  (selected_total k (map (fun x => (x, o_value o x)) L) (fun _ => 1) == inject_Z (Z.of_nat k))%Q.
Proof.
  intros N F K. set (srt := insertion_sort). assert (SH : shuffles (fun l : list nat => l)) by (intros l; apply Permutation_refl).
  assert (W : well_formed (length L) n (mk_pop L (map (o_value o) L) (seq 0 (length L)))).
  { unfold well_formed. cbn. rewrite map_length. repeat split; auto; lia. }
  apply (shares_total o (length L) n L (pop_sort (fun l => l) srt (mk_pop L (map (o_value o) L) (seq 0 (length L)))) k); [|assumption].
  apply (ranked_sort o (fun l => l) srt SH insertion_sort_sorts (length L) n L _ W eq_refl eq_refl).
Qed.

(** * Constructor and misuses *)

Lemma it_make_Ok n size garbage : 0 < n -> 0 < size -> exists m, it_make n size garbage = Ok m /\ it_sized size n (mk_alg [] (repeat false n, 0%Z) false m).
Proof.
  intros N S0. unfold it_make. destruct (pop_make_wf size n S0 N) as (p & E & W). rewrite E. cbn [bind].
  destruct (nh_make (StandardBitMutation false false) n) as [h| |] eqn:EH; unfold nh_make in EH; rewrite (proj2 (Nat.ltb_lt 0 n) N) in EH; cbn [assertb bind] in EH; try discriminate.
  cbn [bind]. eexists. split; [reflexivity|]. unfold it_sized. cbn [a_mem it_pop it_masks it_nh it_center a_sol fst].
  split; [assumption|]. split; [apply repeat_length|]. split; [apply Forall_forall; intros x Hx; apply repeat_spec in Hx as ->; apply repeat_length|].
  split; [apply (reach_make n (StandardBitMutation false false)); unfold nh_make; rewrite (proj2 (Nat.ltb_lt 0 n) N); cbn [assertb bind]; exact EH|]. split; [apply Ok_inj in EH; subst h; cbn; eauto|]. split; apply repeat_length.
Qed.

Lemma default_admissible n size : 0 < n -> (it_admissible size n (it_default n) <-> 2 <= size /\ 2 <= n).
Proof.
  intros N. assert (D : (0 < inject_Z (Z.of_nat n))%Q). { change 0%Q with (inject_Z 0). rewrite <- Zlt_Qlt. lia. }
  assert (X : (1 / inject_Z (Z.of_nat n) <= 1 # 2)%Q <-> 2 <= n).
  { assert (E : ((1 # 2) * inject_Z (Z.of_nat n) == inject_Z (Z.of_nat n) / 2)%Q) by field. split; intros H.
    - assert (1 <= (1 # 2) * inject_Z (Z.of_nat n))%Q. { apply (Qmult_le_r _ _ (inject_Z (Z.of_nat n))) in H; [|assumption]. assert (1 / inject_Z (Z.of_nat n) * inject_Z (Z.of_nat n) == 1)%Q by (field; lra). lra. }
      assert (Y : (inject_Z 2 <= inject_Z (Z.of_nat n))%Q) by (change (inject_Z 2) with 2%Q; lra). rewrite <- Zle_Qle in Y. lia.
    - apply Qle_shift_div_r; [assumption|]. assert (Y : (inject_Z 2 <= inject_Z (Z.of_nat n))%Q) by (rewrite <- Zle_Qle; lia). change (inject_Z 2) with 2%Q in Y. lra. }
  unfold it_admissible, it_default. cbn [ip_selection ip_min ip_max ip_replacement ip_weight]. rewrite X. split; [intros ((A & B) & C & _); lia|]. intros (A & B). repeat split; try lia; discriminate.
Qed.

Section Misuse.
  Variables (o : objective) (n size : nat) (pr : it_params).
  Variables (small : Q -> bool) (d : nat -> nat -> draws) (shs : nat -> list nat -> list nat).
  Variable srt : (nat -> nat -> bool) -> list nat -> list nat.
  Variables (coin : nat -> nat -> bool) (pick : nat -> nat -> nat -> nat) (flip : nat -> bool).
  Hypothesis HD : fair_mutations n d.
  Hypothesis HSH : forall t, shuffles (shs t).
  Hypothesis HSO : sorts srt.
  Hypothesis HP : fair_picks pick.

  Lemma bind_split {St A B C D} (m1 : act St A) (m2 : act St B) (m3 : act St C) (k : act St D) s : (_ <~ m1 ;; _ <~ m2 ;; _ <~ m3 ;; k) s =
    let '(r, s') := (_ <~ m1 ;; _ <~ m2 ;; _ <~ m3 ;; aret tt) s in match r with Ret _ => k s' | Exc e => (Exc e, s') | Bad => (Bad, s') | Pending => (Pending, s') end.
  Proof.
    unfold abind, aret. destruct (m1 s) as [[x1|e1| |] s1]; try reflexivity. destruct (m2 s1) as [[x2|e2| |] s2]; try reflexivity. destruct (m3 s2) as [[x3|e3| |] s3]; reflexivity.
  Qed.

  Lemma misuse_generic (s : alg itea) t (R : res unit -> alg itea -> Prop) : it_valid o size n pr s -> never_stops o ->
    (forall s', R Pending s') ->
    (forall L p h s', length L = size -> ranked o size n L p -> a_trace s' = a_trace s ++ L -> top_of o (a_trace s') (a_sol s') -> (snd (a_sol s) <= snd (a_sol s'))%Z ->
       a_mem s' = put_nh h (it_put p (a_mem s)) ->
       let r := (m <~ aget a_mem ;;
         cls <~ lift (equivalence_class (ip_selection pr) (it_pop m)) ;;
         _ <~ on_mem (fun m =>
           masks <- compute_masks (ip_selection pr) cls (fst (it_center m)) (it_pop m) (it_masks m) ;;
           Ok (tt, put_masks masks m)) ;;
         _ <~ replace_center o n pr coin pick flip cls t ;;
         igo_update n pr cls) s' in R (fst r) (snd r)) ->
    let r := it_iterate o n pr small d shs srt coin pick flip t s in R (fst r) (snd r).
  Proof.
    clear HP. intros (SZ & AL & CS & CV & TO) NS RP HR.
    assert (INV : it_inv o n size pr s) by (split; [assumption|split; [assumption|split; assumption]]).
    pose proof (it_generation_wp o n size pr small d shs srt HD HSH HSO s t INV TO
      (fun _ s' => exists L p h, length L = size /\ ranked o size n L p /\ a_trace s' = a_trace s ++ L /\ top_of o (a_trace s') (a_sol s') /\ (snd (a_sol s) <= snd (a_sol s'))%Z /\ a_mem s' = put_nh h (it_put p (a_mem s)))
      (fun e _ => e = None) (aret tt)) as G.
    assert (G' := G ltac:(intros L p h s' H1 H2 H3 H4 H5 H6 H7 H8 H9 H10; apply wp_ret; exists L, p, h; auto 10)
                    ltac:(intros e s' _ _ H; destruct e as [e|]; [rewrite (NS _) in H; discriminate|reflexivity])).
    clear G. apply wp_result in G'.
    match goal with |- let r := ?x in _ => assert (E0 : x = (_ <~ amodify (fun s => put_mem (put_nh (nh_set_mutation_rate (it_nh (a_mem s)) (small (it_rate (a_mem s)))) (a_mem s)) s) ;;
        _ <~ afor (fun k => it_mutate k (d t k)) (seq 0 (pop_size (it_pop (a_mem s)))) ;;
        _ <~ (_ <~ eval_pop it_pop it_put o ;; _ <~ sort_pop it_pop it_put (shs t) srt ;; update_with_best it_pop) ;;
        m <~ aget a_mem ;;
         cls <~ lift (equivalence_class (ip_selection pr) (it_pop m)) ;;
         _ <~ on_mem (fun m =>
           masks <- compute_masks (ip_selection pr) cls (fst (it_center m)) (it_pop m) (it_masks m) ;;
           Ok (tt, put_masks masks m)) ;;
         _ <~ replace_center o n pr coin pick flip cls t ;;
         igo_update n pr cls) s) end.
    { unfold it_iterate, abind, aget, aassert. cbn [fst snd]. rewrite (proj2 (Z.leb_le _ _)) by assumption. reflexivity. }
    rewrite E0, bind_split. clear E0. destruct ((_ <~ amodify _ ;; _) s) as [[x|e| |] s']; [|discriminate|contradiction|apply RP].
    destruct G' as (L & p & h & H1 & H2 & H3 & H4 & H5 & H6). apply (HR L p h s'); assumption.
  Qed.

  (** The selection must be smaller than the population. *)
  Lemma misuse_selection t (s : alg itea) : it_valid o size n pr s -> never_stops o -> ip_selection pr = 0 \/ size <= ip_selection pr ->
    let r := fst (it_iterate o n pr small d shs srt coin pick flip t s) in r = Bad \/ r = Pending.
  Proof.
    clear HP. intros V NS HS. refine (misuse_generic s t (fun r _ => r = Bad \/ r = Pending) V NS (fun _ => or_intror eq_refl) _).
    intros L p h s' LL RK T' TO' VS MM. left.
    assert (EQ : equivalence_class (ip_selection pr) p = UB).
    { unfold equivalence_class. destruct HS as [->|HS]; [reflexivity|]. assert (1 <= ip_selection pr). { assert (0 < size) by apply RK. lia. }
      rewrite (proj2 (Nat.leb_le _ _)) by assumption. cbn [assertb bind].
      assert (OUT : forall i, size <= i -> best_value p i = UB).
      { intros i Hi. unfold best_value, best_index. rewrite (ranked_length o size n L p RK), (proj2 (Nat.ltb_ge _ _)) by lia. reflexivity. }
      destruct (Nat.lt_ge_cases (ip_selection pr - 1) size) as [H1|H1].
      - rewrite (value_Ok o size n L p RK) by assumption. cbn [bind]. rewrite OUT by lia. reflexivity.
      - rewrite OUT by assumption. reflexivity. }
    unfold abind at 1, aget at 1. rewrite MM. cbn [put_nh it_put it_pop]. rewrite EQ. reflexivity.
  Qed.

  (** Up to the replacement *)
  Lemma masks_run L p h (s s' : alg itea) {A} (k : option (nat * nat * Q) -> act (alg itea) A) : it_valid o size n pr s -> 1 <= ip_selection pr < size ->
    ranked o size n L p -> a_mem s' = put_nh h (it_put p (a_mem s)) ->
    exists cls masks, class_bounds size (ip_selection pr) cls /\
      (forall i, i < size -> (weight_of (ip_selection pr) cls i == share (ip_selection pr) (map (fun x => (x, o_value o x)) L) (value_at p i))%Q) /\
      masked n size pr p (fst (it_center (a_mem s))) cls masks /\
      (m <~ aget a_mem ;;
         cls <~ lift (equivalence_class (ip_selection pr) (it_pop m)) ;;
         _ <~ on_mem (fun m =>
           masks <- compute_masks (ip_selection pr) cls (fst (it_center m)) (it_pop m) (it_masks m) ;;
           Ok (tt, put_masks masks m)) ;;
         k cls) s' = k cls (put_mem (put_masks masks (put_nh h (it_put p (a_mem s)))) s').
  Proof.
    clear HP HD HSH HSO. intros (SZ & AL & CS & CV & TO) SEL RK MM. pose proof SZ as (W & M1 & M2 & NR & NS & LC & LS).
    destruct (equivalence_class_Ok o size n L p RK (ip_selection pr) SEL) as (cls & E1 & CB & CW).
    destruct (compute_masks_Ok o size n L p (fst (it_center (a_mem s))) (it_masks (a_mem s)) (ip_selection pr) cls RK CB LC M1 M2) as (masks & E2 & K1 & K2 & K3).
    exists cls, masks. split; [assumption|]. split; [assumption|]. split; [split; [assumption|split; assumption]|].
    unfold abind, aget, lift, on_mem. rewrite MM. cbn [put_nh it_put it_pop it_center it_masks]. rewrite E1. cbn [of_outcome]. rewrite ?MM. cbn [put_nh it_put it_pop it_center it_masks]. rewrite E2. cbn [bind]. reflexivity.
  Qed.

  Lemma misuse_replacement t (s : alg itea) : it_valid o size n pr s -> never_stops o -> 1 <= ip_selection pr < size -> ip_replacement pr = OtherReplacement ->
    let r := it_iterate o n pr small d shs srt coin pick flip t s in
    (fst r = Exc RuntimeError /\ exists L, length L = size /\ a_trace (snd r) = a_trace s ++ L) \/ fst r = Pending.
  Proof.
    clear HP. intros V NS SEL ER.
    refine (misuse_generic s t (fun r s' => (r = Exc RuntimeError /\ exists L, length L = size /\ a_trace s' = a_trace s ++ L) \/ r = Pending) V NS (fun _ => or_intror eq_refl) _).
    intros L p h s' LL RK T' TO' VS MM. left.
    destruct (masks_run L p h s s' (fun cls => _ <~ replace_center o n pr coin pick flip cls t ;; igo_update n pr cls) V SEL RK MM) as (cls & masks & _ & _ & _ & E).
    rewrite E. unfold abind, replace_center. rewrite ER. cbn [athrow fst snd put_mem a_trace]. split; [reflexivity|]. eauto.
  Qed.

  Lemma misuse_bounds t (s : alg itea) : it_valid o size n pr s -> never_stops o -> 1 <= ip_selection pr < size -> ip_replacement pr <> OtherReplacement -> (ip_max pr < ip_min pr)%Q ->
    let r := fst (it_iterate o n pr small d shs srt coin pick flip t s) in r = Bad \/ r = Pending.
  Proof.
    intros V NS SEL ER BND. refine (misuse_generic s t (fun r _ => r = Bad \/ r = Pending) V NS (fun _ => or_intror eq_refl) _).
    intros L p h s' LL RK T' TO' VS MM. left.
    destruct (masks_run L p h s s' (fun cls => _ <~ replace_center o n pr coin pick flip cls t ;; igo_update n pr cls) V SEL RK MM) as (cls & masks & CB & CW & MK & E).
    rewrite E. clear E. destruct V as (SZ & AL & CS & CV & TO). pose proof SZ as (W & M1 & M2 & NR & NSD & LC & LS).
    set (pr' := mk_it_params (ip_selection pr) (ip_learning pr) (ip_init pr) 0%Q 0%Q 0 (ip_replacement pr) (ip_allow pr)).
    assert (ADM : it_admissible size n pr'). { unfold it_admissible, pr'. cbn. repeat split; try lia; auto. lra. }
    set (s1 := put_mem _ s').
    assert (WP := replace_center_wp o n size pr' coin pick flip HP ADM t L p cls (it_center (a_mem s)) RK CB CW LC s1 eq_refl eq_refl MK TO'
      ltac:(intros y Hy; cbn [s1 put_mem a_trace]; rewrite T'; apply in_or_app; now right) ltac:(cbn [s1 put_mem a_sol]; lia) CV).
    apply wp_result in WP. change (replace_center o n pr' coin pick flip cls t) with (replace_center o n pr coin pick flip cls t) in WP.
    unfold abind. destruct (replace_center o n pr coin pick flip cls t s1) as [[x|e| |] s2].
    - destruct WP as (c' & ev & _ & _ & _ & _ & MM2 & _). unfold igo_update, on_mem. rewrite MM2.
      destruct (target_Ok o n size pr L p cls (it_center (a_mem s)) RK CB CW LC masks MK) as (q & E1 & _).
      cbn [s1 put_mem a_mem put_center put_masks it_masks it_rate]. rewrite E1. cbn [bind]. assert (N0 : 0 < n) by apply RK.
      assert (0 < ip_selection pr * n) by (apply Nat.mul_pos_pos; lia). rewrite (proj2 (Nat.ltb_lt _ _)) by assumption. cbn [assertb bind]. unfold clamp.
      assert (qltb (ip_max pr) (ip_min pr) = true) as -> by now apply qltb_lt. reflexivity.
    - destruct WP as ((e' & _ & ST) & _). rewrite (NS _) in ST. discriminate.
    - contradiction.
    - destruct WP as ((e' & X & _) & _). discriminate.
  Qed.

  Lemma misuse_weight bit u (s : alg itea) : length (fst (a_sol s)) = n -> ip_replacement pr = NoReplacement -> n < ip_weight pr -> fst (it_init o pr bit u s) = Bad.
  Proof.
    clear HD HSH HSO HP. intros LS ER W. unfold it_init. rewrite ER. unfold abind at 1 2, aget at 1. unfold abind at 1, lift, bv_random_weight.
    rewrite LS, (proj2 (Nat.leb_gt _ _)) by assumption. reflexivity.
  Qed.
End Misuse.
