(** Proofs about Walsh expansions, Ising models and incremental evaluation. *)

From Coq Require Import ZArith NArith Permutation Sorted.
From Verif Require Import Base BaseLemmas BitVector_Model BitVector_Spec GF2 BitVector_Proofs SortedLemmas
  Iterator_Model Iterator_Proofs Theory_Model Function_Spec Theory_Proofs Sums Walsh_Model.
Local Open Scope nat_scope.

(** * Flipped vectors *)

Lemma length_flipped_at x l : length (flipped_at x l) = length x.
Proof. unfold flipped_at. now rewrite map_length, seq_length. Qed.

Lemma nth_flipped_at x l i : i < length x -> nth i (flipped_at x l) false = xorb (memb l i) (nth i x false).
Proof.
  intros H. unfold flipped_at. rewrite nth_map_seq by assumption. unfold memb.
  destruct (in_dec _ _ _); destruct (nth i x false); reflexivity.
Qed.

Lemma spin_xorb a b : spin (xorb a b) = (spin a * spin b)%Z.
Proof. destruct a, b; reflexivity. Qed.

Lemma spin_sq b : (spin b * spin b)%Z = 1%Z.
Proof. destruct b; reflexivity. Qed.

(** Contribution of a sum of fields. *)
Lemma field_delta n (h : nat -> Z) x l : length x = n -> positions n l ->
  (sum_n n (fun i => h i * spin (nth i (flipped_at x l) false)) =
   sum_n n (fun i => h i * spin (nth i x false)) + sum_over l (fun i => - 2 * h i * spin (nth i x false)))%Z.
Proof.
  intros Hx [N F]. rewrite Forall_forall in F. rewrite (sum_subset n l) by assumption.
  unfold sum_n. fold (sum_over (seq 0 n) (fun i => (h i * spin (nth i (flipped_at x l) false))%Z)).
  fold (sum_over (seq 0 n) (fun i => (h i * spin (nth i x false))%Z)).
  rewrite <- sum_add. apply sum_ext. intros i Hi. apply in_seq in Hi.
  rewrite nth_flipped_at by lia. rewrite spin_xorb. destruct (memb l i); cbn [spin]; lia.
Qed.

(** Contribution of the edges: [right e] is the second end of the edge starting
    at [e], and [left] is its inverse. *)
Definition edge_term (x : list bool) (J : nat -> Z) (right : nat -> option nat) (e : nat) : Z :=
  match right e with Some r => (J e * spin (nth e x false) * spin (nth r x false))%Z | None => 0%Z end.

Definition right_delta x J (right : nat -> option nat) (l : list nat) (i : nat) : Z :=
  match right i with
  | Some r => if memb l r then 0%Z else (- 2 * (J i * spin (nth i x false) * spin (nth r x false)))%Z
  | None => 0%Z
  end.

Definition left_delta x J (left : nat -> option nat) (l : list nat) (i : nat) : Z :=
  match left i with
  | Some e => if memb l e then 0%Z else (- 2 * (J e * spin (nth e x false) * spin (nth i x false)))%Z
  | None => 0%Z
  end.

Lemma edge_delta n J right left x l : length x = n -> positions n l ->
  (forall e r, e < n -> right e = Some r -> r < n) ->
  (forall i e, i < n -> left i = Some e -> e < n) ->
  (forall e i, e < n -> i < n -> (right e = Some i <-> left i = Some e)) ->
  (sum_n n (edge_term (flipped_at x l) J right) =
   sum_n n (edge_term x J right) + sum_over l (right_delta x J right l) + sum_over l (left_delta x J left l))%Z.
Proof.
  intros Hx [N F] Hr Hl Hrl. rewrite Forall_forall in F.
  rewrite !(sum_subset n l) by assumption.
  (* left sum as a sum over edges *)
  assert (EL : sum_over (seq 0 n) (fun i => if memb l i then left_delta x J left l i else 0%Z) =
    sum_over (seq 0 n) (fun e => match right e with
      | Some i => if memb l i then (if memb l e then 0 else - 2 * (J e * spin (nth e x false) * spin (nth i x false))) else 0
      | None => 0 end)%Z).
  { set (t := fun i e => (if memb l i then (if memb l e then 0 else - 2 * (J e * spin (nth e x false) * spin (nth i x false))) else 0)%Z).
    rewrite (sum_ext _ _ (fun i => sum_over (seq 0 n) (fun e => match left i with Some e' => if Nat.eq_dec e' e then t i e else 0%Z | None => 0%Z end))).
    - rewrite sum_swap. apply sum_ext. intros e He. apply in_seq in He. destruct (right e) as [i|] eqn:R.
      + assert (Hi : i < n) by (apply (Hr e); [lia|assumption]).
        rewrite (sum_single Nat.eq_dec (seq 0 n) i).
        * apply Hrl in R; [|lia|assumption]. rewrite R. destruct (Nat.eq_dec e e); [reflexivity|congruence].
        * apply seq_NoDup.
        * apply in_seq. lia.
        * intros b Hb Hne. apply in_seq in Hb. destruct (left b) as [e'|] eqn:L; [|reflexivity].
          destruct (Nat.eq_dec e' e) as [->|]; [|reflexivity]. exfalso. apply Hne.
          apply Hrl in L; [|lia|lia]. congruence.
      + apply sum_zero. intros i Hi. apply in_seq in Hi. destruct (left i) as [e'|] eqn:L; [|reflexivity].
        destruct (Nat.eq_dec e' e) as [->|]; [|reflexivity]. apply Hrl in L; [congruence|lia|lia].
    - intros i Hi. apply in_seq in Hi. unfold left_delta. destruct (left i) as [e|] eqn:L.
      + assert (He : e < n) by (apply (Hl i); [lia|assumption]).
        rewrite (sum_single Nat.eq_dec (seq 0 n) e).
        * destruct (Nat.eq_dec e e); [|congruence]. unfold t. reflexivity.
        * apply seq_NoDup.
        * apply in_seq. lia.
        * intros b _ Hne. destruct (Nat.eq_dec e b); [congruence|reflexivity].
      + rewrite sum_zero; [now destruct (memb l i)|reflexivity]. }
  rewrite EL. clear EL. unfold sum_n. fold (sum_over (seq 0 n) (edge_term (flipped_at x l) J right)).
  fold (sum_over (seq 0 n) (edge_term x J right)). rewrite <- !sum_add. apply sum_ext. intros e He. apply in_seq in He.
  unfold edge_term, right_delta. destruct (right e) as [r|] eqn:R; [|now destruct (memb l e)].
  assert (r < n) by (apply (Hr e); [lia|assumption]).
  rewrite !nth_flipped_at by lia. rewrite !spin_xorb.
  destruct (memb l e), (memb l r); cbn [spin]; try lia; try ring.
Qed.

(** * Linear functions and OneMax *)

Theorem onemax_incremental_right x l : positions (length x) l ->
  incremental_right (fun x => Ok (onemax_evaluate x)) onemax_incremental x l.
Proof.
  intros P. assert (P' := P). destruct P' as [N F]. rewrite Forall_forall in F.
  exists (onemax_evaluate x), (onemax_evaluate (flipped_at x l)). split; [reflexivity|]. split; [|reflexivity].
  unfold onemax_incremental.
  rewrite (foldM_add _ (fun i => spin (nth i x false))).
  - cbn [bind]. f_equal. rewrite Z.add_0_l. unfold onemax_evaluate. rewrite !bv_hamming_weight_spec.
    assert (W : forall y, (Z.of_nat (length y) - 2 * Z.of_nat (weight y) = sum_n (length y) (fun i => 1 * spin (nth i y false)))%Z).
    { clear. induction y as [|b y IH]; [reflexivity|]. rewrite weight_cons. unfold sum_n in *. cbn [length seq map].
      rewrite <- seq_shift, map_map. cbn [zsum fold_right nth]. unfold zsum in IH. cbn [nth] in *.
      destruct b; cbn [spin] in *; lia. }
    pose proof (W x) as W1. pose proof (W (flipped_at x l)) as W2. rewrite length_flipped_at in W2.
    rewrite (field_delta (length x) (fun _ => 1%Z) x l eq_refl P) in W2.
    assert (S : sum_over l (fun i => - 2 * 1 * spin (nth i x false))%Z = (- 2 * sum_over l (fun i => spin (nth i x false)))%Z).
    { rewrite <- sum_scale. reflexivity. }
    lia.
  - intros i r Hi. rewrite (vget_Ok x i false) by auto. cbn [bind]. destruct (nth i x false); cbn [spin]; f_equal; lia.
Qed.

Lemma linear_value_sum w x : length x = length w ->
  linear_value w x = sum_n (length w) (fun i => if nth i x false then nth i w 0%Z else 0%Z).
Proof.
  unfold linear_value, sum_n. revert x; induction w as [|a w IH]; intros [|b x] H; try discriminate; [reflexivity|].
  injection H as H. cbn [map2 length seq map]. rewrite <- seq_shift, map_map. cbn [zsum fold_right nth].
  specialize (IH x H). unfold zsum in IH. rewrite IH. reflexivity.
Qed.

Theorem linear_incremental_right w x l : length x = length w -> positions (length w) l ->
  incremental_right (linear_evaluate w) (linear_incremental w) x l.
Proof.
  intros Hx [N F]. rewrite Forall_forall in F.
  exists (linear_value w x), (linear_value w (flipped_at x l)).
  split; [now apply linear_evaluate_Ok|]. split; [|apply linear_evaluate_Ok; now rewrite length_flipped_at].
  unfold linear_incremental.
  rewrite (foldM_add _ (fun i => if nth i x false then - nth i w 0 else nth i w 0)%Z).
  - f_equal. rewrite !linear_value_sum by (rewrite ?length_flipped_at; assumption).
    rewrite (sum_subset (length w) l) by assumption. unfold sum_n.
    change (sum_over (seq 0 (length w)) (fun i => if nth i x false then nth i w 0 else 0)%Z +
      sum_over (seq 0 (length w)) (fun i => if memb l i then if nth i x false then - nth i w 0 else nth i w 0 else 0) =
      sum_over (seq 0 (length w)) (fun i => if nth i (flipped_at x l) false then nth i w 0 else 0))%Z.
    rewrite <- sum_add. apply sum_ext. intros i Hi. apply in_seq in Hi. rewrite nth_flipped_at by lia.
    destruct (memb l i), (nth i x false); cbn [xorb]; lia.
  - intros i r Hi. rewrite (vget_Ok x i false), (vget_Ok w i 0%Z) by (rewrite ?Hx; auto). cbn [bind].
    destruct (nth i x false); f_equal; lia.
Qed.

(** * Walsh expansions of degrees 1 and 2 *)

Lemma spin_loop_Ok a s is_ r : (forall i, In i is_ -> i < length a /\ i < length s) ->
  spin_loop a s is_ r = Ok (r + sum_over is_ (fun i => nth i a 0 * spin (nth i s false)))%Z.
Proof.
  intros H. unfold spin_loop. apply foldM_add. intros i r' Hi. destruct (H i Hi).
  rewrite (vget_Ok s i false), (vget_Ok a i 0%Z) by assumption. cbn [bind]. destruct (nth i s false); cbn [spin]; f_equal; lia.
Qed.

Lemma spin_incremental_Ok a x l v : (forall i, In i l -> i < length a /\ i < length x) ->
  spin_incremental a x l v = Ok (v + sum_over l (fun i => - 2 * nth i a 0 * spin (nth i x false)))%Z.
Proof.
  intros H. unfold spin_incremental. apply foldM_add. intros i r' Hi. destruct (H i Hi).
  rewrite (vget_Ok x i false), (vget_Ok a i 0%Z) by assumption. cbn [bind]. destruct (nth i x false); cbn [spin]; f_equal; lia.
Qed.

Theorem walsh1_value a s : length s = length a ->
  walsh1_evaluate a s = Ok (sum_n (length a) (fun i => nth i a 0 * spin (nth i s false)))%Z.
Proof.
  intros H. unfold walsh1_evaluate. rewrite H, Nat.eqb_refl. cbn [assertb bind].
  rewrite spin_loop_Ok by (intros i Hi; apply in_seq in Hi; lia). f_equal.
Qed.

Theorem walsh1_incremental_right a x l : length x = length a -> positions (length a) l ->
  incremental_right (walsh1_evaluate a) (walsh1_incremental a) x l.
Proof.
  intros Hx P. assert (P' := P). destruct P' as [N F]. rewrite Forall_forall in F.
  eexists. eexists. split; [now apply walsh1_value|]. split.
  - unfold walsh1_incremental. rewrite Hx, Nat.eqb_refl. cbn [assertb bind].
    rewrite spin_incremental_Ok; [reflexivity|]. intros i Hi. specialize (F i Hi). lia.
  - rewrite walsh1_value by (now rewrite length_flipped_at). rewrite (field_delta (length a) (fun i => nth i a 0%Z) x l Hx P). reflexivity.
Qed.

Lemma walsh1_maximum_sum a : walsh1_maximum a = sum_n (length a) (fun i => Z.abs (nth i a 0%Z)).
Proof.
  unfold walsh1_maximum, sum_n.
  enough (G : forall r, fold_left (fun result w => if (0 <? w)%Z then (result + w)%Z else (result - w)%Z) a r =
    (r + zsum (map (fun i => Z.abs (nth i a 0%Z)) (seq 0 (length a))))%Z) by (rewrite G; lia).
  induction a as [|c a IH]; intros r; [cbn; lia|]. cbn [fold_left length seq map].
  rewrite <- seq_shift, map_map. rewrite IH. cbn [zsum fold_right nth]. unfold zsum. destruct (Z.ltb_spec 0 c); lia.
Qed.

Lemma sum_le {A} (l : list A) f g : (forall a, In a l -> (f a <= g a)%Z) -> (sum_over l f <= sum_over l g)%Z.
Proof.
  induction l as [|a l IH]; intros H; [cbn; lia|]. rewrite !sum_cons.
  pose proof (H a (or_introl eq_refl)). specialize (IH (fun b Hb => H b (or_intror Hb))). lia.
Qed.

Theorem walsh1_max a : is_maximum (length a) (walsh1_evaluate a) (walsh1_maximum a).
Proof.
  rewrite walsh1_maximum_sum. split.
  - intros x Hx. rewrite walsh1_value by assumption. eexists. split; [reflexivity|].
    apply sum_le. intros i _. destruct (nth i x false); cbn [spin]; lia.
  - exists (map (fun c => (c <? 0)%Z) a). rewrite map_length. split; [reflexivity|].
    rewrite walsh1_value by apply map_length. f_equal. apply sum_ext. intros i Hi. apply in_seq in Hi.
    rewrite (nth_indep (map (fun c => (c <? 0)%Z) a) false ((fun c => (c <? 0)%Z) 0%Z)) by (rewrite map_length; lia).
    rewrite (map_nth (fun c => (c <? 0)%Z)). destruct (Z.ltb_spec (nth i a 0%Z) 0); cbn [spin]; lia.
Qed.

Theorem walsh2_value a q s : length s = length a -> length s = length q ->
  (forall i, i < length q -> i <= length (nth i q [])) ->
  walsh2_evaluate a q s =
    Ok (sum_n (length s) (fun i => nth i a 0 * spin (nth i s false)) +
        sum_n (length s) (fun i => sum_n i (fun j => nth j (nth i q []) 0 * spin (nth i s false) * spin (nth j s false))))%Z.
Proof.
  intros Ha Hq Hw. unfold walsh2_evaluate. rewrite <- Ha, <- Hq, Nat.eqb_refl. cbn [assertb bind].
  rewrite spin_loop_Ok by (intros i Hi; apply in_seq in Hi; lia). cbn [bind].
  rewrite (foldM_add _ (fun i => sum_n i (fun j => nth j (nth i q []) 0 * spin (nth i s false) * spin (nth j s false))%Z)).
  - reflexivity.
  - intros i r Hi. apply in_seq in Hi. rewrite (vget_Ok q i []), (vget_Ok s i false) by lia. cbn [bind].
    apply foldM_add. intros j r' Hj. apply in_seq in Hj. specialize (Hw i ltac:(lia)).
    rewrite (vget_Ok s j false), (vget_Ok (nth i q []) j 0%Z) by lia. cbn [bind].
    destruct (nth i s false), (nth j s false); cbn [Bool.eqb spin]; f_equal; lia.
Qed.

(** * Ising model in one dimension *)

Lemma couple_Ok s a b c r : a < length s -> b < length s ->
  couple s a b c r = Ok (r + c * spin (nth a s false) * spin (nth b s false))%Z.
Proof.
  intros Ha Hb. unfold couple. rewrite (vget_Ok s a false), (vget_Ok s b false) by assumption. cbn [bind].
  destruct (nth a s false), (nth b s false); cbn [Bool.eqb spin]; f_equal; lia.
Qed.

Lemma couple_incremental_Ok x flips i b c z v : i < length x -> b < length x -> b < length flips -> c = Ok z ->
  couple_incremental x flips i b c v =
    Ok (v + (if nth b flips false then 0 else - 2 * (z * spin (nth i x false) * spin (nth b x false))))%Z.
Proof.
  intros Hi Hb Hf ->. unfold couple_incremental. rewrite (vget_Ok flips b false) by assumption. cbn [bind].
  destruct (nth b flips false); [f_equal; lia|].
  rewrite (vget_Ok x i false), (vget_Ok x b false) by assumption. cbn [bind].
  destruct (nth i x false), (nth b x false); cbn [Bool.eqb spin]; f_equal; lia.
Qed.

Theorem ising1_value J h per s : 0 < length J -> length h = length J -> length s = length J ->
  ising1_evaluate J h per s =
    Ok (sum_n (length J - 1) (fun i => nth i J 0 * spin (nth i s false) * spin (nth (i + 1) s false)) +
        (if per then nth (length J - 1) J 0 * spin (nth (length J - 1) s false) * spin (nth 0 s false) else 0) +
        sum_n (length J) (fun i => nth i h 0 * spin (nth i s false)))%Z.
Proof.
  intros HJ Hh Hs. unfold ising1_evaluate. destruct (Nat.ltb_spec 0 (length J)); [|lia].
  rewrite Hs, Nat.eqb_refl. cbn [assertb bind].
  rewrite (foldM_add _ (fun i => nth i J 0 * spin (nth i s false) * spin (nth (i + 1) s false))%Z).
  - cbn [bind]. assert (Q : forall r, (if per then c <- vget J (length J - 1) ;; couple s (length J - 1) 0 c r else Ok r) =
      Ok (r + (if per then nth (length J - 1) J 0 * spin (nth (length J - 1) s false) * spin (nth 0 s false) else 0))%Z).
    { intros r. destruct per; [|f_equal; lia]. rewrite (vget_Ok J (length J - 1) 0%Z) by lia. cbn [bind].
      rewrite couple_Ok by lia. reflexivity. }
    rewrite Q. cbn [bind]. rewrite spin_loop_Ok by (intros i Hi; apply in_seq in Hi; lia).
    unfold sum_n, sum_over. f_equal.
  - intros i r Hi. apply in_seq in Hi. rewrite (vget_Ok J i 0%Z) by lia. cbn [bind]. apply couple_Ok; lia.
Qed.

Definition right1 (n : nat) (per : bool) (e : nat) : option nat :=
  if e =? n - 1 then (if per then Some 0 else None) else Some (e + 1).
Definition left1 (n : nat) (per : bool) (i : nat) : option nat :=
  if i =? 0 then (if per then Some (n - 1) else None) else Some (i - 1).

Lemma ising1_value_edges J h per s : 0 < length J -> length h = length J -> length s = length J ->
  ising1_evaluate J h per s =
    Ok (sum_n (length J) (edge_term s (fun e => nth e J 0%Z) (right1 (length J) per)) +
        sum_n (length J) (fun i => nth i h 0 * spin (nth i s false)))%Z.
Proof.
  intros HJ Hh Hs. rewrite ising1_value by assumption. do 2 f_equal.
  unfold sum_n. replace (length J) with ((length J - 1) + 1) at 5 by lia.
  rewrite seq_app, map_app, zsum_app. cbn [seq map plus zsum fold_right]. rewrite Z.add_0_r. f_equal.
  - apply sum_ext. intros i Hi. apply in_seq in Hi. unfold edge_term, right1.
    destruct (Nat.eqb_spec i (length J - 1)); [lia|reflexivity].
  - unfold edge_term, right1. rewrite Nat.eqb_refl. now destruct per.
Qed.

Lemma flips_zero n l : positions n l -> exists f, f = flips (repeat false n) l /\ length f = n /\
  forall i, nth i f false = memb l i.
Proof.
  intros [N F]. eexists. split; [reflexivity|]. split; [now rewrite length_flips, repeat_length|].
  intros i. rewrite nth_flips by (rewrite repeat_length; assumption). rewrite nth_repeat.
  unfold times. destruct (memb l i) eqn:M.
  - apply memb_In in M. rewrite NoDup_count_occ' with (decA := Nat.eq_dec) in N. now rewrite (N i M).
  - destruct (count_occ_not_In Nat.eq_dec l i) as [C _]. rewrite C; [reflexivity|]. intros H. apply memb_In in H. congruence.
Qed.

Definition flip_mask (n : nat) (l : list nat) : list bool := flips (repeat false n) l.

Lemma length_flip_mask n l : length (flip_mask n l) = n.
Proof. unfold flip_mask. now rewrite length_flips, repeat_length. Qed.

Lemma nth_flip_mask n l i : positions n l -> nth i (flip_mask n l) false = memb l i.
Proof. intros P. destruct (flips_zero n l P) as (f & -> & _ & H). apply H. Qed.

Lemma flip_zero_Ok n l : increasing l -> Forall (fun i => i < n) l -> bv_flip_sbv (repeat false n) l = Ok (flip_mask n l).
Proof.
  intros H F. rewrite Forall_forall in F. apply bv_flip_sbv_Ok. rewrite repeat_length. now apply increasing_valid.
Qed.

Lemma unflip_zero_Ok n l : increasing l -> Forall (fun i => i < n) l -> bv_flip_sbv (flip_mask n l) l = Ok (repeat false n).
Proof.
  intros H F. rewrite bv_flip_sbv_Ok by (rewrite length_flip_mask; apply increasing_valid; [assumption|now apply Forall_forall]).
  f_equal. unfold flip_mask. apply flips_involutive; rewrite ?repeat_length; assumption.
Qed.

Lemma is_zero_repeat n : bv_is_zero (repeat false n) = true.
Proof. unfold bv_is_zero. induction n; [reflexivity|assumption]. Qed.

Theorem ising1_incremental_right J h per x l : 0 < length J -> length h = length J -> length x = length J ->
  increasing l -> Forall (fun i => i < length J) l ->
  exists v w, ising1_evaluate J h per x = Ok v /\ ising1_evaluate J h per (flipped_at x l) = Ok w /\
    ising1_incremental J h per (repeat false (length J)) x v l = Ok (w, repeat false (length J)).
Proof.
  intros HJ Hh Hx Hinc F. assert (P : positions (length J) l) by (split; [now apply increasing_NoDup|assumption]).
  assert (F' := F). rewrite Forall_forall in F'. set (n := length J) in *.
  eexists. eexists. split; [now apply ising1_value_edges|]. split; [apply ising1_value_edges; [assumption|assumption|now rewrite length_flipped_at]|].
  fold n. unfold ising1_incremental. fold n. destruct (Nat.ltb_spec 0 n); [|lia]. rewrite Hx, Nat.eqb_refl.
  pose proof (is_zero_repeat n) as Z0. rewrite Z0. cbn [assertb bind].
  rewrite (flip_zero_Ok n l Hinc F). cbn [bind].
  rewrite (foldM_add _ (right_delta x (fun e => nth e J 0%Z) (right1 n per) l)).
  2:{ intros i v Hi. apply F' in Hi. unfold right_delta, right1. destruct (Nat.eqb_spec i (n - 1)) as [->|Hne].
      - destruct per; [|f_equal; lia]. destruct (Nat.ltb_spec 0 n); [|lia]. cbn [assertb bind].
        rewrite (couple_incremental_Ok _ _ _ _ _ (nth (n - 1) J 0%Z)) by (rewrite ?length_flip_mask; try lia; apply vget_Ok; fold n; lia).
        rewrite nth_flip_mask by assumption. reflexivity.
      - destruct (Nat.ltb_spec (i + 1) n); [|lia]. cbn [assertb bind].
        rewrite (couple_incremental_Ok _ _ _ _ _ (nth i J 0%Z)) by (rewrite ?length_flip_mask; try lia; apply vget_Ok; fold n; lia).
        rewrite nth_flip_mask by assumption. reflexivity. }
  cbn [bind].
  rewrite (foldM_add _ (left_delta x (fun e => nth e J 0%Z) (left1 n per) l)).
  2:{ intros i v Hi. apply F' in Hi. unfold left_delta, left1. destruct (Nat.eqb_spec i 0) as [->|Hne].
      - destruct per; [|f_equal; lia]. destruct (Nat.ltb_spec (n - 1) n); [|lia]. cbn [assertb bind].
        rewrite (couple_incremental_Ok _ _ _ _ _ (nth (n - 1) J 0%Z)) by (rewrite ?length_flip_mask; try lia; apply vget_Ok; fold n; lia).
        rewrite nth_flip_mask by assumption. destruct (memb l (n - 1)); [reflexivity|]. do 2 f_equal. ring.
      - destruct (Nat.ltb_spec (i - 1) n); [|lia]. cbn [assertb bind].
        rewrite (couple_incremental_Ok _ _ _ _ _ (nth (i - 1) J 0%Z)) by (rewrite ?length_flip_mask; try lia; apply vget_Ok; fold n; lia).
        rewrite nth_flip_mask by assumption. destruct (memb l (i - 1)); [reflexivity|]. do 2 f_equal. ring. }
  cbn [bind]. rewrite unflip_zero_Ok by assumption. cbn [bind]. rewrite Z0. cbn [assertb bind].
  rewrite spin_incremental_Ok by (intros i Hi; apply F' in Hi; lia). cbn [bind]. f_equal. f_equal.
  rewrite (field_delta n (fun i => nth i h 0%Z) x l Hx P).
  rewrite (edge_delta n (fun e => nth e J 0%Z) (right1 n per) (left1 n per) x l Hx P).
  - ring.
  - intros e r He. unfold right1. destruct (Nat.eqb_spec e (n - 1)); [destruct per; [intros R; apply Some_inj in R; lia|discriminate]|].
    intros R; apply Some_inj in R; lia.
  - intros e r He. unfold left1. destruct (Nat.eqb_spec e 0); [destruct per; [intros R; apply Some_inj in R; lia|discriminate]|].
    intros R; apply Some_inj in R; lia.
  - intros e i He Hi. unfold left1, right1. destruct (Nat.eqb_spec e (n - 1)), (Nat.eqb_spec i 0), per;
      split; intros R; try discriminate R; try (apply Some_inj in R; lia); try (f_equal; lia).
    all: apply Some_inj in R; f_equal; lia.
Qed.

(** * Opposite function *)

Theorem opposite_incremental_right ev inc x l :
  incremental_right ev inc x l -> incremental_right (opposite_evaluate ev) (opposite_incremental inc) x l.
Proof.
  intros (v & w & H1 & H2 & H3). exists (- v)%Z, (- w)%Z. unfold opposite_evaluate, opposite_incremental.
  rewrite H1, H3. cbn [bind]. rewrite Z.opp_involutive, H2. repeat split.
Qed.

(** * Repeated positions *)

Theorem onemax_incremental_repeated x i v : i < length x ->
  sbv_is_valid [i; i] (length x) = true /\ bv_flip_sbv x [i; i] = Ok x /\
  exists w, onemax_incremental x v [i; i] = Ok w /\ w <> v.
Proof.
  intros H. assert (V : sbv_is_valid [i; i] (length x) = true).
  { unfold sbv_is_valid. cbn [is_sorted forallb]. rewrite Nat.leb_refl. destruct (Nat.ltb_spec i (length x)); [reflexivity|lia]. }
  split; [exact V|]. split.
  - rewrite bv_flip_sbv_Ok by assumption. f_equal. change (flips x [i; i]) with (flips (flips x [i]) [i]).
    apply flips_involutive. repeat constructor. assumption.
  - unfold onemax_incremental. rewrite (foldM_add _ (fun i => spin (nth i x false))).
    + eexists. split; [reflexivity|]. rewrite !sum_cons, sum_nil. destruct (nth i x false); cbn [spin]; lia.
    + intros j r [<-|[<-|[]]]; rewrite (vget_Ok x i false) by assumption; cbn [bind]; destruct (nth i x false); cbn [spin]; f_equal; lia.
Qed.
