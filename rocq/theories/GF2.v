(** Linear algebra over GF(2) on [list bool]: pure vector lemmas. *)

From Verif Require Import Base BaseLemmas BitVector_Spec.

Definition vxor (x y : list bool) : list bool := map2 xorb x y.

Fixpoint dot (x y : list bool) : bool :=
  match x, y with
  | a :: x', b :: y' => xorb (a && b) (dot x' y')
  | _, _ => false
  end.

Lemma length_vxor n x y : length x = n -> length y = n -> length (vxor x y) = n.
Proof. apply length_map2_eq. Qed.

Lemma nth_vxor n x y i : length x = n -> length y = n ->
  nth i (vxor x y) false = xorb (nth i x false) (nth i y false).
Proof.
  intros Hx Hy. destruct (Nat.lt_ge_cases i n) as [Hi|Hi].
  - apply nth_map2; lia.
  - rewrite !nth_overflow; auto; try lia. rewrite (length_vxor n); auto.
Qed.

Lemma vxor_comm x y : vxor x y = vxor y x.
Proof.
  revert y; induction x as [|a x IH]; intros [|b y]; simpl; auto.
  unfold vxor in *. simpl. rewrite IH. f_equal. apply xorb_comm.
Qed.

Lemma vxor_assoc x y z : vxor (vxor x y) z = vxor x (vxor y z).
Proof.
  unfold vxor. revert y z; induction x as [|a x IH]; intros [|b y] [|c z]; simpl; auto.
  rewrite IH. f_equal. apply xorb_assoc.
Qed.

Lemma vxor_nilpotent x : vxor x x = zerov (length x).
Proof.
  unfold vxor, zerov. induction x as [|a x IH]; simpl; auto. rewrite IH. f_equal. apply xorb_nilpotent.
Qed.

Lemma vxor_zero_r n x : length x = n -> vxor x (zerov n) = x.
Proof.
  unfold vxor, zerov. intros <-. induction x as [|a x IH]; simpl; auto.
  rewrite IH. f_equal. apply xorb_false_r.
Qed.

Lemma vxor_zero_l n x : length x = n -> vxor (zerov n) x = x.
Proof. intros. rewrite vxor_comm. apply vxor_zero_r; auto. Qed.

Lemma vxor_cancel n x y : length x = n -> length y = n -> vxor (vxor x y) y = x.
Proof.
  intros Hx Hy. rewrite vxor_assoc, vxor_nilpotent, Hy. apply vxor_zero_r; auto.
Qed.

Lemma vxor_eq_zero n x y : length x = n -> length y = n -> vxor x y = zerov n -> x = y.
Proof.
  intros Hx Hy H. rewrite <- (vxor_cancel n x y), H; auto. apply vxor_zero_l; auto.
Qed.

Lemma length_zerov n : length (zerov n) = n.
Proof. apply repeat_length. Qed.

Lemma nth_zerov n i : nth i (zerov n) false = false.
Proof. apply nth_repeat. Qed.

Lemma length_unitv n i : length (unitv n i) = n.
Proof. unfold unitv. rewrite map_length, seq_length. auto. Qed.

Lemma nth_unitv n i j : j < n -> nth j (unitv n i) false = (j =? i).
Proof.
  intros H. unfold unitv. rewrite nth_indep with (d' := (0 =? i)) by (rewrite map_length, seq_length; auto).
  rewrite (map_nth (fun j => j =? i)). rewrite seq_nth; auto.
Qed.

Lemma bv_ext n (x y : list bool) : length x = n -> length y = n ->
  (forall i, i < n -> nth i x false = nth i y false) -> x = y.
Proof. intros Hx Hy H. apply (nth_ext_len false); [lia|]. rewrite Hx. exact H. Qed.

(** * Dot product *)

Lemma dot_comm x y : dot x y = dot y x.
Proof.
  revert y; induction x as [|a x IH]; intros [|b y]; simpl; auto. rewrite IH, andb_comm. auto.
Qed.

Lemma dot_vxor_l n x y z : length x = n -> length y = n ->
  dot (vxor x y) z = xorb (dot x z) (dot y z).
Proof.
  revert n y z; induction x as [|a x IH]; intros n [|b y] [|c z]; simpl; intros; subst; try discriminate; auto.
  unfold vxor in *. rewrite (IH (length x)); auto.
  destruct a, b, c, (dot x z), (dot y z); auto.
Qed.

Lemma dot_vxor_r n x y z : length y = n -> length z = n ->
  dot x (vxor y z) = xorb (dot x y) (dot x z).
Proof.
  intros. rewrite dot_comm, (dot_vxor_l n), (dot_comm y), (dot_comm z); auto.
Qed.

Lemma dot_zero_r n x : dot x (zerov n) = false.
Proof.
  unfold zerov. revert n; induction x as [|a x IH]; intros [|n]; simpl; auto.
  rewrite IH, andb_false_r. auto.
Qed.

Lemma dot_zero_l n x : dot (zerov n) x = false.
Proof. rewrite dot_comm. apply dot_zero_r. Qed.

Lemma dot_app x1 x2 y1 y2 : length x1 = length y1 ->
  dot (x1 ++ x2) (y1 ++ y2) = xorb (dot x1 y1) (dot x2 y2).
Proof.
  revert y1; induction x1 as [|a x IH]; intros [|b y]; simpl; intros H; try discriminate.
  - now destruct (dot x2 y2).
  - rewrite IH; auto. now rewrite xorb_assoc.
Qed.

(** Sum over indices. *)
Fixpoint xsum (n : nat) (f : nat -> bool) : bool :=
  match n with 0 => false | S n' => xorb (xsum n' f) (f n') end.

Lemma xsum_ext n f g : (forall i, i < n -> f i = g i) -> xsum n f = xsum n g.
Proof. induction n; simpl; intros H; auto. rewrite IHn, H; auto. Qed.

Lemma xsum_xor n f g : xsum n (fun i => xorb (f i) (g i)) = xorb (xsum n f) (xsum n g).
Proof.
  induction n; simpl; auto. rewrite IHn.
  destruct (xsum n f), (xsum n g), (f n), (g n); auto.
Qed.

Lemma xsum_false n : xsum n (fun _ => false) = false.
Proof. induction n; simpl; auto. now rewrite IHn. Qed.

Lemma xsum_swap n m f :
  xsum n (fun i => xsum m (fun j => f i j)) = xsum m (fun j => xsum n (fun i => f i j)).
Proof.
  induction n; simpl.
  - now rewrite xsum_false.
  - rewrite IHn, <- xsum_xor. auto.
Qed.

Lemma xsum_and_l n b f : xsum n (fun i => b && f i) = b && xsum n f.
Proof. induction n; simpl; [now rewrite andb_false_r|]. rewrite IHn. destruct b, (xsum n f), (f n); auto. Qed.

Lemma xsum_and_r n b f : xsum n (fun i => f i && b) = xsum n f && b.
Proof. induction n; simpl; auto. rewrite IHn. destruct b, (xsum n f), (f n); auto. Qed.

Lemma xsum_single n k f : k < n -> (forall i, i < n -> i <> k -> f i = false) -> xsum n f = f k.
Proof.
  revert k; induction n; intros k Hk H; simpl; [lia|].
  destruct (Nat.eq_dec k n) as [->|Hne].
  - rewrite (xsum_ext n f (fun _ => false)), xsum_false.
    + destruct (f n); auto.
    + intros i Hi. apply H; lia.
  - rewrite (IHn k), (H n); try lia; auto. now rewrite xorb_false_r.
Qed.

Lemma dot_xsum n x y : length x = n -> length y = n ->
  dot x y = xsum n (fun i => nth i x false && nth i y false).
Proof.
  revert x y; induction n; intros x y Hx Hy.
  - destruct x; try discriminate. auto.
  - destruct (exists_last (l := x)) as (x' & a & ->); [destruct x; discriminate|].
    destruct (exists_last (l := y)) as (y' & b & ->); [destruct y; discriminate|].
    rewrite app_length in Hx, Hy; simpl in Hx, Hy.
    assert (length x' = n /\ length y' = n) as [Ex Ey] by lia. clear Hx Hy.
    rewrite dot_app by lia. simpl. rewrite (IHn x' y'); auto.
    f_equal.
    + apply xsum_ext. intros i Hi. rewrite !app_nth1 by lia. auto.
    + rewrite !app_nth2 by lia. rewrite Ex, Ey, Nat.sub_diag. simpl. apply xorb_false_r.
Qed.

Lemma dot_unitv n x i : length x = n -> i < n -> dot x (unitv n i) = nth i x false.
Proof.
  intros Hx Hi. rewrite (dot_xsum n); auto using length_unitv.
  rewrite (xsum_single n i); auto.
  - rewrite nth_unitv, Nat.eqb_refl, andb_true_r; auto.
  - intros j Hj Hne. rewrite nth_unitv; auto. apply Nat.eqb_neq in Hne. rewrite Hne, andb_false_r. auto.
Qed.

(** * Weight *)

Lemma weight_cons b x : weight (b :: x) = (if b then 1 else 0) + weight x.
Proof.
  unfold weight, ones. simpl.
  rewrite <- seq_shift.
  assert (forall l, length (filter (fun i => nth i (b :: x) false) (map S l))
                    = length (filter (fun i => nth i x false) l)) as H.
  { induction l as [|i l IH]; simpl; auto. destruct (nth i x false); simpl; rewrite ?IH; auto. }
  destruct b; simpl; [f_equal|]; apply H.
Qed.

Lemma weight_nil : weight [] = 0.
Proof. auto. Qed.

Lemma weight_app x y : weight (x ++ y) = weight x + weight y.
Proof.
  induction x as [|b x IH]; simpl; auto. rewrite !weight_cons, IH. lia.
Qed.

Lemma weight_le x : weight x <= length x.
Proof. induction x as [|b x IH]; simpl; auto. rewrite weight_cons. destruct b; lia. Qed.

Lemma weight_zero_iff x : weight x = 0 <-> x = zerov (length x).
Proof.
  unfold zerov. induction x as [|b x IH]; simpl; [split; auto|].
  rewrite weight_cons. destruct b; split; intros H; try discriminate; try (inversion H; fail).
  - f_equal. apply IH. auto.
  - injection H as E. simpl. apply IH. auto.
Qed.

Lemma weight_full_iff x : weight x = length x <-> x = repeat true (length x).
Proof.
  induction x as [|b x IH]; simpl; [split; auto|].
  rewrite weight_cons. pose proof (weight_le x). destruct b; split; intros H'; try lia.
  - f_equal. apply IH. lia.
  - injection H' as E. simpl. f_equal. apply IH. auto.
  - discriminate.
Qed.

Lemma weight_vxor_le x y : length x = length y -> weight (vxor x y) <= weight x + weight y.
Proof.
  revert y; induction x as [|a x IH]; intros [|b y]; simpl; intros H; try discriminate; auto.
  unfold vxor in *. simpl. rewrite !weight_cons. specialize (IH y ltac:(lia)).
  destruct a, b; simpl; lia.
Qed.

Lemma diffs_vxor n x y : length x = n -> length y = n -> diffs n x y = ones (vxor x y).
Proof.
  intros Hx Hy. unfold diffs, ones. rewrite (length_vxor n); auto.
  apply filter_ext_in. intros i Hi. symmetry. apply (nth_vxor n); auto.
Qed.
