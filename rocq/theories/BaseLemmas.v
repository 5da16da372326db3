From Verif Require Import Base.
From Coq Require Import Permutation.

(** * Outcomes *)

Lemma bind_Ok {A B} (m : outcome A) (k : A -> outcome B) b :
  bind m k = Ok b -> exists a, m = Ok a /\ k a = Ok b.
Proof. destruct m; simpl; intros H; try discriminate; eauto. Qed.

Lemma bind_assoc {A B C} (m : outcome A) (f : A -> outcome B) (g : B -> outcome C) :
  bind (bind m f) g = bind m (fun a => bind (f a) g).
Proof. destruct m; reflexivity. Qed.

Lemma Ok_inj {A} (a b : A) : Ok a = Ok b -> a = b.
Proof. congruence. Qed.

Lemma Some_inj {A} (a b : A) : Some a = Some b -> a = b.
Proof. congruence. Qed.

Lemma assertb_true b : b = true -> assertb b = Ok tt.
Proof. intros ->; reflexivity. Qed.

(** * Lists *)

Lemma length_upd {A} (l : list A) i a : length (upd l i a) = length l.
Proof. revert i; induction l as [|h t IH]; intros [|i]; simpl; auto. Qed.

Lemma nth_upd {A} (l : list A) i j a d :
  nth j (upd l i a) d = if (j =? i) && (i <? length l) then a else nth j l d.
Proof.
  revert i j; induction l as [|h t IH]; intros [|i] [|j]; simpl; auto.
  - destruct (j =? i); reflexivity.
  - rewrite IH. reflexivity.
Qed.

Lemma nth_upd_eq {A} (l : list A) i a d : i < length l -> nth i (upd l i a) d = a.
Proof.
  intros H. rewrite nth_upd, Nat.eqb_refl. apply Nat.ltb_lt in H. rewrite H. reflexivity.
Qed.

Lemma nth_upd_neq {A} (l : list A) i j a d : j <> i -> nth j (upd l i a) d = nth j l d.
Proof.
  intros H. rewrite nth_upd. apply Nat.eqb_neq in H. rewrite H. reflexivity.
Qed.

Lemma nth_error_upd {A} (l : list A) i j a :
  nth_error (upd l i a) j = if (j =? i) && (i <? length l) then Some a else nth_error l j.
Proof.
  revert i j; induction l as [|h t IH]; intros [|i] [|j]; simpl; auto.
  - destruct (j =? i); reflexivity.
  - rewrite IH. reflexivity.
Qed.

Lemma upd_nth {A} (l : list A) i d : upd l i (nth i l d) = l.
Proof. revert i; induction l as [|h t IH]; intros [|i]; simpl; auto. now rewrite IH. Qed.

Lemma upd_out {A} (l : list A) i a : length l <= i -> upd l i a = l.
Proof.
  revert i; induction l as [|h t IH]; intros [|i] H; simpl in *; auto; try lia.
  rewrite IH; auto; lia.
Qed.

Lemma upd_upd {A} (l : list A) i a b : upd (upd l i a) i b = upd l i b.
Proof. revert i; induction l as [|h t IH]; intros [|i]; simpl; auto. now rewrite IH. Qed.

Lemma upd_comm {A} (l : list A) i j a b : i <> j -> upd (upd l i a) j b = upd (upd l j b) i a.
Proof.
  revert i j; induction l as [|h t IH]; intros [|i] [|j] H; simpl; auto; try congruence.
  rewrite IH; auto.
Qed.

Lemma nth_ext_len {A} (d : A) (l1 l2 : list A) :
  length l1 = length l2 -> (forall i, i < length l1 -> nth i l1 d = nth i l2 d) -> l1 = l2.
Proof. intros. eapply nth_ext with (d := d) (d' := d); auto. Qed.

Lemma In_upd {A} (l : list A) i a x : In x (upd l i a) -> x = a \/ In x l.
Proof.
  revert i; induction l as [|h t IH]; intros [|i]; simpl; intros H; auto.
  - destruct H as [->|H]; auto.
  - destruct H as [->|H]; auto. destruct (IH _ H); auto.
Qed.

Lemma vget_Ok {A} (l : list A) i d : i < length l -> vget l i = Ok (nth i l d).
Proof. intros H. unfold vget. rewrite (nth_error_nth' l d H). reflexivity. Qed.

Lemma vget_UB {A} (l : list A) i : length l <= i -> vget l i = UB.
Proof. intros H. unfold vget. apply nth_error_None in H. rewrite H. reflexivity. Qed.

Lemma vget_inv {A} (l : list A) i a : vget l i = Ok a -> i < length l /\ nth_error l i = Some a.
Proof.
  unfold vget. destruct (nth_error l i) eqn:E; intros H; inversion H; subst.
  split; auto. apply nth_error_Some. congruence.
Qed.

Lemma vset_Ok {A} (l : list A) i a : i < length l -> vset l i a = Ok (upd l i a).
Proof. intros H. unfold vset. apply Nat.ltb_lt in H. rewrite H. reflexivity. Qed.

Lemma vset_UB {A} (l : list A) i a : length l <= i -> vset l i a = UB.
Proof. intros H. unfold vset. apply Nat.ltb_ge in H. rewrite H. reflexivity. Qed.

Lemma length_map2 {A B C} (f : A -> B -> C) l1 l2 :
  length (map2 f l1 l2) = Nat.min (length l1) (length l2).
Proof. revert l2; induction l1 as [|a t IH]; intros [|b t2]; simpl; auto. Qed.

Lemma length_map2_eq {A B C} (f : A -> B -> C) l1 l2 n :
  length l1 = n -> length l2 = n -> length (map2 f l1 l2) = n.
Proof. intros. rewrite length_map2. lia. Qed.

Lemma nth_map2 {A B C} (f : A -> B -> C) l1 l2 i da db dc :
  i < length l1 -> i < length l2 -> nth i (map2 f l1 l2) dc = f (nth i l1 da) (nth i l2 db).
Proof.
  revert l2 i; induction l1 as [|a t IH]; intros [|b t2] [|i]; simpl; intros H1 H2; auto; try lia.
  apply IH; lia.
Qed.

Lemma map2_app {A B C} (f : A -> B -> C) l1 l2 m1 m2 :
  length l1 = length m1 -> map2 f (l1 ++ l2) (m1 ++ m2) = map2 f l1 m1 ++ map2 f l2 m2.
Proof.
  revert m1; induction l1 as [|a t IH]; intros [|b m1]; simpl; intros H; auto; try discriminate.
  rewrite IH; auto.
Qed.

Lemma foldM_app {S A} (f : S -> A -> outcome S) l1 l2 s :
  foldM f (l1 ++ l2) s = bind (foldM f l1 s) (foldM f l2).
Proof.
  revert s; induction l1 as [|a t IH]; intros s; simpl; auto.
  rewrite bind_assoc. destruct (f s a); simpl; auto.
Qed.

(** Invariant rule for loops: if the invariant holds initially and every body
    execution succeeds and preserves it, the loop succeeds. *)
Lemma foldM_inv {S A} (f : S -> A -> outcome S) (Inv : list A -> S -> Prop) l s :
  Inv [] s ->
  (forall done a todo s, l = done ++ a :: todo -> Inv done s ->
     exists s', f s a = Ok s' /\ Inv (done ++ [a]) s') ->
  exists s', foldM f l s = Ok s' /\ Inv l s'.
Proof.
  intros H0 Hstep.
  assert (forall todo done s, l = done ++ todo -> Inv done s ->
            exists s', foldM f todo s = Ok s' /\ Inv l s') as G.
  { induction todo as [|a t IH]; intros done s1 E HI; simpl.
    - rewrite app_nil_r in E. subst. eauto.
    - destruct (Hstep done a t s1 E HI) as (s2 & E2 & I2). rewrite E2; simpl.
      apply (IH (done ++ [a])); auto. rewrite <- app_assoc. exact E. }
  exact (G l [] s eq_refl H0).
Qed.

(** Loop over consecutive indices [seq a n]. *)
Lemma foldM_seq_inv {S} (f : S -> nat -> outcome S) (Inv : nat -> S -> Prop) a n s :
  Inv a s ->
  (forall i s, a <= i < a + n -> Inv i s -> exists s', f s i = Ok s' /\ Inv (i + 1) s') ->
  exists s', foldM f (seq a n) s = Ok s' /\ Inv (a + n) s'.
Proof.
  revert a s; induction n as [|n IH]; intros a s H0 Hstep; simpl.
  - rewrite Nat.add_0_r. eauto.
  - destruct (Hstep a s) as (s1 & E1 & I1); [lia|auto|].
    rewrite E1; simpl. destruct (IH (a + 1) s1) as (s2 & E2 & I2); auto.
    + intros i s' Hi HI. apply Hstep; auto; lia.
    + rewrite Nat.add_1_r in E2. exists s2. split; auto.
      replace (a + Datatypes.S n) with (a + 1 + n) by lia. auto.
Qed.

(** Invariant rule of a loop known to succeed or not: every successful run
    preserves the invariant. *)
Lemma foldM_pres {S A} (f : S -> A -> outcome S) (Inv : S -> Prop) l s s' :
  Inv s -> (forall s a s', In a l -> Inv s -> f s a = Ok s' -> Inv s') ->
  foldM f l s = Ok s' -> Inv s'.
Proof.
  revert s; induction l as [|a t IH]; intros s H0 Hs E; simpl in *.
  - inversion E; subst; auto.
  - apply bind_Ok in E as (s1 & E1 & E2). apply (IH s1); auto.
    + apply (Hs s a); auto.
    + intros; eapply Hs; eauto.
Qed.

Lemma seq_split_at a n i :
  a <= i < a + n -> seq a n = seq a (i - a) ++ i :: seq (S i) (a + n - S i).
Proof.
  intros H. replace n with ((i - a) + S (a + n - S i)) at 1 by lia.
  rewrite seq_app. simpl. repeat f_equal; lia.
Qed.

Lemma NoDup_app_intro {A} (l1 l2 : list A) :
  NoDup l1 -> NoDup l2 -> (forall x, In x l1 -> In x l2 -> False) -> NoDup (l1 ++ l2).
Proof.
  induction l1 as [|a t IH]; simpl; intros H1 H2 H; auto.
  inversion H1; subst. constructor.
  - rewrite in_app_iff. intros [K|K]; [auto|]. eapply H; eauto.
  - apply IH; auto. intros x K1 K2. apply (H x); auto.
Qed.

Lemma NoDup_map_inj {A B} (f : A -> B) l :
  (forall x y, In x l -> In y l -> f x = f y -> x = y) -> NoDup l -> NoDup (map f l).
Proof.
  induction l as [|a t IH]; simpl; intros Hinj H; constructor; inversion H; subst.
  - rewrite in_map_iff. intros (x & E & Hx). assert (x = a) by (apply Hinj; auto). subst; auto.
  - apply IH; auto.
Qed.

Lemma firstn_add {A} a b (x : list A) : firstn (a + b) x = firstn a x ++ firstn b (skipn a x).
Proof.
  revert x; induction a as [|a IH]; intros x; [reflexivity|].
  destruct x as [|h x]; cbn [plus firstn skipn app]; [now rewrite firstn_nil|]. now rewrite IH.
Qed.

Lemma app_inj_len {A} (a b c d : list A) : length a = length c -> a ++ b = c ++ d -> a = c /\ b = d.
Proof.
  revert c; induction a as [|h a IH]; intros [|k c] L E; cbn in *; try discriminate; auto.
  injection E as -> E. injection L as L. destruct (IH c L E) as [-> ->]. auto.
Qed.

Lemma nth_repeat_lt {A} (a d : A) n i : i < n -> nth i (repeat a n) d = a.
Proof. revert i; induction n; intros [|i] H; cbn; try lia; auto. apply IHn. lia. Qed.
