(** Finite sums of integers. *)

From Coq Require Import ZArith Permutation.
From Verif Require Import Base BaseLemmas Function_Spec.
Local Open Scope nat_scope.

Definition sum_over {A} (l : list A) (f : A -> Z) : Z := zsum (map f l).

Lemma zsum_app a b : zsum (a ++ b) = (zsum a + zsum b)%Z.
Proof. unfold zsum. induction a; cbn; lia. Qed.

Lemma sum_nil {A} (f : A -> Z) : sum_over [] f = 0%Z.
Proof. reflexivity. Qed.

Lemma sum_cons {A} a (l : list A) f : sum_over (a :: l) f = (f a + sum_over l f)%Z.
Proof. reflexivity. Qed.

Lemma sum_app {A} (a b : list A) f : sum_over (a ++ b) f = (sum_over a f + sum_over b f)%Z.
Proof. unfold sum_over. rewrite map_app. apply zsum_app. Qed.

Lemma sum_ext {A} (l : list A) f g : (forall a, In a l -> f a = g a) -> sum_over l f = sum_over l g.
Proof.
  induction l as [|a l IH]; intros H; [reflexivity|]. rewrite !sum_cons, IH, (H a); cbn; auto.
  intros b Hb. apply H. cbn. auto.
Qed.

Lemma sum_add {A} (l : list A) f g : sum_over l (fun a => f a + g a)%Z = (sum_over l f + sum_over l g)%Z.
Proof. induction l as [|a l IH]; [reflexivity|]. rewrite !sum_cons, IH. lia. Qed.

Lemma sum_sub {A} (l : list A) f g : sum_over l (fun a => f a - g a)%Z = (sum_over l f - sum_over l g)%Z.
Proof. induction l as [|a l IH]; [reflexivity|]. rewrite !sum_cons, IH. lia. Qed.

Lemma sum_scale {A} (l : list A) c f : sum_over l (fun a => c * f a)%Z = (c * sum_over l f)%Z.
Proof. induction l as [|a l IH]; [cbn; lia|]. rewrite !sum_cons, IH. lia. Qed.

Lemma sum_zero {A} (l : list A) f : (forall a, In a l -> f a = 0%Z) -> sum_over l f = 0%Z.
Proof.
  intros H. rewrite (sum_ext l f (fun _ => 0%Z)) by assumption. clear. induction l; [reflexivity|]. rewrite sum_cons. lia.
Qed.

Lemma sum_map {A B} (l : list A) (h : A -> B) f : sum_over (map h l) f = sum_over l (fun a => f (h a)).
Proof. unfold sum_over. now rewrite map_map. Qed.

Lemma sum_swap {A B} (l : list A) (m : list B) f :
  sum_over l (fun a => sum_over m (fun b => f a b)) = sum_over m (fun b => sum_over l (fun a => f a b)).
Proof.
  induction l as [|a l IH].
  - symmetry. apply sum_zero. reflexivity.
  - rewrite sum_cons, IH. rewrite <- sum_add. reflexivity.
Qed.

Lemma sum_perm {A} (l m : list A) f : Permutation l m -> sum_over l f = sum_over m f.
Proof. induction 1; rewrite ?sum_cons; try lia; reflexivity. Qed.

Lemma sum_flat_map {A B} (l : list A) (h : A -> list B) f :
  sum_over (flat_map h l) f = sum_over l (fun a => sum_over (h a) f).
Proof. induction l as [|a l IH]; [reflexivity|]. cbn [flat_map]. rewrite sum_app, sum_cons, IH. reflexivity. Qed.

(** A sum over a duplicate-free list of elements of another one. *)
Lemma sum_filter {A} (l : list A) (p : A -> bool) f :
  sum_over (filter p l) f = sum_over l (fun a => if p a then f a else 0%Z).
Proof.
  induction l as [|a l IH]; [reflexivity|]. cbn [filter]. rewrite sum_cons.
  destruct (p a); [rewrite sum_cons, IH|rewrite IH]; lia.
Qed.

Definition memb (l : list nat) (i : nat) : bool := if in_dec Nat.eq_dec i l then true else false.

Lemma memb_In l i : memb l i = true <-> In i l.
Proof. unfold memb. destruct (in_dec _ _ _); split; auto; discriminate. Qed.

Lemma sum_subset n l f : NoDup l -> (forall i, In i l -> i < n) ->
  sum_over l f = sum_over (seq 0 n) (fun i => if memb l i then f i else 0%Z).
Proof.
  intros N B. rewrite <- sum_filter. apply sum_perm. apply NoDup_Permutation; [assumption|apply NoDup_filter, seq_NoDup|].
  intros i. rewrite filter_In, memb_In, in_seq. split; [|tauto]. intros H. specialize (B i H). split; [lia|assumption].
Qed.

Lemma sum_single {A} (eqd : forall a b : A, {a = b} + {a <> b}) (l : list A) a f :
  NoDup l -> In a l -> (forall b, In b l -> b <> a -> f b = 0%Z) -> sum_over l f = f a.
Proof.
  intros N I H. induction N as [|b l Hb N IH]; [destruct I|]. rewrite sum_cons.
  destruct (eqd b a) as [->|Hne].
  - rewrite sum_zero; [lia|]. intros c Hc. apply H; [now right|]. intros ->. contradiction.
  - destruct I as [->|I]; [congruence|]. rewrite (H b); [|now left|assumption]. rewrite IH; [lia|assumption|].
    intros c Hc. apply H. now right.
Qed.

Lemma sum_seq_shift a n f : sum_over (seq a n) f = sum_over (seq 0 n) (fun i => f (a + i)).
Proof.
  revert a f; induction n as [|n IH]; intros a f; [reflexivity|]. cbn [seq]. rewrite !sum_cons, (IH (S a)), (IH 1).
  rewrite Nat.add_0_r. f_equal. apply sum_ext. intros i _. f_equal. lia.
Qed.

Lemma sum_seq_mul nr nc f :
  sum_over (seq 0 (nr * nc)) f = sum_over (seq 0 nr) (fun i => sum_over (seq 0 nc) (fun j => f (i * nc + j))).
Proof.
  induction nr as [|nr IH]; [reflexivity|].
  replace (S nr * nc) with (nr * nc + nc) by (cbn; lia). rewrite seq_app, sum_app, IH.
  rewrite seq_S, sum_app. cbn [plus]. rewrite sum_cons, sum_nil, Z.add_0_r. f_equal.
  rewrite sum_seq_shift. reflexivity.
Qed.

(** Accumulating loops. *)
Lemma foldM_add {A} (body : Z -> A -> outcome Z) (g : A -> Z) (l : list A) r :
  (forall a r, In a l -> body r a = Ok (r + g a)%Z) -> foldM body l r = Ok (r + sum_over l g)%Z.
Proof.
  revert r; induction l as [|a l IH]; intros r H; cbn [foldM].
  - rewrite sum_nil. f_equal. lia.
  - rewrite H by (now left). cbn [bind]. rewrite IH by (intros; apply H; now right). rewrite sum_cons. f_equal. lia.
Qed.
