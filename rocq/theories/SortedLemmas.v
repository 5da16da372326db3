(** Strictly increasing lists of naturals. *)

From Verif Require Import Base BaseLemmas.
From Coq Require Import Sorted.

Definition increasing (l : list nat) : Prop := StronglySorted lt l.

Lemma increasing_NoDup l : increasing l -> NoDup l.
Proof.
  induction 1 as [|a l H IH HF]; constructor; auto.
  intros Hin. rewrite Forall_forall in HF. specialize (HF _ Hin). lia.
Qed.

Lemma increasing_filter f l : increasing l -> increasing (filter f l).
Proof.
  induction 1 as [|a l H IH HF]; cbn; [constructor|]. destruct (f a); auto.
  constructor; auto. rewrite Forall_forall in *. intros x Hx. apply filter_In in Hx as [Hx _]. auto.
Qed.

Lemma increasing_seq a n : increasing (seq a n).
Proof.
  revert a; induction n; intros a; cbn; constructor.
  - apply IHn.
  - apply Forall_forall. intros x Hx. apply in_seq in Hx. lia.
Qed.

Lemma increasing_ext l1 l2 :
  increasing l1 -> increasing l2 -> (forall x, In x l1 <-> In x l2) -> l1 = l2.
Proof.
  intros H1. revert l2. induction H1 as [|a l1 H1 IH HF1]; intros l2 H2 E.
  - destruct l2 as [|b l2]; auto. exfalso. apply (E b). now left.
  - destruct H2 as [|b l2 H2 HF2].
    + exfalso. apply (E a). now left.
    + rewrite Forall_forall in HF1, HF2.
      assert (a = b) as ->.
      { destruct (proj1 (E a) (or_introl eq_refl)) as [|Ha]; auto.
        destruct (proj2 (E b) (or_introl eq_refl)) as [|Hb]; auto.
        apply HF1 in Hb. apply HF2 in Ha. lia. }
      f_equal. apply IH; auto. intros x. split; intros Hx.
      * destruct (proj1 (E x) (or_intror Hx)) as [->|]; auto. apply HF1 in Hx. lia.
      * destruct (proj2 (E x) (or_intror Hx)) as [->|]; auto. apply HF2 in Hx. lia.
Qed.

Lemma increasing_app_inv l1 l2 : increasing (l1 ++ l2) -> increasing l1 /\ increasing l2.
Proof.
  induction l1 as [|a l1 IH]; cbn; intros H; [split; auto; constructor|].
  inversion H as [|? ? H' HF]; subst. destruct (IH H'). split; auto. constructor; auto.
  rewrite Forall_forall in *. intros x Hx. apply HF. apply in_app_iff. auto.
Qed.
