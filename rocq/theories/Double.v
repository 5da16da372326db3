(** Values of type double.  A finite double is an integer multiple of 2^-1074 and
    is represented by that integer; arithmetic on finite values, when used, is
    exact (rounding is not modelled).  The sign of zero is not modelled. *)

From Coq Require Import ZArith.
From Verif Require Import Base.
Local Open Scope nat_scope.

Inductive dbl : Type := DNaN | DNegInf | DFin (z : Z) | DPosInf.

(** IEEE 754 comparison <: false when an operand is not a number. *)
Definition dlt (a b : dbl) : bool :=
  match a, b with
  | DNaN, _ | _, DNaN => false
  | DNegInf, DNegInf => false
  | DNegInf, _ => true
  | DFin x, DFin y => (x <? y)%Z
  | DFin _, DPosInf => true
  | DFin _, DNegInf => false
  | DPosInf, _ => false
  end.

(** IEEE 754 comparison <= *)
Definition dle (a b : dbl) : bool :=
  match a, b with
  | DNaN, _ | _, DNaN => false
  | DNegInf, _ => true
  | DFin x, DFin y => (x <=? y)%Z
  | DFin _, DPosInf => true
  | DFin _, DNegInf => false
  | DPosInf, DPosInf => true
  | DPosInf, _ => false
  end.

Definition dgt a b := dlt b a.
Definition dge a b := dle b a.

(** IEEE 754 comparison == *)
Definition deq (a b : dbl) : bool := dle a b && dle b a.

Definition is_nan (a : dbl) : bool := match a with DNaN => true | _ => false end.

Lemma dlt_irrefl a : dlt a a = false.
Proof. destruct a; cbn; auto. apply Z.ltb_irrefl. Qed.

Lemma dlt_trans a b c : dlt a b = true -> dlt b c = true -> dlt a c = true.
Proof.
  destruct a, b, c; cbn; try discriminate; auto. rewrite !Z.ltb_lt. lia.
Qed.

Lemma dle_refl a : is_nan a = false -> dle a a = true.
Proof. destruct a; cbn; try discriminate; auto. intros _. apply Z.leb_refl. Qed.

Lemma dle_trans a b c : dle a b = true -> dle b c = true -> dle a c = true.
Proof. destruct a, b, c; cbn; try discriminate; auto. rewrite !Z.leb_le. lia. Qed.

Lemma dle_antisym a b : dle a b = true -> dle b a = true -> a = b.
Proof. destruct a, b; cbn; try discriminate; auto. rewrite !Z.leb_le. intros. f_equal. lia. Qed.

Lemma dlt_le a b : dlt a b = true -> dle a b = true.
Proof. destruct a, b; cbn; try discriminate; auto. rewrite Z.ltb_lt, Z.leb_le. lia. Qed.

Lemma dlt_dle_trans a b c : dlt a b = true -> dle b c = true -> dlt a c = true.
Proof. destruct a, b, c; cbn; try discriminate; auto. rewrite !Z.ltb_lt, Z.leb_le. lia. Qed.

Lemma dle_dlt_trans a b c : dle a b = true -> dlt b c = true -> dlt a c = true.
Proof. destruct a, b, c; cbn; try discriminate; auto. rewrite !Z.ltb_lt, Z.leb_le. lia. Qed.

Lemma dlt_not_le a b : dlt a b = true -> dle b a = false.
Proof. destruct a, b; cbn; try discriminate; auto. rewrite Z.ltb_lt, Z.leb_gt. lia. Qed.

Lemma not_lt_le a b : is_nan a = false -> is_nan b = false -> dlt a b = false -> dle b a = true.
Proof. destruct a, b; cbn; try discriminate; auto. rewrite Z.ltb_ge, Z.leb_le. lia. Qed.

Lemma not_le_lt a b : is_nan a = false -> is_nan b = false -> dle a b = false -> dlt b a = true.
Proof. destruct a, b; cbn; try discriminate; auto. rewrite Z.ltb_lt, Z.leb_gt. lia. Qed.

Lemma dlt_nan a b : dlt a b = true -> is_nan a = false /\ is_nan b = false.
Proof. destruct a, b; cbn; try discriminate; auto. Qed.

Lemma dle_nan a b : dle a b = true -> is_nan a = false /\ is_nan b = false.
Proof. destruct a, b; cbn; try discriminate; auto. Qed.

Lemma deq_eq a b : deq a b = true <-> is_nan a = false /\ a = b.
Proof.
  unfold deq. rewrite andb_true_iff. split.
  - intros [H1 H2]. split; [now apply dle_nan in H1|]. now apply dle_antisym.
  - intros [H1 <-]. now rewrite dle_refl.
Qed.
