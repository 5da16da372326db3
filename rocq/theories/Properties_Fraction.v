(** C150: the scores of hBOA. *)

From Coq Require Import Lia Factorial.
From Verif Require Import Base BaseLemmas Fraction_Model Fraction_Spec Fraction_Proofs.
Local Open Scope nat_scope.

(** The operations are never undefined, and compute what they say. *)
Theorem C150_one : stands_for fr_one 1 1.
Proof. repeat split. Qed.
Theorem C150_multiply fr n a b : stands_for fr a b -> exists fr', mul_by_factorial fr n = Ok fr' /\ stands_for fr' (a * fact n) b.
Proof. apply mul_spec. Qed.
Theorem C150_divide fr n a b : stands_for fr a b -> exists fr', div_by_factorial fr n = Ok fr' /\ stands_for fr' a (b * fact n).
Proof. apply div_spec. Qed.
Theorem C150_product x y a b c d : stands_for x a b -> stands_for y c d -> exists z, fr_times x y = Ok z /\ stands_for z (a * c) (b * d).
Proof. apply times_spec. Qed.
Theorem C150_quotient x y a b c d : stands_for x a b -> stands_for y c d -> exists z, fr_over x y = Ok z /\ stands_for z (a * d) (b * c).
Proof. apply over_spec. Qed.

(** Simplification divides the numerator and the denominator by the same number, and leaves
    no number on both sides. *)
Theorem C150_simplify fr a b : stands_for fr a b ->
  exists fr' a' b' g, simplify fr = Ok fr' /\ stands_for fr' a' b' /\ a = g * a' /\ b = g * b' /\
    forall i, 2 <= i -> nth i (fr_upper fr') 0 = 0 \/ nth i (fr_lower fr') 0 = 0.
Proof.
  intros H. destruct (simplify_spec fr a b H) as (fr' & g & E & (a' & b' & ST & A & B) & Z). exists fr', a', b', g. split; [exact E|]. split; [exact ST|]. split; [exact A|]. split; [exact B|exact Z].
Qed.

(** The conversion terminates, and takes each number into account exactly as many times as it
    appears, in whatever order. *)
Theorem C150_conversion fr a b fuel : stands_for fr a b -> turns fr <= fuel -> to_real fuel fr = Ok (Some (a, b)).
Proof. apply to_real_spec. Qed.

Lemma bde_spec solutions index : exists fr, bde_fraction solutions index = Ok fr /\
  stands_for fr (fact (count (fun s => negb (nth index s false)) solutions) * fact (count (fun s => nth index s false) solutions)) (fact (length solutions + 1)).
Proof.
  unfold bde_fraction. destruct (div_spec fr_one (length solutions + 1) 1 1 C150_one) as (f1 & -> & S1). cbn [bind].
  destruct (mul_spec f1 (count (fun s => negb (nth index s false)) solutions) _ _ S1) as (f2 & -> & S2). cbn [bind].
  destruct (mul_spec f2 (count (fun s => nth index s false) solutions) _ _ S2) as (f3 & -> & S3). exists f3. split; [reflexivity|]. rewrite !Nat.mul_1_l in S3. exact S3.
Qed.

Lemma score_spec solutions index new_index :
  let n a b := count (fun s => Bool.eqb (nth new_index s false) a && Bool.eqb (nth index s false) b) solutions in
  let c b := count (fun s => Bool.eqb (nth index s false) b) solutions in
  exists fr a b g, split_score solutions index new_index = Ok fr /\ stands_for fr a b /\ 0 < g /\
    g * a = (fact (c false) * fact (c true)) * (fact (n false false + n false true + 1) * fact (n true false + n true true + 1)) /\
    g * b = fact (length solutions + 1) * (fact (n false false) * fact (n false true) * fact (n true false) * fact (n true true)).
Proof.
  intros n c. unfold split_score. destruct (bde_spec solutions index) as (x & -> & SX). cbn [bind].
  assert (C0 : count (fun s => negb (nth index s false)) solutions = c false) by reflexivity.
  assert (C1 : count (fun s => nth index s false) solutions = c true). { unfold c, count. f_equal. apply filter_ext. intros s. now destruct (nth index s false). }
  rewrite C0, C1 in SX.
  assert (W : exists y, splitless_bde solutions index new_index = Ok y /\ stands_for y (fact (n false false) * fact (n false true) * fact (n true false) * fact (n true true)) (fact (n false false + n false true + 1) * fact (n true false + n true true + 1))).
  { unfold splitless_bde. fold n. cbv zeta. destruct (div_spec fr_one (n false false + n false true + 1) 1 1 C150_one) as (f1 & E1 & S1). unfold n in E1 at 1 2. rewrite E1. cbn [bind]. rewrite Nat.mul_1_l in S1.
    destruct (div_spec f1 (n true false + n true true + 1) _ _ S1) as (f2 & E2 & S2). unfold n in E2 at 1 2. rewrite E2. cbn [bind foldM].
    destruct (mul_spec f2 (n false false) _ _ S2) as (f3 & E3 & S3). unfold n in E3. rewrite E3. cbn [bind].
    destruct (mul_spec f3 (n false true) _ _ S3) as (f4 & E4 & S4). unfold n in E4. rewrite E4. cbn [bind].
    destruct (mul_spec f4 (n true false) _ _ S4) as (f5 & E5 & S5). unfold n in E5. rewrite E5. cbn [bind].
    destruct (mul_spec f5 (n true true) _ _ S5) as (f6 & E6 & S6). unfold n in E6. rewrite E6. cbn [bind].
    exists f6. split; [reflexivity|]. rewrite Nat.mul_1_l in S6. exact S6. }
  destruct W as (y & -> & SY). cbn [bind]. destruct (over_spec x y _ _ _ _ SX SY) as (z & -> & SZ). cbn [bind].
  destruct (C150_simplify z _ _ SZ) as (fr & a & b & g & -> & SF & A & B & _). exists fr, a, b, g. split; [reflexivity|]. split; [exact SF|]. split; [|split; [symmetry; exact A|symmetry; exact B]].
  destruct g as [|g]; [|lia]. exfalso. cbn [Nat.mul] in B. apply Nat.mul_eq_0 in B.
  assert (P : forall k, fact k <> 0) by apply fact_neq_0. destruct B as [B|B]; [now apply P in B|]. rewrite !Nat.mul_eq_0 in B. destruct B as [[[B|B]|B]|B]; now apply P in B.
Qed.

(** The score of a split: the ratio of the scores before and after it, where the score of a
    leaf with [c0] zeros and [c1] ones is c0! c1! / (c0 + c1 + 1)!. *)
Theorem C150_score solutions index new_index :
  let n a b := length (filter (fun s => Bool.eqb (nth new_index s false) a && Bool.eqb (nth index s false) b) solutions) in
  let c b := length (filter (fun s => Bool.eqb (nth index s false) b) solutions) in
  exists fr a b g, split_score solutions index new_index = Ok fr /\ stands_for fr a b /\ 0 < g /\
    g * a = (fact (c false) * fact (c true)) * (fact (n false false + n false true + 1) * fact (n true false + n true true + 1)) /\
    g * b = fact (length solutions + 1) * (fact (n false false) * fact (n false true) * fact (n true false) * fact (n true true)).
Proof. exact (score_spec solutions index new_index). Qed.

(** A split which does not separate the solutions has the score 1. *)
Theorem C150_useless solutions index new_index v :
  (forall s, In s solutions -> nth new_index s false = v) ->
  exists fr a, split_score solutions index new_index = Ok fr /\ stands_for fr a a.
Proof.
  intros H. destruct (score_spec solutions index new_index) as (fr & a & b & g & E & SF & G & A & B). exists fr, a. split; [exact E|].
  assert (LC : forall l : list (list bool), count (fun s => Bool.eqb (nth index s false) false) l + count (fun s => Bool.eqb (nth index s false) true) l = length l).
  { unfold count. induction l as [|s l IH]; cbn [filter length]; [reflexivity|]. destruct (nth index s false); cbn [Bool.eqb length]; lia. }
  assert (SAME : forall w, count (fun s => Bool.eqb (nth new_index s false) v && Bool.eqb (nth index s false) w) solutions = count (fun s => Bool.eqb (nth index s false) w) solutions).
  { intros w. unfold count. f_equal. apply filter_ext_in. intros s I. rewrite (H s I). now rewrite Bool.eqb_reflx. }
  assert (NONE : forall w, count (fun s => Bool.eqb (nth new_index s false) (negb v) && Bool.eqb (nth index s false) w) solutions = 0).
  { intros w. unfold count. rewrite (filter_ext_in _ (fun _ => false)); [clear; induction solutions; [reflexivity|assumption]|]. intros s I. rewrite (H s I). now destruct v. }
  assert (AB : a = b).
  { apply (Nat.mul_cancel_l a b g); [lia|]. rewrite A, B, <- (LC solutions). destruct v; cbn [negb] in NONE; rewrite !SAME, !NONE; cbn [fact Nat.add Nat.mul]; lia. }
  rewrite <- AB in SF. exact SF.
Qed.
Print Assumptions C150_one.
Print Assumptions C150_multiply.
Print Assumptions C150_divide.
Print Assumptions C150_product.
Print Assumptions C150_quotient.
Print Assumptions C150_simplify.
Print Assumptions C150_conversion.
Print Assumptions C150_score.
Print Assumptions C150_useless.

(** Four solutions where two bits are equal: the score of splitting one on the other is
    (2! 2! / 5!) / ((2! / 3!) (2! / 3!)) = 6 / 20. *)
Definition C150_solutions : list (list bool) := [[false; false]; [true; true]; [false; false]; [true; true]].
Example C150_case :
  match split_score C150_solutions 0 1 with
  | Ok fr => fr_upper fr = [0; 0; 1; 1; 0; 0] /\ fr_lower fr = [0; 0; 0; 0; 1; 1] /\ to_real (turns fr) fr = Ok (Some (6, 20))
  | _ => False
  end.
Proof. vm_compute. split; [reflexivity|]. split; reflexivity. Qed.
Example C150_hypotheses :
  stands_for (mk_fraction [0; 0; 2; 1] [0; 0; 1; 0]) 12 2 /\ forall s, In s [[false; true]; [true; true]] -> nth 1 s false = true.
Proof. split; [repeat split|]. intros s [<-|[<-|[]]]; reflexivity. Qed.
