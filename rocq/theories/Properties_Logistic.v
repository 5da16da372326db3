(** The Gibbs samplers draw from the Boltzmann distribution: the part of C101 which needs
    real numbers. *)

From Coq Require Import Reals QArith Qreals Lra.
From Verif Require Import Base BitVector_Model WalshMoment_Model WalshMoment_Spec.
Local Open Scope R_scope.

(** logistic: util.hh:97-105, with real numbers *)
Definition logistic (x : R) : R := if Rlt_dec 0 x then 1 / (1 + exp (- x)) else let tmp := exp x in tmp / (1 + tmp).

(** With the logistic function of the library, each component is drawn from its conditional
    probability, given the others, in the Boltzmann distribution, where the probability of a vector
    is proportional to the exponential of its energy. *)
Theorem C101_boltzmann n m i x :
  let up := exp (Q2R (energy n m (with_bit x i true))) in let down := exp (Q2R (energy n m (with_bit x i false))) in
  logistic (Q2R (gain n m i x)) = up / (up + down) /\ 0 < logistic (Q2R (gain n m i x)) < 1.
Proof.
  intros up down. assert (U : 0 < up) by apply exp_pos. assert (D : 0 < down) by apply exp_pos.
  assert (E : logistic (Q2R (gain n m i x)) = up / (up + down)).
  { unfold gain. rewrite Q2R_minus. unfold logistic. destruct (Rlt_dec 0 _).
    - replace (- (Q2R (energy n m (with_bit x i true)) - Q2R (energy n m (with_bit x i false)))) with (Q2R (energy n m (with_bit x i false)) + - Q2R (energy n m (with_bit x i true))) by ring.
      rewrite exp_plus, exp_Ropp. fold up down. field. split; lra.
    - cbv zeta. unfold Rminus. rewrite exp_plus, exp_Ropp. fold up down. field. split; lra. }
  split; [assumption|]. rewrite E. split.
  - apply Rdiv_lt_0_compat; lra.
  - apply (Rmult_lt_reg_r (up + down)); [lra|]. unfold Rdiv. rewrite Rmult_assoc, Rinv_l by lra. lra.
Qed.
Print Assumptions C101_boltzmann.

(** The energy of three vectors, where setting a component changes it in both directions *)
Example C101_case_boltzmann : let m := mk_moment [1; 0; -1]%Q [[]; [1]; [2; 1 # 2]]%Q in
  (energy 3 m [true; false; true] == 1 # 2)%Q /\ (energy 3 m [true; true; true] == 7 # 2)%Q /\ (gain 3 m 1 [true; false; true] == 3)%Q /\ (gain 3 m 0 [true; false; true] == 0)%Q.
Proof. vm_compute. auto. Qed.
