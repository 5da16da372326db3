(** Property C119: linear functions and Walsh expansions computed with doubles. *)

From Coq Require Import ZArith.
From Verif Require Import Base BaseLemmas BitVector_Model BitVector_Spec Function_Spec Double Theory_Model Walsh_Model Rounding_Model Rounding_Spec Rounding_Proofs.
From Verif Require Theory_Proofs Walsh_Proofs Transform_Proofs.
Local Open Scope Z_scope.

(** * C119: sums of doubles *)

(** The sum of two finite doubles is the nearest double to the exact sum, the one with an
    even significand if two are as near; beyond the largest finite double, it is an
    infinity. *)
Theorem C119_sum a b : exists r, nearest_even (a + b) r /\
  (Z.abs r < 2 ^ 2098 -> fadd (DFin a) (DFin b) = DFin r) /\
  (2 ^ 2098 <= r -> fadd (DFin a) (DFin b) = DPosInf) /\
  (r <= - 2 ^ 2098 -> fadd (DFin a) (DFin b) = DNegInf).
Proof.
  exists (round53 (a + b)). split; [apply round53_nearest|]. cbn [fadd]. unfold rounded. cbv zeta. set (r := round53 (a + b)). clearbody r.
  repeat split; intros H.
  - rewrite (proj2 (Z.ltb_lt _ _)) by lia. now rewrite (proj2 (Z.ltb_lt _ _)) by lia.
  - now rewrite (proj2 (Z.ltb_ge _ _)) by lia.
  - rewrite (proj2 (Z.ltb_lt _ _)) by lia. now rewrite (proj2 (Z.ltb_ge _ _)) by lia.
Qed.

(** No value exceeds the announced maximum, which is the value of some vector, in spite of
    rounding and overflows. *)
Theorem C119_linear_maximum w : Forall finite_double w ->
  (forall x, length x = length w -> exists v, flinear_evaluate w x = Ok v /\ number v /\ dle v (flinear_maximum w) = true) /\
  exists x, length x = length w /\ flinear_evaluate w x = Ok (flinear_maximum w).
Proof. intros H. destruct (flinear_max w H) as [H1 H2]. split; [exact H1|]. exists (map fpositive w). now rewrite map_length. Qed.
Theorem C119_walsh1_maximum w : Forall finite_double w ->
  (forall x, length x = length w -> exists v, fwalsh1_evaluate w x = Ok v /\ number v /\ dle v (fwalsh1_maximum w) = true) /\
  exists x, length x = length w /\ fwalsh1_evaluate w x = Ok (fwalsh1_maximum w).
Proof. intros H. destruct (fwalsh1_max w H) as [H1 H2]. split; [exact H1|]. exists (map (fun c => negb (fpositive c)) w). now rewrite map_length. Qed.

(** Exact values for multiples of a power of two whose absolute values have a sum of at
    most 2^53 in this unit *)
Theorem C119_linear_exact a w x : small_multiples a w -> length x = length w ->
  flinear_evaluate (map DFin w) x = Ok (DFin (sum_n (length w) (fun i => if nth i x false then nth i w 0 else 0))).
Proof. intros H HL. rewrite (linear_exact a) by auto. now rewrite Theory_Proofs.linear_evaluate_sum. Qed.
Theorem C119_walsh1_exact a w x : small_multiples a w -> length x = length w ->
  fwalsh1_evaluate (map DFin w) x = Ok (DFin (sum_n (length w) (fun i => nth i w 0 * spin (nth i x false)))).
Proof. intros H HL. rewrite (walsh1_exact a) by auto. now rewrite Walsh_Proofs.walsh1_value. Qed.
Theorem C119_walsh_exact a terms x : small_multiples a (map snd terms) -> (forall t, In t terms -> length (fst t) = length x) ->
  fwalsh_evaluate (map (fun t => (fst t, DFin (snd t))) terms) x = Ok (DFin (zsum (map (fun t => walsh_sign (fst t) x * snd t) terms))).
Proof. intros H HL. rewrite (walsh_exact a) by auto. now rewrite Transform_Proofs.walsh_value. Qed.
Theorem C119_maximum_exact a w : small_multiples a w ->
  flinear_maximum (map DFin w) = DFin (zsum (map (fun c => Z.max c 0) w)) /\ fwalsh1_maximum (map DFin w) = DFin (zsum (map Z.abs w)).
Proof.
  intros H. rewrite (linear_maximum_exact a), (walsh1_maximum_exact a) by auto. rewrite Theory_Proofs.linear_maximum_zsum. split; [reflexivity|]. f_equal.
  unfold walsh1_maximum. enough (G : forall r, fold_left (fun result w => if 0 <? w then result + w else result - w) w r = r + zsum (map Z.abs w)) by (rewrite G; reflexivity).
  clear. induction w as [|c w IH]; intros r; cbn [fold_left map zsum fold_right]; [lia|]. rewrite IH. fold (zsum (map Z.abs w)). destruct (Z.ltb_spec 0 c); lia.
Qed.

(** In particular integers whose absolute values have a sum of at most 2^53 *)
Theorem C119_integers k x : length x = length k -> zsum (map Z.abs k) <= 2 ^ 53 ->
  flinear_evaluate (map of_integer k) x = Ok (of_integer (sum_n (length k) (fun i => if nth i x false then nth i k 0 else 0))).
Proof. apply linear_integers. Qed.

(** Incremental evaluation gives the value of the flipped vector, for weights whose absolute
    values have a sum of at most 2^52 in their unit. *)
Theorem C119_incremental a w x l : small_multiples a (w ++ w) -> length x = length w -> positions (length w) l ->
  exists v r, flinear_evaluate (map DFin w) x = Ok v /\ flinear_incremental (map DFin w) x v l = Ok r /\ flinear_evaluate (map DFin w) (flipped_at x l) = Ok r.
Proof. apply flinear_incremental_right. Qed.

(** In general it does not: with the integer weights 2^53 and 1, the value of 11 is 2^53
    after rounding, flipping the first bit gives 0 incrementally, but the value of 01 is 1. *)
Theorem C119_incremental_drift : let w := map of_integer [2 ^ 53; 1] in
  Forall finite_double w /\
  flinear_evaluate w [true; true] = Ok (of_integer (2 ^ 53)) /\
  flinear_incremental w [true; true] (of_integer (2 ^ 53)) [0%nat] = Ok (of_integer 0) /\
  flinear_evaluate w (flipped_at [true; true] [0%nat]) = Ok (of_integer 1).
Proof.
  intros w. split; [|vm_compute; repeat split].
  apply Forall_cons; [|apply Forall_cons; [|apply Forall_nil]]; (eexists; split; [reflexivity|]); (split; [|vm_compute; reflexivity]).
  - exists 1, 1127. split; [lia|]. split; vm_compute; reflexivity.
  - exists 1, 1074. split; [lia|]. split; vm_compute; reflexivity.
Qed.

(** The announced maximum of the weights 2^1023, 2^1023 and -1 is infinite and it is the
    value of 110; sums of quarters are exact. *)
Example C119_case :
  let w := [DFin (2 ^ 2097); DFin (2 ^ 2097); of_integer (-1)] in
  flinear_maximum w = DPosInf /\ flinear_evaluate w [true; true; false] = Ok DPosInf /\ flinear_evaluate w [true; false; true] = Ok (DFin (2 ^ 2097)) /\
  fadd (of_integer (2 ^ 53)) (of_integer 1) = of_integer (2 ^ 53) /\ fadd (of_integer (2 ^ 53)) (of_integer 3) = of_integer (2 ^ 53 + 4) /\
  small_multiples 1072 [6 * 2 ^ 1072; - 2 ^ 1072] /\ fwalsh1_evaluate (map DFin [6 * 2 ^ 1072; - 2 ^ 1072]) [false; true] = Ok (DFin (7 * 2 ^ 1072)).
Proof.
  cbv zeta. repeat match goal with |- _ /\ _ => split end; try (vm_compute; reflexivity).
  split; [lia|]. split; [|split; vm_compute; [discriminate|reflexivity]].
  intros z [<-|[<-|[]]]; [exists 6|exists (-1)]; vm_compute; reflexivity.
Qed.

(** An infinite weight: flipping its bit from 1 to 0 gives NaN, whatever the other weights, while
    the flipped vector may have a finite value; and an overflow is never undone by flipping finite weights. *)
Theorem C119_infinite_weight w x i s : (s = DPosInf \/ s = DNegInf) -> nth_error w i = Some s -> nth_error x i = Some true ->
  flinear_incremental w x s [i] = Ok DNaN.
Proof. intros Hs Hw Hx. cbn [flinear_incremental foldM]. unfold vget. rewrite Hx, Hw. cbn [bind]. destruct Hs as [-> | ->]; reflexivity. Qed.
Theorem C119_overflow_stays w x s flipped : (s = DPosInf \/ s = DNegInf) -> Forall finite_double w -> length x = length w ->
  (forall i, In i flipped -> (i < length w)%nat) -> flinear_incremental w x s flipped = Ok s.
Proof.
  intros Hs F L. induction flipped as [|i l IH]; intros H; [reflexivity|]. cbn [flinear_incremental foldM]. unfold vget.
  assert (Hi : (i < length w)%nat) by (apply H; now left).
  destruct (nth_error x i) as [b|] eqn:Ex; [|apply nth_error_None in Ex; lia]. destruct (nth_error w i) as [v|] eqn:Ew; [|apply nth_error_None in Ew; lia].
  cbn [bind]. assert (V : exists z, v = DFin z).
  { rewrite Forall_forall in F. apply nth_error_In in Ew. destruct (F v Ew) as (z & -> & _). eauto. }
  destruct V as (z & ->). replace (if b then fsub s (DFin z) else fadd s (DFin z)) with s by (destruct Hs as [-> | ->]; destruct b; reflexivity).
  apply IH. intros j Hj. apply H. now right.
Qed.
Print Assumptions C119_infinite_weight.
Print Assumptions C119_overflow_stays.
Print Assumptions C119_sum.
Print Assumptions C119_linear_maximum.
Print Assumptions C119_walsh1_maximum.
Print Assumptions C119_linear_exact.
Print Assumptions C119_walsh1_exact.
Print Assumptions C119_walsh_exact.
Print Assumptions C119_maximum_exact.
Print Assumptions C119_integers.
Print Assumptions C119_incremental.
Print Assumptions C119_incremental_drift.
Example C119_infinite_case : flinear_incremental [DPosInf; DFin 3] [true; true] DPosInf [0%nat] = Ok DNaN /\
  flinear_evaluate [DPosInf; DFin 3] [false; true] = Ok (DFin 3).
Proof. split; vm_compute; reflexivity. Qed.
