From Coq Require Import ZArith NArith.
From Verif Require GF2 Walsh_Proofs.
From Verif Require Import Base BaseLemmas BitVector_Model BitVector_Spec BitVector_Proofs Function_Spec Theory_Model Theory_Proofs Hiff_Proofs Peaks_Proofs LongPath_Proofs Map_Spec Double Controller_Model
  Controller_Spec Decorator_Model Decorator_Spec ControllerStack_Spec Application_Model Application_Spec Application_Proofs Iterator_Proofs Search_Model Search_Spec Search_Proofs
  FunctionFactory_Model FunctionFactory_Spec.
Local Open Scope nat_scope.

(** * Numbers of vectors *)

Lemma value_lsb_le x : forall y, length x = length y -> (forall i, nth i x false = true -> nth i y false = true) -> (value_lsb x <= value_lsb y)%N.
Proof.
  induction x as [|a x IH]; intros [|b y] L H; try discriminate. cbn in L. cbn [value_lsb].
  assert (K : (value_lsb x <= value_lsb y)%N) by (apply IH; [lia|]; intros i; exact (H (S i))). specialize (H 0). cbn in H. destruct a, b; try discriminate (H eq_refl); lia.
Qed.

Lemma value_lsb_bit x : forall i, nth i x false = true -> (2 ^ N.of_nat i <= value_lsb x)%N.
Proof.
  induction x as [|a x IH]; intros [|i] H; try discriminate.
  - cbn in H. subst a. cbn [value_lsb]. change (2 ^ N.of_nat 0)%N with 1%N. lia.
  - cbn [nth] in H. specialize (IH i H). rewrite Nat2N.inj_succ, N.pow_succ_r'. cbn [value_lsb]. lia.
Qed.

Lemma ones_first_length n s : s <= n -> length (ones_first n s) = n.
Proof. intros H. unfold ones_first. rewrite app_length, !repeat_length. lia. Qed.
Lemma ones_first_nth n s i : s <= n -> nth i (ones_first n s) false = (i <? s).
Proof.
  intros H. unfold ones_first. destruct (Nat.ltb_spec i s).
  - rewrite app_nth1 by (rewrite repeat_length; lia). rewrite (nth_indep _ false true) by (rewrite repeat_length; lia). apply nth_repeat.
  - rewrite app_nth2 by (rewrite repeat_length; lia). apply nth_repeat.
Qed.
Lemma value_ones_first n s : s <= n -> (value_lsb (ones_first n s) < 2 ^ N.of_nat s)%N.
Proof.
  intros H. unfold ones_first. clear H. induction s as [|s IH]; cbn [repeat app].
  - rewrite Nat.sub_0_r. cut (forall k, value_lsb (repeat false k) = 0%N). { intros K. rewrite K. cbn. lia. }
    induction k; cbn [repeat value_lsb]; lia.
  - rewrite Nat2N.inj_succ, N.pow_succ_r'. cbn [value_lsb].
    assert (E : forall k j, value_lsb (repeat true k ++ repeat false j) = value_lsb (repeat true k)).
    { induction k as [|k IHk]; intros j; cbn [repeat app value_lsb]; [|rewrite IHk; lia]. induction j; cbn [repeat value_lsb]; lia. }
    rewrite E in *. lia.
Qed.

Lemma ones_first_before n s y : s <= n -> length y = n -> (forall i, i < s -> nth i y false = true) \/ (exists i, s <= i /\ nth i y false = true) ->
  (value_lsb (ones_first n s) <= value_lsb y)%N.
Proof.
  intros H L [K|(i & K1 & K2)].
  - apply value_lsb_le; [rewrite ones_first_length by auto; lia|]. intros i. rewrite ones_first_nth by auto. destruct (Nat.ltb_spec i s); auto; discriminate.
  - apply value_lsb_bit in K2. pose proof (value_ones_first n s H).
    assert (2 ^ N.of_nat s <= 2 ^ N.of_nat i)%N by (apply N.pow_le_mono_r; lia). lia.
Qed.

(** * Functions *)

(** What is needed of a function: its size, its maximum, its first maximizer *)
Definition has_maximum (F : func) (M : Z) (x0 : bv) : Prop :=
  exists f, computes F f /\ numbers (fp_size (f_props F)) f /\
    fp_known (f_props F) = Ok true /\ fp_max (f_props F) = Ok (DFin M) /\
    length x0 = fp_size (f_props F) /\ f x0 = DFin M /\
    (forall y, length y = fp_size (f_props F) -> dle (f y) (DFin M) = true) /\
    (forall y, length y = fp_size (f_props F) -> f y = DFin M -> (value_lsb x0 <= value_lsb y)%N).

Lemma DFin_inj a b : DFin a = DFin b -> a = b.
Proof. now intros [= ->]. Qed.
Lemma unit_positive : (0 < 2 ^ 1074)%Z.
Proof. apply Z.pow_pos_nonneg; lia. Qed.
Lemma dint_inj a b : dint a = dint b -> a = b.
Proof. unfold dint. intros H%DFin_inj. apply Z.mul_reg_r in H; auto. pose proof unit_positive. lia. Qed.
Lemma dint_le a b : (a <= b)%Z -> dle (dint a) (dint b) = true.
Proof. intros H. cbn. apply Z.leb_le. apply Z.mul_le_mono_nonneg_r; auto. pose proof unit_positive. lia. Qed.

Lemma integer_has_maximum n ev M Lm x0 : is_maximum n ev M -> maximizers n ev M Lm -> In x0 Lm -> length x0 = n ->
  (forall y, length y = n -> In y Lm -> (value_lsb x0 <= value_lsb y)%N) ->
  has_maximum (integer_function n ev true (Ok M)) (M * 2 ^ 1074) x0.
Proof.
  intros [H1 _] H2 HI HL HV. exists (fun x => match ev x with Ok v => dint v | _ => DNaN end). cbn [integer_function f_props fp_size fp_known fp_max f_obj bind].
  split; [|split; [|split; [reflexivity|split; [reflexivity|split; [exact HL|split; [|split]]]]]].
  - intros s r x As Hx. cbn [fp_size f_props integer_function] in Hx. destruct (H1 x Hx) as (v & E & _). destruct As as [->| ->]; cbn; now rewrite E.
  - intros x Hx. destruct (H1 x Hx) as (v & -> & _). reflexivity.
  - now rewrite (proj2 (H2 x0 HL) HI).
  - intros y Hy. destruct (H1 y Hy) as (v & -> & K). now apply dint_le.
  - intros y Hy E. apply HV; auto. apply H2; auto. destruct (H1 y Hy) as (v & E' & _). rewrite E' in *. f_equal. now apply dint_inj in E.
Qed.

Lemma linear_value_eq w x : length x = length w -> linear_value w x = zsum (map (fun a => Z.max a 0) w) ->
  forall i, nth i (map (fun a => (0 <? a)%Z) w) false = true -> nth i x false = true.
Proof.
  revert x. induction w as [|a w IH]; intros [|b x] L E i Hi; try discriminate; [destruct i; discriminate|]. cbn in L.
  pose proof (linear_value_le w x) as LE. unfold linear_value, zsum in *. cbn [map2 map fold_right] in E.
  destruct i as [|i]; cbn [map nth] in *.
  - destruct (Z.ltb_spec 0 a); [|discriminate]. destruct b; auto. lia.
  - apply IH; auto; destruct b; lia.
Qed.

Lemma linear_has_maximum w : has_maximum (linear_function w) (fold_right Z.add 0%Z (map (Z.max 0) w)) (map (fun a => (0 <? a)%Z) w).
Proof.
  assert (EM : fold_right Z.add 0%Z (map (Z.max 0) w) = zsum (map (fun a => Z.max a 0) w)).
  { unfold zsum. f_equal. apply map_ext. intros a. lia. }
  rewrite EM. exists (fun x => DFin (linear_value w x)). cbn [linear_function f_props fp_size fp_known fp_max f_obj].
  split; [|split; [|split; [reflexivity|split; [|split; [|split; [|split]]]]]].
  - intros s r x As Hx. cbn [fp_size f_props linear_function] in Hx. destruct As as [->| ->]; cbn [f_obj linear_function plain_inc]; now rewrite linear_evaluate_Ok.
  - intros x _. reflexivity.
  - now rewrite linear_maximum_zsum.
  - apply map_length.
  - f_equal. destruct (linear_max w) as [_ _]. unfold linear_value. clear. induction w as [|a w IH]; [reflexivity|]. cbn [map map2]. unfold zsum in *. cbn [fold_right].
    rewrite IH. destruct (Z.ltb_spec 0 a); lia.
  - intros y _. cbn. apply Z.leb_le, linear_value_le.
  - intros y Hy E%DFin_inj. apply value_lsb_le; [rewrite map_length; auto|]. now apply linear_value_eq.
Qed.

Lemma onemax_has_maximum n : has_maximum (onemax_function n) (Z.of_nat n * 2 ^ 1074) (onesv n).
Proof.
  destruct (onemax_max n) as [[H1 _] H2]. exists (fun x => dint (onemax_evaluate x)). cbn [onemax_function f_props fp_size fp_known fp_max f_obj].
  assert (L : length (onesv n) = n) by apply repeat_length.
  split; [|split; [|split; [reflexivity|split; [reflexivity|split; [exact L|split; [|split]]]]]].
  - intros s r x As Hx. destruct As as [->| ->]; reflexivity.
  - intros x _. reflexivity.
  - pose proof (proj2 (H2 _ L) (or_introl eq_refl)) as E. apply Ok_inj in E. now rewrite E.
  - intros y Hy. destruct (H1 y Hy) as (v & E & K). apply Ok_inj in E. subst v. now apply dint_le.
  - intros y Hy E. change (DFin (Z.of_nat n * 2 ^ 1074)) with (dint (onemax_maximum n)) in E. apply dint_inj in E.
    destruct (proj1 (H2 y Hy)) as [<-|[]]; [now f_equal|]. lia.
Qed.

Lemma doubling_spec n : forall w l, (0 < w)%Z -> doubling_weights n w = Ok l ->
  length l = n /\ Forall (fun a => 0 < a)%Z l /\ fold_right Z.add 0%Z l = (w * (2 ^ Z.of_nat n - 1) * 2 ^ 1074)%Z.
Proof.
  induction n as [|n IH]; intros w l Hw E; cbn [doubling_weights] in E.
  - apply Ok_inj in E. subst l. cbn [length fold_right]. split; [auto|]. split; [constructor|]. change (2 ^ Z.of_nat 0)%Z with 1%Z. ring.
  - destruct (w * 2 <? 2 ^ 31)%Z; [|discriminate]. destruct (doubling_weights n (w * 2)) as [l'|e|] eqn:El; try discriminate. cbn [bind] in E. apply Ok_inj in E. subst l.
    destruct (IH (w * 2)%Z l') as (I1 & I2 & I3); [lia|auto|]. cbn [length fold_right]. pose proof unit_positive.
    split; [lia|]. split; [constructor; auto; now apply Z.mul_pos_pos|]. rewrite I3, Nat2Z.inj_succ, Z.pow_succ_r by lia. ring.
Qed.

(** The generator is defined for at most 30 bits. *)
Lemma doubling_defined n : forall k, k <= 30 -> n <= 30 - k -> exists l, doubling_weights n (2 ^ Z.of_nat k) = Ok l.
Proof.
  induction n as [|n IH]; intros k Hk Hn; cbn [doubling_weights]; [eauto|].
  assert (E : (2 ^ Z.of_nat k * 2 = 2 ^ Z.of_nat (S k))%Z) by (rewrite Nat2Z.inj_succ, Z.pow_succ_r by lia; ring). rewrite E.
  assert (B : (2 ^ Z.of_nat (S k) < 2 ^ 31)%Z) by (apply Z.pow_lt_mono_r; lia).
  apply Z.ltb_lt in B. rewrite B. destruct (IH (S k)) as [l ->]; [lia|lia|]. cbn. eauto.
Qed.
Lemma doubling_undefined n : forall k, 30 - k < n -> doubling_weights n (2 ^ Z.of_nat k) = UB.
Proof.
  induction n as [|n IH]; intros k Hn; [lia|]. cbn [doubling_weights].
  assert (E : (2 ^ Z.of_nat k * 2 = 2 ^ Z.of_nat (S k))%Z) by (rewrite Nat2Z.inj_succ, Z.pow_succ_r by lia; ring). rewrite E.
  destruct (Z.ltb_spec (2 ^ Z.of_nat (S k)) (2 ^ 31)) as [B|B]; [|reflexivity].
  apply Z.pow_lt_mono_r_iff in B; [|lia|lia]. rewrite IH by lia. reflexivity.
Qed.

Lemma ones_first_all n : ones_first n n = onesv n.
Proof. unfold ones_first, onesv. now rewrite Nat.sub_diag, app_nil_r. Qed.
Lemma ones_first_zero n : ones_first n 0 = repeat false n.
Proof. unfold ones_first. now rewrite Nat.sub_0_r. Qed.

Lemma only_ones n y : length y = n -> In y [onesv n] -> (value_lsb (ones_first n n) <= value_lsb y)%N.
Proof. intros _ [<-|[]]. rewrite ones_first_all. lia. Qed.

Lemma map_max_positive l : Forall (fun a => 0 < a)%Z l -> map (Z.max 0) l = l /\ map (fun a => 0 <? a)%Z l = onesv (length l).
Proof.
  induction 1 as [|a l Ha Hl [I1 I2]]; [auto|]. cbn. rewrite I1, I2. split; [f_equal; lia|]. unfold onesv. cbn. f_equal. now apply Z.ltb_lt.
Qed.

Lemma bind_Ok {A B} (m : outcome A) (k : A -> outcome B) b : bind m k = Ok b -> exists a, m = Ok a /\ k a = Ok b.
Proof. destruct m; cbn; try discriminate. eauto. Qed.

Lemma peaks_order n s y : s + s <= n -> length y = n ->
  In y [repeat true (n - s) ++ repeat false s; repeat true s ++ repeat false (n - s);
        repeat false (n - s) ++ repeat true s; repeat false s ++ repeat true (n - s)] ->
  (value_lsb (ones_first n s) <= value_lsb y)%N.
Proof.
  intros H L HI. apply ones_first_before; [lia|exact L|]. destruct (Nat.eq_dec s 0) as [->|Hs]; [left; intros; lia|].
  assert (NR : forall k i b, i < k -> nth i (repeat b k) false = b).
  { intros k i b Hi. rewrite (nth_indep _ false b) by (rewrite repeat_length; lia). apply nth_repeat. }
  destruct HI as [<-|[<-|[<-|[<-|[]]]]].
  - left. intros i Hi. rewrite app_nth1 by (rewrite repeat_length; lia). apply NR. lia.
  - left. intros i Hi. rewrite app_nth1 by (rewrite repeat_length; lia). apply NR. lia.
  - right. exists (n - s). split; [lia|]. rewrite app_nth2 by (rewrite repeat_length; lia). rewrite repeat_length. apply NR. lia.
  - right. exists s. split; [lia|]. rewrite app_nth2 by (rewrite repeat_length; lia). rewrite repeat_length. apply NR. lia.
Qed.

Lemma peaks_bounds n t m s : peaks_make n t = Ok m -> Z.of_nat s = (t + 1)%Z -> m = (2 * Z.of_nat n - t - 1)%Z /\ s + s <= n /\ s = Z.to_nat (t + 1).
Proof.
  unfold peaks_make. destruct (Z.ltb_spec (Z.quot (Z.of_nat n) 2 - 1) t) as [|H]; [discriminate|]. intros E Hs. apply Ok_inj in E. subst m.
  rewrite Z.quot_div_nonneg in H by lia. pose proof (Z.mul_div_le (Z.of_nat n) 2). lia.
Qed.

Theorem made_has_maximum o F : usual o -> make_function o = Ok F ->
  (0 < fp_size (f_props F)) /\ (fn_type o <> 1%Z -> Z.of_nat (fp_size (f_props F)) = fn_bv_size o) /\
  has_maximum F (documented_maximum o) (first_maximizer o).
Proof.
  intros (HT & HP & HH & HL & HW) HM. unfold make_function in HM. destruct (Z.leb_spec (fn_bv_size o) 0) as [|Hn]; [discriminate|].
  unfold documented_maximum, first_maximizer. set (n := Z.to_nat (fn_bv_size o)) in *.
  assert (En : fn_bv_size o = Z.of_nat n) by (unfold n; lia). assert (Pn : 0 < n) by lia. rewrite En in *. clearbody n.
  assert (G : forall ev M Lm x0 t, Ok (integer_function n ev true (Ok M)) = Ok F -> is_maximum n ev M -> maximizers n ev M Lm -> In x0 Lm -> length x0 = n ->
    (forall y, length y = n -> In y Lm -> (value_lsb x0 <= value_lsb y)%N) ->
    0 < fp_size (f_props F) /\ (t <> 1%Z -> Z.of_nat (fp_size (f_props F)) = Z.of_nat n) /\ has_maximum F (M * 2 ^ 1074) x0).
  { intros ev M Lm x0 t E H1 H2 H3 H4 H5. apply Ok_inj in E. subst F. split; [exact Pn|]. split; [reflexivity|]. now apply integer_has_maximum with (Lm := Lm). }
  assert (G1 : forall ev M t, Ok (integer_function n ev true (Ok M)) = Ok F -> is_maximum n ev M /\ maximizers n ev M [onesv n] ->
    0 < fp_size (f_props F) /\ (t <> 1%Z -> Z.of_nat (fp_size (f_props F)) = Z.of_nat n) /\ has_maximum F (M * 2 ^ 1074) (ones_first n n)).
  { intros ev M t E [H1 H2]. refine (G ev M [onesv n] _ t E H1 H2 _ _ _); [left; now rewrite ones_first_all|now apply ones_first_length|]. apply only_ones. }
  unfold by_options in HT. cbn [In] in HT.
  destruct HT as [T|[T|[T|[T|[T|[T|[T|[T|[T|[T|[T|[T|[T|[T|[]]]]]]]]]]]]]]]; rewrite <- T in *; cbv iota in HM |- *.
  - apply Ok_inj in HM. subst F. split; [exact Pn|]. split; [reflexivity|]. rewrite ones_first_all. apply onemax_has_maximum.
  - apply bind_Ok in HM as (w & Ew & HM). apply Ok_inj in HM. subst F. rewrite Ew in *. split; [|split; [lia|apply linear_has_maximum]].
    cbn. destruct w; [now destruct (HW eq_refl)|cbn; lia].
  - apply bind_Ok in HM as (w & Ew & HM). apply Ok_inj in HM. subst F. destruct (doubling_spec n 1 w ltac:(lia) Ew) as (D1 & D2 & D3).
    destruct (map_max_positive w D2) as [M1 M2]. cbn [f_props linear_function fp_size]. rewrite D1. split; [exact Pn|]. split; [reflexivity|].
    pose proof (linear_has_maximum w) as K. rewrite M1, M2, D1, D3 in K. rewrite ones_first_all. replace ((2 ^ Z.of_nat n - 1) * 2 ^ 1074)%Z with (1 * (2 ^ Z.of_nat n - 1) * 2 ^ 1074)%Z by ring. exact K.
  - exact (G1 _ _ 10%Z HM (leadingones_max n)).
  - exact (G1 _ _ 11%Z HM (ridge_max n)).
  - exact (G1 _ _ 20%Z HM (needle_max n)).
  - apply bind_Ok in HM as ([] & Ej & HM). exact (G1 _ _ 30%Z HM (jump_max n _ Ej)).
  - apply bind_Ok in HM as ([] & Ej & HM). exact (G1 _ _ 31%Z HM (deceptivejump_max n _ Ej)).
  - apply bind_Ok in HM as (m & Em & HM). destruct (fourpeaks_max n _ m Em (HP (or_introl eq_refl))) as (H1 & s & Es & H2).
    destruct (peaks_bounds n _ m s Em Es) as (-> & Hs & ->). set (s := Z.to_nat (fn_threshold o + 1)) in *.
    refine (G _ _ _ (ones_first n s) 40%Z HM H1 H2 _ _ _); [right; now left|apply ones_first_length; lia|].
    intros y Hy HI. apply peaks_order; auto. destruct HI as [<-|[<-|[]]]; [now left|right; now left].
  - apply bind_Ok in HM as (m & Em & HM). destruct (sixpeaks_max n _ m Em (HP (or_intror eq_refl))) as (H1 & s & Es & H2).
    destruct (peaks_bounds n _ m s Em Es) as (-> & Hs & ->). set (s := Z.to_nat (fn_threshold o + 1)) in *.
    refine (G _ _ _ (ones_first n s) 41%Z HM H1 H2 _ _ _); [right; now left|apply ones_first_length; lia|].
    intros y Hy HI. now apply peaks_order.
  - apply bind_Ok in HM as (k & Ek & HM). apply bind_Ok in HM as (s & Es & HM). exact (G1 _ _ 110%Z HM (trap_max n k s Pn Es)).
  - apply bind_Ok in HM as (d & Ed & HM). specialize (HH eq_refl). destruct (hiff_max n d Pn HH Ed) as (H1 & H2 & _).
    assert (Ed' : ((Z.log2 (Z.of_nat n) + 1) * Z.of_nat n = hiff_maximum n d)%Z).
    { apply hiff_make_spec in Ed; auto. unfold hiff_maximum. rewrite Nat2Z.inj_mul, Nat2Z.inj_add. do 2 f_equal. rewrite Ed, Nat2Z.inj_pow. apply Z.log2_pow2. lia. }
    rewrite Ed'. refine (G _ _ _ (ones_first n 0) 120%Z HM H1 H2 _ _ _); [left; now rewrite ones_first_zero|apply ones_first_length; lia|].
    intros y Hy _. apply ones_first_before; [lia|exact Hy|]. left. lia.
  - exact (G1 _ _ 130%Z HM (plateau_max n)).
  - apply bind_Ok in HM as (k & Ek & HM). apply bind_Ok in HM as ([] & El & HM). specialize (HL eq_refl).
    unfold positive_int in Ek. destruct (Z.ltb_spec 0 (fn_prefix_length o)) as [Hk|]; [|discriminate]. cbn [assertb bind] in Ek. apply Ok_inj in Ek.
    assert (Ek' : fn_prefix_length o = Z.of_nat k) by lia. rewrite Ek' in *. rewrite Nat2Z.id. clear Ek.
    destruct (longpath_max n k El) as (H1 & H2 & H3).
    assert (Kn : longpath_has_known_maximum n k = true). { unfold longpath_has_known_maximum. apply Z.leb_le. now rewrite Nat2Z.inj_div. }
    rewrite Kn in H3, HM. rewrite H3 in HM. rewrite <- Nat2Z.inj_div.
    assert (kn : k <= n).
    { unfold longpath_make in El. destruct (Nat.ltb_spec 0 n); [|discriminate]. destruct (Nat.ltb_spec 0 k); [|discriminate]. cbn [assertb bind] in El.
      destruct (Nat.eqb_spec (n mod k) 0) as [Ez|]; [|discriminate]. destruct (Nat.le_gt_cases k n); auto. rewrite Nat.mod_small in Ez by auto. lia. }
    refine (G _ _ _ (ones_first n k) 140%Z HM H1 H2 _ _ _); [now left|now apply ones_first_length|].
    intros y _ [<-|[]]. unfold ones_first. lia.
Qed.

(** * Exhaustive search *)

Lemma total_const F f : computes F f -> total (f_obj F) (f_init F) (fp_size (f_props F)) f.
Proof.
  intros HC xs. generalize (f_init F). induction xs as [|x xs IH]; intros s H; [reflexivity|]. inversion H; subst. cbn [map calls].
  pose proof (HC s (REval x) x (or_introl eq_refl) H2) as E. destruct (f_obj F s (REval x)) as [s' a]. cbn [snd] in E. subst a. cbn [map res]. f_equal. now apply IH.
Qed.

Lemma counting_nth i L x : counting_order i L -> length x = i -> nth_error L (N.to_nat (value_lsb x)) = Some x.
Proof.
  intros (H1 & H2 & H3) Hx. apply H2 in Hx as HI. apply In_nth_error in HI as [k Hk]. pose proof (value_lsb_lt x) as B.
  assert (LL : length L = 2 ^ i).
  { destruct (all_bvs_spec i) as (A1 & A2 & A3 & _). rewrite <- A1. apply Nat.le_antisymm; apply NoDup_incl_length; auto; intros y Hy; [apply A3|apply H2]; [now apply H2|now apply A3]. }
  assert (Kl : k < 2 ^ i) by (rewrite <- LL; apply nth_error_Some; congruence).
  specialize (H3 k Kl). rewrite (nth_error_nth _ _ [] Hk) in H3. rewrite H3, Nat2N.id. exact Hk.
Qed.
Lemma counting_value i L k x : counting_order i L -> nth_error L k = Some x -> k = N.to_nat (value_lsb x).
Proof.
  intros HC Hk. pose proof HC as (H1 & H2 & H3). assert (Hx : length x = i) by (apply H2; eapply nth_error_In; eauto).
  pose proof (counting_nth i L x HC Hx) as E. apply (NoDup_nth_error L) with (i := k) (j := N.to_nat (value_lsb x)) in H1; auto; [|congruence]. apply nth_error_Some. congruence.
Qed.
Lemma firstn_nth_In {A} (l : list A) k b x : nth_error l k = Some x -> k < b -> In x (firstn b l).
Proof.
  revert k b. induction l as [|a l IH]; intros [|k] [|b] H L; try discriminate; try lia; cbn in *; [injection H as ->; auto|]. right. apply (IH k); auto; lia.
Qed.

Theorem exhaustive_maximum ap co o F : usual o -> make_function o = Ok F ->
  optimizes ap -> ap_restart ap = false -> co_stop_on_maximum co = true ->
  let n := fp_size (f_props F) in
  let x0 := first_maximizer o in
  let k := N.to_nat (value_lsb x0) in
  length x0 = n /\
  forall fuel, 2 ^ n < fuel ->
  exists r x, program ap co (Ok (Some (None, F))) make_complete_search fuel = Some (report ap co None n r x (k <? allowed co (2 ^ n))) /\
    (if k <? allowed co (2 ^ n)
     then x = x0 /\ rs_value r = Some (DFin (documented_maximum o)) /\ rs_num r = k + 1 /\ rs_total r = k + 1
     else rs_total r = allowed co (2 ^ n)).
Proof.
  intros HU HM HO HR HS n x0 k. destruct (made_has_maximum o F HU HM) as (Pn & _ & f & HC & HN & HK & HX & Lx & Ex & Hle & Hmin). fold n in Pn, HN, Lx, Hle, Hmin. fold x0 in Lx, Ex, Hmin.
  set (M := documented_maximum o) in *. split; [exact Lx|].
  assert (HCo : make_function_controller co F = Ok (middle_of co, Some (DFin M))).
  { unfold make_function_controller, target_of. rewrite HS, HK. cbn [bind]. rewrite HX. reflexivity. }
  destruct (complete_search_run ap co None F (middle_of co) (Some (DFin M)) n n f Pn HO HR HCo eq_refl I eq_refl (total_const F f HC) HN) as (L & HL & H).
  intros fuel Hf. destruct (H fuel Hf) as (r & x & success & P & _ & E). clear H. set (b := allowed co (2 ^ n)) in *.
  pose proof (counting_nth n L x0 HL Lx) as N0. fold k in N0. exists r, x.
  assert (Nm : is_nan (DFin M) = false) by reflexivity.
  destruct E as [r j x M1 M2 M3 M4 M5|r t j x M1 M2 M3 M4 M5 M6 M7 M8].
  - destruct (Nat.ltb_spec k b) as [Hb|Hb].
    + exfalso. specialize (M1 _ x0 eq_refl (firstn_nth_In L k b x0 N0 Hb)). rewrite Ex in M1. unfold dge in M1. rewrite dle_refl in M1; [discriminate|auto].
    + auto.
  - injection M1 as <-.
    assert (Lj : length x = n) by (destruct HL as (_ & HL & _); apply HL; eapply nth_error_In; eauto).
    assert (Fx : f x = DFin M) by (apply dle_antisym; auto).
    pose proof (Hmin x Lj Fx) as LE. pose proof (counting_value n L j x HL M3) as Ej.
    assert (kj : k <= j) by (unfold k; lia).
    assert (Ek : k = j).
    { destruct (Nat.eq_dec k j); auto. exfalso. specialize (M5 x0 (firstn_nth_In L k j x0 N0 ltac:(lia))). rewrite Ex in M5. unfold dge in M5. rewrite dle_refl in M5; [discriminate|auto]. }
    destruct (Nat.ltb_spec k b); [|lia]. split; [exact P|]. rewrite <- Ek, N0 in M3. injection M3 as M3. rewrite <- M3 in *. rewrite Fx in M6. repeat split; auto; lia.
Qed.

(** Through modifiers *)
Theorem exhaustive_decorated ap co mo d o F0 m F i : usual o -> make_function o = Ok F0 ->
  make_function_modifier mo d (make_function o) = Ok (Some (m, F)) -> map_fits m i (fp_size (f_props F0)) -> kind_known m ->
  mo_prior mo = None -> fp_known (f_props F) = Ok true ->
  optimizes ap -> ap_restart ap = false -> co_stop_on_maximum co = true -> (co_budget co <= 0)%Z -> 0 < i ->
  forall fuel, 2 ^ i < fuel ->
  exists r x f, program ap co (Ok (Some (m, F))) make_complete_search fuel = Some (report ap co m i r x true) /\
    computes F0 f /\ length x = i /\ rs_value r = Some (f (image m x)) /\ f (image m x) = DFin (documented_maximum o) /\
    (forall y, length y = fp_size (f_props F0) -> dle (f y) (f (image m x)) = true).
Proof.
  intros HU HM HD HI HKn HP HKF HO HR HS HB Pi fuel Hf. destruct (made_has_maximum o F0 HU HM) as (Pn & _ & f & HC & HN & HK & HX & Lx & Ex & Hle & _).
  set (M := documented_maximum o) in *. rewrite HM in HD. destruct (decorated_total mo d F0 f m F i (DFin M) HC HD HI HK HX HKF HP) as (T & Z & MX & ON).
  assert (LM : forall x, length x = i -> length (image m x) = fp_size (f_props F0)) by (intros; now apply (length_image m i)).
  assert (HN' : numbers i (fun x => f (image m x))) by (intros x Hx; apply HN; auto).
  assert (HCo : make_function_controller co F = Ok (middle_of co, Some (DFin M))).
  { unfold make_function_controller, target_of. rewrite HS, HKF. cbn [bind]. rewrite MX. reflexivity. }
  destruct (complete_search_run ap co m F (middle_of co) (Some (DFin M)) i _ _ Pi HO HR HCo HI HKn Z T HN') as (L & HL & H).
  destruct (H fuel Hf) as (r & x & success & P & _ & E). clear H. exists r, x, f. pose proof HL as (_ & HL2 & _).
  assert (EB : allowed co (2 ^ i) = 2 ^ i) by (unfold allowed; destruct (Z.ltb_spec 0 (co_budget co)); [lia|reflexivity]). rewrite EB in E. clear EB.
  destruct E as [r j x M1 M2 M3 M4 M5|r t j x M1 M2 M3 M4 M5 M6 M7 M8].
  - exfalso.
    assert (X : exists z, length z = i /\ f (image m z) = DFin M).
    { destruct m as [mm|]; cbn in HI, ON |- *.
      - destruct (ON _ Lx) as (z & Lz & Ez). exists z. split; auto. now rewrite Ez.
      - exists (first_maximizer o). split; [congruence|exact Ex]. }
    destruct X as (z & Lz & Ez). pose proof (counting_nth i L z HL Lz) as Nz. pose proof (value_lsb_lt z) as Bz.
    assert (kz : N.to_nat (value_lsb z) < 2 ^ i). { rewrite Lz in Bz. rewrite <- pow2_of_nat in Bz. lia. }
    specialize (M1 _ z eq_refl (firstn_nth_In L _ _ z Nz kz)). cbv beta in M1. rewrite Ez in M1. unfold dge in M1. rewrite dle_refl in M1; [discriminate|reflexivity].
  - injection M1 as <-. assert (Lj : length x = i) by (apply HL2; eapply nth_error_In; eauto). cbv beta in *.
    assert (Fx : f (image m x) = DFin M) by (apply dle_antisym; auto).
    split; [exact P|]. split; [exact HC|]. split; [exact Lj|]. split; [exact M6|]. split; [exact Fx|]. rewrite Fx. exact Hle.
Qed.

(** * Values *)

Lemma head_run b x : run_of b x (head x b).
Proof.
  induction x as [|c x IH]; [now right|]. cbn [head]. destruct (Bool.eqb c b) eqn:E.
  - apply Bool.eqb_prop in E. subst c. destruct IH as [[u Eu]|Eu]; [left; exists u|right]; cbn [repeat app]; f_equal; exact Eu.
  - left. exists x. cbn. destruct c, b; cbn in E |- *; congruence.
Qed.

Lemma doubling_value n : forall w l x, doubling_weights n w = Ok l -> length x = n -> linear_value l x = (w * Z.of_N (value_lsb x) * 2 ^ 1074)%Z.
Proof.
  induction n as [|n IH]; intros w l x E L; cbn [doubling_weights] in E.
  - apply Ok_inj in E. subst l. destruct x; [|discriminate]. cbn [linear_value map2 zsum fold_right value_lsb]. unfold linear_value. cbn [map2 zsum fold_right]. change (Z.of_N 0) with 0%Z. rewrite Z.mul_0_r. reflexivity.
  - destruct (w * 2 <? 2 ^ 31)%Z; [|discriminate]. destruct (doubling_weights n (w * 2)) as [l'|e|] eqn:El; try discriminate. cbn [bind] in E. apply Ok_inj in E. subst l.
    destruct x as [|b x]; [discriminate|]. injection L as L. specialize (IH _ _ x El L). unfold linear_value, zsum in *. cbn [map2 fold_right value_lsb]. rewrite IH.
    rewrite N2Z.inj_add, N2Z.inj_mul. destruct b; change (Z.of_N 2) with 2%Z; [change (Z.of_N 1) with 1%Z|change (Z.of_N 0) with 0%Z]; ring.
Qed.

Lemma leading_run x : run_of true x (leading_ones x).
Proof. destruct (proj1 (leadingones_value x (leading_ones x)) eq_refl) as [H|H]; [left|right]; exact H. Qed.

Lemma ones_or_not n x : (exists a, a <= n /\ x = ones_first n a) \/ (forall a, a <= n -> x <> ones_first n a).
Proof.
  assert (G : forall k, k <= n -> (exists a, a <= k /\ x = ones_first n a) \/ (forall a, a <= k -> x <> ones_first n a)).
  { induction k as [|k IH]; intros Hk.
    - destruct (list_eq_dec Bool.bool_dec x (ones_first n 0)) as [E|E]; [left; exists 0; auto|]. right. intros a Ha. now replace a with 0 by lia.
    - destruct IH as [(a & Ha & Ea)|H]; [lia|left; exists a; auto|]. destruct (list_eq_dec Bool.bool_dec x (ones_first n (S k))) as [E|E]; [left; exists (S k); auto|].
      right. intros a Ha. destruct (Nat.eq_dec a (S k)) as [->|]; auto. apply H. lia. }
  now apply G.
Qed.

Lemma all_true_weight x : forallb (fun b => b) x = (weight x =? length x).
Proof.
  induction x as [|b x IH]; [reflexivity|]. rewrite GF2.weight_cons. cbn [forallb length]. pose proof (GF2.weight_le x) as W. destruct b; cbn [andb Nat.add Nat.eqb].
  - exact IH.
  - symmetry. apply Nat.eqb_neq. lia.
Qed.

Lemma inj_ltb a b : (a <? b) = (Z.of_nat a <? Z.of_nat b)%Z.
Proof. destruct (Nat.ltb_spec a b), (Z.ltb_spec (Z.of_nat a) (Z.of_nat b)); auto; lia. Qed.

(** The value is the one in the documentation. *)
Theorem made_value o F x : In (fn_type o) by_options -> (fn_type o = 120 -> fn_bv_size o < 2 ^ 32)%Z -> make_function o = Ok F -> length x = fp_size (f_props F) ->
  forall s, exists v, snd (f_obj F s (REval x)) = Ok (RValue (DFin v)) /\ documented_value o x v.
Proof.
  intros HT HH HM HL s. unfold make_function in HM. destruct (Z.leb_spec (fn_bv_size o) 0) as [|Hn]; [discriminate|].
  unfold documented_value. set (n := Z.to_nat (fn_bv_size o)) in *. cbv zeta.
  assert (En : fn_bv_size o = Z.of_nat n) by (unfold n; lia). assert (Pn : 0 < n) by lia. rewrite En in *. clearbody n. set (u := (2 ^ 1074)%Z) in *.
  assert (G : forall ev known M (D : Z -> Prop), Ok (integer_function n ev known M) = Ok F -> (length x = n -> exists z, ev x = Ok z /\ D (z * u)%Z) ->
    exists v, snd (f_obj F s (REval x)) = Ok (RValue (DFin v)) /\ D v).
  { intros ev known M D E HD. apply Ok_inj in E. subst F. cbn [f_props integer_function fp_size] in HL. destruct (HD HL) as (z & Ez & Dz). exists (z * u)%Z. split; auto.
    cbn [f_obj integer_function plain snd]. rewrite Ez. reflexivity. }
  unfold by_options in HT. cbn [In] in HT.
  destruct HT as [T|[T|[T|[T|[T|[T|[T|[T|[T|[T|[T|[T|[T|[T|[]]]]]]]]]]]]]]]; rewrite <- T in *; cbv iota in HM |- *.
  - apply Ok_inj in HM. subst F. eexists. split; [reflexivity|]. unfold onemax_evaluate. rewrite bv_hamming_weight_spec. reflexivity.
  - apply bind_Ok in HM as (w & Ew & HM). apply Ok_inj in HM. subst F. cbn [f_props linear_function fp_size] in HL.
    eexists. cbn [f_obj linear_function plain_inc snd]. rewrite linear_evaluate_sum by auto. split; [reflexivity|]. exists w. auto.
  - apply bind_Ok in HM as (w & Ew & HM). apply Ok_inj in HM. subst F. cbn [f_props linear_function fp_size] in HL.
    eexists. cbn [f_obj linear_function plain_inc snd]. rewrite linear_evaluate_Ok by auto. split; [reflexivity|].
    destruct (doubling_spec n 1 w ltac:(lia) Ew) as (D1 & _ & _). rewrite (doubling_value n 1 w x Ew) by congruence. fold u. ring.
  - apply (G _ _ _ _ HM). intros Lx. eexists. split; [reflexivity|]. exists (leading_ones x). split; [apply leading_run|reflexivity].
  - apply (G _ _ _ _ HM). intros Lx. destruct (ridge_value n x Lx) as [R1 R2]. destruct (ones_or_not n x) as [(a & Ha & Ea)|H].
    + eexists. split; [exact (R1 a Ha Ea)|]. left. exists a. auto.
    + eexists. split; [exact (R2 H)|]. right. auto.
  - apply (G _ _ _ _ HM). intros Lx. eexists. split; [reflexivity|]. f_equal. unfold needle_evaluate. rewrite <- Lx, all_true_weight. reflexivity.
  - apply bind_Ok in HM as ([] & Ej & HM). apply (G _ _ _ _ HM). intros Lx. eexists. split; [exact (jump_value n _ x Lx)|]. f_equal. rewrite (inj_ltb (weight x) n). reflexivity.
  - apply bind_Ok in HM as ([] & Ej & HM). apply (G _ _ _ _ HM). intros Lx. eexists. split; [exact (deceptivejump_value n _ x Lx)|]. f_equal. rewrite (inj_ltb (weight x) n). reflexivity.
  - apply bind_Ok in HM as (m & Em & HM). apply (G _ _ _ _ HM). intros Lx. eexists. split; [reflexivity|]. exists (head x true), (head (rev x) false).
    split; [apply head_run|]. split; [apply head_run|]. f_equal. unfold fourpeaks_evaluate, tail. rewrite Lx, Nat2Z.inj_max. destruct (_ && _); lia.
  - apply bind_Ok in HM as (m & Em & HM). apply (G _ _ _ _ HM). intros Lx. eexists. split; [reflexivity|].
    exists (head x true), (head x false), (head (rev x) false), (head (rev x) true).
    split; [apply head_run|]. split; [apply head_run|]. split; [apply head_run|]. split; [apply head_run|]. f_equal. unfold sixpeaks_evaluate, tail. rewrite Lx, !Nat2Z.inj_max.
    rewrite orb_comm. destruct (_ || _); lia.
  - apply bind_Ok in HM as (k & Ek & HM). apply bind_Ok in HM as (sz & Es & HM).
    unfold positive_int in Ek. destruct (Z.ltb_spec 0 (fn_num_traps o)) as [Hk|]; [|discriminate]. cbn [assertb bind] in Ek. apply Ok_inj in Ek.
    assert (Ens : n = k * sz). { unfold trap_make in Es. destruct (0 <? k); [|discriminate]. cbn [assertb bind] in Es. destruct (Nat.eqb_spec (n mod k) 0) as [Ez|]; [|discriminate].
      apply Ok_inj in Es. subst sz. apply Nat.div_exact in Ez; lia. }
    apply (G _ _ _ _ HM). intros Lx. eexists. split; [apply (trap_value_sum k sz x); lia|]. exists k, sz. auto.
  - apply bind_Ok in HM as (d & Ed & HM). specialize (HH eq_refl). apply (G _ _ _ _ HM). intros Lx. destruct (hiff_max n d Pn HH Ed) as (_ & _ & H).
    eexists. split; [exact (H x Lx)|]. exists d. split; [now apply hiff_make_spec|reflexivity].
  - apply (G _ _ _ _ HM). intros Lx. destruct (plateau_value n x Lx) as (R1 & R2 & R3). destruct (ones_or_not n x) as [(a & Ha & Ea)|H].
    + destruct (Nat.eq_dec a n) as [->|].
      * rewrite ones_first_all in Ea. eexists. split; [exact (R1 Ea)|]. left. auto.
      * eexists. split; [refine (R2 a _ Ea); lia|]. right. left. exists a. repeat split; auto. lia.
    + eexists. split; [exact (R3 H)|]. right. right. auto.
  - apply bind_Ok in HM as (k & Ek & HM). apply bind_Ok in HM as ([] & El & HM).
    unfold positive_int in Ek. destruct (Z.ltb_spec 0 (fn_prefix_length o)) as [Hk|]; [|discriminate]. cbn [assertb bind] in Ek. apply Ok_inj in Ek. rewrite Ek.
    apply (G _ _ _ _ HM). intros Lx. destruct (longpath_value n k El) as [R1 R2].
    destruct (in_dec (list_eq_dec Bool.bool_dec) x (long_path k (n / k))) as [HI|HI].
    + apply In_nth_error in HI as [i Hi]. eexists. split; [exact (R1 i x Hi)|]. left. exists i. auto.
    + eexists. split; [exact (R2 x Lx HI)|]. right. auto.
Qed.

(** ** Which options are accepted *)

Lemma divide_mod k n : 0 < k -> (n mod k = 0 <-> (Z.of_nat k | Z.of_nat n)%Z).
Proof.
  intros Hk. split; intros E.
  - apply Nat.mod_divide in E; [|lia]. destruct E as [q ->]. exists (Z.of_nat q). lia.
  - apply Z.mod_divide in E; [|lia]. rewrite <- Nat2Z.inj_mod in E. lia.
Qed.

Lemma power_nat n : (exists d, 0 <= d /\ Z.of_nat n = 2 ^ d)%Z <-> exists d, n = 2 ^ d.
Proof.
  split.
  - intros (d & Hd & E). exists (Z.to_nat d). apply Nat2Z.inj. rewrite E, Nat2Z.inj_pow, Z2Nat.id by lia. reflexivity.
  - intros (d & ->). exists (Z.of_nat d). rewrite Nat2Z.inj_pow. split; [lia|reflexivity].
Qed.

Theorem made_outcome o : In (fn_type o) by_options -> (fn_type o = 120 -> fn_bv_size o < 2 ^ 32)%Z ->
  ((exists F, make_function o = Ok F) <-> acceptable o) /\
  (make_function o = Throw RuntimeError <-> refused o).
Proof.
  intros HT HH. unfold make_function, acceptable, refused. cbv zeta. destruct (Z.leb_spec (fn_bv_size o) 0) as [Hn|Hn].
  { split; split; intros H; auto; [destruct H; discriminate|destruct H; lia]. }
  set (n := Z.to_nat (fn_bv_size o)) in *. assert (En : fn_bv_size o = Z.of_nat n) by (unfold n; lia). assert (Pn : 0 < n) by lia. rewrite En in *. clearbody n.
  assert (G : forall (T : Type) (m : outcome T) (k : T -> outcome func) (A R : Prop), (forall a, exists F, k a = Ok F) ->
    ((exists a, m = Ok a) <-> A) -> (m = Throw RuntimeError <-> R) ->
    ((exists F, (a <- m ;; k a) = Ok F) <-> (0 < Z.of_nat n)%Z /\ A) /\ ((a <- m ;; k a) = Throw RuntimeError <-> (Z.of_nat n <= 0)%Z \/ R)).
  { intros T m k A R Hk HA HR. destruct m as [a|e|]; cbn [bind].
    - split; split.
      + intros _. split; [lia|]. apply HA. eauto.
      + intros _. apply Hk.
      + destruct (Hk a) as [F ->]. discriminate.
      + intros [|H]; [lia|]. apply HR in H. discriminate.
    - split; split.
      + intros [F [=]].
      + intros [_ H]. apply HA in H as [a [=]].
      + intros [= ->]. right. now apply HR.
      + intros [|H]; [lia|]. apply HR in H. now injection H as ->.
    - split; split.
      + intros [F [=]].
      + intros [_ H]. apply HA in H as [a [=]].
      + discriminate.
      + intros [|H]; [lia|]. apply HR in H. discriminate. }
  assert (G0 : forall F : func, ((exists F', Ok F = Ok F') <-> (0 < Z.of_nat n)%Z /\ True) /\ (Ok F = Throw RuntimeError <-> (Z.of_nat n <= 0)%Z \/ False)).
  { intros F. split; split; [intros _; split; [lia|exact I]|eauto|discriminate|intros [|[]]; lia]. }
  assert (GP : forall (T : Type) (mk : nat -> outcome T) z (k : nat -> T -> outcome func) (A R : Prop), (forall a b, exists F, k a b = Ok F) ->
    (forall a, z = Z.of_nat a -> 0 < a -> ((exists b, mk a = Ok b) <-> A) /\ (mk a = Throw RuntimeError <-> R)) ->
    ((z <= 0)%Z -> ~ A /\ ~ R) ->
    ((exists F, (a <- positive_int z ;; b <- mk a ;; k a b) = Ok F) <-> (0 < Z.of_nat n)%Z /\ A) /\ ((a <- positive_int z ;; b <- mk a ;; k a b) = Throw RuntimeError <-> (Z.of_nat n <= 0)%Z \/ R)).
  { intros T mk z k A R Hk Hm Hz. unfold positive_int. destruct (Z.ltb_spec 0 z) as [H|H]; cbn [assertb bind].
    - destruct (Hm (Z.to_nat z)) as [HA HR]; [lia|lia|]. apply G; auto.
    - destruct (Hz H) as [HA HR]. split; split; [intros [F [=]]|intros [_ ?]; contradiction|discriminate|intros [?|?]; [lia|contradiction]]. }
  unfold by_options in HT. cbn [In] in HT.
  destruct HT as [T|[T|[T|[T|[T|[T|[T|[T|[T|[T|[T|[T|[T|[T|[]]]]]]]]]]]]]]]; rewrite <- T in *; cbv iota in *; try apply G0.
  - apply G; eauto; reflexivity.
  - apply G; [eauto|split|split; [|intros []]].
    + intros [l El]. destruct (Nat.le_gt_cases n 30) as [|Hg]; [lia|]. pose proof (doubling_undefined n 0 ltac:(lia)) as U. cbn [Z.of_nat Z.pow] in U. congruence.
    + intros Hg. apply (doubling_defined n 0); lia.
    + destruct (Nat.le_gt_cases n 30) as [Hg|Hg].
      * destruct (doubling_defined n 0 ltac:(lia) ltac:(lia)) as [l El]. cbn [Z.of_nat Z.pow] in El. congruence.
      * pose proof (doubling_undefined n 0 ltac:(lia)) as U. cbn [Z.of_nat Z.pow] in U. congruence.
  - apply G; [eauto| |]; unfold jump_make; destruct (Nat.ltb_spec 0 n); try lia; cbn [assertb bind]; destruct (Z.ltb_spec (fn_threshold o) 1); split; intros K; try lia; eauto; try discriminate; destruct K; discriminate.
  - apply G; [eauto| |]; unfold jump_make; destruct (Nat.ltb_spec 0 n); try lia; cbn [assertb bind]; destruct (Z.ltb_spec (fn_threshold o) 1); split; intros K; try lia; eauto; try discriminate; destruct K; discriminate.
  - apply G; [eauto| |]; unfold peaks_make; rewrite Z.quot_div_nonneg by lia; destruct (Z.ltb_spec (Z.of_nat n / 2 - 1) (fn_threshold o)); split; intros K; try lia; eauto; try discriminate; destruct K; discriminate.
  - apply G; [eauto| |]; unfold peaks_make; rewrite Z.quot_div_nonneg by lia; destruct (Z.ltb_spec (Z.of_nat n / 2 - 1) (fn_threshold o)); split; intros K; try lia; eauto; try discriminate; destruct K; discriminate.
  - apply GP; [eauto| |].
    + intros a -> Ha. pose proof (divide_mod a n Ha) as D. unfold trap_make. destruct (Nat.ltb_spec 0 a); [|lia]. cbn [assertb bind]. destruct (Nat.eqb_spec (n mod a) 0) as [E|E].
      * split; split; [intros _; split; [lia|tauto]|eauto|discriminate|tauto].
      * split; split; [intros [b [=]]|tauto|intros _; split; [lia|tauto]|auto].
    + intros Hz. split; intros [K _]; lia.
  - specialize (HH eq_refl). apply G; [eauto| |].
    + rewrite power_nat. split; intros [d Hd]; exists d; now apply hiff_make_spec.
    + rewrite power_nat. split.
      * intros E [d Hd]. apply hiff_make_spec in Hd; auto. congruence.
      * intros K. apply hiff_make_throws; auto. intros d E. apply K. eauto.
  - apply GP; [eauto| |].
    + intros a -> Ha. pose proof (divide_mod a n Ha) as D. unfold longpath_make. destruct (Nat.ltb_spec 0 a); [|lia]. destruct (Nat.ltb_spec 0 n); [|lia]. cbn [assertb bind]. destruct (Nat.eqb_spec (n mod a) 0) as [E|E]; cbn [negb].
      * destruct (Nat.ltb_spec a 2).
        -- split; split; [intros [b [=]]|intros [? _]; lia|intros _; split; lia|auto].
        -- split; split; [intros _; split; [lia|tauto]|eauto|discriminate|]. intros (_ & [?|?]); [lia|tauto].
      * split; split; [intros [b [=]]|tauto|intros _; split; [lia|tauto]|auto].
    + intros Hz. split; intros [K _]; lia.
Qed.

Theorem unknown_type o : (0 < fn_bv_size o)%Z -> ~ In (fn_type o) by_options -> fn_other o (fn_type o) = None -> make_function o = Throw RuntimeError.
Proof.
  intros Hn HT HO. unfold make_function. destruct (Z.leb_spec (fn_bv_size o) 0); [lia|]. unfold by_options in HT. cbn [In] in HT.
  destruct (fn_type o) as [|p|p] eqn:E; [tauto| |now rewrite HO].
  repeat (match goal with |- context [match ?p with xI _ => _ | xO _ => _ | xH => _ end] => destruct p; try now rewrite HO end); tauto.
Qed.

(** A threshold less than -1 *)
Theorem peaks_missed ap co o F : (fn_type o = 40 \/ fn_type o = 41)%Z -> (fn_threshold o < -1)%Z -> make_function o = Ok F ->
  optimizes ap -> ap_restart ap = false -> co_stop_on_maximum co = true ->
  let n := fp_size (f_props F) in
  forall fuel, 2 ^ n < fuel ->
  exists r x, program ap co (Ok (Some (None, F))) make_complete_search fuel = Some (report ap co None n r x false) /\
    rs_success r = Some false /\ rs_total r = allowed co (2 ^ n).
Proof.
  intros HT Ht HM HO HR HS n fuel Hf.
  assert (G : exists ev M M', F = integer_function n ev true (Ok M) /\ is_maximum n ev M' /\ (M' < M)%Z /\ 0 < n).
  { unfold make_function in HM. destruct (Z.leb_spec (fn_bv_size o) 0) as [|Hn]; [discriminate|]. set (k := Z.to_nat (fn_bv_size o)) in *.
    destruct (peaks_low_threshold k (fn_threshold o) Ht) as (Em & LT & M4 & M6).
    destruct HT as [T|T]; rewrite T in HM; cbv iota in HM; rewrite Em in HM; cbn [bind] in HM; apply Ok_inj in HM; unfold n; subst F; cbn [f_props integer_function fp_size];
      (eexists; eexists; eexists; split; [reflexivity|]); (split; [eassumption|]); (split; [exact LT|unfold k; lia]). }
  destruct G as (ev & M & M' & EF & [H1 _] & LT & Pn). set (f := fun x => match ev x with Ok v => dint v | _ => DNaN end).
  assert (HC : computes F f).
  { rewrite EF. intros s r x As Hx. cbn [fp_size f_props integer_function] in Hx. unfold f. destruct (H1 x Hx) as (v & E & _). destruct As as [->| ->]; cbn; now rewrite E. }
  assert (HN : numbers n f) by (intros x Hx; unfold f; destruct (H1 x Hx) as (v & -> & _); reflexivity).
  assert (HCo : make_function_controller co F = Ok (middle_of co, Some (dint M))).
  { unfold make_function_controller, target_of. rewrite HS, EF. reflexivity. }
  destruct (complete_search_run ap co None F (middle_of co) (Some (dint M)) n n f Pn HO HR HCo eq_refl I eq_refl (total_const F f HC) HN) as (L & HL & H).
  destruct (H fuel Hf) as (r & x & success & P & S1 & E). clear H. rewrite HS in S1. exists r, x.
  destruct E as [r j x M1 M2 M3 M4 M5|r t j x M1 M2 M3 M4 M5 M6 M7 M8].
  - auto.
  - exfalso. injection M1 as <-. destruct HL as (_ & HL & _). apply nth_error_In, HL in M3. destruct (H1 x M3) as (v & Ev & Hv). unfold f in M4. rewrite Ev in M4.
    unfold dge in M4. assert (Hlt : (v < M)%Z) by lia. revert M4. unfold dint. cbn [dle]. intros M4. apply Z.leb_le in M4. nia.
Qed.

(** ** Incremental evaluation *)

Lemma linear_shift w x l : forall v v' r, linear_incremental w x v l = Ok r -> linear_incremental w x v' l = Ok (r + (v' - v))%Z.
Proof.
  unfold linear_incremental. induction l as [|i l IH]; intros v v' r; cbn [foldM].
  - intros E. apply Ok_inj in E. subst r. f_equal. lia.
  - destruct (vget x i) as [b|e|]; try discriminate. destruct (vget w i) as [a|e|]; try discriminate. cbn [bind]. intros E.
    destruct b; rewrite (IH _ _ _ E); f_equal; lia.
Qed.

Theorem made_incremental o F : In (fn_type o) by_options -> make_function o = Ok F ->
  (fp_inc (f_props F) = true <-> In (fn_type o) [0; 1; 5]%Z) /\
  (fp_inc (f_props F) = true -> forall s x v l, length x = fp_size (f_props F) -> positions (length x) l -> snd (f_obj F s (REval x)) = Ok (RValue v) ->
     snd (f_obj F s (RInc x v l)) = snd (f_obj F s (REval (flipped_at x l)))).
Proof.
  intros HT HM. unfold make_function in HM. destruct (Z.leb_spec (fn_bv_size o) 0) as [|Hn]; [discriminate|].
  assert (GI : forall n ev known M (A B : Prop), Ok (integer_function n ev known M) = Ok F -> ~ A -> (fp_inc (f_props F) = true <-> A) /\ (fp_inc (f_props F) = true -> B)).
  { intros n ev known M A B E NA. apply Ok_inj in E. subst F. cbn [f_props integer_function fp_inc]. split; [split; [discriminate|contradiction]|discriminate]. }
  assert (GL : forall w, F = linear_function w -> forall s x v l, length x = fp_size (f_props F) -> positions (length x) l -> snd (f_obj F s (REval x)) = Ok (RValue v) ->
     snd (f_obj F s (RInc x v l)) = snd (f_obj F s (REval (flipped_at x l)))).
  { intros w -> s x v l Hx Hl Ev. cbn [f_obj f_props linear_function plain_inc snd fp_size] in *.
    rewrite Hx in Hl. destruct (Walsh_Proofs.linear_incremental_right w x l Hx Hl) as (a & b & Ea & Eb & Ec). rewrite Ea in Ev. rewrite Ec. cbn [bind] in *. apply Ok_inj in Ev. injection Ev as <-.
    rewrite (linear_shift w x l a 0 b Eb). cbn [bind dplus]. do 3 f_equal. lia. }
  unfold by_options in HT. cbn [In] in HT |- *.
  destruct HT as [T|[T|[T|[T|[T|[T|[T|[T|[T|[T|[T|[T|[T|[T|[]]]]]]]]]]]]]]]; rewrite <- T in *; cbv iota in HM;
    repeat match type of HM with (bind _ _) = _ => apply bind_Ok in HM as (? & ? & HM) end;
    try (apply (GI _ _ _ _ _ _ HM); intros [?|[?|[?|[]]]]; discriminate).
  - apply Ok_inj in HM. subst F. split; [split; [auto|reflexivity]|]. intros _ s x v l Hx Hl Ev. cbn [f_obj f_props onemax_function plain_inc snd fp_size] in *.
    cbn [bind] in Ev. apply Ok_inj in Ev. injection Ev as <-. destruct (Walsh_Proofs.onemax_incremental_right x l Hl) as (a & b & Ea & Eb & Ec). apply Ok_inj in Ea. subst a.
    unfold onemax_incremental in Eb |- *. destruct (foldM _ l 0%Z) as [d|e|]; try discriminate. cbn [bind] in Eb |- *. apply Ok_inj in Eb. apply Ok_inj in Ec. rewrite Ec, <- Eb.
    unfold dint. cbn [dplus]. do 3 f_equal. ring.
  - apply Ok_inj in HM. subst F. split; [split; [auto|reflexivity]|]. intros _. now apply (GL x).
  - apply Ok_inj in HM. subst F. split; [split; [auto|reflexivity]|]. intros _. now apply (GL x).
Qed.
