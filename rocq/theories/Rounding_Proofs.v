(** Proofs about rounding. *)

From Coq Require Import ZArith.
From Verif Require Import Base BaseLemmas BitVector_Model BitVector_Spec Function_Spec Double Theory_Model Walsh_Model Rounding_Model Rounding_Spec.
From Verif Require Theory_Proofs Walsh_Proofs.
Local Open Scope Z_scope.

Lemma pow2_pos e : 0 <= e -> 0 < 2 ^ e.
Proof. intros. apply Z.pow_pos_nonneg; lia. Qed.

(** Distance to a multiple of [d] *)
Lemma nearest_multiple_spec z e : 0 <= e ->
  let d := 2 ^ e in
  let k := nearest_multiple z e in
  (k = z / d \/ k = z / d + 1) /\
  (forall j, Z.abs (k * d - z) <= Z.abs (j * d - z)) /\
  (forall j, j <> k -> Z.abs (j * d - z) = Z.abs (k * d - z) -> Z.even k = true).
Proof.
  intros He d k. pose proof (pow2_pos e He) as Hd. fold d in Hd.
  pose proof (Z.div_mod z d ltac:(lia)) as DM. pose proof (Z.mod_pos_bound z d Hd) as MB.
  unfold nearest_multiple in k. fold d in k. cbv zeta in k. set (q := z / d) in *. set (r := z mod d) in *.
  assert (E0 : q * d - z = - r) by lia. assert (E1 : (q + 1) * d - z = d - r) by lia.
  assert (LO : forall j, j <= q - 1 -> d + r <= Z.abs (j * d - z)).
  { intros j Hj. assert (j * d <= (q - 1) * d) by (apply Z.mul_le_mono_nonneg_r; lia). lia. }
  assert (HI : forall j, q + 2 <= j -> 2 * d - r <= Z.abs (j * d - z)).
  { intros j Hj. assert ((q + 2) * d <= j * d) by (apply Z.mul_le_mono_nonneg_r; lia). lia. }
  assert (CASES : forall j, j <= q - 1 \/ j = q \/ j = q + 1 \/ q + 2 <= j) by lia.
  unfold k. destruct (Z.ltb_spec (2 * r) d) as [H1|H1].
  - split; [auto|]. split.
    + intros j. destruct (CASES j) as [C|[->|[->|C]]]; [pose proof (LO j C)| | |pose proof (HI j C)]; lia.
    + intros j Hj. destruct (CASES j) as [C|[->|[->|C]]]; [pose proof (LO j C)| | |pose proof (HI j C)]; lia.
  - destruct (Z.ltb_spec d (2 * r)) as [H2|H2].
    + split; [auto|]. split.
      * intros j. destruct (CASES j) as [C|[->|[->|C]]]; [pose proof (LO j C)| | |pose proof (HI j C)]; lia.
      * intros j Hj. destruct (CASES j) as [C|[->|[->|C]]]; [pose proof (LO j C)| | |pose proof (HI j C)]; lia.
    + destruct (Z.even q) eqn:Eq.
      * split; [auto|]. split; [|auto]. intros j. destruct (CASES j) as [C|[->|[->|C]]]; [pose proof (LO j C)| | |pose proof (HI j C)]; lia.
      * split; [auto|]. split.
        -- intros j. destruct (CASES j) as [C|[->|[->|C]]]; [pose proof (LO j C)| | |pose proof (HI j C)]; lia.
        -- intros j _ _. rewrite Z.add_1_r, Z.even_succ, <- Z.negb_even, Eq. reflexivity.
Qed.

Lemma exponent_bounds z : 0 <= exponent z /\ Z.abs z < 2 ^ 53 * 2 ^ exponent z /\ (0 < exponent z -> 2 ^ 52 * 2 ^ exponent z <= Z.abs z).
Proof.
  unfold exponent. split; [lia|]. destruct (Z.eq_dec (Z.abs z) 0) as [E|E].
  { rewrite E. cbn. split; [lia|lia]. }
  pose proof (Z.log2_spec (Z.abs z) ltac:(lia)) as [L1 L2]. pose proof (Z.log2_nonneg (Z.abs z)).
  destruct (Z.max_spec 0 (Z.log2 (Z.abs z) - 52)) as [[H1 ->]|[H1 ->]].
  - rewrite <- !Z.pow_add_r by lia. split; [|intros _].
    + eapply Z.lt_le_trans; [exact L2|]. apply Z.pow_le_mono_r; lia.
    + replace (52 + (Z.log2 (Z.abs z) - 52)) with (Z.log2 (Z.abs z)) by lia. exact L1.
  - split; [|lia]. eapply Z.lt_le_trans; [exact L2|]. rewrite Z.pow_0_r, Z.mul_1_r. apply Z.pow_le_mono_r; lia.
Qed.

Lemma format_53 k e : 0 <= e -> Z.abs k <= 2 ^ 53 -> format (k * 2 ^ e).
Proof.
  intros He Hk. destruct (Z.eq_dec (Z.abs k) (2 ^ 53)) as [E|E].
  - exists (Z.sgn k * 2 ^ 52), (e + 1). split; [lia|]. split.
    + rewrite Z.abs_mul. assert (Z.abs (Z.sgn k) <= 1) by lia. change (Z.abs (2 ^ 52)) with (2 ^ 52). change (2 ^ 53) with (2 * 2 ^ 52). lia.
    + rewrite Z.pow_add_r by lia. rewrite <- (Z.abs_sgn k) at 1. rewrite E. change (2 ^ 53) with (2 ^ 52 * 2 ^ 1). ring.
  - exists k, e. repeat split; lia.
Qed.

Theorem round53_nearest z : nearest_even z (round53 z).
Proof.
  unfold round53. set (e := exponent z). set (k := nearest_multiple z e). set (d := 2 ^ e).
  destruct (exponent_bounds z) as (He & HU & HL). fold e in He, HU, HL. fold d in HU, HL. pose proof (pow2_pos e He) as Hd. fold d in Hd.
  pose proof (nearest_multiple_spec z e He) as (K1 & K2 & K3). fold d in K1, K2, K3. fold k in K1, K2, K3.
  pose proof (Z.div_mod z d ltac:(lia)) as DM. pose proof (Z.mod_pos_bound z d Hd) as MB.
  assert (Bk : Z.abs k <= 2 ^ 53).
  { assert (- 2 ^ 53 <= z / d < 2 ^ 53).
    { split; [apply Z.div_le_lower_bound; lia|apply Z.div_lt_upper_bound; lia]. }
    destruct K1 as [-> | ->]; lia. }
  (** a number which is not a multiple of [d] is beyond 2^52 d *)
  assert (OFF : forall y, format y -> (exists j, y = j * d) \/ (0 < e /\ Z.abs y < 2 ^ 52 * d)).
  { intros y (m & f & Hf & Hm & ->). destruct (Z.le_gt_cases e f) as [C|C].
    - left. exists (m * 2 ^ (f - e)). unfold d. rewrite <- Z.mul_assoc, <- Z.pow_add_r by lia. do 2 f_equal. lia.
    - right. split; [lia|]. rewrite Z.abs_mul. rewrite (Z.abs_eq (2 ^ f)) by (pose proof (pow2_pos f Hf); lia).
      assert (Ed : d = 2 ^ (e - 1 - f) * (2 * 2 ^ f)).
      { unfold d. rewrite Z.mul_assoc, (Z.mul_comm _ 2), <- Z.mul_assoc, <- Z.pow_add_r by lia. replace e with (Z.succ (e - 1)) at 1 by lia. rewrite Z.pow_succ_r by lia. do 2 f_equal. lia. }
      pose proof (pow2_pos f Hf) as Pf. pose proof (pow2_pos (e - 1 - f) ltac:(lia)) as Pg.
      assert (L1 : Z.abs m * 2 ^ f < 2 ^ 53 * 2 ^ f) by (apply Z.mul_lt_mono_pos_r; lia).
      assert (L2 : 2 * 2 ^ f <= d). { rewrite Ed. rewrite <- (Z.mul_1_l (2 * 2 ^ f)) at 1. apply Z.mul_le_mono_nonneg_r; lia. }
      change (2 ^ 53) with (2 ^ 52 * 2) in L1. lia. }
  assert (SEP : forall y, 0 < e -> Z.abs y < 2 ^ 52 * d -> exists j, Z.abs (j * d - z) < Z.abs (y - z)).
  { intros y H0 Hy. specialize (HL H0). destruct (Z.le_gt_cases 0 z) as [C|C].
    - exists (2 ^ 52). lia.
    - exists (- 2 ^ 52). lia. }
  split; [now apply format_53|]. split.
  - intros y Fy. destruct (OFF y Fy) as [[j ->]|[H0 Hy]]; [apply K2|]. destruct (SEP y H0 Hy) as [j Hj]. specialize (K2 j). lia.
  - intros y Fy Ny Ey. destruct (OFF y Fy) as [[j ->]|[H0 Hy]]; [|destruct (SEP y H0 Hy) as [j Hj]; specialize (K2 j); lia].
    assert (EV : Z.even k = true). { apply (K3 j); [|exact Ey]. intros ->. now apply Ny. }
    destruct (Z.eq_dec (Z.abs k) (2 ^ 53)) as [E|E].
    + exists (Z.sgn k * 2 ^ 52), (e + 1). split; [right; split; [lia|]|split].
      * rewrite Z.abs_mul. assert (Z.abs (Z.sgn k) = 1) as -> by lia. change (Z.abs (2 ^ 52)) with (2 ^ 52). lia.
      * unfold d. rewrite Z.pow_add_r by lia. rewrite <- (Z.abs_sgn k) at 1. rewrite E. change (2 ^ 53) with (2 ^ 52 * 2 ^ 1). ring.
      * rewrite Z.even_mul. apply orb_true_r.
    + exists k, e. split; [|split; [reflexivity|exact EV]].
      destruct (Z.eq_dec e 0) as [E0|E0]; [left; lia|]. right. split; [lia|]. split; [|lia]. specialize (HL ltac:(lia)).
      destruct (Z.le_gt_cases (2 ^ 52) (Z.abs k)) as [|C]; [assumption|]. exfalso.
      destruct (Z.le_gt_cases 0 z) as [Cz|Cz].
      * assert (2 ^ 52 <= z / d) by (apply Z.div_le_lower_bound; lia). destruct K1; lia.
      * assert (z / d + 1 <= - 2 ^ 52 + 1). { assert (z / d <= - 2 ^ 52); [|lia]. apply Z.div_le_upper_bound; lia. }
        destruct K1 as [Ek|Ek]; [lia|]. assert (E1 : k = - 2 ^ 52 + 1) by lia. assert (E2 : z / d = - 2 ^ 52) by lia.
        specialize (K2 (- 2 ^ 52)). rewrite E2 in DM. rewrite E1 in K2. lia.
Qed.

(** A nearest number is increasing, and a number is its own nearest number. *)
Lemma nearest_monotone z z' r r' : nearest_even z r -> nearest_even z' r' -> z < z' -> r <= r'.
Proof.
  intros (F & N & _) (F' & N' & _) L. specialize (N r' F'). specialize (N' r F). lia.
Qed.

Lemma round53_monotone z z' : z <= z' -> round53 z <= round53 z'.
Proof.
  intros H. destruct (Z.eq_dec z z') as [->|]; [lia|]. eapply nearest_monotone; [apply round53_nearest|apply round53_nearest|lia].
Qed.

Lemma round53_format z : format z -> round53 z = z.
Proof. intros F. destruct (round53_nearest z) as (_ & N & _). specialize (N z F). lia. Qed.

Lemma format_round53 z : format (round53 z).
Proof. apply round53_nearest. Qed.

Definition huge : Z := 2 ^ 2098.

Lemma rounded_eq z : rounded z = if (round53 z <? huge)%Z then if (- huge <? round53 z)%Z then DFin (round53 z) else DNegInf else DPosInf.
Proof. reflexivity. Qed.

Lemma rounded_number z : number (rounded z).
Proof.
  rewrite rounded_eq. pose proof (format_round53 z). unfold number, finite_double. fold huge.
  destruct (Z.ltb_spec (round53 z) huge); [|auto]. destruct (Z.ltb_spec (- huge) (round53 z)); [|auto]. left. eexists. split; [reflexivity|]. split; [auto|lia].
Qed.

Lemma huge_pos : 0 < huge.
Proof. apply pow2_pos. lia. Qed.

Lemma rounded_monotone z z' : z <= z' -> dle (rounded z) (rounded z') = true.
Proof.
  intros H. apply round53_monotone in H. rewrite !rounded_eq. pose proof huge_pos as P. generalize dependent huge. intros h P.
  destruct (Z.ltb_spec (round53 z) h), (Z.ltb_spec (round53 z') h); try lia; try reflexivity;
    destruct (Z.ltb_spec (- h) (round53 z)); try reflexivity; destruct (Z.ltb_spec (- h) (round53 z')); try lia; try reflexivity.
  cbn. apply Z.leb_le. lia.
Qed.

Lemma rounded_format z : format z -> Z.abs z < huge -> rounded z = DFin z.
Proof.
  intros F B. rewrite rounded_eq, round53_format by auto. destruct (Z.ltb_spec z huge); [|lia]. destruct (Z.ltb_spec (- huge) z); [|lia]. reflexivity.
Qed.

(** The operators *)
Lemma number_not_nan v : number v -> is_nan v = false.
Proof. intros [(z & -> & _)|[->| ->]]; reflexivity. Qed.

Lemma finite_opp w : finite_double w -> finite_double (fopp w).
Proof.
  intros (z & -> & (m & e & He & Hm & ->) & B). exists (- (m * 2 ^ e)). split; [reflexivity|]. split; [|lia]. exists (- m), e. repeat split; lia.
Qed.

Lemma fadd_number a w : number a -> finite_double w -> number (fadd a w).
Proof. intros [(z & -> & _)|[->| ->]] (y & -> & _); cbn; [apply rounded_number|right; auto|right; auto]. Qed.

Lemma fadd_monotone a b w : dle a b = true -> finite_double w -> dle (fadd a w) (fadd b w) = true.
Proof.
  intros H (y & -> & _). destruct a, b; cbn in H |- *; try discriminate; try reflexivity.
  - pose proof (rounded_number (z + y)) as [(? & -> & _)|[->| ->]]; reflexivity.
  - apply Z.leb_le in H. apply rounded_monotone. lia.
  - pose proof (rounded_number (z + y)) as [(? & -> & _)|[->| ->]]; reflexivity.
Qed.

Lemma fadd_monotone_r a w w' : number a -> finite_double w -> finite_double w' -> dle w w' = true -> dle (fadd a w) (fadd a w') = true.
Proof.
  intros [(z & -> & _)|[->| ->]] (y & -> & _) (y' & -> & _) H; cbn; try reflexivity. cbn in H. apply Z.leb_le in H. apply rounded_monotone. lia.
Qed.

Lemma fadd_increases a w : number a -> finite_double w -> dle (DFin 0) w = true -> dle a (fadd a w) = true.
Proof.
  intros [(z & -> & F & B)|[->| ->]] (y & -> & _) H; cbn in H; [|reflexivity|reflexivity]. apply Z.leb_le in H. change (dle (DFin z) (rounded (z + y)) = true). assert (E := rounded_format z F B). rewrite <- E. apply rounded_monotone. lia.
Qed.

Lemma fadd_decreases a w : number a -> finite_double w -> dle w (DFin 0) = true -> dle (fadd a w) a = true.
Proof.
  intros [(z & -> & F & B)|[->| ->]] (y & -> & _) H; cbn in H; [|reflexivity|reflexivity]. apply Z.leb_le in H. change (dle (rounded (z + y)) (DFin z) = true). assert (E := rounded_format z F B). rewrite <- E. apply rounded_monotone. lia.
Qed.

Lemma zero_finite : finite_double (DFin 0).
Proof. exists 0. split; [reflexivity|]. split; [|apply huge_pos]. exists 0, 0. cbn. repeat split; lia. Qed.

Lemma fpositive_cases w : finite_double w -> (fpositive w = true /\ dle (DFin 0) w = true /\ dle (fopp w) w = true) \/ (fpositive w = false /\ dle w (DFin 0) = true /\ dle w (fopp w) = true).
Proof.
  intros (z & -> & _). unfold fpositive, dgt. cbn. destruct (Z.ltb_spec 0 z); [left|right]; repeat split; apply Z.leb_le; lia.
Qed.

(** * The maximum of a linear function *)

Lemma skipn_cons_nth {A} (d : A) k l : (k < length l)%nat -> skipn k l = nth k l d :: skipn (S k) l.
Proof. revert l. induction k as [|k IH]; intros [|a l] H; cbn in *; try lia; [reflexivity|]. rewrite IH by lia. destruct l; reflexivity. Qed.

Lemma foldM_seq {A B C : Type} (f : A -> B -> C -> A) (g : A -> nat -> outcome A) (x : list B) (w : list C) (db : B) (dc : C) : length x = length w ->
  (forall r i, (i < length w)%nat -> g r i = Ok (f r (nth i x db) (nth i w dc))) ->
  forall a, foldM g (seq 0 (length w)) a = Ok (fold_left (fun r p => f r (fst p) (snd p)) (combine x w) a).
Proof.
  intros HL Hg. assert (G : forall n k a, (k + n)%nat = length w ->
    foldM g (seq k n) a = Ok (fold_left (fun r p => f r (fst p) (snd p)) (skipn k (combine x w)) a)).
  { induction n as [|n IH]; intros k a E; cbn [seq foldM].
    - rewrite skipn_all2; [reflexivity|]. rewrite combine_length. lia.
    - rewrite Hg by lia. cbn [bind]. rewrite IH by lia.
      rewrite (skipn_cons_nth (db, dc) k (combine x w)) by (rewrite combine_length; lia). rewrite combine_nth by auto. reflexivity. }
  intros a. now apply (G (length w) 0%nat).
Qed.

Lemma flinear_fold w x : length x = length w ->
  flinear_evaluate w x = Ok (fold_left (fun r p => if fst p : bool then fadd r (snd p) else r) (combine x w) (DFin 0)).
Proof.
  intros HL. unfold flinear_evaluate. rewrite HL, Nat.eqb_refl. cbn [assertb bind].
  apply (foldM_seq (fun r (b : bool) c => if b then fadd r c else r) _ x w false DNaN HL).
  intros r i Hi. rewrite (vget_Ok x i false) by lia. cbn [bind]. destruct (nth i x false); [|reflexivity]. rewrite (vget_Ok w i DNaN) by lia. reflexivity.
Qed.

Lemma fwalsh1_fold w x : length x = length w ->
  fwalsh1_evaluate w x = Ok (fold_left (fun r p => if fst p : bool then fsub r (snd p) else fadd r (snd p)) (combine x w) (DFin 0)).
Proof.
  intros HL. unfold fwalsh1_evaluate. rewrite HL, Nat.eqb_refl. cbn [assertb bind].
  apply (foldM_seq (fun r (b : bool) c => if b then fsub r c else fadd r c) _ x w false DNaN HL).
  intros r i Hi. rewrite (vget_Ok x i false), (vget_Ok w i DNaN) by lia. reflexivity.
Qed.

Theorem flinear_max w : Forall finite_double w ->
  (forall x, length x = length w -> exists v, flinear_evaluate w x = Ok v /\ number v /\ dle v (flinear_maximum w) = true) /\
  flinear_evaluate w (map fpositive w) = Ok (flinear_maximum w).
Proof.
  intros HW. split.
  - intros x HL. rewrite flinear_fold by auto. eexists. split; [reflexivity|]. unfold flinear_maximum.
    assert (G : forall a b, number a -> number b -> dle a b = true ->
      number (fold_left (fun r p => if fst p : bool then fadd r (snd p) else r) (combine x w) a) /\
      dle (fold_left (fun r p => if fst p : bool then fadd r (snd p) else r) (combine x w) a) (fold_left (fun r c => if fpositive c then fadd r c else r) w b) = true).
    { revert x HL. induction HW as [|c w Hc HW IH]; intros [|bit x] HL a b Na Nb H; try discriminate; [auto|]. injection HL as HL. cbn [combine fold_left fst snd].
      apply IH; auto.
      - destruct bit; [now apply fadd_number|auto].
      - destruct (fpositive c); [now apply fadd_number|auto].
      - destruct (fpositive_cases c Hc) as [(-> & H0 & _)|(-> & H0 & _)]; destruct bit.
        + now apply fadd_monotone.
        + eapply dle_trans; [exact H|now apply fadd_increases].
        + eapply dle_trans; [|exact H]. now apply fadd_decreases.
        + exact H. }
    apply G; [left; apply zero_finite|left; apply zero_finite|reflexivity].
  - rewrite flinear_fold by apply map_length. f_equal. unfold flinear_maximum. clear HW. generalize (DFin 0).
    induction w as [|c w IH]; intros a; [reflexivity|]. cbn [map combine fold_left fst snd]. apply IH.
Qed.

Theorem fwalsh1_max w : Forall finite_double w ->
  (forall x, length x = length w -> exists v, fwalsh1_evaluate w x = Ok v /\ number v /\ dle v (fwalsh1_maximum w) = true) /\
  fwalsh1_evaluate w (map (fun c => negb (fpositive c)) w) = Ok (fwalsh1_maximum w).
Proof.
  intros HW. split.
  - intros x HL. rewrite fwalsh1_fold by auto. eexists. split; [reflexivity|]. unfold fwalsh1_maximum.
    assert (G : forall a b, number a -> number b -> dle a b = true ->
      number (fold_left (fun r p => if fst p : bool then fsub r (snd p) else fadd r (snd p)) (combine x w) a) /\
      dle (fold_left (fun r p => if fst p : bool then fsub r (snd p) else fadd r (snd p)) (combine x w) a) (fold_left (fun r c => if fpositive c then fadd r c else fsub r c) w b) = true).
    { revert x HL. induction HW as [|c w Hc HW IH]; intros [|bit x] HL a b Na Nb H; try discriminate; [auto|]. injection HL as HL. cbn [combine fold_left fst snd].
      pose proof (finite_opp c Hc) as Ho. unfold fsub in *. apply IH; auto.
      - destruct bit; now apply fadd_number.
      - destruct (fpositive c); now apply fadd_number.
      - apply (dle_trans _ (if fpositive c then fadd a c else fadd a (fopp c))).
        + destruct (fpositive_cases c Hc) as [(-> & _ & H0)|(-> & _ & H0)]; destruct bit;
            try (now apply fadd_monotone_r); apply dle_refl, number_not_nan; now apply fadd_number.
        + destruct (fpositive c); now apply fadd_monotone. }
    apply G; [left; apply zero_finite|left; apply zero_finite|reflexivity].
  - rewrite fwalsh1_fold by apply map_length. f_equal. unfold fwalsh1_maximum. clear HW. generalize (DFin 0).
    induction w as [|c w IH]; intros a; [reflexivity|]. cbn [map combine fold_left fst snd]. rewrite IH. f_equal. now destruct (fpositive c).
Qed.

(** * Sums without rounding *)

Definition abs_sum (l : list Z) : Z := fold_right (fun z s => Z.abs z + s) 0 l.

Lemma abs_sum_nonneg l : 0 <= abs_sum l.
Proof. induction l as [|a l IH]; cbn [abs_sum fold_right]; [lia|]. fold (abs_sum l). lia. Qed.

Lemma exact_add a s z rest : 0 <= a -> (2 ^ a | s) -> (2 ^ a | z) -> Z.abs s + Z.abs z + rest <= 2 ^ 53 * 2 ^ a -> Z.abs s + Z.abs z + rest < huge -> 0 <= rest ->
  fadd (DFin s) (DFin z) = DFin (s + z) /\ (2 ^ a | s + z) /\ Z.abs (s + z) + rest <= 2 ^ 53 * 2 ^ a /\ Z.abs (s + z) + rest < huge.
Proof.
  intros Ha Ds Dz B1 B2 Hr. assert (D : (2 ^ a | s + z)) by now apply Z.divide_add_r. pose proof (pow2_pos a Ha) as P.
  split; [|split; [exact D|lia]]. change (rounded (s + z) = DFin (s + z)). destruct D as [k Ek]. apply rounded_format; [|lia].
  rewrite Ek. apply format_53; auto. assert (H : Z.abs (k * 2 ^ a) <= 2 ^ 53 * 2 ^ a) by (rewrite <- Ek; lia).
  rewrite Z.abs_mul, (Z.abs_eq (2 ^ a)) in H by lia. apply Z.mul_le_mono_pos_r in H; auto.
Qed.

(** Two loops, one without rounding *)
Lemma exact_loop {I : Type} (a : Z) (size : I -> Z) (gz : Z -> I -> outcome Z) (gf : dbl -> I -> outcome dbl) :
  0 <= a ->
  (forall i s, (gz s i = UB /\ gf (DFin s) i = UB) \/
     (exists t, (2 ^ a | t) /\ Z.abs t <= Z.abs (size i) /\ gz s i = Ok (s + t) /\ (gf (DFin s) i = Ok (fadd (DFin s) (DFin t)) \/ t = 0 /\ gf (DFin s) i = Ok (DFin s)))) ->
  forall l s, (2 ^ a | s) -> Z.abs s + abs_sum (map size l) <= 2 ^ 53 * 2 ^ a -> Z.abs s + abs_sum (map size l) < huge ->
  foldM gf l (DFin s) = (v <- foldM gz l s ;; Ok (DFin v)).
Proof.
  intros Ha Hg. induction l as [|i l IH]; intros s Ds B1 B2; [reflexivity|]. cbn [foldM map abs_sum fold_right] in *. fold (abs_sum (map size l)) in *.
  pose proof (abs_sum_nonneg (map size l)) as Ps.
  destruct (Hg i s) as [[-> ->]|(t & Dt & Bt & -> & [->|[-> ->]])]; [reflexivity| |]; cbn [bind].
  - destruct (exact_add a s t (abs_sum (map size l)) Ha Ds Dt ltac:(lia) ltac:(lia) Ps) as (-> & D' & B1' & B2'). apply IH; auto.
  - rewrite Z.add_0_r. apply IH; auto; lia.
Qed.

Lemma small_in a l z : small_multiples a l -> In z l -> (2 ^ a | z).
Proof. intros (_ & H & _). apply H. Qed.

Lemma vget_map_dbl (w : list Z) i : vget (map DFin w) i = (z <- vget w i ;; Ok (DFin z)).
Proof. unfold vget. rewrite nth_error_map. now destruct (nth_error w i). Qed.

Lemma vget_UB {A} (l : list A) i : (length l <= i)%nat -> vget l i = UB.
Proof. intros H. unfold vget. now rewrite (proj2 (nth_error_None l i)) by lia. Qed.

Lemma abs_sum_nth (w : list Z) n : forall k, (k + n)%nat = length w -> abs_sum (map (fun i => nth i w 0) (seq k n)) = abs_sum (skipn k w).
Proof.
  induction n as [|n IH]; intros k Hk; cbn [seq map abs_sum fold_right]; [now rewrite skipn_all2 by lia|].
  rewrite (skipn_cons_nth 0 k w) by lia. cbn [abs_sum fold_right]. fold (abs_sum (skipn (S k) w)). specialize (IH (S k) ltac:(lia)). unfold abs_sum in *. lia.
Qed.

Lemma divide_opp d z : (d | z) -> (d | - z).
Proof. apply Z.divide_opp_r. Qed.

(** One step of the loops *)
Lemma term_step a (w : list Z) (x : bv) i s (fz : Z -> Z -> Z) (ff : dbl -> dbl -> dbl) (gz : Z -> Z -> Z) (gf : dbl -> dbl -> dbl) :
  (forall z, In z w -> (2 ^ a | z)) ->
  (fz = Z.sub /\ ff = fsub \/ fz = Z.add /\ ff = fadd) -> (gz = Z.sub /\ gf = fsub \/ gz = Z.add /\ gf = fadd) ->
  let z := b <- vget x i ;; c <- vget w i ;; Ok (if b : bool then fz s c else gz s c) in
  let f := b <- vget x i ;; c <- vget (map DFin w) i ;; Ok (if b : bool then ff (DFin s) c else gf (DFin s) c) in
  (z = UB /\ f = UB) \/ exists t, (2 ^ a | t) /\ Z.abs t <= Z.abs (nth i w 0) /\ z = Ok (s + t) /\ (f = Ok (fadd (DFin s) (DFin t)) \/ t = 0 /\ f = Ok (DFin s)).
Proof.
  intros HD HF HG z f. unfold z, f. clear z f. destruct (Nat.lt_ge_cases i (length x)) as [Hi|Hi]; [|left; now rewrite (vget_UB x) by lia].
  rewrite (vget_Ok x i false) by auto. cbn [bind]. rewrite vget_map_dbl. destruct (Nat.lt_ge_cases i (length w)) as [Hw|Hw]; [|left; now rewrite (vget_UB w) by lia].
  rewrite (vget_Ok w i 0) by auto. cbn [bind]. right. assert (D : (2 ^ a | nth i w 0)) by (apply HD, nth_In; auto). set (c := nth i w 0) in *.
  destruct (nth i x false).
  - destruct HF as [[-> ->]|[-> ->]]; [exists (- c)|exists c]; (split; [auto using divide_opp|]); (split; [lia|]); (split; [f_equal; lia|]); left; reflexivity.
  - destruct HG as [[-> ->]|[-> ->]]; [exists (- c)|exists c]; (split; [auto using divide_opp|]); (split; [lia|]); (split; [f_equal; lia|]); left; reflexivity.
Qed.

Theorem linear_exact a w x : small_multiples a w -> flinear_evaluate (map DFin w) x = (v <- linear_evaluate w x ;; Ok (DFin v)).
Proof.
  intros (Ha & HD & B1 & B2). fold (abs_sum w) in B1, B2. fold huge in B2. unfold flinear_evaluate, linear_evaluate. rewrite map_length.
  destruct (Nat.eqb_spec (length x) (length w)) as [HL|]; [|reflexivity]. cbn [assertb bind].
  pose proof (abs_sum_nth w (length w) 0 eq_refl) as Bs. cbn [skipn] in Bs. rewrite HL.
  apply (exact_loop a (fun i => nth i w 0)); auto; [|apply Z.divide_0_r|cbn [Z.abs]; lia|cbn [Z.abs]; lia].
  intros i s. destruct (Nat.lt_ge_cases i (length x)) as [Hi|Hi]; [|left; now rewrite (vget_UB x) by lia].
  right. rewrite vget_map_dbl, (vget_Ok x i false), (vget_Ok w i 0) by lia. cbn [bind]. destruct (nth i x false).
  - exists (nth i w 0). split; [apply HD, nth_In; lia|]. split; [lia|]. split; [reflexivity|left; reflexivity].
  - exists 0. split; [apply Z.divide_0_r|]. split; [lia|]. split; [f_equal; lia|]. right. auto.
Qed.

Theorem linear_incremental_exact a w x v l : small_multiples a (v :: map (fun i => nth i w 0) l) -> (forall z, In z w -> (2 ^ a | z)) ->
  flinear_incremental (map DFin w) x (DFin v) l = (r <- linear_incremental w x v l ;; Ok (DFin r)).
Proof.
  intros (Ha & HD & B1 & B2) HW. cbn [fold_right] in B1, B2. fold (abs_sum (map (fun i => nth i w 0) l)) in B1, B2. fold huge in B2. unfold flinear_incremental, linear_incremental.
  apply (exact_loop a (fun i => nth i w 0)); auto; [|apply HD; now left].
  intros i s. apply term_step; auto.
Qed.

Theorem walsh1_exact a w x : small_multiples a w -> fwalsh1_evaluate (map DFin w) x = (v <- walsh1_evaluate w x ;; Ok (DFin v)).
Proof.
  intros (Ha & HD & B1 & B2). fold (abs_sum w) in B1, B2. fold huge in B2. unfold fwalsh1_evaluate, walsh1_evaluate, spin_loop. rewrite map_length.
  destruct (Nat.eqb_spec (length x) (length w)) as [HL|]; [|reflexivity]. cbn [assertb bind].
  pose proof (abs_sum_nth w (length w) 0 eq_refl) as Bs. cbn [skipn] in Bs.
  apply (exact_loop a (fun i => nth i w 0)); auto; [|apply Z.divide_0_r|cbn [Z.abs]; lia|cbn [Z.abs]; lia].
  intros i s. apply term_step; auto.
Qed.

Theorem walsh_exact a (terms : list (bv * Z)) x : small_multiples a (map snd terms) ->
  fwalsh_evaluate (map (fun t => (fst t, DFin (snd t))) terms) x = (v <- walsh_evaluate terms x ;; Ok (DFin v)).
Proof.
  intros (Ha & HD & B1 & B2). fold (abs_sum (map snd terms)) in B1, B2. fold huge in B2. unfold fwalsh_evaluate, walsh_evaluate.
  assert (G : forall l s, (2 ^ a | s) -> (forall z, In z (map snd l) -> (2 ^ a | z)) -> Z.abs s + abs_sum (map snd l) <= 2 ^ 53 * 2 ^ a -> Z.abs s + abs_sum (map snd l) < huge ->
    foldM (fun result t => d <- bv_dot_product x (fst t) ;; Ok (if (d : bool) then fsub result (snd t) else fadd result (snd t))) (map (fun t => (fst t, DFin (snd t))) l) (DFin s) =
    (v <- foldM (fun result t => d <- bv_dot_product x (fst t) ;; Ok (if (d : bool) then (result - snd t)%Z else (result + snd t)%Z)) l s ;; Ok (DFin v))).
  { clear terms HD B1 B2. induction l as [|[f c] l IH]; intros s Ds HD B1 B2; [reflexivity|]. cbn [map foldM fst snd abs_sum fold_right] in *. fold (abs_sum (map snd l)) in *.
    destruct (bv_dot_product x f) as [d|e|]; [|reflexivity|reflexivity]. cbn [bind]. pose proof (abs_sum_nonneg (map snd l)) as Ps. assert (Dc : (2 ^ a | c)) by (apply HD; now left).
    destruct d.
    - unfold fsub. cbn [fopp]. destruct (exact_add a s (- c) (abs_sum (map snd l)) Ha Ds (divide_opp _ _ Dc) ltac:(lia) ltac:(lia) Ps) as (-> & D' & B1' & B2').
      apply IH; auto. intros z Hz. apply HD. now right.
    - destruct (exact_add a s c (abs_sum (map snd l)) Ha Ds Dc ltac:(lia) ltac:(lia) Ps) as (-> & D' & B1' & B2').
      apply IH; auto. intros z Hz. apply HD. now right. }
  apply G; [apply Z.divide_0_r|exact HD|cbn [Z.abs]; lia|cbn [Z.abs]; lia].
Qed.

(** The maximum is also exact. *)
Theorem linear_maximum_exact a w : small_multiples a w -> flinear_maximum (map DFin w) = DFin (linear_maximum w).
Proof.
  intros (Ha & HD & B1 & B2). fold (abs_sum w) in B1, B2. fold huge in B2. unfold flinear_maximum, linear_maximum.
  assert (G : forall l s, (2 ^ a | s) -> (forall z, In z l -> (2 ^ a | z)) -> Z.abs s + abs_sum l <= 2 ^ 53 * 2 ^ a -> Z.abs s + abs_sum l < huge ->
    fold_left (fun r c => if fpositive c then fadd r c else r) (map DFin l) (DFin s) = DFin (fold_left (fun r c => if 0 <? c then r + c else r) l s)).
  { clear w HD B1 B2. induction l as [|c l IH]; intros s Ds HD B1 B2; [reflexivity|]. cbn [map fold_left abs_sum fold_right] in *. fold (abs_sum l) in *.
    pose proof (abs_sum_nonneg l) as Ps. assert (Dc : (2 ^ a | c)) by (apply HD; now left). change (fpositive (DFin c)) with (0 <? c). destruct (0 <? c).
    - destruct (exact_add a s c (abs_sum l) Ha Ds Dc ltac:(lia) ltac:(lia) Ps) as (-> & D' & B1' & B2'). apply IH; auto. intros z Hz. apply HD. now right.
    - apply IH; auto; try lia. intros z Hz. apply HD. now right. }
  apply G; [apply Z.divide_0_r|exact HD|cbn [Z.abs]; lia|cbn [Z.abs]; lia].
Qed.

Theorem walsh1_maximum_exact a w : small_multiples a w -> fwalsh1_maximum (map DFin w) = DFin (walsh1_maximum w).
Proof.
  intros (Ha & HD & B1 & B2). fold (abs_sum w) in B1, B2. fold huge in B2. unfold fwalsh1_maximum, walsh1_maximum.
  assert (G : forall l s, (2 ^ a | s) -> (forall z, In z l -> (2 ^ a | z)) -> Z.abs s + abs_sum l <= 2 ^ 53 * 2 ^ a -> Z.abs s + abs_sum l < huge ->
    fold_left (fun r c => if fpositive c then fadd r c else fsub r c) (map DFin l) (DFin s) = DFin (fold_left (fun r c => if 0 <? c then r + c else r - c) l s)).
  { clear w HD B1 B2. induction l as [|c l IH]; intros s Ds HD B1 B2; [reflexivity|]. cbn [map fold_left abs_sum fold_right] in *. fold (abs_sum l) in *.
    pose proof (abs_sum_nonneg l) as Ps. assert (Dc : (2 ^ a | c)) by (apply HD; now left). change (fpositive (DFin c)) with (0 <? c). destruct (0 <? c).
    - destruct (exact_add a s c (abs_sum l) Ha Ds Dc ltac:(lia) ltac:(lia) Ps) as (-> & D' & B1' & B2'). apply IH; auto. intros z Hz. apply HD. now right.
    - unfold fsub. cbn [fopp]. destruct (exact_add a s (- c) (abs_sum l) Ha Ds (divide_opp _ _ Dc) ltac:(lia) ltac:(lia) Ps) as (-> & D' & B1' & B2').
      apply IH; auto. intros z Hz. apply HD. now right. }
  apply G; [apply Z.divide_0_r|exact HD|cbn [Z.abs]; lia|cbn [Z.abs]; lia].
Qed.

(** * Incremental evaluation *)

Lemma abs_sum_app l m : abs_sum (l ++ m) = abs_sum l + abs_sum m.
Proof. induction l as [|z l IH]; cbn [app abs_sum fold_right]; [reflexivity|]. fold (abs_sum (l ++ m)) (abs_sum l). lia. Qed.

Lemma abs_sum_zsum l : abs_sum l = zsum (map Z.abs l).
Proof. induction l as [|z l IH]; cbn [map abs_sum zsum fold_right]; [reflexivity|]. fold (abs_sum l) (zsum (map Z.abs l)). lia. Qed.

Lemma zsum_abs l : Z.abs (zsum l) <= abs_sum l.
Proof. induction l as [|z l IH]; cbn [abs_sum zsum fold_right]; [lia|]. fold (abs_sum l) (zsum l). lia. Qed.

Lemma abs_sum_perm l m : Permutation.Permutation l m -> abs_sum l = abs_sum m.
Proof. induction 1; cbn [abs_sum fold_right] in *; unfold abs_sum in *; lia. Qed.

Lemma abs_sum_incl (f : nat -> Z) l : forall m, NoDup l -> incl l m -> abs_sum (map f l) <= abs_sum (map f m).
Proof.
  induction l as [|i l IH]; intros m ND HI; [apply abs_sum_nonneg|]. inversion ND as [|? ? Hi ND']; subst.
  destruct (in_split i m (HI i (or_introl eq_refl))) as (m1 & m2 & ->).
  assert (HI' : incl l (m1 ++ m2)).
  { intros j Hj. specialize (HI j (or_intror Hj)). apply in_app_or in HI. apply in_or_app. destruct HI as [|[->|]]; auto. contradiction. }
  specialize (IH _ ND' HI'). rewrite !map_app, !abs_sum_app in *. cbn [map abs_sum fold_right]. fold (abs_sum (map f l)) (abs_sum (map f m2)). lia.
Qed.

Lemma small_left a l m : small_multiples a (l ++ m) -> small_multiples a l.
Proof.
  intros (Ha & HD & B1 & B2). fold (abs_sum (l ++ m)) in B1, B2. rewrite abs_sum_app in B1, B2. pose proof (abs_sum_nonneg m).
  split; [auto|]. split; [intros z Hz; apply HD, in_or_app; auto|]. fold (abs_sum l). lia.
Qed.

Lemma divide_zsum d l : (forall z, In z l -> (d | z)) -> (d | zsum l).
Proof. induction l as [|z l IH]; intros H; cbn [zsum fold_right]; [apply Z.divide_0_r|]. apply Z.divide_add_r; [apply H; now left|apply IH; intros; apply H; now right]. Qed.

Theorem flinear_incremental_right a w x l : small_multiples a (w ++ w) -> length x = length w -> positions (length w) l ->
  exists v r, flinear_evaluate (map DFin w) x = Ok v /\ flinear_incremental (map DFin w) x v l = Ok r /\ flinear_evaluate (map DFin w) (flipped_at x l) = Ok r.
Proof.
  intros SM HL [ND HP]. pose proof (small_left _ _ _ SM) as S1. destruct SM as (Ha & HD & B1 & B2). fold (abs_sum (w ++ w)) in B1, B2. rewrite abs_sum_app in B1, B2.
  destruct (Walsh_Proofs.linear_incremental_right w x l HL (conj ND HP)) as (v & r & E1 & E2 & E3).
  exists (DFin v), (DFin r). rewrite !(linear_exact a) by auto. rewrite E1, E3. cbn [bind]. split; [reflexivity|]. split; [|reflexivity].
  rewrite (linear_incremental_exact a), E2; [reflexivity| |intros z Hz; apply HD, in_or_app; auto].
  assert (Ev : v = zsum (map2 (fun c (b : bool) => if b then c else 0) w x)). { rewrite Theory_Proofs.linear_evaluate_Ok in E1 by auto. injection E1 as <-. reflexivity. }
  assert (G : forall (w : list Z) x, abs_sum (map2 (fun c (b : bool) => if b then c else 0) w x) <= abs_sum w).
  { clear. induction w as [|c w IH]; intros [|b x]; cbn [map2 abs_sum fold_right]; try lia; fold (abs_sum w).
    - pose proof (abs_sum_nonneg w). lia.
    - specialize (IH x). fold (abs_sum (map2 (fun c (b : bool) => if b then c else 0) w x)). destruct b; lia. }
  pose proof (zsum_abs (map2 (fun c (b : bool) => if b then c else 0) w x)) as Z1. rewrite <- Ev in Z1. specialize (G w x).
  pose proof (abs_sum_incl (fun i => nth i w 0) l (seq 0 (length w)) ND) as I1.
  assert (HI : incl l (seq 0 (length w))). { intros i Hi. rewrite Forall_forall in HP. apply in_seq. specialize (HP _ Hi). lia. }
  specialize (I1 HI). rewrite (abs_sum_nth w (length w) 0 eq_refl) in I1. cbn [skipn] in I1.
  split; [auto|]. split; [|cbn [fold_right]; fold (abs_sum (map (fun i => nth i w 0) l)); lia].
  intros z [<-|Hz].
  - rewrite Ev. apply divide_zsum. intros z Hz. assert (HD' : forall z, In z w -> (2 ^ a | z)) by (intros; apply HD, in_or_app; auto).
    clear - Hz HD'. revert x Hz. induction w as [|c w IH]; intros [|b x] Hz; cbn [map2] in Hz; try contradiction.
    destruct Hz as [<-|Hz]; [destruct b; [apply HD'; now left|apply Z.divide_0_r]|]. eapply IH; eauto. intros; apply HD'. now right.
  - apply in_map_iff in Hz. destruct Hz as (i & <- & Hi). rewrite Forall_forall in HP. apply HD, in_or_app. left. apply nth_In. apply HP, Hi.
Qed.


(** * Integers *)

Lemma small_integers l : zsum (map Z.abs l) <= 2 ^ 53 -> small_multiples 1074 (map (fun k => k * 2 ^ 1074) l).
Proof.
  intros H. split; [lia|]. split; [intros z Hz; apply in_map_iff in Hz; destruct Hz as (k & <- & _); apply Z.divide_factor_r|].
  fold (abs_sum (map (fun k => k * 2 ^ 1074) l)).
  assert (E : abs_sum (map (fun k => k * 2 ^ 1074) l) = zsum (map Z.abs l) * 2 ^ 1074).
  { clear H. pose proof (pow2_pos 1074 ltac:(lia)) as P. set (d := 2 ^ 1074) in *. clearbody d. induction l as [|k l IH]; cbn [map abs_sum zsum fold_right]; [lia|].
    fold (abs_sum (map (fun k => k * d) l)) (zsum (map Z.abs l)). rewrite IH, Z.abs_mul, (Z.abs_eq d) by lia. ring. }
  rewrite E. split; [apply Z.mul_le_mono_nonneg_r; [apply Z.lt_le_incl, pow2_pos; lia|exact H]|].
  apply Z.le_lt_trans with (2 ^ 53 * 2 ^ 1074); [apply Z.mul_le_mono_nonneg_r; [apply Z.lt_le_incl, pow2_pos; lia|exact H]|].
  rewrite <- Z.pow_add_r by lia. apply Z.pow_lt_mono_r; lia.
Qed.

Lemma sum_scale (f : nat -> Z) d n : sum_n n (fun i => f i * d) = sum_n n f * d.
Proof. unfold sum_n. induction (seq 0 n) as [|i l IH]; cbn [map zsum fold_right]; [reflexivity|]. unfold zsum in IH. rewrite IH. ring. Qed.

Lemma sum_ext f g n : (forall i, f i = g i) -> sum_n n f = sum_n n g.
Proof. intros H. unfold sum_n. f_equal. apply map_ext, H. Qed.

Lemma linear_integers k x : length x = length k -> zsum (map Z.abs k) <= 2 ^ 53 ->
  flinear_evaluate (map of_integer k) x = Ok (of_integer (sum_n (length k) (fun i => if nth i x false then nth i k 0 else 0))).
Proof.
  intros HL HS. assert (E : map of_integer k = map DFin (map (fun k => k * 2 ^ 1074) k)) by (rewrite map_map; reflexivity).
  rewrite E, (linear_exact 1074) by (apply small_integers, HS). rewrite Theory_Proofs.linear_evaluate_sum by (rewrite map_length; exact HL).
  cbn [bind]. unfold of_integer. rewrite <- sum_scale, map_length. do 2 f_equal. apply sum_ext. intros i. destruct (nth i x false); [|reflexivity].
  change 0 with (0 * 2 ^ 1074) at 1. exact (map_nth (fun k => k * 2 ^ 1074) k 0 i).
Qed.
