(** Proofs about the algorithms which call other libraries. *)

From Coq Require Import ZArith Lia.
From Verif Require Import Base BaseLemmas BitVector_Model Double Rounding_Model Controller_Model Wrapper_Model Wrapper_Spec.
From Verif Require Import Rounding_Proofs.
Local Open Scope Z_scope.

Lemma exponent24_bounds z : 925 <= exponent24 z /\ Z.abs z < 2 ^ 24 * 2 ^ exponent24 z /\ (925 < exponent24 z -> 2 ^ 23 * 2 ^ exponent24 z <= Z.abs z).
Proof.
  unfold exponent24. split; [lia|]. destruct (Z.eq_dec (Z.abs z) 0) as [E|E].
  { rewrite E. change (Z.log2 0) with 0. change (Z.max 925 (0 - 23)) with 925. split; [|lia]. rewrite <- Z.pow_add_r by lia. apply pow2_pos. lia. }
  pose proof (Z.log2_spec (Z.abs z) ltac:(lia)) as [L1 L2]. pose proof (Z.log2_nonneg (Z.abs z)).
  destruct (Z.max_spec 925 (Z.log2 (Z.abs z) - 23)) as [[H1 ->]|[H1 ->]].
  - rewrite <- !Z.pow_add_r by lia. split; [|intros _].
    + eapply Z.lt_le_trans; [exact L2|]. apply Z.pow_le_mono_r; lia.
    + replace (23 + (Z.log2 (Z.abs z) - 23)) with (Z.log2 (Z.abs z)) by lia. exact L1.
  - split; [|lia]. eapply Z.lt_le_trans; [exact L2|]. rewrite <- Z.pow_add_r by lia. apply Z.pow_le_mono_r; lia.
Qed.

Lemma single_24 k e : 925 <= e -> Z.abs k <= 2 ^ 24 -> single (k * 2 ^ e).
Proof.
  intros He Hk. destruct (Z.eq_dec (Z.abs k) (2 ^ 24)) as [E|E].
  - exists (Z.sgn k * 2 ^ 23), (e + 1). split; [lia|]. split.
    + rewrite Z.abs_mul. assert (Z.abs (Z.sgn k) <= 1) by lia. change (Z.abs (2 ^ 23)) with (2 ^ 23). change (2 ^ 24) with (2 * 2 ^ 23). lia.
    + rewrite Z.pow_add_r by lia. rewrite <- (Z.abs_sgn k) at 1. rewrite E. change (2 ^ 24) with (2 ^ 23 * 2 ^ 1). ring.
  - exists k, e. repeat split; lia.
Qed.

Lemma round24_nearest z : nearest_single z (round24 z).
Proof.
  unfold round24. set (e := exponent24 z). set (k := nearest_multiple z e). set (d := 2 ^ e).
  destruct (exponent24_bounds z) as (He & HU & HL). fold e in He, HU, HL. fold d in HU, HL. pose proof (pow2_pos e ltac:(lia)) as Hd. fold d in Hd.
  pose proof (nearest_multiple_spec z e ltac:(lia)) as (K1 & K2 & K3). fold d in K1, K2, K3. fold k in K1, K2, K3.
  pose proof (Z.div_mod z d ltac:(lia)) as DM. pose proof (Z.mod_pos_bound z d Hd) as MB.
  assert (Bk : Z.abs k <= 2 ^ 24).
  { assert (- 2 ^ 24 <= z / d < 2 ^ 24).
    { split; [apply Z.div_le_lower_bound; lia|apply Z.div_lt_upper_bound; lia]. }
    destruct K1 as [-> | ->]; lia. }
  (** a number which is not a multiple of [d] is beyond 2^52 d *)
  assert (OFF : forall y, single y -> (exists j, y = j * d) \/ (925 < e /\ Z.abs y < 2 ^ 23 * d)).
  { intros y (m & f & Hf & Hm & ->). destruct (Z.le_gt_cases e f) as [C|C].
    - left. exists (m * 2 ^ (f - e)). unfold d. rewrite <- Z.mul_assoc, <- Z.pow_add_r by lia. do 2 f_equal. lia.
    - right. split; [lia|]. rewrite Z.abs_mul. rewrite (Z.abs_eq (2 ^ f)) by (pose proof (pow2_pos f ltac:(lia)); lia).
      assert (Ed : d = 2 ^ (e - 1 - f) * (2 * 2 ^ f)).
      { unfold d. rewrite Z.mul_assoc, (Z.mul_comm _ 2), <- Z.mul_assoc, <- Z.pow_add_r by lia. replace e with (Z.succ (e - 1)) at 1 by lia. rewrite Z.pow_succ_r by lia. do 2 f_equal. lia. }
      pose proof (pow2_pos f ltac:(lia)) as Pf. pose proof (pow2_pos (e - 1 - f) ltac:(lia)) as Pg.
      assert (L1 : Z.abs m * 2 ^ f < 2 ^ 24 * 2 ^ f) by (apply Z.mul_lt_mono_pos_r; lia).
      assert (L2 : 2 * 2 ^ f <= d). { rewrite Ed. rewrite <- (Z.mul_1_l (2 * 2 ^ f)) at 1. apply Z.mul_le_mono_nonneg_r; lia. }
      change (2 ^ 24) with (2 ^ 23 * 2) in L1. lia. }
  assert (SEP : forall y, 925 < e -> Z.abs y < 2 ^ 23 * d -> exists j, Z.abs (j * d - z) < Z.abs (y - z)).
  { intros y H0 Hy. specialize (HL H0). destruct (Z.le_gt_cases 0 z) as [C|C].
    - exists (2 ^ 23). lia.
    - exists (- 2 ^ 23). lia. }
  split; [now apply single_24|]. split.
  - intros y Fy. destruct (OFF y Fy) as [[j ->]|[H0 Hy]]; [apply K2|]. destruct (SEP y H0 Hy) as [j Hj]. specialize (K2 j). lia.
  - intros y Fy Ny Ey. destruct (OFF y Fy) as [[j ->]|[H0 Hy]]; [|destruct (SEP y H0 Hy) as [j Hj]; specialize (K2 j); lia].
    assert (EV : Z.even k = true). { apply (K3 j); [|exact Ey]. intros ->. now apply Ny. }
    destruct (Z.eq_dec (Z.abs k) (2 ^ 24)) as [E|E].
    + exists (Z.sgn k * 2 ^ 23), (e + 1). split; [right; split; [lia|]|split].
      * rewrite Z.abs_mul. assert (Z.abs (Z.sgn k) = 1) as -> by lia. change (Z.abs (2 ^ 23)) with (2 ^ 23). lia.
      * unfold d. rewrite Z.pow_add_r by lia. rewrite <- (Z.abs_sgn k) at 1. rewrite E. change (2 ^ 24) with (2 ^ 23 * 2 ^ 1). ring.
      * rewrite Z.even_mul. apply orb_true_r.
    + exists k, e. split; [|split; [reflexivity|exact EV]].
      destruct (Z.eq_dec e 925) as [E0|E0]; [left; lia|]. right. split; [lia|]. split; [|lia]. specialize (HL ltac:(lia)).
      destruct (Z.le_gt_cases (2 ^ 23) (Z.abs k)) as [|C]; [assumption|]. exfalso.
      destruct (Z.le_gt_cases 0 z) as [Cz|Cz].
      * assert (2 ^ 23 <= z / d) by (apply Z.div_le_lower_bound; lia). destruct K1; lia.
      * assert (z / d + 1 <= - 2 ^ 23 + 1). { assert (z / d <= - 2 ^ 23); [|lia]. apply Z.div_le_upper_bound; lia. }
        destruct K1 as [Ek|Ek]; [lia|]. assert (E1 : k = - 2 ^ 23 + 1) by lia. assert (E2 : z / d = - 2 ^ 23) by lia.
        specialize (K2 (- 2 ^ 23)). rewrite E2 in DM. rewrite E1 in K2. lia.
Qed.

(** A nearest number is increasing, and a number is its own nearest number. *)
Lemma nearest_single_monotone z z' r r' : nearest_single z r -> nearest_single z' r' -> z < z' -> r <= r'.
Proof.
  intros (F & N & _) (F' & N' & _) L. specialize (N r' F'). specialize (N' r F). lia.
Qed.

Lemma round24_monotone z z' : z <= z' -> round24 z <= round24 z'.
Proof.
  intros H. destruct (Z.eq_dec z z') as [->|]; [lia|]. eapply nearest_single_monotone; [apply round24_nearest|apply round24_nearest|lia].
Qed.

Lemma round24_single z : single z -> round24 z = z.
Proof. intros F. destruct (round24_nearest z) as (_ & N & _). specialize (N z F). lia. Qed.

Lemma single_round24 z : single (round24 z).
Proof. apply round24_nearest. Qed.


(** ** The conversion *)
Definition limit24 : Z := 2 ^ 1202.
Lemma to_float_eq z : to_float (DFin z) = if round24 z <? limit24 then if - limit24 <? round24 z then DFin (round24 z) else DNegInf else DPosInf.
Proof. reflexivity. Qed.
Lemma limit24_pos : 0 < limit24.
Proof. apply pow2_pos. lia. Qed.

Lemma to_float_converts d : converts d (to_float d).
Proof.
  destruct d as [| |z|]; try reflexivity. cbn [converts]. fold limit24. exists (round24 z). split; [apply round24_nearest|].
  rewrite to_float_eq. pose proof limit24_pos as P. generalize dependent limit24. intros h P.
  destruct (Z.ltb_spec (round24 z) h); [destruct (Z.ltb_spec (- h) (round24 z))|]; repeat split; intros; try reflexivity; lia.
Qed.
Lemma to_float_id d : is_float d -> to_float d = d.
Proof.
  destruct d as [| |z|]; try reflexivity. cbn [is_float]. fold limit24. intros (F & B). rewrite to_float_eq, round24_single by exact F.
  destruct (Z.ltb_spec z limit24); [|lia]. destruct (Z.ltb_spec (- limit24) z); [reflexivity|lia].
Qed.
Lemma to_float_nan d : is_nan (to_float d) = is_nan d.
Proof. destruct d as [| |z|]; try reflexivity. rewrite to_float_eq. now destruct (_ <? _); [destruct (_ <? _)|]. Qed.
Lemma to_float_monotone a b : dle a b = true -> dle (to_float a) (to_float b) = true.
Proof.
  destruct a as [| |z|], b as [| |z'|]; try discriminate; try reflexivity; rewrite ?to_float_eq; pose proof limit24_pos as P; generalize dependent limit24; intros h P H.
  - destruct (Z.ltb_spec (round24 z') h); [destruct (Z.ltb_spec (- h) (round24 z'))|]; reflexivity.
  - apply Z.leb_le in H. apply round24_monotone in H.
    destruct (Z.ltb_spec (round24 z) h), (Z.ltb_spec (round24 z') h); try lia; try reflexivity;
      destruct (Z.ltb_spec (- h) (round24 z)); try reflexivity; destruct (Z.ltb_spec (- h) (round24 z')); try lia; try reflexivity.
    cbn. apply Z.leb_le. lia.
  - destruct (Z.ltb_spec (round24 z) h); [destruct (Z.ltb_spec (- h) (round24 z))|]; reflexivity.
Qed.
Lemma converts_monotone a b fa fb : converts a fa -> converts b fb -> dlt a b = true -> dle fa fb = true.
Proof.
  destruct a as [| |z|], b as [| |z'|]; try discriminate; cbn [converts dlt]; fold limit24; pose proof limit24_pos as P; generalize dependent limit24; intros h P.
  - intros -> (r & _ & A1 & A2 & A3) _. destruct (Z.le_gt_cases h r); [rewrite A2 by lia; reflexivity|].
    destruct (Z.le_gt_cases r (- h)); [rewrite A3 by lia; reflexivity|rewrite A1 by lia; reflexivity].
  - intros -> -> _. reflexivity.
  - intros (r & N & A1 & A2 & A3) (r' & N' & B1 & B2 & B3) L. apply Z.ltb_lt in L.
    pose proof (nearest_single_monotone _ _ _ _ N N' L).
    destruct (Z.le_gt_cases h r); [rewrite A2, B2 by lia; reflexivity|].
    destruct (Z.le_gt_cases r (- h)).
    + rewrite A3 by lia. destruct (Z.le_gt_cases h r'); [rewrite B2 by lia; reflexivity|].
      destruct (Z.le_gt_cases r' (- h)); [rewrite B3 by lia; reflexivity|rewrite B1 by lia; reflexivity].
    + rewrite A1 by lia. destruct (Z.le_gt_cases h r'); [rewrite B2 by lia; reflexivity|rewrite B1 by lia]. cbn. apply Z.leb_le. lia.
  - intros (r & _ & A1 & A2 & A3) -> _. destruct (Z.le_gt_cases h r); [rewrite A2 by lia; reflexivity|].
    destruct (Z.le_gt_cases r (- h)); [rewrite A3 by lia; reflexivity|rewrite A1 by lia; reflexivity].
Qed.
Lemma converts_exact d f : is_float d -> converts d f -> f = d.
Proof.
  destruct d as [| |z|]; cbn [converts is_float]; try auto. fold limit24. intros (F & B) (r & (_ & N & _) & A & _).
  specialize (N z F). assert (r = z) by lia. subst. apply A. exact B.
Qed.
Lemma single_integer k : Z.abs k <= 2 ^ 24 -> is_float (DFin (k * 2 ^ 1074)).
Proof.
  intros K. split; [apply single_24; [lia|exact K]|]. rewrite Z.abs_mul. rewrite (Z.abs_eq (2 ^ 1074)) by (pose proof (pow2_pos 1074 ltac:(lia)); lia).
  replace 1202 with (128 + 1074) by lia. rewrite Z.pow_add_r by lia.
  pose proof (pow2_pos 1074 ltac:(lia)) as P. generalize dependent (2 ^ 1074). intros d P. apply Z.mul_lt_mono_pos_r; [exact P|]. eapply Z.le_lt_trans; [exact K|]. reflexivity.
Qed.
Local Close Scope Z_scope.
Local Open Scope nat_scope.

(** ** The loop *)
Section Loop.
  Context {St X : Type} (evaluate : St -> X -> St * outcome dbl).
  Inductive steps : St -> list X -> list dbl -> St -> Prop :=
  | steps_nil s : steps s [] [] s
  | steps_cons s x v s' xs vs t : evaluate s x = (s', Ok v) -> steps s' xs vs t -> steps s (x :: xs) (v :: vs) t.

  Lemma optimize_steps asks k : forall answers s r e, optimize evaluate asks k answers s = (r, e) ->
    exists xs vs t, steps s xs vs t /\ (forall i x, nth_error xs i = Some x -> asks (answers ++ firstn i vs) = Some x) /\
      match e with
      | Running => length xs = k /\ r = t
      | Finished => asks (answers ++ vs) = None /\ r = t
      | Raised ex => exists x, asks (answers ++ vs) = Some x /\ evaluate t x = (r, Throw ex)
      | Undefined => exists x, asks (answers ++ vs) = Some x /\ evaluate t x = (r, UB)
      end.
  Proof using Type.
    induction k as [|k IH]; intros answers s r e; cbn [optimize].
    - intros H. inversion H; subst. exists [], [], r. split; [constructor|]. split; [intros [|i] x; discriminate|]. now split.
    - destruct (asks answers) as [x|] eqn:A.
      + destruct (evaluate s x) as [s' [v|ex|]] eqn:E.
        * intros H. destruct (IH _ _ _ _ H) as (xs & vs & t & ST & AS & EN). exists (x :: xs), (v :: vs), t.
          split; [econstructor; eassumption|]. assert (AP : forall l, (answers ++ [v]) ++ l = answers ++ v :: l) by (intros; now rewrite <- app_assoc).
          split.
          -- intros [|i] y; cbn [nth_error firstn].
             ++ intros Y. inversion Y; subst. now rewrite app_nil_r.
             ++ intros Y. rewrite <- AP. now apply AS.
          -- rewrite AP in EN. destruct e; [destruct EN as (L & R); split; [cbn [length]; now rewrite L|exact R]|exact EN..].
        * intros H. inversion H; subst. exists [], [], s. split; [constructor|]. split; [intros [|i] y; discriminate|]. exists x. rewrite app_nil_r. now split.
        * intros H. inversion H; subst. exists [], [], s. split; [constructor|]. split; [intros [|i] y; discriminate|]. exists x. rewrite app_nil_r. now split.
      + intros H. inversion H; subst. exists [], [], r. split; [constructor|]. split; [intros [|i] y; discriminate|]. rewrite app_nil_r. now split.
  Qed.
End Loop.

Lemma map_bits (x : list bool) : map (fun b : bool => if b then true else false) x = x.
Proof. induction x as [|[] x IH]; cbn; now rewrite ?IH. Qed.

Lemma evaluator_cases {S} (o : fobj S) n s x : evaluator_evaluate o n s x =
  if length x =? n then (fst (o s (REval x)), match snd (o s (REval x)) with Ok (RValue v) => Ok (to_float v) | Ok RVoid => UB | Throw e => Throw e | UB => UB end)
  else (s, UB).
Proof.
  unfold evaluator_evaluate, bv_from_vector_bool, call. rewrite repeat_length. destruct (length x =? n); [|reflexivity].
  cbn [assertb bind]. rewrite map_bits. destruct (o s (REval x)) as [s' [[v|]|e|]]; reflexivity.
Qed.

(** What the layer holds after the vectors [xs], of values [ws] as floats *)
Definition held (l : layer) (xs : list (list bool)) (ws : list dbl) : Prop :=
  length xs = length ws /\
  ((l_best_fitness l = int_min /\ l_best_solution l = [] /\ forall w, In w ws -> dlt int_min w = false) \/
   (dlt int_min (l_best_fitness l) = true /\ first_best xs ws (l_best_solution l) (l_best_fitness l))).

Lemma nth_error_snoc {A} (l : list A) a j b : nth_error (l ++ [a]) j = Some b -> nth_error l j = Some b /\ j < length l \/ j = length l /\ b = a.
Proof.
  intros H. destruct (Nat.lt_ge_cases j (length l)) as [L|L].
  - left. rewrite nth_error_app1 in H by exact L. now split.
  - right. rewrite nth_error_app2 in H by exact L. destruct (j - length l) as [|m] eqn:E; [|destruct m; discriminate].
    cbn in H. inversion H. split; [lia|reflexivity].
Qed.

(** A new vector which is better than all, or which is not better than the best *)
Lemma first_best_new {X} (xs : list X) ws x w : length xs = length ws -> is_nan w = false ->
  (forall j u, nth_error ws j = Some u -> is_nan u = false -> dlt u w = true) -> first_best (xs ++ [x]) (ws ++ [w]) x w.
Proof.
  intros L NN H. exists (length xs). repeat split.
  - rewrite nth_error_app2, Nat.sub_diag by lia. reflexivity.
  - rewrite nth_error_app2, L, Nat.sub_diag by lia. reflexivity.
  - exact NN.
  - intros j u J NU. apply nth_error_snoc in J. destruct J as [(J & _)|(_ & ->)]; [apply dlt_le; now apply (H j)|now apply dle_refl].
  - intros j u LT J NU. apply nth_error_snoc in J. destruct J as [(J & _)|(E & ->)]; [now apply (H j)|lia].
Qed.
Lemma first_best_old {X} (xs : list X) ws x w b v : length xs = length ws -> first_best xs ws b v -> dlt v w = false -> first_best (xs ++ [x]) (ws ++ [w]) b v.
Proof.
  intros L (i & X1 & X2 & NN & LE & LT) H. exists i.
  assert (i < length xs) by (apply nth_error_Some; congruence). repeat split.
  - rewrite nth_error_app1 by lia. exact X1.
  - rewrite nth_error_app1 by lia. exact X2.
  - exact NN.
  - intros j u J NU. apply nth_error_snoc in J. destruct J as [(J & _)|(_ & ->)]; [now apply (LE j)|]. now apply not_lt_le.
  - intros j u LJ J NU. apply nth_error_snoc in J. destruct J as [(J & _)|(E & ->)]; [now apply (LT j)|lia].
Qed.

Lemma dlt_int_min v w : dlt int_min v = true -> dlt v w = true -> dlt int_min w = true.
Proof. apply dlt_trans. Qed.

Lemma layer_step {S} (o : fobj S) n l s x l' s' w xs ws : layer_evaluate o n (l, s) x = ((l', s'), Ok w) -> held l xs ws ->
  held l' (xs ++ [x]) (ws ++ [w]) /\ length x = n /\ exists v, o s (REval x) = (s', Ok (RValue v)) /\ w = to_float v.
Proof.
  unfold layer_evaluate. rewrite evaluator_cases. destruct (length x =? n) eqn:LX; [|discriminate].
  apply Nat.eqb_eq in LX. destruct (o s (REval x)) as [s1 [[v|]|e|]] eqn:E; cbn [fst snd]; try discriminate. intros H (LL & HD).
  assert (LEN : length (xs ++ [x]) = length (ws ++ [w])) by (rewrite !app_length, LL; reflexivity).
  destruct (dlt (l_best_fitness l) (to_float v)) eqn:D; inversion H; subst; clear H; (split; [|split; [reflexivity|now exists v]]); (split; [exact LEN|]); cbn [l_best_fitness l_best_solution].
  - right. destruct HD as [(B1 & B2 & B3)|(B1 & B2)].
    + rewrite B1 in D. split; [exact D|]. apply first_best_new; [exact LL|now apply dlt_nan in D|].
      intros j u J NU. apply nth_error_In in J. apply B3 in J. apply dle_dlt_trans with int_min; [|exact D]. apply not_lt_le; [reflexivity|exact NU|exact J].
    + split; [now apply dlt_trans with (l_best_fitness l)|]. destruct B2 as (i & _ & _ & _ & LE & _).
      apply first_best_new; [exact LL|now apply dlt_nan in D|]. intros j u J NU. apply dle_dlt_trans with (l_best_fitness l); [now apply (LE j)|exact D].
  - destruct HD as [(B1 & B2 & B3)|(B1 & B2)].
    + left. repeat split; [exact B1|exact B2|]. intros u U. apply in_app_or in U. destruct U as [U|[<-|[]]]; [now apply B3|]. now rewrite <- B1.
    + right. split; [exact B1|]. now apply first_best_old.
Qed.

Lemma layer_steps {S} (o : fobj S) n st xs ws st' : steps (layer_evaluate o n) st xs ws st' -> forall pxs pws, held (fst st) pxs pws ->
  held (fst st') (pxs ++ xs) (pws ++ ws) /\ Forall (fun x => length x = n) xs /\
  exists vs, ws = map to_float vs /\ evaluates o (snd st) xs vs (snd st').
Proof.
  induction 1 as [st|st x w st1 xs ws st' E _ IH]; intros pxs pws HD.
  - rewrite !app_nil_r. split; [exact HD|]. split; [constructor|]. exists []. split; [reflexivity|constructor].
  - destruct st as [l s], st1 as [l1 s1]. destruct (layer_step _ _ _ _ _ _ _ _ _ _ E HD) as (HD1 & LX & v & OV & ->).
    destruct (IH _ _ HD1) as (HD2 & FL & vs & -> & EV). rewrite <- !app_assoc in HD2. split; [exact HD2|]. split; [now constructor|].
    exists (v :: vs). split; [reflexivity|]. econstructor; [exact OV|exact EV].
Qed.
Lemma held_start : held layer_make [] [].
Proof. split; [reflexivity|]. left. repeat split. intros w []. Qed.

Lemma p3_run {S} (o : fobj S) n asks k a s a' t e : p3_maximize o n asks k a s = ((a', t), e) ->
  exists xs vs t' l, a' = Some l /\ held l xs (map to_float vs) /\ evaluates o s xs vs t' /\ Forall (fun x => length x = n) xs /\
    asked asks xs (map to_float vs) /\
    match e with
    | Running => length xs = k /\ t = t'
    | Finished => asks (map to_float vs) = None /\ t = t'
    | Raised ex => exists x, asks (map to_float vs) = Some x /\ length x = n /\ o t' (REval x) = (t, Throw ex)
    | Undefined => exists x, asks (map to_float vs) = Some x /\ (length x <> n \/ o t' (REval x) = (t, UB) \/ o t' (REval x) = (t, Ok RVoid))
    end.
Proof.
  unfold p3_maximize. destruct (optimize _ asks k [] (layer_make, s)) as [[l t1] e1] eqn:OP. intros H. inversion H; subst; clear H.
  destruct (optimize_steps _ _ _ _ _ _ _ OP) as (xs & ws & [l' t'] & ST & AS & EN).
  destruct (layer_steps _ _ _ _ _ _ ST [] [] held_start) as (HD & FL & vs & -> & EV). cbn [fst snd app] in HD, EV, AS, EN.
  assert (HL : held l xs (map to_float vs)).
  { destruct HD as (LL & HD). split; [exact LL|]. destruct e.
    - destruct EN as (_ & E). inversion E; subst. exact HD.
    - destruct EN as (_ & E). inversion E; subst. exact HD.
    - destruct EN as (x & _ & E). unfold layer_evaluate in E; cbv beta iota zeta in E. destruct (evaluator_evaluate o n t' x) as [s1 [w|ex|]]; try discriminate.
      + destruct (dlt (l_best_fitness l') w); discriminate.
      + inversion E; subst. exact HD.
    - destruct EN as (x & _ & E). unfold layer_evaluate in E; cbv beta iota zeta in E. destruct (evaluator_evaluate o n t' x) as [s1 [w|ex|]]; try discriminate.
      + destruct (dlt (l_best_fitness l') w); discriminate.
      + inversion E; subst. exact HD. }
  exists xs, vs, t', l. split; [reflexivity|]. split; [exact HL|]. split; [exact EV|]. split; [exact FL|]. split; [exact AS|].
  destruct e.
  - destruct EN as (L & E). inversion E; subst. now split.
  - destruct EN as (L & E). inversion E; subst. now split.
  - destruct EN as (x & A & E). exists x. split; [exact A|]. unfold layer_evaluate in E; cbv beta iota zeta in E. rewrite evaluator_cases in E.
    destruct (length x =? n) eqn:LX; [|discriminate]. apply Nat.eqb_eq in LX. split; [exact LX|].
    destruct (o t' (REval x)) as [s1 [[v|]|ex|]]; cbn [fst snd] in E; try (destruct (dlt (l_best_fitness l') (to_float v))); inversion E; subst; reflexivity.
  - destruct EN as (x & A & E). exists x. split; [exact A|]. unfold layer_evaluate in E; cbv beta iota zeta in E. rewrite evaluator_cases in E.
    destruct (length x =? n) eqn:LX; [|left; now apply Nat.eqb_neq in LX]. right.
    destruct (o t' (REval x)) as [s1 [[v|]|ex|]]; cbn [fst snd] in E; try (destruct (dlt (l_best_fitness l') (to_float v))); inversion E; subst; auto.
Qed.

Lemma first_best_in {X} (xs : list X) ws x v : first_best xs ws x v -> In x xs.
Proof. intros (i & E & _). now apply nth_error_In in E. Qed.

Lemma p3_finalize_held n l xs ws : Forall (fun x => length x = n) xs -> held l xs ws ->
  (exists x v, p3_finalize n (Some l) = Ok (x, v) /\ first_best xs ws x v /\ dlt int_min v = true) \/
  ((forall w, In w ws -> dlt int_min w = false) /\ p3_finalize n (Some l) = if n =? 0 then Ok ([], int_min) else UB).
Proof.
  intros FL (LL & [(B1 & B2 & B3)|(B1 & B2)]); cbn [p3_finalize]; unfold bv_from_vector_bool; rewrite repeat_length.
  - right. split; [exact B3|]. rewrite B1, B2. cbn [length map]. destruct n; reflexivity.
  - left. exists (l_best_solution l), (l_best_fitness l). split; [|now split].
    rewrite (proj1 (Forall_forall _ _) FL _ (first_best_in _ _ _ _ B2)), Nat.eqb_refl. cbn [assertb bind]. now rewrite map_bits.
Qed.

(** ** GOMEA *)
Definition tracked (n : nat) (i : improvement) (c : nat) (xs : list bv) (vs : list dbl) : Prop :=
  length xs = length vs /\ c = length vs /\
  match xs, vs with
  | [], [] => i = tracker_make n
  | x :: _, v :: _ =>
      if is_nan v then imp_bv i = x /\ imp_value i = Some v
      else exists w, imp_value i = Some w /\ first_best xs vs (imp_bv i) w
  | _, _ => False
  end.

Lemma tracker_step {S} (o : fobj S) n i c s x xs vs : tracked n i c xs vs ->
  match o s (REval x) with
  | (s', Ok (RValue v)) => exists i', progress_tracker o true (i, (c, s)) (REval x) = ((i', (c + 1, s')), Ok (RValue v)) /\ tracked n i' (c + 1) (xs ++ [x]) (vs ++ [v])
  | (s', Ok RVoid) => progress_tracker o true (i, (c, s)) (REval x) = ((i, (c + 1, s')), Ok RVoid)
  | (s', Throw e) => progress_tracker o true (i, (c, s)) (REval x) = ((i, (c, s')), Throw e)
  | (s', UB) => progress_tracker o true (i, (c, s)) (REval x) = ((i, (c, s')), UB)
  end.
Proof.
  intros (LL & CC & TR). unfold progress_tracker, call_counter. destruct (o s (REval x)) as [s' [[v|]|e|]]; try reflexivity.
  cbn [fst]. unfold update_last_improvement.
  assert (LEN : length (xs ++ [x]) = length (vs ++ [v]) /\ c + 1 = length (vs ++ [v])) by (rewrite !app_length; cbn [length]; lia).
  destruct xs as [|x0 xs], vs as [|v0 vs]; try contradiction; cbn [length] in CC, LL.
  - subst c i. cbn [Nat.add Nat.eqb]. eexists. split; [reflexivity|]. split; [apply LEN|]. split; [apply LEN|].
    cbn [app]. destruct (is_nan v) eqn:NV; [now split|]. exists v. split; [reflexivity|].
    apply (first_best_new [] [] x v eq_refl NV). intros [|j] u; discriminate.
  - destruct (Nat.eqb_spec (c + 1) 1) as [|_]; [lia|]. destruct (is_nan v0) eqn:N0.
    + destruct TR as (T1 & T2). rewrite T2. assert (D : dgt v v0 = false). { unfold dgt. destruct (dlt v0 v) eqn:D; [|reflexivity]. apply dlt_nan in D. destruct D. congruence. }
      rewrite D. eexists. split; [reflexivity|]. split; [apply LEN|]. split; [apply LEN|]. cbn [app]. rewrite N0. now split.
    + destruct TR as (w & T1 & T2). rewrite T1. destruct (dgt v w) eqn:D; unfold dgt in D.
      * destruct (Nat.ltb_spec 1 (c + 1)); [|lia]. cbn [assertb bind]. eexists. split; [reflexivity|]. split; [apply LEN|]. split; [apply LEN|].
        cbn [app]. rewrite N0. exists v. split; [reflexivity|]. cbn [update_details imp_bv].
        apply (first_best_new (x0 :: xs) (v0 :: vs) x v); [cbn [length]; lia|now apply dlt_nan in D|].
        intros j u J NU. destruct T2 as (? & _ & _ & _ & LE & _). apply dle_dlt_trans with w; [now apply (LE j)|exact D].
      * eexists. split; [reflexivity|]. split; [apply LEN|]. split; [apply LEN|]. cbn [app]. rewrite N0. exists w. split; [exact T1|].
        apply (first_best_old (x0 :: xs) (v0 :: vs) x v); [cbn [length]; lia|exact T2|exact D].
Qed.

Lemma chars_cases (c : list Z) : forallb (fun c => (c =? 0)%Z || (c =? 1)%Z) c = true <-> c = chars_of (map (fun c => (c =? 1)%Z) c).
Proof.
  induction c as [|z c IH]; cbn [forallb map chars_of]; [now split|]. rewrite andb_true_iff, orb_true_iff, !Z.eqb_eq. unfold chars_of in *. cbn [map]. split.
  - intros (H & C). apply IH in C. rewrite <- C. destruct H as [-> | ->]; reflexivity.
  - intros H. injection H as H1 H2. split; [|now apply IH]. destruct (z =? 1)%Z; auto.
Qed.
Lemma chars_bits x : map (fun c => (c =? 1)%Z) (chars_of x) = x.
Proof. unfold chars_of. induction x as [|[] x IH]; cbn; now rewrite ?IH. Qed.
Lemma chars_length x : length (chars_of x) = length x.
Proof. apply map_length. Qed.

Lemma fitness_cases {S} (o : fobj S) n s c : (exists x, c = chars_of x /\ length x = n /\ fitness_evaluate o n s c = call o s x) \/
  ((length c <> n \/ forall x, c <> chars_of x) /\ fitness_evaluate o n s c = (s, UB)).
Proof.
  unfold fitness_evaluate. destruct (Nat.eqb_spec (length c) n) as [L|L]; [|right; cbn [assertb bind]; now split; [left|]].
  cbn [assertb bind]. destruct (forallb _ c) eqn:F; cbn [assertb bind].
  - left. apply chars_cases in F. eexists. split; [exact F|]. split; [now rewrite map_length|reflexivity].
  - right. split; [|reflexivity]. right. intros x E. assert (F' : forallb (fun c => (c =? 0)%Z || (c =? 1)%Z) c = true) by (apply chars_cases; rewrite E at 2; rewrite chars_bits; exact E).
    congruence.
Qed.

Lemma gomea_steps {S} (o : fobj S) n st cs ws st' : steps (fitness_evaluate (progress_tracker o true) n) st cs ws st' -> forall pxs pvs,
  tracked n (fst st) (fst (snd st)) pxs pvs ->
  exists xs, cs = map chars_of xs /\ Forall (fun x => length x = n) xs /\ evaluates o (snd (snd st)) xs ws (snd (snd st')) /\
    tracked n (fst st') (fst (snd st')) (pxs ++ xs) (pvs ++ ws).
Proof.
  induction 1 as [st|st c w st1 cs ws st' E _ IH]; intros pxs pvs TR.
  - exists []. rewrite !app_nil_r. repeat split; try constructor; apply TR.
  - destruct st as [i [k s]]. cbn [fst snd] in TR.
    destruct (fitness_cases (progress_tracker o true) n (i, (k, s)) c) as [(x & -> & LX & F)|(_ & F)]; rewrite F in E; [|discriminate].
    pose proof (tracker_step o n i k s x pxs pvs TR) as TS. unfold call in E.
    destruct (o s (REval x)) as [s1 [[v|]|e|]] eqn:OV; try (rewrite TS in E; discriminate).
    destruct TS as (i' & PT & TR'). rewrite PT in E. cbn [bind] in E. inversion E; subst. cbn [fst snd] in IH.
    destruct (IH _ _ TR') as (xs & -> & FL & EV & TR2). rewrite <- !app_assoc in TR2. exists (x :: xs).
    split; [reflexivity|]. split; [now constructor|]. split; [econstructor; [exact OV|exact EV]|exact TR2].
Qed.

Lemma gomea_run {S} (o : fobj S) n asks k a s a' t e : gomea_maximize o n asks k a s = ((a', t), e) ->
  exists xs vs t' i, a' = Some i /\ tracked n i (length vs) xs vs /\ evaluates o s xs vs t' /\ Forall (fun x => length x = n) xs /\
    asked asks (map chars_of xs) vs /\
    match e with
    | Running => length xs = k /\ t = t'
    | Finished => asks vs = None /\ t = t'
    | Raised ex => exists x, asks vs = Some (chars_of x) /\ length x = n /\ o t' (REval x) = (t, Throw ex)
    | Undefined => exists c, asks vs = Some c /\ ((length c <> n \/ (forall x, c <> chars_of x)) \/
        exists x, c = chars_of x /\ (o t' (REval x) = (t, UB) \/ o t' (REval x) = (t, Ok RVoid)))
    end.
Proof.
  unfold gomea_maximize. destruct (optimize _ asks k [] _) as [[i1 [k1 t1]] e1] eqn:OP. intros H. inversion H; subst; clear H.
  destruct (optimize_steps _ _ _ _ _ _ _ OP) as (cs & vs & [i' [k' t']] & ST & AS & EN).
  assert (TR0 : tracked n (tracker_make n) 0 [] []) by (repeat split).
  destruct (gomea_steps _ _ _ _ _ _ ST [] [] TR0) as (xs & -> & FL & EV & TR). cbn [fst snd app] in *.
  assert (CK : k' = length vs) by apply TR. rewrite CK in TR, EN.
  assert (W : forall i, tracked n i (length vs) xs vs -> (e = Running \/ e = Finished \/ (exists ex, e = Raised ex) \/ e = Undefined) ->
     i = i1 -> match e with
    | Running => length xs = k /\ t = t'
    | Finished => asks vs = None /\ t = t'
    | Raised ex => exists x, asks vs = Some (chars_of x) /\ length x = n /\ o t' (REval x) = (t, Throw ex)
    | Undefined => exists c, asks vs = Some c /\ ((length c <> n \/ (forall x, c <> chars_of x)) \/
        exists x, c = chars_of x /\ (o t' (REval x) = (t, UB) \/ o t' (REval x) = (t, Ok RVoid)))
    end -> exists xs vs t' i, Some i1 = Some i /\ tracked n i (length vs) xs vs /\ evaluates o s xs vs t' /\ Forall (fun x => length x = n) xs /\
    asked asks (map chars_of xs) vs /\
    match e with
    | Running => length xs = k /\ t = t'
    | Finished => asks vs = None /\ t = t'
    | Raised ex => exists x, asks vs = Some (chars_of x) /\ length x = n /\ o t' (REval x) = (t, Throw ex)
    | Undefined => exists c, asks vs = Some c /\ ((length c <> n \/ (forall x, c <> chars_of x)) \/
        exists x, c = chars_of x /\ (o t' (REval x) = (t, UB) \/ o t' (REval x) = (t, Ok RVoid)))
    end).
  { intros i TI _ -> M. exists xs, vs, t', i1. split; [reflexivity|]. split; [exact TI|]. split; [exact EV|]. split; [exact FL|]. split; [exact AS|exact M]. }
  destruct e.
  - destruct EN as (L & E). rewrite map_length in L. inversion E; subst. apply (W i'); auto.
  - destruct EN as (L & E). inversion E; subst. apply (W i'); auto.
  - destruct EN as (c & A & E). destruct (fitness_cases (progress_tracker o true) n (i', (length vs, t')) c) as [(x & -> & LX & F)|(_ & F)]; rewrite F in E; [|discriminate].
    pose proof (tracker_step o n i' (length vs) t' x xs vs TR) as TS. unfold call in E.
    destruct (o t' (REval x)) as [s1 [[v|]|ex|]] eqn:OV.
    + destruct TS as (? & PT & _). rewrite PT in E. discriminate.
    + rewrite TS in E. discriminate.
    + rewrite TS in E. inversion E; subst. apply (W i1); [exact TR|eauto|reflexivity|]. exists x. split; [exact A|]. split; [first [exact LX|reflexivity]|exact OV].
    + rewrite TS in E. discriminate.
  - destruct EN as (c & A & E). destruct (fitness_cases (progress_tracker o true) n (i', (length vs, t')) c) as [(x & -> & LX & F)|(BAD & F)]; rewrite F in E.
    + pose proof (tracker_step o n i' (length vs) t' x xs vs TR) as TS. unfold call in E.
      destruct (o t' (REval x)) as [s1 [[v|]|ex|]] eqn:OV.
      * destruct TS as (? & PT & _). rewrite PT in E. discriminate.
      * rewrite TS in E. inversion E; subst. apply (W i1); [exact TR|eauto|reflexivity|]. eexists. split; [exact A|]. right. exists x. split; [reflexivity|]. auto.
      * rewrite TS in E. discriminate.
      * rewrite TS in E. inversion E; subst. apply (W i1); [exact TR|eauto|reflexivity|]. eexists. split; [exact A|]. right. exists x. split; [reflexivity|]. auto.
    + inversion E; subst. apply (W i1); [exact TR|eauto|reflexivity|]. exists c. split; [exact A|]. left. exact BAD.
Qed.
