(** Proofs about the functions of Theory_Model.v. *)

From Coq Require Import ZArith.
From Verif Require Import Base BaseLemmas BitVector_Model BitVector_Spec GF2 BitVector_Proofs Theory_Model Function_Spec.
Local Open Scope nat_scope.

(** * Runs of equal bits *)

Lemma leading_ones_split x :
  x = repeat true (leading_ones x) ++ skipn (leading_ones x) x /\
  (skipn (leading_ones x) x = [] \/ exists t, skipn (leading_ones x) x = false :: t).
Proof.
  induction x as [|b x [IH1 IH2]]; cbn [leading_ones]; [cbn; auto|].
  destruct b; cbn [repeat app skipn].
  - split; [f_equal; exact IH1|exact IH2].
  - split; eauto.
Qed.

Lemma leading_ones_le x : leading_ones x <= length x.
Proof. induction x as [|[|] x IH]; cbn; lia. Qed.

Lemma leading_ones_run i x : (x = [] \/ exists t, x = false :: t) -> leading_ones (repeat true i ++ x) = i.
Proof.
  intros H. induction i; cbn; [destruct H as [->|[t ->]]; reflexivity|lia].
Qed.

Lemma leading_ones_full x : leading_ones x = length x <-> x = repeat true (length x).
Proof.
  induction x as [|b x IH]; cbn; [tauto|]. destruct b; split; intros H; try discriminate.
  - injection H as H. f_equal. tauto.
  - injection H as H. f_equal. tauto.
Qed.

Lemma forallb_negb_zero x : forallb negb x = true <-> x = repeat false (length x).
Proof.
  induction x as [|b x IH]; cbn; [tauto|]. rewrite andb_true_iff, IH. destruct b; cbn.
  - split; [intros [? _]; discriminate|discriminate].
  - split; [intros [_ ->]; now rewrite repeat_length|].
    intros H. injection H as H. auto.
Qed.

Lemma forallb_id_ones x : forallb (fun b => b) x = true <-> x = repeat true (length x).
Proof.
  induction x as [|b x IH]; cbn; [tauto|]. rewrite andb_true_iff, IH. destruct b; cbn.
  - split; [intros [_ ->]; now rewrite repeat_length|].
    intros H. injection H as H. auto.
  - split; [intros [? _]; discriminate|discriminate].
Qed.

Lemma weight_ones n : weight (repeat true n) = n.
Proof. induction n; cbn [repeat]; [reflexivity|]. rewrite weight_cons. lia. Qed.

Lemma weight_zeros n : weight (repeat false n) = 0.
Proof. induction n; cbn [repeat]; [reflexivity|]. rewrite weight_cons. lia. Qed.

Lemma weight_onesv_iff n x : length x = n -> (weight x = n <-> x = onesv n).
Proof. intros H. unfold onesv. rewrite <- H. apply weight_full_iff. Qed.

(** x is 1^i 0^(n-i) *)
Lemma ridge_shape n x : length x = n ->
  (forallb negb (skipn (leading_ones x) x) = true <-> exists i, i <= n /\ x = repeat true i ++ repeat false (n - i)).
Proof.
  intros Hl. rewrite forallb_negb_zero. split.
  - intros H. exists (leading_ones x). pose proof (leading_ones_le x). split; [lia|].
    rewrite skipn_length in H. rewrite Hl in H. rewrite <- H. apply leading_ones_split.
  - intros (i & Hi & ->). rewrite leading_ones_run.
    + rewrite skipn_app, repeat_length, skipn_all2 by (rewrite repeat_length; lia).
      rewrite Nat.sub_diag. cbn [skipn app]. now rewrite repeat_length.
    + destruct (n - i); cbn; eauto.
Qed.

Lemma ridge_leading n i : i <= n -> leading_ones (repeat true i ++ repeat false (n - i)) = i.
Proof. intros. apply leading_ones_run. destruct (n - i); cbn; eauto. Qed.

(** * OneMax, LeadingOnes, Needle, Ridge, Plateau *)

Theorem onemax_max n : is_maximum n (fun x => Ok (onemax_evaluate x)) (onemax_maximum n) /\
  maximizers n (fun x => Ok (onemax_evaluate x)) (onemax_maximum n) [onesv n].
Proof.
  unfold onemax_evaluate, onemax_maximum, is_maximum, maximizers. repeat split.
  - intros x Hx. eexists. split; [reflexivity|]. rewrite bv_hamming_weight_spec. pose proof (weight_le x). lia.
  - exists (onesv n). split; [apply repeat_length|]. rewrite bv_hamming_weight_spec. unfold onesv. now rewrite weight_ones.
  - intros E. apply Ok_inj in E. left. rewrite bv_hamming_weight_spec in E. symmetry.
    apply (weight_onesv_iff n x); [assumption|lia].
  - intros [<-|[]]. rewrite bv_hamming_weight_spec. unfold onesv. now rewrite weight_ones.
Qed.

Theorem leadingones_max n : is_maximum n (fun x => Ok (leadingones_evaluate x)) (leadingones_maximum n) /\
  maximizers n (fun x => Ok (leadingones_evaluate x)) (leadingones_maximum n) [onesv n].
Proof.
  unfold leadingones_evaluate, leadingones_maximum, is_maximum, maximizers.
  assert (F : leading_ones (onesv n) = n).
  { unfold onesv. rewrite <- (repeat_length true n) at 2. apply leading_ones_full. now rewrite repeat_length. }
  repeat split.
  - intros x Hx. eexists. split; [reflexivity|]. pose proof (leading_ones_le x). lia.
  - exists (onesv n). split; [apply repeat_length|]. now rewrite F.
  - intros E. apply Ok_inj in E. left. symmetry. unfold onesv. rewrite <- H. apply leading_ones_full. lia.
  - intros [<-|[]]. now rewrite F.
Qed.

Theorem needle_max n : is_maximum n (fun x => Ok (needle_evaluate x)) (needle_maximum n) /\
  maximizers n (fun x => Ok (needle_evaluate x)) (needle_maximum n) [onesv n].
Proof.
  unfold needle_evaluate, needle_maximum, is_maximum, maximizers.
  assert (F : forallb (fun b : bool => b) (onesv n) = true).
  { apply forallb_id_ones. unfold onesv. now rewrite repeat_length. }
  repeat split.
  - intros x Hx. eexists. split; [reflexivity|]. destruct (forallb _ x); lia.
  - exists (onesv n). split; [apply repeat_length|]. now rewrite F.
  - intros E. left. symmetry. unfold onesv. rewrite <- H. apply forallb_id_ones.
    destruct (forallb _ x); [reflexivity|discriminate].
  - intros [<-|[]]. now rewrite F.
Qed.

(** Values of Ridge *)
Theorem ridge_value n x : length x = n ->
  (forall i, i <= n -> x = repeat true i ++ repeat false (n - i) ->
     ridge_evaluate n x = Ok (Z.of_nat n + Z.of_nat i)%Z) /\
  ((forall i, i <= n -> x <> repeat true i ++ repeat false (n - i)) ->
     ridge_evaluate n x = Ok (Z.of_nat n - Z.of_nat (weight x))%Z).
Proof.
  intros Hl. unfold ridge_evaluate. rewrite bv_hamming_weight_spec. split.
  - intros i Hi E. assert (S : forallb negb (skipn (leading_ones x) x) = true).
    { apply (ridge_shape n x Hl). eauto. }
    rewrite S. rewrite E, ridge_leading by assumption.
    rewrite weight_app, weight_ones, weight_zeros, Nat.add_0_r, Nat.eqb_refl. reflexivity.
  - intros H. destruct (forallb negb _) eqn:S; [|reflexivity].
    apply (ridge_shape n x Hl) in S. destruct S as (i & Hi & E). now apply H in E.
Qed.

Lemma ridge_dec n x : length x = n ->
  (exists i, i <= n /\ x = repeat true i ++ repeat false (n - i)) \/
  (forall i, i <= n -> x <> repeat true i ++ repeat false (n - i)).
Proof.
  intros Hl. destruct (forallb negb (skipn (leading_ones x) x)) eqn:E.
  - left. now apply ridge_shape.
  - right. intros i Hi ->. assert (forallb negb (skipn (leading_ones (repeat true i ++ repeat false (n - i))) (repeat true i ++ repeat false (n - i))) = true) by (apply (ridge_shape n); eauto).
    congruence.
Qed.

Theorem ridge_max n : is_maximum n (ridge_evaluate n) (ridge_maximum n) /\
  maximizers n (ridge_evaluate n) (ridge_maximum n) [onesv n].
Proof.
  unfold ridge_maximum, is_maximum, maximizers.
  assert (F : ridge_evaluate n (onesv n) = Ok (2 * Z.of_nat n)%Z).
  { destruct (ridge_value n (onesv n) (repeat_length _ _)) as [A _]. rewrite (A n); [f_equal; lia|lia|].
    rewrite Nat.sub_diag. cbn. now rewrite app_nil_r. }
  split; [split|].
  - intros x Hx. destruct (ridge_value n x Hx) as [A B]. destruct (ridge_dec n x Hx) as [(i & Hi & E)|H].
    + rewrite (A i Hi E). eexists; split; [reflexivity|lia].
    + rewrite (B H). eexists; split; [reflexivity|lia].
  - exists (onesv n). split; [apply repeat_length|assumption].
  - intros x Hx. split; [|intros [<-|[]]; exact F].
    intros E. left. destruct (ridge_value n x Hx) as [A B]. destruct (ridge_dec n x Hx) as [(i & Hi & Ex)|H].
    + rewrite (A i Hi Ex) in E. apply Ok_inj in E. assert (i = n) by lia. subst i.
      rewrite Nat.sub_diag in Ex. cbn in Ex. rewrite app_nil_r in Ex. now rewrite Ex.
    + rewrite (B H) in E. apply Ok_inj in E. assert (n = 0) by lia. subst n.
      destruct x; [reflexivity|discriminate].
Qed.

Theorem plateau_value n x : length x = n ->
  (x = onesv n -> plateau_evaluate n x = Ok (Z.of_nat n + 2)%Z) /\
  (forall i, i < n -> x = repeat true i ++ repeat false (n - i) ->
     plateau_evaluate n x = Ok (Z.of_nat n + 1)%Z) /\
  ((forall i, i <= n -> x <> repeat true i ++ repeat false (n - i)) ->
     plateau_evaluate n x = Ok (Z.of_nat n - Z.of_nat (weight x))%Z).
Proof.
  intros Hl. unfold plateau_evaluate. rewrite bv_hamming_weight_spec. split; [|split].
  - intros ->. assert (E : leading_ones (onesv n) = length (onesv n)).
    { apply leading_ones_full. now rewrite Hl. }
    rewrite E, Nat.eqb_refl. unfold onesv. rewrite weight_ones, Nat.eqb_refl. reflexivity.
  - intros i Hi E. assert (S : forallb negb (skipn (leading_ones x) x) = true).
    { apply (ridge_shape n x Hl). exists i. split; [lia|assumption]. }
    assert (leading_ones x = i) as Ei by (rewrite E; apply ridge_leading; lia).
    rewrite S. destruct (Nat.eqb_spec (leading_ones x) (length x)); [lia|]. reflexivity.
  - intros H. destruct (Nat.eqb_spec (leading_ones x) (length x)) as [E|E].
    + exfalso. apply leading_ones_full in E. apply (H n); [lia|]. rewrite Nat.sub_diag. cbn. rewrite app_nil_r. congruence.
    + destruct (forallb negb _) eqn:S; [|reflexivity].
      apply (ridge_shape n x Hl) in S. destruct S as (i & Hi & Ex). now apply H in Ex.
Qed.

Theorem plateau_max n : is_maximum n (plateau_evaluate n) (plateau_maximum n) /\
  maximizers n (plateau_evaluate n) (plateau_maximum n) [onesv n].
Proof.
  unfold plateau_maximum, is_maximum, maximizers.
  assert (C : forall x, length x = n -> x = onesv n \/ (exists r, plateau_evaluate n x = Ok r /\ (r < Z.of_nat n + 2)%Z)).
  { intros x Hx. destruct (plateau_value n x Hx) as (A & B & C). destruct (ridge_dec n x Hx) as [(i & Hi & E)|H].
    - destruct (Nat.eq_dec i n) as [->|Hn].
      + left. rewrite Nat.sub_diag in E. cbn in E. now rewrite app_nil_r in E.
      + right. rewrite (B i); [|lia|assumption]. eexists; split; [reflexivity|lia].
    - right. rewrite (C H). eexists; split; [reflexivity|lia]. }
  assert (F : plateau_evaluate n (onesv n) = Ok (Z.of_nat n + 2)%Z).
  { now apply (plateau_value n (onesv n) (repeat_length _ _)). }
  split; [split|].
  - intros x Hx. destruct (C x Hx) as [->|(r & -> & Hr)]; [rewrite F|]; eexists; (split; [reflexivity|lia]).
  - exists (onesv n). split; [apply repeat_length|assumption].
  - intros x Hx. split; [|intros [<-|[]]; exact F].
    intros E. left. destruct (C x Hx) as [->|(r & E' & Hr)]; [reflexivity|].
    rewrite E in E'. apply Ok_inj in E'. lia.
Qed.

Theorem leadingones_value x i : leadingones_evaluate x = Z.of_nat i <->
  (exists t, x = repeat true i ++ false :: t) \/ (x = repeat true i).
Proof.
  unfold leadingones_evaluate. split.
  - intros H. assert (E : leading_ones x = i) by lia. subst i.
    destruct (leading_ones_split x) as [E [H0|[t Ht]]].
    + right. rewrite H0, app_nil_r in E. exact E.
    + left. exists t. rewrite <- Ht. exact E.
  - intros [[t ->]| ->]; f_equal.
    + apply leading_ones_run. eauto.
    + rewrite <- (app_nil_r (repeat true i)). apply leading_ones_run. auto.
Qed.

(** * Jump *)

Theorem jump_max n g : jump_make n g = Ok tt ->
  is_maximum n (jump_evaluate n g) (jump_maximum n) /\
  maximizers n (jump_evaluate n g) (jump_maximum n) [onesv n].
Proof.
  intros Hm. unfold jump_make in Hm. destruct (Nat.ltb_spec 0 n) as [Hn|]; [|discriminate]. cbn in Hm.
  destruct (Z.ltb_spec g 1) as [|Hg]; [discriminate|].
  assert (F : jump_evaluate n g (onesv n) = Ok (Z.of_nat n)).
  { unfold jump_evaluate. rewrite bv_hamming_weight_spec. unfold onesv. rewrite repeat_length, Nat.eqb_refl, weight_ones, Nat.eqb_refl. reflexivity. }
  assert (C : forall x, length x = n -> x = onesv n \/ (exists r, jump_evaluate n g x = Ok r /\ (r < Z.of_nat n)%Z)).
  { intros x Hx. destruct (Nat.eq_dec (weight x) n) as [E|E]; [left; now apply weight_onesv_iff|right].
    pose proof (weight_le x). unfold jump_evaluate. rewrite bv_hamming_weight_spec, Hx, Nat.eqb_refl. cbn [assertb bind].
    destruct (Nat.eqb_spec (weight x) n); [contradiction|]. destruct (Nat.ltb_spec (weight x) n); [|lia].
    cbn [assertb bind]. destruct (Z.ltb _ _); (eexists; split; [reflexivity|lia]). }
  unfold jump_maximum, is_maximum, maximizers. split; [split|].
  - intros x Hx. destruct (C x Hx) as [->|(r & -> & Hr)]; [rewrite F|]; eexists; (split; [reflexivity|lia]).
  - exists (onesv n). split; [apply repeat_length|assumption].
  - intros x Hx. split; [|intros [<-|[]]; exact F].
    intros E. left. destruct (C x Hx) as [->|(r & E' & Hr)]; [reflexivity|].
    rewrite E in E'. apply Ok_inj in E'. lia.
Qed.

Theorem jump_value n g x : length x = n -> 
  jump_evaluate n g x = Ok (if (Z.of_nat n - g <? Z.of_nat (weight x))%Z && (weight x <? n) then 0%Z else Z.of_nat (weight x)).
Proof.
  intros Hx. unfold jump_evaluate. rewrite bv_hamming_weight_spec, Hx, Nat.eqb_refl. cbn [assertb bind].
  pose proof (weight_le x). destruct (Nat.eqb_spec (weight x) n).
  - destruct (Nat.ltb_spec (weight x) n); [lia|]. rewrite andb_false_r. reflexivity.
  - destruct (Nat.ltb_spec (weight x) n); [|lia]. rewrite andb_true_r. cbn. now destruct (Z.ltb _ _).
Qed.

Theorem deceptivejump_max n g : jump_make n g = Ok tt ->
  is_maximum n (deceptivejump_evaluate n g) (deceptivejump_maximum n g) /\
  maximizers n (deceptivejump_evaluate n g) (deceptivejump_maximum n g) [onesv n].
Proof.
  intros Hm. unfold jump_make in Hm. destruct (Nat.ltb_spec 0 n) as [Hn|]; [|discriminate]. cbn in Hm.
  destruct (Z.ltb_spec g 1) as [|Hg]; [discriminate|].
  assert (F : deceptivejump_evaluate n g (onesv n) = Ok (Z.of_nat n + g)%Z).
  { unfold deceptivejump_evaluate. rewrite bv_hamming_weight_spec. unfold onesv. rewrite repeat_length, Nat.eqb_refl, weight_ones, Nat.ltb_irrefl. cbn. f_equal. lia. }
  assert (C : forall x, length x = n -> x = onesv n \/ (exists r, deceptivejump_evaluate n g x = Ok r /\ (r < Z.of_nat n + g)%Z)).
  { intros x Hx. destruct (Nat.eq_dec (weight x) n) as [E|E]; [left; now apply weight_onesv_iff|right].
    pose proof (weight_le x). unfold deceptivejump_evaluate. rewrite bv_hamming_weight_spec, Hx, Nat.eqb_refl. cbn [assertb bind].
    destruct (_ && _); (eexists; split; [reflexivity|lia]). }
  unfold deceptivejump_maximum, is_maximum, maximizers. split; [split|].
  - intros x Hx. destruct (C x Hx) as [->|(r & -> & Hr)]; [rewrite F|]; eexists; (split; [reflexivity|lia]).
  - exists (onesv n). split; [apply repeat_length|assumption].
  - intros x Hx. split; [|intros [<-|[]]; exact F].
    intros E. left. destruct (C x Hx) as [->|(r & E' & Hr)]; [reflexivity|].
    rewrite E in E'. apply Ok_inj in E'. lia.
Qed.

Theorem deceptivejump_value n g x : length x = n -> 
  deceptivejump_evaluate n g x =
    Ok (if (Z.of_nat n - g <? Z.of_nat (weight x))%Z && (weight x <? n)
        then (Z.of_nat n - Z.of_nat (weight x))%Z else (g + Z.of_nat (weight x))%Z).
Proof.
  intros Hx. unfold deceptivejump_evaluate. rewrite bv_hamming_weight_spec, Hx, Nat.eqb_refl. cbn [assertb bind].
  rewrite andb_comm. now destruct (_ && _).
Qed.

(** * Trap *)

Definition trap_block (s : nat) (b : list bool) : Z :=
  if weight b =? s then Z.of_nat s else (Z.of_nat s - Z.of_nat (weight b) - 1)%Z.

Lemma trap_weight_Ok x first s : first + s <= length x ->
  trap_weight x first s = Ok (weight (firstn s (skipn first x))).
Proof.
  intros H. unfold trap_weight.
  enough (G : forall s first w, first + s <= length x ->
    foldM (fun (w : nat) j => b <- vget x j ;; Ok (w + b2n b)) (seq first s) w = Ok (w + weight (firstn s (skipn first x)))).
  { now rewrite G. }
  clear. induction s as [|s IH]; intros first w H; cbn [seq foldM].
  - cbn. now rewrite Nat.add_0_r.
  - rewrite (vget_Ok x first false) by lia. cbn [bind]. rewrite IH by lia. f_equal.
    destruct (skipn first x) as [|b t] eqn:E.
    + exfalso. assert (length (skipn first x) = 0) by (now rewrite E). rewrite skipn_length in H0. lia.
    + assert (nth first x false = b) as ->.
      { rewrite <- (firstn_skipn first x), app_nth2; rewrite firstn_length_le by lia; [|lia].
        rewrite Nat.sub_diag, E. reflexivity. }
      assert (skipn (S first) x = t) as ->.
      { replace (S first) with (1 + first) by lia. clear - E. revert first E. induction x as [|a x IH]; intros [|f] E; cbn in *; try discriminate.
        - congruence. - now apply IH. }
      cbn [firstn]. rewrite weight_cons. unfold b2n. destruct b; lia.
Qed.

(** Sum over consecutive blocks of size [s]. *)
Fixpoint block_sum (f : list bool -> Z) (k s : nat) (x : list bool) : Z :=
  match k with
  | 0 => 0%Z
  | S k' => (f (firstn s x) + block_sum f k' s (skipn s x))%Z
  end.

Lemma skipn_skipn_add {A} (l : list A) a b : skipn a (skipn b l) = skipn (b + a) l.
Proof. revert l; induction b; intros [|h l]; cbn; auto. now rewrite skipn_nil. Qed.

Theorem trap_value k s x : length x = k * s -> trap_evaluate k s x = Ok (block_sum (trap_block s) k s x).
Proof.
  intros Hx. unfold trap_evaluate.
  enough (G : forall k start r first, first + k * s <= length x ->
    foldM (fun '(result, first) (_ : nat) =>
      weight <- trap_weight x first s ;;
      if weight =? s then Ok ((result + Z.of_nat s)%Z, first + s)
      else
        _ <- assertb (weight <? s) ;;
        Ok ((result + (Z.of_nat s - Z.of_nat weight - 1))%Z, first + s))
      (seq start k) (r, first) = Ok ((r + block_sum (trap_block s) k s (skipn first x))%Z, first + k * s)).
  { rewrite (G k 0 0%Z 0) by lia. reflexivity. }
  clear k Hx. induction k as [|k IH]; intros start r first H; cbn [seq foldM].
  - cbn. now rewrite Z.add_0_r, Nat.add_0_r.
  - cbn [block_sum]. cbn in H. rewrite trap_weight_Ok by lia. cbn [bind].
    assert (L : length (firstn s (skipn first x)) = s) by (rewrite firstn_length_le; [reflexivity|rewrite skipn_length; lia]).
    pose proof (weight_le (firstn s (skipn first x))) as W. rewrite L in W.
    unfold trap_block at 1. rewrite skipn_skipn_add.
    destruct (Nat.eqb_spec (weight (firstn s (skipn first x))) s) as [E|E].
    + cbn [bind]. rewrite IH by lia. f_equal. f_equal; [lia|cbn; lia].
    + destruct (Nat.ltb_spec (weight (firstn s (skipn first x))) s); [|lia].
      cbn [assertb bind]. rewrite IH by lia. f_equal. f_equal; [lia|cbn; lia].
Qed.

Lemma block_sum_le f k s x B : (forall b, length b = s -> (f b <= B)%Z) -> length x = k * s ->
  (block_sum f k s x <= Z.of_nat k * B)%Z.
Proof.
  intros Hf. revert x; induction k as [|k IH]; intros x Hx; cbn [block_sum]; [lia|].
  cbn in Hx. assert (Ha := Hf (firstn s x) ltac:(rewrite firstn_length_le; lia)).
  assert (Hb := IH (skipn s x) ltac:(rewrite skipn_length; lia)). lia.
Qed.

Lemma trap_block_le s b : length b = s -> 0 < s -> (trap_block s b <= Z.of_nat s)%Z /\ (trap_block s b = Z.of_nat s <-> b = onesv s).
Proof.
  intros Hb Hs. unfold trap_block. destruct (Nat.eqb_spec (weight b) s) as [E|E].
  - split; [lia|]. split; [intros _; now apply weight_onesv_iff|auto].
  - split; [lia|]. split; [lia|]. intros H. exfalso. apply E. now apply weight_onesv_iff.
Qed.

Lemma onesv_app a b : onesv (a + b) = onesv a ++ onesv b.
Proof. apply repeat_app. Qed.

Lemma firstn_onesv a b : firstn a (onesv (a + b)) = onesv a.
Proof. rewrite onesv_app, firstn_app. unfold onesv. rewrite repeat_length, Nat.sub_diag. cbn. rewrite app_nil_r. rewrite firstn_all2; [reflexivity|now rewrite repeat_length]. Qed.

Lemma skipn_onesv a b : skipn a (onesv (a + b)) = onesv b.
Proof. rewrite onesv_app, skipn_app. unfold onesv. rewrite repeat_length, Nat.sub_diag. cbn. rewrite skipn_all2; [reflexivity|now rewrite repeat_length]. Qed.

Lemma trap_sum_max k s x : 0 < s -> length x = k * s ->
  (block_sum (trap_block s) k s x <= Z.of_nat (k * s))%Z /\
  (block_sum (trap_block s) k s x = Z.of_nat (k * s) <-> x = onesv (k * s)).
Proof.
  intros Hs. revert x; induction k as [|k IH]; intros x Hx.
  - cbn. split; [lia|]. split; [|auto]. intros _. destruct x; [reflexivity|discriminate].
  - cbn [block_sum]. cbn in Hx.
    assert (L1 : length (firstn s x) = s) by (rewrite firstn_length_le; lia).
    assert (L2 : length (skipn s x) = k * s) by (rewrite skipn_length; lia).
    destruct (trap_block_le s (firstn s x) L1 Hs) as [A A']. destruct (IH (skipn s x) L2) as [B B'].
    replace (S k * s) with (s + k * s) by lia. split; [lia|]. split.
    + intros E. rewrite onesv_app, <- (firstn_skipn s x). f_equal; [apply A'|apply B']; lia.
    + intros ->. rewrite firstn_onesv, skipn_onesv in *.
      rewrite (proj2 A' eq_refl), (proj2 B' eq_refl). lia.
Qed.

Theorem trap_max n k s : 0 < n -> trap_make n k = Ok s ->
  is_maximum n (trap_evaluate k s) (trap_maximum n) /\
  maximizers n (trap_evaluate k s) (trap_maximum n) [onesv n].
Proof.
  intros Hn Hm. unfold trap_make in Hm. destruct (Nat.ltb_spec 0 k) as [Hk|]; [|discriminate].
  cbn [assertb bind] in Hm. destruct (Nat.eqb_spec (n mod k) 0) as [E|]; [|discriminate].
  injection Hm as Hs. assert (En : n = k * s).
  { subst s. apply Nat.div_exact; [lia|assumption]. }
  assert (0 < s) by (destruct s; lia).
  unfold trap_maximum, is_maximum, maximizers. split; [split|].
  - intros x Hx. rewrite trap_value by lia. eexists. split; [reflexivity|].
    destruct (trap_sum_max k s x) as [A _]; [lia|lia|lia].
  - exists (onesv n). split; [apply repeat_length|]. rewrite trap_value by (unfold onesv; rewrite repeat_length; lia).
    f_equal. rewrite En. apply trap_sum_max; [assumption|unfold onesv; now rewrite repeat_length|reflexivity].
  - intros x Hx. rewrite trap_value by lia. destruct (trap_sum_max k s x) as [_ A]; [lia|lia|].
    rewrite <- En in A. split.
    + intros E'. apply Ok_inj in E'. left. symmetry. now apply A.
    + intros [<-|[]]. f_equal. now apply A.
Qed.

(** * Linear functions *)

Lemma linear_maximum_zsum w : linear_maximum w = zsum (map (fun a => Z.max a 0) w).
Proof.
  unfold linear_maximum.
  enough (G : forall r, fold_left (fun result w => if (0 <? w)%Z then (result + w)%Z else result) w r = (r + zsum (map (fun a => Z.max a 0) w))%Z) by (rewrite G; lia).
  induction w as [|a w IH]; intros r; cbn [fold_left map zsum fold_right]; [lia|].
  rewrite IH. destruct (Z.ltb_spec 0 a).
  - rewrite Z.max_l by lia. fold (zsum (map (fun a => Z.max a 0) w)). lia.
  - rewrite Z.max_r by lia. fold (zsum (map (fun a => Z.max a 0) w)). lia.
Qed.

(** Sum of the weights of the ones. *)
Definition linear_value (w : list Z) (x : list bool) : Z := zsum (map2 (fun a (b : bool) => if b then a else 0%Z) w x).

Lemma linear_evaluate_Ok w x : length x = length w -> linear_evaluate w x = Ok (linear_value w x).
Proof.
  intros H. unfold linear_evaluate. rewrite H, Nat.eqb_refl. cbn [assertb bind]. unfold linear_value.
  enough (G : forall w2 x2 w1 x1 r, length x2 = length w2 -> length x1 = length w1 ->
    foldM (fun result i =>
      b <- vget (x1 ++ x2) i ;;
      if (b : bool) then w <- vget (w1 ++ w2) i ;; Ok (result + w)%Z else Ok result)
      (seq (length w1) (length w2)) r = Ok (r + zsum (map2 (fun a (b : bool) => if b then a else 0%Z) w2 x2))%Z).
  { exact (G w x [] [] 0%Z H eq_refl). }
  clear. induction w2 as [|a w2 IH]; intros x2 w1 x1 r H2 H1; cbn [seq foldM length].
  - destruct x2; [|discriminate]. cbn. now rewrite Z.add_0_r.
  - destruct x2 as [|b x2]; [discriminate|]. injection H2 as H2.
    rewrite (vget_Ok _ _ false) by (rewrite app_length; cbn; lia).
    rewrite app_nth2, H1, Nat.sub_diag by lia. cbn [nth bind].
    rewrite (vget_Ok (w1 ++ a :: w2) _ 0%Z) by (rewrite app_length; cbn; lia).
    rewrite app_nth2, Nat.sub_diag by lia. cbn [nth bind].
    specialize (IH x2 (w1 ++ [a]) (x1 ++ [b])). rewrite <- !app_assoc in IH. cbn [app] in IH.
    rewrite (app_length w1 [a]) in IH. cbn [length] in IH. rewrite Nat.add_1_r in IH.
    destruct b; cbn [bind]; rewrite IH by (rewrite ?app_length; cbn; lia); f_equal; cbn [map2 zsum fold_right];
      unfold zsum; lia.
Qed.

Lemma linear_value_le w x : (linear_value w x <= zsum (map (fun a => Z.max a 0) w))%Z.
Proof.
  unfold linear_value. revert x; induction w as [|a w IH]; intros [|b x]; cbn [map2 map zsum fold_right]; try lia.
  - clear. assert (0 <= fold_right Z.add 0 (map (fun a0 : Z => Z.max a0 0) w))%Z; [|lia].
    induction w; cbn; lia.
  - specialize (IH x). unfold zsum in IH. destruct b; lia.
Qed.

Theorem linear_max w : is_maximum (length w) (linear_evaluate w) (linear_maximum w).
Proof.
  rewrite linear_maximum_zsum. split.
  - intros x Hx. rewrite linear_evaluate_Ok by assumption. eexists. split; [reflexivity|]. apply linear_value_le.
  - exists (map (fun a => (0 <? a)%Z) w). rewrite map_length. split; [reflexivity|].
    rewrite linear_evaluate_Ok by apply map_length. f_equal. unfold linear_value.
    induction w as [|a w IH]; [reflexivity|]. cbn [map map2 zsum fold_right]. fold (zsum (map (fun a => Z.max a 0) w)).
    rewrite <- IH. unfold zsum. destruct (Z.ltb_spec 0 a); lia.
Qed.

Theorem trap_value_sum k s x : length x = k * s ->
  trap_evaluate k s x = Ok (zsum (map (fun b =>
    let w := weight (firstn s (skipn (b * s) x)) in
    if w =? s then Z.of_nat s else (Z.of_nat s - 1 - Z.of_nat w)%Z) (seq 0 k))).
Proof.
  intros H. rewrite trap_value by assumption. f_equal. clear H. revert x.
  induction k as [|k IH]; intros x; [reflexivity|]. cbn [block_sum seq map zsum fold_right].
  rewrite IH, <- seq_shift, map_map. cbn [Nat.mul skipn]. f_equal.
  - unfold trap_block. cbn zeta. destruct (_ =? _); lia.
  - unfold zsum. f_equal. apply map_ext. intros b. rewrite skipn_skipn_add. reflexivity.
Qed.

Theorem linear_evaluate_sum w x : length x = length w ->
  linear_evaluate w x = Ok (sum_n (length w) (fun i => if nth i x false then nth i w 0%Z else 0%Z)).
Proof.
  intros H. rewrite linear_evaluate_Ok by assumption. f_equal.
  unfold linear_value, sum_n. revert x H; induction w as [|a w IH]; intros [|b x] H; try discriminate; [reflexivity|].
  injection H as H. cbn [map2 length seq map]. rewrite <- seq_shift, map_map. cbn [zsum fold_right nth].
  specialize (IH x H). unfold zsum in IH. rewrite IH. reflexivity.
Qed.
