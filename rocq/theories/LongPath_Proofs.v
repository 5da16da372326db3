(** Proofs about the long path function. *)

From Coq Require Import ZArith.
From Verif Require Import Base BaseLemmas BitVector_Model BitVector_Spec GF2 BitVector_Proofs Theory_Model Function_Spec Theory_Proofs.
Local Open Scope nat_scope.

Lemma find_one_run a t : find_one (repeat false a ++ true :: t) = a.
Proof. induction a; cbn; auto. Qed.

Lemma find_one_split p : 
  (p = repeat false (length p) /\ find_one p = length p) \/
  exists t, p = repeat false (find_one p) ++ true :: t.
Proof.
  induction p as [|b p IH]; cbn; [auto|]. destruct b; [right; exists p; reflexivity|].
  destruct IH as [[H1 H2]|[t H]].
  - left. rewrite <- H1, H2. auto.
  - right. exists t. cbn. f_equal. exact H.
Qed.

Lemma is_bridge_spec p k : length p = k -> 0 < k ->
  exists b, is_bridge p = Ok b /\
    (b = true <-> exists i, 1 <= i /\ i < k /\ p = repeat false (k - i) ++ repeat true i).
Proof.
  intros Hp Hk. unfold is_bridge. rewrite (vget_Ok p 0 false) by lia. cbn [bind].
  destruct p as [|c p]; [cbn in Hp; lia|]. cbn [nth].
  destruct c.
  - eexists. split; [reflexivity|]. split; [discriminate|].
    intros (i & Hi & Hik & E). destruct (k - i) eqn:D; [lia|]. discriminate.
  - set (q := false :: p) in *.
    destruct (Nat.eqb_spec (find_one q) (length q)) as [E|E].
    + eexists. split; [reflexivity|]. split; [discriminate|].
      intros (i & Hi & Hik & Eq). exfalso. destruct i as [|i]; [lia|].
      rewrite Eq in E. cbn [repeat] in E. rewrite find_one_run, app_length in E. cbn in E.
      rewrite !repeat_length in E. lia.
    + eexists. split; [reflexivity|]. rewrite forallb_id_ones. split.
      * intros F. destruct (find_one_split q) as [[_ H2]|[t Ht]]; [contradiction|].
        assert (Es : skipn (find_one q) q = true :: t).
        { rewrite Ht at 2. rewrite skipn_app, skipn_all2 by (rewrite repeat_length; lia).
          rewrite repeat_length, Nat.sub_diag. reflexivity. }
        assert (Hlen : length q = find_one q + S (length t)).
        { rewrite Ht at 1. rewrite app_length, repeat_length. reflexivity. }
        exists (S (length t)). split; [lia|].
        assert (find_one q <> 0) by (unfold q; cbn; lia).
        split; [lia|]. rewrite Es in F. cbn [length repeat] in F. cbn [repeat]. rewrite <- F.
        replace (k - S (length t)) with (find_one q) by lia. exact Ht.
      * intros (i & Hi & Hik & Eq). destruct i as [|i]; [lia|].
        assert (Ef : find_one q = k - S i). { rewrite Eq. cbn [repeat]. apply find_one_run. }
        rewrite Ef. rewrite Eq. rewrite skipn_app, skipn_all2 by (rewrite repeat_length; lia).
        rewrite repeat_length, Nat.sub_diag. cbn [skipn app]. now rewrite repeat_length.
Qed.

(** * The path *)

Lemma length_path k m : 0 < k -> length (long_path k m) + (k - 1) = k * 2 ^ m.
Proof.
  intros Hk. induction m as [|m IH]; [cbn; lia|].
  cbn [long_path]. rewrite !app_length, !map_length, seq_length, rev_length.
  cbn [Nat.pow]. lia.
Qed.

Lemma path_pos k m : 0 < length (long_path k m).
Proof.
  induction m; [cbn; lia|]. cbn [long_path]. rewrite app_length, map_length. lia.
Qed.

Lemma last_nth_error {A} (l : list A) d : l <> [] -> nth_error l (length l - 1) = Some (last l d).
Proof.
  intros H. rewrite (nth_error_nth' l d); [|destruct l; [congruence|cbn; lia]].
  f_equal. clear H. induction l as [|a [|b l] IH]; [reflexivity|reflexivity|].
  change (last (a :: b :: l) d) with (last (b :: l) d). rewrite <- IH. cbn [length nth Nat.sub].
  now rewrite Nat.sub_0_r.
Qed.

Lemma rev_nth_error {A} (l : list A) i : i < length l -> nth_error (rev l) i = nth_error l (length l - 1 - i).
Proof.
  intros H. destruct l as [|a l]; [cbn in H; lia|]. set (L := a :: l) in *.
  rewrite (nth_error_nth' (rev L) a) by (rewrite rev_length; lia).
  rewrite (nth_error_nth' L a) by lia. rewrite rev_nth by lia. f_equal. f_equal. lia.
Qed.

Definition at_index (k m : nat) (x : list bool) (j : nat) : Prop := nth_error (long_path k m) j = Some x.

Lemma path_length_points k m x : 0 < k -> In x (long_path k m) -> length x = m * k.
Proof.
  intros Hk. revert x; induction m as [|m IH]; intros x H.
  - destruct H as [<-|[]]. reflexivity.
  - cbn [long_path] in H. rewrite !in_app_iff, !in_map_iff in H.
    assert (Hl : length (last (long_path k m) []) = m * k).
    { apply IH. pose proof (path_pos k m). apply (nth_error_In _ (length (long_path k m) - 1)).
      apply last_nth_error. intros E. rewrite E in H0. cbn in H0. lia. }
    destruct H as [(y & <- & Hy)|[(i & <- & Hi)|(y & <- & Hy)]].
    + rewrite app_length, repeat_length, (IH y Hy). cbn. lia.
    + rewrite !app_length, !repeat_length, Hl. rewrite in_seq in Hi. cbn. lia.
    + rewrite app_length, repeat_length, (IH y); [cbn; lia|]. now apply in_rev.
Qed.

Lemma at_index_succ k m p s j : 0 < k -> length p = k ->
  at_index k (S m) (p ++ s) j <->
  (p = repeat false k /\ at_index k m s j) \/
  (exists i, 1 <= i /\ i < k /\ p = repeat false (k - i) ++ repeat true i /\
     at_index k m s (length (long_path k m) - 1) /\ j = length (long_path k m) + i - 1) \/
  (p = repeat true k /\ exists j', at_index k m s j' /\
     j = length (long_path k m) + (k - 1) + (length (long_path k m) - 1 - j')).
Proof.
  intros Hk Hp. unfold at_index. cbn [long_path]. set (P := long_path k m).
  assert (HP : 0 < length P) by apply path_pos.
  assert (HPn : P <> []) by (intros E; rewrite E in HP; cbn in HP; lia).
  assert (Hlast := last_nth_error P [] HPn).
  assert (SP : forall q t, length q = k -> p ++ s = q ++ t <-> p = q /\ s = t).
  { intros q t Hq. split; [intros E; apply app_inj_len in E; [auto|lia]|intros [-> ->]; reflexivity]. }
  destruct (Nat.lt_ge_cases j (length P)) as [H1|H1].
  { (* front *)
    rewrite nth_error_app1 by (rewrite map_length; lia).
    rewrite nth_error_map. destruct (nth_error P j) as [y|] eqn:E; [|apply nth_error_None in E; lia].
    cbn [option_map]. split.
    - intros F. apply Some_inj in F. symmetry in F. apply SP in F; [|apply repeat_length]. left. destruct F as [-> ->]. auto.
    - intros [[-> F]|[(i & Hi & Hi' & _ & _ & Ej)|(_ & j' & F & Ej)]].
      + congruence.
      + lia.
      + lia. }
  rewrite nth_error_app2 by (rewrite map_length; lia). rewrite map_length.
  destruct (Nat.lt_ge_cases (j - length P) (k - 1)) as [H2|H2].
  { rewrite nth_error_app1 by (rewrite map_length, seq_length; lia).
    rewrite nth_error_map. rewrite (nth_error_nth' (seq 1 (k - 1)) 0) by (rewrite seq_length; lia).
    rewrite seq_nth by lia. cbn [option_map]. set (i := 1 + (j - length P)).
    rewrite app_assoc. split.
    - intros F. apply Some_inj in F. symmetry in F. apply SP in F; [|rewrite app_length, !repeat_length; unfold i; lia].
      right. left. exists i. destruct F as [-> ->]. repeat split; try (unfold i; lia). exact Hlast.
    - intros [[-> F]|[(i' & Hi & Hi' & Ep & F & Ej)|(_ & j' & F & Ej)]].
      + assert (j < length P) by (apply nth_error_Some; congruence). lia.
      + assert (i = i') by (unfold i; lia). subst i'. rewrite <- Ep. f_equal. f_equal. congruence.
      + assert (j' < length P) by (apply nth_error_Some; congruence). lia. }
  rewrite nth_error_app2 by (rewrite map_length, seq_length; lia). rewrite map_length, seq_length.
  rewrite nth_error_map. split.
  - destruct (nth_error (rev P) (j - length P - (k - 1))) as [y|] eqn:E; [|discriminate].
    intros F. apply Some_inj in F. symmetry in F. apply SP in F; [|apply repeat_length]. destruct F as [-> ->].
    assert (B : j - length P - (k - 1) < length P).
    { pose proof (rev_length P) as RL. assert (j - length P - (k - 1) < length (rev P)) by (apply nth_error_Some; congruence). lia. }
    right. right. split; [reflexivity|]. exists (length P - 1 - (j - length P - (k - 1))). split; [|lia].
    rewrite <- rev_nth_error by assumption. exact E.
  - intros [[-> F]|[(i' & Hi & Hi' & Ep & F & Ej)|(-> & j' & F & Ej)]].
    + assert (j < length P) by (apply nth_error_Some; congruence). lia.
    + lia.
    + assert (j' < length P) by (apply nth_error_Some; congruence).
      rewrite rev_nth_error by lia. replace (length P - 1 - (j - length P - (k - 1))) with j' by lia.
      rewrite F. reflexivity.
Qed.

Lemma suffix_path_length_eq k m : 0 < k -> suffix_path_length (m * k) k = Z.of_nat (length (long_path k m)).
Proof.
  intros Hk. unfold suffix_path_length. rewrite Nat.div_mul by lia.
  pose proof (length_path k m Hk) as H. apply (f_equal Z.of_nat) in H.
  rewrite Nat2Z.inj_add, Nat2Z.inj_mul, Nat2Z.inj_pow in H. lia.
Qed.

Lemma repeat_bool_neq k i : 1 <= i -> i < k -> repeat false (k - i) ++ repeat true i <> repeat false k /\
  repeat false (k - i) ++ repeat true i <> repeat true k /\ repeat false k <> repeat true k.
Proof.
  intros H1 H2. repeat split; intros E.
  - apply (f_equal weight) in E. rewrite weight_app, weight_ones, !weight_zeros in E. lia.
  - apply (f_equal weight) in E. rewrite weight_app, !weight_ones, !weight_zeros in E. lia.
  - apply (f_equal weight) in E. rewrite weight_ones, weight_zeros in E. lia.
Qed.

Lemma repeat_neq k : 0 < k -> repeat false k <> repeat true k.
Proof. intros H E. apply (f_equal weight) in E. rewrite weight_ones, weight_zeros in E. lia. Qed.

Lemma compute_index_spec k m x fuel : 0 < k -> length x = m * k -> m * k <= fuel ->
  (exists j, compute_index fuel x k = Ok (Z.of_nat j) /\ forall j', at_index k m x j' <-> j' = j) \/
  (compute_index fuel x k = Ok (-1)%Z /\ forall j, ~ at_index k m x j).
Proof.
  intros Hk. revert x fuel; induction m as [|m IH]; intros x fuel Hx Hf.
  - destruct x; [|discriminate]. left. exists 0. split; [destruct fuel; reflexivity|].
    intros j'. unfold at_index. cbn. destruct j' as [|[|]]; cbn; split; intros; auto; discriminate.
  - assert (Lp : length (firstn k x) = k) by (rewrite firstn_length_le; cbn in Hx; lia).
    assert (Ls : length (skipn k x) = m * k) by (rewrite skipn_length; cbn in Hx; lia).
    destruct fuel as [|fuel]; [cbn in Hf; lia|].
    assert (Hx0 : x <> []) by (intros E; rewrite E in Hx; cbn in Hx; lia).
    assert (U : compute_index (S fuel) x k =
      (if forallb negb (firstn k x) then compute_index fuel (skipn k x) k
       else b <- is_bridge (firstn k x) ;;
        if (b : bool) then
          let path_length := suffix_path_length (length (skipn k x)) k in
          idx <- compute_index fuel (skipn k x) k ;;
          if (idx =? path_length - 1)%Z then
            Ok (path_length + (Z.of_nat k - Z.of_nat (find_one (firstn k x))) - 1)%Z
          else Ok (-1)%Z
        else if forallb (fun b => b) (firstn k x) then
          index <- compute_index fuel (skipn k x) k ;;
          if (index <? 0)%Z then Ok (-1)%Z
          else
            let path_length := suffix_path_length (length (skipn k x)) k in
            Ok (path_length + (Z.of_nat k - 1) + (path_length - 1) - index)%Z
        else Ok (-1)%Z)).
    { destruct x; [congruence|]. cbn [compute_index].
      destruct (Nat.leb_spec k (length (b :: x))); [reflexivity|lia]. }
    rewrite U. clear U. rewrite Ls, suffix_path_length_eq by assumption. cbn zeta.
    assert (Ex : x = firstn k x ++ skipn k x) by (symmetry; apply firstn_skipn).
    set (p := firstn k x) in *. set (s := skipn k x) in *. rewrite Ex. clear Ex.
    set (P := long_path k m) in *. assert (HP : 0 < length P) by apply path_pos.
    assert (IHs := IH s fuel Ls ltac:(cbn in Hf; lia)). clear IH.
    assert (AB : forall j, at_index k m s j -> j < length P).
    { intros j F. apply nth_error_Some. unfold at_index in F. fold P in F. congruence. }
    assert (SUCC := fun j => at_index_succ k m p s j Hk Lp). fold P in SUCC.
    destruct (forallb negb p) eqn:F0.
    { apply forallb_negb_zero in F0. rewrite Lp in F0.
      assert (S' : forall j, at_index k (S m) (p ++ s) j <-> at_index k m s j).
      { intros j. rewrite SUCC. split; [|auto]. intros [[_ H]|[(i & Hi & Hi' & Ep & _)|(Ep & _)]]; [assumption| |].
        - exfalso. rewrite F0 in Ep. destruct (repeat_bool_neq k i Hi Hi') as [N _]. now apply N.
        - exfalso. rewrite F0 in Ep. now apply (repeat_neq k). }
      destruct IHs as [(j & E & H)|[E H]]; [left; exists j|right]; split; try assumption.
      - intros j'. now rewrite S'.
      - intros j. rewrite S'. apply H. }
    assert (N0 : p <> repeat false k).
    { intros E. assert (forallb negb p = true); [|congruence]. apply forallb_negb_zero. now rewrite Lp. }
    destruct (is_bridge_spec p k Lp Hk) as (b & -> & Hb). cbn [bind]. destruct b.
    { destruct (proj1 Hb eq_refl) as (i & Hi & Hi' & Ep).
      assert (Ef : find_one p = k - i).
      { rewrite Ep. destruct i as [|i]; [lia|]. cbn [repeat]. apply find_one_run. }
      rewrite Ef.
      assert (S' : forall j, at_index k (S m) (p ++ s) j <-> at_index k m s (length P - 1) /\ j = length P + i - 1).
      { intros j. rewrite SUCC. split.
        - intros [[Q _]|[(i' & Hj & Hj' & Ep' & A & B)|(Q & _)]]; [contradiction| |].
          + assert (i' = i). { rewrite Ep in Ep'. apply (f_equal weight) in Ep'. rewrite !weight_app, !weight_ones, !weight_zeros in Ep'. lia. }
            subst i'. auto.
          + exfalso. rewrite Ep in Q. destruct (repeat_bool_neq k i Hi Hi') as [_ [N _]]. now apply N.
        - intros [A B]. right. left. exists i. auto. }
      destruct IHs as [(j & E & H)|[E H]]; rewrite E; cbn [bind].
      - destruct (Z.eqb_spec (Z.of_nat j) (Z.of_nat (length P) - 1)) as [Q|Q].
        + left. exists (length P + i - 1). split; [f_equal; lia|]. intros j'. rewrite S'.
          split; [intros [_ ->]; reflexivity|intros ->; split; [apply H; lia|reflexivity]].
        + right. split; [reflexivity|]. intros j'. rewrite S'. intros [A _]. apply H in A. lia.
      - right. destruct (Z.eqb_spec (-1) (Z.of_nat (length P) - 1)); [lia|]. split; [reflexivity|].
        intros j. rewrite S'. intros [A _]. now apply H in A. }
    assert (NB : forall i, 1 <= i -> i < k -> p <> repeat false (k - i) ++ repeat true i).
    { intros i H1 H2 E. assert (false = true); [|discriminate]. apply Hb. eauto. }
    destruct (forallb (fun b => b) p) eqn:F1.
    { apply forallb_id_ones in F1. rewrite Lp in F1.
      assert (S' : forall j, at_index k (S m) (p ++ s) j <-> exists j', at_index k m s j' /\ j = length P + (k - 1) + (length P - 1 - j')).
      { intros j. rewrite SUCC. split; [|auto].
        intros [[Q _]|[(i & Hi & Hi' & Ep & _)|(_ & Q)]]; [contradiction| |assumption].
        exfalso. now apply (NB i) in Ep. }
      destruct IHs as [(j & E & H)|[E H]]; rewrite E; cbn [bind].
      - destruct (Z.ltb_spec (Z.of_nat j) 0); [lia|].
        assert (Hj : j < length P) by (apply AB, H; reflexivity).
        left. exists (length P + (k - 1) + (length P - 1 - j)). split; [f_equal; lia|].
        intros j'. rewrite S'. split.
        + intros (j0 & A & ->). apply H in A. now rewrite A.
        + intros ->. exists j. split; [now apply H|reflexivity].
      - right. split; [reflexivity|]. intros j. rewrite S'. intros (j' & A & _). now apply H in A. }
    right. split; [reflexivity|]. intros j. rewrite SUCC.
    intros [[Q _]|[(i & Hi & Hi' & Ep & _)|(Q & _)]]; [contradiction|now apply (NB i) in Ep|].
    assert (forallb (fun b => b) p = true); [|congruence]. apply forallb_id_ones. now rewrite Lp.
Qed.

(** * Statements about the path *)

Theorem path_NoDup k m : 0 < k -> NoDup (long_path k m).
Proof.
  intros Hk. apply NoDup_nth_error. intros i j Hi E.
  destruct (nth_error (long_path k m) i) as [x|] eqn:F; [|apply nth_error_None in F; lia].
  assert (Hx : length x = m * k). { apply (path_length_points k); [assumption|]. now apply (nth_error_In _ i). }
  destruct (compute_index_spec k m x (m * k) Hk Hx (Nat.le_refl _)) as [(q & _ & H)|[_ H]].
  - assert (i = q) by (apply H; exact F). assert (j = q) by (apply H; symmetry; exact E). congruence.
  - now apply H in F.
Qed.

Lemma distance_app a b c d : length a = length c -> distance (a ++ b) (c ++ d) = distance a c + distance b d.
Proof.
  intros H. unfold distance. rewrite map2_app by assumption. apply weight_app.
Qed.

Lemma distance_refl x : distance x x = 0.
Proof.
  unfold distance. induction x as [|b x IH]; [reflexivity|]. cbn [map2]. rewrite weight_cons, IH. destruct b; reflexivity.
Qed.

Lemma distance_sym x y : distance x y = distance y x.
Proof.
  unfold distance. f_equal. revert y; induction x as [|a x IH]; intros [|b y]; cbn; auto. rewrite IH. f_equal. apply xorb_comm.
Qed.

Lemma distance_runs k i : i < k ->
  distance (repeat false (k - i) ++ repeat true i) (repeat false (k - S i) ++ repeat true (S i)) = 1.
Proof.
  intros H. replace (k - i) with ((k - S i) + 1) by lia. rewrite repeat_app, <- app_assoc.
  rewrite distance_app by reflexivity. rewrite distance_refl. cbn [repeat app].
  change (false :: repeat true i) with ([false] ++ repeat true i).
  change (true :: repeat true i) with ([true] ++ repeat true i).
  rewrite distance_app by reflexivity. rewrite distance_refl. reflexivity.
Qed.

Theorem path_adjacent k m j x y : 0 < k -> nth_error (long_path k m) j = Some x ->
  nth_error (long_path k m) (S j) = Some y -> distance x y = 1.
Proof.
  intros Hk. revert j x y; induction m as [|m IH]; intros j x y Hx Hy.
  - cbn in Hy. destruct j; discriminate.
  - assert (Lx : length x = S m * k) by (apply (path_length_points k); [assumption|eapply nth_error_In; exact Hx]).
    assert (Ly : length y = S m * k) by (apply (path_length_points k); [assumption|eapply nth_error_In; exact Hy]).
    assert (Lp : length (firstn k x) = k) by (rewrite firstn_length_le; cbn in Lx; lia).
    assert (Lq : length (firstn k y) = k) by (rewrite firstn_length_le; cbn in Ly; lia).
    rewrite <- (firstn_skipn k x) in Hx |- *. rewrite <- (firstn_skipn k y) in Hy |- *.
    apply (at_index_succ k m _ _ j Hk Lp) in Hx. apply (at_index_succ k m _ _ (S j) Hk Lq) in Hy.
    rewrite distance_app by lia.
    set (p := firstn k x) in *. set (q := firstn k y) in *. set (s := skipn k x) in *. set (t := skipn k y) in *.
    set (P := long_path k m) in *. assert (HP : 0 < length P) by apply path_pos.
    assert (AB : forall s j, at_index k m s j -> j < length P).
    { intros s' j' F. apply nth_error_Some. unfold at_index in F. fold P in F. congruence. }
    assert (R0 : forall i, i = 0 -> repeat false k = repeat false (k - i) ++ repeat true i).
    { intros i ->. now rewrite Nat.sub_0_r, app_nil_r. }
    assert (R1 : forall i, i = k -> repeat true k = repeat false (k - i) ++ repeat true i).
    { intros i ->. now rewrite Nat.sub_diag. }
    assert (EQ : forall u v j, at_index k m u j -> at_index k m v j -> u = v) by (unfold at_index; congruence).
    destruct Hx as [[Ep Hx]|[(i & Hi & Hi' & Ep & Hx & Ej)|(Ep & j' & Hx & Ej)]];
    destruct Hy as [[Eq Hy]|[(i2 & Hi2 & Hi2' & Eq & Hy & Ej2)|(Eq & j2 & Hy & Ej2)]].
    + rewrite Ep, Eq, distance_refl. now apply (IH j).
    + apply AB in Hx as Hj. assert (j = length P - 1) by lia. assert (i2 = 1) by lia. subst i2.
      rewrite Ep, Eq, (R0 0 eq_refl), distance_runs by lia. rewrite (EQ s t j), distance_refl; [reflexivity|assumption|].
      subst j. assumption.
    + apply AB in Hx as Hj. apply AB in Hy as Hj2. assert (k = 1) by lia. assert (j = length P - 1) by lia.
      assert (j2 = j) by lia. subst j2.
      rewrite Ep, Eq, (EQ s t j), distance_refl by assumption. rewrite H. reflexivity.
    + apply AB in Hy. lia.
    + assert (i2 = S i) by lia. subst i2. rewrite Ep, Eq, distance_runs by lia.
      rewrite (EQ s t (length P - 1)), distance_refl by assumption. reflexivity.
    + apply AB in Hy as Hj2. assert (S i = k) by lia. assert (j2 = length P - 1) by lia.
      rewrite Ep, Eq, (R1 (S i)), distance_runs by lia.
      rewrite (EQ s t (length P - 1)), distance_refl; [reflexivity|assumption|]. congruence.
    + apply AB in Hy. lia.
    + apply AB in Hx. lia.
    + apply AB in Hx as Hj. apply AB in Hy as Hj2. assert (j' = S j2) by lia. subst j'.
      rewrite Ep, Eq, distance_refl. rewrite distance_sym. now apply (IH j2).
Qed.

Lemma path_first k m : 0 < k -> at_index k m (repeat false (m * k)) 0.
Proof.
  intros Hk. induction m as [|m IH]; [reflexivity|].
  change (S m * k) with (k + m * k). rewrite repeat_app.
  apply at_index_succ; [assumption|apply repeat_length|]. left. auto.
Qed.

Lemma path_last k m : 0 < k -> at_index k (S m) (repeat true k ++ repeat false (m * k)) (length (long_path k (S m)) - 1).
Proof.
  intros Hk. apply at_index_succ; [assumption|apply repeat_length|]. right. right. split; [reflexivity|].
  exists 0. split; [now apply path_first|].
  cbn [long_path]. rewrite !app_length, !map_length, seq_length, rev_length.
  pose proof (path_pos k m). lia.
Qed.

Lemma make_blocks n k : longpath_make n k = Ok tt -> 2 <= k /\ exists m, n = S m * k.
Proof.
  unfold longpath_make. destruct (Nat.ltb_spec 0 n) as [Hn|]; [|discriminate].
  destruct (Nat.ltb_spec 0 k) as [Hk|]; [|discriminate]. cbn [assertb bind].
  destruct (Nat.eqb_spec (n mod k) 0) as [E|]; [|discriminate]. cbn [negb].
  destruct (Nat.ltb_spec k 2); [discriminate|]. intros _. split; [assumption|].
  apply Nat.mod_divides in E; [|lia]. destruct E as [c Hc]. destruct c as [|c]; [lia|]. exists c. lia.
Qed.

Theorem longpath_value n k : longpath_make n k = Ok tt ->
  (forall i x, nth_error (long_path k (n / k)) i = Some x -> longpath_evaluate n k x = Ok (Z.of_nat i + 1)%Z) /\
  (forall x, length x = n -> ~ In x (long_path k (n / k)) ->
     longpath_evaluate n k x =
       Ok (- (Z.of_nat n * Z.of_nat (weight (firstn k x)) + Z.of_nat (weight (skipn k x))))%Z).
Proof.
  intros Hm. apply make_blocks in Hm. destruct Hm as (Hk & m & En).
  assert (Ed : n / k = S m) by (rewrite En, Nat.div_mul; lia). rewrite Ed.
  assert (C : forall x, length x = n -> (exists j, longpath_evaluate n k x = Ok (Z.of_nat j + 1)%Z /\ forall j', at_index k (S m) x j' <-> j' = j) \/
     (longpath_evaluate n k x = Ok (- (Z.of_nat n * Z.of_nat (weight (firstn k x)) + Z.of_nat (weight (skipn k x))))%Z /\ forall j, ~ at_index k (S m) x j)).
  { intros x Hx. unfold longpath_evaluate. rewrite Hx, Nat.eqb_refl. cbn [assertb bind].
    destruct (compute_index_spec k (S m) x n) as [(j & -> & H)|[-> H]]; [lia|lia|lia| |]; cbn [bind].
    - left. exists j. destruct (Z.ltb_spec (Z.of_nat j) 0); [lia|]. auto.
    - right. cbn [Z.ltb]. rewrite !bv_hamming_weight_spec. auto. }
  split.
  - intros i x H. assert (Hx : length x = n).
    { rewrite En. apply (path_length_points k); [lia|eapply nth_error_In; exact H]. }
    destruct (C x Hx) as [(j & -> & Hj)|[_ Hj]].
    + apply Hj in H. now subst.
    + now apply Hj in H.
  - intros x Hx N. destruct (C x Hx) as [(j & _ & Hj)|[-> _]]; [|reflexivity].
    exfalso. apply N. eapply nth_error_In. apply Hj. reflexivity.
Qed.

Theorem longpath_max n k : longpath_make n k = Ok tt ->
  let v := (Z.of_nat k * 2 ^ Z.of_nat (n / k) - Z.of_nat k + 1)%Z in
  is_maximum n (longpath_evaluate n k) v /\
  maximizers n (longpath_evaluate n k) v [repeat true k ++ repeat false (n - k)] /\
  longpath_maximum n k = (if longpath_has_known_maximum n k then Ok v else Throw RuntimeError).
Proof.
  intros Hm v. assert (V := longpath_value n k Hm). apply make_blocks in Hm. destruct Hm as (Hk & m & En).
  assert (Ed : n / k = S m) by (rewrite En, Nat.div_mul; lia). rewrite Ed in V.
  assert (Ev : v = Z.of_nat (length (long_path k (S m)))).
  { unfold v. rewrite Ed. pose proof (length_path k (S m) ltac:(lia)) as H. apply (f_equal Z.of_nat) in H.
    rewrite Nat2Z.inj_add, Nat2Z.inj_mul, Nat2Z.inj_pow in H. lia. }
  assert (LP := path_last k m ltac:(lia)). replace (n - k) with (m * k) by (rewrite En; cbn; lia).
  assert (PP := path_pos k (S m)).
  set (top := repeat true k ++ repeat false (m * k)) in *.
  assert (Et : longpath_evaluate n k top = Ok v).
  { destruct V as [V _]. rewrite (V _ _ LP). f_equal. lia. }
  assert (C : forall x, length x = n -> x = top \/ exists r, longpath_evaluate n k x = Ok r /\ (r < v)%Z).
  { intros x Hx. destruct V as [V1 V2].
    destruct (compute_index_spec k (S m) x n) as [(j & _ & Hj)|[_ Hj]]; [lia|lia|lia| |].
    - assert (F : at_index k (S m) x j) by (apply Hj; reflexivity).
      assert (B : j < length (long_path k (S m))) by (apply nth_error_Some; unfold at_index in F; congruence).
      destruct (Nat.eq_dec j (length (long_path k (S m)) - 1)) as [->|].
      + left. unfold at_index in *. congruence.
      + right. rewrite (V1 _ _ F). eexists. split; [reflexivity|]. lia.
    - right. rewrite V2; [|assumption|].
      + eexists. split; [reflexivity|]. lia.
      + intros I. apply In_nth_error in I. destruct I as [j F]. now apply Hj in F. }
  split; [split|split].
  - intros x Hx. destruct (C x Hx) as [->|(r & -> & Hr)]; [rewrite Et|]; eexists; (split; [reflexivity|lia]).
  - exists top. split; [|assumption]. unfold top. rewrite app_length, !repeat_length. rewrite En. cbn. lia.
  - intros x Hx. split; [|intros [<-|[]]; exact Et].
    intros E. left. destruct (C x Hx) as [->|(r & E' & Hr)]; [reflexivity|]. rewrite E in E'. apply Ok_inj in E'. lia.
  - unfold longpath_maximum. reflexivity.
Qed.

Theorem longpath_structure n k : longpath_make n k = Ok tt ->
  let P := long_path k (n / k) in
  length P = k * 2 ^ (n / k) - k + 1 /\
  NoDup P /\ Forall (fun x => length x = n) P /\
  (forall i x y, nth_error P i = Some x -> nth_error P (S i) = Some y -> distance x y = 1) /\
  nth_error P 0 = Some (repeat false n).
Proof.
  intros Hm P. apply make_blocks in Hm. destruct Hm as (Hk & m & En).
  assert (Ed : n / k = S m) by (rewrite En, Nat.div_mul; lia). unfold P. rewrite Ed.
  split; [|split; [|split; [|split]]].
  - pose proof (length_path k (S m) ltac:(lia)). pose proof (path_pos k (S m)). lia.
  - apply path_NoDup. lia.
  - apply Forall_forall. intros x H. rewrite En. apply (path_length_points k); [lia|assumption].
  - intros i x y. apply path_adjacent. lia.
  - rewrite En. apply path_first. lia.
Qed.

Theorem longpath_off_path n k x y : longpath_make n k = Ok tt -> length x = n -> 
  ~ In x (long_path k (n / k)) -> In y (long_path k (n / k)) ->
  exists a b, longpath_evaluate n k x = Ok a /\ longpath_evaluate n k y = Ok b /\ (a < b)%Z.
Proof.
  intros Hm Hx Nx Iy. destruct (longpath_value n k Hm) as [V1 V2]. apply In_nth_error in Iy. destruct Iy as [j Hj].
  rewrite (V2 x Hx Nx), (V1 _ _ Hj). eexists. eexists. split; [reflexivity|]. split; [reflexivity|]. lia.
Qed.
