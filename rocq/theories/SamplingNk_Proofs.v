(** Proofs about the distribution of the neighbors in NK landscapes. *)

From Coq Require Import QArith Sorted Permutation Lqa.
From Verif Require Import Base BaseLemmas BitVector_Model GF2 SortedLemmas Collection_Model Nk_Proofs Sampling_Spec Sampling_Proofs.
Local Open Scope nat_scope.

Lemma grid_range N q : In q (grid N) -> (0 <= q < 1)%Q.
Proof.
  unfold grid. rewrite in_map_iff. intros (j & <- & H). apply in_seq in H. unfold Qle, Qlt. cbn [Qnum Qden].
  assert (Z.pos (Pos.of_nat N) = Z.of_nat N) by (rewrite <- (Nat2Pos.id N) at 2 by lia; now rewrite positive_nat_Z). lia.
Qed.
Lemma drawn_range N us L : In us (sequences (grid N) L) -> forall i, (0 <= drawn us i < 1)%Q.
Proof.
  intros H i. apply in_sequences in H as [_ H]. unfold drawn. destruct (Nat.ltb_spec i (length us)).
  - apply (grid_range N). rewrite Forall_forall in H. apply H. now apply nth_In.
  - rewrite nth_overflow by lia. lra.
Qed.

Lemma sample_neighbors_ext i m : forall j u v row a b, (forall x, j <= x -> u x = v x) -> sample_neighbors i (seq j m) u row a b = sample_neighbors i (seq j m) v row a b.
Proof.
  induction m as [|m IH]; intros j u v row a b H; [reflexivity|]. cbn [seq sample_neighbors]. rewrite (H j) by lia.
  rewrite (IH (S j) u v row a b), (IH (S j) u v row a (b - 1)) by (intros; apply H; lia).
  destruct (a =? 0); [reflexivity|]. destruct (j =? i); [reflexivity|]. destruct (assertb _); cbn [bind]; auto. destruct (negb _); [|reflexivity].
  destruct (vset row (a - 1) j); cbn [bind]; auto. apply IH. intros; apply H; lia.
Qed.

Definition row_dec : forall a b : list nat * nat, {a = b} + {a <> b}.
Proof. repeat decide equality. Defined.

Lemma ratio_frac a b u : 0 < b -> Qle_bool (inject_Z (Z.of_nat a) / inject_Z (Z.of_nat b)) u = Qle_bool (Qmake (Z.of_nat a) (Pos.of_nat b)) u.
Proof.
  intros H. assert (E : (inject_Z (Z.of_nat a) / inject_Z (Z.of_nat b) == Qmake (Z.of_nat a) (Pos.of_nat b))%Q).
  { rewrite (Qmake_Qdiv (Z.of_nat a)). rewrite <- (positive_nat_Z (Pos.of_nat b)), Nat2Pos.id by lia. reflexivity. }
  destruct (Qle_bool (inject_Z _ / _) u) eqn:X, (Qle_bool (Qmake _ _) u) eqn:Y; auto; exfalso.
  - apply Qle_bool_iff in X. rewrite E in X. apply Qle_bool_iff in X. congruence.
  - apply Qle_bool_iff in Y. rewrite <- E in Y. apply Qle_bool_iff in Y. congruence.
Qed.

Lemma other_seq i m : forall j, other i (seq j (S m)) = (if j =? i then [] else [j]) ++ other i (seq (S j) m).
Proof. intros j. unfold other. cbn [seq filter]. destruct (j =? i); reflexivity. Qed.

Lemma returned_eq {A} (d : forall a b : A, {a = b} + {a <> b}) (o : outcome A) a : returned d o a = true <-> o = Ok a.
Proof.
  unfold returned. destruct o as [b|e|]; [|split; discriminate..]. destruct (d b a) as [->|E]; [tauto|]. split; [discriminate|]. intros H. injection H as H. contradiction.
Qed.
Lemma returned_neq {A} (d : forall a b : A, {a = b} + {a <> b}) (o : outcome A) a : o <> Ok a -> returned d o a = false.
Proof. intros H. destruct (returned d o a) eqn:E; [|reflexivity]. apply returned_eq in E. contradiction. Qed.

Lemma neighbors_count N i m : forall j L row l, fine N (len (other i (seq j m))) -> m <= L -> increasing l -> (forall x, In x l -> j <= x < j + m /\ x <> i) -> length l <= length row ->
  tally (fun us => returned row_dec (sample_neighbors i (seq j m) (fun x => drawn us (x - j)) row (length l) (len (other i (seq j m)))) (rev l ++ skipn (length l) row, 0))
    (sequences (grid N) L) * binom (len (other i (seq j m))) (length l) = N ^ L.
Proof.
  assert (Z0 : forall j m L row, tally (fun us => returned row_dec (sample_neighbors i (seq j m) (fun x => drawn us (x - j)) row 0 (len (other i (seq j m)))) (row, 0)) (sequences (grid N) L) = N ^ L).
  { intros j0 m0 L row. rewrite (tally_ext _ (fun _ => true)); [now rewrite tally_true, sequences_length, grid_length|].
    intros us _. apply returned_eq. destruct m0; reflexivity. }
  induction m as [|m IH]; intros j L row l HF HL HS HI HR.
  - destruct l as [|x l]; [|destruct (HI x); [now left|lia]]. rewrite binom_0, Nat.mul_1_r. apply Z0.
  - destruct (Nat.eq_dec (length l) 0) as [L0|L0].
    { destruct l; [|discriminate]. rewrite binom_0, Nat.mul_1_r. apply Z0. }
    destruct L as [|L]; [lia|]. destruct (Nat.eq_dec j i) as [->|NE].
    + rewrite other_seq in *. rewrite Nat.eqb_refl in *. cbn [app] in *.
      assert (HI' : forall x, In x l -> S i <= x < S i + m /\ x <> i) by (intros x Hx; specialize (HI x Hx); lia).
      rewrite (tally_skip _ (fun s => returned row_dec (sample_neighbors i (seq (S i) m) (fun x => drawn s (x - S i)) row (length l) (len (other i (seq (S i) m)))) (rev l ++ skipn (length l) row, 0))).
      * rewrite grid_length. specialize (IH (S i) L row l HF ltac:(lia) HS HI' HR). cbn [Nat.pow]. rewrite <- IH. ring.
      * intros a s _. cbn [seq sample_neighbors]. destruct (Nat.eqb_spec (length l) 0); [lia|]. rewrite Nat.eqb_refl.
        rewrite (sample_neighbors_ext i m (S i) (fun x => drawn (a :: s) (x - i)) (fun x => drawn s (x - S i))); [reflexivity|].
        intros x Hx. unfold drawn. replace (x - i) with (S (x - S i)) by lia. reflexivity.
    + rewrite other_seq in *. destruct (Nat.eqb_spec j i) as [|_]; [contradiction|]. cbn [app length] in *. set (b := len (other i (seq (S j) m))) in *.
      assert (incl l (j :: other i (seq (S j) m))) as IC.
      { intros x Hx. specialize (HI x Hx). destruct (Nat.eq_dec x j); [now left|]. right. apply filter_In. split; [apply in_seq; lia|]. destruct (Nat.eqb_spec x i); [lia|reflexivity]. }
      assert (HB : length l <= S b).
      { apply NoDup_incl_length in IC; [exact IC|]. now apply increasing_NoDup. }
      destruct HF as [HN HF]. destruct (HF (S b)) as [q Hq]; [lia|].
      set (inside := match l with x :: _ => x =? j | [] => false end). set (a := length l) in *.
      set (p := Qmake (Z.of_nat a) (Pos.of_nat (S b))).
      rewrite (tally_choice (fun u => negb (Qle_bool p u)) _
        (fun s => if inside then returned row_dec (sample_neighbors i (seq (S j) m) (fun x => drawn s (x - S j)) (upd row (a - 1) j) (a - 1) b) (rev (tl l) ++ skipn (a - 1) (upd row (a - 1) j), 0) else false)
        (fun s => if inside then false else returned row_dec (sample_neighbors i (seq (S j) m) (fun x => drawn s (x - S j)) row a b) (rev l ++ skipn a row, 0))).
      2:{ intros u s Hu Hs. cbn [seq sample_neighbors]. destruct (Nat.eqb_spec a 0); [lia|]. destruct (Nat.eqb_spec j i); [lia|].
          destruct (Nat.leb_spec a (S b)); [|lia]. cbn [assertb bind]. rewrite Nat.sub_diag. change (drawn (u :: s) 0) with u. rewrite ratio_frac by lia. fold p.
          rewrite vset_Ok by lia. cbn [bind]. replace (S b - 1) with b by lia.
          rewrite !(sample_neighbors_ext i m (S j) (fun x => drawn (u :: s) (x - j)) (fun x => drawn s (x - S j))).
          2,3: intros x Hx; unfold drawn; replace (x - j) with (S (x - S j)) by lia; reflexivity.
          pose proof (drawn_range N s L Hs) as UR. unfold inside. destruct (negb _) eqn:EP.
          - destruct l as [|x l]; [cbn in *; lia|]. destruct (Nat.eqb_spec x j) as [->|XJ].
            + cbn [tl]. rewrite skipn_upd by lia. replace (a - 1 + 1) with a by lia. cbn [rev]. rewrite <- app_assoc. reflexivity.
            + apply returned_neq. intros E.
              destruct (sample_Ok i (fun x => drawn s (x - S j)) ltac:(intros; apply UR) (seq (S j) m) (upd row (a - 1) j) (a - 1)) as (c & E' & Lc & _ & _); [apply seq_NoDup|rewrite length_upd; lia|fold b; lia|].
              fold b in E'. rewrite E in E'. apply (f_equal (fun o => match o with Ok r => fst r | _ => [] end)) in E'. cbn [fst] in E'. rewrite skipn_upd in E' by lia. replace (a - 1 + 1) with a in E' by lia.
              change (c ++ j :: skipn a row) with (c ++ [j] ++ skipn a row) in E'. rewrite app_assoc in E'. apply app_inv_tail in E'.
              apply (f_equal (@rev nat)) in E'. rewrite rev_involutive, rev_app_distr in E'. cbn in E'. congruence.
          - destruct l as [|x l]; [cbn in *; lia|]. destruct (Nat.eqb_spec x j) as [->|XJ]; [|reflexivity].
            apply returned_neq. intros E. destruct (Nat.eq_dec a (S b)) as [AB|AB].
            + (* all the sites left are needed: the draw chooses j *)
              exfalso. apply Bool.negb_false_iff, Qle_bool_iff in EP. unfold p in EP. rewrite AB in EP. pose proof (grid_range N u Hu) as GU. unfold Qle, Qlt in *. cbn [Qnum Qden] in *.
              assert (Z.pos (Pos.of_nat (S b)) = Z.of_nat (S b)) by (rewrite <- (Nat2Pos.id (S b)) at 2 by lia; now rewrite positive_nat_Z). nia.
            + destruct (sample_Ok i (fun x => drawn s (x - S j)) ltac:(intros; apply UR) (seq (S j) m) row a) as (c & E' & Lc & _ & Cin); [apply seq_NoDup|lia|fold b; lia|].
              fold b in E'. rewrite E in E'. apply (f_equal (fun o => match o with Ok r => fst r | _ => [] end)) in E'. cbn [fst] in E'. apply app_inv_tail in E'. assert (In j c) as J by (rewrite <- E', <- in_rev; now left). apply Cin in J as [J _]. apply in_seq in J. lia. }
      pose proof (tally_negb (fun u => negb (Qle_bool p u)) (grid N)) as TN. subst p.
      rewrite (tally_grid N q (S b) a) in * by (auto; lia). rewrite grid_length in TN. cbn [Nat.pow].
      assert (T2 : tally (fun u => negb (negb (Qle_bool (Qmake (Z.of_nat a) (Pos.of_nat (S b))) u))) (grid N) = (S b - a) * q) by (rewrite Nat.mul_sub_distr_r; lia).
      rewrite T2. clear TN T2. destruct inside eqn:EI; unfold inside in EI.
      * destruct l as [|x l]; [discriminate|]. apply Nat.eqb_eq in EI. subst x. cbn [tl]. subst a. cbn [length] in *. rewrite Nat.sub_succ, Nat.sub_0_r.
        apply StronglySorted_inv in HS as [HS' HF']. rewrite (tally_false (fun _ => false)) by auto.
        specialize (IH (S j) L (upd row (length l) j) l). fold b in IH. rewrite <- IH; [|split; auto; intros; apply HF; lia|lia|auto| |rewrite length_upd; lia].
        -- pose proof (binom_absorb b (length l)) as B. set (t := tally _ _). set (b1 := binom (S b) _) in *. set (b2 := binom b _) in *. set (k := length l) in *.
           rewrite Hq. replace ((S k * q * t + _ * 0) * b1) with (q * t * (S k * b1)) by ring. rewrite B. ring.
        -- intros x Hx. rewrite Forall_forall in HF'. specialize (HF' x Hx). specialize (HI x (or_intror Hx)). lia.
      * assert (HI' : forall x, In x l -> S j <= x < S j + m /\ x <> i).
        { destruct l as [|x l]; [intros ? []|]. apply Nat.eqb_neq in EI. apply StronglySorted_inv in HS as [HS' HF']. rewrite Forall_forall in HF'. pose proof (HI x (or_introl eq_refl)).
          intros y [<-|Hy]; [lia|]. specialize (HF' y Hy). specialize (HI y (or_intror Hy)). lia. }
        assert (AB : a <= b).
        { assert (incl l (other i (seq (S j) m))) as C. { intros x Hx. specialize (HI' x Hx). apply filter_In. split; [apply in_seq; lia|]. destruct (Nat.eqb_spec x i); [lia|reflexivity]. }
          apply NoDup_incl_length in C; [exact C|]. now apply increasing_NoDup. }
        rewrite (tally_false (fun _ => false)) by auto.
        specialize (IH (S j) L row l). fold b a in IH. rewrite <- IH; [|split; auto; intros; apply HF; lia|lia|auto|auto|lia].
        pose proof (binom_absorb' b a) as B. set (t := tally _ _). set (b1 := binom (S b) _) in *. set (b2 := binom b _) in *.
        rewrite Hq. replace ((a * q * 0 + (S b - a) * q * t) * b1) with (q * t * ((S b - a) * b1)) by ring. rewrite B by lia. ring.
Qed.

Lemma structure_count N n k i L others l : fine N n -> 0 < k <= 29 -> k < n -> i < n -> n <= L -> (forall r j, (0 <= others r j < 1)%Q) ->
  increasing l -> (forall j, In j l -> j < n /\ j <> i) -> length l = k ->
  tally (fun us => returned indices_dec (o <- random_structure n k (site_draws i us others) (mk_nk [] []) ;; Ok (nth i (nk_neighbors o) [])) (rev l ++ [i])) (sequences (grid N) L)
    * binom (n - 1) k = N ^ L.
Proof.
  intros HF Hk Hkn Hi HL HO HS HI Hl.
  pose proof (len_other i n Hi) as LO.
  rewrite <- (neighbors_count N i n 0 L (upd (repeat 0 (k + 1)) k i) l); auto.
  - rewrite LO, Hl. f_equal. apply tally_ext. intros us Hus. pose proof (drawn_range N us L Hus) as UR.
    destruct (structure_Ok n k (site_draws i us others) (mk_nk [] []) ltac:(lia) Hk) as (ns & E & Ln & R).
    { intros r j. unfold site_draws. destruct (r =? i); auto. }
    { intros r Hr. rewrite nth_resize by auto. cbn [nk_neighbors List.length Nat.ltb Nat.leb]. rewrite repeat_length. lia. }
    rewrite E. cbn [bind nk_neighbors]. specialize (R i Hi) as (_ & _ & _ & _ & R). cbn zeta in R. rewrite nth_resize in R by auto.
    cbn [nk_neighbors List.length Nat.ltb Nat.leb] in R. rewrite repeat_length in R. replace (k + 1 - 1) with k in R by lia.
    rewrite (sample_neighbors_ext i n 0 (site_draws i us others i) (fun x => drawn us (x - 0))) in R by (intros; unfold site_draws; now rewrite Nat.eqb_refl, Nat.sub_0_r).
    rewrite R. unfold returned. rewrite last_cell by (rewrite repeat_length; lia).
    destruct (indices_dec (nth i ns []) (rev l ++ [i])) as [F|F], (row_dec (nth i ns [], 0) (rev l ++ [i], 0)) as [G|G]; auto; exfalso; congruence.
  - apply (fine_less N n); [auto|]. rewrite LO. lia.
  - intros x Hx. specialize (HI x Hx). lia.
  - rewrite length_upd, repeat_length. lia.
Qed.
