(** Proofs about sudoku. *)

From Coq Require Import ZArith QArith String Ascii Permutation.
From Verif Require Import Base BaseLemmas BitVector_Model BitVector_Spec GF2 BitVector_Proofs Text_Model Text_Proofs
  Map_Spec Sudoku_Model Sudoku_Spec.
Local Close Scope Q_scope.
Local Open Scope string_scope.
Local Open Scope list_scope.
Local Open Scope nat_scope.
Notation len := List.length.

(** * Boards *)

Lemma grid_row {A} (b : list (list A)) i : grid b -> i < 9 -> nth_error b i = Some (nth i b []) /\ len (nth i b []) = 9.
Proof.
  intros (H & F) Hi. split; [apply nth_error_nth'; lia|]. rewrite Forall_forall in F. apply F. apply nth_In. lia.
Qed.

Lemma bget_Ok {A} (d : A) b i j : grid b -> i < 9 -> j < 9 -> bget b i j = Ok (cell d b i j).
Proof.
  intros H Hi Hj. destruct (grid_row b i H Hi) as (E & L). unfold bget, vget at 1. rewrite E. cbn [bind].
  apply vget_Ok. lia.
Qed.

Lemma bset_Ok {A} (d : A) b i j a : grid b -> i < 9 -> j < 9 ->
  exists b', bset b i j a = Ok b' /\ grid b' /\
    cell d b' i j = a /\ forall k l, (k, l) <> (i, j) -> cell d b' k l = cell d b k l.
Proof.
  intros H Hi Hj. destruct (grid_row b i H Hi) as (E & L). unfold bset, vget. rewrite E. cbn [bind].
  rewrite vset_Ok by lia. cbn [bind]. destruct H as (HL & F). rewrite vset_Ok by lia.
  eexists. split; [reflexivity|]. split; [split|split].
  - now rewrite length_upd.
  - apply Forall_forall. intros r Hr. apply In_upd in Hr as [->|Hr]; [now rewrite length_upd|].
    rewrite Forall_forall in F. auto.
  - unfold cell. rewrite nth_upd_eq by lia. apply nth_upd_eq. lia.
  - intros k l N. unfold cell. destruct (Nat.eq_dec k i) as [->|Hk].
    + rewrite nth_upd_eq by lia. apply nth_upd_neq. congruence.
    + now rewrite nth_upd_neq.
Qed.

(** * The cells in reading order *)

Lemma in_cells i j : In (i, j) cells <-> i < 9 /\ j < 9.
Proof. unfold cells. rewrite in_prod_iff, !in_seq. lia. Qed.

Lemma cells_NoDup : NoDup cells.
Proof.
  assert (NoDup (map (fun '(i, j) => 9 * i + j) cells)) as H.
  { vm_compute map. apply (Permutation_NoDup (l := seq 0 81)); [apply Permutation_refl|apply seq_NoDup]. }
  now apply NoDup_map_inv in H.
Qed.

Lemma empty_cells_filter inst : empty_cells inst = filter (fun '(i, j) => is_dot (cell dot inst i j)) cells.
Proof. reflexivity. Qed.

Lemma is_dot_true c : is_dot c = true <-> c = dot.
Proof. apply Ascii.eqb_eq. Qed.
Lemma is_dot_false c : is_dot c = false <-> c <> dot.
Proof. apply Ascii.eqb_neq. Qed.

(** * write_variables *)

Lemma write_variables_exact s x : grid (s_instance s) -> grid (s_candidate s) ->
  len x = len (empty_cells (s_instance s)) ->
  exists cand, write_variables s x = Ok (mk_sudoku (s_instance s) cand (s_num s)) /\ grid cand /\
    map (fun '(i, j) => cell 0 cand i j) (empty_cells (s_instance s)) = map (fun v => v + 1) x /\
    forall i j, ~ In (i, j) (empty_cells (s_instance s)) -> cell 0 cand i j = cell 0 (s_candidate s) i j.
Proof.
  intros Hi Hc Hx. unfold write_variables. set (inst := s_instance s) in *.
  set (em := fun '(i, j) => is_dot (cell dot inst i j)).
  assert (forall done a todo, cells = done ++ a :: todo -> len (filter em done) + (if em a then 1 else 0) <= len x) as Hlen.
  { intros done a todo E. rewrite Hx, empty_cells_filter. fold inst. fold em. rewrite E, filter_app, app_length. cbn [filter].
    destruct (em a); cbn [len]; lia. }
  destruct (foldM_inv (fun '(cand, index) '(i, j) =>
      c <- bget inst i j ;;
      if is_dot c then
        v <- vget x index ;; cand <- bset cand i j (v + 1) ;; Ok (cand, index + 1)
      else Ok (cand, index))
    (fun done '(cand, index) => grid cand /\ index = len (filter em done) /\
       map (fun '(i, j) => cell 0 cand i j) (filter em done) = map (fun v => v + 1) (firstn index x) /\
       forall i j, ~ In (i, j) (filter em done) -> cell 0 cand i j = cell 0 (s_candidate s) i j)
    cells (s_candidate s, 0)) as ((cand & index) & E & Hg & Hix & Hm & Ho).
  - split; [assumption|]. split; [reflexivity|]. split; [reflexivity|]. reflexivity.
  - intros done (i, j) todo (cand & index) El (Hg & Hix & Hm & Ho).
    assert (In (i, j) cells) as Hin by (rewrite El; apply in_elt). apply in_cells in Hin as (Hi9 & Hj9).
    specialize (Hlen done (i, j) todo El).
    rewrite (bget_Ok dot) by assumption. cbn [bind]. rewrite !filter_app. cbn [filter].
    change (em (i, j)) with (is_dot (cell dot inst i j)) in *.
    destruct (is_dot (cell dot inst i j)) eqn:Ed.
    + rewrite (vget_Ok _ _ 0) by lia. cbn [bind].
      destruct (bset_Ok 0 cand i j (nth index x 0 + 1) Hg Hi9 Hj9) as (cand' & Eb & Hg' & Hsame & Hother).
      rewrite Eb. cbn [bind]. eexists. split; [reflexivity|]. split; [assumption|].
      split; [rewrite app_length; cbn [len]; lia|]. split.
      * rewrite map_app. cbn [map]. rewrite Hsame. rewrite firstn_add, map_app. f_equal.
        -- rewrite <- Hm. apply map_ext_in. intros (k, l) Hkl. apply Hother. intros Ekl. 
           apply filter_In in Hkl as (Hkl & _). pose proof cells_NoDup as ND. rewrite El in ND.
           apply NoDup_remove_2 in ND. apply ND. apply in_app_iff. left. now rewrite <- Ekl.
        -- assert (index < len x) as Hlt by lia. clear - Hlt. revert index Hlt. induction x as [|a x IH]; intros [|index]; cbn; try lia; auto.
           intros H. apply IH. lia.
      * intros k l Hkl. rewrite Hother.
        -- apply Ho. intros N. apply Hkl. apply in_app_iff. auto.
        -- intros Ekl. apply Hkl. rewrite Ekl. apply in_app_iff. right. now left.
    + eexists. split; [reflexivity|]. rewrite app_nil_r. auto.
  - cbv beta in E. rewrite E. cbn [bind]. rewrite (proj2 (Nat.eqb_eq index (len x))) by (rewrite Hix, Hx; reflexivity).
    cbn [assertb bind]. exists cand. split; [reflexivity|]. split; [assumption|]. split; [|exact Ho].
    rewrite empty_cells_filter. fold inst em. rewrite Hm. f_equal. apply firstn_all2. rewrite Hix, Hx. reflexivity.
Qed.

(** * Counting digits *)

Definition in_grid (l : list (nat * nat)) : Prop := Forall (fun '(i, j) => i < 9 /\ j < 9) l.
Definition is_digit9 (d : nat) : Prop := 0 < d < 10.

Lemma count_occ_snoc l d k : count_occ Nat.eq_dec (l ++ [d]) k = count_occ Nat.eq_dec l k + (if d =? k then 1 else 0).
Proof. rewrite count_occ_app. cbn. destruct (Nat.eq_dec d k) as [->|N]; [now rewrite Nat.eqb_refl|]. apply Nat.eqb_neq in N. now rewrite N. Qed.

Lemma count_digits_Ok cand l : grid cand -> in_grid l -> Forall is_digit9 (digits_of (cell 0 cand) l) ->
  count_digits cand l = Ok (map (count_occ Nat.eq_dec (digits_of (cell 0 cand) l)) (seq 0 10)).
Proof.
  intros Hg Hl Hd. unfold count_digits.
  destruct (foldM_inv (fun counts '(i, j) =>
      d <- bget cand i j ;;
      _ <- assertb (0 <? d) ;;
      _ <- assertb (d <? 10) ;;
      k <- vget counts d ;;
      vset counts d (k + 1))
    (fun done counts => counts = map (count_occ Nat.eq_dec (digits_of (cell 0 cand) done)) (seq 0 10)) l (repeat 0 10))
    as (counts & E & Hc).
  - reflexivity.
  - intros done (i, j) todo counts El ->.
    assert (In (i, j) l) as Hin by (rewrite El; apply in_elt).
    unfold in_grid in Hl. rewrite Forall_forall in Hl. destruct (Hl _ Hin) as (Hi & Hj).
    rewrite (bget_Ok 0) by assumption. cbn [bind].
    rewrite Forall_forall in Hd. destruct (Hd (cell 0 cand i j)) as (H0 & H10).
    { unfold digits_of. apply in_map_iff. exists (i, j). auto. }
    rewrite (proj2 (Nat.ltb_lt _ _) H0), (proj2 (Nat.ltb_lt _ _) H10). cbn [assertb bind].
    set (d := cell 0 cand i j) in *. set (D := digits_of (cell 0 cand) done).
    rewrite (vget_Ok _ _ 0) by (rewrite map_length, seq_length; lia). cbn [bind].
    rewrite vset_Ok by (rewrite map_length, seq_length; lia). eexists. split; [reflexivity|].
    unfold digits_of. rewrite map_app. cbn [map]. fold (digits_of (cell 0 cand) done). fold D d.
    apply (nth_ext_len 0); [now rewrite length_upd, !map_length|].
    intros k Hk. rewrite length_upd, map_length, seq_length in Hk.
    assert (forall k L, k < 10 -> nth k (map (count_occ Nat.eq_dec L) (seq 0 10)) 0 = count_occ Nat.eq_dec L k) as N.
    { intros m L Hm. rewrite (nth_indep _ 0 (count_occ Nat.eq_dec L 0)) by (rewrite map_length, seq_length; lia).
      now rewrite map_nth, seq_nth by lia. }
    rewrite nth_upd, map_length, seq_length, !N, count_occ_snoc by assumption.
    destruct (Nat.eqb_spec k d) as [->|Hne].
    + rewrite Nat.eqb_refl, (proj2 (Nat.ltb_lt d 10)) by lia. reflexivity.
    + cbn [andb]. rewrite (proj2 (Nat.eqb_neq d k)) by congruence. lia.
  - rewrite E. cbn [bind]. rewrite Hc. cbn [map seq]. unfold vget at 1. cbn [nth_error bind].
    rewrite (proj1 (count_occ_not_In Nat.eq_dec _ 0)); [reflexivity|].
    intros N. rewrite Forall_forall in Hd. apply Hd in N. unfold is_digit9 in N. lia.
Qed.

Lemma count_digits_UB cand l : grid cand -> in_grid l -> ~ Forall is_digit9 (digits_of (cell 0 cand) l) ->
  count_digits cand l = UB.
Proof.
  intros Hg Hl Hd. unfold count_digits.
  match goal with |- bind (foldM ?f _ _) _ = _ => assert (forall counts, len counts = 10 -> foldM f l counts = UB) as G end.
  { revert Hd. induction Hl as [|(i, j) l (Hi & Hj) Hl IH]; intros Hd counts Hc; cbn [foldM].
    - exfalso. apply Hd. constructor.
    - rewrite (bget_Ok 0) by assumption. cbn [bind]. set (d := cell 0 cand i j).
      destruct (Nat.ltb_spec 0 d) as [H0|H0]; [|reflexivity]. cbn [assertb bind].
      destruct (Nat.ltb_spec d 10) as [H10|H10]; [|reflexivity]. cbn [assertb bind].
      rewrite (vget_Ok _ _ 0) by lia. cbn [bind]. rewrite vset_Ok by lia. cbn [bind].
      apply IH; [|now rewrite length_upd]. intros F. apply Hd. constructor; [split; assumption|assumption]. }
  rewrite G by apply repeat_length. reflexivity.
Qed.

Lemma add_defects_exact skip1 L r :
  add_defects skip1 (map (count_occ Nat.eq_dec L) (seq 0 10)) r = Ok (r + unit_defects L)%Z.
Proof.
  unfold add_defects, unit_defects.
  assert (forall ks r, Forall (fun k => k < 10) ks ->
    foldM (fun result k =>
      c <- vget (map (count_occ Nat.eq_dec L) (seq 0 10)) k ;;
      if skip1 && (c =? 1) then Ok result else Ok (result + Z.abs (Z.of_nat c - 1))%Z) ks r =
    Ok (r + sumZ (map (fun k => Z.abs (Z.of_nat (count_occ Nat.eq_dec L k) - 1)) ks))%Z) as G.
  { clear. induction ks as [|k ks IH]; intros r F; cbn [foldM map sumZ fold_right]; [f_equal; lia|].
    inversion F as [|? ? Hk F']; subst.
    rewrite (vget_Ok _ _ (count_occ Nat.eq_dec L 0)) by (rewrite map_length, seq_length; lia). cbn [bind].
    rewrite map_nth, seq_nth by lia. cbn [Nat.add]. set (c := count_occ Nat.eq_dec L k).
    destruct (skip1 && (c =? 1)) eqn:E; cbn [bind]; rewrite IH by assumption; f_equal; fold (sumZ (map (fun k => Z.abs (Z.of_nat (count_occ Nat.eq_dec L k) - 1)) ks)).
    - apply andb_true_iff in E as [_ E]. apply Nat.eqb_eq in E. rewrite E. cbn. lia.
    - lia. }
  apply G. apply Forall_forall. intros k Hk. apply in_seq in Hk. lia.
Qed.

Lemma check_unit_Ok skip1 cand l r : grid cand -> in_grid l -> Forall is_digit9 (digits_of (cell 0 cand) l) ->
  check_unit skip1 cand l r = Ok (r + unit_defects (digits_of (cell 0%nat cand) l))%Z.
Proof. intros. unfold check_unit. rewrite count_digits_Ok by assumption. cbn [bind]. apply add_defects_exact. Qed.

Lemma check_unit_UB skip1 cand l r : grid cand -> in_grid l -> ~ Forall is_digit9 (digits_of (cell 0 cand) l) ->
  check_unit skip1 cand l r = UB.
Proof. intros. unfold check_unit. now rewrite count_digits_UB. Qed.

(** * Defects *)

Lemma sumZ_app a b : sumZ (a ++ b) = (sumZ a + sumZ b)%Z.
Proof. unfold sumZ. induction a as [|x a IH]; cbn [app fold_right]; [lia|]. rewrite IH. lia. Qed.

Lemma sumZ_nonneg l : Forall (fun z => 0 <= z)%Z l -> (0 <= sumZ l)%Z /\ (sumZ l = 0%Z <-> Forall (fun z => z = 0%Z) l).
Proof.
  unfold sumZ. induction 1 as [|a l Ha Hl (IH1 & IH2)]; cbn [fold_right].
  - split; [lia|]. split; auto.
  - split; [lia|]. split.
    + intros E. constructor; [lia|]. apply IH2. lia.
    + intros F. inversion F; subst. apply IH2 in H2. lia.
Qed.

Lemma unit_defects_nonneg L : (0 <= unit_defects L)%Z.
Proof. apply sumZ_nonneg. apply Forall_forall. intros z Hz. apply in_map_iff in Hz as (k & <- & _). lia. Qed.

Lemma unit_defects_zero L : Forall is_digit9 L -> (unit_defects L = 0%Z <-> Permutation L (seq 1 9)).
Proof.
  intros HL. unfold unit_defects.
  assert (Forall (fun z => (0 <= z)%Z) (map (fun k => Z.abs (Z.of_nat (count_occ Nat.eq_dec L k) - 1)) (seq 1 9))) as F.
  { apply Forall_forall. intros z Hz. apply in_map_iff in Hz as (k & <- & _). lia. }
  apply sumZ_nonneg in F as (_ & F). rewrite F. clear F.
  rewrite (Permutation_count_occ Nat.eq_dec). rewrite Forall_forall. split.
  - intros H k. destruct (in_dec Nat.eq_dec k (seq 1 9)) as [Hk|Hk].
    + specialize (H _ (in_map _ _ _ Hk)). cbv beta in H.
      pose proof (proj1 (NoDup_count_occ' Nat.eq_dec (seq 1 9)) (seq_NoDup _ _) k Hk) as Ek. lia.
    + rewrite (proj1 (count_occ_not_In Nat.eq_dec (seq 1 9) k) Hk). apply count_occ_not_In.
      intros Hin. rewrite Forall_forall in HL. apply HL in Hin. unfold is_digit9 in Hin. apply Hk. apply in_seq. lia.
  - intros H z Hz. apply in_map_iff in Hz as (k & <- & Hk). rewrite H.
    rewrite (proj1 (NoDup_count_occ' Nat.eq_dec (seq 1 9)) (seq_NoDup _ _) k Hk). reflexivity.
Qed.

Lemma units_in_grid u : In u units -> in_grid u.
Proof.
  assert (forallb (fun u => forallb (fun '(i, j) => (i <? 9) && (j <? 9)) u) units = true) as H by (vm_compute; reflexivity).
  rewrite forallb_forall in H. intros Hu. apply H in Hu. rewrite forallb_forall in Hu. apply Forall_forall.
  intros (i, j) Hij. apply Hu in Hij. apply andb_true_iff in Hij as [A B]. apply Nat.ltb_lt in A, B. auto.
Qed.

Lemma defects_exact g : (forall i j, i < 9 -> j < 9 -> is_digit9 (g i j)) ->
  (0 <= defects g)%Z /\ (defects g = 0%Z <-> solved g).
Proof.
  intros Hg. unfold defects.
  assert (Forall (fun z => 0 <= z)%Z (map (fun u => unit_defects (digits_of g u)) units)) as F.
  { apply Forall_forall. intros z Hz. apply in_map_iff in Hz as (u & <- & _). apply unit_defects_nonneg. }
  apply sumZ_nonneg in F as (F1 & F2). split; [assumption|]. rewrite F2, Forall_forall. unfold solved.
  assert (forall u, In u units -> Forall is_digit9 (digits_of g u)) as D.
  { intros u Hu. apply units_in_grid in Hu. unfold in_grid in Hu. rewrite Forall_forall in Hu. apply Forall_forall. intros d Hd. unfold digits_of in Hd.
    apply in_map_iff in Hd as ((i, j) & <- & Hij). destruct (Hu _ Hij). auto. }
  split.
  - intros H u Hu. apply unit_defects_zero; auto. apply H. apply in_map_iff. eauto.
  - intros H z Hz. apply in_map_iff in Hz as (u & <- & Hu). apply unit_defects_zero; auto.
Qed.

(** * Evaluation *)

(** What a loaded object satisfies *)
Definition loaded (s : sudoku) : Prop :=
  problem (s_instance s) /\ grid (s_candidate s) /\ s_num s = Some (len (empty_cells (s_instance s))) /\
  forall i j, i < 9 -> j < 9 -> cell dot (s_instance s) i j <> dot ->
    cell 0 (s_candidate s) i j = digit_of (cell dot (s_instance s) i j).

Lemma foldM_check {A} (f : Z -> A -> outcome Z) (h : A -> Z) l r :
  (forall r a, In a l -> f r a = Ok (r + h a)%Z) -> foldM f l r = Ok (r + sumZ (map h l))%Z.
Proof.
  revert r. induction l as [|a l IH]; intros r H; cbn [foldM map sumZ fold_right]; [f_equal; lia|].
  rewrite H by now left. cbn [bind]. rewrite IH by (intros; apply H; now right). unfold sumZ. f_equal. lia.
Qed.

Lemma foldM_UB {A} (f : Z -> A -> outcome Z) l r a :
  In a l -> (forall r, f r a = UB) -> (forall r b, In b l -> f r b = UB \/ exists r', f r b = Ok r') -> foldM f l r = UB.
Proof.
  revert r. induction l as [|b l IH]; intros r Ha Hf Hall; [contradiction|]. cbn [foldM].
  destruct Ha as [->|Ha]; [now rewrite Hf|].
  destruct (Hall r b (or_introl eq_refl)) as [->|(r' & ->)]; [reflexivity|]. cbn [bind]. apply IH; auto.
  intros; apply Hall. now right.
Qed.

Lemma map_rows g : sumZ (map (fun i => unit_defects (digits_of g (map (fun j => (i, j)) (seq 0 9)))) (seq 0 9)) =
  sumZ (map (fun u => unit_defects (digits_of g u)) rows).
Proof. unfold rows. now rewrite map_map. Qed.
Lemma map_columns g : sumZ (map (fun j => unit_defects (digits_of g (map (fun i => (i, j)) (seq 0 9)))) (seq 0 9)) =
  sumZ (map (fun u => unit_defects (digits_of g u)) columns).
Proof. unfold columns. now rewrite map_map. Qed.

Theorem sudoku_evaluate_exact s x : loaded s -> len x = len (empty_cells (s_instance s)) -> Forall (fun v => v < 9) x ->
  exists s' g, sudoku_evaluate s x = Ok ((- defects g)%Z, s') /\ completes (s_instance s) x g /\
    (defects g = 0%Z <-> solved g) /\ (0 <= defects g)%Z /\
    s_instance s' = s_instance s /\ loaded s'.
Proof.
  intros (Hp & Hg & Hn & Hd) Hx Hv. unfold sudoku_evaluate. rewrite Hn.
  rewrite (proj2 (Nat.eqb_eq _ _) Hx). cbn [assertb bind].
  destruct (write_variables_exact s x (proj1 Hp) Hg Hx) as (cand & E & Hgc & Hm & Ho). rewrite E. cbn [bind s_candidate].
  set (inst := s_instance s) in *. set (g := cell 0 cand).
  assert (forall i j, i < 9 -> j < 9 -> cell dot inst i j <> dot -> g i j = digit_of (cell dot inst i j)) as Hdig.
  { intros i j Hi Hj N. unfold g. rewrite Ho; [now apply Hd|]. rewrite empty_cells_filter, filter_In.
    intros (_ & D). apply is_dot_true in D. contradiction. }
  assert (forall i j, i < 9 -> j < 9 -> is_digit9 (g i j)) as H9.
  { intros i j Hi Hj. destruct (is_dot (cell dot inst i j)) eqn:D.
    - assert (In (g i j) (map (fun v => v + 1) x)) as Hin.
      { rewrite <- Hm. apply in_map_iff. exists (i, j). split; [reflexivity|]. rewrite empty_cells_filter, filter_In, in_cells. auto. }
      apply in_map_iff in Hin as (v & Ev & Hin). rewrite Forall_forall in Hv. apply Hv in Hin. unfold is_digit9. lia.
    - apply is_dot_false in D. rewrite Hdig by assumption. destruct (proj2 Hp i j Hi Hj) as [N|N]; [contradiction|].
      unfold is_digit9, digit_of. fold inst in N. lia. }
  assert (forall u, in_grid u -> Forall is_digit9 (digits_of g u)) as HU.
  { intros u Hu. apply Forall_forall. intros d Hin. unfold digits_of in Hin. apply in_map_iff in Hin as ((i, j) & <- & Hij).
    unfold in_grid in Hu. rewrite Forall_forall in Hu. destruct (Hu _ Hij). auto. }
  rewrite (foldM_check _ (fun i => unit_defects (digits_of g (map (fun j => (i, j)) (seq 0 9))))).
  2: { intros r i Hi. assert (in_grid (map (fun j => (i, j)) (seq 0 9))) as G.
       { apply units_in_grid, in_app_iff. left. unfold rows. apply in_map_iff. eauto. }
       apply check_unit_Ok; auto. }
  cbn [bind].
  rewrite (foldM_check _ (fun j => unit_defects (digits_of g (map (fun i => (i, j)) (seq 0 9))))).
  2: { intros r i Hi. assert (in_grid (map (fun j => (j, i)) (seq 0 9))) as G.
       { apply units_in_grid, in_app_iff. right. apply in_app_iff. left. unfold columns. apply in_map_iff. eauto. }
       apply check_unit_Ok; auto. }
  cbn [bind].
  rewrite (foldM_check _ (fun a => sumZ (map (fun b => unit_defects (digits_of g
             (map (fun '(i, j) => (a + i, b + j)) (list_prod (seq 0 3) (seq 0 3))))) [0; 3; 6]))).
  2: { intros r a Ha. apply foldM_check. intros r' b Hb.
       assert (in_grid (map (fun '(i, j) => (a + i, b + j)) (list_prod (seq 0 3) (seq 0 3)))) as G.
       { apply units_in_grid, in_app_iff. right. apply in_app_iff. right.
         destruct Ha as [<-|[<-|[<-|[]]]]; destruct Hb as [<-|[<-|[<-|[]]]]; cbn; tauto. }
       apply check_unit_Ok; auto. }
  cbn [bind]. rewrite map_rows, map_columns.
  replace (0 + _ + _ + _)%Z with (defects g).
  2: { unfold defects, units. rewrite !map_app, !sumZ_app. 
       unfold blocks at 1. rewrite map_map. cbn [list_prod seq map app Nat.add Nat.mul]. unfold sumZ. cbn [fold_right]. lia. }
  eexists. exists g. split; [reflexivity|]. split; [split; [exact Hdig|exact Hm]|].
  destruct (defects_exact g H9) as (D1 & D2). split; [assumption|]. split; [assumption|]. cbn [s_instance]. split; [reflexivity|].
  split; [assumption|]. split; [assumption|]. split; [assumption|]. exact Hdig.
Qed.

Theorem sudoku_evaluate_UB s x : loaded s ->
  len x <> len (empty_cells (s_instance s)) \/ ~ Forall (fun v => v < 9) x -> sudoku_evaluate s x = UB.
Proof.
  intros (Hp & Hg & Hn & Hd) H. unfold sudoku_evaluate. rewrite Hn.
  destruct (Nat.eqb_spec (len x) (len (empty_cells (s_instance s)))) as [Hx|Hx]; [|reflexivity]. cbn [assertb bind].
  destruct H as [H|H]; [contradiction|].
  destruct (write_variables_exact s x (proj1 Hp) Hg Hx) as (cand & E & Hgc & Hm & Ho). rewrite E. cbn [bind s_candidate].
  assert (exists i j, i < 9 /\ j < 9 /\ ~ is_digit9 (cell 0 cand i j)) as (i & j & Hi & Hj & N).
  { assert (Exists (fun v => ~ v < 9) x) as Hex.
    { apply neg_Forall_Exists_neg; [intros v; destruct (lt_dec v 9); auto|assumption]. }
    apply Exists_exists in Hex as (v & Hin & Hv).
    assert (In (v + 1) (map (fun v => v + 1) x)) as Hin' by now apply (in_map (fun v => v + 1)).
    rewrite <- Hm in Hin'. apply in_map_iff in Hin' as ((i, j) & Eij & Hij). rewrite empty_cells_filter in Hij.
    apply filter_In in Hij as (Hij & _). apply in_cells in Hij as (Hi & Hj). exists i, j. split; [assumption|]. split; [assumption|].
    rewrite Eij. unfold is_digit9. lia. }
  rewrite (foldM_UB _ _ _ i); [reflexivity|apply in_seq; lia| |].
  - intros r. apply check_unit_UB; auto.
    + apply units_in_grid, in_app_iff. left. unfold rows. apply in_map_iff. exists i. split; [reflexivity|]. apply in_seq. lia.
    + intros F. rewrite Forall_forall in F. apply N, F. unfold digits_of. apply in_map_iff. exists (i, j). split; [reflexivity|].
      apply in_map_iff. exists j. split; [reflexivity|]. apply in_seq. lia.
  - intros r k Hk. assert (in_grid (map (fun j => (k, j)) (seq 0 9))) as G.
    { apply units_in_grid, in_app_iff. left. unfold rows. apply in_map_iff. eauto. }
    destruct (Forall_dec is_digit9 (fun d => match lt_dec 0 d, lt_dec d 10 with
                | left a, left b => left (conj a b) | right a, _ => right (fun c => a (proj1 c)) | _, right b => right (fun c => b (proj2 c)) end)
                (digits_of (cell 0 cand) (map (fun j => (k, j)) (seq 0 9)))) as [F|F].
    + right. eexists. now apply check_unit_Ok.
    + left. now apply check_unit_UB.
Qed.
