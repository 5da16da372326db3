(** Proofs about the nearest neighbor Ising model on a two-dimensional lattice. *)

From Coq Require Import ZArith Sorted.
From Verif Require Import Base BaseLemmas BitVector_Model BitVector_Spec GF2 BitVector_Proofs SortedLemmas
  Theory_Model Function_Spec Theory_Proofs Sums Walsh_Model Walsh_Proofs.
Local Open Scope nat_scope.

Lemma index_div nc i j : j < nc -> (i * nc + j) / nc = i.
Proof. intros H. rewrite Nat.div_add_l by lia. rewrite Nat.div_small by assumption. lia. Qed.

Lemma index_mod nc i j : j < nc -> (i * nc + j) mod nc = j.
Proof. intros H. rewrite Nat.add_comm, Nat.mod_add by lia. now apply Nat.mod_small. Qed.

Lemma index_split nr nc e : e < nr * nc -> exists i j, e = i * nc + j /\ i < nr /\ j < nc.
Proof.
  intros H. assert (nc <> 0) by (intros ->; lia). exists (e / nc), (e mod nc). split.
  - rewrite Nat.mul_comm. now apply Nat.div_mod.
  - split; [|now apply Nat.mod_upper_bound]. apply Nat.div_lt_upper_bound; [assumption|]. now rewrite Nat.mul_comm.
Qed.

Lemma index_lt nr nc i j : i < nr -> j < nc -> i * nc + j < nr * nc.
Proof. intros Hi Hj. assert ((i + 1) * nc <= nr * nc) by (apply Nat.mul_le_mono_r; lia). lia. Qed.

Lemma mget_Ok nr nc m i j : grid nr nc m -> i < nr -> j < nc -> mget m i j = Ok (entry m i j).
Proof.
  intros [H1 H2] Hi Hj. unfold mget, entry. rewrite (vget_Ok m i []) by lia. cbn [bind].
  apply vget_Ok. rewrite Forall_forall in H2. rewrite H2; [assumption|]. apply nth_In. lia.
Qed.

Definition rightE nc (per : bool) (e : nat) : option nat :=
  if e mod nc =? nc - 1 then (if per then Some (e - (nc - 1)) else None) else Some (e + 1).
Definition leftE nc (per : bool) (e : nat) : option nat :=
  if e mod nc =? 0 then (if per then Some (e + (nc - 1)) else None) else Some (e - 1).
Definition belowE nr nc (per : bool) (e : nat) : option nat :=
  if e / nc =? nr - 1 then (if per then Some (e mod nc) else None) else Some (e + nc).
Definition aboveE nr nc (per : bool) (e : nat) : option nat :=
  if e / nc =? 0 then (if per then Some (nr * nc + e mod nc - nc) else None) else Some (e - nc).

Definition at_site (m : list (list Z)) nc (e : nat) : Z := entry m (e / nc) (e mod nc).

Ltac assert_ok :=
  match goal with |- context [assertb ?b] =>
    replace b with true by (symmetry; rewrite ?andb_true_iff, ?Nat.ltb_lt, ?Nat.leb_le; repeat split; lia)
  end; cbn [assertb bind].

Section Lattice.
Variables (nr nc : nat) (right below field : list (list Z)) (per : bool).
Hypotheses (Hnr : 0 < nr) (Hnc : 0 < nc) (Gr : grid nr nc right) (Gb : grid nr nc below) (Gf : grid nr nc field).

Lemma row0 : vget field 0 = Ok (nth 0 field []) /\ length (nth 0 field []) = nc.
Proof.
  destruct Gf as [H1 H2]. split; [apply vget_Ok; lia|]. rewrite Forall_forall in H2. apply H2. apply nth_In. lia.
Qed.

Lemma ising2_value s : length s = nr * nc ->
  ising2_evaluate right below field per s =
    Ok (sum_n nr (fun i => sum_n (nc - 1) (fun j =>
          entry right i j * spin (nth (i * nc + j) s false) * spin (nth (i * nc + (j + 1)) s false))) +
        sum_n (nr - 1) (fun i => sum_n nc (fun j =>
          entry below i j * spin (nth (i * nc + j) s false) * spin (nth ((i + 1) * nc + j) s false))) +
        (if per then
           sum_n nr (fun i => entry right i (nc - 1) * spin (nth (i * nc + (nc - 1)) s false) * spin (nth (i * nc + 0) s false)) +
           sum_n nc (fun j => entry below (nr - 1) j * spin (nth ((nr - 1) * nc + j) s false) * spin (nth (0 * nc + j) s false))
         else 0) +
        sum_n nr (fun i => sum_n nc (fun j => entry field i j * spin (nth (i * nc + j) s false))))%Z.
Proof.
  intros Hs. unfold ising2_evaluate. destruct row0 as [E0 L0]. destruct Gf as [Lf _]. rewrite Lf, E0.
  destruct (Nat.ltb_spec 0 nr); [|lia]. cbn [assertb bind]. rewrite L0. destruct (Nat.ltb_spec 0 nc); [|lia].
  rewrite Hs, Nat.eqb_refl. cbn [assertb bind].
  rewrite (foldM_add _ (fun i => sum_n (nc - 1) (fun j => entry right i j * spin (nth (i * nc + j) s false) * spin (nth (i * nc + (j + 1)) s false))%Z)).
  2:{ intros i r Hi. apply in_seq in Hi. apply foldM_add. intros j r' Hj. apply in_seq in Hj.
      assert (i * nc + (j + 1) < nr * nc) by (apply index_lt; lia).
      destruct (Nat.ltb_spec (i * nc + j + 1) (nr * nc)); [|lia]. cbn [assertb bind].
      rewrite (mget_Ok nr nc) by (assumption || lia). cbn [bind]. rewrite couple_Ok by lia.
      now rewrite Nat.add_assoc. }
  cbn [bind].
  rewrite (foldM_add _ (fun i => sum_n nc (fun j => entry below i j * spin (nth (i * nc + j) s false) * spin (nth ((i + 1) * nc + j) s false))%Z)).
  2:{ intros i r Hi. apply in_seq in Hi. apply foldM_add. intros j r' Hj. apply in_seq in Hj.
      assert ((i + 1) * nc + j < nr * nc) by (apply index_lt; lia).
      replace (i * nc + j + nc) with ((i + 1) * nc + j) by lia.
      destruct (Nat.ltb_spec ((i + 1) * nc + j) (nr * nc)); [|lia]. cbn [assertb bind].
      rewrite (mget_Ok nr nc) by (assumption || lia). cbn [bind]. rewrite couple_Ok by lia. reflexivity. }
  cbn [bind].
  match goal with |- context [bind (if per then _ else Ok ?r) _] => set (r0 := r) end.
  match goal with |- bind ?a _ = _ => assert (Q : a = Ok (r0 + (if per then
           sum_n nr (fun i => entry right i (nc - 1) * spin (nth (i * nc + (nc - 1)) s false) * spin (nth (i * nc + 0) s false)) +
           sum_n nc (fun j => entry below (nr - 1) j * spin (nth ((nr - 1) * nc + j) s false) * spin (nth (0 * nc + j) s false))
         else 0))%Z) end.
  { destruct per; [|f_equal; lia].
    rewrite (foldM_add _ (fun i => entry right i (nc - 1) * spin (nth (i * nc + (nc - 1)) s false) * spin (nth (i * nc + 0) s false))%Z).
    2:{ intros i r Hi. apply in_seq in Hi. rewrite (mget_Ok nr nc) by (assumption || lia). cbn [bind].
        pose proof (index_lt nr nc i (nc - 1)). rewrite couple_Ok by lia. now rewrite Nat.add_0_r. }
    cbn [bind].
    rewrite (foldM_add _ (fun j => entry below (nr - 1) j * spin (nth ((nr - 1) * nc + j) s false) * spin (nth (0 * nc + j) s false))%Z).
    2:{ intros j r Hj. apply in_seq in Hj. rewrite (mget_Ok nr nc) by (assumption || lia). cbn [bind].
        pose proof (index_lt nr nc (nr - 1) j). pose proof (index_lt nr nc 0 j). rewrite couple_Ok by lia. reflexivity. }
    f_equal. unfold sum_n, sum_over. lia. }
  rewrite Q. cbn [bind].
  rewrite (foldM_add _ (fun i => sum_n nc (fun j => entry field i j * spin (nth (i * nc + j) s false))%Z)).
  - reflexivity.
  - intros i r Hi. apply in_seq in Hi. apply foldM_add. intros j r' Hj. apply in_seq in Hj.
    pose proof (index_lt nr nc i j). rewrite (vget_Ok s _ false) by lia. cbn [bind].
    rewrite (mget_Ok nr nc) by (assumption || lia). cbn [bind].
    destruct (nth (i * nc + j) s false); cbn [spin]; f_equal; lia.
Qed.

Lemma sum_n_last n f : 0 < n -> sum_n n f = (sum_n (n - 1) f + f (n - 1)%nat)%Z.
Proof.
  intros H. unfold sum_n. replace n with ((n - 1) + 1) at 1 by lia. rewrite seq_app, map_app, zsum_app.
  cbn [seq map plus zsum fold_right]. lia.
Qed.

Lemma sum_n_grid f : sum_n (nr * nc) f = sum_n nr (fun i => sum_n nc (fun j => f (i * nc + j))).
Proof. apply sum_seq_mul. Qed.

Lemma sum_n_add n f g : (sum_n n (fun i => f i + g i) = sum_n n f + sum_n n g)%Z.
Proof. apply sum_add. Qed.

Lemma sum_n_ext n f g : (forall i, i < n -> f i = g i) -> sum_n n f = sum_n n g.
Proof. intros H. apply sum_ext. intros i Hi. apply in_seq in Hi. apply H. lia. Qed.

Lemma sum_n_zero n f : (forall i, i < n -> f i = 0%Z) -> sum_n n f = 0%Z.
Proof. intros H. apply sum_zero. intros i Hi. apply in_seq in Hi. apply H. lia. Qed.

Lemma ising2_value_edges s : length s = nr * nc ->
  ising2_evaluate right below field per s =
    Ok (sum_n (nr * nc) (edge_term s (at_site right nc) (rightE nc per)) +
        sum_n (nr * nc) (edge_term s (at_site below nc) (belowE nr nc per)) +
        sum_n (nr * nc) (fun i => at_site field nc i * spin (nth i s false)))%Z.
Proof.
  intros Hs. rewrite ising2_value by assumption. f_equal. rewrite !sum_n_grid.
  assert (ER : sum_n nr (fun i => sum_n nc (fun j => edge_term s (at_site right nc) (rightE nc per) (i * nc + j))) =
    (sum_n nr (fun i => sum_n (nc - 1) (fun j =>
          entry right i j * spin (nth (i * nc + j) s false) * spin (nth (i * nc + (j + 1)) s false))) +
     if per then sum_n nr (fun i => entry right i (nc - 1) * spin (nth (i * nc + (nc - 1)) s false) * spin (nth (i * nc + 0) s false)) else 0)%Z).
  { rewrite (sum_n_ext nr _ (fun i => (sum_n (nc - 1) (fun j =>
          entry right i j * spin (nth (i * nc + j) s false) * spin (nth (i * nc + (j + 1)) s false)) +
          if per then entry right i (nc - 1) * spin (nth (i * nc + (nc - 1)) s false) * spin (nth (i * nc + 0) s false) else 0)%Z)).
    - rewrite sum_n_add. f_equal. destruct per; [reflexivity|]. now apply sum_n_zero.
    - intros i Hi. rewrite sum_n_last by assumption. f_equal.
      + apply sum_n_ext. intros j Hj. unfold edge_term, rightE, at_site. rewrite index_mod, index_div by lia.
        destruct (Nat.eqb_spec j (nc - 1)); [lia|]. now rewrite Nat.add_assoc.
      + unfold edge_term, rightE, at_site. rewrite index_mod, index_div by lia. rewrite Nat.eqb_refl.
        destruct per; [|reflexivity]. replace (i * nc + (nc - 1) - (nc - 1)) with (i * nc + 0) by lia. reflexivity. }
  assert (EB : sum_n nr (fun i => sum_n nc (fun j => edge_term s (at_site below nc) (belowE nr nc per) (i * nc + j))) =
    (sum_n (nr - 1) (fun i => sum_n nc (fun j =>
          entry below i j * spin (nth (i * nc + j) s false) * spin (nth ((i + 1) * nc + j) s false))) +
     if per then sum_n nc (fun j => entry below (nr - 1) j * spin (nth ((nr - 1) * nc + j) s false) * spin (nth (0 * nc + j) s false)) else 0)%Z).
  { rewrite sum_n_last by assumption. f_equal.
    - apply sum_n_ext. intros i Hi. apply sum_n_ext. intros j Hj. unfold edge_term, belowE, at_site.
      rewrite index_mod, index_div by lia. destruct (Nat.eqb_spec i (nr - 1)); [lia|]. replace ((i + 1) * nc + j) with (i * nc + j + nc) by lia. reflexivity.
    - destruct per eqn:Ep; [|apply sum_n_zero]; [apply sum_n_ext|]; intros j Hj; unfold edge_term, belowE, at_site;
        rewrite index_mod, index_div by lia; rewrite Nat.eqb_refl; reflexivity. }
  rewrite ER, EB.
  assert (EF : sum_n nr (fun i => sum_n nc (fun j => at_site field nc (i * nc + j) * spin (nth (i * nc + j) s false))%Z) =
    sum_n nr (fun i => sum_n nc (fun j => entry field i j * spin (nth (i * nc + j) s false))%Z)).
  { apply sum_n_ext. intros i Hi. apply sum_n_ext. intros j Hj. unfold at_site. now rewrite index_mod, index_div by lia. }
  rewrite EF. destruct per; lia.
Qed.

Lemma edges_right : (forall e r, e < nr * nc -> rightE nc per e = Some r -> r < nr * nc) /\
  (forall e r, e < nr * nc -> leftE nc per e = Some r -> r < nr * nc) /\
  (forall e i, e < nr * nc -> i < nr * nc -> (rightE nc per e = Some i <-> leftE nc per i = Some e)).
Proof.
  assert (M : forall i j i' j', j < nc -> j' < nc -> i * nc + j = i' * nc + j' -> i = i' /\ j = j').
  { intros i j i' j' Hj Hj' E. split.
    - rewrite <- (index_div nc i j), <- (index_div nc i' j') by assumption. now rewrite E.
    - rewrite <- (index_mod nc i j), <- (index_mod nc i' j') by assumption. now rewrite E. }
  split; [|split].
  - intros e r He. destruct (index_split _ _ _ He) as (i & j & -> & Hi & Hj). unfold rightE. rewrite index_mod by assumption.
    destruct (Nat.eqb_spec j (nc - 1)) as [->|].
    + destruct per; [|discriminate]. intros R. apply Some_inj in R. lia.
    + intros R. apply Some_inj in R. pose proof (index_lt nr nc i (j + 1)). lia.
  - intros e r He. destruct (index_split _ _ _ He) as (i & j & -> & Hi & Hj). unfold leftE. rewrite index_mod by assumption.
    destruct (Nat.eqb_spec j 0) as [->|].
    + destruct per; [|discriminate]. intros R. apply Some_inj in R. pose proof (index_lt nr nc i (nc - 1)). lia.
    + intros R. apply Some_inj in R. lia.
  - intros e1 e2 H1 H2. destruct (index_split _ _ _ H1) as (i & j & -> & Hi & Hj).
    destruct (index_split _ _ _ H2) as (i' & j' & -> & Hi' & Hj'). unfold rightE, leftE. rewrite !index_mod by assumption.
    destruct (Nat.eqb_spec j (nc - 1)) as [->|]; destruct (Nat.eqb_spec j' 0) as [->|].
    + destruct per; [|split; discriminate]. split; intros R; apply Some_inj in R.
      * destruct (M i 0 i' 0) as [-> _]; [lia|lia|lia|]. f_equal. lia.
      * destruct (M i' (nc - 1) i (nc - 1)) as [-> _]; [lia|lia|lia|]. f_equal. lia.
    + split; intros R; exfalso.
      * destruct per; [|discriminate]. apply Some_inj in R. destruct (M i 0 i' j'); lia.
      * apply Some_inj in R. destruct (M i' (j' - 1) i (nc - 1)); lia.
    + split; intros R; exfalso.
      * apply Some_inj in R. destruct (M i (j + 1) i' 0); lia.
      * destruct per; [|discriminate]. apply Some_inj in R. destruct (M i' (nc - 1) i j); lia.
    + split; intros R; apply Some_inj in R; f_equal; lia.
Qed.

Lemma edges_below : (forall e r, e < nr * nc -> belowE nr nc per e = Some r -> r < nr * nc) /\
  (forall e r, e < nr * nc -> aboveE nr nc per e = Some r -> r < nr * nc) /\
  (forall e i, e < nr * nc -> i < nr * nc -> (belowE nr nc per e = Some i <-> aboveE nr nc per i = Some e)).
Proof.
  assert (M : forall i j i' j', j < nc -> j' < nc -> i * nc + j = i' * nc + j' -> i = i' /\ j = j').
  { intros i j i' j' Hj Hj' E. split.
    - rewrite <- (index_div nc i j), <- (index_div nc i' j') by assumption. now rewrite E.
    - rewrite <- (index_mod nc i j), <- (index_mod nc i' j') by assumption. now rewrite E. }
  assert (W : forall j, nr * nc + j - nc = (nr - 1) * nc + j).
  { intros j. rewrite Nat.mul_sub_distr_r. assert (1 * nc <= nr * nc) by (apply Nat.mul_le_mono_r; lia). lia. }
  assert (V : forall i, (i + 1) * nc = i * nc + nc) by (intros; lia).
  split; [|split].
  - intros e r He. destruct (index_split _ _ _ He) as (i & j & -> & Hi & Hj). unfold belowE. rewrite index_mod, index_div by assumption.
    destruct (Nat.eqb_spec i (nr - 1)) as [->|].
    + destruct per; [|discriminate]. intros R. apply Some_inj in R. pose proof (index_lt nr nc 0 j). lia.
    + intros R. apply Some_inj in R. pose proof (index_lt nr nc (i + 1) j). lia.
  - intros e r He. destruct (index_split _ _ _ He) as (i & j & -> & Hi & Hj). unfold aboveE. rewrite index_mod, index_div by assumption.
    destruct (Nat.eqb_spec i 0) as [->|].
    + destruct per; [|discriminate]. intros R. apply Some_inj in R. rewrite W in R. pose proof (index_lt nr nc (nr - 1) j). lia.
    + intros R. apply Some_inj in R. lia.
  - intros e1 e2 H1 H2. destruct (index_split _ _ _ H1) as (i & j & -> & Hi & Hj).
    destruct (index_split _ _ _ H2) as (i' & j' & -> & Hi' & Hj'). unfold belowE, aboveE. rewrite !index_mod, !index_div by assumption.
    rewrite W.
    assert (P : i' <> 0 -> i' * nc = (i' - 1) * nc + nc) by (intros; rewrite <- V; f_equal; lia).
    destruct (Nat.eqb_spec i (nr - 1)) as [->|]; destruct (Nat.eqb_spec i' 0) as [->|].
    + destruct per; [|split; discriminate]. split; intros R; apply Some_inj in R; f_equal.
      * destruct (M 0 j 0 j'); lia.
      * destruct (M (nr - 1) j' (nr - 1) j) as [_ ->]; lia.
    + split; intros R; exfalso.
      * destruct per; [|discriminate]. apply Some_inj in R. destruct (M 0 j i' j'); lia.
      * apply Some_inj in R. specialize (P ltac:(assumption)). destruct (M (i' - 1) j' (nr - 1) j); try lia. remember ((i' - 1) * nc) as a. lia.
    + split; intros R; exfalso.
      * apply Some_inj in R. destruct (M (i + 1) j 0 j'); lia.
      * destruct per; [|discriminate]. apply Some_inj in R. destruct (M (nr - 1) j' i j); lia.
    + specialize (P ltac:(assumption)). remember ((i' - 1) * nc) as a. remember (i * nc) as b.
      split; intros R; apply Some_inj in R; f_equal; lia.
Qed.

Theorem ising2_incremental_right x l : length x = nr * nc -> increasing l -> Forall (fun i => i < nr * nc) l ->
  exists v w, ising2_evaluate right below field per x = Ok v /\
    ising2_evaluate right below field per (flipped_at x l) = Ok w /\
    ising2_incremental right below field per (repeat false (nr * nc)) x v l = Ok (w, repeat false (nr * nc)).
Proof.
  intros Hx Hinc F. set (n := nr * nc) in *. assert (P : positions n l) by (split; [now apply increasing_NoDup|assumption]).
  assert (F' := F). rewrite Forall_forall in F'.
  eexists. eexists. split; [now apply ising2_value_edges|].
  split; [apply ising2_value_edges; now rewrite length_flipped_at|].
  unfold ising2_incremental. destruct row0 as [E0 L0]. assert (Lf : length field = nr) by apply Gf. rewrite Lf, E0.
  destruct (Nat.ltb_spec 0 nr); [|lia]. cbn [assertb bind]. rewrite L0. destruct (Nat.ltb_spec 0 nc); [|lia].
  fold n. rewrite Hx, Nat.eqb_refl. pose proof (is_zero_repeat n) as Z0. rewrite Z0. cbn [assertb bind].
  rewrite (flip_zero_Ok n l Hinc F). cbn [bind].
  destruct edges_right as (R1 & R2 & R3). destruct edges_below as (B1 & B2 & B3). fold n in R1, R2, R3, B1, B2, B3.
  assert (Wr : nr * nc = (nr - 1) * nc + nc).
  { rewrite Nat.mul_sub_distr_r. assert (1 * nc <= nr * nc) by (apply Nat.mul_le_mono_r; lia). lia. }
  rewrite (foldM_add _ (right_delta x (at_site right nc) (rightE nc per) l)).
  2:{ intros e v He. apply F' in He. specialize (R1 e). destruct (index_split _ _ _ He) as (i & j & Ee & Hi & Hj).
      assert (Di : e / nc = i) by (rewrite Ee; now apply index_div).
      assert (Dj : e mod nc = j) by (rewrite Ee; now apply index_mod).
      unfold right_delta, at_site, rightE in *. rewrite Di, Dj in *.
      destruct (Nat.eqb_spec j (nc - 1)) as [Ej|Hne]; [destruct per; [|f_equal; lia]|];
        (match type of R1 with forall r, _ -> Some ?r0 = Some r -> _ => specialize (R1 r0 He eq_refl) end);
        repeat assert_ok; rewrite (couple_incremental_Ok _ _ _ _ _ (entry right i j)) by
          (rewrite ?length_flip_mask; try lia; apply (mget_Ok nr nc); assumption);
        rewrite nth_flip_mask by assumption; reflexivity. }
  cbn [bind].
  rewrite (foldM_add _ (left_delta x (at_site right nc) (leftE nc per) l)).
  2:{ intros e v He. apply F' in He. specialize (R2 e). destruct (index_split _ _ _ He) as (i & j & Ee & Hi & Hj).
      assert (Di : e / nc = i) by (rewrite Ee; now apply index_div).
      assert (Dj : e mod nc = j) by (rewrite Ee; now apply index_mod).
      unfold left_delta, at_site, leftE in *. rewrite Di, Dj in *.
      destruct (Nat.eqb_spec j 0) as [Ej|Hne].
      - destruct per; [|f_equal; lia].
        specialize (R2 _ He eq_refl). repeat assert_ok.
        rewrite (couple_incremental_Ok _ _ _ _ _ (entry right i (nc - 1))) by
          (rewrite ?length_flip_mask; try lia; apply (mget_Ok nr nc); assumption || lia).
        rewrite nth_flip_mask by assumption. destruct (memb l (e + (nc - 1))); [reflexivity|].
        replace (e + (nc - 1)) with (i * nc + (nc - 1)) by lia. rewrite index_div, index_mod by lia. do 2 f_equal. ring.
      - specialize (R2 _ He eq_refl). repeat assert_ok.
        rewrite (couple_incremental_Ok _ _ _ _ _ (entry right i (j - 1))) by
          (rewrite ?length_flip_mask; try lia; apply (mget_Ok nr nc); assumption || lia).
        rewrite nth_flip_mask by assumption. destruct (memb l (e - 1)); [reflexivity|].
        replace (e - 1) with (i * nc + (j - 1)) by lia. rewrite index_div, index_mod by lia. do 2 f_equal. ring. }
  cbn [bind].
  rewrite (foldM_add _ (right_delta x (at_site below nc) (belowE nr nc per) l)).
  2:{ intros e v He. apply F' in He. specialize (B1 e). destruct (index_split _ _ _ He) as (i & j & Ee & Hi & Hj).
      assert (Di : e / nc = i) by (rewrite Ee; now apply index_div).
      assert (Dj : e mod nc = j) by (rewrite Ee; now apply index_mod).
      unfold right_delta, at_site, belowE in *. rewrite Di, Dj in *.
      destruct (Nat.eqb_spec i (nr - 1)) as [Ej|Hne]; [destruct per; [|f_equal; lia]|];
        (match type of B1 with forall r, _ -> Some ?r0 = Some r -> _ => specialize (B1 r0 He eq_refl) end);
        repeat assert_ok; rewrite (couple_incremental_Ok _ _ _ _ _ (entry below i j)) by
          (rewrite ?length_flip_mask; try lia; apply (mget_Ok nr nc); assumption);
        rewrite nth_flip_mask by assumption; reflexivity. }
  cbn [bind].
  rewrite (foldM_add _ (left_delta x (at_site below nc) (aboveE nr nc per) l)).
  2:{ intros e v He. apply F' in He. specialize (B2 e). destruct (index_split _ _ _ He) as (i & j & Ee & Hi & Hj).
      assert (Di : e / nc = i) by (rewrite Ee; now apply index_div).
      assert (Dj : e mod nc = j) by (rewrite Ee; now apply index_mod).
      unfold left_delta, at_site, aboveE in *. rewrite Di, Dj in *.
      destruct (Nat.eqb_spec i 0) as [Ej|Hne].
      - destruct per; [|f_equal; lia].
        specialize (B2 _ He eq_refl). fold n in B2 |- *. repeat assert_ok.
        rewrite (couple_incremental_Ok _ _ _ _ _ (entry below (nr - 1) j)) by
          (rewrite ?length_flip_mask; try lia; apply (mget_Ok nr nc); assumption || lia).
        rewrite nth_flip_mask by assumption. destruct (memb l (n + j - nc)); [reflexivity|].
        replace (n + j - nc) with ((nr - 1) * nc + j) by (unfold n; rewrite Wr; remember ((nr - 1) * nc) as a; lia). rewrite index_div, index_mod by lia. do 2 f_equal. ring.
      - specialize (B2 _ He eq_refl).
        assert (i * nc = (i - 1) * nc + nc) by (replace i with ((i - 1) + 1) at 1 by lia; lia).
        assert (nc <= e) by (remember ((i - 1) * nc) as a; lia). repeat assert_ok.
        rewrite (couple_incremental_Ok _ _ _ _ _ (entry below (i - 1) j)) by
          (rewrite ?length_flip_mask; try lia; apply (mget_Ok nr nc); assumption || lia).
        rewrite nth_flip_mask by assumption. destruct (memb l (e - nc)); [reflexivity|].
        replace (e - nc) with ((i - 1) * nc + j) by (remember ((i - 1) * nc) as a; lia). rewrite index_div, index_mod by lia. do 2 f_equal. ring. }
  cbn [bind]. rewrite unflip_zero_Ok by assumption. cbn [bind]. rewrite Z0. cbn [assertb bind].
  rewrite (foldM_add _ (fun i => - 2 * at_site field nc i * spin (nth i x false))%Z).
  2:{ intros e v He. apply F' in He. destruct (index_split _ _ _ He) as (i & j & Ee & Hi & Hj).
      assert (Di : e / nc = i) by (rewrite Ee; now apply index_div).
      assert (Dj : e mod nc = j) by (rewrite Ee; now apply index_mod).
      unfold at_site. rewrite Di, Dj, (vget_Ok x e false) by lia. cbn [bind].
      rewrite (mget_Ok nr nc) by assumption. cbn [bind]. destruct (nth e x false); cbn [spin]; f_equal; lia. }
  cbn [bind]. f_equal. f_equal.
  rewrite (field_delta n (at_site field nc) x l Hx P).
  rewrite (edge_delta n (at_site right nc) (rightE nc per) (leftE nc per) x l Hx P R1 R2 R3).
  rewrite (edge_delta n (at_site below nc) (belowE nr nc per) (aboveE nr nc per) x l Hx P B1 B2 B3). ring.
Qed.
End Lattice.
