From Verif Require Import Base BaseLemmas BitVector_Model BitVector_Spec GF2 BitVector_Proofs
  BitMatrix_Model BitMatrix_Spec BitMatrix_Pure Iterator_Proofs.

(** * Tests on all entries *)

Lemma all_entries_true nr nc test M l : wf nr nc M ->
  (forall i j, In (i, j) l -> i < nr /\ j < nc /\ test i j (entry M i j) = true) ->
  all_entries test M l = Ok true.
Proof.
  intros H Hl. induction l as [|[i j] l IH]; auto. cbn [all_entries].
  destruct (Hl i j) as (Hi & Hj & Ht); [now left|]. rewrite (mget_Ok nr nc) by auto. cbn [bind].
  rewrite Ht. apply IH. intros i' j' Hin. apply Hl. now right.
Qed.

Lemma is_upper_triangular_true nr nc M : wf nr nc M -> 0 < nr ->
  (forall i j, j < i -> i < nr -> j < nc -> entry M i j = false) ->
  bm_is_upper_triangular M = Ok true.
Proof.
  intros H Hr Hz. unfold bm_is_upper_triangular. rewrite (num_columns_Ok nr nc) by auto. cbn [bind].
  apply (all_entries_true nr nc); auto. intros i j Hin. apply in_flat_map in Hin as (i' & Hi' & Hin).
  apply in_map_iff in Hin as (j' & E & Hj). injection E as <- <-. apply in_seq in Hi', Hj.
  unfold bm_num_rows in Hi'. destruct H as [HL _]. rewrite HL in *.
  repeat split; try lia. rewrite Hz; auto; lia.
Qed.

Lemma is_identity_true n M : wf n n M -> 0 < n ->
  (forall i j, i < n -> j < n -> entry M i j = (i =? j)) -> bm_is_identity M = Ok true.
Proof.
  intros H Hn Hz. unfold bm_is_identity. rewrite (bm_is_valid_Ok n n), (is_square_Ok n) by auto. cbn [bind].
  apply (all_entries_true n n); auto. intros i j Hin. apply in_prod_iff in Hin as [Hi Hj].
  apply in_seq in Hi, Hj. unfold bm_num_rows in *. pose proof (proj1 H) as HL. rewrite HL in *.
  repeat split; try lia. rewrite Hz by lia. destruct (Nat.eqb_spec i j); auto.
Qed.

(** The converse of the tests *)

Lemma all_entries_exact nr nc test M l : wf nr nc M -> (forall i j, In (i, j) l -> i < nr /\ j < nc) ->
  exists b, all_entries test M l = Ok b /\
    (b = true <-> forall i j, In (i, j) l -> test i j (entry M i j) = true).
Proof.
  intros H. induction l as [|[i j] l IH]; intros Hl; cbn [all_entries].
  - exists true. split; [reflexivity|]. split; [intros _ ? ? []|reflexivity].
  - destruct (Hl i j) as [Hi Hj]; [now left|]. rewrite (mget_Ok nr nc) by auto. cbn [bind].
    destruct (test i j (entry M i j)) eqn:T.
    + destruct IH as (b & E & B). { intros ? ? ?. apply Hl. now right. }
      exists b. split; [exact E|]. rewrite B. split; intros K i' j' Hin.
      * destruct Hin as [Eq|Hin]; [injection Eq as <- <-; exact T|now apply K].
      * apply K. now right.
    + exists false. split; auto. split; [discriminate|]. intros K. rewrite <- T. apply K. now left.
Qed.

Lemma is_upper_triangular_exact nr nc M : is_matrix nr nc M ->
  exists b, bm_is_upper_triangular M = Ok b /\
    (b = true <-> forall i j, i < nr -> j < nc -> j < i -> entry M i j = false).
Proof.
  intros (Hr & Hc & W). unfold bm_is_upper_triangular. rewrite (num_columns_Ok nr nc) by auto. cbn [bind].
  assert (L : forall i j, In (i, j) (flat_map (fun i => map (fun j => (i, j)) (seq 0 (Nat.min i nc))) (seq 0 (bm_num_rows M))) <->
    i < nr /\ j < nc /\ j < i).
  { intros i j. unfold bm_num_rows. rewrite (proj1 W), in_flat_map. split.
    - intros (i' & Hi' & Hin). apply in_map_iff in Hin as (j' & E & Hj). injection E as <- <-. apply in_seq in Hi', Hj. lia.
    - intros (Hi & Hj & Hji). exists i. split; [apply in_seq; lia|]. apply in_map_iff. exists j. split; auto. apply in_seq. lia. }
  destruct (all_entries_exact nr nc (fun _ _ b => negb b) M
    (flat_map (fun i => map (fun j => (i, j)) (seq 0 (Nat.min i nc))) (seq 0 (bm_num_rows M)))) as (b & E & B); auto.
  { intros i j Hin. apply L in Hin. lia. }
  exists b. split; [exact E|]. rewrite B. split.
  - intros K i j Hi Hj Hji. apply negb_true_iff. apply K. now apply L.
  - intros K i j Hin. apply L in Hin. apply negb_true_iff. now apply K.
Qed.

Lemma bm_is_valid_exact M : bm_is_valid M = true <-> exists nr nc, is_matrix nr nc M.
Proof.
  split.
  - destruct M as [|row0 M]; [discriminate|]. cbn [bm_is_valid]. intros H.
    apply andb_true_iff in H as [H0 HF]. apply negb_true_iff, Nat.eqb_neq in H0.
    exists (length (row0 :: M)), (length row0). split; [cbn; lia|]. split; [lia|]. split; auto.
    apply Forall_forall. intros row Hin. rewrite forallb_forall in HF. now apply Nat.eqb_eq, HF.
  - intros (nr & nc & Hr & Hc & W). now rewrite (bm_is_valid_Ok nr nc).
Qed.

Lemma is_identity_exact M : exists b, bm_is_identity M = Ok b /\
  (b = true <-> exists n, 0 < n /\ M = identity_matrix n).
Proof.
  unfold bm_is_identity. destruct (bm_is_valid M) eqn:V.
  - apply bm_is_valid_exact in V as (nr & nc & Hr & Hc & W).
    unfold bm_is_square. rewrite (num_columns_Ok nr nc) by auto. cbn [bind]. unfold bm_num_rows. rewrite (proj1 W).
    destruct (Nat.eqb_spec nr nc) as [->|D].
    + destruct (all_entries_exact nc nc (fun i j b => if i =? j then b else negb b) M (list_prod (seq 0 nc) (seq 0 nc))) as (b & E & B); auto.
      { intros i j Hin. apply in_prod_iff in Hin as [Hi Hj]. apply in_seq in Hi, Hj. lia. }
      exists b. split; [exact E|]. rewrite B. split.
      * intros K. exists nc. split; auto. apply (wf_ext nc nc); auto using wf_identity.
        intros i j Hi Hj. rewrite entry_identity by auto.
        specialize (K i j). rewrite in_prod_iff, !in_seq in K. specialize (K ltac:(lia)).
        destruct (i =? j); [exact K|]. now apply negb_true_iff.
      * intros (n & Hn & ->) i j Hin. apply in_prod_iff in Hin as [Hi Hj]. apply in_seq in Hi, Hj.
        assert (n = nc) as -> . { destruct W as [WL _]. unfold identity_matrix in WL. now rewrite map_length, seq_length in WL. }
        rewrite entry_identity by lia. now destruct (i =? j).
    + exists false. split; auto. split; [discriminate|]. intros (n & Hn & ->). exfalso. apply D.
      destruct W as [WL WF]. pose proof (wf_identity n) as [IL IF]. rewrite IL in WL. subst nr.
      destruct (identity_matrix n) as [|r l]; [cbn in IL; lia|]. inversion WF; inversion IF; subst. lia.
  - exists false. split; auto. split; [discriminate|]. intros (n & Hn & ->).
    enough (bm_is_valid (identity_matrix n) = true) by congruence.
    rewrite (bm_is_valid_Ok n n); auto using wf_identity.
Qed.

(** * Downward pass *)

Fixpoint pdown (n : nat) (A : bm) (l : list nat) : bool * bm :=
  match l with
  | [] => (true, A)
  | i :: l' =>
      match find (fun k => entry A k i) (seq i (n - i)) with
      | None => (false, A)
      | Some p => pdown n (pivot_step n A i i p) l'
      end
  end.

Definition down_ok (n : nat) (A : bm) (i : nat) : Prop :=
  forall c, c < i -> entry A c c = true /\ forall k, c < k < n -> entry A k c = false.

Lemma pdown_spec n A i : wf n n A -> i <= n -> down_ok n A i ->
  let r := pdown n A (seq i (n - i)) in
  wf n n (snd r) /\
  (fst r = true -> down_ok n (snd r) n) /\
  (fst r = false -> exists i0, i0 < n /\ down_ok n (snd r) i0 /\ forall k, i0 <= k < n -> entry (snd r) k i0 = false).
Proof.
  intros HW Hi HD. remember (n - i) as m eqn:Em. revert A i HW Hi HD Em.
  induction m as [|m IH]; intros A i HW Hi HD Em; cbn [seq pdown].
  - cbn. split; auto. split; [|discriminate]. intros _. now replace n with i at 2 by lia.
  - assert (i < n) as Hin by lia.
    destruct (find (fun k => entry A k i) (seq i (n - i))) as [p|] eqn:Ep.
    + apply find_seq_Some in Ep as [Hp Ep].
      destruct (pivot_step_spec n n A i i p) as (W & R1 & R2 & R3 & R4); auto; try lia.
      apply IH; auto; try lia. intros c Hc.
      destruct (Nat.eq_dec c i) as [->|Hne].
      * split; [now rewrite R2|]. intros k Hk. apply R3. lia.
      * destruct (HD c) as [D1 D2]; [lia|]. split; [rewrite R1 by lia; auto|].
        intros k Hk. destruct (Nat.lt_ge_cases k i) as [Hki|Hki].
        -- rewrite R1 by lia. apply D2. lia.
        -- apply R4; [|lia]. intros k' Hk'. apply D2. lia.
    + cbn. split; auto. split; [discriminate|]. intros _. exists i. repeat split; auto.
      * now apply HD.
      * intros k Hk. now apply HD.
      * intros k Hk. apply (find_seq_None _ _ _ k Ep). lia.
Qed.

(** A failed pivot search exhibits a non-zero vector of the kernel. *)
Lemma kernel_vector n A i0 : wf n n A -> i0 < n -> down_ok n A i0 ->
  (forall k, i0 <= k < n -> entry A k i0 = false) ->
  exists x, length x = n /\ nth i0 x false = true /\ mulv A x = zerov n.
Proof.
  intros HW Hi HD Hz.
  assert (forall m k, k + m = i0 -> exists x, length x = n /\ nth i0 x false = true /\
            forall r, k <= r < n -> dot (nth r A []) x = false) as G.
  { induction m as [|m IH]; intros k Hk.
    - exists (unitv n i0). split; [apply length_unitv|]. split; [rewrite nth_unitv, Nat.eqb_refl; auto|].
      intros r Hr. rewrite dot_unitv; auto; [apply Hz; lia|]. apply (wf_row n n); auto. lia.
    - destruct (IH (k + 1)) as (x & Hx & X1 & X2); [lia|].
      destruct (dot (nth k A []) x) eqn:Ed.
      + exists (vxor x (unitv n k)).
        assert (length (unitv n k) = n) by apply length_unitv.
        split; [now apply length_vxor|]. split.
        * rewrite (nth_vxor n), X1, nth_unitv by auto. destruct (Nat.eqb_spec i0 k); [lia|]. auto.
        * intros r Hr. assert (length (nth r A []) = n) by (apply (wf_row n n); auto; lia).
          rewrite (dot_vxor_r n), dot_unitv by (auto; lia).
          destruct (HD k) as [D1 D2]; [lia|].
          destruct (Nat.eq_dec r k) as [->|Hne].
          -- unfold entry in D1. rewrite Ed, D1. auto.
          -- rewrite X2 by lia. specialize (D2 r). unfold entry in D2. rewrite D2 by lia. auto.
      + exists x. repeat split; auto. intros r Hr. destruct (Nat.eq_dec r k) as [->|]; auto. apply X2. lia. }
  destruct (G i0 0 eq_refl) as (x & Hx & X1 & X2). exists x. repeat split; auto.
  apply (bv_ext n); [now rewrite length_mulv, (proj1 HW)|apply length_zerov|]. intros r Hr.
  rewrite nth_mulv, nth_zerov. apply X2. lia.
Qed.

(** * Upward pass *)

Fixpoint pup (A : bm) (i : nat) : bm :=  (* columns i-1, ..., 0 *)
  match i with
  | 0 => A
  | S i' => pup (elim A i' i' (seq 0 i')) i'
  end.

Definition up_ok (n : nat) (A : bm) (i : nat) : Prop :=
  forall k c, i <= c < n -> k < n -> entry A k c = (k =? c).

Lemma elim_up_spec n A i : wf n n A -> i < n -> down_ok n A n -> up_ok n A (S i) ->
  wf n n (elim A i i (seq 0 i)) /\ down_ok n (elim A i i (seq 0 i)) n /\ up_ok n (elim A i i (seq 0 i)) i.
Proof.
  intros HW Hi HD HU.
  assert (Forall (fun k => k < n) (seq 0 i)) as HF by (apply Forall_seq_lt; lia).
  assert (~ In i (seq 0 i)) as Hni by (rewrite in_seq; lia).
  pose proof (fun k c => entry_elim n n A i i _ k c HW Hi HF (seq_NoDup _ _) Hni) as EE.
  assert (forall c, c < n -> entry A i c = (i =? c)) as Ri.
  { intros c Hc. destruct (Nat.lt_trichotomy c i) as [H|[->|H]].
    - destruct (HD c Hc) as [_ D]. rewrite D by lia. symmetry. apply Nat.eqb_neq. lia.
    - destruct (HD i Hi) as [D _]. now rewrite D, Nat.eqb_refl.
    - rewrite HU by lia. auto. }
  split; [apply wf_elim; auto|]. split.
  - intros c Hc. split.
    + rewrite EE. destruct (in_dec _ c _) as [Hin|_]; [|apply HD; auto].
      apply in_seq in Hin. rewrite Ri by auto. destruct (Nat.eqb_spec i c); [lia|].
      rewrite andb_false_r, xorb_false_r. apply HD; auto.
    + intros k Hk. destruct (HD c Hc) as [_ D]. rewrite EE, D by lia.
      destruct (in_dec _ k _) as [Hin|_]; auto. apply in_seq in Hin. rewrite Ri by auto.
      destruct (Nat.eqb_spec i c); [lia|]. now rewrite andb_false_r.
  - intros k c Hc Hk. rewrite EE. destruct (in_dec _ k _) as [Hin|Hin].
    + apply in_seq in Hin. rewrite Ri by lia. destruct (Nat.eqb_spec i c) as [<-|Hne].
      * rewrite andb_true_r, xorb_nilpotent. symmetry. apply Nat.eqb_neq. lia.
      * rewrite andb_false_r, xorb_false_r. apply HU; lia.
    + destruct (Nat.eq_dec c i) as [->|Hne]; [|apply HU; lia].
      destruct (Nat.eq_dec k i) as [->|Hki]; [rewrite Ri, Nat.eqb_refl; auto|].
      destruct (HD i Hi) as [_ D].
      assert (i < k) by (rewrite in_seq in Hin; lia). rewrite D by lia. symmetry. now apply Nat.eqb_neq.
Qed.

Lemma pup_spec n A i : wf n n A -> i <= n -> down_ok n A n -> up_ok n A i -> pup A i = identity_matrix n.
Proof.
  revert A; induction i as [|i IH]; intros A HW Hi HD HU; cbn [pup].
  - apply (wf_ext n n); auto using wf_identity. intros r c Hr Hc. rewrite entry_identity by auto. apply HU; lia.
  - destruct (elim_up_spec n A i) as (W & D & U); auto. apply IH; auto. lia.
Qed.

(** * bm_solve *)

Section Solve.
  Variables (n : nat) (A0 : bm) (b0 : bv).
  Hypothesis Hn : 0 < n.

  Definition solve_good (s : bm * bv) : Prop :=
    length (snd s) = n /\
    forall x, length x = n -> (mulv (fst s) x = snd s <-> mulv A0 x = b0).

  Lemma solve_good_swap A b i j : wf n n A -> i < n -> j < n -> solve_good (A, b) ->
    vswap b i j = Ok (bswap b i j) /\ solve_good (swapr A i j, bswap b i j).
  Proof.
    intros HW Hi Hj [G1 G2]; cbn [fst snd] in *. split.
    - unfold vswap. rewrite (vget_Ok b i false), (vget_Ok b j false) by lia. cbn [bind].
      rewrite vset_Ok by lia. cbn [bind]. rewrite vset_Ok by (rewrite length_upd; lia). auto.
    - split; cbn [fst snd]; [now rewrite length_bswap|]. intros x Hx. rewrite <- (G2 x Hx).
      rewrite (mulv_swapr n n) by auto. pose proof (length_mulv A x) as HL. rewrite (proj1 HW) in HL. split; intros E.
      + rewrite <- (bswap_involutive (mulv A x) i j), E by lia. apply bswap_involutive; lia.
      + congruence.
  Qed.

  Lemma solve_good_add A b d s : wf n n A -> d < n -> s < n -> d <> s -> solve_good (A, b) ->
    add_rows_with A b d s = Ok (addr A d s, badd b d s) /\ solve_good (addr A d s, badd b d s).
  Proof.
    intros HW Hd Hs Hne [G1 G2]; cbn [fst snd] in *. split.
    - unfold add_rows_with. rewrite (add_rows_Ok n n) by auto. cbn [bind].
      rewrite (vget_Ok b s false), (vget_Ok b d false) by lia. cbn [bind].
      rewrite vset_Ok by lia. auto.
    - split; cbn [fst snd]; [now rewrite length_badd|]. intros x Hx. rewrite <- (G2 x Hx).
      rewrite (mulv_addr n n) by auto. pose proof (length_mulv A x) as HL. rewrite (proj1 HW) in HL. split; intros E.
      + rewrite <- (badd_involutive (mulv A x) d s), E by lia. apply badd_involutive; lia.
      + congruence.
  Qed.

  Lemma solve_elim_loop l r j s : r < n -> j < n -> Forall (fun i => i < n) l -> ~ In r l ->
    solve_good s -> wf n n (fst s) ->
    exists s', foldM (fun (s : bm * bv) i =>
        let '(A, b) := s in
        v <- mget A i j ;; if (v : bool) then add_rows_with A b i r else Ok (A, b)) l s = Ok s' /\
      solve_good s' /\ fst s' = elim (fst s) r j l.
  Proof.
    intros Hr Hj HF Hnr HG HW. apply (foldM_elim fst solve_good _ n n); auto.
    intros [A b] i G W Hi Hne _. cbn [fst] in *. rewrite (mget_Ok n n) by auto. cbn [bind]. unfold elim1.
    destruct (entry A i j).
    - destruct (solve_good_add A b i r) as [E G']; auto. rewrite E. eauto.
    - eauto.
  Qed.

  Lemma solve_down_Ok l A b : Forall (fun i => i < n) l -> wf n n A -> solve_good (A, b) ->
    exists b', solve_down A b l = Ok (fst (pdown n A l), snd (pdown n A l), b') /\
      wf n n (snd (pdown n A l)) /\ solve_good (snd (pdown n A l), b').
  Proof.
    intros HF. revert A b. induction HF as [|i l Hi HF IH]; intros A b HW HG; cbn [solve_down pdown].
    - exists b. auto.
    - unfold bm_num_rows. rewrite (proj1 HW).
      rewrite (find_pivot_Ok n n) by (auto; apply Forall_seq_lt; lia). cbn [bind].
      destruct (find _ (seq i (n - i))) as [p|] eqn:Ep; [|exists b; auto].
      apply find_seq_Some in Ep as [Hp Ep].
      assert (exists b1, (if negb (p =? i)
              then A1 <- bm_swap_rows A i p ;; b1 <- vswap b i p ;; Ok (A1, b1)
              else Ok (A, b)) = Ok (if p =? i then A else swapr A i p, b1) /\
              solve_good (if p =? i then A else swapr A i p, b1)) as (b1 & E1 & G1).
      { destruct (Nat.eqb_spec p i); cbn [negb]; [exists b; auto|].
        destruct (solve_good_swap A b i p) as [E G]; auto; try lia.
        rewrite (swap_rows_Ok n n) by (auto; lia). cbn [bind]. rewrite E. cbn [bind]. eauto. }
      rewrite E1. cbn [bind].
      assert (wf n n (if p =? i then A else swapr A i p)) as W1 by (destruct (p =? i); auto; apply wf_swapr; auto; lia).
      destruct (solve_elim_loop (seq (i + 1) (n - (i + 1))) i i (if p =? i then A else swapr A i p, b1))
        as ([A2 b2] & E2 & G2 & M2); auto; try (apply Forall_seq_lt; lia); [rewrite in_seq; lia|].
      rewrite E2. cbn [bind]. cbn [fst] in M2.
      change (elim (if p =? i then A else swapr A i p) i i (seq (i + 1) (n - (i + 1)))) with (pivot_step n A i i p) in M2.
      subst A2. apply IH; auto.
      apply (pivot_step_spec n n A i i p); auto; lia.
  Qed.

  Lemma solve_up_Ok m s : m <= n -> solve_good s -> wf n n (fst s) ->
    exists s', foldM (fun s k =>
      let i := n - 1 - k in
      foldM (fun (s : bm * bv) j =>
        let '(A, b) := s in
        v <- mget A j i ;; if (v : bool) then add_rows_with A b j i else Ok (A, b))
        (seq 0 i) s)
      (seq (n - m) m) s = Ok s' /\ solve_good s' /\ fst s' = pup (fst s) m.
  Proof.
    revert s. induction m as [|m IH]; intros s Hm HG HW; cbn [seq foldM pup].
    - eauto.
    - cbv zeta. replace (n - 1 - (n - S m)) with m by lia.
      destruct (solve_elim_loop (seq 0 m) m m s) as (s1 & E1 & G1 & M1); auto; try lia;
        [apply Forall_seq_lt; lia|rewrite in_seq; lia|].
      rewrite E1. cbn [bind]. replace (S (n - S m)) with (n - m) by lia.
      rewrite <- M1. apply IH; auto; try lia. rewrite M1. apply wf_elim; auto. apply Forall_seq_lt; lia.
  Qed.
End Solve.

Lemma down_ok_upper n A : down_ok n A n -> forall i j, j < i -> i < n -> j < n -> entry A i j = false.
Proof. intros H i j H1 H2 H3. apply (H j); lia. Qed.

Lemma solve_upper_Ok n A0 b0 A b : 0 < n -> wf n n A -> down_ok n A n -> solve_good n A0 b0 (A, b) ->
  exists b', bm_solve_upper_triangular A b = Ok (true, identity_matrix n, b') /\ solve_good n A0 b0 (identity_matrix n, b').
Proof.
  intros Hn HW HD HG. unfold bm_solve_upper_triangular.
  rewrite (is_square_Ok n) by auto. cbn [assertb bind].
  unfold bm_num_rows. rewrite (proj1 HW). pose proof (proj1 HG) as HL. cbn [snd] in HL. rewrite HL, Nat.eqb_refl.
  cbn [assertb bind].
  rewrite (is_upper_triangular_true n n) by (auto; intros; eapply down_ok_upper; eauto). cbn [assertb bind].
  destruct (solve_up_Ok n A0 b0 Hn n (A, b)) as ([A' b'] & E & G & M); auto.
  rewrite Nat.sub_diag in E. cbv zeta in *. rewrite E. cbn [bind]. cbn [fst] in M.
  rewrite (pup_spec n) in M; auto; [|intros k c ?; lia]. subst A'.
  rewrite (is_identity_true n) by (auto using wf_identity, entry_identity). cbn [assertb bind]. eauto.
Qed.

Lemma solve_good_refl n A b : length b = n -> solve_good n A b (A, b).
Proof. intros H. split; auto. cbn. tauto. Qed.

Lemma down_ok_0 n A : down_ok n A 0.
Proof. intros c Hc. lia. Qed.

(** Raw result of bm_solve. *)
Lemma bm_solve_raw n A b : 0 < n -> wf n n A -> length b = n ->
  (exists b', bm_solve A b = Ok (true, identity_matrix n, b') /\ length b' = n /\
     forall x, length x = n -> (mulv A x = b <-> x = b')) \/
  (exists A' b', bm_solve A b = Ok (false, A', b') /\
     exists z, length z = n /\ z <> zerov n /\ mulv A z = zerov n).
Proof.
  intros Hn HW HL. unfold bm_solve. rewrite (is_square_Ok n) by auto. cbn [assertb bind].
  unfold bm_num_rows. rewrite (proj1 HW), HL, Nat.eqb_refl. cbn [assertb bind].
  destruct (solve_down_Ok n A b Hn (seq 0 n) A b) as (b1 & E & W & G);
    auto using solve_good_refl; [apply Forall_seq_lt; lia|].
  rewrite E. cbn [bind].
  destruct (pdown_spec n A 0) as (W' & T & F); auto using down_ok_0; [lia|]. rewrite Nat.sub_0_r in *.
  destruct (fst (pdown n A (seq 0 n))) eqn:Ef.
  - left. rewrite (is_upper_triangular_true n n) by (auto; intros; eapply down_ok_upper; eauto). cbn [assertb bind].
    destruct (solve_upper_Ok n A b (snd (pdown n A (seq 0 n))) b1) as (b' & E' & G1 & G2); auto.
    rewrite E'. exists b'. repeat split; auto; cbn [fst snd] in *.
    + intros Hx. apply G2 in Hx; auto. rewrite mulv_identity in Hx; auto.
    + intros ->. apply G2; auto. apply mulv_identity. auto.
  - right. do 2 eexists. split; [reflexivity|].
    (* kernel of the reduced matrix: same trick with a zero right-hand side *)
    destruct (F eq_refl) as (i0 & Hi0 & D & Z).
    destruct (kernel_vector n _ i0 W' Hi0 D Z) as (z & Hz & Hz1 & Hz2).
    exists z. split; auto. split.
    + intros ->. rewrite nth_zerov in Hz1. discriminate.
    + destruct (solve_down_Ok n A (zerov n) Hn (seq 0 n) A (zerov n)) as (b2 & E2 & _ & G2);
        auto using solve_good_refl, length_zerov; [apply Forall_seq_lt; lia|].
      destruct G2 as [L2 G2]; cbn [fst snd] in *.
      assert (mulv (snd (pdown n A (seq 0 n))) (zerov n) = b2) as E0.
      { apply G2; [apply length_zerov|]. now apply (mulv_zero n n). }
      apply G2; auto. rewrite Hz2, <- E0. symmetry. now apply (mulv_zero n n).
Qed.

(** bm_solve_upper_triangular on its own *)
Lemma find_seq_first f a b p : find f (seq a b) = Some p -> a <= p < a + b /\ f p = true /\ forall i, a <= i < p -> f i = false.
Proof.
  revert a. induction b as [|b IH]; intros a; cbn [seq find]; [discriminate|]. destruct (f a) eqn:Fa.
  - intros E. apply Some_inj in E as <-. split; [lia|]. split; auto. lia.
  - intros E. apply IH in E as (H1 & H2 & H3). split; [lia|]. split; auto. intros i Hi.
    destruct (Nat.eq_dec i a) as [->|]; auto. apply H3. lia.
Qed.

Lemma solve_upper_exact n A b : is_matrix n n A -> length b = n ->
  (forall i j, i < n -> j < n -> j < i -> entry A i j = false) ->
  ((forall i, i < n -> entry A i i = true) /\
   exists b', bm_solve_upper_triangular A b = Ok (true, identity_matrix n, b') /\ length b' = n /\ mulv A b' = b /\
     forall x, length x = n -> mulv A x = b -> x = b') \/
  ((exists i, i < n /\ entry A i i = false) /\ bm_solve_upper_triangular A b = UB).
Proof.
  intros (Hn & _ & W) HL U. change (wf n n A) in W.
  destruct (find (fun i => negb (entry A i i)) (seq 0 n)) as [i0|] eqn:F.
  - right. apply find_seq_first in F as (Hi0 & E0 & Hfirst). apply negb_true_iff in E0.
    split; [now exists i0|].
    assert (down_ok n A i0) as D.
    { intros c Hc. split; [|intros k Hk; apply U; lia]. specialize (Hfirst c ltac:(lia)). now apply negb_false_iff. }
    destruct (kernel_vector n A i0 W ltac:(lia) D) as (z & Hz & Hz1 & Hz2).
    { intros k Hk. destruct (Nat.eq_dec k i0) as [->|]; auto. apply U; lia. }
    unfold bm_solve_upper_triangular. rewrite (is_square_Ok n) by auto. cbn [assertb bind].
    unfold bm_num_rows. rewrite (proj1 W), HL, Nat.eqb_refl. cbn [assertb bind].
    rewrite (is_upper_triangular_true n n) by auto. cbn [assertb bind].
    assert (K : exists A' b', foldM (fun s k =>
      let i := n - 1 - k in
      foldM (fun (s : bm * bv) j =>
        let '(A, b) := s in
        v <- mget A j i ;; if (v : bool) then add_rows_with A b j i else Ok (A, b))
        (seq 0 i) s)
      (seq 0 n) (A, b) = Ok (A', b') /\ bm_is_identity A' = Ok false).
    { destruct (solve_up_Ok n A b Hn n (A, b)) as ([A' b'] & E & G & M); auto using solve_good_refl.
      rewrite Nat.sub_diag in E. exists A', b'. split; [exact E|].
      destruct (is_identity_exact A') as ([|] & EI & I); auto. exfalso.
      destruct (proj1 I eq_refl) as (m & Hm & ->).
      destruct (solve_up_Ok n A (zerov n) Hn n (A, zerov n)) as ([A2 b2] & _ & G2 & M2); auto using solve_good_refl, length_zerov.
      cbn [fst] in M, M2. rewrite <- M in M2. subst A2. destruct G2 as [L2 G2]; cbn [fst snd] in *.
      assert (m = n) as ->.
      { pose proof (proj2 (G2 (zerov n) (length_zerov n))) as Z. rewrite (mulv_zero n n) in Z by auto. specialize (Z eq_refl).
        apply (f_equal (@length bool)) in Z. rewrite length_mulv, L2 in Z. unfold identity_matrix in Z. now rewrite map_length, seq_length in Z. }
      pose proof (proj2 (G2 z Hz) Hz2) as Z1. pose proof (proj2 (G2 (zerov n) (length_zerov n)) ltac:(now apply (mulv_zero n n))) as Z2.
      rewrite mulv_identity in Z1, Z2 by auto using length_zerov. rewrite <- Z2 in Z1. subst z. rewrite nth_zerov in Hz1. discriminate. }
    destruct K as (A' & b' & E & I). cbv zeta in *. rewrite E. cbn [bind]. now rewrite I.
  - left. assert (T : forall i, i < n -> entry A i i = true).
    { intros i Hi. apply negb_false_iff. apply (find_seq_None _ _ _ i F). lia. }
    split; auto.
    destruct (solve_upper_Ok n A b A b) as (b' & E & G1 & G2); auto using solve_good_refl.
    { intros c Hc. split; auto. intros k Hk. apply U; lia. }
    cbn [fst snd] in *. exists b'. repeat split; auto.
    + apply G2; auto. now apply mulv_identity.
    + intros x Hx E'. apply G2 in E'; auto. now rewrite mulv_identity in E'.
Qed.

(** * bm_invert *)

Section Invert.
  Variables (n : nat) (M0 : bm).
  Hypothesis Hn : 0 < n.

  Definition inv_good (s : bm * bm) : Prop :=
    wf n n (snd s) /\
    (forall x, length x = n -> mulv (fst s) x = mulv (snd s) (mulv M0 x)) /\
    (forall y, length y = n -> mulv (snd s) y = zerov n -> y = zerov n).

  Lemma bswap_zerov i j : i < n -> j < n -> bswap (zerov n) i j = zerov n.
  Proof.
    intros Hi Hj. apply (bv_ext n); rewrite ?length_bswap; auto using length_zerov. intros k Hk.
    rewrite nth_bswap, !nth_zerov by (rewrite length_zerov; auto). now destruct (k =? j), (k =? i).
  Qed.

  Lemma badd_zerov i j : i < n -> badd (zerov n) i j = zerov n.
  Proof.
    intros Hi. apply (bv_ext n); rewrite ?length_badd; auto using length_zerov. intros k Hk.
    rewrite nth_badd, !nth_zerov by (rewrite length_zerov; auto). now destruct (k =? i).
  Qed.

  Lemma inv_good_swap M N i j : wf n n M -> i < n -> j < n -> inv_good (M, N) ->
    inv_good (swapr M i j, swapr N i j).
  Proof.
    intros HW Hi Hj (G1 & G2 & G3); cbn [fst snd] in *. repeat split; cbn [fst snd].
    - apply (wf_swapr n n); auto.
    - apply (wf_swapr n n); auto.
    - intros x Hx. rewrite !(mulv_swapr n n), G2; auto.
    - intros y Hy E. apply G3; auto. rewrite (mulv_swapr n n) in E by auto.
      assert (length (mulv N y) = n) as L by (rewrite length_mulv; apply G1).
      rewrite <- (bswap_involutive (mulv N y) i j), E by lia. now apply bswap_zerov.
  Qed.

  Lemma inv_good_add M N d s : wf n n M -> d < n -> s < n -> d <> s -> inv_good (M, N) ->
    add_rows_both M N d s = Ok (addr M d s, addr N d s) /\ inv_good (addr M d s, addr N d s).
  Proof.
    intros HW Hd Hs Hne (G1 & G2 & G3); cbn [fst snd] in *. split.
    - unfold add_rows_both. now rewrite !(add_rows_Ok n n) by auto.
    - split; [|split]; cbn [fst snd].
      + apply (wf_addr n n); auto.
      + intros x Hx. rewrite !(mulv_addr n n), G2; auto.
      + intros y Hy E. apply G3; auto. rewrite (mulv_addr n n) in E by auto.
        assert (length (mulv N y) = n) as L by (rewrite length_mulv; apply G1).
        rewrite <- (badd_involutive (mulv N y) d s), E by lia. now apply badd_zerov.
  Qed.

  Lemma inv_elim_loop l r j s : r < n -> j < n -> Forall (fun i => i < n) l -> ~ In r l ->
    inv_good s -> wf n n (fst s) ->
    exists s', foldM (fun (s : bm * bm) i =>
        let '(M, N) := s in
        v <- mget M i j ;; if (v : bool) then add_rows_both M N i r else Ok (M, N)) l s = Ok s' /\
      inv_good s' /\ fst s' = elim (fst s) r j l.
  Proof.
    intros Hr Hj HF Hnr HG HW. apply (foldM_elim fst inv_good _ n n); auto.
    intros [M N] i G W Hi Hne _. cbn [fst] in *. rewrite (mget_Ok n n) by auto. cbn [bind]. unfold elim1.
    destruct (entry M i j).
    - destruct (inv_good_add M N i r) as [E G']; auto. rewrite E. eauto.
    - eauto.
  Qed.

  Lemma invert_down_Ok l M N : Forall (fun i => i < n) l -> wf n n M -> inv_good (M, N) ->
    exists N', invert_down M N l = Ok (fst (pdown n M l), snd (pdown n M l), N') /\
      wf n n (snd (pdown n M l)) /\ inv_good (snd (pdown n M l), N').
  Proof.
    intros HF. revert M N. induction HF as [|i l Hi HF IH]; intros M N HW HG; cbn [invert_down pdown].
    - exists N. auto.
    - unfold bm_num_rows. rewrite (proj1 HW).
      rewrite (find_pivot_Ok n n) by (auto; apply Forall_seq_lt; lia). cbn [bind].
      destruct (find _ (seq i (n - i))) as [p|] eqn:Ep; [|exists N; auto].
      apply find_seq_Some in Ep as [Hp Ep].
      assert (exists N1, (if negb (p =? i)
              then M1 <- bm_swap_rows M i p ;; N1 <- bm_swap_rows N i p ;; Ok (M1, N1)
              else Ok (M, N)) = Ok (if p =? i then M else swapr M i p, N1) /\
              inv_good (if p =? i then M else swapr M i p, N1)) as (N1 & E1 & G1).
      { destruct (Nat.eqb_spec p i); cbn [negb]; [exists N; auto|].
        pose proof (inv_good_swap M N i p HW Hi ltac:(lia) HG) as G.
        rewrite !(swap_rows_Ok n n) by (auto; try lia; apply HG). cbn [bind]. eauto. }
      rewrite E1. cbn [bind].
      assert (wf n n (if p =? i then M else swapr M i p)) as W1 by (destruct (p =? i); auto; apply wf_swapr; auto; lia).
      destruct (inv_elim_loop (seq (i + 1) (n - (i + 1))) i i (if p =? i then M else swapr M i p, N1))
        as ([M2 N2] & E2 & G2 & EM2); auto; try (apply Forall_seq_lt; lia); [rewrite in_seq; lia|].
      rewrite E2. cbn [bind]. cbn [fst] in EM2.
      change (elim (if p =? i then M else swapr M i p) i i (seq (i + 1) (n - (i + 1)))) with (pivot_step n M i i p) in EM2.
      subst M2. apply IH; auto.
      apply (pivot_step_spec n n M i i p); auto; lia.
  Qed.

  Lemma invert_up_Ok m s : m <= n -> inv_good s -> wf n n (fst s) ->
    exists s', foldM (fun s k =>
      let i := n - 1 - k in
      foldM (fun (s : bm * bm) j =>
        let '(M, N) := s in
        v <- mget M j i ;; if (v : bool) then add_rows_both M N j i else Ok (M, N))
        (seq 0 i) s)
      (seq (n - m) m) s = Ok s' /\ inv_good s' /\ fst s' = pup (fst s) m.
  Proof.
    revert s. induction m as [|m IH]; intros s Hm HG HW; cbn [seq foldM pup].
    - eauto.
    - cbv zeta. replace (n - 1 - (n - S m)) with m by lia.
      destruct (inv_elim_loop (seq 0 m) m m s) as (s1 & E1 & G1 & M1); auto; try lia;
        [apply Forall_seq_lt; lia|rewrite in_seq; lia|].
      rewrite E1. cbn [bind]. replace (S (n - S m)) with (n - m) by lia.
      rewrite <- M1. apply IH; auto; try lia. rewrite M1. apply wf_elim; auto. apply Forall_seq_lt; lia.
  Qed.
End Invert.

Lemma identity_Ok_ n N : 0 < n -> wf n n N -> bm_identity_ N = Ok (identity_matrix n).
Proof.
  intros Hn HW. unfold bm_identity_. rewrite (bm_is_valid_Ok n n), (is_square_Ok n) by auto. cbn [assertb bind].
  unfold bm_num_rows. rewrite (proj1 HW).
  destruct (foldM_seq_inv (fun M i => mset M i i true)
    (fun i M => wf n n M /\ forall k c, k < n -> c < n -> entry M k c = (k <? i) && (k =? c)) 0 n (bm_clear N))
    as (M & E & W & H).
  - split.
    + destruct HW as [H1 H2]. unfold bm_clear. split; [now rewrite map_length|].
      rewrite Forall_forall in *. intros r Hr. apply in_map_iff in Hr as (r' & <- & Hr').
      unfold bv_clear. rewrite map_length. auto.
    + intros k c Hk Hc. unfold entry, bm_clear.
      change (@nil bool) with (bv_clear []). rewrite map_nth. unfold bv_clear.
      cbn [Nat.ltb Nat.leb andb]. rewrite (map_nth (fun _ : bool => false) _ false). reflexivity.  
  - intros i M Hi [W H]. rewrite (mset_Ok n n) by (auto; lia). eexists. split; [reflexivity|].
    assert (length (nth i M []) = n) as Hrow by (apply (wf_row n n); auto; lia).
    split; [apply wf_upd; auto; now rewrite length_upd|]. intros k c Hk Hc.
    unfold entry. rewrite nth_upd. rewrite (proj1 W).
    replace (i <? n) with true by (symmetry; apply Nat.ltb_lt; lia). rewrite andb_true_r.
    destruct (Nat.eqb_spec k i) as [->|Hne].
    + rewrite nth_upd, Hrow. replace (i <? n) with true by (symmetry; apply Nat.ltb_lt; lia).
      rewrite andb_true_r. replace (i <? i + 1) with true by (symmetry; apply Nat.ltb_lt; lia). cbn [andb].
      rewrite (Nat.eqb_sym i c). destruct (c =? i) eqn:Ec; auto.
      fold (entry M i c). rewrite H by auto. now rewrite Nat.ltb_irrefl.
    + fold (entry M k c). rewrite H by auto. f_equal.
      destruct (Nat.ltb_spec k i), (Nat.ltb_spec k (i + 1)); auto; lia.
  - rewrite E. f_equal. apply (wf_ext n n); auto using wf_identity. intros i j Hi Hj.
    rewrite H, entry_identity by auto. cbn [Nat.add]. apply Nat.ltb_lt in Hi. now rewrite Hi.
Qed.

Lemma bm_invert_raw n M N : 0 < n -> wf n n M -> wf n n N ->
  (exists N', bm_invert M N = Ok (true, identity_matrix n, N') /\ wf n n N' /\
     forall x, length x = n -> mulv M (mulv N' x) = x /\ mulv N' (mulv M x) = x) \/
  (exists M' N', bm_invert M N = Ok (false, M', N') /\
     exists z, length z = n /\ z <> zerov n /\ mulv M z = zerov n).
Proof.
  intros Hn HM HN. unfold bm_invert. rewrite !(is_square_Ok n) by auto. cbn [assertb bind].
  unfold bm_num_rows. rewrite (proj1 HM), (proj1 HN), Nat.eqb_refl. cbn [assertb bind].
  rewrite (identity_Ok_ n) by auto. cbn [bind].
  assert (inv_good n M (M, identity_matrix n)) as HG.
  { split; [apply wf_identity|]. cbn [fst snd]. split.
    - intros x Hx. rewrite mulv_identity; auto. rewrite length_mulv. apply HM.
    - intros y Hy. now rewrite mulv_identity. }
  destruct (invert_down_Ok n M Hn (seq 0 n) M (identity_matrix n)) as (N1 & E & W & G);
    auto; [apply Forall_seq_lt; lia|].
  rewrite E. cbn [bind].
  destruct (pdown_spec n M 0) as (W' & T & F); auto using down_ok_0; [lia|]. rewrite Nat.sub_0_r in *.
  destruct (fst (pdown n M (seq 0 n))) eqn:Ef.
  - left. rewrite (is_upper_triangular_true n n) by (auto; intros; eapply down_ok_upper; eauto). cbn [assertb bind].
    destruct (invert_up_Ok n M Hn n (snd (pdown n M (seq 0 n)), N1)) as ([M' N'] & E' & G' & EM); auto.
    rewrite Nat.sub_diag in E'. cbv zeta in *. rewrite E'. cbn [bind]. cbn [fst] in EM.
    rewrite (pup_spec n) in EM; auto; [|intros k c ?; lia]. subst M'.
    rewrite (is_identity_true n) by (auto using wf_identity, entry_identity). cbn [assertb bind].
    exists N'. destruct G' as (G1 & G2 & G3); cbn [fst snd] in *.
    assert (forall x, length x = n -> mulv N' (mulv M x) = x) as HL.
    { intros x Hx. rewrite <- G2, mulv_identity; auto. }
    split; [auto|]. split; [auto|]. intros x Hx. split; auto.
    assert (length (mulv N' x) = n) as L1 by (rewrite length_mulv; apply G1).
    assert (length (mulv M (mulv N' x)) = n) as L2 by (rewrite length_mulv; apply HM).
    apply (vxor_eq_zero n); auto. apply G3; [now apply length_vxor|].
    rewrite (mulv_vxor n n) by auto. rewrite HL by auto. rewrite vxor_nilpotent. now rewrite L1.
  - right. do 2 eexists. split; [reflexivity|].
    destruct (F eq_refl) as (i0 & Hi0 & D & Z).
    destruct (kernel_vector n _ i0 W' Hi0 D Z) as (z & Hz & Hz1 & Hz2).
    exists z. split; auto. split; [intros ->; rewrite nth_zerov in Hz1; discriminate|].
    destruct G as (G1 & G2 & G3); cbn [fst snd] in *.
    apply G3; [rewrite length_mulv; apply HM|]. now rewrite <- G2.
Qed.

Lemma inverse_of_mulv n A B : wf n n A -> inverse_of n A B ->
  wf n n B /\ forall x, length x = n -> mulv A (mulv B x) = x /\ mulv B (mulv A x) = x.
Proof.
  intros HA [HB H]. apply is_matrix_wf in HB as (_ & _ & HB). split; auto.
  intros x Hx. destruct (H x Hx) as [H1 H2].
  rewrite !(mat_vec_mulv n n) in H1 by (auto; rewrite (mat_vec_mulv n n), length_mulv; auto; apply HB).
  rewrite !(mat_vec_mulv n n) in H2 by (auto; rewrite (mat_vec_mulv n n), length_mulv; auto; apply HA). auto.
Qed.

Lemma mulv_inverse_of n A B : 0 < n -> wf n n A -> wf n n B ->
  (forall x, length x = n -> mulv A (mulv B x) = x /\ mulv B (mulv A x) = x) -> inverse_of n A B.
Proof.
  intros Hn HA HB H. split; [unfold is_matrix; destruct HB; auto|]. intros x Hx. destruct (H x Hx) as [H1 H2].
  rewrite !(mat_vec_mulv n n A), !(mat_vec_mulv n n B); auto; try (rewrite ?(mat_vec_mulv n n), length_mulv; auto; apply HA || apply HB).
Qed.

Lemma invertible_kernel n A z : wf n n A -> invertible n A -> length z = n -> mulv A z = zerov n -> z = zerov n.
Proof.
  intros HA [B HB] Hz E. apply inverse_of_mulv in HB as [HB H]; auto.
  destruct (H z Hz) as [_ H2]. rewrite <- H2, E. now apply (mulv_zero n n).
Qed.

Theorem bm_invert_correct n M N : is_matrix n n M -> is_matrix n n N ->
  exists r M' N', bm_invert M N = Ok (r, M', N') /\
    (r = true <-> invertible n M) /\
    (r = true -> M' = identity_matrix n /\ inverse_of n M N').
Proof.
  intros HM HN. apply is_matrix_wf in HM as (Hn & _ & HM). apply is_matrix_wf in HN as (_ & _ & HN).
  destruct (bm_invert_raw n M N) as [(N' & E & W & H)|(M' & N' & E & z & Hz & Hz0 & Hk)]; auto.
  - exists true, (identity_matrix n), N'. split; auto.
    assert (inverse_of n M N') by now apply mulv_inverse_of. split; [|auto]. split; auto. intros _. now exists N'.
  - exists false, M', N'. split; auto. split; [|discriminate]. split; [discriminate|].
    intros HI. exfalso. apply Hz0. apply (invertible_kernel n M); auto.
Qed.

Theorem bm_solve_correct n A b : is_matrix n n A -> length b = n ->
  exists r A' b', bm_solve A b = Ok (r, A', b') /\
    (r = true <-> invertible n A) /\
    (r = true -> A' = identity_matrix n /\ length b' = n /\ mat_vec A b' = b /\
       forall x, length x = n -> mat_vec A x = b -> x = b').
Proof.
  intros HA Hb. pose proof HA as HA'. apply is_matrix_wf in HA' as (Hn & _ & HW).
  destruct (bm_solve_raw n A b) as [(b' & E & L & H)|(A' & b' & E & z & Hz & Hz0 & Hk)]; auto.
  - exists true, (identity_matrix n), b'. split; auto. split.
    + split; auto. intros _.
      destruct (bm_invert_raw n A A) as [(N' & _ & W & HN)|(M' & N' & _ & z & Hz & Hz0 & Hk)]; auto.
      * exists N'. now apply mulv_inverse_of.
      * exfalso. apply Hz0.
        assert (mulv A b' = b) as Eb by now apply H.
        assert (vxor b' z = b') as Ez.
        { apply H; [now apply length_vxor|]. rewrite (mulv_vxor n n), Hk, Eb by auto. now apply vxor_zero_r. }
        rewrite <- (vxor_cancel n z b'), vxor_comm by auto. rewrite (vxor_comm z b'), Ez.
        rewrite vxor_nilpotent. now rewrite L.
    + intros _. repeat split; auto.
      * rewrite (mat_vec_mulv n n) by auto. now apply H.
      * intros x Hx Ex. rewrite (mat_vec_mulv n n) in Ex by auto. now apply H.
  - exists false, A', b'. split; auto. split; [|discriminate]. split; [discriminate|].
    intros HI. exfalso. apply Hz0. eapply invertible_kernel; eauto.
Qed.

(** * Row echelon form *)

Lemma firstn_In {T} n (l : list T) x : In x (firstn n l) -> In x l.
Proof. intros H. rewrite <- (firstn_skipn n l). apply in_or_app. auto. Qed.

Lemma nth_firstn_lt {T} n (l : list T) k d : k < n -> nth k (firstn n l) d = nth k l d.
Proof.
  revert n k. induction l as [|x l IH]; intros [|n] [|k] H; cbn; auto; try lia. apply IH. lia.
Qed.


Section Span.
  Variable nc : nat.

  Lemma span_length L x : Forall (fun r => length r = nc) L -> span nc L x -> length x = nc.
  Proof.
    intros HF. induction 1 as [|r x Hr Hx IH]; [apply length_zerov|]. rewrite Forall_forall in HF.
    apply length_vxor; auto.
  Qed.

  Lemma span_vxor L x y : Forall (fun r => length r = nc) L -> span nc L x -> span nc L y -> span nc L (vxor x y).
  Proof.
    intros HF Hx Hy. induction Hx as [|r x Hr Hx IH].
    - rewrite vxor_zero_l; auto. eapply span_length; eauto.
    - change (map2 xorb r x) with (vxor r x). rewrite vxor_assoc. now apply span_add.
  Qed.

  Lemma span_In L r : Forall (fun r => length r = nc) L -> In r L -> span nc L r.
  Proof.
    intros HF Hr. rewrite Forall_forall in HF. rewrite <- (vxor_zero_r nc r) by auto.
    apply span_add; auto. constructor.
  Qed.

  Lemma span_incl L L' x : Forall (fun r => length r = nc) L' ->
    (forall r, In r L -> span nc L' r) -> span nc L x -> span nc L' x.
  Proof.
    intros HF HI. induction 1 as [|r x Hr Hx IH]; [constructor|]. apply (span_vxor L'); auto.
  Qed.

  Lemma span_equiv L L' : Forall (fun r => length r = nc) L -> Forall (fun r => length r = nc) L' ->
    (forall r, In r L -> span nc L' r) -> (forall r, In r L' -> span nc L r) ->
    forall x, span nc L x <-> span nc L' x.
  Proof. intros. split; apply span_incl; auto. Qed.

  Definition same_span (L L' : bm) : Prop := forall x, span nc L x <-> span nc L' x.

  Lemma nth_In_rows nr A k : wf nr nc A -> k < nr -> In (nth k A []) A.
  Proof. intros [HL _] Hk. apply nth_In. lia. Qed.

  Lemma same_span_of_nth nr A B : wf nr nc A -> wf nr nc B ->
    (forall k, k < nr -> span nc B (nth k A [])) -> (forall k, k < nr -> span nc A (nth k B [])) -> same_span A B.
  Proof.
    intros HA HB H1 H2. intros x; apply span_equiv; try apply HA; try apply HB.
    - intros r Hr. apply In_nth with (d := []) in Hr as (k & Hk & <-). apply H1. rewrite (proj1 HA) in Hk. auto.
    - intros r Hr. apply In_nth with (d := []) in Hr as (k & Hk & <-). apply H2. rewrite (proj1 HB) in Hk. auto.
  Qed.

  Lemma nth_swapr nr A i j k : wf nr nc A -> i < nr -> j < nr ->
    nth k (swapr A i j) [] = if k =? j then nth i A [] else if k =? i then nth j A [] else nth k A [].
  Proof.
    intros [HL _] Hi Hj. unfold swapr. rewrite nth_upd, length_upd, nth_upd, HL.
    apply Nat.ltb_lt in Hi, Hj. now rewrite Hi, Hj, !andb_true_r.
  Qed.

  Lemma same_span_swapr nr A i j : wf nr nc A -> i < nr -> j < nr -> same_span A (swapr A i j).
  Proof.
    intros HW Hi Hj. pose proof (wf_swapr nr nc A i j HW Hi Hj) as HW'.
    pose proof (proj2 HW) as FA. pose proof (proj2 HW') as FB.
    apply (same_span_of_nth nr); auto.
    - intros k Hk. destruct (Nat.eq_dec k i) as [->|Hki]; [|destruct (Nat.eq_dec k j) as [->|Hkj]].
      + replace (nth i A []) with (nth j (swapr A i j) []).
        * apply span_In, (nth_In_rows nr); auto.
        * rewrite (nth_swapr nr), Nat.eqb_refl; auto.
      + replace (nth j A []) with (nth i (swapr A i j) []).
        * apply span_In, (nth_In_rows nr); auto.
        * rewrite (nth_swapr nr), Nat.eqb_refl by auto. destruct (Nat.eqb_spec i j) as [->|]; auto.
      + replace (nth k A []) with (nth k (swapr A i j) []).
        * apply span_In, (nth_In_rows nr); auto.
        * rewrite (nth_swapr nr) by auto. destruct (Nat.eqb_spec k j), (Nat.eqb_spec k i); auto; contradiction.
    - intros k Hk. rewrite (nth_swapr nr) by auto. destruct (k =? j); [|destruct (k =? i)];
        apply span_In; auto; eapply nth_In_rows; eauto.
  Qed.

  Lemma nth_addr nr A d s k : wf nr nc A -> d < nr ->
    nth k (addr A d s) [] = if k =? d then vxor (nth d A []) (nth s A []) else nth k A [].
  Proof.
    intros [HL _] Hd. unfold addr. rewrite nth_upd, HL. apply Nat.ltb_lt in Hd. now rewrite Hd, andb_true_r.
  Qed.

  Lemma same_span_addr nr A d s : wf nr nc A -> d < nr -> s < nr -> d <> s -> same_span A (addr A d s).
  Proof.
    intros HW Hd Hs Hne. pose proof (wf_addr nr nc A d s HW Hd Hs) as HW'.
    pose proof (proj2 HW) as FA. pose proof (proj2 HW') as FB.
    apply (same_span_of_nth nr); auto.
    - intros k Hk. destruct (Nat.eq_dec k d) as [->|Hkd].
      + assert (nth d A [] = vxor (nth d (addr A d s) []) (nth s (addr A d s) [])) as E.
        { rewrite !(nth_addr nr), Nat.eqb_refl by auto. destruct (Nat.eqb_spec s d); [congruence|].
          symmetry. apply (vxor_cancel nc); eapply wf_row; eauto. }
        rewrite E. apply span_vxor; auto; apply span_In; auto; eapply nth_In_rows; eauto.
      + replace (nth k A []) with (nth k (addr A d s) []).
        * apply span_In; auto. eapply nth_In_rows; eauto.
        * rewrite (nth_addr nr) by auto. destruct (Nat.eqb_spec k d); auto; contradiction.
    - intros k Hk. rewrite (nth_addr nr) by auto. destruct (k =? d).
      + apply span_vxor; auto; apply span_In; auto; eapply nth_In_rows; eauto.
      + apply span_In; auto. eapply nth_In_rows; eauto.
  Qed.

  Lemma same_span_trans A B C : same_span A B -> same_span B C -> same_span A C.
  Proof. unfold same_span. intros H1 H2 x. now rewrite H1. Qed.

  Lemma same_span_refl A : same_span A A.
  Proof. unfold same_span. tauto. Qed.
End Span.

(** Row operations on the matrix alone: an invariant [Good] preserved by the
    two elementary operations holds of the result. *)
Section Echelon.
  Variables (nr nc : nat) (Good : bm -> Prop).
  Hypothesis Hnr : 0 < nr.
  Hypothesis Good_swap : forall A i j, wf nr nc A -> i < nr -> j < nr -> i <> j -> Good A -> Good (swapr A i j).
  Hypothesis Good_add : forall A d s, wf nr nc A -> d < nr -> s < nr -> d <> s -> Good A -> Good (addr A d s).

  Lemma swapr_sym A i j : i <> j -> swapr A i j = swapr A j i.
  Proof. intros H. unfold swapr. apply upd_comm. auto. Qed.

  Lemma echelon_elim_loop l r j A : r < nr -> j < nc -> Forall (fun i => i < nr) l -> ~ In r l ->
    Good A -> wf nr nc A ->
    foldM (fun A i => b <- mget A i j ;; if (b : bool) then bm_add_rows A i r else Ok A) l A
      = Ok (elim A r j l) /\ Good (elim A r j l).
  Proof.
    intros Hr Hj HF Hn HG HW.
    destruct (foldM_elim (fun A => A) Good
       (fun A i => b <- mget A i j ;; if (b : bool) then bm_add_rows A i r else Ok A) nr nc r j l A) as (A' & E & G & M); auto.
    - intros B i G W Hi Hne _. rewrite (mget_Ok nr nc) by auto. cbn [bind]. unfold elim1.
      destruct (entry B i j); [|eauto]. rewrite (add_rows_Ok nr nc) by auto. eexists. split; [reflexivity|]. split; auto.
    - subst A'. auto.
  Qed.

  (** pivots [piv] found so far, columns below [j] processed *)
  Definition ech_inv (A : bm) (j : nat) (piv : list nat) : Prop :=
    length piv <= nr /\
    (forall a b, a < b < length piv -> nth a piv 0 < nth b piv 0) /\
    (forall k, k < length piv -> nth k piv 0 < j /\ entry A k (nth k piv 0) = true /\
       forall c, c < nth k piv 0 -> entry A k c = false) /\
    (forall k c, length piv <= k < nr -> c < j -> entry A k c = false).

  Lemma wf_entry_overflow A k c : wf nr nc A -> k < nr -> nc <= c -> entry A k c = false.
  Proof. intros H Hk Hc. unfold entry. apply nth_overflow. now rewrite (wf_row nr nc). Qed.

  Lemma ech_inv_done A j piv : wf nr nc A -> ech_inv A j piv -> j = nc \/ length piv = nr ->
    j <= nc -> echelon nr nc A piv.
  Proof.
    intros HW (I1 & I2 & I3 & I4) Hj Hle. repeat split; auto.
    - destruct (I3 k H). lia.
    - now apply I3.
    - now apply I3.
    - intros k c Hk. destruct Hj as [->|Hj]; [|lia].
      destruct (Nat.lt_ge_cases c nc); [now apply I4|]. apply wf_entry_overflow; auto. lia.
  Qed.

  Lemma echelon_loop_Ok m A j piv : j + m = nc -> length piv < nr -> wf nr nc A -> Good A -> ech_inv A j piv ->
    exists A' piv', echelon_loop A (length piv) (seq j m) = Ok A' /\ wf nr nc A' /\ Good A' /\ echelon nr nc A' piv'.
  Proof.
    revert A j piv. induction m as [|m IH]; intros A j piv Hm Hp HW HG HI; cbn [seq echelon_loop].
    - exists A, piv. split; [auto|]. split; [auto|]. split; [auto|]. apply (ech_inv_done A j); auto; lia.
    - unfold bm_num_rows. rewrite (proj1 HW). set (r := length piv) in *.
      rewrite (find_pivot_Ok nr nc) by (auto; try lia; apply Forall_seq_lt; lia). cbn [bind].
      destruct HI as (I1 & I2 & I3 & I4).
      destruct (find _ (seq r (nr - r))) as [p|] eqn:Ep.
      + apply find_seq_Some in Ep as [Hpr Ep].
        assert ((if negb (p =? r) then bm_swap_rows A p r else Ok A) = Ok (if p =? r then A else swapr A r p)) as E1.
        { destruct (Nat.eqb_spec p r) as [|Hne]; cbn [negb]; auto.
          rewrite (swap_rows_Ok nr nc), swapr_sym by (auto; lia). auto. }
        rewrite E1. cbn [bind].
        assert (wf nr nc (if p =? r then A else swapr A r p)) as W1 by (destruct (p =? r); auto; apply wf_swapr; auto; lia).
        assert (Good (if p =? r then A else swapr A r p)) as G1.
        { destruct (Nat.eqb_spec p r); auto. apply Good_swap; auto; lia. }
        destruct (echelon_elim_loop (seq (r + 1) (nr - (r + 1))) r j (if p =? r then A else swapr A r p)) as [E2 G2];
          auto; try lia; [apply Forall_seq_lt; lia|rewrite in_seq; lia|].
        rewrite E2. cbn [bind]. fold (pivot_step nr A r j p) in *.
        destruct (pivot_step_spec nr nc A r j p) as (W & R1 & R2 & R3 & R4); auto; try lia.
        assert (ech_inv (pivot_step nr A r j p) (j + 1) (piv ++ [j])) as HI'.
        { assert (length (piv ++ [j]) = r + 1) as EL by (rewrite app_length; auto).
          assert (nth r (piv ++ [j]) 0 = j) as Hlast by (rewrite app_nth2, Nat.sub_diag by (unfold r; lia); auto).
          unfold ech_inv. rewrite EL. split; [lia|]. split; [|split].
          - intros a b Hab. destruct (Nat.eq_dec b r) as [->|].
            + rewrite Hlast.
              rewrite app_nth1 by (unfold r in *; lia). apply I3. lia.
            + rewrite !app_nth1 by (unfold r in *; lia). apply I2. lia.
          - intros k Hk. destruct (Nat.eq_dec k r) as [->|].
            + rewrite Hlast.
              split; [lia|]. split; [now rewrite R2|]. intros c Hc. rewrite R2. apply I4; lia.
            + rewrite !app_nth1 by (unfold r in *; lia). destruct (I3 k) as (J1 & J2 & J3); [lia|].
              split; [lia|]. split; [rewrite R1; auto; lia|]. intros c Hc. rewrite R1 by lia. auto.
          - intros k c Hk Hc. destruct (Nat.eq_dec c j) as [->|].
            + apply R3. lia.
            + apply R4; [|lia]. intros k' Hk'. apply I4; lia. }
        destruct (Nat.eqb_spec (r + 1) nr) as [Hrn|Hrn].
        * exists (pivot_step nr A r j p), (piv ++ [j]). split; [auto|]. split; [auto|]. split; [auto|].
          apply (ech_inv_done (pivot_step nr A r j p) (j + 1)); auto; try lia. right; rewrite app_length; cbn; fold r; lia.
        * destruct (IH (pivot_step nr A r j p) (j + 1) (piv ++ [j])) as (A' & piv' & E & H); auto; try lia.
          { rewrite app_length; cbn; fold r; lia. }
          rewrite app_length in E. cbn [length] in E. fold r in E.
          exists A', piv'. split; [|exact H]. rewrite <- (Nat.add_1_r j). exact E.
      + destruct (IH A (j + 1) piv) as (A' & piv' & E & H); auto; try lia.
        * split; [auto|]. split; [auto|]. split.
          -- intros k Hk. destruct (I3 k Hk) as (J1 & J2 & J3). repeat split; auto; lia.
          -- intros k c Hk Hc. destruct (Nat.eq_dec c j) as [->|]; [|apply I4; lia].
             apply (find_seq_None _ _ _ k Ep). fold r in Hk. lia.
        * exists A', piv'. split; [|exact H]. rewrite <- (Nat.add_1_r j). exact E.
  Qed.

  Lemma row_echelon_Ok A : wf nr nc A -> Good A ->
    exists A' piv, bm_row_echelon_form A = Ok A' /\ wf nr nc A' /\ Good A' /\ echelon nr nc A' piv.
  Proof.
    intros HW HG. unfold bm_row_echelon_form. rewrite (num_columns_Ok nr nc) by auto. cbn [bind].
    apply (echelon_loop_Ok nc A 0 []); auto.
    split; [cbn; lia|]. split; [cbn; lia|]. split; [cbn; lia|]. intros; lia.
  Qed.
End Echelon.

(** * Rank *)

Lemma bv_is_zero_iff x : bv_is_zero x = true <-> forall c, nth c x false = false.
Proof.
  unfold bv_is_zero. rewrite forallb_forall. split.
  - intros H c. destruct (Nat.lt_ge_cases c (length x)); [|now apply nth_overflow].
    specialize (H (nth c x false) (nth_In _ _ H0)). now destruct (nth c x false).
  - intros H b Hb. apply In_nth with (d := false) in Hb as (c & _ & <-). now rewrite H.
Qed.

Lemma leading_nonzero_spec A r : r <= length A ->
  (forall k, k < r -> bv_is_zero (nth k A []) = false) ->
  (r < length A -> bv_is_zero (nth r A []) = true) -> leading_nonzero A = r.
Proof.
  revert r; induction A as [|row A IH]; intros r Hr H1 H2; cbn [leading_nonzero length] in *; [lia|].
  destruct r as [|r].
  - specialize (H2 ltac:(lia)); cbn [nth] in H2; rewrite H2. auto.
  - pose proof (H1 0 ltac:(lia)) as H0; cbn [nth] in H0; rewrite H0. f_equal. apply IH; [lia| |].
    + intros k Hk. apply (H1 (S k)). lia.
    + intros Hk. apply H2. lia.
Qed.

Lemma increasing_ge (piv : list nat) : (forall a b, a < b < length piv -> nth a piv 0 < nth b piv 0) ->
  forall k, k < length piv -> k <= nth k piv 0.
Proof.
  intros H k. induction k as [|k IH]; intros Hk; [lia|]. specialize (H k (S k) ltac:(lia)). specialize (IH ltac:(lia)). lia.
Qed.

Lemma echelon_rank nr nc A piv : 0 < nr -> wf nr nc A -> echelon nr nc A piv -> bm_rank A = Ok (length piv).
Proof.
  intros Hr HW (E1 & E2 & E3 & E4). unfold bm_rank.
  assert (leading_nonzero A = length piv) as ->.
  { pose proof (proj1 HW) as HL. apply leading_nonzero_spec; [lia| |].
    - intros k Hk. apply not_true_is_false. rewrite bv_is_zero_iff. intros K.
      destruct (E3 k Hk) as (_ & T & _). unfold entry in T. rewrite K in T. discriminate.
    - intros Hk. apply bv_is_zero_iff. intros c. apply (E4 (length piv) c). lia. }
  unfold bm_num_rows. rewrite (proj1 HW). apply Nat.leb_le in E1 as E1'. rewrite E1'. cbn [assertb bind].
  rewrite (num_columns_Ok nr nc) by auto. cbn [bind].
  assert (length piv <= nc) as Hc.
  { destruct (length piv) as [|k] eqn:E; [lia|]. destruct (E3 k ltac:(lia)) as (T & _).
    pose proof (increasing_ge piv) as G. rewrite E in G. specialize (G E2 k ltac:(lia)). lia. }
  apply Nat.leb_le in Hc. rewrite Hc. auto.
Qed.

Lemma length_lin_comb n c L : Forall (fun r => length r = n) L -> length (lin_comb n c L) = n.
Proof.
  intros H. revert c; induction H as [|r L Hr HF IH]; intros [|[] c]; cbn; auto using length_zerov.
  apply length_vxor; auto.
Qed.

Lemma nth_lin_comb n c L i : Forall (fun r => length r = n) L -> length c = length L ->
  nth i (lin_comb n c L) false = xsum (length L) (fun k => nth k c false && nth i (nth k L []) false).
Proof.
  intros H. revert c; induction H as [|r L Hr HF IH]; intros [|b c] Hc; cbn [length] in Hc; try lia.
  - cbn. apply nth_zerov.
  - assert (forall n f, xsum (S n) f = xorb (f 0) (xsum n (fun k => f (S k)))) as XS.
    { clear. induction n; intros f; cbn [xsum].
      - cbn. now destruct (f 0).
      - cbn [xsum] in IHn. rewrite <- xorb_assoc, <- IHn. auto. }
    cbn [length]. rewrite XS. cbn [nth lin_comb]. rewrite <- (IH c) by lia. destruct b.
    + change (map2 xorb r (lin_comb n c L)) with (vxor r (lin_comb n c L)).
      rewrite (nth_vxor n); auto. now apply length_lin_comb.
    + cbn. now destruct (nth i (lin_comb n c L) false).
Qed.

Lemma echelon_independent nr nc A piv : wf nr nc A -> echelon nr nc A piv ->
  independent nc (firstn (length piv) A).
Proof.
  intros HW (E1 & E2 & E3 & E4) c Hc H0. set (r := length piv) in *.
  assert (length (firstn r A) = r) as HL by (rewrite firstn_length, (proj1 HW); lia). rewrite HL in *.
  assert (Forall (fun row => length row = nc) (firstn r A)) as HF.
  { destruct HW as [_ HF]. rewrite Forall_forall in *. intros x Hx. apply HF. eapply firstn_In; eauto. }
  assert (forall k, k < r -> nth k c false = false) as G.
  { induction k as [k IH] using lt_wf_ind. intros Hk.
    assert (nth (nth k piv 0) (lin_comb nc c (firstn r A)) false = false) as Ez by (rewrite H0; apply nth_zerov).
    rewrite nth_lin_comb in Ez by (auto; lia). rewrite HL in Ez.
    rewrite (xsum_single r k) in Ez; auto.
    - rewrite nth_firstn_lt in Ez by auto. fold (entry A k (nth k piv 0)) in Ez.
      destruct (E3 k Hk) as (_ & T & _). rewrite T, andb_true_r in Ez. auto.
    - intros i Hi Hne. destruct (Nat.lt_ge_cases i k) as [Hik|Hik].
      + rewrite IH; auto.
      + rewrite nth_firstn_lt by auto. fold (entry A i (nth k piv 0)).
        destruct (E3 i Hi) as (_ & _ & T). rewrite T; [apply andb_false_r|]. apply E2. fold r. lia. }
  apply (bv_ext r); auto using length_zerov. intros i Hi. rewrite nth_zerov. auto.
Qed.

Lemma echelon_span nr nc A piv x : wf nr nc A -> echelon nr nc A piv ->
  span nc (firstn (length piv) A) x <-> span nc A x.
Proof.
  intros HW (E1 & E2 & E3 & E4). pose proof (proj2 HW) as HF.
  assert (Forall (fun row => length row = nc) (firstn (length piv) A)) as HF'.
  { rewrite Forall_forall in *. intros y Hy. apply HF. eapply firstn_In; eauto. }
  apply span_equiv; auto.
  - intros r Hr. apply span_In; auto. eapply firstn_In; eauto.
  - intros r Hr. apply In_nth with (d := []) in Hr as (k & Hk & <-). rewrite (proj1 HW) in Hk.
    destruct (Nat.lt_ge_cases k (length piv)) as [Hkp|Hkp].
    + apply span_In; auto. rewrite <- (nth_firstn_lt (length piv)) by auto. apply nth_In. rewrite firstn_length, (proj1 HW). lia.
    + replace (nth k A []) with (zerov nc); [constructor|].
      apply (bv_ext nc); auto using length_zerov; [eapply wf_row; eauto|].
      intros i Hi. rewrite nth_zerov. symmetry. apply (E4 k i). lia.
Qed.

Theorem bm_echelon_rank_correct nr nc A : is_matrix nr nc A ->
  exists A' piv, bm_row_echelon_form A = Ok A' /\ is_matrix nr nc A' /\
    echelon nr nc A' piv /\
    (forall x, span nc A' x <-> span nc A x) /\
    bm_rank A' = Ok (length piv) /\ dimension nc A (length piv).
Proof.
  intros HA. apply is_matrix_wf in HA as (Hr & Hc & HW).
  destruct (row_echelon_Ok nr nc (fun B => same_span nc A B) Hr) with (A := A) as (A' & piv & E & W & G & HE); auto.
  - intros B i j W Hi Hj Hne G. eapply same_span_trans; eauto. eapply same_span_swapr; eauto.
  - intros B d s W Hd Hs Hne G. eapply same_span_trans; eauto. eapply same_span_addr; eauto.
  - apply same_span_refl.
  - exists A', piv. split; auto. split; [unfold is_matrix; destruct W; auto|]. split; auto. split.
    + intros x. symmetry. apply G.
    + split; [now apply (echelon_rank nr nc)|].
      exists (firstn (length piv) A'). split; [rewrite firstn_length, (proj1 W); destruct HE; lia|].
      split; [now apply (echelon_independent nr nc)|]. split.
      * destruct W as [_ HF]. rewrite Forall_forall in *. intros y Hy. apply HF. eapply firstn_In; eauto.
      * intros x. rewrite (echelon_span nr nc) by auto. symmetry. apply G.
Qed.

(** * The dimension is unique *)

Lemma lin_comb_span n L c : length c = length L -> Forall (fun r => length r = n) L -> span n L (lin_comb n c L).
Proof.
  revert c; induction L as [|r L IH]; intros [|b c] Hc HF; cbn in Hc |- *; try lia; [constructor|].
  inversion HF; subst.
  assert (span (length r) (r :: L) (lin_comb (length r) c L)) as HS.
  { apply (span_incl (length r) L); auto. intros r' Hr'. apply span_In; auto. now right. }
  destruct b; auto. apply span_add; auto. now left.
Qed.

Lemma lin_comb_vxor n L c c' : Forall (fun r => length r = n) L -> length c = length L -> length c' = length L ->
  lin_comb n (vxor c c') L = vxor (lin_comb n c L) (lin_comb n c' L).
Proof.
  intros HF Hc Hc'. assert (length (vxor c c') = length L) as Hx by now apply length_vxor.
  apply (bv_ext n); rewrite ?(length_vxor n); auto using length_lin_comb.
  intros i Hi. rewrite (nth_vxor n) by auto using length_lin_comb. rewrite !nth_lin_comb by auto.
  rewrite <- xsum_xor. apply xsum_ext. intros k Hk. rewrite (nth_vxor (length L)) by auto.
  now destruct (nth k c false), (nth k c' false), (nth i (nth k L []) false).
Qed.

Lemma lin_comb_zerov n L : lin_comb n (zerov (length L)) L = zerov n.
Proof. induction L; cbn; auto. Qed.

Lemma lin_comb_unitv n L k : Forall (fun r => length r = n) L -> k < length L ->
  lin_comb n (unitv (length L) k) L = nth k L [].
Proof.
  intros HF Hk. assert (length (nth k L []) = n) as HL by (rewrite Forall_forall in HF; apply HF, nth_In; auto).
  apply (bv_ext n); auto using length_lin_comb. intros i Hi.
  rewrite nth_lin_comb by auto using length_unitv. rewrite (xsum_single _ k); auto.
  - now rewrite nth_unitv, Nat.eqb_refl by auto.
  - intros j Hj Hne. rewrite nth_unitv by auto. apply Nat.eqb_neq in Hne. now rewrite Hne.
Qed.

Lemma span_lin_comb n L x : Forall (fun r => length r = n) L -> span n L x ->
  exists c, length c = length L /\ lin_comb n c L = x.
Proof.
  intros HF. induction 1 as [|r x Hr Hx (c & Hc & E)].
  - exists (zerov (length L)). split; auto using length_zerov, lin_comb_zerov.
  - apply In_nth with (d := []) in Hr as (k & Hk & <-).
    exists (vxor (unitv (length L) k) c). split; [apply length_vxor; auto using length_unitv|].
    rewrite lin_comb_vxor, lin_comb_unitv, E by auto using length_unitv. auto.
Qed.

Lemma span_enum n B : Forall (fun r => length r = n) B -> independent n B ->
  exists l, length l = 2 ^ length B /\ NoDup l /\ forall x, In x l <-> span n B x.
Proof.
  intros HF HI. destruct (all_bvs_spec (length B)) as (E1 & E2 & E3).
  exists (map (fun c => lin_comb n c B) (all_bvs (length B))). rewrite map_length. split; auto. split.
  - apply NoDup_map_inj; auto. intros c c' Hc Hc' E. apply E3 in Hc, Hc'.
    apply (vxor_eq_zero (length B)); auto. apply HI; [now apply length_vxor|].
    rewrite lin_comb_vxor, E, vxor_nilpotent by auto. f_equal. now apply length_lin_comb.
  - intros x. rewrite in_map_iff. split.
    + intros (c & <- & Hc). apply E3 in Hc. now apply lin_comb_span.
    + intros Hx. apply span_lin_comb in Hx as (c & Hc & <-); auto. exists c. split; auto. now apply E3.
Qed.

Theorem dimension_unique n L d d' : dimension n L d -> dimension n L d' -> d = d'.
Proof.
  intros (B & <- & HI & HF & HS) (B' & <- & HI' & HF' & HS').
  destruct (span_enum n B) as (l & L1 & L2 & L3); auto. destruct (span_enum n B') as (l' & L1' & L2' & L3'); auto.
  assert (length l = length l') as E.
  { apply Nat.le_antisymm; apply NoDup_incl_length; auto; intros x; rewrite L3, L3', HS, HS'; auto. }
  rewrite L1, L1' in E. apply Nat.pow_inj_r in E; auto.
Qed.

(** * Products, transposition, column operations *)

Lemma multiply_rows_Ok nr nc M x : wf nr nc M -> length x = nc -> multiply_rows M x = Ok (mulv M x).
Proof.
  intros [_ HF] Hx. clear nr. induction HF as [|row M Hr HF IH]; cbn [multiply_rows]; auto.
  rewrite bv_dot_product_Ok by congruence. cbn [bind]. rewrite IH. auto.
Qed.

Lemma bm_multiply_Ok nr nc M x y : is_matrix nr nc M -> length x = nc -> length y = nr ->
  bm_multiply y M x = Ok (mat_vec M x).
Proof.
  intros HM Hx Hy. apply is_matrix_wf in HM as (Hr & Hc & HW). unfold bm_multiply.
  rewrite (bm_is_valid_Ok nr nc) by auto. cbn [assertb bind]. rewrite (num_columns_Ok nr nc) by auto. cbn [bind].
  unfold bm_num_rows. rewrite (proj1 HW), Hx, Hy, !Nat.eqb_refl. cbn [assertb bind].
  rewrite (multiply_rows_Ok nr nc), (mat_vec_mulv nr nc); auto.
Qed.

Lemma bm_multiply_UB nr nc M x y : is_matrix nr nc M -> length x <> nc \/ length y <> nr ->
  bm_multiply y M x = UB.
Proof.
  intros HM H. apply is_matrix_wf in HM as (Hr & Hc & HW). unfold bm_multiply.
  rewrite (bm_is_valid_Ok nr nc) by auto. cbn [assertb bind]. rewrite (num_columns_Ok nr nc) by auto. cbn [bind].
  unfold bm_num_rows. rewrite (proj1 HW). destruct (Nat.eqb_spec (length x) nc); cbn [assertb bind]; auto.
  destruct (Nat.eqb_spec (length y) nr); auto. lia.
Qed.

Lemma wf_rectangular nr nc : wf nr nc (repeat (repeat false nc) nr).
Proof.
  split; [apply repeat_length|]. apply Forall_forall. intros r Hr. apply repeat_spec in Hr. subst. apply repeat_length.
Qed.

Lemma rectangular_Ok nr nc : 0 < nr -> 0 < nc -> bm_rectangular nr nc = Ok (repeat (repeat false nc) nr).
Proof. intros Hr Hc. unfold bm_rectangular. apply Nat.ltb_lt in Hr, Hc. now rewrite Hr, Hc. Qed.

Lemma bm_identity_Ok n : 0 < n -> bm_identity n = Ok (identity_matrix n).
Proof.
  intros Hn. unfold bm_identity. assert (0 <? n = true) as E by now apply Nat.ltb_lt. rewrite E. cbn [assertb bind].
  rewrite rectangular_Ok by auto. cbn [bind]. apply identity_Ok_; auto. apply wf_rectangular.
Qed.

(** A row-by-row, column-by-column assignment loop. *)
Lemma set_row_loop nr nc (f : nat -> nat -> bool) (get : nat -> nat -> outcome bool) N i :
  wf nr nc N -> i < nr -> (forall j, j < nc -> get i j = Ok (f i j)) ->
  exists N', foldM (fun N j => b <- get i j ;; mset N i j b) (seq 0 nc) N = Ok N' /\ wf nr nc N' /\
    forall k c, k < nr -> c < nc -> entry N' k c = if k =? i then f i c else entry N k c.
Proof.
  intros HN Hi Hg.
  destruct (foldM_seq_inv (fun N j => b <- get i j ;; mset N i j b)
    (fun j N' => wf nr nc N' /\ forall k c, k < nr -> c < nc ->
       entry N' k c = if (k =? i) && (c <? j) then f i c else entry N k c) 0 nc N) as (N' & E & W & H).
  - split; auto. intros k c Hk Hc. now rewrite andb_false_r.
  - intros j N' Hj [W H]. rewrite Hg by lia. cbn [bind]. rewrite (mset_Ok nr nc) by (auto; lia).
    eexists. split; [reflexivity|]. assert (length (nth i N' []) = nc) as Hrow by (apply (wf_row nr nc); auto).
    split; [apply wf_upd; auto; now rewrite length_upd|]. intros k c Hk Hc. unfold entry at 1.
    rewrite nth_upd, (proj1 W). apply Nat.ltb_lt in Hi as Hi'. rewrite Hi', andb_true_r.
    destruct (Nat.eqb_spec k i) as [->|Hne]; cbn [andb].
    + rewrite nth_upd, Hrow. assert (j <? nc = true) as Hj' by (apply Nat.ltb_lt; lia). rewrite Hj', andb_true_r.
      fold (entry N' i c). rewrite H by auto. rewrite Nat.eqb_refl. cbn [andb].
      destruct (Nat.eqb_spec c j), (Nat.ltb_spec c (j + 1)), (Nat.ltb_spec c j); subst; auto; lia.
    + fold (entry N' k c). rewrite H by auto. apply Nat.eqb_neq in Hne. now rewrite Hne.
  - exists N'. split; auto. split; auto. intros k c Hk Hc. rewrite H by auto.
    apply Nat.ltb_lt in Hc. cbn [Nat.add]. now rewrite Hc, andb_true_r.
Qed.

Lemma transpose_Ok nr nc M : is_matrix nr nc M ->
  exists T, bm_transpose M = Ok T /\ is_matrix nc nr T /\
    forall i j, i < nc -> j < nr -> entry T i j = entry M j i.
Proof.
  intros HM. apply is_matrix_wf in HM as (Hr & Hc & HW). unfold bm_transpose.
  rewrite (bm_is_valid_Ok nr nc) by auto. cbn [assertb bind]. rewrite (num_columns_Ok nr nc) by auto. cbn [bind].
  unfold bm_num_rows. rewrite (proj1 HW). rewrite rectangular_Ok by auto. cbn [bind].
  unfold bm_transpose_. rewrite (bm_is_valid_Ok nr nc) by auto. cbn [assertb bind].
  rewrite (num_columns_Ok nc nr) by (auto using wf_rectangular). cbn [bind].
  unfold bm_num_rows. rewrite (proj1 HW), Nat.eqb_refl. cbn [assertb bind].
  rewrite (num_columns_Ok nr nc) by auto. cbn [bind]. rewrite repeat_length, Nat.eqb_refl. cbn [assertb bind].
  destruct (foldM_seq_inv (fun N i => foldM (fun N j => b <- mget M j i ;; mset N i j b) (seq 0 nr) N)
    (fun i N => wf nc nr N /\ forall k c, k < i -> k < nc -> c < nr -> entry N k c = entry M c k) 0 nc
    (repeat (repeat false nr) nc)) as (T & E & W & H).
  - split; [apply wf_rectangular|]. lia.
  - intros i N Hi [W H].
    destruct (set_row_loop nc nr (fun i j => entry M j i) (fun i j => mget M j i) N i) as (N' & E & W' & H'); auto; try lia.
    { intros j Hj. apply (mget_Ok nr nc); auto; lia. }
    exists N'. split; auto. split; auto. intros k c Hk Hk' Hcc. rewrite H' by auto.
    destruct (Nat.eqb_spec k i) as [->|]; auto. apply H; lia.
  - exists T. split; auto. split; [unfold is_matrix; destruct W; auto|]. intros i j Hi Hj. apply H; auto.
Qed.

Lemma transpose_involutive nr nc M : is_matrix nr nc M ->
  exists T, bm_transpose M = Ok T /\ bm_transpose T = Ok M.
Proof.
  intros HM. destruct (transpose_Ok nr nc M HM) as (T & E & HT & H).
  destruct (transpose_Ok nc nr T HT) as (M' & E' & HM' & H').
  exists T. split; auto. rewrite E'. f_equal.
  apply is_matrix_wf in HM as (_ & _ & W), HM' as (_ & _ & W').
  apply (wf_ext nr nc); auto. intros i j Hi Hj. rewrite H', H; auto.
Qed.

Lemma mat_vec_linear nr nc M x y : is_matrix nr nc M -> length x = nc -> length y = nc ->
  mat_vec M (map2 xorb x y) = map2 xorb (mat_vec M x) (mat_vec M y).
Proof.
  intros HM Hx Hy. apply is_matrix_wf in HM as (_ & _ & W).
  rewrite !(mat_vec_mulv nr nc) by (auto; now apply length_vxor). now apply (mulv_vxor nr nc).
Qed.

Lemma mat_vec_identity n x : length x = n -> mat_vec (identity_matrix n) x = x.
Proof. intros Hx. rewrite (mat_vec_mulv n n) by auto using wf_identity. now apply mulv_identity. Qed.

Lemma swapr_involutive nr nc A i j : wf nr nc A -> i < nr -> j < nr -> swapr (swapr A i j) i j = A.
Proof.
  intros HW Hi Hj. pose proof (wf_swapr nr nc A i j HW Hi Hj) as HW'.
  apply (wf_ext nr nc); auto; [apply wf_swapr; auto|]. intros k c Hk Hc.
  rewrite (entry_swapr nr nc (swapr A i j)), !(entry_swapr nr nc A) by auto.
  rewrite !Nat.eqb_refl. destruct (Nat.eqb_spec i j); destruct (Nat.eqb_spec k j), (Nat.eqb_spec k i); subst; auto; contradiction.
Qed.

Lemma addr_involutive nr nc A d s : wf nr nc A -> d < nr -> s < nr -> d <> s -> addr (addr A d s) d s = A.
Proof.
  intros HW Hd Hs Hne. pose proof (wf_addr nr nc A d s HW Hd Hs) as HW'.
  apply (wf_ext nr nc); auto; [apply wf_addr; auto|]. intros k c Hk Hc.
  rewrite (entry_addr nr nc (addr A d s)), !(entry_addr nr nc A) by auto.
  rewrite Nat.eqb_refl. apply Nat.eqb_neq in Hne. rewrite Nat.eqb_sym in Hne. rewrite Hne.
  destruct (Nat.eqb_spec k d); subst; auto. now destruct (entry A d c), (entry A s c).
Qed.

Lemma swap_rows_correct nr nc A i j : is_matrix nr nc A -> i < nr -> j < nr ->
  exists B, bm_swap_rows A i j = Ok B /\ is_matrix nr nc B /\
    (forall k, nth k B [] = if k =? j then nth i A [] else if k =? i then nth j A [] else nth k A []) /\
    bm_swap_rows B i j = Ok A.
Proof.
  intros HA Hi Hj. apply is_matrix_wf in HA as (Hr & Hc & HW).
  exists (swapr A i j). pose proof (wf_swapr nr nc A i j HW Hi Hj) as W.
  rewrite !(swap_rows_Ok nr nc) by auto. split; auto. split; [unfold is_matrix; destruct W; auto|]. split.
  - intros k. now apply (nth_swapr nc nr).
  - f_equal. now apply (swapr_involutive nr nc).
Qed.

Lemma add_rows_correct nr nc A d s : is_matrix nr nc A -> d < nr -> s < nr -> d <> s ->
  exists B, bm_add_rows A d s = Ok B /\ is_matrix nr nc B /\
    (forall k, nth k B [] = if k =? d then map2 xorb (nth d A []) (nth s A []) else nth k A []) /\
    bm_add_rows B d s = Ok A.
Proof.
  intros HA Hd Hs Hne. apply is_matrix_wf in HA as (Hr & Hc & HW).
  exists (addr A d s). pose proof (wf_addr nr nc A d s HW Hd Hs) as W.
  rewrite !(add_rows_Ok nr nc) by auto. split; auto. split; [unfold is_matrix; destruct W; auto|]. split.
  - intros k. now apply (nth_addr nc nr).
  - f_equal. now apply (addr_involutive nr nc).
Qed.

Lemma add_columns_correct nr nc A d s : is_matrix nr nc A -> d < nc -> s < nc -> d <> s ->
  exists B, bm_add_columns A d s = Ok B /\ is_matrix nr nc B /\
    (forall k c, k < nr -> c < nc ->
       entry B k c = if c =? d then xorb (entry A k d) (entry A k s) else entry A k c) /\
    bm_add_columns B d s = Ok A.
Proof.
  assert (forall A, is_matrix nr nc A -> d < nc -> s < nc -> d <> s ->
    exists B, bm_add_columns A d s = Ok B /\ is_matrix nr nc B /\
    (forall k c, k < nr -> c < nc ->
       entry B k c = if c =? d then xorb (entry A k d) (entry A k s) else entry A k c)) as G.
  { clear A. intros A HA Hd Hs Hne. apply is_matrix_wf in HA as (Hr & Hc & HW).
    unfold bm_add_columns. rewrite (num_columns_Ok nr nc) by auto. cbn [bind].
    apply Nat.ltb_lt in Hd as Hd', Hs as Hs'. rewrite Hd', Hs'. cbn [assertb bind].
    destruct (Nat.eqb_spec s d); [congruence|]. cbn [negb assertb bind]. unfold bm_num_rows. rewrite (proj1 HW).
    destruct (foldM_seq_inv (fun M i =>
      row <- vget M i ;; b <- vget row s ;;
      if (b : bool) then row' <- bv_flip row d ;; vset M i row' else Ok M)
      (fun i B => wf nr nc B /\ forall k c, k < nr -> c < nc ->
         entry B k c = if (k <? i) && (c =? d) then xorb (entry A k d) (entry A k s) else entry A k c) 0 nr A)
      as (B & E & W & H).
    - auto.
    - intros i B Hi [W H]. assert (length (nth i B []) = nc) as Hrow by (apply (wf_row nr nc); auto; lia).
      rewrite (vget_Ok B i []) by (rewrite (proj1 W); lia). cbn [bind].
      rewrite (vget_Ok (nth i B []) s false) by lia. cbn [bind].
      fold (entry B i s). rewrite H by lia. rewrite Nat.ltb_irrefl. cbn [andb].
      destruct (entry A i s) eqn:Es.
      + rewrite bv_flip_Ok by lia. cbn [bind]. rewrite vset_Ok by (rewrite (proj1 W); lia).
        eexists. split; [reflexivity|]. unfold flip1. split; [apply wf_upd; auto; now rewrite length_upd|].
        intros k c Hk Hcc. unfold entry at 1. rewrite nth_upd, (proj1 W). replace (i <? nr) with true by (symmetry; apply Nat.ltb_lt; lia).
        rewrite andb_true_r. destruct (Nat.eqb_spec k i) as [->|Hki].
        * rewrite nth_upd, Hrow, Hd', andb_true_r. replace (i <? i + 1) with true by (symmetry; apply Nat.ltb_lt; lia). cbn [andb].
          fold (entry B i c) (entry B i d). rewrite !H, Nat.ltb_irrefl by lia. cbn [andb].
          destruct (c =? d); auto. rewrite Es. now destruct (entry A i d).
        * fold (entry B k c). rewrite H by auto. replace (k <? i + 1) with (k <? i); auto.
          destruct (Nat.ltb_spec k i), (Nat.ltb_spec k (i + 1)); auto; lia.
      + exists B. split; auto. split; auto. intros k c Hk Hcc. rewrite H by auto.
        destruct (Nat.ltb_spec k i), (Nat.ltb_spec k (i + 1)); auto; try lia. cbn [andb].
        assert (k = i) by lia. subst k. destruct (Nat.eqb_spec c d) as [->|]; auto. rewrite Es. now destruct (entry A i d).
    - exists B. split; auto. split; [unfold is_matrix; destruct W; auto|]. intros k c Hk Hcc. rewrite H by auto.
      apply Nat.ltb_lt in Hk. cbn [Nat.add]. now rewrite Hk. }
  intros HA Hd Hs Hne. destruct (G A) as (B & E & HB & H); auto. exists B. split; auto. split; auto. split; auto.
  destruct (G B) as (A' & E' & HA' & H'); auto. rewrite E'. f_equal.
  apply is_matrix_wf in HA as (_ & _ & W), HA' as (_ & _ & W'). apply (wf_ext nr nc); auto. intros k c Hk Hc.
  rewrite H', !H by auto. rewrite Nat.eqb_refl.
  destruct (Nat.eqb_spec s d); [congruence|]. destruct (Nat.eqb_spec c d); subst; auto.
  now destruct (entry A k d), (entry A k s).
Qed.

Lemma set_column_correct nr nc A j b : is_matrix nr nc A -> j < nc -> length b = nr ->
  exists B, bm_set_column A j b = Ok B /\ is_matrix nr nc B /\
    (forall k c, k < nr -> c < nc -> entry B k c = if c =? j then nth k b false else entry A k c).
Proof.
  intros HA Hj Hb. apply is_matrix_wf in HA as (Hr & Hc & HW).
  unfold bm_set_column. rewrite (num_columns_Ok nr nc) by auto. cbn [bind].
  apply Nat.ltb_lt in Hj as Hj'. rewrite Hj'. cbn [assertb bind]. unfold bm_num_rows. rewrite (proj1 HW), Hb, Nat.eqb_refl.
  cbn [assertb bind].
  destruct (foldM_seq_inv (fun M i => v <- vget b i ;; mset M i j v)
    (fun i B => wf nr nc B /\ forall k c, k < nr -> c < nc ->
       entry B k c = if (k <? i) && (c =? j) then nth k b false else entry A k c) 0 nr A) as (B & E & W & H).
  - auto.
  - intros i B Hi [W H]. assert (length (nth i B []) = nc) as Hrow by (apply (wf_row nr nc); auto; lia).
    rewrite (vget_Ok b i false) by lia. cbn [bind]. rewrite (mset_Ok nr nc) by (auto; lia).
    eexists. split; [reflexivity|]. split; [apply wf_upd; auto; now rewrite length_upd|].
    intros k c Hk Hcc. unfold entry at 1. rewrite nth_upd, (proj1 W). replace (i <? nr) with true by (symmetry; apply Nat.ltb_lt; lia).
    rewrite andb_true_r. destruct (Nat.eqb_spec k i) as [->|Hki].
    + rewrite nth_upd, Hrow, Hj', andb_true_r. replace (i <? i + 1) with true by (symmetry; apply Nat.ltb_lt; lia). cbn [andb].
      fold (entry B i c). rewrite H, Nat.ltb_irrefl by auto. cbn [andb]. now destruct (c =? j).
    + fold (entry B k c). rewrite H by auto. replace (k <? i + 1) with (k <? i); auto.
      destruct (Nat.ltb_spec k i), (Nat.ltb_spec k (i + 1)); auto; lia.
  - exists B. split; auto. split; [unfold is_matrix; destruct W; auto|]. intros k c Hk Hcc. rewrite H by auto.
    apply Nat.ltb_lt in Hk. cbn [Nat.add]. now rewrite Hk.
Qed.
