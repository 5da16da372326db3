(** Proofs about NK landscapes. *)

From Coq Require Import ZArith NArith QArith Qabs Lqa Permutation.
From Verif Require Import Base BaseLemmas BitVector_Model BitVector_Spec BitVector_Proofs Function_Spec Sums.
From Verif Require Import Text_Model Collection_Model Collection_Spec Collection_Proofs Tsp_Proofs.
Local Open Scope nat_scope.

(** * Evaluation *)

Lemma nk_index_from s nh : forall index base, Forall (fun j => j < len s) nh ->
  foldM (fun '(index, base) j => b <- vget s j ;; Ok (if (b : bool) then index + base else index, 2 * base)) nh (index, base) =
  Ok (index + base * N.to_nat (value_lsb (map (fun j => nth j s false) nh)), base * 2 ^ len nh).
Proof.
  induction nh as [|j nh IH]; intros index base F; [cbn; now rewrite Nat.mul_0_r, Nat.add_0_r, Nat.mul_1_r|].
  inversion_clear F. cbn [foldM map value_lsb List.length Nat.pow]. rewrite (vget_Ok s j false) by assumption. cbn [bind].
  rewrite IH by assumption. f_equal. f_equal; [|lia]. rewrite N2Nat.inj_add, N2Nat.inj_mul.
  set (v := N.to_nat (value_lsb _)). change (N.to_nat 2) with 2. destruct (nth j s false); [change (N.to_nat 1) with 1|change (N.to_nat 0) with 0]; lia.
Qed.

Lemma nk_index_Ok s nh : Forall (fun j => j < len s) nh -> nk_index s nh = Ok (N.to_nat (value_lsb (map (fun j => nth j s false) nh))).
Proof. intros F. unfold nk_index. rewrite nk_index_from by assumption. cbn [bind]. f_equal. lia. Qed.

Lemma index_lt (x : list bool) : N.to_nat (value_lsb x) < 2 ^ len x.
Proof.
  assert (B := value_lsb_lt x). replace (2 ^ len x) with (N.to_nat (2 ^ N.of_nat (len x))); [lia|].
  rewrite N2Nat.inj_pow, Nat2N.id. reflexivity.
Qed.

Lemma nk_evaluate_Ok n k o x : 0 < n -> nk_sites n k (nk_neighbors o) -> nk_tables n k (nk_functions o) -> len x = n ->
  exists v, nk_evaluate o x = Ok v /\
    (v == qsum (map (contribution (nk_neighbors o) (nk_functions o) x) (seq 0 n)) / inject_Z (Z.of_nat n))%Q.
Proof.
  intros N [L NS] [LF F] Lx. unfold nk_evaluate. rewrite LF.
  match goal with |- context [foldM ?g] => set (f := g) end.
  assert (G : forall m a r, a + m <= n -> exists v, foldM f (seq a m) r = Ok v /\
    (v == r + qsum (map (contribution (nk_neighbors o) (nk_functions o) x) (seq a m)))%Q).
  { induction m as [|m IH]; intros a r H; [exists r; split; [reflexivity|]; cbn; ring|]. cbn [seq foldM map]. unfold f at 1.
    destruct (NS a ltac:(lia)) as (S1 & S2 & S3 & S4). rewrite (vget_Ok _ a []) by lia. cbn [bind].
    assert (B : Forall (fun j => j < len x) (nth a (nk_neighbors o) [])) by now rewrite Lx.
    rewrite nk_index_Ok by assumption. cbn [bind]. rewrite (vget_Ok _ a []) by lia. cbn [bind].
    assert (I := index_lt (map (fun j => nth j x false) (nth a (nk_neighbors o) []))). rewrite map_length, S1 in I.
    rewrite (vget_Ok _ _ 0%Q).
    - cbn [bind]. destruct (IH (S a) (r + contribution (nk_neighbors o) (nk_functions o) x a)%Q ltac:(lia)) as [v [E V]].
      exists v. split; [exact E|]. rewrite V, qsum_cons. ring.
    - assert (R : In (nth a (nk_functions o) []) (nk_functions o)) by (apply nth_In; lia).
      eapply Forall_forall in F; [|exact R]. cbn beta in F. rewrite F. exact I. }
  destruct (G n 0 0%Q ltac:(lia)) as [v [E V]]. rewrite E. cbn [bind]. eexists. split; [reflexivity|]. rewrite V.
  apply Qmult_comp; [ring|reflexivity].
Qed.

Lemma qsum_between lo hi l : Forall (fun q => lo <= q <= hi)%Q l ->
  (lo * inject_Z (Z.of_nat (len l)) <= qsum l <= hi * inject_Z (Z.of_nat (len l)))%Q.
Proof.
  induction l as [|q l IH]; intros F; [change (qsum []) with 0%Q; cbn [List.length]; change (inject_Z (Z.of_nat 0)) with 0%Q; lra|]. inversion_clear F. specialize (IH H0). rewrite qsum_cons.
  cbn [List.length]. rewrite Nat2Z.inj_succ, <- Z.add_1_r, inject_Z_plus. change (inject_Z 1) with 1%Q. lra.
Qed.

Lemma nk_between n k o x lo hi : nk_sites n k (nk_neighbors o) -> nk_tables n k (nk_functions o) -> 0 < n -> len x = n ->
  Forall (Forall (fun q => lo <= q <= hi)%Q) (nk_functions o) ->
  forall v, (v == qsum (map (contribution (nk_neighbors o) (nk_functions o) x) (seq 0 n)) / inject_Z (Z.of_nat n))%Q -> (lo <= v <= hi)%Q.
Proof.
  intros [L NS] [LF F] N Lx B v V. set (l := map _ _) in V. assert (Ll : len l = n) by (unfold l; now rewrite map_length, seq_length).
  assert (P : (0 < inject_Z (Z.of_nat n))%Q) by (change 0%Q with (inject_Z 0); rewrite <- Zlt_Qlt; lia).
  assert (C : Forall (fun q => lo <= q <= hi)%Q l).
  { apply Forall_forall. intros q H. apply in_map_iff in H. destruct H as [i [<- H]]. apply in_seq in H.
    destruct (NS i ltac:(lia)) as (S1 & _ & S3 & _). unfold contribution.
    assert (I := index_lt (map (fun j => nth j x false) (nth i (nk_neighbors o) []))). rewrite map_length, S1 in I.
    assert (R : In (nth i (nk_functions o) []) (nk_functions o)) by (apply nth_In; lia).
    eapply Forall_forall in B; [|exact R]. eapply Forall_forall in F; [|exact R]. cbn beta in F.
    eapply Forall_forall in B; [exact B|]. apply nth_In. rewrite F. exact I. }
  apply qsum_between in C. rewrite Ll in C. rewrite V. split.
  - apply Qle_shift_div_l; tauto.
  - apply Qle_shift_div_r; tauto.
Qed.

(** * Random instances *)

Definition other (i : nat) (sites : list nat) : list nat := filter (fun j => negb (j =? i)) sites.

Lemma ratio_le (a b : nat) (u : Q) : 0 < b ->
  Qle_bool (inject_Z (Z.of_nat a) / inject_Z (Z.of_nat b)) u = true <-> (inject_Z (Z.of_nat a) <= u * inject_Z (Z.of_nat b))%Q.
Proof.
  intros B. assert (P : (0 < inject_Z (Z.of_nat b))%Q) by (change 0%Q with (inject_Z 0); rewrite <- Zlt_Qlt; lia).
  rewrite Qle_bool_iff. split; intros H.
  - apply (Qmult_le_r _ _ _ P) in H. rewrite Qmult_comm, Qmult_div_r in H; [exact H|lra].
  - apply Qle_shift_div_r; assumption.
Qed.

Lemma of_nat_pos b : 0 < b -> (0 < inject_Z (Z.of_nat b))%Q.
Proof. intros. change 0%Q with (inject_Z 0). rewrite <- Zlt_Qlt. lia. Qed.

Lemma skipn_upd {A} (l : list A) k a : k < len l -> skipn k (upd l k a) = a :: skipn (k + 1) l.
Proof. revert k; induction l as [|b l IH]; intros [|k] H; cbn in *; try lia; [reflexivity|]. now rewrite IH by lia. Qed.

Lemma sample_Ok i u : (forall j, 0 <= u j < 1)%Q -> forall sites row a, NoDup sites -> a <= len row -> a <= len (other i sites) ->
  exists chosen, sample_neighbors i sites u row a (len (other i sites)) = Ok (chosen ++ skipn a row, 0) /\
    len chosen = a /\ NoDup chosen /\ forall j, In j chosen -> In j sites /\ j <> i.
Proof.
  intros U. assert (Z0 : forall row : list nat, exists chosen, Ok (row, 0) = Ok (chosen ++ skipn 0 row, 0) /\
    len chosen = 0 /\ NoDup chosen /\ forall j : nat, In j chosen -> False).
  { intros row. exists []. repeat split; auto. constructor. }
  induction sites as [|j sites IH]; intros row a ND La Lb.
  { cbn in Lb. replace a with 0 by lia. destruct (Z0 row) as (c & E & A & B & C). exists c. repeat split; auto; now destruct (C j). }
  inversion_clear ND as [|? ? NJ ND']. cbn [sample_neighbors]. destruct (Nat.eqb_spec a 0) as [->|A0].
  { destruct (Z0 row) as (c & E & A & B & C). exists c. repeat split; auto; now destruct (C j0). }
  unfold other in Lb |- *. cbn [filter] in Lb |- *. destruct (Nat.eqb_spec j i) as [->|NE]; cbn [negb] in Lb |- *; fold (other i sites) in Lb |- *.
  { destruct (IH row a ND' La Lb) as (c & E & A & B & C). exists c. repeat split; auto; [right|]; apply C; assumption. }
  cbn [List.length] in Lb |- *. set (b := len (other i sites)) in *. destruct (Nat.leb_spec a (S b)); [|lia]. cbn [assertb bind].
  destruct (Qle_bool _ _) eqn:Q; cbn [negb].
  - apply ratio_le in Q; [|lia]. assert (P := of_nat_pos (S b) ltac:(lia)). specialize (U j).
    assert (a < S b).
    { assert (inject_Z (Z.of_nat a) < inject_Z (Z.of_nat (S b)))%Q by nra. rewrite <- Zlt_Qlt in *. lia. }
    replace (S b - 1) with b by lia. destruct (IH row a ND' La ltac:(lia)) as (c & E & A & B & C). exists c. repeat split; auto; [right|]; apply C; assumption.
  - rewrite vset_Ok by lia. cbn [bind]. replace (S b - 1) with b by lia.
    destruct (IH (upd row (a - 1) j) (a - 1) ND' ltac:(rewrite length_upd; lia) ltac:(lia)) as (c & E & A & B & C).
    exists (c ++ [j]). split.
    + rewrite E. rewrite skipn_upd by lia. rewrite <- app_assoc. replace (a - 1 + 1) with a by lia. reflexivity.
    + split; [rewrite app_length; cbn; lia|]. split.
      * apply (Permutation_NoDup (Permutation_cons_append c j)). constructor; [|assumption]. intros H1. now apply NJ, C.
      * intros y Hy. apply in_app_or in Hy as [Hy|[<-|[]]]; [split; [right|]; now apply C|split; [now left|assumption]].
Qed.

(** Any set of neighbors can be drawn. *)
Definition steer (n : nat) (sel : nat -> bool) (j : nat) : Q := if sel j then 0%Q else (1 - 1 / inject_Z (Z.of_nat (S n)))%Q.

Lemma steer_range n sel j : (0 <= steer n sel j < 1)%Q.
Proof.
  unfold steer. destruct (sel j); [lra|]. assert (P := of_nat_pos (S n) ltac:(lia)).
  assert (H : (0 < 1 / inject_Z (Z.of_nat (S n)) <= 1)%Q).
  { split; [apply Qlt_shift_div_l; lra|]. apply Qle_shift_div_r; [assumption|]. rewrite Qmult_1_l. change 1%Q with (inject_Z 1). rewrite <- Zle_Qle. lia. }
  lra.
Qed.

Lemma sample_any i n sel : forall sites row, len (other i sites) <= n -> len (filter sel (other i sites)) <= len row ->
  sample_neighbors i sites (steer n sel) row (len (filter sel (other i sites))) (len (other i sites)) =
  Ok (rev (filter sel (other i sites)) ++ skipn (len (filter sel (other i sites))) row, 0).
Proof.
  induction sites as [|j sites IH]; intros row Ln La; [reflexivity|]. cbn [sample_neighbors]. unfold other in *. cbn [filter] in *.
  destruct (Nat.eqb_spec j i) as [->|NE]; cbn [negb filter] in *; fold (other i sites) in *.
  { destruct (Nat.eqb_spec (len (filter sel (other i sites))) 0) as [E|]; [|now apply IH].
    apply length_zero_iff_nil in E. rewrite E. reflexivity. }
  destruct (sel j) eqn:SJ; cbn [List.length] in *; set (b := len (other i sites)) in *.
  - set (a := len (filter sel (other i sites))) in *.
    assert (AB : a <= b) by (unfold a, b; clear; induction (other i sites) as [|y l IH]; cbn; [lia|destruct (sel y); cbn; lia]).
    cbn [Nat.eqb]. destruct (Nat.leb_spec (S a) (S b)); [|lia]. cbn [assertb bind].
    destruct (Qle_bool _ _) eqn:Q; cbn [negb].
    + apply ratio_le in Q; [|lia]. unfold steer in Q. rewrite SJ in Q. assert (P := of_nat_pos (S a) ltac:(lia)). lra.
    + rewrite vset_Ok by lia. cbn [bind]. rewrite !Nat.sub_succ, !Nat.sub_0_r. rewrite IH by (rewrite ?length_upd; lia).
      rewrite skipn_upd by lia. cbn [rev]. rewrite <- app_assoc, Nat.add_1_r. reflexivity.
  - set (a := len (filter sel (other i sites))) in *.
    assert (AB : a <= b) by (unfold a, b; clear; induction (other i sites) as [|y l IH]; cbn; [lia|destruct (sel y); cbn; lia]).
    destruct (Nat.eqb_spec a 0) as [E|]; [assert (F := E); apply length_zero_iff_nil in F; rewrite F, E; reflexivity|].
    destruct (Nat.leb_spec a (S b)); [|lia]. cbn [assertb bind].
    destruct (Qle_bool _ _) eqn:Q; cbn [negb].
    + rewrite Nat.sub_succ, Nat.sub_0_r. apply IH; lia.
    + exfalso. apply Bool.not_true_iff_false in Q. apply Q, ratio_le; [lia|]. unfold steer. rewrite SJ.
      assert (P := of_nat_pos (S n) ltac:(lia)). assert (PB := of_nat_pos (S b) ltac:(lia)).
      assert (H1 : (1 / inject_Z (Z.of_nat (S n)) * inject_Z (Z.of_nat (S b)) <= 1)%Q).
      { unfold Qdiv. rewrite Qmult_1_l, Qmult_comm. apply Qle_shift_div_r; [assumption|]. rewrite Qmult_1_l, <- Zle_Qle. lia. }
      assert (H2 : (inject_Z (Z.of_nat a) <= inject_Z (Z.of_nat (S b)) - 1)%Q).
      { change 1%Q with (inject_Z 1). unfold Qminus. rewrite <- inject_Z_opp, <- inject_Z_plus, <- Zle_Qle. lia. }
      lra.
Qed.

Lemma len_other i n : i < n -> len (other i (seq 0 n)) = n - 1.
Proof.
  intros H. replace n with (i + S (n - i - 1)) at 1 by lia. rewrite seq_app. unfold other. rewrite filter_app, app_length. cbn [seq filter Nat.add].
  rewrite Nat.eqb_refl. cbn [negb].
  assert (G : forall a m, (forall j, a <= j < a + m -> j <> i) -> filter (fun j => negb (j =? i)) (seq a m) = seq a m).
  { intros a m; revert a. induction m as [|m IH]; intros a K; [reflexivity|]. cbn [seq filter]. destruct (Nat.eqb_spec a i); [destruct (K a); lia|].
    cbn [negb]. rewrite IH; [reflexivity|]. intros; apply K; lia. }
  rewrite !G by (intros; lia). rewrite !seq_length. lia.
Qed.

Lemma last_cell {A} (l : list A) k : len l = k + 1 -> forall a, skipn k (upd l k a) = [a].
Proof. intros L a. rewrite skipn_upd by lia. f_equal. apply skipn_all2. lia. Qed.

Lemma nth_firstn_lt' {A} n (l : list A) : forall k d, k < n -> nth k (firstn n l) d = nth k l d.
Proof. revert l; induction n as [|n IH]; intros [|a l] [|k] d H; try lia; cbn; auto. apply IH. lia. Qed.

Lemma nth_resize {A} n (a : A) l i d : i < n -> nth i (resize n a l) d = if i <? len l then nth i l d else a.
Proof.
  intros H. unfold resize. destruct (Nat.ltb_spec i (len l)).
  - rewrite app_nth1 by (rewrite firstn_length; lia). apply nth_firstn_lt'. lia.
  - rewrite app_nth2 by (rewrite firstn_length; lia). rewrite firstn_length. apply nth_repeat_lt. lia.
Qed.

Lemma length_resize {A} n (a : A) l : len (resize n a l) = n.
Proof. unfold resize. rewrite app_length, firstn_length, repeat_length. lia. Qed.

(** The neighbors drawn on an object already used. The width of the rows is not always k + 1. *)
Section Structure.
  Variables n k : nat.
  Variable u : nat -> nat -> Q.
  Variable o : nk.
  Hypothesis N : 0 < n.
  Hypothesis K : 0 < k <= 29.
  Let start := resize n (repeat 0 (k + 1)) (nk_neighbors o).

  Definition row_ok (i : nat) (row : list nat) : Prop :=
    len row = len (nth i start []) /\ NoDup row /\ Forall (fun j => j < n) row /\ nth (len row - 1) row 0 = i /\
    let w := len (nth i start []) in sample_neighbors i (seq 0 n) (u i) (upd (nth i start []) (w - 1) i) (w - 1) (n - 1) = Ok (row, 0).

  Lemma structure_Ok : (forall i j, (0 <= u i j < 1)%Q) -> (forall i, i < n -> 1 <= len (nth i start []) <= n) ->
    exists neighbors, random_structure n k u o = Ok (mk_nk neighbors (resize n (repeat 0%Q (2 ^ (k + 1))) (nk_functions o))) /\
      len neighbors = n /\ forall i, i < n -> row_ok i (nth i neighbors []).
  Proof.
    intros U W. unfold random_structure. destruct (Nat.ltb_spec 0 n); [|lia]. destruct (Nat.ltb_spec 0 k); [|lia].
    destruct (Nat.leb_spec (k + 1) 30); [|lia]. cbn [assertb bind]. cbn zeta. rewrite length_resize. fold start.
    match goal with |- context [foldM ?g] => set (f := g) end.
    destruct (foldM_seq_inv f (fun i ns => len ns = n /\ (forall r, r < i -> row_ok r (nth r ns [])) /\
      forall r, i <= r -> nth r ns [] = nth r start []) 0 n start) as (ns & E & L & D & _).
    - split; [apply length_resize|]. split; [intros; lia|reflexivity].
    - intros i ns Hi (L & D & R). unfold f. rewrite (vget_Ok ns i []) by lia. cbn [bind]. rewrite (R i) by lia.
      specialize (W i ltac:(lia)). set (row := nth i start []) in *. destruct (Nat.ltb_spec 0 (len row)); [|lia]. cbn [assertb bind].
      rewrite vset_Ok by lia. cbn [bind]. assert (O := len_other i n ltac:(lia)).
      destruct (sample_Ok i (u i) (U i) (seq 0 n) (upd row (len row - 1) i) (len row - 1) (seq_NoDup n 0)) as (c & E & C1 & C2 & C3).
      { rewrite length_upd. lia. } { rewrite O. lia. }
      rewrite O in E. rewrite E. cbn [bind]. cbn [Nat.eqb assertb bind]. rewrite last_cell by lia. rewrite vset_Ok by lia.
      eexists. split; [reflexivity|]. split; [now rewrite length_upd|]. split.
      + intros r Hr. rewrite nth_upd. destruct (Nat.eqb_spec r i) as [->|]; cbn [andb]; [|apply D; lia]. destruct (Nat.ltb_spec i (len ns)); [|lia].
        unfold row_ok. fold row. rewrite app_length, C1. cbn [List.length]. split; [lia|]. split; [|split; [|split]].
        * apply (Permutation_NoDup (Permutation_cons_append c i)). constructor; [|assumption]. intros HI. now apply C3 in HI.
        * apply Forall_app. split; [|repeat constructor; lia]. apply Forall_forall. intros j Hj. apply C3 in Hj as [Hj _]. apply in_seq in Hj. lia.
        * rewrite app_nth2 by lia. rewrite C1. replace (len row - 1 + 1 - 1 - (len row - 1)) with 0 by lia. reflexivity.
        * cbn zeta. rewrite E, last_cell by lia. reflexivity.
      + intros r Hr. rewrite nth_upd_neq by lia. apply R. lia.
    - exists ns. rewrite E. cbn [bind]. split; [reflexivity|]. split; [exact L|]. intros i Hi. apply D. lia.
  Qed.
End Structure.

Lemma tables_Ok (gen : nat -> nat -> Q) (fs : list (list Q)) : exists fs',
  foldM (fun functions i =>
      row <- vget functions i ;;
      row <- foldM (fun row j => vset row j (gen i j)) (seq 0 (len row)) row ;;
      vset functions i row) (seq 0 (len fs)) fs = Ok fs' /\
  len fs' = len fs /\ forall i, i < len fs -> nth i fs' [] = map (gen i) (seq 0 (len (nth i fs []))).
Proof.
  match goal with |- context [foldM ?g] => set (f := g) end.
  destruct (foldM_seq_inv f (fun i s => len s = len fs /\ (forall r, r < i -> nth r s [] = map (gen r) (seq 0 (len (nth r fs [])))) /\
    forall r, i <= r -> nth r s [] = nth r fs []) 0 (len fs) fs) as (s & E & L & D & _).
  - split; [reflexivity|]. split; [intros; lia|reflexivity].
  - intros i s Hi (L & D & R). unfold f. rewrite (vget_Ok s i []) by lia. cbn [bind]. rewrite (R i) by lia. set (row := nth i fs []).
    destruct (foldM_seq_inv (fun row j => vset row j (gen i j)) (fun j r => len r = len row /\ forall c, c < j -> nth c r 0%Q = gen i c) 0 (len row) row)
      as (row' & E & L' & D').
    + split; [reflexivity|]. intros; lia.
    + intros j r Hj [L1 D1]. rewrite vset_Ok by lia. eexists. split; [reflexivity|]. split; [now rewrite length_upd|].
      intros c Hc. rewrite nth_upd. destruct (Nat.eqb_spec c j) as [->|]; cbn [andb]; [destruct (Nat.ltb_spec j (len r)); [reflexivity|lia]|apply D1; lia].
    + rewrite E. cbn [bind]. rewrite vset_Ok by lia. eexists. split; [reflexivity|]. split; [now rewrite length_upd|].
      assert (ER : row' = map (gen i) (seq 0 (len row))).
      { apply (nth_ext _ _ 0%Q (gen i 0)); [now rewrite map_length, seq_length|]. intros c Hc. rewrite D' by lia. rewrite map_nth, seq_nth by lia. reflexivity. }
      split; intros r Hr.
      * rewrite nth_upd. destruct (Nat.eqb_spec r i) as [->|]; cbn [andb]; [destruct (Nat.ltb_spec i (len s)); [exact ER|lia]|apply D; lia].
      * rewrite nth_upd_neq by lia. apply R. lia.
  - exists s. split; [exact E|]. split; [exact L|]. intros i Hi. apply D. lia.
Qed.

(** What is generated, row by row *)
Lemma generate_rows n k u gen o : 0 < n -> 0 < k <= 29 -> (forall i j, (0 <= u i j < 1)%Q) ->
  (forall i, i < n -> 1 <= len (nth i (resize n (repeat 0 (k + 1)) (nk_neighbors o)) []) <= n) ->
  exists o', nk_generate n k u gen o = Ok o' /\ len (nk_neighbors o') = n /\ len (nk_functions o') = n /\
    (forall i, i < n -> row_ok n k u o i (nth i (nk_neighbors o') [])) /\
    forall i, i < n -> nth i (nk_functions o') [] =
      map (gen i) (seq 0 (len (nth i (resize n (repeat 0%Q (2 ^ (k + 1))) (nk_functions o)) []))).
Proof.
  intros N K U W. unfold nk_generate. destruct (Nat.ltb_spec 0 n); [|lia]. destruct (Nat.ltb_spec 0 k); [|lia]. cbn [assertb bind].
  destruct (structure_Ok n k u o N K U W) as (ns & E & L & R). rewrite E. cbn [bind nk_functions nk_neighbors].
  destruct (tables_Ok gen (resize n (repeat 0%Q (2 ^ (k + 1))) (nk_functions o))) as (fs & EF & LF & F). rewrite EF. cbn [bind].
  rewrite length_resize in *. eexists. split; [reflexivity|]. cbn [nk_functions nk_neighbors]. auto.
Qed.

(** Objects whose rows all have the same width *)
Definition width (w : nat) (o : nk) : Prop :=
  Forall (fun row => len row = w + 1) (nk_neighbors o) /\ Forall (fun f => len f = 2 ^ (w + 1)) (nk_functions o).

Lemma width_rows {A} (l : list (list A)) n w r i : Forall (fun row => len row = w) l -> len r = w -> i < n ->
  len (nth i (resize n r l) []) = w.
Proof.
  intros F L H. rewrite nth_resize by assumption. destruct (Nat.ltb_spec i (len l)); [|assumption].
  eapply Forall_forall in F; [exact F|]. now apply nth_In.
Qed.

Lemma kept_rows {A} (l : list (list A)) n w r i : Forall (fun row => len row = w) l -> n <= len l -> i < n ->
  len (nth i (resize n r l) []) = w.
Proof.
  intros F L H. rewrite nth_resize by assumption. destruct (Nat.ltb_spec i (len l)); [|lia].
  eapply Forall_forall in F; [exact F|]. now apply nth_In.
Qed.

Lemma sites_of_rows n k w u o ns : len ns = n -> (forall i, i < n -> row_ok n k u o i (nth i ns [])) ->
  (forall i, i < n -> len (nth i (resize n (repeat 0 (k + 1)) (nk_neighbors o)) []) = w + 1) -> nk_sites n w ns.
Proof.
  intros L R W. split; [assumption|]. intros i Hi. cbn zeta. destruct (R i Hi) as (R1 & R2 & R3 & R4 & _). rewrite W in R1 by assumption.
  split; [assumption|]. split; [assumption|]. split; [assumption|]. rewrite R1 in R4. now replace (w + 1 - 1) with w in R4 by lia.
Qed.

Lemma tables_of_rows n w gen (fs : list (list Q)) (l : nat -> nat) : len fs = n -> (forall i, i < n -> nth i fs [] = map (gen i) (seq 0 (l i))) ->
  (forall i, i < n -> l i = 2 ^ (w + 1)) ->
  nk_tables n w fs /\ forall i j, i < n -> j < 2 ^ (w + 1) -> nth j (nth i fs []) 0%Q = gen i j.
Proof.
  intros L F W. split.
  - split; [assumption|]. apply Forall_forall. intros f Hf. apply (In_nth _ _ []) in Hf as (i & Hi & <-). rewrite L in Hi.
    rewrite F by assumption. rewrite map_length, seq_length. auto.
  - intros i j Hi Hj. rewrite F by assumption. rewrite (nth_indep _ 0%Q (gen i 0)) by (rewrite map_length, seq_length, W; assumption).
    rewrite map_nth, seq_nth by (now rewrite W). reflexivity.
Qed.

Lemma generate_width n k u gen o : 0 < k <= 29 -> k < n -> width k o -> (forall i j, (0 <= u i j < 1)%Q) ->
  exists o', nk_generate n k u gen o = Ok o' /\ nk_sites n k (nk_neighbors o') /\ nk_tables n k (nk_functions o') /\
    (forall i j, i < n -> j < 2 ^ (k + 1) -> nth j (nth i (nk_functions o') []) 0%Q = gen i j) /\
    forall i, i < n -> row_ok n k u o i (nth i (nk_neighbors o') []).
Proof.
  intros K KN [W1 W2] U. assert (A : forall i, i < n -> len (nth i (resize n (repeat 0 (k + 1)) (nk_neighbors o)) []) = k + 1).
  { intros i Hi. apply width_rows; auto. apply repeat_length. }
  destruct (generate_rows n k u gen o ltac:(lia) K U) as (o' & E & L1 & L2 & R & F).
  { intros i Hi. rewrite A by assumption. lia. }
  exists o'. split; [exact E|]. split; [eapply sites_of_rows; eauto|].
  destruct (tables_of_rows n k gen (nk_functions o') _ L2 F) as [T1 T2].
  { intros i Hi. apply width_rows; auto. apply repeat_length. }
  auto.
Qed.

(** On an object generated before with another number of neighbors, that number remains. *)
Lemma generate_again n k w u gen o : 0 < k <= 29 -> w < n -> width w o -> n <= len (nk_neighbors o) -> n <= len (nk_functions o) ->
  (forall i j, (0 <= u i j < 1)%Q) ->
  exists o', nk_generate n k u gen o = Ok o' /\ nk_sites n w (nk_neighbors o') /\ nk_tables n w (nk_functions o').
Proof.
  intros K WN [W1 W2] N1 N2 U. assert (A : forall i, i < n -> len (nth i (resize n (repeat 0 (k + 1)) (nk_neighbors o)) []) = w + 1).
  { intros i Hi. now apply kept_rows. }
  destruct (generate_rows n k u gen o ltac:(lia) K U) as (o' & E & L1 & L2 & R & F).
  { intros i Hi. rewrite A by assumption. lia. }
  exists o'. split; [exact E|]. split; [eapply sites_of_rows; eauto|].
  destruct (tables_of_rows n w gen (nk_functions o') _ L2 F) as [T1 T2]; [|exact T1].
  intros i Hi. now apply kept_rows.
Qed.

Lemma filter_mem_perm (S l : list nat) : NoDup S -> NoDup l -> (forall j, In j S -> In j l) ->
  Permutation (filter (fun j => if in_dec Nat.eq_dec j S then true else false) l) S.
Proof.
  intros N1 N2 I. apply NoDup_Permutation; [now apply NoDup_filter|assumption|]. intros j. rewrite filter_In.
  destruct (in_dec Nat.eq_dec j S); intuition; try discriminate.
Qed.

Lemma generate_any n k (S : nat -> list nat) gen o : 0 < k <= 29 -> k < n -> width k o ->
  (forall i, i < n -> len (S i) = k /\ NoDup (S i) /\ forall j, In j (S i) -> j < n /\ j <> i) ->
  exists u o', (forall i j, (0 <= u i j < 1)%Q) /\ nk_generate n k u gen o = Ok o' /\
    forall i, i < n -> Permutation (nth i (nk_neighbors o') []) (i :: S i).
Proof.
  intros K KN W HS. set (sel := fun i j => if in_dec Nat.eq_dec j (S i) then true else false).
  set (u := fun i => steer n (sel i)). assert (U : forall i j, (0 <= u i j < 1)%Q) by (intros; apply steer_range).
  destruct (generate_width n k u gen o K KN W U) as (o' & E & _ & _ & _ & R). exists u, o'. split; [exact U|]. split; [exact E|].
  intros i Hi. destruct (R i Hi) as (_ & _ & _ & _ & R5). cbn zeta in R5. destruct W as [W _].
  assert (A : len (nth i (resize n (repeat 0 (k + 1)) (nk_neighbors o)) []) = k + 1) by (apply width_rows; auto; apply repeat_length).
  set (row := nth i (resize n (repeat 0 (k + 1)) (nk_neighbors o)) []) in *. rewrite A in R5. replace (k + 1 - 1) with k in R5 by lia.
  destruct (HS i Hi) as (S1 & S2 & S3).
  assert (P : Permutation (filter (sel i) (other i (seq 0 n))) (S i)).
  { apply filter_mem_perm; [assumption|apply NoDup_filter, seq_NoDup|]. intros j Hj. apply S3 in Hj as [H1 H2]. apply filter_In.
    split; [apply in_seq; lia|]. now destruct (Nat.eqb_spec j i). }
  assert (L := Permutation_length P). rewrite S1 in L. assert (O := len_other i n Hi).
  assert (M := sample_any i n (sel i) (seq 0 n) (upd row k i)). rewrite L, O in M. rewrite length_upd in M.
  unfold u in R5. rewrite M in R5 by lia. injection R5 as R5. rewrite <- R5. rewrite last_cell by assumption.
  rewrite <- P. rewrite <- Permutation_cons_append. constructor. symmetry. apply Permutation_rev.
Qed.

Lemma sample_too_many i u : forall sites row a b, 0 < a -> b < a ->
  sample_neighbors i sites u row a b = UB \/ exists row', sample_neighbors i sites u row a b = Ok (row', a).
Proof.
  induction sites as [|j sites IH]; intros row a b A B; cbn [sample_neighbors]; [eauto|].
  destruct (Nat.eqb_spec a 0); [lia|]. destruct (j =? i); [now apply IH|]. destruct (Nat.leb_spec a b); [lia|]. now left.
Qed.

Lemma generate_too_many n k u gen : n <= k -> nk_generate n k u gen (mk_nk [] []) = UB.
Proof.
  intros H. unfold nk_generate, random_structure. destruct (Nat.ltb_spec 0 n) as [N|]; [|reflexivity]. cbn [assertb bind].
  destruct (Nat.ltb_spec 0 k); [|lia]. cbn [assertb bind]. destruct (k + 1 <=? 30); [|reflexivity]. cbn [assertb bind]. cbn zeta.
  rewrite length_resize. cbn [nk_neighbors nk_functions]. destruct n as [|n]; [lia|].
  match goal with |- context [foldM ?g (seq 0 (S n)) ?r] => set (f := g); set (start := r) end.
  assert (E : f start 0 = UB).
  { unfold f. assert (W : len (nth 0 start []) = k + 1) by (apply width_rows; [constructor|apply repeat_length|lia]).
    rewrite (vget_Ok start 0 []) by (unfold start; rewrite length_resize; lia). cbn [bind]. rewrite W.
    destruct (Nat.ltb_spec 0 (k + 1)); [|lia]. cbn [assertb bind]. rewrite vset_Ok by lia. cbn [bind].
    destruct (sample_too_many 0 (u 0) (seq 0 (S n)) (upd (nth 0 start []) (k + 1 - 1) 0) (k + 1 - 1) (S n - 1)) as [E|[row' E]]; [lia|lia| |].
    - rewrite E. reflexivity.
    - rewrite E. cbn [bind]. destruct (Nat.eqb_spec (k + 1 - 1) 0); [lia|]. reflexivity. }
  change (seq 0 (S n)) with (0 :: seq 1 n). cbn [foldM]. rewrite E. reflexivity.
Qed.
