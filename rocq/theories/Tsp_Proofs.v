(** Proofs about the traveling salesman problem. *)

From Coq Require Import ZArith Permutation.
From Verif Require Import Base BaseLemmas BitVector_Model Function_Spec Sums Collection_Model Collection_Spec Labs_Proofs Collection_Proofs.
Local Open Scope nat_scope.

(** * Tours *)

Definition swap {A B} (p : A * B) : B * A := (snd p, fst p).
Definition pairs (l : list nat) : list (nat * nat) := combine l (tl l).

Lemma pairs_snoc l a b : pairs (l ++ [a; b]) = pairs (l ++ [a]) ++ [(a, b)].
Proof.
  induction l as [|c l IH]; [reflexivity|]. unfold pairs in *. cbn [app tl].
  destruct l as [|d l]; [reflexivity|]. cbn [app tl combine] in *. now rewrite IH.
Qed.

Lemma pairs_rev l : pairs (rev l) = rev (map swap (pairs l)).
Proof.
  induction l as [|a l IH]; [reflexivity|]. destruct l as [|b l]; [reflexivity|].
  change (pairs (a :: b :: l)) with ((a, b) :: pairs (b :: l)). cbn [map rev]. rewrite <- IH. cbn [rev].
  rewrite <- app_assoc. cbn [app]. rewrite pairs_snoc. reflexivity.
Qed.

Lemma legs_pairs a t : legs (a :: t) = pairs (a :: t ++ [a]).
Proof.
  unfold legs, pairs. cbn [tl]. change (a :: t ++ [a]) with ((a :: t) ++ [a]).
  assert (G : forall (l : list nat) (m : list nat) z, len m <= len l -> combine (l ++ [z]) m = combine l m).
  { induction l as [|x l IH]; intros [|y m] z L; cbn in *; auto; try lia. rewrite IH by lia. reflexivity. }
  symmetry. apply G. rewrite app_length. cbn. lia.
Qed.

Lemma legs_rotate a t : Permutation (legs (a :: t)) (legs (t ++ [a])).
Proof.
  destruct t as [|b u]; [reflexivity|]. rewrite legs_pairs. cbn [app]. rewrite legs_pairs.
  rewrite <- app_assoc. cbn [app]. change (b :: u ++ [a; b]) with ((b :: u) ++ [a; b]). rewrite pairs_snoc.
  change (pairs (a :: b :: u ++ [a])) with ((a, b) :: pairs ((b :: u) ++ [a])). apply Permutation_cons_append.
Qed.

Lemma legs_rotation p q : Permutation (legs (p ++ q)) (legs (q ++ p)).
Proof.
  revert q; induction p as [|a p IH]; intros q; [now rewrite app_nil_r|]. cbn [app].
  etransitivity; [apply legs_rotate|]. rewrite <- app_assoc. etransitivity; [apply IH|]. now rewrite <- app_assoc.
Qed.

Lemma legs_rev p : Permutation (legs (rev p)) (map swap (legs p)).
Proof.
  destruct p as [|a t]; [reflexivity|]. cbn [rev]. etransitivity; [apply Permutation_sym, legs_rotate|].
  rewrite !legs_pairs. replace (a :: rev t ++ [a]) with (rev (a :: t ++ [a])).
  - rewrite pairs_rev. apply Permutation_sym, Permutation_rev.
  - cbn [rev]. rewrite rev_app_distr. reflexivity.
Qed.

Lemma tour_rotation d p q : tour_length d (p ++ q) = tour_length d (q ++ p).
Proof. unfold tour_length. apply (sum_perm _ _ (fun l => entry d (fst l) (snd l))), legs_rotation. Qed.

Lemma legs_In p a b : In (a, b) (legs p) -> In a p /\ In b p.
Proof.
  destruct p as [|x t]; [intros []|]. unfold legs. intros H. split; [eapply in_combine_l, H|].
  apply in_combine_r in H. apply in_app_or in H. destruct H as [H|[<-|[]]]; [now right|now left].
Qed.

Lemma tour_reversal n d p : symmetric n d -> Forall (fun i => i < n) p -> tour_length d (rev p) = tour_length d p.
Proof.
  intros S F. unfold tour_length. change (zsum (map ?f ?l)) with (sum_over l f). rewrite (sum_perm _ _ _ (legs_rev p)), sum_map.
  apply sum_ext. intros [a b] H. apply legs_In in H. rewrite Forall_forall in F. cbn [fst snd swap]. apply S; apply F; tauto.
Qed.

(** * Evaluation *)

Lemma sum_legs f t : forall a z, sum_over (combine (a :: t) (t ++ [z])) f =
  (sum_n (len t) (fun i => f (nth i (a :: t) 0%nat, nth (i + 1) (a :: t) 0%nat)) + f (nth (len t) (a :: t) 0%nat, z))%Z.
Proof.
  induction t as [|b t IH]; intros a z; [cbn; lia|].
  change (combine (a :: b :: t) ((b :: t) ++ [z])) with ((a, b) :: combine (b :: t) (t ++ [z])). rewrite sum_cons, IH.
  cbn [List.length]. rewrite sum_n_S_first. change (nth (S (len t)) (a :: b :: t) 0) with (nth (len t) (b :: t) 0). cbn [nth Nat.add]. lia.
Qed.

Lemma mget_Ok d n i j : grid n n d -> i < n -> j < n -> mget d i j = Ok (entry d i j).
Proof.
  intros [G1 G2] Hi Hj. unfold mget. rewrite (vget_Ok d i []) by lia. cbn [bind]. unfold entry. apply vget_Ok.
  rewrite Forall_forall in G2. rewrite (G2 (nth i d [])); [assumption|]. apply nth_In. lia.
Qed.

Lemma tsp_value n d p : 0 < n -> grid n n d -> len p = n -> Forall (fun i => i < n) p ->
  tsp_evaluate d p = Ok (- tour_length d p)%Z.
Proof.
  intros N G L F. assert (Ld : len d = n) by apply G. unfold tsp_evaluate. rewrite Ld.
  destruct (Nat.ltb_spec 0 n); [|lia]. cbn [assertb bind].
  assert (P : forall i, i < n -> nth i p 0 < n).
  { intros i Hi. rewrite Forall_forall in F. apply F, nth_In. lia. }
  rewrite (foldM_add _ (fun i => entry d (nth i p 0) (nth (i + 1) p 0))).
  - cbn [bind]. rewrite !(vget_Ok p _ 0) by lia. cbn [bind]. rewrite (mget_Ok d n) by (auto; apply P; lia). cbn [bind].
    do 2 f_equal. destruct p as [|a t]; [cbn in L; lia|]. unfold tour_length, legs.
    change (zsum (map ?f ?l)) with (sum_over l f). rewrite (sum_legs _ t a a). cbn [fst snd].
    cbn [List.length] in L. replace (n - 1) with (len t) by lia. reflexivity.
  - intros i r Hi. apply in_seq in Hi. rewrite !(vget_Ok p _ 0) by lia. cbn [bind].
    rewrite (mget_Ok d n) by (auto; apply P; lia). reflexivity.
Qed.

(** * Matrices *)

Lemma mset_Ok n d i j a : grid n n d -> i < n -> j < n ->
  exists d', mset d i j a = Ok d' /\ grid n n d' /\
  forall r c, r < n -> c < n -> entry d' r c = if (r =? i) && (c =? j) then a else entry d r c.
Proof.
  intros [G1 G2] Hi Hj. unfold mset. rewrite (vget_Ok d i []) by lia. cbn [bind]. rewrite Forall_forall in G2.
  assert (Lr : len (nth i d []) = n) by (apply G2, nth_In; lia).
  rewrite vset_Ok by lia. cbn [bind]. rewrite vset_Ok by lia. eexists. split; [reflexivity|]. split.
  - split; [now rewrite length_upd|]. apply Forall_forall. intros row H. apply In_upd in H. destruct H as [->|H]; [now rewrite length_upd|auto].
  - intros r c Hr Hc. unfold entry. rewrite nth_upd. destruct (Nat.eqb_spec r i) as [->|Ne].
    + destruct (Nat.ltb_spec i (len d)); [|lia]. cbn [andb]. rewrite nth_upd, Lr. destruct (Nat.eqb_spec c j) as [->|]; [|reflexivity].
      destruct (Nat.ltb_spec j n); [reflexivity|lia].
    + reflexivity.
Qed.

Lemma grid_resize n d : grid n n (tsp_resize n d).
Proof.
  assert (R : forall {A} (a : A) l, len (resize n a l) = n).
  { intros A a l. unfold resize. rewrite app_length, firstn_length, repeat_length. lia. }
  unfold tsp_resize. split; [now rewrite map_length, R|]. apply Forall_forall. intros row H. apply in_map_iff in H.
  destruct H as [l [<- _]]. apply R.
Qed.

(** Assignment of (i, j) and (j, i) for the pairs j < i, row by row. [view] gives the matrix held
    by the state, [ready] what the state satisfies besides. *)
Section Fill.
  Context {St : Type} (view : St -> list (list Z)) (ready : nat -> nat -> St -> Prop) (g : nat -> nat -> Z).
  Context (step : St -> nat -> nat -> outcome St) (n : nat).
  Hypothesis Step : forall i j s d1 d2, j < i < n -> grid n n (view s) -> ready i j s ->
    mset (view s) i j (g i j) = Ok d1 -> mset d1 j i (g i j) = Ok d2 ->
    exists s', step s i j = Ok s' /\ view s' = d2 /\ ready i (j + 1) s'.
  Hypothesis Next : forall i s, i < n -> ready i i s -> ready (i + 1) 0 s.

  Definition filled (d0 : list (list Z)) (i j : nat) (s : St) : Prop :=
    grid n n (view s) /\ ready i j s /\
    forall r c, r < n -> c < n -> entry (view s) r c =
      if r =? c then entry d0 r c
      else let a := Nat.max r c in let b := Nat.min r c in
        if (a <? i) || ((a =? i) && (b <? j)) then g a b else entry d0 r c.

  Lemma fill_row d0 i s : i < n -> filled d0 i 0 s ->
    exists s', foldM (fun s j => step s i j) (seq 0 i) s = Ok s' /\ filled d0 (i + 1) 0 s'.
  Proof.
    intros Hi F. destruct (foldM_seq_inv (fun s j => step s i j) (fun j s => filled d0 i j s) 0 i s F) as [s' [E [G [R V]]]].
    - intros j s1 Hj [G [R V]]. destruct (mset_Ok n (view s1) i j (g i j) G) as [d1 [E1 [G1 V1]]]; [lia|lia|].
      destruct (mset_Ok n d1 j i (g i j) G1) as [d2 [E2 [G2 V2]]]; [lia|lia|].
      destruct (Step i j s1 d1 d2 ltac:(lia) G R E1 E2) as [s2 [E3 [W R2]]]. exists s2. split; [assumption|].
      split; [now rewrite W|]. split; [assumption|]. intros r c Hr Hc. rewrite W, V2, V1, V by assumption. cbn zeta.
      destruct (Nat.eqb_spec r c) as [->|Ne].
      + destruct (Nat.eqb_spec c i), (Nat.eqb_spec c j); cbn [andb]; try reflexivity; lia.
      + destruct (Nat.ltb_spec (Nat.max r c) i), (Nat.eqb_spec (Nat.max r c) i), (Nat.ltb_spec (Nat.min r c) j),
          (Nat.ltb_spec (Nat.min r c) (j + 1)), (Nat.eqb_spec r i), (Nat.eqb_spec r j), (Nat.eqb_spec c i), (Nat.eqb_spec c j);
          cbn [andb orb]; try lia; try reflexivity; f_equal; lia.
    - exists s'. split; [assumption|]. split; [assumption|]. split; [now apply Next|]. cbn [Nat.add] in V. intros r c Hr Hc. rewrite V by assumption. cbn zeta.
      destruct (Nat.eqb_spec r c) as [->|Ne]; [reflexivity|].
      destruct (Nat.ltb_spec (Nat.max r c) i), (Nat.eqb_spec (Nat.max r c) i), (Nat.ltb_spec (Nat.min r c) i),
        (Nat.ltb_spec (Nat.max r c) (i + 1)), (Nat.eqb_spec (Nat.max r c) (i + 1)), (Nat.ltb_spec (Nat.min r c) 0);
        cbn [andb orb]; try lia; reflexivity.
  Qed.

  Lemma fill s : grid n n (view s) -> ready 0 0 s -> exists s',
    foldM (fun s i => foldM (fun s j => step s i j) (seq 0 i) s) (seq 0 n) s = Ok s' /\ grid n n (view s') /\
    forall r c, r < n -> c < n -> entry (view s') r c =
      if r =? c then entry (view s) r c else g (Nat.max r c) (Nat.min r c).
  Proof.
    intros G R. destruct (foldM_seq_inv (fun s i => foldM (fun s j => step s i j) (seq 0 i) s)
      (fun i s1 => filled (view s) i 0 s1) 0 n s) as [s' [E [G' [_ V]]]].
    - split; [assumption|]. split; [assumption|]. intros r c Hr Hc. cbn zeta. destruct (Nat.eqb_spec r c) as [->|]; [reflexivity|].
      destruct (Nat.ltb_spec (Nat.max r c) 0), (Nat.eqb_spec (Nat.max r c) 0), (Nat.ltb_spec (Nat.min r c) 0);
        cbn [andb orb]; try lia; reflexivity.
    - intros i s1 Hi F. apply fill_row; [lia|assumption].
    - exists s'. split; [assumption|]. split; [assumption|]. intros r c Hr Hc. rewrite V by assumption. cbn zeta.
      destruct (Nat.eqb_spec r c) as [->|]; [reflexivity|].
      destruct (Nat.ltb_spec (Nat.max r c) (0 + n)); [reflexivity|lia].
  Qed.
End Fill.

Lemma pair_rank_next i : pair_rank i i = pair_rank (i + 1) 0.
Proof.
  unfold pair_rank. rewrite Nat.add_0_r. replace ((i + 1) * (i + 1 - 1)) with (i * (i - 1) + i * 2).
  - now rewrite Nat.div_add by lia.
  - destruct i as [|i]; [reflexivity|]. replace (S i - 1) with i by lia. replace (S i + 1 - 1) with (S i) by lia.
    rewrite !Nat.mul_add_distr_r, !Nat.mul_succ_l. lia.
Qed.

Lemma generate_Ok n gen d0 : 0 < n -> exists d, tsp_generate n gen d0 = Ok d /\ grid n n d /\
  forall i j, i < n -> j < n -> entry d i j =
    if i =? j then entry (tsp_resize n d0) i j else gen (pair_rank (Nat.max i j) (Nat.min i j)).
Proof.
  intros N. unfold tsp_generate. destruct (Nat.ltb_spec 0 n); [|lia]. cbn [assertb bind].
  destruct (fill fst (fun i j s => snd s = pair_rank i j) (fun i j => gen (pair_rank i j))
    (fun s (i j : nat) => let '(d, c) := s in d <- mset d i j (gen c) ;; d <- mset d j i (gen c) ;; Ok (d, c + 1)) n) with
    (s := (tsp_resize n d0, 0)) as [[d c] [E [G V]]].
  - intros i j [d c] d1 d2 _ _ R E1 E2. cbn [fst snd] in *. subst c. rewrite E1. cbn [bind]. rewrite E2. cbn [bind].
    eexists. split; [reflexivity|]. split; [reflexivity|]. cbn [snd]. unfold pair_rank. lia.
  - intros i [d c] _ R. cbn [snd] in *. rewrite R. apply pair_rank_next.
  - apply grid_resize.
  - reflexivity.
  - exists d. split; [|split; [exact G|exact V]].
    transitivity (bind (Ok (d, c)) (fun p => let '(d, _) := p in Ok d)); [|reflexivity]. rewrite <- E. f_equal.
    apply foldM_eq. intros [d' c'] i _. apply foldM_eq. intros [d'' c''] j _. reflexivity.
Qed.

Lemma filled_symmetric n d g diag : (forall i j, i < n -> j < n -> entry d i j =
    if i =? j then diag i j else g (Nat.max i j) (Nat.min i j)) -> symmetric n d.
Proof.
  intros H i j Hi Hj. rewrite !H by assumption. rewrite (Nat.eqb_sym j i), (Nat.max_comm j i), (Nat.min_comm j i).
  destruct (Nat.eqb_spec i j) as [->|]; reflexivity.
Qed.

Lemma entry_resize_nil n i j : entry (tsp_resize n []) i j = 0%Z.
Proof.
  unfold tsp_resize, resize, entry. rewrite firstn_nil. cbn [app List.length]. rewrite Nat.sub_0_r.
  assert (H : forall row, In row (map (fun l : list Z => firstn n l ++ repeat 0%Z (n - len l)) (repeat [] n)) -> forall z, In z row -> z = 0%Z).
  { intros row Hr z Hz. apply in_map_iff in Hr. destruct Hr as [l [<- Hl]]. apply repeat_spec in Hl. subst l.
    rewrite firstn_nil in Hz. now apply repeat_spec in Hz. }
  set (m := map _ _) in *. destruct (nth_in_or_default i m []) as [Hi| ->]; [|now destruct j].
  destruct (nth_in_or_default j (nth i m []) 0%Z) as [Hj|Hj]; [eapply H; eassumption|assumption].
Qed.

(** * Distances between cities *)

Lemma euc_nearest dx dy : nearest_root (dx * dx + dy * dy) (euc_length dx dy).
Proof.
  unfold euc_length, nearest_root. set (s := (dx * dx + dy * dy)%Z).
  assert (S : (0 <= s)%Z) by (unfold s; generalize (Z.square_nonneg dx), (Z.square_nonneg dy); lia).
  destruct (Z.sqrt_spec (4 * s)) as [L U]; [lia|]. assert (P := Z.sqrt_nonneg (4 * s)). set (r := Z.sqrt (4 * s)) in *.
  assert (D := Z.div_mod (r + 1) 2 ltac:(lia)). assert (M := Z.mod_pos_bound (r + 1) 2 ltac:(lia)).
  set (d := ((r + 1) / 2)%Z) in *. rewrite <- Z.add_1_r in U. assert (D0 : (0 <= d)%Z) by lia. split; [assumption|]. split.
  - apply Z.lt_le_trans with ((r + 1) * (r + 1))%Z; [assumption|]. apply Z.mul_le_mono_nonneg; lia.
  - destruct (Z.eq_dec d 0); [now left|right]. apply Z.le_trans with (r * r)%Z; [|assumption]. apply Z.mul_le_mono_nonneg; lia.
Qed.

Lemma att_ceiling dx dy : ceiling_root10 (dx * dx + dy * dy) (att_length dx dy).
Proof.
  unfold att_length, ceiling_root10. set (s := (dx * dx + dy * dy)%Z).
  assert (S : (0 <= s)%Z) by (unfold s; generalize (Z.square_nonneg dx), (Z.square_nonneg dy); lia).
  destruct (Z.sqrt_spec (40 * s)) as [L U]; [lia|]. assert (P := Z.sqrt_nonneg (40 * s)). set (r := Z.sqrt (40 * s)) in *.
  assert (D := Z.div_mod (r + 10) 20 ltac:(lia)). assert (M := Z.mod_pos_bound (r + 10) 20 ltac:(lia)).
  set (t := ((r + 10) / 20)%Z) in *. rewrite <- Z.add_1_r in U. assert (T0 : (0 <= t)%Z) by lia.
  assert (U' : (40 * s < (20 * t + 10) * (20 * t + 10))%Z).
  { apply Z.lt_le_trans with ((r + 1) * (r + 1))%Z; [assumption|]. apply Z.mul_le_mono_nonneg; lia. }
  assert (L' : (t = 0 \/ (20 * t - 10) * (20 * t - 10) <= 40 * s)%Z).
  { destruct (Z.eq_dec t 0); [now left|right]. apply Z.le_trans with (r * r)%Z; [|assumption]. apply Z.mul_le_mono_nonneg; lia. }
  assert (K : forall e d, (0 <= e < d)%Z -> (e * e <= (d - 1) * (d - 1))%Z) by (intros; apply Z.mul_le_mono_nonneg; lia).
  destruct (Z.ltb_spec (10 * (t * t)) s) as [Q|Q].
  - split; [lia|]. split; [lia|]. intros e He Hs. destruct (Z_le_gt_dec (t + 1) e); [assumption|exfalso].
    specialize (K e (t + 1)%Z ltac:(lia)). lia.
  - split; [lia|]. split; [lia|]. intros e He Hs. destruct (Z_le_gt_dec t e); [assumption|exfalso].
    specialize (K e t ltac:(lia)). lia.
Qed.

Lemma diagonal n d0 : grid n n d0 -> exists d, foldM (fun d i => mset d i i 0%Z) (seq 0 n) d0 = Ok d /\ grid n n d /\
  forall i, i < n -> entry d i i = 0%Z.
Proof.
  intros G. destruct (foldM_seq_inv (fun d i => mset d i i 0%Z) (fun i d => grid n n d /\ forall j, j < i -> entry d j j = 0%Z) 0 n d0)
    as [d [E [G' V]]].
  - split; [assumption|]. intros; lia.
  - intros i d Hi [G1 V1]. destruct (mset_Ok n d i i 0%Z G1) as [d' [E [G2 V2]]]; [lia|lia|]. exists d'. split; [assumption|].
    split; [assumption|]. intros j Hj. rewrite V2 by lia. destruct (Nat.eqb_spec j i) as [->|]; [reflexivity|]. apply V1. lia.
  - exists d. auto.
Qed.

Lemma resize_same {A} n (a : A) l : len l = n -> resize n a l = l.
Proof. intros <-. unfold resize. now rewrite firstn_all, Nat.sub_diag, app_nil_r. Qed.

Lemma distances_Ok t n xs ys d0 : 0 < n -> len xs = n -> len ys = n ->
  exists d, tsp_distances t n xs ys d0 = Ok d /\ grid n n d /\
  forall i j, i < n -> j < n -> entry d i j =
    if i =? j then 0%Z
    else let a := Nat.max i j in let b := Nat.min i j in
      edge_length t (nth a xs 0 - nth b xs 0)%Z (nth a ys 0 - nth b ys 0)%Z.
Proof.
  intros N Lx Ly. unfold tsp_distances. destruct (Nat.ltb_spec 0 n); [|lia]. cbn [assertb bind].
  rewrite !resize_same by assumption. destruct (diagonal n _ (grid_resize n d0)) as [d1 [E1 [G1 V1]]]. rewrite E1. cbn [bind].
  destruct (fill (fun d => d) (fun _ _ _ => True) (fun i j => edge_length t (nth i xs 0 - nth j xs 0)%Z (nth i ys 0 - nth j ys 0)%Z)
    (fun d (i j : nat) => xi <- vget xs i ;; xj <- vget xs j ;; yi <- vget ys i ;; yj <- vget ys j ;;
      let dij := edge_length t (xi - xj)%Z (yi - yj)%Z in d <- mset d i j dij ;; mset d j i dij) n) with (s := d1) as [d [E [G V]]].
  - intros i j d d2 d3 Hij _ _ E2 E3. rewrite (vget_Ok xs i 0%Z), (vget_Ok xs j 0%Z), (vget_Ok ys i 0%Z), (vget_Ok ys j 0%Z) by lia.
    cbn [bind]. cbn zeta. rewrite E2. cbn [bind]. rewrite E3. eauto.
  - auto.
  - assumption.
  - exact I.
  - exists d. split; [|split; [exact G|]].
    + rewrite <- E. destruct n as [|n]; [lia|]. cbn [seq foldM bind]. rewrite Nat.sub_succ, Nat.sub_0_r. reflexivity.
    + intros i j Hi Hj. rewrite V by assumption. cbn zeta. destruct (Nat.eqb_spec i j) as [->|]; [now apply V1|reflexivity].
Qed.
