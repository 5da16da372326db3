(** Proofs about the distributions of vectors with independent bits. *)

From Coq Require Import QArith Sorted Permutation.
From Verif Require Import Base BaseLemmas BitVector_Model BitVector_Spec GF2 BitVector_Proofs SortedLemmas Map_Model Neighborhood_Model Neighborhood_Spec Neighborhood_Proofs
  ProbabilityVector_Model EvolutionaryAlgorithm_Model EvolutionaryAlgorithm_Proofs Mimic_Model Mimic_Spec Mimic_Proofs Sampling_Spec Sampling_Proofs.
Local Open Scope nat_scope.

(** * Independent draws *)

Lemma seq_S_map n : seq 0 (S n) = 0 :: map S (seq 0 n).
Proof. cbn [seq]. now rewrite seq_shift. Qed.
Lemma forallb_map {A B} (f : A -> B) p l : forallb p (map f l) = forallb (fun a => p (f a)) l.
Proof. induction l as [|a l IH]; [reflexivity|]. cbn. now rewrite IH. Qed.

Lemma tally_independent {A} (l : list A) d : forall n (g : nat -> A -> bool),
  tally (fun us => forallb (fun i => g i (nth i us d)) (seq 0 n)) (sequences l n) = product (map (fun i => tally (g i) l) (seq 0 n)).
Proof.
  induction n as [|n IH]; intros g; [reflexivity|].
  rewrite (tally_choice (g 0) _ (fun s => forallb (fun i => g (S i) (nth i s d)) (seq 0 n)) (fun _ => false)).
  - rewrite (tally_false (fun _ => false)) by auto. rewrite (IH (fun i => g (S i))). rewrite seq_S_map. cbn [map product fold_right]. rewrite map_map. fold (product (map (fun i => tally (g (S i)) l) (seq 0 n))). lia.
  - intros a s _ _. rewrite seq_S_map. cbn [forallb]. rewrite forallb_map. cbn [nth]. destruct (g 0 a); reflexivity.
Qed.

Lemma bits_eq_forallb n (x y : bv) : length x = n -> length y = n -> (if bits_dec x y then true else false) = forallb (fun i => Bool.eqb (nth i x false) (nth i y false)) (seq 0 n).
Proof.
  intros Lx Ly. destruct (bits_dec x y) as [->|E].
  - symmetry. apply forallb_forall. intros i _. apply Bool.eqb_reflx.
  - symmetry. apply Bool.not_true_iff_false. intros F. apply E. apply (bv_ext n); auto. intros i Hi. rewrite forallb_forall in F. apply Bool.eqb_prop, F, in_seq. lia.
Qed.

Lemma forallb_ext_in {A} (p q : A -> bool) l : (forall a, In a l -> p a = q a) -> forallb p l = forallb q l.
Proof. induction l as [|a l IH]; intros H; [reflexivity|]. cbn. rewrite (H a) by now left. rewrite IH; [reflexivity|]. intros; apply H; now right. Qed.
Lemma product_ext {A} (f g : A -> nat) l : (forall a, In a l -> f a = g a) -> product (map f l) = product (map g l).
Proof. intros H. f_equal. now apply map_ext_in. Qed.

(** * Coins *)

Lemma tally_coin a b c : tally (fun s => Bool.eqb s c) (coin a b) = if c then a else b.
Proof.
  unfold coin. rewrite tally_app. assert (R : forall k d, tally (fun s => Bool.eqb s c) (repeat d k) = if Bool.eqb d c then k else 0).
  { intros k d. induction k as [|k IH]; cbn [repeat]; [destruct (Bool.eqb d c); reflexivity|]. rewrite tally_cons, IH. destruct (Bool.eqb d c); reflexivity. }
  rewrite !R. destruct c; cbn; lia.
Qed.
Lemma tally_coin_b a b P : tally P (coin a b) = (if P true then a else 0) + (if P false then b else 0).
Proof.
  unfold coin. rewrite tally_app. assert (R : forall k d, tally P (repeat d k) = if P d then k else 0).
  { intros k d. induction k as [|k IH]; cbn [repeat]; [destruct (P d); reflexivity|]. rewrite tally_cons, IH. destruct (P d); reflexivity. }
  now rewrite !R.
Qed.
Lemma coin_length a b : length (coin a b) = a + b.
Proof. unfold coin. now rewrite app_length, !repeat_length. Qed.

Lemma random_count x y : length y = length x ->
  tally (fun cs => if bits_dec (bv_random x (fun i => nth i cs false)) y then true else false) (sequences (coin 1 1) (length x)) = 1.
Proof.
  intros E. rewrite (tally_ext _ (fun cs => forallb (fun i => Bool.eqb (nth i cs false) (nth i y false)) (seq 0 (length x)))).
  - rewrite (tally_independent (coin 1 1) false (length x) (fun i a => Bool.eqb a (nth i y false))).
    generalize (seq 0 (length x)). intros l. induction l as [|i l IH]; [reflexivity|]. cbn [map product fold_right]. fold (product (map (fun i => tally (fun a => Bool.eqb a (nth i y false)) (coin 1 1)) l)).
    rewrite IH, tally_coin. destruct (nth i y false); reflexivity.
  - intros cs _. rewrite (bits_eq_forallb (length x)); [|unfold bv_random; now rewrite map_length, seq_length|auto].
    apply forallb_ext_in. intros i Hi. apply in_seq in Hi. unfold bv_random. f_equal. rewrite (nth_indep _ false (nth 0 cs false)) by (rewrite map_length, seq_length; lia).
    rewrite (map_nth (fun i => nth i cs false)). now rewrite seq_nth by lia.
Qed.

(** * Probability vectors *)

Lemma tally_pos P (N : nat) (a : nat) : 0 < N -> a <= N -> tally (fun u => Bool.eqb (qltb u (Qmake (Z.of_nat a) (Pos.of_nat N))) P) (grid N) = if P : bool then a else N - a.
Proof.
  intros HN Ha. pose proof (tally_grid N 1 N a HN HN ltac:(lia) Ha) as T. pose proof (tally_negb (fun u => negb (Qle_bool (Qmake (Z.of_nat a) (Pos.of_nat N)) u)) (grid N)) as TN.
  rewrite T, grid_length in TN. destruct P.
  - rewrite (tally_ext _ (fun u => negb (Qle_bool (Qmake (Z.of_nat a) (Pos.of_nat N)) u))); [lia|]. intros u _. unfold qltb. destruct (negb _); reflexivity.
  - rewrite (tally_ext _ (fun u => negb (negb (Qle_bool (Qmake (Z.of_nat a) (Pos.of_nat N)) u)))); [lia|]. intros u _. unfold qltb. destruct (negb _); reflexivity.
Qed.

Lemma pv_sample_count N ps x y : 0 < N -> Forall (fun a => a <= N) ps -> length x = length ps -> length y = length ps ->
  tally (fun us => returned bits_dec (pv_sample (map (fun a => Qmake (Z.of_nat a) (Pos.of_nat N)) ps) x (drawn us)) y) (sequences (grid N) (length ps))
  = product (map (fun i => if nth i y false then nth i ps 0 else N - nth i ps 0) (seq 0 (length ps))).
Proof.
  intros HN HF Lx Ly. rewrite (tally_ext _ (fun us => forallb (fun i => Bool.eqb (qltb (nth i us 0%Q) (Qmake (Z.of_nat (nth i ps 0)) (Pos.of_nat N))) (nth i y false)) (seq 0 (length ps)))).
  - rewrite (tally_independent (grid N) 0%Q (length ps) (fun i u => Bool.eqb (qltb u (Qmake (Z.of_nat (nth i ps 0)) (Pos.of_nat N))) (nth i y false))).
    apply product_ext. intros i Hi. apply in_seq in Hi. apply tally_pos; auto. rewrite Forall_forall in HF. apply HF, nth_In. lia.
  - intros us _. unfold pv_sample. rewrite map_length, Lx, Nat.eqb_refl. cbn [assertb bind returned].
    rewrite (bits_eq_forallb (length ps)); [|now rewrite map_length, seq_length|auto].
    apply forallb_ext_in. intros i Hi. apply in_seq in Hi. f_equal.
    rewrite (nth_indep _ false (qltb (drawn us 0) (nth 0 (map (fun a => Qmake (Z.of_nat a) (Pos.of_nat N)) ps) 0%Q))) by (rewrite map_length, seq_length; lia).
    rewrite (map_nth (fun i => qltb (drawn us i) (nth i (map (fun a => Qmake (Z.of_nat a) (Pos.of_nat N)) ps) 0%Q))). rewrite seq_nth by lia. cbn [Nat.add].
    unfold drawn. f_equal. rewrite (nth_indep _ 0%Q (Qmake (Z.of_nat 0) (Pos.of_nat N))) by (rewrite map_length; lia). now rewrite (map_nth (fun a => Qmake (Z.of_nat a) (Pos.of_nat N))).
Qed.

(** * Crossover *)

Lemma crossover_count a b (cross : (nat -> bool) -> bv -> bv -> bv -> outcome bv) (flip : bool) n x y z w :
  (forall c, exists z', cross c x y z = Ok z' /\ length z' = n /\ forall i, i < n -> nth i z' false = nth i (if xorb flip (c i) then x else y) false) ->
  length w = n ->
  tally (fun cs => returned bits_dec (cross (fun i => nth i cs false) x y z) w) (sequences (coin a b) n)
  = product (map (fun i => (if Bool.eqb (nth i (if flip then y else x) false) (nth i w false) then a else 0) + (if Bool.eqb (nth i (if flip then x else y) false) (nth i w false) then b else 0)) (seq 0 n)).
Proof.
  intros H Lw. rewrite (tally_ext _ (fun cs => forallb (fun i => Bool.eqb (nth i (if xorb flip (nth i cs false) then x else y) false) (nth i w false)) (seq 0 n))).
  - rewrite (tally_independent (coin a b) false n (fun i c => Bool.eqb (nth i (if xorb flip c then x else y) false) (nth i w false))).
    apply product_ext. intros i _. rewrite tally_coin_b. destruct flip; reflexivity.
  - intros cs _. destruct (H (fun i => nth i cs false)) as (z' & -> & Lz & R). cbn [returned]. rewrite (bits_eq_forallb n) by auto.
    apply forallb_ext_in. intros i Hi. apply in_seq in Hi. rewrite R by lia. reflexivity.
Qed.

(** * The chain of MIMIC *)

Lemma bits_iff (b : bool) (q p : Q) : Bool.eqb (qltb q p) b = true <-> (b = true <-> (q < p)%Q).
Proof.
  rewrite Bool.eqb_true_iff. unfold qltb. destruct (Qle_bool p q) eqn:E; cbn [negb].
  - apply Qle_bool_iff in E. split; [intros <-; split; [discriminate|]; intros C; exfalso; revert C; now apply Qle_not_lt|]. intros [H _]. destruct b; [|reflexivity]. exfalso. apply (Qle_not_lt _ _ E). now apply H.
  - assert (q < p)%Q. { apply Qnot_le_lt. intros C. apply Qle_bool_iff in C. congruence. } split; [intros <-; tauto|]. intros [_ H1]. symmetry. now apply H1.
Qed.

Lemma nth_frac N (l : list nat) i : i < length l -> nth i (map (fun a => Qmake (Z.of_nat a) (Pos.of_nat N)) l) 0%Q = Qmake (Z.of_nat (nth i l 0)) (Pos.of_nat N).
Proof. intros H. rewrite (nth_indep _ 0%Q (Qmake (Z.of_nat 0) (Pos.of_nat N))) by (rewrite map_length; lia). apply (map_nth (fun a => Qmake (Z.of_nat a) (Pos.of_nat N))). Qed.

Lemma mimic_count N n pop perm a0 a1 x y : 0 < N -> 0 < n -> Permutation (seq 0 n) perm -> length a0 = n -> length a1 = n -> length x = n -> length y = n ->
  Forall (fun a => a <= N) a0 -> Forall (fun a => a <= N) a1 ->
  let frac := map (fun a => Qmake (Z.of_nat a) (Pos.of_nat N)) in
  tally (fun us => returned bits_dec (mimic_sample (mk_mimic pop perm (frac a0) (frac a1)) x (drawn us)) y) (sequences (grid N) n)
  = product (map (chain_chance N perm a0 a1 y) (seq 0 n)).
Proof.
  intros HN Hn HP L0 L1 Lx Ly F0 F1 frac.
  set (pr := fun i => if i =? 0 then nth 0 a1 0 else if nth (nth (i - 1) perm 0) y false then nth i a1 0 else nth i a0 0).
  rewrite (tally_ext _ (fun us => forallb (fun i => Bool.eqb (qltb (nth i us 0%Q) (Qmake (Z.of_nat (pr i)) (Pos.of_nat N))) (nth (nth i perm 0) y false)) (seq 0 n))).
  - rewrite (tally_independent (grid N) 0%Q n (fun i u => Bool.eqb (qltb u (Qmake (Z.of_nat (pr i)) (Pos.of_nat N))) (nth (nth i perm 0) y false))).
    apply product_ext. intros i Hi. apply in_seq in Hi. rewrite tally_pos; [reflexivity|auto|]. rewrite Forall_forall in F0, F1. unfold pr.
    destruct (i =? 0); [apply F1, nth_In; lia|]. destruct (nth _ y false); [apply F1|apply F0]; apply nth_In; lia.
  - intros us _. set (m := mk_mimic pop perm (frac a0) (frac a1)).
    destruct (mimic_sample_Ok n m x (drawn us) Hn Lx HP) as (z & E & Lz & Z0 & ZS); [unfold m, frac; cbn; now rewrite map_length..|].
    unfold m, frac in Z0, ZS. cbn [mi_p0 mi_p1 mi_perm] in Z0, ZS.
    rewrite E. cbn [returned]. destruct (bits_dec z y) as [->|NE].
    + symmetry. apply forallb_forall. intros i Hi. apply in_seq in Hi. apply bits_iff. change (nth i us 0%Q) with (drawn us i). unfold pr. destruct (Nat.eqb_spec i 0) as [->|I0].
      * rewrite Z0. now rewrite nth_frac by lia.
      * specialize (ZS i ltac:(lia)). cbn zeta in ZS. rewrite ZS. rewrite !nth_frac by lia. destruct (nth (nth (i - 1) perm 0) y false); reflexivity.
    + symmetry. apply Bool.not_true_iff_false. intros F. rewrite forallb_forall in F. apply NE.
      assert (G : forall i, i < n -> nth (nth i perm 0) z false = nth (nth i perm 0) y false).
      { induction i as [|i IH]; intros Hi.
        - specialize (F 0 ltac:(apply in_seq; lia)). apply bits_iff in F. unfold pr in F. cbn [Nat.eqb] in F. rewrite nth_frac in Z0 by lia.
          change (nth 0 us 0%Q) with (drawn us 0) in F. apply Bool.eq_true_iff_eq. tauto.
        - specialize (F (S i) ltac:(apply in_seq; lia)). apply bits_iff in F. specialize (ZS (S i) ltac:(lia)). cbn zeta in ZS. unfold pr in F. cbn [Nat.eqb] in F.
          replace (S i - 1) with i in * by lia. rewrite !nth_frac in ZS by lia. rewrite (IH ltac:(lia)) in ZS.
          change (nth (S i) us 0%Q) with (drawn us (S i)) in F. apply Bool.eq_true_iff_eq. destruct (nth (nth i perm 0) y false); tauto. }
      apply (bv_ext n); auto. intros j Hj. assert (In j perm) as J by (apply (Permutation_in _ HP), in_seq; lia). apply (In_nth _ _ 0) in J as (i & Hi & <-).
      apply G. rewrite <- (Permutation_length HP), seq_length in Hi. exact Hi.
Qed.

(** * Each bit flipped by its own coin *)

Definition pass_hit (l : list nat) (G : list bool -> bool) (o : option (list nat * list bool)) : bool :=
  match o with Some (l', rest) => (if indices_dec l' l then true else false) && G rest | None => false end.

Lemma pass_count a b m : forall i L l G, increasing l -> Forall (fun j => i <= j < i + m) l ->
  tally (fun cs => pass_hit l G (process_pass cs m i)) (sequences (coin a b) (m + L)) = a ^ length l * b ^ (m - length l) * tally G (sequences (coin a b) L).
Proof.
  induction m as [|m IH]; intros i L l G HS HI.
  - destruct l as [|j l]; [|inversion HI; lia]. cbn [process_pass pass_hit Nat.add length Nat.sub Nat.pow]. rewrite (tally_ext _ G); [lia|]. intros cs _. destruct (indices_dec [] []); [reflexivity|contradiction].
  - cbn [Nat.add]. set (inside := match l with j :: _ => j =? i | [] => false end).
    assert (LM : length l <= S m) by (replace (S m) with (i + S m - i) by lia; now apply increasing_bound).
    rewrite (tally_choice (fun c => Bool.eqb c true) _
      (fun s => if inside then pass_hit (tl l) G (process_pass s m (i + 1)) else false)
      (fun s => if inside then false else pass_hit l G (process_pass s m (i + 1)))).
    2:{ intros c s _ _. cbn [process_pass]. destruct (process_pass s m (i + 1)) as [[l' rest]|] eqn:E; [|destruct (Bool.eqb c true), inside; reflexivity].
        destruct (pass_spec _ _ _ _ _ E) as (A & B & _). unfold inside, pass_hit. destruct c; cbn [Bool.eqb].
        - destruct l as [|j l]; [destruct (indices_dec (i :: l') []); [discriminate|reflexivity]|]. destruct (Nat.eqb_spec j i) as [->|NE]; cbn [tl].
          + destruct (indices_dec (i :: l') (i :: l)) as [X|X], (indices_dec l' l) as [Y|Y]; auto; exfalso; congruence.
          + destruct (indices_dec (i :: l') (j :: l)) as [X|X]; [exfalso; congruence|reflexivity].
        - destruct l as [|j l]; [reflexivity|]. destruct (Nat.eqb_spec j i) as [->|NE]; [|reflexivity]. destruct (indices_dec l' (i :: l)) as [X|X]; [|reflexivity].
          exfalso. subst l'. inversion B; lia. }
    rewrite tally_coin. replace (tally (fun c => negb (Bool.eqb c true)) (coin a b)) with b by (rewrite tally_coin_b; reflexivity).
    unfold inside. destruct l as [|j l].
    + rewrite (tally_false (fun _ => false)) by auto. rewrite IH by constructor. cbn [length Nat.pow Nat.sub]. rewrite Nat.sub_0_r. lia.
    + apply StronglySorted_inv in HS as HS2. destruct HS2 as [HS' HF']. pose proof (Forall_inv HI) as HI1. cbn beta in HI1. pose proof (Forall_inv_tail HI) as HI2.
      destruct (Nat.eqb_spec j i) as [->|NE]; cbn [tl].
      * rewrite (tally_false (fun _ => false)) by auto. rewrite IH; auto.
        -- cbn [length Nat.pow Nat.sub]. ring.
        -- rewrite Forall_forall in *. intros x Hx. specialize (HF' x Hx). specialize (HI2 x Hx). lia.
      * rewrite (tally_false (fun _ => false)) by auto. assert (HI' : Forall (fun x => i + 1 <= x < i + 1 + m) (j :: l)).
        { constructor; [lia|]. rewrite Forall_forall in *. intros x Hx. specialize (HF' x Hx). specialize (HI2 x Hx). lia. }
        rewrite IH by auto. assert (length (j :: l) <= m) by (replace m with (i + 1 + m - (i + 1)) by lia; now apply increasing_bound).
        replace (S m - length (j :: l)) with (S (m - length (j :: l))) by lia. cbn [Nat.pow]. ring.
Qed.

Lemma pass_some m : forall i coins, m <= length coins -> exists l rest, process_pass coins m i = Some (l, rest).
Proof.
  induction m as [|m IH]; intros i coins H; cbn [process_pass]; [eauto|]. destruct coins as [|c coins]; [cbn in H; lia|].
  destruct (IH (i + 1) coins ltac:(cbn in H; lia)) as (l & rest & ->). eauto.
Qed.

Lemma tally_or {A} (P P1 P2 : A -> bool) l : (forall a, In a l -> P a = P1 a || P2 a) -> (forall a, In a l -> P1 a && P2 a = false) -> tally P l = tally P1 l + tally P2 l.
Proof.
  induction l as [|a l IH]; intros H D; [reflexivity|]. rewrite !tally_cons, IH by (intros; ((apply H) || (apply D)); now right).
  rewrite (H a) by now left. specialize (D a (or_introl eq_refl)). destruct (P1 a), (P2 a); cbn in *; try discriminate; lia.
Qed.

(** Weight of the sequences of [P] passes, the first of which not to flip nothing being chosen *)
Fixpoint retries (a b n P : nat) : nat := match P with 0 => 0 | S P' => (a + b) ^ (n * P') + b ^ n * retries a b n P' end.

Lemma process_loop_count a b n l : 0 < n -> index_set n l -> l <> [] -> forall P fuel, P < fuel ->
  tally (fun cs => returned' indices_dec (process_loop fuel cs n []) l) (sequences (coin a b) (n * P)) = retries a b n P * (a ^ length l * b ^ (n - length l)).
Proof.
  intros Hn [HS HI] NE. induction P as [|P IH]; intros fuel HP.
  - rewrite Nat.mul_0_r. cbn [sequences retries]. rewrite tally_cons, tally_nil. destruct fuel as [|fuel]; [reflexivity|]. cbn [process_loop]. destruct n as [|n]; [lia|]. reflexivity.
  - destruct fuel as [|fuel]; [lia|]. replace (n * S P) with (n + n * P) by lia.
    rewrite (tally_or _ (fun cs => pass_hit l (fun _ => true) (process_pass cs n 0)) (fun cs => pass_hit [] (fun rest => returned' indices_dec (process_loop fuel rest n []) l) (process_pass cs n 0))).
    + rewrite !pass_count; auto; [|constructor|apply Forall_impl with (2 := HI); intros; lia]. rewrite tally_true, sequences_length, coin_length, IH by lia.
      cbn [length Nat.pow retries]. rewrite Nat.sub_0_r. ring.
    + intros cs _. cbn [process_loop]. destruct (process_pass cs n 0) as [[l' rest]|]; [|reflexivity]. cbn [pass_hit]. destruct l' as [|i l'].
      * destruct (indices_dec [] l) as [E|_]; [congruence|]. destruct (indices_dec [] []); [reflexivity|contradiction].
      * cbn [returned' app]. destruct (indices_dec (i :: l') []); [discriminate|]. destruct (indices_dec (i :: l') l); reflexivity.
    + intros cs _. destruct (process_pass cs n 0) as [[l' rest]|]; [|reflexivity]. cbn [pass_hit]. destruct (indices_dec l' l) as [E|_]; [|reflexivity].
      destruct (indices_dec l' []) as [F|_]; [congruence|reflexivity].
Qed.
Lemma process_loop_pending a b n : 0 < n -> forall P fuel, P < fuel ->
  tally (fun cs => pending (process_loop fuel cs n [])) (sequences (coin a b) (n * P)) = (b ^ n) ^ P.
Proof.
  intros Hn. induction P as [|P IH]; intros fuel HP.
  - rewrite Nat.mul_0_r. cbn [sequences Nat.pow]. rewrite tally_cons, tally_nil. destruct fuel as [|fuel]; [reflexivity|]. cbn [process_loop]. destruct n as [|n]; [lia|]. reflexivity.
  - destruct fuel as [|fuel]; [lia|]. replace (n * S P) with (n + n * P) by lia.
    rewrite (tally_ext _ (fun cs => pass_hit [] (fun rest => pending (process_loop fuel rest n [])) (process_pass cs n 0))).
    + rewrite pass_count by constructor. rewrite IH by lia. cbn [length Nat.pow]. rewrite Nat.sub_0_r. ring.
    + intros cs H. apply in_sequences in H as [H _]. destruct (pass_some n 0 cs ltac:(lia)) as (l & rest & E). cbn [process_loop]. rewrite E. cbn [pass_hit]. destruct l as [|i l].
      * destruct (indices_dec [] []); [reflexivity|contradiction].
      * destruct (indices_dec (i :: l) []); [discriminate|reflexivity].
Qed.

Lemma retries_pos a b n P : 0 < a + b -> 0 < P -> 0 < retries a b n P.
Proof. intros H HP. destruct P as [|P]; [lia|]. cbn [retries]. pose proof (Nat.pow_nonzero (a + b) (n * P) ltac:(lia)). lia. Qed.

Lemma process_enough n P (cs : list bool) : 0 < n -> length cs = n * P -> P < S (length cs).
Proof. intros Hn ->. destruct n as [|n]; [lia|]. cbn. lia. Qed.

Lemma bernoulli_process_count a b n P l u ix ch bn : 0 < n -> index_set n l -> l <> [] ->
  tally (fun cs => returned' indices_dec (bernoulli_process n (mk_draws u ix ch bn cs)) l) (sequences (coin a b) (n * P)) = retries a b n P * (a ^ length l * b ^ (n - length l)).
Proof.
  intros Hn HI NE. rewrite <- (process_loop_count a b n l Hn HI NE P (S (n * P))) by (apply (process_enough n P (repeat true (n * P))) in Hn; rewrite ?repeat_length in *; auto).
  apply tally_ext. intros cs H. apply in_sequences in H as [H _]. unfold bernoulli_process. cbn [d_coins]. now rewrite H.
Qed.
Lemma bernoulli_process_pending a b n P u ix ch bn : 0 < n ->
  tally (fun cs => pending (bernoulli_process n (mk_draws u ix ch bn cs))) (sequences (coin a b) (n * P)) = (b ^ n) ^ P.
Proof.
  intros Hn. rewrite <- (process_loop_pending a b n Hn P (S (n * P))) by (apply (process_enough n P (repeat true (n * P))) in Hn; rewrite ?repeat_length in *; auto).
  apply tally_ext. intros cs H. apply in_sequences in H as [H _]. unfold bernoulli_process. cbn [d_coins]. now rewrite H.
Qed.
