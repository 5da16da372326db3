(** Proofs about Pareto dominance and fronts. *)

From Coq Require Import ZArith Permutation.
From Verif Require Import Base BaseLemmas Pareto_Model Pareto_Spec Tournament_Proofs Population_Proofs.
Local Open Scope nat_scope.

Lemma dominates_loop_spec a b r : length a = length b ->
  (dominates_loop a b r = true <->
   (forall i, i < length a -> (nth i a 0 <= nth i b 0)%Z) /\
   (r = true \/ exists i, i < length a /\ (nth i a 0 < nth i b 0)%Z)).
Proof.
  revert b r. induction a as [|x a IH]; intros [|y b] r L; cbn [length] in L; try discriminate.
  - cbn. split.
    + intros ->. split; [intros; lia|auto].
    + intros [_ [->|(i & H & _)]]; auto. lia.
  - cbn [dominates_loop]. destruct (Z.ltb_spec 0 (x - y)) as [H|H].
    + split; [discriminate|]. intros [A _]. specialize (A 0 ltac:(cbn; lia)). cbn in A. lia.
    + assert (Hd : (forall i, i < length (x :: a) -> (nth i (x :: a) 0 <= nth i (y :: b) 0)%Z) <->
                   (forall i, i < length a -> (nth i a 0 <= nth i b 0)%Z)).
      { split; intros A i Hi.
        - apply (A (S i)). cbn. lia.
        - destruct i; cbn; [lia|]. apply A. cbn in Hi. lia. }
      rewrite Hd.
      destruct (Z.ltb_spec (x - y) 0) as [G|G]; rewrite IH by lia; apply and_iff_compat_l.
      * split; [intros _|auto]. right. exists 0. cbn. split; [lia|lia].
      * split; intros [E|(i & Hi & Hl)]; auto.
        -- right. exists (S i). cbn. split; [lia|auto].
        -- destruct i; cbn in Hl; [lia|]. right. exists i. cbn in Hi. split; [lia|auto].
Qed.

Lemma dominates_spec a b : length a = length b ->
  exists r, dominates a b = Ok r /\ (r = true <-> pareto_better a b).
Proof.
  intros L. unfold dominates. rewrite (proj2 (Nat.eqb_eq _ _) L). cbn. eexists; split; [reflexivity|].
  rewrite dominates_loop_spec by auto. unfold pareto_better. split; intros [A B]; split; auto.
  destruct B as [B|B]; [discriminate|auto].
Qed.

Lemma pareto_irrefl a : ~ pareto_better a a.
Proof. intros [_ (i & _ & H)]. lia. Qed.

Lemma pareto_trans a b c : length a = length b -> pareto_better a b -> pareto_better b c -> pareto_better a c.
Proof.
  intros L [A1 (i & Hi & A2)] [B1 _]. split.
  - intros j Hj. specialize (A1 j Hj). specialize (B1 j ltac:(lia)). lia.
  - exists i. split; [auto|]. specialize (B1 i ltac:(lia)). lia.
Qed.

Section Fronts.
  Context (m : nat) (values : list (list Z)) (SS : same_sizes m values).
  Let N := length values.

  Definition D (i j : nat) : bool := dominates_loop (nth i values []) (nth j values []) false.

  Lemma value_length i : i < N -> length (nth i values []) = m.
  Proof. intros H. unfold same_sizes in SS. rewrite Forall_forall in SS. apply SS, nth_In. auto. Qed.

  Lemma dominates_at_Ok i j : i < N -> j < N -> dominates_at values i j = Ok (D i j).
  Proof.
    intros Hi Hj. unfold dominates_at. rewrite (vget_nth _ _ []) by auto. cbn [bind].
    rewrite (vget_nth _ _ []) by auto. cbn [bind]. unfold dominates.
    rewrite !value_length, Nat.eqb_refl by auto. reflexivity.
  Qed.

  Lemma D_spec i j : i < N -> j < N -> (D i j = true <-> pareto_better (nth i values []) (nth j values [])).
  Proof.
    intros Hi Hj. unfold D. rewrite dominates_loop_spec by (rewrite !value_length; auto).
    unfold pareto_better. split; intros [A B]; split; auto. destruct B as [B|B]; [discriminate|auto].
  Qed.

  Lemma D_irrefl i : i < N -> D i i = false.
  Proof. intros H. destruct (D i i) eqn:E; auto. apply D_spec in E; auto. destruct (pareto_irrefl _ E). Qed.

  Lemma D_trans i j k : i < N -> j < N -> k < N -> D i j = true -> D j k = true -> D i k = true.
  Proof.
    intros Hi Hj Hk A B. apply D_spec in A, B; auto. apply D_spec; auto.
    eapply pareto_trans; [|exact A|exact B]. rewrite !value_length; auto.
  Qed.

  Lemma is_non_dominated_Ok l i : i < N -> (forall j, In j l -> j < N) ->
    is_non_dominated values l i = Ok (forallb (fun j => negb (D j i)) l).
  Proof.
    intros Hi. induction l as [|j l IH]; intros Hl; cbn; [reflexivity|].
    rewrite dominates_at_Ok by (auto; apply Hl; left; auto). cbn. destruct (D j i); cbn; [reflexivity|].
    apply IH. intros; apply Hl; right; auto.
  Qed.

  Lemma collect_Ok l i : i < N -> (forall j, In j l -> j < N) -> collect_dominated values l i = Ok (filter (D i) l).
  Proof.
    intros Hi Hl. unfold collect_dominated.
    enough (G : forall acc, foldM (fun acc j => d <- dominates_at values i j ;; Ok (if d then acc ++ [j] else acc)) l acc =
      Ok (acc ++ filter (D i) l)) by apply G.
    induction l as [|j l IH]; intros acc; cbn [foldM filter]; [rewrite app_nil_r; reflexivity|].
    rewrite dominates_at_Ok by (auto; apply Hl; left; auto). cbn [bind].
    rewrite IH by (intros; apply Hl; right; auto). destruct (D i j); [|reflexivity].
    rewrite <- app_assoc. reflexivity.
  Qed.

  Lemma count_one l j : NoDup l -> In j l -> set_count l j = 1.
  Proof.
    unfold set_count. induction 1 as [|a l Na ND IH]; intros I; [destruct I|]. cbn.
    destruct (Nat.eqb_spec j a) as [->|NE].
    - cbn. f_equal. destruct (filter (Nat.eqb a) l) as [|b t] eqn:E; auto.
      exfalso. assert (In b (filter (Nat.eqb a) l)) by (rewrite E; left; auto).
      apply filter_In in H as [H1 H2]. apply Nat.eqb_eq in H2. subst. auto.
    - destruct I as [->|I]; [congruence|]. auto.
  Qed.
  Lemma count_zero l j : ~ In j l -> set_count l j = 0.
  Proof.
    unfold set_count. induction l as [|a l IH]; intros H; cbn; [reflexivity|].
    destruct (Nat.eqb_spec j a) as [->|NE]; [destruct H; left; auto|]. apply IH. intros I. apply H. right; auto.
  Qed.

  Lemma erase_Ok dom : forall set next, NoDup set -> NoDup dom -> (forall j, In j dom -> In j set) ->
    exists set', foldM (fun (s : list nat * list nat) j =>
        _ <- assertb (set_count (fst s) j =? 1) ;;
        Ok (set_erase (fst s) j, snd s ++ [j])) dom (set, next) = Ok (set', next ++ dom) /\
      NoDup set' /\ (forall i, In i set' <-> In i set /\ ~ In i dom) /\ Permutation (set' ++ dom) set.
  Proof.
    induction dom as [|j dom IH]; intros set next NS ND HI.
    - exists set. cbn. rewrite !app_nil_r. split; [auto|]. split; [auto|]. split; [|auto].
      intros i; split; [intros I; split; auto|intros [I _]; auto].
    - cbn [foldM fst snd]. rewrite count_one by (auto; apply HI; left; auto). cbn [assertb bind Nat.eqb].
      inversion ND as [|? ? Nj ND']; subst.
      assert (NE : NoDup (set_erase set j)) by (apply NoDup_filter; auto).
      assert (IE : forall i, In i (set_erase set j) <-> In i set /\ i <> j).
      { intros i. unfold set_erase. rewrite filter_In. destruct (Nat.eqb_spec j i); cbn; intuition congruence. }
      destruct (IH (set_erase set j) (next ++ [j]) NE ND') as (set' & E & NS' & IS & P).
      { intros i Hi. apply IE. split; [apply HI; right; auto|]. intros ->. auto. }
      exists set'. rewrite <- app_assoc in E. split; [exact E|]. split; [auto|]. split.
      + intros i. rewrite IS, IE. cbn. intuition congruence.
      + apply (Permutation_trans (l' := j :: set' ++ dom)); [apply Permutation_sym, Permutation_middle|].
        apply (Permutation_trans (l' := j :: set_erase set j)); [constructor; exact P|].
        apply NoDup_Permutation; auto.
        * constructor; auto. rewrite IE. intuition congruence.
        * intros i. cbn. rewrite IE. specialize (HI j (or_introl eq_refl)).
          destruct (Nat.eq_dec j i); intuition (subst; auto).
  Qed.

  Definition round_inv (pre set next : list nat) : Prop :=
    Permutation (set ++ next) pre /\
    (forall i j, In i set -> In j pre -> D j i = false) /\
    (forall i, In i next -> exists j, In j set /\ D j i = true).

  Lemma pool_step_Ok ord pre set next i : (forall k l, Permutation l (ord k l)) ->
    NoDup (pre ++ [i]) -> (forall j, In j (pre ++ [i]) -> j < N) -> round_inv pre set next ->
    exists set' next', pool_step values ord (set, next) i = Ok (set', next') /\ round_inv (pre ++ [i]) set' next'.
  Proof.
    intros HO ND HB (P & A & B).
    assert (Hi : i < N) by (apply HB, in_or_app; right; left; auto).
    assert (HS : forall j, In j set -> In j pre) by (intros j Hj; apply (Permutation_in _ P), in_or_app; auto).
    assert (HX : forall j, In j next -> In j pre) by (intros j Hj; apply (Permutation_in _ P), in_or_app; auto).
    assert (HP : forall j, In j pre -> j < N) by (intros j Hj; apply HB, in_or_app; auto).
    assert (NDp : NoDup pre) by (apply NoDup_remove_1 in ND; rewrite app_nil_r in ND; auto).
    assert (NDs : NoDup (set ++ next)) by (apply (Permutation_NoDup (Permutation_sym P)); auto).
    assert (Ni : ~ In i pre) by (apply NoDup_remove_2 in ND; rewrite app_nil_r in ND; auto).
    assert (NDset : NoDup set).
    { revert NDs. generalize next. clear. induction set; intros nx H; [constructor|]. cbn in H. inversion H; subst.
      constructor; [intros I; apply H2, in_or_app; auto|eauto]. }
    unfold pool_step.
    assert (HO1 : forall k j, In j (ord k set) <-> In j set).
    { intros k j. split; apply Permutation_in; [apply Permutation_sym|]; apply HO. }
    rewrite is_non_dominated_Ok by (auto; intros j Hj; apply HO1 in Hj; auto). cbn [bind].
    destruct (forallb (fun j => negb (D j i)) (ord (2 * i + 1) set)) eqn:F.
    - rewrite forallb_forall in F.
      assert (Free : forall j, In j set -> D j i = false).
      { intros j Hj. specialize (F j (proj2 (HO1 _ _) Hj)). destruct (D j i); auto. }
      rewrite collect_Ok by (auto; intros j Hj; apply HO1 in Hj; auto). cbn [bind].
      destruct (erase_Ok (filter (D i) (ord (2 * i + 2) set)) set next) as (set' & -> & NS' & IS & PS); auto.
      { apply NoDup_filter, (Permutation_NoDup (HO _ _)); auto. }
      { intros j Hj. apply filter_In in Hj as [Hj _]. apply HO1 in Hj. auto. }
      cbn [bind]. rewrite count_zero. 2:{ intros I. apply IS in I as [I _]. auto. }
      cbn [assertb bind Nat.eqb]. eexists _, _; split; [reflexivity|].
      set (dom := filter (D i) (ord (2 * i + 2) set)) in *.
      assert (Dom : forall j, In j dom <-> In j set /\ D i j = true).
      { intros j. unfold dom. rewrite filter_In, HO1. tauto. }
      split; [|split].
      + cbn. apply (Permutation_trans (l' := i :: pre)); [constructor|apply Permutation_cons_append].
        apply (Permutation_trans (l' := (set' ++ dom) ++ next)).
        * rewrite <- app_assoc. apply Permutation_app_head, Permutation_app_comm.
        * eapply Permutation_trans; [apply Permutation_app_tail; exact PS|exact P].
      + intros a b [<-|Ia] Ib.
        * apply in_app_or in Ib as [Ib|[<-|[]]]; [|apply D_irrefl; auto].
          apply (Permutation_in _ (Permutation_sym P)), in_app_or in Ib as [Ib|Ib]; [auto|].
          destruct (B b Ib) as (c & Ic & Dc). destruct (D b i) eqn:E; auto.
          rewrite <- (Free c Ic). symmetry. apply (D_trans c b i); auto.
        * apply IS in Ia as [Ia Na]. apply in_app_or in Ib as [Ib|[<-|[]]]; [auto|].
          destruct (D i a) eqn:E; auto. exfalso. apply Na, Dom. auto.
      + intros a Ia. apply in_app_or in Ia as [Ia|Ia].
        * destruct (B a Ia) as (c & Ic & Dc). destruct (D i c) eqn:E.
          -- exists i. split; [left; auto|]. apply (D_trans i c a); auto.
          -- exists c. split; auto. right. apply IS. split; auto. rewrite Dom. intros [_ X]. congruence.
        * exists i. split; [left; auto|]. apply Dom in Ia as [_ X]. auto.
    - eexists _, _; split; [reflexivity|].
      assert (Ex : exists j, In j set /\ D j i = true).
      { assert (X : existsb (fun j => D j i) (ord (2 * i + 1) set) = true).
        { clear - F. induction (ord (2 * i + 1) set) as [|a l IH]; cbn in *; [discriminate|].
          destruct (D a i); cbn in *; auto. }
        apply existsb_exists in X as (j & Ij & Dj). apply HO1 in Ij. eauto. }
      split; [|split].
      + rewrite app_assoc. apply Permutation_app_tail. exact P.
      + intros a b Ia Ib. apply in_app_or in Ib as [Ib|[<-|[]]]; [auto|].
        destruct Ex as (j & Ij & Dj). destruct (D i a) eqn:E; auto.
        rewrite <- (A a j Ia (HS _ Ij)). symmetry. apply (D_trans j i a); auto.
      + intros a Ia. apply in_app_or in Ia as [Ia|[<-|[]]]; auto.
  Qed.

  Lemma pool_Ok ord pool : (forall k l, Permutation l (ord k l)) -> NoDup pool -> (forall j, In j pool -> j < N) ->
    exists set next, foldM (pool_step values ord) pool ([], []) = Ok (set, next) /\ round_inv pool set next.
  Proof.
    intros HO. induction pool as [|i pool IH] using rev_ind; intros ND HB.
    - exists [], []. cbn. split; [auto|]. split; [auto|]. split; [intros i j []|intros i []].
    - destruct IH as (set & next & E & R).
      { apply NoDup_remove_1 in ND. rewrite app_nil_r in ND. auto. }
      { intros j Hj. apply HB, in_or_app. auto. }
      rewrite foldM_app, E. cbn [bind foldM].
      destruct (pool_step_Ok ord pool set next i HO ND HB R) as (set' & next' & E' & R'). rewrite E'. cbn. eauto.
  Qed.

  Lemma fronts_loop_Ok ord : visits ord -> forall fuel front pool fronts,
    length pool <= fuel -> NoDup pool -> (forall j, In j pool -> j < N) -> length fronts = N ->
    exists F, fronts_loop values ord fuel front pool fronts = Some (Ok F) /\ length F = N /\
      (forall i, i < N -> ~ In i pool -> nth i F 0 = nth i fronts 0) /\
      (forall i, In i pool -> front <= nth i F 0) /\
      (forall i k, In i pool -> front <= k ->
         (nth i F 0 = k <-> k <= nth i F 0 /\ forall j, In j pool -> k <= nth j F 0 -> D j i = false)).
  Proof.
    intros HO. induction fuel as [|fuel IH]; intros front pool fronts LP ND HB LF.
    - destruct pool; [|cbn in LP; lia]. exists fronts. cbn. split; [auto|]. split; [auto|]. split; [auto|]. split; intros; tauto.
    - destruct pool as [|p0 pool0] eqn:EP.
      { exists fronts. cbn. split; [auto|]. split; [auto|]. split; [auto|]. split; intros; tauto. }
      rewrite <- EP in *. cbn [fronts_loop].
      destruct (pool_Ok (ord front) pool (HO front) ND HB) as (set & next & E & P & A & B).
      rewrite E. cbn [bind].
      assert (HS : forall j, In j set -> In j pool) by (intros j Hj; apply (Permutation_in _ P), in_or_app; auto).
      assert (HX : forall j, In j next -> In j pool) by (intros j Hj; apply (Permutation_in _ P), in_or_app; auto).
      assert (NDs : NoDup (set ++ next)) by (apply (Permutation_NoDup (Permutation_sym P)); auto).
      assert (HO1 : forall j, In j (ord front 0 set) <-> In j set).
      { intros j. split; apply Permutation_in; [apply Permutation_sym|]; apply HO. }
      destruct (store_values 0 (fun _ => front) fronts (ord front 0 set)) as (fronts' & E2 & L2 & N2).
      { intros j Hj. apply HO1 in Hj. rewrite LF. auto. }
      rewrite E2. cbn [bind].
      assert (SNE : set <> []).
      { intros ->. destruct next as [|x nx].
        - apply Permutation_nil in P. congruence.
        - destruct (B x (or_introl eq_refl)) as (c & [] & _). }
      destruct (IH (S front) next fronts') as (F & EF & LF' & F1 & F2 & F3).
      { apply Permutation_length in P. rewrite app_length in P. destruct set; [congruence|]. cbn in P. lia. }
      { clear - NDs. induction set; cbn in NDs; [auto|]. inversion NDs; auto. }
      { auto. }
      { lia. }
      assert (Dj : forall i, In i set -> ~ In i next).
      { clear - NDs. induction set as [|a s IHs]; cbn in NDs; [intros i []|]. inversion NDs; subst.
        intros i [<-|I] J; [apply H1, in_or_app; auto|eapply IHs; eauto]. }
      assert (Fs : forall i, In i set -> nth i F 0 = front).
      { intros i Ii. rewrite F1 by auto. rewrite N2 by (rewrite LF; auto).
        destruct (in_dec Nat.eq_dec i (ord front 0 set)) as [|C]; auto. exfalso. apply C, HO1. auto. }
      rewrite EP. rewrite <- EP. exists F. split; [exact EF|]. split; [auto|]. split; [|split].
      + intros i Hi NI. rewrite F1; auto. rewrite N2 by lia.
        destruct (in_dec Nat.eq_dec i (ord front 0 set)) as [C|]; auto. exfalso. apply NI, HS, HO1. auto.
      + intros i Ii. apply (Permutation_in _ (Permutation_sym P)), in_app_or in Ii as [Ii|Ii].
        * rewrite Fs; auto.
        * specialize (F2 i Ii). lia.
      + intros i k Ii Hk. apply (Permutation_in _ (Permutation_sym P)), in_app_or in Ii as [Ii|Ii].
        * rewrite (Fs i Ii). split.
          -- intros <-. split; [lia|]. intros j Ij _. apply A; auto.
          -- intros [K _]. lia.
        * destruct (Nat.eq_dec k front) as [->|NE].
          -- split; [intros C; specialize (F2 i Ii); lia|]. intros [_ C].
             destruct (B i Ii) as (c & Ic & Dc). rewrite C in Dc; [discriminate|auto|]. rewrite Fs; auto.
          -- rewrite (F3 i k Ii) by lia. apply and_iff_compat_l. split; intros C j Ij Kj.
             ++ apply (Permutation_in _ (Permutation_sym P)), in_app_or in Ij as [Ij|Ij]; [|auto].
                rewrite (Fs j Ij) in Kj. lia.
             ++ apply C; auto.
  Qed.

  Lemma compute_Ok ord fuel fronts : visits ord -> N <= fuel -> length fronts = N ->
    exists F, compute_fronts values ord fuel fronts = Some (Ok F) /\ length F = N /\
      forall i k, i < N -> (nth i F 0 = k <-> in_front values k i).
  Proof.
    intros HO HF LF. unfold compute_fronts. fold N. rewrite (proj2 (Nat.eqb_eq _ _) LF).
    destruct (fronts_loop_Ok ord HO fuel 0 (seq 0 N) fronts) as (F & E & L & _ & _ & S).
    { rewrite seq_length. auto. } { apply seq_NoDup. } { intros j Hj. apply in_seq in Hj. lia. } { auto. }
    exists F. split; [exact E|]. split; [auto|].
    assert (S' : forall i k, i < N -> (nth i F 0 = k <-> k <= nth i F 0 /\ forall j, j < N -> k <= nth j F 0 -> D j i = false)).
    { intros i k Hi. rewrite (S i k) by (try apply in_seq; lia). apply and_iff_compat_l.
      split; intros C j Hj; apply C; try apply in_seq; try (apply in_seq in Hj); lia. }
    assert (Peel : forall k i, i < N -> (peeled values k i <-> nth i F 0 < k)).
    { induction k as [|k IHk]; intros i Hi; cbn [peeled]; [lia|].
      rewrite IHk by auto. fold N. split.
      - intros [H|H]; [lia|]. destruct (Nat.lt_ge_cases (nth i F 0) k) as [|G]; [lia|].
        assert (nth i F 0 = k); [|lia]. apply S'; auto. split; [auto|]. intros j Hj Kj.
        destruct (D j i) eqn:Dj; auto. exfalso. apply (H j Hj); [rewrite IHk by auto; lia|]. apply D_spec; auto.
      - intros H. destruct (Nat.eq_dec (nth i F 0) k) as [Ek|NE]; [|left; lia]. right.
        intros j Hj NP PB. rewrite IHk in NP by auto. apply D_spec in PB; auto.
        apply S' in Ek as [_ C]; auto. rewrite C in PB; auto; [discriminate|lia]. }
    intros i k Hi. unfold in_front. rewrite !Peel by auto. lia.
  Qed.
End Fronts.
