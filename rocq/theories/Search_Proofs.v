(** Proofs about the program with algorithms which keep the best vector. *)

From Coq Require Import ZArith.
From Verif Require Import Base BaseLemmas BitVector_Model BitVector_Spec Iterator_Model Iterator_Proofs Algorithm_Proofs Map_Model Map_Spec Double
  Controller_Model Controller_Spec Controller_Proofs Decorator_Model Decorator_Spec ControllerStack_Spec ControllerStack_Proofs
  Application_Model Application_Spec Application_Proofs Search_Model Search_Spec.
Local Open Scope nat_scope.

(** * Best records *)

Lemma best_record_one x v : is_nan v = false -> best_record [(x, v)] 0 x v.
Proof.
  intros N. split; [reflexivity|]. split.
  - intros [|[|j]] y w; cbn; try discriminate. intros [= <- <-]. right. now apply dle_refl.
  - intros j y w Hj. lia.
Qed.

Lemma best_record_In E k x v : best_record E k x v -> In (x, v) E.
Proof. intros [H _]. now apply nth_error_In in H. Qed.

Lemma best_record_above E k x v y w : best_record E k x v -> In (y, w) E -> is_nan w = true \/ dle w v = true.
Proof. intros (_ & H & _) HI. apply In_nth_error in HI as [j Hj]. eauto. Qed.

Lemma best_record_better E k x v y w : best_record E k x v -> is_nan v = false -> dgt w v = true -> best_record (E ++ [(y, w)]) (length E) y w.
Proof.
  intros B N H. split; [now rewrite nth_error_app2, Nat.sub_diag by lia|].
  assert (G : forall j z u, j < length E -> nth_error (E ++ [(y, w)]) j = Some (z, u) -> is_nan u = true \/ dlt u w = true).
  { intros j z u Hj HE. rewrite nth_error_app1 in HE by lia. destruct B as (_ & B & _). destruct (B _ _ _ HE) as [K|K]; [auto|].
    right. now apply (dle_dlt_trans u v). }
  split; [|exact G]. intros j z u HE. destruct (Nat.lt_ge_cases j (length E)) as [Hj|Hj].
  - destruct (G j z u Hj HE); auto. right. now apply dlt_le.
  - assert (j = length E) as ->.
    { assert (K : j < length (E ++ [(y, w)])) by (apply nth_error_Some; congruence). rewrite app_length in K. cbn in K. lia. }
    rewrite nth_error_app2, Nat.sub_diag in HE by lia. injection HE as <- <-. right. apply dle_refl. now apply dlt_nan in H.
Qed.

Lemma best_record_worse E k x v y w : best_record E k x v -> is_nan v = false -> is_nan w = false -> dgt w v = false -> best_record (E ++ [(y, w)]) k x v.
Proof.
  intros (B1 & B2 & B3) Nv Nw H. assert (Hk : k < length E) by (apply nth_error_Some; congruence).
  split; [now rewrite nth_error_app1|]. split.
  - intros j z u HE. destruct (Nat.lt_ge_cases j (length E)) as [Hj|Hj].
    + rewrite nth_error_app1 in HE by lia. eauto.
    + destruct (j - length E) eqn:D; rewrite nth_error_app2, D in HE by lia; [|destruct n; discriminate].
      injection HE as <- <-. right. now apply not_lt_le.
  - intros j z u Hj HE. rewrite nth_error_app1 in HE by lia. eauto.
Qed.

Lemma NoDup_snoc {A} (l : list A) a : NoDup (l ++ [a]) <-> NoDup l /\ ~ In a l.
Proof.
  split.
  - intros H. apply NoDup_remove in H. now rewrite app_nil_r in H.
  - intros [H1 H2]. induction l as [|b l IH]; cbn; [repeat constructor; auto|]. inversion H1; subst. constructor.
    + rewrite in_app_iff. cbn in *. intuition congruence.
    + apply IH; auto. intros K. apply H2. now right.
Qed.

(** * The controllers *)

Section Controlled.
  Context {S : Type} (o : fobj S) (n : nat) (f : bv -> dbl) (inv : S -> Prop).
  Context (Hinv : forall t x, inv t -> length x = n -> snd (o t (REval x)) = Ok (RValue (f x)) /\ inv (fst (o t (REval x)))).
  Context (HN : numbers n f).
  Local Notation E := (list (bv * dbl)).

  (** The state of the tracker after the values [l] have been given; [c] tells that none of
      them was in a cache. *)
  Definition tracked (c : bool) (l : E) (t : improvement * (nat * S)) : Prop :=
    inv (snd (snd t)) /\ Forall (fun p => length (fst p) = n /\ snd p = f (fst p)) l /\
    fst (snd t) <= length l /\ (c = true \/ NoDup (map fst l) -> fst (snd t) = length l) /\
    (l <> [] -> 0 < fst (snd t) /\
       exists k x v, best_record l k x v /\ imp_value (fst t) = Some v /\ (c = true \/ NoDup (map fst l) -> imp_num (fst t) = k + 1)).

  Lemma tracked_value c l t x v : tracked c l t -> In (x, v) l -> length x = n /\ v = f x /\ is_nan v = false.
  Proof.
    intros (_ & F & _) HI. rewrite Forall_forall in F. destruct (F _ HI) as [H1 H2]. cbn in *. repeat split; auto. subst v. now apply HN.
  Qed.

  Lemma tracked_eval c l t x : tracked c l t -> length x = n ->
    snd (progress_tracker o false t (REval x)) = Ok (RValue (f x)) /\
    tracked c (l ++ [(x, f x)]) (fst (progress_tracker o false t (REval x))) /\
    fst (snd (fst (progress_tracker o false t (REval x)))) = fst (snd t) + 1.
  Proof.
    intros T Hx. pose proof T as (I & F & C1 & C2 & B). destruct t as [i [k s]]. cbn [fst snd] in *. destruct (Hinv s x I Hx) as [R I'].
    unfold progress_tracker. rewrite call_counter_step, R. cbn [counts returned andb fst].
    assert (F' : Forall (fun p => length (fst p) = n /\ snd p = f (fst p)) (l ++ [(x, f x)])) by (apply Forall_app; split; auto).
    assert (LE : length (l ++ [(x, f x)]) = length l + 1) by (rewrite app_length; reflexivity).
    assert (ND : c = true \/ NoDup (map fst (l ++ [(x, f x)])) -> c = true \/ NoDup (map fst l)).
    { rewrite map_app. intros [K|K]; [auto|]. right. now apply NoDup_snoc in K. }
    unfold update_last_improvement. destruct (Nat.eqb_spec (k + 1) 1) as [K|K].
    - assert (l = []) as -> by (destruct l; auto; destruct B as [B _]; [discriminate|lia]).
      cbn [fst snd update_details]. split; [reflexivity|]. split; [|reflexivity]. split; [exact I'|]. split; [exact F'|]. cbn [fst snd app length map].
      split; [lia|]. split; [lia|]. intros _. split; [lia|]. exists 0, x, (f x). split; [apply best_record_one; now apply HN|]. split; [reflexivity|].
      intros _. cbn. lia.
    - assert (NE : l <> []) by (intros ->; cbn in C1; lia). destruct (B NE) as (K0 & k0 & x0 & v0 & BR & V0 & N0). rewrite V0.
      destruct (tracked_value c l _ x0 v0 T (best_record_In _ _ _ _ BR)) as (_ & _ & NV).
      destruct (dgt (f x) v0) eqn:G.
      + destruct (Nat.ltb_spec 1 (k + 1)); [|lia]. cbn [assertb bind fst snd update_details]. split; [reflexivity|]. split; [|reflexivity].
        split; [exact I'|]. split; [exact F'|]. cbn [fst snd]. rewrite LE. split; [lia|].
        split; [intros D; rewrite (C2 (ND D)); lia|]. intros _. split; [lia|]. exists (length l), x, (f x).
        split; [exact (best_record_better _ _ _ _ _ _ BR NV G)|]. split; [reflexivity|]. intros D. cbn. rewrite (C2 (ND D)). lia.
      + cbn [fst snd]. split; [reflexivity|]. split; [|reflexivity]. split; [exact I'|]. split; [exact F'|]. cbn [fst snd]. rewrite LE. split; [lia|].
        split; [intros D; rewrite (C2 (ND D)); lia|]. intros _. split; [lia|]. exists k0, x0, v0.
        split; [refine (best_record_worse _ _ _ _ _ _ BR NV _ G); now apply HN|]. split; [exact V0|]. intros D. auto.
  Qed.

  (** A vector whose value is in the cache *)
  Lemma tracked_hit l t x v : tracked false l t -> In (x, v) l -> tracked false (l ++ [(x, v)]) t.
  Proof.
    intros T HI. destruct (tracked_value false l t x v T HI) as (Lx & -> & Nv). pose proof T as (I & F & C1 & C2 & B).
    assert (D : ~ (false = true \/ NoDup (map fst (l ++ [(x, f x)])))).
    { rewrite map_app. intros [K|K]; [discriminate|]. apply NoDup_snoc in K as [_ K]. apply K. apply in_map_iff. exists (x, f x). auto. }
    split; [exact I|]. split; [apply Forall_app; split; auto|]. rewrite app_length. split; [cbn; lia|].
    split; [contradiction|]. intros _. assert (NE : l <> []) by (intros ->; destruct HI). destruct (B NE) as (K0 & k0 & x0 & v0 & BR & V0 & _).
    split; [exact K0|]. exists k0, x0, v0. destruct (tracked_value false l t x0 v0 T (best_record_In _ _ _ _ BR)) as (_ & _ & NV).
    split; [|split; [exact V0|contradiction]]. apply best_record_worse; auto.
    destruct (best_record_above _ _ _ _ _ _ BR HI) as [K|K]; [congruence|]. destruct (dgt (f x) v0) eqn:G; auto.
    apply dlt_not_le in G. congruence.
  Qed.

  Definition cached (l : E) (c : cache_state) : Prop :=
    cache_size c = n /\ forall x v, cache_find (cache_map c) x = Some v -> In (x, v) l.

  Lemma cached_snoc l c x v : cached l c -> cached (l ++ [(x, v)]) c.
  Proof. intros [H1 H2]. split; [auto|]. intros y w K. apply in_or_app. eauto. Qed.
  Lemma cached_new l c x v a b : cached l c -> cached (l ++ [(x, v)]) (mk_cache (cache_size c) ((x, v) :: cache_map c) a b).
  Proof.
    intros [H1 H2]. split; [auto|]. cbn. intros y w. apply or_introl with (B := True) in H1. rewrite in_app_iff. cbn.
    destruct (bv_eq_dec y x) as [->|]; [intros [= <-]; auto|]. intros K. left. eauto.
  Qed.
  Lemma cached_count l c a b : cached l c -> cached l (mk_cache (cache_size c) (cache_map c) a b).
  Proof. intros [H1 H2]. split; auto. Qed.

  Definition has_cache (m : middle) : bool := match m with MidNone | MidBudget _ => false | _ => true end.
  Definition known (m : middle) (l : E) (ms : middle_state m (improvement * (nat * S))) : Prop :=
    tracked (negb (has_cache m)) l (middle_inner m ms) /\
    match m return middle_state m (improvement * (nat * S)) -> Prop with
    | MidNone => fun _ => True
    | MidBudget b => fun ms => fst ms = length l /\ (Z.of_nat (fst ms) <= b)%Z
    | MidCache => fun ms => cached l (fst ms)
    | MidBudgetOfCache b => fun ms => fst ms = length l /\ (Z.of_nat (fst ms) <= b)%Z /\ cached l (fst (snd ms))
    | MidCacheOfBudget b => fun ms => fst (snd ms) = fst (snd (snd (snd ms))) /\ (Z.of_nat (fst (snd ms)) <= b)%Z /\ cached l (fst ms)
    end ms.

  (** The next evaluation: its value, or the end of the budget *)
  Definition answered (m : middle) (l : E) (ms : middle_state m (improvement * (nat * S))) (x : bv) : Prop :=
    let p := middle_obj m (progress_tracker o false) ms (REval x) in
    (snd p = Ok (RValue (f x)) /\ known m (l ++ [(x, f x)]) (fst p) /\
       (NoDup (map fst l ++ [x]) -> match budget_of m with Some b => (Z.of_nat (length l) < b)%Z | None => True end)) \/
    (snd p = Throw LastEvaluation /\ known m l (fst p) /\
       match budget_of m with Some b => (b <= Z.of_nat (length l))%Z /\ (NoDup (map fst l ++ [x]) -> b = Z.of_nat (length l)) | None => False end).

  Lemma middle_answered m l ms x : known m l ms -> length x = n -> answered m l ms x.
  Proof.
    intros [T K] Hx. unfold answered. destruct m as [|b| |b|b]; cbn [middle_obj middle_inner middle_state budget_of known] in *.
    - destruct (tracked_eval _ l ms x T Hx) as (R1 & R2 & _). left. split; [exact R1|]. split; [split; auto|auto].
    - destruct ms as [c t]. cbn [fst snd] in *. destruct K as [-> K]. rewrite on_budget_step. cbn [counts andb].
      destruct (Z.eqb_spec (Z.of_nat (length l)) b) as [Eb|Eb].
      + right. cbn [fst snd]. split; [reflexivity|]. split; [split; auto|]. split; [lia|]. intros _. auto.
      + destruct (tracked_eval _ l t x T Hx) as (R1 & R2 & _). left. rewrite call_counter_step, R1. cbn [counts returned andb fst snd].
        split; [reflexivity|]. split; [|intros _; lia]. split; [exact R2|]. cbn [fst]. rewrite app_length. cbn. lia.
    - destruct ms as [c t]. cbn [fst snd] in *. pose proof K as [K1 K2]. cbn [cache]. rewrite Hx, K1, Nat.eqb_refl.
      destruct (cache_find (cache_map c) x) as [v|] eqn:EC.
      + pose proof (K2 _ _ EC) as HI. destruct (tracked_value false l t x v T HI) as (_ & Ev & _). subst v. left. cbn [fst snd].
        split; [reflexivity|]. split; [|auto]. split; [now apply tracked_hit|]. cbn [fst]. rewrite <- K1. apply cached_snoc. now apply cached_count.
      + destruct (tracked_eval _ l t x T Hx) as (R1 & R2 & _). destruct (progress_tracker o false t (REval x)) as [t' a]. cbn [fst snd] in *. subst a.
        left. cbn [fst snd]. split; [reflexivity|]. split; [|auto]. split; [exact R2|]. cbn [fst]. rewrite <- K1. now apply cached_new.
    - destruct ms as [c [ca t]]. cbn [fst snd] in *. destruct K as (-> & K & KC). rewrite on_budget_step. cbn [counts andb].
      destruct (Z.eqb_spec (Z.of_nat (length l)) b) as [Eb|Eb].
      + right. cbn [fst snd]. split; [reflexivity|]. split; [split; auto|]. split; [lia|]. intros _. auto.
      + left. rewrite call_counter_step. pose proof KC as [K1 K2]. cbn [cache]. rewrite Hx, K1, Nat.eqb_refl.
        destruct (cache_find (cache_map ca) x) as [v|] eqn:EC.
        * pose proof (K2 _ _ EC) as HI. destruct (tracked_value false l t x v T HI) as (_ & Ev & _). subst v. cbn [fst snd counts returned andb].
          split; [reflexivity|]. split; [|intros _; lia]. split; [now apply tracked_hit|]. cbn [fst snd]. rewrite app_length. cbn [length].
          split; [lia|]. split; [lia|]. rewrite <- K1. apply cached_snoc. now apply cached_count.
        * destruct (tracked_eval _ l t x T Hx) as (R1 & R2 & _). destruct (progress_tracker o false t (REval x)) as [t' a]. cbn [fst snd] in *. subst a.
          cbn [fst snd counts returned andb]. split; [reflexivity|]. split; [|intros _; lia]. split; [exact R2|]. cbn [fst snd]. rewrite app_length. cbn [length].
          split; [lia|]. split; [lia|]. rewrite <- K1. now apply cached_new.
    - destruct ms as [ca [c t]]. cbn [fst snd] in *. destruct K as (Ec & K & KC). pose proof KC as [K1 K2]. pose proof T as (_ & _ & C1 & C2 & _).
      assert (ND : NoDup (map fst l ++ [x]) -> c = length l) by (intros D; apply NoDup_snoc in D as [D _]; rewrite Ec; auto).
      cbn [cache]. rewrite Hx, K1, Nat.eqb_refl. destruct (cache_find (cache_map ca) x) as [v|] eqn:EC.
      + pose proof (K2 _ _ EC) as HI. destruct (tracked_value false l t x v T HI) as (_ & Ev & _). subst v. left. cbn [fst snd].
        split; [reflexivity|]. split.
        * split; [now apply tracked_hit|]. cbn [fst snd]. split; [exact Ec|]. split; [exact K|]. rewrite <- K1. apply cached_snoc. now apply cached_count.
        * intros D. apply NoDup_snoc in D as [_ D]. destruct D. apply in_map_iff. exists (x, f x). auto.
      + rewrite on_budget_step. cbn [counts andb]. destruct (Z.eqb_spec (Z.of_nat c) b) as [Eb|Eb].
        * right. cbn [fst snd]. split; [reflexivity|]. split.
          { split; [exact T|]. cbn [fst snd]. split; [exact Ec|]. split; [exact K|]. rewrite <- K1. now apply cached_count. }
          split; [lia|]. intros D. rewrite <- Eb, (ND D). reflexivity.
        * destruct (tracked_eval _ l t x T Hx) as (R1 & R2 & R3). rewrite call_counter_step, R1. cbn [counts returned andb fst snd].
          left. cbn [fst snd]. split; [reflexivity|]. split; [|intros D; rewrite <- (ND D); lia].
          split; [exact R2|]. cbn [fst snd middle_inner] in *. rewrite R3. split; [lia|]. split; [lia|]. rewrite <- K1. now apply cached_new.
  Qed.

  (** Through the target *)
  Lemma controlled_answered m target l tr ms x : known m l ms -> length x = n ->
    let p := controlled_obj m target o (tr, ms) (REval x) in
    (known m (l ++ [(x, f x)]) (snd (fst p)) /\
       (NoDup (map fst l ++ [x]) -> match budget_of m with Some b => (Z.of_nat (length l) < b)%Z | None => True end) /\
       match target with
       | Some t => if dge (f x) t then snd p = Throw TargetReached /\ fst (fst p) = Some (x, f x)
                   else snd p = Ok (RValue (f x)) /\ fst (fst p) = tr
       | None => snd p = Ok (RValue (f x)) /\ fst (fst p) = tr
       end) \/
    (snd p = Throw LastEvaluation /\ known m l (snd (fst p)) /\
       match budget_of m with Some b => (b <= Z.of_nat (length l))%Z /\ (NoDup (map fst l ++ [x]) -> b = Z.of_nat (length l)) | None => False end).
  Proof.
    intros K Hx. cbv zeta. pose proof (middle_answered m l ms x K Hx) as AN. unfold answered in AN. unfold controlled_obj.
    set (q := middle_obj m (progress_tracker o false) ms (REval x)) in *.
    destruct target as [t|].
    - rewrite stop_step. fold q. destruct AN as [(A1 & A2 & A3)|(A1 & A2 & A3)].
      + left. rewrite A1. cbn [evaluation filter snd]. destruct (dge (f x) t); cbn [fst snd]; auto.
      + right. rewrite A1. cbn [evaluation filter fst snd]. auto.
    - fold q. destruct q as [ms' a] eqn:Eq. cbn [fst snd] in *. destruct AN as [(A1 & A2 & A3)|(A1 & A2 & A3)]; [left|right]; auto.
  Qed.

  Lemma known_init m s : inv s -> (forall b, budget_of m = Some b -> (0 <= b)%Z) -> known m [] (middle_init m n (tracker_make n, (0, s))).
  Proof.
    intros I Hb.
    assert (T : forall c, tracked c [] (tracker_make n, (0, s))).
    { intros c. split; [exact I|]. split; [constructor|]. cbn. split; [lia|]. split; [auto|]. intros K. now destruct K. }
    assert (C : cached [] (cache_make n)) by (split; [reflexivity|]; cbn; discriminate).
    split; [destruct m; apply T|]. destruct m as [|b| |b|b]; cbn in *; auto; repeat split; auto; try (apply (Hb b eq_refl)); cbn; try discriminate.
  Qed.
End Controlled.

Lemma best_record_unique E k x v k' x' v' : is_nan v = false -> is_nan v' = false -> best_record E k x v -> best_record E k' x' v' ->
  k = k' /\ x = x' /\ v = v'.
Proof.
  intros N N' (A1 & A2 & A3) (B1 & B2 & B3).
  destruct (Nat.lt_trichotomy k k') as [H|[->|H]].
  - destruct (B3 _ _ _ H A1) as [K|K]; [congruence|]. destruct (A2 _ _ _ B1) as [K'|K']; [congruence|]. apply dlt_not_le in K. congruence.
  - rewrite A1 in B1. injection B1 as <- <-. auto.
  - destruct (A3 _ _ _ H B1) as [K|K]; [congruence|]. destruct (B2 _ _ _ A1) as [K'|K']; [congruence|]. apply dlt_not_le in K. congruence.
Qed.

(** * Runs *)

Lemma hears_visited A l st : hears A l st -> visited A true st.
Proof. induction 1; [apply (visited_begin _ false), visited_init|..]; now apply visited_after. Qed.

Definition below_target (target : option dbl) (l : list (bv * dbl)) : Prop :=
  forall t, target = Some t -> Forall (fun p => dge (snd p) t = false) l.

Section Heard.
  Context {S : Type} (o : fobj S) (n : nat) (f : bv -> dbl) (inv : S -> Prop).
  Context (Hinv : forall t x, inv t -> length x = n -> snd (o t (REval x)) = Ok (RValue (f x)) /\ inv (fst (o t (REval x)))).
  Context (HN : numbers n f) (mid : middle) (target : option dbl) (A : machine) (HA : honest A) (HW : works A n) (HE : evaluates A).
  Local Notation C := (controlled_obj mid target o).
  Local Notation kn := (known n f inv mid).
  Local Notation below := (below_target target).

  Lemma plays_hears st cs rs st' cs' r l : plays C A st cs rs st' cs' r -> hears A l st -> kn l (snd cs) -> below l ->
    match r with
    | Ok _ | Throw LastEvaluation => exists l', hears A l' st' /\ kn l' (snd cs') /\ below l'
    | Throw TargetReached => exists l' x t, kn (l' ++ [(x, f x)]) (snd cs') /\ below l' /\ length x = n /\
        fst cs' = Some (x, f x) /\ target = Some t /\ dge (f x) t = true
    | _ => True
    end.
  Proof.
    intros H. revert l. induction H as [st s En|st s e En|st s En|st s rs st' s' r En _ IH|st s q p rs st' s' r En Eo _ IH|st s q e En Eo|st s q En Eo];
      intros l HR HK HB.
    - exists l. auto.
    - destruct (HA st e En). destruct e; auto; contradiction.
    - exact I.
    - apply (IH l); auto. now apply hears_silent.
    - pose proof (hears_visited A l st HR) as V. destruct (HE st q V En) as [x ->]. pose proof (proj1 (HW st V) _ En) as Lx. cbn in Lx. destruct s as [tr ms].
      destruct (controlled_answered o n f inv Hinv HN mid target l tr ms x HK Lx) as [(K1 & _ & K2)|(K1 & _)].
      + assert (NT : p = RValue (f x) /\ below (l ++ [(x, f x)])).
        { unfold below_target in *. destruct target as [t|].
          - destruct (dge (f x) t) eqn:G; destruct K2 as [K2 _]; [congruence|]. split; [congruence|]. intros t' [= <-]. apply Forall_app. split; [auto|]. repeat constructor. exact G.
          - split; [destruct K2; congruence|discriminate]. }
        destruct NT as [-> NT]. apply (IH (l ++ [(x, f x)])); auto. now apply hears_value.
      + congruence.
    - pose proof (hears_visited A l st HR) as V. destruct (HE st q V En) as [x ->]. pose proof (proj1 (HW st V) _ En) as Lx. cbn in Lx. destruct s as [tr ms].
      destruct (controlled_answered o n f inv Hinv HN mid target l tr ms x HK Lx) as [(K1 & _ & K2)|(K1 & K2 & _)].
      + destruct target as [t|] eqn:ET; [destruct (dge (f x) t) eqn:G|]; destruct K2 as [K2 K3]; try congruence.
        assert (e = TargetReached) as -> by congruence. exists l, x, t. auto 6.
      + assert (e = LastEvaluation) as -> by congruence. exists l. split; [now apply hears_exception with (q := REval x)|]. auto.
    - exact I.
  Qed.
End Heard.

Theorem solution_value ap co m F factory A mid target i n f fuel out e c r c' y :
  optimizes ap -> ap_restart ap = false -> make_function_controller co F = Ok (mid, target) -> factory (fp_size (f_props F)) = Ok A ->
  honest A -> works A i -> evaluates A -> keeps_best A -> quiet (f_obj F) -> map_fits m i n -> kind_known m -> fp_size (f_props F) = i ->
  total (f_obj F) (f_init F) i f -> numbers i f ->
  program ap co (Ok (Some (m, F))) factory fuel = Some (out, e) -> In (OResults c r) out -> In (OSolution c' y) out ->
  exists x, length x = i /\ y = shown ap m x /\ (0 < rs_total r -> rs_value r = Some (f x)).
Proof.
  intros HO HR HC HFa HA HW HE HKB HQ HM HK HF HT HN HP HI HS.
  pose proof (program_correct ap co m F factory A mid target i n fuel out e HO HC HFa HA HW HQ HM HK HF HP) as PC. cbv zeta in PC.
  assert (EB : run_by ap i A = A) by (unfold run_by; now rewrite HR). rewrite EB in PC. clear EB.
  destruct PC as (rs & st & cs & q & Pl & _ & H).
  destruct (total_inv _ _ _ _ HT) as (inv & I0 & Hinv).
  assert (K0 : known i f inv mid [] (snd (controlled_init mid i (f_init F)))).
  { apply known_init; auto. unfold make_function_controller in HC. destruct (target_of co (f_props F)); try discriminate. injection HC as <- _.
    unfold middle_of. destruct (Z.ltb_spec 0 (co_budget co)), (co_cache co), (co_cache_budget co); cbn; intros b [= <-]; lia. }
  pose proof (plays_hears (f_obj F) i f inv Hinv HN mid target A HA HW HE _ _ _ _ _ _ [] Pl (hears_begin A) K0 (fun t _ => Forall_nil _)) as G.
  assert (TK : forall l, known i f inv mid l (snd cs) ->
    0 < fst (snd (middle_inner mid (snd cs))) -> exists k z v, best_record l k z v /\ imp_value (fst (middle_inner mid (snd cs))) = Some v /\ v = f z /\ is_nan v = false).
  { intros l [T _] Hp. pose proof T as (_ & _ & C1 & _ & B). destruct B as (_ & k & z & v & B1 & B2 & _); [intros ->; cbn in C1; lia|].
    destruct (tracked_value i f inv HN _ l _ z v T (best_record_In _ _ _ _ B1)) as (_ & E1 & E2). exists k, z, v. auto. }
  assert (HL : forall l, known i f inv mid l (snd cs) -> Forall (fun p => is_nan (snd p) = false) l /\ forall z v, In (z, v) l -> v = f z).
  { intros l [T _]. split; [apply Forall_forall; intros [z v] Hz|intros z v Hz]; now destruct (tracked_value i f inv HN _ l _ z v T Hz) as (_ & ? & ?). }
  assert (D : (q = Ok tt \/ q = Throw LastEvaluation) ->
    exists x, length x = i /\ y = shown ap m x /\ (0 < rs_total r -> rs_value r = Some (f x))).
  { intros Hq.
    assert (H' : length (fst (ma_solution A (ma_finalize A st))) = i /\
      (out, e) = report ap co m i (final_results co mid cs false) (fst (ma_solution A (ma_finalize A st))) false) by (destruct Hq as [->| ->]; exact H).
    assert (G' : exists l', hears A l' st /\ known i f inv mid l' (snd cs)) by (destruct Hq as [->| ->]; destruct G as (l' & G1 & G2 & _); eauto).
    clear H G. destruct H' as [Lx H]. destruct G' as (l & G1 & G2).
    exists (fst (ma_solution A (ma_finalize A st))). split; [exact Lx|]. split; [exact (report_solution _ _ _ _ _ _ _ _ _ _ _ H HS)|].
    pose proof (report_results _ _ _ _ _ _ _ _ _ _ _ H HI) as ->. cbn [final_results rs_total rs_value]. intros Hp.
    destruct (TK l G2 Hp) as (k & z & v & B1 & B2 & B3 & B4). destruct (HL l G2) as [N1 N2].
    destruct (HKB l st G1) as (k' & B'); [intros ->; destruct B1 as [B1 _]; destruct k; discriminate|exact N1|].
    set (s := ma_solution A (ma_finalize A st)) in *.
    assert (Nv : is_nan (snd s) = false) by (rewrite Forall_forall in N1; exact (N1 _ (best_record_In _ _ _ _ B'))).
    destruct (best_record_unique _ _ _ _ _ _ _ B4 Nv B1 B') as (_ & <- & _). now rewrite B2, B3. }
  destruct q as [[]|[]|]; try (injection H as -> _; destruct HI); try (apply D; auto; fail).
  destruct H as (t & past & q & x & v & Et & _ & Ecs & _ & Lx & H). destruct G as (l & x' & t' & G1 & G2 & G3 & G4 & G5 & G6).
  rewrite Ecs in G4. injection G4 as -> ->. rewrite Et in G5. injection G5 as <-. exists x'. split; [exact Lx|].
  split; [exact (report_solution _ _ _ _ _ _ _ _ _ _ _ H HS)|].
  pose proof (report_results _ _ _ _ _ _ _ _ _ _ _ H HI) as ->. cbn [final_results rs_total rs_value]. intros Hp.
  destruct (TK _ G1 Hp) as (k & z & w & B1 & B2 & B3 & B4). rewrite B2. f_equal.
  destruct (HL _ G1) as [N1 _]. rewrite Forall_forall in N1.
  assert (Hx : In (x', f x') (l ++ [(x', f x')])) by (apply in_or_app; right; now left).
  destruct (best_record_above _ _ _ _ _ _ B1 Hx) as [K|K]; [specialize (N1 _ Hx); cbn in N1; congruence|].
  apply best_record_In in B1. apply in_app_or in B1 as [B1|[B1|[]]]; [|now injection B1 as _ <-].
  specialize (G2 t Et). rewrite Forall_forall in G2. specialize (G2 _ B1). cbn in G2. unfold dge in G2, G6.
  rewrite (dle_trans t (f x') w G6 K) in G2. discriminate.
Qed.

(** * Algorithms *)

Lemma hc_next_length s x s' : hc_next s = Ok (x, s') -> length x = length (hc_current s) /\ length (hc_current s') = length (hc_current s).
Proof.
  unfold hc_next. destruct (hc_has_next s); [|discriminate]. cbn [assertb bind]. intros E. apply Ok_inj in E. injection E as <- <-. cbn [hc_current].
  assert (L : forall y, length (hc_increment y) = length y) by (induction y as [|[] y IH]; cbn; auto).
  destruct (hc_initial s); [unfold bv_clear; rewrite map_length|rewrite L]; auto.
Qed.

Lemma complete_visited n b st : visited (complete_search_machine n) b st ->
  length (fst (co_solution st)) = n /\ length (hc_current (co_iterator st)) = n.
Proof.
  induction 1 as [|b st V [I1 I2]|st a V [I1 I2]|b st V I]; cbn.
  - now rewrite repeat_length.
  - split; [auto|]. now rewrite repeat_length.
  - destruct (hc_next (co_iterator st)) as [[x it]|e|] eqn:En; auto. destruct (hc_next_length _ _ _ En) as [L1 L2].
    unfold update_pair. destruct a as [[v|]|e|]; cbn; try (split; congruence). destruct (co_first st); cbn; [split; congruence|].
    destruct (dgt v _); cbn; split; congruence.
  - exact I.
Qed.

Lemma complete_fine n : honest (complete_search_machine n) /\ works (complete_search_machine n) n /\ evaluates (complete_search_machine n).
Proof.
  assert (NC : forall s e, hc_next s <> Throw e) by (intros s e; unfold hc_next; destruct (hc_has_next s); discriminate).
  split; [|split].
  - intros st e. cbn. destruct (hc_has_next _).
    + destruct (hc_next (co_iterator st)) as [[x it]|e'|] eqn:En; try discriminate. now destruct (NC _ _ En).
    + destruct (co_first st); [|discriminate]. intros [= <-]. split; discriminate.
  - intros st V. destruct (complete_visited n true st V) as [I1 I2]. split; [|exact I1]. intros q. cbn. destruct (hc_has_next _); [|destruct (co_first st); discriminate].
    destruct (hc_next (co_iterator st)) as [[x it]|e'|] eqn:En; try discriminate. intros [= <-]. cbn. destruct (hc_next_length _ _ _ En). congruence.
  - intros st q _. cbn. destruct (hc_has_next _); [|destruct (co_first st); discriminate].
    destruct (hc_next (co_iterator st)) as [[x it]|e'|] eqn:En; try discriminate. intros [= <-]. eauto.
Qed.

(** The solution is not set yet, or it is the best. *)
Definition best_so_far (unset : bool) (E : list (bv * dbl)) (sol : bv * dbl) : Prop :=
  match E with [] => unset = true | _ => unset = false /\ exists k, best_record E k (fst sol) (snd sol) end.

Lemma best_so_far_set x v : is_nan v = false -> best_so_far false ([] ++ [(x, v)]) (x, v).
Proof. intros N. cbn. split; [reflexivity|]. exists 0. now apply best_record_one. Qed.
Lemma best_so_far_update u E sol x v : E <> [] -> is_nan v = false -> Forall (fun p => is_nan (snd p) = false) E ->
  best_so_far u E sol -> best_so_far false (E ++ [(x, v)]) (update_pair x v sol).
Proof.
  intros NE N HF B. assert (B' : exists k, best_record E k (fst sol) (snd sol)) by (destruct E; [now destruct NE|apply B]). clear B. destruct B' as [k B].
  assert (Ns : is_nan (snd sol) = false) by (rewrite Forall_forall in HF; exact (HF _ (best_record_In _ _ _ _ B))).
  assert (G : exists k, best_record (E ++ [(x, v)]) k (fst (update_pair x v sol)) (snd (update_pair x v sol))).
  { unfold update_pair. destruct (dgt v (snd sol)) eqn:D; [exists (length E); now apply best_record_better with (k := k) (x := fst sol) (v := snd sol)|].
    exists k. now apply best_record_worse. }
  unfold best_so_far. destruct (E ++ [(x, v)]) eqn:EE; [now destruct E|]. split; auto.
Qed.

Lemma complete_step_best n E st x v st' : best_so_far (co_first st) E (co_solution st) -> is_nan v = false -> Forall (fun p => is_nan (snd p) = false) E ->
  ma_next (complete_search_machine n) st = MCall (REval x) -> st' = ma_after (complete_search_machine n) st (Ok (RValue v)) ->
  best_so_far (co_first st') (E ++ [(x, v)]) (co_solution st').
Proof.
  intros B N HF En ->. cbn in *. destruct (hc_has_next _); [|destruct (co_first st); discriminate].
  destruct (hc_next (co_iterator st)) as [[y it]|e'|]; try discriminate. injection En as ->. cbn [co_first co_solution].
  destruct E as [|p E].
  - cbn in B. rewrite B. now apply best_so_far_set.
  - pose proof (proj1 B) as B1. rewrite B1. apply (best_so_far_update (co_first st)); auto; discriminate.
Qed.

Lemma complete_keeps_best n : keeps_best (complete_search_machine n).
Proof.
  intros E st H NE HF.
  assert (G : best_so_far (co_first st) E (co_solution st)).
  { clear NE. induction H as [|E st H IH En|E st x v H IH En|E st q e H IH En].
    - reflexivity.
    - cbn in En. destruct (hc_has_next _); [destruct (hc_next _) as [[]| |]|destruct (co_first st)]; discriminate.
    - apply Forall_app in HF as [HF HF2]. inversion HF2; subst. exact (complete_step_best n E st x v _ (IH HF) H2 HF En eq_refl).
    - specialize (IH HF). cbn. destruct (hc_next (co_iterator st)) as [[y it]| |]; exact IH. }
  destruct E; [now destruct NE|]. destruct G as [_ G]. exact G.
Qed.

Lemma bv_random_length x bit : length (bv_random x bit) = length x.
Proof. unfold bv_random. now rewrite map_length, seq_length. Qed.

Lemma random_visited n num bits b st : visited (random_search_machine n num bits) b st ->
  length (fst (rn_solution st)) = n /\ length (rn_candidate st) = n.
Proof.
  induction 1 as [|b st V [I1 I2]|st a V [I1 I2]|b st V I]; cbn.
  - now rewrite repeat_length.
  - now rewrite bv_random_length.
  - unfold update_pair. destruct a as [[v|]|e|]; destruct (rn_calls st =? 0); cbn; rewrite ?bv_random_length; auto.
    destruct (dgt v _); cbn; rewrite ?bv_random_length; auto.
  - exact I.
Qed.

Lemma random_fine n num bits : honest (random_search_machine n num bits) /\ works (random_search_machine n num bits) n /\ evaluates (random_search_machine n num bits).
Proof.
  split; [|split].
  - intros st e. cbn. destruct (rn_calls st =? 0); [discriminate|]. destruct ((0 <? num)%Z && _); discriminate.
  - intros st V. destruct (random_visited n num bits true st V) as [I1 I2]. split; [|exact I1]. intros q. cbn.
    destruct (rn_calls st =? 0); [intros [= <-]; auto|]. destruct ((0 <? num)%Z && _); [discriminate|]. intros [= <-]. cbn. now rewrite bv_random_length.
  - intros st q _. cbn. destruct (rn_calls st =? 0); [intros [= <-]; eauto|]. destruct ((0 <? num)%Z && _); [discriminate|]. intros [= <-]. eauto.
Qed.

Lemma random_keeps_best n num bits : keeps_best (random_search_machine n num bits).
Proof.
  intros E st H NE HF.
  assert (G : best_so_far (rn_calls st =? 0) E (rn_solution st)).
  { clear NE. induction H as [|E st H IH En|E st x v H IH En|E st q e H IH En].
    - reflexivity.
    - cbn in En. destruct (rn_calls st =? 0); [discriminate|]. destruct ((0 <? num)%Z && _); discriminate.
    - apply Forall_app in HF as [HF HF2]. inversion HF2; subst. specialize (IH HF). cbn in En |- *. destruct (rn_calls st =? 0) eqn:E0.
      + injection En as <-. cbn [rn_calls rn_solution Nat.eqb]. destruct E; [now apply best_so_far_set|]. destruct IH; discriminate.
      + destruct ((0 <? num)%Z && _); [discriminate|]. injection En as <-. cbn [rn_calls rn_solution].
        replace (rn_calls st + 1 =? 0) with false by (symmetry; apply Nat.eqb_neq; lia).
        apply (best_so_far_update false); auto. intros ->. discriminate.
    - specialize (IH HF). cbn. destruct (rn_calls st =? 0) eqn:E0; cbn; rewrite ?E0; exact IH. }
  destruct E; [now destruct NE|]. destruct G as [_ G]. exact G.
Qed.

(** * The run of the complete search *)

Lemma valued_app f a b : valued f (a ++ b) = valued f a ++ valued f b.
Proof. apply map_app. Qed.
Lemma valued_fst f a : map fst (valued f a) = a.
Proof. unfold valued. rewrite map_map. apply map_id. Qed.
Lemma valued_length f a : length (valued f a) = length a.
Proof. apply map_length. Qed.

Lemma NoDup_prefix {A} (a b : list A) : NoDup (a ++ b) -> NoDup a.
Proof. revert a. induction b as [|x b IH] using rev_ind; intros a; [now rewrite app_nil_r|]. rewrite app_assoc, NoDup_snoc. intros [H _]. auto. Qed.

Section Complete.
  Context {S : Type} (o : fobj S) (n : nat) (f : bv -> dbl) (inv : S -> Prop).
  Context (Hinv : forall t x, inv t -> length x = n -> snd (o t (REval x)) = Ok (RValue (f x)) /\ inv (fst (o t (REval x)))).
  Context (HN : numbers n f) (mid : middle) (target : option dbl) (Hb : forall b, budget_of mid = Some b -> (0 < b)%Z).
  Local Notation C := (controlled_obj mid target o).
  Local Notation A := (complete_search_machine n).
  Local Notation kn := (known n f inv mid).
  Local Notation below := (below_target target).
  Definition within (l : list (bv * dbl)) : Prop := match budget_of mid with Some b => (Z.of_nat (length l) <= b)%Z | None => True end.

  Lemma complete_play Lr : forall st cs l fuel,
    enum (fun s => Ok (hc_has_next s)) hc_next (fun _ _ => True) (co_iterator st) Lr -> NoDup (map fst l ++ Lr) -> (forall x, In x Lr -> length x = n) ->
    kn l (snd cs) -> below l -> within l -> best_so_far (co_first st) l (co_solution st) -> length l + length Lr <> 0 -> length Lr < fuel ->
    exists k st' cs' r, let l' := l ++ valued f (firstn k Lr) in k <= length Lr /\ play C A fuel st cs = Some (st', cs', r) /\ kn l' (snd cs') /\ within l' /\
      ((below l' /\ l' <> [] /\ best_so_far (co_first st') l' (co_solution st') /\
        ((r = Ok tt /\ k = length Lr) \/ (r = Throw LastEvaluation /\ k < length Lr /\ budget_of mid = Some (Z.of_nat (length l'))))) \/
       (r = Throw TargetReached /\ exists l0 x t, l' = l0 ++ [(x, f x)] /\ below l0 /\ target = Some t /\ dge (f x) t = true /\ fst cs' = Some (x, f x))).
  Proof.
    induction Lr as [|x Lr IH]; intros st cs l fuel HE ND HL HK HB HW BS NE HF; (destruct fuel as [|fuel]; [lia|]).
    - inversion HE as [s0 H|]; subst. apply Ok_inj in H. cbn in NE. assert (l <> []) by (intros ->; cbn in NE; lia).
      assert (Ff : co_first st = false) by (destruct l; [congruence|apply BS]).
      exists 0, st, cs, (Ok tt). cbv zeta. cbn [valued firstn map length]. rewrite app_nil_r. split; [lia|].
      split; [|split; [exact HK|]; split; [exact HW|]; left; auto 10].
      cbn [play complete_search_machine ma_next]. now rewrite H, Ff.
    - inversion HE as [|s0 x0 it' L' H N _ E' E1 E2]; subst. apply Ok_inj in H. destruct cs as [tr ms]. cbn [snd] in HK.
      assert (Hx : length x = n) by (apply HL; now left).
      assert (NX : NoDup (map fst l ++ [x])). { replace (map fst l ++ x :: Lr) with ((map fst l ++ [x]) ++ Lr) in ND by now rewrite <- app_assoc. exact (NoDup_prefix _ _ ND). }
      assert (En : ma_next A st = MCall (REval x)) by (cbn; now rewrite H, N).
      assert (NL : Forall (fun p => is_nan (snd p) = false) l).
      { destruct HK as [T _]. apply Forall_forall. intros [z v] Hz. now destruct (tracked_value n f inv HN _ l _ z v T Hz) as (_ & _ & ?). }
      destruct (controlled_answered o n f inv Hinv HN mid target l tr ms x HK Hx) as [(K1 & K2 & K3)|(K1 & K2 & K3)].
      + specialize (K2 NX). set (p := C (tr, ms) (REval x)) in *.
        assert (W' : within (l ++ [(x, f x)])). { unfold within. rewrite app_length. destruct (budget_of mid); auto. cbn. lia. }
        assert (R : (exists t, target = Some t /\ dge (f x) t = true /\ snd p = Throw TargetReached /\ fst (fst p) = Some (x, f x)) \/
                    (snd p = Ok (RValue (f x)) /\ below [(x, f x)])).
        { destruct target as [t|]; [|right; split; [apply K3|intros t; discriminate]].
          destruct (dge (f x) t) eqn:D; [left; exists t; tauto|]. right. split; [apply K3|]. intros t' [= <-]. auto. }
        destruct R as [(t & Et & D & R1 & R2)|[R1 R2]].
        * exists 1, (ma_after A st (Throw TargetReached)), (fst p), (Throw TargetReached). cbv zeta. cbn [valued firstn map length]. split; [lia|].
          split; [|split; [exact K1|]; split; [exact W'|]; right; split; [reflexivity|]; exists l, x, t; auto].
          cbn [play]. rewrite En. fold p. destruct p as [cs' a]. cbn [fst snd] in *. now subst a.
        * set (st' := ma_after A st (Ok (RValue (f x)))).
          assert (I' : co_iterator st' = it') by (unfold st'; cbn; now rewrite N).
          destruct (IH st' (fst p) (l ++ [(x, f x)]) fuel) as (k & st2 & cs2 & r & G1 & G2 & G3 & G4 & G5).
          { now rewrite I'. }
          { rewrite map_app. cbn [map fst]. now rewrite <- app_assoc. }
          { intros y Hy. apply HL. now right. }
          { exact K1. }
          { intros t Et. apply Forall_app. split; [now apply HB|now apply R2]. }
          { exact W'. }
          { apply (complete_step_best n l st x (f x)); auto. }
          { rewrite app_length. cbn. lia. }
          { cbn in HF. lia. }
          assert (Ek : (l ++ [(x, f x)]) ++ valued f (firstn k Lr) = l ++ valued f (firstn (Datatypes.S k) (x :: Lr))) by (cbn; now rewrite <- app_assoc).
          cbv zeta in *. exists (Datatypes.S k), st2, cs2, r. rewrite <- Ek. cbn [length]. split; [lia|]. split; [|split; [exact G3|]; split; [exact G4|]].
          -- cbn [play]. rewrite En. fold p.
             destruct p as [cs' a]. cbn [fst snd] in *. subst a. exact G2.
          -- destruct G5 as [(G5 & G6 & G7 & [[G8 G9]|(G8 & G9 & G10)])|G5]; [left..|right; exact G5].
             ++ repeat split; auto.
             ++ split; [exact G5|]. split; [exact G6|]. split; [exact G7|]. right. repeat split; auto. lia.
      + set (p := C (tr, ms) (REval x)) in *. destruct (budget_of mid) as [b|] eqn:Eb; [|destruct K3]. destruct K3 as [_ K3]. specialize (K3 NX).
        exists 0, (ma_after A st (Throw LastEvaluation)), (fst p), (Throw LastEvaluation). cbv zeta. cbn [valued firstn map length]. rewrite app_nil_r.
        split; [lia|]. split; [|split; [exact K2|]; split; [exact HW|]; left].
        * cbn [play]. rewrite En. fold p. destruct p as [cs' a]. cbn [fst snd] in *. now subst a.
        * split; [exact HB|]. split; [intros ->; specialize (Hb b eq_refl); cbn in K3; lia|].
          split; [cbn; rewrite N; exact BS|]. right. split; [reflexivity|]. split; [lia|]. rewrite <- K3. reflexivity.
  Qed.
End Complete.

Lemma budget_of_middle co : budget_of (middle_of co) = if (0 <? co_budget co)%Z then Some (co_budget co) else None.
Proof. unfold middle_of. destruct (0 <? co_budget co)%Z, (co_cache co), (co_cache_budget co); reflexivity. Qed.

Theorem complete_search_run ap co m F mid target i n f : 0 < i ->
  optimizes ap -> ap_restart ap = false -> make_function_controller co F = Ok (mid, target) ->
  map_fits m i n -> kind_known m -> fp_size (f_props F) = i -> total (f_obj F) (f_init F) i f -> numbers i f ->
  exists L, counting_order i L /\
  forall fuel, 2 ^ i < fuel ->
  exists r x success, program ap co (Ok (Some (m, F))) make_complete_search fuel = Some (report ap co m i r x success) /\
    rs_success r = (match co_stop_on_maximum co, co_target co with false, None => None | _, _ => Some success end) /\
    search_ends f target L (allowed co (2 ^ i)) r x success.
Proof.
  intros Hi HO HR HC HM HK HF HT HN. exists (all_bvs i). destruct (all_bvs_spec i) as (A1 & A2 & A3 & A4). split; [repeat split; auto; apply A3|].
  intros fuel Hfu.
  destruct (total_inv _ _ _ _ HT) as (inv & I0 & Hinv).
  assert (HFa : make_complete_search (fp_size (f_props F)) = Ok (complete_search_machine i)).
  { unfold make_complete_search. rewrite HF. destruct (Nat.ltb_spec 0 i); [reflexivity|lia]. }
  assert (EM : budget_of mid = if (0 <? co_budget co)%Z then Some (co_budget co) else None).
  { unfold make_function_controller in HC. destruct (target_of co (f_props F)); try discriminate. injection HC as <- _. apply budget_of_middle. }
  assert (Hb : forall b, budget_of mid = Some b -> (0 < b)%Z). { rewrite EM. destruct (Z.ltb_spec 0 (co_budget co)); intros b [= <-]; lia. }
  assert (K0 : known i f inv mid [] (snd (controlled_init mid i (f_init F)))).
  { apply known_init; auto. intros b Eb. specialize (Hb b Eb). lia. }
  set (A := complete_search_machine i) in *.
  assert (HE : enum (fun s => Ok (hc_has_next s)) hc_next (fun _ _ => True) (co_iterator (ma_begin A (ma_init A))) (all_bvs i)).
  { cbn. rewrite repeat_length. apply (drain_enum _ _ _ (fun _ => True) (S (2 ^ i))) with (s' := mk_hc (bits_of i (2 ^ i - 1)) false); auto.
    apply (hypercube_drain i (hc_make i) (S (2 ^ i))); auto; try lia. cbn. apply repeat_length. }
  pose proof (Nat.pow_nonzero 2 i ltac:(lia)) as NZ.
  destruct (complete_play (f_obj F) i f inv Hinv HN mid target Hb (all_bvs i) (ma_begin A (ma_init A)) (controlled_init mid i (f_init F)) [] fuel)
    as (k & st & cs & q & P1 & P2 & P3 & P4 & P5); auto.
  { intros x Hx. now apply A3. }
  { intros t _. constructor. }
  { unfold within. destruct (budget_of mid) eqn:Eb; auto. specialize (Hb _ eq_refl). cbn. lia. }
  { cbn. reflexivity. }
  { rewrite A1. cbn. lia. }
  { now rewrite A1. }
  cbn [app] in P3, P4, P5. fold A in P2, P3, P4, P5.
  pose proof (program_run ap co m F make_complete_search A mid target HO HC HFa fuel) as PR. unfold run_by in PR. rewrite HR, HF in PR.
  rewrite P2 in PR.
  set (l := valued f (firstn k (all_bvs i))) in *.
  assert (Ll : length l = k) by (unfold l; rewrite valued_length, firstn_length; lia).
  assert (ND : NoDup (map fst l)) by (unfold l; rewrite valued_fst; now apply (NoDup_prefix _ (skipn k (all_bvs i))); rewrite firstn_skipn).
  pose proof (proj1 P3) as T. pose proof T as (_ & HFl & _ & T2 & T3). specialize (T2 (or_intror ND)).
  assert (NL : Forall (fun p => is_nan (snd p) = false) l).
  { apply Forall_forall. intros [z v] Hz. now destruct (tracked_value i f inv HN _ l _ z v T Hz) as (_ & _ & ?). }
  rewrite Forall_forall in NL, HFl.
  destruct P5 as [(Q1 & Q2 & Q3 & Q4)|(Q1 & l0 & x & t & Q2 & Q3 & Q4 & Q5 & Q6)].
  - set (x := fst (co_solution st)).
    assert (BX : exists k', best_record l k' x (f x)).
    { destruct l; [now destruct Q2|]. destruct Q3 as [_ [k' Q3]]. exists k'. fold x in Q3. destruct (HFl _ (best_record_In _ _ _ _ Q3)) as [_ K]. cbn in K. now rewrite <- K. }
    destruct BX as [k' BX].
    assert (Lx : length x = i) by (destruct (HFl _ (best_record_In _ _ _ _ BX)); auto).
    exists (final_results co mid cs false), x, false.
    assert (CO : concludes A st (fst cs) q x false) by (destruct Q4 as [[-> _]|[-> _]]; constructor).
    split; [rewrite PR; f_equal; apply (end_spec ap co m F mid target i n HC HM HK HF A st cs q x false CO); [discriminate|exact Lx]|].
    split; [unfold final_results; destruct (co_stop_on_maximum co), (co_target co); reflexivity|].
    assert (EB : allowed co (2 ^ i) = k).
    { unfold allowed. unfold within in P4. rewrite EM in P4, Q4. destruct (Z.ltb_spec 0 (co_budget co)).
      - destruct Q4 as [[_ Q4]|(_ & Q4 & Q5)]; [rewrite Ll in P4; lia|injection Q5 as Q5; lia].
      - destruct Q4 as [[_ Q4]|(_ & Q4 & Q5)]; [lia|discriminate]. }
    rewrite EB. destruct (T3 Q2) as (_ & k2 & z & v & B1 & B2 & B3).
    destruct (best_record_unique l k2 z v k' x (f x) (NL _ (best_record_In _ _ _ _ B1)) (NL _ (best_record_In _ _ _ _ BX)) B1 BX) as (-> & -> & ->).
    apply missed with (k := k').
    + intros t y Et Hy. specialize (Q1 t Et). rewrite Forall_forall in Q1. apply (Q1 (y, f y)). unfold l, valued. apply in_map_iff. eauto.
    + exact BX.
    + exact B2.
    + exact (B3 (or_intror ND)).
    + cbn [final_results rs_total]. rewrite T2. exact Ll.
  - assert (Ne : l <> []) by (rewrite Q2; now destruct l0).
    assert (Hx : In (x, f x) l) by (rewrite Q2; apply in_or_app; right; now left).
    assert (Lx : length x = i) by (now destruct (HFl _ Hx)).
    exists (final_results co mid cs true), x, true.
    assert (CO : concludes A st (fst cs) q x true) by (subst q; econstructor; exact Q6).
    split; [rewrite PR; f_equal; apply (end_spec ap co m F mid target i n HC HM HK HF A st cs q x true CO); [rewrite Q4; discriminate|exact Lx]|].
    split; [unfold final_results; destruct (co_stop_on_maximum co), (co_target co); reflexivity|].
    assert (L0 : k = length l0 + 1) by (rewrite <- Ll, Q2, app_length; reflexivity).
    assert (NX : nth_error l (length l0) = Some (x, f x)) by (rewrite Q2, nth_error_app2, Nat.sub_diag; [reflexivity|lia]).
    assert (BX : best_record l (length l0) x (f x)).
    { specialize (Q3 t Q4). rewrite Forall_forall in Q3.
      assert (BL : forall j y w, j < length l0 -> nth_error l j = Some (y, w) -> dlt w (f x) = true).
      { intros j y w Hj Hy. rewrite Q2, nth_error_app1 in Hy by auto. apply nth_error_In in Hy. specialize (Q3 _ Hy). cbn in Q3.
        assert (Hw : In (y, w) l) by (rewrite Q2; apply in_or_app; auto). pose proof (NL _ Hw) as N1. pose proof (NL _ Hx) as N2. cbn in N1, N2.
        destruct (dle_nan _ _ Q5) as [Nt _]. unfold dge in Q3. exact (dlt_dle_trans _ _ _ (not_le_lt _ _ Nt N1 Q3) Q5). }
      split; [exact NX|]. split.
      - intros j y w Hy. right. destruct (Nat.lt_ge_cases j (length l0)) as [Hj|Hj]; [exact (dlt_le _ _ (BL j y w Hj Hy))|].
        assert (j = length l0) as -> by (assert (j < length l) by (apply nth_error_Some; congruence); lia). rewrite NX in Hy. injection Hy as <- <-.
        apply dle_refl. exact (NL _ Hx).
      - intros j y w Hj Hy. right. eauto. }
    destruct (T3 Ne) as (_ & k2 & z & v & B1 & B2 & B3).
    destruct (best_record_unique l k2 z v (length l0) x (f x) (NL _ (best_record_In _ _ _ _ B1)) (NL _ Hx) B1 BX) as (-> & -> & ->).
    apply reached with (t := t) (k := length l0); auto.
    + unfold allowed. unfold within in P4. rewrite EM in P4. destruct (Z.ltb_spec 0 (co_budget co)); lia.
    + assert (K : nth_error (map fst l) (length l0) = Some x) by (rewrite nth_error_map, NX; reflexivity). unfold l in K. rewrite valued_fst in K.
      rewrite <- (firstn_skipn k (all_bvs i)). rewrite nth_error_app1; [exact K|]. rewrite firstn_length. lia.
    + intros y Hy. specialize (Q3 t Q4). rewrite Forall_forall in Q3. apply (Q3 (y, f y)).
      assert (El0 : l0 = valued f (firstn (length l0) (all_bvs i))).
      { transitivity (firstn (length l0) l); [rewrite Q2, firstn_app, firstn_all, Nat.sub_diag; cbn; now rewrite app_nil_r|].
        unfold l, valued. rewrite firstn_map, firstn_firstn. do 2 f_equal. lia. }
      rewrite El0. unfold valued. apply in_map_iff. eauto.
    + cbn [final_results rs_total]. rewrite T2, Ll. exact L0.
Qed.

(** * The run of the random search *)

Section Random.
  Context {S : Type} (o : fobj S) (n : nat) (f : bv -> dbl) (inv : S -> Prop).
  Context (Hinv : forall t x, inv t -> length x = n -> snd (o t (REval x)) = Ok (RValue (f x)) /\ inv (fst (o t (REval x)))).
  Context (HN : numbers n f) (mid : middle) (HB : budget_of mid = None) (num : Z) (bits : nat -> nat -> bool).
  Local Notation C := (controlled_obj mid None o).
  Local Notation A := (random_search_machine n num bits).
  Local Notation kn := (known n f inv mid).
  Local Notation L := (drawn_vectors bits n).
  Local Notation vec j := (map (bits j) (seq 0 n)).

  Lemma drawn_snoc m : L (m + 1) = L m ++ [vec m].
  Proof. unfold drawn_vectors. now rewrite Nat.add_1_r, seq_S, map_app. Qed.
  Lemma drawn_length m : length (L m) = m.
  Proof. unfold drawn_vectors. now rewrite map_length, seq_length. Qed.

  (** After [k] evaluations *)
  Definition random_at (k : nat) (st : random_state) (cs : option (bv * dbl) * middle_state mid (improvement * (nat * S))) : Prop :=
    kn (valued f (L k)) (snd cs) /\ rn_calls st = k /\ rn_draws st = Nat.max k 1 /\ length (rn_candidate st) = n /\
    (k = 0 -> fst (rn_solution st) = vec 0) /\ best_so_far (k =? 0) (valued f (L k)) (rn_solution st).

  Lemma random_step k st cs : random_at k st cs -> (k = 0 \/ (num <= 0)%Z \/ (Z.of_nat k <= num)%Z) ->
    exists st' cs', (forall fuel, play C A (Datatypes.S fuel) st cs = play C A fuel st' cs') /\ random_at (k + 1) st' cs'.
  Proof.
    intros (HK & Hc & Hd & Hl & H0 & HS) Hk. destruct cs as [tr ms]. cbn [snd] in HK.
    assert (Lv : forall j, length (vec j) = n) by (intros; now rewrite map_length, seq_length).
    assert (En : ma_next A st = MCall (REval (vec k))).
    { cbn. rewrite Hc. destruct (Nat.eqb_spec k 0) as [->|K]; [now rewrite H0|].
      replace ((0 <? num) && (num <=? Z.of_nat (k - 1)))%Z with false.
      - unfold bv_random. rewrite Hl, Hd. do 5 f_equal. lia.
      - symmetry. apply andb_false_iff. destruct Hk as [Hk|[Hk|Hk]]; [lia|left; apply Z.ltb_ge; lia|right; apply Z.leb_gt; lia]. }
    assert (NL : Forall (fun p => is_nan (snd p) = false) (valued f (L k))).
    { destruct HK as [T _]. apply Forall_forall. intros [z v] Hz. now destruct (tracked_value n f inv HN _ _ _ z v T Hz) as (_ & _ & ?). }
    destruct (controlled_answered o n f inv Hinv HN mid None (valued f (L k)) tr ms (vec k) HK (Lv k)) as [(K1 & _ & K3 & _)|(_ & _ & K)];
      [|rewrite HB in K; destruct K].
    exists (ma_after A st (Ok (RValue (f (vec k))))), (fst (C (tr, ms) (REval (vec k)))). split.
    - intros fuel. cbn [play]. rewrite En. destruct (C (tr, ms) (REval (vec k))) as [cs' a]. cbn [fst snd] in *. now subst a.
    - unfold random_at. rewrite drawn_snoc, valued_app. split; [exact K1|]. clear K1 K3. cbn [ma_after random_search_machine]. rewrite Hc.
      replace (k + 1 =? 0) with false by (symmetry; apply Nat.eqb_neq; lia). destruct (Nat.eqb_spec k 0) as [->|K].
      + cbn [rn_calls rn_draws rn_candidate rn_solution fst]. repeat split; auto; try lia. rewrite H0 by reflexivity. exists 0. apply best_record_one. apply HN, Lv.
      + cbn [rn_calls rn_draws rn_candidate rn_solution]. rewrite bv_random_length. split; [lia|]. split; [lia|]. split; [exact Hl|]. split; [lia|].
        replace (bv_random (rn_candidate st) (bits (rn_draws st))) with (vec k) by (unfold bv_random; rewrite Hl, Hd; do 2 f_equal; lia).
        apply (best_so_far_update false); auto. intros E. apply (f_equal (@length _)) in E. rewrite valued_length, drawn_length in E. cbn in E. lia.
  Qed.

  Lemma random_play j : forall k st cs, random_at k st cs -> ((num <= 0)%Z \/ (Z.of_nat (k + j) <= num + 1)%Z) ->
    exists st' cs', (forall fuel, play C A (j + fuel) st cs = play C A fuel st' cs') /\ random_at (k + j) st' cs'.
  Proof.
    induction j as [|j IH]; intros k st cs R Hk.
    - exists st, cs. rewrite Nat.add_0_r. auto.
    - destruct (random_step k st cs R) as (st1 & cs1 & P1 & R1); [lia|]. destruct (IH (k + 1) st1 cs1 R1) as (st2 & cs2 & P2 & R2); [lia|].
      exists st2, cs2. split; [|now replace (k + Datatypes.S j) with (k + 1 + j) by lia]. intros fuel. cbn [Nat.add]. now rewrite P1.
  Qed.
End Random.

Theorem random_search_run ap co m F mid num bits i n f : 0 < i ->
  optimizes ap -> ap_restart ap = false -> make_function_controller co F = Ok (mid, None) -> (co_budget co <= 0)%Z ->
  map_fits m i n -> kind_known m -> fp_size (f_props F) = i -> total (f_obj F) (f_init F) i f -> numbers i f ->
  ((num <= 0)%Z -> forall fuel, program ap co (Ok (Some (m, F))) (make_random_search num bits) fuel = None) /\
  ((0 < num)%Z -> forall fuel, Z.to_nat num + 1 < fuel ->
     exists r k x, program ap co (Ok (Some (m, F))) (make_random_search num bits) fuel = Some (report ap co m i r x false) /\
       best_record (valued f (drawn_vectors bits i (Z.to_nat num + 1))) k x (f x) /\
       rs_value r = Some (f x) /\ rs_total r <= Z.to_nat num + 1 /\
       (co_cache co = false -> rs_total r = Z.to_nat num + 1 /\ rs_num r = k + 1)).
Proof.
  intros Hi HO HR HC HBu HM HK HF HT HN.
  destruct (total_inv _ _ _ _ HT) as (inv & I0 & Hinv).
  assert (HFa : make_random_search num bits (fp_size (f_props F)) = Ok (random_search_machine i num bits)).
  { unfold make_random_search. rewrite HF. destruct (Nat.ltb_spec 0 i); [reflexivity|lia]. }
  assert (EMid : mid = middle_of co).
  { unfold make_function_controller in HC. destruct (target_of co (f_props F)); try discriminate. now injection HC as <- _. }
  assert (EM : budget_of mid = None).
  { rewrite EMid, budget_of_middle. destruct (Z.ltb_spec 0 (co_budget co)); [lia|reflexivity]. }
  assert (K0 : known i f inv mid [] (snd (controlled_init mid i (f_init F)))).
  { apply known_init; auto. rewrite EM. discriminate. }
  set (A := random_search_machine i num bits) in *.
  assert (R0 : random_at (S := f_state F) i f inv mid bits 0 (ma_begin A (ma_init A)) (controlled_init mid i (f_init F))).
  { split; [exact K0|]. split; [reflexivity|]. split; [reflexivity|]. split; [apply repeat_length|]. split; [|reflexivity].
    intros _. cbn. unfold bv_random. now rewrite repeat_length. }
  assert (PR : forall fuel, program ap co (Ok (Some (m, F))) (make_random_search num bits) fuel =
    match play (controlled_obj mid None (f_obj F)) A fuel (ma_begin A (ma_init A)) (controlled_init mid i (f_init F)) with
    | None => None | Some (st, cs, r) => Some (end_of_program (end_of_run ap co m F mid None A st cs r)) end).
  { intros fuel. pose proof (program_run ap co m F (make_random_search num bits) A mid None HO HC HFa fuel) as PR. unfold run_by in PR. now rewrite HR, HF in PR. }
  split; intros Hn fuel.
  - rewrite PR. destruct (random_play (f_obj F) i f inv Hinv HN mid EM num bits fuel 0 _ _ R0 (or_introl Hn)) as (st' & cs' & P & _).
    specialize (P 0). rewrite Nat.add_0_r in P. fold A in P. rewrite P. reflexivity.
  - intros Hf. rewrite PR. destruct (random_play (f_obj F) i f inv Hinv HN mid EM num bits (Z.to_nat num + 1) 0 _ _ R0) as (st & cs & P & R); [lia|].
    replace fuel with (Z.to_nat num + 1 + (fuel - (Z.to_nat num + 1))) by lia. fold A in P. rewrite P. cbn [Nat.add] in R.
    destruct R as (R1 & R2 & _ & _ & _ & R6). set (N := Z.to_nat num + 1) in *. set (l := valued f (drawn_vectors bits i N)) in *.
    destruct (fuel - N) as [|fu] eqn:Ef; [lia|]. cbn [play].
    assert (En : ma_next A st = MReturn).
    { cbn. rewrite R2. replace (N =? 0) with false by (symmetry; apply Nat.eqb_neq; lia).
      replace ((0 <? num) && (num <=? Z.of_nat (N - 1)))%Z with true; [reflexivity|]. symmetry. apply andb_true_iff. split; [apply Z.ltb_lt; lia|apply Z.leb_le; lia]. }
    rewrite En.
    assert (Ll : length l = N) by (unfold l; rewrite valued_length; apply drawn_length).
    assert (Ne : l <> []) by (intros E; rewrite E in Ll; cbn in Ll; lia).
    pose proof (proj1 R1) as T. pose proof T as (_ & HFl & T1 & T2 & T3). rewrite Forall_forall in HFl.
    assert (BX : exists k', best_record l k' (fst (rn_solution st)) (snd (rn_solution st))) by (destruct l; [now destruct Ne|]; apply R6).
    destruct BX as [k' BX]. pose proof (best_record_In _ _ _ _ BX) as HI. destruct (HFl _ HI) as [Lx Vx]. cbn [fst snd] in Lx, Vx. rewrite Vx in BX, HI.
    destruct (T3 Ne) as (_ & k2 & z & v & B1 & B2 & B3).
    destruct (tracked_value i f inv HN _ _ _ z v T (best_record_In _ _ _ _ B1)) as (_ & _ & N1).
    destruct (best_record_unique l k2 z v k' _ _ N1 (HN _ Lx) B1 BX) as (-> & -> & ->).
    exists (final_results co mid cs false), k', (fst (rn_solution st)). split.
    + f_equal. apply (end_spec ap co m F mid None i n HC HM HK HF A st cs (Ok tt)); [exact (concludes_return A st (fst cs))|discriminate|exact Lx].
    + split; [exact BX|]. split; [exact B2|]. split; [cbn [final_results rs_total]; lia|]. intros Hca.
      assert (Ec : negb (has_cache mid) = true). { rewrite EMid. unfold middle_of. rewrite Hca. destruct (Z.ltb_spec 0 (co_budget co)); reflexivity. }
      cbn [final_results rs_total rs_num]. rewrite (T2 (or_introl Ec)), (B3 (or_introl Ec)), Ll. auto.
Qed.
