(** Proofs about the basic algorithms. *)

From Verif Require Import Base BaseLemmas BitVector_Model BitVector_Spec GF2 BitVector_Proofs Iterator_Model Iterator_Proofs Neighborhood_Model Neighborhood_Spec Neighborhood_Proofs Algorithm_Model Algorithm_Spec.

(** * Weakest preconditions *)

Definition wp {S A} (m : act S A) (Q : A -> S -> Prop) (E : option exn -> S -> Prop) (s : S) : Prop :=
  match m s with
  | (Ret a, s') => Q a s'
  | (Bad, _) => False
  | (Exc e, s') => E (Some e) s'
  | (Pending, s') => E None s'
  end.

Lemma wp_bind {S A B} (m : act S A) (k : A -> act S B) Q E s :
  wp m (fun a s' => wp (k a) Q E s') E s -> wp (abind m k) Q E s.
Proof. unfold wp, abind. destruct (m s) as [[a|e| |] s']; auto. Qed.

Lemma wp_mono {S A} (m : act S A) (Q Q' : A -> S -> Prop) (E E' : option exn -> S -> Prop) s :
  wp m Q E s -> (forall a s', Q a s' -> Q' a s') -> (forall e s', E e s' -> E' e s') -> wp m Q' E' s.
Proof. unfold wp. destruct (m s) as [[a|e| |] s']; auto. Qed.

Lemma wp_ret {S A} (a : A) (Q : A -> S -> Prop) E s : Q a s -> wp (aret a) Q E s.
Proof. auto. Qed.
Lemma wp_modify {S} (g : S -> S) (Q : unit -> S -> Prop) E s : Q tt (g s) -> wp (amodify g) Q E s.
Proof. auto. Qed.
Lemma wp_get {S A} (g : S -> A) (Q : A -> S -> Prop) E s : Q (g s) s -> wp (aget g) Q E s.
Proof. auto. Qed.
Lemma wp_assert {S} b (Q : unit -> S -> Prop) E s : b = true -> Q tt s -> wp (aassert b) Q E s.
Proof. now intros ->. Qed.
Lemma wp_evaluate {X} o x (Q : Z -> alg X -> Prop) (E : option exn -> alg X -> Prop) s :
  (forall e, o_stop o (length (a_trace s)) = Some e -> E (Some e) s) -> Q (o_value o x) (put_trace x s) -> wp (evaluate o x) Q E s.
Proof. intros H1 H2. unfold wp, evaluate. destruct (o_stop o (length (a_trace s))); auto. Qed.
Lemma wp_on_mem {X A} (g : X -> outcome (A * X)) a m (Q : A -> alg X -> Prop) E s :
  g (a_mem s) = Ok (a, m) -> Q a (put_mem m s) -> wp (on_mem g) Q E s.
Proof. intros H1 H2. unfold wp, on_mem. now rewrite H1. Qed.

Lemma wp_result {S A} (m : act S A) Q E s : wp m Q E s ->
  match m s with
  | (Ret a, s') => Q a s'
  | (Bad, _) => False
  | (Exc e, s') => E (Some e) s'
  | (Pending, s') => E None s'
  end.
Proof. auto. Qed.

(** * Best elements *)

Lemma first_best_nil {A} (f : A -> Z) r : ~ first_best_of f [] r.
Proof. intros (L1 & L2 & E & _). destruct L1; discriminate. Qed.

Lemma first_best_one {A} (f : A -> Z) r : first_best_of f [r] r.
Proof. exists [], []. repeat split; constructor. Qed.

Lemma first_best_better {A} (f : A -> Z) L r y : first_best_of f L r -> (f r < f y)%Z -> first_best_of f (L ++ [y]) y.
Proof.
  intros (L1 & L2 & -> & H1 & H2) H. exists (L1 ++ r :: L2), []. split; [reflexivity|]. split; [|constructor].
  apply Forall_app. split; [|constructor; auto].
  - eapply Forall_impl; [|apply H1]. cbn; intros; lia.
  - eapply Forall_impl; [|apply H2]. cbn; intros; lia.
Qed.

Lemma first_best_worse {A} (f : A -> Z) L r y : first_best_of f L r -> (f y <= f r)%Z -> first_best_of f (L ++ [y]) r.
Proof.
  intros (L1 & L2 & -> & H1 & H2) H. exists L1, (L2 ++ [y]). split; [now rewrite <- app_assoc|]. split; [assumption|].
  apply Forall_app. split; auto.
Qed.

Lemma first_best_max {A} (f : A -> Z) L r : first_best_of f L r -> In r L /\ forall y, In y L -> (f y <= f r)%Z.
Proof.
  intros (L1 & L2 & -> & H1 & H2). split; [apply in_elt|]. rewrite Forall_forall in *. intros y Hy. apply in_app_or in Hy.
  destruct Hy as [Hy|[<-|Hy]]; [specialize (H1 y Hy); lia|lia|auto].
Qed.

Section Best.
  Context {X : Type}.
  Variable o : objective.
  Notation f := (o_value o).
  Implicit Type s : alg X.

  Definition best s : Prop := first_best f (a_trace s) (a_sol s).

  (** Evaluating, then updating. *)
  Lemma update_best s x :
    best s -> wp (update_solution x (f x)) (fun _ s' => best s' /\ a_trace s' = a_trace s ++ [x] /\ a_last s' = a_last s /\ a_mem s' = a_mem s /\
      (snd (a_sol s) <= snd (a_sol s'))%Z /\ (f x <= snd (a_sol s'))%Z)
      (fun _ _ => False) (put_trace x s).
  Proof.
    intros [B V]. unfold wp, update_solution. cbn [put_trace a_sol]. destruct (Z.ltb_spec (snd (a_sol s)) (f x)) as [H|H].
    - cbn. repeat split; auto; try lia. cbn. apply first_best_better with (r := fst (a_sol s)); auto. lia.
    - cbn. repeat split; auto; try lia. cbn. apply first_best_worse; auto. lia.
  Qed.
End Best.

(** * Enumerations *)

Section Enum.
  Context {St : Type}.
  Variables (has_next : St -> outcome bool) (next : St -> outcome (bv * St)) (good : bv -> St -> Prop).
  Inductive enum : St -> list bv -> Prop :=
  | enum_nil s : has_next s = Ok false -> enum s []
  | enum_cons s x s' L : has_next s = Ok true -> next s = Ok (x, s') -> good x s' -> enum s' L -> enum s (x :: L).

  Lemma drain_enum (Inv : St -> Prop) fuel : (forall s x s', Inv s -> next s = Ok (x, s') -> Inv s' /\ good x s') ->
    forall s L s', Inv s -> drain has_next next fuel s = Ok (L, s', true) -> enum s L.
  Proof.
    intros G. induction fuel as [|fuel IH]; intros s L s' I E; [discriminate|]. cbn [drain] in E.
    destruct (has_next s) as [[|]|e|] eqn:H; try discriminate; cbn [bind] in E.
    - destruct (next s) as [[x s1]|e|] eqn:N; try discriminate. cbn [bind] in E.
      destruct (drain has_next next fuel s1) as [[[L' s2] b]|e|] eqn:D; try discriminate. cbn [bind] in E. apply Ok_inj in E. injection E as <- <- ->.
      destruct (G _ _ _ I N). econstructor; eauto.
    - apply Ok_inj in E. injection E as <- <-. now constructor.
  Qed.
End Enum.
Arguments enum {St}.

(** * Complete search *)

Lemma complete_loop_ok o fuel : forall it L s, enum (fun s => Ok (hc_has_next s)) hc_next (fun _ _ => True) it L -> length L < fuel -> best o s ->
  exists k, k <= length L /\ a_trace (snd (complete_loop o fuel it s)) = a_trace s ++ firstn k L /\ best o (snd (complete_loop o fuel it s)) /\
    match fst (complete_loop o fuel it s) with
    | Ret _ => k = length L /\ (forall j, length (a_trace s) <= j < length (a_trace s) + k -> o_stop o j = None)
    | Exc e => k < length L /\ o_stop o (length (a_trace s) + k) = Some e
    | _ => False
    end.
Proof.
  induction fuel as [|fuel IH]; intros it L s E F B; [lia|]. cbn [complete_loop]. inversion E as [s0 H|s0 x it' L' H N _ E']; subst.
  - apply Ok_inj in H. rewrite H. exists 0. cbn. rewrite app_nil_r. repeat split; auto; try apply B. intros; lia.
  - apply Ok_inj in H. rewrite H, N. unfold update_solution_eval, abind, evaluate.
    destruct (o_stop o (length (a_trace s))) as [e|] eqn:ST.
    + exists 0. cbn [fst snd firstn length]. rewrite app_nil_r, Nat.add_0_r. split; [lia|]. split; [reflexivity|]. split; [exact B|]. split; [lia|exact ST].
    + pose proof (update_best o s x B) as U. unfold wp in U.
      destruct (update_solution x (o_value o x) (put_trace x s)) as [[u|e| |] s1]; try contradiction. destruct U as (B1 & T1 & _).
      destruct (IH it' L' s1 E' ltac:(cbn in F; lia) B1) as (k & K1 & K2 & K3 & K4). exists (S k). rewrite K2, T1, <- app_assoc. cbn [length firstn app].
      rewrite T1, app_length in K4. cbn [length] in K4.
      split; [lia|]. split; [reflexivity|]. split; [exact K3|].
      destruct (fst (complete_loop o fuel it' s1)) as [|e| |]; try contradiction.
      * destruct K4 as [-> K4]. split; [reflexivity|]. intros j Hj. destruct (Nat.eq_dec j (length (a_trace s))) as [->|]; [assumption|]. apply K4. lia.
      * destruct K4 as [K4 K5]. split; [lia|]. now replace (length (a_trace s) + S k) with (length (a_trace s) + 1 + k) by lia.
Qed.

Theorem complete_search_exact o n fuel s : 0 < n -> 2 ^ n <= fuel -> alg_make n tt = Ok s ->
  exists L, NoDup L /\ (forall x, In x L <-> length x = n) /\ (forall k, k < 2 ^ n -> value_lsb (nth k L []) = N.of_nat k) /\
  exists k, k <= 2 ^ n /\ a_trace (snd (complete_search o n fuel s)) = firstn k L /\
    (0 < k -> first_best (o_value o) (firstn k L) (a_sol (snd (complete_search o n fuel s)))) /\
    match fst (complete_search o n fuel s) with
    | Ret _ => k = 2 ^ n
    | Exc e => k < 2 ^ n /\ o_stop o k = Some e
    | _ => False
    end.
Proof.
  intros Hn Hf E. unfold alg_make in E. apply Nat.ltb_lt in Hn as Hn'. rewrite Hn' in E. cbn [ensureb bind] in E. apply Ok_inj in E. subst s.
  destruct (all_bvs_spec n) as (A1 & A2 & A3 & A4). exists (all_bvs n). repeat (split; [assumption|]).
  assert (D : enum (fun s => Ok (hc_has_next s)) hc_next (fun _ _ => True) (hc_make n) (all_bvs n)).
  { apply (drain_enum _ _ _ (fun _ => True) (S (2 ^ n))) with (s' := mk_hc (bits_of n (2 ^ n - 1)) false); auto. apply (hypercube_drain n (hc_make n) (S (2 ^ n))); auto; try lia. cbn. apply repeat_length. }
  unfold complete_search. clear A2 A3 A4. remember (all_bvs n) as L eqn:EL. clear EL. pose proof (Nat.pow_nonzero 2 n ltac:(lia)) as NZ.
  destruct D as [s0 H|s0 x it' L' H N _ E'].
  - exfalso. cbn in A1. lia.
  - apply Ok_inj in H. rewrite H, N. unfold set_solution_eval, evaluate, abind, set_solution, amodify. cbn [a_trace length].
    destruct (o_stop o 0) as [e|] eqn:ST.
    + exists 0. cbn. repeat split; auto; lia.
    + set (s1 := put_sol _ _). assert (B : best o s1). { split; cbn; [apply first_best_one|reflexivity]. }
      pose proof A1 as LL. cbn [length] in LL.
      destruct (complete_loop_ok o fuel it' L' s1 E' ltac:(lia) B) as (k & K1 & K2 & K3 & K4). exists (S k).
      cbn [s1 put_sol put_trace a_trace app length] in K2, K4.
      split; [lia|]. split; [rewrite K2; reflexivity|].
      split; [intros _; unfold best in K3; rewrite K2 in K3; exact K3|].
      destruct (fst (complete_loop o fuel it' s1)) as [|e| |]; try contradiction.
      * destruct K4 as [-> _]. exact LL.
      * destruct K4 as [K4 K5]. split; [lia|exact K5].
Qed.

(** * The loop *)

Section Loop.
  Context {X : Type}.
  Implicit Type s : alg X.

  (** The loop keeps an invariant of its iterations. *)
  Lemma loop_from_wp (iterate : nat -> act (alg X) unit) (I : nat -> alg X -> Prop) (E : option exn -> alg X -> Prop) num fuel :
    (forall i s, I i s -> a_last s = false -> wp (iterate i) (fun _ s' => I (i + 1) s') E s) ->
    (forall i s, I i s -> E None s) ->
    forall i s, I i s -> wp (loop_from iterate num i fuel)
      (fun _ s' => exists k, I k s' /\ (a_last s' = true \/ (0 < num <= Z.of_nat k)%Z)) E s.
  Proof.
    intros HI HE. induction fuel as [|fuel IH]; intros i s H; cbn [loop_from].
    - unfold wp. eauto.
    - unfold wp. destruct ((0 <? num)%Z && (num <=? Z.of_nat i)%Z) eqn:G.
      + apply andb_true_iff in G as [G1 G2]. apply Z.ltb_lt in G1. apply Z.leb_le in G2. exists i. auto.
      + destruct (a_last s) eqn:LA; [exists i; auto|].
        change (wp (_ <~ iterate i ;; loop_from iterate num (i + 1) fuel)
          (fun _ s' => exists k, I k s' /\ (a_last s' = true \/ (0 < num <= Z.of_nat k)%Z)) E s).
        apply wp_bind. eapply wp_mono; [apply HI; eassumption| |]; auto.
  Qed.

  (** The same with a measure: the loop ends. *)
  Lemma loop_from_measure (iterate : nat -> act (alg X) unit) (I : nat -> alg X -> Prop) (mu : alg X -> nat) (E : option exn -> alg X -> Prop) num fuel :
    (forall i s, I i s -> a_last s = false -> wp (iterate i) (fun _ s' => I (i + 1) s' /\ (a_last s' = true \/ mu s' < mu s)) E s) ->
    forall i s, I i s -> mu s + 1 < fuel \/ (a_last s = true /\ 0 < fuel) -> wp (loop_from iterate num i fuel)
      (fun _ s' => exists k, I k s' /\ (a_last s' = true \/ (0 < num <= Z.of_nat k)%Z)) E s.
  Proof.
    intros HI. induction fuel as [|fuel IH]; intros i s H F; [lia|]; cbn [loop_from].
    unfold wp. destruct ((0 <? num)%Z && (num <=? Z.of_nat i)%Z) eqn:G.
    - apply andb_true_iff in G as [G1 G2]. apply Z.ltb_lt in G1. apply Z.leb_le in G2. exists i. auto.
    - destruct (a_last s) eqn:LA; [exists i; auto|].
      change (wp (_ <~ iterate i ;; loop_from iterate num (i + 1) fuel)
        (fun _ s' => exists k, I k s' /\ (a_last s' = true \/ (0 < num <= Z.of_nat k)%Z)) E s).
      destruct F as [F|[F _]]; [|discriminate].
      apply wp_bind. eapply wp_mono; [apply HI; eassumption| |auto]. cbn. intros _ s' [H1 H2]. apply IH; [assumption|]. destruct H2; [right; split; [assumption|lia]|left; lia].
  Qed.

  (** What a run of the loop does. *)
  Lemma loop_from_exact (iterate : nat -> act (alg X) unit) num fuel : forall i s r s', ((0 < num)%Z -> (Z.of_nat i <= num)%Z) ->
    loop_from iterate num i fuel s = (r, s') ->
    exists k sk, iterations iterate i k s = (Ret tt, sk) /\
      (forall j sj, j < k -> iterations iterate i j s = (Ret tt, sj) -> a_last sj = false) /\
      ((0 < num)%Z -> (Z.of_nat (i + k) <= num)%Z) /\
      match r with
      | Ret _ => s' = sk /\ (a_last sk = true \/ Z.of_nat (i + k) = num /\ (0 < num)%Z)
      | Exc e => a_last sk = false /\ ((0 < num)%Z -> (Z.of_nat (i + k) < num)%Z) /\ iterate (i + k) sk = (Exc e, s')
      | Bad => iterate (i + k) sk = (Bad, s')
      | Pending => k = fuel /\ s' = sk \/ iterate (i + k) sk = (Pending, s')
      end.
  Proof.
    induction fuel as [|fuel IH]; intros i s r s' HN E; cbn [loop_from] in E.
    - injection E as <- <-. exists 0, s. cbn [iterations]. rewrite Nat.add_0_r. repeat split; auto; lia.
    - destruct ((0 <? num)%Z && (num <=? Z.of_nat i)%Z) eqn:G.
      + injection E as <- <-. apply andb_true_iff in G as [G1 G2]. apply Z.ltb_lt in G1. apply Z.leb_le in G2. specialize (HN G1).
        exists 0, s. rewrite Nat.add_0_r. cbn [iterations]. repeat split; auto; try lia.
      + apply andb_false_iff in G. rewrite Z.ltb_ge, Z.leb_gt in G. destruct (a_last s) eqn:LA.
        * injection E as <- <-. exists 0, s. rewrite Nat.add_0_r. cbn [iterations]. repeat split; auto; lia.
        * unfold abind in E. destruct (iterate i s) as [[[]|e| |] s1] eqn:EI.
          2-4: injection E as <- <-; exists 0, s; rewrite Nat.add_0_r; cbn [iterations]; repeat split; auto; lia.
          destruct (IH (i + 1) s1 r s') as (k & sk & K1 & K2 & K3 & K4); [lia|exact E|].
          exists (S k), sk. cbn [iterations]. unfold abind. rewrite EI. replace (i + S k) with (i + 1 + k) by lia. split; [exact K1|]. split.
          { intros [|j] sj Hj Ej; cbn [iterations] in Ej; [injection Ej as <-; exact LA|]. unfold abind in Ej. rewrite EI in Ej. apply (K2 j sj); [lia|exact Ej]. }
          split; [exact K3|]. destruct r; auto. destruct K4 as [[K4 K5]|K4]; [left; split; [lia|assumption]|auto].
  Qed.

  Theorem loop_exact (init : act (alg X) unit) (iterate : nat -> act (alg X) unit) num fuel s r s' :
    loop init iterate num fuel s = (r, s') ->
    (forall u, fst (init s) <> Ret u) /\ init s = (r, s') \/
    exists s0 k sk, init s = (Ret tt, s0) /\ iterations iterate 0 k (put_last false s0) = (Ret tt, sk) /\
      (forall j sj, j < k -> iterations iterate 0 j (put_last false s0) = (Ret tt, sj) -> a_last sj = false) /\
      ((0 < num)%Z -> (Z.of_nat k <= num)%Z) /\
      match r with
      | Ret _ => s' = sk /\ (a_last sk = true \/ Z.of_nat k = num /\ (0 < num)%Z)
      | Exc e => a_last sk = false /\ ((0 < num)%Z -> (Z.of_nat k < num)%Z) /\ iterate k sk = (Exc e, s')
      | Bad => iterate k sk = (Bad, s')
      | Pending => k = fuel /\ s' = sk \/ iterate k sk = (Pending, s')
      end.
  Proof.
    intros E. unfold loop, abind, amodify in E. destruct (init s) as [[[]|e| |] s0] eqn:EI.
    2-4: injection E as <- <-; left; split; [discriminate|reflexivity].
    right. destruct (loop_from_exact iterate num fuel 0 (put_last false s0) r s') as (k & sk & K); [lia|exact E|]. exists s0, k, sk. cbn [Nat.add] in K. auto.
  Qed.
End Loop.

(** * Initialisation *)

Lemma length_bv_random x bit : length (bv_random x bit) = length x.
Proof. unfold bv_random. now rewrite map_length, seq_length. Qed.

Lemma start_wp {X} o n st (s : alg X) : start_sized n st -> a_trace s = [] -> length (fst (a_sol s)) = n ->
  wp (start_solution o st)
    (fun _ s' => best o s' /\ length (fst (a_sol s')) = n /\ a_trace s' = [fst (a_sol s')] /\ a_last s' = a_last s /\ a_mem s' = a_mem s)
    (fun e s' => e = o_stop o 0 /\ e <> None /\ a_trace s' = [] /\ a_mem s' = a_mem s /\ length (fst (a_sol s')) = n) s.
Proof.
  intros ST T L. destruct st as [bit|x]; cbn [start_solution] in *.
  - unfold random_solution, wp, abind, amodify, aget, evaluate. cbn. rewrite T. cbn. destruct (o_stop o 0) as [e|].
    + cbn. rewrite length_bv_random. repeat split; auto; discriminate.
    + cbn. rewrite length_bv_random. repeat split; auto; cbn; [rewrite T|]; try apply first_best_one; auto. now rewrite T.
  - unfold set_solution_eval, wp, abind, set_solution, amodify, evaluate. rewrite T. cbn. destruct (o_stop o 0) as [e|]; [repeat split; auto; discriminate|].
    cbn. rewrite T. repeat split; auto. cbn. rewrite T. apply first_best_one.
Qed.

(** * Restart *)

Lemma restart_from_ok runs num fuel : forall i s, 0 < i ->
  (forall j, j < i -> exists p, runs j = Ret p) ->
  first_best_of snd (map (fun j => match runs j with Ret p => p | _ => ([], 0%Z) end) (seq 0 i)) (a_sol s) ->
  let '(r, s') := restart_from runs num i fuel s in
  exists m, i <= m /\ (forall j, j < m -> exists p, runs j = Ret p) /\
    first_best_of snd (map (fun j => match runs j with Ret p => p | _ => ([], 0%Z) end) (seq 0 m)) (a_sol s') /\
    match r with
    | Ret _ => (0 < num <= Z.of_nat m)%Z
    | Exc e => runs m = Exc e
    | Bad => runs m = Bad
    | Pending => runs m = Pending \/ m = i + fuel
    end /\ ((0 < num)%Z -> Z.of_nat m <= Z.max num (Z.of_nat i))%Z.
Proof.
  induction fuel as [|fuel IH]; intros i s Hi HR HB; cbn [restart_from].
  - exists i. repeat split; auto; try lia.
  - destruct ((0 <? num)%Z && (num <=? Z.of_nat i)%Z) eqn:G.
    { apply andb_true_iff in G as [G1 G2]. apply Z.ltb_lt in G1. apply Z.leb_le in G2. exists i. repeat split; auto; lia. }
    assert (GN : (0 < num)%Z -> (Z.of_nat (i + 1) <= num)%Z).
    { intros P. apply andb_false_iff in G. rewrite Z.ltb_ge, Z.leb_gt in G. lia. }
    unfold abind, restart_iterate. destruct (runs i) as [p|e| |] eqn:ER; try (exists i; repeat split; auto; lia).
    destruct (Nat.eqb_spec i 0); [lia|].
    assert (U : exists s1, update_solution (fst p) (snd p) s = (Ret tt, s1) /\
      first_best_of snd (map (fun j => match runs j with Ret p => p | _ => ([], 0%Z) end) (seq 0 (i + 1))) (a_sol s1)).
    { rewrite seq_app, map_app. cbn [seq map Nat.add]. rewrite ER. unfold update_solution. destruct (Z.ltb_spec (snd (a_sol s)) (snd p)).
      - eexists. split; [reflexivity|]. cbn. rewrite <- surjective_pairing. eapply first_best_better; eauto.
      - eexists. split; [reflexivity|]. now apply first_best_worse. }
    destruct U as (s1 & -> & HB1).
    specialize (IH (i + 1) s1 ltac:(lia)).
    assert (HR' : forall j, j < i + 1 -> exists p, runs j = Ret p).
    { intros j Hj. destruct (Nat.eq_dec j i) as [->|]; [eauto|]. apply HR. lia. }
    specialize (IH HR' HB1). destruct (restart_from runs num (i + 1) fuel s1) as [r s']. destruct IH as (m & M1 & M2 & M3 & M4 & M5).
    exists m. repeat split; auto; try lia. destruct r; auto. destruct M4; [now left|right; lia].
Qed.

Theorem restart_exact runs num fuel s r s' : restart runs num fuel s = (r, s') -> 0 < fuel ->
  exists m, (forall j, j < m -> exists p, runs j = Ret p) /\
    (0 < m -> first_best_of snd (map (fun j => match runs j with Ret p => p | _ => ([], 0%Z) end) (seq 0 m)) (a_sol s')) /\
    (m = 0 -> a_sol s' = a_sol s) /\
    match r with
    | Ret _ => (0 < num)%Z /\ Z.of_nat m = num
    | Exc e => runs m = Exc e
    | Bad => runs m = Bad
    | Pending => runs m = Pending \/ m = fuel
    end.
Proof.
  intros E F. unfold restart in E. destruct fuel as [|fuel]; [lia|]. cbn [restart_from] in E.
  assert (G : (0 <? num)%Z && (num <=? Z.of_nat 0)%Z = false). { apply andb_false_iff. rewrite Z.ltb_ge, Z.leb_gt. lia. }
  rewrite G in E. unfold abind, restart_iterate in E. destruct (runs 0) as [p|e| |] eqn:ER.
  2-4: injection E as <- <-; exists 0; repeat split; auto; lia.
  cbn [Nat.eqb] in E. pose proof (restart_from_ok runs num fuel 1 (put_sol p s) ltac:(lia)) as R. change (0 + 1) with 1 in E.
  assert (H1 : forall j, j < 1 -> exists p, runs j = Ret p). { intros j Hj. assert (j = 0) as -> by lia. eauto. }
  specialize (R H1). cbn [seq map] in R. rewrite ER in R. cbn [put_sol a_sol] in R. specialize (R (first_best_one snd p)). rewrite E in R.
  destruct R as (m & M1 & M2 & M3 & M4 & M5). exists m. split; [assumption|]. split; [auto|]. split; [lia|].
  destruct r; auto; lia.
Qed.

Lemma reached_inv {X} (I : alg X -> Prop) (init : act (alg X) unit) iterate E E' s0 :
  wp init (fun _ s' => I (put_last false s')) E s0 -> (forall i s, I s -> wp (iterate i) (fun _ s' => I s') E' s) ->
  forall i s, reached init iterate s0 i s -> I s.
Proof.
  intros HI HS i s R. induction R as [s H|i s s' R IH H].
  - unfold wp in HI. rewrite H in HI. exact HI.
  - specialize (HS i s IH). unfold wp in HS. rewrite H in HS. exact HS.
Qed.
