(** The number of calls of the population algorithms, and the sizes of their vectors. *)

From Coq Require Import ZArith QArith.
From Verif Require Import Base BaseLemmas BitVector_Model BitVector_Spec BitVector_Proofs Neighborhood_Model Population_Model
  Algorithm_Model Algorithm_Spec Algorithm_Proofs PopAlgorithm_Model ProbabilityVector_Model EvolutionaryAlgorithm_Model
  AlgorithmMachine_Model AlgorithmMachine_Spec AlgorithmMachine_Proofs AlgorithmRuns_Proofs.
Local Open Scope nat_scope.

Section Costs.
  Context {X : Type} (n : nat) (L : Prop) (R : X -> Prop).
  (** What [m] keeps; if [L] holds the random numbers are not exhausted; and it makes [k]
      calls. *)
  Definition costs {A} (m : act (alg X) A) (k : nat) (P : A -> Prop) : Prop :=
    forall s, fits n R s -> fits n R (snd (m s)) /\ (L -> fst (m s) <> Pending) /\
      forall a, fst (m s) = Ret a -> P a /\ length (a_trace (snd (m s))) = length (a_trace s) + k /\ a_last (snd (m s)) = a_last s.

  Lemma costs_bind {A B} (m : act (alg X) A) (c : A -> act (alg X) B) k k' P Q : costs m k P -> (forall a, P a -> costs (c a) k' Q) -> costs (abind m c) (k + k') Q.
  Proof.
    intros M K s F. unfold abind. destruct (M s F) as (F' & V0 & V). destruct (m s) as [[a|e| |] s']; cbn [fst snd] in *;
      try (split; [auto|split; [intros H; first [discriminate|now destruct (V0 H)]|intros; discriminate]]).
    destruct (V a eq_refl) as (V1 & V2 & V3). destruct (K a V1 s' F') as (K1 & K2 & K3). split; [exact K1|]. split; [exact K2|].
    intros b Eb. destruct (K3 b Eb) as (K4 & K5 & K6). split; [exact K4|]. split; [lia|congruence].
  Qed.
  Lemma costs_quiet {A B} (m : act (alg X) A) (c : A -> act (alg X) B) k (P : A -> Prop) (Q : B -> Prop) : costs m 0 P -> (forall a, P a -> costs (c a) k Q) -> costs (abind m c) k Q.
  Proof. exact (costs_bind m c 0 k P Q). Qed.
  Lemma costs_last {A B} (m : act (alg X) A) (c : A -> act (alg X) B) k (P : A -> Prop) (Q : B -> Prop) : costs m k P -> (forall a, P a -> costs (c a) 0 Q) -> costs (abind m c) k Q.
  Proof. intros M K. rewrite <- (Nat.add_0_r k). exact (costs_bind m c k 0 P Q M K). Qed.
  Lemma costs_weaken {A} (m : act (alg X) A) k (P Q : A -> Prop) : (forall a, P a -> Q a) -> costs m k P -> costs m k Q.
  Proof.
    intros H M s F. destruct (M s F) as (M1 & M2 & M3). split; [exact M1|]. split; [exact M2|]. intros a E. destruct (M3 a E) as (M4 & M5). auto.
  Qed.
  Lemma costs_ret {A} (a : A) (P : A -> Prop) : P a -> costs (aret a) 0 P.
  Proof. intros H s F. split; [auto|]. cbn. split; [discriminate|]. intros b [= <-]. auto. Qed.
  Lemma costs_get {A} (h : alg X -> A) (P : A -> Prop) : (forall s, fits n R s -> P (h s)) -> costs (aget h) 0 P.
  Proof. intros H s F. split; [auto|]. cbn. split; [discriminate|]. intros b [= <-]. auto. Qed.
  Lemma costs_modify h (P : unit -> Prop) : (forall s, fits n R s -> fits n R (h s) /\ a_trace (h s) = a_trace s /\ a_last (h s) = a_last s) -> P tt -> costs (amodify h) 0 P.
  Proof.
    intros H HP s F. destruct (H s F) as (H1 & H2 & H3). split; [cbn; auto|]. split; [discriminate|]. intros [] _. cbn [amodify snd]. rewrite H2. auto.
  Qed.
  Lemma costs_put_mem h (P : unit -> Prop) : (forall s, fits n R s -> R (h s)) -> P tt -> costs (amodify (fun s => put_mem (h s) s)) 0 P.
  Proof. intros H HP. apply costs_modify; [|exact HP]. intros s F. pose proof (H s F). destruct F as (F1 & F2 & F3). repeat split; auto. Qed.
  Lemma costs_put_sol h (P : unit -> Prop) : (forall s, fits n R s -> length (fst (h s)) = n) -> P tt -> costs (amodify (fun s => put_sol (h s) s)) 0 P.
  Proof. intros H HP. apply costs_modify; [|exact HP]. intros s F. pose proof (H s F). destruct F as (F1 & F2 & F3). repeat split; auto. Qed.
  Lemma costs_assert b (P : unit -> Prop) : P tt -> costs (aassert b) 0 P.
  Proof. intros HP s F. split; [auto|]. split; [destruct b; discriminate|]. intros [] _. auto. Qed.
  Lemma costs_pending {A} k (P : A -> Prop) : ~ L -> costs (fun s => (Pending, s)) k P.
  Proof. intros H s F. split; [auto|]. split; [contradiction|discriminate]. Qed.
  Lemma costs_lift {A} (r : outcome A) (P : A -> Prop) : (forall a, r = Ok a -> P a) -> costs (lift r) 0 P.
  Proof. intros H s F. split; [auto|]. destruct r as [a|e|]; cbn; (split; [discriminate|]); intros b E; try discriminate. injection E as <-. auto. Qed.
  Lemma costs_evaluate o x (P : Z -> Prop) : length x = n -> (forall v, P v) -> costs (evaluate o x) 1 P.
  Proof.
    intros Lx HP s (F1 & F2 & F3). unfold evaluate. destruct (o_stop o (length (a_trace s))); cbn; (split; [|split; [discriminate|]]).
    - repeat split; auto.
    - discriminate.
    - repeat split; auto. apply Forall_app. auto.
    - intros v _. split; [auto|]. split; [now rewrite app_length|reflexivity].
  Qed.
  Lemma costs_update x v (P : unit -> Prop) : length x = n -> P tt -> costs (update_solution x v) 0 P.
  Proof.
    intros Lx HP s (F1 & F2 & F3). unfold update_solution. destruct (snd (a_sol s) <? v)%Z; cbn; (split; [repeat split; auto|split; [discriminate|intros [] _; auto]]).
  Qed.
  Lemma costs_set_solution x v (P : unit -> Prop) : length x = n -> P tt -> costs (set_solution x v) 0 P.
  Proof. intros Lx HP. apply (costs_put_sol (fun _ => (x, v))); auto. Qed.
  Lemma costs_on_mem {A} (h : X -> outcome (A * X)) (P : A -> Prop) : (forall m a m', R m -> h m = Ok (a, m') -> R m' /\ P a) -> costs (on_mem h) 0 P.
  Proof.
    intros H s (F1 & F2 & F3). unfold on_mem. destruct (h (a_mem s)) as [[a m']|e|] eqn:E; cbn; try (split; [repeat split; auto|split; discriminate]).
    destruct (H _ _ _ F3 E) as [H1 H2]. split; [repeat split; auto|]. split; [discriminate|]. intros b [= <-]. auto.
  Qed.
  Lemma costs_afor f l k : (forall i, In i l -> costs (f i) k (fun _ => True)) -> costs (afor f l) (length l * k) (fun _ => True).
  Proof.
    induction l as [|i l IH]; intros H; cbn [afor length]; [now apply costs_ret|].
    change (S (length l) * k) with (k + length l * k). apply costs_bind with (P := fun _ => True); [apply H; now left|]. intros _ _. apply IH. intros j Hj. apply H. now right.
  Qed.
  Lemma costs_afor_quiet f l : (forall i, In i l -> costs (f i) 0 (fun _ => True)) -> costs (afor f l) 0 (fun _ => True).
  Proof. intros H. pose proof (costs_afor f l 0 H) as C. now rewrite Nat.mul_0_r in C. Qed.
  Lemma costs_random_solution o bit : costs (random_solution o bit) 1 (fun _ => True).
  Proof.
    unfold random_solution. apply costs_quiet with (P := fun _ => True).
    { apply costs_put_sol; [|exact I]. intros s (_ & F & _). cbn. now rewrite length_bv_random. }
    intros _ _. apply costs_quiet with (P := fun x => length x = n); [apply costs_get; intros s F; apply F|]. intros x Lx.
    apply costs_last with (P := fun _ => True); [now apply costs_evaluate|]. intros v _. apply (costs_put_sol (fun _ => (x, v))); auto.
  Qed.

  (** What a loop keeps *)
  Lemma costs_loop_from iterate num per : (forall i, costs (iterate i) per (fun _ => True)) ->
    forall fuel i s, fits n R s -> a_last s = false -> ((0 < num)%Z -> (Z.of_nat i <= num)%Z) ->
    let '(r, s') := loop_from iterate num i fuel s in
    fits n R s' /\
    match r with
    | Ret _ => (0 < num)%Z /\ Z.of_nat (length (a_trace s')) = (Z.of_nat (length (a_trace s)) + (num - Z.of_nat i) * Z.of_nat per)%Z
    | Pending => L -> (num <= 0 \/ Z.of_nat (i + fuel) <= num)%Z /\ length (a_trace s') = length (a_trace s) + fuel * per
    | _ => True
    end.
  Proof.
    intros K. induction fuel as [|fuel IH]; intros i s F HL Hi; cbn [loop_from].
    { split; [exact F|]. intros _. rewrite Nat.add_0_r. split; lia. }
    destruct (Z.ltb_spec 0 num); cbn [andb].
    1: destruct (Z.leb_spec num (Z.of_nat i)).
    1: { split; [exact F|]. split; [lia|]. replace (num - Z.of_nat i)%Z with 0%Z by lia. lia. }
    all: rewrite HL; unfold abind; destruct (K i s F) as (F' & NP & V); destruct (iterate i s) as [[[]|e| |] s1] eqn:E1; cbn [fst snd] in *; auto;
      try (split; [exact F'|]; intros l; now destruct (NP l)); destruct (V tt eq_refl) as (_ & V1 & V2); rewrite HL in V2;
      (assert (Hi1 : (0 < num)%Z -> (Z.of_nat (i + 1) <= num)%Z) by lia);
      specialize (IH (i + 1) s1 F' V2 Hi1);
      destruct (loop_from iterate num (i + 1) fuel s1) as [[[]|e| |] s2]; destruct IH as [IH1 IH2]; (split; [exact IH1|]); auto;
      [destruct IH2 as [IH2 IH3]; split; [assumption|]; rewrite IH3, V1, Nat2Z.inj_add; replace (Z.of_nat (i + 1)) with (Z.of_nat i + 1)%Z by lia; ring
      |intros l; destruct (IH2 l) as [IH3 IH4]; split; [lia|]; rewrite IH4, V1; cbn [Nat.mul]; lia].
  Qed.
  Lemma costs_loop init iterate num fuel first per : costs init first (fun _ => True) -> (forall i, costs (iterate i) per (fun _ => True)) ->
    forall s, fits n R s ->
    let '(r, s') := loop init iterate num fuel s in
    fits n R s' /\
    match r with
    | Ret _ => (0 < num)%Z /\ Z.of_nat (length (a_trace s')) = (Z.of_nat (length (a_trace s) + first) + num * Z.of_nat per)%Z
    | Pending => L -> (num <= 0 \/ Z.of_nat fuel <= num)%Z /\ length (a_trace s') = length (a_trace s) + first + fuel * per
    | _ => True
    end.
  Proof.
    intros KI K s F. unfold loop, abind. destruct (KI s F) as (F' & NP & V). destruct (init s) as [[[]|e| |] s1] eqn:E1; cbn [fst snd] in *; auto.
    - cbn [amodify]. assert (F2 : fits n R (put_last false s1)) by exact F'. destruct (V tt eq_refl) as (_ & V1 & _).
      pose proof (costs_loop_from iterate num per K fuel 0 (put_last false s1) F2 eq_refl) as H. specialize (H ltac:(lia)).
      destruct (loop_from iterate num 0 fuel (put_last false s1)) as [[[]|e| |] s2]; destruct H as [H1 H2]; (split; [exact H1|]); auto; cbn [put_last a_trace] in H2.
      + destruct H2 as [H2 H3]. split; [exact H2|]. rewrite H3, V1. now rewrite Z.sub_0_r.
      + intros l. specialize (H2 l). rewrite V1 in H2. exact H2.
    - split; [exact F'|]. intros l. now destruct (NP l).
  Qed.

  (** * Populations *)
  Definition pop_sized (size : nat) (p : population) : Prop := length (p_bvs p) = size /\ Forall (fun x => length x = n) (p_bvs p).

  Lemma sized_vget size p k x : pop_sized size p -> vget (p_bvs p) k = Ok x -> length x = n.
  Proof. intros [_ H]. unfold vget. destruct (nth_error (p_bvs p) k) eqn:E; [|discriminate]. intros E'. apply Ok_inj in E' as <-. apply nth_error_In in E. rewrite Forall_forall in H. auto. Qed.
  Lemma sized_vset (l l' : list bv) k x : Forall (fun x => length x = n) l -> length x = n -> vset l k x = Ok l' -> length l' = length l /\ Forall (fun x => length x = n) l'.
  Proof.
    intros H Lx. unfold vset. destruct (k <? length l); [|discriminate]. intros E. apply Ok_inj in E as <-. split; [apply length_upd|]. now apply Forall_upd.
  Qed.
  Lemma sized_best size p k x : pop_sized size p -> best_bv p k = Ok x -> length x = n.
  Proof. intros H. unfold best_bv. destruct (best_index p k); try discriminate. cbn [bind]. now apply (sized_vget size). Qed.

  Section Member.
    Context (get : X -> population) (put : population -> X -> X) (size : nat).
    Context (RG : forall m, R m -> pop_sized size (get m)) (RP : forall m p, R m -> pop_sized size p -> R (put p m)).

    Lemma costs_on_pop h : (forall p p', pop_sized size p -> h p = Ok p' -> pop_sized size p') -> costs (on_pop get put h) 0 (fun _ => True).
    Proof.
      intros H. apply costs_on_mem. intros m a m' Rm. destruct (h (get m)) as [p| |] eqn:E; try discriminate. cbn [bind]. intros E'. apply Ok_inj in E'. injection E' as _ <-.
      split; [|exact I]. apply RP; [assumption|]. apply (H (get m)); auto.
    Qed.
    Lemma costs_eval_pop o : costs (eval_pop get put o) size (fun _ => True).
    Proof.
      unfold eval_pop. apply costs_quiet with (P := pop_sized size); [apply costs_get; intros s (_ & _ & F); auto|]. intros p [Sp _].
      apply costs_quiet with (P := fun _ => True); [now apply costs_assert|]. intros _ _. unfold pop_size. rewrite Sp.
      assert (E : size = length (seq 0 size) * 1) by (rewrite seq_length; lia). rewrite E at 2. apply costs_afor. intros i _.
      apply costs_quiet with (P := pop_sized size); [apply costs_get; intros s (_ & _ & F); auto|]. intros q Sq.
      apply costs_quiet with (P := fun x => length x = n); [apply costs_lift; intros b; now apply (sized_vget size)|]. intros b Lb.
      apply costs_last with (P := fun _ => True); [now apply costs_evaluate|]. intros v _. apply costs_on_pop. intros p1 p2 Sp1.
      destruct (vset (p_values p1) i v); try discriminate. cbn [bind]. intros E'. apply Ok_inj in E' as <-. exact Sp1.
    Qed.
    Lemma costs_sort_pop sh srt : costs (sort_pop get put sh srt) 0 (fun _ => True).
    Proof. apply costs_on_pop. intros p p' Sp E. apply Ok_inj in E as <-. exact Sp. Qed.
    Lemma costs_update_best : costs (update_with_best get) 0 (fun _ => True).
    Proof.
      unfold update_with_best. apply costs_quiet with (P := pop_sized size); [apply costs_get; intros s (_ & _ & F); auto|]. intros p Sp.
      apply costs_quiet with (P := fun x => length x = n); [apply costs_lift; intros b; now apply (sized_best size)|]. intros b Lb.
      apply costs_quiet with (P := fun _ => True); [now apply costs_lift|]. intros v _. now apply costs_update.
    Qed.
  End Member.
End Costs.

Local Notation T := (fun _ => True).

Lemma pop_made n size p : pop_make size n = Ok p -> pop_sized n size p /\ 0 < size.
Proof.
  unfold pop_make. destruct (Nat.ltb_spec 0 size); [|discriminate]. destruct (0 <? n); [|discriminate]. cbn [ensureb bind]. intros E. apply Ok_inj in E as <-.
  split; [|assumption]. split; [apply repeat_length|]. apply Forall_forall. intros x Hx. apply repeat_spec in Hx as ->. apply repeat_length.
Qed.

(** Mutations *)
Lemma plenty_sample n h d : plenty n d -> nh_sized n h -> sample_bits h d <> None.
Proof.
  intros P [H1 H2]. specialize (P (mk_nh (nh_class h) (nh_origin h) (nh_origin h) (nh_flipped h)) H1 H1). unfold nh_propose, with_sample in P. cbn [nh_candidate nh_origin] in P.
  assert (E : forall x, bv_eqb x x = true) by (induction x as [|[] x IH]; cbn; auto). rewrite E in P. intros S. apply P.
  assert (ES : sample_bits (mk_nh (nh_class h) (nh_origin h) (nh_origin h) (nh_flipped h)) d = sample_bits h d).
  { unfold sample_bits. cbn [nh_class nh_candidate nh_flipped nh_origin]. now rewrite H1, H2. }
  now rewrite ES, S.
Qed.
Lemma mutate_sized n h x d : nh_sized n h -> (plenty n d -> nh_mutate h x d <> None) /\
  forall h' y, nh_mutate h x d = Some (Ok (h', y)) -> nh_sized n h' /\ length y = n.
Proof.
  intros S. split.
  - intros P. unfold nh_mutate, with_sample. destruct (_ =? _); [|discriminate]. pose proof (plenty_sample n h d P S). destruct (sample_bits h d); [discriminate|contradiction].
  - intros h' y. unfold nh_mutate, with_sample. destruct (Nat.eqb_spec (length x) (length (nh_origin h))) as [E|]; [|discriminate].
    destruct (sample_bits h d) as [[l| |]|]; try discriminate. cbn [bind]. destruct (bv_flip_sbv x l) as [z| |] eqn:Ez; try discriminate. cbn [bind]. intros E'.
    injection E' as <- <-. apply flips_sized in Ez. destruct S as [S1 S2]. split; [split; assumption|]. congruence.
Qed.
Lemma map_sized n h x z d : nh_sized n h -> (plenty n d -> nh_map h x z d <> None) /\
  forall h' y, nh_map h x z d = Some (Ok (h', y)) -> nh_sized n h' /\ length y = n.
Proof.
  intros S. split.
  - intros P. unfold nh_map, with_sample. destruct (_ && _); [|discriminate]. pose proof (plenty_sample n h d P S). destruct (sample_bits h d); [discriminate|contradiction].
  - intros h' y. unfold nh_map, with_sample. destruct (Nat.eqb_spec (length x) (length (nh_origin h))) as [E|]; [|discriminate]. destruct (_ =? _); [|discriminate]. cbn [andb].
    destruct (sample_bits h d) as [[l| |]|]; try discriminate. cbn [bind]. destruct (bv_flip_sbv x l) as [z'| |] eqn:Ez; try discriminate. cbn [bind]. intros E'.
    injection E' as <- <-. apply flips_sized in Ez. destruct S as [S1 S2]. split; [split; assumption|]. congruence.
Qed.
Lemma rate_sized n h small : nh_sized n h -> nh_sized n (nh_set_mutation_rate h small).
Proof. intros [S1 S2]. unfold nh_set_mutation_rate. destruct (nh_class h); split; assumption. Qed.
Lemma allow_sized n h b : nh_sized n h -> nh_sized n (nh_set_allow_no_mutation h b).
Proof. intros [S1 S2]. unfold nh_set_allow_no_mutation. destruct (nh_class h); split; assumption. Qed.
Lemma made_nh n kd h : nh_make kd n = Ok h -> nh_sized n h.
Proof.
  unfold nh_make. destruct (0 <? n); [|discriminate]. cbn [assertb bind]. destruct kd.
  - intros E. apply Ok_inj in E as <-. split; apply repeat_length.
  - intros E. apply Ok_inj in E as <-. split; apply repeat_length.
  - destruct (assertb _); try discriminate. cbn [bind]. destruct (assertb _); try discriminate. cbn [bind]. intros E. apply Ok_inj in E as <-. split; apply repeat_length.
  - destruct (assertb _); try discriminate. cbn [bind]. destruct (assertb _); try discriminate. cbn [bind]. intros E. apply Ok_inj in E as <-. split; apply repeat_length.
Qed.

(** Selections *)
Lemma swap_sized n (l1 l2 : list bv) i j l1' l2' : Forall (fun x => length x = n) l1 -> Forall (fun x => length x = n) l2 -> swap_at l1 i l2 j = Ok (l1', l2') ->
  (length l1' = length l1 /\ Forall (fun x => length x = n) l1') /\ (length l2' = length l2 /\ Forall (fun x => length x = n) l2').
Proof.
  intros H1 H2. unfold swap_at. destruct (vget l1 i) as [a| |] eqn:Ea; try discriminate. destruct (vget l2 j) as [b| |] eqn:Eb; try discriminate. cbn [bind].
  assert (La : length a = n) by exact (sized_vget n (length l1) (mk_pop l1 [] []) i a (conj eq_refl H1) Ea).
  assert (Lb : length b = n) by exact (sized_vget n (length l2) (mk_pop l2 [] []) j b (conj eq_refl H2) Eb).
  destruct (vset l1 i b) as [m1| |] eqn:E1; try discriminate. destruct (vset l2 j a) as [m2| |] eqn:E2; try discriminate. cbn [bind]. intros E. apply Ok_inj in E. injection E as <- <-.
  split; [apply (sized_vset n l1 m1 i b)|apply (sized_vset n l2 m2 j a)]; auto.
Qed.
Definition both_sized n k1 k2 (s : population * population) : Prop := pop_sized n k1 (fst s) /\ pop_sized n k2 (snd s).
Lemma take_sized n k1 k2 s i s' : both_sized n k1 k2 s -> take_best s i = Ok s' -> both_sized n k1 k2 s'.
Proof.
  destruct s as [p q]. intros [[P1 P2] [Q1 Q2]]. cbn [fst snd] in *. unfold take_best. destruct (best_value q i); try discriminate. cbn [bind].
  destruct (vset (p_values p) i a); try discriminate. cbn [bind]. destruct (best_index q i) as [k| |]; try discriminate. cbn [bind].
  destruct (swap_at _ _ _ _) as [[pb sb]| |] eqn:E; try discriminate. cbn [bind]. intros E'. apply Ok_inj in E' as <-.
  apply (swap_sized n) in E; auto. destruct E as [[E1 E2] [E3 E4]]. split; split; cbn; auto; congruence.
Qed.
Lemma give_sized n k1 k2 off s i s' : both_sized n k1 k2 s -> give off s i = Ok s' -> both_sized n k1 k2 s'.
Proof.
  destruct s as [p q]. intros [[P1 P2] [Q1 Q2]]. cbn [fst snd] in *. unfold give. destruct (vget (p_values q) i); try discriminate. cbn [bind].
  destruct (vset (p_values p) (off + i) a); try discriminate. cbn [bind].
  destruct (swap_at _ _ _ _) as [[pb sb]| |] eqn:E; try discriminate. cbn [bind]. intros E'. apply Ok_inj in E' as <-.
  apply (swap_sized n) in E; auto. destruct E as [[E1 E2] [E3 E4]]. split; split; cbn; auto; congruence.
Qed.
Lemma fold_sized {A} (P : A -> Prop) (h : A -> nat -> outcome A) : (forall s i s', P s -> h s i = Ok s' -> P s') -> forall l s s', P s -> foldM h l s = Ok s' -> P s'.
Proof.
  intros H. induction l as [|i l IH]; intros s s' Ps; cbn; [intros E; now apply Ok_inj in E as <-|]. destruct (h s i) as [s1| |] eqn:E; try discriminate. cbn. apply IH. now apply (H s i).
Qed.
Lemma partial_sized n k sh psrt p j p' : pop_sized n k p -> pop_partial_sort sh psrt p j = Ok p' -> pop_sized n k p'.
Proof.
  intros S. unfold pop_partial_sort. destruct (assertb _); try discriminate. cbn [bind]. destruct (assertb _); try discriminate. cbn [bind]. intros E. apply Ok_inj in E as <-. exact S.
Qed.
Lemma comma_sized n mu lambda sh psrt ps os ps' os' : pop_sized n mu ps -> pop_sized n lambda os -> comma_select sh psrt ps os = Ok (ps', os') ->
  pop_sized n mu ps' /\ pop_sized n lambda os'.
Proof.
  intros P O. unfold comma_select. destruct (pop_partial_sort sh psrt os (pop_size ps)) as [os1| |] eqn:E1; try discriminate. cbn [bind].
  apply (partial_sized n lambda) in E1; auto. destruct (foldM take_best _ _) as [[ps2 os2]| |] eqn:E2; try discriminate. cbn [bind]. intros E. apply Ok_inj in E. injection E as <- <-.
  apply (fold_sized (both_sized n mu lambda) take_best (take_sized n mu lambda)) in E2; [exact E2|split; assumption].
Qed.
Lemma plus_sized n mu lambda k sh psrt ps os pool ps' os' pool' : pop_sized n mu ps -> pop_sized n lambda os -> pop_sized n k pool ->
  plus_select sh psrt ps os pool = Ok (ps', os', pool') -> pop_sized n mu ps' /\ pop_sized n lambda os' /\ pop_sized n k pool'.
Proof.
  intros P O K. unfold plus_select. destruct (foldM (give 0) _ _) as [[pool1 ps1]| |] eqn:E1; try discriminate. cbn [bind].
  apply (fold_sized (both_sized n k mu) (give 0) (give_sized n k mu 0)) in E1; [|split; auto]. destruct E1 as [K1 P1]. cbn [fst snd] in *.
  destruct (foldM (give (pop_size ps1)) _ _) as [[pool2 os2]| |] eqn:E2; try discriminate. cbn [bind].
  apply (fold_sized (both_sized n k lambda) (give _) (give_sized n k lambda _)) in E2; [|split; auto]. destruct E2 as [K2 O2]. cbn [fst snd] in *.
  destruct (pop_partial_sort sh psrt pool2 _) as [pool3| |] eqn:E3; try discriminate. cbn [bind]. apply (partial_sized n k) in E3; auto.
  destruct (foldM take_best _ _) as [[ps4 pool4]| |] eqn:E4; try discriminate. cbn [bind]. intros E. apply Ok_inj in E. injection E as <- <- <-.
  apply (fold_sized (both_sized n mu k) take_best (take_sized n mu k)) in E4; [|split; auto]. destruct E4 as [P4 K4]. auto.
Qed.

(** * Parents and offsprings *)
Section Ea.
  Context {Y : Type} (n mu lambda : nat) (L : Prop) (extra : Y -> Prop).
  Definition ea_sized (m : ea Y) : Prop := pop_sized n mu (ea_parents m) /\ pop_sized n lambda (ea_offs m) /\ nh_sized n (ea_mut m) /\ extra (ea_extra m).
  Local Notation costs m k P := (costs n L ea_sized m k P).

  Lemma sized_put_parents m p : ea_sized m -> pop_sized n mu p -> ea_sized (put_parents p m).
  Proof. intros (H1 & H2 & H3 & H4) H. repeat split; auto; try apply H; try apply H2; try apply H3. Qed.
  Lemma sized_put_offs m p : ea_sized m -> pop_sized n lambda p -> ea_sized (put_offs p m).
  Proof. intros (H1 & H2 & H3 & H4) H. repeat split; auto; try apply H; try apply H1; try apply H3. Qed.
  Lemma sized_put_mut m h : ea_sized m -> nh_sized n h -> ea_sized (put_mut h m).
  Proof. intros (H1 & H2 & H3 & H4) H. repeat split; auto; try apply H; try apply H1; try apply H2. Qed.

  Lemma costs_set_mutation small allow : costs (set_mutation small allow) 0 T.
  Proof. apply costs_put_mem; [|exact I]. intros s (_ & _ & F). apply sized_put_mut; [exact F|]. apply allow_sized, rate_sized, F. Qed.
  Lemma costs_set_offspring k x : length x = n -> costs (set_offspring k x) 0 T.
  Proof.
    intros Lx. apply costs_on_mem. intros m a m' Rm. destruct (vset (p_bvs (ea_offs m)) k x) as [bs| |] eqn:E; try discriminate. cbn [bind]. intros E'. apply Ok_inj in E'. injection E' as _ <-.
    split; [|exact I]. apply sized_put_offs; [exact Rm|]. destruct Rm as (_ & [O1 O2] & _). apply (sized_vset n) in E; auto. destruct E. split; cbn; congruence.
  Qed.
  Lemma costs_mutate k d : (L -> plenty n d) -> costs (mutate_offspring k d) 0 T.
  Proof.
    intros PL. unfold mutate_offspring. apply costs_quiet with (P := ea_sized); [apply costs_get; intros s F; apply F|]. intros m Rm.
    apply costs_quiet with (P := fun x => length x = n); [apply costs_lift; intros x; apply (sized_vget n lambda); apply Rm|]. intros x Lx.
    assert (Sm : nh_sized n (ea_mut m)) by apply Rm. destruct (mutate_sized n (ea_mut m) x d Sm) as [M1 M2].
    destruct (nh_mutate (ea_mut m) x d) as [r|]; [|apply costs_pending; intros l; now apply (M1 (PL l))].
    apply costs_quiet with (P := fun r => nh_sized n (fst r) /\ length (snd r) = n); [apply costs_lift; intros [h y] ->; now apply M2|]. intros [h y] [Sh Ly].
    apply costs_quiet with (P := T); [now apply costs_set_offspring|]. intros _ _. apply costs_put_mem; [|exact I]. intros s (_ & _ & F). now apply sized_put_mut.
  Qed.
  Lemma costs_random_parents bits : costs (random_parents bits) 0 T.
  Proof.
    apply costs_put_mem; [|exact I]. intros s (_ & _ & F). apply sized_put_parents; [exact F|]. destruct F as ([P1 P2] & _). split; cbn.
    - rewrite map_length, seq_length. exact P1.
    - apply Forall_forall. intros x Hx. apply in_map_iff in Hx as (i & <- & Hi). apply in_seq in Hi. rewrite length_bv_random. rewrite Forall_forall in P2. apply P2, nth_In. unfold pop_size in Hi. lia.
  Qed.
  Lemma costs_start_parents o bits sh srt : costs (start_parents o bits sh srt) mu T.
  Proof.
    unfold start_parents. apply costs_quiet with (P := T); [apply costs_random_parents|]. intros _ _.
    apply costs_last with (P := T); [apply costs_eval_pop; [intros m H; apply H|intros; now apply sized_put_parents]|]. intros _ _.
    apply costs_quiet with (P := T); [apply (costs_sort_pop n L ea_sized ea_parents put_parents mu); [intros m H; apply H|intros; now apply sized_put_parents]|]. intros _ _.
    apply costs_quiet with (P := pop_sized n mu); [apply costs_get; intros s (_ & _ & F); apply F|]. intros p Sp.
    apply costs_quiet with (P := fun x => length x = n); [apply costs_lift; intros b; now apply (sized_best n mu)|]. intros b Lb.
    apply costs_quiet with (P := T); [now apply costs_lift|]. intros v _. now apply costs_set_solution.
  Qed.
  Lemma costs_make_offsprings pick d : (L -> forall k, plenty n (d k)) -> costs (make_offsprings pick d) 0 T.
  Proof.
    intros PL. unfold make_offsprings. apply costs_quiet with (P := ea_sized); [apply costs_get; intros s F; apply F|]. intros m Rm.
    apply costs_afor_quiet. intros k _.
    apply costs_quiet with (P := T); [|intros _ _; apply costs_mutate; auto]. unfold copy_parent.
    apply costs_quiet with (P := pop_sized n mu); [apply costs_get; intros s (_ & _ & F); apply F|]. intros p Sp.
    apply costs_quiet with (P := fun x => length x = n); [apply costs_lift; intros x; now apply (sized_vget n mu)|]. intros x Lx. now apply costs_set_offspring.
  Qed.
  Lemma costs_eval_offs o : costs (eval_pop ea_offs put_offs o) lambda T.
  Proof. apply costs_eval_pop; [intros m H; apply H|intros; now apply sized_put_offs]. Qed.
  Lemma costs_update_parents : costs (update_with_best ea_parents) 0 T.
  Proof. apply (costs_update_best n L ea_sized ea_parents mu). intros m H; apply H. Qed.
  Lemma costs_comma sh psrt : costs (comma_replace sh psrt) 0 T.
  Proof.
    apply costs_on_mem. intros m a m' (R1 & R2 & R3). destruct (comma_select sh psrt (ea_parents m) (ea_offs m)) as [[ps os]| |] eqn:E; try discriminate. cbn [bind].
    intros E'. apply Ok_inj in E'. injection E' as _ <-. apply (comma_sized n mu lambda) in E; auto. destruct E. split; [|exact I]. repeat split; auto; try apply H; try apply H0; try apply R3.
  Qed.
End Ea.

(** * The algorithms *)

Lemma costs_mupl n mu lambda (L : Prop) o small allow bits sh srt pick d shs psrt : (L -> forall t k, plenty n (d t k)) ->
  costs n L (ea_sized n mu lambda (pop_sized n (mu + lambda))) (mupl_init o small allow bits sh srt) mu T /\
  forall i, costs n L (ea_sized n mu lambda (pop_sized n (mu + lambda))) (mupl_iterate o pick d shs psrt i) lambda T.
Proof.
  intros PL. split.
  - unfold mupl_init. apply costs_quiet with (P := T); [apply costs_set_mutation|]. intros _ _. apply costs_start_parents.
  - intros i. unfold mupl_iterate. apply costs_quiet with (P := T); [apply costs_make_offsprings; auto|]. intros _ _.
    apply costs_last with (P := T); [apply costs_eval_offs|]. intros _ _. apply costs_quiet with (P := T); [|intros _ _; apply costs_update_parents].
    apply costs_on_mem. intros m a m' (R1 & R2 & R3 & R4). destruct (plus_select _ _ _ _ _) as [[[ps os] pool]| |] eqn:E; try discriminate. cbn [bind].
    intros E'. apply Ok_inj in E'. injection E' as _ <-. apply (plus_sized n mu lambda (mu + lambda)) in E; auto. destruct E as (E1 & E2 & E3). split; [|exact I].
    split; [exact E1|]. split; [exact E2|]. split; [exact R3|exact E3].
Qed.
Lemma costs_mucl n mu lambda (L : Prop) o small allow bits bit pick d shs psrt : (L -> forall t k, plenty n (d t k)) ->
  costs n L (ea_sized n mu lambda T) (mucl_init o small allow bits bit) 1 T /\
  forall i, costs n L (ea_sized n mu lambda T) (mucl_iterate o pick d shs psrt i) lambda T.
Proof.
  intros PL. split.
  - unfold mucl_init. apply costs_quiet with (P := T); [apply costs_set_mutation|]. intros _ _.
    apply costs_quiet with (P := T); [apply costs_random_parents|]. intros _ _. apply costs_random_solution.
  - intros i. unfold mucl_iterate. apply costs_quiet with (P := T); [apply costs_make_offsprings; auto|]. intros _ _.
    apply costs_last with (P := T); [apply costs_eval_offs|]. intros _ _. apply costs_quiet with (P := T); [apply costs_comma|intros _ _; apply costs_update_parents].
Qed.

Lemma crossover_sized n c x y z z' : length z = n -> uniform_crossover c x y z = Ok z' -> length z' = n.
Proof.
  intros Lz. unfold uniform_crossover. destruct (assertb _); try discriminate. cbn [bind]. destruct (assertb _); try discriminate. cbn [bind].
  apply (fold_sized (fun z => length z = n)); [|exact Lz]. intros s i s' Ls. destruct (c i); destruct (vget _ i); try discriminate; cbn [bind]; unfold vset;
    (destruct (i <? length s); [|discriminate]); intros E; apply Ok_inj in E as <-; now rewrite length_upd.
Qed.
Lemma tournament_sized n size p (values : list Z) better sh t b t' : pop_sized n size p -> tournament_select better (p_bvs p) values sh t = Ok (b, t') -> length b = n.
Proof.
  intros S. unfold tournament_select. destruct (assertb _); try discriminate. cbn [bind]. destruct (vget (t_perm t) (t_start t)); try discriminate. cbn [bind].
  destruct (vget values a0); try discriminate. cbn [bind]. destruct (foldM _ _ _) as [[w ?]| |]; try discriminate. cbn [bind]. cbv zeta.
  match goal with |- context [if ?c then ?x else ?y] => set (t1 := if c then x else y) end. destruct (vget (t_perm t1) w) as [k| |]; try discriminate. cbn [bind].
  destruct (vget (p_bvs p) k) as [b'| |] eqn:E; try discriminate. cbn [bind]. intros E'. apply Ok_inj in E'. injection E' as <- _. now apply (sized_vget n size p k).
Qed.
Lemma costs_select n mu lambda (L : Prop) sh : costs n L (ea_sized n mu lambda T) (select_parent sh) 0 (fun x => length x = n).
Proof.
  apply costs_on_mem. intros m a m' (R1 & R2 & R3 & _). destruct (tournament_select _ _ _ _ _) as [[b t]| |] eqn:E; try discriminate. cbn [bind]. intros E'. apply Ok_inj in E'. injection E' as <- <-.
  apply (tournament_sized n mu) in E; [|exact R1]. split; [|exact E]. split; [exact R1|]. split; [exact R2|]. split; [exact R3|exact I].
Qed.
Lemma costs_ga n mu (L : Prop) o tsize small allow bits sh0 sh srt cross coin sh1 sh2 d shs psrt : (L -> forall t k, plenty n (d t k)) ->
  costs n L (ea_sized n mu mu T) (ga_init o tsize small allow bits sh0 sh srt) mu T /\
  forall i, costs n L (ea_sized n mu mu T) (ga_iterate o cross coin sh1 sh2 d shs psrt i) mu T.
Proof.
  intros PL. split.
  - unfold ga_init. apply costs_quiet with (P := T).
    { apply costs_on_mem. intros m a m' (R1 & R2 & R3 & _). destruct (set_tournament_size _ _ _); try discriminate. cbn [bind]. intros E'. apply Ok_inj in E'. injection E' as _ <-.
      split; [|exact I]. split; [exact R1|]. split; [exact R2|]. split; [exact R3|exact I]. }
    intros _ _. apply costs_quiet with (P := T); [apply costs_set_mutation|]. intros _ _. apply costs_start_parents.
  - intros i. unfold ga_iterate. apply costs_quiet with (P := T); [now apply costs_get|]. intros m _. apply costs_quiet with (P := T).
    { apply costs_afor_quiet. intros k _. unfold ga_offspring.
      apply costs_quiet with (P := T); [|intros _ _; apply costs_mutate; auto]. destruct (cross i k).
      - apply costs_quiet with (P := fun x => length x = n); [apply costs_select|]. intros x Lx. apply costs_quiet with (P := fun x => length x = n); [apply costs_select|]. intros y Ly.
        apply costs_quiet with (P := pop_sized n mu); [apply costs_get; intros s (_ & _ & F); apply F|]. intros p Sp.
        apply costs_quiet with (P := fun x => length x = n); [apply costs_lift; intros z; now apply (sized_vget n mu)|]. intros z Lz.
        apply costs_quiet with (P := fun x => length x = n); [apply costs_lift; intros z'; now apply crossover_sized|]. intros z' Lz'. now apply costs_set_offspring.
      - apply costs_quiet with (P := fun x => length x = n); [apply costs_select|]. intros x Lx. now apply costs_set_offspring. }
    intros _ _. apply costs_last with (P := T); [apply costs_eval_offs|]. intros _ _. apply costs_quiet with (P := T); [apply costs_comma|intros _ _; apply costs_update_parents].
Qed.

(** Self-adjusting (1+1) EA *)
Definition saea_sized n (m : saea) : Prop := nh_sized n (sx_nh m).
Lemma costs_set_rate n (L : Prop) small p : costs n L (saea_sized n) (set_rate small p) 0 T.
Proof. apply costs_put_mem; [|exact I]. intros s (_ & _ & F). apply rate_sized. exact F. Qed.
Lemma costs_saea n (L : Prop) o p small bit d : sp_incremental p = false -> (L -> forall t, plenty n (d t)) ->
  costs n L (saea_sized n) (saea_init o p small bit) 1 T /\ forall i, costs n L (saea_sized n) (saea_iterate o p small d i) 1 T.
Proof.
  intros HP PL. split.
  - unfold saea_init. apply costs_quiet with (P := T); [apply costs_set_rate|]. intros _ _. apply costs_quiet with (P := T).
    { apply costs_put_mem; [|exact I]. intros s (_ & _ & F). apply allow_sized. exact F. }
    intros _ _. apply costs_last with (P := T); [apply costs_random_solution|]. intros _ _. apply costs_put_mem; [|exact I]. intros s (_ & F & _). split; exact F.
  - intros i. unfold saea_iterate. apply costs_quiet with (P := T).
    { intros s F. pose proof (keeps_propose n L (saea_sized n) sx_nh (fun h m => mk_saea h (sx_rate m)) (d i) (fun l => PL l i) (fun m H => H) (fun m h _ H => H) s F) as (K1 & K2 & K3).
      split; [exact K1|]. split; [exact K2|]. intros [] E. split; [exact I|]. revert E. unfold saea_propose. destruct (nh_propose _ _) as [[h| |]|]; try discriminate. intros _. cbn. split; [lia|reflexivity]. }
    intros _ _. apply costs_quiet with (P := nh_sized n); [apply costs_get; intros s F; apply F|]. intros h [Lo Lc].
    apply costs_quiet with (P := T); [now apply costs_get|]. intros cur _. rewrite HP. cbn [andb].
    apply costs_last with (P := T); [now apply costs_evaluate|]. intros v _. apply costs_quiet with (P := T); [now apply costs_get|]. intros rate _. destruct (cur <=? v)%Z.
    + apply costs_quiet with (P := T).
      { apply costs_on_mem. intros m a m' Rm. destruct (nh_keep (sx_nh m)) as [h'| |] eqn:E; try discriminate. cbn [bind]. intros E'. apply Ok_inj in E'. injection E' as <- <-.
        split; [|exact I]. exact (keep_sized n _ _ Rm E). }
      intros _ _. apply costs_quiet with (P := T); [|intros _ _; apply costs_set_rate].
      apply (costs_put_sol n L (saea_sized n) (fun s => (fst (a_sol s), v))); [|exact I]. intros s F. apply F.
    + apply costs_quiet with (P := T); [|intros _ _; apply costs_set_rate].
      apply costs_on_mem. intros m a m' Rm. destruct (nh_forget (sx_nh m)) as [h'| |] eqn:E; try discriminate. cbn [bind]. intros E'. apply Ok_inj in E'. injection E' as <- <-.
      split; [|exact I]. exact (forget_sized n _ _ Rm E).
Qed.

(** Two-rate (1+lambda) EA *)
Definition trea_sized n lambda (m : trea) : Prop := pop_sized n lambda (tr_pop m) /\ nh_sized n (tr_nh m).
Lemma costs_trea n lambda (L : Prop) o init allow bit small d sh srt u : (L -> forall t k, plenty n (d t k)) ->
  costs n L (trea_sized n lambda) (trea_init o init allow bit) 1 T /\ forall i, costs n L (trea_sized n lambda) (trea_iterate o n small d sh srt u i) lambda T.
Proof.
  intros PL.
  assert (KR : forall p, costs n L (trea_sized n lambda) (tr_keep_rate p) 0 T).
  { intros p. apply costs_put_mem; [|exact I]. intros s (_ & _ & F). exact F. }
  assert (SR : forall p, costs n L (trea_sized n lambda) (tr_set_rate small p) 0 T).
  { intros p. apply costs_put_mem; [|exact I]. intros s (_ & _ & F). split; [apply F|apply rate_sized, F]. }
  assert (PP : forall m p, trea_sized n lambda m -> pop_sized n lambda p -> trea_sized n lambda (tr_put p m)) by (intros m p [_ H] Sp; split; assumption).
  assert (GP : forall m, trea_sized n lambda m -> pop_sized n lambda (tr_pop m)) by (intros m H; apply H).
  assert (MU : forall t l, costs n L (trea_sized n lambda) (afor (fun k => tr_mutate k (d t k)) l) 0 T).
  { intros t l. apply costs_afor_quiet. intros k _. unfold tr_mutate.
    apply costs_quiet with (P := T); [now apply costs_get|]. intros x _. apply costs_quiet with (P := trea_sized n lambda); [apply costs_get; intros s F; apply F|]. intros m Rm.
    apply costs_quiet with (P := T); [now apply costs_lift|]. intros z _.
    assert (Sm : nh_sized n (tr_nh m)) by apply Rm. destruct (map_sized n (tr_nh m) x z (d t k) Sm) as [M1 M2].
    destruct (nh_map (tr_nh m) x z (d t k)) as [r|]; [|apply costs_pending; intros l'; now apply (M1 (PL l' t k))].
    apply costs_quiet with (P := fun r => nh_sized n (fst r) /\ length (snd r) = n); [apply costs_lift; intros [h y] ->; now apply M2|]. intros [h y] [Sh Ly].
    apply costs_quiet with (P := T).
    - apply costs_on_mem. intros m1 a m' R1. destruct (vset (p_bvs (tr_pop m1)) k _) as [bs| |] eqn:E; try discriminate. cbn [bind]. intros E'. apply Ok_inj in E'. injection E' as _ <-.
      split; [|exact I]. apply PP; [exact R1|]. destruct R1 as [[O1 O2] _]. apply (sized_vset n) in E; auto. destruct E. split; cbn; congruence.
    - intros _ _. apply costs_put_mem; [|exact I]. intros s (_ & _ & F). split; [apply F|exact Sh]. }
  split.
  - unfold trea_init. apply costs_last with (P := T); [apply costs_random_solution|]. intros _ _. apply costs_quiet with (P := T); [apply KR|]. intros _ _.
    apply costs_put_mem; [|exact I]. intros s (_ & _ & F). split; [apply F|apply allow_sized, F].
  - intros i. unfold trea_iterate. apply costs_quiet with (P := T); [now apply costs_get|]. intros m _. cbv zeta.
    apply costs_quiet with (P := T); [apply SR|]. intros _ _. apply costs_quiet with (P := T); [apply MU|]. intros _ _.
    apply costs_quiet with (P := T); [apply SR|]. intros _ _. apply costs_quiet with (P := T); [apply MU|]. intros _ _.
    apply costs_last with (P := T); [now apply costs_eval_pop|]. intros _ _.
    apply costs_quiet with (P := T); [now apply (costs_sort_pop n L (trea_sized n lambda) tr_pop tr_put lambda)|]. intros _ _.
    apply costs_quiet with (P := T); [now apply (costs_update_best n L (trea_sized n lambda) tr_pop lambda)|]. intros _ _.
    destruct (qltb (u i) (1 # 4)); [apply KR|]. destruct (qltb (u i) (1 # 2)); [apply KR|].
    apply costs_quiet with (P := T); [now apply costs_get|]. intros p _. apply costs_quiet with (P := T); [now apply costs_lift|]. intros b _.
    apply costs_quiet with (P := T); [now apply costs_lift|]. intros r _. apply KR.
Qed.

(** PBIL, NPS-PBIL and UMDA *)
Definition eda_sized n size (m : eda) : Prop := pop_sized n size (e_pop m).
Lemma pv_sample_sized n pv x u y : length x = n -> pv_sample pv x u = Ok y -> length y = n.
Proof.
  intros Lx. unfold pv_sample. destruct (assertb _); try discriminate. cbn [bind]. intros E. apply Ok_inj in E as <-. now rewrite map_length, seq_length.
Qed.
Lemma costs_eda_init n size (L : Prop) o bit : costs n L (eda_sized n size) (eda_init o bit) 1 T.
Proof.
  unfold eda_init. apply costs_last with (P := T); [apply costs_random_solution|]. intros _ _. apply costs_put_mem; [|exact I]. intros s (_ & _ & F). exact F.
Qed.
Lemma costs_learn n size (L : Prop) k learn : costs n L (eda_sized n size) (eda_learn k learn) 0 T.
Proof.
  apply costs_on_mem. intros m a m' Rm. destruct (learn m); try discriminate. cbn [bind]. intros E'. apply Ok_inj in E'. injection E' as _ <-. split; [exact Rm|exact I].
Qed.
Lemma costs_generation n size (L : Prop) o u shs srt i : costs n L (eda_sized n size) (eda_generation o u shs srt i) size T.
Proof.
  unfold eda_generation. apply costs_quiet with (P := T).
  { apply costs_on_mem. intros m a m' [R1 R2]. destruct (foldM _ _ _) as [bs| |] eqn:E; try discriminate. cbn [bind]. intros E'. apply Ok_inj in E'. injection E' as _ <-.
    split; [|exact I]. apply (fold_sized (fun bs => length bs = size /\ Forall (fun x => length x = n) bs)) in E; [exact E| |split; assumption].
    intros bs0 k bs1 [B1 B2]. destruct (vget bs0 k) as [b| |] eqn:Eb; try discriminate. cbn [bind]. destruct (pv_sample _ _ _) as [b'| |] eqn:Es; try discriminate. cbn [bind]. intros Ev.
    apply (pv_sample_sized n) in Es; [|exact (sized_vget n size (mk_pop bs0 [] []) k b (conj B1 B2) Eb)]. apply (sized_vset n) in Ev; auto. destruct Ev. split; [congruence|assumption]. }
  intros _ _.
  assert (PP : forall m p, eda_sized n size m -> pop_sized n size p -> eda_sized n size (e_put p m)) by (intros m p _ Sp; exact Sp).
  assert (GP : forall m, eda_sized n size m -> pop_sized n size (e_pop m)) by (intros m H; exact H).
  apply costs_last with (P := T); [now apply costs_eval_pop|]. intros _ _.
  apply costs_quiet with (P := T); [now apply (costs_sort_pop n L (eda_sized n size) e_pop e_put size)|]. intros _ _.
  now apply (costs_update_best n L (eda_sized n size) e_pop size).
Qed.
Lemma costs_eda n size (L : Prop) o selection rate u shs srt i : let Cs it := costs n L (eda_sized n size) it size T in
  Cs (pbil_iterate o n selection rate u shs srt i) /\ Cs (nps_iterate o n selection rate u shs srt i) /\ Cs (umda_iterate o n selection u shs srt i).
Proof.
  cbv zeta. split; [|split]; unfold pbil_iterate, nps_iterate, umda_iterate; (apply costs_last with (P := T); [apply costs_generation|]); intros _ _; apply costs_learn.
Qed.

(** MMAS and compact GA *)
Definition sampler_sized n (m : sampler) : Prop := length (sm_x m) = n /\ length (sm_y m) = n.
Lemma costs_mmas_learn n (L : Prop) k rate : costs n L (sampler_sized n) (mmas_learn k rate) 0 T.
Proof.
  unfold mmas_learn. apply costs_quiet with (P := T); [now apply costs_get|]. intros x _. apply costs_on_mem. intros m a m' Rm. destruct (pv_update _ _ _); try discriminate. cbn [bind].
  intros E'. apply Ok_inj in E'. injection E' as _ <-. split; [exact Rm|exact I].
Qed.
Lemma costs_sample_x n (L : Prop) u : costs n L (sampler_sized n) (on_mem (fun m => x <- pv_sample (sm_pv m) (sm_x m) u ;; Ok (tt, mk_sampler (sm_pv m) x (sm_y m)))) 0 T.
Proof.
  apply costs_on_mem. intros m a m' [R1 R2]. destruct (pv_sample _ _ _) as [x| |] eqn:E; try discriminate. cbn [bind]. intros E'. apply Ok_inj in E'. injection E' as _ <-.
  apply (pv_sample_sized n) in E; auto. split; [split; assumption|exact I].
Qed.
Lemma costs_sample_y n (L : Prop) u : costs n L (sampler_sized n) (on_mem (fun m => y <- pv_sample (sm_pv m) (sm_y m) u ;; Ok (tt, mk_sampler (sm_pv m) (sm_x m) y))) 0 T.
Proof.
  apply costs_on_mem. intros m a m' [R1 R2]. destruct (pv_sample _ _ _) as [x| |] eqn:E; try discriminate. cbn [bind]. intros E'. apply Ok_inj in E'. injection E' as _ <-.
  apply (pv_sample_sized n) in E; auto. split; [split; assumption|exact I].
Qed.
Lemma costs_mmas n (L : Prop) o rate u cmp bit : costs n L (sampler_sized n) (mmas_init o n rate bit) 1 T /\ forall i, costs n L (sampler_sized n) (mmas_iterate o n rate u cmp i) 1 T.
Proof.
  split.
  - unfold mmas_init. apply costs_last with (P := T); [apply costs_random_solution|]. intros _ _. apply costs_quiet with (P := T); [|intros _ _; apply costs_mmas_learn].
    apply costs_put_mem; [|exact I]. intros s (_ & _ & F). exact F.
  - intros i. unfold mmas_iterate. apply costs_quiet with (P := T); [apply costs_sample_x|]. intros _ _.
    apply costs_quiet with (P := fun x => length x = n); [apply costs_get; intros s F; apply F|]. intros x Lx. apply costs_last with (P := T); [now apply costs_evaluate|]. intros v _.
    apply costs_quiet with (P := T); [now apply costs_get|]. intros best _. apply costs_quiet with (P := T); [|intros _ _; apply costs_mmas_learn].
    destruct (cmp v best); [now apply costs_set_solution|now apply costs_ret].
Qed.
Lemma costs_cga n (L : Prop) o rate u (debug : bool) bit : costs n L (sampler_sized n) (cga_init o bit) 1 T /\
  forall i, costs n L (sampler_sized n) (cga_iterate o n rate u debug i) (if debug then 4 else 2) T.
Proof.
  split.
  - unfold cga_init. apply costs_last with (P := T); [apply costs_random_solution|]. intros _ _. apply costs_put_mem; [|exact I]. intros s (_ & _ & F). exact F.
  - intros i. unfold cga_iterate. apply costs_quiet with (P := T); [apply costs_sample_x|]. intros _ _. apply costs_quiet with (P := T); [apply costs_sample_y|]. intros _ _.
    apply costs_quiet with (P := fun x => length x = n); [apply costs_get; intros s F; apply F|]. intros x Lx.
    apply costs_quiet with (P := fun x => length x = n); [apply costs_get; intros s F; apply F|]. intros y Ly. cbv zeta.
    assert (E : (if debug then 4 else 2) = 1 + (1 + if debug then 2 else 0)) by now destruct debug. rewrite E.
    apply costs_bind with (P := T); [now apply costs_evaluate|]. intros v0 _. apply costs_bind with (P := T); [now apply costs_evaluate|]. intros v1 _.
    assert (Lb : length (if (v0 <? v1)%Z then y else x) = n) by now destruct (v0 <? v1)%Z. assert (Lw : length (if (v0 <? v1)%Z then x else y) = n) by now destruct (v0 <? v1)%Z.
    apply costs_quiet with (P := T); [now apply costs_update|]. intros _ _. apply costs_last with (P := T).
    + destruct debug; [|now apply costs_ret]. apply (costs_bind n L (sampler_sized n) _ _ 1 1 T); [now apply costs_evaluate|]. intros b _.
      apply costs_last with (P := T); [now apply costs_evaluate|]. intros w _. now apply costs_assert.
    + intros _ _. apply costs_on_mem. intros m a m' Rm E'. apply Ok_inj in E'. injection E' as _ <-. split; [exact Rm|exact I].
Qed.
