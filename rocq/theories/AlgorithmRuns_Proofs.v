(** The local searches and the (1+1) EA only know their function by its calls, and their
    vectors have the size of the function. *)

From Coq Require Import ZArith.
From Verif Require Import Base BaseLemmas BitVector_Model BitVector_Spec BitVector_Proofs Iterator_Model Neighborhood_Model
  Algorithm_Model Algorithm_Spec Algorithm_Proofs EvolutionaryAlgorithm_Model AlgorithmMachine_Model AlgorithmMachine_Spec AlgorithmMachine_Proofs.
Local Open Scope nat_scope.

(** * Programs with conditions *)

Definition ad_if {X A} (b : bool) (m1 m2 : objective -> act (alg X) A) : adaptive m1 -> adaptive m2 -> adaptive (fun o => if b then m1 o else m2 o).
Proof. intros. destruct b; assumption. Defined.

(** Incremental evaluation, which the function does not provide *)
Definition ad_incremental {X A} (b : bool) (m1 m2 : objective -> act (alg X) A) : adaptive m2 -> adaptive (fun o => if b && o_provides o then m1 o else m2 o).
Proof. intros H. apply (ad_ext m2); [|exact H]. intros o s P. now rewrite P, andb_false_r. Defined.

Lemma own_flip x i : own_outcome (bv_flip x i).
Proof. unfold bv_flip. apply own_bind; [apply own_vget|]. intros b. apply own_vset. Qed.
Lemma own_foldM {A B} (h : A -> B -> outcome A) l : (forall a b, own_outcome (h a b)) -> forall a, own_outcome (foldM h l a).
Proof. intros H. induction l as [|b l IH]; intros a; cbn; [apply own_ok|]. apply own_bind; auto. Qed.
Lemma own_flip_sbv x l : own_outcome (bv_flip_sbv x l).
Proof. unfold bv_flip_sbv. apply own_bind; [apply own_assert|]. intros _. apply own_foldM. intros. apply own_flip. Qed.

Ltac own_step := first
  [ apply own_ok | apply own_ub | apply own_assert | apply own_ensure | apply own_vget | apply own_vset | apply own_flip | apply own_flip_sbv
  | match goal with |- own_outcome (bind _ _) => apply own_bind; [|intros ?] end
  | match goal with |- own_outcome (match ?b with _ => _ end) => destruct b end ].
Ltac own_all := repeat own_step.

Lemma own_scan idx i : own_outcome (hs_scan idx i).
Proof. induction i as [|i IH]; cbn [hs_scan]; [apply own_ok|]. own_all. exact IH. Qed.
Lemma own_find n r idx : own_outcome (hs_find n r idx).
Proof. unfold hs_find. own_all. apply own_scan. Qed.
Lemma own_nit_has_next t : own_outcome (nit_has_next t).
Proof. destruct t as [s|s]; cbn; unfold hs_has_next; own_all. apply own_find. Qed.
Lemma own_nit_next t : own_outcome (nit_next t).
Proof.
  destruct t as [s|s]; cbn; [unfold sb_next; own_all|]. apply own_bind; [|intros []; apply own_ok]. unfold hs_next, hs_has_next, hs_advance. own_all; apply own_find.
Qed.
Lemma own_nit_set_origin t x : own_outcome (nit_set_origin t x).
Proof. destruct t as [s|s]; cbn; unfold sb_set_origin, hs_set_origin; own_all. Qed.
Lemma own_keep h : own_outcome (nh_keep h).
Proof. unfold nh_keep. own_all. Qed.
Lemma own_forget h : own_outcome (nh_forget h).
Proof. unfold nh_forget. own_all. Qed.
Lemma own_trials n k d : own_outcome (bernoulli_trials n k d).
Proof. unfold bernoulli_trials. own_all. Qed.
Lemma own_sample h d r : sample_bits h d = Some r -> own_outcome r.
Proof.
  unfold sample_bits. destruct (nh_class h).
  - destruct (d_index d); [discriminate|]. intros [= <-]. own_all.
  - destruct rejection.
    + destruct (if allow_none then _ else _); [|discriminate]. destruct (rejection_sampling n d); [|discriminate]. intros [= <-]. own_all.
    + destruct (bernoulli_process _ d); [|discriminate]. intros [= <-]. own_all.
  - cbv zeta. destruct (_ && _); [|intros [= <-]; own_all]. destruct (below_sqrt _ _); [|intros [= <-]; apply own_trials].
    destruct (rejection_sampling _ d); [|discriminate]. intros [= <-]. own_all.
  - cbv zeta. destruct (below_sqrt _ _); [|intros [= <-]; apply own_trials].
    destruct (rejection_sampling _ d); [|discriminate]. intros [= <-]. own_all.
Qed.
Lemma own_propose h d r : nh_propose h d = Some r -> own_outcome r.
Proof.
  unfold nh_propose, with_sample. destruct (bv_eqb _ _); [|intros [= <-]; own_all]. destruct (sample_bits h d) as [u|] eqn:E; [|discriminate].
  intros [= <-]. apply own_bind; [exact (own_sample h d u E)|]. intros l. own_all.
Qed.

(** * Silent parts *)

Lemma silent_propose {X} (get : X -> nh) (put : nh -> X -> X) d : silent (fun s : alg X =>
  match nh_propose (get (a_mem s)) d with
  | None => (Pending, s)
  | Some (Ok h) => (Ret tt, put_mem (put h (a_mem s)) s)
  | Some (Throw e) => (Exc e, s)
  | Some UB => (Bad, s)
  end).
Proof.
  intros s. destruct (nh_propose (get (a_mem s)) d) as [[h|e|]|] eqn:E; (split; [reflexivity|]); try (split; discriminate).
  destruct (own_propose _ _ _ E). split; cbn; congruence.
Qed.
Lemma silent_on_nit {A} (g : nit -> outcome (A * nit)) : (forall t, own_outcome (g t)) -> silent (on_nit g).
Proof. intros H. apply silent_on_mem. intros m. apply own_bind; [apply H|]. intros []. apply own_ok. Qed.

Ltac silent_step :=
  apply ad_silent; first
  [ apply silent_ret | apply silent_get | apply silent_assert | apply silent_pending | apply silent_update
  | apply silent_modify; intros ?; reflexivity
  | apply silent_on_nit; intros ?; first [apply own_nit_next | own_all; first [apply own_nit_has_next | apply own_nit_set_origin]]
  | apply silent_on_mem; intros ?; first [apply own_nit_next | own_all; first [apply own_nit_has_next | apply own_nit_set_origin | apply own_keep | apply own_forget]] ].
Ltac adapt_step := first
  [ apply ad_evaluate
  | apply ad_incremental
  | apply ad_if
  | silent_step
  | apply ad_bind; [|intros ?] ].
Ltac adapt := repeat adapt_step.

(** * The algorithms *)

Definition ad_start {X} st : adaptive (X := X) (fun o => start_solution o st).
Proof. destruct st; cbn; [unfold random_solution|unfold set_solution_eval, set_solution]; adapt. Defined.

Definition ad_rls_propose d : adaptive (fun _ => rls_propose d).
Proof. apply ad_silent. apply (silent_propose rls_nh (fun h m => mk_rls (rls_failures m) h)). Defined.
Definition ad_rls_init st : adaptive (fun o => rls_init o st).
Proof. unfold rls_init. apply ad_bind; [apply ad_start|intros ?]. adapt. Defined.
Definition ad_rls_iterate p d i : adaptive (fun o => rls_iterate o p d i).
Proof.
  unfold rls_iterate. apply ad_bind; [apply ad_rls_propose|intros ?]. unfold rls_decide. adapt.
Defined.
Definition ad_rls st p d num fuel : adaptive (fun o => loop (rls_init o st) (rls_iterate o p d) num fuel).
Proof. apply ad_loop; [apply ad_rls_init|]. intros i. apply ad_rls_iterate. Defined.

Definition ad_rw st d num fuel : adaptive (fun o => loop (rw_init o st) (rw_iterate o false d) num fuel).
Proof.
  apply (ad_loop (fun o => rw_init o st) (fun o => rw_iterate o false d)).
  - unfold rw_init. apply ad_bind; [apply ad_start|intros ?]. adapt.
  - intros i. unfold rw_iterate. apply ad_bind; [apply ad_silent, (silent_propose rw_nh (fun h m => mk_rw (rw_value m) h))|intros ?]. adapt.
Defined.

Definition ad_sa_propose d : adaptive (fun _ => sa_propose d).
Proof. apply ad_silent. apply (silent_propose sa_nh (fun h m => mk_sa (sa_current m) h)). Defined.
Definition ad_beta n bits d trials : forall i, adaptive (fun o => beta_trials o n bits d trials i).
Proof.
  induction trials as [|trials IH]; intros i; cbn [beta_trials]; [adapt|].
  apply ad_bind; [adapt|intros ?]. apply ad_bind; [adapt|intros ?]. apply ad_bind; [unfold sa_origin; adapt|intros ?].
  apply ad_bind; [apply ad_sa_propose|intros ?]. apply ad_bind; [adapt|intros ?]. apply ad_bind; [adapt|intros ?]. apply ad_bind; [adapt|intros ?].
  apply ad_bind; [unfold sa_forget; adapt|intros ?]. apply IH.
Defined.
Definition ad_sa n st bits d trials moves accept num fuel :
  adaptive (fun o => loop (sa_init o n st bits d trials) (sa_iterate o moves accept) num fuel).
Proof.
  apply (ad_loop (fun o => sa_init o n st bits d trials) (fun o => sa_iterate o moves accept)).
  - unfold sa_init. apply ad_bind; [apply ad_start|intros ?]. apply ad_bind; [apply ad_beta|intros ?]. unfold sa_origin. adapt.
  - intros i. unfold sa_iterate. apply ad_bind; [apply ad_sa_propose|intros ?]. unfold sa_keep, sa_forget. adapt.
Defined.

Definition ad_first_loop fuel : adaptive (fun o => first_loop o fuel).
Proof.
  induction fuel as [|fuel IH]; cbn [first_loop]; [adapt|]. apply ad_bind; [adapt|intros ?]. apply ad_if; [|adapt].
  apply ad_bind; [adapt|intros ?]. apply ad_bind; [adapt|intros ?]. apply ad_bind; [adapt|intros ?]. apply ad_if; [adapt|exact IH].
Defined.
Definition ad_first_ascent st neighbors num fuel : adaptive (fun o => loop (hc_alg_init o st) (first_iterate o neighbors) num fuel).
Proof.
  apply (ad_loop (fun o => hc_alg_init o st) (fun o => first_iterate o neighbors)).
  - unfold hc_alg_init. apply ad_bind; [apply ad_start|intros ?]. adapt.
  - intros i. unfold first_iterate. apply ad_bind; [adapt|intros ?]. apply ad_bind; [apply ad_first_loop|intros ?]. adapt.
Defined.

Definition ad_steepest_loop fuel : forall best index, adaptive (fun o => steepest_loop o fuel best index).
Proof.
  induction fuel as [|fuel IH]; intros best index; cbn [steepest_loop]; [adapt|]. apply ad_bind; [adapt|intros ?]. apply ad_if; [|adapt].
  apply ad_bind; [adapt|intros ?]. apply ad_bind; [adapt|intros ?]. unfold store_candidate.
  apply ad_if; [apply ad_bind; [adapt|intros ?]; apply IH|]. apply ad_if; [|apply IH]. apply ad_bind; [adapt|intros ?].
  apply ad_if; [apply ad_bind; [adapt|intros ?]; apply IH|apply IH].
Defined.
Definition ad_steepest st pick neighbors num fuel : adaptive (fun o => loop (sahc_init o st) (steepest_iterate o pick neighbors) num fuel).
Proof.
  apply (ad_loop (fun o => sahc_init o st) (fun o => steepest_iterate o pick neighbors)).
  - unfold sahc_init. apply ad_bind; [apply ad_start|intros ?]. adapt.
  - intros i. unfold steepest_iterate, store_candidate. do 6 (apply ad_bind; [adapt|intros ?]). apply ad_bind; [apply ad_steepest_loop|intros [b j]]. adapt.
Defined.

Definition ad_op small allow bit d num fuel x : adaptive (fun o s =>
  let '(r, p) := op_maximize o small allow false bit d num fuel (mk_opoea x s) in (r, op_rls p)).
Proof.
  unfold op_maximize.
  set (q := mk_rls_parameters (fun a b => b <=? a)%Z 0 false).
  set (h := fun s : alg rls => nh_set_allow_no_mutation (nh_set_mutation_rate (rls_nh (a_mem s)) small) allow).
  apply (ad_ext (fun o => abind (amodify (fun s => put_mem (mk_rls (rls_failures (a_mem s)) (h s)) s))
    (fun _ => loop (rls_init o (RandomStart bit)) (rls_iterate o q d) num fuel))).
  - intros o s _. cbv zeta. cbn [op_rls]. unfold abind, amodify. fold (h s). destruct (loop _ _ _ _ _) as [r s']. reflexivity.
  - apply ad_bind; [adapt|intros ?]. apply ad_rls.
Defined.

(** * Sizes *)

Section Sizes.
  Context {X : Type} (n : nat) (L : Prop) (R : X -> Prop).
  Definition fits (s : alg X) : Prop := Forall (fun x => length x = n) (a_trace s) /\ length (fst (a_sol s)) = n /\ R (a_mem s).
  (** If [L] holds the random numbers are not exhausted. *)
  Definition keeps {A} (m : act (alg X) A) (P : A -> Prop) : Prop :=
    forall s, fits s -> fits (snd (m s)) /\ (L -> fst (m s) <> Pending) /\ forall a, fst (m s) = Ret a -> P a.

  Lemma keeps_bind {A B} (m : act (alg X) A) (k : A -> act (alg X) B) P Q : keeps m P -> (forall a, P a -> keeps (k a) Q) -> keeps (abind m k) Q.
  Proof.
    intros M K s F. unfold abind. destruct (M s F) as (F' & V0 & V). destruct (m s) as [[a|e| |] s']; cbn in *;
      try (split; [auto|split; [intros H; first [discriminate|now destruct (V0 H)]|intros; discriminate]]).
    apply (K a (V a eq_refl) s' F').
  Qed.
  Lemma keeps_ret {A} (a : A) (P : A -> Prop) : P a -> keeps (aret a) P.
  Proof. intros H s F. split; [auto|]. cbn. split; [discriminate|]. intros b [= <-]. exact H. Qed.
  Lemma keeps_get {A} (h : alg X -> A) (P : A -> Prop) : (forall s, fits s -> P (h s)) -> keeps (aget h) P.
  Proof. intros H s F. split; [auto|]. cbn. split; [discriminate|]. intros b [= <-]. auto. Qed.
  Lemma keeps_modify h (P : unit -> Prop) : (forall s, fits s -> fits (h s)) -> P tt -> keeps (amodify h) P.
  Proof. intros H HP s F. split; [cbn; auto|]. split; [discriminate|]. intros [] _. exact HP. Qed.
  Lemma keeps_assert b (P : unit -> Prop) : P tt -> keeps (aassert b) P.
  Proof. intros HP s F. split; [auto|]. split; [destruct b; discriminate|]. intros [] _. exact HP. Qed.
  Lemma keeps_pending {A} (P : A -> Prop) : ~ L -> keeps (fun s => (Pending, s)) P.
  Proof. intros H s F. split; [auto|]. split; [contradiction|discriminate]. Qed.
  Lemma keeps_evaluate o x (P : Z -> Prop) : length x = n -> (forall v, P v) -> keeps (evaluate o x) P.
  Proof.
    intros Lx HP s (F1 & F2 & F3). unfold evaluate. destruct (o_stop o (length (a_trace s))); cbn; (split; [|split; [discriminate|auto]]).
    - repeat split; auto.
    - repeat split; auto. apply Forall_app. auto.
  Qed.
  Lemma keeps_update x v (P : unit -> Prop) : length x = n -> P tt -> keeps (update_solution x v) P.
  Proof.
    intros Lx HP s (F1 & F2 & F3). unfold update_solution. destruct (snd (a_sol s) <? v)%Z; cbn; (split; [repeat split; auto|split; [discriminate|intros [] _; exact HP]]).
  Qed.
  Lemma keeps_on_mem {A} (h : X -> outcome (A * X)) (P : A -> Prop) : (forall m a m', R m -> h m = Ok (a, m') -> R m' /\ P a) -> keeps (on_mem h) P.
  Proof.
    intros H s (F1 & F2 & F3). unfold on_mem. destruct (h (a_mem s)) as [[a m']|e|] eqn:E; cbn; try (split; [repeat split; auto|split; discriminate]).
    destruct (H _ _ _ F3 E) as [H1 H2]. split; [repeat split; auto|]. split; [discriminate|]. intros b [= <-]. exact H2.
  Qed.

  (** What a loop keeps *)
  Lemma fits_loop init iterate num fuel : keeps init (fun _ => True) -> (forall i, keeps (iterate i) (fun _ => True)) ->
    forall s, fits s -> fits (snd (loop init iterate num fuel s)).
  Proof.
    intros HI H s F. unfold loop, abind. destruct (HI s F) as [F' _]. destruct (init s) as [[[]|e| |] s']; cbn [snd] in *; auto.
    cbn [amodify]. assert (F2 : fits (put_last false s')) by exact F'. revert F2. generalize (put_last false s'). generalize 0. clear - H.
    induction fuel as [|fuel IH]; intros i s F; [exact F|]. cbn [loop_from].
    destruct ((0 <? num) && (num <=? Z.of_nat i))%Z; [exact F|]. destruct (a_last s); [exact F|]. unfold abind.
    destruct (H i s F) as [F' _]. destruct (iterate i s) as [[[]|e| |] s']; cbn [snd] in *; auto.
  Qed.

  (** ** Counting calls *)
  Section Spends.
    (** If [C] holds the end of the run is not asked. *)
    Context (C : Prop).
    Definition spends {A} (m : act (alg X) A) (k : nat) : Prop :=
      forall s a s', m s = (Ret a, s') -> length (a_trace s') = length (a_trace s) + k /\ (C -> a_last s' = a_last s).
    Lemma spends_bind {A B} (m : act (alg X) A) (c : A -> act (alg X) B) k k' : spends m k -> (forall a, spends (c a) k') -> spends (abind m c) (k + k').
    Proof.
      intros M K s b s' E. unfold abind in E. destruct (m s) as [[a|e| |] s1] eqn:E1; try discriminate.
      destruct (M _ _ _ E1) as [M1 M2]. destruct (K a _ _ _ E) as [K1 K2]. split; [lia|]. intros HC. rewrite K2, M2; auto.
    Qed.
    Lemma spends_quiet {A B} (m : act (alg X) A) (c : A -> act (alg X) B) k : spends m 0 -> (forall a, spends (c a) k) -> spends (abind m c) k.
    Proof. intros M K. exact (spends_bind m c 0 k M K). Qed.
    Lemma spends_ret {A} (a : A) : spends (aret a) 0.
    Proof. intros s b s' [= _ <-]. split; [lia|auto]. Qed.
    Lemma spends_get {A} (h : alg X -> A) : spends (aget h) 0.
    Proof. intros s b s' [= _ <-]. split; [lia|auto]. Qed.
    Lemma spends_modify h : (forall s, a_trace (h s) = a_trace s) -> (C -> forall s, a_last (h s) = a_last s) -> spends (amodify h) 0.
    Proof. intros H1 H2 s b s' [= _ <-]. rewrite H1. split; [lia|auto]. Qed.
    Lemma spends_evaluate o x : spends (evaluate o x) 1.
    Proof.
      intros s b s'. unfold evaluate. destruct (o_stop o (length (a_trace s))); [discriminate|]. intros [= _ <-]. cbn. rewrite app_length. split; [reflexivity|auto].
    Qed.
    Lemma spends_update x v : spends (update_solution x v) 0.
    Proof. intros s b s'. unfold update_solution. destruct (_ <? _)%Z; intros [= _ <-]; cbn; split; auto; lia. Qed.
    Lemma spends_on_mem {A} (h : X -> outcome (A * X)) : spends (on_mem h) 0.
    Proof. intros s b s'. unfold on_mem. destruct (h (a_mem s)) as [[a m']|e|]; try discriminate. intros [= _ <-]. cbn. split; auto; lia. Qed.
    Lemma spends_propose (get : X -> nh) (put : nh -> X -> X) d : spends (fun s : alg X =>
      match nh_propose (get (a_mem s)) d with
      | None => (Pending, s)
      | Some (Ok h) => (Ret tt, put_mem (put h (a_mem s)) s)
      | Some (Throw e) => (Exc e, s)
      | Some UB => (Bad, s)
      end) 0.
    Proof. intros s b s'. destruct (nh_propose (get (a_mem s)) d) as [[h|e|]|]; try discriminate. intros [= _ <-]. cbn. split; auto; lia. Qed.
  End Spends.

  (** How a loop of iterations of one call each ends *)
  Lemma loop_from_ends C iterate num : (forall i, keeps (iterate i) (fun _ => True)) -> (forall i, spends C (iterate i) 1) ->
    forall fuel i s, fits s -> (C -> a_last s = false) -> ((0 < num)%Z -> (Z.of_nat i <= num)%Z) ->
    let '(r, s') := loop_from iterate num i fuel s in
    match r with
    | Ret _ => (0 < num)%Z /\ Z.of_nat (length (a_trace s')) = (Z.of_nat (length (a_trace s)) + num - Z.of_nat i)%Z \/ a_last s' = true /\ ~ C
    | Pending => L -> (num <= 0 \/ Z.of_nat (i + fuel) <= num)%Z /\ length (a_trace s') = length (a_trace s) + fuel
    | _ => True
    end.
  Proof.
    intros K SP. induction fuel as [|fuel IH]; intros i s F HC Hi; cbn [loop_from]; [intros _; split; [|lia]; rewrite Nat.add_0_r; lia|].
    destruct (Z.ltb_spec 0 num); cbn [andb].
    2: destruct (a_last s) eqn:EL; [right; split; [assumption|intros c; specialize (HC c); discriminate]|].
    1: destruct (Z.leb_spec num (Z.of_nat i)); [left; lia|]; destruct (a_last s) eqn:EL; [right; split; [assumption|intros c; specialize (HC c); discriminate]|].
    all: unfold abind; destruct (K i s F) as (F' & NP & _); destruct (iterate i s) as [[[]|e| |] s1] eqn:E1; auto; cbn [fst snd] in *;
      try (intros l; now destruct (NP l)); destruct (SP i _ _ _ E1) as [S1 S2];
      (assert (HC1 : C -> a_last s1 = false) by (intros c; rewrite (S2 c); first [assumption|congruence]));
      (assert (Hi1 : (0 < num)%Z -> (Z.of_nat (i + 1) <= num)%Z) by lia);
      specialize (IH (i + 1) s1 F' HC1 Hi1);
      destruct (loop_from iterate num (i + 1) fuel s1) as [[[]|e| |] s2]; auto;
      [destruct IH as [IH|IH]; [left; lia|right; exact IH]|intros l; specialize (IH l); lia].
  Qed.
  Lemma loop_ends C init iterate num fuel k : keeps init (fun _ => True) -> (forall i, keeps (iterate i) (fun _ => True)) ->
    spends False init k -> (forall i, spends C (iterate i) 1) -> forall s, fits s ->
    let '(r, s') := loop init iterate num fuel s in
    match r with
    | Ret _ => (0 < num)%Z /\ Z.of_nat (length (a_trace s')) = (Z.of_nat (length (a_trace s) + k) + num)%Z \/ a_last s' = true /\ ~ C
    | Pending => L -> (num <= 0 \/ Z.of_nat fuel <= num)%Z /\ length (a_trace s') = length (a_trace s) + k + fuel
    | _ => True
    end.
  Proof.
    intros KI K SI SP s F. unfold loop, abind. destruct (KI s F) as (F' & NP & _). destruct (init s) as [[[]|e| |] s1] eqn:E1; auto; cbn [fst snd] in *.
    - cbn [amodify]. assert (F2 : fits (put_last false s1)) by exact F'. destruct (SI _ _ _ E1) as [S1 _].
      pose proof (loop_from_ends C iterate num K SP fuel 0 (put_last false s1) F2 (fun _ => eq_refl)) as H. specialize (H ltac:(lia)).
      destruct (loop_from iterate num 0 fuel (put_last false s1)) as [[[]|e| |] s2]; auto; cbn [put_last a_trace] in H.
      + destruct H as [H|H]; [left; lia|right; exact H].
      + intros l. specialize (H l). lia.
    - intros l. now destruct (NP l).
  Qed.
End Sizes.

Local Notation T := (fun _ => True).

Lemma keeps_start {X} n (L : Prop) (R : X -> Prop) o st : start_sized n st -> keeps n L R (start_solution o st) T.
Proof.
  intros S. destruct st as [bit|x]; cbn [start_solution start_sized] in *.
  - unfold random_solution. apply keeps_bind with (P := T); [|intros _ _].
    { apply keeps_modify; [|exact I]. intros s (F1 & F2 & F3). repeat split; auto. cbn. now rewrite length_bv_random. }
    apply keeps_bind with (P := fun x => length x = n); [apply keeps_get; intros s F; apply F|]. intros x Lx.
    apply keeps_bind with (P := T); [now apply keeps_evaluate|]. intros v _. apply keeps_modify; [|exact I]. intros s (F1 & F2 & F3). repeat split; auto.
  - unfold set_solution_eval, set_solution. apply keeps_bind with (P := T); [now apply keeps_evaluate|]. intros v _.
    apply keeps_modify; [|exact I]. intros s (F1 & F2 & F3). repeat split; auto.
Qed.

(** Neighborhoods *)
Definition nh_sized (n : nat) (h : nh) : Prop := length (nh_origin h) = n /\ length (nh_candidate h) = n.

Lemma flip_sized x i y : bv_flip x i = Ok y -> length y = length x.
Proof.
  unfold bv_flip. destruct (vget x i); try discriminate. cbn. unfold vset. destruct (i <? length x); [|discriminate]. intros E. apply Ok_inj in E. subst. apply length_upd.
Qed.
Lemma flips_sized x l y : bv_flip_sbv x l = Ok y -> length y = length x.
Proof.
  unfold bv_flip_sbv. destruct (sbv_is_valid l (length x)); [|discriminate]. cbn [assertb bind]. revert x. induction l as [|i l IH]; intros x; cbn.
  - intros E. apply Ok_inj in E. now subst.
  - destruct (bv_flip x i) as [x'| |] eqn:E; try discriminate. cbn. intros H. rewrite (IH _ H). now apply (flip_sized x i).
Qed.

Lemma propose_sized n h d h' : nh_sized n h -> nh_propose h d = Some (Ok h') -> nh_sized n h'.
Proof.
  intros [H1 H2]. unfold nh_propose, with_sample. destruct (bv_eqb _ _); [|discriminate]. destruct (sample_bits h d) as [[l| |]|]; try discriminate.
  cbn [bind]. destruct (bv_flip_sbv (nh_candidate h) l) as [c| |] eqn:E; try discriminate. cbn [bind]. intros E'. injection E' as <-.
  apply flips_sized in E. split; cbn; congruence.
Qed.
Lemma keep_sized n h h' : nh_sized n h -> nh_keep h = Ok h' -> nh_sized n h'.
Proof.
  intros [H1 H2]. unfold nh_keep. destruct (bv_flip_sbv (nh_origin h) (nh_flipped h)) as [c| |] eqn:E; try discriminate. cbn [bind].
  destruct (bv_eqb _ _); [|discriminate]. cbn [assertb bind]. intros E'. apply Ok_inj in E' as <-. apply flips_sized in E. split; cbn; congruence.
Qed.
Lemma forget_sized n h h' : nh_sized n h -> nh_forget h = Ok h' -> nh_sized n h'.
Proof.
  intros [H1 H2]. unfold nh_forget. destruct (bv_flip_sbv (nh_candidate h) (nh_flipped h)) as [c| |] eqn:E; try discriminate. cbn [bind].
  destruct (bv_eqb _ _); [|discriminate]. cbn [assertb bind]. intros E'. apply Ok_inj in E' as <-. apply flips_sized in E. split; cbn; congruence.
Qed.

Lemma keeps_propose {X} n (L : Prop) (R : X -> Prop) (get : X -> nh) (put : nh -> X -> X) d :
  (L -> plenty n d) ->
  (forall m, R m -> nh_sized n (get m)) -> (forall m h, R m -> nh_sized n h -> R (put h m)) ->
  keeps n L R (fun s : alg X =>
    match nh_propose (get (a_mem s)) d with
    | None => (Pending, s)
    | Some (Ok h) => (Ret tt, put_mem (put h (a_mem s)) s)
    | Some (Throw e) => (Exc e, s)
    | Some UB => (Bad, s)
    end) T.
Proof.
  intros PL G P s (F1 & F2 & F3). destruct (G _ F3) as [G1 G2].
  destruct (nh_propose (get (a_mem s)) d) as [[h|e|]|] eqn:E; (split; [|split; [try discriminate|auto]]); try (repeat split; cbn; auto; fail).
  - repeat split; cbn; auto. apply P; auto. apply (propose_sized n (get (a_mem s)) d); auto.
  - intros l _. now apply (PL l (get (a_mem s))).
Qed.

(** Random local search *)
Definition rls_sized n (m : rls) : Prop := nh_sized n (rls_nh m).
Lemma keeps_rls n (L : Prop) o st p d : start_sized n st -> p_incremental p = false -> (L -> forall i, plenty n (d i)) ->
  keeps n L (rls_sized n) (rls_init o st) T /\ forall i, keeps n L (rls_sized n) (rls_iterate o p d i) T.
Proof.
  intros S HP PL. split.
  - unfold rls_init. apply keeps_bind with (P := T); [now apply keeps_start|]. intros _ _. apply keeps_bind with (P := T).
    + apply keeps_modify; [|exact I]. intros s (F1 & F2 & F3). repeat split; auto.
    + intros _ _. apply keeps_modify; [|exact I]. intros s (F1 & F2 & F3). repeat split; auto; apply F3.
  - intros i. unfold rls_iterate. apply keeps_bind with (P := T).
    { apply (keeps_propose n L (rls_sized n) rls_nh (fun h m => mk_rls (rls_failures m) h)); auto. }
    intros _ _. apply keeps_bind with (P := nh_sized n); [apply keeps_get; intros s F; apply F|]. intros h [Lo Lc].
    apply keeps_bind with (P := T); [apply keeps_get; auto|]. intros cur _. rewrite HP. cbn [andb].
    apply keeps_bind with (P := T); [now apply keeps_evaluate|]. intros v _. unfold rls_decide.
    apply keeps_bind with (P := T); [apply keeps_get; auto|]. intros cur' _. apply keeps_bind with (P := T).
    + destruct (p_compare p v cur').
      * apply keeps_bind with (P := T).
        { apply keeps_on_mem. intros m a m' Rm. destruct (nh_keep (rls_nh m)) as [h'| |] eqn:E; try discriminate. cbn [bind]. intros E'. apply Ok_inj in E'. injection E' as <- <-.
          split; [|exact I]. exact (keep_sized n _ _ Rm E). }
        intros _ _. apply keeps_bind with (P := T).
        { apply keeps_modify; [|exact I]. intros s (F1 & F2 & F3). repeat split; auto; apply F3. }
        intros _ _. apply keeps_modify; [|exact I]. intros s (F1 & F2 & F3). repeat split; auto; apply F3.
      * apply keeps_bind with (P := T).
        { apply keeps_on_mem. intros m a m' Rm. destruct (nh_forget (rls_nh m)) as [h'| |] eqn:E; try discriminate. cbn [bind]. intros E'. apply Ok_inj in E'. injection E' as <- <-.
          split; [|exact I]. exact (forget_sized n _ _ Rm E). }
        intros _ _. apply keeps_modify; [|exact I]. intros s (F1 & F2 & F3). repeat split; auto; apply F3.
    + intros _ _. apply keeps_bind with (P := T); [apply keeps_get; auto|]. intros k _. destruct (_ && _)%Z; [|now apply keeps_ret].
      apply keeps_bind with (P := T).
      * apply keeps_modify; [|exact I]. intros s (F1 & F2 & F3). repeat split; auto; apply F3.
      * intros _ _. apply keeps_modify; [|exact I]. intros s (F1 & F2 & F3). repeat split; auto; apply F3.
Qed.

(** Random walk *)
Definition rw_sized n (m : rw) : Prop := nh_sized n (rw_nh m).
Lemma keeps_rw n (L : Prop) o st d : start_sized n st -> (L -> forall i, plenty n (d i)) ->
  keeps n L (rw_sized n) (rw_init o st) T /\ forall i, keeps n L (rw_sized n) (rw_iterate o false d i) T.
Proof.
  intros S PL. split.
  - unfold rw_init. apply keeps_bind with (P := T); [now apply keeps_start|]. intros _ _.
    apply keeps_modify; [|exact I]. intros s (F1 & F2 & F3). repeat split; auto.
  - intros i. unfold rw_iterate. apply keeps_bind with (P := T).
    { apply (keeps_propose n L (rw_sized n) rw_nh (fun h m => mk_rw (rw_value m) h)); auto. }
    intros _ _. apply keeps_bind with (P := rw_sized n); [apply keeps_get; intros s F; apply F|]. intros m [Lo Lc]. cbn [andb].
    apply keeps_bind with (P := T); [now apply keeps_evaluate|]. intros v _. apply keeps_bind with (P := T).
    { apply keeps_modify; [|exact I]. intros s (F1 & F2 & F3). repeat split; auto; apply F3. }
    intros _ _. apply keeps_bind with (P := T).
    { apply keeps_on_mem. intros m0 a m' Rm. destruct (nh_keep (rw_nh m0)) as [h'| |] eqn:E; try discriminate. cbn [bind]. intros E'. apply Ok_inj in E'. injection E' as <- <-.
      split; [|exact I]. exact (keep_sized n _ _ Rm E). }
    intros _ _. apply keeps_bind with (P := nh_sized n); [apply keeps_get; intros s F; apply F|]. intros h [_ Lh]. now apply keeps_update.
Qed.

(** Simulated annealing *)
Definition sa_sized n (m : sa) : Prop := nh_sized n (sa_nh m).
Lemma keeps_sa_propose n (L : Prop) d : (L -> plenty n d) -> keeps n L (sa_sized n) (sa_propose d) T.
Proof. intros PL. apply (keeps_propose n L (sa_sized n) sa_nh (fun h m => mk_sa (sa_current m) h)); auto. Qed.
Lemma keeps_sa_origin n (L : Prop) x : length x = n -> keeps n L (sa_sized n) (sa_origin x) T.
Proof. intros Lx. apply keeps_modify; [|exact I]. intros s (F1 & F2 & F3). repeat split; auto. Qed.
Lemma keeps_sa_forget n (L : Prop) : keeps n L (sa_sized n) sa_forget T.
Proof.
  apply keeps_on_mem. intros m a m' Rm. destruct (nh_forget (sa_nh m)) as [h'| |] eqn:E; try discriminate. cbn [bind]. intros E'. apply Ok_inj in E'. injection E' as <- <-.
  split; [|exact I]. exact (forget_sized n _ _ Rm E).
Qed.
Lemma keeps_sa_keep n (L : Prop) : keeps n L (sa_sized n) sa_keep T.
Proof.
  apply keeps_on_mem. intros m a m' Rm. destruct (nh_keep (sa_nh m)) as [h'| |] eqn:E; try discriminate. cbn [bind]. intros E'. apply Ok_inj in E'. injection E' as <- <-.
  split; [|exact I]. exact (keep_sized n _ _ Rm E).
Qed.
Lemma keeps_beta n (L : Prop) o bits d trials : (L -> forall i, plenty n (d i)) -> forall i, keeps n L (sa_sized n) (beta_trials o n bits d trials i) T.
Proof.
  intros PL. induction trials as [|trials IH]; intros i; cbn [beta_trials]; [now apply keeps_ret|]. cbv zeta. set (x := bv_random _ _).
  assert (Lx : length x = n) by (unfold x; rewrite length_bv_random; apply repeat_length).
  apply keeps_bind with (P := T); [now apply keeps_evaluate|]. intros a _. apply keeps_bind with (P := T); [now apply keeps_update|]. intros _ _.
  apply keeps_bind with (P := T); [now apply keeps_sa_origin|]. intros _ _. apply keeps_bind with (P := T); [apply keeps_sa_propose; auto|]. intros _ _.
  apply keeps_bind with (P := fun y => length y = n); [apply keeps_get; intros s F; apply F|]. intros y Ly.
  apply keeps_bind with (P := T); [now apply keeps_evaluate|]. intros b _. apply keeps_bind with (P := T); [now apply keeps_update|]. intros _ _.
  apply keeps_bind with (P := T); [apply keeps_sa_forget|]. intros _ _. apply IH.
Qed.
Lemma keeps_sa n (L : Prop) o st bits d trials moves accept : start_sized n st -> (L -> forall i, plenty n (d i)) -> (L -> forall i, plenty n (moves i)) ->
  keeps n L (sa_sized n) (sa_init o n st bits d trials) T /\ forall i, keeps n L (sa_sized n) (sa_iterate o moves accept i) T.
Proof.
  intros S PL PL2. split.
  - unfold sa_init. apply keeps_bind with (P := T); [now apply keeps_start|]. intros _ _. apply keeps_bind with (P := T); [now apply keeps_beta|]. intros _ _.
    apply keeps_bind with (P := fun y => length y = n); [apply keeps_get; intros s F; apply F|]. intros x Lx.
    apply keeps_bind with (P := T); [now apply keeps_sa_origin|]. intros _ _. apply keeps_modify; [|exact I]. intros s (F1 & F2 & F3). repeat split; auto; apply F3.
  - intros i. unfold sa_iterate. apply keeps_bind with (P := T); [apply keeps_sa_propose; auto|]. intros _ _.
    apply keeps_bind with (P := fun y => length y = n); [apply keeps_get; intros s F; apply F|]. intros y Ly.
    apply keeps_bind with (P := T); [now apply keeps_evaluate|]. intros v _. apply keeps_bind with (P := T); [apply keeps_get; auto|]. intros cur _.
    assert (M : keeps n L (sa_sized n) (amodify (fun s => put_mem (mk_sa v (sa_nh (a_mem s))) s)) T).
    { apply keeps_modify; [|exact I]. intros s (F1 & F2 & F3). repeat split; auto; apply F3. }
    destruct (cur <=? v)%Z.
    + apply keeps_bind with (P := T); [apply keeps_sa_keep|]. intros _ _. apply keeps_bind with (P := T); [exact M|]. intros _ _.
      apply keeps_bind with (P := fun y => length y = n); [apply keeps_get; intros s F; apply F|]. intros x Lx. now apply keeps_update.
    + destruct (accept i); [|apply keeps_sa_forget]. apply keeps_bind with (P := T); [apply keeps_sa_keep|]. intros _ _. exact M.
Qed.

(** Neighborhood iterators *)
Definition nit_sized (n : nat) (t : nit) : Prop := length (nit_current t) = n.
Lemma nit_next_sized n t x t' : nit_sized n t -> nit_next t = Ok (x, t') -> length x = n /\ nit_sized n t'.
Proof.
  unfold nit_sized. destruct t as [s|s]; cbn [nit_next nit_current].
  - unfold sb_next. intros L. destruct (sb_has_next s); [|discriminate]. cbn [assertb bind]. destruct (sb_initial s).
    + destruct (bv_flip (sb_current s) 0) as [c| |] eqn:E; try discriminate. cbn [bind]. intros E'. apply Ok_inj in E'. injection E' as <- <-.
      apply flip_sized in E. cbn. split; congruence.
    + destruct (bv_flip (sb_current s) (sb_index s)) as [c| |] eqn:E; try discriminate. cbn [bind]. destruct (bv_flip c _) as [c'| |] eqn:E2; try discriminate. cbn [bind].
      intros E'. apply Ok_inj in E'. injection E' as <- <-. apply flip_sized in E, E2. cbn. split; congruence.
  - intros L. destruct (hs_next s) as [[y s']| |] eqn:E; try discriminate. cbn [bind]. intros E'. apply Ok_inj in E'. injection E' as <- <-. revert E.
    unfold hs_next. destruct (hs_has_next s) as [[]| |]; try discriminate. cbn [assertb bind].
    assert (H : forall c idx, (if hs_initial s then Ok (hs_current s, seq 0 (length (hs_indexes s)))
       else cur <- bv_flip_sbv (hs_current s) (hs_indexes s) ;; o <- hs_find (length cur) (hs_radius s) (hs_indexes s) ;;
            match o with Some i => idx <- hs_advance (hs_indexes s) i ;; Ok (cur, idx) | None => Ok (cur, hs_indexes s) end) = Ok (c, idx) -> length c = n).
    { intros c idx. destruct (hs_initial s); [intros E; apply Ok_inj in E; congruence|].
      destruct (bv_flip_sbv (hs_current s) (hs_indexes s)) as [c'| |] eqn:E; try discriminate. cbn [bind]. apply flips_sized in E.
      destruct (hs_find _ _ _) as [[j|]| |]; try discriminate; cbn [bind].
      - destruct (hs_advance _ _); try discriminate. cbn [bind]. intros E'. apply Ok_inj in E'. congruence.
      - intros E'. apply Ok_inj in E'. congruence. }
    match goal with |- bind ?e _ = _ -> _ => destruct e as [[c idx]| |] end; try discriminate. specialize (H c idx eq_refl). cbn [bind].
    destruct (bv_flip_sbv c idx) as [c'| |] eqn:E; try discriminate. cbn [bind]. intros E'. apply Ok_inj in E'. injection E' as <- <-.
    apply flips_sized in E. cbn. split; congruence.
Qed.
Lemma nit_origin_sized n t x t' : length x = n -> nit_set_origin t x = Ok t' -> nit_sized n t'.
Proof.
  intros L. unfold nit_sized. destruct t as [s|s]; cbn; unfold sb_set_origin, hs_set_origin; (destruct (_ =? _); [|discriminate]); cbn [assertb bind];
    intros E; apply Ok_inj in E; subst t'; exact L.
Qed.

Lemma keeps_first n o st neighbors : start_sized n st -> (keeps n False (nit_sized n) (hc_alg_init o st) T /\ forall i, keeps n False (nit_sized n) (first_iterate o neighbors i) T).
Proof.
  intros S. split.
  - unfold hc_alg_init. apply keeps_bind with (P := T); [now apply keeps_start|]. intros _ _.
    apply keeps_bind with (P := fun y => length y = n); [apply keeps_get; intros s F; apply F|]. intros x Lx. apply keeps_on_mem. intros m a m' _.
    destruct (nit_set_origin m x) as [t'| |] eqn:E; try discriminate. cbn [bind]. intros E'. apply Ok_inj in E'. injection E' as _ <-.
    split; [|exact I]. exact (nit_origin_sized n m x t' Lx E).
  - intros i. unfold first_iterate. apply keeps_bind with (P := T).
    { apply keeps_modify; [|exact I]. intros s (F1 & F2 & F3). repeat split; auto. revert F3. cbn. now destruct (a_mem s). }
    intros _ _. apply keeps_bind with (P := T).
    + induction neighbors as [|k IH]; cbn [first_loop]; [apply keeps_pending; intros []|]. apply keeps_bind with (P := T).
      { apply keeps_on_mem. intros m a m' Rm. destruct (nit_has_next m); try discriminate. cbn [bind]. intros E'. apply Ok_inj in E'. injection E' as _ <-. auto. }
      intros h _. destruct h; [|now apply keeps_ret]. apply keeps_bind with (P := fun y => length y = n).
      { apply keeps_on_mem. intros m a m' Rm E. apply (nit_next_sized n) in E; tauto. }
      intros x Lx. apply keeps_bind with (P := T); [now apply keeps_evaluate|]. intros v _. apply keeps_bind with (P := T); [apply keeps_get; auto|]. intros cur _.
      destruct (cur <? v)%Z; [|exact IH]. apply keeps_bind with (P := T); [|intros _ _; now apply keeps_ret].
      apply keeps_modify; [|exact I]. intros s (F1 & F2 & F3). repeat split; auto.
    + intros found _. destruct found; [now apply keeps_ret|]. apply keeps_modify; [|exact I]. intros s (F1 & F2 & F3). repeat split; auto.
Qed.

Definition sahc_sized n (m : sahc) : Prop := nit_sized n (sa_nit m) /\ Forall (fun x => length x = n) (sa_cands m).
Lemma keeps_on_nit {A} n (h : nit -> outcome (A * nit)) (P : A -> Prop) : (forall t a t', nit_sized n t -> h t = Ok (a, t') -> nit_sized n t' /\ P a) ->
  keeps n False (sahc_sized n) (on_nit h) P.
Proof.
  intros H. apply keeps_on_mem. intros m a m' [R1 R2]. destruct (h (sa_nit m)) as [[b t]| |] eqn:E; try discriminate. cbn [bind]. intros E'. apply Ok_inj in E'. injection E' as <- <-.
  destruct (H _ _ _ R1 E). split; [split|]; auto.
Qed.
Lemma Forall_upd {A} (P : A -> Prop) l i a : Forall P l -> P a -> Forall P (upd l i a).
Proof. intros H Ha. revert i. induction H as [|b l Hb H IH]; intros [|i]; cbn; constructor; auto. Qed.
Lemma keeps_store n x i : length x = n -> keeps n False (sahc_sized n) (store_candidate x i) T.
Proof.
  intros L. apply keeps_on_mem. intros m a m' [R1 R2]. unfold vset. destruct (i <? length (sa_cands m)); [|discriminate]. cbn [bind]. intros E'. apply Ok_inj in E'. injection E' as _ <-.
  split; [split|]; auto. cbn. now apply Forall_upd.
Qed.
Lemma keeps_has_next n : keeps n False (sahc_sized n) (on_nit (fun t => h <- nit_has_next t ;; Ok (h, t))) T.
Proof.
  apply keeps_on_nit. intros t a t' Rt. destruct (nit_has_next t); try discriminate. cbn [bind]. intros E'. apply Ok_inj in E'. injection E' as _ <-. auto.
Qed.
Lemma keeps_next n : keeps n False (sahc_sized n) (on_nit nit_next) (fun x => length x = n).
Proof. apply keeps_on_nit. intros t a t' Rt E. apply (nit_next_sized n) in E; tauto. Qed.
Lemma keeps_steepest n o st pick neighbors : start_sized n st -> (keeps n False (sahc_sized n) (sahc_init o st) T /\ forall i, keeps n False (sahc_sized n) (steepest_iterate o pick neighbors i) T).
Proof.
  assert (SO : forall x, length x = n -> keeps n False (sahc_sized n) (on_nit (fun t => t' <- nit_set_origin t x ;; Ok (tt, t'))) T).
  { intros x Lx. apply keeps_on_nit. intros m a m' _.
    destruct (nit_set_origin m x) as [t'| |] eqn:E; try discriminate. cbn [bind]. intros E'. apply Ok_inj in E'. injection E' as _ <-.
    split; [|exact I]. exact (nit_origin_sized n m x t' Lx E). }
  intros S. split.
  - unfold sahc_init. apply keeps_bind with (P := T); [now apply keeps_start|]. intros _ _.
    apply keeps_bind with (P := fun y => length y = n); [apply keeps_get; intros s F; apply F|]. exact SO.
  - intros i. unfold steepest_iterate. apply keeps_bind with (P := T).
    { apply keeps_on_nit. intros t a t' Rt E. apply Ok_inj in E. injection E as _ <-. split; [|exact I]. revert Rt. now destruct t. }
    intros _ _. apply keeps_bind with (P := T); [apply keeps_has_next|]. intros h _. apply keeps_bind with (P := T); [now apply keeps_assert|]. intros _ _.
    apply keeps_bind with (P := fun y => length y = n); [apply keeps_next|]. intros x Lx.
    apply keeps_bind with (P := T); [now apply keeps_evaluate|]. intros v _. apply keeps_bind with (P := T); [now apply keeps_store|]. intros j _.
    apply keeps_bind with (P := T).
    { generalize v as b. revert j. induction neighbors as [|k IH]; intros j b; cbn [steepest_loop]; [apply keeps_pending; intros []|].
      apply keeps_bind with (P := T); [apply keeps_has_next|]. intros h' _. destruct h'; [|now apply keeps_ret].
      apply keeps_bind with (P := fun y => length y = n); [apply keeps_next|]. intros y Ly.
      apply keeps_bind with (P := T); [now apply keeps_evaluate|]. intros w _. destruct (b <? w)%Z.
      { apply keeps_bind with (P := T); [now apply keeps_store|]. intros j' _. apply IH. }
      destruct (w =? b)%Z; [|apply IH]. apply keeps_bind with (P := T); [apply keeps_get; auto|]. intros size _. destruct (j <? size); [|apply IH].
      apply keeps_bind with (P := T); [now apply keeps_store|]. intros j' _. apply IH. }
    intros [b j'] _. apply keeps_bind with (P := T); [apply keeps_get; auto|]. intros size _. apply keeps_bind with (P := T); [now apply keeps_assert|]. intros _ _.
    apply keeps_bind with (P := T); [apply keeps_get; auto|]. intros cur _. destruct (cur <? b)%Z.
    + apply keeps_bind with (P := fun y => length y = n).
      { apply keeps_on_mem. intros m a m' [R1 R2]. unfold vget. destruct (nth_error (sa_cands m) _) as [y|] eqn:E; [|discriminate]. cbn [bind]. intros E'. apply Ok_inj in E'. injection E' as <- <-.
        split; [split; auto|]. apply nth_error_In in E. rewrite Forall_forall in R2. auto. }
      intros y Ly. apply keeps_bind with (P := T); [|intros _ _; now apply SO]. apply keeps_modify; [|exact I]. intros s (F1 & F2 & F3). repeat split; auto; apply F3.
    + apply keeps_modify; [|exact I]. intros s (F1 & F2 & F3). repeat split; auto; apply F3.
Qed.
