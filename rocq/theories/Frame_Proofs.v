(** Generations of algorithms with populations do not depend on the other members, and
    runs which stay related step by step. *)

From Verif Require Import Base BaseLemmas BitVector_Model Algorithm_Model Algorithm_Spec Algorithm_Proofs Population_Model PopAlgorithm_Model.

(** An invariant which depends on the number of the iteration *)
Lemma reached_inv_at {X} (I : nat -> alg X -> Prop) (init : act (alg X) unit) iterate E E' s0 :
  wp init (fun _ s' => I 0 (put_last false s')) E s0 -> (forall i s, I i s -> wp (iterate i) (fun _ s' => I (i + 1) s') E' s) ->
  forall i s, reached init iterate s0 i s -> I i s.
Proof.
  intros HI HS i s R. induction R as [s H|i s s' R IH H].
  - unfold wp in HI. rewrite H in HI. exact HI.
  - specialize (HS i s IH). unfold wp in HS. rewrite H in HS. exact HS.
Qed.

Section Frame.
  Context {X : Type} (get : X -> population) (put : population -> X -> X).
  Hypothesis get_put : forall p m, get (put p m) = p.
  Hypothesis put_put : forall p q m, put p (put q m) = put p m.
  Hypothesis put_get : forall m, put (get m) m = m.

  Definition view (s : alg X) : alg population := mk_alg (a_trace s) (a_sol s) (a_last s) (get (a_mem s)).
  Definition back (s : alg X) (v : alg population) : alg X := mk_alg (a_trace v) (a_sol v) (a_last v) (put (a_mem v) (a_mem s)).
  Definition framed {A} (m : act (alg X) A) (m0 : act (alg population) A) : Prop :=
    forall s, m s = (fst (m0 (view s)), back s (snd (m0 (view s)))).

  Lemma view_back s v : view (back s v) = v.
  Proof. destruct v. unfold view, back. cbn. now rewrite get_put. Qed.
  Lemma back_back s v w : back (back s v) w = back s w.
  Proof. unfold back. cbn. now rewrite put_put. Qed.
  Lemma back_view s : back s (view s) = s.
  Proof. destruct s. unfold view, back. cbn. now rewrite put_get. Qed.

  Lemma framed_bind {A B} (m : act (alg X) A) m0 (f : A -> act (alg X) B) f0 : framed m m0 -> (forall a, framed (f a) (f0 a)) -> framed (abind m f) (abind m0 f0).
  Proof.
    intros H1 H2 s. unfold abind. rewrite H1. destruct (m0 (view s)) as [[a|e| |] v]; cbn [fst snd]; try reflexivity.
    rewrite H2, view_back, back_back. reflexivity.
  Qed.
  Lemma framed_ret {A} (a : A) : framed (aret a) (aret a).
  Proof. intros s. unfold aret. cbn. now rewrite back_view. Qed.
  Lemma framed_get : framed (aget (fun s => get (a_mem s))) (aget (fun s => a_mem s)).
  Proof. intros s. unfold aget. cbn. now rewrite back_view. Qed.
  Lemma framed_assert b : framed (aassert b) (aassert b).
  Proof. intros s. unfold aassert. cbn. now rewrite back_view. Qed.
  Lemma framed_lift {A} (c : outcome A) : framed (lift c) (lift c).
  Proof. intros s. unfold lift. cbn. now rewrite back_view. Qed.
  Lemma framed_evaluate o x : framed (evaluate o x) (evaluate o x).
  Proof. intros s. unfold evaluate. cbn [view a_trace]. destruct (o_stop o (length (a_trace s))); cbn [fst snd]; [now rewrite back_view|]. destruct s. unfold back, put_trace. cbn. now rewrite put_get. Qed.
  Lemma framed_update x v : framed (update_solution x v) (update_solution x v).
  Proof. intros s. unfold update_solution. cbn [view a_sol]. destruct (snd (a_sol s) <? v)%Z; cbn [fst snd]; [|now rewrite back_view]. destruct s. unfold back, put_sol. cbn. now rewrite put_get. Qed.
  Lemma framed_afor f f0 l : (forall i, framed (f i) (f0 i)) -> framed (afor f l) (afor f0 l).
  Proof. intros H. induction l as [|i l IH]; cbn [afor]; [apply framed_ret|]. apply framed_bind; auto. Qed.
  Lemma framed_on_pop f : framed (on_pop get put f) (on_pop (fun p => p) (fun p _ => p) f).
  Proof.
    intros s. unfold on_pop, on_mem. cbn [view a_mem]. destruct (f (get (a_mem s))) as [p|e|]; cbn [bind fst snd]; try now rewrite back_view.
    destruct s. unfold back, put_mem. reflexivity.
  Qed.

  Lemma framed_eval o : framed (eval_pop get put o) (eval_pop (fun p => p) (fun p _ => p) o).
  Proof.
    unfold eval_pop. apply framed_bind; [apply framed_get|]. intros p. apply framed_bind; [apply framed_assert|]. intros _. apply framed_afor. intros i.
    apply framed_bind; [apply framed_get|]. intros q. apply framed_bind; [apply framed_lift|]. intros b. apply framed_bind; [apply framed_evaluate|]. intros v. apply framed_on_pop.
  Qed.
  Lemma framed_sort sh srt : framed (sort_pop get put sh srt) (sort_pop (fun p => p) (fun p _ => p) sh srt).
  Proof. apply framed_on_pop. Qed.
  Lemma framed_best : framed (update_with_best get) (update_with_best (fun p => p)).
  Proof.
    unfold update_with_best. apply framed_bind; [apply framed_get|]. intros p. apply framed_bind; [apply framed_lift|]. intros b. apply framed_bind; [apply framed_lift|]. intros v. apply framed_update.
  Qed.

  (** A generation *)
  Definition generation (sh : list nat -> list nat) (srt : (nat -> nat -> bool) -> list nat -> list nat) (o : objective) : act (alg population) unit :=
    _ <~ eval_pop (fun p => p) (fun p _ => p) o ;; _ <~ sort_pop (fun p => p) (fun p _ => p) sh srt ;; update_with_best (fun p => p).
  Lemma framed_generation sh srt o : framed (_ <~ eval_pop get put o ;; _ <~ sort_pop get put sh srt ;; update_with_best get) (generation sh srt o).
  Proof. apply framed_bind; [apply framed_eval|]. intros _. apply framed_bind; [apply framed_sort|]. intros _. apply framed_best. Qed.
End Frame.

(** Runs of two algorithms *)
Definition related {X Y} (R : alg X -> alg Y -> Prop) (x : res unit * alg X) (y : res unit * alg Y) : Prop :=
  fst x = fst y /\ (fst x = Ret tt -> R (snd x) (snd y)) /\ a_trace (snd x) = a_trace (snd y) /\ a_sol (snd x) = a_sol (snd y).

Lemma loop_related {X Y} (R : alg X -> alg Y -> Prop) init init' iterate iterate' num fuel s s' :
  (forall a b, R a b -> a_trace a = a_trace b /\ a_sol a = a_sol b /\ a_last a = a_last b) -> (forall a b l, R a b -> R (put_last l a) (put_last l b)) ->
  related R (init s) (init' s') -> (forall i a b, R a b -> related R (iterate i a) (iterate' i b)) ->
  related R (loop init iterate num fuel s) (loop init' iterate' num fuel s').
Proof.
  intros HR HL HI HS. unfold loop, abind. destruct HI as (E & HI & T & SO). destruct (init s) as [r a], (init' s') as [r' b]. cbn [fst snd] in *. subst r'.
  destruct r as [[]|e| |]; [|unfold related; cbn [fst snd]; repeat split; auto; discriminate..]. specialize (HI eq_refl). cbn [amodify]. apply (HL _ _ false) in HI. revert HI.
  generalize (put_last false a) (put_last false b) 0. clear -HR HS. induction fuel as [|fuel IH]; intros a b i HI; cbn [loop_from].
  - destruct (HR _ _ HI) as (H1 & H2 & _). unfold related; cbn [fst snd]. auto.
  - destruct (HR _ _ HI) as (H1 & H2 & H3). rewrite H3. destruct (_ && _)%bool; [unfold related; cbn [fst snd]; auto|]. destruct (a_last b); [unfold related; cbn [fst snd]; auto|].
    unfold abind. destruct (HS i a b HI) as (E & HI' & T & SO). destruct (iterate i a) as [r a'], (iterate' i b) as [r' b']. cbn [fst snd] in *. subst r'.
    destruct r as [[]|e| |]; [apply IH, HI', eq_refl|unfold related; cbn [fst snd]; repeat split; auto; discriminate..].
Qed.

(** A run which returns, when nothing ends it early, has made all its iterations. *)
Lemma loop_counts {X} (I : nat -> alg X -> Prop) (init : act (alg X) unit) iterate E num fuel s0 u s :
  wp init (fun _ s' => I 0 (put_last false s')) E s0 ->
  (forall i s, I i s -> a_last s = false -> wp (iterate i) (fun _ s' => I (i + 1) s' /\ a_last s' = false) E s) ->
  loop init iterate num fuel s0 = (Ret u, s) -> (0 < num)%Z /\ I (Z.to_nat num) s.
Proof.
  intros HI HS. unfold loop, abind. unfold wp in HI. destruct (init s0) as [[x|e| |] s1]; try discriminate. cbn [amodify].
  assert (G : forall i a, I i a -> a_last a = false -> ((0 < num)%Z -> (Z.of_nat i <= num)%Z) -> loop_from iterate num i fuel a = (Ret u, s) -> (0 < num)%Z /\ I (Z.to_nat num) s).
  { clear HI. induction fuel as [|f IH]; intros i a H LA LE; cbn [loop_from]; [discriminate|]. destruct ((0 <? num)%Z && (num <=? Z.of_nat i)%Z) eqn:G.
    - apply andb_true_iff in G as [G1 G2]. apply Z.ltb_lt in G1. apply Z.leb_le in G2. intros EQ. injection EQ as _ <-. split; [assumption|]. specialize (LE G1). now replace (Z.to_nat num) with i by lia.
    - rewrite LA. unfold abind. specialize (HS i a H LA). unfold wp in HS. destruct (iterate i a) as [[y|e| |] a']; try discriminate. destruct HS as (H' & LA'). apply IH; auto. intros P. specialize (LE P).
      apply andb_false_iff in G as [G|G]; [apply Z.ltb_ge in G; lia|apply Z.leb_gt in G; lia]. }
  apply G; auto; lia.
Qed.
