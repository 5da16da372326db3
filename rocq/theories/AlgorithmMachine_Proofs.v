(** Proofs about the algorithms run by the application. *)

From Coq Require Import ZArith.
From Verif Require Import Base BaseLemmas BitVector_Model BitVector_Spec Map_Model Map_Spec Double
  Neighborhood_Model Neighborhood_Spec Neighborhood_Proofs
  Controller_Model Controller_Spec Controller_Proofs Decorator_Model Decorator_Spec ControllerStack_Spec ControllerStack_Proofs
  Application_Model Application_Spec Application_Proofs Search_Model Search_Spec Search_Proofs Algorithm_Model Algorithm_Spec Algorithm_Proofs AlgorithmMachine_Model AlgorithmMachine_Spec.
Local Open Scope nat_scope.

(** * Trees of calls *)

(** What a program does with a function: it ends in some state, or it evaluates a vector in
    some state and goes on with the value. *)
Inductive tree (X A : Type) : Type :=
| Leaf (r : res A) (s : alg X)
| Ask (s : alg X) (x : bv) (k : Z -> tree X A).
Arguments Leaf {X A}.
Arguments Ask {X A}.

Fixpoint interp {X A} (t : tree X A) (o : objective) : res A * alg X :=
  match t with
  | Leaf r s => (r, s)
  | Ask s x k => match o_stop o (length (a_trace s)) with Some e => (Exc e, s) | None => interp (k (o_value o x)) o end
  end.

(** Own exceptions of algorithms *)
Definition own {A} (r : res A) : Prop := r <> Exc LastEvaluation /\ r <> Exc TargetReached.

Fixpoint wf {X A} (w : list bv) (t : tree X A) : Prop :=
  match t with
  | Leaf r s => a_trace s = w /\ own r
  | Ask s x k => a_trace s = w /\ forall v, wf (w ++ [x]) (k v)
  end.

Fixpoint tbind {X A B} (t : tree X A) (k : A -> alg X -> tree X B) : tree X B :=
  match t with
  | Leaf (Ret a) s => k a s
  | Leaf (Exc e) s => Leaf (Exc e) s
  | Leaf Bad s => Leaf Bad s
  | Leaf Pending s => Leaf Pending s
  | Ask s x c => Ask s x (fun v => tbind (c v) k)
  end.

Lemma interp_bind {X A B} (t : tree X A) (k : A -> alg X -> tree X B) o :
  interp (tbind t k) o = match interp t o with
                         | (Ret a, s) => interp (k a s) o
                         | (Exc e, s) => (Exc e, s) | (Bad, s) => (Bad, s) | (Pending, s) => (Pending, s)
                         end.
Proof.
  induction t as [[a|e| |] s|s x c IH]; cbn; auto. destruct (o_stop o (length (a_trace s))); auto.
Qed.

Lemma wf_bind {X A B} (t : tree X A) (k : A -> alg X -> tree X B) : (forall a s, wf (a_trace s) (k a s)) ->
  forall w, wf w t -> wf w (tbind t k).
Proof.
  intros H. induction t as [[a|e| |] s|s x c IH]; cbn; intros w W.
  - destruct W as [<- _]. apply H.
  - split; [apply W|]. destruct W as [_ [W1 W2]]. split; congruence.
  - split; [apply W|split; discriminate].
  - split; [apply W|split; discriminate].
  - destruct W as [W1 W2]. split; auto.
Qed.

(** A program which only knows its function by its calls of evaluate. *)
Record adaptive {X A} (m : objective -> act (alg X) A) : Type := mk_adaptive {
  ad_tree : alg X -> tree X A;
  ad_wf : forall s, wf (a_trace s) (ad_tree s);
  ad_ok : forall o s, o_provides o = false -> m o s = interp (ad_tree s) o }.
Arguments ad_tree {X A m}.
Arguments ad_wf {X A m}.
Arguments ad_ok {X A m}.

Definition ad_bind {X A B} (m : objective -> act (alg X) A) (k : A -> objective -> act (alg X) B) :
  adaptive m -> (forall a, adaptive (k a)) -> adaptive (fun o => abind (m o) (fun a => k a o)).
Proof.
  intros M K. refine (mk_adaptive _ _ _ (fun s => tbind (ad_tree M s) (fun a => ad_tree (K a))) _ _).
  - intros s. apply wf_bind; [|apply ad_wf]. intros a s'. apply ad_wf.
  - intros o s P. rewrite interp_bind. unfold abind. rewrite (ad_ok M o s P). destruct (interp (ad_tree M s) o) as [[a|e| |] s']; auto.
    apply (ad_ok (K a) o s' P).
Defined.

Definition ad_evaluate {X} x : adaptive (X := X) (fun o => evaluate o x).
Proof.
  refine (mk_adaptive _ _ _ (fun s => Ask s x (fun v => Leaf (Ret v) (put_trace x s))) _ _).
  - intros s. cbn. split; [auto|]. intros v. split; [auto|split; discriminate].
  - intros o s _. reflexivity.
Defined.

(** A program which does not call the function *)
Definition silent {X A} (m : act (alg X) A) : Prop := forall s, a_trace (snd (m s)) = a_trace s /\ own (fst (m s)).
Definition ad_silent {X A} (m : act (alg X) A) : silent m -> adaptive (fun _ => m).
Proof.
  intros H. refine (mk_adaptive _ _ _ (fun s => Leaf (fst (m s)) (snd (m s))) _ _).
  - intros s. cbn. apply H.
  - intros o s _. cbn. now destruct (m s).
Defined.

Definition ad_ext {X A} (m m' : objective -> act (alg X) A) : (forall o s, o_provides o = false -> m' o s = m o s) -> adaptive m -> adaptive m'.
Proof.
  intros H M. refine (mk_adaptive _ _ _ (ad_tree M) (ad_wf M) _). intros o s P. rewrite H by exact P. apply (ad_ok M o s P).
Defined.

Lemma silent_ret {X A} (a : A) : silent (X := X) (aret a).
Proof. split; [auto|split; discriminate]. Qed.
Lemma silent_modify {X} (g : alg X -> alg X) : (forall s, a_trace (g s) = a_trace s) -> silent (amodify g).
Proof. intros H s. split; [apply H|split; discriminate]. Qed.
Lemma silent_get {X A} (g : alg X -> A) : silent (aget g).
Proof. split; [auto|split; discriminate]. Qed.
Lemma silent_assert {X} b : silent (X := X) (aassert b).
Proof. split; [auto|]. destruct b; split; discriminate. Qed.
Lemma silent_pending {X A} : silent (X := X) (fun s => (@Pending A, s)).
Proof. split; [auto|split; discriminate]. Qed.
Lemma silent_update {X} x v : silent (X := X) (update_solution x v).
Proof. intros s. unfold update_solution. destruct (snd (a_sol s) <? v)%Z; (split; [auto|split; discriminate]). Qed.

(** Outcomes without the exceptions of controllers *)
Definition own_outcome {A} (r : outcome A) : Prop := r <> Throw LastEvaluation /\ r <> Throw TargetReached.
Lemma own_bind {A B} (m : outcome A) (k : A -> outcome B) : own_outcome m -> (forall a, own_outcome (k a)) -> own_outcome (bind m k).
Proof. intros [H1 H2] H. destruct m as [a|e|]; cbn; [apply H| |split; discriminate]. split; congruence. Qed.
Lemma own_ok {A} (a : A) : own_outcome (Ok a).
Proof. split; discriminate. Qed.
Lemma own_ub {A} : own_outcome (@UB A).
Proof. split; discriminate. Qed.
Lemma own_assert b : own_outcome (assertb b).
Proof. destruct b; split; discriminate. Qed.
Lemma own_ensure b : own_outcome (ensureb b).
Proof. destruct b; split; discriminate. Qed.
Lemma own_vget {A} (l : list A) i : own_outcome (vget l i).
Proof. unfold vget. destruct (nth_error l i); split; discriminate. Qed.
Lemma own_vset {A} (l : list A) i a : own_outcome (vset l i a).
Proof. unfold vset. destruct (i <? length l); split; discriminate. Qed.

Lemma silent_on_mem {X A} (g : X -> outcome (A * X)) : (forall m, own_outcome (g m)) -> silent (on_mem g).
Proof.
  intros H s. unfold on_mem. specialize (H (a_mem s)). destruct (g (a_mem s)) as [[a m]|e|]; (split; [auto|]); try (split; discriminate).
  destruct H as [H1 H2]. split; cbn; congruence.
Qed.

(** Loops *)
Definition ad_loop_from {X} (iterate : objective -> nat -> act (alg X) unit) num fuel : (forall i, adaptive (fun o => iterate o i)) ->
  forall i, adaptive (fun o => loop_from (iterate o) num i fuel).
Proof.
  intros H. induction fuel as [|fuel IH]; intros i; [apply (ad_silent _ silent_pending)|].
  set (M := ad_bind _ _ (H i) (fun _ : unit => IH (i + 1))).
  refine (mk_adaptive _ _ _ (fun s => if ((0 <? num) && (num <=? Z.of_nat i))%Z then Leaf (Ret tt) s else if a_last s then Leaf (Ret tt) s else ad_tree M s) _ _).
  - intros s. destruct ((0 <? num) && (num <=? Z.of_nat i))%Z; [cbn; split; [auto|split; discriminate]|].
    destruct (a_last s); [cbn; split; [auto|split; discriminate]|]. apply ad_wf.
  - intros o s P. cbn [loop_from]. destruct ((0 <? num) && (num <=? Z.of_nat i))%Z; [reflexivity|]. destruct (a_last s); [reflexivity|].
    apply (ad_ok M o s P).
Defined.

Definition ad_loop {X} (init : objective -> act (alg X) unit) (iterate : objective -> nat -> act (alg X) unit) num fuel :
  adaptive init -> (forall i, adaptive (fun o => iterate o i)) -> adaptive (fun o => loop (init o) (iterate o) num fuel).
Proof.
  intros I H. unfold loop. apply (ad_bind _ (fun _ o => abind (amodify (put_last false)) (fun _ => loop_from (iterate o) num 0 fuel)) I). intros _.
  apply (ad_bind (fun _ => amodify (put_last false)) (fun _ o => loop_from (iterate o) num 0 fuel)).
  - apply ad_silent, silent_modify. reflexivity.
  - intros _. now apply ad_loop_from.
Defined.

(** * Paths in trees *)

Section Paths.
  Context {X A : Type} (g : bv -> Z).
  Inductive steps (t : tree X A) : list bv -> tree X A -> Prop :=
  | steps_nil : steps t [] t
  | steps_snoc w s x k : steps t w (Ask s x k) -> steps t (w ++ [x]) (k (g x)).

  (** A function which answers like [g] along a path *)
  Definition agrees (w : list bv) (o : objective) : Prop := forall x, In x w -> o_value o x = g x.

  Lemma steps_interp t w t' w0 : steps t w t' -> wf w0 t -> wf (w0 ++ w) t' /\
    forall o, agrees w o -> (forall c, c < length w0 + length w -> o_stop o c = None) -> interp t o = interp t' o.
  Proof.
    intros H W. induction H as [|w s x k H [IH1 IH2]]; [rewrite app_nil_r; auto|]. destruct IH1 as [IH0 IH1]. split; [rewrite app_assoc; apply IH1|].
    intros o AG ST. rewrite app_length in ST. cbn [length] in ST. rewrite (IH2 o).
    - cbn [interp]. rewrite IH0, app_length, ST by lia. rewrite AG; [reflexivity|]. apply in_or_app. right. now left.
    - intros y Hy. apply AG. apply in_or_app. now left.
    - intros c Hc. apply ST. lia.
  Qed.

  Lemma wf_prefix (t : tree X A) o : forall w, wf w t -> exists w', a_trace (snd (interp t o)) = w ++ w'.
  Proof.
    induction t as [r s|s x k IH]; cbn; intros w W.
    - destruct W as [W _]. exists []. now rewrite app_nil_r.
    - destruct W as [W1 W2]. destruct (o_stop o (length (a_trace s))); [exists []; cbn; now rewrite app_nil_r|].
      destruct (IH (o_value o x) _ (W2 _)) as [w' E]. rewrite E. exists (x :: w'). now rewrite <- app_assoc.
  Qed.

  Lemma wf_stop (t : tree X A) w o : wf w t -> (forall c, length w <= c -> o_stop o c <> None) -> a_trace (snd (interp t o)) = w.
  Proof.
    destruct t as [r s|s x k]; cbn; intros [W _] ST; [exact W|]. specialize (ST (length w) (Nat.le_refl _)). rewrite W.
    destruct (o_stop o (length w)); [exact W|contradiction].
  Qed.
End Paths.

Lemma bv_eqb_eq x y : bv_eqb x y = true <-> x = y.
Proof.
  revert y. induction x as [|a x IH]; destruct y as [|b y]; cbn; split; try discriminate; auto.
  - intros [H1 H2]%andb_true_iff. apply eqb_prop in H1. apply IH in H2. now subst.
  - intros [= <- <-]. rewrite eqb_reflx. now apply IH.
Qed.

Lemma lookup_heard (g : bv -> Z) w x : In x w -> lookup (map (fun x => (x, g x)) w) x = g x.
Proof.
  induction w as [|y w IH]; [intros []|]. cbn. destruct (bv_eqb x y) eqn:E; [apply bv_eqb_eq in E; now subst|].
  intros [->|H]; auto. rewrite (proj2 (bv_eqb_eq x x) eq_refl) in E. discriminate.
Qed.

(** * The machine *)

(** During its run number j, from the state s0 *)
Section Machine.
  Context {X : Type} (run : nat -> objective -> act (alg X) unit) (fin : alg X -> alg X) (made s0 : alg X) (j : nat).
  Context (AD : adaptive (run j)) (T0 : a_trace s0 = []) (g : bv -> Z).
  Local Notation M := (algorithm_machine run fin made).
  Local Notation t0 := (ad_tree AD s0).

  Lemma t0_wf : wf [] t0.
  Proof. rewrite <- T0. apply ad_wf. Qed.

  (** The machine after the values of the vectors [w] *)
  Definition stands (st : ma_state M) (w : list bv) (t : tree X unit) : Prop :=
    rp_runs st = j + 1 /\ rp_base st = s0 /\ rp_running st = true /\ rp_heard st = map (fun x => (x, g x)) w /\ steps g t0 w t.

  Lemma stands_begin st : rp_runs st = j -> (let s := rp_current run st in mk_alg [] (a_sol s) (a_last s) (a_mem s)) = s0 -> stands (ma_begin M st) [] t0.
  Proof. intros E1 E2. repeat split; [cbn; now rewrite E1|exact E2|constructor]. Qed.

  Lemma run_steps o w t : o_provides o = false -> steps g t0 w t -> agrees g w o -> (forall c, c < length w -> o_stop o c = None) -> run j o s0 = interp t o.
  Proof.
    intros P H AG ST. rewrite (ad_ok AD o s0 P). destruct (steps_interp g t0 w t [] H t0_wf) as [_ E]. apply E; auto.
  Qed.
  Lemma steps_wf w t : steps g t0 w t -> wf w t.
  Proof. intros H. apply (steps_interp g t0 w t [] H t0_wf). Qed.

  Lemma stands_replay st w t k : stands st w t -> length w <= k -> replay run st k = interp t (told (map (fun x => (x, g x)) w) k).
  Proof.
    intros (H1 & H2 & H3 & H4 & H5) Hk. unfold replay. rewrite H1, Nat.add_sub, H2, H4. apply (run_steps _ w); auto.
    - intros x Hx. cbn. now apply lookup_heard.
    - intros c Hc. cbn [told o_stop]. destruct (Nat.ltb_spec c k); [reflexivity|lia].
  Qed.

  Lemma stands_next st w t : stands st w t ->
    ma_next M st = match t with
                   | Ask _ x _ => MCall (REval x)
                   | Leaf (Ret _) _ => MReturn | Leaf (Exc e) _ => MThrow e | Leaf Bad _ => MUndefined | Leaf Pending _ => MSilent
                   end /\
    rp_current run st = match t with Ask s _ _ | Leaf _ s => s end.
  Proof.
    intros HS. pose proof HS as (H1 & H2 & H3 & H4 & H5). pose proof (steps_wf w t H5) as W.
    assert (L : length (rp_heard st) = length w) by (rewrite H4; apply map_length).
    split.
    - cbn [ma_next algorithm_machine]. unfold rp_next. rewrite L, (stands_replay st w t) by (auto; lia).
      destruct t as [r s|s x k].
      + cbn [interp]. destruct W as [<- _]. rewrite (proj2 (nth_error_None (a_trace s) (length (a_trace s)))) by lia. destruct r; reflexivity.
      + destruct W as [W1 W2]. cbn [interp]. rewrite W1. cbn [told o_stop].
        destruct (Nat.ltb_spec (length w) (length w + 1)); [|lia].
        destruct (interp _ _) as [r s'] eqn:EI.
        match type of EI with interp ?t ?o = _ => destruct (wf_prefix t o _ (W2 _)) as [w' EP] end. rewrite EI in EP. cbn [snd] in EP.
        rewrite EP, nth_error_app1 by (rewrite app_length; cbn; lia). rewrite nth_error_app2, Nat.sub_diag by lia. reflexivity.
    - unfold rp_current. rewrite H3, L, (stands_replay st w t) by (auto; lia). destruct t as [r s|s x k]; [reflexivity|].
      destruct W as [W1 _]. cbn [interp]. rewrite W1. cbn [told o_stop]. now rewrite Nat.ltb_irrefl.
  Qed.

  Lemma stands_after st w s x k v : stands st w (Ask s x k) -> v = DFin (g x) -> stands (ma_after M st (Ok (RValue v))) (w ++ [x]) (k (g x)).
  Proof.
    intros HS ->. pose proof (proj1 (stands_next st w _ HS)) as EN. cbn [ma_next algorithm_machine] in EN.
    destruct HS as (H1 & H2 & H3 & H4 & H5). cbn [ma_after algorithm_machine]. rewrite EN. repeat split; cbn; auto.
    - rewrite H4, map_app. reflexivity.
    - econstructor; eassumption.
  Qed.

  Lemma stands_throw st w s x k e : stands st w (Ask s x k) -> stands (ma_after M st (Throw e)) w (Ask s x k).
  Proof.
    intros HS. pose proof (proj1 (stands_next st w _ HS)) as EN. cbn [ma_next algorithm_machine] in EN. cbn [ma_after algorithm_machine]. now rewrite EN.
  Qed.

  Lemma stands_solution st w t : stands st w t ->
    fst (ma_solution M (ma_finalize M st)) = fst (a_sol (fin (match t with Ask s _ _ | Leaf _ s => s end))).
  Proof. intros H. cbn [ma_solution ma_finalize algorithm_machine]. rewrite (proj2 (stands_next st w t H)). reflexivity. Qed.

  (** ** Playing *)

  Context {S : Type} (o : fobj S) (n : nat) (f : bv -> dbl) (inv : S -> Prop).
  Context (Hinv : forall t x, inv t -> length x = n -> snd (o t (REval x)) = Ok (RValue (f x)) /\ inv (fst (o t (REval x)))).
  Context (HV : finite_values n f g) (mid : middle) (target : option dbl).
  Context (SZ : forall ob, o_provides ob = false -> Forall (fun x => length x = n) (a_trace (snd (run j ob s0)))).
  Local Notation C := (controlled_obj mid target o).
  Local Notation kn := (known n f inv mid).

  Lemma HN : numbers n f.
  Proof. intros x Hx. now rewrite (HV x Hx). Qed.

  Lemma asked_sized w s x k : steps g t0 w (Ask s x k) -> length x = n.
  Proof.
    intros H. pose proof (steps_wf _ _ H) as [W1 W2].
    assert (E : a_trace (snd (run j (stopping g (length w + 1) LastEvaluation) s0)) = w ++ [x]).
    { rewrite (run_steps _ (w ++ [x]) (k (g x))); auto.
      - apply wf_stop; [apply W2|]. rewrite app_length. cbn [length stopping o_stop]. intros c Hc. destruct (Nat.ltb_spec c (length w + 1)); [lia|discriminate].
      - now apply steps_snoc with (s := s).
      - intros y Hy. reflexivity.
      - rewrite app_length. cbn [length stopping o_stop]. intros c Hc. destruct (Nat.ltb_spec c (length w + 1)); [reflexivity|lia]. }
    pose proof (SZ (stopping g (length w + 1) LastEvaluation) eq_refl) as F. rewrite E in F. apply Forall_app in F as [_ F]. now inversion F.
  Qed.

  (** How a play ends *)
  Inductive play_ends : option (ma_state M * (option (bv * dbl) * middle_state mid (improvement * (nat * S))) * outcome unit) -> Prop :=
  | ends_leaf st cs w r s : stands st w (Leaf r s) -> kn (valued f w) (snd cs) -> misses target f w ->
      play_ends (match r with
                 | Ret _ => Some (st, cs, Ok tt) | Exc e => Some (st, cs, Throw e) | Bad => Some (st, cs, UB) | Pending => None
                 end)
  | ends_budget st cs w s x k : stands st w (Ask s x k) -> kn (valued f w) (snd cs) -> misses target f w ->
      match budget_of mid with Some b => (b <= Z.of_nat (length w))%Z | None => False end ->
      play_ends (Some (st, cs, Throw LastEvaluation))
  | ends_target st cs w s x k t : steps g t0 w (Ask s x k) -> kn (valued f (w ++ [x])) (snd cs) -> misses target f w ->
      target = Some t -> dge (f x) t = true -> fst cs = Some (x, f x) -> length x = n ->
      play_ends (Some (st, cs, Throw TargetReached)).

  Lemma play_spec t : forall w st cs fuel, stands st w t -> kn (valued f w) (snd cs) -> misses target f w ->
    length (a_trace (snd (interp t (endless g)))) < length w + fuel -> play_ends (play C M fuel st cs).
  Proof.
    induction t as [r s|s x k IH]; intros w st cs fuel HS HK HM HF; pose proof (proj1 (stands_next st w _ HS)) as EN.
    - pose proof HS as (_ & _ & _ & _ & HP). destruct (steps_wf _ _ HP) as [W _]. cbn [interp snd] in HF. rewrite W in HF.
      destruct fuel as [|fuel]; [lia|]. pose proof (ends_leaf st cs w r s HS HK HM) as EL.
      destruct r as [[]|e| |]; cbn [play]; rewrite EN; auto.
      replace (play C M fuel (ma_after M st (Ok RVoid)) cs) with (@None (ma_state M * (option (bv * dbl) * middle_state mid (improvement * (nat * S))) * outcome unit)); [exact EL|].
      assert (EA : ma_after M st (Ok RVoid) = st) by (cbn [ma_after algorithm_machine]; cbn [ma_next algorithm_machine] in EN; now rewrite EN).
      rewrite EA. clear HF EA. induction fuel as [|fuel IH]; [reflexivity|]. cbn [play]. rewrite EN.
      assert (EA : ma_after M st (Ok RVoid) = st) by (cbn [ma_after algorithm_machine]; cbn [ma_next algorithm_machine] in EN; now rewrite EN).
      rewrite EA. exact IH.
    - pose proof HS as (_ & _ & _ & _ & HP). pose proof (steps_wf _ _ HP) as [W1 W2]. pose proof (asked_sized _ _ _ _ HP) as Lx.
      cbn [interp endless o_stop o_value] in HF. destruct (wf_prefix _ (endless g) _ (W2 (g x))) as [w' EW].
      assert (L : length w + 1 <= length (a_trace (snd (interp (k (g x)) (endless g))))) by (rewrite EW, !app_length; cbn; lia).
      destruct fuel as [|fuel]; [lia|]. cbn [play]. rewrite EN. destruct cs as [tr ms].
      pose proof (controlled_answered o n f inv Hinv HN mid target (valued f w) tr ms x HK Lx) as CA. cbv zeta in CA.
      destruct (C (tr, ms) (REval x)) as [[tr' ms'] a] eqn:EC. cbn [fst snd] in CA. rewrite valued_length in CA.
      assert (EV : valued f w ++ [(x, f x)] = valued f (w ++ [x])) by (rewrite valued_app; reflexivity). rewrite EV in CA.
      destruct CA as [(K1 & _ & K2)|(K1 & K2 & K3)].
      + assert (Go : a = Ok (RValue (f x)) -> (forall t, target = Some t -> dge (f x) t = false) ->
          play_ends (match a with
                     | Ok _ => play C M fuel (ma_after M st a) (tr', ms')
                     | Throw e => Some (ma_after M st a, (tr', ms'), Throw e)
                     | UB => Some (ma_after M st a, (tr', ms'), UB) end)).
        { intros -> BT. apply (IH (g x) (w ++ [x])).
          - apply stands_after with (s := s); [exact HS|]. now apply HV.
          - exact K1.
          - intros t y Et Hy. apply in_app_or in Hy as [Hy|[<-|[]]]; [now apply (HM t)|now apply BT].
          - rewrite app_length. cbn [length]. lia. }
        assert (CT : (exists t, target = Some t) \/ target = None) by (destruct target; eauto).
        destruct CT as [[t ET]|ET]; rewrite ET in K2.
        * destruct (dge (f x) t) eqn:G; destruct K2 as [K2 K3].
          -- rewrite K2. now apply (ends_target (ma_after M st (Throw TargetReached)) (tr', ms') w s x k t).
          -- apply Go; [exact K2|]. intros t' E'. rewrite ET in E'. injection E' as <-. exact G.
        * apply Go; [apply K2|]. intros t' E'. congruence.
      + rewrite K1. apply (ends_budget (ma_after M st (Throw LastEvaluation)) (tr', ms') w s x k).
        * now apply stands_throw.
        * exact K2.
        * exact HM.
        * destruct (budget_of mid); [apply K3|exact K3].
  Qed.
End Machine.

(** * The program *)

Theorem algorithm_program {X} ap co m F factory mid target i n f g (run : nat -> objective -> act (alg X) unit) fin s0 :
  adaptive (run 0) -> a_trace s0 = [] ->
  (forall o, o_provides o = false -> Forall (fun x => length x = i) (a_trace (snd (run 0 o s0))) /\ length (fst (a_sol (fin (snd (run 0 o s0))))) = i) ->
  factory (fp_size (f_props F)) = Ok (algorithm_machine run fin s0) ->
  optimizes ap -> ap_restart ap = false -> make_function_controller co F = Ok (mid, target) ->
  map_fits m i n -> kind_known m -> fp_size (f_props F) = i -> total (f_obj F) (f_init F) i f -> finite_values i f g ->
  forall fuel, length (a_trace (snd (run 0 (endless g) s0))) < fuel ->
  program_ends ap co m i target f g (run 0) fin s0 (program ap co (Ok (Some (m, F))) factory fuel).
Proof.
  intros AD T0 SZ HFa HO HR HC HM HK HF HT HV fuel HFu.
  destruct (total_inv _ _ _ _ HT) as (inv & I0 & Hinv).
  assert (N : numbers i f) by (intros x Hx; now rewrite (HV x Hx)).
  assert (EM : mid = middle_of co).
  { unfold make_function_controller in HC. destruct (target_of co (f_props F)); try discriminate. now injection HC as <- _. }
  assert (K0 : known i f inv mid [] (snd (controlled_init mid i (f_init F)))).
  { apply known_init; auto. rewrite EM. unfold middle_of. destruct (Z.ltb_spec 0 (co_budget co)), (co_cache co), (co_cache_budget co); cbn; intros b [= <-]; lia. }
  set (M := algorithm_machine run fin s0) in *.
  assert (PR : program ap co (Ok (Some (m, F))) factory fuel =
    match play (controlled_obj mid target (f_obj F)) M fuel (ma_begin M (ma_init M)) (controlled_init mid i (f_init F)) with
    | None => None | Some (st, cs, r) => Some (end_of_program (end_of_run ap co m F mid target M st cs r)) end).
  { pose proof (program_run ap co m F factory M mid target HO HC HFa fuel) as PR. unfold run_by in PR. now rewrite HR, HF in PR. }
  rewrite PR. clear PR.
  assert (SZ1 : forall o, o_provides o = false -> Forall (fun x => length x = i) (a_trace (snd (run 0 o s0)))) by (intros o Ho; now apply SZ).
  assert (PE : play_ends run fin s0 s0 0 AD g i f inv mid target
    (play (controlled_obj mid target (f_obj F)) M fuel (ma_begin M (ma_init M)) (controlled_init mid i (f_init F)))).
  { apply (play_spec run fin s0 s0 0 AD T0 g (f_obj F) i f inv Hinv HV mid target SZ1 (ad_tree AD s0) []).
    - apply stands_begin; [reflexivity|]. unfold rp_current. cbn. destruct s0 as [tr sol l me]. cbn in *. now subst.
    - exact K0.
    - intros t x _ [].
    - cbn [length Nat.add]. rewrite (ad_ok AD (endless g) s0 eq_refl) in HFu. exact HFu. }
  clear HFu. set (pl := play _ _ _ _ _) in *. clearbody pl.
  (* the results *)
  assert (TA : forall (cs : option (bv * dbl) * middle_state mid (improvement * (nat * f_state F))) w b, known i f inv mid (valued f w) (snd cs) ->
    tallies co f w (final_results co mid cs b)).
  { intros cs w b [T _]. pose proof T as (_ & _ & C1 & C2 & B). rewrite valued_length in C1, C2.
    assert (Ec : co_cache co = false -> negb (has_cache mid) = true). { intros Hca. rewrite EM. unfold middle_of. rewrite Hca. destruct (Z.ltb_spec 0 (co_budget co)); reflexivity. }
    split; [exact C1|]. split; [intros Hca; cbn [final_results rs_total]; auto|]. intros NE. destruct B as (B0 & k & x & v & B1 & B2 & B3).
    { destruct w; [now destruct NE|discriminate]. }
    split; [exact B0|]. exists k, x. destruct (tracked_value i f inv N _ _ _ x v T (best_record_In _ _ _ _ B1)) as (_ & -> & _).
    split; [exact B1|]. split; [exact B2|]. intros Hca. cbn [final_results rs_num]. auto. }
  assert (WB : forall (cs : option (bv * dbl) * middle_state mid (improvement * (nat * f_state F))) w, known i f inv mid (valued f w) (snd cs) -> within_budget co w).
  { intros cs w [_ Kn] Hca Hb. clear - Kn Hca Hb EM. subst mid. revert cs Kn. unfold middle_of. rewrite Hca.
    destruct (Z.ltb_spec 0 (co_budget co)); [|lia]. intros cs [K1 K2]. rewrite valued_length in K1. lia. }
  assert (AG : forall w k e, agrees g w (stopping g k e)) by (intros w k e x _; reflexivity).
  destruct PE as [st cs w r s HS HKn HMi|st cs w s x k HS HKn HMi HB|st cs w s x k t HP HKn HMi ET HG Ecs Lx].
  - pose proof HS as (_ & _ & _ & _ & HP). destruct (steps_wf run s0 0 AD T0 g _ _ HP) as [W [OW1 OW2]].
    assert (ER : run 0 (endless g) s0 = (r, s)).
    { apply (run_steps run s0 0 AD T0 g (endless g) w (Leaf r s)); auto. intros x _. reflexivity. }
    rewrite <- W in HMi, HKn.
    destruct r as [[]|e| |].
    + pose proof (proj2 (SZ (endless g) eq_refl)) as SL. rewrite ER in SL. cbn [snd] in SL.
      pose proof (stands_solution run fin s0 s0 0 AD T0 g st w _ HS) as ES. fold M in ES.
      rewrite (end_spec ap co m F mid target i n HC HM HK HF M st cs (Ok tt) _ false (concludes_return M st (fst cs))); [|discriminate|now rewrite ES].
      rewrite ES. apply (by_return _ _ _ _ _ _ _ _ _ _ s (final_results co mid cs false)); auto. now apply (WB cs).
    + rewrite (error_spec ap co m F mid target M st cs e) by congruence. now apply (by_exception _ _ _ _ _ _ _ _ _ _ s).
    + apply (by_undefined _ _ _ _ _ _ _ _ _ _ s); auto.
    + apply (goes_on _ _ _ _ _ _ _ _ _ _ s); auto. now apply (WB cs).
  - pose proof HS as (_ & _ & _ & _ & HP). destruct (steps_wf run s0 0 AD T0 g _ _ HP) as [W _].
    assert (ER : run 0 (stopping g (length (a_trace s)) LastEvaluation) s0 = (Exc LastEvaluation, s)).
    { rewrite (run_steps run s0 0 AD T0 g _ w (Ask s x k)); auto.
      - cbn [interp stopping o_stop]. now rewrite Nat.ltb_irrefl.
      - intros c Hc. cbn [stopping o_stop]. rewrite W. destruct (Nat.ltb_spec c (length w)); [reflexivity|lia]. }
    pose proof (proj2 (SZ (stopping g (length (a_trace s)) LastEvaluation) eq_refl)) as SL. rewrite ER in SL. cbn [snd] in SL.
    pose proof (stands_solution run fin s0 s0 0 AD T0 g st w _ HS) as ES. fold M in ES.
    rewrite (end_spec ap co m F mid target i n HC HM HK HF M st cs (Throw LastEvaluation) _ false (concludes_budget M st (fst cs))); [|discriminate|now rewrite ES].
    rewrite ES. rewrite <- W in HMi, HKn, HB.
    assert (BU : (0 < co_budget co)%Z /\ (co_budget co <= Z.of_nat (length (a_trace s)))%Z).
    { rewrite EM, budget_of_middle in HB. destruct (Z.ltb_spec 0 (co_budget co)); [auto|contradiction]. }
    apply (by_budget _ _ _ _ _ _ _ _ _ _ s (final_results co mid cs false)); auto.
    intros Hca. destruct HKn as [_ HKn]. revert cs HS HKn ES. rewrite EM. unfold middle_of. rewrite Hca.
    destruct (Z.ltb_spec 0 (co_budget co)); [|lia]. intros cs _ [K1 K2] _. rewrite valued_length in K1. lia.
  - destruct (steps_wf run s0 0 AD T0 g _ _ HP) as [W W2].
    assert (ER : run 0 (stopping g (length (a_trace s)) TargetReached) s0 = (Exc TargetReached, s)).
    { rewrite (run_steps run s0 0 AD T0 g _ w (Ask s x k)); auto.
      - cbn [interp stopping o_stop]. now rewrite Nat.ltb_irrefl.
      - intros c Hc. cbn [stopping o_stop]. rewrite W. destruct (Nat.ltb_spec c (length w)); [reflexivity|lia]. }
    assert (EN : a_trace (snd (run 0 (stopping g (length (a_trace s) + 1) TargetReached) s0)) = a_trace s ++ [x]).
    { rewrite (run_steps run s0 0 AD T0 g _ (w ++ [x]) (k (g x))); auto.
      - rewrite W. apply wf_stop; [apply W2|]. rewrite app_length. cbn [length stopping o_stop]. intros c Hc.
        destruct (Nat.ltb_spec c (length w + 1)); [lia|discriminate].
      - now apply steps_snoc with (s := s).
      - rewrite W, app_length. cbn [length stopping o_stop]. intros c Hc. destruct (Nat.ltb_spec c (length w + 1)); [reflexivity|lia]. }
    rewrite (end_spec ap co m F mid target i n HC HM HK HF M st cs (Throw TargetReached) x true); [|econstructor; exact Ecs|congruence|exact Lx].
    pose proof (TA cs (w ++ [x]) true HKn) as TT. pose proof (WB cs (w ++ [x]) HKn) as WT. rewrite <- W in TT, HMi, WT.
    apply (by_target _ _ _ _ _ _ _ _ _ _ s x (final_results co mid cs true) t); auto.
    destruct TT as (_ & _ & TT). destruct TT as (_ & k' & z & B1 & B2 & _); [now destruct (a_trace s)|]. rewrite B2. f_equal.
      assert (Hx : In (x, f x) (valued f (a_trace s ++ [x]))) by (rewrite valued_app; apply in_or_app; right; now left).
      destruct (best_record_above _ _ _ _ _ _ B1 Hx) as [Kx|Kx]; [rewrite (N _ Lx) in Kx; discriminate|].
      apply best_record_In in B1. rewrite valued_app in B1. apply in_app_or in B1 as [B1|[B1|[]]]; [|now injection B1 as ->].
      apply in_map_iff in B1 as (z' & [= -> _] & Hz). specialize (HMi t z ET Hz). unfold dge in HMi, HG. rewrite (dle_trans t (f x) (f z) HG Kx) in HMi. discriminate.
Qed.
