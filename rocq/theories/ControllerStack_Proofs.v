From Coq Require Import ZArith.
From Verif Require Import Base BaseLemmas BitVector_Model Double Controller_Model Controller_Spec Controller_Proofs
  Decorator_Model ControllerStack_Spec.
Local Open Scope nat_scope.

Lemma sub_refl {A} (l : list A) : subsequence l l.
Proof. induction l; constructor; auto. Qed.
Lemma sub_empty {A} (l : list A) : subsequence [] l.
Proof. induction l; constructor; auto. Qed.
Lemma sub_trans {A} (l1 l2 l3 : list A) : subsequence l1 l2 -> subsequence l2 l3 -> subsequence l1 l3.
Proof.
  intros H1 H2. revert l1 H1. induction H2 as [|a l k H2 IH|a l k H2 IH]; intros l1 H1; auto.
  - inversion H1; subst; [apply sub_keep|apply sub_skip]; auto.
  - now apply sub_skip, IH.
Qed.

Lemma on_budget_sub {S} (o : fobj S) b s rs :
  exists inner, snd (run (on_budget o (Z.of_nat b)) (0, s) rs) = run o s inner /\
    subsequence inner rs /\ completed (calls o s inner) <= b.
Proof.
  assert (G : forall rs n s, exists inner, snd (run (on_budget o (Z.of_nat b)) (n, s) rs) = run o s inner /\
    subsequence inner rs /\ n + completed (calls o s inner) = fst (run (on_budget o (Z.of_nat b)) (n, s) rs)).
  { clear. induction rs as [|r rs IH]; intros n s; [exists []; split; [auto|]; split; [constructor|cbn; lia]|].
    cbn [run]. rewrite on_budget_step. destruct (counts r && (Z.of_nat n =? Z.of_nat b)%Z); cbn [fst].
    - destruct (IH n s) as (inner & A & B & C). exists inner. split; [auto|]. split; [now constructor|auto].
    - rewrite call_counter_step. cbn [fst]. destruct (IH (n + (if counts r && returned (snd (o s r)) then 1 else 0)) (fst (o s r))) as (inner & A & B & C).
      exists (r :: inner). cbn [run]. split; [auto|]. split; [now constructor|].
      rewrite calls_cons, completed_cons. cbn [req res]. lia. }
  destruct (G rs 0 s) as (inner & A & B & C). exists inner. split; [auto|]. split; [auto|].
  pose proof (on_budget_bound o b s 0 rs). lia.
Qed.

Lemma cache_sub {S} (o : fobj S) c s rs :
  exists inner, snd (run (cache o) (c, s) rs) = run o s inner /\
    subsequence inner rs /\ completed (calls o s inner) <= completed (calls (cache o) (c, s) rs).
Proof.
  revert c s. induction rs as [|r rs IH]; intros c s; [exists []; split; [auto|]; split; [constructor|cbn; lia]|].
  rewrite calls_cons, completed_cons. cbn [run req res].
  assert (SK : forall c', cache o (c, s) r = ((c', s), snd (cache o (c, s) r)) ->
    exists inner, snd (run (cache o) (fst (cache o (c, s) r)) rs) = run o s inner /\ subsequence inner (r :: rs) /\
      completed (calls o s inner) <= (if counts r && returned (snd (cache o (c, s) r)) then 1 else 0) + completed (calls (cache o) (fst (cache o (c, s) r)) rs)).
  { intros c' E. rewrite E. cbn [fst snd]. destruct (IH c' s) as (inner & A & B & C). exists inner. split; [auto|].
    split; [now constructor|lia]. }
  assert (KP : forall c', cache o (c, s) r = ((c', fst (o s r)), snd (o s r)) ->
    exists inner, snd (run (cache o) (fst (cache o (c, s) r)) rs) = run o s inner /\ subsequence inner (r :: rs) /\
      completed (calls o s inner) <= (if counts r && returned (snd (cache o (c, s) r)) then 1 else 0) + completed (calls (cache o) (fst (cache o (c, s) r)) rs)).
  { intros c' E. rewrite E. cbn [fst snd]. destruct (IH c' (fst (o s r))) as (inner & A & B & C). exists (r :: inner). cbn [run].
    split; [auto|]. split; [now constructor|]. rewrite calls_cons, completed_cons. cbn [req res]. lia. }
  destruct r as [x|x v l|x v|x].
  - cbn [cache] in *. destruct (length x =? cache_size c); [|exact (SK c eq_refl)].
    destruct (cache_find (cache_map c) x) as [v|].
    + eapply SK. reflexivity.
    + destruct (o s (REval x)) as [s' a] eqn:E. cbn [fst snd] in *.
      destruct a as [[v|]|e|]; eapply KP; reflexivity.
  - eapply SK. reflexivity.
  - eapply SK. reflexivity.
  - cbn [cache] in *. destruct (o s (RSafe x)) as [s' a] eqn:E. eapply KP. reflexivity.
Qed.

Lemma target_run {S} (m : middle) (target : option dbl) (o : fobj S) tr s rs :
  snd (run (controlled_obj m target o) (tr, s) rs) = run (middle_obj m (progress_tracker o false)) s rs.
Proof.
  destruct target as [t|].
  - cbn [controlled_obj]. generalize (middle_obj m (progress_tracker o false)) as p. intros p.
    revert tr s. induction rs as [|r rs IH]; intros tr s; [reflexivity|]. cbn [run]. rewrite stop_step.
    destruct (filter _ _) as [|[x v] l]; cbn [fst]; apply IH.
  - cbn [controlled_obj]. generalize (middle_obj m (progress_tracker o false)) as p. intros p.
    revert tr s. induction rs as [|r rs IH]; intros tr s; [reflexivity|]. cbn [run].
    destruct (p s r) as [s' a] eqn:E. cbn [fst]. rewrite IH. reflexivity.
Qed.

Lemma middle_run {T} (m : middle) (o : fobj T) n t rs : (forall b, budget_of m = Some b -> (0 <= b)%Z) ->
  exists inner, middle_inner m (run (middle_obj m o) (middle_init m n t) rs) = run o t inner /\ subsequence inner rs /\
    match budget_of m with None => True | Some b => completed (calls o t inner) <= Z.to_nat b end.
Proof.
  intros Hb.
  assert (NB : forall b, budget_of m = Some b -> exists k, b = Z.of_nat k).
  { intros b E. specialize (Hb b E). exists (Z.to_nat b). lia. }
  destruct m as [|b| |b|b]; cbn [middle_inner middle_obj middle_init budget_of middle_state] in *.
  - exists rs. split; [auto|]. split; [apply sub_refl|exact I].
  - destruct (NB b eq_refl) as [k ->]. rewrite Nat2Z.id. apply on_budget_sub.
  - destruct (cache_sub o (cache_make n) t rs) as (inner & A & B & _). exists inner. auto.
  - destruct (NB b eq_refl) as [k ->]. rewrite Nat2Z.id.
    destruct (on_budget_sub (cache o) k (cache_make n, t) rs) as (l & A & B & C). rewrite A.
    destruct (cache_sub o (cache_make n) t l) as (inner & A' & B' & C'). exists inner.
    split; [auto|]. split; [now apply (sub_trans _ l)|lia].
  - destruct (NB b eq_refl) as [k ->]. rewrite Nat2Z.id.
    destruct (cache_sub (on_budget o (Z.of_nat k)) (cache_make n) (0, t) rs) as (l & A & B & _). rewrite A.
    destruct (on_budget_sub o k t l) as (inner & A' & B' & C'). exists inner.
    split; [auto|]. split; [now apply (sub_trans _ l)|auto].
Qed.

Lemma logged_typed {S} (o : fobj S) : typed o -> typed (logged o).
Proof. intros T [log s] r p E. apply (T s r p). cbn in E. now destruct (o s r). Qed.

Lemma logged_run {S} (o : fobj S) log s rs : run (logged o) (log, s) rs = (log ++ rs, run o s rs).
Proof.
  revert log s; induction rs as [|r rs IH]; intros log s; [cbn; now rewrite app_nil_r|].
  cbn [run]. unfold logged at 2. destruct (o s r) as [s' a]. cbn [fst]. rewrite IH, <- app_assoc. reflexivity.
Qed.

Lemma logged_evaluations {S} (o : fobj S) log s rs : evaluations (calls (logged o) (log, s) rs) = evaluations (calls o s rs).
Proof.
  revert log s; induction rs as [|r rs IH]; intros log s; [reflexivity|].
  rewrite !calls_cons. unfold evaluations. cbn [flat_map req res].
  unfold logged at 1 2 3. destruct (o s r) as [s' a]. cbn [fst snd]. f_equal. apply IH.
Qed.

Lemma typed_evaluations {S} (o : fobj S) s rs : typed o -> length (evaluations (calls o s rs)) = completed (calls o s rs).
Proof.
  intros T. revert s; induction rs as [|r rs IH]; intros s; [reflexivity|]. rewrite calls_cons, completed_cons.
  unfold evaluations. cbn [flat_map req res]. rewrite app_length, typed_completed by auto. f_equal. apply IH.
Qed.

Lemma tracker_completed {S} (o : fobj S) n s rs : typed o ->
  completed (calls (progress_tracker o false) (tracker_make n, (0, s)) rs) = completed (calls o s rs).
Proof.
  intros T. destruct (tracker_transparent o false n s rs T) as [E _].
  assert (G : forall (S1 S2 : Type) (l1 : list (call S1)) (l2 : list (call S2)), map res l1 = map res l2 -> map req l1 = map req l2 -> completed l1 = completed l2).
  { intros S1 S2. induction l1 as [|a l1 IH]; intros [|b l2] E1 E2; try discriminate; [reflexivity|].
    cbn [map] in *. injection E1 as E1 E1'. injection E2 as E2 E2'. rewrite !completed_cons, E1, E2, (IH l2 E1' E2'). reflexivity. }
  apply G; auto. clear. assert (R : forall S (o : fobj S) s rs, map req (calls o s rs) = rs).
  { intros S' o' s' rs'. revert s'; induction rs' as [|r rs' IH]; intros s'; [reflexivity|]. rewrite calls_cons. cbn. now rewrite IH. }
  now rewrite !R.
Qed.

Theorem controllers_report {S} (o : fobj S) m target n s rs : typed o -> (forall b, budget_of m = Some b -> (0 <= b)%Z) ->
  let st := controlled m target n o s rs in
  let E := evaluations (calls o s (received st)) in
  subsequence (received st) rs /\
  snd (snd (snd (middle_inner m (snd st)))) = run o s (received st) /\
  match budget_of m with None => True | Some b => (Z.of_nat (length E) <= b)%Z end /\
  reported_total st = length E /\
  match E with
  | [] => imp_num (reported st) = 0
  | (x0, v0) :: _ =>
      exists k x v, imp_num (reported st) = k + 1 /\ imp_value (reported st) = Some v /\
      (if is_nan v0 then k = 0 /\ x = x0 /\ v = v0 else is_nan v = false /\ best_record E k x v)
  end.
Proof.
  intros T Hb st. unfold reported, reported_total, received.
  assert (E0 : snd st = run (middle_obj m (progress_tracker (logged o) false)) (middle_init m n (tracker_make n, (0, ([], s)))) rs)
    by apply target_run.
  rewrite E0. clear st E0.
  destruct (middle_run m (progress_tracker (logged o) false) n (tracker_make n, (0, ([], s))) rs Hb) as (inner & A & B & C).
  rewrite A. pose proof (logged_typed o T) as TL.
  destruct (tracker_transparent (logged o) false n ([], s) inner TL) as [_ D]. rewrite D, logged_run. cbn [fst snd app].
  pose proof (tracker_spec (logged o) false n ([], s) inner TL) as K. cbv zeta in K. rewrite logged_evaluations in K.
  destruct K as [K1 K2]. split; [auto|]. split; [reflexivity|]. split; [|split; [exact K1|]].
  - destruct (budget_of m) as [b|] eqn:EB; [|exact I]. rewrite (tracker_completed (logged o) n ([], s) inner TL) in C.
    rewrite <- (logged_evaluations o [] s inner), (typed_evaluations (logged o) ([], s) inner TL). specialize (Hb b eq_refl). lia.
  - destruct (evaluations (calls o s inner)) as [|[x0 v0] E]; [now rewrite K2|].
    destruct K2 as (k & x & v & K3 & K4 & _ & K5). exists k, x, v. auto.
Qed.

(** * Sequential evaluations *)

Section Sequential.
  Context {T : Type} (o : fobj T) (n : nat) (f : bv -> dbl) (inv : T -> Prop).
  Hypothesis Hinv : forall s x, inv s -> length x = n -> snd (o s (REval x)) = Ok (RValue (f x)) /\ inv (fst (o s (REval x))).

  Lemma budget_sequential b k s xs j c x : inv s -> Forall (fun x => length x = n) xs ->
    nth_error (calls (on_budget o (Z.of_nat b)) (k, s) (map REval xs)) j = Some c -> nth_error xs j = Some x -> k <= b ->
    res c = if k + j <? b then Ok (RValue (f x)) else Throw LastEvaluation.
  Proof.
    revert k s j. induction xs as [|y xs IH]; intros k s j I HF E EX Hk; [destruct j; discriminate|].
    apply Forall_cons_iff in HF as [Hy HF]. destruct (Hinv s y I Hy) as [H1 H2].
    cbn [map] in E. rewrite calls_cons in E. rewrite on_budget_step in E. cbn [counts andb] in E.
    destruct (Z.eqb_spec (Z.of_nat k) (Z.of_nat b)) as [K|K].
    - destruct j as [|j]; cbn in E, EX.
      + injection E as <-. cbn [res snd]. destruct (Nat.ltb_spec (k + 0) b); [lia|auto].
      + rewrite (IH k s j I HF E EX Hk). destruct (Nat.ltb_spec (k + j) b), (Nat.ltb_spec (k + S j) b); auto; lia.
    - rewrite call_counter_step in E. rewrite H1 in E. cbn [returned fst snd] in E. destruct j as [|j]; cbn [nth_error] in E, EX.
      + injection E as <-. injection EX as ->. cbn [res snd]. destruct (Nat.ltb_spec (k + 0) b); [auto|lia].
      + rewrite (IH (k + 1) _ j H2 HF E EX) by lia. destruct (Nat.ltb_spec (k + 1 + j) b), (Nat.ltb_spec (k + S j) b); auto; lia.
  Qed.

  (** States of the cache and of what it decorates *)
  Definition cinv (st : cache_state * T) : Prop :=
    inv (snd st) /\ cache_size (fst st) = n /\ forall x v, cache_find (cache_map (fst st)) x = Some v -> v = f x.

  Lemma cache_total st x : cinv st -> length x = n ->
    snd (cache o st (REval x)) = Ok (RValue (f x)) /\ cinv (fst (cache o st (REval x))).
  Proof.
    destruct st as [c s]. intros (I & Sz & Fd) Hx. cbn [fst snd] in *. destruct (Hinv s x I Hx) as [H1 H2].
    cbn [cache]. rewrite Hx, Sz, Nat.eqb_refl. destruct (cache_find (cache_map c) x) as [v|] eqn:E; cbn [fst snd].
    - rewrite (Fd x v E). split; [auto|]. split; [auto|]. split; auto.
    - destruct (o s (REval x)) as [s' a]. cbn [fst snd] in *. subst a. cbn [fst snd]. split; [auto|]. split; [auto|].
      split; [auto|]. cbn. intros y w. destruct (bv_eq_dec y x) as [->|]; [intros [= <-]; auto|apply Fd].
  Qed.

  Definition addx (acc : list bv) (x : bv) : list bv := if in_dec bv_eq_dec x acc then acc else acc ++ [x].

  Lemma cache_of_budget_sequential b c k s acc xs j cl x : inv s -> Forall (fun x => length x = n) xs ->
    cache_size c = n -> k = length (firstn b acc) ->
    (forall y, cache_find (cache_map c) y = if in_dec bv_eq_dec y (firstn b acc) then Some (f y) else None) ->
    nth_error (calls (cache (on_budget o (Z.of_nat b))) (c, (k, s)) (map REval xs)) j = Some cl -> nth_error xs j = Some x ->
    res cl = let seen := fold_left addx (firstn j xs) acc in
      if (length seen <? b) || (if in_dec bv_eq_dec x (firstn b seen) then true else false)
      then Ok (RValue (f x)) else Throw LastEvaluation.
  Proof.
    revert c k s acc j. induction xs as [|y xs IH]; intros c k s acc j I HF Sz Hk Fd E EX; [destruct j; discriminate|].
    apply Forall_cons_iff in HF as [Hy HF]. destruct (Hinv s y I Hy) as [H1 H2].
    cbn [map] in E. rewrite calls_cons in E.
    assert (ST : cache (on_budget o (Z.of_nat b)) (c, (k, s)) (REval y) =
      if in_dec bv_eq_dec y (firstn b acc)
      then ((mk_cache n (cache_map c) (cache_evaluations c + 1) (cache_lookups c + 1), (k, s)), Ok (RValue (f y)))
      else if k =? b then ((mk_cache n (cache_map c) (cache_evaluations c + 1) (cache_lookups c), (k, s)), Throw LastEvaluation)
      else ((mk_cache n ((y, f y) :: cache_map c) (cache_evaluations c + 1) (cache_lookups c), (k + 1, fst (o s (REval y)))), Ok (RValue (f y)))).
    { cbn [cache]. rewrite Hy, Sz, Nat.eqb_refl, Fd. destruct (in_dec bv_eq_dec y (firstn b acc)); [reflexivity|].
      rewrite on_budget_step. cbn [counts andb]. destruct (Z.eqb_spec (Z.of_nat k) (Z.of_nat b)), (Nat.eqb_spec k b); try lia; [reflexivity|].
      rewrite call_counter_step, H1. reflexivity. }
    pose proof (firstn_length b acc) as FL.
    destruct (in_dec bv_eq_dec y (firstn b acc)) as [IN|NI].
    - assert (AD : addx acc y = acc).
      { unfold addx. destruct (in_dec bv_eq_dec y acc) as [|N]; auto. exfalso. apply N. rewrite <- (firstn_skipn b acc). apply in_app_iff. auto. }
      destruct j as [|j]; cbn [nth_error firstn fold_left] in *.
      + rewrite ST in E. cbn [fst snd] in E. apply Some_inj in E. injection EX as ->. subst cl. cbn [res]. destruct (in_dec bv_eq_dec x (firstn b acc)); [now rewrite orb_true_r|contradiction].
      + rewrite ST in E. cbn [fst] in E. rewrite AD. now apply (IH _ k s acc j I HF) in E.
    - destruct (Nat.eqb_spec k b) as [K|K].
      + assert (LA : b <= length acc) by lia.
        assert (AF : firstn b (addx acc y) = firstn b acc).
        { unfold addx. destruct (in_dec bv_eq_dec y acc); [auto|]. rewrite firstn_app. replace (b - length acc) with 0 by lia. now rewrite app_nil_r. }
        destruct j as [|j]; cbn [nth_error firstn fold_left] in *.
        * rewrite ST in E. cbn [fst snd] in E. apply Some_inj in E. injection EX as ->. subst cl. cbn [res]. destruct (in_dec bv_eq_dec x (firstn b acc)); [contradiction|].
          destruct (Nat.ltb_spec (length acc) b); [lia|reflexivity].
        * rewrite ST in E. cbn [fst] in E. apply (IH _ k s (addx acc y) j I HF) in E; auto; [now rewrite AF|]. intros z. rewrite AF. apply Fd.
      + assert (LA : length acc < b) by lia.
        assert (FA : firstn b acc = acc) by (apply firstn_all2; lia). rewrite FA in *.
        assert (AD : addx acc y = acc ++ [y]) by (unfold addx; destruct (in_dec bv_eq_dec y acc); [contradiction|auto]).
        assert (FB : firstn b (acc ++ [y]) = acc ++ [y]) by (apply firstn_all2; rewrite app_length; cbn; lia).
        destruct j as [|j]; cbn [nth_error firstn fold_left] in *.
        * rewrite ST in E. cbn [fst snd] in E. apply Some_inj in E. injection EX as ->. subst cl. cbn [res]. apply Nat.ltb_lt in LA. now rewrite LA.
        * rewrite ST in E. cbn [fst] in E. rewrite AD. apply (IH _ (k + 1) (fst (o s (REval y))) (acc ++ [y]) j H2 HF) in E; auto.
          -- rewrite FB, app_length. cbn. lia.
          -- rewrite FB. intros z. cbn [cache_map cache_find]. destruct (bv_eq_dec z y) as [->|N].
             ++ destruct (in_dec bv_eq_dec y (acc ++ [y])) as [|M]; auto. exfalso. apply M. apply in_app_iff. right. now left.
             ++ rewrite Fd. destruct (in_dec bv_eq_dec z acc) as [M|M], (in_dec bv_eq_dec z (acc ++ [y])) as [M'|M']; auto.
                ** exfalso. apply M'. apply in_app_iff. auto.
                ** exfalso. apply in_app_iff in M' as [M'|[M'|[]]]; [contradiction|congruence].
  Qed.
End Sequential.

Lemma total_inv {S} (o : fobj S) s n f : total o s n f ->
  exists inv : S -> Prop, inv s /\
    forall t x, inv t -> length x = n -> snd (o t (REval x)) = Ok (RValue (f x)) /\ inv (fst (o t (REval x))).
Proof.
  intros T. exists (fun t => total o t n f). split; [exact T|]. clear s T. intros t x T Hx. split.
  - specialize (T [x] (Forall_cons _ Hx (Forall_nil _))). cbn [map] in T. rewrite calls_cons in T. cbn [map res calls] in T. congruence.
  - intros xs HF. specialize (T (x :: xs) (Forall_cons _ Hx HF)). cbn [map] in T. rewrite calls_cons in T. cbn [map] in T. congruence.
Qed.

Definition tinv {S} (inv : S -> Prop) (st : improvement * (nat * S)) : Prop :=
  (0 < fst (snd st) -> imp_value (fst st) <> None) /\ inv (snd (snd st)).
Lemma tracker_inv_total {S} (o : fobj S) n f (inv : S -> Prop)
  (T : forall t x, inv t -> length x = n -> snd (o t (REval x)) = Ok (RValue (f x)) /\ inv (fst (o t (REval x)))) :
  forall st x, tinv inv st -> length x = n ->
  snd (progress_tracker o false st (REval x)) = Ok (RValue (f x)) /\ tinv inv (fst (progress_tracker o false st (REval x))).
Proof.
  intros [i [k s]] x [Hk Hi] Hx. cbn [fst snd] in Hk, Hi. destruct (T s x Hi Hx) as [T1 T2].
  unfold progress_tracker. rewrite call_counter_step, T1. cbn [counts returned andb fst].
  unfold update_last_improvement. destruct (Nat.eqb_spec (k + 1) 1); [cbn; split; [auto|split; [discriminate|auto]]|].
  destruct (imp_value i) as [v|] eqn:E; [|exfalso; apply Hk; [lia|auto]].
  destruct (dgt (f x) v); [|cbn; unfold tinv; cbn [fst snd]; rewrite E; split; [auto|split; [discriminate|auto]]].
  destruct (Nat.ltb_spec 1 (k + 1)); [|lia]. cbn. split; [auto|split; [discriminate|auto]].
Qed.

Lemma plain_sequential {T} (o : fobj T) n f (inv : T -> Prop) s xs j c x :
  (forall s x, inv s -> length x = n -> snd (o s (REval x)) = Ok (RValue (f x)) /\ inv (fst (o s (REval x)))) ->
  inv s -> Forall (fun x => length x = n) xs ->
  nth_error (calls o s (map REval xs)) j = Some c -> nth_error xs j = Some x -> res c = Ok (RValue (f x)).
Proof.
  intros HI. revert s j. induction xs as [|y xs IH]; intros s j I HF E EX; [destruct j; discriminate|].
  apply Forall_cons_iff in HF as [Hy HF]. destruct (HI s y I Hy) as [H1 H2]. cbn [map] in E. rewrite calls_cons in E.
  destruct j as [|j]; cbn [nth_error] in *; [|now apply (IH _ j H2 HF)].
  apply Some_inj in E. injection EX as ->. subst c. exact H1.
Qed.

Lemma middle_sequential {S} (o : fobj S) m n f s xs j c x : total o s n f -> (forall b, budget_of m = Some b -> (0 <= b)%Z) ->
  Forall (fun x => length x = n) xs ->
  nth_error (calls (middle_obj m (progress_tracker o false)) (middle_init m n (tracker_make n, (0, s))) (map REval xs)) j = Some c ->
  nth_error xs j = Some x -> res c = sequential_result m f xs j x.
Proof.
  intros T Hb HF E EX. destruct (total_inv o s n f T) as (inv & Hs & Hinv). pose proof (tracker_inv_total o n f inv Hinv) as TI.
  assert (I0 : tinv inv (tracker_make n, (0, s))) by (split; [intros K; cbn in K; lia|exact Hs]).
  assert (C0 : cinv n f (tinv inv) (cache_make n, (tracker_make n, (0, s)))).
  { split; [exact I0|]. split; [reflexivity|]. cbn. discriminate. }
  assert (NB : forall b, budget_of m = Some b -> exists k, b = Z.of_nat k).
  { intros b E'. specialize (Hb b E'). exists (Z.to_nat b). lia. }
  assert (LT : forall a b, (Z.of_nat a <? Z.of_nat b)%Z = (a <? b)).
  { intros a b. destruct (Z.ltb_spec (Z.of_nat a) (Z.of_nat b)), (Nat.ltb_spec a b); auto; lia. }
  destruct m as [|b| |b|b]; cbn [middle_obj middle_init budget_of sequential_result middle_state] in *.
  - exact (plain_sequential _ n f (tinv inv) _ xs j c x TI I0 HF E EX).
  - destruct (NB b eq_refl) as [k ->]. rewrite LT. exact (budget_sequential _ n f (tinv inv) TI k 0 _ xs j c x I0 HF E EX (Nat.le_0_l k)).
  - exact (plain_sequential _ n f (cinv n f (tinv inv)) _ xs j c x (cache_total _ n f (tinv inv) TI) C0 HF E EX).
  - destruct (NB b eq_refl) as [k ->]. rewrite LT.
    exact (budget_sequential _ n f (cinv n f (tinv inv)) (cache_total _ n f (tinv inv) TI) k 0 _ xs j c x C0 HF E EX (Nat.le_0_l k)).
  - destruct (NB b eq_refl) as [k ->]. rewrite LT, Nat2Z.id.
    refine (cache_of_budget_sequential _ n f (tinv inv) TI k (cache_make n) 0 _ [] xs j c x I0 HF eq_refl _ _ E EX).
    + now rewrite firstn_nil.
    + intros y. rewrite firstn_nil. reflexivity.
Qed.

Lemma target_calls {S} (m : middle) (target : option dbl) (o : fobj S) tr s rs j c :
  nth_error (calls (controlled_obj m target o) (tr, s) rs) j = Some c ->
  exists c', nth_error (calls (middle_obj m (progress_tracker o false)) s rs) j = Some c' /\ req c' = req c /\
    res c = match target with
            | None => res c'
            | Some t => match filter (fun p => dge (snd p) t) (evaluation (req c) (res c')) with [] => res c' | _ => Throw TargetReached end
            end.
Proof.
  unfold controlled_obj. generalize (middle_obj m (progress_tracker o false)) as p. intros p.
  revert tr s j. induction rs as [|r rs IH]; intros tr s j E; [destruct j; discriminate|].
  rewrite calls_cons. destruct target as [t|].
  - rewrite calls_cons in E. rewrite stop_step in E. destruct j as [|j]; cbn [nth_error] in *.
    + apply Some_inj in E. subst c. eexists. split; [reflexivity|]. cbn [req res]. split; [reflexivity|].
      destruct (filter _ _) as [|[x v] l]; reflexivity.
    + destruct (filter _ _) as [|[x v] l]; cbn [fst] in E; eapply IH; exact E.
  - rewrite calls_cons in E. destruct j as [|j]; cbn [nth_error] in *.
    + apply Some_inj in E. subst c. eexists. split; [reflexivity|]. cbn [req res]. split; [reflexivity|]. now destruct (p s r).
    + destruct (p s r) as [s' a]. cbn [fst] in *. eapply IH. exact E.
Qed.

Theorem controllers_sequential {S} (o : fobj S) m target n f s xs j c x : total o s n f -> (forall b, budget_of m = Some b -> (0 <= b)%Z) ->
  Forall (fun x => length x = n) xs ->
  nth_error (calls (controlled_obj m target o) (controlled_init m n s) (map REval xs)) j = Some c -> nth_error xs j = Some x ->
  res c = seen_through target (sequential_result m f xs j x).
Proof.
  intros T Hb HF E EX. apply target_calls in E as (c' & E & Er & ->).
  assert (RQ : req c' = REval x).
  { apply calls_nth in E as (_ & E & _). apply (map_nth_error REval) in EX. rewrite EX in E. now injection E as <-. }
  rewrite (middle_sequential o m n f s xs j c' x T Hb HF E EX), <- Er, RQ.
  destruct target as [t|]; [|reflexivity]. unfold seen_through.
  destruct (sequential_result m f xs j x) as [[v|]|e|] eqn:ES; try reflexivity.
  cbn [evaluation filter snd]. destruct (dge v t); reflexivity.
Qed.

(** * Parallel evaluations *)

Lemma cache_received {S} (o : fobj S) c s rs :
  exists inner, snd (run (cache o) (c, s) rs) = run o s inner /\
    Forall (fun r => match r with REval x => In (REval x) rs | RSafe _ => True | _ => False end) inner.
Proof.
  revert c s. induction rs as [|r rs IH]; intros c s; [exists []; split; [auto|constructor]|]. cbn [run].
  assert (MO : forall inner, Forall (fun r => match r with REval x => In (REval x) rs | RSafe _ => True | _ => False end) inner ->
    Forall (fun r' => match r' with REval x => In (REval x) (r :: rs) | RSafe _ => True | _ => False end) inner).
  { intros inner. apply Forall_impl. intros [| | |]; cbn; auto. }
  assert (SK : forall c', fst (cache o (c, s) r) = (c', s) ->
    exists inner, snd (run (cache o) (fst (cache o (c, s) r)) rs) = run o s inner /\ Forall (fun r' => match r' with REval x => In (REval x) (r :: rs) | RSafe _ => True | _ => False end) inner).
  { intros c' E. rewrite E. destruct (IH c' s) as (inner & A & B). exists inner. auto. }
  destruct r as [x|x v l|x v|x].
  - cbn [cache] in *. destruct (length x =? cache_size c); [|exact (SK c eq_refl)].
    destruct (cache_find (cache_map c) x) as [v|]; [eapply SK; reflexivity|].
    destruct (o s (REval x)) as [s' a] eqn:E. cbn [fst snd] in *.
    assert (KP : forall c', exists inner, snd (run (cache o) (c', s') rs) = run o s inner /\ Forall (fun r' => match r' with REval x0 => In (REval x0) (REval x :: rs) | RSafe _ => True | _ => False end) inner).
    { intros c'. destruct (IH c' s') as (inner & A & B). exists (REval x :: inner). cbn [run]. rewrite E. split; [auto|]. constructor; [now left|auto]. }
    destruct a as [[v|]|e|]; apply KP.
  - eapply SK. reflexivity.
  - eapply SK. reflexivity.
  - cbn [cache] in *. destruct (o s (RSafe x)) as [s' a] eqn:E. cbn [fst] in *. destruct (IH c s') as (inner & A & B).
    exists (RSafe x :: inner). cbn [run]. rewrite E. split; [auto|]. constructor; auto.
Qed.

Lemma sub_Forall {A} (P : A -> Prop) l k : subsequence l k -> Forall P k -> Forall P l.
Proof. induction 1; intros H0; auto; inversion H0; subst; auto. Qed.

Lemma middle_received {T} (m : middle) (o : fobj T) n t rs : has_cache m = true -> (forall b, budget_of m = Some b -> (0 <= b)%Z) ->
  exists inner, middle_inner m (run (middle_obj m o) (middle_init m n t) rs) = run o t inner /\
    Forall (fun r => match r with REval x => In (REval x) rs | RSafe _ => True | _ => False end) inner.
Proof.
  intros Hc Hb.
  assert (NB : forall b, budget_of m = Some b -> exists k, b = Z.of_nat k).
  { intros b E. specialize (Hb b E). exists (Z.to_nat b). lia. }
  destruct m as [|b| |b|b]; try discriminate; cbn [middle_inner middle_obj middle_init budget_of middle_state] in *.
  - apply cache_received.
  - destruct (NB b eq_refl) as [k ->].
    destruct (on_budget_sub (cache o) k (cache_make n, t) rs) as (l & A & B & C). rewrite A.
    destruct (cache_received o (cache_make n) t l) as (inner & A' & B'). exists inner. split; [auto|].
    eapply Forall_impl; [|exact B']. intros [x| | |]; auto. intros K.
    clear - B K. induction B; [auto| |right; auto]. destruct K as [->|K]; [now left|right; auto].
  - destruct (NB b eq_refl) as [k ->].
    destruct (cache_received (on_budget o (Z.of_nat k)) (cache_make n) (0, t) rs) as (l & A & B). rewrite A.
    destruct (on_budget_sub o k t l) as (inner & A' & B' & C'). exists inner. split; [auto|]. exact (sub_Forall _ _ _ B' B).
Qed.

Theorem cache_hides_updates {S} (o : fobj S) m target n s rs : typed o -> has_cache m = true -> (forall b, budget_of m = Some b -> (0 <= b)%Z) ->
  let st := controlled m target n o s rs in
  Forall (fun r => match r with REval x => In (REval x) rs | RSafe _ => True | _ => False end) (received st) /\
  (Forall parallel rs -> reported st = tracker_make n /\ reported_total st = 0).
Proof.
  intros T Hc Hb st. unfold reported, reported_total, received.
  assert (E0 : snd st = run (middle_obj m (progress_tracker (logged o) false)) (middle_init m n (tracker_make n, (0, ([], s)))) rs)
    by apply target_run.
  rewrite E0. clear st E0.
  destruct (middle_received m (progress_tracker (logged o) false) n (tracker_make n, (0, ([], s))) rs Hc Hb) as (inner & A & B).
  rewrite A. pose proof (logged_typed o T) as TL.
  destruct (tracker_transparent (logged o) false n ([], s) inner TL) as [_ D]. rewrite D, logged_run. cbn [fst snd app]. split; [exact B|].
  intros HP. pose proof (tracker_spec (logged o) false n ([], s) inner TL) as K. cbv zeta in K. rewrite logged_evaluations in K.
  assert (EE : evaluations (calls o s inner) = []).
  { clear - B HP. revert s. induction B as [|r inner Hr B IH]; intros s; [reflexivity|]. rewrite calls_cons. unfold evaluations. cbn [flat_map req res].
    rewrite (IH (fst (o s r)) : flat_map _ _ = []). rewrite app_nil_r. destruct r as [x| | |x]; try contradiction.
    - rewrite Forall_forall in HP. destruct (HP _ Hr).
    - now destruct (snd (o s (RSafe x))). }
  rewrite EE in K. destruct K as [K1 K2]. auto.
Qed.

Lemma update_unlimited {S} (o : fobj S) m target n s rs j c x v :
  m = MidCache \/ (exists b, m = MidCacheOfBudget b) ->
  nth_error (calls (controlled_obj m target o) (controlled_init m n s) rs) j = Some c -> req c = RUpdate x v ->
  res c = match target with None => Ok RVoid | Some t => if dge v t then Throw TargetReached else Ok RVoid end.
Proof.
  intros Hm E Er. apply target_calls in E as (c' & E & Er' & ->). rewrite <- Er', Er' , Er.
  assert (R : res c' = Ok RVoid).
  { apply calls_nth in E as (_ & _ & E). rewrite Er', Er in E.
    destruct Hm as [->|[b ->]]; cbn [middle_obj] in E; destruct (before c') as [k t]; cbn in E; injection E as _ E; exact E. }
  rewrite R. destruct target as [t|]; [|reflexivity]. cbn [evaluation filter snd]. destruct (dge v t); reflexivity.
Qed.
