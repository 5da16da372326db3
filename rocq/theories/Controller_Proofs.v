(** Proofs about controllers. *)

From Coq Require Import ZArith.
From Verif Require Import Base BaseLemmas BitVector_Model BitVector_Spec BitVector_Proofs Double Function_Spec GF2 Theory_Proofs Walsh_Proofs
  Controller_Model Controller_Spec.
Local Open Scope nat_scope.

Lemma completed_cons {S} (c : call S) l : completed (c :: l) = (if counts (req c) && returned (res c) then 1 else 0) + completed l.
Proof. unfold completed. cbn [filter]. destruct (_ && _); reflexivity. Qed.

Lemma calls_cons {S} (o : fobj S) s r rs : calls o s (r :: rs) = mk_call s r (snd (o s r)) (fst (o s r)) :: calls o (fst (o s r)) rs.
Proof. cbn [calls]. now destruct (o s r). Qed.

Lemma calls_length {S} (o : fobj S) s rs : length (calls o s rs) = length rs.
Proof. revert s; induction rs as [|r rs IH]; intros s; [reflexivity|]. rewrite calls_cons. cbn. now rewrite IH. Qed.

Lemma calls_nth {S} (o : fobj S) s rs k c : nth_error (calls o s rs) k = Some c ->
  before c = run o s (firstn k rs) /\ nth_error rs k = Some (req c) /\ (after c, res c) = o (before c) (req c).
Proof.
  revert s k; induction rs as [|r rs IH]; intros s k H; [destruct k; discriminate|].
  rewrite calls_cons in H. destruct k as [|k]; cbn in H.
  - apply Some_inj in H. subst c. cbn. repeat split. now destruct (o s r).
  - apply IH in H. cbn [firstn run nth_error]. exact H.
Qed.

Lemma firstn_calls {S} (o : fobj S) s rs k : firstn k (calls o s rs) = calls o s (firstn k rs).
Proof.
  revert s k; induction rs as [|r rs IH]; intros s [|k]; try reflexivity.
  cbn [firstn]. rewrite !calls_cons. cbn [firstn]. now rewrite IH.
Qed.

(** * CallCounter *)

Lemma call_counter_step {S} (o : fobj S) n s r :
  call_counter o (n, s) r =
    ((n + (if counts r && returned (snd (o s r)) then 1 else 0), fst (o s r)), snd (o s r)).
Proof.
  unfold call_counter. destruct (o s r) as [s' a]. cbn [fst snd].
  destruct r, a; cbn [counts returned andb]; rewrite ?Nat.add_0_r; reflexivity.
Qed.

Theorem call_counter_counts {S} (o : fobj S) s n rs :
  fst (run (call_counter o) (n, s) rs) = n + completed (calls (call_counter o) (n, s) rs) /\
  snd (run (call_counter o) (n, s) rs) = run o s rs /\
  map res (calls (call_counter o) (n, s) rs) = map res (calls o s rs).
Proof.
  revert n s; induction rs as [|r rs IH]; intros n s; [cbn; repeat split; lia|].
  rewrite !calls_cons, completed_cons. cbn [req res map]. rewrite !call_counter_step. cbn [fst snd].
  destruct (IH (n + (if counts r && returned (snd (o s r)) then 1 else 0)) (fst (o s r))) as (A & B & C).
  cbn [run]. rewrite call_counter_step. cbn [fst snd]. rewrite A, B, C. repeat split. lia.
Qed.

(** * OnBudgetFunction *)

Lemma on_budget_step {S} (o : fobj S) b n s r :
  on_budget o b (n, s) r =
    if counts r && (Z.of_nat n =? b)%Z then ((n, s), Throw LastEvaluation) else call_counter o (n, s) r.
Proof. unfold on_budget. destruct r; reflexivity. Qed.

Lemma on_budget_counter {S} (o : fobj S) b s n rs : 
  fst (run (on_budget o b) (n, s) rs) = n + completed (calls (on_budget o b) (n, s) rs).
Proof.
  revert n s; induction rs as [|r rs IH]; intros n s; [cbn; lia|].
  rewrite calls_cons, completed_cons. cbn [req res run]. rewrite on_budget_step.
  destruct (counts r && (Z.of_nat n =? b)%Z) eqn:E; cbn [fst snd].
  - rewrite IH. apply andb_true_iff in E as [-> _]. cbn. lia.
  - rewrite call_counter_step. cbn [fst snd]. rewrite IH. lia.
Qed.

Lemma on_budget_bound {S} (o : fobj S) b s n rs : n <= b -> fst (run (on_budget o (Z.of_nat b)) (n, s) rs) <= b.
Proof.
  revert n s; induction rs as [|r rs IH]; intros n s H; [assumption|].
  cbn [run]. rewrite on_budget_step. destruct (Z.eqb_spec (Z.of_nat n) (Z.of_nat b)) as [E|E].
  - destruct (counts r) eqn:C; cbn [andb fst]; [now apply IH|]. rewrite call_counter_step, C. cbn [fst andb]. apply IH. lia.
  - rewrite andb_false_r, call_counter_step. cbn [fst]. apply IH. destruct (_ && _); lia.
Qed.

Theorem on_budget_spec {S} (o : fobj S) b s rs k c :
  nth_error (calls (on_budget o (Z.of_nat b)) (0, s) rs) k = Some c ->
  let done := completed (firstn k (calls (on_budget o (Z.of_nat b)) (0, s) rs)) in
  done <= b /\ fst (before c) = done /\
  (counts (req c) = true -> done = b -> res c = Throw LastEvaluation /\ after c = before c) /\
  (counts (req c) = false \/ done < b ->
     (snd (after c), res c) = o (snd (before c)) (req c) /\
     fst (after c) = fst (before c) + (if counts (req c) && returned (res c) then 1 else 0)).
Proof.
  intros H done. assert (D : fst (before c) = done).
  { apply calls_nth in H as (-> & _ & _). unfold done. rewrite firstn_calls, on_budget_counter. reflexivity. }
  assert (B : done <= b).
  { rewrite <- D. apply calls_nth in H as (-> & _ & _). apply on_budget_bound. lia. }
  apply calls_nth in H as (_ & _ & E). destruct (before c) as [n s'] eqn:EB. cbn [fst snd] in *. subst n.
  rewrite on_budget_step in E. split; [assumption|]. split; [reflexivity|]. split.
  - intros C ->. rewrite C, Z.eqb_refl in E. cbn [andb] in E. injection E as E1 E2. auto.
  - intros C. assert (counts (req c) && (Z.of_nat done =? Z.of_nat b)%Z = false) as F.
    { destruct C as [->|C]; [reflexivity|]. destruct (Z.eqb_spec (Z.of_nat done) (Z.of_nat b)); [lia|apply andb_false_r]. }
    rewrite F, call_counter_step in E. injection E as E1 E2. rewrite E1, E2. cbn [fst snd]. split; [now destruct (o s' (req c))|reflexivity].
Qed.

Theorem on_budget_total {S} (o : fobj S) b s rs :
  completed (calls (on_budget o (Z.of_nat b)) (0, s) rs) <= b.
Proof.
  pose proof (on_budget_counter o (Z.of_nat b) s 0 rs) as E. cbn in E. rewrite <- E. apply on_budget_bound. lia.
Qed.

(** The decorated function receives at most [b] counted calls which return. *)
Theorem on_budget_inner {S} (o : fobj S) b s rs :
  exists inner, snd (run (on_budget o (Z.of_nat b)) (0, s) rs) = run o s inner /\
    incl inner rs /\ completed (calls o s inner) <= b.
Proof.
  assert (G : forall rs n s, exists inner, snd (run (on_budget o (Z.of_nat b)) (n, s) rs) = run o s inner /\
    incl inner rs /\ n + completed (calls o s inner) = fst (run (on_budget o (Z.of_nat b)) (n, s) rs)).
  { clear. induction rs as [|r rs IH]; intros n s; [exists []; repeat split; [apply incl_refl|cbn; lia]|].
    cbn [run]. rewrite on_budget_step. destruct (counts r && (Z.of_nat n =? Z.of_nat b)%Z); cbn [fst].
    - destruct (IH n s) as (inner & A & B & C). exists inner. repeat split; auto. now apply incl_tl.
    - rewrite call_counter_step. cbn [fst]. destruct (IH (n + (if counts r && returned (snd (o s r)) then 1 else 0)) (fst (o s r))) as (inner & A & B & C).
      exists (r :: inner). cbn [run]. repeat split; auto.
      + apply incl_cons; [cbn; auto|now apply incl_tl].
      + rewrite calls_cons, completed_cons. cbn [req res]. lia. }
  destruct (G rs 0 s) as (inner & A & B & C). exists inner. repeat split; auto.
  pose proof (on_budget_bound o b s 0 rs). lia.
Qed.

Theorem on_budget_negative {S} (o : fobj S) b s rs : (b < 0)%Z ->
  map res (calls (on_budget o b) (0, s) rs) = map res (calls o s rs) /\ snd (run (on_budget o b) (0, s) rs) = run o s rs.
Proof.
  intros Hb. enough (G : forall n, map res (calls (on_budget o b) (n, s) rs) = map res (calls o s rs) /\ snd (run (on_budget o b) (n, s) rs) = run o s rs) by apply G.
  revert s; induction rs as [|r rs IH]; intros s n; [split; reflexivity|].
  rewrite !calls_cons. cbn [run map res]. rewrite on_budget_step. destruct (Z.eqb_spec (Z.of_nat n) b); [lia|].
  rewrite andb_false_r, call_counter_step. cbn [fst snd].
  destruct (IH (fst (o s r)) (n + (if counts r && returned (snd (o s r)) then 1 else 0))) as [A B]. now rewrite A, B.
Qed.

(** * StopOnTarget *)

Lemma evaluation_length r a : length (evaluation r a) <= 1.
Proof. destruct r, a as [[]|e|]; cbn; lia. Qed.

Lemma stop_step {S} (o : fobj S) target tr s r :
  stop_on_target o target (tr, s) r =
  match filter (fun p => dge (snd p) target) (evaluation r (snd (o s r))) with
  | (x, v) :: _ => ((Some (x, v), fst (o s r)), Throw TargetReached)
  | [] => ((tr, fst (o s r)), snd (o s r))
  end.
Proof.
  unfold stop_on_target. destruct (o s r) as [s' a]. cbn [fst snd].
  destruct r as [x|x v l|x v|x], a as [[w|]|e|]; cbn [evaluation filter snd]; try reflexivity;
    destruct (dge _ target); reflexivity.
Qed.

Theorem stop_on_target_spec {S} (o : fobj S) target tr s rs k c :
  nth_error (calls (stop_on_target o target) (tr, s) rs) k = Some c ->
  let inner := o (snd (before c)) (req c) in
  snd (after c) = fst inner /\
  match evaluation (req c) (snd inner) with
  | [(x, v)] =>
      if dge v target then res c = Throw TargetReached /\ fst (after c) = Some (x, v)
      else res c = snd inner /\ fst (after c) = fst (before c)
  | _ => res c = snd inner /\ fst (after c) = fst (before c)
  end.
Proof.
  intros H inner. apply calls_nth in H as (_ & _ & E). destruct (before c) as [t s0]. cbn [fst snd] in *.
  rewrite stop_step in E. fold inner in E.
  destruct (req c) as [x|x v l|x v|x], (snd inner) as [[w|]|e|] eqn:EI; cbn [evaluation filter snd] in *;
    try (injection E as E1 E2; rewrite E1, E2; auto);
    (destruct (dge _ target); injection E as E1 E2; rewrite E1, E2; auto).
Qed.

(** After any history the trigger is the last evaluation which reached the
    target. *)
Theorem stop_on_target_trigger {S} (o : fobj S) target s rs :
  snd (run (stop_on_target o target) (None, s) rs) = run o s rs /\
  fst (run (stop_on_target o target) (None, s) rs) =
    match rev (reaching target (calls o s rs)) with [] => None | p :: _ => Some p end.
Proof.
  enough (G : forall tr, snd (run (stop_on_target o target) (tr, s) rs) = run o s rs /\
    fst (run (stop_on_target o target) (tr, s) rs) =
    match rev (reaching target (calls o s rs)) with [] => tr | p :: _ => Some p end) by apply G.
  revert s; induction rs as [|r rs IH]; intros s tr; [split; reflexivity|].
  rewrite calls_cons. unfold reaching, evaluations. cbn [flat_map req res]. rewrite filter_app, rev_app_distr.
  fold (evaluations (calls o (fst (o s r)) rs)). fold (reaching target (calls o (fst (o s r)) rs)).
  cbn [run]. rewrite stop_step.
  destruct (filter (fun p => dge (snd p) target) (evaluation r (snd (o s r)))) as [|[x v] t] eqn:EF; cbn [fst].
  - destruct (IH (fst (o s r)) tr) as [A B]. split; [assumption|]. rewrite B. cbn [rev]. rewrite app_nil_r. reflexivity.
  - assert (t = []) as ->.
    { pose proof (evaluation_length r (snd (o s r))) as L.
      destruct (evaluation r (snd (o s r))) as [|p [|q l]]; cbn [filter length] in *; [discriminate| |lia].
      destruct (dge (snd p) target); congruence. }
    destruct (IH (fst (o s r)) (Some (x, v))) as [A B]. split; [assumption|]. rewrite B.
    destruct (rev (reaching target (calls o (fst (o s r)) rs))); reflexivity.
Qed.

Lemma deterministic_evaluations {S} (o : fobj S) f s xs x v : deterministic o f ->
  In (x, v) (evaluations (calls o s (map REval xs))) -> In x xs /\ f x = Ok v.
Proof.
  intros D. revert s; induction xs as [|y xs IH]; intros s H; [destruct H|].
  cbn [map] in H. rewrite calls_cons in H. unfold evaluations in H. cbn [flat_map req res] in H.
  apply in_app_iff in H as [H|H].
  - rewrite D in H. destruct (f y) as [w|e|] eqn:E; cbn in H; try contradiction. destruct H as [H|[]].
    injection H as <- <-. split; [left; reflexivity|assumption].
  - apply IH in H as [H1 H2]. split; [right|]; assumption.
Qed.

Theorem stop_on_target_value {S} (o : fobj S) f target s xs x v : deterministic o f ->
  fst (run (stop_on_target o target) (None, s) (map REval xs)) = Some (x, v) ->
  In x xs /\ f x = Ok v /\ dge v target = true.
Proof.
  intros D H. rewrite (proj2 (stop_on_target_trigger o target s (map REval xs))) in H.
  destruct (rev (reaching target (calls o s (map REval xs)))) as [|p l] eqn:E; [discriminate|].
  injection H as ->. assert (K : In (x, v) (reaching target (calls o s (map REval xs)))).
  { apply in_rev. rewrite E. left. reflexivity. }
  unfold reaching in K. apply filter_In in K as [K1 K2].
  destruct (deterministic_evaluations o f s xs x v D K1). auto.
Qed.

Theorem stop_on_maximum {S} (o : fobj S) (f : bv -> Z) maximum s xs x v :
  deterministic o (fun x => Ok (DFin (f x))) ->
  (forall y, (f y <= maximum)%Z) ->
  fst (run (stop_on_target o (DFin maximum)) (None, s) (map REval xs)) = Some (x, v) ->
  v = DFin maximum /\ f x = maximum.
Proof.
  intros D M H. destruct (stop_on_target_value o _ _ s xs x v D H) as (_ & H1 & H2). apply Ok_inj in H1. subst v.
  cbn in H2. apply Z.leb_le in H2. specialize (M x). assert (f x = maximum) by lia. split; congruence.
Qed.

Lemma incremental_trigger {S} (o : fobj S) (f : bv -> dbl) target tr s x flipped :
  snd (o s (RInc x (f x) flipped)) = Ok (RValue (f (flipped_at x flipped))) ->
  dge (f (flipped_at x flipped)) target = true ->
  fst (fst (stop_on_target o target (tr, s) (RInc x (f x) flipped))) = Some (x, f (flipped_at x flipped)).
Proof.
  intros H1 H2. rewrite stop_step, H1. cbn [evaluation filter snd]. now rewrite H2.
Qed.

Lemma incremental_record {S} (o : fobj S) (f : bv -> dbl) n s x flipped b :
  snd (o s (RInc x (f x) flipped)) = Ok (RValue (f (flipped_at x flipped))) ->
  0 < n -> imp_value b = Some (f x) ->
  dlt (f x) (f (flipped_at x flipped)) = true ->
  fst (fst (progress_tracker o true (b, (n, s)) (RInc x (f x) flipped))) =
    mk_improvement (n + 1) x (Some (f (flipped_at x flipped))).
Proof.
  intros H1 Hn Hb H2. unfold progress_tracker. rewrite call_counter_step, H1. cbn [fst snd counts returned andb].
  unfold update_last_improvement, update_details. destruct (Nat.eqb_spec (n + 1) 1); [lia|].
  rewrite Hb. unfold dgt. rewrite H2. destruct (Nat.ltb_spec 1 (n + 1)); [reflexivity|lia].
Qed.

Theorem reported_vector_misses_target n : 0 < n ->
  let f x := DFin (Z.of_nat (weight x)) in
  let o := plain_inc (fun x => Ok (f x)) (fun x _ l => Ok (f (flipped_at x l))) in
  let target := DFin (Z.of_nat n) in
  exists x v, length x = n /\
  fst (run (stop_on_target o target) (None, tt) [REval x; RInc x (f x) [0]]) = Some (x, v) /\
  dge v target = true /\ f x <> v /\ dge (f x) target = false.
Proof.
  intros Hn f o target. destruct n as [|m]; [lia|].
  assert (W : forall k, weight (repeat true k) = k) by apply weight_ones.
  assert (W1 : weight (false :: repeat true m) = m) by (rewrite weight_cons; cbn; apply W).
  assert (F : flipped_at (false :: repeat true m) [0] = repeat true (S m)).
  { apply (nth_ext_len false); [rewrite length_flipped_at; cbn; now rewrite !repeat_length|].
    intros i Hi. rewrite length_flipped_at in Hi. rewrite nth_flipped_at by assumption. destruct i; cbn; [reflexivity|].
    cbn in Hi. unfold Sums.memb; cbn. now destruct (nth i (repeat true m) false). }
  exists (false :: repeat true m), (f (repeat true (S m))).
  assert (V : f (repeat true (S m)) = target) by (unfold f, target; now rewrite W).
  assert (D : dge target target = true) by (cbn; apply Z.leb_refl).
  split; [cbn; now rewrite repeat_length|]. split; [|split; [|split]].
  - rewrite (proj2 (stop_on_target_trigger o target tt [REval (false :: repeat true m); RInc (false :: repeat true m) (f (false :: repeat true m)) [0]])).
    unfold reaching, evaluations. cbn [calls o plain_inc flat_map req res bind evaluation app filter snd].
    rewrite F, V, D. destruct (dge (f (false :: repeat true m)) target); reflexivity.
  - rewrite V. exact D.
  - unfold f. rewrite W, W1. intros [= E]. lia.
  - unfold f, target. cbn [dge dle]. rewrite W1. apply Z.leb_gt. lia.
Qed.

(** * ProgressTracker *)

Lemma tracker_step {S} (o : fobj S) record i n s r : typed o ->
  (0 < n -> imp_value i <> None) ->
  progress_tracker o record (i, (n, s)) r =
  ((match evaluation r (snd (o s r)) with
    | (x, v) :: _ => if (n =? 0) || match imp_value i with Some b => dgt v b | None => false end
                     then mk_improvement (n + 1) (if record then x else imp_bv i) (Some v) else i
    | [] => i
    end, fst (call_counter o (n, s) r)), snd (o s r)).
Proof.
  intros T Hn. unfold progress_tracker. rewrite call_counter_step. cbn [fst snd]. specialize (T s r).
  assert (U : forall x v, update_last_improvement record (n + 1) x v i =
    Ok (if (n =? 0) || match imp_value i with Some b => dgt v b | None => false end
        then mk_improvement (n + 1) (if record then x else imp_bv i) (Some v) else i)).
  { intros x v. unfold update_last_improvement, update_details. destruct (Nat.eqb_spec n 0) as [->|Hne]; [reflexivity|].
    destruct (Nat.eqb_spec (n + 1) 1); [lia|]. destruct (imp_value i) as [b|]; [|exfalso; apply Hn; [lia|reflexivity]].
    cbn [orb]. destruct (dgt v b); [|reflexivity]. destruct (Nat.ltb_spec 1 (n + 1)); [reflexivity|lia]. }
  destruct (snd (o s r)) as [p|e|] eqn:EA.
  - specialize (T p eq_refl). destruct r as [x|x w l|x w|x].
    + destruct T as [v ->]. cbn [evaluation counts returned andb]. rewrite U. reflexivity.
    + destruct T as [v ->]. cbn [evaluation counts returned andb]. rewrite U. reflexivity.
    + subst p. cbn [evaluation counts returned andb]. rewrite U. reflexivity.
    + destruct T as [v ->]. reflexivity.
  - destruct r; reflexivity.
  - destruct r; reflexivity.
Qed.

Lemma typed_completed {S} (o : fobj S) s r : typed o ->
  length (evaluation r (snd (o s r))) = if counts r && returned (snd (o s r)) then 1 else 0.
Proof.
  intros T. specialize (T s r). destruct (snd (o s r)) as [p|e|] eqn:E; [specialize (T p eq_refl)| |].
  - destruct r; [destruct T as [v ->]|destruct T as [v ->]|subst p|destruct T as [v ->]]; reflexivity.
  - destruct r; reflexivity.
  - destruct r; reflexivity.
Qed.

Definition tracker_inv (record : bool) (E : list (bv * dbl)) (i0 i : improvement) (n : nat) : Prop :=
  n = length E /\
  match E with
  | [] => i = i0
  | (x0, v0) :: _ =>
      exists k x v, imp_num i = k + 1 /\ imp_value i = Some v /\ imp_bv i = (if record then x else imp_bv i0) /\
      (if is_nan v0 then k = 0 /\ x = x0 /\ v = v0 else is_nan v = false /\ best_record E k x v)
  end.

Lemma nth_error_snoc {A} (l : list A) a k : nth_error (l ++ [a]) k = if k =? length l then Some a else nth_error l k.
Proof.
  destruct (Nat.eqb_spec k (length l)) as [->|H].
  - rewrite nth_error_app2 by lia. now rewrite Nat.sub_diag.
  - destruct (Nat.lt_ge_cases k (length l)); [now apply nth_error_app1|]. rewrite nth_error_app2 by lia.
    destruct (k - length l) eqn:E; [lia|]. destruct n; cbn; symmetry; apply nth_error_None; lia.
Qed.

Lemma tracker_inv_step record E i0 i n x v : tracker_inv record E i0 i n ->
  tracker_inv record (E ++ [(x, v)]) i0
    (if (n =? 0) || match imp_value i with Some b => dgt v b | None => false end
     then mk_improvement (n + 1) (if record then x else imp_bv i) (Some v) else i) (n + 1).
Proof.
  intros [-> H]. split; [rewrite app_length; reflexivity|]. destruct E as [|[x0 v0] E].
  - cbn [length Nat.eqb orb app]. subst i. exists 0, x, v. cbn. repeat split.
    destruct (is_nan v) eqn:En; [auto|]. split; [reflexivity|]. repeat split; cbn; auto.
    + intros [|j] y w Hj; [|destruct j; discriminate]. apply Some_inj in Hj. injection Hj as <- <-. right. now apply dle_refl.
    + intros j y w Hj. lia.
  - destruct H as (k & xb & b & H1 & H2 & H3 & H4). set (E' := (x0, v0) :: E) in *.
    assert (HE : E' ++ [(x, v)] = (x0, v0) :: (E ++ [(x, v)])) by reflexivity.
    rewrite HE. rewrite <- HE. rewrite H2. replace (length E' =? 0) with false by reflexivity. cbn [orb].
    destruct (is_nan v0) eqn:En0.
    + destruct H4 as (-> & -> & ->). assert (dgt v v0 = false) as ->.
      { unfold dgt. destruct v0; try discriminate. destruct v; reflexivity. }
      exists 0, x0, v0. repeat split; assumption.
    + destruct H4 as (Nb & B1 & B2 & B3). unfold dgt. destruct (dlt b v) eqn:Ed.
      * exists (length E'), x, v. cbn [imp_num imp_value imp_bv]. split; [reflexivity|]. split; [reflexivity|].
        split; [now rewrite H3; destruct record|]. split; [now apply dlt_nan in Ed|]. split; [|split].
        -- rewrite nth_error_snoc, Nat.eqb_refl. reflexivity.
        -- intros j y w Hj. rewrite nth_error_snoc in Hj. destruct (j =? length E').
           ++ apply Some_inj in Hj. injection Hj as <- <-. right. apply dle_refl. now apply dlt_nan in Ed.
           ++ destruct (B2 j y w Hj) as [?|L]; [auto|]. right. apply dlt_le. eapply dle_dlt_trans; eassumption.
        -- intros j y w Hlt Hj. rewrite nth_error_snoc in Hj. destruct (Nat.eqb_spec j (length E')); [lia|].
           destruct (B2 j y w Hj) as [?|L]; [auto|]. right. eapply dle_dlt_trans; eassumption.
      * exists k, xb, b. split; [assumption|]. split; [assumption|]. split; [assumption|]. split; [assumption|].
        assert (k < length E') by (apply nth_error_Some; rewrite B1; discriminate). split; [|split].
        -- rewrite nth_error_snoc. destruct (Nat.eqb_spec k (length E')); [lia|assumption].
        -- intros j y w Hj. rewrite nth_error_snoc in Hj. destruct (j =? length E').
           ++ apply Some_inj in Hj. injection Hj as <- <-. destruct (is_nan v) eqn:Nv; [auto|]. right. now apply not_lt_le.
           ++ eauto.
        -- intros j y w Hlt Hj. rewrite nth_error_snoc in Hj. destruct (Nat.eqb_spec j (length E')); [lia|]. eauto.
Qed.

Lemma tracker_run {S} (o : fobj S) record i0 : typed o -> forall rs s E i n, tracker_inv record E i0 i n ->
  let st := run (progress_tracker o record) (i, (n, s)) rs in
  tracker_inv record (E ++ evaluations (calls o s rs)) i0 (fst st) (fst (snd st)) /\
  snd (snd st) = run o s rs /\
  map res (calls (progress_tracker o record) (i, (n, s)) rs) = map res (calls o s rs).
Proof.
  intros T. induction rs as [|r rs IH]; intros s E i n H.
  - cbn. rewrite app_nil_r. auto.
  - rewrite !calls_cons. cbn [run map res]. unfold evaluations. cbn [flat_map req res].
    rewrite app_assoc. fold (evaluations (calls o (fst (o s r)) rs)).
    assert (Hn : 0 < n -> imp_value i <> None).
    { destruct H as [-> H]. destruct E as [|[x0 v0] E]; [cbn; lia|]. destruct H as (k & x & v & _ & -> & _). discriminate. }
    rewrite (tracker_step o record i n s r T Hn), call_counter_step. cbn [fst snd].
    pose proof (typed_completed o s r T) as L.
    destruct (evaluation r (snd (o s r))) as [|[x v] t] eqn:Ev.
    + rewrite app_nil_r. cbn [length] in L. rewrite <- L, Nat.add_0_r.
      destruct (IH (fst (o s r)) E i n H) as (A & B & C). now rewrite C.
    + pose proof (evaluation_length r (snd (o s r))) as Le. rewrite Ev in Le. destruct t; [|cbn in Le; lia].
      cbn [length] in L. rewrite <- L.
      destruct (IH (fst (o s r)) (E ++ [(x, v)]) _ (n + 1) (tracker_inv_step record E i0 i n x v H)) as (A & B & C). now rewrite C.
Qed.

Theorem tracker_spec {S} (o : fobj S) record size s rs : typed o ->
  let E := evaluations (calls o s rs) in
  let st := run (progress_tracker o record) (tracker_make size, (0, s)) rs in
  fst (snd st) = length E /\
  match E with
  | [] => fst st = tracker_make size
  | (x0, v0) :: _ =>
      exists k x v, imp_num (fst st) = k + 1 /\ imp_value (fst st) = Some v /\
      imp_bv (fst st) = (if record then x else repeat false size) /\
      (if is_nan v0 then k = 0 /\ x = x0 /\ v = v0 else is_nan v = false /\ best_record E k x v)
  end.
Proof.
  intros T E st. destruct (tracker_run o record (tracker_make size) T rs s [] (tracker_make size) 0) as (A & _).
  { split; reflexivity. }
  cbn [app] in A. fold E st in A. exact A.
Qed.

Theorem tracker_transparent {S} (o : fobj S) record size s rs : typed o ->
  map res (calls (progress_tracker o record) (tracker_make size, (0, s)) rs) = map res (calls o s rs) /\
  snd (snd (run (progress_tracker o record) (tracker_make size, (0, s)) rs)) = run o s rs.
Proof.
  intros T. destruct (tracker_run o record (tracker_make size) T rs s [] (tracker_make size) 0) as (_ & B & C); [split; reflexivity|auto].
Qed.

(** * Cache *)

Lemma cache_find_In m x v : cache_find m x = Some v -> In (x, v) m.
Proof.
  induction m as [|[y w] m IH]; [discriminate|]. cbn. destruct (bv_eq_dec x y) as [->|]; [|auto].
  intros [= ->]. auto.
Qed.

Lemma cache_find_None m x : cache_find m x = None -> ~ In x (map fst m).
Proof.
  induction m as [|[y w] m IH]; [auto|]. cbn. destruct (bv_eq_dec x y) as [->|]; [discriminate|].
  intros H [K|K]; [congruence|]. now apply IH.
Qed.

Lemma cache_find_Some m x : In x (map fst m) -> exists v, cache_find m x = Some v.
Proof.
  intros H. destruct (cache_find m x) eqn:E; eauto. apply cache_find_None in E. contradiction.
Qed.

Record cache_inv (n : nat) (f : bv -> outcome dbl) (asked sent : list bv) (c : cache_state) : Prop := {
  ci_size : cache_size c = n;
  ci_keys : NoDup (map fst (cache_map c));
  ci_values : forall x v, In (x, v) (cache_map c) -> f x = Ok v;
  ci_sent : forall x, In x asked <-> In x sent;
  ci_stored : forall x v, In x asked -> f x = Ok v -> In (x, v) (cache_map c);
  ci_only : forall x, In x (map fst (cache_map c)) -> In x asked;
  ci_count : cache_evaluations c = length asked;
  ci_lookups : cache_lookups c + length sent = length asked;
  ci_nodup : (forall x, In x asked -> exists v, f x = Ok v) -> NoDup sent }.

Lemma evaluated_app a b : evaluated (a ++ b) = evaluated a ++ evaluated b.
Proof. unfold evaluated. apply flat_map_app. Qed.

Lemma cache_run {S} (o : fobj S) n f : deterministic o f -> forall rs, well_sized n rs ->
  forall c log s asked, cache_inv n f asked (evaluated log) c ->
  let st := run (cache (logged o)) (c, (log, s)) rs in
  cache_inv n f (asked ++ evaluated rs) (evaluated (fst (snd st))) (fst st) /\
  (forall k cl x, nth_error (calls (cache (logged o)) (c, (log, s)) rs) k = Some cl -> req cl = REval x ->
     res cl = (v <- f x ;; Ok (RValue v))).
Proof.
  intros D. induction rs as [|r rs IH]; intros W c log s asked H.
  - cbn. rewrite app_nil_r. split; [exact H|]. intros k cl x Hk. destruct k; discriminate.
  - assert (W' : well_sized n rs) by (intros x Hx; apply W; cbn; auto).
    specialize (IH W'). cbn [run]. rewrite calls_cons.
    unfold evaluated at 1. cbn [flat_map]. fold (evaluated rs). rewrite app_assoc.
    assert (Q : cache_inv n f (asked ++ match r with REval x => [x] | _ => [] end)
        (evaluated (fst (snd (fst (cache (logged o) (c, (log, s)) r))))) (fst (fst (cache (logged o) (c, (log, s)) r))) /\
        (forall x, r = REval x -> snd (cache (logged o) (c, (log, s)) r) = (v <- f x ;; Ok (RValue v)))).
    { destruct r as [x|x w l|x w|x].
      - assert (Lx : length x = n) by (apply W; cbn; auto). cbn [cache]. rewrite (ci_size _ _ _ _ _ H), Lx, Nat.eqb_refl.
        destruct (cache_find (cache_map c) x) as [v|] eqn:Ef.
        + cbn [fst snd]. pose proof (cache_find_In _ _ _ Ef) as Hin. pose proof (ci_values _ _ _ _ _ H _ _ Hin) as Fx.
          assert (Ha : In x asked) by (apply (ci_only _ _ _ _ _ H); apply in_map_iff; exists (x, v); auto).
          split.
          * destruct H as [K1 K2 K3 K4 K5 K6 K7 K8 K9].
            constructor; cbn [cache_size cache_map cache_evaluations cache_lookups]; auto.
            -- intros y. rewrite in_app_iff. cbn. rewrite <- K4. intuition (subst; auto).
            -- intros y u Hy Fy. apply in_app_iff in Hy as [Hy|[<-|[]]]; [auto|]. rewrite Fx in Fy. injection Fy as <-. assumption.
            -- intros y Hy. apply in_app_iff. auto.
            -- rewrite app_length. cbn. lia.
            -- rewrite app_length. cbn. lia.
            -- intros T. apply K9. intros y Hy. apply T. apply in_app_iff. auto.
          * intros y Ey. injection Ey as <-. now rewrite Fx.
        + pose proof (cache_find_None _ _ Ef) as Hno.
          unfold logged. specialize (D s x). destruct (o s (REval x)) as [s' a]. cbn [snd] in D. subst a.
          destruct (f x) as [v|e|] eqn:Fx; cbn [bind fst snd].
          all: split; [|intros y Ey; injection Ey as <-; rewrite Fx; reflexivity].
          all: destruct H as [K1 K2 K3 K4 K5 K6 K7 K8 K9];
            constructor; cbn [cache_size cache_map cache_evaluations cache_lookups map fst]; auto;
            rewrite ?evaluated_app, ?app_length; cbn [evaluated flat_map app length]; try lia.
          * constructor; assumption.
          * intros y u [Ey|Hy]; [injection Ey as <- <-; assumption|auto].
          * intros y. rewrite !in_app_iff, K4. reflexivity.
          * intros y u Hy Fy. apply in_app_iff in Hy as [Hy|[<-|[]]]; [right; auto|]. left. congruence.
          * intros y [<-|Hy]; apply in_app_iff; [right; cbn; auto|auto].
          * intros T. apply NoDup_app_intro; [apply K9; intros y Hy; apply T, in_app_iff; auto|repeat constructor; auto|].
            intros y Hy [<-|[]]. apply Hno. apply K4 in Hy. apply in_map_iff. exists (x, v). split; [reflexivity|auto].
          * intros y. rewrite !in_app_iff, K4. reflexivity.
          * intros y u Hy Fy. apply in_app_iff in Hy as [Hy|[<-|[]]]; [auto|]. congruence.
          * intros y Hy; apply in_app_iff; auto.
          * intros T. exfalso. destruct (T x) as [v Fv]; [apply in_app_iff; cbn; auto|congruence].
          * intros y. rewrite !in_app_iff, K4. reflexivity.
          * intros y u Hy Fy. apply in_app_iff in Hy as [Hy|[<-|[]]]; [auto|]. congruence.
          * intros y Hy; apply in_app_iff; auto.
          * intros T. exfalso. destruct (T x) as [v Fv]; [apply in_app_iff; cbn; auto|congruence].
      - rewrite app_nil_r. split; [exact H|discriminate].
      - rewrite app_nil_r. split; [exact H|discriminate].
      - rewrite app_nil_r. cbn [cache logged]. destruct (o s (RSafe x)) as [s' a]. cbn [fst snd].
        rewrite evaluated_app. cbn [evaluated flat_map app]. rewrite app_nil_r. split; [exact H|discriminate]. }
    destruct Q as [Q1 Q2]. destruct (cache (logged o) (c, (log, s)) r) as [[c' [log' s']] a]. cbn [fst snd] in Q1, Q2 |- *.
    destruct (IH c' log' s' _ Q1) as [R1 R2]. split; [exact R1|].
    intros [|k] cl x Hk Er.
    + cbn in Hk. apply Some_inj in Hk. subst cl. cbn in Er |- *. now apply Q2.
    + cbn in Hk. eapply R2; eassumption.
Qed.

Theorem cache_spec {S} (o : fobj S) n f s rs : deterministic o f -> well_sized n rs ->
  let st := run (cache (logged o)) (cache_make n, ([], s)) rs in
  let asked := evaluated rs in
  let sent := evaluated (fst (snd st)) in
  (forall k cl x, nth_error (calls (cache (logged o)) (cache_make n, ([], s)) rs) k = Some cl -> req cl = REval x ->
     res cl = (v <- f x ;; Ok (RValue v))) /\
  (forall x, In x sent <-> In x asked) /\
  ((forall x, In x asked -> exists v, f x = Ok v) -> NoDup sent) /\
  lookup_ratio (fst st) = (length asked - length sent, length asked).
Proof.
  intros D W st asked sent.
  destruct (cache_run o n f D rs W (cache_make n) [] s []) as [R1 R2].
  { constructor; cbn; auto; try lia; try tauto; try constructor. }
  cbn [app] in R1. fold st asked in R1. fold sent in R1. split; [exact R2|].
  destruct R1 as [K1 K2 K3 K4 K5 K6 K7 K8 K9]. split; [intros x; now rewrite K4|]. split; [exact K9|].
  unfold lookup_ratio. rewrite K7. f_equal. lia.
Qed.
