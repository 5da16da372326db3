(** Complete search on functions whose values depend on the number of calls: the vectors are
    evaluated once, in order, so that the function might as well have been a fixed one. *)

From Coq Require Import ZArith NArith.
From Verif Require Import Base BaseLemmas BitVector_Model BitVector_Spec BitVector_Proofs Iterator_Model Iterator_Proofs Algorithm_Proofs Map_Model Map_Spec Double
  Controller_Model Controller_Spec Controller_Proofs Decorator_Model Decorator_Spec ControllerStack_Spec Application_Model Application_Spec Application_Proofs
  Search_Model Search_Spec Search_Proofs Properties_Search.
Local Open Scope nat_scope.

Section Counting.
  Context (o : fobj nat) (n : nat) (h : nat -> bv -> dbl).
  Context (Ho : forall k x, length x = n -> o k (REval x) = (k + 1, Ok (RValue (h k x)))).

  (** The value of a vector when its number is that of the call *)
  Definition in_turn (x : bv) : dbl := h (N.to_nat (value_lsb x)) x.
  Definition fixed : fobj nat := fun k q =>
    match q with REval x => if length x =? n then (k + 1, Ok (RValue (in_turn x))) else o k q | _ => o k q end.

  Lemma fixed_total s : total fixed s n in_turn.
  Proof.
    intros xs. revert s. induction xs as [|x xs IH]; intros s H; [reflexivity|]. inversion H as [|? ? H1 H2]; subst. cbn [map calls fixed].
    rewrite H1, Nat.eqb_refl. cbn [map res fst snd]. f_equal. now apply IH.
  Qed.

  Local Notation T := (fun o : fobj nat => progress_tracker o false).
  Lemma tracker_same i c k x : length x = n -> N.to_nat (value_lsb x) = k ->
    T o (i, (c, k)) (REval x) = T fixed (i, (c, k)) (REval x) /\ snd (snd (fst (T o (i, (c, k)) (REval x)))) = k + 1.
  Proof.
    intros L K. assert (E : o k (REval x) = fixed k (REval x)) by (cbn [fixed]; rewrite L, Nat.eqb_refl, (Ho k x L); unfold in_turn; now rewrite K).
    unfold progress_tracker. rewrite !call_counter_step, <- E. split; [reflexivity|]. rewrite (Ho k x L). cbn [fst snd counts returned andb].
    destruct (update_last_improvement false (c + 1) x (h k x) i); reflexivity.
  Qed.

  Definition at_call (m : middle) (k : nat) (ms : middle_state m (improvement * (nat * nat))) : Prop :=
    snd (snd (middle_inner m ms)) = k /\
    forall c, middle_cache m ms = Some c -> forall x v, cache_find (cache_map c) x = Some v -> N.to_nat (value_lsb x) < k.

  Lemma middle_same m k ms x : at_call m k ms -> length x = n -> N.to_nat (value_lsb x) = k ->
    middle_obj m (T o) ms (REval x) = middle_obj m (T fixed) ms (REval x) /\
    (forall p, snd (middle_obj m (T o) ms (REval x)) = Ok p -> at_call m (k + 1) (fst (middle_obj m (T o) ms (REval x)))).
  Proof.
    intros [A C] L K. destruct m as [|b| |b|b]; cbn [middle_obj middle_inner middle_state middle_cache] in *.
    - destruct ms as [i [c k']]. cbn [fst snd] in A. subst k'. destruct (tracker_same i c k x L K) as [E1 E2]. split; [exact E1|]. intros p _. split; [exact E2|]. discriminate.
    - destruct ms as [d [i [c k']]]. cbn [fst snd] in A. subst k'. destruct (tracker_same i c k x L K) as [E1 E2]. rewrite !on_budget_step, !call_counter_step, <- E1. split; [reflexivity|].
      destruct (counts (REval x) && _); [discriminate|]. intros p _. split; [exact E2|]. discriminate.
    - destruct ms as [ca [i [c k']]]. cbn [fst snd] in A. subst k'. destruct (tracker_same i c k x L K) as [E1 E2]. specialize (C ca eq_refl). cbn [cache].
      destruct (length x =? cache_size ca); [|split; [reflexivity|discriminate]].
      destruct (cache_find (cache_map ca) x) as [v|] eqn:EF; [specialize (C x v EF); lia|]. rewrite <- E1. split; [reflexivity|].
      destruct (T o (i, (c, k)) (REval x)) as [t a]. cbn [fst snd] in E2. destruct a as [[v|]| |]; try discriminate; intros p _; (split; [exact E2|]); intros c' [= <-] y w; cbn [cache_map cache_find].
      + destruct (bv_eq_dec y x) as [->|_]; [intros _; lia|]. intros H. specialize (C y w H). lia.
      + intros H. specialize (C y w H). lia.
    - destruct ms as [d [ca [i [c k']]]]. cbn [fst snd] in A. subst k'. destruct (tracker_same i c k x L K) as [E1 E2]. specialize (C ca eq_refl). rewrite !on_budget_step, !call_counter_step. cbn [cache].
      destruct (length x =? cache_size ca); [|split; [reflexivity|destruct (counts (REval x) && _); discriminate]].
      destruct (cache_find (cache_map ca) x) as [v|] eqn:EF; [specialize (C x v EF); lia|]. rewrite <- E1. split; [reflexivity|].
      destruct (counts (REval x) && _); [discriminate|].
      destruct (T o (i, (c, k)) (REval x)) as [t a]. cbn [fst snd] in E2. destruct a as [[v|]| |]; try discriminate; intros p _; (split; [exact E2|]); intros c' [= <-] y w; cbn [cache_map cache_find].
      + destruct (bv_eq_dec y x) as [->|_]; [intros _; lia|]. intros H. specialize (C y w H). lia.
      + intros H. specialize (C y w H). lia.
    - destruct ms as [ca [d [i [c k']]]]. cbn [fst snd] in A. subst k'. destruct (tracker_same i c k x L K) as [E1 E2]. specialize (C ca eq_refl). cbn [cache].
      destruct (length x =? cache_size ca); [|split; [reflexivity|discriminate]].
      destruct (cache_find (cache_map ca) x) as [v|] eqn:EF; [specialize (C x v EF); lia|]. rewrite !on_budget_step, !call_counter_step, <- E1. split; [reflexivity|].
      destruct (counts (REval x) && _) eqn:EC; [discriminate|].
      destruct (T o (i, (c, k)) (REval x)) as [t a]. cbn [fst snd] in E2. destruct a as [[v|]| |]; try discriminate; intros p _; (split; [exact E2|]); intros c' [= <-] y w; cbn [cache_map cache_find].
      + destruct (bv_eq_dec y x) as [->|_]; [intros _; lia|]. intros H. specialize (C y w H). lia.
      + intros H. specialize (C y w H). lia.
  Qed.

  Context (mid : middle) (target : option dbl).
  Local Notation A := (complete_search_machine n).
  Lemma controlled_same k cs x : at_call mid k (snd cs) -> length x = n -> N.to_nat (value_lsb x) = k ->
    controlled_obj mid target o cs (REval x) = controlled_obj mid target fixed cs (REval x) /\
    (forall p, snd (controlled_obj mid target o cs (REval x)) = Ok p -> at_call mid (k + 1) (snd (fst (controlled_obj mid target o cs (REval x))))).
  Proof.
    intros AC L K. destruct cs as [tr ms]. cbn [snd] in AC. destruct (middle_same mid k ms x AC L K) as [E1 E2]. unfold controlled_obj. destruct target as [t|].
    - rewrite !stop_step, <- E1. split; [reflexivity|]. destruct (filter _ _) as [|[y w] l]; [|discriminate]. cbn [fst snd]. exact E2.
    - rewrite <- E1. split; [reflexivity|]. destruct (middle_obj mid (T o) ms (REval x)) as [ms' a]. cbn [fst snd] in *. exact E2.
  Qed.

  Lemma play_same Lr : forall k st cs fuel, enum (fun s => Ok (hc_has_next s)) hc_next (fun _ _ => True) (co_iterator st) Lr ->
    (forall j x, nth_error Lr j = Some x -> length x = n /\ N.to_nat (value_lsb x) = k + j) -> at_call mid k (snd cs) ->
    play (controlled_obj mid target o) A fuel st cs = play (controlled_obj mid target fixed) A fuel st cs.
  Proof.
    induction Lr as [|x Lr IH]; intros k st cs fuel HE HL AC; (destruct fuel as [|fuel]; [reflexivity|]).
    - inversion HE as [s0 H|]; subst. apply Ok_inj in H. cbn [play complete_search_machine ma_next]. rewrite H. destruct (co_first st); reflexivity.
    - inversion HE as [|s0 x0 it' L' H N _ E' E1 E2]; subst. apply Ok_inj in H. destruct (HL 0 x eq_refl) as [L K]. rewrite Nat.add_0_r in K.
      assert (En : ma_next A st = MCall (REval x)) by (cbn; now rewrite H, N). cbn [play]. rewrite En.
      destruct (controlled_same k cs x AC L K) as [S1 S2]. rewrite <- S1. destruct (controlled_obj mid target o cs (REval x)) as [cs' a]. cbn [fst snd] in S2.
      destruct a as [p|e|]; [|reflexivity..]. apply (IH (k + 1)); [|intros j y Hy; specialize (HL (S j) y Hy); lia|now apply (S2 p)].
      assert (I : co_iterator (ma_after A st (Ok p)) = it') by (cbn; rewrite N; destruct p; reflexivity). now rewrite I.
  Qed.
End Counting.

Theorem counting_search ap co (o : fobj nat) props h mid target i : let F := mk_func nat o 0 props in
  0 < i -> optimizes ap -> ap_restart ap = false -> make_function_controller co F = Ok (mid, target) -> fp_size props = i ->
  (forall k x, length x = i -> o k (REval x) = (k + 1, Ok (RValue (h k x)))) -> (forall k, numbers i (h k)) ->
  exists L, counting_order i L /\
  forall fuel, 2 ^ i < fuel ->
  exists r x success, program ap co (Ok (Some (None, F))) make_complete_search fuel = Some (report ap co None i r x success) /\
    rs_success r = (match co_stop_on_maximum co, co_target co with false, None => None | _, _ => Some success end) /\
    search_ends (in_turn h) target L (allowed co (2 ^ i)) r x success.
Proof.
  intros F Hi HO HR HC HF Ho HN. set (F' := mk_func nat (fixed o i h) 0 props).
  assert (HC' : make_function_controller co F' = Ok (mid, target)) by exact HC.
  destruct (C116_complete_search ap co None F' mid target i i (in_turn h)) as (L & HL & H); try exact I; auto; try reflexivity.
  { apply fixed_total. } { intros x Lx. now apply HN. }
  exists L. split; [exact HL|]. intros fuel Hfu. destruct (H fuel Hfu) as (r & x & success & P & Q). exists r, x, success. split; [|exact Q]. rewrite <- P. clear H P Q.
  assert (HFa : make_complete_search (fp_size props) = Ok (complete_search_machine i)).
  { unfold make_complete_search. rewrite HF. destruct (Nat.ltb_spec 0 i); [reflexivity|lia]. }
  rewrite (program_run ap co None F make_complete_search (complete_search_machine i) mid target HO HC HFa fuel).
  rewrite (program_run ap co None F' make_complete_search (complete_search_machine i) mid target HO HC' HFa fuel).
  unfold run_by. rewrite HR. unfold F', F. cbn [f_props f_obj f_init f_state]. rewrite HF.
  destruct (all_bvs_spec i) as (A1 & A2 & A3 & A4).
  rewrite (play_same o i h Ho mid target (all_bvs i) 0 (ma_begin (complete_search_machine i) (ma_init (complete_search_machine i))) (controlled_init mid i 0) fuel); [reflexivity| | |].
  - cbn. rewrite repeat_length. apply (drain_enum _ _ _ (fun _ => True) (S (2 ^ i))) with (s' := mk_hc (bits_of i (2 ^ i - 1)) false); auto.
    apply (hypercube_drain i (hc_make i) (S (2 ^ i))); auto; try lia. cbn. apply repeat_length.
  - intros j y Hy. split; [apply A3; now apply nth_error_In with j|]. assert (B : j < length (all_bvs i)) by (apply nth_error_Some; congruence).
    rewrite A1 in B. specialize (A4 j B). rewrite (nth_error_nth _ _ [] Hy) in A4. rewrite A4. lia.
  - split; [destruct mid; reflexivity|]. intros c Hc y w Hy. destruct mid; cbn in Hc; try discriminate; injection Hc as <-; discriminate.
Qed.
