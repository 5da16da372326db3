(** Proofs about hBOA. *)

From Coq Require Import Lia Permutation Sorted.
From Verif Require Import Base BaseLemmas Double Mimic_Proofs Pyramid_Spec Pyramid_Proofs Forest_Model Forest_Spec Forest_Proofs Hboa_Model Hboa_Spec.
Local Open Scope nat_scope.

Lemma hamming_le x : forall y, hamming x y <= length x.
Proof. induction x as [|a x IH]; intros [|b y]; cbn; try lia. specialize (IH y). destruct (Bool.eqb a b); lia. Qed.

Lemma hamming_differences x : forall y, length y = length x -> hamming x y = differences x y.
Proof.
  unfold differences. induction x as [|a x IH]; intros [|b y] L; try discriminate; [reflexivity|]. injection L as L. cbn [hamming length seq filter]. change (nth 0 (a :: x) false) with a. change (nth 0 (b :: y) false) with b. rewrite (IH y L), <- seq_shift.
  assert (H : forall l, length (filter (fun i => xorb (nth i (a :: x) false) (nth i (b :: y) false)) (map S l)) = length (filter (fun i => xorb (nth i x false) (nth i y false)) l)).
  { induction l as [|i l IHl]; cbn [map filter]; [reflexivity|]. change (nth (S i) (a :: x) false) with (nth i x false). change (nth (S i) (b :: y) false) with (nth i y false). destruct (xorb (nth i x false) (nth i y false)); cbn [length]; now rewrite IHl. }
  specialize (H (seq 0 (length x))). destruct a, b; cbn [Bool.eqb xorb length]; rewrite H; reflexivity.
Qed.
Lemma uniform_spec a b draw : a <= b -> exists k, uniform a b draw = Ok k /\ a <= k <= b.
Proof.
  intros L. unfold uniform. apply Nat.leb_le in L as L'. rewrite L'. cbn [assertb bind]. eexists. split; [reflexivity|]. pose proof (Nat.mod_upper_bound draw (b - a + 1)). lia.
Qed.
Lemma swap_at_spec l i j : i < length l -> j < length l ->
  exists l', swap_at l i j = Ok l' /\ Permutation l l' /\ length l' = length l /\ forall k, k <> i -> k <> j -> nth k l' 0 = nth k l 0.
Proof.
  intros I J. unfold swap_at, vget. rewrite (nth_error_nth' l 0 I), (nth_error_nth' l 0 J). cbn [bind]. rewrite vset_Ok by exact I. cbn [bind]. rewrite vset_Ok by (rewrite length_upd; exact J).
  eexists. split; [reflexivity|]. split; [destruct (Nat.eq_dec i j) as [<-|NIJ]; [rewrite upd_upd, upd_nth by exact I; apply Permutation_refl|now apply swap_perm]|]. split; [now rewrite !length_upd|]. intros k KI KJ. now rewrite !nth_upd_neq by congruence.
Qed.

Lemma firstn_S_nth {A} (l : list A) i d : i < length l -> firstn (S i) l = firstn i l ++ [nth i l d].
Proof. revert i. induction l as [|a l IH]; intros [|i] L; cbn in *; try lia; [reflexivity|]. now rewrite <- IH by lia. Qed.
Lemma firstn_nth_ext (l m : list nat) i : length l = length m -> i <= length l -> (forall k, k < i -> nth k l 0 = nth k m 0) -> firstn i l = firstn i m.
Proof.
  revert l m. induction i as [|i IH]; intros l m L B H; [reflexivity|]. destruct l as [|a l], m as [|b m]; cbn in *; try lia. f_equal; [apply (H 0); lia|]. apply IH; [lia|lia|]. intros k K. apply (H (S k)). lia.
Qed.

(** The nearest solution of the sample *)
Definition nearest (n : nat) (solutions : list (list bool)) (x : list bool) (sample : list nat) (best : option (nat * nat)) : Prop :=
  match best with
  | None => sample = []
  | Some (c, d) => In c sample /\ d = hamming (nth c solutions []) x /\ forall k, In k sample -> d <= hamming (nth k solutions []) x
  end.

Lemma nearest_loop n sample solutions x count : (forall s, In s solutions -> length s = n) -> forall start selection best,
  start + count <= length selection -> Permutation selection (seq 0 (length solutions)) -> nearest n solutions x (firstn start selection) best ->
  exists selection' best', foldM (fun '(selection, best) i =>
      index <- uniform i (length selection - 1) (sample i) ;;
      selection <- swap_at selection i index ;;
      k <- vget selection i ;;
      s <- vget solutions k ;;
      let new_dist := hamming s x in
      let distance := match best with Some (_, distance) => distance | None => n + 1 end in
      Ok (selection, if new_dist <? distance then Some (k, new_dist) else best)) (seq start count) (selection, best) = Ok (selection', best') /\
    Permutation selection' (seq 0 (length solutions)) /\ nearest n solutions x (firstn (start + count) selection') best'.
Proof.
  intros LS. induction count as [|count IH]; intros start selection best B P NB; cbn [seq foldM].
  - exists selection, best. rewrite Nat.add_0_r. split; [reflexivity|]. split; [exact P|exact NB].
  - destruct (uniform_spec start (length selection - 1) (sample start)) as (index & EU & HU); [lia|]. rewrite EU. cbn [bind].
    destruct (swap_at_spec selection start index) as (sel & ES & PS & LL & KS); [lia|lia|]. rewrite ES. cbn [bind].
    unfold vget at 1. rewrite (nth_error_nth' sel 0) by lia. cbn [bind]. set (k := nth start sel 0).
    assert (PSel : Permutation sel (seq 0 (length solutions))) by now rewrite <- PS.
    assert (K : k < length solutions). { assert (I : In k sel) by (apply nth_In; lia). apply (Permutation_in _ PSel) in I. apply in_seq in I. lia. }
    unfold vget at 1. rewrite (nth_error_nth' solutions [] K). cbn [bind].
    assert (FE : firstn start sel = firstn start selection) by (apply firstn_nth_ext; [lia|lia|]; intros j J; apply KS; lia).
    assert (HL : hamming (nth k solutions []) x < n + 1). { pose proof (hamming_le (nth k solutions []) x) as H. rewrite (LS (nth k solutions [])) in H by now apply nth_In. lia. }
    set (best1 := if _ <? _ then _ else _).
    assert (NB1 : nearest n solutions x (firstn (S start) sel) best1).
    { rewrite (firstn_S_nth sel start 0) by lia. fold k. rewrite FE. subst best1. destruct best as [[c d]|]; cbn [nearest] in NB.
      - destruct NB as (C1 & C2 & C3). destruct (hamming (nth k solutions []) x <? d) eqn:LT; [apply Nat.ltb_lt in LT|apply Nat.ltb_ge in LT]; cbn [nearest].
        + split; [apply in_or_app; right; now left|]. split; [reflexivity|]. intros j J. apply in_app_or in J. destruct J as [J|[<-|[]]]; [specialize (C3 j J); lia|lia].
        + split; [apply in_or_app; now left|]. split; [exact C2|]. intros j J. apply in_app_or in J. destruct J as [J|[<-|[]]]; [now apply C3|exact LT].
      - rewrite NB. replace (hamming (nth k solutions []) x <? n + 1) with true by (symmetry; now apply Nat.ltb_lt). cbn [nearest app]. split; [now left|]. split; [reflexivity|]. intros j [<-|[]]. lia. }
    destruct (IH (S start) sel best1) as (s' & b' & E & P' & N'); [lia|exact PSel|exact NB1|]. exists s', b'. unfold vget in E. unfold vget. rewrite E. split; [reflexivity|]. split; [exact P'|]. replace (start + S count) with (S start + count) by lia. exact N'.
Qed.

Lemma rtr_size_bounds n p : 0 < p -> 1 <= rtr_size n p <= p.
Proof.
  intros H. unfold rtr_size. pose proof (Nat.div_le_upper_bound p 20 p). destruct (Nat.min n (p / 20) =? 0) eqn:E; [lia|]. apply Nat.eqb_neq in E. lia.
Qed.
Lemma rtr_nearest_spec n sample solutions x selection : 0 < length solutions -> (forall s, In s solutions -> length s = n) -> Permutation selection (seq 0 (length solutions)) ->
  exists selection' c, rtr_nearest n sample solutions x selection = Ok (selection', Some (c, hamming (nth c solutions []) x)) /\ Permutation selection' (seq 0 (length solutions)) /\
    In c (firstn (rtr_size n (length solutions)) selection') /\
    forall k, In k (firstn (rtr_size n (length solutions)) selection') -> hamming (nth c solutions []) x <= hamming (nth k solutions []) x.
Proof.
  intros NE LS P. pose proof (rtr_size_bounds n _ NE) as RB. pose proof (Permutation_length P) as PL. rewrite seq_length in PL.
  destruct (nearest_loop n sample solutions x (rtr_size n (length solutions)) LS 0 selection None) as (s' & b' & E & P' & N'); [lia|exact P|reflexivity|].
  change (rtr_nearest n sample solutions x selection = Ok (s', b')) in E. rewrite E. cbn [Nat.add] in N'. destruct b' as [[c d]|]; cbn [nearest] in N'.
  - destruct N' as (C1 & -> & C3). exists s', c. split; [reflexivity|]. split; [exact P'|]. split; [exact C1|exact C3].
  - exfalso. pose proof (Permutation_length P') as PL'. rewrite seq_length in PL'. apply (f_equal (@length nat)) in N'. rewrite firstn_length in N'. cbn in N'. lia.
Qed.

Lemma nodup_front {A} (l m : list A) : NoDup (l ++ m) -> NoDup l.
Proof.
  induction l as [|a l IH]; cbn; intros H; [constructor|]. inversion H as [|? ? NI ND]; subst. constructor; [|now apply IH]. intros I. apply NI. apply in_or_app. now left.
Qed.

Section HBOA.
  Context (n : nat) (f : list bool -> outcome dbl) (draws : nat -> hboa_draws).
  Context (O : sorts_trees n draws) (F : forall x, length x = n -> f x <> UB).

  Definition valued (solutions : list (list bool)) (fitnesses : list dbl) : Prop := Forall2 (fun x v => length x = n /\ f x = Ok v) solutions fitnesses.
  Lemma valued_length s l : valued s l -> length l = length s.
  Proof. induction 1; cbn; congruence. Qed.
  Lemma valued_In s l x : valued s l -> In x s -> length x = n.
  Proof. induction 1 as [|a b s l (H & _) V IH]; intros I; [destruct I|]. destruct I as [<-|I]; auto. Qed.
  Lemma valued_upd s l i x v : valued s l -> i < length s -> length x = n -> f x = Ok v -> valued (upd s i x) (upd l i v).
  Proof. 
    intros V. revert i. induction V as [|a b s l H V IH]; intros i I L E; [cbn in I; lia|]. destruct i as [|i]; cbn [upd].
    - constructor; [now split|exact V].
    - constructor; [exact H|]. apply IH; [cbn in I; lia|exact L|exact E].
  Qed.

  Lemma make_hboa xs : (forall x, In x xs -> length x = n) ->
    ends n f (hboa_make f xs) (fun g => hboa_sound n f g /\ h_solutions g = xs /\ h_generations g = 0).
  Proof.
    intros L. unfold hboa_make.
    assert (H : forall ys l done, (forall x, In x ys -> length x = n) -> valued done l -> ends n f (foldM (fun l x => v <- f x ;; Ok (l ++ [v])) ys l) (fun l' => valued (done ++ ys) l')).
    { induction ys as [|y ys IH]; intros l done LY V; cbn [foldM]; [cbn [ends]; now rewrite app_nil_r|].
      destruct (f y) as [v|e|] eqn:E; cbn [bind]; [|exists y; split; [apply LY; now left|exact E]|apply (F y); [apply LY; now left|exact E]].
      replace (done ++ y :: ys) with ((done ++ [y]) ++ ys) by now rewrite <- app_assoc. apply IH; [intros x I; apply LY; now right|].
      apply Forall2_app; [exact V|]. constructor; [split; [apply LY; now left|exact E]|constructor]. }
    eapply ends_bind; [apply (H xs [] [] L); constructor|]. intros l V. cbn [ends app] in *. split; [|split; reflexivity]. split; [exact V|reflexivity].
  Qed.

  Lemma select_spec g d : hboa_sound n f g -> 0 < length (h_solutions g) ->
    exists selected, select g d = Ok selected /\ length selected = length (h_solutions g) /\ forall s, In s selected -> In s (h_solutions g).
  Proof.
    intros (V & _) NE. unfold select. replace (length (h_solutions g) =? 0) with false by (symmetry; apply Nat.eqb_neq; lia). cbn [negb assertb bind].
    pose proof (valued_length _ _ V) as LV.
    assert (H : forall is l, (forall s, In s l -> In s (h_solutions g)) -> exists l', foldM (fun l i =>
      x <- uniform 0 (length (h_solutions g) - 1) (hd_first d i) ;; y <- uniform 0 (length (h_solutions g) - 1) (hd_second d i) ;;
      fx <- vget (h_fitnesses g) x ;; fy <- vget (h_fitnesses g) y ;; s <- vget (h_solutions g) (if dlt fx fy then y else x) ;; Ok (l ++ [s])) is l = Ok l' /\
      length l' = length l + length is /\ forall s, In s l' -> In s (h_solutions g)).
    { induction is as [|i is IH]; intros l K; cbn [foldM]; [exists l; split; [reflexivity|split; [cbn; lia|exact K]]|].
      destruct (uniform_spec 0 (length (h_solutions g) - 1) (hd_first d i)) as (x & EX & HX); [lia|]. rewrite EX. cbn [bind].
      destruct (uniform_spec 0 (length (h_solutions g) - 1) (hd_second d i)) as (y & EY & HY); [lia|]. rewrite EY. cbn [bind].
      unfold vget at 1. rewrite (nth_error_nth' (h_fitnesses g) DNaN) by lia. cbn [bind]. unfold vget at 1. rewrite (nth_error_nth' (h_fitnesses g) DNaN) by lia. cbn [bind].
      set (c := if dlt _ _ then y else x). assert (C : c < length (h_solutions g)) by (subst c; destruct (dlt _ _); lia).
      unfold vget at 1. rewrite (nth_error_nth' (h_solutions g) [] C). cbn [bind].
      destruct (IH (l ++ [nth c (h_solutions g) []])) as (l' & E & LL & K').
      { intros s I. apply in_app_or in I. destruct I as [I|[<-|[]]]; [now apply K|now apply nth_In]. }
      exists l'. split; [exact E|]. split; [rewrite LL, app_length; cbn; lia|exact K']. }
    destruct (H (seq 0 (length (h_solutions g))) []) as (l' & E & LL & K); [intros s []|]. exists l'. split; [exact E|]. split; [now rewrite LL, seq_length|exact K].
  Qed.

  Lemma select_winners g d : hboa_sound n f g -> 0 < length (h_solutions g) ->
    exists selected, select g d = Ok selected /\ length selected = length (h_solutions g) /\
      forall i, i < length selected -> exists winner loser, winner < length (h_solutions g) /\ loser < length (h_solutions g) /\
        nth i selected [] = nth winner (h_solutions g) [] /\ dlt (nth winner (h_fitnesses g) DNaN) (nth loser (h_fitnesses g) DNaN) = false.
  Proof.
    clear O F.
    intros (V & _) NE. unfold select. replace (length (h_solutions g) =? 0) with false by (symmetry; apply Nat.eqb_neq; lia). cbn [negb assertb bind].
    pose proof (valued_length _ _ V) as LV.
    set (won := fun s => exists winner loser, winner < length (h_solutions g) /\ loser < length (h_solutions g) /\ s = nth winner (h_solutions g) [] /\ dlt (nth winner (h_fitnesses g) DNaN) (nth loser (h_fitnesses g) DNaN) = false).
    assert (H : forall is l, Forall won l -> exists l', foldM (fun l i =>
      x <- uniform 0 (length (h_solutions g) - 1) (hd_first d i) ;; y <- uniform 0 (length (h_solutions g) - 1) (hd_second d i) ;;
      fx <- vget (h_fitnesses g) x ;; fy <- vget (h_fitnesses g) y ;; s <- vget (h_solutions g) (if dlt fx fy then y else x) ;; Ok (l ++ [s])) is l = Ok l' /\
      length l' = length l + length is /\ Forall won l').
    { induction is as [|i is IH]; intros l K; cbn [foldM]; [exists l; split; [reflexivity|split; [cbn; lia|exact K]]|].
      destruct (uniform_spec 0 (length (h_solutions g) - 1) (hd_first d i)) as (x & EX & HX); [lia|]. rewrite EX. cbn [bind].
      destruct (uniform_spec 0 (length (h_solutions g) - 1) (hd_second d i)) as (y & EY & HY); [lia|]. rewrite EY. cbn [bind].
      unfold vget at 1. rewrite (nth_error_nth' (h_fitnesses g) DNaN) by lia. cbn [bind]. unfold vget at 1. rewrite (nth_error_nth' (h_fitnesses g) DNaN) by lia. cbn [bind].
      destruct (dlt (nth x (h_fitnesses g) DNaN) (nth y (h_fitnesses g) DNaN)) eqn:D.
      - unfold vget at 1. rewrite (nth_error_nth' (h_solutions g) []) by lia. cbn [bind]. destruct (IH (l ++ [nth y (h_solutions g) []])) as (l' & E & LL & K').
        { apply Forall_app. split; [exact K|]. constructor; [|constructor]. exists y, x. split; [lia|]. split; [lia|]. split; [reflexivity|]. match goal with |- ?b = false => destruct b eqn:D' end; [|reflexivity]. pose proof (dlt_trans _ _ _ D D') as D2. now rewrite dlt_irrefl in D2. }
        exists l'. split; [exact E|]. split; [rewrite LL, app_length; cbn; lia|exact K'].
      - unfold vget at 1. rewrite (nth_error_nth' (h_solutions g) []) by lia. cbn [bind]. destruct (IH (l ++ [nth x (h_solutions g) []])) as (l' & E & LL & K').
        { apply Forall_app. split; [exact K|]. constructor; [|constructor]. exists x, y. split; [lia|]. split; [lia|]. split; [reflexivity|exact D]. }
        exists l'. split; [exact E|]. split; [rewrite LL, app_length; cbn; lia|exact K']. }
    destruct (H (seq 0 (length (h_solutions g))) []) as (l' & E & LL & K); [constructor|]. exists l'. split; [exact E|]. split; [now rewrite LL, seq_length|].
    intros i I. rewrite Forall_forall in K. apply K. now apply nth_In.
  Qed.

  Lemma generate_one t selected coins x : length x = n ->
    exists x', generate coins (build_forest n selected (hd_choices (draws t))) (hd_order (draws t)) x = Ok x' /\ length x' = n.
  Proof.
    intros L. destruct (O t selected) as (P & SS).
    destruct (generate_from n coins (build_forest n selected (hd_choices (draws t))) (hd_order (draws t)) [] x x L L) as (x' & _ & E & _ & L' & _).
    - apply (Permutation_NoDup (Permutation_sym P)), seq_NoDup.
    - intros k K. apply (Permutation_in _ P) in K. apply in_seq in K. lia.
    - intros u [].
    - intros k u K U. apply (Permutation_in _ P) in K. apply in_seq in K. apply (build_before n selected (hd_choices (draws t))); [split; [exact P|exact SS]|lia|exact U].
    - now exists x'.
  Qed.

  Lemma grows_refl l : Forall2 grows l l.
  Proof. induction l; constructor; [now left|assumption]. Qed.
  Lemma grows_trans l m k : Forall2 grows l m -> Forall2 grows m k -> Forall2 grows l k.
  Proof.
    intros H. revert k. induction H as [|a b l m H F' IH]; intros k K; inversion K as [|? c ? k' G K']; subst; constructor; [|now apply IH].
    destruct H as [->|H], G as [->|G]; [now left|now right|now right|]. right. eapply dlt_trans; eassumption.
  Qed.
  Lemma grows_upd l i v : i < length l -> dlt (nth i l DNaN) v = true -> Forall2 grows l (upd l i v).
  Proof. revert i. induction l as [|a l IH]; intros [|i] I D; cbn in *; try lia; constructor; [now right|apply grows_refl|now left|apply IH; [lia|exact D]]. Qed.

  Lemma replace_loop t selected is : forall solutions fitnesses selection x, 0 < length solutions -> valued solutions fitnesses -> Permutation selection (seq 0 (length solutions)) -> length x = n ->
    ends n f (foldM (replace_one n f (draws t) (build_forest n selected (hd_choices (draws t)))) is (solutions, fitnesses, selection, x))
      (fun '(s, l, sel, y) => valued s l /\ length s = length solutions /\ Permutation sel (seq 0 (length s)) /\ Forall2 grows fitnesses l).
  Proof.
    induction is as [|i is IH]; intros solutions fitnesses selection x NE V P L; cbn [foldM].
    - cbn [ends]. split; [exact V|]. split; [reflexivity|]. split; [exact P|apply grows_refl].
    - unfold replace_one at 1. destruct (generate_one t selected (hd_coins (draws t) i) x L) as (y & EG & LY). rewrite EG. cbn [bind].
      destruct (f y) as [v|e|] eqn:EF; cbn [bind]; [|exists y; split; [exact LY|exact EF]|now apply (F y)].
      destruct (rtr_nearest_spec n (hd_sample (draws t) i) solutions y selection NE (fun s I => valued_In _ _ s V I) P) as (sel & c & ER & PS & C1 & _). rewrite ER. cbn [bind].
      assert (C : c < length solutions). { assert (I : In c sel) by (rewrite <- (firstn_skipn (rtr_size n (length solutions)) sel); apply in_or_app; now left). apply (Permutation_in _ PS) in I. apply in_seq in I. lia. }
      pose proof (valued_length _ _ V) as LV. unfold vget at 1. rewrite (nth_error_nth' fitnesses DNaN) by lia. cbn [bind]. destruct (dlt (nth c fitnesses DNaN) v) eqn:D.
      + rewrite !vset_Ok by lia. cbn [bind].
        assert (H := IH (upd solutions c y) (upd fitnesses c v) sel y). rewrite !length_upd in H. specialize (H NE (valued_upd _ _ _ _ _ V C LY EF) PS LY).
        destruct (foldM _ is _) as [[[[s l] sl] z]|e|]; cbn [ends] in *; [|exact H|exact H]. destruct H as (H1 & H2 & H3 & H4). split; [exact H1|]. split; [exact H2|]. split; [exact H3|].
        eapply grows_trans; [|exact H4]. apply grows_upd; [lia|exact D].
      + cbn [bind]. now apply IH.
  Qed.

  Lemma iterate_hboa g : hboa_sound n f g -> 0 < length (h_solutions g) ->
    ends n f (hboa_iterate n f draws g) (fun '(g', continue) => hboa_sound n f g' /\ length (h_solutions g') = length (h_solutions g) /\ Forall2 grows (h_fitnesses g) (h_fitnesses g') /\
      h_generations g' = h_generations g + 1 /\ (continue = true <-> h_generations g' < n)).
  Proof.
    intros V NE. unfold hboa_iterate. destruct (select_spec g (draws (h_generations g)) V NE) as (selected & ES & _). rewrite ES. cbn [bind]. destruct V as (V & P).
    eapply ends_bind; [apply (replace_loop (h_generations g) selected _ _ _ _ _ NE V P); apply repeat_length|]. intros [[[s l] sel] y] (H1 & H2 & H3 & H4). cbn [ends h_solutions h_fitnesses h_selection h_generations].
    split; [split; [exact H1|exact H3]|]. split; [exact H2|]. split; [exact H4|]. split; [reflexivity|]. apply Nat.ltb_lt.
  Qed.

  Lemma loop_hboa fuel : forall g, hboa_sound n f g -> 0 < length (h_solutions g) -> h_generations g < n -> n <= h_generations g + fuel ->
    ends n f (hboa_loop n f draws fuel g) (fun r => exists g', r = Some g' /\ hboa_sound n f g' /\ length (h_solutions g') = length (h_solutions g) /\ Forall2 grows (h_fitnesses g) (h_fitnesses g') /\ h_generations g' = n).
  Proof.
    induction fuel as [|fuel IH]; intros g V NE G B; [lia|]. cbn [hboa_loop]. eapply ends_bind; [apply (iterate_hboa g V NE)|].
    intros [g' c] (V' & L' & G' & T' & C). destruct c.
    - assert (H : h_generations g' < n) by now apply C. specialize (IH g' V' ltac:(lia) H ltac:(lia)).
      destruct (hboa_loop n f draws fuel g') as [r|e|]; cbn [ends] in *; [|exact IH|exact IH]. destruct IH as (g2 & -> & V2 & L2 & G2 & T2). exists g2. split; [reflexivity|]. split; [exact V2|]. split; [congruence|]. split; [eapply grows_trans; eassumption|exact T2].
    - cbn [ends]. exists g'. split; [reflexivity|]. split; [exact V'|]. split; [exact L'|]. split; [exact G'|]. destruct (Nat.lt_ge_cases (h_generations g') n) as [H|H]; [apply C in H; discriminate|lia].
  Qed.
End HBOA.
