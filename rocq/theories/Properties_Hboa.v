(** C148, C149: hBOA. *)

From Coq Require Import Lia Permutation Sorted.
From Verif Require Import Base BaseLemmas Double Pyramid_Spec Pyramid_Proofs Forest_Model Forest_Spec Forest_Proofs Hboa_Model Hboa_Spec Hboa_Proofs.
Local Open Scope nat_scope.

(** * C148: the Bayesian networks *)

(** Whatever splits are chosen, the bits which a tree tests are other bits of the vector,
    set before its own bit: there is no cycle. *)
Theorem C148_order n selected choices ordering t u :
  let fo := build_forest n selected choices in
  sorted_order n fo ordering -> t < n -> tests (fo_trees fo t) u ->
  u < n /\ u <> t /\ before u t ordering.
Proof.
  intros fo H T TE. destruct (build_before n selected choices ordering t u H T TE) as (U & B). split; [exact U|]. split; [|exact B].
  intros ->. destruct H as (P & _), B as (l1 & l2 & l3 & ->). assert (ND : NoDup (l1 ++ t :: l2 ++ t :: l3)) by apply (Permutation_NoDup (Permutation_sym P)), seq_NoDup.
  apply NoDup_remove_2 in ND. apply ND. apply in_or_app. right. apply in_or_app. right. now left.
Qed.

(** A generated vector does not depend on the vector it overwrites; each of its bits is the
    draw for the proportion of ones among the solutions of the leaf it reaches. *)
Theorem C148_generate n selected choices ordering coins x y :
  let fo := build_forest n selected choices in
  sorted_order n fo ordering -> length x = n -> length y = n ->
  exists z, generate coins fo ordering x = Ok z /\ generate coins fo ordering y = Ok z /\ length z = n /\
    forall t, t < n -> nth t z false = coins t (ones t (reached (fo_trees fo t) z)) (length (reached (fo_trees fo t) z)).
Proof.
  intros fo (P & SS) LX LY. destruct (generate_from n coins fo ordering [] x y LX LY) as (x' & y' & EX & EY & LX' & LY' & EQ & _ & H).
  - apply (Permutation_NoDup (Permutation_sym P)), seq_NoDup.
  - intros t T. apply (Permutation_in _ P) in T. apply in_seq in T. lia.
  - intros u [].
  - intros t u T U. apply (Permutation_in _ P) in T. apply in_seq in T. apply (build_before n selected choices); [now split|lia|exact U].
  - assert (E : x' = y').
    { apply (nth_ext _ _ false false); [congruence|]. intros k K. apply EQ. cbn [app]. apply (Permutation_in _ (Permutation_sym P)). apply in_seq. lia. }
    subst y'. exists x'. split; [exact EX|]. split; [exact EY|]. split; [exact LX'|]. intros t T. apply H. apply (Permutation_in _ (Permutation_sym P)). apply in_seq. lia.
Qed.

(** These solutions are the selected ones which have the same bits as the vector, wherever
    the tree tests it. *)
Theorem C148_leaves n selected choices t x :
  let tr := fo_trees (build_forest n selected choices) t in
  reached tr x = filter (agree (tested tr x) x) selected /\ forall u, In u (tested tr x) -> tests tr u.
Proof.
  cbn. split; [apply leaves_reached, build_leaves|]. set (tr := fo_trees _ t). clearbody tr. induction tr as [s|i l IHl r IHr]; cbn [tested tests]; intros u I; [destruct I|].
  destruct I as [<-|I]; [now left|]. right. destruct (nth i x false); [right; now apply IHr|left; now apply IHl].
Qed.
Print Assumptions C148_order.
Print Assumptions C148_generate.
Print Assumptions C148_leaves.

(** Four selected solutions, three bits: bit 0 is copied to bit 1, which is copied to bit 2;
    the splits of bit 0 on bits 1 and 2 would make cycles, and are not done. *)
Definition C148_selected : list (list bool) := [[false; false; false]; [true; true; true]; [false; false; false]; [true; true; true]].
Definition C148_choices : list choice := [(2, [], 1); (1, [], 0); (0, [], 2); (0, [], 1)].
Definition C148_coins (t k p : nat) : bool := if t =? 0 then true else (p <? 2 * k).

Example C148_case :
  generate C148_coins (build_forest 3 C148_selected C148_choices) [0; 1; 2] [false; false; false] = Ok [true; true; true] /\
  fo_trees (build_forest 3 C148_selected C148_choices) 0 = Leaf C148_selected /\
  tests (fo_trees (build_forest 3 C148_selected C148_choices) 2) 1.
Proof. split; [reflexivity|]. split; [reflexivity|]. cbn. now left. Qed.
Example C148_hypotheses : sorted_order 3 (build_forest 3 C148_selected C148_choices) [0; 1; 2].
Proof. split; [apply Permutation_refl|]. repeat constructor. Qed.

(** * C149: the generations *)

Section Any.
  Context (n : nat) (f : list bool -> outcome dbl) (draws : nat -> hboa_draws).

  Theorem C149_start xs :
    (forall x, length x = n -> f x <> UB) -> (forall x, In x xs -> length x = n) ->
    ends n f (hboa_make f xs) (fun g => hboa_sound n f g /\ h_solutions g = xs /\ h_generations g = 0).
  Proof. intros F. now apply make_hboa. Qed.

  (** As many solutions are selected as there are in the population; each of them is the
      winner of a tournament of two. *)
  Theorem C149_tournaments g d :
    hboa_sound n f g -> 0 < length (h_solutions g) ->
    exists selected, select g d = Ok selected /\ length selected = length (h_solutions g) /\
      forall i, i < length selected -> exists winner loser,
        winner < length (h_solutions g) /\ loser < length (h_solutions g) /\
        nth i selected [] = nth winner (h_solutions g) [] /\ dlt (nth winner (h_fitnesses g) DNaN) (nth loser (h_fitnesses g) DNaN) = false.
  Proof. apply select_winners. Qed.

  (** The sample is made of different solutions, and the one which is chosen is nearest to
      the new one. *)
  Theorem C149_nearest sample solutions x selection :
    0 < length solutions -> (forall s, In s solutions -> length s = n) -> length x = n -> Permutation selection (seq 0 (length solutions)) ->
    exists selection' c, rtr_nearest n sample solutions x selection = Ok (selection', Some (c, differences (nth c solutions []) x)) /\
      Permutation selection' (seq 0 (length solutions)) /\
      let candidates := firstn (rtr_size n (length solutions)) selection' in
      1 <= length candidates /\ length candidates <= Nat.max 1 n /\ NoDup candidates /\ In c candidates /\
      forall k, In k candidates -> k < length solutions /\ differences (nth c solutions []) x <= differences (nth k solutions []) x.
  Proof.
    intros NE LS LX P. destruct (rtr_nearest_spec n sample solutions x selection NE LS P) as (s' & c & E & P' & I & H).
    assert (D : forall k, In k (firstn (rtr_size n (length solutions)) s') -> hamming (nth k solutions []) x = differences (nth k solutions []) x).
    { intros k K. apply hamming_differences. rewrite LX. symmetry. apply LS, nth_In. assert (IK : In k s') by (rewrite <- (firstn_skipn (rtr_size n (length solutions)) s'); apply in_or_app; now left). apply (Permutation_in _ P') in IK. apply in_seq in IK. lia. }
    exists s', c. rewrite (D c I) in E. split; [exact E|]. split; [exact P'|]. cbv zeta.
    pose proof (rtr_size_bounds n _ NE) as RB. pose proof (Permutation_length P') as PL. rewrite seq_length in PL. rewrite firstn_length.
    split; [lia|]. split; [unfold rtr_size; destruct (Nat.min n (length solutions / 20) =? 0) eqn:Z; lia|].
    assert (ND : NoDup s') by apply (Permutation_NoDup (Permutation_sym P')), seq_NoDup. rewrite <- (firstn_skipn (rtr_size n (length solutions)) s') in ND.
    split; [now apply nodup_front in ND|]. split; [exact I|]. intros k K. split; [|rewrite <- (D c I), <- (D k K); now apply H].
    assert (IK : In k s') by (rewrite <- (firstn_skipn (rtr_size n (length solutions)) s'); apply in_or_app; now left). apply (Permutation_in _ P') in IK. apply in_seq in IK. lia.
  Qed.

  (** A new solution replaces the nearest one of the sample if its value is greater, and
      nothing else changes. *)
  Theorem C149_replacement t i selected solutions fitnesses selection x solutions' fitnesses' selection' y :
    sorts_trees n draws -> 0 < length solutions ->
    Forall2 (fun x v => length x = n /\ f x = Ok v) solutions fitnesses -> Permutation selection (seq 0 (length solutions)) -> length x = n ->
    replace_one n f (draws t) (build_forest n selected (hd_choices (draws t))) (solutions, fitnesses, selection, x) i = Ok (solutions', fitnesses', selection', y) ->
    length y = n /\ exists v c, f y = Ok v /\ In c (firstn (rtr_size n (length solutions)) selection') /\
      (forall k, In k (firstn (rtr_size n (length solutions)) selection') -> differences (nth c solutions []) y <= differences (nth k solutions []) y) /\
      ((dlt (nth c fitnesses DNaN) v = true /\ solutions' = upd solutions c y /\ fitnesses' = upd fitnesses c v) \/
       (dlt (nth c fitnesses DNaN) v = false /\ solutions' = solutions /\ fitnesses' = fitnesses)).
  Proof.
    intros O NE V P L H. unfold replace_one in H. destruct (generate_one n draws O t selected (hd_coins (draws t) i) x L) as (z & EG & LZ). rewrite EG in H. cbn [bind] in H.
    destruct (f z) as [v|e|] eqn:EF; cbn [bind] in H; [|discriminate|discriminate].
    destruct (rtr_nearest_spec n (hd_sample (draws t) i) solutions z selection NE (fun s I => valued_In n f _ _ s V I) P) as (sel & c & ER & PS & C1 & C3). rewrite ER in H.
    assert (C2 : forall k, In k (firstn (rtr_size n (length solutions)) sel) -> differences (nth c solutions []) z <= differences (nth k solutions []) z).
    { assert (D : forall k, In k (firstn (rtr_size n (length solutions)) sel) -> hamming (nth k solutions []) z = differences (nth k solutions []) z).
      { intros k K. apply hamming_differences. rewrite LZ. symmetry. apply (valued_In n f _ _ _ V), nth_In. assert (IK : In k sel) by (rewrite <- (firstn_skipn (rtr_size n (length solutions)) sel); apply in_or_app; now left). apply (Permutation_in _ PS) in IK. apply in_seq in IK. lia. }
      intros k K. rewrite <- (D c C1), <- (D k K). now apply C3. } cbn [bind] in H.
    assert (C : c < length solutions). { assert (I : In c sel) by (rewrite <- (firstn_skipn (rtr_size n (length solutions)) sel); apply in_or_app; now left). apply (Permutation_in _ PS) in I. apply in_seq in I. lia. }
    pose proof (valued_length n f _ _ V) as LV. unfold vget at 1 in H. rewrite (nth_error_nth' fitnesses DNaN) in H by lia. cbn [bind] in H. destruct (dlt (nth c fitnesses DNaN) v) eqn:D.
    - rewrite !vset_Ok in H by lia. cbn [bind] in H. injection H as <- <- <- <-. split; [exact LZ|]. exists v, c. split; [exact EF|]. split; [exact C1|]. split; [exact C2|]. left. split; [exact D|]. now split.
    - injection H as <- <- <- <-. split; [exact LZ|]. exists v, c. split; [exact EF|]. split; [exact C1|]. split; [exact C2|]. right. split; [exact D|]. now split.
  Qed.

  (** One generation: the values stay those of the solutions, none of them gets smaller, and
      there are as many solutions; only the function can throw; the algorithm goes on as long
      as there have been fewer generations than bits. *)
  Theorem C149_generation g :
    sorts_trees n draws -> (forall x, length x = n -> f x <> UB) ->
    hboa_sound n f g -> 0 < length (h_solutions g) ->
    ends n f (hboa_iterate n f draws g) (fun '(g', continue) => hboa_sound n f g' /\ length (h_solutions g') = length (h_solutions g) /\
      Forall2 grows (h_fitnesses g) (h_fitnesses g') /\ h_generations g' = h_generations g + 1 /\ (continue = true <-> h_generations g' < n)).
  Proof. intros O F. now apply iterate_hboa. Qed.

  (** A run makes as many generations as there are bits, and stops. *)
  Theorem C149_run xs :
    0 < n -> sorts_trees n draws -> (forall x, length x = n -> f x <> UB) -> 0 < length xs -> (forall x, In x xs -> length x = n) ->
    ends n f (hboa_run n f draws n xs) (fun r => exists g, r = Some g /\ hboa_sound n f g /\ h_generations g = n /\
      Forall2 (fun x v => exists w, f x = Ok w /\ grows w v) xs (h_fitnesses g)).
  Proof.
    intros N O F NE L. unfold hboa_run. eapply ends_bind; [apply (C149_start xs F L)|]. intros g (V & ES & EG).
    pose proof (loop_hboa n f draws O F n g V ltac:(congruence) ltac:(congruence) ltac:(lia)) as H.
    destruct (hboa_loop n f draws n g) as [r|e|]; cbn [ends] in *; [|exact H|exact H]. destruct H as (g' & -> & V' & _ & G & T). exists g'. split; [reflexivity|]. split; [exact V'|]. split; [exact T|].
    rewrite <- ES. destruct V as (V & _). clear - V G. revert G. generalize (h_fitnesses g'). induction V as [|a b s l (_ & E) V IH]; intros l' G; inversion G as [|? w ? k HG K]; subst; constructor; [now exists b|now apply IH].
  Qed.

  (** Without any solution, the first generation is undefined. *)
  Theorem C149_empty fuel : hboa_run n f draws (S fuel) [] = UB.
  Proof. reflexivity. Qed.
End Any.
Print Assumptions C149_start.
Print Assumptions C149_tournaments.
Print Assumptions C149_nearest.
Print Assumptions C149_replacement.
Print Assumptions C149_generation.
Print Assumptions C149_run.
Print Assumptions C149_empty.

(** OneMax with three bits. *)
Definition C149_onemax (x : list bool) : outcome dbl := Ok (DFin (Z.of_nat (length (filter (fun b => b) x)))).
Definition C149_draws (t : nat) : hboa_draws :=
  mk_hboa_draws (fun i => i) (fun i => i + t + 1) [(1, [], 0)] [0; 2; 1] (fun i u k p => p <=? 2 * k + (if i + t + u =? 3 then 1 else 0)) (fun i s => i + t + s).
Definition C149_xs : list (list bool) := [[true; false; false]; [false; true; true]; [false; false; false]; [false; false; true]].

Example C149_case :
  match hboa_run 3 C149_onemax C149_draws 3 C149_xs with
  | Ok (Some g) => h_generations g = 3 /\ h_solutions g = repeat [false; true; true] 4 /\ h_fitnesses g = repeat (DFin 2) 4
  | _ => False
  end.
Proof. vm_compute. split; [reflexivity|]. split; reflexivity. Qed.

Example C149_hypotheses :
  sorts_trees 3 C149_draws /\ (forall x, length x = 3 -> C149_onemax x <> UB) /\ (forall x, In x C149_xs -> length x = 3) /\ 0 < length C149_xs /\
  exists g, hboa_make C149_onemax C149_xs = Ok g /\ hboa_sound 3 C149_onemax g.
Proof.
  assert (F : forall x, length x = 3 -> C149_onemax x <> UB) by discriminate.
  assert (L : forall x, In x C149_xs -> length x = 3).
  { intros x H. cbn in H. repeat (destruct H as [<-|H]; [reflexivity|]). destruct H. }
  split. { intros t selected. split; [cbn; constructor; apply perm_swap|]. cbn. repeat constructor. }
  split; [exact F|]. split; [exact L|]. split; [cbn; lia|].
  pose proof (C149_start 3 C149_onemax C149_xs F L) as H.
  destruct (hboa_make C149_onemax C149_xs) as [g|e|] eqn:E; [|vm_compute in E; discriminate E|vm_compute in E; discriminate E].
  exists g. split; [reflexivity|apply H].
Qed.
