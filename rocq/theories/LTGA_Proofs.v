(** Proofs about the Linkage Tree Genetic Algorithm. *)

From Coq Require Import Lia Permutation.
From Verif Require Import Base BaseLemmas Double Pyramid_Model Pyramid_Spec Pyramid_Proofs LTGA_Model LTGA_Spec.
Local Open Scope nat_scope.

Lemma pairs_ind {A} (P : list A -> Prop) : P [] -> (forall a, P [a]) -> (forall a b l, P l -> P (a :: b :: l)) -> forall l, P l.
Proof.
  intros H0 H1 H2 l. assert (H : P l /\ forall a, P (a :: l)); [|apply H]. induction l as [|a l [I1 I2]]; [split; [exact H0|exact H1]|]. split; [apply I2|]. intros b. now apply H2.
Qed.

Lemma fset_same m x v : fset m x v x = v.
Proof. unfold fset. now destruct (seen_dec x x). Qed.
Lemma fset_known f m x v y : f x = Ok v -> f y = Ok (m y) -> f y = Ok (fset m x v y).
Proof. intros E K. unfold fset. destruct (seen_dec y x) as [->|]; assumption. Qed.

Lemma insert_perm m l : exists dropped, Permutation l (map fst (binary_insert m l) ++ dropped) /\ length dropped = length l mod 2.
Proof.
  induction l as [|a|a b l (d & P & L)] using pairs_ind.
  - exists []. split; [constructor|reflexivity].
  - exists [a]. split; [reflexivity|reflexivity].
  - exists d. split.
    + cbn [binary_insert]. rewrite map_app, <- app_assoc. destruct (dlt (m a) (m b)); cbn [map fst app]; [rewrite perm_swap|]; do 2 constructor; exact P.
    + rewrite L. cbn [length]. replace (S (S (length l))) with (length l + 1 * 2) by lia. now rewrite Nat.mod_add by lia.
Qed.
Lemma insert_length m l : length (binary_insert m l) = 2 * (length l / 2).
Proof.
  destruct (insert_perm m l) as (d & P & L). apply Permutation_length in P. rewrite app_length, map_length, L in P.
  pose proof (Nat.div_mod_eq (length l) 2). lia.
Qed.
Lemma insert_In m l x : In x (map fst (binary_insert m l)) -> In x l.
Proof. destruct (insert_perm m l) as (d & P & _). intros I. apply (Permutation_in _ (Permutation_sym P)). apply in_or_app. now left. Qed.
Lemma insert_even m l : Nat.even (length l) = true -> Permutation l (map fst (binary_insert m l)).
Proof.
  intros E. destruct (insert_perm m l) as (d & P & L). apply Nat.even_spec in E. destruct E as (k & E). rewrite E, Nat.mul_comm, Nat.mod_mul in L by lia. destruct d; [|discriminate]. now rewrite app_nil_r in P.
Qed.
Lemma insert_paired f m l : (forall x, In x l -> f x = Ok (m x)) -> paired f (binary_insert m l).
Proof.
  induction l as [|a|a b l IH] using pairs_ind; intros K.
  - exists []. split; [reflexivity|intros a b []].
  - exists []. split; [reflexivity|intros c d []].
  - destruct IH as (ps & E & H); [intros x I; apply K; now do 2 right|]. cbn [binary_insert]. destruct (dlt (m a) (m b)) eqn:D.
    + exists ((b, a) :: ps). split; [cbn; now rewrite <- E|]. intros c d [EQ|I]; [|now apply H]. inversion EQ; subst. exists (m c), (m d).
      split; [apply K; right; now left|]. split; [apply K; now left|]. destruct (dlt (m c) (m d)) eqn:D'; [|reflexivity]. pose proof (dlt_trans _ _ _ D D') as D''. now rewrite dlt_irrefl in D''.
    + exists ((a, b) :: ps). split; [cbn; now rewrite <- E|]. intros c d [EQ|I]; [|now apply H]. inversion EQ; subst. exists (m c), (m d).
      split; [apply K; now left|]. split; [apply K; right; now left|exact D].
Qed.

Lemma same_set_spec l m : same_set l m = true <-> same_elements l m.
Proof.
  unfold same_set, same_elements. rewrite andb_true_iff, !forallb_forall. unfold contains. split.
  - intros (A & B) x. split; intros I; [specialize (A x I); now destruct (in_dec seen_dec x m)|specialize (B x I); now destruct (in_dec seen_dec x l)].
  - intros H. split; intros x I; [destruct (in_dec seen_dec x m) as [|N]; [reflexivity|exfalso; apply N; now apply H]|destruct (in_dec seen_dec x l) as [|N]; [reflexivity|exfalso; apply N; now apply H]].
Qed.

Section LTGA.
  Context (n : nat) (f : list bool -> outcome dbl) (trees : nat -> tree_draws) (donors : nat -> nat -> nat -> nat)
    (shuffle : nat -> list (list bool) -> list (list bool)).
  Context (N : 0 < n) (O : orders n trees) (SH : shuffles shuffle) (F : forall x, length x = n -> f x <> UB).

  Lemma values_loop xs : forall m seen, (forall x, In x xs -> length x = n) -> (forall x, In x seen -> f x = Ok (m x)) ->
    ends n f (foldM (fun m x => v <- f x ;; Ok (fset m x v)) xs m) (fun m' => forall x, In x seen \/ In x xs -> f x = Ok (m' x)).
  Proof.
    induction xs as [|x xs IH]; intros m seen L K; cbn [foldM].
    - cbn [ends]. intros x [I|[]]. now apply K.
    - destruct (f x) as [v|e|] eqn:E; cbn [bind]; [|exists x; split; [apply L; now left|exact E]|apply (F x); [apply L; now left|exact E]].
      specialize (IH (fset m x v) (x :: seen)). destruct (foldM _ xs (fset m x v)) as [m'|e|]; cbn [ends] in *.
      + intros y I. apply IH; [intros z Z; apply L; now right| |cbn [In] in *; tauto].
        intros z [<-|Z]; [now rewrite fset_same|]. apply fset_known; [exact E|now apply K].
      + apply IH; [intros z Z; apply L; now right|]. intros z [<-|Z]; [now rewrite fset_same|]. apply fset_known; [exact E|now apply K].
      + apply IH; [intros z Z; apply L; now right|]. intros z [<-|Z]; [now rewrite fset_same|]. apply fset_known; [exact E|now apply K].
  Qed.

  Lemma make_spec xs : (forall x, In x xs -> length x = n) ->
    ends n f (ltga_make f shuffle xs) (fun g => ltga_sound n f g /\ g_set g = [] /\
      exists dropped, Permutation xs (g_solutions g ++ dropped) /\ length dropped = length xs mod 2).
  Proof.
    intros L. unfold ltga_make. eapply ends_bind; [apply (values_loop xs (fun _ => DFin 0) [] L); intros x []|]. intros m K. cbn [ends].
    assert (K' : forall x, In x (shuffle 0 xs) -> f x = Ok (m x)) by (intros x I; apply K; right; now apply (Permutation_in _ (Permutation_sym (SH 0 xs)))).
    split; [|split; [reflexivity|]].
    - split; [|now apply insert_paired]. cbn [g_solutions g_population g_fitnesses]. unfold g_solutions. cbn [g_population]. intros x I. apply insert_In in I. split; [|now apply K'].
      apply L. now apply (Permutation_in _ (Permutation_sym (SH 0 xs))).
    - unfold g_solutions. cbn [g_population]. destruct (insert_perm m (shuffle 0 xs)) as (d & P & LD). exists d. split; [now rewrite (SH 0 xs) at 1|].
      now rewrite LD, <- (Permutation_length (SH 0 xs)).
  Qed.

  Lemma loop_spec t clusters solutions : Forall (genes n) clusters -> (forall x, In x solutions -> length x = n) ->
    forall indices done m off, (forall i, In i indices -> i < length solutions) ->
    (forall x, In x solutions \/ In x off -> f x = Ok (m x)) -> (forall y, In y off -> length y = n) ->
    Forall2 (improved f) (map (fun i => nth i solutions []) done) off ->
    ends n f (foldM (fun '(solutions, fitnesses, offspring) i =>
      solution <- vget solutions i ;;
      '(solutions, solution, fitness) <- improve f (donors t i) clusters solutions solution (fitnesses solution) ;;
      Ok (solutions, fset fitnesses solution fitness, offspring ++ [solution])) indices (solutions, m, off))
      (fun '(s, m', off') => s = solutions /\ (forall x, In x solutions \/ In x off' -> f x = Ok (m' x)) /\ (forall y, In y off' -> length y = n) /\
        Forall2 (improved f) (map (fun i => nth i solutions []) (done ++ indices)) off').
  Proof.
    intros GC LS. induction indices as [|i indices IH]; intros done m off B K LO FO; cbn [foldM].
    - cbn [ends]. rewrite app_nil_r. split; [reflexivity|]. split; [exact K|]. split; [exact LO|exact FO].
    - assert (I : i < length solutions) by (apply B; now left). unfold vget at 1. rewrite (nth_error_nth' solutions [] I). cbn [bind]. set (x := nth i solutions []).
      assert (IX : In x solutions) by now apply nth_In.
      assert (EX : f x = Ok (m x)) by (apply K; now left).
      assert (NE : solutions <> []) by (intros E; rewrite E in IX; destruct IX).
      pose proof (improve_spec n f trees N O F (donors t i) solutions clusters NE (proj2 (Forall_forall _ _) LS) GC x (m x) (LS x IX) EX) as IM.
      destruct (improve f (donors t i) clusters solutions x (m x)) as [[[s y] w]|e|]; cbn [bind ends] in *; [|exact IM|exact IM].
      destruct IM as (-> & LY & EY & NW). replace (done ++ i :: indices) with ((done ++ [i]) ++ indices) by now rewrite <- app_assoc.
      apply IH; [intros j J; apply B; now right| | |].
      + intros z Z. destruct (seen_dec z y) as [->|NZ]; [now rewrite fset_same|]. apply fset_known; [exact EY|]. apply K. rewrite in_app_iff in Z. cbn [In] in Z. intuition congruence.
      + intros z Z. apply in_app_or in Z. destruct Z as [Z|[<-|[]]]; [now apply LO|exact LY].
      + rewrite map_app. apply Forall2_app; [exact FO|]. constructor; [|constructor]. fold x. exists (m x), w. split; [exact EX|split; [exact EY|exact NW]].
  Qed.

  Lemma nth_all (l : list (list bool)) : map (fun i => nth i l []) (seq 0 (length l)) = l.
  Proof.
    apply (nth_ext _ _ [] []); rewrite map_length, seq_length; [reflexivity|]. intros i I. rewrite (nth_indep _ [] (nth 0 l [])) by (rewrite map_length, seq_length; exact I).
    rewrite (map_nth (fun i => nth i l []) (seq 0 (length l)) 0 i). now rewrite seq_nth.
  Qed.

  Lemma generation_spec g : ltga_sound n f g ->
    ends n f (generation n f trees donors shuffle g) (fun g' => ltga_sound n f g' /\ g_set g' = g_set g /\
      exists offspring, Forall2 (improved f) (g_solutions g) offspring /\ Permutation offspring (g_solutions g')).
  Proof.
    intros (K & PA). unfold generation, offspring_loop. pose proof (rebuild_genes n trees (g_time g) O N) as GC.
    assert (LE : length (g_population g) = length (g_solutions g)) by (unfold g_solutions; now rewrite map_length).
    assert (EV : Nat.even (length (g_solutions g)) = true).
    { rewrite <- LE. destruct PA as (ps & -> & _). clear. induction ps as [|[a b] ps IH]; [reflexivity|exact IH]. }
    eapply ends_bind; [apply (loop_spec (g_time g) _ (g_solutions g) GC (fun x I => proj1 (K x I)) (seq 0 (length (g_population g))) [] (g_fitnesses g) [])|].
    - intros i I. apply in_seq in I. lia.
    - intros x [I|[]]. now apply K.
    - intros y [].
    - constructor.
    - intros [[s m] off] (-> & KM & LO & FO). cbn [app] in FO. rewrite LE, nth_all in FO. cbn [ends g_set].
      assert (KS : forall x, In x (shuffle (g_time g) off) -> length x = n /\ f x = Ok (m x)).
      { intros x I. apply (Permutation_in _ (Permutation_sym (SH (g_time g) off))) in I. split; [now apply LO|apply KM; now right]. }
      split; [|split; [reflexivity|]].
      + split; [unfold g_solutions; cbn [g_population g_fitnesses]; intros x I; apply insert_In in I; now apply KS|]. apply insert_paired. intros x I. now apply KS.
      + exists off. split; [exact FO|]. change (Permutation off (map fst (binary_insert m (shuffle (g_time g) off)))). rewrite (SH (g_time g) off) at 1. apply insert_even. rewrite <- (Permutation_length (SH (g_time g) off)).
        assert (LF : length (g_solutions g) = length off) by (clear - FO; induction FO; cbn; congruence). now rewrite <- LF.
  Qed.

  Lemma ltga_iterate_spec g : ltga_sound n f g ->
    ends n f (ltga_iterate n f trees donors shuffle g) (fun '(g', continue) => ltga_sound n f g' /\
      (exists offspring, Forall2 (improved f) (g_solutions g) offspring /\ Permutation offspring (g_solutions g')) /\
      (continue = false <-> same_elements (g_solutions g') (g_set g)) /\ same_elements (g_set g') (g_solutions g')).
  Proof.
    intros V. unfold ltga_iterate. eapply ends_bind; [apply (generation_spec g V)|]. intros g' (V' & ES & X).
    destruct (same_set (g_solutions g') (g_set g')) eqn:S0; cbn [ends].
    - rewrite ES in S0. apply same_set_spec in S0. split; [exact V'|]. split; [exact X|]. split; [tauto|]. rewrite ES. intros x. now rewrite (S0 x).
    - split; [exact V'|]. split; [exact X|]. split; [|intros x; reflexivity]. rewrite ES in S0. split; [discriminate|]. intros H. apply same_set_spec in H. unfold g_solutions in *. cbn [g_population] in H. congruence.
  Qed.

  Lemma same_length (P : list bool -> list bool -> Prop) l o m : Forall2 P l o -> Permutation o m -> length m = length l.
  Proof. intros FA PM. rewrite <- (Permutation_length PM). clear PM. induction FA; cbn; congruence. Qed.

  Lemma improved_trans x y z : improved f x y -> improved f y z -> improved f x z.
  Proof. intros (u & v & A & B & C) (v' & w & B' & D & G). assert (v' = v) as -> by congruence. exists u, w. split; [exact A|]. split; [exact D|]. eapply no_worse_trans; eassumption. Qed.
  Lemma each_improved l o m : Forall2 (improved f) l o -> Permutation o m -> forall x, In x l -> exists y, In y m /\ improved f x y.
  Proof.
    intros FA PM. assert (H : forall x, In x l -> exists y, In y o /\ improved f x y).
    { clear PM. induction FA as [|a b l o H FA IH]; intros x I; [destruct I|]. destruct I as [<-|I]; [exists b; split; [now left|exact H]|]. destruct (IH x I) as (y & Y & D). exists y. split; [now right|exact D]. }
    intros x I. destruct (H x I) as (y & Y & D). exists y. split; [now apply (Permutation_in _ PM)|exact D].
  Qed.

  Lemma ltga_loop_spec fuel : forall g, ltga_sound n f g ->
    ends n f (ltga_loop n f trees donors shuffle fuel g) (fun r => match r with
      | Some g' => ltga_sound n f g' /\ length (g_solutions g') = length (g_solutions g) /\ forall x, In x (g_solutions g) -> exists y, In y (g_solutions g') /\ improved f x y
      | None => True end).
  Proof.
    induction fuel as [|fuel IH]; intros g V; cbn [ltga_loop]; [exact I|]. eapply ends_bind; [apply (ltga_iterate_spec g V)|].
    intros [g' c] (V' & (o & FO & PO) & _ & _). pose proof (same_length _ _ _ _ FO PO) as LL. pose proof (each_improved _ _ _ FO PO) as EI.
    destruct c; [|cbn [ends]; split; [exact V'|split; [exact LL|exact EI]]].
    specialize (IH g' V'). destruct (ltga_loop n f trees donors shuffle fuel g') as [[r|]|e|]; cbn [ends] in *; auto. destruct IH as (VR & LR & ER). split; [exact VR|]. split; [congruence|].
    intros x I. destruct (EI x I) as (y & Y & D). destruct (ER y Y) as (z & Z & D'). exists z. split; [exact Z|]. eapply improved_trans; eassumption.
  Qed.
End LTGA.

(** ** A population which has converged *)
Lemma improve_same f n donor clusters x k v : 0 < k -> length x = n -> Forall (genes n) clusters -> improve f donor clusters (repeat x k) x v = Ok (repeat x k, x, v).
Proof.
  intros Hk LX FC. induction FC as [|c clusters GC FC IH]; cbn [improve]; [reflexivity|]. set (w := donor (length clusters) mod length (repeat x k)).
  assert (W : w < length (repeat x k)) by (apply Nat.mod_upper_bound; rewrite repeat_length; lia).
  assert (EW : nth w (repeat x k) [] = x) by (apply (repeat_spec k x), nth_In, W).
  unfold vget. rewrite (nth_error_nth' (repeat x k) [] W), EW. cbn [bind].
  rewrite (donate_spec f n c x v x LX LX GC). rewrite cross_same. destruct (seen_dec x x); [|congruence]. cbn [bind]. rewrite vset_Ok by exact W. cbn [bind]. rewrite <- EW at 2. rewrite upd_nth by exact W. exact IH.
Qed.

Lemma loop_same f n (donors : nat -> nat -> nat -> nat) t clusters x k : length x = n -> Forall (genes n) clusters -> forall indices m off, (forall i, In i indices -> i < k) ->
  exists m', foldM (fun '(solutions, fitnesses, offspring) i =>
      solution <- vget solutions i ;;
      '(solutions, solution, fitness) <- improve f (donors t i) clusters solutions solution (fitnesses solution) ;;
      Ok (solutions, fset fitnesses solution fitness, offspring ++ [solution])) indices (repeat x k, m, off) = Ok (repeat x k, m', off ++ repeat x (length indices)).
Proof.
  intros LX GC. induction indices as [|i indices IH]; intros m off B; cbn [foldM]; [exists m; cbn [repeat length]; now rewrite app_nil_r|].
  assert (I : i < k) by (apply B; now left). unfold vget at 1. rewrite (nth_error_nth' _ []) by (rewrite repeat_length; exact I). cbn [bind].
  rewrite (repeat_spec k x (nth i (repeat x k) [])) by (apply nth_In; rewrite repeat_length; exact I).
  rewrite (improve_same f n) by (auto; lia). cbn [bind]. destruct (IH (fset m x (m x)) (off ++ [x])) as (m' & E); [intros j J; apply B; now right|]. exists m'. rewrite E. cbn [length repeat]. now rewrite <- app_assoc.
Qed.

Lemma all_same (x : list bool) l : (forall y, In y l -> y = x) -> l = repeat x (length l).
Proof. induction l as [|a l IH]; intros H; cbn; [reflexivity|]. rewrite (H a) by now left. f_equal. apply IH. intros y I. apply H. now right. Qed.

Lemma generation_same n f trees donors shuffle g x : 0 < n -> orders n trees -> shuffles shuffle -> length x = n -> (forall y, In y (g_solutions g) -> y = x) ->
  exists g', generation n f trees donors shuffle g = Ok g' /\ (forall y, In y (g_solutions g') -> y = x) /\ g_set g' = g_set g /\ length (g_solutions g') = 2 * (length (g_solutions g) / 2).
Proof.
  intros N O SH LX A. apply all_same in A. unfold generation, offspring_loop. assert (LE : length (g_population g) = length (g_solutions g)) by (unfold g_solutions; now rewrite map_length).
  set (k := length (g_solutions g)) in *. rewrite A, LE. destruct (loop_same f n donors (g_time g) (rebuild_tree n (trees (g_time g))) x k LX (rebuild_genes n trees _ O N) (seq 0 k) (g_fitnesses g) []) as (m' & E).
  { intros i I. apply in_seq in I. lia. }
  rewrite E. cbn [bind app]. rewrite seq_length. eexists. split; [reflexivity|]. unfold g_solutions. cbn [g_population g_set]. split; [|split; [reflexivity|]].
  - intros y I. apply insert_In in I. apply (Permutation_in _ (Permutation_sym (SH (g_time g) (repeat x k)))) in I. now apply repeat_spec in I.
  - rewrite map_length, insert_length, <- (Permutation_length (SH (g_time g) (repeat x k))), repeat_length. reflexivity.
Qed.
