(** Proofs about the Parameter-less Population Pyramid. *)

From Coq Require Import Lia Permutation.
From Verif Require Import Base BaseLemmas Double Pyramid_Model Pyramid_Spec.
Local Open Scope nat_scope.

(** ** Crossover *)
Definition cross (c : list nat) (x y : list bool) : list bool :=
  map (fun i => if in_dec Nat.eq_dec i c then nth i y false else nth i x false) (seq 0 (length x)).

Lemma cross_length c x y : length (cross c x y) = length x.
Proof. unfold cross. now rewrite map_length, seq_length. Qed.
Lemma nth_cross c x y i : i < length x -> nth i (cross c x y) false = if in_dec Nat.eq_dec i c then nth i y false else nth i x false.
Proof.
  intros I. unfold cross. erewrite nth_indep by (rewrite map_length, seq_length; exact I).
  rewrite (map_nth (fun i => if in_dec Nat.eq_dec i c then nth i y false else nth i x false) (seq 0 (length x)) 0 i). now rewrite seq_nth by exact I.
Qed.
Lemma bits_ext (x y : list bool) : length x = length y -> (forall i, i < length x -> nth i x false = nth i y false) -> x = y.
Proof. intros L H. now apply (nth_ext x y false false). Qed.
Lemma cross_crossed c x y : length x = length y -> crossed c x y (cross c x y).
Proof.
  intros L. split; [apply cross_length|]. intros i. destruct (Nat.lt_ge_cases i (length x)) as [I|I].
  - rewrite (nth_error_nth' _ false) by (rewrite cross_length; exact I). rewrite nth_cross by exact I.
    destruct (in_dec Nat.eq_dec i c); symmetry; apply nth_error_nth'; lia.
  - rewrite (proj2 (nth_error_None _ _)) by (rewrite cross_length; exact I).
    destruct (in_dec Nat.eq_dec i c); symmetry; apply nth_error_None; lia.
Qed.
Lemma crossed_cross c x y z : length x = length y -> crossed c x y z -> z = cross c x y.
Proof.
  intros L (LZ & H). destruct (cross_crossed c x y L) as (LC & HC). apply bits_ext; [congruence|]. intros i I.
  specialize (H i). rewrite <- HC in H. now rewrite (nth_error_nth' z false), (nth_error_nth' (cross c x y) false) in H by congruence; inversion H.
Qed.
Lemma cross_back c x y : length x = length y -> cross c (cross c x y) (cross c y x) = x.
Proof.
  intros L. apply bits_ext; rewrite !cross_length; [reflexivity|]. intros i I. rewrite nth_cross by (rewrite cross_length; exact I).
  rewrite !nth_cross by lia. now destruct (in_dec Nat.eq_dec i c).
Qed.

Lemma exchange_loop c : forall ch x y, length x = length y -> NoDup c -> (forall i, In i c -> i < length x) ->
  exists ch', foldM (fun '(changed, solution, source) index =>
    a <- vget solution index ;; b <- vget source index ;; solution <- vset solution index b ;; source <- vset source index a ;;
    Ok (changed || negb (Bool.eqb a b), solution, source)) c (ch, x, y) = Ok (ch', cross c x y, cross c y x) /\
    (ch' = true <-> ch = true \/ exists i, In i c /\ nth i x false <> nth i y false).
Proof.
  induction c as [|a c IH]; intros ch x y L ND B; cbn [foldM].
  - exists ch. split.
    + do 2 f_equal; [f_equal|]; symmetry; apply bits_ext; rewrite ?cross_length; try reflexivity; intros i I; rewrite nth_cross by lia; reflexivity.
    + split; [now left|]. intros [H|(i & [] & _)]. exact H.
  - assert (A : a < length x) by (apply B; now left). inversion ND as [|? ? NA ND']; subst.
    unfold vget. rewrite (nth_error_nth' x false), (nth_error_nth' y false) by lia. cbn [bind]. rewrite !vset_Ok by lia. cbn [bind].
    destruct (IH (ch || negb (Bool.eqb (nth a x false) (nth a y false))) (upd x a (nth a y false)) (upd y a (nth a x false))) as (ch' & E & C).
    { now rewrite !length_upd. }
    { exact ND'. }
    { intros i I. rewrite length_upd. apply B. now right. }
    exists ch'. split.
    + unfold vget in E. rewrite E. do 2 f_equal; [f_equal|]; apply bits_ext; rewrite ?cross_length, ?length_upd; try reflexivity; intros i I; rewrite !nth_cross by (rewrite ?length_upd; lia).
      * destruct (in_dec Nat.eq_dec i c) as [IC|IC], (in_dec Nat.eq_dec i (a :: c)) as [IA|IA].
        -- apply nth_upd_neq. congruence.
        -- exfalso. apply IA. now right.
        -- destruct IA as [->|]; [|contradiction]. apply nth_upd_eq. lia.
        -- apply nth_upd_neq. intros ->. apply IA. now left.
      * destruct (in_dec Nat.eq_dec i c) as [IC|IC], (in_dec Nat.eq_dec i (a :: c)) as [IA|IA].
        -- apply nth_upd_neq. congruence.
        -- exfalso. apply IA. now right.
        -- destruct IA as [->|]; [|contradiction]. apply nth_upd_eq. lia.
        -- apply nth_upd_neq. intros ->. apply IA. now left.
    + rewrite C. rewrite orb_true_iff, negb_true_iff, Bool.eqb_false_iff. split.
      * intros [[H|H]|(i & I & H)]; [now left|right; exists a; split; [now left|exact H]|].
        right. exists i. split; [now right|]. rewrite !nth_upd_neq in H by congruence. exact H.
      * intros [H|(i & [<-|I] & H)]; [now left; left|left; now right|]. right. exists i. split; [exact I|]. rewrite !nth_upd_neq by congruence. exact H.
Qed.

Lemma exchange_spec n c x y : length x = n -> length y = n -> genes n c ->
  exists ch, exchange c x y = Ok (ch, cross c x y, cross c y x) /\ (ch = true <-> cross c x y <> x).
Proof.
  intros LX LY (ND & B). unfold exchange. destruct (exchange_loop c false x y) as (ch & E & C); [congruence|exact ND|intros; rewrite LX; now apply B|].
  exists ch. split; [exact E|]. rewrite C. split.
  - intros [H|(i & I & H)]; [discriminate|]. intros EQ. apply H. rewrite <- EQ at 1. rewrite nth_cross by (rewrite LX; now apply B). destruct (in_dec Nat.eq_dec i c); [reflexivity|contradiction].
  - intros H. right. destruct (Exists_dec (fun i => nth i x false <> nth i y false) c) as [EX|NX].
    { intros i. destruct (Bool.bool_dec (nth i x false) (nth i y false)); [right; now intros F|now left]. }
    + apply Exists_exists in EX. exact EX.
    + exfalso. apply H. apply bits_ext; rewrite cross_length; [reflexivity|]. intros i I. rewrite nth_cross by exact I.
      destruct (in_dec Nat.eq_dec i c) as [IC|]; [|reflexivity]. destruct (Bool.bool_dec (nth i x false) (nth i y false)) as [EQ|NE]; [now symmetry|].
      exfalso. apply NX. apply Exists_exists. now exists i.
Qed.

Lemma copy_loop c x : forall y, length x = length y -> (forall i, In i c -> i < length x) ->
  foldM (fun source index => b <- vget x index ;; vset source index b) c y = Ok (cross c y x).
Proof.
  induction c as [|a c IH]; intros y L B; cbn [foldM].
  - f_equal. apply bits_ext; rewrite ?cross_length; [reflexivity|]. intros i I. now rewrite nth_cross by lia.
  - assert (A : a < length x) by (apply B; now left). unfold vget at 1. rewrite (nth_error_nth' x false) by lia. cbn [bind]. rewrite vset_Ok by lia. cbn [bind].
    rewrite IH; [|now rewrite length_upd|intros; apply B; now right]. f_equal. apply bits_ext; rewrite !cross_length, length_upd; [reflexivity|].
    intros i I. rewrite !nth_cross by (rewrite ?length_upd; lia). destruct (in_dec Nat.eq_dec i c) as [IC|IC], (in_dec Nat.eq_dec i (a :: c)) as [IA|IA]; try reflexivity.
    + exfalso. apply IA. now right.
    + destruct IA as [->|]; [|contradiction]. apply nth_upd_eq. lia.
    + apply nth_upd_neq. intros ->. apply IA. now left.
Qed.

Lemma donate_spec f n c x fit y : length x = n -> length y = n -> genes n c ->
  donate f x fit y c = if seen_dec (cross c x y) x then Ok (false, x, fit, y)
    else match f (cross c x y) with
         | Ok v => if dle fit v then Ok (true, cross c x y, v, y) else Ok (true, x, fit, y)
         | Throw e => Throw e
         | UB => UB
         end.
Proof.
  intros LX LY G. unfold donate. destruct (exchange_spec n c x y LX LY G) as (ch & E & C). rewrite E. cbn [bind].
  assert (LE : length x = length y) by congruence.
  destruct (seen_dec (cross c x y) x) as [EQ|NE].
  - destruct ch; [exfalso; now apply (proj1 C eq_refl)|]. rewrite EQ. do 2 f_equal.
    apply bits_ext; rewrite cross_length; [reflexivity|]. intros i I. rewrite nth_cross by exact I. destruct (in_dec Nat.eq_dec i c) as [IC|]; [|reflexivity].
    rewrite <- EQ. rewrite nth_cross by lia. destruct (in_dec Nat.eq_dec i c); [reflexivity|contradiction].
  - rewrite (proj2 C NE). destruct (f (cross c x y)) as [v|e|]; try reflexivity. cbn [bind]. destruct (dle fit v).
    + rewrite copy_loop; [|rewrite !cross_length; congruence|intros; rewrite cross_length, LX; now apply G]. cbn [bind]. do 2 f_equal. apply cross_back. congruence.
    + destruct (exchange_spec n c (cross c x y) (cross c y x)) as (ch' & E' & _); [rewrite cross_length; congruence|rewrite cross_length; congruence|exact G|].
      rewrite E'. cbn [bind]. now rewrite !cross_back by congruence.
Qed.

(** ** Linkage tree *)
Lemma take_perm {A} (l : list A) i d : i < length l -> Permutation l (nth i l d :: take i l).
Proof.
  intros I. unfold take. rewrite <- (firstn_skipn i l) at 1.
  assert (E : skipn i l = nth i l d :: skipn (S i) l).
  { revert i I. induction l as [|a l IH]; intros [|i] I; cbn in *; try lia; [reflexivity|]. now rewrite <- IH by lia. }
  rewrite E. symmetry. apply Permutation_middle.
Qed.
Lemma take_length {A} (l : list A) i : i < length l -> length (take i l) = length l - 1.
Proof. intros I. destruct l as [|a l]; [cbn in I; lia|]. pose proof (Permutation_length (take_perm (a :: l) i a I)) as P. cbn [length] in *. lia. Qed.

Lemma concat_perm {A} (l m : list (list A)) : Permutation l m -> Permutation (concat l) (concat m).
Proof.
  induction 1; cbn [concat]; [constructor|now apply Permutation_app_head| |now transitivity (concat l')].
  rewrite !app_assoc. apply Permutation_app_tail, Permutation_app_comm.
Qed.

Lemma link_genes n picks steps : forall usable clusters, steps < length usable -> genes n (concat usable) -> Forall (genes n) clusters ->
  Forall (genes n) (link steps picks usable clusters).
Proof.
  induction steps as [|steps IH]; intros usable clusters L G F; cbn [link]; [exact F|].
  destruct (picks steps) as [i j]. set (i' := i mod length usable). set (first := nth i' usable []).
  assert (I : i' < length usable) by (apply Nat.mod_upper_bound; lia).
  pose proof (take_perm usable i' [] I) as P1. fold first in P1. set (u1 := take i' usable) in *.
  assert (L1 : length u1 = length usable - 1) by now apply take_length.
  set (j' := j mod length u1). set (second := nth j' u1 []).
  assert (J : j' < length u1) by (apply Nat.mod_upper_bound; lia).
  pose proof (take_perm u1 j' [] J) as P2. fold second in P2. set (u2 := take j' u1) in *.
  assert (L2 : length u2 = length u1 - 1) by now apply take_length.
  assert (P : Permutation (concat usable) (concat (u2 ++ [first ++ second]))).
  { rewrite (concat_perm _ _ P1). cbn [concat]. rewrite (concat_perm _ _ P2). cbn [concat]. rewrite concat_app. cbn [concat]. rewrite app_nil_r, app_assoc. apply Permutation_app_comm. }
  assert (G' : genes n (concat (u2 ++ [first ++ second]))).
  { destruct G as (ND & B). split; [now apply (Permutation_NoDup P)|]. intros k K. apply B. now apply (Permutation_in _ (Permutation_sym P)). }
  apply IH; [rewrite app_length; cbn [length]; lia|exact G'|]. apply Forall_app. split; [exact F|]. constructor; [|constructor].
  rewrite concat_app in G'. cbn [concat] in G'. rewrite app_nil_r in G'. destruct G' as (ND & B). split.
  - clear - ND. induction (concat u2) as [|a l IHl]; [exact ND|]. apply IHl. now inversion ND.
  - intros k K. apply B. apply in_or_app. now right.
Qed.

Lemma rebuild_genes n trees t : orders n trees -> 0 < n -> Forall (genes n) (rebuild_tree n (trees t)).
Proof.
  intros O N. destruct (O t) as (ND & B). unfold rebuild_tree. apply Forall_rev. apply incl_Forall with (l1 := link (n - 1) (td_picks (trees t)) (map (fun i => [i]) (td_order (trees t))) (map (fun i => [i]) (td_order (trees t)))).
  - intros c C. apply filter_In in C. destruct C as (C & _). revert C. generalize (link (n - 1) (td_picks (trees t)) (map (fun i => [i]) (td_order (trees t))) (map (fun i => [i]) (td_order (trees t)))).
    induction l as [|a l IH]; cbn [removelast]; [auto|]. destruct l; [intros []|]. intros [->|C]; [now left|right; now apply IH].
  - assert (LO : length (td_order (trees t)) = n).
    { assert (P : Permutation (td_order (trees t)) (seq 0 n)). { apply NoDup_Permutation; [exact ND|apply seq_NoDup|]. intros i. rewrite B, in_seq. lia. }
      apply Permutation_length in P. now rewrite seq_length in P. }
    apply link_genes.
    + rewrite map_length, LO. lia.
    + assert (E : forall l : list nat, concat (map (fun i => [i]) l) = l) by (induction l as [|a l IH]; cbn; now rewrite ?IH). rewrite E. split; [exact ND|]. intros i. apply B.
    + apply Forall_forall. intros c C. apply in_map_iff in C. destruct C as (i & <- & I). split; [constructor; [intros []|constructor]|]. intros k [<-|[]]. now apply B.
Qed.

(** ** Pyramid *)
Section Pyramid.
  Context (n : nat) (f : list bool -> outcome dbl) (trees : nat -> tree_draws) (donors : nat -> nat -> nat)
    (N : 0 < n) (O : orders n trees) (F : forall x, length x = n -> f x <> UB).

  Lemma ends_bind {A B} (r : outcome A) (k : A -> outcome B) (P : A -> Prop) (R : B -> Prop) :
    ends n f r P -> (forall a, P a -> ends n f (k a) R) -> ends n f (bind r k) R.
  Proof. destruct r; cbn; auto. Qed.

  Lemma no_worse_trans u v w : no_worse u v -> no_worse v w -> no_worse u w.
  Proof. intros [->|H] [->|K]; [now left|now right|now right|]. right. eapply dle_trans; eassumption. Qed.

  Lemma improve_spec donor solutions clusters : solutions <> [] -> Forall (fun x => length x = n) solutions -> Forall (genes n) clusters ->
    forall x v, length x = n -> f x = Ok v ->
    ends n f (improve f donor clusters solutions x v) (fun '(solutions', y, w) => solutions' = solutions /\ length y = n /\ f y = Ok w /\ no_worse v w).
  Proof.
    intros NE FS. induction clusters as [|c clusters IH]; intros FC x v LX E; cbn [improve].
    - cbn [ends]. split; [reflexivity|]. split; [exact LX|]. split; [exact E|now left].
    - inversion FC as [|? ? GC FC']; subst. set (k := donor (length clusters) mod length solutions).
      assert (K : k < length solutions) by (apply Nat.mod_upper_bound; destruct solutions; [congruence|cbn; lia]).
      unfold vget. rewrite (nth_error_nth' solutions [] K). cbn [bind].
      assert (LS : length (nth k solutions []) = length x) by (rewrite Forall_forall in FS; apply FS, nth_In, K).
      rewrite (donate_spec f (length x) c x v (nth k solutions []) eq_refl LS GC).
      assert (U : forall y w, length y = length x -> f y = Ok w -> no_worse v w ->
        ends (length x) f (solutions0 <- vset solutions k (nth k solutions []) ;; improve f donor clusters solutions0 y w)
          (fun '(solutions', y, w) => solutions' = solutions /\ length y = length x /\ f y = Ok w /\ no_worse v w)).
      { intros y w LY EY NW. rewrite vset_Ok by exact K. cbn [bind]. rewrite upd_nth by exact K.
        specialize (IH FC' y w LY EY). destruct (improve f donor clusters solutions y w) as [[[s' y'] w']|e|]; cbn [ends] in *; [|exact IH|exact IH].
        destruct IH as (-> & L' & E' & NW'). split; [reflexivity|]. split; [exact L'|]. split; [exact E'|]. eapply no_worse_trans; eassumption. }
      destruct (seen_dec (cross c x (nth k solutions [])) x); [cbn [bind]; apply U; [reflexivity|exact E|now left]|].
      destruct (f (cross c x (nth k solutions []))) as [w|e|] eqn:EW.
      + destruct (dle v w) eqn:D; cbn [bind]; apply U; try exact EW; try exact E; try reflexivity; [apply cross_length|now right|now left].
      + cbn [bind ends]. exists (cross c x (nth k solutions [])). split; [apply cross_length|exact EW].
      + exfalso. apply (F (cross c x (nth k solutions []))); [apply cross_length|exact EW].
  Qed.

  Lemma cross_same c x : cross c x x = x.
  Proof. apply bits_ext; rewrite cross_length; [reflexivity|]. intros i I. rewrite nth_cross by exact I. now destruct (in_dec Nat.eq_dec i c). Qed.

  Lemma improve_alone donor clusters : Forall (genes n) clusters -> forall x v, length x = n -> improve f donor clusters [x] x v = Ok ([x], x, v).
  Proof.
    intros FC x v LX. induction FC as [|c clusters GC FC IH]; cbn [improve]; [reflexivity|]. cbn [length]. rewrite Nat.mod_1_r. unfold vget. cbn [nth_error bind].
    rewrite (donate_spec f n c x v x LX LX GC). rewrite cross_same. destruct (seen_dec x x); [|congruence]. cbn [bind]. unfold vset. cbn [length Nat.ltb Nat.leb]. cbn [bind upd]. exact IH.
  Qed.

  Lemma extends_refl p : extends p p.
  Proof. split; [lia|]. intros l pop E. exists pop, []. now rewrite app_nil_r. Qed.
  Lemma extends_trans p q r : extends p q -> extends q r -> extends p r.
  Proof.
    intros (L1 & H1) (L2 & H2). split; [lia|]. intros l pop E. destruct (H1 l pop E) as (pop1 & m1 & E1 & S1). destruct (H2 l pop1 E1) as (pop2 & m2 & E2 & S2).
    exists pop2, (m1 ++ m2). split; [exact E2|]. now rewrite S2, S1, app_assoc.
  Qed.
  Lemma extends_time p t : extends p (mk_pyramid (y_levels p) (y_seen p) t).
  Proof. exact (extends_refl p). Qed.
  Lemma sound_time p t : sound n f p -> sound n f (mk_pyramid (y_levels p) (y_seen p) t).
  Proof. intros [A B C D E]. now constructor. Qed.
  Lemma extends_In p q x : extends p q -> In x (solutions_of p) -> In x (solutions_of q).
  Proof.
    intros (_ & H). unfold solutions_of. rewrite !in_concat. intros (s & S1 & S2). apply in_map_iff in S1. destruct S1 as (pop & <- & P). apply In_nth_error in P. destruct P as (l & P).
    destruct (H l pop P) as (pop' & m & E & M). exists (p_solutions pop'). split; [apply in_map; eapply nth_error_In; exact E|]. rewrite M. apply in_or_app. now left.
  Qed.

  Lemma add_perm levels : forall l pop x tree, nth_error levels l = Some pop ->
    Permutation (concat (map p_solutions (upd levels l (mk_population (p_solutions pop ++ [x]) tree)))) (x :: concat (map p_solutions levels)).
  Proof.
    induction levels as [|a levels IH]; intros [|l] pop x tree E; cbn in E; try discriminate; cbn [upd map concat].
    - inversion E; subst. cbn [p_solutions]. rewrite <- app_assoc. cbn. symmetry. apply Permutation_middle.
    - rewrite (IH l pop x tree E). symmetry. apply Permutation_middle.
  Qed.

  Lemma add_unique_spec p x l v : sound n f p -> length x = n -> f x = Ok v -> l <= length (y_levels p) ->
    (forall k, l = S k -> exists z u, In z (solutions_of p) /\ f z = Ok u /\ dlt u v = true) ->
    exists q, add_unique n trees x l p = Ok q /\ sound n f q /\ extends p q /\ In x (solutions_of q) /\
      (length (y_levels q) = length (y_levels p) \/
       l = length (y_levels p) /\ length (y_levels q) = S l /\ exists pop, nth_error (y_levels q) l = Some pop /\ p_solutions pop = [x]).
  Proof.
    intros V LX EX L B. pose proof V as [ND VA SE LE AB]. unfold add_unique. destruct (in_dec seen_dec x (y_seen p)) as [I|I].
    - exists p. split; [reflexivity|]. split; [exact V|]. split; [apply extends_refl|]. split; [now apply SE|now left].
    - set (levels := if length (y_levels p) =? l then y_levels p ++ [mk_population [] []] else y_levels p).
      assert (LL : l < length levels). { unfold levels. destruct (length (y_levels p) =? l) eqn:EL; [apply Nat.eqb_eq in EL; rewrite app_length; cbn; lia|apply Nat.eqb_neq in EL; lia]. }
      assert (LB : (l <? length levels) = true) by now apply Nat.ltb_lt.
      assert (CL : concat (map p_solutions levels) = solutions_of p). { unfold levels. destruct (_ =? l); [|reflexivity]. rewrite map_app, concat_app. cbn. now rewrite app_nil_r. }
      assert (NL : forall k pop, nth_error levels k = Some pop -> k <> l -> nth_error (y_levels p) k = Some pop).
      { intros k pop E NE. unfold levels in E. destruct (length (y_levels p) =? l) eqn:EL; [|exact E]. apply Nat.eqb_eq in EL.
        destruct (Nat.lt_ge_cases k (length (y_levels p))); [now rewrite nth_error_app1 in E|].
        assert (k < length (y_levels p ++ [mk_population [] []])) by (apply nth_error_Some; congruence). rewrite app_length in *. cbn in *. lia. }
      assert (PL : forall k pop, nth_error (y_levels p) k = Some pop -> nth_error levels k = Some pop).
      { intros k pop E. unfold levels. destruct (_ =? l); [|exact E]. rewrite nth_error_app1; [exact E|]. apply nth_error_Some. congruence. }
      destruct (nth_error levels l) as [pop|] eqn:EP; [|apply nth_error_None in EP; lia].
      unfold vget. rewrite EP. cbn [bind]. rewrite vset_Ok by exact LL. cbn [bind]. set (tree := rebuild_tree n (trees (y_time p))).
      set (q := mk_pyramid (upd levels l (mk_population (p_solutions pop ++ [x]) tree)) (x :: y_seen p) (y_time p + 1)).
      assert (PM : Permutation (solutions_of q) (x :: solutions_of p)). { unfold solutions_of at 1. cbn [y_levels q]. rewrite (add_perm levels l pop x tree EP). now rewrite CL. }
      assert (IQ : forall y, In y (solutions_of q) <-> y = x \/ In y (solutions_of p)).
      { intros y. split; [intros H; apply (Permutation_in _ PM) in H; destruct H; auto|intros H; apply (Permutation_in _ (Permutation_sym PM)); destruct H as [->|]; [now left|now right]]. }
      exists q. split; [reflexivity|]. split; [|split; [|split; [apply IQ; now left|]]].
      + constructor.
        * apply (Permutation_NoDup (Permutation_sym PM)). constructor; [now rewrite <- SE|exact ND].
        * intros y Y. apply IQ in Y. destruct Y as [->|Y]; [|now apply VA]. split; [exact LX|now exists v].
        * intros y. rewrite IQ. cbn [y_seen q In]. rewrite SE. intuition.
        * cbn [y_levels q]. intros pop' P. apply In_nth_error in P. destruct P as (k & P). rewrite nth_error_upd in P.
          destruct (Nat.eq_dec k l) as [->|NK].
          -- rewrite Nat.eqb_refl, LB in P. cbn [andb] in P. inversion P; subst pop'. cbn [p_solutions p_clusters]. split; [now destruct (p_solutions pop)|]. now apply rebuild_genes.
          -- replace (k =? l) with false in P by (symmetry; now apply Nat.eqb_neq). apply LE. eapply nth_error_In. apply (NL k pop'); [exact P|exact NK].
        * cbn [y_levels q]. intros k pop' y P Y. rewrite nth_error_upd in P.
          assert (OLD : forall pop'', nth_error (y_levels p) (S k) = Some pop'' -> In y (p_solutions pop'') -> exists z v w, In z (solutions_of q) /\ f z = Ok v /\ f y = Ok w /\ dlt v w = true).
          { intros pop'' P' Y'. destruct (AB k pop'' y P' Y') as (z & u & w & Z & E1 & E2 & E3). exists z, u, w. split; [apply IQ; now right|now split; [|split]]. }
          destruct (Nat.eq_dec (S k) l) as [EK|NK].
          -- replace (S k =? l) with true in P by (symmetry; now apply Nat.eqb_eq). rewrite LB in P. cbn [andb] in P. inversion P; subst pop'. cbn [p_solutions] in Y. apply in_app_or in Y. destruct Y as [Y|[<-|[]]].
             ++ destruct (length (y_levels p) =? l) eqn:EL.
                ** exfalso. apply Nat.eqb_eq in EL. unfold levels in EP. rewrite nth_error_app2 in EP by lia. rewrite EL, Nat.sub_diag in EP. cbn in EP. inversion EP; subst pop. exact Y.
                ** apply (OLD pop); [|exact Y]. unfold levels in EP. now rewrite EK.
             ++ destruct (B k (eq_sym EK)) as (z & u & Z & EZ & D). exists z, u, v. split; [apply IQ; now right|now split; [|split]].
          -- replace (S k =? l) with false in P by (symmetry; now apply Nat.eqb_neq). apply (OLD pop'); [apply NL; [exact P|exact NK]|exact Y].
      + split.
        * cbn [y_levels q]. rewrite length_upd. unfold levels. destruct (_ =? l); [rewrite app_length; lia|lia].
        * intros k pop' P. apply PL in P. cbn [y_levels q]. rewrite nth_error_upd. destruct (Nat.eq_dec k l) as [->|NK].
          -- rewrite Nat.eqb_refl, LB. cbn [andb]. rewrite EP in P. inversion P; subst pop'. eexists _, [x]. split; [reflexivity|reflexivity].
          -- replace (k =? l) with false by (symmetry; now apply Nat.eqb_neq). exists pop', []. split; [exact P|now rewrite app_nil_r].
      + cbn [y_levels q]. rewrite length_upd, nth_error_upd, Nat.eqb_refl, LB. cbn [andb]. clear LL LB. revert EP. unfold levels. destruct (length (y_levels p) =? l) eqn:EL; [|now left].
        apply Nat.eqb_eq in EL. intros EP. right. split; [now symmetry|]. split; [rewrite app_length; cbn; lia|]. eexists. split; [reflexivity|]. rewrite nth_error_app2 in EP by lia. rewrite EL, Nat.sub_diag in EP. cbn in EP. inversion EP. reflexivity.
  Qed.

  Definition after (p : pyramid) (v : dbl) : pyramid * list bool * dbl -> Prop :=
    fun '(q, y, w) => sound n f q /\ extends p q /\ length y = n /\ f y = Ok w /\ no_worse v w /\ (exists z, In z (solutions_of q) /\ f z = Ok w) /\ length (y_levels q) <= S (length (y_levels p)).

  Lemma same_level levels l pop : nth_error levels l = Some pop -> vset levels l (mk_population (p_solutions pop) (p_clusters pop)) = Ok levels.
  Proof.
    intros E. assert (l < length levels) by (apply nth_error_Some; congruence). rewrite vset_Ok by assumption. f_equal.
    destruct pop as [s c]. cbn. apply nth_error_nth with (d := mk_population s c) in E. rewrite <- E at 1. now apply upd_nth.
  Qed.

  Lemma climb_top fuel level p pop x v : sound n f p -> length x = n -> f x = Ok v -> nth_error (y_levels p) level = Some pop -> p_solutions pop = [x] -> level + 1 = length (y_levels p) ->
    climb_from n f trees donors (S fuel) level p x v = Ok (mk_pyramid (y_levels p) (y_seen p) (y_time p + 1), x, v).
  Proof.
    intros V LX EX E PS L. cbn [climb_from]. replace (level <? length (y_levels p)) with true by (symmetry; apply Nat.ltb_lt; lia).
    unfold vget at 1. rewrite E. cbn [bind]. rewrite PS. rewrite improve_alone; [|eapply sound_levels; [exact V|eapply nth_error_In; exact E]|exact LX]. cbn [bind].
    rewrite <- PS, (same_level _ _ _ E). cbn [bind]. rewrite dlt_irrefl. cbn [bind]. destruct fuel; cbn [climb_from y_levels]; rewrite L, Nat.ltb_irrefl; reflexivity.
  Qed.

  Lemma climb_from_spec fuel : forall level p x v, sound n f p -> length x = n -> f x = Ok v -> (exists z, In z (solutions_of p) /\ f z = Ok v) ->
    length (y_levels p) + 1 <= fuel + level -> ends n f (climb_from n f trees donors fuel level p x v) (after p v).
  Proof.
    induction fuel as [|fuel IH]; intros level p x v V LX EX IN FU; cbn [climb_from].
    - replace (level <? length (y_levels p)) with false by (symmetry; apply Nat.ltb_ge; lia). cbn [ends after].
      split; [exact V|]. split; [apply extends_refl|]. split; [exact LX|]. split; [exact EX|]. split; [now left|]. split; [exact IN|lia].
    - destruct (level <? length (y_levels p)) eqn:LT.
      2:{ cbn [ends after]. split; [exact V|]. split; [apply extends_refl|]. split; [exact LX|]. split; [exact EX|]. split; [now left|]. split; [exact IN|lia]. }
      apply Nat.ltb_lt in LT. unfold vget at 1. destruct (nth_error (y_levels p) level) as [pop|] eqn:E; [|apply nth_error_None in E; lia]. cbn [bind].
      assert (FS : Forall (fun x => length x = n) (p_solutions pop)).
      { apply Forall_forall. intros y Y. apply (sound_values n f p V). unfold solutions_of. apply in_concat. exists (p_solutions pop). split; [apply in_map; eapply nth_error_In; exact E|exact Y]. }
      destruct (sound_levels n f p V pop (nth_error_In _ _ E)) as (NE & GC).
      eapply ends_bind; [apply (improve_spec (donors (y_time p)) _ _ NE FS GC x v LX EX)|]. intros [[s y] w] (-> & LY & EY & NW). rewrite (same_level _ _ _ E). cbn [bind].
      set (p1 := mk_pyramid (y_levels p) (y_seen p) (y_time p + 1)). assert (V1 : sound n f p1) by now apply sound_time.
      destruct (dlt v w) eqn:D.
      + destruct (add_unique_spec p1 y (level + 1) w V1 LY EY) as (q & A & VQ & XQ & IQ & LQ); [cbn [p1 y_levels]; lia| |].
        { intros k _. destruct IN as (z & Z & EZ). exists z, v. now split; [|split]. }
        rewrite A. cbn [bind]. destruct LQ as [LQ|(LL & LQ & pop' & EP & PS)].
        * assert (H : ends n f (climb_from n f trees donors fuel (level + 1) q y w) (after q w)).
          { apply IH; [exact VQ|exact LY|exact EY|now exists y|]. rewrite LQ. cbn [p1 y_levels]. lia. }
          destruct (climb_from n f trees donors fuel (level + 1) q y w) as [[[r y'] w']|e|]; [|exact H|exact H]. cbn [ends after] in *. destruct H as (VR & XR & LY' & EY' & NW' & IR & LR).
          split; [exact VR|]. split; [apply (extends_trans p q r); [exact XQ|exact XR]|]. split; [exact LY'|]. split; [exact EY'|]. split; [eapply no_worse_trans; eassumption|]. split; [exact IR|]. rewrite LQ in LR. exact LR.
        * cbn [p1 y_levels] in LL. destruct fuel as [|fuel]; [lia|]. rewrite (climb_top fuel (level + 1) q pop' y w VQ LY EY EP PS) by lia. cbn [ends after].
          split; [now apply sound_time|]. split; [exact XQ|]. split; [exact LY|]. split; [exact EY|]. split; [exact NW|]. split; [now exists y|]. cbn [y_levels]. lia.
      + cbn [bind]. assert (EW : w = v).
        { destruct NW as [->|H]; [reflexivity|]. pose proof (dle_nan _ _ H) as (N1 & N2). apply dle_antisym; [now apply not_lt_le|exact H]. }
        subst w. assert (H : ends n f (climb_from n f trees donors fuel (level + 1) p1 y v) (after p1 v)).
        { apply IH; [exact V1|exact LY|exact EY|exact IN|]. cbn [p1 y_levels]. lia. }
        exact H.
  Qed.

  Lemma iterate_spec p x : sound n f p -> length x = n ->
    ends n f (iterate n f trees donors p x) (fun '(q, y, w) => sound n f q /\ extends p q /\ In x (solutions_of q) /\ length y = n /\ f y = Ok w /\ (exists v, f x = Ok v /\ no_worse v w) /\ (exists z, In z (solutions_of q) /\ f z = Ok w) /\
      length (y_levels q) <= S (length (y_levels p))).
  Proof.
    intros V LX. unfold iterate. destruct (f x) as [v|e|] eqn:EX; cbn [bind]; [|cbn; now exists x|now apply (F x LX)].
    unfold climb. destruct (add_unique_spec p x 0 v V LX EX) as (q & A & VQ & XQ & IQ & LQ); [lia|intros k H; discriminate H|]. rewrite A. cbn [bind].
    assert (H : ends n f (climb_from n f trees donors (length (y_levels q) + 1) 0 q x v) (after q v)) by (apply climb_from_spec; [exact VQ|exact LX|exact EX|now exists x|lia]).
    destruct LQ as [LQ|(LL & LQ & pop & EP & PS)].
    - destruct (climb_from n f trees donors (length (y_levels q) + 1) 0 q x v) as [[[r y'] w']|e|]; [|exact H|exact H]. cbn [ends after] in *. destruct H as (VR & XR & LY' & EY' & NW' & IR & LR).
      split; [exact VR|]. split; [now apply (extends_trans p q r)|]. split; [now apply (extends_In q r)|]. split; [exact LY'|]. split; [exact EY'|]. split; [now exists v|]. split; [exact IR|]. now rewrite LQ in LR.
    - rewrite LQ. change (1 + 1) with (S 1). rewrite (climb_top 1 0 q pop x v VQ LX EX EP PS) by lia. cbn [ends].
      split; [now apply sound_time|]. split; [exact XQ|]. split; [exact IQ|]. split; [exact LX|]. split; [exact EX|]. split; [exists v; split; [reflexivity|now left]|]. split; [now exists x|]. cbn [y_levels]. lia.
  Qed.

  Lemma sound_make : sound n f pyramid_make.
  Proof.
    constructor; cbn.
    - constructor.
    - intros x [].
    - intros x. reflexivity.
    - intros pop [].
    - intros l pop y E. discriminate E.
  Qed.

  Lemma iterations_from xs : forall p, sound n f p -> (forall x, In x xs -> length x = n) ->
    ends n f (foldM (fun p x => '(p, _, _) <- iterate n f trees donors p x ;; Ok p) xs p)
      (fun q => sound n f q /\ extends p q /\ (forall x, In x xs -> In x (solutions_of q)) /\ length (y_levels q) <= length (y_levels p) + length xs).
  Proof.
    induction xs as [|x xs IH]; intros p V LX; cbn [foldM].
    - cbn [ends]. split; [exact V|]. split; [apply extends_refl|]. split; [intros x []|cbn; lia].
    - pose proof (iterate_spec p x V (LX x (or_introl eq_refl))) as H. destruct (iterate n f trees donors p x) as [[[q y] w]|e|]; cbn [bind ends] in *; [|exact H|exact H].
      destruct H as (VQ & XQ & IQ & _ & _ & _ & _ & LQ). specialize (IH q VQ (fun x I => LX x (or_intror I))).
      destruct (foldM _ xs q) as [r|e|]; cbn [ends] in *; [|exact IH|exact IH]. destruct IH as (VR & XR & IR & LR).
      split; [exact VR|]. split; [now apply (extends_trans p q r)|]. split; [|cbn [length]; lia]. intros z [<-|Z]; [now apply (extends_In q r)|now apply IR].
  Qed.
End Pyramid.

(** ** Proper clusters *)
Lemma link_proper n picks steps : forall usable clusters, 0 < steps -> length usable = steps + 1 ->
  genes n (concat usable) -> Forall (fun c => c <> []) usable -> Forall (proper n) clusters ->
  Forall (proper n) (removelast (link steps picks usable clusters)).
Proof.
  induction steps as [|steps IH]; intros usable clusters ST L G NE FP; [lia|]. cbn [link].
  destruct (picks steps) as [i j]. set (i' := i mod length usable). set (first := nth i' usable []).
  assert (I : i' < length usable) by (apply Nat.mod_upper_bound; lia).
  pose proof (take_perm usable i' [] I) as P1. fold first in P1. set (u1 := take i' usable) in *.
  assert (L1 : length u1 = length usable - 1) by now apply take_length.
  set (j' := j mod length u1). set (second := nth j' u1 []).
  assert (J : j' < length u1) by (apply Nat.mod_upper_bound; lia).
  pose proof (take_perm u1 j' [] J) as P2. fold second in P2. set (u2 := take j' u1) in *.
  assert (L2 : length u2 = length u1 - 1) by now apply take_length.
  destruct steps as [|steps]; [cbn [link]; now rewrite removelast_last|].
  assert (P : Permutation (concat usable) (concat (u2 ++ [first ++ second]))).
  { rewrite (concat_perm _ _ P1). cbn [concat]. rewrite (concat_perm _ _ P2). cbn [concat]. rewrite concat_app. cbn [concat]. rewrite app_nil_r, app_assoc. apply Permutation_app_comm. }
  assert (G' : genes n (concat (u2 ++ [first ++ second]))).
  { destruct G as (ND & B). split; [now apply (Permutation_NoDup P)|]. intros k K. apply B. now apply (Permutation_in _ (Permutation_sym P)). }
  assert (NU : Forall (fun c : list nat => c <> []) (first :: second :: u2)).
  { rewrite Forall_forall in *. intros c C. apply NE. apply (Permutation_in _ (Permutation_sym P1)). destruct C as [->|C]; [now left|]. right. now apply (Permutation_in _ (Permutation_sym P2)). }
  inversion NU as [|? ? NF NU']; subst. inversion NU' as [|? ? NS N2]; subst.
  assert (NFS : first ++ second <> []) by (destruct first; [congruence|discriminate]).
  apply IH; [lia|rewrite app_length; cbn [length]; lia|exact G'|apply Forall_app; split; [exact N2|now constructor]|].
  apply Forall_app. split; [exact FP|]. constructor; [|constructor].
  rewrite concat_app in G'. cbn [concat] in G'. rewrite app_nil_r in G'. destruct u2 as [|a u2]; [cbn [length] in *; lia|]. inversion N2 as [|? ? NA _]; subst. destruct a as [|g a]; [congruence|].
  destruct G' as (ND & B). cbn [concat app] in ND, B. inversion ND as [|? ? NG ND']; subst. split; [split|split; [exact NFS|]].
  - clear - ND'. induction (a ++ concat u2) as [|b l IHl]; [exact ND'|]. apply IHl. now inversion ND'.
  - intros k K. apply B. right. apply in_or_app. now right.
  - exists g. split; [apply B; now left|]. intros H. apply NG. apply in_or_app. now right.
Qed.

Lemma rebuild_proper n trees t : orders n trees -> 0 < n -> Forall (proper n) (rebuild_tree n (trees t)).
Proof.
  intros O N. destruct (O t) as (ND & B). unfold rebuild_tree. apply Forall_rev.
  assert (LO : length (td_order (trees t)) = n).
  { assert (P : Permutation (td_order (trees t)) (seq 0 n)). { apply NoDup_Permutation; [exact ND|apply seq_NoDup|]. intros i. rewrite B, in_seq. lia. }
    apply Permutation_length in P. now rewrite seq_length in P. }
  apply incl_Forall with (l1 := removelast (link (n - 1) (td_picks (trees t)) (map (fun i => [i]) (td_order (trees t))) (map (fun i => [i]) (td_order (trees t))))); [intros c C; now apply filter_In in C|].
  destruct (Nat.eq_dec n 1) as [->|NE].
  - cbn [link Nat.sub]. destruct (td_order (trees t)) as [|a [|b l]]; cbn in *; try lia. constructor.
  - apply link_proper; [lia|rewrite map_length; lia| | |].
    + assert (E : forall l : list nat, concat (map (fun i => [i]) l) = l) by (induction l as [|a l IH]; cbn; now rewrite ?IH). rewrite E. split; [exact ND|]. intros i. apply B.
    + apply Forall_forall. intros c C. apply in_map_iff in C. destruct C as (i & <- & I). discriminate.
    + apply Forall_forall. intros c C. apply in_map_iff in C. destruct C as (i & <- & I). apply B in I. split; [split|split; [discriminate|]].
      * constructor; [intros []|constructor].
      * intros k [<-|[]]. exact I.
      * destruct (Nat.eq_dec i 0) as [->|]; [exists 1|exists 0]; (split; [lia|]); intros [H|[]]; lia.
Qed.
