(** Proofs about evolutionary algorithms. *)

From Coq Require Import QArith Permutation.
From Verif Require Import Base BaseLemmas BitVector_Model BitVector_Spec GF2 BitVector_Proofs Iterator_Proofs Representation_Spec Map_Spec
  Neighborhood_Model Neighborhood_Spec Neighborhood_Proofs Algorithm_Model Algorithm_Spec Algorithm_Proofs
  Population_Model Population_Spec Population_Proofs Tournament_Proofs PopAlgorithm_Model PopAlgorithm_Spec PopAlgorithm_Proofs
  ProbabilityVector_Model ProbabilityVector_Proofs EvolutionaryAlgorithm_Model EvolutionaryAlgorithm_Spec.
Local Open Scope nat_scope.

(** * Crossover *)

Lemma crossover_Ok (coin : nat -> bool) (a b z : list bool) n : length a = n -> length b = n -> length z = n ->
  exists z', foldM (fun z i => c <- (if coin i then vget a i else vget b i) ;; vset z i c) (seq 0 n) z = Ok z' /\
    length z' = n /\ forall i, i < n -> nth i z' false = nth i (if coin i then a else b) false.
Proof.
  intros LA LB LZ.
  destruct (foldM_upto (fun k z' => length z' = n /\ forall i, i < k -> nth i z' false = nth i (if coin i then a else b) false)
    (fun z i => c <- (if coin i then vget a i else vget b i) ;; vset z i c) n z) as (z' & E & H1 & H2).
  - split; [assumption|lia].
  - intros i z1 Hi (H1 & H2).
    assert (G : (if coin i then vget a i else vget b i) = Ok (nth i (if coin i then a else b) false)).
    { destruct (coin i); apply vget_nth; lia. }
    rewrite G. cbn [bind]. rewrite (vset_Ok z1 i) by lia. eexists. split; [reflexivity|]. split; [now rewrite length_upd|].
    intros j Hj. destruct (Nat.eq_dec j i) as [->|]; [now rewrite nth_upd_eq by lia|]. rewrite nth_upd_neq by assumption. apply H2. lia.
  - exists z'. auto.
Qed.

Lemma uniform_Ok coin x y z n : length x = n -> length y = n -> length z = n ->
  exists z', uniform_crossover coin x y z = Ok z' /\ length z' = n /\ forall i, i < n -> nth i z' false = nth i (if coin i then x else y) false.
Proof.
  intros LX LY LZ. unfold uniform_crossover. rewrite LX, LY, LZ, Nat.eqb_refl. cbn [assertb bind]. now apply crossover_Ok.
Qed.

Lemma biased_Ok coin x y z n : length x = n -> length y = n -> length z = n ->
  exists z', biased_crossover coin x y z = Ok z' /\ length z' = n /\ forall i, i < n -> nth i z' false = nth i (if coin i then y else x) false.
Proof.
  intros LX LY LZ. unfold biased_crossover. rewrite LX, LY, LZ, Nat.eqb_refl. cbn [assertb bind]. now apply crossover_Ok.
Qed.

(** * Best vectors of a growing list *)

Lemma best_of_length {mu kept pool} : best_of mu kept pool -> mu <= length pool.
Proof. intros (L & rest & P & _). apply Permutation_length in P. rewrite app_length in P. lia. Qed.

Lemma count_filter {A} (f : A -> bool) l l' : Permutation l l' -> length (filter f l) = length (filter f l').
Proof.
  induction 1; cbn; auto.
  - destruct (f x); cbn; auto.
  - destruct (f x), (f y); reflexivity.
  - congruence.
Qed.

Lemma filter_nil {A} (f : A -> bool) l : (forall a, In a l -> f a = false) -> filter f l = [].
Proof. induction l as [|a l IH]; cbn; intros H; [reflexivity|]. rewrite H by auto. apply IH. auto. Qed.

Lemma filter_le {A} (f : A -> bool) l : length (filter f l) <= length l.
Proof. induction l as [|a l IH]; cbn; [lia|]. destruct (f a); cbn; lia. Qed.

Lemma filter_strict {A} (f : A -> bool) l a : In a l -> f a = false -> length (filter f l) < length l.
Proof.
  induction l as [|b l IH]; cbn; [contradiction|]. intros [->|H] E.
  - rewrite E. pose proof (filter_le f l). lia.
  - specialize (IH H E). destruct (f b); cbn; lia.
Qed.

(** Keeping the best of what was kept and of what comes keeps the best of all *)
Lemma best_of_more mu kept kept' all new : best_of mu kept all -> best_of mu kept' (kept ++ new) -> best_of mu kept' (all ++ new).
Proof.
  intros (L1 & rest & P1 & B1) (L2 & drop & P2 & B2). split; [assumption|]. exists (drop ++ rest). split.
  - eapply Permutation_trans; [apply Permutation_app_tail; exact P1|]. rewrite <- app_assoc.
    eapply Permutation_trans; [apply Permutation_app_head, Permutation_app_comm|]. rewrite app_assoc.
    eapply Permutation_trans; [apply Permutation_app_tail; exact P2|]. now rewrite app_assoc.
  - intros a b Ha Hb. apply in_app_or in Hb as [Hb|Hb]; [auto|].
    destruct (Z.le_gt_cases (snd b) (snd a)) as [|C]; [assumption|exfalso].
    set (f := fun c : list bool * Z => (snd b <=? snd c)%Z).
    pose proof (count_filter f _ _ P2) as N. rewrite !filter_app, !app_length in N.
    assert (F1 : filter f kept = kept). { apply filter_all, Forall_forall. intros c Hc. apply Z.leb_le. auto. }
    assert (F2 : filter f drop = []). { apply filter_nil. intros c Hc. apply Z.leb_gt. specialize (B2 a c Ha Hc). lia. }
    assert (F3 : length (filter f kept') < length kept'). { apply (filter_strict f _ a Ha). apply Z.leb_gt. lia. }
    rewrite F1, F2 in N. cbn [length] in N. lia.
Qed.

Lemma best_of_perm mu kept l l' : Permutation l l' -> best_of mu kept l -> best_of mu kept l'.
Proof. intros P (L & rest & P1 & B). split; [assumption|]. exists rest. split; [|assumption]. now rewrite <- P. Qed.

Lemma valued_app o a b : valued o (a ++ b) = valued o a ++ valued o b.
Proof. apply map_app. Qed.

Lemma evaluated_individuals o p : evaluated o p -> individuals p = valued o (p_bvs p).
Proof.
  unfold evaluated, individuals, valued. intros ->. induction (p_bvs p) as [|a l IH]; cbn; [reflexivity|]. now rewrite IH.
Qed.

Lemma valued_evaluated o p : length (p_bvs p) = length (p_values p) -> (forall a, In a (individuals p) -> snd a = o_value o (fst a)) -> evaluated o p.
Proof.
  unfold evaluated, individuals. generalize (p_bvs p) (p_values p). induction l as [|a l IH]; intros [|v vs] L H; cbn in *; try discriminate; [reflexivity|].
  f_equal; [exact (H (a, v) (or_introl eq_refl))|]. apply IH; [lia|]. intros b Hb. apply H. auto.
Qed.

Lemma in_valued o L a : In a (valued o L) -> In (fst a) L /\ snd a = o_value o (fst a).
Proof. intros H. apply in_map_iff in H as (x & <- & Hx). auto. Qed.

(** The first individual of a population kept by a selection *)
Lemma first_best_Ok size n p : well_formed size n p -> p_perm p = seq 0 size -> non_increasing (individuals p) ->
  exists b v, best_bv p 0 = Ok b /\ best_value p 0 = Ok v /\ In (b, v) (individuals p) /\ length b = n /\ forall c, In c (individuals p) -> (snd c <= v)%Z.
Proof.
  intros W P N. pose proof W as (W1 & W2 & W3 & W4 & W5 & W6). unfold best_bv, best_value. rewrite !(best_index_Ok W) by lia. rewrite P.
  destruct size as [|size]; [lia|]. cbn [seq nth bind]. rewrite (vget_nth (p_bvs p) 0 []), (vget_nth (p_values p) 0 0%Z) by lia.
  exists (nth 0 (p_bvs p) []), (nth 0 (p_values p) 0%Z). split; [reflexivity|]. split; [reflexivity|].
  pose proof (individuals_seq _ _ _ W) as I. cbn [seq map] in I. unfold at_index at 1 in I. rewrite I.
  split; [left; reflexivity|]. split; [apply (Forall_nth_len W4); lia|].
  intros c [<-|Hc]; [cbn; lia|]. apply In_nth_error in Hc as (j & Hj).
  rewrite I in N. exact (N 0 (S j) _ c ltac:(lia) eq_refl Hj).
Qed.

(** * Runs that start by the evaluation of a population *)

Lemma run_early {X} o lag (J K P0 : alg X -> Prop) (init : act (alg X) unit) iterate num fuel s :
  0 < lag ->
  wp init (fun _ s' => top_of o (a_trace s') (a_sol s') /\ J (put_last false s'))
    (fun e s' => exists e', e = Some e' /\ o_stop o (length (a_trace s')) = Some e' /\ P0 s') s ->
  (forall s, J s -> K s) ->
  (forall i s, J s -> top_of o (a_trace s) (a_sol s) -> a_last s = false ->
     wp (iterate i) (fun _ s' => top_of o (a_trace s') (a_sol s') /\ J s') (left_at o lag K) s) ->
  let '(r, s') := loop init iterate num fuel s in
  (exists e, r = Exc e /\ o_stop o (length (a_trace s')) = Some e /\ P0 s') \/
  (run_top o lag r s' /\ K s' /\ (forall u, r = Ret u -> J s' /\ (a_last s' = true \/ (0 < num)%Z))).
Proof.
  intros HL HI JK HS.
  assert (W : wp (loop init iterate num fuel)
    (fun _ s' => (top_of o (a_trace s') (a_sol s') /\ J s') /\ (a_last s' = true \/ (0 < num)%Z))
    (fun e s' => (exists e', e = Some e' /\ o_stop o (length (a_trace s')) = Some e' /\ P0 s') \/ left_at o lag K e s') s).
  { unfold loop. apply wp_bind. eapply wp_mono; [exact HI| |].
    2:{ intros e s' H. left. exact H. }
    cbn beta. intros _ s1 (T1 & J1). apply wp_bind, wp_modify.
    eapply wp_mono; [apply (loop_from_wp iterate (fun _ s => top_of o (a_trace s) (a_sol s) /\ J s) (left_at o lag K))| |].
    - intros i s2 (H1 & H2) LA. apply HS; auto.
    - intros i s2 (H1 & H2). split; [now apply lagging_top|]. split; [auto|exact I].
    - split; assumption.
    - cbn. intros _ s2 (k & H & H2). split; [exact H|]. destruct H2; [auto|right; lia].
    - intros e s2 H. right. exact H. }
  apply wp_result in W. destruct (loop init iterate num fuel s) as [[u|e| |] s']; cbn [run_top].
  - destruct W as ((W1 & W2) & W3). right. auto.
  - destruct W as [(e' & W1 & W2 & W3)|(W1 & W2 & W3)].
    + left. apply Some_inj in W1. subst. eauto.
    + right. split; [auto|]. split; [assumption|discriminate].
  - contradiction.
  - destruct W as [(e' & W1 & _)|(W1 & W2 & _)]; [discriminate|]. right. split; [assumption|]. split; [assumption|discriminate].
Qed.

(** * Reproduction *)

Definition standard (h : nh) : Prop := exists rejection allow, nh_class h = StandardBitMutation rejection allow.

Lemma standard_bounds n h d : standard h -> in_bounds (StandardBitMutation false false) n d -> in_bounds (nh_class h) n d.
Proof. intros (a & b & ->) H. exact H. Qed.

Lemma put_offs_get {Y} (m : ea Y) : put_offs (ea_offs m) m = m.
Proof. now destruct m. Qed.
Lemma put_parents_get {Y} (m : ea Y) : put_parents (ea_parents m) m = m.
Proof. now destruct m. Qed.

Section Reproduction.
  Context {Y : Type} (o : objective) (n mu lambda : nat).
  Variable extra : Y -> Prop.
  Variable source : nat -> list (list bool) -> list bool -> Prop.

  (** Offsprings made from [s0], the first [k] being complete *)
  Definition stage (s0 : alg (ea Y)) (k : nat) (s : alg (ea Y)) : Prop :=
    exists bs h y,
      s = mk_alg (a_trace s0) (a_sol s0) (a_last s0)
        (mk_ea (ea_parents (a_mem s0)) (mk_pop bs (p_values (ea_offs (a_mem s0))) (p_perm (ea_offs (a_mem s0)))) h y) /\
      length bs = lambda /\ Forall (fun x => length x = n) bs /\
      nh_reachable n h Settled /\ nh_class h = nh_class (ea_mut (a_mem s0)) /\ extra y /\
      forall j, j < k -> exists x, source j (p_bvs (ea_parents (a_mem s0))) x /\ mutant (nh_class (ea_mut (a_mem s0))) n x (nth j bs []).

  (** The choice of what is mutated *)
  Definition chooses (choose : nat -> act (alg (ea Y)) unit) (s0 : alg (ea Y)) : Prop :=
    forall k bs h y, k < lambda -> length bs = lambda -> Forall (fun x => length x = n) bs -> extra y ->
    wp (choose k) (fun _ s' => exists x y', source k (p_bvs (ea_parents (a_mem s0))) x /\ length x = n /\ extra y' /\
        s' = mk_alg (a_trace s0) (a_sol s0) (a_last s0)
          (mk_ea (ea_parents (a_mem s0)) (mk_pop (upd bs k x) (p_values (ea_offs (a_mem s0))) (p_perm (ea_offs (a_mem s0)))) h y'))
      (fun _ _ => False)
      (mk_alg (a_trace s0) (a_sol s0) (a_last s0)
        (mk_ea (ea_parents (a_mem s0)) (mk_pop bs (p_values (ea_offs (a_mem s0))) (p_perm (ea_offs (a_mem s0)))) h y)).

  Definition unchanged (s0 : alg (ea Y)) (e : option exn) (s : alg (ea Y)) : Prop :=
    e = None /\ a_trace s = a_trace s0 /\ a_sol s = a_sol s0.

  Lemma set_offspring_wp k x T sol last parents bs vs pm h (y : Y) : k < length bs ->
    forall (Q : unit -> alg (ea Y) -> Prop) E, Q tt (mk_alg T sol last (mk_ea parents (mk_pop (upd bs k x) vs pm) h y)) ->
    wp (set_offspring k x) Q E (mk_alg T sol last (mk_ea parents (mk_pop bs vs pm) h y)).
  Proof.
    intros H Q E HQ. unfold set_offspring. eapply wp_on_mem; [|exact HQ]. cbn [a_mem ea_offs p_bvs p_values p_perm].
    rewrite (vset_Ok bs k) by assumption. reflexivity.
  Qed.

  Lemma mutate_offspring_wp k d T sol last parents bs vs pm h (y : Y) : k < length bs -> length (nth k bs []) = n ->
    nh_reachable n h Settled -> in_bounds (nh_class h) n d ->
    wp (mutate_offspring k d)
      (fun _ s' => exists h' z, s' = mk_alg T sol last (mk_ea parents (mk_pop (upd bs k z) vs pm) h' y) /\ nh_reachable n h' Settled /\
         nh_class h' = nh_class h /\ mutant (nh_class h) n (nth k bs []) z)
      (fun e s' => e = None /\ a_trace s' = T /\ a_sol s' = sol)
      (mk_alg T sol last (mk_ea parents (mk_pop bs vs pm) h y)).
  Proof.
    intros K L R B. destruct (reachable_inv n h _ R) as [OK _]. unfold mutate_offspring. apply wp_bind, wp_get. cbn [a_mem ea_offs ea_mut p_bvs].
    apply wp_bind. eapply wp_lift; [apply (vget_nth bs k []); assumption|].
    destruct (nh_mutate h (nth k bs []) d) as [r|] eqn:EM; [|cbn; auto].
    destruct (mutate_exact n h _ d r OK L B EM) as (l & E1 & A1 & A2 & ->). destruct (index_set_flip n _ l L A1) as (_ & F2 & _ & F4).
    apply wp_bind. eapply wp_lift; [reflexivity|]. cbn [fst snd]. apply wp_bind, set_offspring_wp; [assumption|]. apply wp_modify.
    exists (mk_nh (nh_class h) (nh_origin h) (nh_candidate h) l), (flips (nth k bs []) l). split; [reflexivity|].
    split; [exact (reach_mutate n h _ d _ _ R B EM)|]. split; [reflexivity|]. split; [assumption|]. rewrite F2. exact A2.
  Qed.

  Lemma reproduce_wp choose d (s0 : alg (ea Y)) :
    well_formed lambda n (ea_offs (a_mem s0)) -> nh_reachable n (ea_mut (a_mem s0)) Settled -> standard (ea_mut (a_mem s0)) -> extra (ea_extra (a_mem s0)) ->
    chooses choose s0 -> (forall k, in_bounds (StandardBitMutation false false) n (d k)) ->
    wp (afor (fun k => _ <~ choose k ;; mutate_offspring k (d k)) (seq 0 lambda)) (fun _ s => stage s0 lambda s) (unchanged s0) s0.
  Proof.
    intros (W1 & W2 & W3 & W4 & W5 & W6) R ST EX CH D.
    eapply wp_mono; [apply (wp_afor _ (stage s0) (unchanged s0) lambda 0 s0)| |auto].
    - exists (p_bvs (ea_offs (a_mem s0))), (ea_mut (a_mem s0)), (ea_extra (a_mem s0)). split; [|repeat split; auto; lia].
      destruct s0 as [T sol last [pa [bs vs pm] h y]]. reflexivity.
    - intros k s Hk (bs & h & y & -> & L1 & L2 & L3 & L4 & L5 & L6). apply wp_bind.
      eapply wp_mono; [apply (CH k bs h y); auto; lia| |contradiction].
      cbn beta. intros _ s1 (x & y' & X1 & X2 & X3 & ->).
      assert (NX : nth k (upd bs k x) [] = x) by (apply nth_upd_eq; lia).
      eapply wp_mono; [apply (mutate_offspring_wp k (d k)); [rewrite length_upd; lia|now rewrite NX|assumption|]| |].
      + apply standard_bounds; [|apply D]. unfold standard. rewrite L4. exact ST.
      + cbn beta. rewrite NX. intros _ s2 (h' & z & -> & H1 & H2 & H3). exists (upd (upd bs k x) k z), h', y'. split; [reflexivity|].
        split; [now rewrite !length_upd|]. split; [|split; [assumption|split; [congruence|split; [assumption|]]]].
        * apply Forall_upd; [apply Forall_upd; assumption|apply H3].
        * intros j Hj. destruct (Nat.eq_dec j k) as [->|NE].
          -- exists x. split; [assumption|]. rewrite nth_upd_eq by (rewrite length_upd; lia). rewrite <- L4. exact H3.
          -- rewrite !nth_upd_neq by assumption. apply L6. lia.
      + intros e s2 (E1 & E2 & E3). repeat split; assumption.
    - cbn. auto.
  Qed.
End Reproduction.

(** * Generations *)

Lemma update_first_wp {X} (get : X -> population) o size n (s : alg X) : let p := get (a_mem s) in
  well_formed size n p -> p_perm p = seq 0 size -> non_increasing (individuals p) ->
  (forall a, In a (individuals p) -> snd a = o_value o (fst a)) ->
  forall (Q : unit -> alg X -> Prop) E,
  (forall b, In (b, o_value o b) (individuals p) -> length b = n -> (forall c, In c (individuals p) -> (snd c <= o_value o b)%Z) ->
     Q tt (put_sol (if (snd (a_sol s) <? o_value o b)%Z then (b, o_value o b) else a_sol s) s)) ->
  wp (update_with_best get) Q E s.
Proof.
  intros p W P N V Q E H. destruct (first_best_Ok size n p W P N) as (b & v & B1 & B2 & B3 & B4 & B5).
  assert (v = o_value o b) as -> by exact (V _ B3). unfold update_with_best. apply wp_bind, wp_get. fold p.
  apply wp_bind. eapply wp_lift; [exact B1|]. apply wp_bind. eapply wp_lift; [exact B2|].
  unfold wp, update_solution. specialize (H b B3 B4 B5). destruct (snd (a_sol s) <? o_value o b)%Z; [exact H|]. now destruct s.
Qed.

Lemma best_of_in {mu kept pool a} : best_of mu kept pool -> In a kept -> In a pool.
Proof. intros (_ & rest & P & _) H. apply (Permutation_in a (Permutation_sym P)). apply in_or_app. auto. Qed.

Lemma best_of_max mu kept pool v : best_of mu kept pool -> 0 < mu -> (forall a, In a kept -> (snd a <= v)%Z) -> forall a, In a pool -> (snd a <= v)%Z.
Proof.
  intros (L & rest & P & B) M H a Ha. apply (Permutation_in a P) in Ha. apply in_app_or in Ha as [Ha|Ha]; [auto|].
  destruct kept as [|k kept]; [cbn in L; lia|]. specialize (B k a (or_introl eq_refl) Ha). specialize (H k (or_introl eq_refl)). lia.
Qed.

Section Generations.
  Context {Y : Type} (o : objective) (n mu lambda : nat).
  Variable extra : Y -> Prop.
  Variable source : nat -> list (list bool) -> list bool -> Prop.
  Variable candidates : list (list bool * Z) -> list (list bool * Z) -> list (list bool * Z).

  (** A selection that replaces parents *)
  Definition replaces (replace : act (alg (ea Y)) unit) : Prop :=
    forall s : alg (ea Y), well_formed mu n (ea_parents (a_mem s)) -> well_formed lambda n (ea_offs (a_mem s)) -> extra (ea_extra (a_mem s)) ->
    wp replace (fun _ s' => exists ps os y, s' = put_mem (mk_ea ps os (ea_mut (a_mem s)) y) s /\
        well_formed mu n ps /\ well_formed lambda n os /\ extra y /\ p_perm ps = seq 0 mu /\
        best_of mu (individuals ps) (candidates (individuals (ea_parents (a_mem s))) (individuals (ea_offs (a_mem s)))) /\
        non_increasing (individuals ps)) (fun _ _ => False) s.

  Lemma generation_wp (reproduce replace : act (alg (ea Y)) unit) (s0 : alg (ea Y)) :
    between mu lambda n extra s0 ->
    (forall L a, In a (candidates (individuals (ea_parents (a_mem s0))) (valued o L)) -> snd a = o_value o (fst a) /\ In (fst a) (a_trace s0 ++ L)) ->
    (forall l a, In a l -> In a (candidates (individuals (ea_parents (a_mem s0))) l)) ->
    top_of o (a_trace s0) (a_sol s0) ->
    wp reproduce (fun _ s => stage n lambda extra source s0 lambda s) (unchanged s0) s0 ->
    replaces replace ->
    wp (_ <~ reproduce ;; _ <~ eval_pop ea_offs put_offs o ;; _ <~ replace ;; update_with_best ea_parents)
      (fun _ s => between mu lambda n extra s /\ generation (nh_class (ea_mut (a_mem s0))) source candidates o n mu lambda s0 s /\
         nh_class (ea_mut (a_mem s)) = nh_class (ea_mut (a_mem s0)) /\
         top_of o (a_trace s) (a_sol s) /\ a_last s = a_last s0)
      (fun e s => (exists post, a_trace s = a_trace s0 ++ post /\ length post < lambda) /\ a_sol s = a_sol s0 /\
         match e with Some e => o_stop o (length (a_trace s)) = Some e | None => True end) s0.
  Proof.
    intros (B1 & B2 & B3 & B4 & B5) CS CI TO RP RE. apply wp_bind.
    pose proof B2 as (W1 & W2 & W3 & W4 & W5 & W6).
    eapply wp_mono; [exact RP| |].
    2:{ intros e s (-> & E2 & E3). split; [exists []; rewrite app_nil_r; auto|]. auto. }
    cbn beta. intros _ s1 (bs & h & y & -> & L1 & L2 & L3 & L4 & L5 & L6). apply wp_bind.
    eapply wp_mono; [apply (eval_pop_wp ea_offs put_offs ltac:(reflexivity) ltac:(reflexivity) put_offs_get o lambda n)| |].
    { cbn [a_mem ea_offs]. unfold well_formed. cbn [p_bvs p_values p_perm]. auto 10. }
    2:{ cbn beta. cbn [a_mem ea_offs p_bvs p_perm a_trace a_sol a_last]. intros e s2 (k & vs & e' & K & LV & -> & E & ->). cbn [a_trace a_sol]. split.
        - exists (firstn k bs). split; [reflexivity|]. rewrite firstn_length. lia.
        - split; [reflexivity|]. rewrite app_length, firstn_length_le by lia. exact E. }
    cbn beta. cbn [a_mem ea_offs p_bvs p_perm a_trace a_sol a_last]. intros _ s2 ->. unfold put_offs. cbn [ea_parents ea_mut ea_extra].
    assert (WO : well_formed lambda n (mk_pop bs (map (o_value o) bs) (p_perm (ea_offs (a_mem s0))))).
    { unfold well_formed. cbn [p_bvs p_values p_perm]. rewrite map_length. auto 10. }
    assert (IO : individuals (mk_pop bs (map (o_value o) bs) (p_perm (ea_offs (a_mem s0)))) = valued o bs) by (apply evaluated_individuals; reflexivity).
    apply wp_bind. eapply wp_mono; [apply RE; cbn [a_mem ea_parents ea_offs ea_extra]; auto| |contradiction].
    cbn beta. cbn [a_mem ea_parents ea_offs ea_mut ea_extra]. intros _ s3 (ps & os & y' & -> & WP' & WO' & EX' & PP & BO & NI). rewrite IO in BO.
    assert (V : forall a, In a (individuals ps) -> snd a = o_value o (fst a) /\ In (fst a) (a_trace s0 ++ bs)).
    { intros a Ha. apply (CS bs). exact (best_of_in BO Ha). }
    eapply (update_first_wp ea_parents o mu n); cbn [put_mem a_mem ea_parents]; auto.
    { intros a Ha. apply (V a Ha). }
    intros b I1 I2 I3. cbn [put_sol put_mem a_mem a_sol a_trace a_last ea_parents ea_offs ea_mut ea_extra].
    assert (MX : forall z, In z bs -> (o_value o z <= o_value o b)%Z).
    { intros z Hz. refine (best_of_max mu _ _ (o_value o b) BO ltac:(apply WP') I3 (z, o_value o z) _). apply CI. apply in_map_iff. eauto. }
    split; [|split; [|split; [|split]]].
    - unfold between. cbn [a_mem ea_parents ea_offs ea_mut ea_extra]. split; [assumption|]. split; [assumption|]. split; [assumption|]. split; [|assumption].
      destruct B4 as (ra & rb & B4). exists ra, rb. rewrite <- B4. exact L4.
    - exists bs. split; [assumption|]. split; [|split; [reflexivity|split; assumption]].
      exact L6.
    - exact L4.
    - cbn [a_sol a_trace]. destruct (V _ I1) as [_ I4]. cbn [fst] in I4. destruct TO as (T1 & T2 & T3). destruct (Z.ltb_spec (snd (a_sol s0)) (o_value o b)).
      + split; [exact I4|]. split; [reflexivity|]. cbn [fst snd]. intros z Hz. apply in_app_or in Hz as [Hz|Hz]; [|auto]. specialize (T3 z Hz). lia.
      + apply top_of_same; [split; auto|]. intros z Hz. specialize (MX z Hz). lia.
    - reflexivity.
  Qed.
End Generations.

(** * Choices, replacements and starts *)

Section Choices.
  Context {Y : Type} (n mu lambda : nat) (extra : Y -> Prop).

  Lemma copy_chooses pick (s0 : alg (ea Y)) : well_formed mu n (ea_parents (a_mem s0)) -> fair_picks pick ->
    chooses n lambda extra (drawn_parent pick) (fun k => copy_parent k (pick k 0 (mu - 1))) s0.
  Proof.
    intros (W1 & W2 & W3 & W4 & _) F k bs h y Hk Lb Fb EX. unfold copy_parent. apply wp_bind, wp_get. cbn [a_mem ea_parents].
    specialize (F k 0 (mu - 1) ltac:(lia)). apply wp_bind. eapply wp_lift; [apply (vget_nth _ _ []); lia|].
    apply set_offspring_wp; [lia|]. eexists _, y. split; [|split; [|split; [exact EX|reflexivity]]].
    - unfold drawn_parent. rewrite W3. apply nth_error_nth'. lia.
    - apply (Forall_nth_len W4). lia.
  Qed.

  Lemma comma_replaces sh psrt : shuffles sh -> partially_sorts psrt -> mu <= lambda ->
    replaces n mu lambda extra (fun _ b => b) (comma_replace sh psrt).
  Proof.
    intros H1 H2 H3 s WP WO EX. destruct (comma_select_Ok sh psrt mu lambda n _ _ H1 H2 WP WO H3) as (ps & os & E & A1 & A2 & A3 & A4 & A5).
    unfold comma_replace. eapply wp_on_mem; [rewrite E; reflexivity|]. exists ps, os, (ea_extra (a_mem s)). auto 10.
  Qed.

  (** The evaluation of a random population of parents *)
  Lemma pop_random_wf size m bits p : well_formed size m p -> well_formed size m (pop_random bits p).
  Proof.
    intros (W1 & W2 & W3 & W4 & W5 & W6). unfold well_formed, pop_random, pop_size. cbn [p_bvs p_values p_perm].
    rewrite map_length, seq_length. repeat split; auto. apply Forall_forall. intros x Hx. apply in_map_iff in Hx as (i & <- & Hi). apply in_seq in Hi.
    rewrite length_bv_random. apply (Forall_nth_len W4). lia.
  Qed.

  Lemma start_parents_wp o bits sh srt (s : alg (ea Y)) : shuffles sh -> sorts srt -> well_formed mu n (ea_parents (a_mem s)) -> a_trace s = [] ->
    wp (start_parents o bits sh srt)
      (fun _ s' => exists ps sol, s' = mk_alg (p_bvs ps) sol (a_last s) (put_parents ps (a_mem s)) /\ well_formed mu n ps /\ evaluated o ps /\ top_of o (p_bvs ps) sol)
      (fun e s' => exists e', e = Some e' /\ o_stop o (length (a_trace s')) = Some e' /\ length (a_trace s') < mu /\ a_sol s' = a_sol s) s.
  Proof.
    intros HS HR W T. unfold start_parents. apply wp_bind. unfold random_parents. apply wp_modify.
    apply wp_bind. eapply wp_mono; [apply (eval_pop_wp ea_parents put_parents ltac:(reflexivity) ltac:(reflexivity) put_parents_get o mu n)| |].
    { cbn [put_mem a_mem put_parents ea_parents]. apply pop_random_wf. exact W. }
    2:{ cbn beta. cbn [put_mem a_mem put_parents ea_parents a_trace a_sol a_last]. rewrite T. intros e s2 (k & vs & e' & K & LV & -> & E & ->). cbn [a_trace a_sol app].
        exists e'. split; [reflexivity|]. cbn [length Nat.add] in E. pose proof (pop_random_wf _ _ bits _ W) as (_ & _ & L & _). rewrite firstn_length_le by lia. auto. }
    cbn beta. cbn [put_mem a_mem put_parents ea_parents a_trace a_sol a_last]. rewrite T. cbn [app]. intros _ s2 ->.
    set (p := pop_random bits (ea_parents (a_mem s))). assert (WR : well_formed mu n p) by now apply pop_random_wf.
    set (p0 := mk_pop (p_bvs p) (map (o_value o) (p_bvs p)) (p_perm p)).
    assert (W0 : well_formed mu n p0). { destruct WR as (R1 & R2 & R3 & R4 & R5 & R6). unfold well_formed, p0. cbn [p_bvs p_values p_perm]. rewrite map_length. auto 10. }
    assert (EV : evaluated o p0) by reflexivity.
    destruct (sorted_best o sh srt mu n p0 HS HR W0 EV) as (b & B1 & B2 & B3 & BL & B4).
    apply wp_bind. unfold sort_pop, on_pop. eapply wp_on_mem; [reflexivity|]. apply wp_bind, wp_get. cbn [put_mem a_mem put_parents ea_parents ea_offs ea_mut ea_extra a_trace a_sol a_last].
    apply wp_bind. eapply wp_lift; [exact B1|]. apply wp_bind. eapply wp_lift; [exact B2|]. unfold set_solution. apply wp_modify.
    exists (pop_sort sh srt p0), (b, o_value o b). split; [reflexivity|]. split; [now apply sort_wf|]. split; [exact EV|]. split; [exact B3|]. split; [reflexivity|exact B4].
  Qed.
End Choices.

Lemma best_of_all (l : list (list bool * Z)) : best_of (length l) l l.
Proof. split; [reflexivity|]. exists []. rewrite app_nil_r. split; [reflexivity|]. contradiction. Qed.

Lemma set_mutation_between {Y} mu lambda n extra small allow (s : alg (ea Y)) (Q : unit -> alg (ea Y) -> Prop) E : between mu lambda n extra s ->
  (forall s', between mu lambda n extra s' -> a_trace s' = a_trace s -> a_sol s' = a_sol s -> a_last s' = a_last s ->
     ea_parents (a_mem s') = ea_parents (a_mem s) ->
     nh_class (ea_mut (a_mem s')) = nh_class (nh_set_allow_no_mutation (nh_set_mutation_rate (ea_mut (a_mem s)) small) allow) -> Q tt s') ->
  wp (set_mutation small allow) Q E s.
Proof.
  intros (B1 & B2 & B3 & (a & b & B4) & B5) H. unfold set_mutation. apply wp_modify. apply H; try reflexivity.
  unfold between. cbn [put_mem put_mut a_mem ea_parents ea_offs ea_mut ea_extra]. split; [assumption|]. split; [assumption|].
  split; [apply reach_allow, reach_rate; assumption|]. split; [|assumption].
  unfold nh_set_allow_no_mutation, nh_set_mutation_rate. rewrite B4. cbn. eauto.
Qed.

(** * (mu+lambda) EA *)

Section Plus.
  Variable o : objective.
  Variables n mu lambda : nat.
  Variable pick : nat -> nat -> nat -> nat -> nat.
  Variable d : nat -> nat -> draws.
  Variable shs : nat -> list nat -> list nat.
  Variable psrt : nat -> (nat -> nat -> bool) -> list nat -> list nat.
  Hypothesis PK : forall t, fair_picks (pick t).
  Hypothesis DR : fair_mutations n d.
  Hypothesis SH : forall t, shuffles (shs t).
  Hypothesis PS : partially_sorts psrt.

  Definition mupl_inv (s : alg (ea population)) : Prop :=
    between mu lambda n (well_formed (mu + lambda) n) s /\ best_of mu (individuals (ea_parents (a_mem s))) (valued o (a_trace s)).

  Lemma make_offsprings_wp {Y} (extra : Y -> Prop) t (s0 : alg (ea Y)) : between mu lambda n extra s0 ->
    wp (make_offsprings (pick t) (d t)) (fun _ s => stage n lambda extra (drawn_parent (pick t)) s0 lambda s) (unchanged s0) s0.
  Proof.
    intros (B1 & B2 & B3 & B4 & B5). unfold make_offsprings. apply wp_bind, wp_get. unfold pop_size.
    assert (length (p_bvs (ea_offs (a_mem s0))) = lambda) as -> by apply B2. assert (length (p_bvs (ea_parents (a_mem s0))) = mu) as -> by apply B1.
    apply (reproduce_wp n lambda extra (drawn_parent (pick t)) (fun k => copy_parent k (pick t k 0 (mu - 1))) (d t) s0 B2 B3 B4 B5); [|apply DR].
    apply (copy_chooses n mu lambda extra (pick t)); [exact B1|apply PK].
  Qed.

  Lemma mupl_iterate_wp t (s : alg (ea population)) : mupl_inv s -> top_of o (a_trace s) (a_sol s) ->
    wp (mupl_iterate o pick d shs psrt t)
      (fun _ s' => mupl_inv s' /\ generation (nh_class (ea_mut (a_mem s))) (drawn_parent (pick t)) (fun a b => a ++ b) o n mu lambda s s' /\
         nh_class (ea_mut (a_mem s')) = nh_class (ea_mut (a_mem s)) /\ top_of o (a_trace s') (a_sol s'))
      (fun e s' => (exists post, a_trace s' = a_trace s ++ post /\ length post < lambda) /\ a_sol s' = a_sol s /\
         match e with Some e => o_stop o (length (a_trace s')) = Some e | None => True end) s.
  Proof.
    intros (BT & BO) TO. unfold mupl_iterate.
    eapply wp_mono; [refine (generation_wp o n mu lambda (well_formed (mu + lambda) n) (drawn_parent (pick t)) (fun a b => a ++ b) _ _ s BT _ _ TO _ _)| |].
    - intros L a Ha. apply in_app_or in Ha as [Ha|Ha].
      + apply (best_of_in BO) in Ha. apply in_valued in Ha as [H1 H2]. split; [assumption|]. apply in_or_app. auto.
      + apply in_valued in Ha as [H1 H2]. split; [assumption|]. apply in_or_app. auto.
    - intros l a Ha. apply in_or_app. auto.
    - now apply make_offsprings_wp.
    - intros s1 WP WO EX. destruct (plus_select_Ok (shs t) psrt mu lambda n _ _ _ (SH t) PS WP WO EX) as (ps & os & pool & E & A1 & A2 & A3 & A4 & A5 & A6).
      eapply wp_on_mem; [rewrite E; reflexivity|]. exists ps, os, pool. auto 10.
    - cbn beta. intros _ s1 (H1 & H2 & H3 & H4 & _). split; [split; [assumption|]|auto].
      destruct H2 as (L & _ & _ & G3 & G4 & _). rewrite G3, valued_app. exact (best_of_more mu _ _ _ _ BO G4).
    - auto.
  Qed.

  Lemma mupl_init_wp small allow bits sh srt (s : alg (ea population)) : shuffles sh -> sorts srt ->
    between mu lambda n (well_formed (mu + lambda) n) s -> a_trace s = [] -> a_sol s = (repeat false n, 0%Z) ->
    wp (mupl_init o small allow bits sh srt) (fun _ s' => top_of o (a_trace s') (a_sol s') /\ mupl_inv (put_last false s') /\
        nh_class (ea_mut (a_mem s')) = nh_class (nh_set_allow_no_mutation (nh_set_mutation_rate (ea_mut (a_mem s)) small) allow))
      (fun e s' => exists e', e = Some e' /\ o_stop o (length (a_trace s')) = Some e' /\ length (a_trace s') < mu /\ a_sol s' = (repeat false n, 0%Z)) s.
  Proof.
    intros HS HR BT T SOL. unfold mupl_init. apply wp_bind. apply (set_mutation_between mu lambda n (well_formed (mu + lambda) n)); [exact BT|].
    intros s1 BT1 T1 S1 _ P1 K1. eapply wp_mono; [apply (start_parents_wp n mu); [assumption|assumption|apply BT1|congruence]| |].
    - cbn beta. intros _ s2 (ps & sol & -> & W & EV & TOP). cbn [a_trace a_sol]. split; [assumption|].
      split; [|exact K1]. destruct BT1 as (_ & B2 & B3 & B4 & B5). split.
      + unfold between. cbn [put_last a_mem put_parents ea_parents ea_offs ea_mut ea_extra]. auto 10.
      + cbn [put_last a_mem put_parents ea_parents a_trace]. rewrite (evaluated_individuals o ps EV).
        assert (mu = length (valued o (p_bvs ps))) as -> by (unfold valued; rewrite map_length; symmetry; apply W). apply best_of_all.
    - cbn beta. intros e s2 (e' & E1 & E2 & E3 & E4). exists e'. rewrite E4, S1. auto.
  Qed.

  Lemma mupl_run small allow bits sh srt num fuel (s : alg (ea population)) : shuffles sh -> sorts srt ->
    between mu lambda n (well_formed (mu + lambda) n) s -> a_trace s = [] -> a_sol s = (repeat false n, 0%Z) ->
    let '(r, s') := loop (mupl_init o small allow bits sh srt) (mupl_iterate o pick d shs psrt) num fuel s in
    too_early o n mu r s' \/
    (run_top o lambda r s' /\ forall u, r = Ret u -> mupl_inv s').
  Proof.
    intros HS HR BT T SOL. assert (LB : 0 < lambda) by apply BT.
    pose proof (run_early o lambda mupl_inv (fun _ => True) (fun s' => length (a_trace s') < mu /\ a_sol s' = (repeat false n, 0%Z))
      (mupl_init o small allow bits sh srt) (mupl_iterate o pick d shs psrt) num fuel s LB) as R.
    destruct (loop _ _ _ _ _) as [r s']. match type of R with _ -> _ -> _ -> ?D => enough D as [(e & R1 & R2 & R3 & R4)|(R1 & R2 & R3)] end.
    - left. exists e. auto.
    - right. split; [assumption|]. intros u Hu. apply (R3 u Hu).
    - apply R; [| |].
      + eapply wp_mono; [now apply mupl_init_wp| |auto]. cbn beta. tauto.
      + auto.
      + intros i s1 J TO LA. eapply wp_mono; [apply (mupl_iterate_wp i s1 J TO)| |].
        * cbn beta. tauto.
        * cbn beta. intros e s2 ((post & E1 & E2) & E3 & E4). split; [|split; [exact I|assumption]].
          exists (a_trace s1), post. rewrite E3. auto.
  Qed.
End Plus.

(** * (mu,lambda) EA *)

Section Comma.
  Variable o : objective.
  Variables n mu lambda : nat.
  Variable pick : nat -> nat -> nat -> nat -> nat.
  Variable d : nat -> nat -> draws.
  Variable shs : nat -> list nat -> list nat.
  Variable psrt : nat -> (nat -> nat -> bool) -> list nat -> list nat.
  Hypothesis PK : forall t, fair_picks (pick t).
  Hypothesis DR : fair_mutations n d.
  Hypothesis SH : forall t, shuffles (shs t).
  Hypothesis PS : partially_sorts psrt.
  Hypothesis LE : mu <= lambda.
  Notation inv := (between mu lambda n (fun _ : unit => True)).

  Lemma mucl_iterate_wp t (s : alg (ea unit)) : inv s -> top_of o (a_trace s) (a_sol s) ->
    wp (mucl_iterate o pick d shs psrt t)
      (fun _ s' => inv s' /\ generation (nh_class (ea_mut (a_mem s))) (drawn_parent (pick t)) (fun _ b => b) o n mu lambda s s' /\
         nh_class (ea_mut (a_mem s')) = nh_class (ea_mut (a_mem s)) /\ top_of o (a_trace s') (a_sol s'))
      (fun e s' => (exists post, a_trace s' = a_trace s ++ post /\ length post < lambda) /\ a_sol s' = a_sol s /\
         match e with Some e => o_stop o (length (a_trace s')) = Some e | None => True end) s.
  Proof.
    intros BT TO. unfold mucl_iterate.
    eapply wp_mono; [refine (generation_wp o n mu lambda (fun _ => True) (drawn_parent (pick t)) (fun _ b => b) _ _ s BT _ _ TO _ _)| |].
    - intros L a Ha. apply in_valued in Ha as [H1 H2]. split; [assumption|]. apply in_or_app. auto.
    - auto.
    - now apply (make_offsprings_wp n mu lambda pick d PK DR).
    - now apply comma_replaces.
    - cbn beta. intros _ s1 (H1 & H2 & H3 & H4 & _). auto.
    - auto.
  Qed.

  Lemma mucl_init_wp small allow bits bit (s : alg (ea unit)) : inv s -> a_trace s = [] -> length (fst (a_sol s)) = n ->
    wp (mucl_init o small allow bits bit) (fun _ s' => top_of o (a_trace s') (a_sol s') /\ inv (put_last false s') /\
        nh_class (ea_mut (a_mem s')) = nh_class (nh_set_allow_no_mutation (nh_set_mutation_rate (ea_mut (a_mem s)) small) allow))
      (fun e s' => (exists e', e = Some e' /\ o_stop o (length (a_trace s')) = Some e') /\ (a_trace s' = [] \/ lagging o lambda s' /\ True)) s.
  Proof.
    intros BT T SOL. unfold mucl_init. apply wp_bind. apply (set_mutation_between mu lambda n (fun _ : unit => True)); [exact BT|].
    intros s1 (B1 & B2 & B3 & B4 & B5) T1 S1 _ _ K1. apply wp_bind. unfold random_parents. apply wp_modify.
    eapply wp_mono; [apply (random_solution_wp o n bit)| |].
    - cbn. congruence.
    - cbn. congruence.
    - cbn beta. intros _ s2 (H1 & H2 & H3 & H4). split; [assumption|]. rewrite H4. split; [|exact K1]. unfold between. cbn [put_last a_mem]. rewrite H4.
      cbn [put_mem a_mem put_parents ea_parents ea_offs ea_mut ea_extra]. split; [now apply pop_random_wf|auto].
    - cbn beta. intros e s2 (E1 & E2). auto.
  Qed.

  Lemma mucl_run small allow bits bit num fuel (s : alg (ea unit)) :
    inv s -> a_trace s = [] -> length (fst (a_sol s)) = n ->
    let '(r, s') := loop (mucl_init o small allow bits bit) (mucl_iterate o pick d shs psrt) num fuel s in
    run_top o lambda r s'.
  Proof.
    intros BT T SOL. assert (LB : 0 < lambda) by apply BT.
    pose proof (run_generic o lambda inv (fun _ => True) (mucl_init o small allow bits bit) (mucl_iterate o pick d shs psrt) num fuel s LB) as R.
    destruct (loop _ _ _ _ _) as [r s']. match type of R with _ -> _ -> _ -> ?D => enough D as (R1 & _) by assumption; apply R end.
    - eapply wp_mono; [now apply mucl_init_wp| |auto]. cbn beta. tauto.
    - auto.
    - intros i s1 J TO LA. eapply wp_mono; [apply (mucl_iterate_wp i s1 J TO)| |].
      + cbn beta. tauto.
      + cbn beta. intros e s2 ((post & E1 & E2) & E3 & E4). split; [|split; [exact I|assumption]].
        exists (a_trace s1), post. rewrite E3. auto.
  Qed.
End Comma.

(** * Genetic algorithm *)

Lemma greater_order : strict_weak_order (fun v w : Z => (w <? v)%Z).
Proof.
  split; [|split].
  - intros a. apply Z.ltb_irrefl.
  - intros a b c H1 H2. apply Z.ltb_lt in H1, H2. apply Z.ltb_lt. lia.
  - intros a b c H1 H2. apply Z.ltb_ge in H1, H2. apply Z.ltb_ge. lia.
Qed.

Section Genetic.
  Variable o : objective.
  Variables n mu : nat.
  Variable cross : nat -> nat -> bool.
  Variable coin : nat -> nat -> nat -> bool.
  Variables sh1 sh2 : nat -> nat -> list nat -> list nat.
  Variable d : nat -> nat -> draws.
  Variable shs : nat -> list nat -> list nat.
  Variable psrt : nat -> (nat -> nat -> bool) -> list nat -> list nat.
  Hypothesis SH1 : forall t k, shuffles (sh1 t k).
  Hypothesis SH2 : forall t k, shuffles (sh2 t k).
  Hypothesis DR : fair_mutations n d.
  Hypothesis SH : forall t, shuffles (shs t).
  Hypothesis PS : partially_sorts psrt.
  Notation inv := (between mu mu n (in_round mu)).

  Lemma select_parent_wp sh (s : alg (ea tournament)) : shuffles sh -> well_formed mu n (ea_parents (a_mem s)) -> in_round mu (ea_extra (a_mem s)) ->
    forall (Q : bv -> alg (ea tournament) -> Prop) E,
    (forall b t, In b (p_bvs (ea_parents (a_mem s))) -> in_round mu t -> Q b (put_mem (put_extra t (a_mem s)) s)) -> wp (select_parent sh) Q E s.
  Proof.
    intros HS (W1 & W2 & W3 & W4 & W5 & W6) R Q E H. unfold select_parent.
    destruct (select_Ok (fun v w => (w <? v)%Z) (p_bvs (ea_parents (a_mem s))) (p_values (ea_parents (a_mem s))) mu greater_order W3 W5 _ R) as (w & Hw & _ & SEL).
    destruct (SEL sh HS) as (t' & E1 & R' & _). eapply wp_on_mem; [rewrite E1; reflexivity|]. apply H; [|assumption].
    apply nth_In. rewrite W3. apply perm_seq_nth; [apply R'|]. destruct R as (_ & _ & R & _). lia.
  Qed.

  Lemma ga_chooses t (s0 : alg (ea tournament)) : well_formed mu n (ea_parents (a_mem s0)) ->
    chooses n mu (in_round mu) (mixed_source n (cross t))
      (fun k => if cross t k then
          x <~ select_parent (sh1 t k) ;;
          y <~ select_parent (sh2 t k) ;;
          p <~ aget (fun s => ea_offs (a_mem s)) ;;
          z <~ lift (vget (p_bvs p) k) ;;
          z <~ lift (uniform_crossover (coin t k) x y z) ;;
          set_offspring k z
        else
          x <~ select_parent (sh1 t k) ;;
          set_offspring k x) s0.
  Proof.
    intros W k bs h y Hk Lb Fb EX. pose proof W as (_ & _ & _ & W4 & _). unfold mixed_source.
    destruct (cross t k).
    - apply wp_bind, select_parent_wp; [apply SH1|exact W|exact EX|]. cbn [a_mem ea_parents put_mem put_extra ea_offs ea_mut]. intros b1 t1 I1 R1.
      apply wp_bind, select_parent_wp; [apply SH2|exact W|exact R1|]. cbn [a_mem ea_parents put_mem put_extra ea_offs ea_mut a_trace a_sol a_last]. intros b2 t2 I2 R2.
      apply wp_bind, wp_get. cbn [a_mem ea_offs p_bvs]. apply wp_bind. eapply wp_lift; [apply (vget_nth bs k []); lia|].
      pose proof (proj1 (Forall_forall _ _) W4) as LN.
      destruct (uniform_Ok (coin t k) b1 b2 (nth k bs []) n (LN _ I1) (LN _ I2)) as (z & EZ & LZ & NZ). { apply (Forall_nth_len Fb). lia. }
      apply wp_bind. eapply wp_lift; [exact EZ|]. apply set_offspring_wp; [lia|]. exists z, t2. split; [|split; [assumption|split; [assumption|reflexivity]]].
      exists b1, b2. split; [assumption|]. split; [assumption|]. split; [assumption|]. intros i Hi. rewrite (NZ i Hi). destruct (coin t k i); auto.
    - apply wp_bind, select_parent_wp; [apply SH1|exact W|exact EX|]. cbn [a_mem ea_parents put_mem put_extra ea_offs ea_mut a_trace a_sol a_last]. intros b1 t1 I1 R1.
      pose proof (proj1 (Forall_forall _ _) W4 _ I1) as LN. cbn beta in LN.
      apply set_offspring_wp; [lia|]. exists b1, t1. split; [|split; [assumption|split; [assumption|reflexivity]]].
      assumption.
  Qed.

  Lemma ga_iterate_wp t (s : alg (ea tournament)) : inv s -> top_of o (a_trace s) (a_sol s) ->
    wp (ga_iterate o cross coin sh1 sh2 d shs psrt t)
      (fun _ s' => inv s' /\ generation (nh_class (ea_mut (a_mem s))) (mixed_source n (cross t)) (fun _ b => b) o n mu mu s s' /\
         nh_class (ea_mut (a_mem s')) = nh_class (ea_mut (a_mem s)) /\ top_of o (a_trace s') (a_sol s'))
      (fun e s' => (exists post, a_trace s' = a_trace s ++ post /\ length post < mu) /\ a_sol s' = a_sol s /\
         match e with Some e => o_stop o (length (a_trace s')) = Some e | None => True end) s.
  Proof.
    intros BT TO. unfold ga_iterate. apply wp_bind, wp_get. unfold pop_size.
    assert (length (p_bvs (ea_offs (a_mem s))) = mu) as -> by apply BT.
    eapply wp_mono; [refine (generation_wp o n mu mu (in_round mu) (mixed_source n (cross t)) (fun _ b => b) _ _ s BT _ _ TO _ _)| |].
    - intros L a Ha. apply in_valued in Ha as [H1 H2]. split; [assumption|]. apply in_or_app. auto.
    - auto.
    - destruct BT as (B1 & B2 & B3 & B4 & B5). exact (reproduce_wp n mu (in_round mu) (mixed_source n (cross t)) _ (d t) s B2 B3 B4 B5 (ga_chooses t s B1) (DR t)).
    - now apply comma_replaces.
    - cbn beta. intros _ s1 (H1 & H2 & H3 & H4 & _). auto.
    - auto.
  Qed.

  (** The tournament size is refused before anything else *)
  Lemma ga_refused tsize small allow bits sh0 sh srt num fuel (s : alg (ea tournament)) : well_formed mu n (ea_parents (a_mem s)) ->
    tsize < 2 \/ mu <= tsize ->
    loop (ga_init o tsize small allow bits sh0 sh srt) (ga_iterate o cross coin sh1 sh2 d shs psrt) num fuel s = (Exc RuntimeError, s).
  Proof.
    intros (W1 & W2 & W3 & _) H. unfold loop, ga_init, abind at 1 2 3, on_mem, set_tournament_size. rewrite W3.
    assert ((2 <=? tsize) && (tsize <? mu) = false) as ->. { apply andb_false_iff. destruct H; [left; apply Nat.leb_gt|right; apply Nat.ltb_ge]; lia. }
    reflexivity.
  Qed.

  Lemma ga_init_wp tsize small allow bits sh0 sh srt (s : alg (ea tournament)) : shuffles sh0 -> shuffles sh -> sorts srt ->
    between mu mu n (fun t => Permutation (seq 0 mu) (t_perm t)) s -> a_trace s = [] -> a_sol s = (repeat false n, 0%Z) ->
    2 <= tsize < mu ->
    wp (ga_init o tsize small allow bits sh0 sh srt) (fun _ s' => top_of o (a_trace s') (a_sol s') /\ inv (put_last false s') /\
        nh_class (ea_mut (a_mem s')) = nh_class (nh_set_allow_no_mutation (nh_set_mutation_rate (ea_mut (a_mem s)) small) allow))
      (fun e s' => exists e', e = Some e' /\ o_stop o (length (a_trace s')) = Some e' /\ length (a_trace s') < mu /\ a_sol s' = (repeat false n, 0%Z)) s.
  Proof.
    intros HS0 HS HR (B1 & B2 & B3 & B4 & B5) T SOL TS. assert (L : length (p_bvs (ea_parents (a_mem s))) = mu) by apply B1. unfold ga_init. apply wp_bind. eapply wp_on_mem.
    { unfold set_tournament_size. rewrite L, (proj2 (Nat.leb_le 2 tsize)), (proj2 (Nat.ltb_lt tsize mu)) by lia. cbn [ensureb andb bind]. reflexivity. }
    apply wp_bind. apply (set_mutation_between mu mu n (in_round mu)).
    { unfold between. cbn [put_mem a_mem put_extra ea_parents ea_offs ea_mut ea_extra]. split; [assumption|]. split; [assumption|]. split; [assumption|]. split; [assumption|].
      unfold in_round, tournament_init. cbn [t_perm t_start t_stop t_size]. repeat split; try lia. eapply Permutation_trans; [exact B5|apply HS0]. }
    cbn [put_mem a_mem put_extra ea_parents ea_offs ea_mut ea_extra a_trace a_sol a_last].
    intros s1 BT1 T1 S1 _ P1 K1. eapply wp_mono; [apply (start_parents_wp n mu); [assumption|assumption|apply BT1|congruence]| |].
    - cbn beta. intros _ s2 (ps & sol & -> & W & EV & TOP). cbn [a_trace a_sol]. split; [assumption|].
      split; [|exact K1]. destruct BT1 as (_ & C2 & C3 & C4 & C5). unfold between. cbn [put_last a_mem put_parents ea_parents ea_offs ea_mut ea_extra]. auto 10.
    - cbn beta. intros e s2 (e' & E1 & E2 & E3 & E4). exists e'. rewrite E4, S1. auto.
  Qed.

  Lemma ga_run tsize small allow bits sh0 sh srt num fuel (s : alg (ea tournament)) : shuffles sh0 -> shuffles sh -> sorts srt ->
    between mu mu n (fun t => Permutation (seq 0 mu) (t_perm t)) s -> a_trace s = [] -> a_sol s = (repeat false n, 0%Z) ->
    2 <= tsize < mu ->
    let '(r, s') := loop (ga_init o tsize small allow bits sh0 sh srt) (ga_iterate o cross coin sh1 sh2 d shs psrt) num fuel s in
    too_early o n mu r s' \/ run_top o mu r s'.
  Proof.
    intros HS0 HS HR BT T SOL TS. assert (LB : 0 < mu) by apply BT.
    pose proof (run_early o mu inv (fun _ => True) (fun s' => length (a_trace s') < mu /\ a_sol s' = (repeat false n, 0%Z))
      (ga_init o tsize small allow bits sh0 sh srt) (ga_iterate o cross coin sh1 sh2 d shs psrt) num fuel s LB) as R.
    destruct (loop _ _ _ _ _) as [r s']. match type of R with _ -> _ -> _ -> ?D => enough D as [(e & R1 & R2 & R3 & R4)|(R1 & R2 & R3)] end.
    - left. exists e. auto.
    - right. assumption.
    - apply R; [| |].
      + eapply wp_mono; [now apply ga_init_wp| |auto]. cbn beta. tauto.
      + auto.
      + intros i s1 J TO LA. eapply wp_mono; [apply (ga_iterate_wp i s1 J TO)| |].
        * cbn beta. tauto.
        * cbn beta. intros e s2 ((post & E1 & E2) & E3 & E4). split; [|split; [exact I|assumption]].
          exists (a_trace s1), post. rewrite E3. auto.
  Qed.
End Genetic.
