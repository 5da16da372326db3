(** Properties of the traveling salesman function made by the application: C130. *)

From Coq Require Import ZArith NArith QArith String Ascii Permutation Sorted.
From Verif Require Import Base BaseLemmas BitVector_Model BitVector_Spec Map_Model Map_Spec Representation_Model Representation_Spec
  Collection_Model Collection_Spec Double Controller_Model Controller_Spec Decorator_Model Decorator_Spec ControllerStack_Spec
  Application_Model Application_Spec Application_Proofs Search_Model Search_Spec Properties_Representation Properties_Decorator Properties_Application Properties_Search
  Adapter_Proofs FunctionFactory_Model FunctionFactory_Proofs FactoryAdapters_Model FactoryAdapters_Spec FactoryAdapters_Proofs CountingSearch_Proofs.
Local Close Scope Q_scope.
Local Open Scope list_scope.
Local Open Scope nat_scope.

(** * C130: traveling salesman, from the distances to what is printed *)

Section Tsp.
  Context (lg : Z -> nat) (d : list (list Z)) (additional : Z) (sh : nat -> list nat -> list nat) (srt : (nat -> nat -> bool) -> list nat -> list nat).
  Let n := List.length d.
  (** The number of bits of a key *)
  Let w := lg (Z.of_nat n) + Z.to_nat additional.
  Context (HN : 0 < n) (HD : Function_Spec.grid n n d) (HA : (0 < additional)%Z) (HW : w <= 31) (HS : forall k, shuffles (sh k)) (HR : sorts srt).

  Let wpos : 0 < w <= 31.
  Proof. unfold w. unfold w in HW. lia. Qed.

  Lemma tsp_made : tsp_function lg d additional sh srt = Ok (mk_func nat (tsp_adapter d (mk_permrep n w) sh srt) 0 (default_props (n * w) false)).
  Proof using HN HA.
    clear wpos HW HS HR HD. unfold tsp_function, permrep_make. fold n. destruct (Z.ltb_spec 0 additional); [|lia]. cbn [assertb bind]. destruct (Nat.ltb_spec 0 n); [|lia]. cbn [assertb bind].
    destruct (Nat.ltb_spec 0 (Z.to_nat additional)); [|lia]. cbn [assertb bind pr_num]. rewrite Nat.eqb_refl. reflexivity.
  Qed.

  (** The function has a key of [w] bits for each city, an unknown maximum, and no incremental
      evaluation.  The value of a vector is minus the length of a tour of the cities in the order
      of their keys; with equal keys, the tour may be another one in each evaluation. *)
  Theorem C130_value : exists F, tsp_function lg d additional sh srt = Ok F /\ fp_size (f_props F) = n * w /\ fp_known (f_props F) = Ok false /\ fp_inc (f_props F) = false /\
    forall xs, Forall (fun x => List.length x = n * w) xs ->
    exists ps, Forall2 (tour_by_keys n w) xs ps /\
      map (fun c => res c) (calls (f_obj F) (f_init F) (map REval xs)) = map (fun p => Ok (RValue (DFin (- tour_length d p)))) ps.
  Proof.
    eexists. split; [exact tsp_made|]. cbn [f_props f_obj f_init f_state]. split; [reflexivity|]. split; [reflexivity|]. split; [reflexivity|]. generalize 0.
    intros k xs. revert k. induction xs as [|x xs IH]; intros k H; [exists []; split; [constructor|reflexivity]|]. inversion H as [|? ? H1 H2]; subst.
    destruct (tsp_step d sh srt w x HN HD HS HR wpos H1 k) as (p & T & E). destruct (IH (k + 1) H2) as (ps & F & M). exists (p :: ps). split; [now constructor|].
    cbn [map calls]. fold n in E. rewrite E. cbn [map res]. now rewrite M.
  Qed.

  (** If the keys are different, then there is only one tour, and so one value. *)
  Theorem C130_distinct x p q : distinct_keys n w x -> tour_by_keys n w x p -> tour_by_keys n w x q -> p = q.
  Proof. apply sorted_by_keys. Qed.

  (** Every tour is that of some vector with different keys. *)
  Theorem C130_all_tours p : n <= 2 ^ w -> Permutation p (seq 0 n) -> exists x, List.length x = n * w /\ distinct_keys n w x /\ tour_by_keys n w x p.
  Proof. apply all_tours. Qed.

  Let h := tsp_value_at d w sh srt.
  Let h_spec k x : List.length x = n * w -> exists p, tour_by_keys n w x p /\ h k x = DFin (- tour_length d p) /\
    tsp_adapter d (mk_permrep n w) sh srt k (REval x) = (k + 1, Ok (RValue (DFin (- tour_length d p)))).
  Proof.
    intros L. destruct (tsp_step d sh srt w x HN HD HS HR wpos L k) as (p & T & E). exists p. split; [exact T|]. unfold h, tsp_value_at. now rewrite E.
  Qed.

  (** Complete search, without budget or target: the printed value is minus the length of the
      shortest tours, and one of them is in the order of the keys of the printed solution.  This
      is so although equal keys are in a random order. *)
  Theorem C130_complete_search ap co fuel : optimizes ap -> ap_restart ap = false -> co_stop_on_maximum co = false -> (co_budget co <= 0)%Z -> co_target co = None ->
    n <= 2 ^ w -> 2 ^ (n * w) < fuel ->
    exists r x p, program ap co (F <- tsp_function lg d additional sh srt ;; Ok (Some (None, F))) make_complete_search fuel = Some (report ap co None (n * w) r x false) /\
      List.length x = n * w /\ tour_by_keys n w x p /\ rs_value r = Some (DFin (- tour_length d p)) /\ shortest n d (tour_length d p).
  Proof.
    intros H1 H2 H3 H4 H5 HB HF. rewrite tsp_made. cbn [bind].
    assert (NZ : 0 < n * w) by (apply Nat.mul_pos_pos; lia).
    destruct (counting_search ap co (tsp_adapter d (mk_permrep n w) sh srt) (default_props (n * w) false) h (middle_of co) None (n * w)) as (L & HL & H); auto.
    - unfold make_function_controller, target_of. now rewrite H3, H5.
    - intros k x LX. destruct (h_spec k x LX) as (p & _ & -> & E). exact E.
    - intros k x LX. destruct (h_spec k x LX) as (p & _ & -> & _). reflexivity.
    - destruct (H fuel HF) as (r & x & success & P & _ & SE). clear H. unfold allowed in SE. destruct (Z.ltb_spec 0 (co_budget co)) as [X|_]; [lia|].
      assert (IN : forall y, List.length y = n * w -> In y (firstn (2 ^ (n * w)) L)).
      { intros y Y. pose proof (counting_nth _ _ y HL Y) as Q. assert (B : N.to_nat (value_lsb y) < 2 ^ (n * w)) by (rewrite <- Y; apply value_lsb_nat).
        now apply firstn_nth_In with (N.to_nat (value_lsb y)). }
      destruct HL as (_ & HL2 & _).
      inversion SE as [r0 k x0 _ (B1 & B2 & B3) RV _ _ |r0 t k x0 Ht]; subst; [|discriminate].
      assert (LX : List.length x = n * w).
      { apply HL2. apply nth_error_In in B1. unfold Search_Spec.valued in B1. apply in_map_iff in B1 as (y & E & Iy). injection E as -> _. rewrite <- (firstn_skipn (2 ^ (n * w)) L). apply in_or_app. now left. }
      destruct (h_spec (N.to_nat (value_lsb x)) x LX) as (p & T & V & _). exists r, x, p. split; [exact P|]. split; [exact LX|]. split; [exact T|].
      change (in_turn h x) with (h (N.to_nat (value_lsb x)) x) in *. rewrite V in *. split; [exact RV|]. split; [exists p; split; [apply T|reflexivity]|].
      intros q Hq. destruct (C130_all_tours q HB Hq) as (y & LY & D & TQ). destruct (h_spec (N.to_nat (value_lsb y)) y LY) as (q' & T' & V' & _).
      assert (q' = q) as -> by (now apply C130_distinct with y).
      apply IN, In_nth_error in LY as [j J]. assert (J' : nth_error (Search_Spec.valued (in_turn h) (firstn (2 ^ (n * w)) L)) j = Some (y, in_turn h y)).
      { unfold Search_Spec.valued. now rewrite nth_error_map, J. }
      destruct (B2 j y _ J') as [NA|LE]; change (in_turn h y) with (h (N.to_nat (value_lsb y)) y) in *; rewrite V' in *; [discriminate|].
      cbn [dle] in LE. apply Z.leb_le in LE. lia.
  Qed.

  Let evaluated xs k : Forall (fun x => List.length x = n * w) xs ->
    Forall (fun e => List.length (fst e) = n * w /\ exists p, tour_by_keys n w (fst e) p /\ snd e = DFin (- tour_length d p))
      (evaluations (calls (tsp_adapter d (mk_permrep n w) sh srt) k (map REval xs))).
  Proof.
    revert k. induction xs as [|x xs IH]; intros k H; [constructor|]. inversion H as [|? ? H1 H2]; subst. cbn [map calls].
    destruct (h_spec k x H1) as (p & T & _ & E). rewrite E. unfold evaluations. cbn [flat_map req res evaluation app]. constructor; [cbn [fst snd]; eauto|]. now apply IH.
  Qed.

  (** Whatever the algorithm, the budget, the cache and the target: as soon as there is an
      evaluation, the printed value is minus the length of a tour, in the order of the keys of a
      vector of the right size.  So, it is never better than that of the shortest tours. *)
  Theorem C130_program ap co factory A mid target fuel out e ch r : optimizes ap ->
    (F <- tsp_function lg d additional sh srt ;; make_function_controller co F) = Ok (mid, target) ->
    factory (n * w) = Ok A -> honest A -> works A (n * w) -> evaluates A ->
    program ap co (F <- tsp_function lg d additional sh srt ;; Ok (Some (None, F))) factory fuel = Some (out, e) -> In (OResults ch r) out ->
    (rs_total r = 0 /\ rs_num r = 0) \/
    exists x p, List.length x = n * w /\ tour_by_keys n w x p /\ rs_value r = Some (DFin (- tour_length d p)) /\
      forall l, shortest n d l -> (l <= tour_length d p)%Z.
  Proof.
    intros HO HC HFa HH HWk HE HP HI. rewrite tsp_made in *. cbn [bind] in *.
    set (F := mk_func nat (tsp_adapter d (mk_permrep n w) sh srt) 0 (default_props (n * w) false)) in *.
    assert (K : forall k x, calm (snd (tsp_adapter d (mk_permrep n w) sh srt k (REval x)))).
    { intros k x. cbn [tsp_adapter snd]. unfold permrep_unpack, tsp_evaluate, Collection_Model.mget, perm_is_valid.
      assert (PV : forall m e s, calm (perm_values m e x s)) by (induction m as [|m IH]; intros e0 s0; cbn [perm_values]; unfold bv_to_size_type_range; calm; apply IH).
      calm; auto using calm_perm. }
    assert (HQ : quiet (f_obj F)).
    { intros k q. destruct q as [x|x| |]; cbn [f_obj F]; [|change (tsp_adapter d (mk_permrep n w) sh srt k (RSafe x)) with (tsp_adapter d (mk_permrep n w) sh srt k (REval x))|..];
        try (split; apply K); split; discriminate. }
    assert (HT : typed (f_obj F)).
    { intros k q p Hp. destruct q as [x|x| |]; cbn [f_obj F tsp_adapter snd] in Hp; try discriminate; try (now injection Hp as <-);
        apply bind_Ok in Hp as (? & _ & Hp); apply bind_Ok in Hp as (? & _ & Hp); apply bind_Ok in Hp as (v & _ & Hp); injection Hp as <-; eauto. }
    destruct (program_correct ap co None F factory A mid target (n * w) (n * w) fuel out e HO HC HFa HH HWk HQ eq_refl I eq_refl HP)
      as (rs & st & cs & r0 & Pl & R & H). cbv zeta in H.
    destruct (plays_visited _ _ _ _ _ _ _ _ Pl (visited_begin _ _ _ (visited_init _))) as (_ & _ & RE). specialize (RE (evaluates_run_by ap _ A HE)).
    assert (G : exists x b, (out, e) = report ap co None (n * w) (final_results co mid cs b) x b).
    { destruct r0 as [[]|[]|]; try (injection H as -> _; destruct HI); try (destruct H as [_ H]; eauto; fail).
      destruct H as (t & past & q & x & v & _ & _ & _ & _ & _ & H). eauto. }
    destruct G as (x & b & G). pose proof (report_results _ _ _ _ _ _ _ _ _ _ _ G HI) as ->.
    apply plays_run in Pl. subst cs. destruct (run_logged mid target (n * w) (f_obj F) (f_init F) rs) as (_ & L2 & L3 & _).
    assert (Emid : mid = middle_of co).
    { unfold make_function_controller in HC. destruct (target_of co (f_props F)); try discriminate. now injection HC. }
    rewrite Emid in L2, L3 |- *.
    destruct (C110_report (f_obj F) (n * w) (f_init F) co target rs HT) as (S1 & S2 & S3 & S4).
    set (E := evaluations _) in S3, S4.
    assert (EV : Forall (fun e => List.length (fst e) = n * w /\ exists p, tour_by_keys n w (fst e) p /\ snd e = DFin (- tour_length d p)) E).
    { assert (RX : exists xs, received (controlled (middle_of co) target (n * w) (f_obj F) (f_init F) rs) = map REval xs /\ Forall (fun x => List.length x = n * w) xs).
      { set (l := received _) in S1 |- *. clearbody l. clear - S1 R RE. revert R RE. induction S1 as [|q l k _ IH|q l k _ IH]; intros R RE.
        - exists []. split; [reflexivity|constructor].
        - inversion R as [|? ? R1 R2]; subst. inversion RE as [|? ? E1 E2]; subst. destruct (IH R2 E2) as (xs & -> & X). destruct E1 as [y ->]. exists (y :: xs). split; [reflexivity|now constructor].
        - inversion R as [|? ? R1 R2]; subst. inversion RE as [|? ? E1 E2]; subst. now apply IH. }
      destruct RX as (xs & X1 & X2). unfold E. rewrite X1. now apply evaluated. }
    unfold final_results. cbn [rs_total rs_num rs_value]. rewrite L2, L3. rewrite S3. clearbody E.
    destruct E as [|[x0 v0] E]; [left; split; [reflexivity|exact S4]|]. right. inversion EV as [|? ? (A0 & p0 & A1 & A2) A3]; subst. cbn [fst snd] in *. subst v0. cbn [is_nan] in S4.
    destruct S4 as (k & y & v & _ & S5 & _ & S6 & _). apply nth_error_In in S6. rewrite Forall_forall in EV. destruct (EV _ S6) as (LY & p & T & EP). cbn [fst snd] in *. subst v.
    exists y, p. split; [exact LY|]. split; [exact T|]. split; [exact S5|]. intros l [_ Hl]. apply Hl, T.
  Qed.
End Tsp.
Print Assumptions C130_value.
Print Assumptions C130_distinct.
Print Assumptions C130_all_tours.
Print Assumptions C130_complete_search.
Print Assumptions C130_program.

(** Without additional bits, the assertion of the representation is violated, before the function
    is made; the maximum is unknown, so that stopping on it is an error. *)
Theorem C130_errors lg d additional sh srt ap co factory fuel :
  ((additional <= 0)%Z -> tsp_function lg d additional sh srt = UB) /\
  (d <> [] -> (0 < additional)%Z -> ap_print_default ap = false -> (1 <= ap_threads ap)%Z -> co_stop_on_maximum co = true ->
   program ap co (F <- tsp_function lg d additional sh srt ;; Ok (Some (None, F))) factory fuel = Some ([], Exit 1)).
Proof.
  split.
  - intros H. unfold tsp_function. destruct (Z.ltb_spec 0 additional); [lia|reflexivity].
  - intros H A HP HT HS. rewrite tsp_made; [|destruct d; [congruence|cbn; lia]|exact A]. cbn [bind].
    unfold program, app_init. rewrite HP. destruct (Z.ltb_spec (ap_threads ap) 1); [lia|]. unfold make_function_controller, target_of. rewrite HS. reflexivity.
Qed.
Print Assumptions C130_errors.

(** ** Examples *)

(** Three cities, whose tours have lengths 3 and 30 *)
Definition example_distances : list (list Z) := [[0; 1; 10]; [10; 0; 1]; [1; 10; 0]]%Z.
(** The first shuffle leaves the cities in order; the next ones reverse them. *)
Definition example_shuffle (k : nat) : list nat -> list nat := if k =? 0 then fun l => l else @rev nat.

Example C130_case : 0 < 3 /\ Function_Spec.grid 3 3 example_distances /\ (forall k, shuffles (example_shuffle k)) /\ sorts insertion_sort /\
  exact_lg 3 + Z.to_nat 1 = 3 /\ 3 <= 2 ^ 3 /\
  (let ap := example_app None false false false in
   let co := mk_controller_options 0 false false false None false in
   program ap co (F <- tsp_function exact_lg example_distances 1 example_shuffle insertion_sort ;; Ok (Some (None, F))) make_complete_search 513 =
     Some ([OResults Printed (mk_results (Some (DFin (-3))) 1 512 None None); OSolution Printed (repeat false 9)], Exit 0)).
Proof.
  split; [lia|]. split; [repeat constructor|]. split; [intros [|k]; [intros l; apply Permutation_refl|exact (@Permutation_rev nat)]|]. split; [exact Adapter_Proofs.insertion_sorts|].
  split; [reflexivity|]. split; [cbn; lia|]. vm_compute. reflexivity.
Qed.

(** The printed value need not be that of the printed solution: here, the null vector is the
    solution, and its value is -30 in any other evaluation. *)
Example C130_ties : exists F, tsp_function exact_lg example_distances 1 example_shuffle insertion_sort = Ok F /\
  map (fun c => res c) (calls (f_obj F) (f_init F) (repeat (REval (repeat false 9)) 3)) = [Ok (RValue (DFin (-3))); Ok (RValue (DFin (-30))); Ok (RValue (DFin (-30)))] /\
  tour_by_keys 3 3 (repeat false 9) [0; 1; 2] /\ tour_by_keys 3 3 (repeat false 9) [2; 1; 0].
Proof.
  eexists. split; [reflexivity|]. split; [vm_compute; reflexivity|].
  assert (K : forall i, i < 3 -> key 3 (repeat false 9) i = 0%N) by (intros [|[|[|i]]] H; try lia; reflexivity).
  split; (split; [|repeat constructor; cbv beta; rewrite !K by lia; lia]); [apply Permutation_refl|].
  change [2; 1; 0] with (rev [0; 1; 2]). apply Permutation_sym, Permutation_rev.
Qed.
