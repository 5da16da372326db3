(** Proofs about the spectrum printed by the application. *)

From Coq Require Import ZArith NArith QArith Permutation Sorted Lia.
From Verif Require Import Base BaseLemmas BitVector_Model BitVector_Spec BitVector_Proofs GF2 Iterator_Model Iterator_Proofs Function_Spec Sums Walsh_Model Transform_Proofs
  Representation_Spec Map_Model Double Controller_Model Controller_Spec Controller_Proofs Decorator_Model ControllerStack_Spec ControllerStack_Proofs Application_Model Application_Spec
  Search_Spec FunctionFactory_Proofs PopAlgorithm_Proofs FactoryAdapters_Proofs WalshProgram_Model WalshProgram_Spec.
Local Close Scope Q_scope.
Local Open Scope nat_scope.

(** * From the object to a pure function *)

Lemma efold_pure {S A X} (f : A -> X -> eff S A) (g : A -> X -> outcome A) l : (forall a x s, f a x s = (s, Some (g a x))) ->
  forall a s, efold f l a s = (s, Some (foldM g l a)).
Proof.
  intros H. induction l as [|x l IH]; intros a s; cbn [efold foldM]; [reflexivity|]. unfold ebind. rewrite H. destruct (g a x); cbn [bind]; [apply IH|reflexivity..].
Qed.

Definition prepare (k : nat) (C : list Z) (x v : bv) : outcome (bv * bv * nat * nat) :=
  x <- copy_back v x ;;
  x0 <- vset x k false ;;
  index0 <- bv_to_size_type x0 ;;
  _ <- assertb (N.to_nat index0 <? length C) ;;
  x1 <- vset x0 k true ;;
  index1 <- bv_to_size_type x1 ;;
  _ <- assertb (N.to_nat index1 <? length C) ;;
  Ok (x0, x1, N.to_nat index0, N.to_nat index1).
Definition conclude (C : list Z) (x1 : bv) (i0 i1 : nat) (f0 f1 : Z) : outcome (list Z * bv) :=
  C <- vset C i0 (f0 + f1)%Z ;; C <- vset C i1 (f0 - f1)%Z ;; Ok (C, x1).

Lemma butterfly_split f k C x v : butterfly f k C x v =
  ' (x0, x1, i0, i1) <- prepare k C x v ;;
  ' (f0, f1) <- (if k =? 0 then f0 <- f x0 ;; f1 <- f x1 ;; Ok (f0, f1) else f0 <- vget C i0 ;; f1 <- vget C i1 ;; Ok (f0, f1)) ;;
  conclude C x1 i0 i1 f0 f1.
Proof.
  unfold butterfly, prepare, conclude. destruct (copy_back v x) as [y| |]; cbn [bind]; [|reflexivity..]. destruct (vset y k false) as [x0| |]; cbn [bind]; [|reflexivity..].
  destruct (bv_to_size_type x0) as [i0| |]; cbn [bind]; [|reflexivity..]. destruct (assertb _) as [[]| |]; cbn [bind]; [|reflexivity..].
  destruct (vset x0 k true) as [x1| |]; cbn [bind]; [|reflexivity..]. destruct (bv_to_size_type x1) as [i1| |]; cbn [bind]; [|reflexivity..].
  destruct (assertb _) as [[]| |]; cbn [bind]; [|reflexivity..]. reflexivity.
Qed.

Lemma butterfly_later {S} (o : fobj S) f k C x v s : k <> 0 -> butterfly_with o k C x v s = (s, Some (butterfly f k C x v)).
Proof.
  intros K. rewrite butterfly_split. unfold butterfly_with. fold (prepare k C x v). unfold ebind, eret. destruct (prepare k C x v) as [[[[x0 x1] i0] i1]| |]; cbn [bind]; [|reflexivity..].
  destruct (Nat.eqb_spec k 0); [contradiction|]. destruct (vget C i0) as [f0| |]; cbn [bind]; [|reflexivity..]. destruct (vget C i1) as [f1| |]; cbn [bind]; reflexivity.
Qed.

Lemma prepare_vectors C x v x0 x1 i0 i1 : length v + 1 = length x -> prepare 0 C x v = Ok (x0, x1, i0, i1) -> x0 = false :: v /\ x1 = true :: v.
Proof.
  intros L H. unfold prepare, copy_back in H. apply bind_Ok in H as (y & H1 & H). apply bind_Ok in H1 as (_ & _ & H1). replace (length x - length v) with 1 in H1 by lia.
  destruct x as [|a x]; [cbn in L; lia|]. cbn in H1. injection H1 as <-. cbn [vset length upd] in H. unfold vset in H. cbn [length Nat.ltb Nat.leb upd bind] in H.
  apply bind_Ok in H as (j0 & _ & H). apply bind_Ok in H as (? & _ & H). apply bind_Ok in H as (j1 & _ & H). apply bind_Ok in H as (? & _ & H). injection H as <- <- _ _. auto.
Qed.

Lemma first_stage {S} (o : fobj S) f n (st : nat -> S) : (forall j x, nth_error (all_bvs n) j = Some x -> ask o x (st j) = (st (j + 1), Some (f x))) ->
  forall vs j C x, length x = n ->
  (forall i v, nth_error vs i = Some v -> length v + 1 = n /\ nth_error (all_bvs n) (2 * (j + i)) = Some (false :: v) /\ nth_error (all_bvs n) (2 * (j + i) + 1) = Some (true :: v)) ->
  exists s', efold (fun '(C, x) v => butterfly_with o 0 C x v) vs (C, x) (st (2 * j)) = (s', Some (foldM (fun '(C, x) v => butterfly f 0 C x v) vs (C, x))).
Proof.
  intros H vs. induction vs as [|v vs IH]; intros j C x L HV; cbn [efold foldM]; [eexists; reflexivity|].
  destruct (HV 0 v eq_refl) as (LV & H0 & H1). rewrite Nat.add_0_r in H0, H1. rewrite butterfly_split. unfold butterfly_with. fold (prepare 0 C x v). unfold ebind, eret.
  destruct (prepare 0 C x v) as [[[[x0 x1] i0] i1]| |] eqn:E; cbn [bind]; [|eexists; reflexivity..].
  apply prepare_vectors in E as [-> ->]; [|lia]. cbn [Nat.eqb]. rewrite (H _ _ H0). destruct (f (false :: v)) as [f0| |]; cbn [bind]; [|eexists; reflexivity..].
  rewrite (H _ _ H1). destruct (f (true :: v)) as [f1| |]; cbn [bind]; [|eexists; reflexivity..]. fold (conclude C (true :: v) i0 i1 f0 f1).
  destruct (conclude C (true :: v) i0 i1 f0 f1) as [[C' x']| |] eqn:EC; cbn [bind]; [|eexists; reflexivity..].
  assert (x' = true :: v) as ->. { unfold conclude in EC. apply bind_Ok in EC as (? & _ & EC). apply bind_Ok in EC as (? & _ & EC). now injection EC. }
  replace (2 * j + 1 + 1) with (2 * (j + 1)) by lia. apply IH; [cbn; lia|]. intros i w W. specialize (HV (Datatypes.S i) w W). replace (j + 1 + i) with (j + Datatypes.S i) by lia. exact HV.
Qed.

Lemma bits_of_double m i b : bits_of (Datatypes.S m) (2 * i + (if b : bool then 1 else 0)) = b :: bits_of m i.
Proof.
  unfold bits_of. cbn [seq map]. f_equal.
  - destruct b; [replace (N.of_nat (2 * i + 1)) with (2 * N.of_nat i + 1)%N by lia; apply N.testbit_odd_0|rewrite Nat.add_0_r; replace (N.of_nat (2 * i)) with (2 * N.of_nat i)%N by lia; apply N.testbit_even_0].
  - rewrite <- seq_shift, map_map. apply map_ext. intros k. replace (N.of_nat (Datatypes.S k)) with (N.succ (N.of_nat k)) by lia.
    destruct b; [replace (N.of_nat (2 * i + 1)) with (2 * N.of_nat i + 1)%N by lia; apply N.testbit_odd_succ|rewrite Nat.add_0_r; replace (N.of_nat (2 * i)) with (2 * N.of_nat i)%N by lia; apply N.testbit_even_succ]; lia.
Qed.

Lemma all_bvs_double m i v : nth_error (all_bvs m) i = Some v ->
  nth_error (all_bvs (Datatypes.S m)) (2 * i) = Some (false :: v) /\ nth_error (all_bvs (Datatypes.S m)) (2 * i + 1) = Some (true :: v).
Proof.
  unfold all_bvs. rewrite !nth_error_map. intros H. destruct (nth_error (seq 0 (2 ^ m)) i) as [k|] eqn:E; [|discriminate]. cbn in H. injection H as <-.
  assert (B : i < 2 ^ m) by (rewrite <- (seq_length (2 ^ m) 0); apply nth_error_Some; congruence).
  assert (k = i) as -> by (rewrite (nth_error_nth' _ 0) in E by (now rewrite seq_length); rewrite seq_nth in E by exact B; injection E as <-; lia).
  assert (P : 2 ^ Datatypes.S m = 2 * 2 ^ m) by reflexivity.
  assert (G : forall j, j < 2 ^ Datatypes.S m -> nth_error (seq 0 (2 ^ Datatypes.S m)) j = Some j).
  { intros j Hj. rewrite (nth_error_nth' _ 0) by (now rewrite seq_length). now rewrite seq_nth by exact Hj. }
  rewrite !G by lia. cbn [option_map]. rewrite <- (bits_of_double m i false), <- (bits_of_double m i true), Nat.add_0_r. auto.
Qed.

Theorem transform_pure {S} (o : fobj S) f n (st : nat -> S) : 0 < n -> (forall j x, nth_error (all_bvs n) j = Some x -> ask o x (st j) = (st (j + 1), Some (f x))) ->
  snd (fast_walsh_transform_with o n (st 0)) = Some (fast_walsh_transform n f).
Proof.
  intros Hn H. unfold fast_walsh_transform_with, fast_walsh_transform. unfold ebind at 1, eret at 1. destruct (shift_one n) as [size| |]; cbn [bind]; [|reflexivity..].
  destruct n as [|m]; [lia|]. cbn [seq efold foldM].
  assert (LATER : forall k, k <> 0 -> forall (t : list Z * bv) s,
    (let '(coefficients, x) := t in
      ebind (eret (drain (fun s => Ok (ehc_has_next s)) ehc_next (2 ^ k + 1) (hc_make k))) (fun '(us, _, _) =>
      efold (fun '(coefficients, x) u =>
        ebind (eret (copy_front u x)) (fun x =>
        ebind (eret (drain (fun s => Ok (ehc_has_next s)) ehc_next (2 ^ (Datatypes.S m - k - 1) + 1) (hc_make (Datatypes.S m - k - 1)))) (fun '(vs, _, _) =>
        efold (fun '(coefficients, x) v => butterfly_with o k coefficients x v) vs (coefficients, x))))
        us (coefficients, x))) s =
    (s, Some (let '(coefficients, x) := t in
      '(us, _, _) <- drain (fun s => Ok (ehc_has_next s)) ehc_next (2 ^ k + 1) (hc_make k) ;;
      foldM (fun '(coefficients, x) u =>
        x <- copy_front u x ;;
        '(vs, _, _) <- drain (fun s => Ok (ehc_has_next s)) ehc_next (2 ^ (Datatypes.S m - k - 1) + 1) (hc_make (Datatypes.S m - k - 1)) ;;
        foldM (fun '(coefficients, x) v => butterfly f k coefficients x v) vs (coefficients, x))
        us (coefficients, x)))).
  { intros k K [C x] s. unfold ebind at 1, eret at 1. destruct (drain _ _ _ _) as [[[us a] b]| |]; cbn [bind]; [|reflexivity..].
    apply efold_pure. clear C x s. intros [C x] u s. unfold ebind at 1, eret at 1. destruct (copy_front u x) as [y| |]; cbn [bind]; [|reflexivity..].
    unfold ebind at 1, eret at 1. destruct (drain _ _ _ _) as [[[vs a'] b']| |]; cbn [bind]; [|reflexivity..].
    apply efold_pure. clear s. intros [C' x'] v s. now apply butterfly_later. }
  match goal with |- snd (ebind (ebind ?b _) _ _) = _ => set (first := b) end.
  match goal with |- _ = Some (bind (bind ?b _) _) => set (pure := b) end.
  assert (F : exists s', first (st 0) = (s', Some pure)).
  { unfold first, pure. rewrite !ehc_drain_make by (cbn; lia). unfold ebind at 1, eret at 1. cbn [bind]. change (all_bvs 0) with [@nil bool]. cbn [efold foldM].
    replace (Datatypes.S m - 0 - 1) with m by lia. unfold copy_front at 1 2. cbn [length Nat.leb assertb bind skipn app].
    unfold ebind at 1. unfold ebind at 1, eret at 1. unfold ebind at 1, eret at 1. cbn [bind].
    destruct (first_stage o f (Datatypes.S m) st H (all_bvs m) 0 (repeat 0%Z size) (repeat false (Datatypes.S m)) (repeat_length _ _)) as [s' E].
    { intros i v Hv. split; [|now apply all_bvs_double]. apply nth_error_In in Hv. apply all_bvs_spec in Hv. lia. }
    change (st (2 * 0)) with (st 0) in E. cbn [repeat] in E |- *. rewrite E. destruct (foldM _ (all_bvs m) _) as [[C x]| |]; eexists; reflexivity. }
  destruct F as [s' F]. unfold ebind at 1. unfold ebind at 1. rewrite F. destruct pure as [t| |]; cbn [bind]; [|reflexivity..].
  match goal with |- context [efold ?b (seq 1 m) t s'] => match goal with |- context [foldM ?p (seq 1 m) t] => assert (E : efold b (seq 1 m) t s' = (s', Some (foldM p (seq 1 m) t))) end end.
  { assert (K : Forall (fun k => k <> 0) (seq 1 m)) by (apply Forall_forall; intros k Hk; apply in_seq in Hk; lia).
    clear F. revert t. induction K as [|k l K _ IH]; intros t; cbn [efold foldM]; [reflexivity|]. pose proof (LATER k K t s') as LT. unfold ebind at 1. cbv beta. destruct t as [C x]. cbv iota in LT |- *. rewrite LT. clear LT.
    match goal with |- _ = (_, Some (bind ?x _)) => destruct x as [t'| |] end; cbn [bind]; [apply IH|reflexivity..]. }
  rewrite E. destruct (foldM _ _ _) as [[C x]| |]; reflexivity.
Qed.

(** * Interruptions *)

Definition stopping (e : exn) : Prop := e = LastEvaluation \/ e = TargetReached.

Lemma interrupted n f : 0 < n < 31 -> (forall x, length x = n -> (exists z, f x = Ok z) \/ exists e, stopping e /\ f x = Throw e) ->
  (exists x e, length x = n /\ f x = Throw e) -> exists e, stopping e /\ fast_walsh_transform n f = Throw e.
Proof.
  intros [Hn Hn'] HF HX. set (g := fun x => match f x with Ok z => z | _ => 0%Z end).
  assert (G : forall x, length x = n -> (fun y => Ok (g y)) x = Ok (g x)) by reflexivity.
  assert (STEP : forall C x v, length x = n -> length v = n - 0 - 1 -> length C = 2 ^ n ->
    (exists C', butterfly f 0 C x v = Ok (C', true :: v) /\ length C' = 2 ^ n /\ forall b e, f (b :: v) <> Throw e) \/ exists e, stopping e /\ butterfly f 0 C x v = Throw e).
  { intros C x v LX LV LC. destruct (butterfly_Ok n (fun y => Ok (g y)) g Hn Hn' G 0 C [] x v eq_refl LX LV ltac:(lia) LC) as (C' & E & L' & _).
    cbn [app] in E. rewrite butterfly_split in E |- *. destruct (prepare 0 C x v) as [[[[x0 x1] i0] i1]| |] eqn:EP; cbn [bind] in E |- *; try discriminate.
    apply prepare_vectors in EP as [-> ->]; [|lia]. cbn [Nat.eqb bind] in E |- *.
    destruct (HF (false :: v)) as [[z0 E0]|(e & He & E0)]; [cbn; lia| |right; exists e; split; [exact He|]; rewrite E0; reflexivity].
    destruct (HF (true :: v)) as [[z1 E1]|(e & He & E1)]; [cbn; lia| |right; exists e; split; [exact He|]; rewrite E0, E1; reflexivity].
    left. exists C'. rewrite E0, E1. cbn [bind]. unfold g in E. rewrite E0, E1 in E. split; [exact E|]. split; [exact L'|]. intros [] e; congruence. }
  assert (STAGE : forall vs C x, length x = n -> length C = 2 ^ n -> (forall v, In v vs -> length v = n - 0 - 1) -> (exists v b e, In v vs /\ f (b :: v) = Throw e) ->
    exists e, stopping e /\ foldM (fun '(C, x) v => butterfly f 0 C x v) vs (C, x) = Throw e).
  { induction vs as [|v vs IH]; intros C x LX LC LV (w & b & e & IN & E); [destruct IN|]. cbn [foldM].
    destruct (STEP C x v LX (LV v (or_introl eq_refl)) LC) as [(C' & -> & L' & NT)|(e' & He' & ->)]; [|exists e'; auto]. cbn [bind]. apply IH; auto.
    - specialize (LV v (or_introl eq_refl)). cbn. lia.
    - intros w' Hw'. apply LV. now right.
    - destruct IN as [->|IN]; [destruct (NT b e E)|eauto]. }
  unfold fast_walsh_transform, shift_one. destruct (Nat.ltb_spec n 31); [|lia]. cbn [assertb bind]. destruct n as [|m]; [lia|]. cbn [seq foldM].
  rewrite !ehc_drain_make by (cbn; lia). cbn [bind]. change (all_bvs 0) with [@nil bool]. cbn [foldM]. unfold copy_front at 1. cbn [length Nat.leb assertb bind skipn app].
  destruct (STAGE (all_bvs (Datatypes.S m - 0 - 1)) (repeat 0%Z (2 ^ Datatypes.S m)) (repeat false (Datatypes.S m))) as (e & He & E); [apply repeat_length|apply repeat_length| | |].
  { intros v Hv. now apply all_bvs_spec in Hv. }
  { destruct HX as ([|b v] & e & LX & E); [discriminate|]. exists v, b, e. split; [|exact E]. apply all_bvs_spec. cbn in LX. lia. }
  cbn [repeat] in E |- *. rewrite E. exists e. auto.
Qed.

(** * Through the controllers *)

Lemma first_occurrences_length xs : length (first_occurrences xs) <= length xs.
Proof.
  unfold first_occurrences. assert (G : forall acc, length (fold_left (fun acc x => if in_dec bv_eq_dec x acc then acc else acc ++ [x]) xs acc) <= length acc + length xs); [|apply (G [])].
  induction xs as [|x xs IH]; intros acc; cbn [fold_left length]; [lia|]. destruct (in_dec bv_eq_dec x acc); [specialize (IH acc); lia|]. specialize (IH (acc ++ [x])). rewrite app_length in IH. cbn in IH. lia.
Qed.
Lemma first_occurrences_NoDup xs : NoDup xs -> first_occurrences xs = xs.
Proof.
  intros N. unfold first_occurrences.
  assert (G : forall acc, NoDup (acc ++ xs) -> fold_left (fun acc x => if in_dec bv_eq_dec x acc then acc else acc ++ [x]) xs acc = acc ++ xs); [|now apply (G [])].
  clear N. induction xs as [|x xs IH]; intros acc N; cbn [fold_left]; [now rewrite app_nil_r|].
  destruct (in_dec bv_eq_dec x acc) as [I|I]; [apply NoDup_remove_2 in N; destruct N; apply in_or_app; now left|].
  rewrite IH; rewrite <- app_assoc; [reflexivity|exact N].
Qed.

(** What an evaluation gives to the transform *)
Definition heard (a : outcome reply) : outcome Z :=
  match a with Ok (RValue (DFin z)) => Ok z | Ok _ => UB | Throw e => Throw e | UB => UB end.
Definition through (co : controller_options) (target : option dbl) (n : nat) (f : bv -> dbl) (x : bv) : outcome Z :=
  heard (seen_through target (sequential_result (middle_of co) f (all_bvs n) (N.to_nat (value_lsb x)) x)).

Lemma middle_budget co b : budget_of (middle_of co) = Some b -> (0 <= b)%Z.
Proof. unfold middle_of. destruct (Z.ltb_spec 0 (co_budget co)); destruct (co_cache co), (co_cache_budget co); cbn; intros E; try discriminate; injection E as <-; lia. Qed.

Lemma sequential_cases co f n x : length x = n -> let a := sequential_result (middle_of co) f (all_bvs n) (N.to_nat (value_lsb x)) x in
  (a = Ok (RValue (f x)) \/ a = Throw LastEvaluation) /\
  ((0 < co_budget co)%Z -> (co_budget co <= Z.of_N (value_lsb x))%Z -> a = Throw LastEvaluation) /\
  ((co_budget co <= 0)%Z \/ (Z.of_nat (2 ^ n) <= co_budget co)%Z -> a = Ok (RValue (f x))).
Proof.
  intros L a. pose proof (value_lsb_nat x) as B. rewrite L in B. destruct (all_bvs_spec n) as (A1 & A2 & A3 & A4).
  assert (NX : nth_error (all_bvs n) (N.to_nat (value_lsb x)) = Some x) by (apply counting_nth with n; [split; [exact A2|split; [exact A3|exact A4]]|exact L]).
  assert (J : (Z.of_nat (N.to_nat (value_lsb x)) = Z.of_N (value_lsb x))%Z) by lia.
  unfold a, sequential_result, middle_of. clear a. set (j := N.to_nat (value_lsb x)) in *.
  destruct (Z.ltb_spec 0 (co_budget co)) as [P|P].
  2: { destruct (co_cache co); (split; [now left|]; split; [intros; lia|]; intros _; reflexivity). }
  destruct (co_cache co); [destruct (co_cache_budget co)|].
  1,3: destruct (Z.ltb_spec (Z.of_nat j) (co_budget co)); (split; [auto|]; split; [intros; try reflexivity; lia|]; intros [K|K]; try reflexivity; lia).
  assert (LF : length (firstn j (all_bvs n)) = j) by (rewrite firstn_length; lia).
  assert (ND : NoDup (firstn j (all_bvs n)) /\ ~ In x (firstn j (all_bvs n))).
  { rewrite <- (firstn_skipn j (all_bvs n)) in A2. assert (SK : exists l, skipn j (all_bvs n) = x :: l).
    { clear - NX. revert NX. generalize (all_bvs n). clearbody j. induction j as [|j IH]; intros [|y l] H; try discriminate; cbn in *; [injection H as <-; eauto|now apply IH]. }
    destruct SK as [l SK]. rewrite SK in A2. split.
    - clear - A2. revert A2. generalize (firstn j (all_bvs n)). induction l0 as [|y l0 IH]; intros N; [constructor|]. inversion N as [|? ? N1 N2]; subst. constructor; [|now apply IH]. intros K. apply N1, in_or_app. now left.
    - apply NoDup_remove_2 in A2. intros K. apply A2, in_or_app. now left. }
  rewrite first_occurrences_NoDup by apply ND. rewrite LF.
  destruct (Z.ltb_spec (Z.of_nat j) (co_budget co)) as [K|K]; cbn [orb]; [split; [auto|]; split; [intros; lia|]; intros _; reflexivity|].
  destruct (in_dec bv_eq_dec x (firstn (Z.to_nat (co_budget co)) (firstn j (all_bvs n)))) as [I|I].
  { exfalso. apply (proj2 ND). rewrite <- (firstn_skipn (Z.to_nat (co_budget co)) (firstn j (all_bvs n))). apply in_or_app. now left. }
  split; [auto|]. split; [auto|]. intros [K'|K']; lia.
Qed.

Lemma run_app {S} (o : fobj S) rs rs' : forall s, run o s (rs ++ rs') = run o (run o s rs) rs'.
Proof. induction rs as [|r rs IH]; intros s; cbn [app run]; [reflexivity|apply IH]. Qed.

Lemma transform_controlled {S} (o : fobj S) co target s n f g : 0 < n -> ControllerStack_Spec.total o s n f -> (forall x, length x = n -> f x = DFin (g x)) ->
  snd (fast_walsh_transform_with (controlled_obj (middle_of co) target o) n (controlled_init (middle_of co) n s)) = Some (fast_walsh_transform n (through co target n f)).
Proof.
  intros Hn HT HG. destruct (all_bvs_spec n) as (A1 & A2 & A3 & A4). set (c := controlled_obj (middle_of co) target o). set (s0 := controlled_init (middle_of co) n s).
  apply (transform_pure c (through co target n f) n (fun j => run c s0 (map REval (firstn j (all_bvs n)))) Hn).
  intros j x Hx. assert (LX : length x = n) by (apply A3; now apply nth_error_In with j).
  assert (HL : Forall (fun y => length y = n) (all_bvs n)) by (apply Forall_forall; intros y; apply A3).
  assert (JX : N.to_nat (value_lsb x) = j).
  { assert (B : j < 2 ^ n) by (rewrite <- A1; apply nth_error_Some; congruence). specialize (A4 j B). rewrite (nth_error_nth _ _ [] Hx) in A4. lia. }
  assert (HC : exists a, nth_error (calls c s0 (map REval (all_bvs n))) j = Some a).
  { destruct (nth_error (calls c s0 (map REval (all_bvs n))) j) as [a|] eqn:E; [eauto|]. apply nth_error_None in E. rewrite calls_length, map_length in E.
    assert (j < length (all_bvs n)) by (apply nth_error_Some; congruence). lia. }
  destruct HC as [a HC]. pose proof (controllers_sequential o (middle_of co) target n f s (all_bvs n) j a x HT (middle_budget co) HL HC Hx) as R.
  apply calls_nth in HC as (BE & RQ & AF). rewrite firstn_map in BE. rewrite (map_nth_error REval _ _ Hx) in RQ. injection RQ as RQ. rewrite <- RQ, BE in AF.
  assert (NX : run c s0 (map REval (firstn (j + 1) (all_bvs n))) = after a).
  { assert (FS : firstn (j + 1) (all_bvs n) = firstn j (all_bvs n) ++ [x]); [|rewrite FS, map_app, run_app].
    { rewrite (firstn_S_nth j _ []) by (apply nth_error_Some; congruence). now rewrite (nth_error_nth _ _ [] Hx). }
    cbn [map run]. fold c s0. rewrite <- AF. reflexivity. }
  unfold ask. rewrite <- AF, NX. f_equal. unfold through. rewrite JX, <- R. destruct (sequential_cases co f n x LX) as [SC _]. cbv zeta in SC. rewrite JX in SC.
  rewrite R. destruct SC as [-> | ->]; unfold seen_through; rewrite ?(HG x LX); destruct target as [t|]; try reflexivity. destruct (dge (DFin (g x)) t); reflexivity.
Qed.

(** * Coefficients *)

Lemma weight_zerov n u : length u = n -> weight u = 0 <-> u = zerov n.
Proof. intros L. rewrite weight_zero_iff. now rewrite L. Qed.

Lemma constant_strength n g : constant n g -> forall u, feature n u -> walsh_coefficient n g u = 0%Z.
Proof.
  intros C u [L W]. unfold walsh_coefficient. fold (sum_over (hypercube n) (fun x => (walsh_sign u x * g x)%Z)).
  transitivity (g (zerov n) * sum_over (hypercube n) (fun x => spin (dot u x) * spin (dot (zerov n) x)))%Z.
  - rewrite <- sum_scale. apply sum_ext. intros x Hx. apply hypercube_In in Hx. rewrite walsh_sign_dot, dot_zero_l, (dot_comm x u). cbn [spin].
    rewrite (C x (zerov n) Hx (length_zerov n)). lia.
  - rewrite orthogonal by (auto using length_zerov). destruct (list_eq_dec Bool.bool_dec u (zerov n)) as [->|]; [|lia].
    exfalso. assert (weight (zerov n) = 0) by (now apply (weight_zerov n (zerov n) (length_zerov n))). lia.
Qed.

Lemma strength_constant n g : 0 < n < 31 -> (forall u, feature n u -> walsh_coefficient n g u = 0%Z) -> constant n g.
Proof.
  intros [H0 H1] H. destruct (walsh_transforms n (fun x => Ok (g x)) g H0 H1 ltac:(reflexivity)) as (terms & _ & _ & _ & IN & EV).
  assert (Z : forall t, In t terms -> fst t = zerov n).
  { intros [u c] I. apply IN in I as (L & -> & N). cbn. apply (weight_zerov n u L). destruct (weight u) eqn:E; [reflexivity|]. destruct N. apply H. split; [exact L|lia]. }
  assert (V : forall x, length x = n -> (2 ^ Z.of_nat n * g x)%Z = sum_over terms snd).
  { intros x L. specialize (EV x L). rewrite walsh_evaluate_Ok in EV by (intros t Ht; rewrite (Z t Ht), L; apply length_zerov). apply Ok_inj in EV. rewrite <- EV.
    apply sum_ext. intros t Ht. rewrite (Z t Ht), dot_zero_r. cbn [spin]. lia. }
  intros x y LX LY. pose proof (V x LX) as VX. rewrite <- (V y LY) in VX. apply Z.mul_reg_l in VX; [exact VX|]. apply Z.pow_nonzero; lia.
Qed.

Lemma not_constant_strength n g : 0 < n < 31 -> ~ constant n g -> exists u, feature n u /\ walsh_coefficient n g u <> 0%Z.
Proof.
  intros Hn NC. destruct (Exists_dec (fun u => 0 < weight u /\ walsh_coefficient n g u <> 0%Z) (hypercube n)) as [E|E].
  - intros u. destruct (lt_dec 0 (weight u)); [|right; lia]. destruct (Z.eq_dec (walsh_coefficient n g u) 0); [right|left]; tauto.
  - apply Exists_exists in E as (u & I & W & N). apply hypercube_In in I. exists u. split; [split; assumption|exact N].
  - destruct NC. apply strength_constant; [exact Hn|]. intros u [L W]. destruct (Z.eq_dec (walsh_coefficient n g u) 0) as [|N]; [assumption|].
    destruct E. apply Exists_exists. exists u. split; [now apply hypercube_In|auto].
Qed.

(** * What is printed *)

Lemma coefficient_order : strict_weak_order (fun a b : walsh_term => (snd b <? snd a)%Z).
Proof.
  split; [|split].
  - intros a. apply Z.ltb_irrefl.
  - intros a b c. rewrite !Z.ltb_lt. lia.
  - intros a b c. rewrite !Z.ltb_ge. lia.
Qed.

Lemma Forall2_flat_map {A B C} (R : C -> B -> Prop) (h : A -> C) (p : A -> bool) (k : A -> B) l :
  (forall a, In a l -> p a = true -> R (h a) (k a)) ->
  Forall2 R (map h (filter p l)) (flat_map (fun a => if p a then [k a] else []) l).
Proof.
  induction l as [|a l IH]; intros H; cbn [filter map flat_map]; [constructor|]. assert (IH' := IH (fun b Hb => H b (or_intror Hb))).
  destruct (p a) eqn:E; cbn [map app]; [constructor; [apply H; [now left|exact E]|exact IH']|exact IH'].
Qed.

Lemma spectrum_printed srt n g terms : sorts srt -> 0 < n < 31 -> NoDup (map fst terms) ->
  (forall u c, In (u, c) terms <-> length u = n /\ c = walsh_coefficient n g u /\ c <> 0%Z) ->
  (constant n g -> print_spectrum srt terms = UB) /\
  (~ constant n g -> exists l, print_spectrum srt terms = Ok l /\ is_spectrum n g l).
Proof.
  intros HS Hn ND IN. unfold print_spectrum. cbv zeta.
  match goal with |- context [srt ?lt ?l] => set (ts0 := l); destruct (HS lt ts0 coefficient_order) as [P SO]; set (ts := srt lt ts0) in * end.
  assert (N' : NoDup (map fst ts)). { apply (Permutation_NoDup (l := map fst ts0)); [now apply Permutation_map|]. unfold ts0. rewrite map_map. exact ND. }
  assert (IN' : forall u c, In (u, c) ts <-> length u = n /\ c = strength n g u /\ c <> 0%Z).
  { intros u c. assert (E : In (u, c) ts <-> In (u, c) ts0) by (split; apply Permutation_in; [now symmetry|exact P]). rewrite E. unfold ts0. rewrite in_map_iff. unfold strength. split.
    - intros ([v d] & H1 & H2). injection H1 as -> <-. apply IN in H2 as (L & -> & N). split; [exact L|]. split; [reflexivity|]. lia.
    - intros (L & -> & N). exists (u, walsh_coefficient n g u). split; [reflexivity|]. apply IN. split; [exact L|]. split; [reflexivity|lia]. }
  clearbody ts. clear P ts0 ND IN terms HS srt.
  assert (SO' : StronglySorted (fun a b : walsh_term => (snd b <= snd a)%Z) ts).
  { clear - SO. induction SO as [|a l _ IH F]; constructor; [exact IH|]. eapply Forall_impl; [|exact F]. intros b. cbv beta. rewrite Z.ltb_ge. lia. }
  clear SO. split.
  - intros C. assert (Z : forall t, In t ts -> fst t = zerov n).
    { intros [u c] I. apply IN' in I as (L & -> & N). cbn. apply (weight_zerov n u L). destruct (weight u) eqn:E; [reflexivity|]. destruct N. unfold strength.
      rewrite (constant_strength n g C u); [reflexivity|split; [exact L|lia]]. }
    destruct ts as [|[u c] ts]; [reflexivity|]. cbn [length Nat.ltb Nat.leb assertb bind vget nth_error fst snd]. unfold vget. cbn [nth_error bind].
    assert (u = zerov n) as -> by (apply (Z (u, c)); now left). cbn [fst]. rewrite bv_hamming_weight_vb_spec.
    replace (weight (zerov n)) with 0 by (symmetry; now apply (weight_zerov n (zerov n) (length_zerov n))). cbn [Nat.eqb bind].
    destruct ts as [|[v d] ts]; [reflexivity|]. exfalso. assert (v = zerov n) as -> by (apply (Z (v, d)); right; now left). cbn in N'. inversion N' as [|? ? N1 N2]. apply N1. now left.
  - intros NC. destruct (not_constant_strength n g Hn NC) as (u1 & [L1 W1] & N1).
    assert (I1 : In (u1, strength n g u1) ts) by (apply IN'; split; [exact L1|]; split; [reflexivity|unfold strength; lia]).
    assert (NORM : exists norm, (if bv_hamming_weight_vb (fst (nth 0 ts ([], 0%Z))) =? 0 then t <- vget ts 1 ;; Ok (snd t) else Ok (snd (nth 0 ts ([], 0%Z)))) = Ok norm /\
      greatest_strength n g norm /\ (0 < norm)%Z).
    { assert (GR : forall u c, In (u, c) ts -> 0 < weight u -> (forall u' c', In (u', c') ts -> 0 < weight u' -> (c' <= c)%Z) -> greatest_strength n g c /\ (0 < c)%Z).
      { intros u c I W H. apply IN' in I as (L & -> & N). split; [|unfold strength in *; lia]. split; [exists u; repeat split; auto|].
        intros v [LV WV]. destruct (Z.eq_dec (strength n g v) 0) as [E|E]; [rewrite E; unfold strength; lia|]. apply (H v); [apply IN'; auto|exact WV]. }
      destruct ts as [|[u0 c0] ts]; [destruct I1|]. cbn [nth fst snd]. rewrite bv_hamming_weight_vb_spec. apply StronglySorted_inv in SO' as [S1 S2]. rewrite Forall_forall in S2.
      destruct (Nat.eqb_spec (weight u0) 0) as [E|E].
      - destruct I1 as [I1|I1]; [injection I1 as -> _; lia|]. destruct ts as [|[v d] ts]; [destruct I1|]. cbn in N'. apply NoDup_cons_iff in N' as [N2 N3]. apply StronglySorted_inv in S1 as [S3 S4]. rewrite Forall_forall in S4.
        assert (L0 : length u0 = n) by (apply (IN' u0 c0); now left). assert (LV : length v = n) by (apply (IN' v d); right; now left).
        assert (WV : 0 < weight v). { destruct (weight v) eqn:EV; [|lia]. exfalso. apply (weight_zerov n u0 L0) in E. apply (weight_zerov n v LV) in EV. apply N2. left. congruence. }
        exists d. split; [reflexivity|]. apply (GR v d); [right; now left|exact WV|].
        intros u' c' [I|[I|I]] W; [injection I as -> _; lia|injection I as _ ->; lia|exact (S4 _ I)].
      - exists c0. split; [reflexivity|]. apply (GR u0 c0); [now left|lia|]. intros u' c' [I|I] W; [injection I as _ ->; lia|exact (S2 _ I)]. }
    destruct NORM as (norm & EN & GN & PN).
    destruct ts as [|t0 ts'] eqn:ET; [destruct I1|]. cbn [length Nat.ltb Nat.leb assertb bind]. unfold vget at 1. cbn [nth_error bind]. cbn [nth] in EN. rewrite EN. cbn [bind]. rewrite <- ET in *. clear t0 ts' ET EN.
    eexists. split; [reflexivity|].
    set (big := fun t : walsh_term => negb (Qle_bool (inject_Z (snd t) / inject_Z norm) (1 # 10000000000)) && (0 <? bv_hamming_weight_vb (fst t))).
    assert (BIG : forall u c, In (u, c) ts -> big (u, c) = true <-> 0 < weight u /\ (norm < 10 ^ 10 * strength n g u)%Z).
    { intros u c I. apply IN' in I as (L & -> & N). unfold big. cbn [fst snd]. rewrite bv_hamming_weight_vb_spec, Bool.andb_true_iff, Nat.ltb_lt, Bool.negb_true_iff.
      assert (Q : Qle_bool (inject_Z (strength n g u) / inject_Z norm) (1 # 10000000000) = false <-> (norm < 10 ^ 10 * strength n g u)%Z).
      { rewrite <- Bool.not_true_iff_false, Qle_bool_iff. destruct norm as [|q|q]; try lia. unfold Qle, Qdiv, Qmult, Qinv, inject_Z. cbn [Qnum Qden]. change (10 ^ 10)%Z with 10000000000%Z. lia. }
      tauto. }
    exists norm, (map fst (filter big ts)). split; [exact GN|]. split; [exact PN|]. split; [|split; [|split]].
    + clear - N'. induction ts as [|t ts IH]; cbn; [constructor|]. inversion N' as [|? ? N1 N2]; subst. destruct (big t); [|now apply IH]. cbn. constructor; [|now apply IH].
      intros I. apply N1. apply in_map_iff in I as (t' & <- & I). apply filter_In in I as [I _]. now apply in_map.
    + intros u. rewrite in_map_iff. split.
      * intros ([v c] & <- & I). apply filter_In in I as [I B]. apply BIG in B as [B1 B2]; [|exact I]. cbn. split; [split; [now apply (IN' v c)|exact B1]|exact B2].
      * intros [[L W] B]. assert (I : In (u, strength n g u) ts) by (apply IN'; split; [exact L|]; split; [reflexivity|lia]). exists (u, strength n g u). split; [reflexivity|]. apply filter_In. split; [exact I|]. apply BIG; auto.
    + assert (VAL : forall t, In t ts -> snd t = strength n g (fst t)) by (intros [u c] I; now apply IN' in I as (_ & -> & _)).
      clear - SO' VAL. induction SO' as [|t ts _ IH F]; cbn; [constructor|]. assert (IH' := IH (fun t' I => VAL t' (or_intror I))). destruct (big t); [|exact IH']. cbn. constructor; [exact IH'|].
      apply Forall_forall. intros u I. apply in_map_iff in I as (t' & <- & I). apply filter_In in I as [I _]. rewrite Forall_forall in F. specialize (F t' I). rewrite (VAL t'), (VAL t) in F; [exact F|now left|now right].
    + apply (Forall2_flat_map _ fst big (fun t => (bv_hamming_weight_vb (fst t), (inject_Z (snd t) / inject_Z norm)%Q))).
      intros [u c] I _. cbn [fst snd]. split; [apply bv_hamming_weight_vb_spec|]. apply IN' in I as (_ & -> & _). reflexivity.
Qed.
