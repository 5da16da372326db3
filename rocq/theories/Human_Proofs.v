(** Proofs about the algorithm played by its user. *)

From Coq Require Import ZArith String Ascii Lia.
From Verif Require Import Base BaseLemmas BitVector_Model Map_Model Map_Spec Double Controller_Model Controller_Spec
  Controller_Proofs Decorator_Model Decorator_Spec ControllerStack_Spec ControllerStack_Proofs Application_Model Application_Spec Application_Proofs
  Search_Model Search_Spec Search_Proofs Human_Model Human_Spec.
Local Open Scope nat_scope.
Local Open Scope list_scope.

Lemma bv_from_string_bits w : bv_from_string w = word_bits w.
Proof. unfold word_bits. induction w as [|c w IH]; [reflexivity|]. cbn. rewrite IH. now destruct (Ascii.eqb c "0"). Qed.

Lemma answer_spec n ws : 0 < n ->
  match typed_vectors n ws with
  | [] => (quits ws /\ exists rest, parse_bit_vector n ws = Quit rest) \/ (~ quits ws /\ parse_bit_vector n ws = Forever)
  | x :: V => length x = n /\ exists rest, parse_bit_vector n ws = Answered x rest /\ typed_vectors n rest = V /\ (quits rest <-> quits ws)
  end.
Proof.
  intros Hn. unfold typed_vectors. induction ws as [|w ws IH].
  - cbn. right. split; [intros []|]. destruct n; [lia|reflexivity].
  - cbn [before_quit parse_bit_vector]. destruct (String.eqb_spec w "quit") as [->|D].
    + cbn. left. split; [now left|eauto].
    + cbn [map filter]. rewrite bv_from_string_bits. destruct (Nat.leb_spec n (length (word_bits w))) as [L|L]; destruct (Nat.ltb_spec (length (word_bits w)) n) as [L'|L']; try lia.
      * cbn [map]. split; [rewrite firstn_length; lia|]. exists ws. split; [reflexivity|]. split; [reflexivity|].
        unfold quits. cbn. split; [auto|]. intros [E|E]; [congruence|auto].
      * destruct (map (firstn n) (filter (fun x => n <=? length x) (map word_bits (before_quit ws)))) as [|x V].
        -- unfold quits in *. cbn. destruct IH as [[Q R]|[Q R]]; [left; auto|right]. split; [intros [E|E]; [congruence|auto]|exact R].
        -- destruct IH as (H1 & rest & H2 & H3 & H4). split; [exact H1|]. exists rest. split; [exact H2|]. split; [exact H3|].
           unfold quits in *. cbn. rewrite H4. split; [auto|]. intros [E|E]; [congruence|auto].
Qed.

Lemma known_within {S} n f (inv : S -> Prop) m l ms : has_cache m = false -> known n f inv m l ms -> within m l.
Proof. intros HC [_ K]. unfold within. destruct m; try discriminate HC; cbn in *; [trivial|]. lia. Qed.

Section Human.
  Context {S : Type} (o : fobj S) (n : nat) (f : bv -> dbl) (inv : S -> Prop).
  Context (Hinv : forall t x, inv t -> length x = n -> snd (o t (REval x)) = Ok (RValue (f x)) /\ inv (fst (o t (REval x)))).
  Context (HN : numbers n f) (mid : middle) (target : option dbl) (Hb : forall b, budget_of mid = Some b -> (0 < b)%Z).
  Context (Hn : 0 < n) (num : Z) (words : list string).
  Local Notation C := (controlled_obj mid target o).
  Local Notation A := (human_machine n num words).
  Local Notation kn := (known n f inv mid).
  Local Notation below := (below_target target).
  Local Notation within := (within mid).

  Definition limit (k : nat) : bool := negb (k =? 0) && (0 <? num)%Z && (num <=? Z.of_nat (k - 1))%Z.

  (** In the state [st], the values [l] have been given. *)
  Definition human_at (l : list (bv * dbl)) (st : human_state) (cs : option (bv * dbl) * middle_state mid (improvement * (nat * S))) : Prop :=
    hu_calls st = length l /\ length (fst (hu_solution st)) = n /\ kn l (snd cs) /\ below l /\ within l /\ best_so_far (length l =? 0) l (hu_solution st) /\
    (l = [] -> fst (hu_solution st) = repeat false n).

  Lemma silent_forever fuel st cs : ma_next A st = MSilent -> ma_after A st (Ok RVoid) = st -> play C A fuel st cs = None.
  Proof. intros H1 H2. induction fuel as [|fuel IH]; [reflexivity|]. cbn [play]. now rewrite H1, H2. Qed.

  (** How the run ends *)
  Inductive human_ends (l : list (bv * dbl)) (V : list bv) (ws : list string) (st : human_state)
      (cs : option (bv * dbl) * middle_state mid (improvement * (nat * S))) (fuel : nat) : Prop :=
  | ends_target k l0 x t st' cs' : k <= length V -> l ++ valued f (firstn k V) = l0 ++ [(x, f x)] -> below l0 -> target = Some t -> dge (f x) t = true ->
      play C A fuel st cs = Some (st', cs', Throw TargetReached) -> fst cs' = Some (x, f x) -> kn (l ++ valued f (firstn k V)) (snd cs') -> within (l ++ valued f (firstn k V)) ->
      (forall j, j < k -> limit (length l + j) = false) -> human_ends l V ws st cs fuel
  | ends_other k st' cs' r : k <= length V -> human_at (l ++ valued f (firstn k V)) st' cs' -> play C A fuel st cs = Some (st', cs', r) ->
      (r = Ok tt /\ limit (length l + k) = true) \/
        (r = Throw LastEvaluation /\ limit (length l + k) = false /\
          ((k = length V /\ quits ws) \/ (k < length V /\ budget_of mid = Some (Z.of_nat (length l + k))))) ->
      (forall j, j < k -> limit (length l + j) = false) -> human_ends l V ws st cs fuel
  | ends_never st' cs' : human_at (l ++ valued f V) st' cs' -> ~ quits ws -> (forall j, j <= length V -> limit (length l + j) = false) -> (forall fuel, play C A fuel st cs = None) -> human_ends l V ws st cs fuel.

  Lemma human_play V : forall ws st cs l fuel, hu_words st = ws -> typed_vectors n ws = V -> human_at l st cs ->
    (has_cache mid = false \/ NoDup (map fst l ++ V)) -> length V < fuel -> human_ends l V ws st cs fuel.
  Proof.
    induction V as [|x V IH]; intros ws st cs l fuel HW HV HA HD HF; (destruct fuel as [|fuel]; [cbn in HF; lia|]);
      pose proof HA as (A1 & A2 & A3 & A4 & A5 & A6 & A7); pose proof (answer_spec n ws Hn) as AS; rewrite HV in AS;
      destruct (limit (length l)) eqn:EL.
    - apply ends_other with (k := 0) (st' := st) (cs' := cs) (r := Ok tt); [lia|cbn; now rewrite app_nil_r| |left; rewrite Nat.add_0_r; auto|lia].
      cbn [play]. replace (ma_next A st) with MReturn; [reflexivity|]. cbn. rewrite A1. unfold limit in EL. now rewrite EL.
    - destruct AS as [[Q [rest E]]|[Q E]].
      + apply ends_other with (k := 0) (st' := st) (cs' := cs) (r := Throw LastEvaluation); [lia|cbn; now rewrite app_nil_r| |right; rewrite Nat.add_0_r; auto|lia].
        cbn [play]. replace (ma_next A st) with (MThrow LastEvaluation); [reflexivity|]. cbn. rewrite A1. unfold limit in EL. rewrite EL. unfold hu_answer. now rewrite A2, HW, E.
      + apply ends_never with (st' := st) (cs' := cs); [cbn; now rewrite app_nil_r|exact Q|intros j Hj; cbn in Hj; now replace (length l + j) with (length l) by lia|].
        intros fuel'. apply silent_forever; cbn; unfold hu_answer; rewrite A2, HW, E; [|reflexivity]. rewrite A1. unfold limit in EL. now rewrite EL.
    - apply ends_other with (k := 0) (st' := st) (cs' := cs) (r := Ok tt); [lia|cbn; now rewrite app_nil_r| |left; rewrite Nat.add_0_r; auto|lia].
      cbn [play]. replace (ma_next A st) with MReturn; [reflexivity|]. cbn. rewrite A1. unfold limit in EL. now rewrite EL.
    - destruct AS as (Hx & rest & E & ER & EQ). destruct cs as [tr ms]. cbn [snd] in A3.
      assert (En : ma_next A st = MCall (REval x)) by (cbn; rewrite A1; unfold limit in EL; rewrite EL; unfold hu_answer; now rewrite A2, HW, E).
      assert (NL : Forall (fun p => is_nan (snd p) = false) l).
      { destruct A3 as [T _]. apply Forall_forall. intros [z v] Hz. now destruct (tracked_value n f inv HN _ l _ z v T Hz) as (_ & _ & ?). }
      assert (NX : has_cache mid = false \/ NoDup (map fst l ++ [x])).
      { destruct HD as [HD|HD]; [now left|right]. replace (map fst l ++ x :: V) with ((map fst l ++ [x]) ++ V) in HD by now rewrite <- app_assoc. exact (NoDup_prefix _ _ HD). }
      destruct (controlled_answered o n f inv Hinv HN mid target l tr ms x A3 Hx) as [(K1 & K2 & K3)|(K1 & K2 & K3)]; set (p := C (tr, ms) (REval x)) in *.
      + assert (W' : within (l ++ [(x, f x)])).
        { destruct NX as [NX|NX]; [exact (known_within n f inv mid _ _ NX K1)|]. unfold Search_Proofs.within. rewrite app_length. cbn [length].
          specialize (K2 NX). destruct (budget_of mid); auto. lia. }
        assert (R : (exists t, target = Some t /\ dge (f x) t = true /\ snd p = Throw TargetReached /\ fst (fst p) = Some (x, f x)) \/
                    (snd p = Ok (RValue (f x)) /\ below [(x, f x)])).
        { destruct target as [t|]; [|right; split; [apply K3|intros t; discriminate]].
          destruct (dge (f x) t) eqn:D; [left; exists t; tauto|]. right. split; [apply K3|]. intros t' [= <-]. auto. }
        destruct R as [(t & Et & D & R1 & R2)|[R1 R2]].
        * apply ends_target with (k := 1) (l0 := l) (x := x) (t := t) (st' := ma_after A st (Throw TargetReached)) (cs' := fst p); cbn [firstn valued map length]; auto; [lia| |intros j Hj; now replace (length l + j) with (length l) by lia].
          cbn [play]. rewrite En. fold p. destruct p as [cs' a]. cbn [fst snd] in *. now subst a.
        * set (st' := ma_after A st (Ok (RValue (f x)))).
          assert (Es : st' = mk_human rest (length l + 1) (if length l =? 0 then (x, f x) else update_pair x (f x) (hu_solution st))).
          { unfold st'. cbn. unfold hu_answer. rewrite A2, HW, E. now rewrite A1. }
          assert (Ep : forall fu, play C A (Datatypes.S fu) st (tr, ms) = play C A fu st' (fst p)).
          { intros fu. cbn [play]. rewrite En. fold p. unfold st'. destruct p as [cs' a]. cbn [fst snd] in *. now subst a. }
          assert (HA' : human_at (l ++ [(x, f x)]) st' (fst p)).
          { rewrite Es. unfold human_at. cbn [hu_calls hu_solution]. split; [now rewrite app_length|]. split; [|split; [exact K1|split; [|split; [exact W'|split]]]].
            - destruct (length l =? 0); [exact Hx|]. unfold update_pair. destruct (dgt _ _); [exact Hx|exact A2].
            - intros t Et. apply Forall_app. split; [now apply A4|now apply R2].
            - rewrite app_length. cbn [length]. replace (length l + 1 =? 0) with false by (symmetry; apply Nat.eqb_neq; lia). destruct l as [|p0 l].
              + cbn. split; [reflexivity|]. exists 0. now apply best_record_one, HN.
              + cbn [length Nat.eqb]. apply (best_so_far_update false); [discriminate|now apply HN|exact NL|exact A6].
            - intros E0. now destruct l. }
          destruct (IH rest st' (fst p) (l ++ [(x, f x)]) fuel) as [k l0 y t st2 cs2 Hk H1 H2 H3 H4 H5 H6 H7 H8 H9|k st2 cs2 r Hk H1 H2 H3 H4|st2 cs2 H1 H2 H3 H4].
          { now rewrite Es. } { exact ER. } { exact HA'. }
          { destruct HD as [HD|HD]; [now left|right]. rewrite map_app. cbn [map fst]. now rewrite <- app_assoc. }
          { cbn in HF. lia. }
          all: assert (Ek : forall k, (l ++ [(x, f x)]) ++ valued f (firstn k V) = l ++ valued f (firstn (Datatypes.S k) (x :: V))) by (intros k'; cbn; now rewrite <- app_assoc).
          all: rewrite ?app_length in *; cbn [length] in *.
          -- apply ends_target with (k := Datatypes.S k) (l0 := l0) (x := y) (t := t) (st' := st2) (cs' := cs2); rewrite <- ?Ek; auto; [cbn; lia|now rewrite Ep|].
             intros j Hj. destruct j as [|j]; [now rewrite Nat.add_0_r|]. replace (length l + Datatypes.S j) with (length l + 1 + j) by lia. apply H9. lia.
          -- apply ends_other with (k := Datatypes.S k) (st' := st2) (cs' := cs2) (r := r); rewrite <- ?Ek; auto; [cbn; lia|now rewrite Ep| |].
             ++ cbn [length]. replace (length l + Datatypes.S k) with (length l + 1 + k) by lia. destruct H3 as [H3|(H3 & H5 & [[H6 H7]|[H6 H7]])]; [left; exact H3|right..]; split; auto; split; auto; [left|right]; split; auto; try lia. now apply EQ.
             ++ intros j Hj. destruct j as [|j]; [now rewrite Nat.add_0_r|]. replace (length l + Datatypes.S j) with (length l + 1 + j) by lia. apply H4. lia.
          -- apply ends_never with (st' := st2) (cs' := cs2).
             ++ cbn. now rewrite <- app_assoc in H1.
             ++ intros Q. apply H2. now apply EQ.
             ++ intros j Hj. destruct j as [|j]; [now rewrite Nat.add_0_r|]. replace (length l + Datatypes.S j) with (length l + 1 + j) by lia. apply H3. cbn in Hj. lia.
             ++ intros [|fu]; [reflexivity|]. now rewrite Ep.
      + apply ends_other with (k := 0) (st' := ma_after A st (Throw LastEvaluation)) (cs' := fst p) (r := Throw LastEvaluation); [lia| | | |lia].
        * cbn [firstn valued map]. rewrite app_nil_r. cbn [ma_after human_machine]. unfold hu_answer. rewrite A2, HW, E. unfold human_at. cbn [hu_calls hu_solution]. exact (conj A1 (conj A2 (conj K2 (conj A4 (conj A5 (conj A6 A7)))))).
        * cbn [play]. rewrite En. fold p. destruct p as [cs' a]. cbn [fst snd] in *. now subst a.
        * right. rewrite Nat.add_0_r. split; [reflexivity|]. split; [exact EL|]. right. split; [cbn; lia|]. destruct (budget_of mid) as [b|] eqn:Eb; [|destruct K3]. destruct K3 as [K3 K4].
          f_equal. unfold Search_Proofs.within in A5. rewrite Eb in A5. lia.
  Qed.
End Human.

Lemma limit_spec num k : limit num k = true <-> (0 < num < Z.of_nat k)%Z.
Proof.
  unfold limit. rewrite !andb_true_iff, negb_true_iff, Nat.eqb_neq, Z.ltb_lt, Z.leb_le. lia.
Qed.

Section Run.
  Context (ap : app_options) (co : controller_options) (m : option hmap) (F : func) (mid : middle) (target : option dbl) (i n : nat) (f : bv -> dbl).
  Context (Hi : 0 < i) (HO : optimizes ap) (HR : ap_restart ap = false) (HC : make_function_controller co F = Ok (mid, target)).
  Context (HM : map_fits m i n) (HK : kind_known m) (HF : fp_size (f_props F) = i) (HT : total (f_obj F) (f_init F) i f) (HN : numbers i f).
  Context (num : Z) (words : list string).
  Let V := typed_vectors i words.
  Context (HD : co_cache co = false \/ NoDup V).

  Lemma human_run :
    (settled co target f i num words -> V <> [] -> forall fuel, length V < fuel ->
      exists r x success, program ap co (Ok (Some (m, F))) (make_human num words) fuel = Some (report ap co m i r x success) /\
        rs_success r = (match co_stop_on_maximum co, co_target co with false, None => None | _, _ => Some success end) /\
        search_ends f target V (allowed co (asked num (length V))) r x success) /\
    (quits words -> V = [] -> forall fuel, 0 < fuel ->
      exists r, program ap co (Ok (Some (m, F))) (make_human num words) fuel = Some (report ap co m i r (repeat false i) false) /\ rs_value r = None /\ rs_total r = 0) /\
    (~ settled co target f i num words -> forall fuel, program ap co (Ok (Some (m, F))) (make_human num words) fuel = None).
  Proof using Hi HO HR HC HM HK HF HT HN HD.
    destruct (total_inv _ _ _ _ HT) as (inv & I0 & Hinv).
    assert (HFa : make_human num words (fp_size (f_props F)) = Ok (human_machine i num words)).
    { unfold make_human. rewrite HF. destruct (Nat.ltb_spec 0 i); [reflexivity|lia]. }
    assert (EMid : mid = middle_of co).
    { unfold make_function_controller in HC. destruct (target_of co (f_props F)); try discriminate. now injection HC as <- _. }
    assert (EM : budget_of mid = if (0 <? co_budget co)%Z then Some (co_budget co) else None) by (rewrite EMid; apply budget_of_middle).
    assert (ECa : has_cache mid = co_cache co).
    { rewrite EMid. unfold middle_of. destruct (0 <? co_budget co)%Z, (co_cache co), (co_cache_budget co); reflexivity. }
    assert (Hb : forall b, budget_of mid = Some b -> (0 < b)%Z). { rewrite EM. destruct (Z.ltb_spec 0 (co_budget co)); intros b [= <-]; lia. }
    assert (K0 : known i f inv mid [] (snd (controlled_init mid i (f_init F)))).
    { apply known_init; auto. intros b Eb. specialize (Hb b Eb). lia. }
    set (A := human_machine i num words) in *. set (st0 := ma_begin A (ma_init A)). set (cs0 := controlled_init mid i (f_init F)) in *.
    assert (HA : human_at (S := f_state F) i f inv mid target [] st0 cs0).
    { split; [reflexivity|]. split; [apply repeat_length|]. split; [exact K0|]. split; [intros t _; constructor|]. split; [|split; reflexivity].
      unfold within. destruct (budget_of mid) eqn:Eb; auto. specialize (Hb _ eq_refl). cbn. lia. }
    assert (PR : forall fuel, program ap co (Ok (Some (m, F))) (make_human num words) fuel =
      match play (controlled_obj mid target (f_obj F)) A fuel st0 cs0 with
      | None => None | Some (st, cs, r) => Some (end_of_program (end_of_run ap co m F mid target A st cs r)) end).
    { intros fuel. pose proof (program_run ap co m F (make_human num words) A mid target HO HC HFa fuel) as PR. unfold run_by in PR. now rewrite HR, HF in PR. }
    assert (PL : forall fuel, length V < fuel -> human_ends (f_obj F) i f inv mid target num words [] V words st0 cs0 fuel).
    { intros fuel Hfu. apply human_play; auto. cbn [map app]. rewrite ECa. exact HD. }
    assert (LV : forall x, In x V -> length x = i).
    { intros x Hx. unfold V, typed_vectors in Hx. apply in_map_iff in Hx as (y & <- & Hy). apply filter_In in Hy as [_ Hy]. apply Nat.leb_le in Hy. rewrite firstn_length. lia. }
    (** the size of what is evaluated *)
    assert (BD : forall k, k <= length V -> within mid (valued f (firstn k V)) -> (forall j, j < k -> limit num j = false) -> k <= allowed co (asked num (length V))).
    { intros k Hk W L. unfold within in W. rewrite EM, valued_length, firstn_length, Nat.min_l in W by exact Hk.
      assert (K : k <= asked num (length V)).
      { unfold asked. destruct (Z.ltb_spec 0 num); [|exact Hk]. apply Nat.min_glb; [|exact Hk]. destruct k as [|k]; [lia|]. specialize (L k ltac:(lia)).
        destruct (Nat.le_gt_cases (Datatypes.S k) (Z.to_nat num + 1)) as [|G]; [assumption|]. assert (limit num k = true) by (apply limit_spec; lia). congruence. }
      unfold allowed. destruct (Z.ltb_spec 0 (co_budget co)); [apply Nat.min_glb; [lia|exact K]|exact K]. }
    assert (IN : forall b x, In x (firstn b V) -> In x V) by (intros b x Hx; rewrite <- (firstn_skipn b V); apply in_or_app; now left).
    assert (AL : allowed co (asked num (length V)) <= length V).
    { unfold allowed, asked. destruct (0 <? co_budget co)%Z, (0 <? num)%Z; lia. }
    split; [|split].
    - intros ST NV fuel Hfu. rewrite PR.
      destruct (PL fuel Hfu) as [k l0 x t st cs Hk H1 H2 H3 H4 H5 H6 H7 H8 H9|k st cs r Hk H1 H2 H3 H4|st cs H1 H2 H3 H4]; cbn [app length Nat.add] in *.
      + fold A in H5. rewrite H5. set (l := valued f (firstn k V)) in *. pose proof (BD k Hk H8 H9) as KB.
        assert (Ll : length l = k) by (unfold l; rewrite valued_length, firstn_length; lia).
        assert (DC : negb (has_cache mid) = true \/ NoDup (map fst l)).
        { rewrite ECa. destruct HD as [->|D]; [now left|right]. unfold l. rewrite valued_fst. now apply (NoDup_prefix _ (skipn k V)); rewrite firstn_skipn. }
        pose proof (proj1 H7) as T. pose proof T as (_ & HFl & _ & T2 & T3). specialize (T2 DC).
        assert (NL : Forall (fun p => is_nan (snd p) = false) l).
        { apply Forall_forall. intros [z v] Hz. now destruct (tracked_value i f inv HN _ l _ z v T Hz) as (_ & _ & ?). }
        rewrite Forall_forall in NL, HFl.
        assert (Ne : l <> []) by (rewrite H1; now destruct l0).
        assert (Hx : In (x, f x) l) by (rewrite H1; apply in_or_app; right; now left).
        assert (Lx : length x = i) by (now destruct (HFl _ Hx)).
        exists (final_results co mid cs true), x, true.
        assert (CO : concludes A st (fst cs) (Throw TargetReached) x true) by (econstructor; exact H6).
        split; [f_equal; apply (end_spec ap co m F mid target i n HC HM HK HF A st cs _ x true CO); [rewrite H3; discriminate|exact Lx]|].
        split; [unfold final_results; destruct (co_stop_on_maximum co), (co_target co); reflexivity|].
        assert (L0 : k = length l0 + 1) by (rewrite <- Ll, H1, app_length; reflexivity).
        assert (NX : nth_error l (length l0) = Some (x, f x)) by (rewrite H1, nth_error_app2, Nat.sub_diag; [reflexivity|lia]).
        specialize (H2 t H3). rewrite Forall_forall in H2.
        assert (BX : best_record l (length l0) x (f x)).
        { assert (BL : forall j y w, j < length l0 -> nth_error l j = Some (y, w) -> dlt w (f x) = true).
          { intros j y w Hj Hy. rewrite H1, nth_error_app1 in Hy by auto. apply nth_error_In in Hy. specialize (H2 _ Hy). cbn in H2.
            assert (Hw : In (y, w) l) by (rewrite H1; apply in_or_app; auto). pose proof (NL _ Hw) as N1. cbn in N1.
            destruct (dle_nan _ _ H4) as [Nt _]. unfold dge in H2. exact (dlt_dle_trans _ _ _ (not_le_lt _ _ Nt N1 H2) H4). }
          split; [exact NX|]. split.
          - intros j y w Hy. right. destruct (Nat.lt_ge_cases j (length l0)) as [Hj|Hj]; [exact (dlt_le _ _ (BL j y w Hj Hy))|].
            assert (j = length l0) as -> by (assert (j < length l) by (apply nth_error_Some; congruence); lia). rewrite NX in Hy. injection Hy as <- <-.
            apply dle_refl. exact (NL _ Hx).
          - intros j y w Hj Hy. right. eauto. }
        destruct (T3 Ne) as (_ & k2 & z & v & B1 & B2 & B3).
        destruct (best_record_unique l k2 z v (length l0) x (f x) (NL _ (best_record_In _ _ _ _ B1)) (NL _ Hx) B1 BX) as (-> & -> & ->).
        apply reached with (t := t) (k := length l0); auto.
        * lia.
        * assert (K : nth_error (map fst l) (length l0) = Some x) by (rewrite nth_error_map, NX; reflexivity). unfold l in K. rewrite valued_fst in K.
          rewrite <- (firstn_skipn k V). rewrite nth_error_app1; [exact K|]. rewrite firstn_length. lia.
        * intros y Hy. apply (H2 (y, f y)).
          assert (El0 : l0 = valued f (firstn (length l0) V)).
          { transitivity (firstn (length l0) l); [rewrite H1, firstn_app, firstn_all, Nat.sub_diag; cbn; now rewrite app_nil_r|].
            unfold l, valued. rewrite firstn_map, firstn_firstn. do 2 f_equal. lia. }
          rewrite El0. unfold valued. apply in_map_iff. eauto.
        * cbn [final_results rs_total]. rewrite T2, Ll. exact L0.
      + fold A in H2. rewrite H2. destruct H1 as (A1 & A2 & A3 & A4 & A5 & A6 & _). set (l := valued f (firstn k V)) in *. pose proof (BD k Hk A5 H4) as KB.
        assert (Ll : length l = k) by (unfold l; rewrite valued_length, firstn_length; lia).
        assert (KP : 0 < k).
        { destruct k as [|k]; [|lia]. destruct H3 as [[_ H3]|(_ & _ & [[H3 _]|[_ H3]])]; [apply limit_spec in H3; lia|destruct V; [congruence|discriminate]|specialize (Hb _ H3); lia]. }
        assert (EB : allowed co (asked num (length V)) = k).
        { apply Nat.le_antisymm; [|exact KB]. unfold allowed, asked. rewrite EM in H3. destruct H3 as [[_ H3]|(_ & H5 & [[H3 _]|[H3 H6]])].
          - apply limit_spec in H3. destruct (Z.ltb_spec 0 num); [|lia]. destruct (0 <? co_budget co)%Z; lia.
          - destruct (0 <? co_budget co)%Z, (0 <? num)%Z; lia.
          - destruct (Z.ltb_spec 0 (co_budget co)); [|discriminate]. injection H6 as H6. destruct (0 <? num)%Z; lia. }
        assert (DC : negb (has_cache mid) = true \/ NoDup (map fst l)).
        { rewrite ECa. destruct HD as [->|D]; [now left|right]. unfold l. rewrite valued_fst. now apply (NoDup_prefix _ (skipn k V)); rewrite firstn_skipn. }
        pose proof (proj1 A3) as T. pose proof T as (_ & HFl & _ & T2 & T3). specialize (T2 DC).
        assert (NL : Forall (fun p => is_nan (snd p) = false) l).
        { apply Forall_forall. intros [z v] Hz. now destruct (tracked_value i f inv HN _ l _ z v T Hz) as (_ & _ & ?). }
        rewrite Forall_forall in NL, HFl.
        assert (Ne : l <> []) by (intros E; rewrite E in Ll; cbn in Ll; lia).
        set (x := fst (hu_solution st)).
        assert (BX : exists k', best_record l k' x (f x)).
        { destruct l; [now destruct Ne|]. destruct A6 as [_ [k' A6]]. exists k'. fold x in A6. destruct (HFl _ (best_record_In _ _ _ _ A6)) as [_ K]. cbn in K. now rewrite <- K. }
        destruct BX as [k' BX].
        exists (final_results co mid cs false), x, false.
        assert (CO : concludes A st (fst cs) r x false) by (destruct H3 as [[-> _]|[-> _]]; constructor).
        split; [f_equal; apply (end_spec ap co m F mid target i n HC HM HK HF A st cs r x false CO); [discriminate|exact A2]|].
        split; [unfold final_results; destruct (co_stop_on_maximum co), (co_target co); reflexivity|].
        rewrite EB. destruct (T3 Ne) as (_ & k2 & z & v & B1 & B2 & B3).
        destruct (best_record_unique l k2 z v k' x (f x) (NL _ (best_record_In _ _ _ _ B1)) (NL _ (best_record_In _ _ _ _ BX)) B1 BX) as (-> & -> & ->).
        apply missed with (k := k').
        * intros t y Et Hy. specialize (A4 t Et). rewrite Forall_forall in A4. apply (A4 (y, f y)). unfold l, valued. apply in_map_iff. eauto.
        * exact BX.
        * exact B2.
        * exact (B3 DC).
        * cbn [final_results rs_total]. rewrite T2. exact Ll.
      + exfalso. destruct H1 as (_ & _ & _ & A4 & A5 & _). specialize (H3 (length V) (Nat.le_refl _)). fold V in ST. destruct ST as [ST|[ST|[ST|(t & x & Et & Hx & D)]]].
        * contradiction.
        * fold V in ST. assert (limit num (length V) = true) by (apply limit_spec; lia). congruence.
        * fold V in ST. unfold within in A5. rewrite EM, valued_length in A5. destruct (Z.ltb_spec 0 (co_budget co)); lia.
        * fold V in Hx. specialize (A4 t Et). rewrite Forall_forall in A4. specialize (A4 (x, f x)). cbn in A4. rewrite A4 in D; [discriminate|].
          unfold valued. apply in_map_iff. exists x. split; [reflexivity|]. exact (IN _ _ Hx).
    - intros Q EV fuel Hfu. rewrite PR.
      destruct (PL fuel) as [k l0 x t st cs Hk H1 H2 H3 H4 H5 H6 H7 H8 H9|k st cs r Hk H1 H2 H3 H4|st cs H1 H2 H3 H4]; [now rewrite EV|..]; rewrite EV in *; cbn [app length Nat.add] in *.
      + exfalso. destruct k; [|cbn in Hk; lia]. cbn in H1. now destruct l0.
      + fold A in H2. rewrite H2. assert (k = 0) as -> by lia. cbn [firstn valued map] in H1. destruct H1 as (A1 & A2 & A3 & A4 & A5 & A6 & A7).
        exists (final_results co mid cs false).
        assert (CO : concludes A st (fst cs) r (repeat false i) false).
        { rewrite <- (A7 eq_refl). destruct H3 as [[-> _]|[-> _]]; constructor. }
        split; [f_equal; apply (end_spec ap co m F mid target i n HC HM HK HF A st cs r _ false CO); [discriminate|apply repeat_length]|].
        destruct fuel as [|fuel]; [lia|]. cbn [play] in H2. unfold final_results. cbn [rs_value rs_total].
        assert (En : ma_next A st0 = MThrow LastEvaluation).
        { pose proof (answer_spec i words Hi) as AS. fold V in AS. rewrite EV in AS. destruct AS as [[_ [rest E]]|[E _]]; [|contradiction].
          unfold A, st0. cbn. unfold hu_answer. cbn. now rewrite repeat_length, E. }
        rewrite En in H2. injection H2 as _ <- _. unfold cs0, controlled_init. cbn. destruct mid; cbn; auto.
      + contradiction.
    - intros NS fuel. rewrite PR.
      assert (G : forall a b, a <= b -> play (controlled_obj mid target (f_obj F)) A b st0 cs0 = None -> play (controlled_obj mid target (f_obj F)) A a st0 cs0 = None).
        { intros a b Hab. generalize st0 cs0. revert b Hab. induction a as [|a IH]; intros b Hab st cs E; [reflexivity|]. destruct b as [|b]; [lia|].
          cbn [play] in *. destruct (ma_next A st); try discriminate; [|apply (IH b); [lia|exact E]]. destruct (controlled_obj mid target (f_obj F) cs r) as [cs' [p|e|]]; try discriminate. apply (IH b); [lia|exact E]. }
      rewrite (G fuel (fuel + length V + 1)); [reflexivity|lia|].
      destruct (PL (fuel + length V + 1) ltac:(lia)) as [k l0 x t st cs Hk H1 H2 H3 H4 H5 H6 H7 H8 H9|k st cs r Hk H1 H2 H3 H4|st cs H1 H2 H3 H4]; cbn [app length Nat.add] in *.
      + destruct NS. right. right. right. exists t, x. split; [exact H3|]. split; [|exact H4]. fold V. pose proof (BD k Hk H8 H9) as KB.
        assert (Hx : In (x, f x) (valued f (firstn k V))) by (rewrite H1; apply in_or_app; right; now left). apply in_map_iff in Hx as (y & E & Hy). injection E as -> _.
        replace (firstn k V) with (firstn k (firstn (allowed co (asked num (length V))) V)) in Hy by (rewrite firstn_firstn; f_equal; lia).
        rewrite <- (firstn_skipn k (firstn _ V)). apply in_or_app. now left.
      + destruct NS. destruct H3 as [[_ H3]|(_ & _ & [[_ H3]|[H5 H6]])].
        * right. left. fold V. apply limit_spec in H3. lia.
        * now left.
        * right. right. left. fold V. rewrite EM in H6. destruct (Z.ltb_spec 0 (co_budget co)); [|discriminate]. injection H6 as H6. lia.
      + exact (H4 _).
  Qed.
End Run.
