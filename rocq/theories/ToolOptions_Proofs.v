(** Proofs about the command lines of mapgen, ffgen and hnco-mo. *)

From Coq Require Import ZArith NArith String Ascii Permutation Lia.
From Verif Require Import Base BaseLemmas Text_Model Text_Proofs Double Controller_Model Application_Model Options_Model Options_Spec Options_Proofs ToolOptions_Model ToolOptions_Spec.
Local Open Scope nat_scope.
Local Open Scope string_scope.
Local Open Scope list_scope.

Section Tool.
Variable t : tool.
Local Notation long_options := (ToolOptions_Model.long_options t).
Local Notation short_options := (ToolOptions_Model.short_options t).
Local Notation cases := (ToolOptions_Model.cases t).
Local Notation members := (ToolOptions_Model.members t).
Local Notation getters := (ToolOptions_Model.getters t).
Local Notation presences := (ToolOptions_Model.presences t).
Local Notation printed_members := (ToolOptions_Model.printed_members t).
Local Notation cluster := (ToolOptions_Model.cluster t).
Local Notation getopt_long := (ToolOptions_Model.getopt_long t).
Local Notation no_options := (ToolOptions_Model.no_options t).
Local Notation case_of := (ToolOptions_Model.case_of t).
Local Notation perform := (ToolOptions_Model.perform t).
Local Notation make_options := (ToolOptions_Model.make_options t).
Local Notation get := (ToolOptions_Model.get t).
Local Notation with_option := (ToolOptions_Model.with_option t).
Local Notation print_options := (ToolOptions_Model.print_options t).
Local Notation documented := (ToolOptions_Spec.documented t).
Local Notation pages := (ToolOptions_Spec.pages t).
Local Notation option_names := (ToolOptions_Spec.option_names t).
Local Notation stands_for := (ToolOptions_Spec.stands_for t).
Local Notation writes := (ToolOptions_Spec.writes t).
Local Notation has_value := (ToolOptions_Spec.has_value t).
Local Notation valued_letter := (ToolOptions_Spec.valued_letter t).
Local Notation wrong := (ToolOptions_Spec.wrong t).
Local Notation values_line := (ToolOptions_Spec.values_line t).
Local Notation flags_line := (ToolOptions_Spec.flags_line t).

Definition exact (n : string) : option (bool * label) :=
  match find (fun '(m, _, _) => String.eqb m n) long_options with Some (_, a, l) => Some (a, l) | None => None end.
Definition good (p : param) : Prop :=
  (exists l, exact (p_name p) = Some (valuedb p, l) /\ case_of l = Some (expected_action p)) /\
  (forall c, p_short p = Some c -> valuedb p = true /\ c <> "-"%char /\ find_short short_options c = Some true /\ case_of (Letter c) = Some (expected_action p)) /\
  no_options (present p) = Some (VBool false) /\
  find (fun '(n, _) => String.eqb n (accessor p)) presences = Some (accessor p, present p) /\
  (valuedb p = true -> no_options (accessor p) = default_of p /\
     find (fun '(n, _, _) => String.eqb n (accessor p)) getters =
       Some (accessor p, match p_default p with None => Some (present p) | Some _ => None end, accessor p)).
Definition label_of (p : param) : label := match exact (p_name p) with Some (_, l) => l | None => Letter " " end.
Ltac table := cbv beta delta [exact label_of]; destruct t; vm_compute; reflexivity.
Lemma all_good p : In p documented -> good p.
Proof.
  intros H.
  assert (G1 : (exact (p_name p), case_of (label_of p)) = (Some (valuedb p, label_of p), Some (expected_action p))).
  { revert p H. apply (map_same (fun p => (exact (p_name p), case_of (label_of p))) (fun p => (Some (valuedb p, label_of p), Some (expected_action p)))). table. }
  assert (G2 : match p_short p with
               | Some c => (valuedb p, Ascii.eqb c "-", find_short short_options c, case_of (Letter c))
               | None => (true, false, Some true, Some (expected_action p)) end = (true, false, Some true, Some (expected_action p))).
  { revert p H G1. intros p H _. revert p H.
    apply (map_same (fun p => match p_short p with
               | Some c => (valuedb p, Ascii.eqb c "-", find_short short_options c, case_of (Letter c))
               | None => (true, false, Some true, Some (expected_action p)) end) (fun p => (true, false, Some true, Some (expected_action p)))). table. }
  assert (G3 : (no_options (present p), find (fun '(n, _) => String.eqb n (accessor p)) presences) = (Some (VBool false), Some (accessor p, present p))).
  { clear G1 G2. revert p H. apply (map_same (fun p => (no_options (present p), find (fun '(n, _) => String.eqb n (accessor p)) presences))
      (fun p => (Some (VBool false), Some (accessor p, present p)))). table. }
  assert (G4 : (if valuedb p then (no_options (accessor p), find (fun '(n, _, _) => String.eqb n (accessor p)) getters) else (None, None)) =
      (if valuedb p then (default_of p, Some (accessor p, match p_default p with None => Some (present p) | Some _ => None end, accessor p)) else (None, None))).
  { clear G1 G2 G3. revert p H. apply (map_same (fun p => if valuedb p then (no_options (accessor p), find (fun '(n, _, _) => String.eqb n (accessor p)) getters) else (None, None))
      (fun p => if valuedb p then (default_of p, Some (accessor p, match p_default p with None => Some (present p) | Some _ => None end, accessor p)) else (None, None))).
    table. }
  assert (E1 : exact (p_name p) = Some (valuedb p, label_of p)) by congruence. assert (E2 : case_of (label_of p) = Some (expected_action p)) by congruence.
  assert (E3 : no_options (present p) = Some (VBool false)) by congruence.
  assert (E4 : find (fun '(n, _) => String.eqb n (accessor p)) presences = Some (accessor p, present p)) by congruence.
  split; [eauto|]. split; [|split; [exact E3|split; [exact E4|]]].
  - intros c E. rewrite E in G2. split; [congruence|]. split; [|split; congruence]. intros ->. discriminate.
  - intros V. rewrite V in G4. split; congruence.
Qed.
Definition name_list : list string := map (fun '(n, _, _) => n) long_options.
Lemma names_nodup : NoDup name_list.
Proof. unfold name_list. apply nodupb_NoDup. table. Qed.
Lemma documented_nodup : NoDup (map p_name documented).
Proof. apply nodupb_NoDup. table. Qed.
Lemma members_nodup : NoDup (map accessor documented ++ map (fun p => ("with_" ++ accessor p)%string) documented).
Proof. apply nodupb_NoDup. table. Qed.
Lemma names_same n : In n option_names <-> In n name_list.
Proof. unfold name_list. split; apply inclb_incl; table. Qed.
Lemma names_lack n : In n option_names -> has_equal n = false.
Proof.
  assert (E : forallb (fun n => negb (has_equal n)) option_names = true) by (table).
  intros H. rewrite forallb_forall in E. apply E in H. now apply Bool.negb_true_iff.
Qed.
Lemma pages_good n : In n pages -> exists l, exact n = Some (false, l) /\ case_of l = Some (Stop (underscored n)).
Proof.
  set (lab := fun n => match exact n with Some (_, l) => l | None => Letter " " end). intros H. exists (lab n).
  assert (E : (exact n, case_of (lab n)) = (Some (false, lab n), Some (Stop (underscored n)))).
  { revert n H. apply (map_same (fun n => (exact n, case_of (lab n))) (fun n => (Some (false, lab n), Some (Stop (underscored n))))). subst lab. table. }
  split; congruence.
Qed.
Lemma exact_In n a l : exact n = Some (a, l) -> In (n, a, l) long_options.
Proof.
  unfold exact. destruct (find _ _) as [[[m a'] l']|] eqn:E; [|discriminate]. intros [= -> ->]. apply find_some in E as [E1 E2]. apply String.eqb_eq in E2. now subst m.
Qed.
Lemma find_long_stands a n ar l : stands_for a n -> exact n = Some (ar, l) -> find_long long_options a = Some (ar, l).
Proof.
  intros [In_n S] E. apply exact_In in E as HI. unfold find_long. destruct S as [->|[B U]].
  - now rewrite (find_name _ n ar l names_nodup HI).
  - destruct (find _ long_options) as [[[m a'] l']|] eqn:F.
    + apply find_some in F as [F1 F2]. apply String.eqb_eq in F2. subst m.
      assert (a = n). { apply U; [|apply begins_refl]. apply names_same. apply in_map_iff. exists (a, a', l'). auto. }
      subst a. pose proof (find_name _ _ _ _ names_nodup HI) as F3. pose proof (find_name _ _ _ _ names_nodup F1) as F4. rewrite F3 in F4. now injection F4 as -> ->.
    + rewrite (filter_unique long_options (prefix_of a) n ar l names_nodup HI); [reflexivity|now apply prefix_of_spec|].
      intros m Hm P. apply U; [now apply names_same|now apply prefix_of_spec].
Qed.
Lemma labels_nodup m a l m' a' : In (m, a, l) long_options -> In (m', a', l) long_options -> m = m'.
Proof.
  intros H H'. set (key := fun l => match l with Letter c => String c "" | Code s => String "=" s end).
  assert (N : NoDup (map (fun '(_, _, l) => key l) long_options)) by (apply nodupb_NoDup; table).
  revert N H H'. generalize long_options. intros L. induction L as [|[[n b] k] L IH]; cbn [map In]; intros N H H'; [destruct H|]. inversion N as [|? ? N1 N2]; subst.
  assert (X : forall n a, In (n, a, l) L -> k <> l) by (intros n' b' I ->; apply N1, in_map_iff; exists (n', b', l); auto).
  destruct H as [H|H], H' as [H'|H'].
  - congruence.
  - injection H as -> -> ->. now destruct (X _ _ H').
  - injection H' as -> -> ->. now destruct (X _ _ H).
  - auto.
Qed.
Lemma find_long_stands_inv a ar l : find_long long_options a = Some (ar, l) -> exists n, stands_for a n /\ exact n = Some (ar, l).
Proof.
  assert (EX : forall n ar l, In (n, ar, l) long_options -> exact n = Some (ar, l)).
  { intros n ar' l' I. unfold exact. now rewrite (find_name _ _ _ _ names_nodup I). }
  assert (NI : forall n ar l, In (n, ar, l) long_options -> In n option_names).
  { intros n ar' l' I. apply names_same, in_map_iff. exists (n, ar', l'). auto. }
  unfold find_long. destruct (find _ long_options) as [[[m a'] l']|] eqn:F.
  - intros [= <- <-]. apply find_some in F as [F1 F2]. apply String.eqb_eq in F2. subst m. exists a. split; [|eauto]. split; [eauto|now left].
  - destruct (filter _ long_options) as [|[[m a'] l'] others] eqn:FL; [discriminate|]. destruct (forallb _ others) eqn:A; [|discriminate]. intros [= <- <-].
    assert (M : In (m, a', l') long_options /\ prefix_of a m = true) by (apply (filter_In (fun '(m, _, _) => prefix_of a m) (m, a', l')); rewrite FL; now left).
    destruct M as [M1 M2]. exists m. split; [|eauto]. split; [eauto|]. right. split; [now apply prefix_of_spec|].
    intros n Hn B. apply names_same in Hn. apply in_map_iff in Hn as ([[n' b] k] & <- & Hn). apply prefix_of_spec in B.
    assert (X : In (n', b, k) ((m, a', l') :: others)) by (rewrite <- FL; apply filter_In; auto). destruct X as [X|X]; [congruence|].
    rewrite forallb_forall in A. specialize (A _ X). cbn in A. apply andb_prop in A as [_ A]. apply label_eqb_eq in A. subst k. eapply labels_nodup; eauto.
Qed.
Lemma stands_lacks a n : stands_for a n -> has_equal a = false.
Proof.
  intros [H [->|[[r E] _]]]; [now apply names_lack|]. apply names_lack in H. rewrite E, has_equal_app in H. now apply Bool.orb_false_iff in H.
Qed.
Lemma stands_nonempty a n : stands_for a n -> a <> "".
Proof.
  intros [H S] E0. subst a. assert (N0 : ~ In "" option_names).
  { intros I. assert (E : forallb (fun n => negb (String.eqb n "")) option_names = true) by (table). rewrite forallb_forall in E. specialize (E _ I). discriminate. }
  destruct S as [<-|[_ U]]; [contradiction|].
  assert (E1 : "help" = n) by (apply U; [apply (inclb_incl ["help"]); [table|now left]|now exists "help"]).
  assert (E2 : "version" = n) by (apply U; [apply (inclb_incl ["version"]); [table|now left]|now exists "version"]).
  congruence.
Qed.
Definition next_of (l : label) (rest : list string) : list event :=
  match rest with [] => [Bad] | v :: rest' => Found l v :: getopt_long rest' end.
Lemma getopt_long_word a rest : a <> "" -> getopt_long (("--" ++ a)%string :: rest) =
  let '(name, v) := split_equal a in
  match find_long long_options name, v with
  | Some (true, l), Some v => Found l v :: getopt_long rest
  | Some (true, l), None => next_of l rest
  | Some (false, l), None => Found l "" :: getopt_long rest
  | Some (false, _), Some _ => Bad :: getopt_long rest
  | None, _ => Bad :: getopt_long rest
  end.
Proof. destruct a as [|c a]; [contradiction|]. intros _. reflexivity. Qed.
Lemma getopt_short_word c w rest : c <> "-"%char -> getopt_long (String "-" (String c w) :: rest) =
  let '(es, l) := cluster (String c w) in es ++ match l with None => getopt_long rest | Some l => next_of l rest end.
Proof. intros H. apply Ascii.eqb_neq in H. cbn [getopt_long]. rewrite H. reflexivity. Qed.
Lemma perform_store p l v ig es st : valuedb p = true -> case_of l = Some (expected_action p) ->
  perform ig (Found l v :: es) st = does (Gives p v) ig st (perform ig es).
Proof. intros V E. cbn [perform does]. rewrite E. unfold expected_action. rewrite V. destruct (convert _ _); reflexivity. Qed.
Lemma item_does it ws rest ig st : writes it ws -> perform ig (getopt_long (ws ++ rest)) st = does it ig st (perform ig (getopt_long rest)).
Proof.
  destruct 1 as [p a v D T S|p a v D T S|p c v D T V|p c v D T|p a D T S|w W].
  - destruct (all_good p D) as ((l & E & C) & _). apply valuedb_spec in T as T'. rewrite T' in E. cbn [app].
    assert (A : a <> "") by (eapply stands_nonempty; eauto). rewrite getopt_long_word by (destruct a; [contradiction|discriminate]).
    rewrite split_some by (eapply stands_lacks; eauto). rewrite (find_long_stands a (p_name p) true l S E). now apply perform_store.
  - destruct (all_good p D) as ((l & E & C) & _). apply valuedb_spec in T as T'. rewrite T' in E. cbn [app].
    rewrite getopt_long_word by (eapply stands_nonempty; eauto). rewrite split_none by (eapply stands_lacks; eauto). rewrite (find_long_stands a (p_name p) true l S E).
    cbn [next_of]. now apply perform_store.
  - destruct (all_good p D) as (_ & G & _). destruct (G c T) as (G1 & G2 & G3 & G4). cbn [app]. rewrite getopt_short_word by assumption.
    cbn [cluster]. rewrite G3. destruct v as [|d v]; [contradiction|]. cbn [app]. now apply perform_store.
  - destruct (all_good p D) as (_ & G & _). destruct (G c T) as (G1 & G2 & G3 & G4). cbn [app]. rewrite getopt_short_word by assumption.
    cbn [cluster]. rewrite G3. cbn [app next_of]. now apply perform_store.
  - destruct (all_good p D) as ((l & E & C) & _). assert (V : valuedb p = false) by (unfold valuedb; now rewrite T). rewrite V in E. cbn [app].
    rewrite getopt_long_word by (eapply stands_nonempty; eauto). rewrite split_none by (eapply stands_lacks; eauto). rewrite (find_long_stands a (p_name p) false l S E).
    cbn [perform does]. rewrite C. unfold expected_action, present. now rewrite V.
  - cbn [app does]. destruct W as [->|[->|(c & r & -> & N)]]; try reflexivity. cbn [getopt_long]. apply Ascii.eqb_neq in N. now rewrite N.
Qed.
Lemma accessor_inj p q : In p documented -> In q documented -> accessor p = accessor q -> p = q.
Proof. apply nodup_map_inj. exact (nodup_app_left _ _ members_nodup). Qed.
Lemma name_inj p q : In p documented -> In q documented -> p_name p = p_name q -> p = q.
Proof. apply nodup_map_inj, documented_nodup. Qed.
Lemma with_accessor p q : In p documented -> In q documented -> ("with_" ++ accessor p)%string <> accessor q.
Proof.
  intros Hp Hq E. apply (nodup_app_disjoint _ _ (accessor q) members_nodup); [now apply in_map|]. rewrite <- E. now apply (in_map (fun p => ("with_" ++ accessor p)%string)).
Qed.
Lemma present_inj p q : In p documented -> In q documented -> present p = present q -> p = q.
Proof.
  intros Hp Hq. unfold present. destruct (valuedb p), (valuedb q); intros E.
  - cbn in E. injection E as E. now apply accessor_inj.
  - now destruct (with_accessor p q Hp Hq).
  - now destruct (with_accessor q p Hq Hp).
  - now apply accessor_inj.
Qed.
Lemma present_accessor p q : In p documented -> In q documented -> valuedb q = true -> present p <> accessor q.
Proof.
  intros Hp Hq V. unfold present. destruct (valuedb p) eqn:Vp; [now apply with_accessor|]. intros E. apply accessor_inj in E; auto. congruence.
Qed.
Definition wf_item (it : item) : Prop :=
  match it with Gives p _ => In p documented /\ valuedb p = true | Sets p => In p documented /\ valuedb p = false | Other _ => True end.
Lemma writes_wf it ws : writes it ws -> wf_item it.
Proof.
  destruct 1 as [p a v D T S|p a v D T S|p c v D T V|p c v D T|p a D T S|w W]; cbn; auto.
  - split; [exact D|now apply valuedb_spec].
  - split; [exact D|now apply valuedb_spec].
  - split; [exact D|]. now destruct (all_good p D) as (_ & G & _), (G c T).
  - split; [exact D|]. now destruct (all_good p D) as (_ & G & _), (G c T).
  - split; [exact D|]. unfold valuedb. now rewrite T.
Qed.
Lemma items_perform items wordss ig : Forall2 writes items wordss -> values_written items ->
  forall rest st, perform ig (getopt_long (concat wordss ++ rest)) st = perform ig (getopt_long rest) (after items st).
Proof.
  induction 1 as [|it ws items wordss W F IH]; intros V rest st; [reflexivity|]. cbn [concat]. rewrite <- app_assoc, (item_does it ws _ ig st W).
  assert (V' : values_written items) by (intros p v Hv; apply V; now right).
  destruct it as [p v|p|w]; cbn [does after].
  - destruct (V p v (or_introl eq_refl)) as [x X]. rewrite (written_convert _ _ _ X). now apply IH.
  - now apply IH.
  - now apply IH.
Qed.
Lemma mentions_spec p q : In p documented -> In q documented -> String.eqb (p_name p) (p_name q) = true -> p = q.
Proof. intros Hp Hq E. apply String.eqb_eq in E. now apply name_inj. Qed.
Lemma after_present items p : Forall wf_item items -> values_written items -> In p documented ->
  forall st, after items st (present p) = if given p items then Some (VBool true) else st (present p).
Proof.
  intros F V D. induction F as [|it items W F IH]; intros st; [reflexivity|].
  assert (V' : values_written items) by (intros q v Hv; apply V; now right). specialize (IH V').
  destruct it as [q v|q|w]; cbn [after given existsb mentions]; fold (given p items); cbn [wf_item] in W.
  - destruct W as [Dq Vq]. destruct (V q v (or_introl eq_refl)) as [x X]. rewrite (written_convert _ _ _ X), IH.
    destruct (given p items); [now rewrite Bool.orb_true_r|]. rewrite Bool.orb_false_r, assign_other by (now apply present_accessor).
    destruct (String.eqb (p_name p) (p_name q)) eqn:E.
    + apply mentions_spec in E; auto. subst q. apply assign_same.
    + rewrite assign_other; [reflexivity|]. intros E'. apply present_inj in E'; auto. subst q. rewrite String.eqb_refl in E. discriminate.
  - destruct W as [Dq Vq]. rewrite IH. destruct (given p items); [now rewrite Bool.orb_true_r|]. rewrite Bool.orb_false_r.
    destruct (String.eqb (p_name p) (p_name q)) eqn:E.
    + apply mentions_spec in E; auto. subst q. apply assign_same.
    + rewrite assign_other; [reflexivity|]. intros E'. apply present_inj in E'; auto. subst q. rewrite String.eqb_refl in E. discriminate.
  - now rewrite IH.
Qed.
Lemma after_accessor items p : Forall wf_item items -> values_written items -> In p documented -> valuedb p = true -> forall st,
  match last_value p items with
  | Some v => exists x, written (p_type p) v x /\ after items st (accessor p) = Some x
  | None => after items st (accessor p) = st (accessor p)
  end.
Proof.
  intros F V D Vp. induction F as [|it items W F IH]; intros st; [reflexivity|].
  assert (V' : values_written items) by (intros q v Hv; apply V; now right). specialize (IH V').
  destruct it as [q v|q|w]; cbn [after last_value]; cbn [wf_item] in W.
  - destruct W as [Dq Vq]. destruct (V q v (or_introl eq_refl)) as [x X]. rewrite (written_convert _ _ _ X).
    specialize (IH (assign (assign st (present q) (VBool true)) (accessor q) x)). destruct (last_value p items); [exact IH|].
    destruct (String.eqb (p_name p) (p_name q)) eqn:E.
    + apply mentions_spec in E; auto. subst q. exists x. split; [exact X|]. rewrite IH. apply assign_same.
    + rewrite IH. rewrite assign_other.
      * apply assign_other. intros E'. symmetry in E'. revert E'. now apply present_accessor.
      * intros E'. apply accessor_inj in E'; auto. subst q. rewrite String.eqb_refl in E. discriminate.
  - destruct W as [Dq Vq]. specialize (IH (assign st (present q) (VBool true))). destruct (last_value p items); [exact IH|]. rewrite IH.
    apply assign_other. intros E'. symmetry in E'. revert E'. now apply present_accessor.
  - specialize (IH st). destruct (last_value p items); exact IH.
Qed.
Lemma given_last p items : Forall wf_item items -> In p documented -> valuedb p = true -> given p items = true -> last_value p items <> None.
Proof.
  intros F D V. induction F as [|it items W F IH]; cbn [last_value given existsb]; [discriminate|]. fold (given p items). intros G.
  destruct (last_value p items); [discriminate|]. destruct (given p items); [now destruct IH|]. rewrite Bool.orb_false_r in G.
  destruct it as [q v|q|w]; cbn [mentions] in G; [now rewrite G| |discriminate]. destruct W as [Dq Vq]. apply mentions_spec in G; auto. congruence.
Qed.
Lemma default_written p d : In p documented -> p_default p = Some d -> exists x, written (p_type p) d x.
Proof.
  intros D E. assert (C : default_checked p = true).
  { revert p D E. intros p D _. revert p D. apply (map_same default_checked (fun _ => true)). table. }
  unfold default_checked in C. rewrite E in C. destruct (p_type p); try discriminate.
  - destruct (atoi d) as [z| |]; try discriminate. apply andb_prop in C as [C C3]. apply andb_prop in C as [C1 C2]. apply String.eqb_eq in C1. rewrite C1.
    exists (VInt z). constructor; [split; [now apply Z.leb_le|now apply Z.ltb_lt]|reflexivity].
  - exists (VReal d). constructor.
  - exists (VText d). constructor.
  - apply Bool.orb_prop in C as [C|C]; apply String.eqb_eq in C; subst d; [exists (VBool true); apply (written_bool true)|exists (VBool false); apply (written_bool false)].
Qed.
Lemma tail_events tail : tail = [] \/ (exists l, tail = "--" :: l) -> getopt_long tail = [].
Proof. intros [->|[l ->]]; reflexivity. Qed.
Lemma options_theorem items wordss tail ig : Forall2 writes items wordss -> values_written items -> (tail = [] \/ exists l, tail = "--" :: l) ->
  exists st, make_options ig (concat wordss ++ tail) = Parsed st /\
    forall p, In p documented ->
      with_option st (accessor p) = Ok (given p items) /\
      (p_type p <> TFlag ->
        match last_value p items, p_default p with
        | Some v, _ => has_value st p v
        | None, Some d => has_value st p d
        | None, None => get st (accessor p) = Throw RuntimeError
        end).
Proof.
  intros W V T. exists (after items no_options). split.
  - unfold make_options. rewrite (items_perform _ _ ig W V), (tail_events tail T). reflexivity.
  - assert (F : Forall wf_item items). { clear - W. induction W; constructor; eauto using writes_wf. }
    intros p D. destruct (all_good p D) as (_ & _ & G1 & G2 & G3). pose proof (after_present items p F V D no_options) as AP. split.
    + unfold with_option. rewrite G2, AP, G1. now destruct (given p items).
    + intros N. apply valuedb_spec in N. destruct (G3 N) as [G4 G5]. pose proof (after_accessor items p F V D N no_options) as AA.
      pose proof (last_given p items) as LG. pose proof (given_last p items F D N) as GL.
      destruct (last_value p items) as [v|] eqn:LV.
      * destruct AA as (x & X & AA). exists x. split; [exact X|]. unfold get. rewrite G5, AA. destruct (p_default p); [reflexivity|]. rewrite AP, LG by discriminate. reflexivity.
      * rewrite G4 in AA. unfold default_of in AA. destruct (p_default p) as [d|] eqn:Ed.
        -- destruct (default_written p d D Ed) as [x X]. rewrite (written_convert _ _ _ X) in AA. exists x. split; [exact X|]. unfold get. now rewrite G5, AA.
        -- unfold get. rewrite G5, AP. destruct (given p items); [now destruct GL|]. now rewrite G1.
Qed.
Lemma find_long_none a : (forall n, ~ stands_for a n) -> find_long long_options a = None.
Proof. intros N. destruct (find_long long_options a) as [[ar l]|] eqn:E; [|reflexivity]. apply find_long_stands_inv in E as (n & S & _). now destruct (N n). Qed.
Lemma find_short_letters c : find_short short_options c <> None -> valued_letter c.
Proof.
  intros H. assert (E : existsb (fun p => match p_short p with Some d => Ascii.eqb d c | None => false end) documented = true).
  { revert H. destruct t, c as [[] [] [] [] [] [] [] []]; vm_compute; intros H; try reflexivity; contradiction. }
  apply existsb_exists in E as (p & D & E). exists p. split; [exact D|]. destruct (p_short p) as [d|]; [|discriminate]. apply Ascii.eqb_eq in E. now subst d.
Qed.
Lemma wrong_bad bad : wrong bad -> exists es, getopt_long bad = Bad :: es.
Proof.
  destruct 1 as [a rest N L U|a v rest L U|a n v rest S U|p a D T S|c w rest N U|c U].
  - rewrite getopt_long_word by assumption. rewrite split_none by now apply lacks_has. rewrite find_long_none by assumption. eauto.
  - rewrite getopt_long_word by (destruct a; discriminate). rewrite split_some by now apply lacks_has. rewrite find_long_none by assumption. eauto.
  - rewrite getopt_long_word by (destruct a; discriminate). rewrite split_some by (eapply stands_lacks; eauto).
    assert (X : exists l, exact n = Some (false, l)).
    { destruct S as [S _]. unfold option_names in S. apply in_app_or in S as [S|S].
      - apply in_map_iff in S as (p & <- & D). destruct (all_good p D) as ((l & E & _) & _). destruct (valuedb p) eqn:V; [|eauto].
        apply valuedb_spec in V. now destruct (U p D V).
      - destruct (pages_good n S) as (l & E & _). eauto. }
    destruct X as [l X]. rewrite (find_long_stands a n false l S X). eauto.
  - destruct (all_good p D) as ((l & E & C) & _). apply valuedb_spec in T as T'. rewrite T' in E.
    rewrite getopt_long_word by (eapply stands_nonempty; eauto). rewrite split_none by (eapply stands_lacks; eauto). rewrite (find_long_stands a (p_name p) true l S E).
    cbn [next_of]. eauto.
  - rewrite getopt_short_word by assumption. cbn [cluster]. destruct (find_short short_options c) eqn:E.
    + destruct U. apply find_short_letters. now rewrite E.
    + destruct (cluster w) as [es l]. cbn [app]. eauto.
  - destruct U as (p & D & E). destruct (all_good p D) as (_ & G & _). destruct (G c E) as (G1 & G2 & G3 & G4). rewrite getopt_short_word by assumption.
    cbn [cluster]. rewrite G3. cbn [app next_of]. eauto.
Qed.
Lemma wrong_theorem items wordss bad : Forall2 writes items wordss -> values_written items -> wrong bad ->
  make_options false (concat wordss ++ bad) = Ended None (Exit 1).
Proof.
  intros W V B. unfold make_options. rewrite (items_perform _ _ false W V). destruct (wrong_bad bad B) as [es ->]. reflexivity.
Qed.
Lemma pages_theorem items wordss a page rest ig : Forall2 writes items wordss -> values_written items -> In page pages -> stands_for a page ->
  make_options ig (concat wordss ++ ("--" ++ a)%string :: rest) = Ended (Some (underscored page)) (Exit 0).
Proof.
  intros W V P S. unfold make_options. rewrite (items_perform _ _ ig W V). destruct (pages_good page P) as (l & E & C).
  rewrite getopt_long_word by (eapply stands_nonempty; eauto). rewrite split_none by (eapply stands_lacks; eauto). rewrite (find_long_stands a page false l S E).
  cbn [perform]. now rewrite C.
Qed.
Lemma overflow_theorem items wordss p z r ws rest ig : Forall2 writes items wordss -> values_written items -> writes (Gives p (show_Z z ++ r)) ws -> p_type p = TInt ->
  starts_with_digit r = false -> (z < - 2 ^ 31 \/ 2 ^ 31 <= z)%Z -> make_options ig (concat wordss ++ ws ++ rest) = Ended None Undefined.
Proof.
  intros W V Wp T R H. unfold make_options. rewrite (items_perform _ _ ig W V), (item_does _ _ _ ig _ Wp). cbn [does]. rewrite T. cbn [expected_conversion convert].
  rewrite atoi_any by assumption. assert (I : int_range z = false).
  { unfold int_range. apply Bool.andb_false_iff. rewrite Z.leb_gt, Z.ltb_ge. lia. }
  rewrite I. reflexivity.
Qed.
Definition settled (st : options) : Prop :=
  forall p, In p documented -> exists b, st (present p) = Some (VBool b) /\
    (valuedb p = true -> p_default p <> None \/ b = true -> exists v, st (accessor p) = Some v).
Lemma settled_initial : settled no_options.
Proof.
  intros p D. destruct (all_good p D) as (_ & _ & G1 & _ & G3). exists false. split; [exact G1|]. intros V [N|N]; [|discriminate]. destruct (G3 V) as [G4 _].
  rewrite G4. unfold default_of. destruct (p_default p) as [d|] eqn:E; [|contradiction]. destruct (default_written p d D E) as [x X]. rewrite (written_convert _ _ _ X). eauto.
Qed.
Lemma settled_assign st p x : settled st -> In p documented -> valuedb p = true -> settled (assign (assign st (present p) (VBool true)) (accessor p) x).
Proof.
  intros I D V q Dq. destruct (I q Dq) as (b & B1 & B2). rewrite assign_other by (now apply present_accessor).
  assert (A : valuedb q = true -> forall y, assign (assign st (present p) (VBool true)) (accessor p) x (accessor q) = y -> (y = st (accessor q) \/ y = Some x)).
  { intros Vq y <-. unfold assign. destruct (String.eqb_spec (accessor q) (accessor p)); [auto|]. destruct (String.eqb_spec (accessor q) (present p)) as [E|]; [|auto].
    symmetry in E. apply present_accessor in E; auto. contradiction. }
  destruct (String.eqb_spec (p_name q) (p_name p)) as [E|E].
  - apply name_inj in E; auto. subst q. exists true. split; [apply assign_same|]. intros _ _. exists x. apply assign_same.
  - exists b. split; [rewrite assign_other; [exact B1|intros E'; apply present_inj in E'; auto; congruence]|].
    intros Vq N. destruct (B2 Vq N) as [v B3]. rewrite assign_other by (intros E'; apply accessor_inj in E'; auto; congruence).
    rewrite assign_other by (intros E'; symmetry in E'; apply present_accessor in E'; auto). eauto.
Qed.
Lemma settled_raise st p : settled st -> In p documented -> valuedb p = false -> settled (assign st (present p) (VBool true)).
Proof.
  intros I D V q Dq. destruct (I q Dq) as (b & B1 & B2). destruct (String.eqb_spec (p_name q) (p_name p)) as [E|E].
  - apply name_inj in E; auto. subst q. exists true. split; [apply assign_same|]. intros V'. congruence.
  - exists b. split; [rewrite assign_other; [exact B1|intros E'; apply present_inj in E'; auto; congruence]|].
    intros Vq N. rewrite assign_other by (intros E'; symmetry in E'; apply present_accessor in E'; auto). auto.
Qed.
Lemma cases_documented l x : case_of l = Some x -> (exists page, x = Stop page) \/ exists p, In p documented /\ same_action x (expected_action p) = true.
Proof.
  unfold case_of. destruct (find _ cases) as [[ls y]|] eqn:F; [|discriminate]. intros [= ->]. apply find_some in F as [F _].
  assert (E : forallb (fun '(_, x) => match x with Stop _ => true | _ => existsb (fun p => same_action x (expected_action p)) documented end) cases = true) by (table).
  rewrite forallb_forall in E. specialize (E _ F). cbn beta iota in E. destruct x; [right|right|left; eauto]; now apply existsb_exists in E.
Qed.
Lemma settled_perform ig es : forall st st', settled st -> perform ig es st = Parsed st' -> settled st'.
Proof.
  induction es as [|e es IH]; intros st st' I E; cbn [perform] in E; [injection E as <-; exact I|].
  assert (B : (if ig then perform ig es st else Ended None (Exit 1)) = Parsed st' -> settled st') by (destruct ig; [eauto|discriminate]).
  destruct e as [l arg|]; [|auto]. destruct (case_of l) as [[pr m c|m|page]|] eqn:C; auto; [| |discriminate].
  - apply cases_documented in C as [[page C]|(p & D & C)]; [discriminate|]. unfold expected_action in C. destruct (valuedb p) eqn:V; [|discriminate]. cbn in C.
    apply andb_prop in C as [C1 C2]. apply String.eqb_eq in C1, C2. subst pr m. destruct (convert c arg); try discriminate. apply (IH _ _ (settled_assign st p _ I D V) E).
  - apply cases_documented in C as [[page C]|(p & D & C)]; [discriminate|]. unfold expected_action in C. destruct (valuedb p) eqn:V; [discriminate|]. cbn in C.
    apply String.eqb_eq in C. subst m. assert (Ep : present p = accessor p) by (unfold present; now rewrite V). rewrite <- Ep in E. apply (IH _ _ (settled_raise st p I D V) E).
Qed.
Lemma accessors_theorem ig words st p : make_options ig words = Parsed st -> In p documented ->
  exists b, with_option st (accessor p) = Ok b /\
    (p_type p <> TFlag -> if b || match p_default p with Some _ => true | None => false end
                          then exists v, get st (accessor p) = Ok v else get st (accessor p) = Throw RuntimeError).
Proof.
  intros E D. apply (settled_perform _ _ _ _ settled_initial) in E. destruct (E p D) as (b & B1 & B2). destruct (all_good p D) as (_ & _ & _ & G2 & G3). exists b. split.
  - unfold with_option. now rewrite G2, B1.
  - intros T. apply valuedb_spec in T. destruct (G3 T) as [_ G5]. unfold get. rewrite G5. destruct (p_default p).
    + rewrite Bool.orb_true_r. destruct B2 as [v ->]; auto; [left; discriminate|eauto].
    + rewrite Bool.orb_false_r, B1. destruct b; [destruct B2 as [v ->]; eauto|reflexivity].
Qed.
Lemma printed_documented : printed_members = map print_of (filter (fun p => negb (is_flag p)) documented) ++ map print_of (filter is_flag documented).
Proof. table. Qed.
Lemma print_theorem ig words st : make_options ig words = Parsed st -> print_options st = values_line st ++ flags_line st.
Proof.
  intros E. unfold print_options. rewrite printed_documented, flat_map_app', !flat_map_map. apply (settled_perform _ _ _ _ settled_initial) in E. f_equal.
  - unfold values_line. apply flat_map_same. intros p H. apply filter_In in H as [D V]. rewrite is_flag_valued, Bool.negb_involutive in V. destruct (E p D) as (b & B1 & B2). destruct (all_good p D) as (_ & _ & _ & _ & G3).
    destruct (G3 V) as [_ G5]. unfold print_of. rewrite V. unfold get. rewrite G5. destruct (p_default p).
    + destruct B2 as [v ->]; auto. left. discriminate.
    + rewrite B1. destruct b; [|reflexivity]. destruct B2 as [v ->]; auto.
  - unfold flags_line. apply flat_map_same. intros p H. apply filter_In in H as [D V]. rewrite is_flag_valued in V. apply Bool.negb_true_iff in V. destruct (E p D) as (b & B1 & _).
    destruct (all_good p D) as (_ & _ & _ & G2 & _). unfold print_of. rewrite V. unfold with_option. rewrite G2, B1. reflexivity.
Qed.
Lemma order_theorem items items' wordss wordss' ig : Permutation items items' -> NoDup (named items) ->
  Forall2 writes items wordss -> Forall2 writes items' wordss' -> values_written items ->
  exists st st', make_options ig (concat wordss) = Parsed st /\ make_options ig (concat wordss') = Parsed st' /\
    forall p, In p documented -> with_option st (accessor p) = with_option st' (accessor p) /\ (p_type p <> TFlag -> get st (accessor p) = get st' (accessor p)).
Proof.
  intros P N W W' V. assert (V' : values_written items') by (intros p v H; apply V; now apply (Permutation_in _ (Permutation_sym P))).
  assert (PN : Permutation (named items) (named items')) by (apply Permutation_flat_map; exact P).
  assert (N' : NoDup (named items')) by (eapply Permutation_NoDup; eauto).
  assert (L : forall p, last_value p items = last_value p items').
  { intros p. destruct (last_value p items) as [v|] eqn:E.
    - symmetry. apply last_value_once; [exact N'|]. apply last_value_In in E as (q & H & E). exists q. split; [|exact E]. now apply (Permutation_in _ P).
    - destruct (last_value p items') as [v|] eqn:E'; [|reflexivity]. apply last_value_In in E' as (q & H & E'). rewrite <- E. apply last_value_once; [exact N|].
      exists q. split; [|exact E']. now apply (Permutation_in _ (Permutation_sym P)). }
  assert (Gv : forall p, given p items = given p items').
  { intros p. destruct (given p items) eqn:E, (given p items') eqn:E'; auto.
    - apply given_In in E. apply (Permutation_in _ PN), given_In in E. congruence.
    - apply given_In in E'. apply (Permutation_in _ (Permutation_sym PN)), given_In in E'. congruence. }
  destruct (options_theorem items wordss [] ig W V (or_introl eq_refl)) as (st & E & H).
  destruct (options_theorem items' wordss' [] ig W' V' (or_introl eq_refl)) as (st' & E' & H'). rewrite app_nil_r in E, E'.
  exists st, st'. split; [exact E|]. split; [exact E'|]. intros p D. destruct (H p D) as [H1 H2], (H' p D) as [H1' H2']. split; [now rewrite H1, H1', Gv|].
  intros T. specialize (H2 T). specialize (H2' T). rewrite <- L in H2'. unfold has_value in H2, H2'. destruct (last_value p items) as [v|].
  - destruct H2 as (x & X & ->), H2' as (y & Y & ->). f_equal. exact (reading _ _ _ _ X Y).
  - destruct (p_default p); [|congruence]. destruct H2 as (x & X & ->), H2' as (y & Y & ->). f_equal. exact (reading _ _ _ _ X Y).
Qed.
Definition standsb (a n : string) : bool :=
  existsb (String.eqb n) option_names && (String.eqb a n || prefix_of a n && forallb (fun m => negb (prefix_of a m) || String.eqb m n) option_names).
Lemma standsb_stands a n : standsb a n = true -> stands_for a n.
Proof.
  unfold standsb. intros H. apply andb_prop in H as [H1 H2]. apply existsb_exists in H1 as (m & Hm & E). apply String.eqb_eq in E. subst m. split; [exact Hm|].
  apply Bool.orb_prop in H2 as [H2|H2]; [left; now apply String.eqb_eq|right]. apply andb_prop in H2 as [H2 H3]. split; [now apply prefix_of_spec|].
  intros m Hm' B. rewrite forallb_forall in H3. specialize (H3 m Hm'). apply prefix_of_spec in B. rewrite B in H3. now apply String.eqb_eq.
Qed.
Lemma find_none_stands a : find_long long_options a = None -> forall n, ~ stands_for a n.
Proof.
  intros F n S. assert (X : exists ar l, exact n = Some (ar, l)).
  { destruct S as [S _]. unfold option_names in S. apply in_app_or in S as [S|S].
    - apply in_map_iff in S as (p & <- & D). destruct (all_good p D) as ((l & E & _) & _). eauto.
    - destruct (pages_good n S) as (l & E & _). eauto. }
  destruct X as (ar & l & X). rewrite (find_long_stands a n ar l S X) in F. discriminate.
Qed.
End Tool.
