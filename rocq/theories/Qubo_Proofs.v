(** Proofs about quadratic unconstrained binary optimization. *)

From Coq Require Import ZArith NArith String Ascii.
From Verif Require Import Base BaseLemmas BitVector_Model BitVector_Spec BitVector_Proofs Function_Spec Sums.
From Verif Require Import Text_Model Text_Proofs Collection_Model Collection_Spec Labs_Proofs Collection_Proofs Tsp_Proofs.
Local Open Scope string_scope.
Local Open Scope list_scope.
Local Open Scope nat_scope.

(** * Evaluation *)

Lemma foldM_sum (f : Z -> nat -> outcome Z) (g : nat -> Z) l : (forall r i, In i l -> f r i = Ok (r + g i)%Z) ->
  forall r, foldM f l r = Ok (r + sum_over l g)%Z.
Proof.
  induction l as [|i l IH]; intros H r; [cbn; now rewrite Z.add_0_r|]. cbn [foldM]. rewrite H by now left. cbn [bind].
  rewrite IH by (intros; apply H; now right). rewrite sum_cons. f_equal. lia.
Qed.

Lemma qubo_value n q x : grid n n q -> len x = n -> qubo_evaluate q x = Ok (quadratic_form q x).
Proof.
  intros G Lx. assert (G' := G). destruct G as [Lq F]. unfold qubo_evaluate, quadratic_form. rewrite Lx, Lq, Nat.eqb_refl. cbn [assertb bind].
  match goal with |- foldM ?g _ _ = _ => set (f := g) end.
  rewrite (foldM_sum f (fun i => sum_n n (fun j =>
    if i <=? j then (entry q i j * bit (nth i x false) * bit (nth j x false))%Z else 0%Z))); [f_equal; lia|].
  intros r i Hi. apply in_seq in Hi. unfold f. rewrite (vget_Ok x i false) by lia. cbn [bind].
  assert (R : len (nth i q []) = n) by (eapply Forall_forall in F; [exact F|apply nth_In; lia]).
  destruct (nth i x false) eqn:B; cbn [negb].
  - rewrite (vget_Ok q i []) by lia. cbn [bind]. rewrite (vget_Ok _ i 0%Z) by lia. cbn [bind].
    match goal with |- foldM ?g _ _ = _ => set (h := g) end.
    rewrite (foldM_sum h (fun j => entry q i j * bit (nth j x false))%Z).
    + f_equal. change (sum_n n ?g) with (sum_over (seq 0 n) g). rewrite (seq_split_at 0 n i), Nat.sub_0_r by lia. rewrite !sum_app. rewrite <- Z.add_assoc. f_equal.
      rewrite (sum_zero (seq 0 i)).
      * rewrite sum_cons, Nat.leb_refl, B. unfold entry at 2.
        cbn [bit]. rewrite !Z.mul_1_r. cbn [Nat.add]. rewrite Z.add_0_l. f_equal. rewrite Nat.add_1_r. apply sum_ext.
        intros j Hj. apply in_seq in Hj. destruct (Nat.leb_spec i j); [|lia]. cbn [bit]. now rewrite Z.mul_1_r.
      * intros j Hj. apply in_seq in Hj. destruct (Nat.leb_spec i j); [lia|reflexivity].
    + intros r' j Hj. apply in_seq in Hj. unfold h. rewrite (vget_Ok x j false) by lia. cbn [bind].
      destruct (nth j x false); cbn [bit].
      * rewrite (vget_Ok _ j 0%Z) by lia. cbn [bind]. unfold entry. now rewrite Z.mul_1_r.
      * now rewrite Z.mul_0_r, Z.add_0_r.
  - f_equal. change (sum_n n ?g) with (sum_over (seq 0 n) g). rewrite sum_zero; [lia|]. intros j _. cbn [bit]. rewrite Z.mul_0_r, Z.mul_0_l. now destruct (i <=? j).
Qed.

Lemma qubo_wrong_size q x : len x <> len q -> qubo_evaluate q x = UB.
Proof. intros H. unfold qubo_evaluate. destruct (Nat.eqb_spec (len x) (len q)); [contradiction|reflexivity]. Qed.

(** * Files *)

Lemma no_newline_iff s : ~ In newline (list_ascii_of_string s) <-> no_newline s = true.
Proof.
  unfold no_newline. induction s as [|c s IH]; [cbn; intuition|]. cbn [list_ascii_of_string all_chars In]. rewrite andb_true_iff, <- IH.
  destruct (Ascii.eqb_spec c newline); cbn [negb]; intuition congruence.
Qed.

Lemma concat_lines l : Forall (fun s => no_newline s = true) l -> split_lines (String.concat "" (map line_of l)) = l ++ [""].
Proof.
  assert (C : forall a t, String.concat "" (a :: t) = (a ++ String.concat "" t)%string).
  { intros a [|b t]; [cbn; now rewrite append_nil_r|reflexivity]. }
  induction l as [|a l IH]; intros F; [reflexivity|]. inversion_clear F. cbn [map]. rewrite C. unfold line_of at 1. rewrite append_assoc.
  change (String newline "" ++ ?r)%string with (String newline r). rewrite split_lines_cons by assumption. now rewrite IH.
Qed.

Section Load.
  Variable read : istr -> option (Z * istr).
  Variable show : Z -> string.
  Variable range : Z -> Prop.
  Hypothesis RB : reads_back read show range.

  Definition header (n : nat) (nd no : Z) : string :=
    ("p qubo 0 " ++ show_Z (Z.of_nat n) ++ " " ++ show_Z nd ++ " " ++ show_Z no)%string.

  Definition small (z : Z) : Prop := (z < 2 ^ 31)%Z.

  Lemma in_range z : (0 <= z < 2 ^ 31)%Z -> int_range z = true.
  Proof. intros H. unfold int_range. apply andb_true_iff. rewrite Z.leb_le, Z.ltb_lt. lia. Qed.

  Lemma header_Ok n nd no d a b q c1 c2 : 0 < n -> (Z.of_nat n < 2 ^ 31)%Z -> (0 <= nd < 2 ^ 31)%Z -> (0 <= no < 2 ^ 31)%Z ->
    qubo_line read (mk_qubo false d a b q c1 c2) (header n nd no) =
    Ok (mk_qubo true (Z.of_nat n) nd no (repeat (repeat 0%Z n) n) c1 c2).
  Proof.
    intros N Hn Hd Ho. unfold header. set (X := (show_Z (Z.of_nat n) ++ " " ++ show_Z nd ++ " " ++ show_Z no)%string).
    change (qubo_line read ?s ("p qubo 0 " ++ X)) with (qubo_spec ("p qubo 0 " ++ X) s). unfold qubo_spec. cbn [q_spec q_count_diagonal q_count_other].
    replace (read_word (open_string ("p qubo 0 " ++ X))) with (Some ("p", mk_istr (" qubo 0 " ++ X) false)) by reflexivity.
    cbn [String.eqb Ascii.eqb Bool.eqb negb].
    replace (read_word (mk_istr (" qubo 0 " ++ X) false)) with (Some ("qubo", mk_istr (" 0 " ++ X) false)) by reflexivity.
    cbn [String.eqb Ascii.eqb Bool.eqb negb].
    replace (read_int (mk_istr (" 0 " ++ X) false)) with (Some (0%Z, mk_istr (" " ++ X) false)) by reflexivity.
    cbn [Z.eqb negb]. unfold X. rewrite read_int_show; [|reflexivity|reflexivity|apply in_range; lia].
    rewrite (proj2 (Z.leb_gt (Z.of_nat n) 0)) by lia. change (at_end (" " ++ ?a)%string) with false.
    rewrite read_int_show; [|reflexivity|reflexivity|apply in_range; lia]. rewrite (proj2 (Z.ltb_ge nd 0)) by lia.
    change (at_end (" " ++ ?a)%string) with false. rewrite <- (append_nil_r (show_Z no)).
    rewrite read_int_show; [|reflexivity|reflexivity|apply in_range; lia]. rewrite (proj2 (Z.ltb_ge no 0)) by lia.
    rewrite Nat2Z.id. reflexivity.
  Qed.

  Lemma number_line z r : exists c s, (show_Z z ++ r)%string = String c s /\ Ascii.eqb c "c" = false /\ Ascii.eqb c "p" = false.
  Proof.
    destruct (show_Z_chars z) as (Ha & Hn). destruct (show_Z z) as [|c s]; [contradiction|].
    cbn in Ha. apply andb_true_iff in Ha as [Ha _]. exists c, (s ++ r)%string. split; [reflexivity|].
    split; apply Ascii.eqb_neq; intros ->; discriminate.
  Qed.

  Lemma qubo_line_element e s : qubo_line read s (qubo_element_text show e) = qubo_element read (qubo_element_text show e) s.
  Proof.
    destruct e as [[i j] v]. unfold qubo_element_text. destruct (number_line (Z.of_nat i) (" " ++ show_Z (Z.of_nat j) ++ " " ++ show v)) as (c & t & E & C & P).
    rewrite E. unfold qubo_line. now rewrite C, P.
  Qed.

  Definition diag_count (l : list (nat * nat * Z)) : Z := Z.of_nat (len (filter on_diagonal l)).
  Definition other_count (l : list (nat * nat * Z)) : Z := Z.of_nat (len (filter (fun e => negb (on_diagonal e)) l)).

  Lemma element_Ok n i j v nd no m c1 c2 : (Z.of_nat n < 2 ^ 31)%Z -> grid n n m -> range v -> i <= j < n -> v <> 0%Z -> exists m',
    qubo_line read (mk_qubo true (Z.of_nat n) nd no m c1 c2) (qubo_element_text show (i, j, v)) =
      Ok (mk_qubo true (Z.of_nat n) nd no m' (c1 + if (i =? j)%nat then 1 else 0) (c2 + if (i =? j)%nat then 0 else 1))%Z /\
    grid n n m' /\ forall r c, r < n -> c < n -> entry m' r c = if (r =? i) && (c =? j) then (- v)%Z else entry m r c.
  Proof.
    intros N G R H V. destruct (RB v R) as (_ & rest & RV). destruct (mset_Ok n m i j (- v)%Z G) as (m' & E & G' & V'); [lia|lia|].
    exists m'. split; [|split; assumption]. rewrite qubo_line_element. unfold qubo_element_text, qubo_element. cbn [q_spec q_dimension q_matrix q_num_diagonal q_num_other q_count_diagonal q_count_other negb].
    rewrite (proj2 (Z.ltb_lt 0 (Z.of_nat n))) by lia. cbn [assertb bind]. unfold open_string.
    change (show_Z (Z.of_nat i) ++ ?r)%string with ("" ++ show_Z (Z.of_nat i) ++ r)%string.
    rewrite read_int_show; [|reflexivity|reflexivity|apply in_range; lia].
    rewrite (proj2 (Z.ltb_ge (Z.of_nat i) 0)), (proj2 (Z.ltb_lt (Z.of_nat i) (Z.of_nat n))) by lia. cbn [negb orb].
    change (at_end (" " ++ ?a)%string) with false.
    rewrite read_int_show; [|reflexivity|reflexivity|apply in_range; lia].
    rewrite (proj2 (Z.ltb_ge (Z.of_nat j) 0)), (proj2 (Z.ltb_lt (Z.of_nat j) (Z.of_nat n))) by lia. cbn [negb orb].
    change (at_end (" " ++ ?a)%string) with false. rewrite (proj2 (Z.ltb_ge (Z.of_nat j) (Z.of_nat i))) by lia.
    rewrite RV. destruct (Z.eqb_spec v 0); [contradiction|]. rewrite !Nat2Z.id, E. cbn [bind]. f_equal.
    destruct (Nat.eqb_spec i j) as [->|NE]; [rewrite Z.eqb_refl; reflexivity|]. destruct (Z.eqb_spec (Z.of_nat i) (Z.of_nat j)); [lia|reflexivity].
  Qed.

  Lemma element_bad n i j v nd no m c1 c2 : (0 < Z.of_nat n < 2 ^ 31)%Z -> (Z.of_nat i < 2 ^ 31)%Z -> (Z.of_nat j < 2 ^ 31)%Z ->
    range v -> ~ good_element n (i, j, v) ->
    qubo_line read (mk_qubo true (Z.of_nat n) nd no m c1 c2) (qubo_element_text show (i, j, v)) = Throw RuntimeError.
  Proof.
    intros N Hi Hj R B. destruct (RB v R) as (_ & rest & RV). cbn [good_element] in B.
    rewrite qubo_line_element. unfold qubo_element_text, qubo_element. cbn [q_spec q_dimension q_matrix q_num_diagonal q_num_other q_count_diagonal q_count_other negb].
    rewrite (proj2 (Z.ltb_lt 0 (Z.of_nat n))) by lia. cbn [assertb bind]. unfold open_string.
    change (show_Z (Z.of_nat i) ++ ?r)%string with ("" ++ show_Z (Z.of_nat i) ++ r)%string.
    rewrite read_int_show; [|reflexivity|reflexivity|apply in_range; lia].
    rewrite (proj2 (Z.ltb_ge (Z.of_nat i) 0)) by lia. cbn [orb]. destruct (Z.ltb_spec (Z.of_nat i) (Z.of_nat n)); cbn [negb]; [|reflexivity].
    change (at_end (" " ++ ?a)%string) with false.
    rewrite read_int_show; [|reflexivity|reflexivity|apply in_range; lia].
    rewrite (proj2 (Z.ltb_ge (Z.of_nat j) 0)) by lia. cbn [orb]. destruct (Z.ltb_spec (Z.of_nat j) (Z.of_nat n)); cbn [negb]; [|reflexivity].
    change (at_end (" " ++ ?a)%string) with false. destruct (Z.ltb_spec (Z.of_nat j) (Z.of_nat i)); [reflexivity|].
    rewrite RV. destruct (Z.eqb_spec v 0); [reflexivity|]. destruct B. split; [lia|assumption].
  Qed.

  Lemma elements_Ok n nd no l : (Z.of_nat n < 2 ^ 31)%Z -> Forall (good_element n) l -> Forall (fun e => range (snd e)) l -> forall m c1 c2, grid n n m ->
    exists m', foldM (qubo_line read) (map (qubo_element_text show) l) (mk_qubo true (Z.of_nat n) nd no m c1 c2) =
      Ok (mk_qubo true (Z.of_nat n) nd no m' (c1 + diag_count l) (c2 + other_count l))%Z /\
    grid n n m' /\ forall r c, r < n -> c < n -> entry m' r c = match last_value l r c with Some v => (- v)%Z | None => entry m r c end.
  Proof.
    intros N. induction l as [|[[i j] v] l IH]; intros GD RG m c1 c2 G.
    - exists m. split; [|split; [assumption|reflexivity]]. cbn. now rewrite !Z.add_0_r.
    - inversion_clear GD as [|? ? HG GD']. destruct HG as [HI HV]. inversion_clear RG as [|? ? HR RG']. cbn [snd] in HR.
      destruct (element_Ok n i j v nd no m c1 c2 N G HR HI HV) as (m1 & E1 & G1 & V1). cbn [map foldM]. rewrite E1. cbn [bind].
      destruct (IH GD' RG' m1 (c1 + if (i =? j)%nat then 1 else 0)%Z (c2 + if (i =? j)%nat then 0 else 1)%Z G1) as (m2 & E2 & G2 & V2).
      exists m2. split; [|split; [assumption|]].
      + rewrite E2. f_equal. f_equal.
        * unfold diag_count. cbn [filter on_diagonal]. destruct (i =? j); cbn [List.length]; lia.
        * unfold other_count. cbn [filter on_diagonal]. destruct (i =? j); cbn [negb List.length]; lia.
      + intros r c Hr Hc. rewrite V2, V1 by assumption. cbn [last_value]. destruct (last_value l r c); [reflexivity|].
        rewrite (Nat.eqb_sym i r), (Nat.eqb_sym j c). now destruct ((r =? i) && (c =? j)).
  Qed.

  Lemma comments_Ok comments s : foldM (qubo_line read) (map (fun c => String "c" c) comments) s = Ok s.
  Proof. induction comments as [|c t IH]; [reflexivity|]. cbn [map foldM qubo_line]. exact IH. Qed.

  Lemma element_no_newline e : range (snd e) -> no_newline (qubo_element_text show e) = true.
  Proof.
    destruct e as [[i j] v]. cbn [snd]. intros R. destruct (RB v R) as (H & _). apply no_newline_iff in H. unfold qubo_element_text.
    now rewrite !no_newline_app, !show_Z_no_newline, H.
  Qed.

  Lemma text_lines comments n nd no l : Forall (fun c => no_newline c = true) comments -> Forall (fun e => range (snd e)) l ->
    split_lines (qubo_text show comments n nd no l) =
    map (fun c => String "c" c) comments ++ header n nd no :: map (qubo_element_text show) l ++ [""].
  Proof.
    intros C R. unfold qubo_text. rewrite concat_lines; [rewrite <- !app_assoc; reflexivity|]. apply Forall_app. split; [|apply Forall_app; split].
    - apply Forall_map. revert C. apply Forall_impl. intros c Hc. exact Hc.
    - constructor; [|constructor]. now rewrite !no_newline_app, !show_Z_no_newline.
    - apply Forall_map. revert R. apply Forall_impl. intros e. apply element_no_newline.
  Qed.

  Lemma zeros_grid n : grid n n (repeat (repeat 0%Z n) n).
  Proof. split; [apply repeat_length|]. apply Forall_forall. intros r H. apply repeat_spec in H. subst. apply repeat_length. Qed.

  Lemma zeros_entry n i j : entry (repeat (repeat 0%Z n) n) i j = 0%Z.
  Proof.
    unfold entry. destruct (nth_in_or_default i (repeat (repeat 0%Z n) n) []) as [H| ->]; [|now destruct j].
    apply repeat_spec in H. rewrite H. destruct (nth_in_or_default j (repeat 0%Z n) 0%Z) as [H'|H']; [now apply repeat_spec in H'|assumption].
  Qed.

  Lemma load_Ok q comments n nd no l : 0 < n -> (Z.of_nat n < 2 ^ 31)%Z -> (0 <= nd < 2 ^ 31)%Z -> (0 <= no < 2 ^ 31)%Z ->
    Forall (fun c => no_newline c = true) comments -> Forall (good_element n) l -> Forall (fun e => range (snd e)) l ->
    exists q', qubo_load read q (qubo_text show comments n nd no l) =
      (if (diag_count l =? nd)%Z && (other_count l =? no)%Z then Ok q' else Throw RuntimeError) /\
    grid n n q' /\ forall i j, i < n -> j < n -> entry q' i j = match last_value l i j with Some v => (- v)%Z | None => 0%Z end.
  Proof.
    intros N Hn Hd Ho C GD R. destruct (elements_Ok n nd no l Hn GD R _ 0%Z 0%Z (zeros_grid n)) as (q' & E & G & V).
    exists q'. split; [|split; [assumption|]].
    - unfold qubo_load. rewrite text_lines by assumption. rewrite foldM_app, comments_Ok. cbn [bind foldM]. rewrite header_Ok by assumption. cbn [bind].
      rewrite foldM_app, E. cbn [bind foldM qubo_line q_count_diagonal q_count_other q_num_diagonal q_num_other q_matrix]. rewrite !Z.add_0_l.
      destruct (other_count l =? no)%Z; cbn [negb andb]; [|now rewrite andb_false_r]. rewrite andb_true_r. now destruct (diag_count l =? nd)%Z.
    - intros i j Hi Hj. rewrite V by assumption. now rewrite zeros_entry.
  Qed.

  Lemma load_bad q comments n nd no l i j v l' : 0 < n -> (Z.of_nat n < 2 ^ 31)%Z -> (0 <= nd < 2 ^ 31)%Z -> (0 <= no < 2 ^ 31)%Z ->
    Forall (fun c => no_newline c = true) comments -> Forall (good_element n) l -> Forall (fun e => range (snd e)) (l ++ (i, j, v) :: l') ->
    (Z.of_nat i < 2 ^ 31)%Z -> (Z.of_nat j < 2 ^ 31)%Z -> ~ good_element n (i, j, v) ->
    qubo_load read q (qubo_text show comments n nd no (l ++ (i, j, v) :: l')) = Throw RuntimeError.
  Proof.
    intros N Hn Hd Ho C GD R Hi Hj B. assert (R' := R). apply Forall_app in R as [R1 R2]. inversion_clear R2 as [|? ? R3 _]. cbn [snd] in R3.
    destruct (elements_Ok n nd no l Hn GD R1 _ 0%Z 0%Z (zeros_grid n)) as (q' & E & G & V).
    unfold qubo_load. rewrite text_lines by assumption. rewrite foldM_app, comments_Ok. cbn [bind foldM]. rewrite header_Ok by assumption. cbn [bind].
    rewrite map_app, <- app_assoc, foldM_app, E. cbn [bind map app foldM]. rewrite element_bad by (assumption || lia). reflexivity.
  Qed.

  (** Elements before the header, two headers *)
  Lemma load_no_header q e text : range (snd e) -> qubo_load read q (line_of (qubo_element_text show e) ++ text) = Throw RuntimeError.
  Proof.
    intros R. unfold qubo_load, line_of. rewrite append_assoc. change (String newline "" ++ text)%string with (String newline text).
    rewrite split_lines_cons by now apply element_no_newline. cbn [foldM]. rewrite qubo_line_element. reflexivity.
  Qed.
End Load.

(** Whatever the text *)
Lemma load_sound read q text q' : qubo_load read q text = Ok q' ->
  q' = q \/ exists n, 0 < n /\ grid n n q' /\ forall i j, i < n -> j < i -> entry q' i j = 0%Z.
Proof.
  unfold qubo_load. intros E. apply bind_Ok in E as (s & E & E2).
  assert (I : if q_spec s then exists n, 0 < n /\ q_dimension s = Z.of_nat n /\ grid n n (q_matrix s) /\
      (forall i j, i < n -> j < i -> entry (q_matrix s) i j = 0%Z) else q_matrix s = q).
  { refine (foldM_pres (qubo_line read) (fun s => if q_spec s then exists n, 0 < n /\ q_dimension s = Z.of_nat n /\ grid n n (q_matrix s) /\
      (forall i j, i < n -> j < i -> entry (q_matrix s) i j = 0%Z) else q_matrix s = q) _ _ s _ _ E); [reflexivity|].
    clear. intros s l s' _ H. destruct l as [|c l]; [intros E; apply Ok_inj in E; now subst|]. unfold qubo_line.
    destruct (Ascii.eqb c "c"); [intros E; apply Ok_inj in E; now subst|]. destruct (Ascii.eqb c "p").
    - unfold qubo_spec. destruct (q_spec s); [discriminate|].
      destruct (read_word _) as [[w i]|]; [|discriminate]. destruct (negb _); [discriminate|].
      destruct (read_word i) as [[w' i']|]; [|discriminate]. destruct (negb _); [discriminate|].
      destruct (read_int i') as [[z i1]|]; [|discriminate]. destruct (negb _); [discriminate|].
      destruct (read_int i1) as [[d i2]|]; [|discriminate]. destruct (Z.leb_spec d 0); [discriminate|].
      destruct (read_int i2) as [[nd i3]|]; [|discriminate]. destruct (nd <? 0)%Z; [discriminate|].
      destruct (read_int i3) as [[no i4]|]; [|discriminate]. destruct (no <? 0)%Z; [discriminate|].
      intros E. apply Ok_inj in E. subst s'. cbn [q_spec q_dimension q_matrix]. exists (Z.to_nat d). split; [lia|]. split; [lia|].
      split; [apply zeros_grid|]. intros. apply zeros_entry.
    - unfold qubo_element. destruct (q_spec s); [|discriminate]. cbn [negb].
      destruct H as (n & N & D & G & V). destruct (0 <? q_dimension s)%Z; cbn [assertb bind]; [|discriminate].
      destruct (read_int _) as [[i r]|]; [|discriminate]. destruct (Z.ltb_spec i 0); cbn [orb]; [discriminate|].
      destruct (Z.ltb_spec i (q_dimension s)); cbn [negb]; [|discriminate].
      destruct (read_int r) as [[j r']|]; [|discriminate]. destruct (Z.ltb_spec j 0); cbn [orb]; [discriminate|].
      destruct (Z.ltb_spec j (q_dimension s)); cbn [negb]; [|discriminate]. destruct (Z.ltb_spec j i); [discriminate|].
      destruct (read r') as [[v r'']|]; [|discriminate]. destruct (v =? 0)%Z; [discriminate|].
      destruct (mset_Ok n (q_matrix s) (Z.to_nat i) (Z.to_nat j) (- v)%Z G) as (m & EM & GM & VM); [lia|lia|].
      rewrite EM. cbn [bind]. intros E. apply Ok_inj in E. subst s'. cbn [q_spec q_dimension q_matrix]. exists n.
      split; [assumption|]. split; [assumption|]. split; [assumption|]. intros a b Ha Hb. rewrite VM by lia.
      destruct (Nat.eqb_spec a (Z.to_nat i)), (Nat.eqb_spec b (Z.to_nat j)); cbn [andb]; try (now apply V). lia. }
  destruct (negb _); [discriminate|]. destruct (negb _); [discriminate|]. apply Ok_inj in E2. subst q'.
  destruct (q_spec s); [right|left; assumption]. destruct I as (n & N & _ & G & V). eauto.
Qed.

Lemma load_empty read q : qubo_load read q "" = Ok q.
Proof. reflexivity. Qed.

Lemma int_reads_back : reads_back read_int show_Z (fun v => (- 2 ^ 31 <= v < 2 ^ 31)%Z).
Proof.
  intros v H. split; [apply no_newline_iff, show_Z_no_newline|]. eexists. rewrite <- (append_nil_r (show_Z v)).
  apply read_int_show; [reflexivity|reflexivity|]. unfold int_range. apply andb_true_iff. rewrite Z.leb_le, Z.ltb_lt. lia.
Qed.
