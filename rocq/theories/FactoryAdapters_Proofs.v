From Coq Require Import ZArith NArith QArith String Ascii Permutation Sorted.
From Verif Require Import Base BaseLemmas BitVector_Model BitVector_Spec BitVector_Proofs Text_Model Representation_Model Representation_Spec Representation_Proofs Iterator_Proofs Adapter_Proofs Tsp_Proofs Map_Spec Function_Spec
  Collection_Model Collection_Spec Sudoku_Model Sudoku_Spec Sudoku_Proofs SudokuFile_Proofs
  Double Controller_Model Controller_Spec ControllerStack_Spec Decorator_Model FunctionFactory_Model FactoryAdapters_Model FactoryAdapters_Spec.
Local Close Scope Q_scope.
Local Open Scope list_scope.
Local Open Scope nat_scope.

Lemma value_lsb_nat x : N.to_nat (value_lsb x) < 2 ^ List.length x.
Proof.
  pose proof (value_lsb_lt x) as B. assert (E : N.to_nat (2 ^ N.of_nat (List.length x)) = 2 ^ List.length x) by (rewrite N2Nat.inj_pow, Nat2N.id; reflexivity). lia.
Qed.

(** * Repeated representations *)

Lemma total_size_repeat {D} (r : rep D) k : total_size (repeat r k) = k * rep_size r.
Proof.
  unfold total_size. assert (H : forall a, fold_left (fun result r => result + rep_size r) (repeat r k) a = a + k * rep_size r); [|now rewrite H].
  induction k as [|k IH]; intros a; cbn [repeat fold_left]; [lia|]. rewrite IH. lia.
Qed.

Lemma unpack_repeat {D} (r : rep D) dec k x : decodes r dec -> forall start, start + k * rep_size r <= List.length x ->
  unpack_vars (repeat r k) x start = Ok (map (fun j => dec (slice x (start + j * rep_size r) (rep_size r))) (seq 0 k), start + k * rep_size r).
Proof.
  intros [HP HD]. induction k as [|k IH]; intros start HL; cbn [repeat unpack_vars seq map]; [f_equal; f_equal; lia|].
  rewrite HD by lia. cbn [bind]. rewrite IH by lia. cbn [bind]. f_equal. f_equal; [|lia]. f_equal; [now rewrite Nat.mul_0_l, Nat.add_0_r|].
  rewrite <- seq_shift, map_map. apply map_ext. intros j. f_equal. f_equal. lia.
Qed.

(** * Sudoku *)

Lemma digit_rep_Ok kind : (kind = 0 \/ kind = 1)%Z -> exists r dec, digit_rep kind = Ok r /\ rep_size r = cell_bits kind /\ decodes r dec /\
  (forall p, N.to_nat (dec p) = category kind p) /\ (forall c, c < 9 -> exists p, List.length p = cell_bits kind /\ category kind p = c).
Proof.
  intros [->| ->].
  - destruct (intcat_exact 64 9) as (r & dec & E & H1 & H2 & H3 & H4); [lia|lia| |].
    { apply Nat.lt_le_trans with (2 ^ 4); [cbn; lia|]. apply Nat.pow_le_mono_r; lia. }
    exists (intcat_rep r), dec. unfold digit_rep. rewrite E. cbn [bind]. split; [reflexivity|]. split; [exact H1|]. split; [exact H2|].
    assert (C : forall p, N.to_nat (dec p) = category 0 p) by (intros p; unfold category; cbn [Z.eqb]; now rewrite (proj2 (H3 p))).
    split; [exact C|]. intros c Hc. destruct (H4 (N.of_nat c)) as (p & L & D); [lia|]. exists p. rewrite H1 in L. split; [exact L|]. rewrite <- C, D. lia.
  - destruct (lincat_exact 32 9) as (r & dec & E & H1 & H2 & H3 & H4); [lia|lia| |].
    { apply Nat.le_trans with (2 ^ 4); [cbn; lia|]. apply Nat.pow_le_mono_r; lia. }
    exists (lincat_rep r), dec. unfold digit_rep. rewrite E. cbn [bind]. split; [reflexivity|]. split; [exact H1|]. split; [exact H2|].
    assert (C : forall p, N.to_nat (dec p) = category 1 p) by (intros p; unfold category; cbn [Z.eqb Pos.eqb]; now rewrite (proj2 (H3 p))).
    split; [exact C|]. intros c Hc. destruct (H4 (N.of_nat c)) as (p & L & D); [lia|]. exists p. rewrite H1 in L. split; [exact L|]. rewrite <- C, D. lia.
Qed.

Lemma category_9 kind p : category kind p < 9.
Proof. unfold category. set (v := if _ : bool then _ else _). pose proof (N.mod_lt v 9 ltac:(lia)). lia. Qed.

Lemma filling_length kind inst x : List.length (filling kind inst x) = List.length (empty_cells inst).
Proof. unfold filling. now rewrite map_length, seq_length. Qed.
Lemma filling_9 kind inst x : Forall (fun v => v < 9) (filling kind inst x).
Proof. apply Forall_forall. intros v Hv. unfold filling in Hv. apply in_map_iff in Hv as (k & <- & _). apply category_9. Qed.

(** All the fillings are read from some bits. *)
Lemma fillings kind : (kind = 0 \/ kind = 1)%Z -> forall ds, Forall (fun v => v < 9) ds -> exists x, List.length x = List.length ds * cell_bits kind /\
  map (fun k => category kind (slice x (k * cell_bits kind) (cell_bits kind))) (seq 0 (List.length ds)) = ds.
Proof.
  intros K. destruct (digit_rep_Ok kind K) as (_ & _ & _ & _ & _ & _ & O). set (w := cell_bits kind) in *.
  induction ds as [|d ds IH]; intros H; [exists []; split; reflexivity|]. inversion H as [|? ? H1 H2]; subst.
  destruct (IH H2) as (x & L & E). destruct (O d H1) as (p & LP & EP). exists (p ++ x). cbn [List.length]. split; [rewrite app_length; lia|].
  cbn [seq map]. f_equal.
  - cbn [Nat.mul]. unfold slice. cbn [skipn]. rewrite firstn_app, firstn_all2 by lia. replace (w - List.length p) with 0 by lia. cbn [firstn]. now rewrite app_nil_r.
  - rewrite <- seq_shift, map_map. rewrite <- E at 2. apply map_ext. intros k. f_equal. unfold slice. f_equal.
    rewrite skipn_app, skipn_all2 by lia. cbn [app]. f_equal. lia.
Qed.

Lemma completes_same inst x g g' : completes inst x g -> completes inst x g' -> forall i j, i < 9 -> j < 9 -> g i j = g' i j.
Proof.
  intros [A B] [A' B'] i j Hi Hj. destruct (Ascii.eqb (cell dot inst i j) dot) eqn:E.
  - rewrite <- B' in B. assert (I : In (i, j) (empty_cells inst)).
    { unfold empty_cells. apply filter_In. split; [|exact E]. apply in_prod; apply in_seq; lia. }
    revert B I. generalize (empty_cells inst). induction l as [|(a, b) l IH]; intros B I; [destruct I|]. cbn [map] in B. injection B as B1 B2.
    destruct I as [I|I]; [now injection I as <- <-|auto].
  - apply Ascii.eqb_neq in E. now rewrite A, A'.
Qed.

Lemma digits_same g g' u : (forall i j, i < 9 -> j < 9 -> g i j = g' i j) -> In u units -> digits_of g u = digits_of g' u.
Proof.
  intros H U. apply units_in_grid in U. unfold digits_of. apply map_ext_in. intros (i, j) I. unfold in_grid in U. rewrite Forall_forall in U. destruct (U _ I). auto.
Qed.
Lemma defects_same g g' : (forall i j, i < 9 -> j < 9 -> g i j = g' i j) -> defects g = defects g'.
Proof. intros H. unfold defects. f_equal. apply map_ext_in. intros u U. f_equal. now apply digits_same. Qed.
Lemma solved_same g g' : (forall i j, i < 9 -> j < 9 -> g i j = g' i j) -> solved g -> solved g'.
Proof. intros H G u U. rewrite <- (digits_same g g' u H U). now apply G. Qed.

(** A filling can be completed. *)
Lemma completed s ds : loaded s -> List.length ds = List.length (empty_cells (s_instance s)) -> Forall (fun v => v < 9) ds ->
  exists g, completes (s_instance s) ds g /\ (defects g = 0%Z <-> solved g) /\ (0 <= defects g)%Z.
Proof. intros H L F. destruct (sudoku_evaluate_exact s ds H L F) as (s' & g & _ & C & D & P & _). eauto. Qed.

Lemma adapter_step kind r dec s x : (kind = 0 \/ kind = 1)%Z -> rep_size r = cell_bits kind -> decodes r dec -> (forall p, N.to_nat (dec p) = category kind p) ->
  loaded s -> let k := List.length (empty_cells (s_instance s)) in List.length x = k * cell_bits kind ->
  forall q, q = REval x \/ q = RSafe x ->
  exists s' g, sudoku_adapter (repeat r k) s q = (s', Ok (RValue (integer (- defects g)))) /\ completes (s_instance s) (filling kind (s_instance s) x) g /\
    loaded s' /\ s_instance s' = s_instance s.
Proof.
  intros K W D C L k LX q HQ.
  destruct (sudoku_evaluate_exact s (filling kind (s_instance s) x) L (filling_length _ _ _) (filling_9 _ _ _)) as (s' & g & E & CG & _ & _ & I & L').
  exists s', g. assert (U : adapter_evaluate (repeat r k) (fun vs => sudoku_evaluate s (map N.to_nat vs)) x = Ok ((- defects g)%Z, s')).
  { unfold adapter_evaluate. rewrite total_size_repeat, W, LX, Nat.eqb_refl. cbn [assertb bind]. rewrite (unpack_repeat r dec k x D 0) by (rewrite W; lia). cbn [bind].
    rewrite map_map. rewrite <- E. f_equal. unfold filling. apply map_ext. intros j. rewrite C, W. reflexivity. }
  split; [|auto]. destruct HQ as [->| ->]; cbn [sudoku_adapter]; rewrite U; reflexivity.
Qed.

(** The value of a vector, as a function of the problem only *)
Definition sudoku_value (kind : Z) (s : sudoku) (x : bv) : dbl :=
  match sudoku_evaluate s (filling kind (s_instance s) x) with Ok (v, _) => integer v | _ => integer 0 end.

Lemma loaded_same_value kind s s' x : loaded s -> loaded s' -> s_instance s' = s_instance s -> sudoku_value kind s' x = sudoku_value kind s x.
Proof.
  intros L L' I. unfold sudoku_value. 
  destruct (sudoku_evaluate_exact s _ L (filling_length kind _ x) (filling_9 _ _ _)) as (t & g & -> & C & _).
  destruct (sudoku_evaluate_exact s' _ L' (filling_length kind _ x) (filling_9 _ _ _)) as (t' & g' & -> & C' & _).
  rewrite I in C'. now rewrite (defects_same g g' (completes_same _ _ _ _ C C')).
Qed.

Lemma value_exact kind s x : loaded s -> forall g, completes (s_instance s) (filling kind (s_instance s) x) g -> sudoku_value kind s x = integer (- defects g).
Proof.
  intros L g C. unfold sudoku_value. destruct (sudoku_evaluate_exact s _ L (filling_length kind _ x) (filling_9 _ _ _)) as (t & g' & -> & C' & _).
  now rewrite (defects_same g g' (completes_same _ _ _ _ C C')).
Qed.

Lemma adapter_total kind r dec s : (kind = 0 \/ kind = 1)%Z -> rep_size r = cell_bits kind -> decodes r dec -> (forall p, N.to_nat (dec p) = category kind p) ->
  loaded s -> let k := List.length (empty_cells (s_instance s)) in
  total (sudoku_adapter (repeat r k)) s (k * cell_bits kind) (sudoku_value kind s).
Proof.
  intros K W D C L k xs. unfold k. clear k. revert s L. induction xs as [|x xs IH]; intros s L H; [reflexivity|]. inversion H as [|? ? H1 H2]; subst.
  destruct (adapter_step kind r dec s x K W D C L H1 (REval x) (or_introl eq_refl)) as (s' & g & E & CG & L' & I).
  cbn [map calls]. rewrite E. cbn [fst snd res map]. f_equal; [now rewrite (value_exact kind s x L g CG)|].
  rewrite <- I in *. rewrite (IH s' L' H2). apply map_ext. intros y. now rewrite (loaded_same_value kind s s' y L L' I).
Qed.

Lemma written_loads text inst : written text inst -> exists s, sudoku_load sudoku_make text = Ok s /\ loaded s /\ s_instance s = inst.
Proof.
  intros [[[G1 G2] P] W]. destruct (sudoku_load_exact sudoku_make text make_boards) as [H _]. destruct H as (s & E & L & H).
  { split.
    - destruct (le_lt_dec 9 (List.length (split_lines text))) as [X|X]; [exact X|]. specialize (W 8 0 ltac:(lia) ltac:(lia)). rewrite nth_overflow in W by lia. discriminate.
    - intros i Hi. split.
      + pose proof (W i 8 Hi ltac:(lia)) as X. revert X. generalize (nth i (split_lines text) ""%string).
        intros t. do 9 (destruct t as [|? t]; [discriminate|cbn [String.get]]). intros _. cbn [String.length]. lia.
      + intros j Hj. exists (cell dot inst i j). split; [now apply W|]. destruct (P i j Hi Hj) as [X|X]; [now left|now right]. }
  exists s. split; [exact E|]. split; [exact L|]. destruct L as [[[L1 L2] _] _].
  assert (C : forall i j, i < 9 -> j < 9 -> cell dot (s_instance s) i j = cell dot inst i j).
  { intros i j Hi Hj. specialize (H i j Hi Hj). unfold text_cell in H. rewrite (W i j Hi Hj) in H. now injection H. }
  apply nth_ext with [] []; [congruence|]. intros i Hi. rewrite Forall_forall in G2, L2.
  assert (A1 : List.length (nth i (s_instance s) []) = 9) by (apply L2, nth_In; lia).
  assert (A2 : List.length (nth i inst []) = 9) by (apply G2, nth_In; lia).
  apply nth_ext with dot dot; [congruence|]. intros j Hj. apply C; lia.
Qed.

(** The problem is written in the text, or it cannot be loaded. *)
Lemma unwritten_throws text : (forall inst, ~ written text inst) -> sudoku_load sudoku_make text = Throw RuntimeError.
Proof.
  intros H. apply (sudoku_load_exact sudoku_make text make_boards). intros R.
  destruct (proj1 (sudoku_load_exact sudoku_make text make_boards) R) as (s & _ & L & E). apply (H (s_instance s)). split; [apply L|exact E].
Qed.

Lemma sudoku_made kind text inst : (kind = 0 \/ kind = 1)%Z -> written text inst ->
  exists F f s, sudoku_function kind (Some text) = Ok F /\ f_props F = default_props (List.length (empty_cells inst) * cell_bits kind) false /\
    total (f_obj F) (f_init F) (fp_size (f_props F)) f /\ f = sudoku_value kind s /\ loaded s /\ s_instance s = inst.
Proof.
  intros K W. destruct (written_loads text inst W) as (s & E & L & I). destruct (digit_rep_Ok kind K) as (r & dec & ER & SR & D & C & _).
  unfold sudoku_function. rewrite E. cbn [bind]. rewrite ER. cbn [bind]. rewrite (proj1 (proj2 (proj2 L))).
  eexists. exists (sudoku_value kind s), s. split; [reflexivity|]. cbn [f_props f_obj f_init fp_size default_props]. rewrite total_size_repeat, SR, I.
  split; [reflexivity|]. split; [|auto]. rewrite <- I. now apply adapter_total with dec.
Qed.

Lemma solved_positive g : solved g -> forall i j, i < 9 -> j < 9 -> 1 <= g i j <= 9.
Proof.
  intros H i j Hi Hj. assert (U : In (map (fun j => (i, j)) (seq 0 9)) units).
  { unfold units, rows. apply in_or_app. left. apply in_map_iff. exists i. split; [reflexivity|]. apply in_seq. lia. }
  specialize (H _ U). assert (I : In (g i j) (seq 1 9)).
  { apply (Permutation_in _ H). unfold digits_of. rewrite map_map. apply in_map_iff. exists j. split; [reflexivity|]. apply in_seq. lia. }
  apply in_seq in I. lia.
Qed.

(** The problem is solvable exactly if some bits give a solved grid. *)
Lemma solvable_exact kind inst : (kind = 0 \/ kind = 1)%Z ->
  solvable inst <-> exists x g, List.length x = List.length (empty_cells inst) * cell_bits kind /\ completes inst (filling kind inst x) g /\ solved g.
Proof.
  intros K. split.
  - intros (g & G & H). pose (ds := map (fun '(i, j) => g i j - 1) (empty_cells inst)).
    assert (I : forall i j, In (i, j) (empty_cells inst) -> i < 9 /\ j < 9).
    { intros i j X. unfold empty_cells in X. apply filter_In in X as [X _]. apply in_prod_iff in X as [X Y]. apply in_seq in X, Y. lia. }
    destruct (fillings kind K ds) as (x & L & E).
    { apply Forall_forall. intros v Hv. unfold ds in Hv. apply in_map_iff in Hv as ((i, j) & <- & Hij). destruct (I _ _ Hij).
      pose proof (solved_positive g G i j). lia. }
    exists x, g. assert (LD : List.length ds = List.length (empty_cells inst)) by (unfold ds; now rewrite map_length). rewrite LD in *.
    split; [exact L|]. split; [|exact G]. split; [exact H|]. unfold filling. rewrite E. unfold ds. rewrite map_map. apply map_ext_in. intros (i, j) Hij.
    destruct (I _ _ Hij). pose proof (solved_positive g G i j). lia.
  - intros (x & g & _ & C & G). exists g. split; [exact G|apply C].
Qed.

Lemma describe_exact kind r dec s x : rep_size r = cell_bits kind -> decodes r dec -> (forall p, N.to_nat (dec p) = category kind p) ->
  loaded s -> let k := List.length (empty_cells (s_instance s)) in List.length x = k * cell_bits kind ->
  exists b, sudoku_describe (repeat r k) s x = Ok b /\ grid b /\ completes (s_instance s) (filling kind (s_instance s) x) (cell 0 b).
Proof.
  intros W D C L k LX. unfold sudoku_describe. rewrite (unpack_repeat r dec k x D 0) by (rewrite W; lia). cbn [bind]. rewrite map_map.
  replace (map _ (seq 0 k)) with (filling kind (s_instance s) x).
  2: { unfold filling. apply map_ext. intros j. rewrite C, W. reflexivity. }
  destruct L as (Hp & Hg & Hn & Hd). destruct (write_variables_exact s (filling kind (s_instance s) x) (proj1 Hp) Hg (filling_length _ _ _)) as (cand & E & Hgc & Hm & Ho).
  rewrite E. cbn [bind s_candidate]. exists cand. split; [reflexivity|]. split; [exact Hgc|]. split; [|exact Hm].
  intros i j Hi Hj N. rewrite Ho; [now apply Hd|]. unfold empty_cells. rewrite filter_In. intros (_ & X). apply Ascii.eqb_eq in X. contradiction.
Qed.

Lemma bounded_dec (P : nat -> Prop) m : (forall j, P j \/ ~ P j) -> (forall j, j < m -> P j) \/ ~ (forall j, j < m -> P j).
Proof.
  intros D. induction m as [|m [IH|IH]]; [left; intros; lia| |right; intros H; apply IH; intros; apply H; lia].
  destruct (D m) as [H|H]; [|right; intros N; apply H, N; lia]. left. intros j Hj. destruct (Nat.eq_dec j m) as [->|]; [exact H|]. apply IH. lia.
Qed.
Lemma readable_dec lines : good_text lines \/ ~ good_text lines.
Proof.
  unfold good_text. destruct (le_lt_dec 9 (List.length lines)) as [L|L]; [|right; intros [X _]; lia].
  destruct (bounded_dec (fun i => good_row (nth i lines ""%string)) 9) as [H|H]; [|left; auto|right; intros [_ X]; auto].
  intros i. unfold good_row. destruct (le_lt_dec 9 (String.length (nth i lines ""%string))) as [K|K]; [|right; intros [X _]; lia].
  destruct (bounded_dec (fun j => exists c, String.get j (nth i lines ""%string) = Some c /\ cell_char c) 9) as [H|H]; [|left; auto|right; intros [_ X]; auto].
  intros j. destruct (String.get j (nth i lines ""%string)) as [c|]; [|right; intros (c & X & _); discriminate].
  destruct (cell_char_dec c) as [C|C]; [left; eauto|right; intros (c' & X & Y); injection X as <-; auto].
Qed.

Lemma loads_written text s : sudoku_load sudoku_make text = Ok s -> written text (s_instance s).
Proof.
  intros E. destruct (sudoku_load_exact sudoku_make text make_boards) as [H1 H2].
  destruct (readable_dec (split_lines text)) as [R|R]; [|rewrite (H2 R) in E; discriminate].
  destruct (H1 R) as (s' & E' & L & H). rewrite E in E'. injection E' as <-. split; [apply L|exact H].
Qed.

(** * Traveling salesman *)

Lemma sorted_by_keys n w x p q : distinct_keys n w x -> tour_by_keys n w x p -> tour_by_keys n w x q -> p = q.
Proof.
  intros D [P1 P2] [Q1 Q2]. pose (k := fun i => N.to_nat (key w x i)).
  assert (B : forall l, Permutation l (seq 0 n) -> forall i, In i l -> i < n) by (intros l L i Hi; apply (Permutation_in _ L) in Hi; apply in_seq in Hi; lia).
  assert (M : map k p = map k q).
  { apply sorted_le_unique.
    - apply StronglySorted_map. eapply StronglySorted_impl; [|exact P2]. intros a b _ _ H. unfold k. cbv beta in *. lia.
    - apply StronglySorted_map. eapply StronglySorted_impl; [|exact Q2]. intros a b _ _ H. unfold k. cbv beta in *. lia.
    - apply Permutation_map. now rewrite P1, Q1. }
  assert (BP := B p P1). assert (BQ := B q Q1). clear P1 P2 Q1 Q2 B. revert q M BQ. induction p as [|a p IH]; intros [|b q] M BQ; try discriminate; [reflexivity|].
  cbn [map] in M. injection M as M1 M2. f_equal; [|apply IH; auto; intros i Hi; [apply BP|apply BQ]; now right].
  apply D; [apply BP; now left|apply BQ; now left|]. unfold k in M1. lia.
Qed.

Lemma all_tours n w q : n <= 2 ^ w -> Permutation q (seq 0 n) -> exists x, List.length x = n * w /\ distinct_keys n w x /\ tour_by_keys n w x q.
Proof.
  intros Hn Hq. assert (Lq : List.length q = n) by (rewrite (Permutation_length Hq); apply seq_length).
  assert (Nq : NoDup q). { apply (Permutation_NoDup (l := seq 0 n)); [now symmetry|apply seq_NoDup]. }
  assert (Hpos : forall i, i < n -> exists k, k < n /\ nth k q 0 = i /\ pos q i = k).
  { intros i Hi. assert (Hin : In i q). { apply (Permutation_in i (Permutation_sym Hq)). apply in_seq. lia. }
    destruct (In_nth q i 0 Hin) as (k & Hk & E). exists k. split; [lia|]. split; [exact E|]. rewrite <- E. now apply pos_nth. }
  set (f := fun i => bits_of w (pos q i)). assert (Lf : forall k, List.length (f k) = w) by (intros k; apply length_bits_of).
  exists (concat (map f (seq 0 n))). split; [now apply length_concat_const|].
  assert (EV : forall i, i < n -> key w (concat (map f (seq 0 n))) i = N.of_nat (pos q i)).
  { intros i Hi. unfold key. rewrite slice_concat_const by assumption. destruct (Hpos i Hi) as (k & K1 & _ & K3). apply value_bits_of. rewrite K3. lia. }
  split.
  - intros i j Hi Hj E. rewrite !EV in E by assumption. destruct (Hpos i Hi) as (a & A1 & A2 & A3). destruct (Hpos j Hj) as (b & B1 & B2 & B3). rewrite A3, B3 in E.
    assert (a = b) by lia. congruence.
  - split; [exact Hq|]. assert (S : StronglySorted (fun i j => pos q i <= pos q j) q).
    { assert (G : forall k l, (forall j, j < List.length l -> pos q (nth j l 0) = k + j) -> StronglySorted (fun i j => pos q i <= pos q j) l).
      { intros k l. revert k. induction l as [|a l IH]; intros k H; constructor.
        - apply (IH (k + 1)). intros j Hj. specialize (H (S j) ltac:(cbn; lia)). cbn in H. lia.
        - apply Forall_forall. intros b Hb. apply (In_nth _ _ 0) in Hb as (j & Hj & <-). pose proof (H 0 ltac:(cbn; lia)) as H0. specialize (H (S j) ltac:(cbn; lia)). cbn in H, H0. lia. }
      apply (G 0). intros j Hj. now apply pos_nth. }
    eapply StronglySorted_impl; [|exact S]. intros a b Ha Hb H. cbv beta in *. apply (Permutation_in _ Hq) in Ha, Hb. apply in_seq in Ha, Hb. rewrite !EV by lia. lia.
Qed.

Lemma tsp_step d sh srt w x : let n := List.length d in 0 < n -> Function_Spec.grid n n d -> (forall k, shuffles (sh k)) -> sorts srt -> 0 < w <= 31 -> List.length x = n * w ->
  forall k, exists p, tour_by_keys n w x p /\ tsp_adapter d (mk_permrep n w) sh srt k (REval x) = (k + 1, Ok (RValue (DFin (- tour_length d p)))).
Proof.
  intros n N G SH SO W L k. set (r := mk_permrep n w).
  assert (S0 : pr_size r = n * w) by reflexivity.
  destruct (permrep_unpack_Ok (sh k) srt r (repeat 0 n) x 0 (SH k) SO W (repeat_length _ _)) as (p & E & P & S); [rewrite S0; lia|].
  exists p. assert (SX : slice x 0 (pr_size r) = x) by (unfold slice; cbn [skipn]; apply firstn_all2; lia). rewrite SX in S.
  assert (T : tour_by_keys n w x p) by (split; [exact P|exact S]). split; [exact T|].
  cbn [tsp_adapter]. fold n r. rewrite S0, L, Nat.eqb_refl. cbn [assertb bind]. rewrite E. cbn [bind].
  assert (LP : List.length p = n) by (rewrite (Permutation_length P); apply seq_length).
  assert (F : Forall (fun i => i < n) p) by (apply Forall_forall; intros i Hi; apply (Permutation_in i P) in Hi; apply in_seq in Hi; cbn in Hi; lia).
  rewrite (tsp_value n d p N G LP F). reflexivity.
Qed.

(** The value of a vector at a call *)
Definition tsp_value_at (d : list (list Z)) (w : nat) sh srt (k : nat) (x : bv) : dbl :=
  match snd (tsp_adapter d (mk_permrep (List.length d) w) sh srt k (REval x)) with Ok (RValue v) => v | _ => DFin 0 end.
