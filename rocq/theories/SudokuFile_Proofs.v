(** Proofs about the files and the random instances of sudoku. *)

From Coq Require Import ZArith QArith String Ascii Permutation.
From Verif Require Import Base BaseLemmas BitVector_Model BitVector_Spec GF2 BitVector_Proofs Text_Model Text_Proofs
  Map_Spec Sudoku_Model Sudoku_Spec Sudoku_Proofs.
Local Close Scope Q_scope.
Local Open Scope string_scope.
Local Open Scope list_scope.
Local Open Scope nat_scope.
Notation len := List.length.

(** Objects have boards of the right size. *)
Definition boards (s : sudoku) : Prop := grid (s_instance s) /\ grid (s_candidate s).

Lemma make_boards : boards sudoku_make.
Proof. split; split; vm_compute; auto; repeat constructor. Qed.

(** * load *)

Definition cell_char (c : ascii) : Prop := c = dot \/ 49 <= nat_of_ascii c <= 57.

Lemma cell_char_test c : (is_dot c || (is_digit c && negb (Ascii.eqb c "0")) = true) <-> cell_char c.
Proof.
  unfold cell_char. rewrite orb_true_iff, is_dot_true, andb_true_iff, negb_true_iff, Ascii.eqb_neq.
  unfold is_digit. rewrite andb_true_iff, !Nat.leb_le. split; intros [H|H]; auto; right.
  - destruct H as (H & N). assert (nat_of_ascii c <> 48); [|lia]. intros E. apply N.
    rewrite <- (ascii_nat_embedding c), E. reflexivity.
  - split; [lia|]. intros ->. cbn in H. lia.
Qed.

(** The characters the lines give to the cells *)
Definition text_cell (lines : list string) (i j : nat) : option ascii := String.get j (nth i lines "").

(** After the first [k] cells in reading order *)
Definition load_inv (lines : list string) (k : nat) (s : sudoku) : Prop :=
  boards s /\
  s_num s = Some (len (filter (fun '(i, j) => is_dot (cell dot (s_instance s) i j)) (firstn k cells))) /\
  forall i j, In (i, j) (firstn k cells) ->
    cell_char (cell dot (s_instance s) i j) /\ text_cell lines i j = Some (cell dot (s_instance s) i j) /\
    (cell dot (s_instance s) i j <> dot -> cell 0 (s_candidate s) i j = digit_of (cell dot (s_instance s) i j)).

Lemma cells_nth i j : i < 9 -> j < 9 -> firstn (9 * i + j + 1) cells = firstn (9 * i + j) cells ++ [(i, j)].
Proof.
  assert (forallb (fun '(i, j) => match firstn 1 (skipn (9 * i + j) cells) with [(a, b)] => (a =? i) && (b =? j) | _ => false end) cells = true)
    as H by (vm_compute; reflexivity).
  intros Hi Hj. rewrite firstn_add. f_equal. rewrite forallb_forall in H. specialize (H (i, j) (proj2 (in_cells i j) (conj Hi Hj))).
  cbv beta iota in H. destruct (firstn 1 (skipn (9 * i + j) cells)) as [|(a, b) [|? ?]]; try discriminate.
  apply andb_true_iff in H as [A B]. apply Nat.eqb_eq in A, B. now subst.
Qed.

Lemma cells_before i j : i < 9 -> j < 9 -> ~ In (i, j) (firstn (9 * i + j) cells).
Proof.
  intros Hi Hj. pose proof cells_NoDup as ND. rewrite <- (firstn_skipn (9 * i + j + 1) cells), cells_nth, <- app_assoc in ND by assumption.
  cbn [app] in ND. apply NoDup_remove_2 in ND. intros N. apply ND. apply in_app_iff. auto.
Qed.

Lemma filter_ext_in' {A} (f g : A -> bool) l : (forall a, In a l -> f a = g a) -> filter f l = filter g l.
Proof.
  induction l as [|a l IH]; intros H; cbn; auto. rewrite (H a) by now left. rewrite IH by (intros; apply H; now right). reflexivity.
Qed.

Lemma load_char_Ok lines i j s c : i < 9 -> j < 9 -> load_inv lines (9 * i + j) s ->
  text_cell lines i j = Some c -> cell_char c ->
  exists s', load_char i (nth i lines "") s j = Ok s' /\ load_inv lines (9 * i + (j + 1)) s'.
Proof.
  intros Hi Hj ((Hg & Hgc) & Hn & Hd) Et Hc. unfold load_char. unfold text_cell in Et. rewrite Et.
  rewrite (proj2 (cell_char_test c) Hc).
  destruct (bset_Ok dot (s_instance s) i j c Hg Hi Hj) as (inst & Eb & Hg' & Hsame & Hother). rewrite Eb. cbn [bind].
  assert (forall a b, In (a, b) (firstn (9 * i + j) cells) -> (a, b) <> (i, j)) as Hne.
  { intros a b Hab E. injection E as -> ->. now apply (cells_before i j). }
  assert (filter (fun '(i, j) => is_dot (cell dot inst i j)) (firstn (9 * i + j) cells) =
          filter (fun '(i, j) => is_dot (cell dot (s_instance s) i j)) (firstn (9 * i + j) cells)) as Ef.
  { apply filter_ext_in'. intros (a, b) Hab. rewrite Hother; auto. }
  rewrite Nat.add_assoc. unfold load_inv. rewrite cells_nth by assumption.
  destruct (is_dot c) eqn:Ed.
  - eexists. split; [reflexivity|]. cbn [s_instance s_candidate s_num]. split; [split; assumption|]. split.
    + rewrite Hn. cbn [option_map]. f_equal. rewrite filter_app, app_length, Ef. cbn [filter]. rewrite Hsame, Ed. cbn [len]. lia.
    + intros a b Hab. apply in_app_iff in Hab as [Hab|[E|[]]].
      * rewrite Hother by auto. auto.
      * injection E as <- <-. rewrite Hsame. split; [assumption|]. split; [exact Et|]. intros N. exfalso. apply N. now apply is_dot_true.
  - apply is_dot_false in Ed as Nd. destruct Hc as [Hc|Hc]; [contradiction|].
    rewrite (proj2 (Nat.ltb_lt 48 (nat_of_ascii c))) by lia. cbn [assertb bind].
    destruct (bset_Ok 0 (s_candidate s) i j (nat_of_ascii c - 48) Hgc Hi Hj) as (cand & Ec & Hgc' & Csame & Cother). rewrite Ec. cbn [bind].
    eexists. split; [reflexivity|]. cbn [s_instance s_candidate s_num]. split; [split; assumption|]. split.
    + rewrite Hn. f_equal. rewrite filter_app, app_length, Ef. cbn [filter]. rewrite Hsame, Ed. cbn [len]. lia.
    + intros a b Hab. apply in_app_iff in Hab as [Hab|[E|[]]].
      * rewrite Hother, Cother by auto. auto.
      * injection E as <- <-. rewrite Hsame, Csame. split; [right; assumption|]. split; [exact Et|]. reflexivity.
Qed.

Lemma load_char_Throw lines i j s c : text_cell lines i j = Some c -> ~ cell_char c ->
  load_char i (nth i lines "") s j = Throw RuntimeError.
Proof.
  intros Et Hc. unfold load_char. unfold text_cell in Et. rewrite Et.
  destruct (is_dot c || (is_digit c && negb (Ascii.eqb c "0"))) eqn:E; [|reflexivity].
  apply cell_char_test in E. contradiction.
Qed.

Lemma get_Some j s : j < String.length s -> exists c, String.get j s = Some c.
Proof. revert j; induction s as [|c s IH]; intros [|j]; cbn; intros H; try lia; eauto. apply IH. lia. Qed.

(** A row can be read. *)
Definition good_row (line : string) : Prop :=
  9 <= String.length line /\ forall j, j < 9 -> exists c, String.get j line = Some c /\ cell_char c.

Lemma load_row_Ok lines i s : i < 9 -> load_inv lines (9 * i) s -> good_row (nth i lines "") ->
  exists s', foldM (load_char i (nth i lines "")) (seq 0 9) s = Ok s' /\ load_inv lines (9 * (i + 1)) s'.
Proof.
  intros Hi Hs (_ & Hr).
  destruct (foldM_seq_inv (load_char i (nth i lines "")) (fun j s => load_inv lines (9 * i + j) s) 0 9 s) as (s' & E & H).
  - now rewrite Nat.add_0_r.
  - intros j s1 Hj H1. destruct (Hr j ltac:(lia)) as (c & Ec & Hc). apply (load_char_Ok lines i j s1 c); auto. lia.
  - exists s'. split; [assumption|]. now replace (9 * (i + 1)) with (9 * i + (0 + 9)) by lia.
Qed.

Lemma cell_char_dec c : {cell_char c} + {~ cell_char c}.
Proof.
  destruct (is_dot c || (is_digit c && negb (Ascii.eqb c "0"))) eqn:E.
  - left. now apply cell_char_test.
  - right. intros H. apply cell_char_test in H. congruence.
Qed.

Lemma load_row_Throw lines i s : i < 9 -> load_inv lines (9 * i) s -> 9 <= String.length (nth i lines "") ->
  ~ good_row (nth i lines "") -> foldM (load_char i (nth i lines "")) (seq 0 9) s = Throw RuntimeError.
Proof.
  intros Hi Hs Hl Hbad.
  assert (forall m j s, j + m = 9 -> load_inv lines (9 * i + j) s ->
    (forall k, k < j -> exists c, String.get k (nth i lines "") = Some c /\ cell_char c) ->
    foldM (load_char i (nth i lines "")) (seq j m) s = Throw RuntimeError) as G.
  { induction m as [|m IH]; intros j s1 Hjm H1 Hpre.
    - exfalso. apply Hbad. split; [assumption|]. intros k Hk. apply Hpre. lia.
    - cbn [seq foldM]. destruct (get_Some j (nth i lines "") ltac:(lia)) as (c & Ec).
      destruct (cell_char_dec c) as [Hc|Hc].
      + destruct (load_char_Ok lines i j s1 c Hi ltac:(lia) H1 Ec Hc) as (s2 & E2 & H2). rewrite E2. cbn [bind].
        apply IH; [lia|now replace (S j) with (j + 1) by lia|]. intros k Hk. destruct (Nat.eq_dec k j) as [->|]; [eauto|]. apply Hpre. lia.
      + rewrite (load_char_Throw lines i j s1 c Ec Hc). reflexivity. }
  apply G; auto; [now rewrite Nat.add_0_r|lia].
Qed.

(** The text can be read: at least nine lines, the first nine begin with a row. *)
Definition good_text (lines : list string) : Prop := 9 <= len lines /\ forall i, i < 9 -> good_row (nth i lines "").

Lemma load_rows_exact lines : forall m i s, i + m = 9 -> 0 < m -> load_inv lines (9 * i) s ->
  (good_text lines -> exists s', load_rows (skipn i lines) i s = Ok s' /\ load_inv lines 81 s') /\
  (~ good_text lines -> (forall k, k < i -> k < len lines /\ good_row (nth k lines "")) ->
     load_rows (skipn i lines) i s = Throw RuntimeError).
Proof.
  induction m as [|m IH]; intros i s Him Hm Hs; [lia|].
  destruct (Nat.lt_ge_cases i (len lines)) as [Hlt|Hge].
  - assert (skipn i lines = nth i lines "" :: skipn (i + 1) lines) as ->.
    { rewrite Nat.add_1_r. clear - Hlt. revert i Hlt. induction lines as [|a l IH]; intros [|i]; cbn; try lia; auto.
      intros H. apply IH. lia. }
    cbn [load_rows].
    destruct (Nat.ltb_spec (String.length (nth i lines "")) 9) as [Hsh|Hlong].
    { split; [|reflexivity]. intros (_ & G). destruct (G i ltac:(lia)). lia. }
    assert (good_row (nth i lines "") \/ ~ good_row (nth i lines "")) as [Hr|Hr].
    { assert (forall m, (forall j, j < m -> exists c, String.get j (nth i lines "") = Some c /\ cell_char c) \/
                        ~ (forall j, j < m -> exists c, String.get j (nth i lines "") = Some c /\ cell_char c)) as D.
      { clear. induction m as [|m [IH|IH]].
        - left. intros; lia.
        - destruct (String.get m (nth i lines "")) as [c|] eqn:E.
          + destruct (cell_char_dec c) as [H|H].
            * left. intros j Hj. destruct (Nat.eq_dec j m) as [->|]; [eauto|]. apply IH. lia.
            * right. intros N. destruct (N m ltac:(lia)) as (c' & Ec & Hc). congruence.
          + right. intros N. destruct (N m ltac:(lia)) as (c' & Ec & Hc). congruence.
        - right. intros N. apply IH. intros. apply N. lia. }
      destruct (D 9) as [H|H]; [left; split; assumption|right; intros (_ & N); contradiction]. }
    + destruct (load_row_Ok lines i s ltac:(lia) Hs Hr) as (s' & E & Hs'). rewrite E. cbn [bind].
      destruct (Nat.eqb_spec (i + 1) 9) as [E9|N9].
      * split.
        -- intros _. exists s'. split; [reflexivity|]. now replace 81 with (9 * (i + 1)) by lia.
        -- intros Hb Hpre. exfalso. apply Hb. split; [lia|]. intros k Hk. destruct (Nat.eq_dec k i) as [->|]; [assumption|]. apply Hpre. lia.
      * destruct (IH (i + 1) s' ltac:(lia) ltac:(lia) Hs') as (A & B). split; [assumption|].
        intros Hb Hpre. apply B; auto. intros k Hk. destruct (Nat.eq_dec k i) as [->|]; [split; assumption|]. apply Hpre. lia.
    + rewrite (load_row_Throw lines i s) by (assumption || lia). cbn [bind]. split; [|reflexivity].
      intros (_ & G). exfalso. apply Hr. apply G. lia.
  - rewrite skipn_all2 by lia. cbn [load_rows]. split; [|reflexivity]. intros (G & _). lia.
Qed.

Theorem sudoku_load_exact s text : boards s ->
  (good_text (split_lines text) ->
     exists s', sudoku_load s text = Ok s' /\ loaded s' /\
       forall i j, i < 9 -> j < 9 -> text_cell (split_lines text) i j = Some (cell dot (s_instance s') i j)) /\
  (~ good_text (split_lines text) -> sudoku_load s text = Throw RuntimeError).
Proof.
  intros (Hg & Hgc). unfold sudoku_load.
  destruct (load_rows_exact (split_lines text) 9 0 (mk_sudoku (s_instance s) (s_candidate s) (Some 0)) eq_refl ltac:(lia)) as (A & B).
  { split; [split; assumption|]. split; [reflexivity|]. intros i j []. }
  rewrite skipn_O in A, B. split.
  - intros G. destruct (A G) as (s' & E & (Hb & Hbc) & Hn & Hall). exists s'. split; [assumption|].
    assert (firstn 81 cells = cells) as E81 by (apply firstn_all2; vm_compute; lia).
    rewrite E81 in Hn, Hall. split.
    + split; [split; [assumption|]|split; [assumption|split; [assumption|]]].
      * intros i j Hi Hj. apply Hall. apply (proj2 (in_cells i j)); split; assumption.
      * intros i j Hi Hj N. apply Hall; [|assumption]. apply (proj2 (in_cells i j)); split; assumption.
    + intros i j Hi Hj. apply Hall. apply (proj2 (in_cells i j)); split; assumption.
  - intros N. apply B; auto. intros; lia.
Qed.

(** * save *)

Lemma string_of_app a b r : string_of (a ++ b) r = string_of a (string_of b r).
Proof. induction a; cbn; congruence. Qed.
Lemma string_of_append a r : string_of a r = (string_of a "" ++ r)%string.
Proof. induction a; cbn; congruence. Qed.

Lemma row_read {A} (d : A) (b : list (list A)) i : grid b -> i < 9 -> forall m,  m <= 9 ->
  foldM (fun r j => c <- bget b i j ;; Ok (r ++ [c])) (seq 0 m) [] = Ok (firstn m (nth i b [])).
Proof.
  intros Hg Hi. destruct (grid_row b i Hg Hi) as (_ & L). induction m as [|m IH]; intros Hm; [reflexivity|].
  rewrite seq_S, foldM_app, IH by lia. cbn [bind foldM Nat.add]. rewrite (bget_Ok d) by (assumption || lia). cbn [bind].
  f_equal. unfold cell. rewrite <- Nat.add_1_r, firstn_add. f_equal.
  assert (m < len (nth i b [])) as H by lia. clear - H. revert m H. generalize (nth i b []). induction l as [|a l IH]; intros [|m]; cbn; try lia; auto.
  intros H. apply IH. lia.
Qed.

Lemma sudoku_save_exact s : grid (s_instance s) ->
  sudoku_save s = Ok (string_of (concat (map (fun r => r ++ [newline]) (s_instance s))) "").
Proof.
  intros Hg. unfold sudoku_save. set (b := s_instance s) in *.
  assert (forall m, m <= 9 -> foldM (fun t i =>
      row <- foldM (fun r j => c <- bget b i j ;; Ok (r ++ [c])) (seq 0 9) [] ;;
      Ok (t ++ row ++ [newline])) (seq 0 m) [] = Ok (concat (map (fun r => r ++ [newline]) (firstn m b)))) as G.
  { induction m as [|m IH]; intros Hm; [reflexivity|].
    rewrite (seq_S m 0), foldM_app, IH by lia. cbn [bind foldM]. replace (0 + m) with m by lia.
    rewrite (row_read dot) by (assumption || lia). destruct (grid_row b m Hg ltac:(lia)) as (En & L).
    rewrite firstn_all2 by lia. cbn [bind]. f_equal.
    replace (firstn (S m) b) with (firstn m b ++ [nth m b []]).
    - rewrite map_app, concat_app. cbn [map concat]. now rewrite app_nil_r.
    - rewrite <- (Nat.add_1_r m), firstn_add. f_equal. assert (m < len b) as Hmb by (apply nth_error_Some; congruence). clear - Hmb. revert m Hmb.
      induction b as [|a b' IH]; intros [|m]; cbn; try lia; auto. intros H. apply IH. lia. }
  rewrite G by lia. cbn [bind]. rewrite firstn_all2 by (destruct Hg; lia). reflexivity.
Qed.

Lemma split_saved (b : list (list ascii)) :
  (forall r, In r b -> no_newline (string_of r "") = true) ->
  split_lines (string_of (concat (map (fun r => r ++ [newline]) b)) "") = map (fun r => string_of r "") b ++ [""].
Proof.
  induction b as [|r b IH]; intros H; [reflexivity|]. cbn [map concat app].
  rewrite <- app_assoc, string_of_app, string_of_append. cbn [app string_of].
  rewrite split_lines_cons by (apply H; now left). rewrite IH by (intros; apply H; now right). reflexivity.
Qed.

Lemma get_string_of r j : String.get j (string_of r "") = nth_error r j.
Proof. revert j; induction r as [|c r IH]; intros [|j]; cbn; auto. Qed.
Lemma length_string_of r : String.length (string_of r "") = len r.
Proof. induction r; cbn; auto. Qed.

Theorem sudoku_save_load s s0 : problem (s_instance s) -> boards s0 ->
  exists text s', sudoku_save s = Ok text /\ sudoku_load s0 text = Ok s' /\ loaded s' /\ s_instance s' = s_instance s.
Proof.
  intros (Hg & Hc) H0. rewrite sudoku_save_exact by assumption. eexists.
  set (b := s_instance s) in *.
  assert (forall r, In r b -> len r = 9) as Hlen by (destruct Hg as (_ & F); now rewrite Forall_forall in F).
  assert (forall i, i < 9 -> nth i (map (fun r => string_of r "") b ++ [""]) "" = string_of (nth i b []) "") as En.
  { intros i Hi. destruct Hg as (L & _). rewrite app_nth1 by (rewrite map_length; lia).
    exact (map_nth (fun r => string_of r "") b [] i). }
  assert (forall r, In r b -> no_newline (string_of r "") = true) as Hnn.
  { intros r Hr. apply (In_nth _ _ []) in Hr as (i & Hi & Er). destruct Hg as (L & F). rewrite L in Hi.
    assert (forall j, j < 9 -> cell_char (nth j r dot)) as Hcr by (intros j Hj; rewrite <- Er; exact (Hc i j Hi Hj)).
    assert (len r = 9) as Lr by (rewrite <- Er; rewrite Forall_forall in F; apply F, nth_In; lia).
    clear - Hcr Lr. assert (forall c, In c r -> cell_char c) as Hall.
    { intros c Hin. apply (In_nth _ _ dot) in Hin as (j & Hj & <-). apply Hcr. lia. }
    clear - Hall. unfold no_newline. induction r as [|c r IH]; [reflexivity|]. cbn [string_of all_chars].
    rewrite IH by (intros; apply Hall; now right). rewrite andb_true_r. apply negb_true_iff, Ascii.eqb_neq. intros ->.
    destruct (Hall newline (or_introl eq_refl)) as [D|D]; [discriminate|cbn in D; lia]. }
  destruct (sudoku_load_exact s0 (string_of (concat (map (fun r => r ++ [newline]) b)) "") H0) as (A & _).
  rewrite split_saved in A by assumption.
  destruct A as (s' & E & Hl & Ht).
  - split; [rewrite app_length, map_length; destruct Hg as (-> & _); cbn; lia|].
    intros i Hi. rewrite En by assumption. destruct (grid_row b i Hg Hi) as (_ & L). split; [rewrite length_string_of; lia|].
    intros j Hj. exists (cell dot b i j). rewrite get_string_of. split; [unfold cell; apply nth_error_nth'; lia|]. exact (Hc i j Hi Hj).
  - exists s'. split; [reflexivity|]. split; [assumption|]. split; [assumption|].
    destruct Hl as ((Hg' & _) & _). apply (nth_ext_len []).
    + destruct Hg as (-> & _). now destruct Hg' as (-> & _).
    + intros i Hi. destruct Hg' as (L' & F'). rewrite L' in Hi. apply (nth_ext_len dot).
      * destruct (grid_row b i Hg Hi) as (_ & ->). destruct (grid_row (s_instance s') i (conj L' F') Hi) as (_ & ->). reflexivity.
      * intros j Hj. destruct (grid_row (s_instance s') i (conj L' F') Hi) as (_ & L). rewrite L in Hj.
        specialize (Ht i j Hi Hj). unfold text_cell in Ht. rewrite En, get_string_of in Ht by assumption.
        destruct (grid_row b i Hg Hi) as (_ & Lb). rewrite (nth_error_nth' _ dot) in Ht by lia. apply Some_inj in Ht. symmetry. exact Ht.
Qed.

(** * random *)

(** The places of the permuted digits *)
Definition base : list (list nat) :=
  [[0;1;2;3;4;5;6;7;8]; [3;4;5;6;7;8;0;1;2]; [6;7;8;0;1;2;3;4;5];
   [1;2;0;4;5;3;7;8;6]; [4;5;3;7;8;6;1;2;0]; [7;8;6;1;2;0;4;5;3];
   [2;0;1;5;3;4;8;6;7]; [5;3;4;8;6;7;2;0;1]; [8;6;7;2;0;1;5;3;4]].

Lemma base_solved u : In u units -> Permutation (digits_of (cell 0 base) u) (seq 0 9).
Proof.
  assert (forallb (fun u => forallb (fun k => count_occ Nat.eq_dec (digits_of (cell 0 base) u) k =? 1) (seq 0 9) &&
     forallb (fun d => d <? 9) (digits_of (cell 0 base) u)) units = true) as H by (vm_compute; reflexivity).
  rewrite forallb_forall in H. intros Hu. apply H in Hu. apply andb_true_iff in Hu as [A B]. rewrite forallb_forall in A, B.
  apply (Permutation_count_occ Nat.eq_dec). intros k. destruct (in_dec Nat.eq_dec k (seq 0 9)) as [Hk|Hk].
  - rewrite (proj1 (Nat.eqb_eq _ _) (A k Hk)). symmetry. apply (proj1 (NoDup_count_occ' Nat.eq_dec (seq 0 9)) (seq_NoDup _ _) k Hk).
  - rewrite (proj1 (count_occ_not_In Nat.eq_dec (seq 0 9) k) Hk). apply count_occ_not_In. intros N. apply B in N. apply Nat.ltb_lt in N.
    apply Hk. apply in_seq. lia.
Qed.

Ltac nine l H :=
  do 9 (destruct l as [|? l]; [discriminate H|]); destruct l; [|discriminate H].

Lemma random_full_exact perm inst : len perm = 9 -> grid inst ->
  random_full perm inst = Ok (map (map (fun k => sudoku_digit (nth k perm 0))) base).
Proof.
  intros Hp (Hl & Hr). nine perm Hp. nine inst Hl.
  repeat match goal with H : Forall _ (_ :: _) |- _ => inversion H; clear H; subst end.
  repeat match goal with H : len ?l = 9 |- _ => nine l H; clear H end.
  lazy - [sudoku_digit]. reflexivity.
Qed.

Lemma base_range i j : i < 9 -> j < 9 -> cell 0 base i j < 9.
Proof.
  assert (forallb (fun '(i, j) => cell 0 base i j <? 9) cells = true) as H by (vm_compute; reflexivity).
  rewrite forallb_forall in H. intros Hi Hj. specialize (H (i, j) (proj2 (in_cells i j) (conj Hi Hj))). now apply Nat.ltb_lt in H.
Qed.

Lemma base_grid : grid base.
Proof. split; [reflexivity|]. repeat constructor. Qed.

Lemma sudoku_digit_nat p : p < 9 -> nat_of_ascii (sudoku_digit p) = 49 + p.
Proof. intros H. unfold sudoku_digit. apply nat_ascii_embedding. lia. Qed.

Lemma sudoku_digit_not_dot p : p < 9 -> sudoku_digit p <> dot.
Proof. intros H E. apply (f_equal nat_of_ascii) in E. rewrite sudoku_digit_nat in E by assumption. cbn in E. lia. Qed.

(** The cells in the order of the bits of the mask *)
Lemma erase_order : Permutation (map (fun '(i, j) => i + 9 * j) cells) (seq 0 81).
Proof.
  apply NoDup_Permutation_bis.
  - assert (NoDup (map (fun '(i, j) => 9 * j + i) cells)) as H; [|].
    { apply NoDup_map_inj; [|exact cells_NoDup]. intros (a, b) (c, d) H1 H2. apply in_cells in H1, H2. intros E. 
      assert (b = d) by lia. assert (a = c) by lia. congruence. }
    erewrite map_ext; [exact H|]. intros (i, j). lia.
  - vm_compute. lia.
  - intros k Hk. apply in_map_iff in Hk as ((i, j) & <- & Hij). apply in_cells in Hij. apply in_seq. lia.
Qed.

Lemma filter_length_map {A B} (f : A -> B) (h : B -> bool) l : len (filter h (map f l)) = len (filter (fun a => h (f a)) l).
Proof. induction l as [|a l IH]; cbn; auto. destruct (h (f a)); cbn; auto. Qed.

Lemma filter_length_perm {A} (h : A -> bool) l l' : Permutation l l' -> len (filter h l) = len (filter h l').
Proof.
  induction 1 as [|a l l' H IH|a b l|l1 l2 l3 H1 IH1 H2 IH2]; cbn; auto.
  - destruct (h a); cbn; congruence.
  - destruct (h a), (h b); reflexivity.
  - congruence.
Qed.

Theorem sudoku_random_exact sh c u s : Permutation (sh (seq 0 9)) (seq 0 9) -> 0 < c -> c <= 81 ->
  (forall i, (0 <= u i)%Q /\ (u i < 1)%Q) -> boards s ->
  exists s' g, sudoku_random sh c u s = Ok s' /\ problem (s_instance s') /\ len (empty_cells (s_instance s')) = c /\
    solved g /\ (forall i j, i < 9 -> j < 9 -> cell dot (s_instance s') i j <> dot -> digit_of (cell dot (s_instance s') i j) = g i j) /\
    s_candidate s' = s_candidate s /\ s_num s' = s_num s.
Proof.
  intros Hsh Hc Hc81 Hu (Hg & _). unfold sudoku_random. rewrite (proj2 (Nat.ltb_lt 0 c)) by assumption. cbn [assertb bind].
  set (perm := sh (seq 0 9)) in *.
  assert (len perm = 9) as Lp by (apply Permutation_length in Hsh; exact Hsh).
  rewrite random_full_exact by assumption. cbn [bind].
  set (full := map (map (fun k => sudoku_digit (nth k perm 0))) base).
  assert (forall k, k < 9 -> nth k perm 0 < 9) as Hrange.
  { intros k Hk. assert (In (nth k perm 0) (seq 0 9)) as Hin; [|apply in_seq in Hin; lia].
    apply (Permutation_in _ Hsh). apply nth_In. lia. }
  assert (grid full) as Hfull.
  { split; [reflexivity|]. apply Forall_forall. intros r Hr. unfold full in Hr. apply in_map_iff in Hr as (r0 & <- & Hr0).
    rewrite map_length. destruct base_grid as (_ & F). rewrite Forall_forall in F. auto. }
  set (g := fun i j => nth (cell 0 base i j) perm 0 + 1).
  assert (forall i j, i < 9 -> j < 9 -> cell dot full i j = sudoku_digit (nth (cell 0 base i j) perm 0)) as Ecell.
  { intros i j Hi Hj. unfold cell, full. destruct (grid_row base i base_grid Hi) as (_ & L).
    rewrite (nth_indep _ [] (map (fun k => sudoku_digit (nth k perm 0)) [])) by (rewrite map_length; cbn; lia).
    rewrite (map_nth (map (fun k => sudoku_digit (nth k perm 0)))).
    rewrite (nth_indep _ dot (sudoku_digit (nth 0 perm 0))) by (rewrite map_length; lia).
    now rewrite (map_nth (fun k => sudoku_digit (nth k perm 0))). }
  assert (length (repeat false 81) = 81) as L81 by apply repeat_length.
  destruct (proj1 (bv_random_weight_exact (repeat false 81) c u Hu) ltac:(lia)) as (erase & d & Er & Hle & Hw).
  rewrite Er. cbn [bind]. rewrite L81 in Hle.
  destruct (foldM_inv (fun b '(i, j) => e <- vget erase (i + 9 * j) ;; if (e : bool) then bset b i j "."%char else Ok b)
    (fun done b => grid b /\ forall i j, cell dot b i j = if in_dec (fun a b : nat * nat => ltac:(decide equality; apply Nat.eq_dec)) (i, j) done then
        (if nth (i + 9 * j) erase false then dot else cell dot full i j) else cell dot full i j) cells full)
    as (b & E & Hgb & Hb).
  - split; [assumption|]. reflexivity.
  - intros done (i, j) todo b El (Hgb & Hb).
    assert (In (i, j) cells) as Hin by (rewrite El; apply in_elt). apply in_cells in Hin as (Hi & Hj).
    rewrite (vget_Ok _ _ false) by lia. cbn [bind].
    assert (~ In (i, j) done) as Hnd.
    { pose proof cells_NoDup as ND. rewrite El in ND. apply NoDup_remove_2 in ND. intros N. apply ND, in_app_iff. auto. }
    destruct (nth (i + 9 * j) erase false) eqn:Ee.
    + destruct (bset_Ok dot b i j "."%char Hgb Hi Hj) as (b' & Eb & Hgb' & Hsame & Hother). rewrite Eb.
      exists b'. split; [reflexivity|]. split; [assumption|]. intros k l.
      destruct (in_dec _ (k, l) (done ++ [(i, j)])) as [Hin|Hnin].
      * apply in_app_iff in Hin as [Hin|[E|[]]].
        -- rewrite Hother by (intros E; apply Hnd; now rewrite <- E). rewrite Hb. destruct (in_dec _ (k, l) done); [reflexivity|contradiction].
        -- injection E as <- <-. now rewrite Hsame, Ee.
      * rewrite Hother by (intros E; apply Hnin, in_app_iff; right; left; congruence). rewrite Hb.
        destruct (in_dec _ (k, l) done); [|reflexivity]. exfalso. apply Hnin, in_app_iff. auto.
    + exists b. split; [reflexivity|]. split; [assumption|]. intros k l. rewrite Hb.
      destruct (in_dec _ (k, l) (done ++ [(i, j)])) as [Hin|Hnin]; destruct (in_dec _ (k, l) done) as [Hin'|Hnin']; auto.
      * apply in_app_iff in Hin as [Hin|[E|[]]]; [contradiction|]. injection E as <- <-. now rewrite Ee.
      * exfalso. apply Hnin, in_app_iff. auto.
  - cbv beta in E. rewrite E. cbn [bind].
    assert (forall i j, i < 9 -> j < 9 -> cell dot b i j = if nth (i + 9 * j) erase false then dot else sudoku_digit (nth (cell 0 base i j) perm 0)) as Hcell.
    { intros i j Hi Hj. rewrite Hb, Ecell by assumption. destruct (in_dec _ (i, j) cells) as [|N]; [reflexivity|].
      exfalso. apply N. apply in_cells. auto. }
    eexists. exists g. split; [reflexivity|]. cbn [s_instance s_candidate s_num]. split; [|split; [|split; [|split; [|auto]]]].
    + split; [assumption|]. intros i j Hi Hj. rewrite Hcell by assumption. destruct (nth (i + 9 * j) erase false); auto. right.
      pose proof (base_range i j Hi Hj). rewrite sudoku_digit_nat by auto. specialize (Hrange (cell 0 base i j) ltac:(assumption)). lia.
    + rewrite empty_cells_filter.
      rewrite (filter_ext_in' _ (fun '(i, j) => nth (i + 9 * j) erase false)).
      2: { intros (i, j) Hij. apply in_cells in Hij as (Hi & Hj). rewrite Hcell by assumption. destruct (nth (i + 9 * j) erase false); [reflexivity|].
           apply is_dot_false, sudoku_digit_not_dot, Hrange, base_range; assumption. }
      rewrite <- Hw. unfold ones. rewrite Hle. rewrite <- (filter_length_perm _ _ _ erase_order).
      rewrite filter_length_map. apply (f_equal (@List.length _)). apply filter_ext_in'. intros (i, j) _. reflexivity.
    + intros un Hun. unfold digits_of. replace (map (fun '(i, j) => g i j) un) with (map (fun k => nth k perm 0 + 1) (digits_of (cell 0 base) un)).
      * transitivity (map (fun k => nth k perm 0 + 1) (seq 0 9)); [apply Permutation_map, base_solved; assumption|].
        transitivity (map S perm).
        -- rewrite <- (map_map (fun k => nth k perm 0) (fun v => v + 1)).
           replace (map (fun k => nth k perm 0) (seq 0 9)) with perm.
           ++ erewrite map_ext; [apply Permutation_refl|]. intros; lia.
           ++ clear - Lp. nine perm Lp. reflexivity.
        -- rewrite <- seq_shift. now apply Permutation_map.
      * unfold digits_of. rewrite map_map. apply map_ext. intros (i, j). reflexivity.
    + intros i j Hi Hj. rewrite Hcell by assumption. destruct (nth (i + 9 * j) erase false); [congruence|]. intros _.
      unfold digit_of, g. rewrite sudoku_digit_nat by (apply Hrange, base_range; assumption). lia.
Qed.

(** ** A random instance, saved and loaded, has a solution. *)
Theorem sudoku_random_solvable sh c u s s0 : Permutation (sh (seq 0 9)) (seq 0 9) -> 0 < c -> c <= 81 ->
  (forall i, (0 <= u i)%Q /\ (u i < 1)%Q) -> boards s -> boards s0 ->
  exists s1 text s2 x s3, sudoku_random sh c u s = Ok s1 /\ sudoku_save s1 = Ok text /\ sudoku_load s0 text = Ok s2 /\
    s_num s2 = Some c /\ len x = c /\ Forall (fun v => v < 9) x /\ sudoku_evaluate s2 x = Ok (0%Z, s3).
Proof.
  intros Hsh Hc Hc81 Hu Hs Hs0.
  destruct (sudoku_random_exact sh c u s Hsh Hc Hc81 Hu Hs) as (s1 & g & E1 & Hp & Hn & Hg & Hd & _).
  destruct (sudoku_save_load s1 s0 Hp Hs0) as (text & s2 & E2 & E3 & Hl & Ei).
  pose (x := map (fun '(i, j) => g i j - 1) (empty_cells (s_instance s1))).
  assert (len x = c) as Lx by (unfold x; now rewrite map_length).
  assert (forall i j, i < 9 -> j < 9 -> 0 < g i j < 10) as Hg9.
  { intros i j Hi Hj. assert (In (map (fun j => (i, j)) (seq 0 9)) units) as Hun.
    { apply in_app_iff. left. unfold rows. apply in_map_iff. exists i. split; [reflexivity|]. apply in_seq. lia. }
    apply Hg in Hun. assert (In (g i j) (seq 1 9)) as Hin; [|apply in_seq in Hin; lia].
    apply (Permutation_in _ Hun). unfold digits_of. rewrite map_map. apply in_map_iff. exists j. split; [reflexivity|]. apply in_seq. lia. }
  assert (Forall (fun v => v < 9) x) as Hx.
  { apply Forall_forall. intros v Hv. unfold x in Hv. apply in_map_iff in Hv as ((i, j) & <- & Hij).
    rewrite empty_cells_filter in Hij. apply filter_In in Hij as (Hij & _). apply in_cells in Hij as (Hi & Hj).
    specialize (Hg9 i j Hi Hj). lia. }
  destruct (sudoku_evaluate_exact s2 x Hl) as (s3 & g' & Ev & (Cd & Cx) & Hz & _); [rewrite Ei; congruence|assumption|].
  exists s1, text, s2, x, s3. split; [assumption|]. split; [assumption|]. split; [assumption|].
  split; [destruct Hl as (_ & _ & -> & _); now rewrite Ei, Hn|]. split; [assumption|]. split; [assumption|].
  rewrite Ev. do 2 f_equal. replace (defects g') with 0%Z; [reflexivity|]. symmetry. apply Hz. intros un Hun.
  assert (digits_of g' un = digits_of g un) as ->; [|now apply Hg].
  unfold digits_of. apply map_ext_in. intros (i, j) Hij. apply units_in_grid in Hun. unfold in_grid in Hun. rewrite Forall_forall in Hun.
  destruct (Hun _ Hij) as (Hi & Hj). rewrite Ei in *.
  destruct (is_dot (cell dot (s_instance s1) i j)) eqn:D.
  - assert (In (i, j) (empty_cells (s_instance s1))) as Hin.
    { rewrite empty_cells_filter, filter_In, in_cells. auto. }
    assert (map (fun '(i, j) => g' i j) (empty_cells (s_instance s1)) = map (fun '(i, j) => g i j) (empty_cells (s_instance s1))) as Em.
    { rewrite Cx. unfold x. rewrite map_map. apply map_ext_in. intros (a, b) Hab. rewrite empty_cells_filter in Hab.
      apply filter_In in Hab as (Hab & _). apply in_cells in Hab as (Ha & Hb). specialize (Hg9 a b Ha Hb). lia. }
    clear - Em Hin. induction (empty_cells (s_instance s1)) as [|(a, b) l IH]; [contradiction|]. cbn in Em. injection Em as E1 E2.
    destruct Hin as [E|Hin]; [now injection E as -> ->|auto].
  - apply is_dot_false in D. rewrite Cd, Hd by assumption. reflexivity.
Qed.
