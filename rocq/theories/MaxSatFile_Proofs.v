(** Proofs about the files of MAX-SAT instances. *)

From Coq Require Import ZArith NArith String Ascii.
From Verif Require Import Base BaseLemmas BitVector_Model Text_Model Text_Proofs MaxSat_Model MaxSat_Spec.
Local Open Scope string_scope.
Local Open Scope list_scope.
Local Open Scope nat_scope.
Notation len := List.length.

(** The ints: 32 bits *)
Definition int_max : Z := (2 ^ 31 - 1)%Z.

Lemma int_range_iff z : int_range z = true <-> (- 2 ^ 31 <= z < 2 ^ 31)%Z.
Proof. unfold int_range. rewrite andb_true_iff, Z.leb_le, Z.ltb_lt. tauto. Qed.

(** * Saved lines *)

Lemma save_clause_no_newline c : no_newline (save_clause c) = true.
Proof.
  induction c as [|l c IH]; [reflexivity|]. cbn [save_clause fold_right]. fold (save_clause c).
  now rewrite !no_newline_app, show_Z_no_newline, IH.
Qed.

Definition blank (c : ascii) : bool := (nat_of_ascii c =? 32) || (nat_of_ascii c =? 9).

Lemma number_not_blank c : number_char c = true -> blank c = false.
Proof.
  unfold number_char. rewrite orb_true_iff. intros [H%is_digit_range|H].
  - unfold blank. apply orb_false_iff. split; apply Nat.eqb_neq; lia.
  - apply Ascii.eqb_eq in H as ->. reflexivity.
Qed.

Lemma save_clause_head c : exists ch s, save_clause c = String ch s /\ number_char ch = true.
Proof.
  destruct c as [|l c]; cbn.
  - exists "0"%char, "". auto.
  - destruct (show_Z_chars l) as (Ha & Hn). destruct (show_Z l) as [|ch s]; [contradiction|].
    cbn in *. apply andb_true_iff in Ha as [Ha _]. eauto.
Qed.

Lemma has_next_clause b c : all_chars blank b = true ->
  has_next_variable (mk_istr (b ++ save_clause c) false) = Some (mk_istr (save_clause c) false).
Proof.
  intros Hb. unfold has_next_variable. cbn [is_eof is_text]. fold blank.
  destruct (save_clause_head c) as (ch & s & E & Hc). rewrite E.
  change (fun c0 : ascii => (nat_of_ascii c0 =? 32) || (nat_of_ascii c0 =? 9)) with blank.
  rewrite skip_app; [reflexivity|assumption|]. cbn. now rewrite (number_not_blank _ Hc).
Qed.

Lemma read_clause_saved nv c : (Z.of_nat nv <= int_max)%Z -> Forall (literal_of nv) c ->
  forall fuel b done n, len c < fuel -> all_chars blank b = true ->
  read_clause fuel nv (mk_istr (b ++ save_clause c) false) done n = Ok (done ++ c, Some 0%Z).
Proof.
  intros Hnv Hc. induction Hc as [|l c (Hl0 & Hl) Hc IH]; intros fuel b done n Hf Hb; (destruct fuel as [|fuel]; [cbn in Hf; lia|]);
    cbn [read_clause]; rewrite has_next_clause by assumption.
  - cbn [save_clause fold_right]. rewrite app_nil_r. reflexivity.
  - assert (save_clause (l :: c) = "" ++ show_Z l ++ " " ++ save_clause c)%string as -> by reflexivity.
    unfold int_max in Hnv.
    rewrite read_int_show; [|reflexivity|reflexivity|apply int_range_iff; lia].
    rewrite (proj2 (Z.eqb_neq l 0)) by assumption.
    rewrite (proj2 (int_range_iff (- l))) by lia. cbn [assertb bind].
    assert ((Z.of_nat nv <? (if (0 <? l)%Z then l else - l))%Z = false) as ->.
    { apply Z.ltb_ge. destruct (Z.ltb_spec 0 l); lia. }
    change (at_end (" " ++ save_clause c)%string) with false.
    cbn [len] in Hf. rewrite IH by (reflexivity || lia). now rewrite <- app_assoc.
Qed.

Lemma length_append a b : String.length (a ++ b) = String.length a + String.length b.
Proof. induction a; cbn; lia. Qed.

Lemma save_clause_length c : len c < String.length (save_clause c).
Proof.
  induction c as [|l c IH]; [cbn; lia|]. cbn [save_clause fold_right len]. fold (save_clause c).
  rewrite length_append. cbn [append String.length]. lia.
Qed.

Lemma load_line_saved nv nc c e : (Z.of_nat nv <= int_max)%Z -> Forall (literal_of nv) c ->
  load_line (e, Some (nv, nc)) (save_clause c) = Ok (e ++ [c], Some (nv, nc)).
Proof.
  intros Hnv Hc. unfold load_line.
  pose proof (read_clause_saved nv c Hnv Hc (S (String.length (save_clause c))) "" [] None) as R.
  specialize (R ltac:(pose proof (save_clause_length c); lia) eq_refl).
  destruct (save_clause_head c) as (ch & s & E & Hch). rewrite E in *.
  assert (Ascii.eqb ch "c" = false) as -> by (apply Ascii.eqb_neq; intros ->; discriminate).
  assert (Ascii.eqb ch "p" = false) as -> by (apply Ascii.eqb_neq; intros ->; discriminate).
  cbn [append] in R. unfold open_string. rewrite R. cbn [bind app]. reflexivity.
Qed.

Lemma read_spec_saved nv nc : (0 < Z.of_nat nv <= int_max)%Z -> (0 < nc <= int_max)%Z ->
  read_spec ("p cnf " ++ show_Z (Z.of_nat nv) ++ " " ++ show_Z nc) = Ok (nv, nc).
Proof.
  intros Hnv Hnc. unfold int_max in *. unfold read_spec.
  set (X := (show_Z (Z.of_nat nv) ++ " " ++ show_Z nc)%string).
  replace (read_word (open_string ("p cnf " ++ X))) with (Some ("p", mk_istr (" cnf " ++ X) false)) by reflexivity.
  cbn [String.eqb Ascii.eqb Bool.eqb negb].
  replace (read_word (mk_istr (" cnf " ++ X) false)) with (Some ("cnf", mk_istr (" " ++ X) false)) by reflexivity.
  cbn [String.eqb Ascii.eqb Bool.eqb negb].
  unfold X. rewrite read_int_show; [|reflexivity|reflexivity|apply int_range_iff; lia].
  rewrite (proj2 (Z.leb_gt (Z.of_nat nv) 0)) by lia.
  change (at_end (" " ++ show_Z nc)%string) with false.
  assert ((" " ++ show_Z nc) = (" " ++ show_Z nc ++ ""))%string as -> by now rewrite append_nil_r.
  rewrite read_int_show; [|reflexivity|reflexivity|apply int_range_iff; lia].
  rewrite (proj2 (Z.leb_gt nc 0)) by lia. now rewrite Nat2Z.id.
Qed.

Lemma spec_line_no_newline nv nc : no_newline ("p cnf " ++ show_Z nv ++ " " ++ show_Z nc) = true.
Proof.
  now rewrite !no_newline_app, !show_Z_no_newline.
Qed.

(** Lines of a saved instance followed by some other text *)
Lemma load_saved_lines nv e rest : (0 < Z.of_nat nv <= int_max)%Z -> (0 < Z.of_nat (len e) <= int_max)%Z ->
  expression_of nv e ->
  foldM load_line (split_lines (maxsat_save nv e ++ rest)) ([], None) =
  foldM load_line (split_lines rest) (e, Some (nv, Z.of_nat (len e))).
Proof.
  intros Hnv Hne He. unfold maxsat_save.
  set (F := fold_right _ "" e).
  assert (forall e' done, Forall (Forall (literal_of nv)) e' ->
    foldM load_line (split_lines (fold_right (fun c s => save_clause c ++ String newline s) "" e' ++ rest)%string)
      (done, Some (nv, Z.of_nat (len e))) =
    foldM load_line (split_lines rest) (done ++ e', Some (nv, Z.of_nat (len e)))) as G.
  { induction e' as [|c e' IH]; intros done He'.
    - cbn. now rewrite app_nil_r.
    - inversion He' as [|? ? Hc He'']; subst. cbn [fold_right]. rewrite append_assoc.
      change (String newline ?a ++ ?b)%string with (String newline (a ++ b)%string).
      rewrite split_lines_cons by apply save_clause_no_newline. cbn [foldM].
      rewrite load_line_saved by (tauto || lia). cbn [bind]. rewrite IH by assumption. now rewrite <- app_assoc. }
  rewrite append_assoc. change (String newline ?a ++ ?b)%string with (String newline (a ++ b)%string).
  rewrite split_lines_cons by reflexivity. cbn [foldM].
  change (load_line ([], None) "c HNCO AbstractMaxSat::save") with (@Ok (list (list Z) * option (nat * Z)) ([], None)). cbn [bind].
  replace (("p cnf " ++ show_Z (Z.of_nat nv) ++ " " ++ show_Z (Z.of_nat (len e)) ++ String newline F) ++ rest)%string
    with (("p cnf " ++ show_Z (Z.of_nat nv) ++ " " ++ show_Z (Z.of_nat (len e))) ++ String newline (F ++ rest))%string
    by (rewrite !append_assoc; reflexivity).
  rewrite split_lines_cons by apply spec_line_no_newline. cbn [foldM].
  assert (load_line ([], None) ("p cnf " ++ show_Z (Z.of_nat nv) ++ " " ++ show_Z (Z.of_nat (len e))) =
          Ok ([], Some (nv, Z.of_nat (len e)))) as ->.
  { unfold load_line.
    cbn [append]. change (Ascii.eqb "p" "c") with false. change (Ascii.eqb "p" "p") with true. cbv iota.
    pose proof (read_spec_saved nv (Z.of_nat (len e)) Hnv Hne) as E. cbn [append] in E. now rewrite E. }
  cbn [bind]. exact (G e [] He).
Qed.

Theorem maxsat_save_load nv e : (0 < Z.of_nat nv <= int_max)%Z -> (0 < Z.of_nat (len e) <= int_max)%Z ->
  expression_of nv e -> maxsat_load (maxsat_save nv e) = Ok (nv, e).
Proof.
  intros Hnv Hne He. unfold maxsat_load. rewrite <- (append_nil_r (maxsat_save nv e)).
  rewrite load_saved_lines by assumption. cbn [split_lines foldM load_line bind]. now rewrite Z.eqb_refl.
Qed.

(** A line of blanks *)
Theorem maxsat_load_blank nv e b : (0 < Z.of_nat nv <= int_max)%Z -> (0 < Z.of_nat (len e) <= int_max)%Z ->
  expression_of nv e -> b <> "" -> all_chars blank b = true ->
  maxsat_load (maxsat_save nv e ++ b) = UB.
Proof.
  intros Hnv Hne He Hb Hbl. unfold maxsat_load. rewrite load_saved_lines by assumption.
  assert (split_lines b = [b]) as ->.
  { clear Hb. induction b as [|c b IH]; [reflexivity|]. cbn [split_lines all_chars] in *. apply andb_true_iff in Hbl as [Hc Hbl].
    rewrite (IH Hbl). assert (Ascii.eqb c newline = false) as ->; [|reflexivity].
    apply Ascii.eqb_neq. intros ->. discriminate. }
  cbn [foldM]. unfold load_line. destruct b as [|c b]; [contradiction|].
  cbn [all_chars] in Hbl. apply andb_true_iff in Hbl as [Hc Hbl].
  assert (Ascii.eqb c "c" = false) as -> by (apply Ascii.eqb_neq; intros ->; discriminate).
  assert (Ascii.eqb c "p" = false) as -> by (apply Ascii.eqb_neq; intros ->; discriminate).
  cbn [String.length read_clause]. unfold has_next_variable, open_string. cbn [is_eof is_text].
  change (fun c0 : ascii => (nat_of_ascii c0 =? 32) || (nat_of_ascii c0 =? 9)) with blank.
  assert (skip blank (String c b) = "") as ->.
  { cbn. rewrite Hc. clear - Hbl. induction b as [|d b IH]; [reflexivity|]. cbn in *. apply andb_true_iff in Hbl as [-> H]. auto. }
  reflexivity.
Qed.

(** * What is loaded is an instance *)

Lemma read_clause_sound fuel nv i done n c m : Forall (literal_of nv) done ->
  read_clause fuel nv i done n = Ok (c, m) -> Forall (literal_of nv) c.
Proof.
  revert i done n. induction fuel as [|fuel IH]; intros i done n Hd; cbn [read_clause]; [discriminate|].
  destruct (has_next_variable i) as [i1|]; [|intros E; apply Ok_inj in E; now injection E as <- _].
  destruct (read_int i1) as [[z i2]|]; [|discriminate].
  destruct (Z.eqb_spec z 0) as [->|Hz]; [intros E; apply Ok_inj in E; now injection E as <- _|].
  destruct (int_range (- z)); cbn [assertb bind]; [|discriminate].
  destruct (Z.ltb_spec (Z.of_nat nv) (if (0 <? z)%Z then z else - z)) as [|Hv]; [discriminate|].
  apply IH. apply Forall_app. split; [assumption|]. constructor; [|constructor]. split; [assumption|].
  destruct (Z.ltb_spec 0 z); lia.
Qed.

Lemma read_spec_sound l n c : read_spec l = Ok (n, c) -> 0 < n /\ (0 < c)%Z.
Proof.
  unfold read_spec. destruct (read_word _) as [[w i]|]; [|discriminate]. destruct (negb _); [discriminate|].
  destruct (read_word i) as [[w' i']|]; [|discriminate]. destruct (negb _); [discriminate|].
  destruct (read_int i') as [[z i2]|]; [|discriminate]. destruct (Z.leb_spec z 0); [discriminate|].
  destruct (read_int i2) as [[z' i3]|]; [|discriminate]. destruct (Z.leb_spec z' 0); [discriminate|].
  intros E. apply Ok_inj in E. injection E as <- <-. lia.
Qed.

Theorem maxsat_load_sound text n e : maxsat_load text = Ok (n, e) ->
  expression_of n e /\ (0 < n /\ 0 < len e \/ n = 0 /\ e = []).
Proof.
  unfold maxsat_load. intros E. apply bind_Ok in E as ((e1 & spec) & E & E2).
  assert (match spec with
          | Some (nv, nc) => 0 < nv /\ (0 < nc)%Z /\ expression_of nv e1
          | None => e1 = []
          end) as G.
  { refine (foldM_pres load_line (fun st => match snd st with
          | Some (nv, nc) => 0 < nv /\ (0 < nc)%Z /\ expression_of nv (fst st)
          | None => fst st = []
          end) _ _ (e1, spec) _ _ E); [reflexivity|].
    clear. intros (e & spec) l (e' & spec') _ H. unfold load_line. destruct l as [|c l].
    - intros E. apply Ok_inj in E. now inversion E; subst.
    - destruct (Ascii.eqb c "c"); [intros E; apply Ok_inj in E; now inversion E; subst|].
      destruct (Ascii.eqb c "p").
      + destruct spec as [s|]; [discriminate|]. intros E. apply bind_Ok in E as ((nv & nc) & Es & E). apply Ok_inj in E.
        inversion E; subst. cbn [fst snd] in *. apply read_spec_sound in Es as (? & ?). subst. split; auto. split; auto. constructor.
      + destruct spec as [(nv & nc)|]; [|discriminate]. intros E. apply bind_Ok in E as ((cl & m) & Ec & E).
        destruct m as [m|]; [|discriminate]. destruct (m =? 0)%Z; [|discriminate]. apply Ok_inj in E. inversion E; subst.
        cbn [fst snd] in *. destruct H as (? & ? & H). split; auto. split; auto. apply Forall_app. split; auto.
        constructor; [|constructor]. now apply read_clause_sound in Ec. }
  destruct spec as [(nv & nc)|].
  - destruct G as (Hv & Hc & He). destruct (Z.eqb_spec (Z.of_nat (len e1)) nc) as [El|]; [|discriminate].
    apply Ok_inj in E2. inversion E2; subst. split; auto. left. split; auto. lia.
  - subst. destruct (Z.of_nat (len []) =? 0)%Z; [|discriminate]. apply Ok_inj in E2. inversion E2; subst. split; [constructor|]. auto.
Qed.

Theorem nae_load_sound text n e : nae_load text = Ok (n, e) ->
  maxsat_load text = Ok (n, e) /\ expression_of n e /\ Forall (fun c => len c = 3) e.
Proof.
  unfold nae_load. intros E. apply bind_Ok in E as ((n' & e') & E & E2). cbn [snd] in E2.
  destruct (forallb _ e') eqn:F; [|discriminate]. apply Ok_inj in E2. inversion E2; subst. split; [assumption|].
  split; [now apply maxsat_load_sound in E|]. rewrite forallb_forall in F. apply Forall_forall. intros c Hc.
  now apply Nat.eqb_eq, F.
Qed.

Theorem nae_save_load nv e : (0 < Z.of_nat nv <= int_max)%Z -> (0 < Z.of_nat (len e) <= int_max)%Z ->
  expression_of nv e ->
  (Forall (fun c => len c = 3) e -> nae_load (maxsat_save nv e) = Ok (nv, e)) /\
  (~ Forall (fun c => len c = 3) e -> nae_load (maxsat_save nv e) = Throw RuntimeError).
Proof.
  intros Hnv Hne He. unfold nae_load. rewrite maxsat_save_load by assumption. cbn [bind snd].
  destruct (forallb _ e) eqn:F.
  - split; [reflexivity|]. intros N. exfalso. apply N. rewrite forallb_forall in F. apply Forall_forall. intros c Hc.
    now apply Nat.eqb_eq, F.
  - split; [|reflexivity]. intros H. exfalso. rewrite (proj2 (forallb_forall _ _)) in F; [discriminate|].
    intros c Hc. rewrite Forall_forall in H. apply Nat.eqb_eq. auto.
Qed.
