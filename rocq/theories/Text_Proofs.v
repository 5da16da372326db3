(** Reading back numbers, words and lines. *)

From Coq Require Import ZArith NArith String Ascii Lia.
From Verif Require Import Base BaseLemmas BitVector_Model Text_Model.
Local Open Scope string_scope.
Local Open Scope list_scope.
Local Open Scope nat_scope.

Fixpoint all_chars (P : ascii -> bool) (s : string) : bool :=
  match s with EmptyString => true | String c s' => P c && all_chars P s' end.
(** The string does not begin with a character satisfying [P]. *)
Definition stops (P : ascii -> bool) (s : string) : bool :=
  match s with EmptyString => true | String c _ => negb (P c) end.

Lemma append_nil_r s : (s ++ "")%string = s.
Proof. induction s; cbn; congruence. Qed.
Lemma append_assoc a b c : ((a ++ b) ++ c)%string = (a ++ (b ++ c))%string.
Proof. induction a; cbn; congruence. Qed.

Lemma all_chars_app P a b : all_chars P (a ++ b) = all_chars P a && all_chars P b.
Proof. induction a as [|c a IH]; cbn; auto. now rewrite IH, andb_assoc. Qed.

Lemma all_chars_impl (P R : ascii -> bool) s :
  (forall c, P c = true -> R c = true) -> all_chars P s = true -> all_chars R s = true.
Proof.
  intros H. induction s as [|c s IH]; cbn; auto. rewrite !andb_true_iff. intros (A & B). auto.
Qed.

Lemma take_app P a b : all_chars P a = true -> stops P b = true -> take P (a ++ b) = (a, b).
Proof.
  intros Ha Hb. induction a as [|c a IH]; cbn in *.
  - destruct b as [|c b]; cbn in *; auto. apply negb_true_iff in Hb. now rewrite Hb.
  - apply andb_true_iff in Ha as [E Ha]. rewrite E, (IH Ha). reflexivity.
Qed.

Lemma skip_app P a b : all_chars P a = true -> stops P b = true -> skip P (a ++ b) = b.
Proof.
  intros Ha Hb. induction a as [|c a IH]; cbn in *.
  - destruct b as [|c b]; cbn in *; auto. apply negb_true_iff in Hb. now rewrite Hb.
  - apply andb_true_iff in Ha as [E Ha]. rewrite E. auto.
Qed.

Lemma skip_stops P b : stops P b = true -> skip P b = b.
Proof. intros H. exact (skip_app P "" b eq_refl H). Qed.

(** * Numbers *)

Definition digit_P (P : ascii -> bool) : Prop := forall d, (d < 10)%N -> P (digit_char d) = true.

Lemma digits_cases (P : N -> Prop) :
  P 0%N -> P 1%N -> P 2%N -> P 3%N -> P 4%N -> P 5%N -> P 6%N -> P 7%N -> P 8%N -> P 9%N -> forall d, (d < 10)%N -> P d.
Proof.
  intros. assert (d = 0 \/ d = 1 \/ d = 2 \/ d = 3 \/ d = 4 \/ d = 5 \/ d = 6 \/ d = 7 \/ d = 8 \/ d = 9)%N as H' by lia.
  repeat destruct H' as [->|H']; auto. now subst.
Qed.

Lemma digit_is_digit : digit_P is_digit.
Proof. intros d. revert d. apply digits_cases; reflexivity. Qed.
Lemma digit_value_char d : (d < 10)%N -> digit_value (digit_char d) = d.
Proof. revert d. apply digits_cases; reflexivity. Qed.

Lemma digits_value_app a b acc : digits_value (a ++ b) acc = digits_value b (digits_value a acc).
Proof. revert acc; induction a; intros; cbn; auto. Qed.

Lemma show_digits_exact fuel n rest : (n < 2 ^ N.of_nat fuel)%N -> 0 < fuel ->
  exists a, show_digits fuel n rest = (a ++ rest)%string /\ a <> EmptyString /\ all_chars is_digit a = true /\
    digits_value a 0 = n.
Proof.
  revert n rest. induction fuel as [|fuel IH]; intros n rest Hn Hf; [lia|]. cbn [show_digits].
  pose proof (N.mod_lt n 10 ltac:(lia)) as Hm. pose proof (N.div_mod n 10 ltac:(lia)) as Hd.
  destruct (N.ltb_spec n 10) as [H|H].
  - exists (String (digit_char (n mod 10)) ""). split; [reflexivity|]. split; [discriminate|].
    split; [cbn; now rewrite (digit_is_digit _ Hm)|]. cbn. rewrite digit_value_char by assumption.
    rewrite N.mod_small by assumption. lia.
  - destruct (IH (n / 10)%N (String (digit_char (n mod 10)) rest)) as (a & E & Ha & Hda & Hv).
    + rewrite Nat2N.inj_succ, N.pow_succ_r' in Hn. apply N.div_lt_upper_bound; [lia|].
      generalize dependent (2 ^ N.of_nat fuel)%N. lia.
    + destruct fuel; [cbn in Hn; lia|lia].
    + exists (a ++ String (digit_char (n mod 10)) "")%string. split; [rewrite E, append_assoc; reflexivity|].
      split; [destruct a; discriminate|]. split.
      * rewrite all_chars_app, Hda. cbn. now rewrite (digit_is_digit _ Hm).
      * rewrite digits_value_app, Hv. cbn [digits_value]. rewrite digit_value_char by assumption. lia.
Qed.

Lemma size_nat_gt n : (n < 2 ^ N.of_nat (N.size_nat n))%N.
Proof.
  destruct n as [|p]; [reflexivity|]. cbn [N.size_nat].
  induction p as [p IH|p IH|]; cbn [Pos.size_nat]; rewrite ?Nat2N.inj_succ, ?N.pow_succ_r'; [lia|lia|reflexivity].
Qed.

Lemma show_N_exact n : show_N n <> EmptyString /\ all_chars is_digit (show_N n) = true /\ digits_value (show_N n) 0 = n.
Proof.
  unfold show_N. destruct (show_digits_exact (S (N.size_nat n)) n "") as (a & E & Ha & Hd & Hv).
  - rewrite Nat2N.inj_succ, N.pow_succ_r'. pose proof (size_nat_gt n). lia.
  - lia.
  - rewrite E, append_nil_r. auto.
Qed.

Lemma not_digit_char P : (forall c, is_digit c = true -> P c = false) -> forall s,
  s <> EmptyString -> all_chars is_digit s = true -> forall r, stops P (s ++ r) = true.
Proof.
  intros H [|c s] Hs Ha r; [contradiction|]. cbn in *. apply andb_true_iff in Ha as [Ha _]. now rewrite (H _ Ha).
Qed.

Lemma is_digit_range c : is_digit c = true -> 48 <= nat_of_ascii c <= 57.
Proof. unfold is_digit. rewrite andb_true_iff, !Nat.leb_le. tauto. Qed.
Lemma digit_not_space c : is_digit c = true -> is_space c = false.
Proof.
  intros H%is_digit_range. unfold is_space. apply orb_false_iff. split; [apply Nat.eqb_neq; lia|].
  apply andb_false_iff. right. apply Nat.leb_gt. lia.
Qed.
Lemma digit_not_char d c : is_digit c = true -> is_digit d = false -> Ascii.eqb c d = false.
Proof. intros H D. apply Ascii.eqb_neq. intros ->. congruence. Qed.

(** The characters written by stream << i *)
Definition number_char (c : ascii) : bool := is_digit c || Ascii.eqb c "-".

Lemma show_Z_chars z : all_chars number_char (show_Z z) = true /\ show_Z z <> EmptyString.
Proof.
  assert (forall n, all_chars number_char (show_N n) = true /\ show_N n <> EmptyString) as G.
  { intros n. destruct (show_N_exact n) as (H & Ha & _). split; auto.
    revert Ha. apply all_chars_impl. intros c Hc. unfold number_char. now rewrite Hc. }
  destruct z as [|p|p]; cbn [show_Z].
  - split; [reflexivity|discriminate].
  - apply G.
  - split; [|discriminate]. cbn. apply G.
Qed.

Lemma show_Z_stops P z r : (forall c, number_char c = true -> P c = false) -> stops P (show_Z z ++ r) = true.
Proof.
  intros H. destruct (show_Z_chars z) as (Ha & Hn). destruct (show_Z z) as [|c s]; [contradiction|].
  cbn in *. apply andb_true_iff in Ha as [Ha _]. now rewrite (H _ Ha).
Qed.

Lemma number_not_space c : number_char c = true -> is_space c = false.
Proof.
  unfold number_char. rewrite orb_true_iff. intros [H|H]; [now apply digit_not_space|].
  apply Ascii.eqb_eq in H as ->. reflexivity.
Qed.

(** Reading back an int *)
Lemma read_int_show blanks z rest :
  all_chars is_space blanks = true -> stops is_digit rest = true -> int_range z = true ->
  read_int (mk_istr (blanks ++ show_Z z ++ rest) false) = Some (z, mk_istr rest (at_end rest)).
Proof.
  intros Hb Hr Hz. unfold read_int. cbn [is_eof is_text].
  rewrite skip_app; [|assumption|apply show_Z_stops, number_not_space].
  assert (forall n, (let (w, r) := take is_digit (show_N n ++ rest) in
     match w with EmptyString => None | _ =>
       let v := Z.of_N (digits_value w 0) in Some (v, r) end) = Some (Z.of_N n, rest)) as G.
  { intros n. destruct (show_N_exact n) as (Hn & Ha & Hv). rewrite take_app by assumption.
    destruct (show_N n) as [|c s]; [contradiction|]. now rewrite Hv. }
  destruct z as [|p|p]; cbn [show_Z].
  - cbn - [int_range take]. change (String "0" rest) with ("0" ++ rest)%string.
    rewrite take_app by (reflexivity || assumption). cbn. reflexivity.
  - specialize (G (Npos p)). destruct (show_N_exact (Npos p)) as (Hn & Ha & Hv).
    destruct (show_N (Npos p)) as [|c s] eqn:E; [contradiction|].
    cbn [all_chars] in Ha. apply andb_true_iff in Ha as [Hc Ha]. cbn [append] in *.
    rewrite !digit_not_char by (assumption || reflexivity).
    destruct (take is_digit (String c (s ++ rest))) as [w r]. destruct w as [|cw w]; [discriminate|].
    cbv zeta in G. apply Some_inj in G.
    pose proof (f_equal fst G) as Gv. pose proof (f_equal snd G) as Gr. cbn [fst snd] in Gv, Gr. cbv zeta. rewrite Gv. cbn [Z.of_N]. rewrite Hz. now subst.
  - specialize (G (Npos p)). cbn [append]. cbn [Ascii.eqb Bool.eqb].
    change (Ascii.eqb "-" "-") with true. cbv iota.
    destruct (take is_digit (show_N (Npos p) ++ rest)) as [w r]. destruct w as [|cw w]; [discriminate|].
    cbv zeta in G. apply Some_inj in G.
    pose proof (f_equal fst G) as Gv. pose proof (f_equal snd G) as Gr. cbn [fst snd] in Gv, Gr. cbv zeta. rewrite Gv. cbn [Z.of_N Z.opp]. rewrite Hz. now subst.
Qed.

(** * Lines *)

Definition no_newline (s : string) : bool := all_chars (fun c => negb (Ascii.eqb c newline)) s.

Lemma split_lines_cons l s : no_newline l = true ->
  split_lines (l ++ String newline s) = l :: split_lines s.
Proof.
  unfold no_newline. induction l as [|c l IH]; intros H; cbn [append split_lines all_chars] in *.
  - reflexivity.
  - apply andb_true_iff in H as [Hc H]. apply negb_true_iff in Hc. rewrite Hc. now rewrite (IH H).
Qed.

Lemma show_Z_no_newline z : no_newline (show_Z z) = true.
Proof.
  destruct (show_Z_chars z) as (Ha & _). revert Ha. apply all_chars_impl. intros c Hc. apply negb_true_iff.
  apply Ascii.eqb_neq. intros ->. discriminate.
Qed.

Lemma no_newline_app a b : no_newline (a ++ b) = no_newline a && no_newline b.
Proof. apply all_chars_app. Qed.
