(** Proofs about the parser of representations. *)

From Coq Require Import ZArith NArith String Ascii.
From Verif Require Import Base BaseLemmas Text_Model Text_Proofs Parser_Model Parser_Spec.
Local Open Scope string_scope.
Local Open Scope nat_scope.

(** * Strings *)

Lemma length_append a b : String.length (a ++ b) = String.length a + String.length b.
Proof. induction a; cbn; auto. Qed.
Lemma append_inv a b c d : a ++ b = c ++ d -> String.length a = String.length c -> a = c /\ b = d.
Proof.
  revert c. induction a as [|x a IH]; intros [|y c] H L; cbn in *; try discriminate; auto.
  injection H as -> H. destruct (IH c H) as [-> ->]; auto.
Qed.
Lemma append_inj_l a b c : a ++ b = a ++ c -> b = c.
Proof. intros H. now destruct (append_inv _ _ _ _ H eq_refl). Qed.
Lemma length_0 s : String.length s = 0 -> s = "".
Proof. destruct s; cbn; [auto|discriminate]. Qed.
Lemma list_ascii_app a b : list_ascii_of_string (a ++ b) = (list_ascii_of_string a ++ list_ascii_of_string b)%list.
Proof. induction a; cbn; congruence. Qed.

(** Two decompositions of a string: one prefix is a prefix of the other. *)
Lemma append_cases a b c d : a ++ b = c ++ d -> String.length a <= String.length c ->
  exists e, c = a ++ e /\ b = e ++ d.
Proof.
  revert c. induction a as [|x a IH]; intros c H L; cbn in *.
  - exists c. auto.
  - destruct c as [|y c]; cbn in *; [lia|]. injection H as -> H. destruct (IH c H ltac:(lia)) as (e & -> & ->). now exists e.
Qed.

Lemma substring_app a s n : substring (String.length a) n (a ++ s) = substring 0 n s.
Proof. induction a; cbn; auto. Qed.
Lemma substring_prefix p r : substring 0 (String.length p) (p ++ r) = p.
Proof. induction p; cbn; [now destruct r|]. now rewrite IHp. Qed.
Lemma substring_all s n : String.length s <= n -> substring 0 n s = s.
Proof. revert n. induction s; intros [|n] H; cbn in *; auto; [lia|]. rewrite IHs; auto; lia. Qed.

Lemma prefix_true d s : prefix d s = true <-> exists r, s = d ++ r.
Proof.
  revert s. induction d as [|c d IH]; intros s.
  - split; [exists s; reflexivity|]. now destruct s.
  - destruct s as [|x s].
    + split; [discriminate|]. intros (r & [=]).
    + cbn [prefix]. destruct (ascii_dec c x) as [->|N].
      * rewrite IH. split; intros (r & H); exists r; [now rewrite H|]. now injection H.
      * split; [discriminate|]. intros (r & [= -> _]). contradiction.
Qed.

Lemma index_app d a s : index (String.length a) d (a ++ s) = option_map (Nat.add (String.length a)) (index 0 d s).
Proof.
  induction a as [|c a IH].
  - cbn [String.length append]. destruct (index 0 d s); reflexivity.
  - cbn [String.length append index]. rewrite IH. destruct (index 0 d s); reflexivity.
Qed.

Lemma index_cons d c s : index 0 d (String c s) = if prefix d (String c s) then Some 0 else option_map S (index 0 d s).
Proof. reflexivity. Qed.

Lemma occurs_S d c s i : occurs d (String c s) (S i) <-> occurs d s i.
Proof.
  split.
  - intros (a & b & E & L). destruct a as [|x a]; [discriminate|]. injection E as -> E. injection L as L. exists a, b. auto.
  - intros (a & b & -> & <-). exists (String c a), b. auto.
Qed.
Lemma occurs_0 d s : occurs d s 0 <-> prefix d s = true.
Proof.
  rewrite prefix_true. split.
  - intros (a & b & -> & L). apply length_0 in L as ->. exists b. reflexivity.
  - intros (r & ->). exists "", r. auto.
Qed.

Lemma index_Some d s m : index 0 d s = Some m ->
  exists p r, s = p ++ d ++ r /\ String.length p = m /\ forall i, i < m -> ~ occurs d s i.
Proof.
  revert m. induction s as [|c s IH]; intros m.
  - cbn. destruct d; [|discriminate]. intros [= <-]. exists "", "". repeat split; auto. lia.
  - rewrite index_cons. destruct (prefix d (String c s)) eqn:E.
    + intros [= <-]. apply prefix_true in E as (r & E). exists "", r. repeat split; auto. lia.
    + destruct (index 0 d s) as [k|]; [|discriminate]. intros [= <-]. destruct (IH k eq_refl) as (p & r & -> & L & N).
      exists (String c p), r. split; [reflexivity|]. split; [cbn; congruence|]. intros [|i] H.
      * rewrite occurs_0. congruence.
      * rewrite occurs_S. apply N. lia.
Qed.
Lemma index_None d s : index 0 d s = None -> d <> "" -> forall i, ~ occurs d s i.
Proof.
  intros H Hd. induction s as [|c s IH]; intros i.
  - intros (a & b & E & _). destruct a; [|discriminate]. destruct d; [contradiction|discriminate].
  - rewrite index_cons in H. destruct (prefix d (String c s)) eqn:E; [discriminate|].
    destruct (index 0 d s); [discriminate|]. destruct i.
    + rewrite occurs_0. congruence.
    + rewrite occurs_S. auto.
Qed.

(** * Splitting *)

Lemma substr_ok a s n : substr (a ++ s) (String.length a) n = Ok (substring 0 n s).
Proof. unfold substr. rewrite length_append, (proj2 (Nat.leb_le _ _)) by lia. now rewrite substring_app. Qed.
Lemma substr_from_ok a s : substr_from (a ++ s) (String.length a) = Ok s.
Proof. unfold substr_from. rewrite substr_ok. rewrite substring_all; auto. rewrite length_append. lia. Qed.

Lemma split_loop_cut fuel d : d <> "" -> forall s a items, String.length s <= fuel ->
  exists l, split_loop fuel (a ++ s) d (String.length a) (find (a ++ s) d (String.length a)) items = Some (Ok (items ++ l)%list) /\
    cut d s l.
Proof.
  intros Hd. induction fuel as [|fuel IH]; intros s a items L.
  - assert (s = "") as -> by (apply length_0; lia). exists [""]. split.
    + unfold find. rewrite index_app. destruct d; [contradiction|]. cbn [index option_map split_loop].
      now rewrite substr_from_ok.
    + constructor. intros i (x & y & E & _). destruct x; [|discriminate]. destruct d; [contradiction|discriminate].
  - unfold find. rewrite index_app. destruct (index 0 d s) as [m|] eqn:E; cbn [option_map split_loop].
    + destruct (index_Some _ _ _ E) as (p & r & -> & L1 & N).
      rewrite substr_ok. replace (String.length a + m - String.length a) with (String.length p) by lia.
      rewrite substring_prefix.
      assert (EQ : a ++ p ++ d ++ r = (a ++ p ++ d) ++ r) by now rewrite !append_assoc.
      assert (EL : String.length a + m + String.length d = String.length (a ++ p ++ d)) by (rewrite !length_append; lia).
      rewrite EL, EQ. destruct (IH r (a ++ p ++ d) (items ++ [p])%list) as (l & E1 & C).
      { rewrite !length_append in L. destruct d; [contradiction|]. cbn in L. lia. }
      exists (p :: l). split.
      * rewrite E1. now rewrite <- app_assoc.
      * constructor; auto. intros i H. apply N. lia.
    + rewrite substr_from_ok. exists [s]. split; [reflexivity|]. constructor. now apply index_None.
Qed.

Lemma split_string_cut fuel s d : d <> "" -> String.length s <= fuel ->
  exists l, split_string fuel s d = Some (Ok l) /\ cut d s l.
Proof. intros Hd L. exact (split_loop_cut fuel d Hd s "" [] L). Qed.

Lemma cut_unique d s l1 l2 : cut d s l1 -> cut d s l2 -> l1 = l2.
Proof.
  intros C. revert l2. induction C as [s N|p r l N C IH]; intros l2 C2.
  - inversion C2 as [s' N2 EQ|p r l N2 C2' EQ]; auto. exfalso. apply (N (String.length p)). rewrite <- EQ. exists p, r. auto.
  - inversion C2 as [s' N2 EQ|p2 r2 l3 N2 C2' EQ].
    + exfalso. apply (N2 (String.length p)). exists p, r. auto.
    + assert (String.length p = String.length p2) as L.
      { destruct (lt_eq_lt_dec (String.length p) (String.length p2)) as [[H|H]|H]; auto; exfalso.
        - apply (N2 _ H). rewrite EQ. exists p, r. auto.
        - apply (N _ H). rewrite <- EQ. exists p2, r2. auto. }
      symmetry in EQ. destruct (append_inv _ _ _ _ EQ L) as [-> E2]. apply append_inj_l in E2 as ->. f_equal. auto.
Qed.

Lemma split_string_iff fuel s d l : d <> "" -> String.length s <= fuel ->
  split_string fuel s d = Some (Ok l) <-> cut d s l.
Proof.
  intros Hd L. destruct (split_string_cut fuel s d Hd L) as (l' & E & C). rewrite E. split.
  - intros [= <-]. exact C.
  - intros C2. now rewrite (cut_unique _ _ _ _ C2 C).
Qed.

Lemma cut_nonempty d s l : cut d s l -> l <> nil.
Proof. now destruct 1. Qed.

Lemma cut_concat d s l : cut d s l -> s = String.concat d l.
Proof.
  induction 1 as [s N|p r l N C IH]; auto. cbn [String.concat]. destruct l as [|q l]; [now apply cut_nonempty in C|].
  now rewrite IH at 1.
Qed.

Lemma cut_no_delimiter d s l : cut d s l -> forall p i, In p l -> ~ occurs d p i.
Proof.
  induction 1 as [s N|p r l N C IH]; intros q i H.
  - destruct H as [<-|[]]. auto.
  - destruct H as [<-|H]; [|auto]. intros (a & b & E & L).
    destruct d as [|c d].
    + destruct C as [s N'|p' r' l' N' C'].
      * apply (N' 0). exists "", s. auto.
      * apply IH with (p := p') (i := 0); [now left|]. exists "", p'. auto.
    + apply (N i).
      * rewrite E, !length_append. cbn. lia.
      * rewrite E. exists a, (b ++ String c d ++ r). split; auto. now rewrite !append_assoc.
Qed.

Lemma split_empty_loop fuel str start items : start <= String.length str ->
  split_loop fuel str "" start (Some start) items = None.
Proof.
  revert items. induction fuel as [|fuel IH]; intros items H; cbn [split_loop]; auto.
  unfold substr. rewrite (proj2 (Nat.leb_le _ _)) by lia. cbn [String.length]. rewrite Nat.add_0_r.
  assert (find str "" start = Some start) as ->; [|auto].
  unfold find. clear IH items. revert start H. induction str as [|c str IH]; intros [|n] H; cbn in *; auto; [lia|].
  rewrite IH; auto; lia.
Qed.
Lemma split_empty fuel str : split_string fuel str "" = None.
Proof.
  unfold split_string. replace (find str "" 0) with (Some 0) by now destruct str.
  apply split_empty_loop. lia.
Qed.

(** With a delimiter of one character *)
Lemma lacks_app c a b : lacks c (a ++ b) <-> lacks c a /\ lacks c b.
Proof. unfold lacks. rewrite list_ascii_app, in_app_iff. tauto. Qed.
Lemma lacks_cons c x s : lacks c (String x s) <-> x <> c /\ lacks c s.
Proof. unfold lacks. cbn. tauto. Qed.
Lemma occurs_lacks c s : lacks c s <-> forall i, ~ occurs (String c "") s i.
Proof.
  split.
  - intros H i (a & b & -> & _). rewrite !lacks_app in H. destruct H as (_ & H & _). apply lacks_cons in H as [H _]. auto.
  - induction s as [|x s IH]; intros H.
    + intros [].
    + apply lacks_cons. split.
      * intros ->. apply (H 0). exists "", s. auto.
      * apply IH. intros i. rewrite <- occurs_S. apply H.
Qed.

Lemma lacks_split c p s a b : lacks c p -> p ++ s = a ++ String c b -> exists e, a = p ++ e /\ s = e ++ String c b.
Proof.
  intros H E. destruct (le_lt_dec (String.length p) (String.length a)) as [L|L].
  - exact (append_cases _ _ _ _ E L).
  - exfalso. symmetry in E. destruct (append_cases _ _ _ _ E (Nat.lt_le_incl _ _ L)) as (e & -> & E2).
    rewrite length_append in L. destruct e as [|x e]; cbn in L; [lia|]. injection E2 as -> _.
    apply lacks_app in H as [_ H]. apply lacks_cons in H as [H _]. auto.
Qed.

Lemma cut_separated c s l : cut (String c "") s l <-> separated c s l.
Proof.
  split.
  - intros C. split; [eapply cut_nonempty; eauto|]. split; [now apply cut_concat|].
    apply Forall_forall. intros p H. apply occurs_lacks. intros i. eapply cut_no_delimiter; eauto.
  - intros (N & -> & F). induction l as [|p l IH]; [contradiction|]. inversion F as [|? ? Fp F']; subst.
    destruct l as [|q l].
    + cbn. constructor. now apply occurs_lacks.
    + assert (C : cut (String c "") (String.concat (String c "") (q :: l)) (q :: l)) by (apply IH; auto; discriminate).
      change (String.concat (String c "") (p :: q :: l)) with (p ++ String c "" ++ String.concat (String c "") (q :: l)).
      constructor; auto. intros i H (a & b & E & L).
      destruct (lacks_split c p _ a b Fp E) as (e & -> & _). rewrite length_append in L. lia.
Qed.

Lemma split_char_iff s c l : split_char s (String c "") = Ok l <-> separated c s l.
Proof.
  rewrite <- cut_separated, <- (split_string_iff (String.length s)) by (auto; discriminate).
  unfold split_char. destruct (split_string_cut (String.length s) s (String c "")) as (l' & E & _); [discriminate|auto|].
  rewrite E. split; [intros [= ->]; auto|]. now intros [= ->].
Qed.
Lemma split_char_total s c : exists l, split_char s (String c "") = Ok l /\ separated c s l.
Proof.
  destruct (split_string_cut (String.length s) s (String c "")) as (l & E & C); [discriminate|auto|].
  exists l. rewrite <- cut_separated. split; auto. unfold split_char. now rewrite E.
Qed.
Lemma separated_unique c s l1 l2 : separated c s l1 -> separated c s l2 -> l1 = l2.
Proof. rewrite <- !cut_separated. apply cut_unique. Qed.

(** * Words and integers *)

Lemma all_chars_Forall (P : ascii -> bool) s : all_chars P s = true <-> Forall (fun c => P c = true) (list_ascii_of_string s).
Proof.
  induction s as [|c s IH]; cbn.
  - split; auto.
  - rewrite andb_true_iff, IH. split; [intros []; constructor; auto|]. inversion 1; auto.
Qed.
Lemma all_chars_Forall_not (P : ascii -> bool) s :
  all_chars (fun c => negb (P c)) s = true <-> Forall (fun c => P c = false) (list_ascii_of_string s).
Proof.
  rewrite all_chars_Forall. rewrite !Forall_forall. split; intros H c I; specialize (H c I); destruct (P c); auto; discriminate.
Qed.
Lemma stops_iff (P : ascii -> bool) s : stops P s = true <-> s = "" \/ exists c r, s = String c r /\ P c = false.
Proof.
  destruct s as [|c s]; cbn; [split; auto|]. rewrite negb_true_iff. split; [eauto|]. intros [|(x & r & [= -> ->] & H)]; [discriminate|auto].
Qed.

Lemma take_spec P s : let (a, b) := take P s in s = a ++ b /\ all_chars P a = true /\ stops P b = true.
Proof.
  induction s as [|c s IH]; cbn; auto. destruct (P c) eqn:E.
  - destruct (take P s) as [a b]. destruct IH as (-> & A & B). cbn. now rewrite E.
  - cbn. now rewrite E.
Qed.
Lemma skip_spec P s : exists b, s = b ++ skip P s /\ all_chars P b = true /\ stops P (skip P s) = true.
Proof.
  induction s as [|c s (b & E & A & B)]; cbn.
  - exists "". auto.
  - destruct (P c) eqn:Ec.
    + exists (String c b). cbn. rewrite Ec. repeat split; auto. congruence.
    + exists "". cbn. now rewrite Ec.
Qed.

Lemma first_word_iff s w : first_word s = Some w <-> has_first_word s w.
Proof.
  unfold first_word, read_word, open_string. cbn [is_text is_eof].
  destruct (skip_spec is_space s) as (b & E & Ab & Sb).
  pose proof (take_spec (fun c => negb (is_space c)) (skip is_space s)) as T.
  destruct (take (fun c => negb (is_space c)) (skip is_space s)) as [a r] eqn:ET. destruct T as (E2 & Aa & Sr).
  assert (G : has_first_word s w -> a = w).
  { intros (b' & r' & -> & Bb & Nw & Fw & R). apply all_chars_Forall in Bb. apply all_chars_Forall_not in Fw.
    assert (Sw : stops is_space (w ++ r') = true).
    { destruct w as [|c w]; [contradiction|]. cbn in *. apply andb_true_iff in Fw as [Fw _]. exact Fw. }
    rewrite (skip_app is_space b' (w ++ r') Bb Sw) in ET. rewrite take_app in ET; auto.
    - now injection ET.
    - destruct R as [->|(c & r'' & -> & Hc)]; cbn; auto. now rewrite Hc. }
  split.
  - destruct a as [|c a]; [discriminate|]. intros [= <-]. exists b, r. split; [congruence|].
    split; [now apply all_chars_Forall|]. split; [discriminate|]. split; [now apply all_chars_Forall_not|].
    destruct r as [|x r]; auto. right. exists x, r. split; auto. cbn in Sr. now apply negb_true_iff, negb_false_iff in Sr.
  - intros H. rewrite (G H). destruct H as (_ & _ & _ & _ & Nw & _). destruct w; [contradiction|reflexivity].
Qed.

Lemma in_int_range_iff w z : in_int_range w z = true <-> (- 2 ^ (w - 1) <= z < 2 ^ (w - 1))%Z.
Proof. unfold in_int_range. rewrite andb_true_iff, Z.leb_le, Z.ltb_lt. tauto. Qed.

Lemma space_sign c : is_space c = true -> Ascii.eqb c "-" = false /\ Ascii.eqb c "+" = false.
Proof. intros H. split; apply Ascii.eqb_neq; intros ->; discriminate. Qed.
Lemma digit_sign c : is_digit c = true -> Ascii.eqb c "-" = false /\ Ascii.eqb c "+" = false.
Proof. intros H. split; apply Ascii.eqb_neq; intros ->; discriminate. Qed.

(** The signed digits at the beginning of a text *)
Definition split_sign (s : string) : bool * string :=
  match s with
  | String c s' =>
      if Ascii.eqb c "-" then (true, s') else if Ascii.eqb c "+" then (false, s') else (false, s)
  | EmptyString => (false, s)
  end.

Lemma stoi_iff w s z : stoi w s = Ok z <-> has_integer w s z.
Proof.
  unfold stoi. fold (split_sign (skip is_space s)).
  split.
  - destruct (skip_spec is_space s) as (b & E & Ab & Sb). set (t := skip is_space s) in *. clearbody t.
    assert (exists sign, t = sign ++ snd (split_sign t) /\
      (if fst (split_sign t) then sign = "-" else sign = "" \/ sign = "+")) as (sign & Et & Hs).
    { unfold split_sign. destruct t as [|c t']; [exists ""; split; [reflexivity|now left]|]. destruct (Ascii.eqb_spec c "-") as [->|N]; [now exists "-"|].
      destruct (Ascii.eqb_spec c "+") as [->|N']; [exists "+"; split; [reflexivity|now right]|exists ""; split; [reflexivity|now left]]. }
    destruct (split_sign t) as [neg u]. cbn [fst snd] in *.
    pose proof (take_spec is_digit u) as T. destruct (take is_digit u) as [ds r]. destruct T as (Eu & Ad & Sr). cbn [fst].
    intros H. exists b, sign, ds, r.
    assert (ds <> "" /\ (if in_int_range w (if neg then (- Z.of_N (digits_value ds 0))%Z else Z.of_N (digits_value ds 0)) then
      Ok (if neg then (- Z.of_N (digits_value ds 0))%Z else Z.of_N (digits_value ds 0)) else Throw OtherException) = Ok z) as [Nd H'].
    { destruct ds; [discriminate|]. split; [discriminate|exact H]. }
    clear H. destruct (in_int_range _ _) eqn:R; [|discriminate]. injection H' as <-.
    split; [congruence|]. split; [now apply all_chars_Forall|]. split; [exact Nd|].
    split; [now apply all_chars_Forall|]. split; [now apply stops_iff|]. split.
    + cbn zeta. destruct neg; auto.
    + now apply in_int_range_iff.
  - intros (b & sign & ds & r & -> & Bb & Nd & Fd & R & V & I). apply all_chars_Forall in Bb. apply all_chars_Forall in Fd.
    apply stops_iff in R.
    assert (Dd : exists c ds', ds = String c ds' /\ is_digit c = true).
    { destruct ds as [|c ds']; [contradiction|]. exists c, ds'. cbn in Fd. apply andb_true_iff in Fd as [Fd _]. auto. }
    destruct Dd as (c & ds' & Ed & Dc).
    assert (Sp : stops is_space (sign ++ ds ++ r) = true).
    { destruct V as [[[->| ->] _]|[-> _]]; auto. rewrite Ed. cbn. now rewrite (digit_not_space c Dc). }
    rewrite (skip_app is_space b _ Bb Sp).
    assert (SS : split_sign (sign ++ ds ++ r) = (match sign with String "-" _ => true | _ => false end, ds ++ r)).
    { destruct V as [[[->| ->] _]|[-> _]]; auto. rewrite Ed. cbn. destruct (digit_sign c Dc) as [-> ->]. reflexivity. }
    rewrite SS. rewrite take_app by auto. cbn [fst].
    subst ds. cbn iota. cbn zeta in *. apply in_int_range_iff in I.
    destruct V as [[[->| ->] ->]|[-> ->]]; now rewrite I.
Qed.
Lemma stoi_cases w s : (exists z, stoi w s = Ok z) \/ stoi w s = Throw OtherException.
Proof.
  unfold stoi. destruct (match skip is_space s with EmptyString => _ | String _ _ => _ end) as [neg u].
  destruct (fst (take is_digit u)); auto. destruct (in_int_range _ _); eauto.
Qed.

(** * Representations *)

Lemma find_char c s :
  match index 0 (String c "") s with
  | Some m => exists a b, s = a ++ String c b /\ lacks c a /\ String.length a = m
  | None => lacks c s
  end.
Proof.
  destruct (index 0 (String c "") s) as [m|] eqn:E.
  - destruct (index_Some _ _ _ E) as (a & b & -> & L & N). exists a, b. repeat split; auto.
    apply occurs_lacks. intros i (x & y & -> & L2). apply (N i).
    + rewrite <- L, !length_append. cbn. lia.
    + exists x, (y ++ String c "" ++ b). now rewrite !append_assoc.
  - apply occurs_lacks. apply index_None; auto. discriminate.
Qed.
Lemma find_char_app c a b : lacks c a -> index 0 (String c "") (a ++ String c b) = Some (String.length a).
Proof.
  intros L. pose proof (find_char c (a ++ String c b)) as F. destruct (index 0 (String c "") (a ++ String c b)).
  - destruct F as (a' & b' & E & L' & <-). destruct (lacks_split c a _ a' b' L E) as (e & -> & E2).
    destruct e as [|x e]; [now rewrite append_nil_r|]. injection E2 as <- _. apply lacks_app in L' as [_ L'].
    apply lacks_cons in L' as [N _]. contradiction.
  - apply lacks_app in F as [_ F]. apply lacks_cons in F as [N _]. contradiction.
Qed.

Section Parsing.
  Context {D : Type} (stod : string -> outcome D) (o : parser_options D).

  Lemma foldM_stod l : forall vs0 vs,
    foldM (fun vs s => v <- stod s ;; Ok (vs ++ [v])%list) l vs0 = Ok vs <->
    exists ws, Forall2 (fun s v => stod s = Ok v) l ws /\ vs = (vs0 ++ ws)%list.
  Proof.
    induction l as [|s l IH]; intros vs0 vs; cbn [foldM].
    - split; [intros [= <-]; exists nil; now rewrite app_nil_r|]. intros (ws & F & ->). inversion F. now rewrite app_nil_r.
    - destruct (stod s) as [v|e|] eqn:E; cbn [bind].
      + rewrite IH. split.
        * intros (ws & F & ->). exists (v :: ws). rewrite <- app_assoc. auto.
        * intros (ws & F & ->). inversion F as [|? w ? ws' Ew F']; subst. rewrite E in Ew. injection Ew as <-.
          exists ws'. now rewrite <- app_assoc.
      + split; [discriminate|]. intros (ws & F & _). inversion F as [|? w ? ws' Ew F']; subst. congruence.
      + split; [discriminate|]. intros (ws & F & _). inversion F as [|? w ? ws' Ew F']; subst. congruence.
  Qed.

  Lemma parse_integers w (mk : Z -> Z -> params D) args p :
    (parameters <- split_char args "," ;;
     match parameters with
     | [p0; p1] => a <- stoi w p0 ;; b <- stoi w p1 ;; Ok (mk a b)
     | _ => Throw RuntimeError
     end) = Ok p <->
    exists s t a b, separated "," args [s; t] /\ has_integer w s a /\ has_integer w t b /\ p = mk a b.
  Proof.
    destruct (split_char_total args ",") as (l & E & S). rewrite E. cbn [bind]. split.
    - destruct l as [|s [|t [|? ?]]]; try discriminate. intros (a & E1 & H)%bind_Ok. apply bind_Ok in H as (b & E2 & [= <-]).
      exists s, t, a, b. rewrite <- !stoi_iff. auto.
    - intros (s & t & a & b & S' & Ha & Hb & ->). rewrite (separated_unique _ _ _ _ S S').
      apply stoi_iff in Ha. apply stoi_iff in Hb. rewrite Ha. cbn [bind]. now rewrite Hb.
  Qed.

  Lemma parse_double_iff args p : parse_double_rep stod o args = Ok p <->
    (exists s t a b, separated "," args [s; t] /\ stod s = Ok a /\ stod t = Ok b /\
      ((exists e, po_precision o = Some e /\ p = DoubleRepParams a b (inl e)) \/
       (po_precision o = None /\ exists n, po_size o = Some n /\ p = DoubleRepParams a b (inr n)))) \/
    (exists s t u a b key value, separated "," args [s; t; u] /\
      stod s = Ok a /\ stod t = Ok b /\ separated "=" u [key; value] /\
      ((has_first_word key "precision" /\ exists e, stod value = Ok e /\ p = DoubleRepParams a b (inl e)) \/
       (has_first_word key "size" /\ exists n, has_integer 32 value n /\ p = DoubleRepParams a b (inr n)))).
  Proof.
    unfold parse_double_rep. destruct (split_char_total args ",") as (l & E & S). rewrite E. cbn [bind]. split.
    - destruct l as [|s [|t [|u [|? ?]]]]; try discriminate.
      + intros (a & E1 & H)%bind_Ok. apply bind_Ok in H as (b & E2 & H). left. exists s, t, a, b.
        do 3 (split; [assumption|]). destruct (po_precision o) as [e|]; [injection H as <-; eauto|].
        destruct (po_size o) as [n|]; [injection H as <-; eauto|discriminate].
      + intros (a & E1 & H)%bind_Ok. apply bind_Ok in H as (b & E2 & H). apply bind_Ok in H as (ts & E3 & H).
        destruct ts as [|key [|value [|? ?]]]; try discriminate.
        destruct (first_word key) as [k|] eqn:E4; [|discriminate].
        right. exists s, t, u, a, b, key, value. do 3 (split; [assumption|]). split; [now apply split_char_iff|].
        destruct (String.eqb_spec k "precision") as [->|N].
        * apply bind_Ok in H as (e & E5 & [= <-]). left. split; [now apply first_word_iff|eauto].
        * destruct (String.eqb_spec k "size") as [->|N']; [|discriminate].
          apply bind_Ok in H as (n & E5 & [= <-]). right. split; [now apply first_word_iff|]. exists n. split; auto. now apply stoi_iff.
    - intros [(s & t & a & b & S' & Ha & Hb & H)|(s & t & u & a & b & key & value & S' & Ha & Hb & Su & H)];
        rewrite (separated_unique _ _ _ _ S S'), Ha; cbn [bind]; rewrite Hb; cbn [bind].
      + destruct H as [(e & -> & ->)|(-> & n & -> & ->)]; reflexivity.
      + apply split_char_iff in Su. rewrite Su. cbn [bind].
        destruct H as [(K & e & Ee & ->)|(K & n & En & ->)]; apply first_word_iff in K; rewrite K; cbn.
        * now rewrite Ee.
        * apply stoi_iff in En. now rewrite En.
  Qed.

  Lemma parse_set_iff args p : parse_value_set_rep stod args = Ok p <->
    exists l vs, separated "," args l /\ Forall2 (fun s v => stod s = Ok v) l vs /\ p = ValueSetRepParams vs.
  Proof.
    unfold parse_value_set_rep. destruct (split_char_total args ",") as (l & E & S). rewrite E. cbn [bind]. split.
    - intros (vs & H & [= <-])%bind_Ok. apply foldM_stod in H as (ws & F & ->). exists l, ws. auto.
    - intros (l' & vs & S' & F & ->). rewrite <- (separated_unique _ _ _ _ S S') in F.
      assert (foldM (fun vs s => v <- stod s ;; Ok (vs ++ [v])%list) l [] = Ok vs) as ->; [|reflexivity].
      apply foldM_stod. exists vs. auto.
  Qed.

  Definition parse_arguments (type args : string) : outcome (params D) :=
    if String.eqb type "int" then parse_int_rep args
    else if String.eqb type "long" then parse_long_rep args
    else if String.eqb type "double" then parse_double_rep stod o args
    else if String.eqb type "set" then parse_value_set_rep stod args
    else Throw RuntimeError.

  Lemma parse_arguments_iff type args p : parse_arguments type args = Ok p <-> arguments stod o type args p.
  Proof.
    unfold parse_arguments, arguments, parse_int_rep, parse_long_rep.
    destruct (String.eqb_spec type "int") as [->|N1].
    - rewrite parse_integers. split; [auto|]. intros [[_ H]|[[H _]|[[H _]|[[H _]|[H _]]]]]; auto; discriminate H.
    - destruct (String.eqb_spec type "long") as [->|N2].
      + rewrite parse_integers. split; [auto|]. intros [[H _]|[[_ H]|[[H _]|[[H _]|[H _]]]]]; auto; discriminate H.
      + destruct (String.eqb_spec type "double") as [->|N3].
        * rewrite parse_double_iff. split; [tauto|]. intros [[H _]|[[H _]|[[_ H]|[[_ H]|[H _]]]]]; auto; discriminate H.
        * destruct (String.eqb_spec type "set") as [->|N4].
          -- rewrite parse_set_iff. split; [tauto|]. intros [[H _]|[[H _]|[[H _]|[[H _]|[_ H]]]]]; auto; discriminate H.
          -- split; [discriminate|]. tauto.
  Qed.

  (** The text up to the closing parenthesis *)
  Lemma parse_representation_at before args after : lacks "(" before -> lacks ")" args ->
    parse_representation stod o (before ++ "(" ++ args ++ ")" ++ after) =
    match first_word before with
    | None => Throw RuntimeError
    | Some type => parse_arguments type args
    end.
  Proof.
    intros L1 L2. unfold parse_representation, find.
    set (e := before ++ "(" ++ args ++ ")" ++ after).
    assert (Ne : exists c s, e = String c s) by (unfold e; destruct before; cbn; eauto).
    assert (I1 : index 0 "(" e = Some (String.length before)) by (apply find_char_app; auto).
    assert (I2 : index (String.length before) ")" e = Some (String.length before + (1 + String.length args))).
    { unfold e. rewrite index_app. cbn [append].
      change (index 0 ")" (String "(" (args ++ String ")" after))) with
        (option_map S (index 0 ")" (args ++ String ")" after))).
      rewrite find_char_app by auto. reflexivity. }
    destruct Ne as (c & s & Ee). rewrite Ee at 1. rewrite I1, I2.
    assert (S1 : substr e 0 (String.length before) = Ok before).
    { unfold e. change 0 with (String.length ""). change (before ++ "(" ++ args ++ ")" ++ after) with ("" ++ before ++ "(" ++ args ++ ")" ++ after).
      rewrite substr_ok. now rewrite substring_prefix. }
    rewrite S1. cbn [bind]. destruct (first_word before) as [type|]; auto.
    replace (String.length before + (1 + String.length args) - String.length before - 1) with (String.length args) by lia.
    assert (S2 : substr e (String.length before + 1) (String.length args) = Ok args).
    { unfold e. replace (String.length before + 1) with (String.length (before ++ "(")) by (rewrite length_append; reflexivity).
      replace (before ++ "(" ++ args ++ ")" ++ after) with ((before ++ "(") ++ args ++ ")" ++ after) by (now rewrite !append_assoc).
      rewrite substr_ok. now rewrite substring_prefix. }
    rewrite S2. reflexivity.
  Qed.

  Lemma parse_representation_shape text :
    (exists before args after, text = before ++ "(" ++ args ++ ")" ++ after /\ lacks "(" before /\ lacks ")" args) \/
    parse_representation stod o text = Throw RuntimeError.
  Proof.
    unfold parse_representation, find. destruct text as [|c0 s0]; auto. set (text := String c0 s0).
    pose proof (find_char "(" text) as F1. destruct (index 0 "(" text) as [i|]; auto.
    destruct F1 as (before & rest & -> & L1 & <-). rewrite index_app.
    change (index 0 ")" (String "(" rest)) with (option_map S (index 0 ")" rest)).
    pose proof (find_char ")" rest) as F2. destruct (index 0 ")" rest) as [j|]; auto.
    destruct F2 as (args & after & -> & L2 & _). left. exists before, args, after. auto.
  Qed.

  Lemma parse_representation_iff text p : parse_representation stod o text = Ok p <-> represents stod o text p.
  Proof.
    split.
    - intros H. destruct (parse_representation_shape text) as [(before & args & after & -> & L1 & L2)|E]; [|congruence].
      rewrite parse_representation_at in H by auto. destruct (first_word before) as [type|] eqn:W; [|discriminate].
      exists before, args, after, type. rewrite <- first_word_iff, <- parse_arguments_iff. auto.
    - intros (before & args & after & type & -> & L1 & L2 & W & A). rewrite parse_representation_at by auto.
      apply first_word_iff in W. rewrite W. now apply parse_arguments_iff.
  Qed.

  (** * Declarations *)

  Lemma parse_declaration_at e before after : lacks ":" before ->
    parse_declaration stod o e (before ++ ":" ++ after) =
    match first_word before with
    | None => Throw RuntimeError
    | Some name => p <- parse_representation stod o after ;; Ok (env_set e name p)
    end.
  Proof.
    intros L. unfold parse_declaration, find. set (d := before ++ ":" ++ after).
    assert (Ne : exists c s, d = String c s) by (unfold d; destruct before; cbn; eauto).
    assert (I1 : index 0 ":" d = Some (String.length before)) by (apply find_char_app; auto).
    destruct Ne as (c & s & Ee). rewrite Ee at 1. rewrite I1.
    assert (S1 : substr d 0 (String.length before) = Ok before).
    { unfold d. change 0 with (String.length ""). change (before ++ ":" ++ after) with ("" ++ before ++ ":" ++ after).
      rewrite substr_ok. now rewrite substring_prefix. }
    rewrite S1. cbn [bind]. destruct (first_word before) as [name|]; auto.
    assert (S2 : substr_from d (String.length before + 1) = Ok after).
    { unfold d. replace (String.length before + 1) with (String.length (before ++ ":")) by (rewrite length_append; reflexivity).
      replace (before ++ ":" ++ after) with ((before ++ ":") ++ after) by (now rewrite append_assoc). apply substr_from_ok. }
    rewrite S2. reflexivity.
  Qed.

  Lemma parse_declaration_shape e text :
    text = "" \/ (exists before after, text = before ++ ":" ++ after /\ lacks ":" before) \/
    (lacks ":" text /\ parse_declaration stod o e text = Throw RuntimeError).
  Proof.
    destruct text as [|c0 s0]; auto. right. set (text := String c0 s0).
    assert (parse_declaration stod o e text = match index 0 ":" text with None => Throw RuntimeError
      | Some _ => parse_declaration stod o e text end) as E.
    { unfold parse_declaration, text, find. now destruct (index 0 ":" (String c0 s0)). }
    pose proof (find_char ":" text) as F. destruct (index 0 ":" text) as [i|]; auto.
    destruct F as (a & b & -> & L & _). left. exists a, b. auto.
  Qed.

  Lemma parse_declaration_iff e text e' : text <> "" ->
    parse_declaration stod o e text = Ok e' <-> exists name p, declares stod o text name p /\ e' = env_set e name p.
  Proof.
    intros N. split.
    - intros H. destruct (parse_declaration_shape e text) as [->|[(a & b & -> & L)|(_ & E)]]; [contradiction| |congruence].
      rewrite parse_declaration_at in H by auto. destruct (first_word a) as [name|] eqn:W; [|discriminate].
      apply bind_Ok in H as (p & Hp & [= <-]). exists name, p. split; auto. exists a, b.
      rewrite <- first_word_iff, <- parse_representation_iff. auto.
    - intros (name & p & (a & b & -> & L & W & R) & ->). rewrite parse_declaration_at by auto.
      apply first_word_iff in W. rewrite W. apply parse_representation_iff in R. now rewrite R.
  Qed.

  Definition env_of (e : env D) (ds : list (string * params D)) : env D :=
    fold_left (fun e d => env_set e (fst d) (snd d)) ds e.

  Lemma parse_all_iff l : forall e e',
    foldM (parse_declaration stod o) l e = Ok e' <-> exists ds, all_declare stod o l ds /\ e' = env_of e ds.
  Proof.
    induction l as [|s l IH]; intros e e'; cbn [foldM].
    - split; [intros [= <-]; exists nil; split; [constructor|reflexivity]|]. intros (ds & A & ->). inversion A. reflexivity.
    - split.
      + intros (e1 & H1 & H2)%bind_Ok. apply IH in H2 as (ds & A & ->).
        destruct s as [|c s'].
        * injection H1 as <-. exists ds. split; [now constructor|reflexivity].
        * apply parse_declaration_iff in H1 as (name & p & Hd & ->); [|discriminate].
          exists ((name, p) :: ds). split; [now constructor|reflexivity].
      + intros (ds & A & ->). inversion A as [|l' ds' A'|s' l' name p ds' Hd A']; subst.
        * cbn [parse_declaration bind]. apply IH. eauto.
        * assert (s <> "") as Ns by (destruct Hd as (a & b & -> & _); destruct a; discriminate).
          assert (parse_declaration stod o e s = Ok (env_set e name p)) as ->.
          { apply parse_declaration_iff; eauto. }
          cbn [bind]. apply IH. exists ds'. auto.
  Qed.

  Lemma env_of_last ds : forall e name p,
    env_of e ds name = Some p <->
    last_declared ds name p \/ (~ In name (map fst ds) /\ e name = Some p).
  Proof.
    induction ds as [|[n q] ds IH]; intros e name p.
    - cbn. split; [auto|]. intros [(a & b & E & _)|[_ H]]; auto. destruct a; discriminate.
    - change (env_of e ((n, q) :: ds) name) with (env_of (env_set e n q) ds name). rewrite IH. unfold env_set. cbn [map fst In]. split.
      + intros [(a & b & -> & N)|[N H]].
        * left. exists ((n, q) :: a), b. auto.
        * destruct (String.eqb_spec name n) as [->|M].
          -- injection H as <-. left. exists nil, ds. auto.
          -- right. split; [|auto]. intros [->|]; auto.
      + intros [(a & b & E & N)|[N H]].
        * destruct a as [|x a]; cbn [app] in E.
          -- injection E as -> -> ->. right. split; auto. now rewrite String.eqb_refl.
          -- injection E as <- ->. left. exists a, b. auto.
        * right. destruct (String.eqb_spec name n) as [->|M]; [tauto|]. tauto.
  Qed.

  Lemma parse_representations_Ok text e : parse_representations stod o text = Ok e ->
    exists ds, declarations stod o text ds /\ forall name p, e name = Some p <-> last_declared ds name p.
  Proof.
    unfold parse_representations. destruct (split_char_total text ";") as (l & E & S). rewrite E. cbn [bind].
    rewrite parse_all_iff. intros (ds & A & ->). exists ds. split; [exists l; auto|]. intros name p. rewrite env_of_last.
    split; [intros [|[_ [=]]]; auto|auto].
  Qed.
  Lemma parse_representations_complete text ds : declarations stod o text ds ->
    exists e, parse_representations stod o text = Ok e /\ forall name p, e name = Some p <-> last_declared ds name p.
  Proof.
    intros (l & S & A). exists (env_of env_empty ds). split.
    - unfold parse_representations. apply split_char_iff in S. rewrite S. cbn [bind]. apply parse_all_iff. eauto.
    - intros name p. rewrite env_of_last. split; [intros [|[_ [=]]]; auto|auto].
  Qed.
End Parsing.
