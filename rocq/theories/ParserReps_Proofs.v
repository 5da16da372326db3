(** Proofs about the representations chosen for the variables, the failures of the
    parser and texts in the documented syntax. *)

From Coq Require Import ZArith NArith String Ascii.
From Verif Require Import Base BaseLemmas Text_Model Text_Proofs Parser_Model Parser_Spec Parser_Proofs.
Local Open Scope string_scope.
Local Open Scope nat_scope.

Section Reps.
  Context {D : Type} (stod : string -> outcome D) (o : parser_options D).

  Definition chosen (d : params D) (e : env D) (name : string) : params D :=
    match e name with
    | Some p => if params_index p =? params_index d then p else d
    | None => d
    end.
  Definition chosen_mixed (d : params D) (e : env D) (name : string) : params D :=
    match e name with
    | Some (IntRepParams _ _) | None => d
    | Some p => p
    end.

  Lemma complete_at d e n m : complete d e n m = if String.eqb m n then Some (chosen d e n) else e m.
  Proof.
    unfold complete, chosen, env_set. destruct (e n) as [p|] eqn:E; [|now destruct (String.eqb m n)].
    destruct (params_index p =? params_index d); [|now destruct (String.eqb m n)].
    destruct (String.eqb_spec m n) as [->|]; auto.
  Qed.
  Lemma chosen_complete d e n m : chosen d (complete d e n) m = chosen d e m.
  Proof.
    unfold chosen at 1. rewrite complete_at. destruct (String.eqb_spec m n) as [->|]; [|reflexivity].
    unfold chosen. destruct (e n) as [p|]; [|now rewrite Nat.eqb_refl].
    destruct (params_index p =? params_index d) eqn:E; [now rewrite E|now rewrite Nat.eqb_refl].
  Qed.
  Lemma complete_all (d : params D) names : forall e m, In m names -> fold_left (complete d) names e m = Some (chosen d e m).
  Proof.
    assert (G : forall names e m, fold_left (complete d) names e m = if in_dec string_dec m names then Some (chosen d e m) else e m).
    { clear names. induction names as [|n names IH]; intros e m; [reflexivity|]. cbn [fold_left]. rewrite IH, chosen_complete, complete_at.
      destruct (in_dec string_dec m names) as [I|I]; destruct (in_dec string_dec m (n :: names)) as [J|J]; auto.
      - exfalso. apply J. now right.
      - destruct (String.eqb_spec m n) as [->|M]; auto. destruct J; congruence.
      - destruct (String.eqb_spec m n) as [->|M]; auto. exfalso. apply J. now left. }
    intros e m I. rewrite G. now destruct (in_dec string_dec m names).
  Qed.

  Lemma complete_mixed_at d e n m : complete_mixed d e n m = if String.eqb m n then Some (chosen_mixed d e n) else e m.
  Proof.
    unfold complete_mixed, chosen_mixed, env_set. destruct (e n) as [[]|] eqn:E; destruct (String.eqb_spec m n) as [->|]; auto.
  Qed.
  Lemma chosen_mixed_complete d e n m : chosen_mixed d (complete_mixed d e n) m = chosen_mixed d e m.
  Proof.
    unfold chosen_mixed at 1. rewrite complete_mixed_at. destruct (String.eqb_spec m n) as [->|]; [|reflexivity].
    unfold chosen_mixed. destruct (e n) as [[]|]; auto; now destruct d.
  Qed.
  Lemma complete_mixed_all (d : params D) names : forall e m, In m names -> fold_left (complete_mixed d) names e m = Some (chosen_mixed d e m).
  Proof.
    assert (G : forall names e m, fold_left (complete_mixed d) names e m =
      if in_dec string_dec m names then Some (chosen_mixed d e m) else e m).
    { clear names. induction names as [|n names IH]; intros e m; [reflexivity|]. cbn [fold_left].
      rewrite IH, chosen_mixed_complete, complete_mixed_at.
      destruct (in_dec string_dec m names) as [I|I]; destruct (in_dec string_dec m (n :: names)) as [J|J]; auto.
      - exfalso. apply J. now right.
      - destruct (String.eqb_spec m n) as [->|M]; auto. destruct J; congruence.
      - destruct (String.eqb_spec m n) as [->|M]; auto. exfalso. apply J. now left. }
    intros e m I. rewrite G. now destruct (in_dec string_dec m names).
  Qed.

  Lemma index_kind (p : params D) : params_index p = kind p.
  Proof. now destruct p. Qed.

  Lemma chosen_used ds d e name : (forall n p, e n = Some p <-> last_declared ds n p) -> used ds d name (chosen d e name).
  Proof.
    intros H. unfold used, chosen. destruct (e name) as [p|] eqn:E.
    - apply H in E as E'. rewrite (index_kind p), (index_kind d). destruct (Nat.eqb_spec (kind p) (kind d)) as [K|K]; [left; auto|].
      right. split; auto. intros q Hq. apply H in Hq. rewrite E in Hq. injection Hq as <-. assumption.
    - right. split; auto. intros q Hq. apply H in Hq. congruence.
  Qed.
  Lemma chosen_mixed_used ds d e name : (forall n p, e n = Some p <-> last_declared ds n p) ->
    used_mixed ds d name (chosen_mixed d e name).
  Proof.
    intros H. unfold used_mixed, chosen_mixed. destruct (e name) as [p|] eqn:E.
    - apply H in E as E'. destruct p; try (left; split; [assumption|discriminate]).
      right. split; auto. intros q Hq. apply H in Hq. rewrite E in Hq. injection Hq as <-. reflexivity.
    - right. split; auto. intros q Hq. apply H in Hq. congruence.
  Qed.

  Lemma chosen_kind d e name : kind (chosen d e name) = kind d.
  Proof.
    unfold chosen. destruct (e name) as [p|]; auto. destruct (Nat.eqb_spec (params_index p) (params_index d)) as [H|]; auto.
  Qed.
  Lemma get_params_cases k (p : params D) :
    get_params k p = if kind p =? of_scalar k then Ok p else Throw OtherException.
  Proof. now destruct k, p. Qed.

  (** Loops which collect one element for each name *)
  Lemma foldM_collect {A B} (f : A -> outcome B) (l : list A) (g : A -> B) : (forall a, In a l -> f a = Ok (g a)) -> forall acc,
    foldM (fun bs a => b <- f a ;; Ok (bs ++ [b])%list) l acc = Ok (acc ++ map g l)%list.
  Proof.
    induction l as [|a l IH]; intros H acc; cbn [foldM map].
    - now rewrite app_nil_r.
    - rewrite (H a) by now left. cbn [bind]. rewrite IH by (intros; apply H; now right). now rewrite <- app_assoc.
  Qed.
  Lemma foldM_same {A B} (f g : B -> A -> outcome B) l : (forall b a, In a l -> f b a = g b a) -> forall b, foldM f l b = foldM g l b.
  Proof.
    induction l as [|a l IH]; intros H b; cbn; auto. rewrite H by now left. destruct (g b a); cbn; auto. apply IH. intros; apply H; now right.
  Qed.

  Lemma make_reps_eq k names text e d :
    parse_representations stod o text = Ok e -> get_default_representation stod o k = Ok d ->
    make_reps stod o k names text =
      if kind d =? of_scalar k then Ok (map (chosen d e) names)
      else match names with [] => Ok [] | _ => Throw OtherException end.
  Proof.
    intros E Ed. unfold make_reps. rewrite E. cbn [bind]. rewrite Ed. cbn [bind].
    rewrite (foldM_same _ (fun reps name => r <- get_params k (chosen d e name) ;; Ok (reps ++ [r])%list)).
    2:{ intros b a I. now rewrite complete_all. }
    destruct (Nat.eqb_spec (kind d) (of_scalar k)) as [K|K].
    - rewrite (foldM_collect _ _ (chosen d e)); [reflexivity|]. intros a _. rewrite get_params_cases, chosen_kind.
      now rewrite K, Nat.eqb_refl.
    - destruct names as [|n names]; [reflexivity|]. cbn [foldM]. rewrite get_params_cases, chosen_kind.
      destruct (Nat.eqb_spec (kind d) (of_scalar k)); [contradiction|reflexivity].
  Qed.

  Lemma fold_left_pairs (d : params D) names : forall e : env D,
    fold_left (fun e name => complete (D:=D) d (complete d e (name ++ "_re")) (name ++ "_im")) names e =
    fold_left (complete (D:=D) d) (flat_map (fun name => [name ++ "_re"; name ++ "_im"]) names) e.
  Proof. induction names as [|n names IH]; intros e; cbn [fold_left flat_map app]; auto. Qed.

  Lemma make_complex_reps_eq k names text e d :
    parse_representations stod o text = Ok e -> get_default_representation stod o k = Ok d ->
    make_complex_reps stod o k names text =
      if kind d =? of_scalar k then Ok (map (fun n => (chosen d e (n ++ "_re"), chosen d e (n ++ "_im"))) names)
      else match names with [] => Ok [] | _ => Throw OtherException end.
  Proof.
    intros E Ed. unfold make_complex_reps. rewrite E. cbn [bind]. rewrite Ed. cbn [bind]. rewrite fold_left_pairs.
    rewrite (foldM_same _ (fun reps name =>
      x <- (r <- get_params k (chosen d e (name ++ "_re")) ;; i <- get_params k (chosen d e (name ++ "_im")) ;; Ok (r, i)) ;;
      Ok (reps ++ [x])%list)).
    2:{ intros b a I. rewrite !complete_all by (apply in_flat_map; exists a; cbn; auto). rewrite !get_params_cases.
      destruct (_ =? _); cbn [bind]; auto. destruct (_ =? _); cbn [bind]; auto. }
    destruct (Nat.eqb_spec (kind d) (of_scalar k)) as [K|K].
    - rewrite (foldM_collect _ _ (fun n => (chosen d e (n ++ "_re"), chosen d e (n ++ "_im")))); [reflexivity|].
      intros a _. rewrite !get_params_cases, !chosen_kind, K, Nat.eqb_refl. reflexivity.
    - destruct names as [|n names]; [reflexivity|]. cbn [foldM]. rewrite !get_params_cases, !chosen_kind.
      destruct (Nat.eqb_spec (kind d) (of_scalar k)); [contradiction|reflexivity].
  Qed.

  Lemma make_mixed_reps_eq names text e dl d :
    parse_representations stod o text = Ok e -> get_default_representation stod o SLong = Ok dl ->
    get_default_representation stod o SDouble = Ok d ->
    make_mixed_reps stod o names text = Ok (map (chosen_mixed d e) names).
  Proof.
    intros E El Ed. unfold make_mixed_reps. rewrite E. cbn [bind]. rewrite El. cbn [bind]. rewrite Ed. cbn [bind].
    rewrite (foldM_same _ (fun reps name => r <- Ok (chosen_mixed d e name) ;; Ok (reps ++ [r])%list)).
    2:{ intros b a I. now rewrite complete_mixed_all. }
    now rewrite (foldM_collect _ _ (chosen_mixed d e)).
  Qed.

  Lemma Forall2_map_used (R : string -> params D -> Prop) f names : (forall n, R n (f n)) -> Forall2 R names (map f names).
  Proof. intros H. induction names; cbn; auto. Qed.

  (** * Failures *)

  Definition fails_soundly {A} (r : outcome A) : Prop := (exists a, r = Ok a) \/ r = Throw RuntimeError \/ r = Throw OtherException.
  Lemma sound_Ok {A} (a : A) : fails_soundly (Ok a). Proof. left. eauto. Qed.
  Lemma sound_error {A} : fails_soundly (Throw (A:=A) RuntimeError). Proof. right. auto. Qed.
  Lemma sound_bind {A B} (m : outcome A) (f : A -> outcome B) : fails_soundly m -> (forall a, fails_soundly (f a)) ->
    fails_soundly (x <- m ;; f x).
  Proof. intros [(a & ->)|[->| ->]] H; cbn; auto; right; auto. Qed.
  Lemma sound_stoi w s : fails_soundly (stoi w s).
  Proof. destruct (stoi_cases w s) as [H|H]; [left; auto|right; auto]. Qed.
  Lemma sound_split c s : fails_soundly (split_char s (String c "")).
  Proof. destruct (split_char_total s c) as (l & -> & _). apply sound_Ok. Qed.

  Lemma sound_double args : (forall s, fails_soundly (stod s)) -> fails_soundly (parse_double_rep stod o args).
  Proof.
    intros HS. apply sound_bind; [apply sound_split|]. intros l.
    destruct l as [|s [|t [|u [|? ?]]]]; try apply sound_error.
    - apply sound_bind; [auto|]. intros a. apply sound_bind; [auto|]. intros b.
      destruct (po_precision o); [apply sound_Ok|]. destruct (po_size o); [apply sound_Ok|apply sound_error].
    - apply sound_bind; [auto|]. intros a. apply sound_bind; [auto|]. intros b.
      apply sound_bind; [apply sound_split|]. intros l. destruct l as [|key [|value [|? ?]]]; try apply sound_error.
      destruct (first_word key) as [k|]; [|apply sound_error].
      destruct (String.eqb k "precision"); [apply sound_bind; [auto|intros; apply sound_Ok]|].
      destruct (String.eqb k "size"); [apply sound_bind; [apply sound_stoi|intros; apply sound_Ok]|apply sound_error].
  Qed.
  Lemma sound_foldM {A B} (f : B -> A -> outcome B) l : (forall b a, fails_soundly (f b a)) -> forall b, fails_soundly (foldM f l b).
  Proof. intros H. induction l as [|a l IH]; intros b; cbn [foldM]; [apply sound_Ok|]. apply sound_bind; auto. Qed.

  Lemma sound_representation text : (forall s, fails_soundly (stod s)) -> fails_soundly (parse_representation stod o text).
  Proof.
    intros HS. destruct (parse_representation_shape stod o text) as [(before & args & after & -> & L1 & L2)|E]; [|rewrite E; apply sound_error].
    rewrite parse_representation_at by auto. destruct (first_word before) as [type|]; [|apply sound_error].
    unfold parse_arguments, parse_int_rep, parse_long_rep.
    destruct (String.eqb type "int").
    { apply sound_bind; [apply sound_split|]. intros [|s [|t [|? ?]]]; try apply sound_error.
      apply sound_bind; [apply sound_stoi|]. intros a. apply sound_bind; [apply sound_stoi|]. intros b. apply sound_Ok. }
    destruct (String.eqb type "long").
    { apply sound_bind; [apply sound_split|]. intros [|s [|t [|? ?]]]; try apply sound_error.
      apply sound_bind; [apply sound_stoi|]. intros a. apply sound_bind; [apply sound_stoi|]. intros b. apply sound_Ok. }
    destruct (String.eqb type "double"); [now apply sound_double|].
    destruct (String.eqb type "set"); [|apply sound_error].
    apply sound_bind; [apply sound_split|]. intros l. apply sound_bind; [|intros; apply sound_Ok].
    apply sound_foldM. intros vs s. apply sound_bind; [auto|intros; apply sound_Ok].
  Qed.

  Lemma sound_representations text : (forall s, fails_soundly (stod s)) -> fails_soundly (parse_representations stod o text).
  Proof.
    intros HS. apply sound_bind; [apply sound_split|]. intros l. apply sound_foldM. intros e s.
    destruct (parse_declaration_shape stod o e s) as [->|[(a & b & -> & L)|(_ & E)]].
    - apply sound_Ok.
    - rewrite parse_declaration_at by auto. destruct (first_word a) as [name|]; [|apply sound_error].
      apply sound_bind; [now apply sound_representation|]. intros; apply sound_Ok.
    - rewrite E. apply sound_error.
  Qed.

  (** A number which is missing or too large *)
  Lemma bad_integer before args after s t : lacks "(" before -> lacks ")" args ->
    has_first_word before "int" -> separated "," args [s; t] ->
    (forall a, ~ has_integer 32 s a) \/ (forall b, ~ has_integer 32 t b) ->
    parse_representation stod o (before ++ "(" ++ args ++ ")" ++ after) = Throw OtherException.
  Proof.
    intros L1 L2 W S H. rewrite parse_representation_at by auto. apply first_word_iff in W. rewrite W.
    unfold parse_arguments. cbn [String.eqb Ascii.eqb Bool.eqb]. unfold parse_int_rep.
    apply split_char_iff in S. cbn. rewrite S. cbn [bind].
    destruct (stoi_cases 32 s) as [(a & Ea)|Ea]; rewrite Ea; [|reflexivity]. cbn [bind].
    destruct (stoi_cases 32 t) as [(b & Eb)|Eb]; rewrite Eb; [|reflexivity].
    exfalso. destruct H as [H|H]; [apply (H a)|apply (H b)]; now apply stoi_iff.
  Qed.

  (** * Trailing separators *)

  Lemma concat_snoc d l p : l <> nil -> String.concat d (l ++ [p])%list = String.concat d l ++ d ++ p.
  Proof.
    induction l as [|a l IH]; intros N; [contradiction|]. destruct l as [|b l]; [reflexivity|].
    change ((a :: b :: l) ++ [p])%list with (a :: ((b :: l) ++ [p]))%list.
    change (String.concat d (a :: (b :: l) ++ [p])%list) with (a ++ d ++ String.concat d ((b :: l) ++ [p])%list).
    rewrite IH by discriminate. change (String.concat d (a :: b :: l)) with (a ++ d ++ String.concat d (b :: l)).
    now rewrite !append_assoc.
  Qed.
  Lemma separated_snoc c s l p : separated c s l -> lacks c p -> separated c (s ++ String c p) (l ++ [p])%list.
  Proof.
    intros (N & -> & F) L. split; [now destruct l|]. split; [now rewrite concat_snoc|]. apply Forall_app. auto.
  Qed.
  Lemma foldM_app' {A B} (f : B -> A -> outcome B) l m b : foldM f (l ++ m)%list b = (x <- foldM f l b ;; foldM f m x).
  Proof. revert b; induction l as [|a l IH]; intros b; cbn; auto. destruct (f b a); cbn; auto. Qed.

  Lemma parse_trailing text p : lacks ";" p ->
    parse_representations stod o (text ++ ";" ++ p) =
    (e <- parse_representations stod o text ;; parse_declaration stod o e p).
  Proof.
    intros L. unfold parse_representations. destruct (split_char_total text ";") as (l & E & S). rewrite E. cbn [bind].
    pose proof (separated_snoc _ _ _ _ S L) as S'. apply split_char_iff in S'.
    change (text ++ ";" ++ p) with (text ++ String ";" p). rewrite S'. cbn [bind]. rewrite foldM_app'.
    destruct (foldM (parse_declaration stod o) l env_empty); cbn [bind foldM]; auto.
    destruct (parse_declaration stod o a p); reflexivity.
  Qed.

  Lemma blank_lacks c b : blank b -> is_space c = false -> lacks c b.
  Proof. intros B N I. unfold blank in B. rewrite Forall_forall in B. rewrite (B c I) in N. discriminate. Qed.

  Lemma parse_trailing_blank text e b : parse_representations stod o text = Ok e -> b <> "" -> blank b ->
    parse_representations stod o (text ++ ";" ++ b) = Throw RuntimeError.
  Proof.
    intros E N B. rewrite parse_trailing by now apply blank_lacks. rewrite E. cbn [bind].
    destruct (parse_declaration_shape stod o e b) as [->|[(x & y & -> & _)|(_ & R)]]; [contradiction| |auto].
    exfalso. assert (lacks ":" (x ++ ":" ++ y)) as L by now apply blank_lacks.
    apply lacks_app in L as [_ L]. apply lacks_app in L as [L _]. apply lacks_cons in L as [L _]. auto.
  Qed.

  (** * Documented syntax *)
  Context (show : D -> string).

  Lemma number_lacks c z : number_char c = false -> lacks c (show_Z z).
  Proof.
    intros N I. destruct (show_Z_chars z) as (A & _). apply all_chars_Forall in A. rewrite Forall_forall in A. rewrite (A c I) in N. discriminate.
  Qed.
  Lemma has_integer_show w b z : blank b -> fits w z -> has_integer w (b ++ show_Z z) z.
  Proof.
    intros B R. destruct z as [|p|p].
    - exists b, "", "0", "". cbn. repeat split; auto; try discriminate. apply R. apply R.
    - destruct (show_N_exact (Npos p)) as (N & A & V). exists b, "", (show_N (Npos p)), "".
      rewrite append_nil_r. split; [reflexivity|]. split; [auto|]. split; [auto|]. split; [now apply all_chars_Forall|].
      split; [auto|]. cbn zeta. rewrite V. split; [auto|exact R].
    - destruct (show_N_exact (Npos p)) as (N & A & V). exists b, "-", (show_N (Npos p)), "".
      rewrite append_nil_r. split; [reflexivity|]. split; [auto|]. split; [auto|]. split; [now apply all_chars_Forall|].
      split; [auto|]. cbn zeta. rewrite V. split; [auto|exact R].
  Qed.
  Lemma blank_space : blank " ". Proof. repeat constructor. Qed.
  Lemma blank_nil : blank "". Proof. constructor. Qed.

  Lemma word_first b w : blank b -> w <> "" -> Forall (fun c => is_space c = false) (list_ascii_of_string w) -> has_first_word (b ++ w) w.
  Proof. intros B N F. exists b, "". rewrite append_nil_r. auto 6. Qed.

  Ltac chars := unfold lacks; cbn; intuition discriminate.
  Ltac plain := rewrite ?lacks_app; repeat split; auto; try chars; try (apply number_lacks; reflexivity).

  Lemma separated_two c a b : lacks c a -> lacks c b -> separated c (a ++ String c b) [a; b].
  Proof. intros. split; [discriminate|]. split; [reflexivity|auto]. Qed.

  Lemma separated_map c (vs : list D) : vs <> nil -> Forall (fun v => lacks c (show v)) vs ->
    separated c (String.concat (String c "") (map show vs)) (map show vs).
  Proof. intros N F. split; [now destruct vs|]. split; auto. now apply Forall_map. Qed.

  Lemma lacks_concat c d l : lacks c d -> Forall (lacks c) l -> lacks c (String.concat d l).
  Proof.
    intros Hd F. induction F as [|a l Ha F IH]; [intros []|]. destruct l as [|b l]; auto.
    change (String.concat d (a :: b :: l)) with (a ++ d ++ String.concat d (b :: l)). rewrite !lacks_app. auto.
  Qed.

  Lemma represents_print p : params_ok show stod p -> represents stod o (" " ++ print_params show p) p /\ lacks ";" (print_params show p).
  Proof.
    destruct p as [a b|a b|a b [e|n]|vs]; cbn [params_ok print_params].
    - intros (Ha & Hb). split; [|plain].
      exists " int", (show_Z a ++ ", " ++ show_Z b), "", "int". split; [cbn [append]; now rewrite !append_assoc|].
      split; [chars|]. split; [plain|]. split; [apply (word_first " "); [apply blank_space|discriminate|repeat constructor]|].
      left. split; auto. exists (show_Z a), (" " ++ show_Z b), a, b.
      split; [apply separated_two; plain|]. split; [apply (has_integer_show 32 ""); auto; apply blank_nil|].
      split; [apply has_integer_show; auto; apply blank_space|reflexivity].
    - intros (Ha & Hb). split; [|plain].
      exists " long", (show_Z a ++ ", " ++ show_Z b), "", "long". split; [cbn [append]; now rewrite !append_assoc|].
      split; [chars|]. split; [plain|]. split; [apply (word_first " "); [apply blank_space|discriminate|repeat constructor]|].
      right. left. split; auto. exists (show_Z a), (" " ++ show_Z b), a, b.
      split; [apply separated_two; plain|]. split; [apply (has_integer_show 64 ""); auto; apply blank_nil|].
      split; [apply has_integer_show; auto; apply blank_space|reflexivity].
    - intros ((Ra & Ra' & Aa & Ab & Ac & Ad) & (Rb & Rb' & Ba & Bb & Bc & Bd) & (Re & Re' & Ea & Eb & Ec & Ed)). split; [|plain].
      exists " double", (show a ++ ", " ++ show b ++ ", precision = " ++ show e), "", "double".
      split; [cbn [append]; rewrite !append_assoc; cbn [append]; now rewrite !append_assoc|].
      split; [chars|]. split; [plain|]. split; [apply (word_first " "); [apply blank_space|discriminate|repeat constructor]|].
      right. right. right. left. split; auto.
      exists (show a), (" " ++ show b), (" precision = " ++ show e), a, b, " precision ", (" " ++ show e).
      split. { split; [discriminate|]. split; [reflexivity|]. repeat constructor; plain. }
      split; [auto|]. split; [auto|]. split. { apply (separated_two "=" " precision " (" " ++ show e)); plain. }
      left. split; [|exists e; auto]. exists " ", " ". split; [reflexivity|]. split; [apply blank_space|]. split; [discriminate|].
      split; [repeat constructor|]. right. exists " "%char, "". auto.
    - intros ((Ra & Ra' & Aa & Ab & Ac & Ad) & (Rb & Rb' & Ba & Bb & Bc & Bd) & Hn). split; [|plain].
      exists " double", (show a ++ ", " ++ show b ++ ", size = " ++ show_Z n), "", "double".
      split; [cbn [append]; rewrite !append_assoc; cbn [append]; now rewrite !append_assoc|].
      split; [chars|]. split; [plain|]. split; [apply (word_first " "); [apply blank_space|discriminate|repeat constructor]|].
      right. right. right. left. split; auto.
      exists (show a), (" " ++ show b), (" size = " ++ show_Z n), a, b, " size ", (" " ++ show_Z n).
      split. { split; [discriminate|]. split; [reflexivity|]. repeat constructor; plain. }
      split; [auto|]. split; [auto|]. split. { apply (separated_two "=" " size " (" " ++ show_Z n)); plain. }
      right. split; [|exists n; split; [apply has_integer_show; auto; apply blank_space|reflexivity]].
      exists " ", " ". split; [reflexivity|]. split; [apply blank_space|]. split; [discriminate|].
      split; [repeat constructor|]. right. exists " "%char, "". auto.
    - intros (N & F). assert (lacks ")" (String.concat "," (map show vs))) as L1.
      { apply lacks_concat; [chars|]. apply Forall_map. eapply Forall_impl; [|exact F]. intros v H. apply H. }
      assert (lacks ";" (String.concat "," (map show vs))) as L2.
      { apply lacks_concat; [chars|]. apply Forall_map. eapply Forall_impl; [|exact F]. intros v H. apply H. }
      split; [|plain].
      exists " set", (String.concat "," (map show vs)), "", "set".
      split; [reflexivity|].
      split; [chars|]. split; [auto|]. split; [apply (word_first " "); [apply blank_space|discriminate|repeat constructor]|].
      right. right. right. right. split; auto. exists (map show vs), vs. split.
      { apply separated_map; auto. eapply Forall_impl; [|exact F]. intros v H. apply H. }
      split; [|reflexivity]. clear N L1 L2. induction F as [|v vs Hv F IH]; cbn; constructor; auto. apply Hv.
  Qed.

  Lemma declares_print name p : name_ok name -> params_ok show stod p ->
    declares stod o (print_declaration show (name, p)) name p /\ lacks ";" (print_declaration show (name, p)).
  Proof.
    intros (N & F & L1 & L2) P. destruct (represents_print p P) as (R & L). unfold print_declaration. cbn [fst snd]. split.
    - exists (" " ++ name), (" " ++ print_params show p). split; [now rewrite !append_assoc|].
      split; [rewrite lacks_app; split; [chars|auto]|]. split; [apply word_first; auto; apply blank_space|auto].
    - rewrite !lacks_app. repeat split; auto; chars.
  Qed.

  Lemma print_parsed ds : Forall (fun d => name_ok (fst d) /\ params_ok show stod (snd d)) ds ->
    ds <> nil -> declarations stod o (print_declarations show ds) ds.
  Proof.
    intros F N. exists (map (print_declaration show) ds). split.
    - split; [now destruct ds|]. split; [reflexivity|]. apply Forall_map. eapply Forall_impl; [|exact F].
      intros [name p] (H1 & H2). apply (declares_print name p H1 H2).
    - clear N. induction F as [|[name p] ds (H1 & H2) F IH]; cbn [map]; constructor; auto. now apply declares_print.
  Qed.
End Reps.
