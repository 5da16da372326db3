(** Proofs about functions defined by expressions. *)

From Coq Require Import ZArith String Ascii Sorted Permutation.
From Verif Require Import Base BaseLemmas BitVector_Model Representation_Model Representation_Spec Adapter_Proofs Parser_Model Parser_Spec Parser_Proofs Nsga2_Model
  ParsedFunction_Model ParsedFunction_Spec.
Local Open Scope string_scope.
Local Open Scope list_scope.
Local Open Scope nat_scope.

(** * The order of strings *)

Lemma ascii_nat_inj c d : nat_of_ascii c = nat_of_ascii d -> c = d.
Proof. intros H. rewrite <- (ascii_nat_embedding c), <- (ascii_nat_embedding d). now f_equal. Qed.

Lemma string_ltb_iff a : forall b, string_ltb a b = true <-> before a b.
Proof.
  induction a as [|c a IH]; intros [|d b]; cbn [string_ltb].
  - split; [discriminate|inversion 1].
  - split; [constructor|auto].
  - split; [discriminate|inversion 1].
  - split.
    + destruct (Nat.ltb_spec (nat_of_ascii c) (nat_of_ascii d)); [intros _; now apply before_char|]. destruct (Nat.ltb_spec (nat_of_ascii d) (nat_of_ascii c)); [discriminate|].
      assert (E : c = d) by (apply ascii_nat_inj; lia). subst. intros K. apply before_rest. now apply IH.
    + intros K. inversion K; subst.
      * now rewrite (proj2 (Nat.ltb_lt _ _)).
      * rewrite Nat.ltb_irrefl. now apply IH.
Qed.

Lemma string_trichotomy a : forall b, before a b \/ a = b \/ before b a.
Proof.
  induction a as [|c a IH]; intros [|d b]; [auto|left; constructor|right; right; constructor|].
  destruct (Nat.lt_trichotomy (nat_of_ascii c) (nat_of_ascii d)) as [H|[H|H]]; [left; now apply before_char| |right; right; now apply before_char].
  apply ascii_nat_inj in H. subst. destruct (IH b) as [H|[->|H]]; [left; now apply before_rest|auto|right; right; now apply before_rest].
Qed.

Lemma before_irrefl a : ~ before a a.
Proof. induction a as [|c a IH]; intros H; inversion H; subst; auto. lia. Qed.

Lemma before_trans a b c : before a b -> before b c -> before a c.
Proof.
  intros H. revert c. induction H as [d b|c1 d a b H|c1 a b H IH]; intros e K; inversion K; subst; try apply before_prefix; try (apply before_char; lia).
  apply before_rest. auto.
Qed.

Lemma string_order : strict_weak_order string_ltb.
Proof.
  assert (F : forall a b, string_ltb a b = false <-> ~ before a b).
  { intros a b. rewrite <- string_ltb_iff. destruct (string_ltb a b); split; intros H; congruence. }
  split; [|split].
  - intros a. apply F, before_irrefl.
  - intros a b c H K. apply string_ltb_iff in H, K. apply string_ltb_iff. now apply before_trans with b.
  - intros a b c H K. apply F in H, K. apply F. intros L.
    destruct (string_trichotomy a b) as [B|[->|B]]; [auto|auto|]. apply K. now apply before_trans with a.
Qed.

(** * Sets and maps *)

Lemma set_insert_In set name v : In v (set_insert set name) <-> In v set \/ v = name.
Proof.
  unfold set_insert. destruct (existsb (String.eqb name) set) eqn:E.
  - apply existsb_exists in E. destruct E as (w & Hw & K). apply String.eqb_eq in K. subst w. split; [auto|]. intros [H|H]; subst; auto.
  - rewrite in_app_iff. cbn. intuition.
Qed.

Lemma set_insert_NoDup set name : NoDup set -> NoDup (set_insert set name).
Proof.
  intros H. unfold set_insert. destruct (existsb (String.eqb name) set) eqn:E; [exact H|].
  apply NoDup_app_intro; [exact H|repeat constructor; auto|]. intros w Hw [<-|[]].
  assert (existsb (String.eqb name) set = true) by (apply existsb_exists; exists name; split; [auto|apply String.eqb_refl]). congruence.
Qed.

Lemma fold_insert_In l : forall set v, In v (fold_left set_insert l set) <-> In v set \/ In v l.
Proof. induction l as [|w l IH]; intros set v; cbn [fold_left In]; [tauto|]. rewrite IH, set_insert_In. intuition. Qed.
Lemma fold_insert_NoDup l : forall set, NoDup set -> NoDup (fold_left set_insert l set).
Proof. induction l as [|w l IH]; intros set H; cbn [fold_left]; [exact H|]. apply IH, set_insert_NoDup, H. Qed.

Lemma collect_In names : forall set v, In v (fold_left insert_all names set) <-> In v set \/ exists l, In l names /\ In v l.
Proof.
  induction names as [|l names IH]; intros set v; cbn [fold_left In]; [split; [auto|intros [|(l & [] & _)]; auto]|].
  unfold insert_all at 2. rewrite IH, fold_insert_In. split.
  - intros [[H|H]|(m & H & K)]; eauto.
  - intros [H|(m & [<-|H] & K)]; eauto.
Qed.
Lemma collect_NoDup names : forall set, NoDup set -> NoDup (fold_left insert_all names set).
Proof. induction names as [|l names IH]; intros set H; cbn [fold_left]; [exact H|]. apply IH, fold_insert_NoDup, H. Qed.

Lemma sorted_strict l : NoDup l -> StronglySorted (fun a b => string_ltb b a = false) l -> StronglySorted before l.
Proof.
  induction l as [|a l IH]; intros ND S; [constructor|]. inversion ND as [|? ? Ha ND']; subst. inversion S as [|? ? S' F]; subst. constructor; [auto|].
  rewrite Forall_forall in *. intros b Hb. specialize (F b Hb). destruct (string_trichotomy a b) as [H|[->|H]]; [exact H|contradiction|].
  apply string_ltb_iff in H. congruence.
Qed.

Lemma sorted_NoDup l : StronglySorted before l -> NoDup l.
Proof. induction 1 as [|a l S IH F]; constructor; auto. intros H. rewrite Forall_forall in F. exact (before_irrefl a (F a H)). Qed.

(** The order of the visit and the sort do not matter. *)
Lemma variables_unique names : forall v1 v2, variables_of names v1 -> variables_of names v2 -> v1 = v2.
Proof.
  intros v1 v2 [S1 I1] [S2 I2]. assert (E : forall v, In v v1 <-> In v v2) by (intros v; now rewrite I1, I2). clear I1 I2. revert v2 S2 E.
  induction S1 as [|a l S IH F]; intros [|b m] S2 E; [reflexivity|exfalso; apply (E b); now left|exfalso; apply (E a); now left|].
  inversion S2 as [|? ? S2' F2]; subst. rewrite Forall_forall in *.
  assert (a = b).
  { destruct (proj1 (E a) (or_introl eq_refl)) as [->|Ha]; [reflexivity|]. destruct (proj2 (E b) (or_introl eq_refl)) as [->|Hb]; [reflexivity|].
    exfalso. apply (before_irrefl a). apply before_trans with b; auto. }
  subst b. f_equal. apply IH; [auto|]. intros v. split; intros H.
  - destruct (proj1 (E v) (or_intror H)) as [<-|]; [|auto]. exfalso. exact (before_irrefl a (F a H)).
  - destruct (proj2 (E v) (or_intror H)) as [<-|]; [|auto]. exfalso. exact (before_irrefl a (F2 a H)).
Qed.

(** index_of *)
Lemma index_of_other l : forall k f name, ~ In name l -> fold_left index_set (combine l (seq k (length l))) f name = f name.
Proof.
  induction l as [|a l IH]; intros k f name H; cbn [length seq combine fold_left]; [reflexivity|]. rewrite IH by (intros K; apply H; now right).
  unfold index_set. cbn [fst snd]. destruct (String.eqb_spec name a) as [->|]; [exfalso; apply H; now left|reflexivity].
Qed.
Lemma index_of_nth l : forall k f i, NoDup l -> i < length l -> fold_left index_set (combine l (seq k (length l))) f (nth i l EmptyString) = Some (k + i).
Proof.
  induction l as [|a l IH]; intros k f i ND Hi; cbn [length] in *; [lia|]. inversion ND as [|? ? Ha ND']; subst. cbn [seq combine fold_left].
  destruct i as [|i]; cbn [nth].
  - rewrite index_of_other by exact Ha. unfold index_set. cbn [fst snd]. rewrite String.eqb_refl. f_equal. lia.
  - rewrite IH by (auto; lia). f_equal. lia.
Qed.

(** * Making *)

Lemma foldM_pushed {A B} (f : A -> outcome B) (l : list A) (bs : list B) : Forall2 (fun a b => f a = Ok b) l bs -> forall acc,
  foldM (fun acc a => b <- f a ;; Ok (acc ++ [b])) l acc = Ok (acc ++ bs).
Proof.
  induction 1 as [|a b l bs E F IH]; intros acc; cbn [foldM]; [now rewrite app_nil_r|]. rewrite E. cbn [bind]. rewrite IH. now rewrite <- app_assoc.
Qed.

Lemma foldM_ext {A S} (f g : S -> A -> outcome S) (l : list A) : (forall s a, In a l -> f s a = g s a) -> forall s, foldM f l s = foldM g l s.
Proof.
  induction l as [|a l IH]; intros H s; cbn [foldM]; [reflexivity|]. rewrite H by now left. destruct (g s a); cbn [bind]; auto. apply IH. intros. apply H. now right.
Qed.

Lemma foldM_push_inv {A B} (f : A -> outcome B) (l : list A) : forall acc r,
  foldM (fun acc a => b <- f a ;; Ok (acc ++ [b])) l acc = Ok r -> exists bs, r = acc ++ bs /\ Forall2 (fun a b => f a = Ok b) l bs.
Proof.
  induction l as [|a l IH]; intros acc r; cbn [foldM].
  - intros [= <-]. exists []. now rewrite app_nil_r.
  - destruct (f a) as [b|e|] eqn:E; cbn [bind]; try discriminate. intros H. apply IH in H. destruct H as (bs & -> & F). exists (b :: bs). rewrite <- app_assoc. auto.
Qed.

Section Made.
  Context (deduce : string -> option (list string)).
  Context (visit : list string -> list string) (srt : (string -> string -> bool) -> list string -> list string).
  Context (Hvisit : forall l, Permutation (visit l) l) (Hsrt : sorts srt).

  Let step := fun (acc : list (list string)) e => match deduce e with None => Throw RuntimeError | Some ns => Ok (acc ++ [ns]) end.
  Lemma names_Ok es names : Forall2 (fun e ns => deduce e = Some ns) es names -> forall acc, foldM step es acc = Ok (acc ++ names).
  Proof.
    induction 1 as [|e ns es names E F IH]; intros acc; cbn [foldM]; [now rewrite app_nil_r|]. unfold step at 1. rewrite E. cbn [bind]. rewrite IH, <- app_assoc. reflexivity.
  Qed.
  Lemma names_Throw es : (exists e, In e es /\ deduce e = None) -> forall acc, foldM step es acc = Throw RuntimeError.
  Proof.
    induction es as [|e es IH]; intros (w & H & E) acc; [easy|]. cbn [foldM]. unfold step at 1. destruct H as [->|H]; [now rewrite E|].
    destruct (deduce e); cbn [bind]; [|reflexivity]. apply IH. eauto.
  Qed.
  Lemma names_or es : (exists names, Forall2 (fun e ns => deduce e = Some ns) es names) \/ (exists e, In e es /\ deduce e = None).
  Proof.
    induction es as [|e es [(names & F)|(w & H & E)]]; [left; exists []; constructor| |right; exists w; split; [now right|exact E]].
    destruct (deduce e) as [ns|] eqn:E; [left; exists (ns :: names); now constructor|right; exists e; split; [now left|exact E]].
  Qed.

  Lemma cut_expressions expression es : cut "::" expression es -> split_char expression "::" = Ok es.
  Proof.
    intros C. unfold split_char. assert (E : split_string (String.length expression) expression "::" = Some (Ok es)).
    { apply split_string_iff; [discriminate|auto|exact C]. }
    now rewrite E.
  Qed.

  Definition located (vars : list string) (name : string) (k : nat) : Prop := k < length vars /\ nth k vars EmptyString = name.

  Lemma mparsed_make_Ok expression es names : cut "::" expression es -> Forall2 (fun e ns => deduce e = Some ns) es names ->
    exists vars indices, mparsed_make deduce visit srt expression = Ok (mk_mparsed es names vars indices) /\
      variables_of names vars /\ Forall2 (Forall2 (located vars)) names indices.
  Proof.
    intros C F. set (vars := srt string_ltb (visit (fold_left insert_all names []))).
    destruct (Hsrt string_ltb (visit (fold_left insert_all names [])) string_order) as [P S]. fold vars in P, S.
    assert (P' : Permutation (fold_left insert_all names []) vars) by (rewrite <- P; symmetry; apply Hvisit).
    assert (ND : NoDup vars) by (apply (Permutation_NoDup P'), collect_NoDup; constructor).
    assert (I : forall v, In v vars <-> exists l, In l names /\ In v l).
    { intros v. rewrite <- (Permutation_in' eq_refl P'), collect_In. cbn. tauto. }
    set (index_of := fold_left index_set (combine vars (seq 0 (length vars))) (fun _ => None)).
    assert (L : forall name, In name vars -> exists k, index_of name = Some k /\ located vars name k).
    { intros name Hn. destruct (In_nth vars name EmptyString Hn) as (i & Hi & <-). exists i. split; [|now split].
      unfold index_of. now rewrite index_of_nth. }
    assert (J : forall ns, (forall n, In n ns -> In n vars) -> exists ks, Forall2 (fun n k => index_of n = Some k /\ located vars n k) ns ks).
    { induction ns as [|n ns IH]; intros H; [exists []; constructor|]. destruct IH as (ks & K); [intros; apply H; now right|].
      destruct (L n) as (k & E & Lo); [apply H; now left|]. exists (k :: ks). auto. }
    assert (JJ : exists indices, Forall2 (Forall2 (fun n k => index_of n = Some k /\ located vars n k)) names indices).
    { assert (H : forall ns, In ns names -> forall n, In n ns -> In n vars) by (intros ns H n K; apply I; eauto). clear - J H. clearbody index_of. clearbody vars.
      induction names as [|ns l IH]; [exists []; constructor|]. destruct IH as (is_ & K); [intros ns' H'; apply H; now right|].
      destruct (J ns) as (ks & Hk); [apply H; now left|]. exists (ks :: is_). auto. }
    destruct JJ as (indices & K). exists vars, indices. split; [|split].
    - unfold mparsed_make. rewrite (cut_expressions _ _ C). cbn [bind].
      change (foldM _ es []) with (foldM step es []). rewrite (names_Ok es names F). cbn [bind app]. cbv zeta. fold vars. fold index_of.
      rewrite (foldM_pushed (fun ns => foldM (fun is_ name => match index_of name with None => UB | Some k => Ok (is_ ++ [k]) end) ns []) names indices); [reflexivity|].
      clear - K. clearbody index_of. clearbody vars. induction K as [|ns ks l m H K IH]; constructor; [|exact IH]. clear - H.
      assert (G : forall acc, foldM (fun is_ name => match index_of name with None => UB | Some k => Ok (is_ ++ [k]) end) ns acc = Ok (acc ++ ks)).
      { induction H as [|n k ns ks [E _] H IH]; intros acc; cbn [foldM]; [now rewrite app_nil_r|]. rewrite E. cbn [bind]. rewrite IH, <- app_assoc. reflexivity. }
      apply G.
    - split; [now apply sorted_strict|exact I].
    - clear - K. clearbody index_of. clearbody vars. induction K as [|ns ks l m H K IH]; constructor; [|exact IH]. clear - H. induction H as [|n k ns ks [_ E] H IH]; constructor; auto.
  Qed.

  Lemma mparsed_make_Throw expression es : cut "::" expression es -> (exists e, In e es /\ deduce e = None) ->
    mparsed_make deduce visit srt expression = Throw RuntimeError.
  Proof.
    intros C H. unfold mparsed_make. rewrite (cut_expressions _ _ C). cbn [bind]. change (foldM _ es []) with (foldM step es []). now rewrite names_Throw.
  Qed.

End Made.

(** * Evaluation *)
Section Evaluated.
  Context {D : Type} (eval : string -> list D -> D).

  Lemma assigned vars : forall (xs : list D) value name k, assigns vars xs value -> located vars name k -> vget xs k = Ok (value name).
  Proof.
    intros xs value name k A. revert name k. induction A as [|v x vars xs E A IH]; intros name k [Hk Hn]; cbn [length] in Hk; [lia|].
    destruct k as [|k]; cbn [nth] in Hn.
    - subst. reflexivity.
    - specialize (IH name k). unfold vget in *. cbn [nth_error]. apply IH. split; [lia|exact Hn].
  Qed.

  Lemma gather vars (xs : list D) value ns ks : assigns vars xs value -> Forall2 (located vars) ns ks -> forall acc,
    foldM (fun vars k => x <- vget xs k ;; Ok (vars ++ [x])) ks acc = Ok (acc ++ map value ns).
  Proof.
    intros A H. induction H as [|n k ns ks Lo H IH]; intros acc; cbn [foldM map]; [now rewrite app_nil_r|].
    rewrite (assigned _ _ _ _ _ A Lo). cbn [bind]. rewrite IH, <- app_assoc. reflexivity.
  Qed.

  Lemma mparsed_evaluate_Ok es names vars indices (xs : list D) value :
    length es = length names -> Forall2 (Forall2 (located vars)) names indices -> assigns vars xs value ->
    mparsed_evaluate eval (mk_mparsed es names vars indices) xs (length es) = Ok (map2 (fun e ns => eval e (map value ns)) es names).
  Proof.
    intros L F A. unfold mparsed_evaluate. cbn [mp_ordered mp_expressions mp_indices].
    assert (LA : length xs = length vars) by (clear - A; induction A; cbn; congruence). rewrite LA, !Nat.eqb_refl. cbn [assertb bind].
    assert (G : forall es' names' indices' es0 indices0 acc, length es' = length names' -> Forall2 (Forall2 (located vars)) names' indices' ->
      length es0 = length indices0 -> foldM (fun values i =>
        e <- vget (es0 ++ es') i ;; lut <- vget (indices0 ++ indices') i ;;
        vars <- foldM (fun vars k => x <- vget xs k ;; Ok (vars ++ [x])) lut [] ;; Ok (values ++ [eval e vars])) (seq (length es0) (length es')) acc =
        Ok (acc ++ map2 (fun e ns => eval e (map value ns)) es' names')).
    { clear - A. induction es' as [|e es' IH]; intros [|ns names'] indices' es0 indices0 acc L F L0; cbn [length] in *; try lia; inversion F as [|? ks ? indices1 Hk F']; subst.
      - cbn. now rewrite app_nil_r.
      - cbn [seq foldM map2]. unfold vget at 1 2. rewrite !nth_error_app2 by lia. rewrite <- L0, Nat.sub_diag. cbn [nth_error bind].
        rewrite (gather vars xs value ns ks A Hk). cbn [bind app].
        specialize (IH names' indices1 (es0 ++ [e]) (indices0 ++ [ks]) (acc ++ [eval e (map value ns)])).
        rewrite !app_length in IH. cbn [length] in IH. rewrite <- !app_assoc in IH. cbn [app] in IH. replace (length es0 + 1) with (S (length es0)) in IH by lia.
        rewrite IH by (auto; lia). reflexivity. }
    exact (G es names indices [] [] [] L F eq_refl).
  Qed.
End Evaluated.
