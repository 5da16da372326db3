(** Property C120: functions defined by expressions, with one or several objectives, and the
    functions of hnco-mo made from them. *)

From Coq Require Import ZArith String Ascii Sorted Permutation.
From Verif Require Import Base BaseLemmas BitVector_Model BitVector_Spec Text_Model Parser_Model Parser_Spec Parser_Proofs ParserReps_Proofs Properties_Parser
  Representation_Model Representation_Spec Representation_Proofs Adapter_Proofs ParsedFunction_Model ParsedFunction_Spec ParsedFunction_Proofs.
Local Open Scope string_scope.
Local Open Scope list_scope.
Local Open Scope nat_scope.

Section Functions.
  (** The parser: the variables of an expression and its value *)
  Context {D : Type} (deduce : string -> option (list string)) (eval : string -> list D -> D).
  (** The order of the visit of an unordered set, and std::sort *)
  Context (visit : list string -> list string) (srt : (string -> string -> bool) -> list string -> list string).
  Context (Hvisit : forall l, Permutation (visit l) l) (Hsrt : sorts srt).

  (** The sub expressions of an expression, separated by ::, and their variables *)
  Definition sub_expressions (expression : string) (es : list string) (names : list (list string)) : Prop :=
    cut "::" expression es /\ Forall2 (fun e ns => deduce e = Some ns) es names.

  (** One objective: the values are those of the variables in the order of the parser, and
      further ones are ignored. *)
  Theorem C120_one_objective expression names : deduce expression = Some names ->
    exists p, parsed_make deduce expression = Ok p /\ pf_names p = names /\
      forall xs more value, assigns names xs value -> parsed_evaluate eval p (xs ++ more) = Ok (eval expression (map value names)).
  Proof.
    intros E. unfold parsed_make. rewrite E. eexists. split; [reflexivity|]. split; [reflexivity|]. intros xs more value A.
    unfold parsed_evaluate. cbn [pf_names pf_expression].
    assert (L : length names = length xs) by (clear - A; induction A; cbn; congruence). rewrite app_length, L.
    destruct (Nat.leb_spec (length xs) (length xs + length more)); [|lia]. rewrite firstn_app, firstn_all, Nat.sub_diag, firstn_O, app_nil_r. do 2 f_equal.
    clear - A. induction A as [|v x vs xs E A IH]; cbn [map]; congruence.
  Qed.
  Theorem C120_one_objective_errors expression : 
    (parsed_make deduce expression = Throw RuntimeError <-> deduce expression = None) /\
    (parsed_make deduce expression <> UB).
  Proof. unfold parsed_make. destruct (deduce expression); repeat split; congruence. Qed.

  (** Several objectives: the variables are those of the sub expressions in alphabetical order,
      and objective i is the value of sub expression i for the values of its own variables. *)
  Theorem C120_objectives expression es names : sub_expressions expression es names ->
    exists p, mparsed_make deduce visit srt expression = Ok p /\
      variables_of names (mp_ordered p) /\
      forall xs value, assigns (mp_ordered p) xs value ->
        mparsed_evaluate eval p xs (length es) = Ok (map2 (fun e ns => eval e (map value ns)) es names).
  Proof.
    intros [C F]. destruct (mparsed_make_Ok deduce visit srt Hvisit Hsrt expression es names C F) as (vars & indices & E & V & Lo).
    eexists. split; [exact E|]. split; [exact V|]. intros xs value A. cbn [mp_ordered] in A.
    apply mparsed_evaluate_Ok; auto. clear - F. induction F; cbn; congruence.
  Qed.

  (** It fails exactly if some sub expression does not parse, and with std::runtime_error. *)
  Theorem C120_errors expression :
    (exists p, mparsed_make deduce visit srt expression = Ok p /\ exists es names, sub_expressions expression es names) \/
    (mparsed_make deduce visit srt expression = Throw RuntimeError /\ exists es e, cut "::" expression es /\ In e es /\ deduce e = None).
  Proof.
    destruct (split_string_cut (String.length expression) expression "::") as (es & _ & C); [discriminate|auto|].
    destruct (names_or deduce es) as [(names & F)|(e & H & K)].
    - left. destruct (mparsed_make_Ok deduce visit srt Hvisit Hsrt expression es names C F) as (vars & indices & E & _). eexists. split; [exact E|]. now exists es, names.
    - right. split; [|eauto]. apply (mparsed_make_Throw deduce visit srt expression es C). eauto.
  Qed.

  (** Values of another size are refused by an assertion. *)
  Theorem C120_sizes p xs size : length xs <> length (mp_ordered p) \/ size <> length (mp_expressions p) ->
    mparsed_evaluate eval p xs size = UB.
  Proof.
    intros H. unfold mparsed_evaluate. destruct (Nat.eqb_spec (length xs) (length (mp_ordered p))); cbn [assertb bind]; [|reflexivity].
    destruct (Nat.eqb_spec size (length (mp_expressions p))); cbn [assertb bind]; [|reflexivity]. tauto.
  Qed.
End Functions.

(** The order of the visit and the sorting algorithm do not matter. *)
Theorem C120_deterministic deduce visit1 visit2 srt1 srt2 expression :
  (forall l, Permutation (visit1 l) l) -> (forall l, Permutation (visit2 l) l) -> sorts srt1 -> sorts srt2 ->
  mparsed_make deduce visit1 srt1 expression = mparsed_make deduce visit2 srt2 expression.
Proof.
  intros V1 V2 S1 S2. destruct (split_string_cut (String.length expression) expression "::") as (es & _ & C); [discriminate|auto|].
  destruct (names_or deduce es) as [(names & F)|H].
  - destruct (mparsed_make_Ok deduce visit1 srt1 V1 S1 expression es names C F) as (vars1 & is1 & -> & A1 & L1).
    destruct (mparsed_make_Ok deduce visit2 srt2 V2 S2 expression es names C F) as (vars2 & is2 & -> & A2 & L2).
    pose proof (variables_unique names vars1 vars2 A1 A2). subst vars2. do 2 f_equal. pose proof (sorted_NoDup vars1 (proj1 A1)) as ND.
    clear - L1 L2 ND. revert is2 L2. induction L1 as [|ns ks names is1 H L1 IH]; intros is2 L2; inversion L2 as [|? ks2 ? is2' H2 L2']; subst; [reflexivity|].
    f_equal; [|auto]. clear - H H2 ND. revert ks2 H2. induction H as [|n k ns ks [K E] H IH]; intros ks2 H2; inversion H2 as [|? k2 ? ks2' [K2 E2] H2']; subst; [reflexivity|].
    f_equal; [|auto]. apply (NoDup_nth vars1 EmptyString); auto.
  - rewrite (mparsed_make_Throw deduce visit1 srt1 expression es C H). now rewrite (mparsed_make_Throw deduce visit2 srt2 expression es C H).
Qed.

(** * The functions of hnco-mo *)

(** The types of the functions: variables of one type (double, long, int) or of different
    types, and the same ones with the absolute values of expressions (systems of
    equations) *)
Definition scalar_type (k : scalar) (absolute : bool) : Z :=
  ((if absolute then 530 else 520) + match k with SDouble => 0 | SLong => 1 | SInt => 3 end)%Z.
Definition mixed_type (absolute : bool) : Z := if absolute then 534 else 524.
Lemma scalar_type_made k absolute : mo_type (scalar_type k absolute) = Some (Scalars k, absolute).
Proof. now destruct k, absolute. Qed.
Lemma mixed_type_made absolute : mo_type (mixed_type absolute) = Some (Mixed, absolute).
Proof. now destruct absolute. Qed.

Section Made.
  Context {D T : Type} (stod : string -> outcome T) (options : parser_options T).
  Context (deduce : string -> option (list string)) (eval : string -> list D -> D) (to_double : D -> Z).
  Context (visit : list string -> list string) (srt : (string -> string -> bool) -> list string -> list string).
  Context (Hvisit : forall l, Permutation (visit l) l) (Hsrt : sorts srt).
  Context (to_rep : params T -> outcome (rep D)).

  (** The expression, its sub expressions and their variables *)
  Context (expression : string) (es : list string) (names : list (list string)) (Hexpr : sub_expressions deduce expression es names).
  Context (vars : list string) (Hvars : variables_of names vars).
  (** The representations declared *)
  Context (text : string) (ds : list (string * params T)) (Hds : declarations stod options text ds).

  (** [size q] and [decode q] are the number of bits and the decoder of the representation of
      parameters [q]. *)
  Context (size : params T -> nat) (decode : params T -> list bool -> D).
  Definition representable (q : params T) : Prop := exists r, to_rep q = Ok r /\ rep_size r = size q /\ decodes r (decode q).

  (** The objectives, one for each sub expression: the bit vector is made of one piece for each variable, in alphabetical
      order, whose value is the piece decoded by the representation of the variable. *)
  Definition expressed (qs : list (params T)) (absolute : bool) (f : list (rep D) * mparsed) : Prop :=
    total_size (fst f) = fold_right Nat.add 0 (map size qs) /\ length (mp_expressions (snd f)) = length es /\
    forall pieces value,
      Forall2 (fun q piece => length piece = size q) qs pieces ->
      assigns vars (map2 decode qs pieces) value ->
      madapter_evaluate eval (fst f) (snd f) (convert to_double absolute) (concat pieces) (length es) =
        Ok (map2 (fun e ns => let v := to_double (eval e (map value ns)) in if absolute then Z.abs v else v) es names).

  Lemma to_reps_Ok qs : (forall q, In q qs -> representable q) ->
    exists reps, to_reps to_rep qs = Ok reps /\ Forall2 (fun q r => rep_size r = size q /\ decodes r (decode q)) qs reps.
  Proof.
    intros H. assert (G : exists reps, Forall2 (fun q r => to_rep q = Ok r /\ rep_size r = size q /\ decodes r (decode q)) qs reps).
    { induction qs as [|q qs IH]; [exists []; constructor|]. destruct IH as (rs & F); [intros; apply H; now right|]. destruct (H q) as (r & K); [now left|].
      exists (r :: rs). now constructor. }
    destruct G as (reps & F). exists reps. split.
    - unfold to_reps. rewrite (foldM_pushed to_rep qs reps); [reflexivity|]. clear - F. induction F as [|q r qs rs (E & _) F IH]; constructor; auto.
    - clear - F. induction F as [|q r qs rs (_ & E) F IH]; constructor; auto.
  Qed.

  Lemma made (params_of : list string -> outcome (list (params T))) qs absolute :
    params_of vars = Ok qs -> length qs = length vars -> (forall q, In q qs -> representable q) ->
    exists f, madapter_make deduce visit srt params_of to_rep expression = Ok f /\ expressed qs absolute f.
  Proof.
    intros P L R. destruct Hexpr as [C F].
    destruct (mparsed_make_Ok deduce visit srt Hvisit Hsrt expression es names C F) as (vars' & indices & E & V & Lo).
    pose proof (variables_unique names vars' vars V Hvars). subst vars'.
    destruct (to_reps_Ok qs R) as (reps & ER & FR).
    assert (LR : length reps = length qs) by (clear - FR; induction FR; cbn; congruence).
    exists (reps, mk_mparsed es names vars indices). split.
    - unfold madapter_make. rewrite E. cbn [bind mp_ordered]. rewrite P. cbn [bind]. rewrite ER. cbn [bind].
      rewrite LR, L, Nat.eqb_refl. reflexivity.
    - unfold expressed. cbn [fst snd]. split.
      + clear - FR. induction FR as [|q r qs rs [E _] FR IH]; [reflexivity|]. rewrite total_size_cons. cbn [map fold_right]. lia.
      + split; [reflexivity|]. intros pieces value FP A. set (decs := map decode qs).
        assert (HD : Forall2 decodes reps decs) by (clear - FR; unfold decs; induction FR as [|q r qs rs [_ E] FR IH]; cbn; constructor; auto).
        assert (HP : pieces_of reps pieces).
        { clear - FR FP. revert pieces FP. induction FR as [|q r qs rs [E _] FR IH]; intros pieces FP; inversion FP; subst; constructor; [congruence|]. now apply IH. }
        unfold madapter_evaluate. rewrite (pieces_length reps pieces HP), Nat.eqb_refl. cbn [mp_expressions]. rewrite Nat.eqb_refl. cbn [assertb bind].
        pose proof (unpack_vars_Ok reps decs pieces HD HP [] []) as EU. rewrite app_nil_r in EU. cbn [app length] in EU. rewrite EU. cbn [bind].
        assert (ED : decode_all decs pieces = map2 decode qs pieces).
        { clear. unfold decode_all, decs. revert pieces. induction qs as [|q qs IH]; intros [|p ps]; cbn; try reflexivity. f_equal. apply IH. }
        rewrite ED, (mparsed_evaluate_Ok eval es names vars indices (map2 decode qs pieces) value); [|clear - F; induction F; cbn; congruence|exact Lo|exact A].
        cbn [bind]. f_equal. clear. revert names. induction es as [|e es' IH]; intros [|ns names']; cbn [map2 map]; try reflexivity. f_equal; auto.
  Qed.

  (** Variables of one type: each has the last representation declared for it if it is of this
      type, else the default one. *)
  Theorem C120_scalar_functions bv_size t k absolute default :
    (0 < bv_size)%Z -> t = scalar_type k absolute ->
    represents stod options (default_text options k) default -> kind default = of_scalar k ->
    (forall v q, In v vars -> used ds default v q -> representable q) ->
    exists f qs, mo_make stod options deduce visit srt to_rep bv_size t expression text = Ok (f, absolute) /\
      Forall2 (used ds default) vars qs /\ expressed qs absolute f.
  Proof.
    intros Hb Ht Hd Hk Hr. destruct (C108_variables stod options text ds Hds vars k default Hd Hk) as (qs & E & F).
    assert (F' : Forall2 (used ds default) vars qs) by (clear - F; induction F as [|v q vs qs [H _] F IH]; constructor; auto).
    assert (L : length qs = length vars) by (clear - F; induction F; cbn; congruence).
    assert (R : forall q, In q qs -> representable q).
    { clear - F' Hr. induction F' as [|v q vs qs H F IH]; intros q' Hq; destruct Hq; subst; [apply (Hr v); [now left|exact H]|]. apply IH; auto. intros v' q'' Hv. apply Hr. now right. }
    destruct (made (fun names => make_reps stod options k names text) qs absolute E L R) as ([reps p] & M & O).
    exists (reps, p), qs. split; [|split; [exact F'|exact O]]. unfold mo_make. destruct (Z.leb_spec bv_size 0); [lia|]. rewrite Ht, scalar_type_made. rewrite M. reflexivity.
  Qed.

  (** Variables of different types: any declared representation but int, else the default one
      of double. *)
  Theorem C120_mixed_functions bv_size t absolute unused default :
    (0 < bv_size)%Z -> t = mixed_type absolute ->
    represents stod options (default_text options SLong) unused -> represents stod options (default_text options SDouble) default ->
    (forall v q, In v vars -> used_mixed ds default v q -> representable q) ->
    exists f qs, mo_make stod options deduce visit srt to_rep bv_size t expression text = Ok (f, absolute) /\
      Forall2 (used_mixed ds default) vars qs /\ expressed qs absolute f.
  Proof.
    intros Hb Ht Hu Hd Hr. destruct (C108_mixed_variables stod options text ds Hds vars unused default Hu Hd) as (qs & E & F').
    assert (L : length qs = length vars) by (clear - F'; induction F'; cbn; congruence).
    assert (R : forall q, In q qs -> representable q).
    { clear - F' Hr. induction F' as [|v q vs qs H F IH]; intros q' Hq; destruct Hq; subst; [apply (Hr v); [now left|exact H]|]. apply IH; auto. intros v' q'' Hv. apply Hr. now right. }
    destruct (made (fun names => make_mixed_reps stod options names text) qs absolute E L R) as ([reps p] & M & O).
    exists (reps, p), qs. split; [|split; [exact F'|exact O]]. unfold mo_make. destruct (Z.leb_spec bv_size 0); [lia|]. rewrite Ht, mixed_type_made. rewrite M. reflexivity.
  Qed.

  (** A default representation of another type than the one of the function makes it throw an
      exception which is not a std::runtime_error, even if all variables are declared. *)
  Theorem C120_wrong_default bv_size t k absolute default :
    (0 < bv_size)%Z -> t = scalar_type k absolute -> vars <> [] ->
    represents stod options (default_text options k) default -> kind default <> of_scalar k ->
    mo_make stod options deduce visit srt to_rep bv_size t expression text = Throw OtherException.
  Proof.
    intros Hb Ht Hv Hd Hk. unfold mo_make. destruct (Z.leb_spec bv_size 0); [lia|]. rewrite Ht, scalar_type_made. destruct Hexpr as [C F]. unfold madapter_make.
    destruct (mparsed_make_Ok deduce visit srt Hvisit Hsrt expression es names C F) as (vars' & indices & -> & V & _).
    pose proof (variables_unique names vars' vars V Hvars). subst vars'. cbn [bind mp_ordered].
    now rewrite (C108_wrong_default stod options text ds Hds vars k default Hd Hk Hv).
  Qed.
End Made.

(** Refused: a size of bit vectors which is not positive, another type, a sub expression which
    does not parse. *)
Theorem C120_refused {D T} (stod : string -> outcome T) options deduce visit srt (to_rep : params T -> outcome (rep D)) bv_size t expression text :
  ((bv_size <= 0)%Z \/ ~ In t [520; 521; 523; 524; 530; 531; 533; 534]%Z \/ (exists es e, cut "::" expression es /\ In e es /\ deduce e = None)) ->
  mo_make stod options deduce visit srt to_rep bv_size t expression text = Throw RuntimeError.
Proof.
  intros H. unfold mo_make. destruct (Z.leb_spec bv_size 0) as [|Hb]; [reflexivity|].
  destruct (mo_type t) as [[v absolute]|] eqn:E; [|reflexivity]. destruct H as [H|[H|(es & e & C & I & N)]]; [lia| |].
  - exfalso. apply H. clear H. unfold mo_type in E.
    repeat (match type of E with context [match ?x with _ => _ end] => destruct x end; try discriminate E); cbn; tauto.
  - unfold madapter_make. rewrite (mparsed_make_Throw deduce visit srt expression es C) by eauto. reflexivity.
Qed.

(** Integers of an interval are representable: the bits of the number of values, and the lower
    bound plus the number read from the bits, at most the upper bound. *)
Definition integer_size {T} (lg : Z -> nat) (q : params T) : nat :=
  match q with IntRepParams lower upper | LongRepParams lower upper => lg (upper - lower + 1)%Z | _ => 0 end.
Definition integer_decode {T} (q : params T) (p : list bool) : Z :=
  match q with IntRepParams lower upper | LongRepParams lower upper => Z.min upper (lower + Z.of_N (value_lsb p)) | _ => 0%Z end.
Theorem C120_integers {T} w lg (q : params T) lower upper : w <= 64 -> dint_args w lg lower upper ->
  q = IntRepParams lower upper \/ q = LongRepParams lower upper ->
  representable (integer_to_rep w lg) (integer_size lg) integer_decode q.
Proof.
  intros W A Hq. pose proof (dint_full_Ok w lg lower upper A) as E. cbv zeta in E. set (e := lg (upper - lower + 1)%Z) in *.
  set (d := mk_dint e e lower upper) in *.
  assert (OK : dint_ok d) by (destruct A as (A1 & A2 & A3); fold e in A3; unfold dint_ok; cbn; lia).
  exists (dint_rep d). split; [destruct Hq; subst q; cbn [integer_to_rep]; rewrite E; reflexivity|]. split; [destruct Hq; subst q; reflexivity|].
  pose proof (dint_decodes d OK) as [P1 P2]. split; [exact P1|]. intros x start L. rewrite P2 by exact L. f_equal. unfold dint_decode. cbn [d di_size di_exact di_lower di_upper].
  rewrite Nat.sub_diag. cbn [Z.of_nat]. rewrite Z.pow_0_r, Z.mul_1_r. destruct Hq; subst q; reflexivity.
Qed.
Print Assumptions C120_one_objective.
Print Assumptions C120_one_objective_errors.
Print Assumptions C120_objectives.
Print Assumptions C120_errors.
Print Assumptions C120_sizes.
Print Assumptions C120_deterministic.
Print Assumptions C120_scalar_functions.
Print Assumptions C120_mixed_functions.
Print Assumptions C120_wrong_default.
Print Assumptions C120_refused.
Print Assumptions C120_integers.

(** The two objectives y - x and a + x, with integers; the parser gives the variables in the order
    of the text. *)
Definition example_deduce (e : string) : option (list string) :=
  if String.eqb e "y - x" then Some ["y"; "x"] else if String.eqb e " a + x" then Some ["a"; "x"] else None.
Definition example_eval (e : string) (vs : list Z) : Z :=
  match vs with [a; b] => if String.eqb e "y - x" then (a - b)%Z else (a + b)%Z | _ => 0%Z end.
Definition string_insert (lt : string -> string -> bool) : string -> list string -> list string :=
  fix ins x l := match l with [] => [x] | y :: l' => if lt x y then x :: y :: l' else y :: ins x l' end.
Definition string_sort (lt : string -> string -> bool) (l : list string) : list string := fold_right (string_insert lt) [] l.
Lemma string_sort_sorts : sorts string_sort.
Proof.
  intros lt l (I & Tr & N). assert (P : forall x l, Permutation (x :: l) (string_insert lt x l)).
  { intros x m. induction m as [|y m IH]; [reflexivity|]. cbn. destruct (lt x y); [reflexivity|]. rewrite perm_swap. now constructor. }
  assert (S : forall x l, StronglySorted (fun a b => lt b a = false) l -> StronglySorted (fun a b => lt b a = false) (string_insert lt x l)).
  { intros x m Hm. induction Hm as [|y m Hm IH F]; [repeat constructor|]. cbn. destruct (lt x y) eqn:E.
    - constructor; [now constructor|]. assert (Q : lt y x = false) by (destruct (lt y x) eqn:E'; [|reflexivity]; rewrite <- (I x); symmetry; eauto).
      constructor; [exact Q|]. rewrite Forall_forall in *. intros z Hz. apply (N z y x); auto.
    - constructor; [exact IH|]. rewrite Forall_forall in *. intros z Hz. apply (Permutation_in z (Permutation_sym (P x m))) in Hz. destruct Hz as [<-|Hz]; auto. }
  induction l as [|x l [IH1 IH2]]; [split; constructor|]. cbn. split; [|now apply S]. etransitivity; [|apply P]. now constructor.
Qed.
Definition example_lg (n : Z) : nat := Z.to_nat (Z.log2_up n).
Definition example_make (t : Z) (expression text : string) :=
  mo_make example_stod example_options example_deduce (@rev string) string_sort (@integer_to_rep string 32 example_lg) 1 t expression text.
Example C120_case :
  sub_expressions example_deduce "y - x:: a + x" ["y - x"; " a + x"] [["y"; "x"]; ["a"; "x"]] /\
  variables_of [["y"; "x"]; ["a"; "x"]] ["a"; "x"; "y"] /\
  (exists reps p, example_make 533 "y - x:: a + x" "x: int(0, 7); y: int(-2, 1); a: double(0, 1)" = Ok (reps, p, true) /\
  mp_ordered p = ["a"; "x"; "y"] /\ total_size reps = 7 + 3 + 2 /\
  madapter_evaluate example_eval reps p (convert (fun z => z) true)
      [true; true; false; false; false; false; false;  true; false; true;  true; false] 2 = Ok [6; 9]%Z) /\
  example_make 533 "y - x::b" "" = Throw RuntimeError /\
  example_make 500 "y - x" "" = Throw RuntimeError.
Proof.
  split; [|split; [|split; [|split]]].
  - split; [|repeat constructor]. assert (E : split_string 20 "y - x:: a + x" "::" = Some (Ok ["y - x"; " a + x"])) by reflexivity.
    apply split_string_iff in E; [exact E|discriminate|cbn; lia].
  - split.
    + repeat constructor; cbn; lia.
    + intros v. cbn. split.
      * intros [<-|[<-|[<-|[]]]]; [exists ["a"; "x"]|exists ["a"; "x"]|exists ["y"; "x"]]; cbn; auto.
      * intros (l & [<-|[<-|[]]] & H); cbn in H; intuition.
  - destruct (example_make 533 "y - x:: a + x" "x: int(0, 7); y: int(-2, 1); a: double(0, 1)") as [[[reps p] b]|e|] eqn:E.
    + exists reps, p. vm_compute in E. inversion E; subst. repeat split; vm_compute; reflexivity.
    + vm_compute in E. discriminate E.
    + vm_compute in E. discriminate E.
  - vm_compute. reflexivity.
  - vm_compute. reflexivity.
Qed.
Example C120_hypotheses_case : (forall l : list string, Permutation (rev l) l) /\ sorts string_sort /\
  dint_args 32 example_lg 0 7 /\ dint_args 32 example_lg 1 100.
Proof.
  split; [intros l; symmetry; apply Permutation_rev|]. split; [exact string_sort_sorts|]. split; repeat split; vm_compute; congruence || (repeat constructor).
Qed.
