(** Proofs about the functions of hnco over complex numbers. *)

From Coq Require Import ZArith NArith String Permutation Lia.
From Verif Require Import Base BaseLemmas BitVector_Model Parser_Model Parser_Spec Parser_Proofs ParserReps_Proofs Representation_Model Representation_Spec Representation_Proofs Adapter_Proofs
  ParsedFunction_Model ParsedFunction_Spec ParsedFunction_Proofs Properties_Parser Properties_ParsedFunction Properties_MultiApplication
  Double Rounding_Model Rounding_Spec Rounding_Proofs Controller_Model Controller_Spec Decorator_Model Decorator_Spec ControllerStack_Spec FunctionFactory_Model FunctionFactory_Spec FunctionFactory_Proofs
  Options_Model Options_Spec Options_Proofs CommandLine_Model CommandLine_Spec CommandLine_Proofs ExpressionFunction_Model ExpressionFunction_Spec ExpressionFunction_Proofs
  SystemFunction_Spec SystemFunction_Proofs ComplexFunction_Model ComplexFunction_Spec.
Local Open Scope string_scope.
Local Open Scope list_scope.
Local Open Scope nat_scope.

(** * Pieces *)

Lemma split_parts {T} (size : params T -> nat) (qs : list (params T * params T)) x : length x = complex_size size qs ->
  exists pieces, complex_pieces size qs pieces /\ joined pieces = x.
Proof.
  intros L. destruct (split_sizes (fun q => size (fst q) + size (snd q)) qs x L) as (ps & F & <-).
  exists (map2 (fun q p => (firstn (size (fst q)) p, skipn (size (fst q)) p)) qs ps). split.
  - induction F as [|q p qs ps H F IH]; cbn [map2]; constructor; [|apply IH; cbn in L; rewrite app_length, H in L; unfold complex_size; lia]. cbn [fst snd]. rewrite firstn_length, skipn_length. lia.
  - clear L. unfold joined. induction F as [|q p qs ps H F IH]; [reflexivity|]. cbn [map2 map concat fst snd]. now rewrite firstn_skipn, IH.
Qed.
Lemma joined_length {T} (size : params T -> nat) qs pieces : complex_pieces size qs pieces -> length (joined pieces) = complex_size size qs.
Proof.
  intros H. unfold joined, complex_size. induction H as [|q p qs ps [H1 H2] _ IH]; [reflexivity|]. cbn [map concat fold_right]. rewrite !app_length, IH. lia.
Qed.

Section Made.
  Context {T : Type} (stod : string -> outcome T) (P : complex_parser T) (po : parser_options T).
  Context (visit : list string -> list string) (srt : (string -> string -> bool) -> list string -> list string).
  Context (Hvisit : forall l, Permutation (visit l) l) (Hsrt : sorts srt).
  Context (size : params T -> nat) (decode : params T -> list bool -> cp_domain P).

  Let cdecode (q : params T * params T) (p : list bool) : cp_domain P * cp_domain P := (decode (fst q) (firstn (size (fst q)) p), decode (snd q) (skipn (size (fst q)) p)).

  Lemma to_complex_reps qs : (forall q, In q qs -> representable (cp_rep P) size decode (fst q) /\ representable (cp_rep P) size decode (snd q)) ->
    exists reps, to_reps (complex_to_rep P) qs = Ok reps /\ length reps = length qs /\ total_size reps = complex_size size qs /\
      forall pieces, complex_pieces size qs pieces -> length (joined pieces) = total_size reps /\
        exists k, unpack_vars reps (joined pieces) 0 = Ok (complex_values P decode qs pieces, k).
  Proof using Type.
    intros H.
    assert (G : exists reps, Forall2 (fun q r => complex_to_rep P q = Ok r /\ rep_size r = size (fst q) + size (snd q) /\ decodes r (cdecode q)) qs reps).
    { induction qs as [|q qs IH]; [exists []; constructor|]. destruct IH as (rs & F); [intros; apply H; now right|].
      destruct (H q (or_introl eq_refl)) as [(a & A1 & A2 & A3) (b & B1 & B2 & B3)]. exists (complex_rep a b :: rs). constructor; [|exact F].
      unfold complex_to_rep. rewrite A1. cbn [bind]. rewrite B1. cbn [bind]. split; [reflexivity|]. split; [cbn [complex_rep rep_size]; congruence|].
      pose proof (complex_decodes a b _ _ A3 B3) as D. rewrite A2 in D. exact D. }
    destruct G as (reps & F). exists reps.
    assert (LR : length reps = length qs) by (clear - F; induction F; cbn; congruence).
    assert (TR : total_size reps = complex_size size qs).
    { unfold complex_size. clear - F. induction F as [|q r qs rs (_ & E & _) F IH]; [reflexivity|]. rewrite total_size_cons. cbn [map fold_right]. lia. }
    split; [|split; [exact LR|split; [exact TR|]]].
    - unfold to_reps. rewrite (foldM_pushed (complex_to_rep P) qs reps); [reflexivity|]. clear - F. induction F as [|q r qs rs (E & _) F IH]; constructor; auto.
    - intros pieces FP. split; [rewrite TR; now apply joined_length|]. set (decs := map cdecode qs). set (ps := map (fun p : list bool * list bool => fst p ++ snd p) pieces).
      assert (HD : Forall2 decodes reps decs) by (clear - F; unfold decs; induction F as [|q r qs rs (_ & _ & E) F IH]; cbn; constructor; auto).
      assert (HP : pieces_of reps ps).
      { unfold ps. clear - F FP. unfold complex_pieces in FP. revert pieces FP. induction F as [|q r qs rs (_ & E & _) F IH]; intros pieces FP; inversion FP; subst; constructor; [rewrite app_length; lia|]. now apply IH. }
      pose proof (unpack_vars_Ok reps decs ps HD HP [] []) as EU. rewrite app_nil_r in EU. cbn [app length] in EU. unfold joined. fold ps. rewrite EU. eexists. f_equal. f_equal.
      unfold decs, ps, decode_all, complex_values. clear - FP. induction FP as [|q p qs ps [H1 H2] FP IH]; [reflexivity|]. cbn [map map2 combine]. f_equal; [|exact IH].
      unfold cdecode. rewrite <- H1. cbn [fst snd]. now rewrite firstn_app, Nat.sub_diag, firstn_all, firstn_O, app_nil_r, skipn_app, Nat.sub_diag, skipn_all.
  Qed.

  (** Functions which compute *)
  Lemma computing (obj : fobj unit) qs reps mag several opposite :
    total_size reps = complex_size size qs ->
    (forall pieces, complex_pieces size qs pieces -> exists ms, mag pieces ms) ->
    (forall pieces ms q, complex_pieces size qs pieces -> mag pieces ms -> q = REval (joined pieces) \/ q = RSafe (joined pieces) ->
      exists s, snd (obj tt q) = Ok (RValue s) /\ goal several opposite ms s) ->
    (forall x, snd (obj tt (RSafe x)) = snd (obj tt (REval x))) ->
    let F := mk_func unit obj tt (default_props (@total_size (cp_domain P * cp_domain P) reps) false) in
    exists f, complex_made size qs mag several opposite F f.
  Proof using Type.
    intros TR EX A SE F. set (f := fun x => match snd (obj tt (REval x)) with Ok (RValue w) => w | _ => DNaN end). exists f.
    unfold complex_made. cbv zeta. cbn [f_props F default_props fp_size fp_known fp_inc f_obj f_init f_state]. split; [exact TR|]. split; [reflexivity|]. split; [reflexivity|]. split; [|split; [exact EX|]].
    - assert (CM : computes F f).
      { intros s q x Hq Lx. destruct s. cbn [F f_props default_props fp_size] in Lx. rewrite TR in Lx. destruct (split_parts size qs x Lx) as (ps & FP & <-).
        destruct (EX ps FP) as (ms & Hm). destruct (A ps ms (REval (joined ps)) FP Hm (or_introl eq_refl)) as (s & E & _).
        assert (Ef : f (joined ps) = s) by (unfold f; now rewrite E). rewrite Ef. destruct Hq as [-> | ->]; [exact E|]. etransitivity; [apply SE|exact E]. }
      pose proof (total_const F f CM) as Y. cbn [F f_props default_props fp_size f_obj f_init f_state] in Y. now rewrite TR in Y.
    - intros ps ms FP Hm. destruct (A ps ms (REval (joined ps)) FP Hm (or_introl eq_refl)) as (s & E & G). unfold f. now rewrite E.
  Qed.

  Lemma values_length qs pieces : complex_pieces size qs pieces -> length (complex_values P decode qs pieces) = length qs.
  Proof using Type. intros H. unfold complex_values. induction H; cbn; congruence. Qed.

  (** One expression *)
  Lemma complex_one e names text opposite (u : string -> params T * params T -> Prop) qs : cp_deduce P e = Some names ->
    make_complex_reps stod po SDouble names text = Ok qs -> Forall2 u names qs ->
    (forall x q, In x names -> u x q -> representable (cp_rep P) size decode (fst q) /\ representable (cp_rep P) size decode (snd q)) ->
    exists F f, complex_make stod P po visit srt false opposite (Ok e) (Ok text) = Ok F /\
      complex_made size qs (magnitude_of P decode e qs) false opposite F f.
  Proof using Type.
    intros D MR FU R. assert (L : length qs = length names) by (clear - FU; induction FU; cbn; congruence).
    assert (R' : forall q, In q qs -> representable (cp_rep P) size decode (fst q) /\ representable (cp_rep P) size decode (snd q)).
    { clear - FU R. induction FU as [|x q vs qs H F IH]; intros q' Hq; destruct Hq; subst; [apply (R x); [now left|exact H]|]. apply IH; auto. intros x' q'' Hv. apply R. now right. }
    destruct (to_complex_reps qs R') as (reps & ER & LR & TR & EV).
    destruct (computing (complex_adapter P reps (mk_parsed e names) opposite) qs reps (magnitude_of P decode e qs) false opposite TR) as (f & H).
    - intros pieces _. eexists. reflexivity.
    - intros pieces ms q FP -> Hq. destruct (EV pieces FP) as (EL & k & EU). eexists. split; [|reflexivity].
      assert (A : adapter_evaluate reps (parsed_evaluate (cp_eval P) (mk_parsed e names)) (joined pieces) = Ok (cp_eval P e (complex_values P decode qs pieces))).
      { unfold adapter_evaluate. rewrite EL, Nat.eqb_refl. cbn [assertb bind]. rewrite EU. cbn [bind]. unfold parsed_evaluate. cbn [pf_names pf_expression].
        pose proof (values_length qs pieces FP) as LV. rewrite L in LV. now rewrite LV, Nat.leb_refl, <- LV, firstn_all. }
      destruct Hq as [-> | ->]; cbn [complex_adapter snd]; rewrite A; reflexivity.
    - reflexivity.
    - eexists. exists f. split; [|exact H]. unfold complex_make. cbn [bind]. unfold parsed_make. rewrite D. cbn [bind pf_names]. rewrite MR. cbn [bind]. rewrite ER. cbn [bind].
      now rewrite LR, L, Nat.eqb_refl.
  Qed.

  (** Several expressions *)
  Lemma complex_several expression es names vars text opposite (u : string -> params T * params T -> Prop) qs : sub_expressions (cp_deduce P) expression es names -> variables_of names vars ->
    make_complex_reps stod po SDouble vars text = Ok qs -> Forall2 u vars qs ->
    (forall x q, In x vars -> u x q -> representable (cp_rep P) size decode (fst q) /\ representable (cp_rep P) size decode (snd q)) ->
    exists F f, complex_make stod P po visit srt true opposite (Ok expression) (Ok text) = Ok F /\
      complex_made size qs (magnitudes_of P decode es names vars qs) true opposite F f.
  Proof using Hvisit Hsrt.
    intros [C F0] VO MR FU R. assert (L : length qs = length vars) by (clear - FU; induction FU; cbn; congruence).
    assert (R' : forall q, In q qs -> representable (cp_rep P) size decode (fst q) /\ representable (cp_rep P) size decode (snd q)).
    { clear - FU R. induction FU as [|x q vs qs H F IH]; intros q' Hq; destruct Hq; subst; [apply (R x); [now left|exact H]|]. apply IH; auto. intros x' q'' Hv. apply R. now right. }
    destruct (mparsed_make_Ok (cp_deduce P) visit srt Hvisit Hsrt expression es names C F0) as (vars' & indices & EM & VV & Lo).
    pose proof (variables_unique names vars' vars VV VO). subst vars'.
    destruct (to_complex_reps qs R') as (reps & ER & LR & TR & EV). set (p := mk_mparsed es names vars indices).
    destruct (computing (complex_sum_adapter P reps p opposite) qs reps (magnitudes_of P decode es names vars qs) true opposite TR) as (f & H).
    - intros pieces FP. destruct (assigns_exists (cp_eval P EmptyString []) vars (sorted_NoDup vars (proj1 VO)) (complex_values P decode qs pieces)) as (v & A); [rewrite (values_length qs pieces FP); exact L|].
      eexists. exists v. split; [exact A|reflexivity].
    - intros pieces ms q FP (value & A & ->) Hq. destruct (EV pieces FP) as (EL & k & EU).
      exists (fold_left fadd (map (magnitude P opposite) (map2 (fun e ns => cp_eval P e (map value ns)) es names)) (DFin 0)). split.
      + destruct Hq as [-> | ->]; cbn [complex_sum_adapter snd]; rewrite EL, Nat.eqb_refl; cbn [assertb bind]; rewrite EU; cbn [bind]; unfold p; cbn [mp_expressions];
          (rewrite (mparsed_evaluate_Ok (cp_eval P) es names vars indices _ value); [reflexivity|clear - F0; induction F0; cbn; congruence|exact Lo|exact A]).
      + unfold goal. cbv zeta. apply adds_up_fold. f_equal. clear. revert names. induction es as [|e es' IH]; intros [|ns names']; cbn [map2 map]; try reflexivity. f_equal; auto.
    - reflexivity.
    - eexists. exists f. split; [|exact H]. unfold complex_make. cbn [bind]. unfold madapter_make. rewrite EM. cbn [bind mp_ordered]. rewrite MR. cbn [bind]. rewrite ER. cbn [bind].
      now rewrite LR, L, Nat.eqb_refl.
  Qed.
End Made.

(** * The goal *)

Lemma goal_unique several equations ms a b : goal several equations ms a -> goal several equations ms b -> a = b.
Proof. unfold goal. cbv zeta. destruct several; [rewrite !adds_up_fold|]; congruence. Qed.

(** Squared magnitudes are not negative: the goal of equations is at most 0, and 0 if and only if
    all magnitudes are. *)
Lemma goal_equations several ms s : Forall (fun m => dle (DFin 0) m = true) ms -> goal several true ms s ->
  is_nan s = false /\ dle s (DFin 0) = true /\ (s = DFin 0 <-> Forall (fun m => m = DFin 0) ms).
Proof.
  intros NN G. set (os := map fopp ms).
  assert (NP : Forall (fun o => dle o (DFin 0) = true) os).
  { unfold os. clear G. induction NN as [|m ms H NN IH]; constructor; auto. destruct m; cbn in *; try discriminate; [|reflexivity]. apply Z.leb_le in H. apply Z.leb_le. lia. }
  assert (ZZ : Forall (fun o => o = DFin 0) os <-> Forall (fun m => m = DFin 0) ms).
  { unfold os. clear. induction ms as [|m ms IH]; cbn [map]; [split; constructor|]. split; intros H; inversion H; subst; constructor; try (now apply IH); [|reflexivity].
    destruct m; cbn in *; try discriminate. f_equal. injection H2. lia. }
  assert (N0 : dle s (DFin 0) = true /\ (s = DFin 0 <-> Forall (fun o => o = DFin 0) os)).
  { unfold goal in G. cbv zeta in G. destruct several.
    - apply adds_up_fold in G. change (fold_left fadd os (DFin 0) = s) in G. destruct (sum_zero os NP (DFin 0) eq_refl) as [H1 H2]. rewrite G in H1, H2. split; [exact H1|]. split; [intros E; now apply H2|]. intros E. rewrite <- G. now apply zero_sum.
    - change (os = [s]) in G. rewrite G in NP |- *. inversion NP; subst. split; [assumption|]. split; [intros ->; now repeat constructor|intros H'; now inversion H']. }
  destruct N0 as [N1 N2]. split; [destruct s; [discriminate| | |]; reflexivity|]. split; [exact N1|]. now rewrite N2.
Qed.
Lemma goal_exists several equations ms : (several = false -> length ms = 1) -> exists s, goal several equations ms s.
Proof.
  intros H. destruct several; [eexists; apply adds_up_fold; reflexivity|]. specialize (H eq_refl). destruct ms as [|m [|]]; try discriminate. eexists. reflexivity.
Qed.

Lemma complex_type_made several equations : complex_type (complex_type_of several equations) = Some (several, equations).
Proof. now destruct several, equations. Qed.

Lemma made_by_complex {T} (X : expression_surroundings T) P visit srt st fo several equations :
  fn_type fo = complex_type_of several equations -> (0 < fn_bv_size fo)%Z -> fn_other fo = expression_function (with_complex X P visit srt) st ->
  FunctionFactory_Model.make_function fo =
    complex_make (xs_stod X) P (parser_settings X st) visit srt several equations (get_expression X st) (get_representations X st).
Proof.
  intros H B O. unfold FunctionFactory_Model.make_function. destruct (Z.leb_spec (fn_bv_size fo) 0); [lia|].
  assert (G : forall o, match fn_other fo (fn_type fo) with Some F => F | None => Throw RuntimeError end = o ->
    complex_make (xs_stod X) P (parser_settings X st) visit srt several equations (get_expression X st) (get_representations X st) = o).
  { intros o <-. rewrite O, H. unfold expression_function.
    assert (SN : so_type (complex_type_of several equations) = None) by now destruct several, equations.
    rewrite SN. cbn [xs_other with_complex]. unfold complex_function. now rewrite complex_type_made. }
  symmetry. rewrite H in *. destruct several, equations; apply G; reflexivity.
Qed.

(** A default representation of another type *)
Lemma complex_wrong_default {T} stod (po : parser_options T) names text ds default : declarations stod po text ds ->
  represents stod po (Parser_Spec.default_text po SDouble) default -> kind default <> of_scalar SDouble -> names <> [] ->
  make_complex_reps stod po SDouble names text = Throw OtherException.
Proof.
  intros Hds Ed%default_represents K N. destruct (parse_representations_complete stod po text ds Hds) as (e & E & H).
  rewrite (make_complex_reps_eq stod po SDouble names text e default E Ed). destruct (Nat.eqb_spec (kind default) (of_scalar SDouble)); [contradiction|]. now destruct names.
Qed.
