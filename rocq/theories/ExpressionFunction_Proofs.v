(** Proofs about the functions of hnco given by expressions. *)

From Coq Require Import ZArith NArith String Lia.
From Verif Require Import Base BaseLemmas BitVector_Model Parser_Model Parser_Spec Representation_Model Representation_Spec Adapter_Proofs
  ParsedFunction_Model ParsedFunction_Spec Properties_Parser Properties_ParsedFunction Properties_MultiApplication
  Double Controller_Model Controller_Spec Decorator_Model Decorator_Spec ControllerStack_Spec FunctionFactory_Model FunctionFactory_Spec FunctionFactory_Proofs
  Options_Model Options_Spec Options_Proofs CommandLine_Model CommandLine_Spec CommandLine_Proofs ExpressionFunction_Model ExpressionFunction_Spec.
Local Open Scope string_scope.
Local Open Scope list_scope.
Local Open Scope nat_scope.

Lemma objective_computed equation v : objective equation v (if equation then opposite_absolute v else v).
Proof. destruct equation; [|constructor]. destruct v; cbn; constructor; auto. Qed.
Lemma objective_unique equation v a b : objective equation v a -> objective equation v b -> a = b.
Proof. intros A B. inversion A; subst; inversion B; subst; try reflexivity; try congruence; destruct H; discriminate. Qed.

Section Made.
  Context {T : Type} (stod : string -> outcome T) (P : parser T) (po : parser_options T).
  Context (size : params T -> nat) (decode : params T -> list bool -> pa_domain P).
  Context (e : string) (names : list string) (Hn : pa_deduce P e = Some names).

  (** The function made from the representations of the variables *)
  Lemma adapter_made qs equation : length qs = length names -> (forall q, In q qs -> representable (pa_rep P) size decode q) ->
    exists reps, to_reps (pa_rep P) qs = Ok reps /\ length reps = length names /\ total_size reps = fold_right Nat.add 0 (map size qs) /\
      forall pieces r, piecewise size qs pieces -> r = REval (concat pieces) \/ r = RSafe (concat pieces) ->
        expression_adapter P reps (mk_parsed e names) equation tt r =
          (tt, Ok (RValue (if equation then opposite_absolute (pa_double P (pa_eval P e (map2 decode qs pieces)))
                           else pa_double P (pa_eval P e (map2 decode qs pieces))))).
  Proof using Type.
    intros L R. destruct (to_reps_Ok (pa_rep P) size decode qs R) as (reps & ER & FR). exists reps. split; [exact ER|].
    assert (LR : length reps = length qs) by (clear - FR; induction FR; cbn; congruence). split; [congruence|].
    split; [clear - FR; induction FR as [|q r qs rs [E _] FR IH]; [reflexivity|]; rewrite total_size_cons; cbn [map fold_right]; lia|].
    intros pieces r FP Hr. set (decs := map decode qs).
    assert (HD : Forall2 decodes reps decs) by (clear - FR; unfold decs; induction FR as [|q r qs rs [_ E] FR IH]; cbn; constructor; auto).
    assert (HP : pieces_of reps pieces).
    { clear - FR FP. unfold piecewise in FP. revert pieces FP. induction FR as [|q r qs rs [E _] FR IH]; intros pieces FP; inversion FP; subst; constructor; [congruence|]. now apply IH. }
    assert (ED : decode_all decs pieces = map2 decode qs pieces).
    { clear. unfold decode_all, decs. revert pieces. induction qs as [|q qs IH]; intros [|p ps]; cbn; try reflexivity. f_equal. apply IH. }
    pose proof (unpack_vars_Ok reps decs pieces HD HP [] []) as EU. rewrite app_nil_r in EU. cbn [app length] in EU.
    assert (LV : length (map2 decode qs pieces) = length names).
    { rewrite <- L. clear - FP. induction FP; cbn; congruence. }
    assert (A : adapter_evaluate reps (parsed_evaluate (pa_eval P) (mk_parsed e names)) (concat pieces) = Ok (pa_eval P e (map2 decode qs pieces))).
    { unfold adapter_evaluate. rewrite (pieces_length reps pieces HP), Nat.eqb_refl. cbn [assertb bind]. rewrite EU. cbn [bind]. rewrite ED.
      unfold parsed_evaluate. cbn [pf_names pf_expression]. rewrite LV, Nat.leb_refl, <- LV, firstn_all. reflexivity. }
    destruct Hr as [-> | ->]; cbn [expression_adapter]; rewrite A; cbn [bind]; reflexivity.
  Qed.

  Lemma so_made (v : variables) (u : string -> params T -> Prop) (text : string) equation qs :
    match v with Scalars k => make_reps stod po k names text | Mixed => make_mixed_reps stod po names text end = Ok qs ->
    Forall2 u names qs -> (forall x q, In x names -> u x q -> representable (pa_rep P) size decode q) ->
    exists F f, so_make stod P po v equation (Ok e) (Ok text) = Ok F /\
      let n := fold_right Nat.add 0 (map size qs) in
      fp_size (f_props F) = n /\ fp_known (f_props F) = Ok false /\ fp_inc (f_props F) = false /\
      ControllerStack_Spec.total (f_obj F) (f_init F) n f /\ evaluates_expression P size decode e qs equation f.
  Proof.
    intros E FU R. assert (L : length qs = length names) by (clear - FU; induction FU; cbn; congruence).
    assert (R' : forall q, In q qs -> representable (pa_rep P) size decode q).
    { clear - FU R. induction FU as [|x q vs qs H F IH]; intros q' Hq; destruct Hq; subst; [apply (R x); [now left|exact H]|]. apply IH; auto. intros x' q'' Hv. apply R. now right. }
    destruct (adapter_made qs equation L R') as (reps & ER & LR & SR & EV).
    set (F := mk_func unit (expression_adapter P reps (mk_parsed e names) equation) tt (default_props (total_size reps) false)).
    set (f := fun x => match snd (expression_adapter P reps (mk_parsed e names) equation tt (REval x)) with Ok (RValue w) => w | _ => DNaN end).
    exists F, f. split.
    { unfold so_make. cbn [bind]. unfold parsed_make. rewrite Hn. cbn [bind pf_names]. rewrite E. cbn [bind]. rewrite ER. cbn [bind]. rewrite LR, Nat.eqb_refl. reflexivity. }
    cbv zeta. cbn [f_props F default_props fp_size fp_known fp_inc f_obj f_init f_state]. split; [exact SR|]. split; [reflexivity|]. split; [reflexivity|].
    assert (V : forall pieces, piecewise size qs pieces -> f (concat pieces) =
      if equation then opposite_absolute (pa_double P (pa_eval P e (map2 decode qs pieces))) else pa_double P (pa_eval P e (map2 decode qs pieces))).
    { intros pieces FP. unfold f. rewrite (EV pieces (REval (concat pieces)) FP (or_introl eq_refl)). reflexivity. }
    split.
    - assert (C : computes F f).
      { intros s q x Hq Lx. destruct s. cbn [F f_props default_props fp_size] in Lx. rewrite SR in Lx. destruct (split_sizes size qs x Lx) as (ps & FP & <-).
        cbn [F f_obj]. rewrite (EV ps q FP Hq). cbn [snd]. now rewrite (V ps FP). }
      pose proof (total_const F f C) as X. cbn [F f_props default_props fp_size f_obj f_init f_state] in X. now rewrite SR in X.
    - intros pieces FP. rewrite (V pieces FP). apply objective_computed.
  Qed.
End Made.

(** * The options *)

Section Options.
  Context {T : Type} (X : expression_surroundings T) (st : options) (items : list item) (F : facts st items).

  Lemma given_text_said name : existsb (fun p => String.eqb (p_name p) name && match p_type p with TText => true | _ => false end) documented = true ->
    asked items name = true -> text_from st (underscored name) = text_of items name.
  Proof using F.
    intros H A. apply exists_named in H as (p & D & N & H). assert (Ty : p_type p = TText) by (destruct (p_type p); congruence).
    unfold text_from. rewrite (value_said st items name p (VText (text_of items name))); auto; rewrite Ty; [discriminate|constructor].
  Qed.
  Lemma given_int_said name z : existsb (fun p => String.eqb (p_name p) name && match p_type p with TInt => true | _ => false end) documented = true ->
    asked items name = true -> int_is items name z -> int_of st (underscored name) = z.
  Proof using F.
    intros H A W. apply exists_named in H as (p & D & N & H). assert (Ty : p_type p = TInt) by (destruct (p_type p); congruence).
    unfold int_of. rewrite (value_said st items name p (VInt z)); auto; rewrite Ty; [discriminate|exact W].
  Qed.

  Lemma expression_said text : expression_says items (xs_file X) text -> get_expression X st = Ok text.
  Proof using F.
    unfold expression_says, get_expression, read_file_content. rewrite (flag_said st items "fp-expression" F eq_refl : flag_of st "fp_expression" = _).
    destruct (asked items "fp-expression") eqn:A.
    - intros ->. now rewrite (given_text_said "fp-expression" eq_refl A : text_from st "fp_expression" = _).
    - rewrite (text_said st items "path" F eq_refl : text_from st "path" = _). now intros ->.
  Qed.
  Lemma representations_said text : representations_say items (xs_file X) text -> get_representations X st = Ok text.
  Proof using F.
    unfold representations_say, get_representations, read_file_content. rewrite (flag_said st items "fp-representations" F eq_refl : flag_of st "fp_representations" = _).
    destruct (asked items "fp-representations") eqn:A.
    - intros ->. now rewrite (given_text_said "fp-representations" eq_refl A : text_from st "fp_representations" = _).
    - rewrite (text_said st items "fp-representations-path" F eq_refl : text_from st "fp_representations_path" = _). now intros ->.
  Qed.
  Lemma missing_said : missing_file items (xs_file X) -> get_expression X st = Throw RuntimeError \/ get_representations X st = Throw RuntimeError.
  Proof using F.
    intros [[A H]|[A H]]; [left; unfold get_expression|right; unfold get_representations]; unfold read_file_content.
    - rewrite (flag_said st items "fp-expression" F eq_refl : flag_of st "fp_expression" = _), A, (text_said st items "path" F eq_refl : text_from st "path" = _). now rewrite H.
    - rewrite (flag_said st items "fp-representations" F eq_refl : flag_of st "fp_representations" = _), A,
        (text_said st items "fp-representations-path" F eq_refl : text_from st "fp_representations_path" = _). now rewrite H.
  Qed.
  Lemma parser_said po : parser_says items (xs_number X) po -> parser_settings X st = po.
  Proof using F.
    destruct po as [a b i l d]. unfold parser_says. cbn [po_precision po_size po_default_int po_default_long po_default_double]. intros (-> & H & -> & -> & ->). unfold parser_settings.
    rewrite (flag_said st items "fp-default-double-precision" F eq_refl : flag_of st "fp_default_double_precision" = _),
      (flag_said st items "fp-default-double-size" F eq_refl : flag_of st "fp_default_double_size" = _),
      (text_said st items "fp-default-int-rep" F eq_refl : text_from st "fp_default_int_rep" = _),
      (text_said st items "fp-default-long-rep" F eq_refl : text_from st "fp_default_long_rep" = _),
      (text_said st items "fp-default-double-rep" F eq_refl : text_from st "fp_default_double_rep" = _).
    f_equal.
    - destruct (asked items "fp-default-double-precision") eqn:A; [|reflexivity].
      now rewrite (real_said st items "fp-default-double-precision" F eq_refl (or_introl A) : real_from st "fp_default_double_precision" = _).
    - destruct (asked items "fp-default-double-size") eqn:A; [|congruence]. destruct H as (z & H & ->).
      now rewrite (given_int_said "fp-default-double-size" z eq_refl A H : int_of st "fp_default_double_size" = _).
  Qed.
End Options.

Lemma expression_type_made k equation : so_type (expression_type k equation) = Some (Scalars k, equation).
Proof. now destruct k, equation. Qed.
Lemma mixed_expression_type_made equation : so_type (mixed_expression_type equation) = Some (Mixed, equation).
Proof. now destruct equation. Qed.

(** The factory with these functions *)
Lemma made_by_expression {T} (X : expression_surroundings T) st fo v equation :
  so_type (fn_type fo) = Some (v, equation) -> (0 < fn_bv_size fo)%Z -> fn_other fo = expression_function X st ->
  FunctionFactory_Model.make_function fo = so_make (xs_stod X) (parser_for X v) (parser_settings X st) v equation (get_expression X st) (get_representations X st).
Proof.
  intros H B O. unfold FunctionFactory_Model.make_function. destruct (Z.leb_spec (fn_bv_size fo) 0); [lia|].
  assert (G : forall o, match fn_other fo (fn_type fo) with Some F => F | None => Throw RuntimeError end = o ->
    so_make (xs_stod X) (parser_for X v) (parser_settings X st) v equation (get_expression X st) (get_representations X st) = o).
  { intros o <-. rewrite O. unfold expression_function. now rewrite H. }
  assert (C : In (fn_type fo) [500; 501; 503; 504; 510; 511; 513; 514]%Z).
  { clear - H. unfold so_type in H. repeat (match type of H with context [match ?x with _ => _ end] => destruct x end; try discriminate H); cbn; tauto. }
  symmetry. cbn [In] in C. destruct C as [C|[C|[C|[C|[C|[C|[C|[C|[]]]]]]]]]; rewrite <- C in *; apply G; reflexivity.
Qed.
