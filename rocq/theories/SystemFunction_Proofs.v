(** Proofs about the functions of hnco which are sums of expressions. *)

From Coq Require Import ZArith NArith String Permutation Lia.
From Verif Require Import Base BaseLemmas BitVector_Model Parser_Model Parser_Spec Representation_Model Representation_Spec Adapter_Proofs
  ParsedFunction_Model ParsedFunction_Spec ParsedFunction_Proofs Properties_Parser Properties_ParsedFunction Properties_MultiApplication
  Double Rounding_Model Rounding_Spec Rounding_Proofs Controller_Model Controller_Spec Decorator_Model Decorator_Spec ControllerStack_Spec FunctionFactory_Model FunctionFactory_Spec FunctionFactory_Proofs
  Options_Model Options_Spec Options_Proofs CommandLine_Model CommandLine_Spec CommandLine_Proofs ExpressionFunction_Model ExpressionFunction_Spec ExpressionFunction_Proofs
  SystemFunction_Model SystemFunction_Spec.
Local Open Scope string_scope.
Local Open Scope list_scope.
Local Open Scope nat_scope.

(** * Sums *)

Lemma adds_up_fold vs : forall a s, adds_up a vs s <-> fold_left fadd vs a = s.
Proof.
  induction vs as [|v vs IH]; intros a s; cbn [fold_left].
  - split; [intros H; now inversion H|intros <-; constructor].
  - rewrite <- IH. split; [intros H; now inversion H|now constructor].
Qed.

Lemma fadd_nonpositive a o : dle a (DFin 0) = true -> dle o (DFin 0) = true ->
  dle (fadd a o) (DFin 0) = true /\ (fadd a o = DFin 0 -> a = DFin 0 /\ o = DFin 0).
Proof.
  intros A O. destruct a as [| |x|], o as [| |y|]; cbn in A, O; try discriminate; try (split; [reflexivity|discriminate]).
  apply Z.leb_le in A. apply Z.leb_le in O. cbn [fadd].
  assert (Fm : format (-1)) by (exists (-1)%Z, 0%Z; lia). assert (F0 : format 0) by (exists 0%Z, 0%Z; lia).
  pose proof huge_pos as HP. assert (H1 : (Z.abs (-1) < huge)%Z) by (unfold huge; change (Z.abs (-1)) with (2 ^ 0)%Z; apply Z.pow_lt_mono_r; lia).
  split.
  - rewrite <- (rounded_format 0 F0); [|cbn; lia]. apply rounded_monotone. lia.
  - intros E. destruct (Z.eq_dec (x + y) 0) as [Z0|NZ].
    + assert (x = 0%Z) as -> by lia. assert (y = 0%Z) as -> by lia. now split.
    + exfalso. assert (L : (x + y <= -1)%Z) by lia. apply rounded_monotone in L. rewrite E, (rounded_format (-1) Fm H1) in L. discriminate.
Qed.

(** A sum of numbers which are not positive is 0 if and only if they all are. *)
Lemma sum_zero os : Forall (fun o => dle o (DFin 0) = true) os -> forall a, dle a (DFin 0) = true ->
  dle (fold_left fadd os a) (DFin 0) = true /\ (fold_left fadd os a = DFin 0 -> a = DFin 0 /\ Forall (fun o => o = DFin 0) os).
Proof.
  intros H. induction H as [|o os Ho _ IH]; intros a A; cbn [fold_left]; [split; [exact A|intros ->; now split]|].
  destruct (fadd_nonpositive a o A Ho) as [N Z0]. destruct (IH _ N) as [I1 I2]. split; [exact I1|]. intros E. destruct (I2 E) as [I3 I4]. destruct (Z0 I3) as [-> ->]. split; auto.
Qed.
Lemma zero_sum os : Forall (fun o => o = DFin 0) os -> fold_left fadd os (DFin 0) = DFin 0.
Proof. intros H. induction H as [|o os -> _ IH]; [reflexivity|]. cbn [fold_left]. exact IH. Qed.

Lemma sum_computed equations vs : sum_of_objectives equations vs (fold_left fadd (map (fun v => if equations then opposite_absolute v else v) vs) (DFin 0)).
Proof.
  eexists. split; [|apply adds_up_fold; reflexivity]. induction vs as [|v vs IH]; cbn [map]; constructor; [apply objective_computed|exact IH].
Qed.
Lemma sum_unique equations vs a b : sum_of_objectives equations vs a -> sum_of_objectives equations vs b -> a = b.
Proof.
  intros (os & F & H) (os' & F' & H'). assert (os = os') as <-.
  { clear - F F'. revert os' F'. induction F as [|v o vs os Ho F IH]; intros os' F'; inversion F'; subst; [reflexivity|]. f_equal; [|now apply IH]. eapply objective_unique; eauto. }
  apply adds_up_fold in H, H'. congruence.
Qed.

(** For equations: the sum is at most 0, and 0 if and only if all are satisfied. *)
Lemma equations_sum vs s : Forall (fun v => is_nan v = false) vs -> sum_of_objectives true vs s ->
  is_nan s = false /\ dle s (DFin 0) = true /\ (s = DFin 0 <-> Forall (fun v => v = DFin 0) vs).
Proof.
  intros NN (os & F & H). apply adds_up_fold in H.
  assert (NP : Forall (fun o => dle o (DFin 0) = true) os).
  { clear H. induction F as [|v o vs os Ho F IH]; constructor; inversion NN; subst; auto. inversion Ho; subst; cbn in *; try discriminate; [apply Z.leb_le; lia|reflexivity]. }
  destruct (sum_zero os NP (DFin 0) eq_refl) as [H1 H2]. rewrite H in H1, H2. split; [destruct s; [discriminate| | |]; reflexivity|]. split; [exact H1|]. split.
  - intros E. destruct (H2 E) as [_ Z0]. clear - F Z0. induction F as [|v o vs os Ho F IH]; constructor; inversion Z0; subst; auto.
    inversion Ho as [ |z E1 E2 E3| |]; subst. f_equal. lia.
  - intros Z0. rewrite <- H. apply zero_sum. clear - F Z0. induction F as [|v o vs os Ho F IH]; constructor; inversion Z0; subst; auto. inversion Ho; subst; [reflexivity|destruct H; discriminate].
Qed.

(** * Functions *)

Section Made.
  Context {T : Type} (stod : string -> outcome T) (P : parser T) (po : parser_options T).
  Context (visit : list string -> list string) (srt : (string -> string -> bool) -> list string -> list string).
  Context (Hvisit : forall l, Permutation (visit l) l) (Hsrt : sorts srt).
  Context (size : params T -> nat) (decode : params T -> list bool -> pa_domain P).
  Context (expression : string) (es : list string) (names : list (list string)) (Hexpr : sub_expressions (pa_deduce P) expression es names).
  Context (vars : list string) (Hvars : variables_of names vars).

  Lemma system_makes (v : variables) (u : string -> params T -> Prop) (text : string) equations qs :
    match v with Scalars k => make_reps stod po k vars text | Mixed => make_mixed_reps stod po vars text end = Ok qs ->
    Forall2 u vars qs -> (forall x q, In x vars -> u x q -> representable (pa_rep P) size decode q) ->
    exists F f, system_make stod P po visit srt v equations (Ok expression) (Ok text) = Ok F /\ system_made P size decode es names vars qs equations F f.
  Proof using Hvisit Hsrt Hexpr Hvars.
    intros E FU R. assert (L : length qs = length vars) by (clear - FU; induction FU; cbn; congruence).
    assert (R' : forall q, In q qs -> representable (pa_rep P) size decode q).
    { clear - FU R. induction FU as [|x q vs qs H F IH]; intros q' Hq; destruct Hq; subst; [apply (R x); [now left|exact H]|]. apply IH; auto. intros x' q'' Hv. apply R. now right. }
    destruct Hexpr as [C F0].
    destruct (mparsed_make_Ok (pa_deduce P) visit srt Hvisit Hsrt expression es names C F0) as (vars' & indices & EM & VV & Lo).
    pose proof (variables_unique names vars' vars VV Hvars). subst vars'.
    destruct (to_reps_Ok (pa_rep P) size decode qs R') as (reps & ER & FR).
    assert (LR : length reps = length qs) by (clear - FR; induction FR; cbn; congruence).
    set (p := mk_mparsed es names vars indices).
    set (F := mk_func unit (system_adapter P reps p equations) tt (default_props (total_size reps) false)).
    set (f := fun x => match snd (system_adapter P reps p equations tt (REval x)) with Ok (RValue w) => w | _ => DNaN end).
    assert (SR : total_size reps = fold_right Nat.add 0 (map size qs)).
    { clear - FR. induction FR as [|q r qs rs [E _] FR IH]; [reflexivity|]. rewrite total_size_cons. cbn [map fold_right]. lia. }
    assert (EV : forall pieces value, read_from size decode vars qs pieces value ->
      system_values P reps p equations (concat pieces) = Ok (map (fun w => if equations then opposite_absolute w else w) (expression_values P es names value))).
    { intros pieces value [FP A]. set (decs := map decode qs).
      assert (HD : Forall2 decodes reps decs) by (clear - FR; unfold decs; induction FR as [|q r qs rs [_ E] FR IH]; cbn; constructor; auto).
      assert (HP : pieces_of reps pieces).
      { clear - FR FP. revert pieces FP. induction FR as [|q r qs rs [E _] FR IH]; intros pieces FP; inversion FP; subst; constructor; [congruence|]. now apply IH. }
      unfold system_values. rewrite (pieces_length reps pieces HP), Nat.eqb_refl. cbn [assertb bind].
      pose proof (unpack_vars_Ok reps decs pieces HD HP [] []) as EU. rewrite app_nil_r in EU. cbn [app length] in EU. rewrite EU. cbn [bind].
      assert (ED : decode_all decs pieces = map2 decode qs pieces).
      { clear. unfold decode_all, decs. revert pieces. induction qs as [|q qs IH]; intros [|p ps]; cbn; try reflexivity. f_equal. apply IH. }
      unfold p. cbn [mp_expressions].
      rewrite ED, (mparsed_evaluate_Ok (pa_eval P) es names vars indices (map2 decode qs pieces) value); [|clear - F0; induction F0; cbn; congruence|exact Lo|exact A].
      cbn [bind]. f_equal. unfold expression_values. clear. revert names. induction es as [|e es' IH]; intros [|ns names']; cbn [map2 map]; try reflexivity. f_equal; auto. }
    assert (ANS : forall pieces value q, read_from size decode vars qs pieces value -> q = REval (concat pieces) \/ q = RSafe (concat pieces) ->
      snd (system_adapter P reps p equations tt q) =
        Ok (RValue (fold_left fadd (map (fun w => if equations then opposite_absolute w else w) (expression_values P es names value)) (DFin 0)))).
    { intros pieces value q RF [-> | ->]; cbn [system_adapter snd]; rewrite (EV pieces value RF); reflexivity. }
    assert (AS : forall pieces, piecewise size qs pieces -> exists value, read_from size decode vars qs pieces value).
    { intros pieces FP. destruct (assigns_exists (pa_eval P EmptyString []) vars (sorted_NoDup vars (proj1 Hvars)) (map2 decode qs pieces)) as (v0 & A0); [|exists v0; now split].
      rewrite <- L. clear - FP. induction FP; cbn; congruence. }
    exists F, f. split.
    { unfold system_make. cbn [bind]. unfold madapter_make. rewrite EM. cbn [bind mp_ordered]. rewrite E. cbn [bind]. rewrite ER. cbn [bind].
      rewrite LR, L, Nat.eqb_refl. reflexivity. }
    unfold system_made. cbv zeta. cbn [f_props F default_props fp_size fp_known fp_inc f_obj f_init f_state]. split; [exact SR|]. split; [reflexivity|]. split; [reflexivity|]. split.
    - assert (CM : computes F f).
      { intros s q x Hq Lx. destruct s. cbn [F f_props default_props fp_size] in Lx. rewrite SR in Lx. destruct (split_sizes size qs x Lx) as (ps & FP & <-).
        destruct (AS ps FP) as (v0 & RF). etransitivity; [exact (ANS ps v0 q RF Hq)|]. unfold f. rewrite (ANS ps v0 (REval (concat ps)) RF (or_introl eq_refl)). reflexivity. }
      pose proof (total_const F f CM) as Y. cbn [F f_props default_props fp_size f_obj f_init f_state] in Y. now rewrite SR in Y.
    - intros pieces value RF. unfold f. rewrite (ANS pieces value (REval (concat pieces)) RF (or_introl eq_refl)). apply sum_computed.
  Qed.
End Made.

Lemma system_type_made k equations : system_type (system_type_of k equations) = Some (Scalars k, equations).
Proof. now destruct k, equations. Qed.
Lemma mixed_system_type_made equations : system_type (mixed_system_type equations) = Some (Mixed, equations).
Proof. now destruct equations. Qed.

Lemma made_by_system {T} (X : expression_surroundings T) visit srt st fo v equations :
  system_type (fn_type fo) = Some (v, equations) -> (0 < fn_bv_size fo)%Z -> fn_other fo = expression_function (with_systems X visit srt) st ->
  FunctionFactory_Model.make_function fo =
    system_make (xs_stod X) (parser_for X v) (parser_settings X st) visit srt v equations (get_expression X st) (get_representations X st).
Proof.
  intros H B O. unfold FunctionFactory_Model.make_function. destruct (Z.leb_spec (fn_bv_size fo) 0); [lia|].
  assert (C : In (fn_type fo) [520; 521; 523; 524; 530; 531; 533; 534]%Z).
  { clear - H. unfold system_type in H. repeat (match type of H with context [match ?x with _ => _ end] => destruct x end; try discriminate H); cbn; tauto. }
  assert (G : forall o, match fn_other fo (fn_type fo) with Some F => F | None => Throw RuntimeError end = o ->
    system_make (xs_stod X) (parser_for X v) (parser_settings X st) visit srt v equations (get_expression X st) (get_representations X st) = o).
  { intros o <-. rewrite O. unfold expression_function.
    assert (SN : so_type (fn_type fo) = None) by (clear - C; cbn [In] in C; destruct C as [C|[C|[C|[C|[C|[C|[C|[C|[]]]]]]]]]; rewrite <- C; reflexivity).
    rewrite SN. cbn [xs_other with_systems]. unfold system_function. now rewrite H. }
  symmetry. cbn [In] in C. destruct C as [C|[C|[C|[C|[C|[C|[C|[C|[]]]]]]]]]; rewrite <- C in *; apply G; reflexivity.
Qed.

(** Making a function from expressions never leaves the domain of the program: either it is
    made, or a sub expression does not parse. *)
Lemma mparsed_make_cases deduce visit srt expression : (forall l, Permutation (visit l) l) -> sorts srt ->
  (exists p, mparsed_make deduce visit srt expression = Ok p) \/ mparsed_make deduce visit srt expression = Throw RuntimeError.
Proof.
  intros HV HS. destruct (Parser_Proofs.split_string_cut (String.length expression) expression "::" ltac:(discriminate) (le_n _)) as (es & _ & C).
  assert (D : (exists names, Forall2 (fun e ns => deduce e = Some ns) es names) \/ (exists e, In e es /\ deduce e = None)).
  { clear. induction es as [|e es [(names & IH)|(e' & I & N)]]; [left; exists []; constructor| |right; exists e'; split; [now right|exact N]].
    destruct (deduce e) as [ns|] eqn:E; [left; exists (ns :: names); now constructor|right; exists e; split; [now left|exact E]]. }
  destruct D as [(names & F)|H]; [left|right; now apply (mparsed_make_Throw deduce visit srt expression es)].
  destruct (mparsed_make_Ok deduce visit srt HV HS expression es names C F) as (vars & indices & E & _). eauto.
Qed.
