(** Property C121: the application for several objectives. *)

From Coq Require Import ZArith String Permutation.
From Verif Require Import Base BaseLemmas BitVector_Model BitVector_Spec Representation_Model Parser_Model Parser_Spec
  ParsedFunction_Model ParsedFunction_Spec ParsedFunction_Proofs Properties_ParsedFunction Representation_Spec Map_Spec Algorithm_Model Pareto_Model Pareto_Spec
  Nsga2_Model Nsga2_Spec Properties_Population Properties_Nsga2 Application_Model
  MultiApplication_Model MultiApplication_Spec MultiApplication_Proofs.
Local Open Scope nat_scope.

(** ** Questions and refusals *)

(** The default parameters are printed before anything else; at least one thread is required;
    an exception of the function factory ends the program. *)
Theorem C121_start op made d :
  (mo_print_default op = true -> mo_program op made d = Some ([MoParameters], Exit 0)) /\
  (mo_print_default op = false -> (mo_threads op < 1)%Z -> mo_program op made d = Some ([], Exit 1)) /\
  (mo_print_default op = false -> (1 <= mo_threads op)%Z ->
     (made = Throw RuntimeError -> mo_program op made d = Some ([], Exit 1)) /\
     (made = Throw OtherException -> mo_program op made d = Some ([], Uncaught))).
Proof.
  unfold mo_program, mo_init. split; [intros ->; reflexivity|]. split.
  - intros -> H. destruct (Z.ltb_spec (mo_threads op) 1); [reflexivity|lia].
  - intros -> H. destruct (Z.ltb_spec (mo_threads op) 1); [lia|]. split; intros ->; reflexivity.
Qed.

(** Questions are answered after the warning, the first one only, and nothing is evaluated. *)
Theorem C121_questions op f d : mo_print_default op = false -> (1 <= mo_threads op)%Z ->
  let answer a := mo_program op (Ok f) d = Some (warned op (mf_size f) ++ [a], Exit 0) in
  (mo_ask_size op = true -> answer (MoSize (mf_size f))) /\
  (mo_ask_size op = false -> mo_ask_outputs op = true -> answer (MoOutputs (mo_outputs (mf_objective f)))) /\
  (mo_ask_size op = false -> mo_ask_outputs op = false -> mo_ask_display op = true -> answer MoDisplay).
Proof.
  intros A B. cbv zeta. unfold mo_program, mo_init, mo_warning, mo_information, mo_when, warned. rewrite A. destruct (Z.ltb_spec (mo_threads op) 1); [lia|].
  split; [|split].
  - intros ->. destruct (Z.of_nat (mf_size f) =? mo_bv_size op)%Z; reflexivity.
  - intros -> ->. destruct (Z.of_nat (mf_size f) =? mo_bv_size op)%Z; reflexivity.
  - intros -> -> ->. destruct (Z.of_nat (mf_size f) =? mo_bv_size op)%Z; reflexivity.
Qed.

(** Options of the algorithm which are refused: nothing is evaluated.  A negative population size
    makes the program abort. *)
Theorem C121_refused op f d : no_question op ->
  let n := mf_size f in let m := mo_outputs (mf_objective f) in
  (mo_algorithm op <> 100%Z \/ n = 0 \/ m = 0 \/ mo_mu op = 0%Z -> mo_program op (Ok f) d = Some (warned op n, Exit 1)) /\
  (mo_algorithm op = 100%Z -> 0 < n -> 0 < m -> (mo_mu op < 0)%Z -> mo_program op (Ok f) d = Some (warned op n, Uncaught)) /\
  (mo_algorithm op = 100%Z -> 0 < n -> 0 < m -> (0 < mo_mu op)%Z -> ~ (2 <= mo_tournament op < mo_mu op)%Z ->
     mo_program op (Ok f) d = Some (announced op n, Exit 1)).
Proof.
  intros Q n m. rewrite (program_early op f d Q). fold n m. unfold mo_make_algorithm. split; [|split].
  - intros H. destruct (Z.eqb_spec (mo_algorithm op) 100) as [E|]; [|reflexivity]. destruct (Z.ltb_spec (mo_mu op) 0) as [N|N].
    + destruct (Nat.ltb_spec 0 n); [|reflexivity]. destruct (Nat.ltb_spec 0 m); [|reflexivity]. exfalso. lia.
    + rewrite (proj2 (C91_make n m (Z.to_nat (mo_mu op)) (md_made d))); [reflexivity|lia].
  - intros -> Hn Hm N. rewrite Z.eqb_refl. destruct (Z.ltb_spec (mo_mu op) 0); [|lia].
    rewrite (proj2 (Nat.ltb_lt 0 n) Hn), (proj2 (Nat.ltb_lt 0 m) Hm). reflexivity.
  - intros -> Hn Hm N T. rewrite Z.eqb_refl. destruct (Z.ltb_spec (mo_mu op) 0); [lia|].
    destruct (proj1 (C91_make n m (Z.to_nat (mo_mu op)) (md_made d)) Hn Hm) as (c & E & _); [lia|]. rewrite E.
    rewrite (C91_refused n m (Z.to_nat (mo_mu op)) (md_made d) c); [reflexivity|exact E|]. unfold mo_parameters. cbn [np_tournament_size]. lia.
Qed.

(** ** Runs *)

Section Run.
  Context (op : mo_options) (f : mo_function) (d : mo_draws).
  Let n := mf_size f.
  Let o := mf_objective f.
  Let m := mo_outputs o.
  Let mu := Z.to_nat (mo_mu op).
  Context (Q : no_question op) (A : mo_algorithm op = 100%Z) (Hn : 0 < n) (Hm : 0 < m) (TS : (2 <= mo_tournament op < mo_mu op)%Z).
  Context (OB : forall x, length x = n -> length (mo_value o x) = m) (P : possible n d).

  (** The program ends with the exit code 0 after all the solutions have been printed, or with an
      exception of the function, and then no solution is printed; it has no undefined
      behaviour.  The solutions are among the vectors evaluated, none of them dominates
      another one, and none is dominated by one of the last vectors. *)
  Theorem C121_run : match mo_program op (Ok f) d with
    | None => True
    | Some (out, Exit 0) =>
        exists T xs, Z.of_nat (length T) = (mo_mu op * (1 + Z.max 0 (mo_num_iterations op)))%Z /\ Forall (fun x => length x = n) xs /\
          good_solutions m mu (mo_value o) T xs /\ out = announced op n ++ printed op (mo_value o) xs
    | Some (out, Exit 1) => out = announced op n /\ exists c e, mo_stop o c = Some e /\ e <> OtherException
    | Some (out, Uncaught) => out = announced op n /\ exists c, mo_stop o c = Some OtherException
    | Some (_, _) => False
    end.
  Proof.
    destruct P as (P1 & P2 & P3 & P4 & P5 & P6 & P7).
    rewrite (program_early op f d Q). fold n o m. unfold mo_make_algorithm. rewrite A, Z.eqb_refl. destruct (Z.ltb_spec (mo_mu op) 0) as [Hneg|_]; [lia|]. fold mu.
    assert (MU : 2 < mu) by (unfold mu; lia).
    destruct (proj1 (C91_make n m mu (md_made d)) Hn Hm) as (c & E & _); [lia|]. rewrite E.
    assert (TP : 2 <= np_tournament_size (mo_parameters op) < mu) by (unfold mo_parameters, mu; cbn [np_tournament_size]; lia).
    assert (OBJ : objectives n m o) by (split; [reflexivity|exact OB]).
    pose proof (C89_run n m mu (md_made d) c o (md_srt d) (mo_parameters op) (md_bits d) (md_first d) (md_sh d) (md_garbage d) (md_breeding d)
      (md_generations d) (md_last d) (mo_num_iterations op) E OBJ TP P1 P2 P3 P5 P6 P7) as H. cbv zeta in H.
    destruct (nsga2_minimize _ _ _ _ _ _ _ _ _ _ _ _) as [[[]|e| |] s] eqn:R.
    - assert (CO : completed n m mu o (mo_num_iterations op) s).
      { split; [exact OBJ|]. exists (md_made d), c, (md_srt d), (mo_parameters op), (md_bits d), (md_first d), (md_sh d), (md_garbage d), (md_breeding d), (md_generations d), (md_last d).
        auto 12. }
      destruct (C90_solutions n m mu o _ s CO) as (S1 & S2 & S3 & S4).
      set (xs := m_bvs (ns_solutions (ms_mem s))) in *.
      assert (ES : ns_solutions (ms_mem s) = mk_mpop xs (map (mo_value o) xs)) by (rewrite <- S2; unfold xs; destruct (ns_solutions (ms_mem s)); reflexivity).
      rewrite ES, (manage_Ok op (md_print d) m (mo_value o) xs P4); [|intros x Hx; apply OB, S3, Hx|exact S4].
      cbn [mo_then mo_end fst snd]. exists (ms_trace s), xs. split; [|split; [|split]].
      + rewrite (C89_evaluations n m mu (md_made d) c o (md_srt d) (mo_parameters op) (md_bits d) (md_first d) (md_sh d) (md_garbage d) (md_breeding d)
          (md_generations d) (md_last d) (mo_num_iterations op) s E OBJ TP P1 P2 P3 P5 P6 P7 R). unfold mu. rewrite Z2Nat.id by lia. reflexivity.
      + apply Forall_forall. intros x Hx. apply S3, Hx.
      + split; [exact S1|]. split; [intros x Hx; apply S3, Hx|]. split; [exact S4|]. split; [exact (C90_last n m mu o _ s CO)|].
        intros M k y Hk Hy. exact (C90_extremes n m mu o _ s CO M k y Hk Hy).
      + reflexivity.
    - destruct H as [H _]. unfold mo_end. cbn [fst snd]. destruct e; (split; [reflexivity|]); eexists; try (exact H); eexists; (split; [exact H|discriminate]).
    - contradiction.
    - exact I.
  Qed.

  (** If the function throws no exception then the program does not either. *)
  Theorem C121_success out e : (forall c, mo_stop o c = None) -> mo_program op (Ok f) d = Some (out, e) ->
    e = Exit 0 /\ exists T xs, Z.of_nat (length T) = (mo_mu op * (1 + Z.max 0 (mo_num_iterations op)))%Z /\
      good_solutions m mu (mo_value o) T xs /\ out = announced op n ++ printed op (mo_value o) xs.
  Proof.
    intros S E. pose proof C121_run as H. rewrite E in H. destruct e as [[|[|k]]| |]; try contradiction.
    - split; [reflexivity|]. destruct H as (T & xs & H1 & _ & H2 & H3). eauto.
    - destruct H as (_ & c & e & H & _). rewrite S in H. discriminate.
    - destruct H as (_ & c & H). rewrite S in H. discriminate.
  Qed.
End Run.

(** Without iterations (a number which is not positive), only the first population is evaluated, although the
    documentation of the setter says that the run is then indefinite. *)
Theorem C121_no_iterations op f d out : no_question op -> mo_algorithm op = 100%Z -> 0 < mf_size f -> 0 < mo_outputs (mf_objective f) ->
  (2 <= mo_tournament op < mo_mu op)%Z -> (forall x, length x = mf_size f -> length (mo_value (mf_objective f) x) = mo_outputs (mf_objective f)) ->
  possible (mf_size f) d -> (mo_num_iterations op <= 0)%Z -> mo_program op (Ok f) d = Some (out, Exit 0) ->
  exists T xs, Z.of_nat (length T) = mo_mu op /\ out = announced op (mf_size f) ++ printed op (mo_value (mf_objective f)) xs /\
    forall x, In x xs -> In x T.
Proof.
  intros Q A Hn Hm TS OB P I E. pose proof (C121_run op f d Q A Hn Hm TS OB P) as H. rewrite E in H. destruct H as (T & xs & H1 & _ & H2 & H3).
  exists T, xs. split; [lia|]. split; [exact H3|]. apply H2.
Qed.

(** The crossover probability has no effect on the program. *)
Definition with_crossover_probability (op : mo_options) (p : Z) : mo_options :=
  mk_mo_options (mo_print_default op) (mo_threads op) (mo_bv_size op) (mo_ask_size op) (mo_ask_outputs op) (mo_ask_display op) (mo_algorithm op)
    (mo_mu op) (mo_tournament op) (mo_small_rate op) (mo_allow_no_mutation op) p (mo_num_iterations op) (mo_print_parameters op)
    (mo_print_description op) (mo_print_front op).
Theorem C121_crossover_probability op p made d : mo_program (with_crossover_probability op p) made d = mo_program op made d.
Proof. reflexivity. Qed.

(** ** Functions defined by expressions *)

Lemma split_sizes {A} (size : A -> nat) (qs : list A) : forall x : list bool, length x = fold_right Nat.add 0 (map size qs) ->
  exists ps, Forall2 (fun q p => length p = size q) qs ps /\ concat ps = x.
Proof.
  induction qs as [|q qs IH]; cbn [map fold_right]; intros x L.
  - exists []. split; [constructor|]. now destruct x.
  - destruct (IH (skipn (size q) x)) as (ps & F & E); [rewrite skipn_length; lia|]. exists (firstn (size q) x :: ps). split.
    + constructor; [rewrite firstn_length; lia|exact F].
    + cbn [concat]. rewrite E. apply firstn_skipn.
Qed.
Lemma assigns_exists {D} (default : D) vars : NoDup vars -> forall xs : list D, length xs = length vars -> exists value, assigns vars xs value.
Proof.
  induction 1 as [|v vars N ND IH]; intros [|x xs] L; cbn [length] in L; try lia; [exists (fun _ => default); constructor|].
  destruct (IH xs) as (value & A); [lia|]. exists (fun w => if String.eqb w v then x else value w). constructor; [now rewrite String.eqb_refl|].
  clear - A N. induction A as [|w y vars xs E A IH]; constructor.
  - destruct (String.eqb_spec w v); [subst; exfalso; apply N; now left|exact E].
  - apply IH. intros H. apply N. now right.
Qed.

Section Expressions.
  Context {D T : Type} (stod : string -> outcome T) (options : parser_options T).
  Context (deduce : string -> option (list string)) (eval : string -> list D -> D) (to_double : D -> Z).
  Context (visit : list string -> list string) (srt : (string -> string -> bool) -> list string -> list string).
  Context (Hvisit : forall l, Permutation (visit l) l) (Hsrt : sorts srt).
  Context (to_rep : params T -> outcome (rep D)).
  Context (expression : string) (es : list string) (names : list (list string)) (Hexpr : sub_expressions deduce expression es names).
  Context (vars : list string) (Hvars : variables_of names vars).
  Context (text : string) (ds : list (string * params T)) (Hds : declarations stod options text ds).
  Context (size : params T -> nat) (decode : params T -> list bool -> D).
  Context (op : mo_options) (d : mo_draws).

  (** The objectives of a vector are the values of the sub expressions, or their absolute values,
      for the values of the variables decoded from its pieces. *)
  Definition computed (qs : list (params T)) (absolute : bool) (value : list bool -> list Z) : Prop :=
    forall pieces v, Forall2 (fun q piece => length piece = size q) qs pieces -> assigns vars (map2 decode qs pieces) v ->
      value (concat pieces) = map2 (fun e ns => let z := to_double (eval e (map v ns)) in if absolute then Z.abs z else z) es names.

  Let program (t : Z) :=
    mo_program op (f <- mo_make stod options deduce visit srt to_rep (mo_bv_size op) t expression text ;; Ok (parsed_function eval to_double f)) d.

  Lemma expressions_run t g absolute qs out e :
    no_question op -> mo_algorithm op = 100%Z -> (2 <= mo_tournament op < mo_mu op)%Z ->
    mo_make stod options deduce visit srt to_rep (mo_bv_size op) t expression text = Ok (g, absolute) -> length qs = length vars ->
    expressed eval to_double es names vars size decode qs absolute g ->
    let n := fold_right Nat.add 0 (map size qs) in
    0 < n -> possible n d -> program t = Some (out, e) ->
    e = Exit 0 /\ exists value T xs, computed qs absolute value /\
      Z.of_nat (length T) = (mo_mu op * (1 + Z.max 0 (mo_num_iterations op)))%Z /\
      good_solutions (length es) (Z.to_nat (mo_mu op)) value T xs /\ out = announced op n ++ printed op value xs.
  Proof.
    intros Q A TS EM LQ (S & L & EX) n Hn P E. unfold program in E. rewrite EM in E. cbn [bind] in E. destruct g as [reps p]. cbn [fst snd] in *.
    set (f := parsed_function eval to_double (reps, p, absolute)) in *.
    assert (SN : mf_size f = n) by exact S. assert (SM : mo_outputs (mf_objective f) = length es) by exact L.
    assert (CO : computed qs absolute (mo_value (mf_objective f))).
    { intros pieces v F AS. unfold f, parsed_function. cbn [mf_objective mo_value]. rewrite L. rewrite (EX pieces v F AS). reflexivity. }
    assert (LE : length names = length es) by (destruct Hexpr as [_ F]; clear - F; induction F; cbn; congruence).
    assert (OB : forall x, length x = mf_size f -> length (mo_value (mf_objective f) x) = mo_outputs (mf_objective f)).
    { intros x Lx. rewrite SN in Lx. destruct (split_sizes size qs x Lx) as (ps & F & <-).
      destruct (assigns_exists (eval EmptyString []) vars (sorted_NoDup vars (proj1 Hvars)) (map2 decode qs ps)) as (v & AS).
      - rewrite <- LQ. clear - F. induction F; cbn; congruence.
      - rewrite (CO ps v F AS), SM. clear - LE. revert names LE. induction es as [|a es' IH]; intros [|b names'] LE; cbn [length map2] in *; try lia. f_equal. apply IH. lia. }
    assert (HM : 0 < mo_outputs (mf_objective f)).
    { rewrite SM. destruct Hexpr as [C _]. clear - C. inversion C; cbn; lia. }
    rewrite <- SN in Hn, P.
    destruct (C121_success op f d Q A Hn HM TS OB P out e (fun _ => eq_refl) E) as (-> & T' & xs & H1 & H2 & H3).
    split; [reflexivity|]. exists (mo_value (mf_objective f)), T', xs. split; [exact CO|]. split; [exact H1|]. rewrite SM in H2. split; [exact H2|]. now rewrite <- SN.
  Qed.

  (** With variables of one type: the run succeeds, and prints such objectives of its
      solutions. *)
  Theorem C121_expressions t k absolute default out e :
    no_question op -> mo_algorithm op = 100%Z -> (2 <= mo_tournament op < mo_mu op)%Z -> (0 < mo_bv_size op)%Z ->
    t = scalar_type k absolute -> represents stod options (default_text options k) default -> kind default = of_scalar k ->
    (forall v q, In v vars -> used ds default v q -> representable to_rep size decode q) ->
    vars <> [] -> (forall qs, Forall2 (used ds default) vars qs -> possible (fold_right Nat.add 0 (map size qs)) d) -> program t = Some (out, e) ->
    exists qs, Forall2 (used ds default) vars qs /\ e = Exit 0 /\ exists value T xs, computed qs absolute value /\
      Z.of_nat (length T) = (mo_mu op * (1 + Z.max 0 (mo_num_iterations op)))%Z /\
      good_solutions (length es) (Z.to_nat (mo_mu op)) value T xs /\
      out = announced op (fold_right Nat.add 0 (map size qs)) ++ printed op value xs.
  Proof.
    intros Q A TS B MT R K RE NV P E.
    destruct (C120_scalar_functions stod options deduce eval to_double visit srt Hvisit Hsrt to_rep expression es names Hexpr vars Hvars text ds Hds size decode
      (mo_bv_size op) t k absolute default B MT R K RE) as (g & qs & EM & U & EX). exists qs. split; [exact U|].
    apply (expressions_run t g absolute qs out e Q A TS EM); auto; [clear - U; induction U; cbn; congruence|].
    destruct U as [|v q vs qs' U1 U2]; [contradiction|]. destruct (RE v q (or_introl eq_refl) U1) as (r & _ & RS & RD). cbn [map fold_right]. rewrite <- RS. pose proof (proj1 RD). lia.
  Qed.
End Expressions.
Print Assumptions C121_start.
Print Assumptions C121_questions.
Print Assumptions C121_refused.
Print Assumptions C121_run.
Print Assumptions C121_success.
Print Assumptions C121_no_iterations.
Print Assumptions C121_expressions.
Print Assumptions C121_crossover_probability.

(** The run of [C90_case], and one interrupted by an exception *)
Definition example_mo_options (num : Z) : mo_options :=
  mk_mo_options false 1 3 false false false 100 4 2 false false 80 num false true true.
Definition example_mo_draws : mo_draws :=
  mk_mo_draws insertion_sort (7, 8) (fun i j => Nat.even (i + j)) (fun _ _ => @rev nat) (@rev nat) (7, 8) (example_breeding 0) example_generation
    (fun _ _ => @rev nat) (fun _ _ => @rev nat).
Example C121_case : possible 4 example_mo_draws /\ no_question (example_mo_options 2) /\
  (forall x, length x = 4 -> length (mo_value (halves (fun _ => None)) x) = 2) /\
  mo_program (example_mo_options 2) (Ok (mk_mo_function 4 (halves (fun _ => None)))) example_mo_draws =
    Some ([MoWarning 3 4; MoDescription [2; 0] [true; true; false; false]; MoDescription [1; 1] [true; false; false; false];
           MoDescription [1; 1] [false; true; false; false]; MoFront [2; 0]; MoFront [1; 1]; MoFront [1; 1]]%Z, Exit 0) /\
  mo_program (example_mo_options 2) (Ok (mk_mo_function 4 (halves (fun c => if c =? 9 then Some OtherException else None)))) example_mo_draws =
    Some ([MoWarning 3 4], Uncaught).
Proof.
  split; [|split; [|split; [|split]]].
  - split; [exact insertion_sort_sorts|]. split; [intros a k l; apply Permutation_rev|]. split; [intros a k l; apply Permutation_rev|]. split; [intros a k l; apply Permutation_rev|].
    split; [intros l; apply Permutation_rev|]. split; [apply example_breeding_fair|exact example_generation_fair].
  - repeat split; discriminate.
  - intros x _. reflexivity.
  - vm_compute. reflexivity.
  - vm_compute. reflexivity.
Qed.

(** The whole program for the expression y - x, with integers on two bits *)
Definition example_expression (absolute : bool) : option (list mo_output * ending) :=
  mo_program (example_mo_options 2)
    (f <- example_make (if absolute then 533 else 523) "y - x" "x: int(0, 3); y: int(0, 3)" ;; Ok (parsed_function example_eval (fun z => z) f)) example_mo_draws.
Example C121_expressions_case :
  example_expression false = Some ([MoWarning 3 4; MoDescription [-3] [true; true; false; false]; MoDescription [-3] [true; true; false; false];
    MoFront [-3]; MoFront [-3]]%Z, Exit 0) /\
  match example_expression true with Some (MoWarning 3 4 :: MoDescription [0%Z] [false; true; false; true] :: _, Exit 0) => True | _ => False end.
Proof. split; vm_compute; [reflexivity|exact I]. Qed.
