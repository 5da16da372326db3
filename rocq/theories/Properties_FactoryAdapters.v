(** Properties of the functions over categories and permutations made by the application: C129. *)

From Coq Require Import ZArith NArith QArith String Ascii Permutation.
From Verif Require Import Base BaseLemmas BitVector_Model BitVector_Spec Neighborhood_Model Neighborhood_Spec Map_Model Map_Spec Text_Model Representation_Model Representation_Spec
  Sudoku_Model Sudoku_Spec Sudoku_Proofs SudokuFile_Proofs Double Controller_Model Controller_Spec Decorator_Model Decorator_Spec ControllerStack_Spec
  Application_Model Application_Spec Search_Model Search_Spec FunctionFactory_Model Properties_Sudoku Properties_Application Properties_Search
  Algorithm_Model Algorithm_Spec EvolutionaryAlgorithm_Model AlgorithmMachine_Model FunctionFactory_Proofs AlgorithmMachine_Spec Properties_AlgorithmMachine
  FactoryAdapters_Model FactoryAdapters_Spec FactoryAdapters_Proofs.
Local Close Scope Q_scope.
Local Open Scope list_scope.
Local Open Scope nat_scope.

(** * C129: sudoku, from the file to what is printed *)

(** The number of bits of the function made for a problem *)
Definition sudoku_bits (kind : Z) (inst : list (list ascii)) : nat := List.length (empty_cells inst) * cell_bits kind.

(** The function has 4 or 15 bits per empty cell, and an unknown maximum; the value of a vector
    is minus the number of defects of the grid completed with the categories read from it,
    whatever was evaluated before; it is zero if the grid is solved, and negative otherwise. *)
Theorem C129_made kind text inst : (kind = 0 \/ kind = 1)%Z -> written text inst ->
  exists F f, sudoku_function kind (Some text) = Ok F /\ fp_size (f_props F) = sudoku_bits kind inst /\
    fp_known (f_props F) = Ok false /\ fp_inc (f_props F) = false /\
    total (f_obj F) (f_init F) (sudoku_bits kind inst) f /\
    (forall x, exists g, completes inst (filling kind inst x) g /\ (0 <= defects g)%Z /\ (defects g = 0%Z <-> solved g) /\ f x = integer (- defects g)) /\
    (forall x g, completes inst (filling kind inst x) g -> f x = integer (- defects g)).
Proof.
  intros K W. destruct (sudoku_made kind text inst K W) as (F & f & s & E & P & T & -> & L & I). exists F, (sudoku_value kind s). rewrite P in *.
  split; [exact E|]. split; [reflexivity|]. split; [reflexivity|]. split; [reflexivity|]. split; [exact T|]. rewrite <- I. split; [|intros x g; now apply value_exact].
  intros x. destruct (completed s (filling kind (s_instance s) x) L (filling_length _ _ _) (filling_9 _ _ _)) as (g & C & D & Z). exists g. split; [exact C|].
  split; [exact Z|]. split; [exact D|]. now apply value_exact.
Qed.
Print Assumptions C129_made.
(** Incremental evaluation is an error, both for sudoku and for the traveling salesman problem. *)
Theorem C129_incremental :
  (forall kind text F s x v flipped, sudoku_function kind (Some text) = Ok F -> snd (f_obj F s (RInc x v flipped)) = Throw RuntimeError) /\
  (forall lg d additional sh srt F s x v flipped, tsp_function lg d additional sh srt = Ok F -> snd (f_obj F s (RInc x v flipped)) = Throw RuntimeError).
Proof.
  split.
  - intros kind text F s x v fl H. unfold sudoku_function in H. repeat (apply bind_Ok in H; destruct H as (? & _ & H)). destruct (s_num _) in H; [|discriminate]. apply Ok_inj in H. subst F. reflexivity.
  - intros lg d additional sh srt F s x v fl H. unfold tsp_function in H. repeat (apply bind_Ok in H; destruct H as (? & _ & H)). apply Ok_inj in H. subst F. reflexivity.
Qed.
Print Assumptions C129_incremental.

(** Every filling of the empty cells is read from some vector, so that a value zero exists
    exactly if the problem has a solution. *)
Theorem C129_solvable kind inst : (kind = 0 \/ kind = 1)%Z ->
  (forall ds, List.length ds = List.length (empty_cells inst) -> Forall (fun v => v < 9) ds ->
     exists x, List.length x = sudoku_bits kind inst /\ filling kind inst x = ds) /\
  (solvable inst <-> exists x g, List.length x = sudoku_bits kind inst /\ completes inst (filling kind inst x) g /\ solved g).
Proof.
  intros K. split; [|now apply solvable_exact]. intros ds L H. destruct (fillings kind K ds H) as (x & LX & E). exists x. unfold sudoku_bits, filling. now rewrite <- L.
Qed.
Print Assumptions C129_solvable.

(** The grid which is described is the completed one. *)
Theorem C129_describe kind text inst : (kind = 0 \/ kind = 1)%Z -> written text inst ->
  exists s r, sudoku_load sudoku_make text = Ok s /\ digit_rep kind = Ok r /\
  forall xs x, Forall (fun y => List.length y = sudoku_bits kind inst) (x :: xs) ->
    let reps := repeat r (List.length (empty_cells inst)) in
    exists b, sudoku_describe reps (run (sudoku_adapter reps) s (map REval xs)) x = Ok b /\ grid b /\ completes inst (filling kind inst x) (cell 0 b).
Proof.
  intros K W. destruct (written_loads text inst W) as (s & E & L & I). destruct (digit_rep_Ok kind K) as (r & dec & ER & SR & D & C & _).
  exists s, r. split; [exact E|]. split; [exact ER|]. intros xs x H reps. inversion H as [|? ? H1 H2]; subst. clear H E W. revert s L H1 H2 reps.
  induction xs as [|y ys IH]; intros s L H1 H2; cbn [map run].
  - now apply describe_exact with dec.
  - inversion H2 as [|? ? H3 H4]; subst. destruct (adapter_step kind r dec s y K SR D C L H3 (REval y) (or_introl eq_refl)) as (s' & g & E & _ & L' & I'). rewrite E. cbn [fst].
    rewrite <- I' in *. apply IH; auto.
Qed.
Print Assumptions C129_describe.

(** Files which cannot be opened, texts in which no problem is written, and unknown
    representations are errors; stopping on the maximum is one too, because it is unknown. *)
Theorem C129_errors ap co kind file text inst factory fuel : app_init ap = ([], Ok None) ->
  (file = None \/ (file = Some text /\ forall inst, ~ written text inst) \/ (file = Some text /\ written text inst /\ ~ (kind = 0 \/ kind = 1)%Z) ->
     sudoku_function kind file = Throw RuntimeError /\
     program ap co (F <- sudoku_function kind file ;; Ok (Some (None, F))) factory fuel = Some ([], Exit 1)) /\
  (file = Some text -> written text inst -> (kind = 0 \/ kind = 1)%Z -> co_stop_on_maximum co = true ->
     program ap co (F <- sudoku_function kind file ;; Ok (Some (None, F))) factory fuel = Some ([], Exit 1)).
Proof.
  intros A. split.
  - intros H. assert (E : sudoku_function kind file = Throw RuntimeError).
    { destruct H as [->|[[-> H]|(-> & W & H)]]; unfold sudoku_function; [reflexivity|now rewrite (unwritten_throws text H)|].
      destruct (written_loads text inst W) as (s & -> & _ & _). cbn [bind]. unfold digit_rep. destruct kind as [|[p|p|]|p]; try reflexivity; exfalso; lia. }
    split; [exact E|]. rewrite E. unfold program. rewrite A. reflexivity.
  - intros -> W K S. destruct (sudoku_made kind text inst K W) as (F & f & s & -> & P & _). cbn [bind]. unfold program. rewrite A.
    unfold make_function_controller, target_of. rewrite S, P. reflexivity.
Qed.
Print Assumptions C129_errors.

(** Complete search without budget, with no target or with target zero: the grid completed
    with the solution has the least number of defects, and the value is minus this number.  If
    the problem has a solution the grid is solved, the value is zero, and the target is
    reached; if it has none, it is not. *)
Theorem C129_complete_search ap co kind text inst fuel : (kind = 0 \/ kind = 1)%Z -> written text inst -> empty_cells inst <> [] ->
  optimizes ap -> ap_restart ap = false -> co_stop_on_maximum co = false -> (co_budget co <= 0)%Z -> co_target co = None \/ co_target co = Some (integer 0) ->
  2 ^ sudoku_bits kind inst < fuel ->
  exists r x g success, program ap co (F <- sudoku_function kind (Some text) ;; Ok (Some (None, F))) make_complete_search fuel =
      Some (report ap co None (sudoku_bits kind inst) r x success) /\
    List.length x = sudoku_bits kind inst /\ completes inst (filling kind inst x) g /\ rs_value r = Some (integer (- defects g)) /\
    (forall ds h, Forall (fun v => v < 9) ds -> completes inst ds h -> (defects g <= defects h)%Z) /\
    (solvable inst <-> solved g) /\ (solved g <-> rs_value r = Some (integer 0)) /\
    (success = true <-> solvable inst /\ co_target co = Some (integer 0)).
Proof.
  intros K W NE HO HR HS HB HT HF. destruct (C129_made kind text inst K W) as (F & f & E & S1 & _ & _ & T & V & V'). rewrite E. cbn [bind].
  assert (NZ : 0 < sudoku_bits kind inst).
  { unfold sudoku_bits. destruct (empty_cells inst) as [|c l]; [congruence|]. cbn [List.length]. unfold cell_bits. destruct (kind =? 0)%Z; lia. }
  assert (NN : numbers (sudoku_bits kind inst) f) by (intros x _; destruct (V x) as (g & _ & _ & _ & ->); reflexivity).
  destruct (C116_complete_search ap co None F (middle_of co) (co_target co) (sudoku_bits kind inst) (sudoku_bits kind inst) f) as (L & HL & H); auto;
    [unfold make_function_controller, target_of; now rewrite HS|reflexivity|exact I|].
  destruct (H fuel HF) as (r & x & success & P & _ & SE). clear H. unfold allowed in SE. destruct (Z.ltb_spec 0 (co_budget co)) as [X|_]; [lia|].

  assert (IN : forall y, List.length y = sudoku_bits kind inst -> In y (firstn (2 ^ sudoku_bits kind inst) L)).
  { intros y Y. pose proof (counting_nth _ _ y HL Y) as Q. assert (B : N.to_nat (value_lsb y) < 2 ^ sudoku_bits kind inst) by (rewrite <- Y; apply value_lsb_nat).
    now apply firstn_nth_In with (N.to_nat (value_lsb y)). }
  assert (LE : forall a b, dle (integer (- a)) (integer (- b)) = true <-> (b <= a)%Z).
  { intros a b. unfold integer, dle. rewrite Z.leb_le. split; intros; nia. }
  destruct HL as (_ & HL2 & _).
  assert (BEST : List.length x = sudoku_bits kind inst /\ rs_value r = Some (f x) /\ (forall y, List.length y = sudoku_bits kind inst -> dle (f y) (f x) = true) /\
    (success = true <-> f x = integer 0 /\ co_target co = Some (integer 0))).
  { assert (UP : forall y, dle (f y) (integer 0) = true).
    { intros y. destruct (V y) as (g & _ & Z & _ & ->). apply (LE (defects g) 0%Z). exact Z. }
    destruct SE as [r k x M B R1 R2 R3|r t k x ET KB NT G NG R1 R2 R3].
    - destruct B as (B1 & B2 & _). unfold Search_Spec.valued in *. rewrite nth_error_map in B1. destruct (nth_error (firstn (2 ^ sudoku_bits kind inst) L) k) as [z|] eqn:EZ; [|discriminate].
      cbn in B1. injection B1 as -> _.
      assert (IX : In x (firstn (2 ^ sudoku_bits kind inst) L)) by (apply nth_error_In with k; exact EZ).
      assert (LX : List.length x = sudoku_bits kind inst) by (apply HL2; rewrite <- (firstn_skipn (2 ^ sudoku_bits kind inst) L); apply in_or_app; now left).
      split; [exact LX|]. split; [exact R1|]. split.
      + intros y Y. apply IN in Y as Y'. apply In_nth_error in Y' as (j & EJ). destruct (B2 j y (f y)) as [Z|Z]; [now rewrite nth_error_map, EJ|now rewrite NN in Z|exact Z].
      + split; [discriminate|]. intros [Q1 Q2]. specialize (M _ x Q2 IX). rewrite Q1 in M. discriminate.
    - destruct HT as [HT|HT]; [congruence|]. rewrite HT in ET. injection ET as <-. split; [apply HL2; now apply nth_error_In with k|]. split; [exact R1|].
      assert (FX : f x = integer 0) by (apply dle_antisym; [apply UP|exact G]).
      rewrite FX. split; [intros y _; apply UP|]. now split. }
  destruct BEST as (LX & RV & BE & SU). destruct (V x) as (g & C & Z & D & FX).
  exists r, x, g, success. split; [exact P|]. split; [exact LX|]. split; [exact C|]. split; [now rewrite RV, FX|].
  assert (MIN : forall ds h, Forall (fun v => v < 9) ds -> completes inst ds h -> (defects g <= defects h)%Z).
  { intros ds h FD CH. assert (LD : List.length ds = List.length (empty_cells inst)) by (rewrite <- (map_length (fun v => v + 1) ds), <- (proj2 CH); apply map_length).
    destruct (proj1 (C129_solvable kind inst K) ds LD FD) as (y & LY & EY). apply LE. rewrite <- FX. rewrite <- (V' y h) by now rewrite EY. now apply BE. }
  split; [exact MIN|].
  assert (SOL : solvable inst <-> solved g).
  { split.
    - intros Q. apply (proj2 (C129_solvable kind inst K)) in Q as (y & h & LY & CH & SH). apply D. specialize (MIN _ h (filling_9 kind inst y) CH).
      destruct (V y) as (h' & CH' & _ & D' & _). assert (Z0 : defects h = 0%Z); [|lia]. rewrite (defects_same h h' (completes_same _ _ _ _ CH CH')). apply D'.
      now apply (solved_same h h' (completes_same _ _ _ _ CH CH')).
    - intros Q. apply (proj2 (C129_solvable kind inst K)). eauto. }
  split; [exact SOL|].
  assert (ZERO : solved g <-> f x = integer 0).
  { rewrite FX, <- D. split; [now intros ->|]. unfold integer. intros Q. injection Q as Q. nia. }
  split; [rewrite RV, ZERO; split; [now intros ->|congruence]|]. now rewrite SU, SOL, ZERO.
Qed.
Print Assumptions C129_complete_search.

(** Local searches with target zero: if the target is reached, the grid completed with the
    solution is solved. *)
Theorem C129_local_search ap co kind text inst o d neighbors iterations garbage others : (kind = 0 \/ kind = 1)%Z -> written text inst -> empty_cells inst <> [] ->
  optimizes ap -> ap_restart ap = false -> co_stop_on_maximum co = false -> co_target co = Some (integer 0) ->
  let i := sudoku_bits kind inst in
  options_ok o i -> draws_ok o d i -> 2 ^ i < neighbors -> (climber o = true -> 2 ^ i + 1 < iterations) ->
  climber o = true \/
  (draws_last d i /\ ((0 < ao_num_iterations o < Z.of_nat iterations)%Z \/
                      (co_cache co = false /\ (0 < co_budget co < Z.of_nat iterations)%Z))) ->
  exists N, forall fuel, N < fuel -> exists r x g success,
    program ap co (F <- sudoku_function kind (Some text) ;; Ok (Some (None, F))) (make_algorithm o d neighbors iterations garbage others) fuel =
      Some (report ap co None i r x success) /\
    List.length x = i /\ completes inst (filling kind inst x) g /\
    (ao_algorithm o <> 150%Z \/ (co_budget co <= 0)%Z \/ success = true -> rs_value r = Some (integer (- defects g)) /\ (success = true <-> solved g)).
Proof.
  intros K W NE HO HR HS HT i OK DO NB IT EN. destruct (C129_made kind text inst K W) as (F & f & E & S1 & _ & _ & T & V & V'). rewrite E. cbn [bind].
  assert (NZ : 0 < i).
  { unfold i, sudoku_bits. destruct (empty_cells inst) as [|c l]; [congruence|]. cbn [List.length]. unfold cell_bits. destruct (kind =? 0)%Z; lia. }
  assert (FV : finite_values i f (fun x => match f x with DFin z => z | _ => 0%Z end)).
  { intros x _. destruct (V x) as (g & _ & _ & _ & ->). reflexivity. }
  assert (HC : make_function_controller co F = Ok (middle_of co, co_target co)) by (unfold make_function_controller, target_of; now rewrite HS).
  destruct (C124_program ap co None F (middle_of co) (co_target co) i i f _ o d neighbors iterations garbage others NZ OK DO NB IT HO HR HC eq_refl I S1 T FV) as [M H].
  exists M. intros fuel HFu. destruct (H fuel HFu) as [(r & x & success & P & _ & L)|(_ & CL & D)].
  2: { exfalso. destruct EN as [E1|(E1 & [E2|[E2 E3]])]; [congruence| |]; destruct (D E1) as [D1 D2]; [lia|]. specialize (D2 E2 ltac:(lia)). lia. }
  destruct (V x) as (g & C & Z & DG & FX). exists r, x, g, success. split; [exact P|]. clear P H.
  assert (ZERO : solved g <-> dge (f x) (integer 0) = true).
  { rewrite <- DG, FX. unfold dge, integer, dle. rewrite Z.leb_le. split; intros; nia. }
  assert (MI : forall T', misses (co_target co) f T' -> In x T' -> ~ solved g).
  { intros T' MM IX SG. specialize (MM _ x HT IX). apply ZERO in SG. congruence. }
  destruct L as [T' r x L1 L2 L3 L4 [L5 _] L6 L7|T' r x L1 L2 L3 L4 L5 L6 L7|T' r x t L1 L2 L3 L4 L8 L5 L6].
  - rewrite Forall_forall in L1. split; [auto|]. split; [exact C|]. intros _. split; [now rewrite L7, FX|]. split; [discriminate|]. intros SG. destruct (MI T' L3 L5 SG).
  - rewrite Forall_forall in L1. split; [auto|]. split; [exact C|]. intros Q. split; [|split; [discriminate|intros SG; destruct (MI T' L4 L5 SG)]].
    assert (A : ao_algorithm o <> 150%Z) by (destruct Q as [Q|[Q|Q]]; [exact Q|lia|discriminate]). now rewrite (proj2 (L6 A)), FX.
  - rewrite Forall_forall in L1. split; [apply L1, in_app_iff; cbn; auto|]. split; [exact C|]. intros _. split; [now rewrite L6, FX|].
    rewrite HT in L2. injection L2 as <-. rewrite ZERO. tauto.
Qed.
Print Assumptions C129_local_search.

(** A problem generated with [c] empty cells and saved, then given to complete search with
    target zero, is solved: the exit code is 0. *)
Theorem C129_generated ap co kind sh c (u : nat -> Q) : (kind = 0 \/ kind = 1)%Z ->
  Permutation (sh (seq 0 9)) (seq 0 9) -> 0 < c -> c <= 81 -> (forall i, (0 <= u i)%Q /\ (u i < 1)%Q) ->
  optimizes ap -> ap_restart ap = false -> co_stop_on_maximum co = false -> (co_budget co <= 0)%Z -> co_target co = Some (integer 0) ->
  exists s text, sudoku_random sh c u sudoku_make = Ok s /\ sudoku_save s = Ok text /\
  forall fuel, 2 ^ (c * cell_bits kind) < fuel ->
  exists r x g, program ap co (F <- sudoku_function kind (Some text) ;; Ok (Some (None, F))) make_complete_search fuel =
      Some (report ap co None (c * cell_bits kind) r x true) /\ exit_code co true = 0 /\
    rs_value r = Some (integer 0) /\ completes (s_instance s) (filling kind (s_instance s) x) g /\ solved g.
Proof.
  intros K HSH C0 C81 HU HO HR HS HB HT.
  destruct (C50_random sh c u sudoku_make HSH C0 C81 HU (proj1 C50_objects)) as (s & g0 & E & P & N & G & H & _).
  destruct (C79_save_load s sudoku_make P (proj1 C50_objects)) as (text & s' & E2 & E3 & _ & I). exists s, text. split; [exact E|]. split; [exact E2|].
  intros fuel HF. pose proof (loads_written text s' E3) as W. rewrite I in W.
  assert (SO : solvable (s_instance s)) by (exists g0; split; [exact G|intros i j Hi Hj Hd; now rewrite H]).
  assert (BI : sudoku_bits kind (s_instance s) = c * cell_bits kind) by (unfold sudoku_bits; now rewrite N).
  destruct (C129_complete_search ap co kind text (s_instance s) fuel K W) as (r & x & g & success & PR & _ & C & _ & _ & A1 & A2 & A3); auto.
  { intros Z. rewrite Z in N. cbn in N. lia. } { now rewrite BI. }
  rewrite BI in PR. exists r, x, g. assert (success = true) as -> by (apply A3; auto). split; [exact PR|]. split; [reflexivity|].
  split; [now apply A2, A1|]. split; [exact C|now apply A1].
Qed.
Print Assumptions C129_generated.

(** A full grid gives a function without variables, which complete search refuses. *)
Theorem C129_full_grid ap co kind text inst fuel : (kind = 0 \/ kind = 1)%Z -> written text inst -> empty_cells inst = [] -> optimizes ap -> co_stop_on_maximum co = false ->
  program ap co (F <- sudoku_function kind (Some text) ;; Ok (Some (None, F))) make_complete_search fuel = Some ([], Exit 1).
Proof.
  intros K W NE (H1 & H2 & H3 & H4 & H5 & H6 & H7) HS. destruct (C129_made kind text inst K W) as (F & f & E & S1 & _). rewrite E. cbn [bind].
  unfold program, app_init. rewrite H1. destruct (Z.ltb_spec (ap_threads ap) 1); [lia|]. unfold make_function_controller, target_of. rewrite HS. cbn [bind].
  unfold load_solution, print_information. rewrite H3, H4, H5, H6, H7. cbn [when andthen snd fst app]. rewrite S1. unfold sudoku_bits. rewrite NE. reflexivity.
Qed.
Print Assumptions C129_full_grid.

(** ** Examples *)

Definition example_instance : list (list ascii) := map list_ascii_of_string (firstn 9 (split_lines example_text)).
Example C129_case : written example_text example_instance /\ sudoku_bits 0 example_instance = 8 /\ sudoku_bits 1 example_instance = 30 /\
  filling 0 example_instance [false; false; false; true; true; true; true; false] = [8; 7] /\ solvable example_instance /\
  (let ap := example_app None false false false in
   let co := mk_controller_options 0 true false false (Some (integer 0)) false in
   program ap co (F <- sudoku_function 0 (Some example_text) ;; Ok (Some (None, F))) make_complete_search 257 =
     Some ([OResults Printed (mk_results (Some (integer 0)) 121 121 (Some true) (Some (0, 121))); OSolution Printed [false; false; false; true; true; true; true; false]], Exit 0)).
Proof.
  assert (H : match sudoku_load sudoku_make example_text with
    | Ok s => s_instance s = example_instance /\ match sudoku_evaluate s [8; 7] with Ok (v, _) => v = 0%Z | _ => False end
    | _ => False end) by (vm_compute; split; reflexivity).
  destruct (sudoku_load sudoku_make example_text) as [s| |] eqn:E; try contradiction. destruct H as [I V].
  assert (W : written example_text example_instance) by (rewrite <- I; now apply loads_written).
  split; [exact W|]. split; [vm_compute; reflexivity|]. split; [vm_compute; reflexivity|]. split; [vm_compute; reflexivity|]. split.
  - destruct (written_loads _ _ W) as (s' & E' & L & _). rewrite E in E'. injection E' as <-.
    destruct (C79_evaluate s [8; 7] L) as (s' & g & EV & C & D & _); [rewrite I; vm_compute; reflexivity|repeat constructor|].
    rewrite EV in V. exists g. split; [apply D; lia|]. rewrite <- I. apply C.
  - vm_compute. reflexivity.
Qed.

(** The hypotheses of the local searches hold for this problem: hill climbing, and random local
    search with a number of iterations. *)
Definition sudoku_moves : draws := mk_draws (fun _ => 1 # 2)%Q (seq 0 8) 1 [1] (repeat true 8).
Definition sudoku_draws : algo_draws :=
  mk_algo_draws (fun _ _ => false) (fun _ _ _ => false) (fun _ _ => sudoku_moves) (fun _ _ => sudoku_moves) (fun _ _ lo _ => lo) (fun _ _ => false) (fun _ _ => false).
Example C129_hypotheses : empty_cells example_instance <> [] /\ optimizes (example_app None false false false) /\
  (forall t, In t local_searches -> options_ok (example_algo t 2 0 true) 8 /\ draws_ok (example_algo t 2 0 true) sudoku_draws 8) /\
  climber (example_algo 150 2 0 true) = true /\ draws_last sudoku_draws 8 /\ (0 < ao_num_iterations (example_algo 100 2 0 true) < 3)%Z.
Proof.
  assert (B : in_bounds SingleBitFlip 8 sudoku_moves).
  { split; [intros i; cbn; split; [discriminate|reflexivity]|]. split; [|split; [exact I|]]; cbn; repeat constructor. }
  split; [vm_compute; discriminate|]. split; [repeat split; cbn; lia|]. split; [|split; [reflexivity|split; [|cbn; lia]]].
  - intros t Ht. split; [split; [exact Ht|]; split; [now left|]; split; [now left|reflexivity]|].
    assert (E : bounding_kind (example_algo t 2 0 true) = SingleBitFlip) by reflexivity. unfold draws_ok. rewrite E.
    split; [|split]; [exact (fun i => B)|exact (fun i => B)|]. intros i a b. cbn. lia.
  - assert (P : plenty 8 sudoku_moves); [|split; intros k; intros; apply P].
    intros h L1 L2. destruct h as [kd orig cand idx]. cbn [nh_origin nh_candidate] in L1, L2. unfold nh_propose, with_sample.
    destruct (bv_eqb _ _); [|discriminate]. unfold sample_bits. cbn [nh_candidate nh_class]. rewrite L2. destruct kd as [|rejection allow|r|r].
    + discriminate.
    + destruct rejection; [destruct allow; discriminate|discriminate].
    + discriminate.
    + unfold below_sqrt. destruct r as [|[|[|r]]]; [discriminate|discriminate|discriminate|].
      destruct (Nat.ltb_spec (S (S (S r)) * S (S (S r))) 8); [lia|discriminate].
Qed.
