(** Property C123: the files of functions, from ffgen to the functions of the application. *)

From Coq Require String.
From Verif Require Qubo_Proofs.
From Coq Require Import ZArith NArith QArith Qround Permutation Sorted.
From Verif Require Import Base BitVector_Model BitVector_Spec Function_Spec Double Controller_Model Controller_Spec Decorator_Model FunctionFactory_Model
  Rounding_Model Rounding_Spec Collection_Model Collection_Spec MaxSat_Model MaxSat_Spec Sudoku_Model Application_Model InstanceFile_Model InstanceFile_Spec InstanceFile_Proofs.
Local Open Scope nat_scope.

(** Every choice of options is accepted, and a file is written unless it cannot be opened; or
    is refused, with exit code 1; or gives a negative size to a planted solution, and an
    exception is not caught; or violates an assertion.  In these cases nothing is written. *)
Theorem C123_options o d : options_fit o -> draws_fit o d ->
  (accepted o -> (exists c, ffgen o d true = (Some c, Exit 0)) /\ ffgen o d false = (None, Exit 1)) /\
  (refused o -> forall w, ffgen o d w = (None, Exit 1)) /\
  (negative_solution o -> forall w, ffgen o d w = (None, Uncaught)) /\
  (~ accepted o -> ~ refused o -> ~ negative_solution o -> forall w, ffgen o d w = (None, Undefined)).
Proof.
  intros FO FD. unfold ffgen. split; [|split; [|split]].
  - intros A. assert (G : exists c, generate_function o d = Ok c).
    { destruct A as (KT & A'). destruct KT as [T|[T|T]].
      - destruct (generate_maxsat o d) as (e & E & _); [split; [now left|assumption]|assumption|assumption|auto|eauto].
      - destruct (generate_sudoku o d) with (s0 := sudoku_make) as (t & _ & _ & _ & E & _);
          [split; [right; now left|assumption]|assumption|auto|apply SudokuFile_Proofs.make_boards|eauto].
      - destruct (generate_archive o d) as (i & E & _); [split; [now right; right|assumption]|assumption|assumption|assumption|eauto]. }
    destruct G as (c & ->). split; [now exists c|reflexivity].
  - intros R w. now rewrite generate_refused.
  - intros R w. now rewrite generate_negative.
  - intros A R N w. rewrite generate_violates; auto.
    + unfold known_type. destruct (in_dec Z.eq_dec (fg_type o) (70 :: 190 :: archive_types)%Z) as [H|H]; [exact H|]. exfalso. apply R. now left.
    + destruct (classical_generator o) as [H|H]; [exact H|]. exfalso. apply R. now right.
    + intros H. apply A. split; [|split; [|exact H]].
      * unfold known_type. destruct (in_dec Z.eq_dec (fg_type o) (70 :: 190 :: archive_types)%Z) as [H'|H']; [exact H'|]. exfalso. apply R. now left.
      * destruct (classical_generator o) as [H'|H']; [exact H'|]. exfalso. apply R. now right.
Qed.
Print Assumptions C123_options.

(** The files which are archives: what is written is the function asked by the options, with
    the draws in the order of the documentation; it is read back as it is if all its numbers
    are finite, and refused otherwise; a truncated file is refused. *)
Theorem C123_generated o d : accepted o -> options_fit o -> draws_fit o d -> In (fg_type o) archive_types ->
  exists a i, ffgen o d true = (Some (Archive a), Exit 0) /\
    type_of i = fg_type o /\ as_asked o d i /\ well_formed i /\ size_of i = expected_size o /\
    (finite i -> forall rest, load_instance (fg_type o) (Some (Archive (a ++ rest))) = Ok i) /\
    (~ finite i -> forall rest, load_instance (fg_type o) (Some (Archive (a ++ rest))) = Throw RuntimeError) /\
    (forall b, truncated b a -> load_instance (fg_type o) (Some (Archive b)) = Throw RuntimeError).
Proof.
  intros A FO FD T. destruct (generate_archive o d A FO FD T) as (i & E & <- & AA & W & I & S).
  exists (put_instance i), i. unfold ffgen. rewrite E. split; [reflexivity|]. split; [reflexivity|]. split; [assumption|]. split; [assumption|]. split; [assumption|].
  split; [|split].
  - intros F rest. now apply load_put.
  - intros F rest. apply load_bad; [assumption|tauto].
  - intros b B. now apply load_truncated.
Qed.
Print Assumptions C123_generated.

(** Whatever the file from which it was read, a well-formed function has the size of its
    data; its values are those of the documentation, and so are incremental evaluations, after
    any history of requests; the maximum is known for linear functions and Walsh expansions
    of degree 1 only, and is the greatest value. *)
Theorem C123_function pf file o i : respects (pf_near pf) -> In (fn_type o) archive_types -> (0 < fn_bv_size o)%Z ->
  load_instance (fn_type o) file = Ok i -> well_formed i ->
  exists F, make_function (with_file pf file o) = Ok F /\ fp_size (f_props F) = size_of i /\
    fp_inc (f_props F) = has_incremental (fn_type o) /\ fp_known (f_props F) = Ok (maximum_known (fn_type o)) /\
    (maximum_known (fn_type o) = true -> exists m, fp_max (f_props F) = Ok m /\ greatest_value (pf_near pf) i m) /\
    (maximum_known (fn_type o) = false -> fp_max (f_props F) = Throw RuntimeError) /\
    forall rs, Forall (proper (pf_near pf) i) rs -> map res (calls (f_obj F) (f_init F) rs) = map (answer (pf_near pf) i) rs.
Proof.
  intros RN T N L W. destruct (instance_answers pf i RN W) as (F & E & A). destruct (instance_known pf i F W E) as (K1 & K2 & K3).
  assert (TY : type_of i = fn_type o) by (symmetry; apply (load_type (fn_type o) file); assumption).
  exists F. split; [now apply (make_loaded pf file o i F)|]. rewrite TY in *. split; [apply A|]. split; [assumption|]. split; [assumption|].
  split; [intros M; rewrite M in K3; exact K3|]. split; [intros M; rewrite M in K3; exact K3|]. intros rs P. now apply answers_history.
Qed.
Print Assumptions C123_function.

(** No file, or another kind of file: an error is reported. *)
Theorem C123_missing pf file o : (0 < fn_bv_size o)%Z ->
  (file = None -> In (fn_type o) (50 :: 70 :: 71 :: archive_types)%Z -> make_function (with_file pf file o) = Throw RuntimeError) /\
  (forall text, file = Some (Text text) -> In (fn_type o) archive_types -> make_function (with_file pf file o) = Throw RuntimeError).
Proof.
  intros N. unfold make_function. cbn [with_file fn_bv_size fn_type]. destruct (Z.leb_spec (fn_bv_size o) 0); [lia|]. split.
  - intros -> T. cbn [archive_types In] in T. destruct T as [E|[E|[E|[E|[E|[E|[E|[E|[E|[E|[E|[E|[]]]]]]]]]]]]]; rewrite <- E; reflexivity.
  - intros text -> T. cbn [archive_types In] in T. destruct T as [E|[E|[E|[E|[E|[E|[E|[E|[E|[]]]]]]]]]]; rewrite <- E; reflexivity.
Qed.
Print Assumptions C123_missing.

(** The type of the function is not in the file: linear functions, equal products and Walsh
    expansions of degree 1 are read from the files of one another. *)
Theorem C123_same_format w i j : Forall is_finite w -> In i [ILinear w; IEqualProducts w; IWalsh1 w] -> In j [ILinear w; IEqualProducts w; IWalsh1 w] ->
  load_instance (type_of j) (Some (put_file i)) = Ok j.
Proof.
  intros F Hi Hj. assert (P : put_instance i = put_instance j).
  { destruct Hi as [<-|[<-|[<-|[]]]], Hj as [<-|[<-|[<-|[]]]]; reflexivity. }
  unfold put_file. rewrite P. rewrite <- (app_nil_r (put_instance j)). apply load_put; destruct Hj as [<-|[<-|[<-|[]]]]; try exact I; exact F.
Qed.
Print Assumptions C123_same_format.

(** The weights of the arithmetic progression and of the geometric one are exact for integers
    up to 2^53. *)
Theorem C123_progressions (o : ffgen_options) (d : ffgen_draws) (a b : Z) : fg_type o = 1%Z -> (0 < fg_size o)%Z -> fg_lin_initial o = dint a ->
  let n := Z.to_nat (fg_size o) in
  (fg_lin_generator o = 1%Z -> fg_lin_distance o = dint b -> (forall j, j < n -> (Z.abs (a + Z.of_nat j * b) <= 2 ^ 53)%Z) ->
     ffgen o d true = (Some (put_file (ILinear (map (fun j => dint (a + Z.of_nat j * b)) (seq 0 n)))), Exit 0)) /\
  (fg_lin_generator o = 2%Z -> fg_lin_ratio o = dint b -> (forall j, j < n -> (Z.abs (a * b ^ Z.of_nat j) <= 2 ^ 53)%Z) ->
     ffgen o d true = (Some (put_file (ILinear (map (fun j => dint (a * b ^ Z.of_nat j)) (seq 0 n)))), Exit 0)).
Proof.
  intros T N EI n. unfold ffgen, generate_function. rewrite T. split; intros G D B; rewrite G, EI, D, positive_Ok by assumption; cbn [bind]; fold n.
  - do 4 f_equal. replace (dint a) with (dint (a + Z.of_nat 0 * b)) by (f_equal; lia). apply (successive_map n (fun w => fadd w (dint b)) (fun j => dint (a + Z.of_nat j * b))).
    intros j Hj. replace (a + Z.of_nat (S j) * b)%Z with (a + Z.of_nat j * b + b)%Z in * by lia. apply fadd_integers. specialize (B (S j) Hj).
    replace (a + Z.of_nat (S j) * b)%Z with (a + Z.of_nat j * b + b)%Z in B by lia. exact B.
  - do 4 f_equal. replace (dint a) with (dint (a * b ^ Z.of_nat 0)) by (f_equal; cbn; lia). apply (successive_map n (fun w => fmul w (dint b)) (fun j => dint (a * b ^ Z.of_nat j))).
    intros j Hj. replace (a * b ^ Z.of_nat (S j))%Z with (a * b ^ Z.of_nat j * b)%Z by (rewrite Nat2Z.inj_succ, Z.pow_succ_r by lia; ring). apply fmul_integers. specialize (B (S j) Hj).
    replace (a * b ^ Z.of_nat (S j))%Z with (a * b ^ Z.of_nat j * b)%Z in B by (rewrite Nat2Z.inj_succ, Z.pow_succ_r by lia; ring). exact B.
Qed.
Print Assumptions C123_progressions.

(** The default geometric progression, 1, 2, 4 and so on: up to 1024 weights the file is read
    back, beyond it is written without any error but the function cannot be read. *)
Theorem C123_overflow o d : fg_type o = 1%Z -> (0 < fg_size o)%Z -> fg_lin_generator o = 2%Z -> fg_lin_initial o = dint 1 -> fg_lin_ratio o = dint 2 ->
  exists a w, ffgen o d true = (Some (Archive a), Exit 0) /\ length w = Z.to_nat (fg_size o) /\
    (forall j, j < length w -> j <= 1023 -> nth j w (DFin 0) = DFin (2 ^ (1074 + Z.of_nat j))) /\
    ((fg_size o <= 1024)%Z -> load_instance 1 (Some (Archive a)) = Ok (ILinear w)) /\
    ((1024 < fg_size o)%Z -> load_instance 1 (Some (Archive a)) = Throw RuntimeError).
Proof.
  intros T N G E1 E2. set (n := Z.to_nat (fg_size o)). assert (HN : 0 < n) by (subst n; lia). set (w := successive n (fun w => fmul w (dint 2)) (dint 1)).
  destruct (successive_is n (fun w => fmul w (dint 2)) (dint 1) HN) as (L & W0 & WS). fold w in L, W0, WS.
  assert (P := powers_of_two n w HN W0 WS).
  exists (put_instance (ILinear w)), w. split; [|split; [exact L|split; [|split]]].
  - unfold ffgen, generate_function. rewrite T, G, E1, E2. rewrite positive_Ok by assumption. reflexivity.
  - intros j Hj Hj'. rewrite P by lia. apply Nat.leb_le in Hj'. now rewrite Hj'.
  - intros S. assert (H := load_put (ILinear w) [] I). rewrite app_nil_r in H. apply H; [|exact I]. cbn [finite]. apply Forall_forall. intros x Hx.
    apply (In_nth _ _ (DFin 0)) in Hx as (j & Hj & <-). rewrite P by lia. destruct (Nat.leb_spec j 1023); [eexists; reflexivity|subst n; lia].
  - intros S. assert (H := load_bad (ILinear w) [] I). rewrite app_nil_r in H. apply H. intros [F _]. cbn [finite] in F. rewrite Forall_forall in F.
    assert (H24 : 1024 < n) by (subst n; lia). destruct (F (nth 1024 w (DFin 0))) as (z & Z0); [apply nth_In; lia|].
    rewrite P in Z0 by lia. discriminate.
Qed.
Print Assumptions C123_overflow.

(** MaxSat: clauses on distinct variables, which the planted solution satisfies; the function
    read from the file counts the satisfied clauses, and its maximum is not known. *)
Theorem C123_maxsat o d pf o' : accepted o -> options_fit o -> draws_fit o d -> fg_type o = 70%Z -> fn_type o' = 70%Z -> (0 < fn_bv_size o')%Z ->
  let n := Z.to_nat (fg_size o) in
  exists text e F, ffgen o d true = (Some (Text text), Exit 0) /\ make_function (with_file pf (Some (Text text)) o') = Ok F /\
    length e = Z.to_nat (fg_ms_clauses o) /\ Forall (clause_of n (Z.to_nat (fg_ms_literals o))) e /\
    (fg_ms_planted o = true -> Forall (clause_holds (map (fd_solution d) (seq 0 n))) e) /\
    (fg_ms_planted o = false -> forall i c, nth_error e i = Some c -> signs_drawn (fd_sign d i) c) /\
    fp_size (f_props F) = n /\ fp_known (f_props F) = Ok false /\ fp_inc (f_props F) = false /\
    forall s x, length x = n -> exists k, MaxSat_Spec.counts (clause_holds x) e k /\ snd (f_obj F s (REval x)) = Ok (RValue (dint (Z.of_nat k))).
Proof.
  intros A FO FD T T' N n. destruct (generate_maxsat o d A FO FD T) as (e & E & L & LE & C & P & R).
  exists (maxsat_save n e), e. unfold ffgen. rewrite E. unfold make_function. cbn [with_file fn_bv_size fn_type]. destruct (Z.leb_spec (fn_bv_size o') 0); [lia|].
  rewrite T'. cbn [with_file fn_other file_function open_text bind]. fold n in L. rewrite L. cbn [bind]. eexists. split; [reflexivity|]. split; [reflexivity|].
  split; [assumption|]. split; [assumption|]. split; [assumption|]. split; [assumption|]. split; [reflexivity|]. split; [reflexivity|]. split; [reflexivity|].
  intros s x Lx. destruct (MaxSat_Proofs.maxsat_evaluate_exact e x) as (k & Ek & Ck & _).
  { rewrite Lx. exact (signs_distinct _ _ _ C). }
  exists k. split; [assumption|]. cbn [opaque_function f_obj plain snd]. now rewrite Ek.
Qed.
Print Assumptions C123_maxsat.

(** The other functions which are read from texts: whatever the text, either it is refused or
    the function has the number of variables of the clauses, and counts those which hold, or
    those whose literals are not all equal; or it is the quadratic form of the matrix. *)
Theorem C123_texts pf text o F : (0 < fn_bv_size o)%Z -> make_function (with_file pf (Some (Text text)) o) = Ok F ->
  (In (fn_type o) [70; 71]%Z -> exists n e, maxsat_load text = Ok (n, e) /\ fp_size (f_props F) = n /\ expression_of n e /\
     forall s x, length x = n -> exists k, snd (f_obj F s (REval x)) = Ok (RValue (dint (Z.of_nat k))) /\
       MaxSat_Spec.counts (if (fn_type o =? 70)%Z then clause_holds x else not_all_equal x) e k) /\
  (fn_type o = 71%Z -> forall n e, maxsat_load text = Ok (n, e) -> Forall (fun c => length c = 3) e) /\
  (fn_type o = 50%Z -> exists n q, qubo_load (pf_float pf) [] text = Ok q /\ Function_Spec.grid n n q /\ fp_size (f_props F) = n /\
     forall s x, length x = n -> snd (f_obj F s (REval x)) = Ok (RValue (DFin (quadratic_form q x)))) /\
  (In (fn_type o) [50; 70; 71]%Z -> fp_known (f_props F) = Ok false /\ fp_inc (f_props F) = false).
Proof.
  intros N. unfold make_function. cbn [with_file fn_bv_size fn_type]. destruct (Z.leb_spec (fn_bv_size o) 0); [lia|]. intros E.
  split; [|split; [|split]].
  - intros [T|[T|[]]]; rewrite <- T in *; cbn [with_file fn_other file_function open_text bind] in E.
    + destruct (maxsat_load text) as [[n e]| |] eqn:L; try discriminate. cbn [bind] in E. apply BaseLemmas.Ok_inj in E. subst F. exists n, e.
      destruct (MaxSatFile_Proofs.maxsat_load_sound _ _ _ L) as [X _]. split; [reflexivity|]. split; [reflexivity|]. split; [assumption|].
      intros s x Lx. destruct (MaxSat_Proofs.maxsat_evaluate_exact e x) as (k & Ek & Ck & _); [now rewrite Lx|]. exists k.
      cbn [opaque_function f_obj plain snd]. rewrite Ek. split; [reflexivity|exact Ck].
    + destruct (nae_load text) as [[n e]| |] eqn:L; try discriminate. cbn [bind] in E. apply BaseLemmas.Ok_inj in E. subst F. exists n, e.
      destruct (MaxSatFile_Proofs.nae_load_sound _ _ _ L) as (L' & X & X3). split; [assumption|]. split; [reflexivity|]. split; [assumption|].
      intros s x Lx. destruct (MaxSat_Proofs.nae_evaluate_exact e x) as (k & Ek & Ck & _); [now rewrite Lx|assumption|]. exists k.
      cbn [opaque_function f_obj plain snd]. rewrite Ek. split; [reflexivity|exact Ck].
  - intros T n e L. rewrite T in E. cbn [with_file fn_other file_function open_text bind] in E.
    destruct (nae_load text) as [[n' e']| |] eqn:L'; try discriminate. destruct (MaxSatFile_Proofs.nae_load_sound _ _ _ L') as (L2 & _ & X3). congruence.
  - intros T. rewrite T in E. cbn [with_file fn_other file_function open_text bind] in E.
    destruct (qubo_load (pf_float pf) [] text) as [q| |] eqn:L; try discriminate. cbn [bind] in E. apply BaseLemmas.Ok_inj in E. subst F. exists (length q), q.
    assert (G : Function_Spec.grid (length q) (length q) q).
    { apply Qubo_Proofs.load_sound in L as [->|(n & _ & G & _)]; [split; [reflexivity|constructor]|]. now rewrite (proj1 G). }
    split; [reflexivity|]. split; [assumption|]. split; [reflexivity|]. intros s x Lx. cbn [opaque_function f_obj plain snd].
    now rewrite (Qubo_Proofs.qubo_value (length q) q x G Lx).
  - intros [T|[T|[T|[]]]]; rewrite <- T in *; cbn [with_file fn_other file_function open_text bind] in E.
    + destruct (qubo_load (pf_float pf) [] text); try discriminate. cbn [bind] in E. apply BaseLemmas.Ok_inj in E. now subst F.
    + destruct (maxsat_load text) as [[n e]| |]; try discriminate. cbn [bind] in E. apply BaseLemmas.Ok_inj in E. now subst F.
    + destruct (nae_load text) as [[n e]| |]; try discriminate. cbn [bind] in E. apply BaseLemmas.Ok_inj in E. now subst F.
Qed.
Print Assumptions C123_texts.

(** Sudoku: the file is read back as a problem with the number of empty cells which was asked
    and which has a solution, of value 0. *)
Theorem C123_sudoku o d : accepted o -> draws_fit o d -> fg_type o = 190%Z ->
  exists text s x s', ffgen o d true = (Some (Text text), Exit 0) /\ sudoku_load sudoku_make text = Ok s /\
    s_num s = Some (Z.to_nat (fg_sudoku_cells o)) /\
    length x = Z.to_nat (fg_sudoku_cells o) /\ Forall (fun v => v < 9) x /\ sudoku_evaluate s x = Ok (0%Z, s').
Proof.
  intros A FD T. destruct (generate_sudoku o d A FD T sudoku_make SudokuFile_Proofs.make_boards) as (text & s & x & s' & E & H).
  exists text, s, x, s'. unfold ffgen. rewrite E. split; [reflexivity|exact H].
Qed.
Print Assumptions C123_sudoku.

(** ** Examples *)

(** A nearest double, some draws and options *)
Definition example_near (q : Q) : dbl := DFin (Qfloor (q * inject_Z (2 ^ 1074))).
Definition example_platform : platform := mk_platform example_near (fun _ => None) (fun _ => String.EmptyString).
Definition example_ffgen_draws : ffgen_draws :=
  mk_ffgen_draws (fun k => dint (Z.of_nat k + 1)) (fun k => dint 1) (fun i => Z.of_nat i mod 5 + 1)%Z (fun i j => (i + j) mod 2 =? 0) (fun _ _ => 0%Q)
    (fun i => i mod 2 =? 0) (fun _ _ => 0%Q) (fun _ _ => true) (fun _ lo _ => lo) (fun l => l) (fun _ => 0%Q) (fun a _ => a).
Definition example_ffgen (k n : Z) : ffgen_options :=
  mk_ffgen_options k n (dint 1) 2 (dint 1) (dint 1) (dint 2) 1 3 2 true (dint 1) 5 2 0 (dint 1) 0 0 1 2 (dint 1) (dint 1) false 4.
Definition example_fn (k : Z) : fn_options := mk_fn_options k 7 0 0 0 UB (fun _ => None).

Example C123_case :
  ffgen (example_ffgen 91 3) example_ffgen_draws true = (Some (Archive [TInt 3; TInt 1; TInt 2; TInt 3]), Exit 0) /\
  load_instance 91 (Some (Archive [TInt 3; TInt 1; TInt 2; TInt 3])) = Ok (IPartition [1; 2; 3]%Z) /\
  value_of example_near (IPartition [1; 2; 3]%Z) [true; true; false] = DFin 0 /\
  load_instance 91 (Some (Archive [TInt 3; TInt 1; TInt 2])) = Throw RuntimeError /\
  value_of example_near (IIsing1 [dint 1; dint 3] [dint 2; dint 4] false) [true; false] = dint 1 /\
  ffgen (example_ffgen 171 0) example_ffgen_draws true = (None, Undefined) /\
  ffgen (example_ffgen 2 3) example_ffgen_draws true = (None, Exit 1) /\
  ffgen (example_ffgen 70 (-1)) example_ffgen_draws true = (None, Uncaught).
Proof. repeat split; vm_compute; reflexivity. Qed.

Example C123_hypotheses_case :
  respects example_near /\ Forall (fun k => accepted (example_ffgen k 3)) [1; 60; 70; 90; 91; 160; 161; 162; 171; 172; 190]%Z /\
  options_fit (example_ffgen 60 3) /\ draws_fit (example_ffgen 60 3) example_ffgen_draws /\
  well_formed (IIsing1 [dint 1; dint 3] [dint 2; dint 4] false) /\ proper example_near (IIsing1 [dint 1; dint 3] [dint 2; dint 4] false) (RInc [true; false] (dint 1) [0; 1]) /\
  refused (example_ffgen 2 3) /\ negative_solution (example_ffgen 70 (-1)).
Proof.
  split; [|split; [|split; [|split; [|split; [|split; [|split]]]]]].
  - intros q q' E. unfold example_near. f_equal. apply Qfloor_comp. now rewrite E.
  - repeat (constructor; [unfold accepted, known_type, known_generator, arguments_ok; cbn; repeat split; try lia; tauto|]). constructor.
  - unfold options_fit. cbn. lia.
  - unfold draws_fit. cbn [fd_int fd_neighbors fd_variables fd_erased fd_index fd_shuffle example_ffgen_draws fg_part_bound example_ffgen].
    split; [intros _ i; assert (H := Z.mod_pos_bound (Z.of_nat i) 5 ltac:(lia)); lia|]. repeat split; intros; try lia; try (unfold Qle, Qlt; cbn; lia).
    apply Permutation_refl.
  - cbn. auto.
  - cbn [proper size_of length]. split; [reflexivity|]. split; [vm_compute; reflexivity|]. split; repeat constructor.
  - left. unfold known_type. cbn. intuition lia.
  - unfold negative_solution. cbn. auto with zarith.
Qed.
