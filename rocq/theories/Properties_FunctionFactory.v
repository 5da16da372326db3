(** Property C118: the functions made from the options of the program. *)

From Coq Require Import ZArith NArith.
From Verif Require Import Base BitVector_Model BitVector_Spec Map_Model Map_Spec Theory_Model Function_Spec Double Controller_Model Controller_Spec
  Decorator_Model Decorator_Spec ControllerStack_Spec Application_Model Application_Spec
  Search_Model Search_Spec FunctionFactory_Model FunctionFactory_Spec FunctionFactory_Proofs Properties_Decorator Properties_Application.
Local Open Scope nat_scope.

(** * C118: functions made from options *)

(** The value of each vector is the one in the documentation, whatever was evaluated
    before. *)
Theorem C118_value o F x : In (fn_type o) by_options -> (fn_type o = 120 -> fn_bv_size o < 2 ^ 32)%Z -> make_function o = Ok F -> length x = fp_size (f_props F) ->
  forall s, exists v, snd (f_obj F s (REval x)) = Ok (RValue (DFin v)) /\ documented_value o x v.
Proof. apply made_value. Qed.

(** The function has the size of the options (that of the weights for a linear function),
    its maximum is known, it is the one in the documentation, no value exceeds it, and
    [first_maximizer] is the first of the vectors which have it in the order of complete
    search. *)
Theorem C118_maximum o F : usual o -> make_function o = Ok F ->
  let n := fp_size (f_props F) in
  let x0 := first_maximizer o in
  let M := DFin (documented_maximum o) in
  0 < n /\ (fn_type o <> 1%Z -> Z.of_nat n = fn_bv_size o) /\ fp_known (f_props F) = Ok true /\ fp_max (f_props F) = Ok M /\ length x0 = n /\
  exists f, computes F f /\ f x0 = M /\ (forall y, length y = n -> dle (f y) M = true) /\
    (forall y, length y = n -> f y = M -> (value_lsb x0 <= value_lsb y)%N).
Proof.
  intros HU HM n x0 M. destruct (made_has_maximum o F HU HM) as (P & S1 & f & H1 & H2 & H3 & H4 & H5 & H6 & H7 & H8).
  split; [exact P|]. split; [exact S1|]. split; [exact H3|]. split; [exact H4|]. split; [exact H5|]. exists f. auto.
Qed.

(** Exactly OneMax and the linear functions provide incremental evaluation, which gives the
    value of the flipped vector. *)
Theorem C118_incremental o F : In (fn_type o) by_options -> make_function o = Ok F ->
  (fp_inc (f_props F) = true <-> In (fn_type o) [0; 1; 5]%Z) /\
  (fp_inc (f_props F) = true -> forall s x v l, length x = fp_size (f_props F) -> positions (length x) l -> snd (f_obj F s (REval x)) = Ok (RValue v) ->
     snd (f_obj F s (RInc x v l)) = snd (f_obj F s (REval (flipped_at x l)))).
Proof. apply made_incremental. Qed.

(** Which options are accepted, and which are refused; for the others the behaviour is
    undefined. *)
Theorem C118_options o : In (fn_type o) by_options -> (fn_type o = 120 -> fn_bv_size o < 2 ^ 32)%Z ->
  ((exists F, make_function o = Ok F) <-> acceptable o) /\
  (make_function o = Throw RuntimeError <-> refused o).
Proof. apply made_outcome. Qed.
Theorem C118_unknown_type o : (0 < fn_bv_size o)%Z -> ~ In (fn_type o) by_options -> fn_other o (fn_type o) = None -> make_function o = Throw RuntimeError.
Proof. apply unknown_type. Qed.

(** Complete search with stop on maximum ends at the first maximizer, with exit code 0, if
    the budget allows it; otherwise the budget is exhausted and the exit code is 2. *)
Theorem C118_complete_search ap co o F : usual o -> make_function o = Ok F ->
  optimizes ap -> ap_restart ap = false -> co_stop_on_maximum co = true ->
  let n := fp_size (f_props F) in
  let x0 := first_maximizer o in
  let k := N.to_nat (value_lsb x0) in
  length x0 = n /\
  forall fuel, 2 ^ n < fuel ->
  exists r x, program ap co (Ok (Some (None, F))) make_complete_search fuel = Some (report ap co None n r x (k <? allowed co (2 ^ n))) /\
    (if k <? allowed co (2 ^ n)
     then x = x0 /\ rs_value r = Some (DFin (documented_maximum o)) /\ rs_num r = k + 1 /\ rs_total r = k + 1
     else rs_total r = allowed co (2 ^ n)).
Proof. apply exhaustive_maximum. Qed.

(** Through a map and modifiers which keep the maximum known, complete search with stop on
    maximum gives a vector whose image is a maximizer, with exit code 0. *)
Theorem C118_decorated_search ap co mo d o F0 m F i : usual o -> make_function o = Ok F0 ->
  make_function_modifier mo d (make_function o) = Ok (Some (m, F)) -> map_fits m i (fp_size (f_props F0)) -> kind_known m ->
  mo_prior mo = None -> fp_known (f_props F) = Ok true ->
  optimizes ap -> ap_restart ap = false -> co_stop_on_maximum co = true -> (co_budget co <= 0)%Z -> 0 < i ->
  forall fuel, 2 ^ i < fuel ->
  exists r x f, program ap co (Ok (Some (m, F))) make_complete_search fuel = Some (report ap co m i r x true) /\
    computes F0 f /\ length x = i /\ rs_value r = Some (f (image m x)) /\ f (image m x) = DFin (documented_maximum o) /\
    (forall y, length y = fp_size (f_props F0) -> dle (f y) (f (image m x)) = true).
Proof. apply exhaustive_decorated. Qed.

(** The maximum of the peaks is wrong when the threshold is less than -1: complete search
    with stop on maximum does not find it, and the exit code is 2. *)
Theorem C118_peaks_missed ap co o F : (fn_type o = 40 \/ fn_type o = 41)%Z -> (fn_threshold o < -1)%Z -> make_function o = Ok F ->
  optimizes ap -> ap_restart ap = false -> co_stop_on_maximum co = true ->
  let n := fp_size (f_props F) in
  forall fuel, 2 ^ n < fuel ->
  exists r x, program ap co (Ok (Some (None, F))) make_complete_search fuel = Some (report ap co None n r x false) /\
    rs_success r = Some false /\ rs_total r = allowed co (2 ^ n).
Proof. apply peaks_missed. Qed.
Print Assumptions C118_value.
Print Assumptions C118_maximum.
Print Assumptions C118_incremental.
Print Assumptions C118_options.
Print Assumptions C118_unknown_type.
Print Assumptions C118_complete_search.
Print Assumptions C118_decorated_search.
Print Assumptions C118_peaks_missed.

Definition example_options (type size threshold : Z) : fn_options := mk_fn_options type size threshold 2 2 (Ok [(3)%Z; (-1)%Z; 2%Z]) (fun _ => None).
Example C118_case :
  (forall t, In t by_options -> let o := example_options t 4 1 in usual o /\ acceptable o) /\
  acceptable (example_options 40 4 (-3)) /\ refused (example_options 30 4 0) /\ refused (example_options 120 6 0) /\
  ~ acceptable (example_options 5 31 0) /\ ~ refused (example_options 5 31 0).
Proof.
  split; [|split; [|split; [|split; [|split]]]].
  - intros t Ht. cbv zeta. unfold usual, acceptable, example_options. cbn [fn_type fn_bv_size fn_threshold fn_num_traps fn_prefix_length fn_weights].
    unfold by_options in *. cbn [In] in Ht.
    destruct Ht as [T|[T|[T|[T|[T|[T|[T|[T|[T|[T|[T|[T|[T|[T|[]]]]]]]]]]]]]]]; rewrite <- T; cbn [In].
    all: split; [split; [tauto|split; [lia|split; [lia|split; [intros E; try discriminate E; cbn; lia|intros; discriminate]]]]|]; split; [lia|]; try exact I; try (cbn; lia).
    + eexists. reflexivity.
    + split; [lia|]. exists 2%Z. reflexivity.
    + exists 2%Z. split; [lia|reflexivity].
    + split; [lia|]. exists 2%Z. reflexivity.
  - split; cbn; lia.
  - right. cbn. lia.
  - right. cbn. intros (d & Hd & E). assert (d < 3)%Z. { apply (Z.pow_lt_mono_r_iff 2); lia. } assert (d = 0 \/ d = 1 \/ d = 2)%Z as [->|[->| ->]] by lia; discriminate E.
  - intros [_ H]. cbn in H. lia.
  - intros [H|H]; cbn in H; [lia|exact H].
Qed.

(** The program: leading ones with 3 bits ends after 8 evaluations; Hiff with 4 bits after
    one; four peaks with threshold -3 misses the maximum which it claims. *)
Example C118_program_case : let ap := example_app None false false false in
  let run o := match make_function o with Ok F => program ap (example_co 0 true) (Ok (Some (None, F))) make_complete_search 20 | _ => None end in
  run (example_options 10 3 0) =
    Some ([OResults Printed (mk_results (Some (dint 3)) 8 8 (Some true) None); OSolution Printed [true; true; true]], Exit 0) /\
  run (example_options 120 4 0) =
    Some ([OResults Printed (mk_results (Some (dint 12)) 1 1 (Some true) None); OSolution Printed [false; false; false; false]], Exit 0) /\
  run (example_options 40 2 (-3)) =
    Some ([OResults Printed (mk_results (Some (dint 4)) 1 4 (Some false) None); OSolution Printed [false; false]], Exit 2).
Proof. cbv zeta. repeat split; vm_compute; reflexivity. Qed.
