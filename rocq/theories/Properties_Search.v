(** Properties of algorithms which keep the best vector they evaluate: C115 (the solution
    and the value agree), C116 (complete search) and C117 (random search). *)

From Coq Require Import ZArith NArith.
From Verif Require Import Base BitVector_Model BitVector_Spec Map_Model Map_Spec Double Controller_Model Controller_Spec
  Decorator_Model Decorator_Spec ControllerStack_Spec Application_Model Application_Spec Application_Proofs
  Search_Model Search_Spec Search_Proofs Properties_Decorator Properties_Application.
Local Open Scope nat_scope.

(** * C115: the solution and the value which are shown agree *)

(** If the algorithm keeps the best vector it has evaluated, and at least one vector has
    been evaluated, then the value shown in the results is that of the solution. *)
Theorem C115_consistent ap co m F factory A mid target i n f fuel out e c r c' y :
  optimizes ap -> ap_restart ap = false -> make_function_controller co F = Ok (mid, target) -> factory (fp_size (f_props F)) = Ok A ->
  honest A -> works A i -> evaluates A -> keeps_best A -> quiet (f_obj F) -> map_fits m i n -> kind_known m -> fp_size (f_props F) = i ->
  total (f_obj F) (f_init F) i f -> numbers i f ->
  program ap co (Ok (Some (m, F))) factory fuel = Some (out, e) -> In (OResults c r) out -> In (OSolution c' y) out ->
  exists x, length x = i /\ y = shown ap m x /\ (0 < rs_total r -> rs_value r = Some (f x)).
Proof. apply solution_value. Qed.

(** Complete search and random search are such algorithms. *)
Theorem C115_complete n : let A := complete_search_machine n in honest A /\ works A n /\ evaluates A /\ keeps_best A.
Proof. intros A. pose proof (complete_fine n) as (H1 & H2 & H3). pose proof (complete_keeps_best n). auto. Qed.
Theorem C115_random n num bits : let A := random_search_machine n num bits in honest A /\ works A n /\ evaluates A /\ keeps_best A.
Proof. intros A. pose proof (random_fine n num bits) as (H1 & H2 & H3). pose proof (random_keeps_best n num bits). auto. Qed.
Print Assumptions C115_consistent.
Print Assumptions C115_complete.
Print Assumptions C115_random.

(** Three bits, no map: the value 3 is that of the solution; with a linear map of two bits
    to three. *)
Definition example_complete (ap : app_options) (co : controller_options) (kd : Z) := program ap co (example_made kd) make_complete_search 20.
Example C115_case :
  example_complete (example_app None false false false) (example_co 0 false) 0 =
    Some ([OResults Printed (mk_results (Some (DFin 3)) 8 8 None None); OSolution Printed [true; true; true]], Exit 0) /\
  example_complete (example_app None false true false) (example_co 0 false) 4 =
    Some ([OResults Printed (mk_results (Some (DFin 2)) 2 4 None None); OSolution Printed [true; false; true]], Exit 0).
Proof. split; vm_compute; reflexivity. Qed.
(** A history of answers *)
Example C115_hears : exists st,
  hears (complete_search_machine 2) [([false; false], DFin 5); ([true; false], DFin 7); ([false; true], DFin 7)] st /\
  ma_solution (complete_search_machine 2) (ma_finalize (complete_search_machine 2) st) = ([true; false], DFin 7).
Proof.
  eexists. split.
  - apply (hears_value _ [([false; false], DFin 5); ([true; false], DFin 7)]).
    + apply (hears_value _ [([false; false], DFin 5)]).
      * apply (hears_value _ []); [apply hears_begin|reflexivity].
      * reflexivity.
    + reflexivity.
  - reflexivity.
Qed.

(** * C116: complete search *)

(** The program evaluates the vectors one by one, in the order of the numbers they write
    with the lowest bit first, until the end, the budget, or a vector which reaches the
    target.  Without target it gives the first best vector among those which the budget
    allows, with or without a cache. *)
Theorem C116_complete_search ap co m F mid target i n f : 0 < i ->
  optimizes ap -> ap_restart ap = false -> make_function_controller co F = Ok (mid, target) ->
  map_fits m i n -> kind_known m -> fp_size (f_props F) = i -> total (f_obj F) (f_init F) i f -> numbers i f ->
  exists L, counting_order i L /\
  forall fuel, 2 ^ i < fuel ->
  exists r x success, program ap co (Ok (Some (m, F))) make_complete_search fuel = Some (report ap co m i r x success) /\
    rs_success r = (match co_stop_on_maximum co, co_target co with false, None => None | _, _ => Some success end) /\
    search_ends f target L (allowed co (2 ^ i)) r x success.
Proof. apply complete_search_run. Qed.
Print Assumptions C116_complete_search.

(** The target 2 is reached by the fourth vector; a budget of 3 stops before. *)
Definition example_target (budget : Z) (cache : bool) : controller_options := mk_controller_options budget cache false false (Some (DFin 2)) false.
Example C116_case : let ap := example_app None false false false in
  example_complete ap (example_target 0 true) 0 =
    Some ([OResults Printed (mk_results (Some (DFin 2)) 4 4 (Some true) (Some (0, 4))); OSolution Printed [true; true; false]], Exit 0) /\
  example_complete ap (example_target 3 false) 0 =
    Some ([OResults Printed (mk_results (Some (DFin 1)) 2 3 (Some false) None); OSolution Printed [true; false; false]], Exit 3).
Proof. split; vm_compute; reflexivity. Qed.

(** * C117: random search *)

(** Without target or budget, and with a number of iterations which is not positive, the
    program does not end.  Otherwise it evaluates one vector more than the number of
    iterations, all drawn at random, and gives the first best one.  With a cache, vectors
    drawn again are not evaluated again. *)
Theorem C117_random_search ap co m F mid num bits i n f : 0 < i ->
  optimizes ap -> ap_restart ap = false -> make_function_controller co F = Ok (mid, None) -> (co_budget co <= 0)%Z ->
  map_fits m i n -> kind_known m -> fp_size (f_props F) = i -> total (f_obj F) (f_init F) i f -> numbers i f ->
  ((num <= 0)%Z -> forall fuel, program ap co (Ok (Some (m, F))) (make_random_search num bits) fuel = None) /\
  ((0 < num)%Z -> forall fuel, Z.to_nat num + 1 < fuel ->
     exists r k x, program ap co (Ok (Some (m, F))) (make_random_search num bits) fuel = Some (report ap co m i r x false) /\
       best_record (valued f (drawn_vectors bits i (Z.to_nat num + 1))) k x (f x) /\
       rs_value r = Some (f x) /\ rs_total r <= Z.to_nat num + 1 /\
       (co_cache co = false -> rs_total r = Z.to_nat num + 1 /\ rs_num r = k + 1)).
Proof. apply random_search_run. Qed.
Print Assumptions C117_random_search.

(** Four vectors are drawn for three iterations: 000, 110, 110, 101. *)
Definition example_random_bits (j i : nat) : bool := nth i (nth j [[false; false; false]; [true; true; false]; [true; true; false]; [true; false; true]] []) false.
Definition example_cached (cache : bool) : controller_options := mk_controller_options 0 cache false false None false.
Example C117_case : let ap := example_app None false false false in
  let run cache := program ap (example_cached cache) (example_made 0) (make_random_search 3 example_random_bits) 20 in
  run false = Some ([OResults Printed (mk_results (Some (DFin 2)) 2 4 None None); OSolution Printed [true; true; false]], Exit 0) /\
  exists r, run true = Some ([OResults Printed r; OSolution Printed [true; true; false]], Exit 0) /\ rs_value r = Some (DFin 2) /\ rs_total r = 3 /\
  make_random_search 3 example_random_bits 3 = Ok (random_search_machine 3 3 example_random_bits).
Proof. cbv zeta. split; [vm_compute; reflexivity|]. eexists. split; [vm_compute; reflexivity|]. repeat split. Qed.
