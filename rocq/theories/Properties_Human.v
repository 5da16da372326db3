(** Properties of the algorithm played by its user: C132. *)

From Coq Require Import ZArith String Lia.
From Verif Require Import Base BitVector_Model BitVector_Spec Map_Model Map_Spec Double Controller_Model Controller_Spec
  Decorator_Model Decorator_Spec ControllerStack_Spec Application_Model Application_Spec
  Search_Model Search_Spec Human_Model Human_Spec Human_Proofs Properties_Decorator Properties_Application.
Local Open Scope nat_scope.
Local Open Scope list_scope.

(** * C132: the algorithm played by its user *)

Section Human.
  Context (ap : app_options) (co : controller_options) (m : option hmap) (F : func) (mid : middle) (target : option dbl) (i n : nat) (f : bv -> dbl).
  Context (Hi : 0 < i) (HO : optimizes ap) (HR : ap_restart ap = false) (HC : make_function_controller co F = Ok (mid, target)).
  Context (HM : map_fits m i n) (HK : kind_known m) (HF : fp_size (f_props F) = i) (HT : total (f_obj F) (f_init F) i f) (HN : numbers i f).
  Context (num : Z) (words : list string).
  Let V := typed_vectors i words.
  Context (HD : co_cache co = false \/ NoDup V).
  Let run := program ap co (Ok (Some (m, F))) (make_human num words).

  (** The program evaluates the vectors which are typed, one by one, and ends when one of them
      reaches the target, after the given number of iterations, when one more vector is typed
      than the budget allows, or when the user quits.  It gives the first best vector. *)
  Theorem C132_ends : settled co target f i num words -> V <> [] -> forall fuel, length V < fuel ->
    exists r x success, run fuel = Some (report ap co m i r x success) /\
      rs_success r = (match co_stop_on_maximum co, co_target co with false, None => None | _, _ => Some success end) /\
      search_ends f target V (allowed co (asked num (length V))) r x success.
  Proof. exact (proj1 (human_run ap co m F mid target i n f Hi HO HR HC HM HK HF HT HN num words HD)). Qed.

  (** If the user quits at once, then the solution is the null vector, which has not been
      evaluated, and there is no value. *)
  Theorem C132_quits_at_once : quits words -> V = [] -> forall fuel, 0 < fuel ->
    exists r, run fuel = Some (report ap co m i r (repeat false i) false) /\ rs_value r = None /\ rs_total r = 0.
  Proof. exact (proj1 (proj2 (human_run ap co m F mid target i n f Hi HO HR HC HM HK HF HT HN num words HD))). Qed.

  (** Otherwise, the program never ends, even though its input has ended. *)
  Theorem C132_never_ends : ~ settled co target f i num words -> forall fuel, run fuel = None.
  Proof. exact (proj2 (proj2 (human_run ap co m F mid target i n f Hi HO HR HC HM HK HF HT HN num words HD))). Qed.
End Human.
Print Assumptions C132_ends.
Print Assumptions C132_quits_at_once.
Print Assumptions C132_never_ends.

(** A function of size zero is refused. *)
Theorem C132_size_zero ap co m F mid target num words fuel : optimizes ap -> make_function_controller co F = Ok (mid, target) -> fp_size (f_props F) = 0 ->
  program ap co (Ok (Some (m, F))) (make_human num words) fuel = Some ([], Exit 1).
Proof.
  intros (H1 & H2 & H3 & H4 & H5 & H6 & H7) HC HS. unfold program, app_init. rewrite H1. destruct (Z.ltb_spec (ap_threads ap) 1); [lia|]. rewrite HC.
  unfold load_solution, print_information. rewrite H3, H4, H5, H6, H7. cbn [when andthen snd fst app]. now rewrite HS.
Qed.
Print Assumptions C132_size_zero.

(** Three bits: a word which is too short, one which is too long, and one which is not made of
    bits; with one iteration; with a budget of two evaluations, and of one; with the target 2;
    without "quit" *)
Definition human_words : list string := ["01"; "0101"; "00x"; "000"; "quit"; "111"]%string.
Example C132_case :
  typed_vectors 3 human_words = [[false; true; false]; [false; false; true]; [false; false; false]] /\
  let run co num words := program (example_app None false false false) co (example_made 0) (make_human num words) 20 in
  let co budget target := mk_controller_options budget false false false target false in
  run (co 0%Z None) 0%Z human_words =
    Some ([OResults Printed (mk_results (Some (DFin 1)) 1 3 None None); OSolution Printed [false; true; false]], Exit 0) /\
  run (co 0%Z None) 1%Z human_words =
    Some ([OResults Printed (mk_results (Some (DFin 1)) 1 2 None None); OSolution Printed [false; true; false]], Exit 0) /\
  run (co 2%Z None) 0%Z ["110"; "111"; "000"]%string =
    Some ([OResults Printed (mk_results (Some (DFin 3)) 2 2 None None); OSolution Printed [true; true; true]], Exit 0) /\
  run (co 1%Z (Some (DFin 3))) 0%Z ["110"; "111"]%string =
    Some ([OResults Printed (mk_results (Some (DFin 2)) 1 1 (Some false) None); OSolution Printed [true; true; false]], Exit 3) /\
  run (co 0%Z (Some (DFin 2))) 0%Z ["010"; "110"; "111"]%string =
    Some ([OResults Printed (mk_results (Some (DFin 2)) 2 2 (Some true) None); OSolution Printed [true; true; false]], Exit 0) /\
  run (co 0%Z None) 0%Z ["quit"]%string =
    Some ([OResults Printed (mk_results None 0 0 None None); OSolution Printed [false; false; false]], Exit 0) /\
  run (co 2%Z None) 0%Z ["110"; "111"]%string = None.
Proof. repeat split; vm_compute; reflexivity. Qed.

(** The hypotheses hold. *)
Example C132_hypotheses :
  let f x := DFin (Z.of_nat (weight x)) in
  let co := mk_controller_options 2 true false false (Some (DFin 3)) false in
  optimizes (example_app None false false false) /\ make_function_controller co example_func = Ok (middle_of co, Some (DFin 3)) /\
  total (f_obj example_func) (f_init example_func) 3 f /\ numbers 3 f /\ NoDup (typed_vectors 3 human_words) /\
  settled co (Some (DFin 3)) f 3 0 human_words /\ ~ settled co (Some (DFin 3)) f 3 0 ["110"; "011"]%string.
Proof.
  cbv zeta. split; [repeat split; cbn; auto with zarith|]. split; [reflexivity|]. split.
  { intros xs _. induction xs as [|x xs IH]; [reflexivity|]. cbn. now rewrite <- IH. }
  split; [intros x _; reflexivity|]. split; [repeat constructor; cbn; intuition discriminate|]. split; [left; cbn; auto 10|].
  intros [Q|[Q|[Q|(t & x & E & H & D)]]].
  - cbn in Q. intuition discriminate.
  - cbn in Q. now destruct Q.
  - cbn in Q. now destruct Q.
  - injection E as <-. vm_compute in H. destruct H as [<-|[<-|[]]]; vm_compute in D; discriminate.
Qed.
