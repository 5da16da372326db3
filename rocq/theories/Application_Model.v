(** Model of the application: lib/hnco/app/application.cc and app/hnco.cc.

    An algorithm is seen through the requests it makes to its function and through the
    solution it gives back.  With several threads, what it does with the copies of the
    function is inside of the algorithm: these copies have no controllers
    (application.cc:75-78).  Clocks, the display of functions and maps, the Walsh transform and the
    format of numbers are not modelled. *)

From Coq Require Import ZArith.
From Verif Require Import Base BitVector_Model Map_Model Double Controller_Model Decorator_Model.
Local Open Scope nat_scope.

(** ** Algorithms *)

(** What an algorithm does next: it calls the function, works on its own, returns from
    maximize, throws or has an undefined behaviour. *)
Inductive move := MCall (r : request) | MSilent | MReturn | MThrow (e : exn) | MUndefined.

(** An algorithm, algorithm.hh:46-163: its state when it is made, at the beginning of
    maximize, after a move (with the outcome of the call, if any; algorithms catch no
    exception) and after finalize; and its solution *)
Record machine := mk_machine {
  ma_state : Type;
  ma_init : ma_state;
  ma_begin : ma_state -> ma_state;
  ma_next : ma_state -> move;
  ma_after : ma_state -> outcome reply -> ma_state;
  ma_finalize : ma_state -> ma_state;
  ma_solution : ma_state -> bv * dbl }.

(** A run of maximize; [None] if it needs more than [fuel] moves *)
Fixpoint play {S} (o : fobj S) (A : machine) (fuel : nat) (st : ma_state A) (s : S) : option (ma_state A * S * outcome unit) :=
  match fuel with
  | 0 => None
  | Datatypes.S fuel' =>
      match ma_next A st with
      | MReturn => Some (st, s, Ok tt)
      | MThrow e => Some (st, s, Throw e)
      | MUndefined => Some (st, s, UB)
      | MSilent => play o A fuel' (ma_after A st (Ok RVoid)) s
      | MCall r =>
          let '(s', a) := o s r in
          let st' := ma_after A st a in
          match a with
          | Ok _ => play o A fuel' st' s'
          | Throw e => Some (st', s', Throw e)
          | UB => Some (st', s', UB)
          end
      end
  end.

(** Restart, restart.cc:28-52, with the number of iterations [num], and the solution of
    a new algorithm (algorithm.hh:117).  The state holds the solution, the number of
    complete runs, whether a run is in progress, and the decorated algorithm.  finalize is
    that of Algorithm: it does nothing. *)
Record restart_state (T : Type) := mk_restart { re_solution : bv * dbl; re_runs : nat; re_running : bool; re_inner : T }.
Arguments mk_restart {T}.
Arguments re_solution {T}.
Arguments re_runs {T}.
Arguments re_running {T}.
Arguments re_inner {T}.
Definition restart_machine (A : machine) (n : nat) (num : Z) : machine :=
  mk_machine (restart_state (ma_state A))
    (mk_restart (repeat false n, DFin 0) 0 false (ma_init A))
    (fun st => mk_restart (re_solution st) 0 false (re_inner st))
    (fun st =>
       if re_running st then match ma_next A (re_inner st) with MReturn => MSilent | mv => mv end
       else if ((0 <? num) && (num <=? Z.of_nat (re_runs st)))%Z then MReturn else MSilent)
    (fun st a =>
       if re_running st then
         match ma_next A (re_inner st) with
         | MReturn =>
             let t := ma_finalize A (re_inner st) in
             let s := ma_solution A t in
             let sol := if (re_runs st =? 0) || dgt (snd s) (snd (re_solution st)) then s else re_solution st in
             mk_restart sol (re_runs st + 1) false t
         | _ => mk_restart (re_solution st) (re_runs st) true (ma_after A (re_inner st) a)
         end
       else mk_restart (re_solution st) (re_runs st) true (ma_begin A (re_inner st)))
    (fun st => st)
    re_solution.

(** ** Options and outputs *)

Record app_options := mk_app_options {
  ap_print_default : bool;
  ap_threads : Z;
  ap_load : option (outcome bv);  (** the solution in the file *)
  ap_ask_known : bool;
  ap_ask_maximum : bool;
  ap_ask_size : bool;
  ap_ask_incremental : bool;
  ap_restart : bool;
  ap_print_results : bool;
  ap_save_results : bool;
  ap_concrete : bool;
  ap_print_solution : bool;
  ap_save_solution : bool;
  ap_print_description : bool;
  ap_save_description : bool }.

(** The results: the value is [None] when it is not initialized; the ratio is that of
    two numbers. *)
Record results := mk_results {
  rs_value : option dbl;
  rs_num : nat;
  rs_total : nat;
  rs_success : option bool;
  rs_ratio : option (nat * nat) }.

Inductive channel := Printed | Saved.
(** What is printed or saved; a description is seen as the vector described by the
    function which has been made, without its modifiers. *)
Inductive output :=
| OParameters
| OValue (v : dbl)
| OYes (b : bool)
| OMaximum (v : dbl)
| OSize (n : nat)
| OResults (c : channel) (r : results)
| OSolution (c : channel) (x : bv)
| ODescription (c : channel) (x : bv).

(** A part of the program: what it prints, and the exit code if it ends the program *)
Definition part : Type := list output * outcome (option nat).
Definition andthen (a b : part) : part :=
  match snd a with
  | Ok None => (fst a ++ fst b, snd b)
  | _ => a
  end.
Definition when (b : bool) (p : part) : part := if b then p else ([], Ok None).

(** ** Parts *)

(** application.cc:47-70 *)
Definition app_init (ap : app_options) : part :=
  if ap_print_default ap then ([OParameters], Ok (Some 0))
  else if (ap_threads ap <? 1)%Z then ([], Throw RuntimeError)
  else ([], Ok None).

(** The vector described by the function without its modifiers: modifier.cc:49-55,
    decorator.hh:57 *)
Definition describe (m : option hmap) (n : nat) (x : bv) : outcome bv :=
  match m with
  | None => Ok x
  | Some m =>
      i <- map_input_size m ;;
      _ <- assertb (length x =? i) ;;
      ' (_, y) <- map_apply m x (repeat false n) ;;
      Ok y
  end.
Definition print_description (c : channel) (m : option hmap) (n : nat) (x : bv) : part :=
  match describe m n x with
  | Ok y => ([ODescription c y], Ok None)
  | Throw e => ([], Throw e)
  | UB => ([], UB)
  end.
(** The size of the function without its modifiers, which is that of the output of the
    map *)
Definition base_size (m : option hmap) (F : func) : nat :=
  match m with None => fp_size (f_props F) | Some m => map_output_size m end.

(** application.cc:83-100; [o] is the function with its controllers, in its first state
    [s]. *)
Definition load_solution {S} (ap : app_options) (m : option hmap) (F : func) (o : fobj S) (s : S) : part :=
  match ap_load ap with
  | None => ([], Ok None)
  | Some (Throw e) => ([], Throw e)
  | Some UB => ([], UB)
  | Some (Ok x) =>
      if negb (length x =? fp_size (f_props F)) then ([], Throw RuntimeError)
      else
        andthen
          (if ap_print_results ap then
             match snd (o s (REval x)) with
             | Ok (RValue v) => ([OValue v], Ok None)
             | Ok RVoid => ([], UB)
             | Throw e => ([], Throw e)
             | UB => ([], UB)
             end
           else ([], Ok None))
          (andthen (when (ap_print_description ap) (print_description Printed m (base_size m F) x))
             ([], Ok (Some 0)))
  end.

(** Controllers delegate the calls of has_known_maximum, get_maximum, get_bv_size and
    provides_incremental_evaluation to the function (controller.hh:55-67), but the last one
    in Cache (controller.hh:399). *)
Definition controlled_inc (mid : middle) (p : fprops) : bool :=
  match mid with MidNone | MidBudget _ => fp_inc p | _ => false end.

(** application.cc:102-131 *)
Definition print_information (ap : app_options) (mid : middle) (p : fprops) : part :=
  andthen
    (when (ap_ask_known ap)
       match fp_known p with Ok b => ([OYes b], Ok (Some 0)) | Throw e => ([], Throw e) | UB => ([], UB) end)
  (andthen
    (when (ap_ask_maximum ap)
       match fp_known p with
       | Ok true => match fp_max p with Ok v => ([OMaximum v], Ok (Some 0)) | Throw e => ([], Throw e) | UB => ([], UB) end
       | Ok false => ([], Throw RuntimeError)
       | Throw e => ([], Throw e)
       | UB => ([], UB)
       end)
  (andthen
    (when (ap_ask_size ap) ([OSize (fp_size p)], Ok (Some 0)))
    (when (ap_ask_incremental ap) ([OYes (controlled_inc mid p)], Ok (Some 0))))).

(** application.cc:193-228 *)
Definition print_results (ap : app_options) (co : controller_options) (i : improvement) (total : nat)
  (c : option cache_state) (target_reached : bool) : part :=
  let r := mk_results (imp_value i) (imp_num i) total
             (if co_stop_on_maximum co || match co_target co with None => false | Some _ => true end then Some target_reached else None)
             (option_map lookup_ratio c) in
  andthen (when (ap_print_results ap) ([OResults Printed r], Ok None))
    (when (ap_save_results ap) ([OResults Saved r], Ok None)).

(** application.cc:231-267 *)
Definition manage_solution (ap : app_options) (m : option hmap) (F : func) (x : bv) : part :=
  let concrete :=
    match ap_concrete ap, m with
    | true, Some m =>
        let n := map_output_size m in
        ' (_, y) <- map_apply m x (firstn n x ++ repeat false (n - length x)) ;; Ok y
    | _, _ => Ok x
    end in
  match concrete with
  | Throw e => ([], Throw e)
  | UB => ([], UB)
  | Ok y =>
      andthen (when (ap_print_solution ap) ([OSolution Printed y], Ok None))
     (andthen (when (ap_save_solution ap) ([OSolution Saved y], Ok None))
     (andthen (when (ap_print_description ap) (print_description Printed m (base_size m F) y))
              (when (ap_save_description ap) (print_description Saved m (base_size m F) y))))
  end.

(** application.cc:269-315: the end of maximize, given the state [st] of the algorithm,
    that of the controllers, and how the run ended *)
Definition end_of_run {S} (ap : app_options) (co : controller_options) (m : option hmap) (F : func) (mid : middle) (target : option dbl)
  (A : machine) (st : ma_state A) (cs : option (bv * dbl) * middle_state mid (improvement * (nat * S))) (r : outcome unit) : part :=
  let finish (x : bv) (target_reached : bool) : part :=
    andthen (print_results ap co (fst (middle_inner mid (snd cs))) (fst (snd (middle_inner mid (snd cs))))
               (middle_cache mid (snd cs)) target_reached)
   (andthen (manage_solution ap m F x)
      ([], Ok (Some (if co_stop_on_maximum co && negb target_reached then 2
                     else if match co_target co with None => false | Some _ => true end && negb target_reached then 3
                     else 0)))) in
  match r with
  | Ok tt | Throw LastEvaluation => finish (fst (ma_solution A (ma_finalize A st))) false
  | Throw TargetReached =>
      match target, fst cs with
      | Some _, Some (x, _) => finish x true
      | Some _, None => finish [] true
      | None, _ => ([], UB)
      end
  | Throw e => ([], Throw e)
  | UB => ([], UB)
  end.

(** ** The program *)

Inductive ending := Exit (code : nat) | Uncaught | Undefined.

(** hnco.cc:30-43: LastEvaluation and TargetReached are derived from
    std::runtime_error (exception.hh:32-43). *)
Definition end_of_program (p : part) : list output * ending :=
  (fst p,
   match snd p with
   | Ok (Some code) => Exit code
   | Ok None => Exit 0
   | Throw OtherException => Uncaught
   | Throw _ => Exit 1
   | UB => Undefined
   end).

(** application.cc:317-326 and 177-190.  [made] is what make_function_modifier gives: the generator
    is reset before each copy is made, so that all the copies are the same
    (application.cc:75-78).  [factory n] makes the algorithm.  [None] if the random draws
    are not enough to make the function, or if the run of the algorithm needs more than
    [fuel] moves. *)
Definition program (ap : app_options) (co : controller_options) (made : outcome (option (option hmap * func)))
  (factory : nat -> outcome machine) (fuel : nat) : option (list output * ending) :=
  match app_init ap with
  | (out, Ok None) =>
      match made with
      | Ok None => None
      | Throw e => Some (end_of_program (out, Throw e))
      | UB => Some (end_of_program (out, UB))
      | Ok (Some (m, F)) =>
          match make_function_controller co F with
          | Throw e => Some (end_of_program (out, Throw e))
          | UB => Some (end_of_program (out, UB))
          | Ok (mid, target) =>
              let n := fp_size (f_props F) in
              let o := controlled_obj mid target (f_obj F) in
              let s := controlled_init mid n (f_init F) in
              let early := andthen (load_solution ap m F o s) (print_information ap mid (f_props F)) in
              match early with
              | (out, Ok None) =>
                  match factory n with
                  | Throw e => Some (end_of_program (out, Throw e))
                  | UB => Some (end_of_program (out, UB))
                  | Ok A =>
                      let A := if ap_restart ap then restart_machine A n 0 else A in
                      match play o A fuel (ma_begin A (ma_init A)) s with
                      | None => None
                      | Some (st, cs, r) => Some (end_of_program (andthen (out, Ok None) (end_of_run ap co m F mid target A st cs r)))
                      end
                  end
              | p => Some (end_of_program p)
              end
          end
      end
  | p => Some (end_of_program p)
  end.
