(** What the application does, independently of the code. *)

From Coq Require Import ZArith.
From Verif Require Import Base BitVector_Model Map_Model Map_Spec Double Controller_Model Controller_Spec Decorator_Model Decorator_Spec ControllerStack_Spec
  Application_Model.
Local Open Scope nat_scope.

(** [plays st s rs st' s' r]: from the state [st] of the algorithm and [s] of the function,
    maximize makes the requests [rs], in order, and ends in the states [st'] and [s'];
    [r] tells how. *)
Section Plays.
  Context {S : Type} (o : fobj S) (A : machine).
  Inductive plays : ma_state A -> S -> list request -> ma_state A -> S -> outcome unit -> Prop :=
  | plays_return st s : ma_next A st = MReturn -> plays st s [] st s (Ok tt)
  | plays_throw st s e : ma_next A st = MThrow e -> plays st s [] st s (Throw e)
  | plays_undefined st s : ma_next A st = MUndefined -> plays st s [] st s UB
  | plays_silent st s rs st' s' r : ma_next A st = MSilent ->
      plays (ma_after A st (Ok RVoid)) s rs st' s' r -> plays st s rs st' s' r
  | plays_call st s q p rs st' s' r : ma_next A st = MCall q -> snd (o s q) = Ok p ->
      plays (ma_after A st (Ok p)) (fst (o s q)) rs st' s' r -> plays st s (q :: rs) st' s' r
  | plays_exception st s q e : ma_next A st = MCall q -> snd (o s q) = Throw e ->
      plays st s [q] (ma_after A st (Throw e)) (fst (o s q)) (Throw e)
  | plays_failure st s q : ma_next A st = MCall q -> snd (o s q) = UB ->
      plays st s [q] (ma_after A st UB) (fst (o s q)) UB.
End Plays.

(** The algorithm does not throw LastEvaluation or TargetReached by itself. *)
Definition honest (A : machine) : Prop :=
  forall st e, ma_next A st = MThrow e -> e <> LastEvaluation /\ e <> TargetReached.

(** The states which an algorithm can be in, whatever the answers to its calls; [b] tells
    if maximize has begun. *)
Inductive visited (A : machine) : bool -> ma_state A -> Prop :=
| visited_init : visited A false (ma_init A)
| visited_begin b st : visited A b st -> visited A true (ma_begin A st)
| visited_after st a : visited A true st -> visited A true (ma_after A st a)
| visited_finalize b st : visited A b st -> visited A false (ma_finalize A st).
(** The vectors of the algorithm have [i] bits: those it evaluates and its solution. *)
Definition request_vector (q : request) : bv := match q with REval x | RInc x _ _ | RUpdate x _ | RSafe x => x end.
Definition works (A : machine) (i : nat) : Prop := forall st, visited A true st ->
  (forall q, ma_next A st = MCall q -> length (request_vector q) = i) /\ length (fst (ma_solution A (ma_finalize A st))) = i.
(** The only calls of the algorithm are those of evaluate. *)
Definition evaluates (A : machine) : Prop := forall st q, visited A true st -> ma_next A st = MCall q -> exists x, q = REval x.

(** The options ask to optimize. *)
Definition optimizes (ap : app_options) : Prop :=
  ap_print_default ap = false /\ (1 <= ap_threads ap)%Z /\ ap_load ap = None /\
  ap_ask_known ap = false /\ ap_ask_maximum ap = false /\ ap_ask_size ap = false /\ ap_ask_incremental ap = false.

(** A target was asked. *)
Definition targeted (co : controller_options) : Prop := co_stop_on_maximum co = true \/ co_target co <> None.

(** The request [q] has given [v] for [x], and [v] reaches [t]. *)
Definition reaches (t : dbl) (q : request) (x : bv) (v : dbl) : Prop :=
  dge v t = true /\ (q = REval x \/ (exists w l, q = RInc x w l) \/ q = RUpdate x v).

(** The algorithm which the application runs *)
Definition run_by (ap : app_options) (n : nat) (A : machine) : machine :=
  if ap_restart ap then restart_machine A n 0 else A.

(** A map of one of the kinds which the application makes: no injection or projection, and
    no other composition *)
Definition kind_known (m : option hmap) : Prop := match m with None => True | Some m => kind_of m <> 0%Z end.

(** What is shown at the end of a run *)

(** The image of a solution by the map, if any *)
Definition image (m : option hmap) (x : bv) : bv := match m with None => x | Some m => map_fn m x end.
(** The solution which is shown *)
Definition shown (ap : app_options) (m : option hmap) (x : bv) : bv := if ap_concrete ap then image m x else x.

Definition also (b : bool) (c : output) : list output := if b then [c] else [].
Definition show_results (ap : app_options) (r : results) : list output :=
  also (ap_print_results ap) (OResults Printed r) ++ also (ap_save_results ap) (OResults Saved r).
Definition show_solution (ap : app_options) (x : bv) : list output :=
  also (ap_print_solution ap) (OSolution Printed x) ++ also (ap_save_solution ap) (OSolution Saved x).
Definition show_description (ap : app_options) (x : bv) : list output :=
  also (ap_print_description ap) (ODescription Printed x) ++ also (ap_save_description ap) (ODescription Saved x).
Definition describes (ap : app_options) : bool := ap_print_description ap || ap_save_description ap.

(** The solution and whether the target has been reached, according to how the run of the
    algorithm ended *)
Inductive concludes (A : machine) (st : ma_state A) (trigger : option (bv * dbl)) : outcome unit -> bv -> bool -> Prop :=
| concludes_return : concludes A st trigger (Ok tt) (fst (ma_solution A (ma_finalize A st))) false
| concludes_budget : concludes A st trigger (Throw LastEvaluation) (fst (ma_solution A (ma_finalize A st))) false
| concludes_target x v : trigger = Some (x, v) -> concludes A st trigger (Throw TargetReached) x true.

(** The results, given the state of the controllers *)
Definition final_results {S} (co : controller_options) (mid : middle)
  (cs : option (bv * dbl) * middle_state mid (improvement * (nat * S))) (success : bool) : results :=
  let t := middle_inner mid (snd cs) in
  mk_results (imp_value (fst t)) (imp_num (fst t)) (fst (snd t))
    (match co_stop_on_maximum co, co_target co with false, None => None | _, _ => Some success end)
    (option_map lookup_ratio (middle_cache mid (snd cs))).

(** The exit code *)
Definition exit_code (co : controller_options) (success : bool) : nat :=
  if success then 0 else if co_stop_on_maximum co then 2 else match co_target co with Some _ => 3 | None => 0 end.

(** The outputs and the ending of the program, given the results, the solution, and whether
    the target has been reached; the size of the solution is [i]. *)
Definition report (ap : app_options) (co : controller_options) (m : option hmap) (i : nat) (r : results) (x : bv) (success : bool) : list output * ending :=
  let y := shown ap m x in
  if negb (describes ap) || (length y =? i)
  then (show_results ap r ++ show_solution ap y ++ show_description ap (image m y), Exit (exit_code co success))
  else (show_results ap r ++ show_solution ap y, Undefined).

(** How the program ends after an exception *)
Definition ending_of (e : exn) : ending := match e with OtherException => Uncaught | _ => Exit 1 end.

(** The function does not throw LastEvaluation or TargetReached by itself. *)
Definition quiet {S} (o : fobj S) : Prop := forall s r, snd (o s r) <> Throw LastEvaluation /\ snd (o s r) <> Throw TargetReached.
