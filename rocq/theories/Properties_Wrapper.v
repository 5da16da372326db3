(** Properties of the algorithms which call other libraries: C145. *)

From Coq Require Import ZArith Lia.
From Verif Require Import Base BaseLemmas BitVector_Model Double Rounding_Model Controller_Model Wrapper_Model Wrapper_Spec Wrapper_Proofs.
Local Open Scope nat_scope.

Lemma converts_all vs : Forall2 converts vs (map to_float vs).
Proof. induction vs; constructor; [apply to_float_converts|assumption]. Qed.

(** ** C145. P3, LTGA, hBOA and GOMEA *)

(** P3, LTGA and hBOA, whatever the library asks for, for every function, even one which
    throws or keeps a state, and however long the maximization goes on: the function has
    evaluated the vectors asked for, one after the other, and the library has received
    their values as floats; it ends by itself, by the exception of the function, or by
    asking for a vector which is not one of the function. Afterwards the solution is the
    first vector of greatest value among those, compared as floats, and its value is the
    float. But if no value, as a float, is greater than -2^31, then finalize is undefined,
    unless there are no bits. What was done before the maximization has no effect. *)
Theorem C145_solution (S : Type) (o : fobj S) (n : nat) (asks : list dbl -> option (list bool)) (k : nat) (a a' : option layer) (s t : S) (e : ending) :
  p3_maximize o n asks k a s = ((a', t), e) ->
  exists xs vs fs t', evaluates o s xs vs t' /\ Forall (fun x => length x = n) xs /\ Forall2 converts vs fs /\ asked asks xs fs /\
    match e with
    | Running => length xs = k /\ t = t'
    | Finished => asks fs = None /\ t = t'
    | Raised ex => exists x, asks fs = Some x /\ length x = n /\ o t' (REval x) = (t, Throw ex)
    | Undefined => exists x, asks fs = Some x /\ (length x <> n \/ o t' (REval x) = (t, UB) \/ o t' (REval x) = (t, Ok RVoid))
    end /\
    ((exists x v, p3_finalize n a' = Ok (x, v) /\ first_best xs fs x v /\ dlt lowest v = true) \/
     ((forall f, In f fs -> dlt lowest f = false) /\ p3_finalize n a' = if n =? 0 then Ok ([], lowest) else UB)).
Proof.
  intros H. destruct (p3_run _ _ _ _ _ _ _ _ _ H) as (xs & vs & t' & l & -> & HD & EV & FL & AS & EN).
  exists xs, vs, (map to_float vs), t'. split; [exact EV|]. split; [exact FL|]. split; [apply converts_all|]. split; [exact AS|]. split; [exact EN|].
  exact (p3_finalize_held n l xs _ FL HD).
Qed.
Print Assumptions C145_solution.

(** If the values of the function are floats greater than -2^31 (for example, integers
    between -2^24 and 2^24), then the solution is the first vector of greatest value, with
    its value. *)
Theorem C145_exact (S : Type) (o : fobj S) (n : nat) (asks : list dbl -> option (list bool)) (k : nat) (a a' : option layer) (s t : S) (e : ending) :
  (forall s x s' v, o s (REval x) = (s', Ok (RValue v)) -> is_float v /\ dlt lowest v = true) ->
  p3_maximize o n asks k a s = ((a', t), e) ->
  exists xs vs t', evaluates o s xs vs t' /\ asked asks xs vs /\ (xs = [] \/ exists x v, p3_finalize n a' = Ok (x, v) /\ first_best xs vs x v).
Proof.
  intros FL H. destruct (C145_solution _ _ _ _ _ _ _ _ _ _ H) as (xs & vs & fs & t' & EV & _ & CV & AS & _ & FI).
  assert (ALL : Forall (fun v => is_float v /\ dlt lowest v = true) vs).
  { clear - FL EV. induction EV as [|s x v s' xs vs t E EV IH]; constructor; [now apply (FL _ _ _ _ E)|exact IH]. }
  assert (fs = vs) as ->.
  { clear - CV ALL. induction CV as [|v f vs fs C CV IH]; [reflexivity|]. inversion ALL as [|? ? (F & _) ALL']; subst. f_equal; [now apply converts_exact|now apply IH]. }
  exists xs, vs, t'. split; [exact EV|]. split; [exact AS|]. destruct FI as [(x & v & F1 & F2 & _)|(LOW & _)]; [right; now exists x, v|left].
  destruct EV as [|s x v s' xs vs t1 E EV]; [reflexivity|]. exfalso. inversion ALL as [|? ? (_ & B) _]; subst. rewrite (LOW v) in B by now left. discriminate.
Qed.
Print Assumptions C145_exact.

(** A vector of greater value than the solution, if any was evaluated, has the same float
    as the solution. *)
Theorem C145_order (xs : list bv) (vs fs : list dbl) (x : bv) (f : dbl) : Forall2 converts vs fs -> first_best xs fs x f ->
  exists i v, nth_error xs i = Some x /\ nth_error vs i = Some v /\ converts v f /\
    forall j w, nth_error vs j = Some w -> dlt v w = true -> converts w f.
Proof.
  intros CV (i & X & F & NN & LE & _). assert (AT : forall j, match nth_error vs j, nth_error fs j with Some v, Some f => converts v f | None, None => True | _, _ => False end).
  { clear - CV. induction CV as [|v f vs fs C CV IH]; intros [|j]; cbn [nth_error]; [exact I|exact I| |]. exact C. apply IH. }
  pose proof (AT i) as AI. rewrite F in AI. destruct (nth_error vs i) as [v|] eqn:V; [|contradiction].
  exists i, v. repeat split; [exact X|exact V|exact AI|]. intros j w W LT. pose proof (AT j) as AJ. rewrite W in AJ.
  destruct (nth_error fs j) as [g|] eqn:G; [|contradiction]. pose proof (converts_monotone _ _ _ _ AI AJ LT) as M.
  assert (g = f) as ->; [|exact AJ]. apply dle_antisym; [|exact M]. apply (LE j); [exact G|]. now apply dle_nan in M.
Qed.
Print Assumptions C145_order.

(** The best vector may be missed: given two vectors of the same size, there are a
    function and an order of evaluation such that the solution is one of the two although
    the value of the other one, which has been evaluated, is greater. *)
Theorem C145_missed (x y : bv) : length x = length y -> x <> y ->
  exists (f : bv -> dbl) (asks : list dbl -> option (list bool)) a v,
    p3_maximize (plain (fun z => Ok (f z))) (length x) asks 3 None tt = ((a, tt), Finished) /\
    asks [] = Some x /\ asks [f x] = Some y /\
    p3_finalize (length x) a = Ok (x, v) /\ v = f x /\ dlt (f x) (f y) = true.
Proof.
  intros L NE. set (f := fun z : bv => if list_eq_dec Bool.bool_dec z y then DFin ((2 ^ 24 + 1) * 2 ^ 1074) else DFin (2 ^ 24 * 2 ^ 1074)).
  exists f, (fun l => match l with [] => Some x | [_] => Some y | _ => None end).
  assert (FX : f x = DFin (2 ^ 24 * 2 ^ 1074)) by (unfold f; destruct (list_eq_dec Bool.bool_dec x y); [contradiction|reflexivity]).
  assert (FY : f y = DFin ((2 ^ 24 + 1) * 2 ^ 1074)) by (unfold f; destruct (list_eq_dec Bool.bool_dec y y); [reflexivity|contradiction]).
  exists (Some (mk_layer 2 (f x) 1 x)), (f x). split; [|split; [|split; [|split; [|split]]]]; try reflexivity.
  - unfold p3_maximize. cbn [optimize]. unfold layer_evaluate. rewrite !evaluator_cases. rewrite Nat.eqb_refl. cbn [plain fst snd bind]. rewrite FX.
    assert (T1 : to_float (DFin (2 ^ 24 * 2 ^ 1074)) = DFin (2 ^ 24 * 2 ^ 1074)) by (vm_compute; reflexivity).
    assert (T2 : to_float (DFin ((2 ^ 24 + 1) * 2 ^ 1074)) = DFin (2 ^ 24 * 2 ^ 1074)) by (vm_compute; reflexivity).
    rewrite T1. assert (D1 : dlt (l_best_fitness layer_make) (DFin (2 ^ 24 * 2 ^ 1074)) = true) by (vm_compute; reflexivity).
    rewrite D1. cbn [app]. rewrite evaluator_cases, <- L, Nat.eqb_refl. cbn [plain fst snd bind l_best_fitness l_evaluations]. rewrite FY, T2, dlt_irrefl. reflexivity.
  - cbn [p3_finalize l_best_solution l_best_fitness]. unfold bv_from_vector_bool. rewrite repeat_length, Nat.eqb_refl. cbn [assertb bind]. now rewrite map_bits.
  - rewrite FX, FY. vm_compute. reflexivity.
Qed.
Print Assumptions C145_missed.

(** If the values of the function are not greater than -2^31, finalize is undefined,
    whatever the library does. *)
Theorem C145_low (S : Type) (o : fobj S) (n : nat) (asks : list dbl -> option (list bool)) (k : nat) (a a' : option layer) (s t : S) (e : ending) :
  0 < n -> (forall s x s' v, o s (REval x) = (s', Ok (RValue v)) -> dlt lowest v = false) ->
  p3_maximize o n asks k a s = ((a', t), e) -> p3_finalize n a' = UB.
Proof.
  intros N LOW H. destruct (p3_run _ _ _ _ _ _ _ _ _ H) as (xs & vs & t' & l & -> & HD & EV & FL & _).
  destruct (p3_finalize_held n l xs _ FL HD) as [(x & v & _ & (i & _ & F & _) & D)|(_ & ->)]; [exfalso|destruct n; [lia|reflexivity]].
  apply nth_error_In in F. apply in_map_iff in F. destruct F as (w & <- & W).
  assert (B : dlt lowest w = false). { clear - EV W LOW. induction EV as [|s x v s' xs vs t E EV IH]; [contradiction|]. destruct W as [<-|W]; [now apply (LOW _ _ _ _ E)|now apply IH]. }
  assert (NW : is_nan w = false). { rewrite <- to_float_nan. now apply dlt_nan in D. }
  assert (LE : dle w lowest = true) by (apply not_lt_le; [reflexivity|exact NW|exact B]).
  apply to_float_monotone in LE. assert (TL : to_float lowest = lowest) by (vm_compute; reflexivity). rewrite TL in LE.
  apply dlt_not_le in D. change int_min with lowest in D. congruence.
Qed.
Print Assumptions C145_low.

(** GOMEA, whatever the library asks for and for every function: the function has
    evaluated the vectors asked for, and the library has received their values. Afterwards
    the solution is the first vector of greatest value, with its value; or the first
    vector, if its value is not a number; or, if nothing was evaluated, the null vector
    with a value which is not initialised. *)
Theorem C145_gomea (S : Type) (o : fobj S) (n : nat) (asks : list dbl -> option (list Z)) (k : nat) (a a' : option improvement) (s t : S) (e : ending) :
  gomea_maximize o n asks k a s = ((a', t), e) ->
  exists xs vs t', evaluates o s xs vs t' /\ Forall (fun x => length x = n) xs /\ asked asks (map chars_of xs) vs /\
    match e with
    | Running => length xs = k /\ t = t'
    | Finished => asks vs = None /\ t = t'
    | Raised ex => exists x, asks vs = Some (chars_of x) /\ length x = n /\ o t' (REval x) = (t, Throw ex)
    | Undefined => exists c, asks vs = Some c /\ ((length c <> n \/ (forall x, c <> chars_of x)) \/
        exists x, c = chars_of x /\ (o t' (REval x) = (t, UB) \/ o t' (REval x) = (t, Ok RVoid)))
    end /\
    match vs with
    | [] => gomea_finalize a' = Ok (repeat false n, None)
    | v :: _ =>
        if is_nan v then exists x, hd_error xs = Some x /\ gomea_finalize a' = Ok (x, Some v)
        else exists x w, gomea_finalize a' = Ok (x, Some w) /\ first_best xs vs x w
    end.
Proof.
  intros H. destruct (gomea_run _ _ _ _ _ _ _ _ _ H) as (xs & vs & t' & i & -> & (LL & _ & TR) & EV & FL & AS & EN).
  exists xs, vs, t'. split; [exact EV|]. split; [exact FL|]. split; [exact AS|]. split; [exact EN|]. cbn [gomea_finalize].
  destruct vs as [|v vs], xs as [|x xs]; try discriminate.
  - rewrite TR. reflexivity.
  - destruct (is_nan v).
    + destruct TR as (-> & ->). now exists x.
    + destruct TR as (w & -> & B). now exists (imp_bv i), w.
Qed.
Print Assumptions C145_gomea.

(** The number of ones of three bits, and a library which asks for 100, 110, 011 and ends:
    the solution is 110. With values from -2^31 downwards, finalize is undefined. A budget
    of one evaluation: the exception ends the maximization. *)
Example C145_case :
  let ones := plain (fun x => Ok (DFin (Z.of_nat (length (filter (fun b => b) x)) * 2 ^ 1074))) in
  let deep := plain (fun x => Ok (DFin ((- 2 ^ 31 - Z.of_nat (length (filter (fun b => b) x))) * 2 ^ 1074))) in
  let plan := [[true; false; false]; [true; true; false]; [false; true; true]] in
  let asks := fun l : list dbl => nth_error plan (length l) in
  let '((a1, _), e1) := p3_maximize ones 3 asks 10 None tt in
  let '((a2, _), e2) := p3_maximize deep 3 asks 10 None tt in
  let '((a3, _), e3) := p3_maximize (on_budget ones 1) 3 asks 10 a2 (0, tt) in
  let '((a4, _), e4) := gomea_maximize deep 3 (fun l => option_map chars_of (asks l)) 2 None tt in
  e1 = Finished /\ p3_finalize 3 a1 = Ok ([true; true; false], DFin (2 * 2 ^ 1074)) /\
  e2 = Finished /\ p3_finalize 3 a2 = UB /\
  e3 = Raised LastEvaluation /\ p3_finalize 3 a3 = Ok ([true; false; false], DFin (2 ^ 1074)) /\
  e4 = Running /\ gomea_finalize a4 = Ok ([true; false; false], Some (DFin ((- 2 ^ 31 - 1) * 2 ^ 1074))).
Proof. vm_compute. repeat split; reflexivity. Qed.

(** The hypotheses of C145_exact and C145_low are met by a linear and by a constant
    function; two vectors of the same size. *)
Example C145_hypotheses :
  (forall (s : unit) x s' v, plain (fun x => Ok (DFin ((if hd false x then 5 else -3) * 2 ^ 1074))) s (REval x) = (s', Ok (RValue v)) -> is_float v /\ dlt lowest v = true) /\
  (forall (s : unit) x s' v, plain (fun x => Ok DNegInf) s (REval x) = (s', Ok (RValue v)) -> dlt lowest v = false) /\
  length [true; false] = length [false; true] /\ [true; false] <> [false; true].
Proof.
  split; [|split; [|split; [reflexivity|discriminate]]].
  - intros s x s' v H. cbn [plain bind] in H. injection H as _ <-. split; [apply single_integer; now destruct (hd false x)|]. destruct (hd false x); vm_compute; reflexivity.
  - intros s x s' v H. cbn [plain bind] in H. injection H as _ <-. reflexivity.
Qed.
