(** Properties of the functions made by the application: C109 (modifiers) and C110
    (controllers). *)

From Coq Require Import ZArith Permutation Sorted.
From Verif Require Import Base BitVector_Model BitVector_Spec BitMatrix_Spec Map_Model Map_Spec Neighborhood_Model Function_Spec Double
  Controller_Model Controller_Spec Controller_Proofs Decorator_Model Decorator_Spec Decorator_Proofs
  ControllerStack_Spec ControllerStack_Proofs Properties_Controller.
Local Open Scope nat_scope.

(** * C109: the function with its modifiers *)

(** A random map is a map of the kind which was asked, from vectors of the size of the
    function, or of the size of the option for linear and affine maps, to vectors of the
    size of the function.  It is one-to-one for the kinds which keep the size and onto if
    it was asked to be.  The options which are rejected and those which violate an
    assertion are exactly those of the specification; [Ok None] means that the draws ran
    out. *)
Theorem C109_random_map o loaded d n : 0 < n -> (0 < mp_kind o)%Z -> mp_random o = true -> draws_ok o n d ->
  (map_rejected o n -> make_map o loaded d n = Throw RuntimeError) /\
  (map_undefined o n -> make_map o loaded d n = UB) /\
  (~ map_rejected o n -> ~ map_undefined o n ->
     (make_map o loaded d n = Ok None /\ (4 <= mp_kind o)%Z) \/
     exists m, make_map o loaded d n = Ok (Some m) /\ kind_of m = mp_kind o /\ built m (random_map_input o n) n /\
       (mp_kind o <> 4 -> mp_kind o <> 5 -> bijection (map_fn m) n)%Z /\
       (mp_surjective o = true -> onto (map_fn m) (random_map_input o n) n)).
Proof. apply make_map_random_spec. Qed.

(** The function is made, with the size of the input of the map. *)
Theorem C109_made o d F0 : (0 < mo_size o)%Z -> 0 < fp_size (f_props F0) ->
  let n := fp_size (f_props F0) in
  let mo := mo_map o in
  (mp_kind mo <= 0)%Z \/ mp_random mo = true /\ draws_ok mo n (dr_map d) /\ ~ map_rejected mo n /\ ~ map_undefined mo n ->
  (match mo_prior o with None => True | Some None => False | Some (Some kd) => radius_ok kd n end) ->
  mo_parsed o <> Some None ->
  (make_function_modifier o d (Ok F0) = Ok None /\ (4 <= mp_kind mo)%Z) \/
  exists m F, make_function_modifier o d (Ok F0) = Ok (Some (m, F)) /\
    if (mp_kind mo <=? 0)%Z then m = None /\ fp_size (f_props F) = n
    else exists mm, m = Some mm /\ kind_of mm = mp_kind mo /\ built mm (random_map_input mo n) n /\
         fp_size (f_props F) = random_map_input mo n.
Proof. apply made_ok. Qed.

(** The other options make it throw. *)
Theorem C109_errors o d F0 : 0 < fp_size (f_props F0) ->
  ((mo_size o <= 0)%Z -> make_function_modifier o d (Ok F0) = Throw RuntimeError) /\
  ((0 < mo_size o)%Z -> (0 < mp_kind (mo_map o))%Z ->
     (forall e, make_map (mo_map o) (dr_loaded d) (dr_map d) (fp_size (f_props F0)) = Throw e -> make_function_modifier o d (Ok F0) = Throw e) /\
     (forall m, make_map (mo_map o) (dr_loaded d) (dr_map d) (fp_size (f_props F0)) = Ok (Some m) ->
        map_output_size m <> fp_size (f_props F0) -> make_function_modifier o d (Ok F0) = Throw RuntimeError)).
Proof. apply made_errors. Qed.

(** In every history of requests, the value asked after [k] others is: noise on the bits,
    then the map, the function, the expression, the opposite and the noise on values. *)
Theorem C109_values o d F0 f m F i rs j c x : computes F0 f ->
  make_function_modifier o d (Ok F0) = Ok (Some (m, F)) ->
  map_fits m i (fp_size (f_props F0)) -> (mo_prior o <> None -> i = fp_size (f_props F0) /\ flips_ok i (dr_flips d)) ->
  all_sized i rs -> nth_error (calls (f_obj F) (f_init F) rs) j = Some c -> asks (req c) x ->
  fp_size (f_props F) = i /\ res c = Ok (RValue (decorated o m (dr_flips d) f (asked (firstn j rs)) x)).
Proof. apply decorated_values. Qed.

(** Prior noise with a map which changes the size: every evaluation violates an
    assertion. *)
Theorem C109_prior_noise_size o d F0 m F i rs j c x : make_function_modifier o d (Ok F0) = Ok (Some (m, F)) ->
  map_fits m i (fp_size (f_props F0)) -> mo_prior o <> None -> i <> fp_size (f_props F0) ->
  nth_error (calls (f_obj F) (f_init F) rs) j = Some c -> asks (req c) x -> res c = UB.
Proof. apply prior_noise_size. Qed.

(** The maximum is known only if that of the function is, the map is onto and values are
    not modified; it is if moreover the map knows that it is onto. *)
Theorem C109_known_maximum o d F0 f m F i k0 : computes F0 f -> make_function_modifier o d (Ok F0) = Ok (Some (m, F)) ->
  map_fits m i (fp_size (f_props F0)) -> fp_known (f_props F0) = Ok k0 ->
  exists b, fp_known (f_props F) = Ok b /\
  (b = true -> k0 = true /\ map_onto m i (fp_size (f_props F0)) /\
     mo_parsed o = None /\ mo_minimize o = false /\ mo_noise o = None) /\
  (k0 = true -> match m with None => True | Some mm => map_is_surjective mm = Ok true end ->
     mo_parsed o = None -> mo_minimize o = false -> mo_noise o = None -> b = true) /\
  (if b then fp_max (f_props F) = fp_max (f_props F0)
   else k0 = false -> fp_max (f_props F0) = Throw RuntimeError -> fp_max (f_props F) = Throw RuntimeError).
Proof. apply decorated_maximum. Qed.

(** A known maximum is that of the function with its modifiers: no value is greater, and
    it is the value of some vector if there is no noise on the bits. *)
Theorem C109_maximum o d F0 f m F i v : computes F0 f -> make_function_modifier o d (Ok F0) = Ok (Some (m, F)) ->
  map_fits m i (fp_size (f_props F0)) -> fp_known (f_props F0) = Ok true -> fp_max (f_props F0) = Ok v ->
  maximum_of (fun a b => dle a b = true) (fp_size (f_props F0)) f v ->
  fp_known (f_props F) = Ok true ->
  (mo_prior o <> None -> i = fp_size (f_props F0)) ->
  fp_max (f_props F) = Ok v /\
  (forall k x, length x = i -> dle (decorated o m (dr_flips d) f k x) v = true) /\
  exists x, length x = i /\ (mo_prior o = None -> forall k, decorated o m (dr_flips d) f k x = v).
Proof. apply decorated_maximum_value. Qed.

(** Minimization alone: the results of any history of evaluations, incremental or not,
    are the opposites of those of the function, given the opposites of values. *)
Theorem C109_minimize o d F0 m F rs : make_function_modifier o d (Ok F0) = Ok (Some (m, F)) ->
  m = None -> mo_prior o = None -> mo_parsed o = None -> mo_noise o = None -> mo_minimize o = true ->
  Forall (fun r => match r with REval _ | RInc _ _ _ => True | _ => False end) rs ->
  map res (calls (f_obj F) (f_init F) rs) = map opposite_result (map res (calls (f_obj F0) (f_init F0) (map opposite_request rs))).
Proof. apply decorated_minimize. Qed.

(** Incremental evaluation is refused with any modifier but minimization; yet it is
    announced with minimization, whatever the other modifiers but the noise on values.
    Otherwise it is announced if there is no modifier and the function provides it. *)
Theorem C109_incremental_evaluation o d F0 m F : make_function_modifier o d (Ok F0) = Ok (Some (m, F)) ->
  (m <> None \/ mo_prior o <> None \/ mo_parsed o <> None \/ mo_noise o <> None ->
     forall s x v l, snd (f_obj F s (RInc x v l)) = Throw RuntimeError) /\
  (mo_minimize o = true -> mo_noise o = None -> fp_inc (f_props F) = true) /\
  (mo_minimize o = false \/ mo_noise o <> None -> fp_inc (f_props F) = true ->
     m = None /\ mo_prior o = None /\ mo_parsed o = None /\ mo_noise o = None /\ fp_inc (f_props F0) = true) /\
  (m = None -> mo_prior o = None -> mo_parsed o = None -> mo_minimize o = false -> mo_noise o = None -> fp_inc (f_props F) = fp_inc (f_props F0)).
Proof.
  intros E. split; [|split; [now apply (decorated_claims_incremental o d F0 m F)|now apply (decorated_announces_incremental o d F0 m F)]].
  intros H s x v l. now apply (decorated_refuses_incremental o d F0 m F).
Qed.
Print Assumptions C109_random_map.
Print Assumptions C109_made.
Print Assumptions C109_errors.
Print Assumptions C109_values.
Print Assumptions C109_prior_noise_size.
Print Assumptions C109_known_maximum.
Print Assumptions C109_maximum.
Print Assumptions C109_minimize.
Print Assumptions C109_incremental_evaluation.

(** The number of ones of three bits, with incremental evaluation *)
Definition ones_of (x : bv) : dbl := DFin (Z.of_nat (weight x)).
Definition example_func : func := mk_func unit (plain count_ones) tt (mk_fprops 3 (Ok true) (Ok (DFin 3)) false).
Definition example_map_draws : map_draws :=
  mk_map_draws (fun i => i =? 0) (fun l => tl l ++ firstn 1 l) [[[true; false]; [false; true]; [true; true]]] [0; 1] (fun l => l) (fun l => l)
    (fun _ lo _ => lo) true [].
Definition example_draws : modifier_draws := mk_modifier_draws example_map_draws (Throw RuntimeError) (fun k => [k mod 3]).
Definition example_add (z : Z) (v : dbl) : dbl := match v with DFin a => DFin (a + z) | _ => v end.
Definition example_modifiers (kd : Z) (prior minimize : bool) : modifier_options :=
  mk_modifier_options 3 (mk_map_options kd true 2 false 0 0) (if prior then Some (Some SingleBitFlip) else None)
    (Some (Some (example_add 10))) minimize (Some (fun k => example_add (Z.of_nat k))).
Definition results (o : modifier_options) (rs : list request) : option (list (outcome reply)) :=
  match make_function_modifier o example_draws (Ok example_func) with
  | Ok (Some (_, F)) => Some (map res (calls (f_obj F) (f_init F) rs))
  | _ => None
  end.

(** A permutation followed by a translation, with everything; a linear map from two bits *)
Example C109_case :
  results (example_modifiers 3 true true) [REval [true; true; false]; RInc [true; true; false] (DFin 0) [1]; RSafe [false; false; false]] =
    Some [Ok (RValue (DFin (-12))); Throw RuntimeError; Ok (RValue (DFin (-11)))] /\
  results (example_modifiers 4 false false) [REval [true; true]; REval [true; false]] =
    Some [Ok (RValue (DFin 12)); Ok (RValue (DFin 13))] /\
  results (example_modifiers 4 true false) [REval [true; true]] = Some [UB].
Proof. repeat split; vm_compute; reflexivity. Qed.
(** They meet the hypotheses. *)
Example C109_draws_case kd : draws_ok (mo_map (example_modifiers kd false false)) 3 example_map_draws.
Proof.
  split; [intros [|a l]; [constructor|exact (Permutation_cons_append l a)]|].
  split; [intros l; exact (Permutation_refl l)|]. split; [intros l; exact (Permutation_refl l)|]. split; [intros i a b H; cbn; lia|].
  split; [repeat (constructor; [lia|]); constructor|]. intros _. constructor; [|constructor]. split; [lia|]. split; [cbn; lia|]. split; [reflexivity|]. repeat constructor.
Qed.
Example C109_function_case : computes example_func ones_of /\ flips_ok 3 (dr_flips example_draws) /\
  maximum_of (fun a b => dle a b = true) 3 ones_of (DFin 3).
Proof.
  split; [intros [] r x [->| ->] _; reflexivity|]. split.
  - intros k. cbn [dr_flips example_draws]. split; [repeat constructor|]. constructor; [|constructor]. now apply Nat.mod_upper_bound.
  - split; [|exists [true; true; true]; split; reflexivity].
    intros x Hx. destruct x as [|[] [|[] [|[] [|]]]]; try discriminate; reflexivity.
Qed.
Example C109_made_case : exists m F, make_function_modifier (example_modifiers 4 false false) example_draws (Ok example_func) = Ok (Some (m, F)) /\
  map_fits m 2 3 /\ fp_size (f_props F) = 2.
Proof.
  destruct (make_function_modifier (example_modifiers 4 false false) example_draws (Ok example_func)) as [[[m F]|]|e|] eqn:E;
    try (vm_compute in E; discriminate E). exists m, F. split; [auto|].
  vm_compute in E. injection E as <- <-. split; [|reflexivity]. constructor. split; [lia|]. split; [lia|]. split; [reflexivity|]. repeat constructor.
Qed.

(** * C110: the function with its controllers *)

Section Controllers.
  Context {S : Type} (o : fobj S) (n : nat) (s : S) (options : controller_options).
  Local Notation m := (middle_of options).

  (** Whatever the requests, the function receives some of them, in order; the budget, if
      it is positive, bounds the number of its evaluations; the tracker reports their
      number and the first best of them. *)
  Theorem C110_report target rs : typed o ->
    let st := controlled m target n o s rs in
    let E := evaluations (calls o s (received st)) in
    subsequence (received st) rs /\
    ((0 < co_budget options)%Z -> (Z.of_nat (length E) <= co_budget options)%Z) /\
    reported_total st = length E /\
    match E with
    | [] => imp_num (reported st) = 0
    | (x0, v0) :: _ =>
        exists k x v, imp_num (reported st) = k + 1 /\ imp_value (reported st) = Some v /\
        (if is_nan v0 then k = 0 /\ x = x0 /\ v = v0 else is_nan v = false /\ best_record E k x v)
    end.
  Proof.
    intros T st E. destruct (controllers_report o m target n s rs T) as (A & _ & B & C & D).
    { unfold middle_of. destruct (Z.ltb_spec 0 (co_budget options)), (co_cache options), (co_cache_budget options); cbn;
        intros b [= <-]; lia. }
    split; [exact A|]. split; [|split; [exact C|exact D]].
    intros Hb. clear A C D. revert B. subst E st. unfold middle_of. destruct (Z.ltb_spec 0 (co_budget options)); [|lia].
    destruct (co_cache options), (co_cache_budget options); cbn [budget_of]; auto.
  Qed.

  (** Sequential evaluations: which of them are answered, with the value of the function,
      which end with LastEvaluation and which end with TargetReached. *)
  Theorem C110_sequential target f xs j c x : total o s n f -> Forall (fun x => length x = n) xs ->
    nth_error (calls (controlled_obj m target o) (controlled_init m n s) (map REval xs)) j = Some c ->
    nth_error xs j = Some x ->
    let seen := first_occurrences (firstn j xs) in
    let answered :=
      (co_budget options <= 0)%Z \/
      (if co_cache options && negb (co_cache_budget options)
       then (Z.of_nat (length seen) < co_budget options)%Z \/ In x (firstn (Z.to_nat (co_budget options)) seen)
       else (Z.of_nat j < co_budget options)%Z) in
    (~ answered -> res c = Throw LastEvaluation) /\
    (answered -> res c = match target with
                         | Some t => if dge (f x) t then Throw TargetReached else Ok (RValue (f x))
                         | None => Ok (RValue (f x))
                         end).
  Proof.
    intros T HF E EX. rewrite (controllers_sequential o m target n f s xs j c x T) by
      (try exact HF; try exact E; try exact EX;
       unfold middle_of; destruct (Z.ltb_spec 0 (co_budget options)), (co_cache options), (co_cache_budget options); cbn;
       intros b [= <-]; lia).
    clear. cbv zeta. unfold middle_of, sequential_result.
    assert (KO : seen_through target (Throw LastEvaluation) = Throw LastEvaluation) by (now destruct target).
    destruct (Z.ltb_spec 0 (co_budget options)) as [H|H], (co_cache options), (co_cache_budget options); cbn [andb negb].
    1, 3, 4: destruct (Z.ltb_spec (Z.of_nat j) (co_budget options)) as [K|K];
      (split; [intros N; try exact KO; exfalso; apply N; auto|intros [N|N]; try lia; destruct target; reflexivity]).
    2-5: split; [intros N; exfalso; apply N; auto|intros _; destruct target; reflexivity].
    destruct (Z.ltb_spec (Z.of_nat (length (first_occurrences (firstn j xs)))) (co_budget options)) as [K|K]; cbn [orb].
    - split; [intros N; exfalso; apply N; auto|intros _; destruct target; reflexivity].
    - destruct (in_dec bv_eq_dec x _) as [I|I].
      + split; [intros N; exfalso; apply N; auto|intros _; destruct target; reflexivity].
      + split; [auto|]. intros [N|[N|N]]; try lia. contradiction.
  Qed.

  (** Parallel evaluations and updates through a cache: no update reaches the tracker,
      which reports nothing, whatever the values; and updates never exhaust the budget
      unless it counts the calls to the cache. *)
  Theorem C110_cache_hides_updates target rs : typed o -> co_cache options = true ->
    let st := controlled m target n o s rs in
    Forall (fun r => match r with REval x => In (REval x) rs | RSafe _ => True | _ => False end) (received st) /\
    (Forall parallel rs -> reported st = tracker_make n /\ reported_total st = 0) /\
    ((co_budget options <= 0)%Z \/ co_cache_budget options = false ->
       forall j c x v, nth_error (calls (controlled_obj m target o) (controlled_init m n s) rs) j = Some c -> req c = RUpdate x v ->
       res c = match target with
               | None => Ok RVoid
               | Some t => if dge v t then Throw TargetReached else Ok RVoid
               end).
  Proof.
    intros T Hc st. destruct (cache_hides_updates o m target n s rs T) as [A B].
    - unfold middle_of. rewrite Hc. destruct (Z.ltb_spec 0 (co_budget options)), (co_cache_budget options); reflexivity.
    - unfold middle_of. rewrite Hc. destruct (Z.ltb_spec 0 (co_budget options)), (co_cache_budget options); cbn; intros b [= <-]; lia.
    - split; [exact A|]. split; [exact B|]. intros H j c x v. apply update_unlimited.
      unfold middle_of. rewrite Hc. destruct (Z.ltb_spec 0 (co_budget options)); [|auto].
      destruct (co_cache_budget options); [destruct H; [lia|discriminate]|eauto].
  Qed.
End Controllers.

(** The controllers and the target: the maximum, which must be known, else the target of the options *)
Theorem C110_target options F :
  match make_function_controller options F with
  | Ok (mid, target) => mid = middle_of options /\
      match target with
      | Some t => if co_stop_on_maximum options then fp_known (f_props F) = Ok true /\ fp_max (f_props F) = Ok t else co_target options = Some t
      | None => co_stop_on_maximum options = false /\ co_target options = None
      end
  | Throw e => co_stop_on_maximum options = true /\
      (fp_known (f_props F) = Ok false /\ e = RuntimeError \/ fp_known (f_props F) = Throw e \/ fp_max (f_props F) = Throw e)
  | UB => co_stop_on_maximum options = true /\ (fp_known (f_props F) = UB \/ fp_max (f_props F) = UB)
  end.
Proof.
  unfold make_function_controller, target_of. destruct (co_stop_on_maximum options).
  - destruct (fp_known (f_props F)) as [[]|e|]; cbn [bind]; auto. destruct (fp_max (f_props F)) as [t|e|]; cbn [bind]; auto.
  - cbn [bind]. now destruct (co_target options).
Qed.

(** The trigger: the last of the requests which reached the target, if any. *)
Theorem C110_trigger {S} (o : fobj S) n s m t rs :
  fst (run (controlled_obj m (Some t) o) (controlled_init m n s) rs) =
    match rev (reaching t (calls (middle_obj m (progress_tracker o false)) (middle_init m n (tracker_make n, (0, s))) rs)) with
    | [] => None
    | p :: _ => Some p
    end.
Proof. exact (proj2 (stop_on_target_trigger (middle_obj m (progress_tracker o false)) t _ rs)). Qed.
Print Assumptions C110_report.
Print Assumptions C110_sequential.
Print Assumptions C110_cache_hides_updates.
Print Assumptions C110_target.
Print Assumptions C110_trigger.

(** Budget of 2, with a cache which does not or does save evaluations; target 2; parallel
    evaluations *)
Definition stack (budget : Z) (cached cache_budget : bool) (target : option dbl) : controller_options :=
  mk_controller_options budget cached cache_budget false target false.
Definition stack_results (o : controller_options) (rs : list request) : list (outcome reply) :=
  map res (calls (controlled_obj (middle_of o) (co_target o) (plain count_ones)) (controlled_init (middle_of o) 2 tt) rs).
Definition twice : list bv := [[true; false]; [true; false]; [true; true]; [false; false]; [true; true]].
Example C110_case :
  stack_results (stack 2 true true None) (map REval twice) =
    [Ok (RValue (DFin 1)); Ok (RValue (DFin 1)); Throw LastEvaluation; Throw LastEvaluation; Throw LastEvaluation] /\
  stack_results (stack 2 true false None) (map REval twice) =
    [Ok (RValue (DFin 1)); Ok (RValue (DFin 1)); Ok (RValue (DFin 2)); Throw LastEvaluation; Ok (RValue (DFin 2))] /\
  stack_results (stack 2 true false (Some (DFin 2))) (map REval twice) =
    [Ok (RValue (DFin 1)); Ok (RValue (DFin 1)); Throw TargetReached; Throw LastEvaluation; Throw TargetReached] /\
  stack_results (stack 1 true false None) [RSafe [true; false]; RUpdate [true; false] (DFin 1); RUpdate [true; true] (DFin 2)] =
    [Ok (RValue (DFin 1)); Ok RVoid; Ok RVoid] /\
  stack_results (stack 1 false false None) [RSafe [true; false]; RUpdate [true; false] (DFin 1); RUpdate [true; true] (DFin 2)] =
    [Ok (RValue (DFin 1)); Ok RVoid; Throw LastEvaluation].
Proof. repeat split; vm_compute; reflexivity. Qed.
Example C110_hypotheses_case : typed (plain count_ones) /\ total (plain count_ones) tt 2 ones_of /\ Forall (fun x => length x = 2) twice.
Proof. split; [exact C30_case_typed|]. split; [|repeat constructor].
  intros l H. induction H as [|x l _ _ IH]; cbn; [reflexivity|]. f_equal. exact IH.
Qed.
