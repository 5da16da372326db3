(** Model of the functions made by the application: lib/hnco/app/decorated-function-factory.cc,
    with the modifiers lib/hnco/functions/modifiers/ seen as function objects
    (Controller_Model).

    Loading a map from a file and parsing the expression of a modifier are arguments.
    Warnings are not modelled. *)

From Coq Require Import ZArith.
From Verif Require Import Base BitVector_Model BitMatrix_Model Transvection_Model Map_Model Neighborhood_Model
  Double Controller_Model.
Local Open Scope nat_scope.

(** ** Modifiers.  evaluate_safely is that of Function: it calls evaluate
    (function.hh:105); update is that of Function: it does nothing (function.hh:111). *)
Section Modifiers.
  Context {S : Type} (o : fobj S).

  (** FunctionMapComposition, modifier.hh:83-142 and modifier.cc:42-47; the state holds
      the map and the output buffer. *)
  Definition map_obj : fobj (hmap * bv * S) := fun '(m, out, s) r =>
    match r with
    | REval x | RSafe x =>
        match map_apply m x out with
        | Ok (m', out') => let '(s', a) := o s (REval out') in ((m', out', s'), a)
        | Throw e => ((m, out, s), Throw e)
        | UB => ((m, out, s), UB)
        end
    | RInc _ _ _ => ((m, out, s), Throw RuntimeError)
    | RUpdate _ _ => ((m, out, s), Ok RVoid)
    end.

  (** PriorNoise, prior-noise.hh:35-87 and prior-noise.cc:27-32, with Neighborhood::map
      (neighborhood.hh:151-157, see [nh_map]).  [n] is the size of the neighborhood,
      [size] that of _noisy_bv and [flips k] are the bits sampled by the neighborhood for
      its call number k. *)
  Definition prior_obj (n size : nat) (flips : nat -> list nat) : fobj (nat * S) := fun '(k, s) r =>
    match r with
    | REval x | RSafe x =>
        match (_ <- assertb ((length x =? n) && (size =? n)) ;; bv_flip_sbv x (flips k)) with
        | Ok y => let '(s', a) := o s (REval y) in ((k + 1, s'), a)
        | Throw e => ((k + 1, s), Throw e)
        | UB => ((k + 1, s), UB)
        end
    | RInc _ _ _ => ((k, s), Throw RuntimeError)
    | RUpdate _ _ => ((k, s), Ok RVoid)
    end.

  (** A value sent by a function of it *)
  Definition on_value (f : dbl -> dbl) (a : outcome reply) : outcome reply :=
    match a with Ok (RValue v) => Ok (RValue (f v)) | _ => a end.

  (** ParsedModifier, parsed-modifier.cc:45-50; [g] is the parsed expression. *)
  Definition parsed_obj (g : dbl -> dbl) : fobj S := fun s r =>
    match r with
    | REval x | RSafe x => let '(s', a) := o s (REval x) in (s', on_value g a)
    | RInc _ _ _ => (s, Throw RuntimeError)
    | RUpdate _ _ => (s, Ok RVoid)
    end.

  (** OppositeFunction, modifier.cc:29-39 *)
  Definition dneg (v : dbl) : dbl :=
    match v with DNaN => DNaN | DNegInf => DPosInf | DFin z => DFin (- z) | DPosInf => DNegInf end.
  Definition opposite_obj : fobj S := fun s r =>
    match r with
    | REval x | RSafe x => let '(s', a) := o s (REval x) in (s', on_value dneg a)
    | RInc x v l => let '(s', a) := o s (RInc x (dneg v) l) in (s', on_value dneg a)
    | RUpdate _ _ => (s, Ok RVoid)
    end.

  (** AdditiveGaussianNoise, modifier.cc:58-62; [add k] adds the number drawn by the
      evaluation number k. *)
  Definition noise_obj (add : nat -> dbl -> dbl) : fobj (nat * S) := fun '(k, s) r =>
    match r with
    | REval x | RSafe x => let '(s', a) := o s (REval x) in ((k + 1, s'), on_value (add k) a)
    | RInc _ _ _ => ((k, s), Throw RuntimeError)
    | RUpdate _ _ => ((k, s), Ok RVoid)
    end.
End Modifiers.

(** ** Functions with their properties: get_bv_size, has_known_maximum, get_maximum and
    provides_incremental_evaluation *)
Record fprops := mk_fprops {
  fp_size : nat;
  fp_known : outcome bool;
  fp_max : outcome dbl;
  fp_inc : bool }.
Record func := mk_func {
  f_state : Type;
  f_obj : fobj f_state;
  f_init : f_state;
  f_props : fprops }.

(** Function, function.hh:52-67: unknown maximum *)
Definition default_props (n : nat) (inc : bool) : fprops := mk_fprops n (Ok false) (Throw RuntimeError) inc.

(** modifier.hh:95-129 *)
Definition with_map (F : func) (m : hmap) : outcome func :=
  if map_output_size m =? fp_size (f_props F) then
    n <- map_input_size m ;;
    let known := k <- fp_known (f_props F) ;; if (k : bool) then map_is_surjective m else Ok false in
    Ok (mk_func _ (map_obj (f_obj F)) (m, repeat false (fp_size (f_props F)), f_init F)
          (mk_fprops n known (k <- known ;; if (k : bool) then fp_max (f_props F) else Throw RuntimeError) false))
  else Throw RuntimeError.

(** prior-noise.hh:44-77 *)
Definition with_prior_noise (F : func) (n : nat) (flips : nat -> list nat) : func :=
  let p := f_props F in
  mk_func _ (prior_obj (f_obj F) n (fp_size p) flips) (0, f_init F) (mk_fprops (fp_size p) (fp_known p) (fp_max p) false).

(** parsed-modifier.hh:45-60 *)
Definition with_parsed (F : func) (g : dbl -> dbl) : func :=
  mk_func _ (parsed_obj (f_obj F) g) (f_init F) (default_props (fp_size (f_props F)) false).

(** modifier.hh:53-66 *)
Definition with_opposite (F : func) : func :=
  mk_func _ (opposite_obj (f_obj F)) (f_init F) (default_props (fp_size (f_props F)) true).

(** modifier.hh:146-172 *)
Definition with_noise (F : func) (add : nat -> dbl -> dbl) : func :=
  mk_func _ (noise_obj (f_obj F) add) (0, f_init F) (default_props (fp_size (f_props F)) false).

(** ** Random maps *)

(** Everything that is drawn to make a map *)
Record map_draws := mk_map_draws {
  md_bits : nat -> bool;
  md_perm : list nat -> list nat;
  md_matrices : list bm;
  md_indices : list nat;
  md_sh1 : list nat -> list nat;
  md_sh2 : list transvection -> list transvection;
  md_pick : nat -> nat -> nat -> nat;
  md_coin : bool;
  md_coins : list bool }.

Definition map_some {A B} (f : A -> B) (x : outcome (option A)) : outcome (option B) :=
  r <- x ;; Ok (option_map f r).

(** TsAffineMap::random, map.cc:193-231 *)
Definition ts_affine_map_random (n : nat) (t mode : Z) (d : map_draws) : outcome (option hmap) :=
  _ <- assertb (0 <? n) ;;
  _ <- assertb (0 <=? t)%Z ;;
  let t := Z.to_nat t in
  let make ts := MTsAffine ts (bv_random (repeat false n) (md_bits d)) in
  if (mode =? 0)%Z then map_some make (ts_random n t (md_indices d))
  else if (mode =? 1)%Z then map_some make (ts <- ts_random_commuting (md_sh1 d) (md_sh2 d) (md_pick d 0) (md_coin d) [] n t ;; Ok (Some ts))
  else if (mode =? 2)%Z then map_some make (ts <- ts_random_unique_source (md_sh1 d) (md_sh2 d) (md_pick d) [] n t ;; Ok (Some ts))
  else if (mode =? 3)%Z then map_some make (ts <- ts_random_unique_destination (md_sh1 d) (md_sh2 d) (md_pick d) [] n t ;; Ok (Some ts))
  else if (mode =? 4)%Z then map_some make (ts <- ts_random_disjoint (md_sh1 d) [] n t ;; Ok (Some ts))
  else if (mode =? 5)%Z then map_some make (ts_random_non_commuting (md_coins d) (md_indices d) [] n t)
  else Throw RuntimeError.

(** AffineMap::random, map.cc:105-127 *)
Definition affine_map_random (rows cols : nat) (surjective : bool) (d : map_draws) : outcome (option hmap) :=
  _ <- assertb (0 <? rows) ;; _ <- assertb (0 <? cols) ;;
  M <- (if surjective then
          if cols <? rows then Throw RuntimeError else random_surjective (md_matrices d)
        else Ok (hd_error (md_matrices d))) ;;
  Ok (option_map (fun M => MAffine M (bv_random (repeat false rows) (md_bits d))) M).

(** Translation::random (map.hh:128-133) and Permutation::random (map.hh:224-229) *)
Definition translation_random (n : nat) (d : map_draws) : outcome hmap :=
  _ <- assertb (0 <? n) ;; Ok (MTranslation (bv_random (repeat false n) (md_bits d))).
Definition permutation_random (n : nat) (d : map_draws) : outcome hmap :=
  _ <- assertb (0 <? n) ;; Ok (MPermutation (md_perm d (seq 0 n))).

(** The options read by make_map *)
Record map_options := mk_map_options {
  mp_kind : Z;
  mp_random : bool;
  mp_input_size : Z;
  mp_surjective : bool;
  mp_ts_length : Z;
  mp_ts_mode : Z }.

(** decorated-function-factory.cc:56-151; [loaded] is the map read from a file, of the
    kind of the option.  [Ok None] when the draws run out. *)
Definition make_map (o : map_options) (loaded : outcome hmap) (d : map_draws) (bv_size : nat) : outcome (option hmap) :=
  _ <- assertb (0 <? mp_kind o)%Z ;;
  _ <- assertb (0 <? bv_size) ;;
  if (6 <? mp_kind o)%Z then Throw RuntimeError
  else if mp_random o then
    if (mp_kind o =? 1)%Z then m <- translation_random bv_size d ;; Ok (Some m)
    else if (mp_kind o =? 2)%Z then m <- permutation_random bv_size d ;; Ok (Some m)
    else if (mp_kind o =? 3)%Z then
      p <- permutation_random bv_size d ;;
      t <- translation_random bv_size d ;;
      m <- make_composition p t ;; Ok (Some m)
    else if (mp_kind o =? 6)%Z then ts_affine_map_random bv_size (mp_ts_length o) (mp_ts_mode o) d
    else if (mp_input_size o <=? 0)%Z then Throw RuntimeError
    else if (mp_kind o =? 4)%Z then linear_map_random bv_size (Z.to_nat (mp_input_size o)) (mp_surjective o) (md_matrices d)
    else affine_map_random bv_size (Z.to_nat (mp_input_size o)) (mp_surjective o) d
  else m <- loaded ;; Ok (Some m).

(** ** make_function_modifier *)

(** The options: size of bit vectors, map, kind of neighborhood of the prior noise
    ([Some None] for an unknown kind), expression ([Some None] if it cannot be parsed),
    minimize, additive noise *)
Record modifier_options := mk_modifier_options {
  mo_size : Z;
  mo_map : map_options;
  mo_prior : option (option nh_kind);
  mo_parsed : option (option (dbl -> dbl));
  mo_minimize : bool;
  mo_noise : option (nat -> dbl -> dbl) }.

(** What is drawn or read from files *)
Record modifier_draws := mk_modifier_draws {
  dr_map : map_draws;
  dr_loaded : outcome hmap;
  dr_flips : nat -> list nat }.

(** decorated-function-factory.cc:190-211; [make] is the function made by the factory. *)
Definition make_function (o : modifier_options) (make : outcome func) : outcome func :=
  if (mo_size o <=? 0)%Z then Throw RuntimeError
  else F <- make ;; _ <- assertb (0 <? fp_size (f_props F)) ;; Ok F.

(** decorated-function-factory.cc:154-187 and 232-235.  [n] is the size of the function
    before its composition with the map. *)
Definition add_prior_noise (o : modifier_options) (d : modifier_draws) (n : nat) (F : func) : outcome func :=
  match mo_prior o with
  | None => Ok F
  | Some None => Throw RuntimeError
  | Some (Some kd) => _ <- nh_make kd n ;; Ok (with_prior_noise F n (dr_flips d))
  end.
(** decorated-function-factory.cc:238-240 *)
Definition add_parsed (o : modifier_options) (F : func) : outcome func :=
  match mo_parsed o with
  | None => Ok F
  | Some None => Throw RuntimeError
  | Some (Some g) => Ok (with_parsed F g)
  end.
(** decorated-function-factory.cc:243-245 *)
Definition add_opposite (o : modifier_options) (F : func) : func := if mo_minimize o then with_opposite F else F.
(** decorated-function-factory.cc:248-250 *)
Definition add_noise (o : modifier_options) (F : func) : func :=
  match mo_noise o with None => F | Some add => with_noise F add end.

(** decorated-function-factory.cc:214-253; also gives the map.  [Ok None] when the draws
    of the map run out. *)
Definition make_function_modifier (o : modifier_options) (d : modifier_draws) (make : outcome func)
  : outcome (option (option hmap * func)) :=
  F <- make_function o make ;;
  let n := fp_size (f_props F) in
  mF <- (if (0 <? mp_kind (mo_map o))%Z then
           m <- make_map (mo_map o) (dr_loaded d) (dr_map d) n ;;
           match m with
           | None => Ok None
           | Some m => F <- with_map F m ;; Ok (Some (Some m, F))
           end
         else Ok (Some (None, F))) ;;
  match mF with
  | None => Ok None
  | Some (m, F) =>
      F <- add_prior_noise o d n F ;;
      F <- add_parsed o F ;;
      Ok (Some (m, add_noise o (add_opposite o F)))
  end.

(** ** make_function_controller *)

(** The options read, with the choice between a budget and a cache
    (decorated-function-factory.cc:268-289) *)
Record controller_options := mk_controller_options {
  co_budget : Z;
  co_cache : bool;
  co_cache_budget : bool;
  co_stop_on_maximum : bool;
  co_target : option dbl;
  co_log_improvement : bool }.

Inductive middle := MidNone | MidBudget (b : Z) | MidCache | MidBudgetOfCache (b : Z) | MidCacheOfBudget (b : Z).

(** decorated-function-factory.cc:270-289 *)
Definition middle_of (o : controller_options) : middle :=
  if (0 <? co_budget o)%Z then
    if co_cache o then
      if co_cache_budget o then MidBudgetOfCache (co_budget o) else MidCacheOfBudget (co_budget o)
    else MidBudget (co_budget o)
  else if co_cache o then MidCache else MidNone.

Definition middle_state (m : middle) (T : Type) : Type :=
  match m with
  | MidNone => T
  | MidBudget _ => nat * T
  | MidCache => cache_state * T
  | MidBudgetOfCache _ => nat * (cache_state * T)
  | MidCacheOfBudget _ => cache_state * (nat * T)
  end.
Definition middle_obj (m : middle) {T : Type} (o : fobj T) : fobj (middle_state m T) :=
  match m with
  | MidNone => o
  | MidBudget b => on_budget o b
  | MidCache => cache o
  | MidBudgetOfCache b => on_budget (cache o) b
  | MidCacheOfBudget b => cache (on_budget o b)
  end.
(** [n] is the size of bit vectors. *)
Definition middle_init (m : middle) (n : nat) {T : Type} (t : T) : middle_state m T :=
  match m with
  | MidNone => t
  | MidBudget _ => (0, t)
  | MidCache => (cache_make n, t)
  | MidBudgetOfCache _ => (0, (cache_make n, t))
  | MidCacheOfBudget _ => (cache_make n, (0, t))
  end.
(** The tracker inside, get_tracker *)
Definition middle_inner (m : middle) {T : Type} : middle_state m T -> T :=
  match m with
  | MidNone => fun t => t
  | MidBudget _ => snd
  | MidCache => snd
  | MidBudgetOfCache _ => fun t => snd (snd t)
  | MidCacheOfBudget _ => fun t => snd (snd t)
  end.
(** get_cache *)
Definition middle_cache (m : middle) {T : Type} : middle_state m T -> option cache_state :=
  match m with
  | MidNone | MidBudget _ => fun _ => None
  | MidCache => fun t => Some (fst t)
  | MidBudgetOfCache _ => fun t => Some (fst (snd t))
  | MidCacheOfBudget _ => fun t => Some (fst t)
  end.

(** The target of the controller, decorated-function-factory.cc:295-308; has_known_maximum
    and get_maximum are those of the function, which controllers delegate to
    (controller.hh:57-61).  [Throw] if the maximum is unknown. *)
Definition target_of (o : controller_options) (p : fprops) : outcome (option dbl) :=
  if co_stop_on_maximum o then
    k <- fp_known p ;;
    if (k : bool) then v <- fp_max p ;; Ok (Some v) else Throw RuntimeError
  else Ok (co_target o).

(** The tracker does not record bit vectors (controller.hh:281).  The trigger of StopOnTarget is kept in the state when there is no such controller,
    and then never changes. *)
Definition controlled_obj {S : Type} (m : middle) (target : option dbl) (o : fobj S)
  : fobj (option (bv * dbl) * middle_state m (improvement * (nat * S))) :=
  match target with
  | Some t => stop_on_target (middle_obj m (progress_tracker o false)) t
  | None => fun '(tr, s) r => let '(s', a) := middle_obj m (progress_tracker o false) s r in ((tr, s'), a)
  end.
Definition controlled_init {S : Type} (m : middle) (n : nat) (s : S)
  : option (bv * dbl) * middle_state m (improvement * (nat * S)) :=
  (None, middle_init m n (tracker_make n, (0, s))).

(** decorated-function-factory.cc:256-311: the kind of the controllers between the tracker
    and the target, and the target *)
Definition make_function_controller (o : controller_options) (F : func) : outcome (middle * option dbl) :=
  t <- target_of o (f_props F) ;; Ok (middle_of o, t).
