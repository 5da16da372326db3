(** What a decorated function is, independently of the code. *)

From Coq Require Import ZArith Sorted.
From Verif Require Import Base BitVector_Model BitMatrix_Spec Map_Model Map_Spec Neighborhood_Model Function_Spec Double Controller_Model
  Controller_Spec Decorator_Model.
Local Open Scope nat_scope.

(** A request for the value of a vector *)
Definition asks (r : request) (x : bv) : Prop := r = REval x \/ r = RSafe x.
Definition is_ask (r : request) : bool := match r with REval _ | RSafe _ => true | _ => false end.

(** The values of [F] are given by [f] on vectors of the right size. *)
Definition computes (F : func) (f : bv -> dbl) : Prop :=
  forall s r x, asks r x -> length x = fp_size (f_props F) -> snd (f_obj F s r) = Ok (RValue (f x)).

(** The opposite of a double, of the value given to an incremental evaluation and of a
    result *)
Definition opposite (v : dbl) : dbl :=
  match v with DNaN => DNaN | DNegInf => DPosInf | DFin a => DFin (- a) | DPosInf => DNegInf end.
Definition opposite_request (r : request) : request :=
  match r with RInc x v l => RInc x (opposite v) l | _ => r end.
Definition opposite_result (a : outcome reply) : outcome reply :=
  match a with Ok (RValue v) => Ok (RValue (opposite v)) | _ => a end.

(** The value asked after [k] others: noise on the bits, then the map, the function, the
    expression, the opposite and the noise on values. *)
Definition decorated (o : modifier_options) (m : option hmap) (flips : nat -> list nat) (f : bv -> dbl)
  (k : nat) (x : bv) : dbl :=
  let y := match mo_prior o with None => x | Some _ => flipped_at x (flips k) end in
  let z := match m with None => y | Some m => map_fn m y end in
  let v := f z in
  let v := match mo_parsed o with Some (Some g) => g v | _ => v end in
  let v := if mo_minimize o then opposite v else v in
  match mo_noise o with None => v | Some add => add k v end.

(** All the vectors of the requests for values are of size [n]. *)
Definition all_sized (n : nat) (rs : list request) : Prop := forall r x, In r rs -> asks r x -> length x = n.

(** Number of requests for values *)
Definition asked (rs : list request) : nat := length (filter is_ask rs).

(** The bits flipped by the prior noise: increasing indices of a vector of size [n] *)
Definition flips_ok (n : nat) (flips : nat -> list nat) : Prop :=
  forall k, StronglySorted lt (flips k) /\ Forall (fun i => i < n) (flips k).

(** The draws of a map to vectors of size [n] with the given options *)
Definition draws_ok (o : map_options) (n : nat) (d : map_draws) : Prop :=
  shuffles (md_perm d) /\ shuffles (md_sh1 d) /\ shuffles (md_sh2 d) /\ (forall i, in_range (md_pick d i)) /\
  Forall (fun k => k < n) (md_indices d) /\
  ((0 < mp_input_size o)%Z -> Forall (is_matrix n (Z.to_nat (mp_input_size o))) (md_matrices d)).

(** The size of the vectors given to a random map *)
Definition random_map_input (o : map_options) (n : nat) : nat :=
  if ((mp_kind o =? 4) || (mp_kind o =? 5))%Z then Z.to_nat (mp_input_size o) else n.

(** Options rejected by make_map when maps are random *)
Definition map_rejected (o : map_options) (n : nat) : Prop :=
  (6 < mp_kind o)%Z \/
  ((mp_kind o = 4 \/ mp_kind o = 5)%Z /\
     ((mp_input_size o <= 0)%Z \/ mp_surjective o = true /\ (mp_input_size o < Z.of_nat n)%Z)) \/
  (mp_kind o = 6 /\ 0 <= mp_ts_length o /\ ~ (0 <= mp_ts_mode o <= 5))%Z.

(** Options which violate an assertion *)
Definition map_undefined (o : map_options) (n : nat) : Prop :=
  (mp_kind o = 6 /\ (mp_ts_length o < 0 \/ n = 1%nat /\ 0 <= mp_ts_mode o <= 5))%Z.

(** The kinds of maps *)
Definition kind_of (m : hmap) : Z :=
  match m with
  | MTranslation _ => 1
  | MPermutation _ => 2
  | MComposition (MPermutation _) (MTranslation _) _ => 3
  | MLinear _ => 4
  | MAffine _ _ => 5
  | MTsAffine _ _ => 6
  | _ => 0
  end.

(** The map, if any, maps vectors of size [i] to vectors of size [n]. *)
Definition map_fits (m : option hmap) (i n : nat) : Prop :=
  match m with None => i = n | Some m => built m i n end.
Definition map_onto (m : option hmap) (i n : nat) : Prop :=
  match m with None => True | Some m => onto (map_fn m) i n end.

(** Radius of the neighborhoods of the prior noise *)
Definition radius_ok (kd : nh_kind) (n : nat) : Prop :=
  match kd with HammingBall r | HammingSphere r => 0 < r <= n | _ => True end.
