(** Properties C12, C14-C18, C51, C52: transvections and maps between bit vectors. *)

From Coq Require Import Permutation ZArith.
From Verif Require Import Base BitVector_Spec BitMatrix_Model BitMatrix_Spec Transvection_Model Map_Model Map_Spec
  Transvection_Proofs Map_Proofs.

(** * C12: surjectivity test of linear and affine maps *)

Theorem C12_linear_surjective_exact : forall nr nc M, is_matrix nr nc M ->
  exists b, map_is_surjective (MLinear M) = Ok b /\ (b = true <-> onto (map_fn (MLinear M)) nc nr).
Proof. exact linear_surjective_exact. Qed.
Print Assumptions C12_linear_surjective_exact.

Theorem C12_affine_surjective_exact : forall nr nc M b, is_matrix nr nc M -> length b = nr ->
  exists s, map_is_surjective (MAffine M b) = Ok s /\ (s = true <-> onto (map_fn (MAffine M b)) nc nr).
Proof. exact affine_surjective_exact. Qed.
Print Assumptions C12_affine_surjective_exact.

(** LinearMap::random(rows, cols, surjective) *)
Theorem C12_random_linear_map : forall nr nc surj ms, 0 < nr -> 0 < nc -> Forall (is_matrix nr nc) ms ->
  (surj = true /\ nc < nr ->
     linear_map_random nr nc surj ms = Throw RuntimeError /\
     forall M, is_matrix nr nc M -> ~ onto (mat_vec M) nc nr) /\
  (surj = false \/ nr <= nc -> exists r, linear_map_random nr nc surj ms = Ok r /\
     match r with
     | Some m => exists M, m = MLinear M /\ In M ms /\ built m nc nr /\ (surj = true -> onto (map_fn m) nc nr)
     | None => surj = true -> Forall (fun M => ~ onto (mat_vec M) nc nr) ms
     end).
Proof. exact linear_map_random_spec. Qed.
Print Assumptions C12_random_linear_map.

Example C12_case :
  is_matrix 2 3 [[true; true; false]; [true; false; true]] /\
  map_is_surjective (MLinear [[true; true; false]; [true; false; true]]) = Ok true /\
  map_is_surjective (MAffine [[true; true; false]; [true; true; false]] [true; false]) = Ok false.
Proof. split; [unfold is_matrix; cbn; repeat constructor|]. vm_compute. auto. Qed.

(** * C14: transvections *)

Theorem C14_transvection_involution : forall tv x, tv_ok (length x) tv ->
  exists y, tv_multiply_bv tv x = Ok y /\ y = tv_action tv x /\ tv_multiply_bv tv y = Ok x.
Proof. exact tv_involution. Qed.
Print Assumptions C14_transvection_involution.

Theorem C14_invalid_rejected : forall tv ts x,
  (~ tv_ok (length x) tv -> tv_multiply_bv tv x = UB) /\
  (~ Forall (tv_ok (length x)) ts -> ts_multiply_bv x ts = UB).
Proof. intros tv ts x. split; [apply tv_multiply_bv_UB|apply ts_multiply_bv_UB]. Qed.
Print Assumptions C14_invalid_rejected.

Theorem C14_sequence_inverse : forall ts x, Forall (tv_ok (length x)) ts ->
  exists y ts', ts_multiply_bv x ts = Ok y /\ y = ts_action ts x /\ ts_invert ts = Ok ts' /\
    ts_multiply_bv y ts' = Ok x /\ exists z, ts_multiply_bv x ts' = Ok z /\ ts_multiply_bv z ts = Ok x.
Proof. exact ts_inverse_bv. Qed.
Print Assumptions C14_sequence_inverse.

Theorem C14_matrix_sequence_inverse : forall nr nc ts M, is_matrix nr nc M -> Forall (tv_ok nr) ts ->
  exists M' ts', ts_multiply_bm M ts = Ok M' /\ is_matrix nr nc M' /\ ts_invert ts = Ok ts' /\
    ts_multiply_bm M' ts' = Ok M /\
    forall x, length x = nc -> mat_vec M' x = ts_action ts (mat_vec M x).
Proof. exact ts_inverse_bm. Qed.
Print Assumptions C14_matrix_sequence_inverse.

Theorem C14_affine_map_bijection : forall ts b, Forall (tv_ok (length b)) ts ->
  bijection (map_fn (MTsAffine ts b)) (length b).
Proof. exact ts_affine_bijection. Qed.
Print Assumptions C14_affine_map_bijection.

Theorem C14_affine_map_invert : forall ts b, Forall (tv_ok (length b)) ts ->
  exists ts' b', ts_affine_invert ts b = Ok (MTsAffine ts' b') /\ length b' = length b /\ Forall (tv_ok (length b)) ts' /\
    (forall x, length x = length b ->
      map_fn (MTsAffine ts' b') (map_fn (MTsAffine ts b) x) = x /\
      map_fn (MTsAffine ts b) (map_fn (MTsAffine ts' b') x) = x) /\
    ts_affine_invert ts' b' = Ok (MTsAffine ts b).
Proof. exact ts_affine_invert_correct. Qed.
Print Assumptions C14_affine_map_invert.

Example C14_case :
  Forall (tv_ok 3) [mk_tv 0 1; mk_tv 2 0] /\
  ts_multiply_bv [false; true; false] [mk_tv 0 1; mk_tv 2 0] = Ok [true; true; true] /\
  ts_multiply_bv [true; true; true] [mk_tv 2 0; mk_tv 0 1] = Ok [false; true; false].
Proof. split; [repeat constructor; cbn; lia|]. vm_compute. auto. Qed.

(** * C15: commutation *)

Theorem C15_commute_exact : forall n a b, tv_ok n a -> tv_ok n b ->
  (transvections_commute a b = true <-> commute n a b).
Proof. exact commute_exact'. Qed.
Print Assumptions C15_commute_exact.

Theorem C15_disjoint_exact : forall a b, transvections_are_disjoint a b = true <-> disjoint a b.
Proof. exact disjoint_exact. Qed.
Print Assumptions C15_disjoint_exact.

Theorem C15_disjoint_commute : forall n a b, tv_ok n a -> tv_ok n b ->
  transvections_are_disjoint a b = true -> commute n a b.
Proof.
  intros n a b Ha Hb H. apply commute_exact'; auto. pose proof (proj1 (disjoint_exact a b) H) as H'. clear H. rename H' into H. unfold transvections_commute.
  destruct (Nat.eqb_spec (row_index a) (column_index b)) as [E|_]; [exfalso; apply (H (row_index a)); cbn; auto|].
  destruct (Nat.eqb_spec (row_index b) (column_index a)) as [E|_]; [exfalso; apply (H (column_index a)); cbn; auto|]. auto.
Qed.
Print Assumptions C15_disjoint_commute.

Example C15_case :
  tv_ok 3 (mk_tv 0 1) /\ tv_ok 3 (mk_tv 1 2) /\ transvections_commute (mk_tv 0 1) (mk_tv 1 2) = false /\
  transvections_commute (mk_tv 0 1) (mk_tv 0 2) = true /\ transvections_are_disjoint (mk_tv 0 1) (mk_tv 0 2) = false.
Proof. split; [repeat split; cbn; lia|]. split; [repeat split; cbn; lia|]. vm_compute. auto. Qed.

(** * C16: random transvection sequences *)

Theorem C16_random : forall n t draws, 1 < n -> Forall (fun k => k < n) draws ->
  ts_random n t draws = Ok None \/
  exists ts, ts_random n t draws = Ok (Some ts) /\ length ts = t /\ Forall (tv_ok n) ts.
Proof. exact ts_random_spec. Qed.
Print Assumptions C16_random.

Theorem C16_commuting : forall sh1 sh2 pick coin n t,
  shuffles sh1 -> shuffles sh2 -> in_range pick -> 1 < n -> 0 < t ->
  exists ts, ts_random_commuting sh1 sh2 pick coin [] n t = Ok ts /\
    length ts = Nat.min t (n * n / 4) /\
    Forall (tv_ok n) ts /\ NoDup ts /\ all_pairs (commute n) ts.
Proof. exact samplers_commuting. Qed.
Print Assumptions C16_commuting.

Theorem C16_unique_source : forall sh1 sh2 pick n t,
  shuffles sh1 -> shuffles sh2 -> (forall i, in_range (pick i)) -> 1 < n -> 0 < t ->
  exists ts, ts_random_unique_source sh1 sh2 pick [] n t = Ok ts /\
    length ts = Nat.min t (n - 1) /\ Forall (tv_ok n) ts /\
    NoDup (map row_index ts) /\ all_pairs (commute n) ts.
Proof. exact samplers_unique_source. Qed.
Print Assumptions C16_unique_source.

Theorem C16_unique_destination : forall sh1 sh2 pick n t,
  shuffles sh1 -> shuffles sh2 -> (forall i, in_range (pick i)) -> 1 < n -> 0 < t ->
  exists ts, ts_random_unique_destination sh1 sh2 pick [] n t = Ok ts /\
    length ts = Nat.min t (n - 1) /\ Forall (tv_ok n) ts /\
    NoDup (map column_index ts) /\ all_pairs (commute n) ts.
Proof. exact samplers_unique_destination. Qed.
Print Assumptions C16_unique_destination.

Theorem C16_disjoint : forall sh1 ts0 n t, shuffles sh1 -> 1 < n -> 0 < t ->
  exists ts, ts_random_disjoint sh1 ts0 n t = Ok ts /\
    length ts = Nat.min t (n / 2) /\ Forall (tv_ok n) ts /\ all_pairs disjoint ts.
Proof. exact samplers_disjoint. Qed.
Print Assumptions C16_disjoint.

Theorem C16_non_commuting : forall n t coins draws ts0, 1 < n -> 0 < t -> Forall (fun k => k < n) draws ->
  ts_random_non_commuting coins draws ts0 n t = Ok None \/
  exists ts, ts_random_non_commuting coins draws ts0 n t = Ok (Some ts) /\ length ts = t /\ Forall (tv_ok n) ts /\
    consecutive_pairs (fun a b => ~ commute n a b) ts.
Proof. exact samplers_non_commuting. Qed.
Print Assumptions C16_non_commuting.

(** A rejection loop stops at the first pair of different draws. *)
Theorem C16_rejection_stops : forall n i j draws pre, 1 < n -> i <> j ->
  (forall k, In k pre -> fst k = snd k) ->
  tv_random n (flat_map (fun k => [fst k; snd k]) pre ++ i :: j :: draws) = Ok (Some (mk_tv i j, draws)).
Proof.
  intros n i j draws pre Hn Hne H. unfold tv_random. apply Nat.ltb_lt in Hn. rewrite Hn. cbn [assertb bind].
  f_equal. now apply tv_random_loop_stops.
Qed.
Print Assumptions C16_rejection_stops.

Example C16_case :
  ts_random_commuting (@rev nat) (@rev transvection) (fun lo hi => hi) true [] 5 4
    = Ok [mk_tv 1 0; mk_tv 2 0; mk_tv 3 0; mk_tv 4 0] /\
  ts_random_disjoint (@rev nat) [] 5 7 = Ok [mk_tv 4 3; mk_tv 2 1] /\
  ts_random_unique_source (@rev nat) (fun l => l) (fun i lo hi => lo) [] 4 2 = Ok [mk_tv 3 1; mk_tv 2 1] /\
  ts_random_non_commuting [true; false] [1; 1; 0; 2; 2; 1] [] 3 2 = Ok (Some [mk_tv 0 2; mk_tv 2 1]).
Proof. vm_compute. auto. Qed.

(** * C17: elementary maps *)

(** Whatever calls were made before, a map object built by its constructors
    computes the same function of its input, and its sizes are right. *)
Theorem C17_map_history : forall m i o inputs, built m i o -> Forall (fun x => length x = i) inputs ->
  map_run m (zerov o) inputs = Ok (map (map_fn m) inputs) /\ Forall (fun y => length y = o) (map (map_fn m) inputs).
Proof. exact map_run_correct. Qed.
Print Assumptions C17_map_history.

Theorem C17_map_sizes : forall m i o, built m i o -> map_input_size m = Ok i /\ map_output_size m = o.
Proof. exact map_sizes. Qed.
Print Assumptions C17_map_sizes.

Theorem C17_translation_bijection : forall b, bijection (map_fn (MTranslation b)) (length b).
Proof. exact translation_bijection. Qed.
Print Assumptions C17_translation_bijection.

Theorem C17_permutation_bijection : forall p, Permutation p (seq 0 (length p)) ->
  bijection (map_fn (MPermutation p)) (length p).
Proof. exact permutation_bijection. Qed.
Print Assumptions C17_permutation_bijection.

Theorem C17_permutation_validity : forall p,
  exists b, perm_is_valid p = Ok b /\ (b = true <-> Permutation p (seq 0 (length p))).
Proof. exact perm_is_valid_exact. Qed.
Print Assumptions C17_permutation_validity.

Theorem C17_projection_after_injection : forall pos n x, NoDup pos -> Forall (fun k => k < n) pos ->
  length x = length pos -> map_fn (MProjection pos n) (map_fn (MInjection pos n) x) = x.
Proof. exact projection_after_injection. Qed.
Print Assumptions C17_projection_after_injection.

(** The injection writes only the given positions of the output vector. *)
Theorem C17_injection_keeps_others : forall pos n x out, NoDup pos -> Forall (fun k => k < n) pos ->
  length x = length pos -> length out = n ->
  exists out', map_apply (MInjection pos n) x out = Ok (MInjection pos n, out') /\ length out' = n /\
    (forall j, j < length pos -> nth (nth j pos 0) out' false = nth j x false) /\
    (forall k, ~ In k pos -> nth k out' false = nth k out false).
Proof. exact injection_keeps_others. Qed.
Print Assumptions C17_injection_keeps_others.

Theorem C17_composition : forall outer inner i k1 k2 o, built outer k2 o -> built inner i k1 ->
  (k1 = k2 -> exists m, make_composition outer inner = Ok m /\ built m i o /\
     forall x, map_fn m x = map_fn outer (map_fn inner x)) /\
  (k1 <> k2 -> make_composition outer inner = UB).
Proof. exact make_composition_spec. Qed.
Print Assumptions C17_composition.

(** is_surjective() never lies, and is exact except for compositions. *)
Theorem C17_surjective_sound : forall m i o, built m i o ->
  exists b, map_is_surjective m = Ok b /\ (b = true -> onto (map_fn m) i o) /\
    (elementary m -> onto (map_fn m) i o -> b = true).
Proof.
  intros m i o HB. apply built_good in HB. destruct (surjective_sound m i o HB) as (b & E & S). exists b. split; auto. split; auto.
  intros HE HO. destruct (surjective_exact m i o HB HE) as (b' & E' & S'). rewrite E in E'. injection E' as <-. now apply S'.
Qed.
Print Assumptions C17_surjective_sound.

Example C17_case :
  exists m, make_composition (MInjection [2; 0] 3) (MPermutation [1; 0]) = Ok m /\ built m 2 3 /\
    map_run m (zerov 3) [[true; false]; [false; true]; [false; false]]
      = Ok [[true; false; false]; [false; false; true]; [false; false; false]].
Proof.
  eexists. split; [reflexivity|]. split.
  - apply (built_composition (MInjection [2; 0] 3) (MPermutation [1; 0]) _ 2 2 3).
    + apply (built_injection [2; 0] 3); [repeat constructor; cbn; intuition lia|repeat constructor|reflexivity].
    + apply (built_permutation [1; 0]). cbn. apply perm_swap.
    + reflexivity.
  - vm_compute. reflexivity.
Qed.

(** * C18: maximum of a function composed with a map *)

Theorem C18_composed_maximum : forall V (le : V -> V -> Prop) (f : bfunction V) m i,
  built m i (fn_size f) ->
  (forall v, fn_maximum f = Some v -> maximum_of le (fn_size f) (fn_eval f) v) ->
  exists c, make_fmc f m = Ok c /\
    exists b, fmc_has_known_maximum c = Ok b /\
    (if b then exists v, fn_maximum f = Some v /\ fmc_get_maximum c = Ok v /\
               maximum_of le i (fun x => fn_eval f (map_fn m x)) v
     else fmc_get_maximum c = Throw RuntimeError) /\
    (elementary m -> (b = true <-> fn_maximum f <> None /\ onto (map_fn m) i (fn_size f))).
Proof. exact @fmc_maximum. Qed.
Print Assumptions C18_composed_maximum.

Theorem C18_composed_evaluation : forall V (f : bfunction V) m i, built m i (fn_size f) ->
  exists c, make_fmc f m = Ok c /\ fmc_size c = Ok i /\
    forall xs, Forall (fun x => length x = i) xs ->
      fmc_run c xs = Ok (map (fun x => fn_eval f (map_fn m x)) xs).
Proof. exact @fmc_run_correct. Qed.
Print Assumptions C18_composed_evaluation.

Theorem C18_size_mismatch : forall V (f : bfunction V) m i o, built m i o -> o <> fn_size f ->
  make_fmc f m = Throw RuntimeError.
Proof. exact @make_fmc_size_mismatch. Qed.
Print Assumptions C18_size_mismatch.

Example C18_case :
  let f := mk_function 2 (fun x => weight x) (Some 2) in
  built (MProjection [2; 0] 3) 3 2 /\
  match make_fmc f (MProjection [2; 0] 3) with
  | Ok c => fmc_get_maximum c = Ok 2 /\ fmc_run c [[true; false; true]; [false; true; true]] = Ok [2; 1]
  | _ => False
  end /\
  match make_fmc f (MLinear [[true; false]; [true; false]]) with
  | Ok c => fmc_has_known_maximum c = Ok false /\ fmc_get_maximum c = Throw RuntimeError
  | _ => False
  end.
Proof.
  split; [|vm_compute; auto].
  apply (built_projection [2; 0] 3); [repeat constructor; cbn; intuition lia|repeat constructor|reflexivity].
Qed.

(** * C51: transvections generate every affine bijection *)

Theorem C51_transvections_generate : forall n M b, is_matrix n n M -> length b = n ->
  (invertible n M <-> exists ts, Forall (tv_ok n) ts /\
     forall x, length x = n -> map_fn (MTsAffine ts b) x = map_fn (MAffine M b) x).
Proof. exact ts_affine_represents. Qed.
Print Assumptions C51_transvections_generate.

Example C51_case :
  forall x, length x = 2 ->
    map_fn (MTsAffine [mk_tv 0 1; mk_tv 1 0; mk_tv 0 1] [true; false]) x =
    map_fn (MAffine [[false; true]; [true; false]] [true; false]) x.
Proof. intros [|a [|b [|]]] H; try discriminate. destruct a, b; reflexivity. Qed.

(** * C52: sampling into a sequence which is not empty *)

(** Unique sources and destinations: the call is rejected. *)
Theorem C52_unique_reuse_rejected : forall sh1 sh2 pick n t ts,
  shuffles sh1 -> (forall i, in_range (pick i)) -> 1 < n -> 0 < t -> ts <> [] ->
  ts_random_unique_source sh1 sh2 pick ts n t = UB /\ ts_random_unique_destination sh1 sh2 pick ts n t = UB.
Proof. exact ts_random_unique_not_empty. Qed.
Print Assumptions C52_unique_reuse_rejected.

(** Commuting: the result may contain transvections which do not commute. *)
Theorem C52_commuting_reuse_mixes : exists sh1 sh2 pick coin n t ts0 ts,
  shuffles sh1 /\ shuffles sh2 /\ in_range pick /\ 1 < n /\ 0 < t /\
  Forall (tv_ok n) ts0 /\ all_pairs (commute n) ts0 /\
  ts_random_commuting sh1 sh2 pick coin ts0 n t = Ok ts /\ ~ all_pairs (commute n) ts.
Proof.
  exists (@rev nat), (fun l => l), (fun lo hi => lo), true, 4, 2, [mk_tv 1 2], [mk_tv 1 2; mk_tv 3 1].
  split; [intros l; apply Permutation_rev|]. split; [intros l; apply Permutation_refl|].
  split; [intros lo hi H; lia|]. split; [lia|]. split; [lia|].
  split; [repeat constructor; cbn; lia|]. split.
  - intros i j a b Hij Ha Hb. destruct i, j; cbn in *; try lia; [destruct j; discriminate|destruct i; discriminate].
  - split; [vm_compute; reflexivity|]. intros H.
    assert (commute 4 (mk_tv 1 2) (mk_tv 3 1)) as K by (apply (H 0 1); auto).
    specialize (K [false; false; true; false] eq_refl). vm_compute in K. discriminate.
Qed.
Print Assumptions C52_commuting_reuse_mixes.

(** With length 0 the previous content is kept. *)
Theorem C52_zero_keeps : forall sh1 sh2 pick1 pick coin coins draws ts n, 1 < n ->
  ts_random_commuting sh1 sh2 pick1 coin ts n 0 = Ok ts /\
  ts_random_unique_source sh1 sh2 pick ts n 0 = Ok ts /\
  ts_random_unique_destination sh1 sh2 pick ts n 0 = Ok ts /\
  ts_random_disjoint sh1 ts n 0 = Ok ts /\
  ts_random_non_commuting coins draws ts n 0 = Ok (Some ts).
Proof. exact ts_random_zero. Qed.
Print Assumptions C52_zero_keeps.
