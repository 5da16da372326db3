(** Property C122: the files of maps, from mapgen to the functions of the application. *)

From Coq Require Import ZArith Permutation.
From Verif Require Import Base BitVector_Model BitMatrix_Spec Transvection_Model Map_Model Map_Spec Map_Proofs Function_Spec Double Controller_Model
  Controller_Spec Decorator_Model Decorator_Spec Decorator_Proofs Application_Model MapFile_Model MapFile_Spec MapFile_Proofs Properties_Decorator.
Local Open Scope nat_scope.

(** Every choice of options is accepted, refused or violates an assertion: a map is written,
    or the exit code is 1, or the behavior is undefined, and then nothing is written. *)
Theorem C122_options o d w : (mg_input_size o < 2 ^ 31 /\ mg_output_size o < 2 ^ 31)%Z ->
  accepted o \/ (refused o /\ mapgen o d w = Some (None, Exit 1)) \/ (violates o /\ mapgen o d w = Some (None, Undefined)).
Proof.
  intros S. destruct (options_cases o S) as [A|[A|A]]; [left; exact A|right; left|right; right]; (split; [exact A|]).
  - now apply mapgen_refused.
  - now apply mapgen_violates.
Qed.

(** With accepted options, unless the draws of a linear, affine or transvection map run out,
    the file is written and loaded back by the application (whatever follows in the file)
    as the very map which the application would have drawn from the same random numbers: of
    the kind which was asked, from vectors of the input size to vectors of the output size,
    one-to-one if both sizes are the same by construction, and onto if it was asked. *)
Theorem C122_generated o d : accepted o -> draws_ok (application_options o true) (map_size o) d ->
  let n := map_size o in
  let i := if ((mg_kind o =? 4) || (mg_kind o =? 5))%Z then Z.to_nat (mg_input_size o) else n in
  (mapgen o d true = None /\ (4 <= mg_kind o)%Z) \/
  exists a m, mapgen o d true = Some (Some a, Exit 0) /\
    (forall rest, load_map (mg_kind o) (Some (a ++ rest)) = Ok m) /\
    make_map (application_options o true) UB d n = Ok (Some m) /\
    kind_of m = mg_kind o /\ built m i n /\
    (square (mg_kind o) -> bijection (map_fn m) n) /\ (mg_surjective o = true -> onto (map_fn m) i n).
Proof.
  intros HA HD n i. destruct (mapgen_generated o d HA HD) as [[H1 H2]|(a & m & H1 & _ & H2 & H3 & _ & H4 & H5 & H6 & H7)].
  - left. auto.
  - right. exists a, m. auto 10.
Qed.

(** When the file cannot be written, the exception is not caught. *)
Theorem C122_unwritable o d : accepted o -> draws_ok (application_options o true) (map_size o) d ->
  mapgen o d false = None \/ mapgen o d false = Some (None, Uncaught).
Proof.
  intros HA HD. destruct (mapgen_generated o d HA HD) as [[H1 H2]|(a & m & _ & H & _)]; auto.
Qed.

(** A map of any of the kinds of a single object is loaded back from its file, and a file
    which is not complete is refused. *)
Theorem C122_save_load m i n rest : kind_of m <> 3%Z -> (1 <= kind_of m <= 6)%Z -> built m i n -> indices_fit m ->
  load_map (kind_of m) (Some (save_map m ++ rest)) = Ok m /\
  forall a, truncated a (save_map m) -> load_map (kind_of m) (Some a) = Throw RuntimeError.
Proof.
  intros N K B F. assert (S : simple m).
  { destruct m as [| | | | | | |p t buf]; cbn in K, N |- *; try exact I; try lia. destruct p; try lia. destruct t; lia. }
  split; [now apply (save_load m i n)|]. intros a T. now apply (truncated_refused m i n).
Qed.

(** A permutation and a translation *)
Theorem C122_composition p b rest : Permutation p (seq 0 (length p)) -> indices_fit (MPermutation p) ->
  (length b = length p ->
     exists m, load_map 3 (Some (save_map (MPermutation p) ++ save_map (MTranslation b) ++ rest)) = Ok m /\
       built m (length p) (length p) /\ forall x, map_fn m x = map (fun k => nth k (map2 xorb x b) false) p) /\
  (forall a, truncated a (save_map (MPermutation p) ++ save_map (MTranslation b)) -> load_map 3 (Some a) = Throw RuntimeError).
Proof.
  intros HP F. split.
  - intros L. eexists. split; [now apply composition_save_load|]. split; [|reflexivity].
    apply (built_composition (MPermutation p) (MTranslation b) _ _ (length p)).
    + now constructor.
    + rewrite <- L. constructor.
    + unfold make_composition. cbn [map_input_size map_output_size bind]. rewrite L, Nat.eqb_refl. reflexivity.
  - intros a. now apply composition_truncated.
Qed.

(** Whatever the file contains, a map which is loaded without violating an assertion is a
    valid map of its kind; a missing file is an error. *)
Theorem C122_loaded k file m : load_map k file = Ok m -> (1 <= k <= 6)%Z /\ kind_of m = k /\ exists i n, built m i n.
Proof. apply load_map_sound. Qed.
Theorem C122_missing k : load_map k None = Throw RuntimeError.
Proof. reflexivity. Qed.

(** The kind of the map is not in the file: the files of compositions, affine maps and
    transvection maps are silently loaded as permutations, linear maps and translations. *)
Theorem C122_other_kind p b nr nc M ts rest :
  (Permutation p (seq 0 (length p)) -> indices_fit (MPermutation p) ->
     load_map 2 (Some (save_map (MPermutation p) ++ save_map (MTranslation b) ++ rest)) = Ok (MPermutation p)) /\
  (is_matrix nr nc M -> load_map 4 (Some (save_map (MAffine M b) ++ rest)) = Ok (MLinear M)) /\
  load_map 1 (Some (save_map (MTsAffine ts b) ++ rest)) = Ok (MTranslation b).
Proof.
  split; [|split].
  - intros HP F. apply (save_load (MPermutation p) (length p) (length p)); cbn; auto. now constructor.
  - intros HM. cbn [save_map]. rewrite <- app_assoc. apply (save_load (MLinear M) nc nr (save_bv b ++ rest)); cbn; auto. now constructor.
  - cbn [save_map]. rewrite <- app_assoc. apply (save_load (MTranslation b) (length b) (length b) (save_vector save_transvection ts ++ rest)); cbn; auto. constructor.
Qed.

(** From mapgen to the function: with the map of the file alone, the function of the
    application is defined on the vectors of the input size, and its value, in any history
    of evaluations, is that of the function at the image of the vector.  If the maximum of
    the function is known, it is still known when the kind of map is one-to-one or the map
    was asked to be onto; it is the maximum of the values.  A function of another size is
    refused. *)
Theorem C122_function o d a mo md F0 f : accepted o -> draws_ok (application_options o true) (map_size o) d ->
  mapgen o d true = Some (Some a, Exit 0) ->
  mo_map mo = application_options o false -> dr_loaded md = load_map (mg_kind o) (Some a) ->
  (0 < mo_size mo)%Z -> mo_prior mo = None -> mo_parsed mo = None -> mo_minimize mo = false -> mo_noise mo = None ->
  0 < fp_size (f_props F0) -> computes F0 f ->
  let n := map_size o in
  let i := if ((mg_kind o =? 4) || (mg_kind o =? 5))%Z then Z.to_nat (mg_input_size o) else n in
  (fp_size (f_props F0) <> n -> make_function_modifier mo md (Ok F0) = Throw RuntimeError) /\
  (fp_size (f_props F0) = n -> exists m F, make_map (application_options o true) UB d n = Ok (Some m) /\
     make_function_modifier mo md (Ok F0) = Ok (Some (Some m, F)) /\ fp_size (f_props F) = i /\
     (forall rs j c x, all_sized i rs -> nth_error (calls (f_obj F) (f_init F) rs) j = Some c -> asks (req c) x ->
        res c = Ok (RValue (f (map_fn m x)))) /\
     (forall v, fp_known (f_props F0) = Ok true -> fp_max (f_props F0) = Ok v ->
        maximum_of (fun a b => dle a b = true) n f v -> square (mg_kind o) \/ mg_surjective o = true ->
        fp_known (f_props F) = Ok true /\ fp_max (f_props F) = Ok v /\
        maximum_of (fun a b => dle a b = true) i (fun x => f (map_fn m x)) v)).
Proof.
  intros HA HD G Hmap HL Hs P1 P2 P3 P4 Hn HC n i.
  destruct (mapgen_generated o d HA HD) as [[H1 _]|(a' & m & H1 & _ & H2 & H3 & _ & H4 & H5 & H6 & H7)]; [congruence|].
  rewrite G in H1. injection H1 as <-. specialize (H3 []). rewrite app_nil_r in H3.
  assert (K : (1 <= mg_kind o <= 6)%Z) by (apply known_kind_iff; apply HA).
  destruct (loaded_function (mg_kind o) (Some a) mo md F0 m i n) as [L1 L2]; auto; try lia; try (rewrite Hmap; reflexivity).
  split; [intros N; apply L1; auto|]. intros E. destruct (L2 (eq_sym E)) as (F & M & SF). exists m, F. split; [exact H2|]. split; [exact M|]. split; [exact SF|].
  assert (MF : map_fits (Some m) i (fp_size (f_props F0))) by (rewrite E; exact H5).
  assert (DE : forall k x, decorated mo (Some m) (dr_flips md) f k x = f (map_fn m x)).
  { intros k x. unfold decorated. now rewrite P1, P2, P3, P4. }
  split.
  - intros rs j c x AS NE AK. destruct (C109_values mo md F0 f (Some m) F i rs j c x HC M MF) as [_ R]; auto; [congruence|]. now rewrite DE in R.
  - intros v KN MX MO SQ. rewrite <- E in MO.
    assert (KF : fp_known (f_props F) = Ok true).
    { destruct (C109_known_maximum mo md F0 f (Some m) F i true HC M MF KN) as (b & Eb & _ & B & _). rewrite Eb. f_equal. apply B; auto.
      apply (known_surjective m i n H5). rewrite H4. destruct SQ as [SQ|SQ]; [now left|].
      destruct HA as (KK & _). destruct KK as [KK|KK]; [now left|right]. split; [exact KK|]. now apply H7. }
    split; [exact KF|]. destruct (C109_maximum mo md F0 f (Some m) F i v HC M MF KN MX MO KF) as (X1 & X2 & x & Lx & X3); [congruence|].
    split; [exact X1|]. split.
    + intros y Ly. rewrite <- (DE 0). now apply X2.
    + exists x. split; [exact Lx|]. rewrite <- (DE 0). now apply X3.
Qed.

(** A file of the right format, with numbers other than 0 and 1 instead of bits, violates an
    assertion: for translations, for the matrices of linear and affine maps, and for the
    vectors of affine maps. *)
Definition matrix_file (M : list (list Z)) : archive := Z.of_nat (length M) :: flat_map (fun row => Z.of_nat (length row) :: row) M.
Theorem C122_bits b M rest : Forall (fun z => 0 <= z < 256)%Z b -> Forall (Forall (fun z => 0 <= z < 256)%Z) M ->
  let vector := Z.of_nat (length b) :: b in
  let matrix := matrix_file M in
  let bits := Forall (fun z => z = 0 \/ z = 1)%Z in
  (~ bits b -> load_map 1 (Some (vector ++ rest)) = UB) /\
  (bits b -> load_map 1 (Some (vector ++ rest)) = Ok (MTranslation (map (Z.eqb 1) b))) /\
  (~ Forall bits M -> load_map 4 (Some (matrix ++ rest)) = UB) /\
  (~ (Forall bits M /\ bits b) -> load_map 5 (Some (matrix ++ vector ++ rest)) = UB).
Proof.
  intros Hb HM vector matrix bits.
  assert (RB : forall r, read_vector read_byte (vector ++ r) = Ok (b, r)) by (intros r; now apply read_bytes_exact).
  assert (RM : forall r, read_vector (read_vector read_byte) (matrix ++ r) = Ok (M, r)).
  { intros r. subst matrix. unfold matrix_file, read_vector at 1. unfold read_size. cbn [app read_number]. destruct (Z.leb_spec 0 (Z.of_nat (length M))); [|lia].
    cbn [bind]. rewrite Nat2Z.id. clear H. induction M as [|row M IH]; [reflexivity|]. apply Forall_cons_iff in HM as [H1 H2].
    cbn [length flat_map read_items]. rewrite <- app_assoc, read_bytes_exact by assumption. cbn [bind]. now rewrite IH. }
  assert (VM : forallb bits_valid M = true -> Forall bits M).
  { intros H. rewrite forallb_forall in H. apply Forall_forall. intros row Hr. apply bits_valid_exact. auto. }
  split; [|split; [|split]].
  - intros NB. cbn [load_map]. unfold load_translation. rewrite RB. cbn [bind]. destruct (bits_valid b) eqn:E; [|reflexivity]. apply bits_valid_exact in E. tauto.
  - intros B. cbn [load_map]. unfold load_translation. rewrite RB. cbn [bind]. apply bits_valid_exact in B. rewrite B. reflexivity.
  - intros NM. cbn [load_map]. unfold load_linear. rewrite RM. cbn [bind]. destruct (forallb bits_valid M) eqn:E; [tauto|]. rewrite andb_false_r. reflexivity.
  - intros N. cbn [load_map]. unfold load_affine. rewrite RM. cbn [bind]. rewrite RB. cbn [bind].
    destruct (forallb bits_valid M) eqn:E; [|rewrite andb_false_r; reflexivity]. rewrite andb_true_r.
    destruct (bits_valid b) eqn:E2; [apply bits_valid_exact in E2; tauto|]. match goal with |- context [assertb ?b] => now destruct b end.
Qed.
Print Assumptions C122_bits.
Example C122_bits_case : load_map 1 (Some [3; 1; 2; 0]%Z) = UB /\ load_map 4 (Some [1; 2; 0; 255]%Z) = UB /\ load_map 5 (Some [1; 2; 0; 1; 1; 2]%Z) = UB.
Proof. repeat split; reflexivity. Qed.

Print Assumptions C122_options.
Print Assumptions C122_generated.
Print Assumptions C122_unwritable.
Print Assumptions C122_save_load.
Print Assumptions C122_composition.
Print Assumptions C122_loaded.
Print Assumptions C122_missing.
Print Assumptions C122_other_kind.
Print Assumptions C122_function.

(** An affine map from two bits to three bits, and a composition on three bits *)
Definition example_mapgen (k : Z) : mapgen_options := mk_mapgen_options k 2 3 false 1 0.
Example C122_case :
  mapgen (example_mapgen 5) example_map_draws true = Some (Some [3; 2; 1; 0; 2; 0; 1; 2; 1; 1; 3; 1; 0; 0]%Z, Exit 0) /\
  load_map 5 (Some [3; 2; 1; 0; 2; 0; 1; 2; 1; 1; 3; 1; 0; 0]%Z) = Ok (MAffine [[true; false]; [false; true]; [true; true]] [true; false; false]) /\
  load_map 5 (Some [3; 2; 1; 0; 2; 0; 1; 2; 1; 1; 3; 1; 0]%Z) = Throw RuntimeError /\
  load_map 5 (Some [3; 2; 1; 0; 2; 0; 1; 2; 1; 1; 2; 1; 0; 0]%Z) = UB /\
  load_map 2 (Some [3; 0; 1; 0]%Z) = UB /\
  mapgen (example_mapgen 3) example_map_draws true = Some (Some [3; 1; 2; 0; 3; 1; 0; 0]%Z, Exit 0) /\
  load_map 3 (Some [3; 1; 2; 0; 3; 1; 0; 0]%Z) = Ok (MComposition (MPermutation [1; 2; 0]) (MTranslation [true; false; false]) [false; false; false]) /\
  mapgen (mk_mapgen_options 6 2 3 false 1 0) example_map_draws true = Some (Some [2; 1; 0; 1; 0; 1]%Z, Exit 0) /\
  mapgen (mk_mapgen_options 4 2 3 true 1 0) example_map_draws true = Some (None, Exit 1) /\
  mapgen (mk_mapgen_options 4 0 3 true 1 0) example_map_draws true = Some (None, Undefined).
Proof. vm_compute. repeat split; reflexivity. Qed.

Lemma draws_hypotheses : accepted (example_mapgen 5) /\ draws_ok (application_options (example_mapgen 5) true) (map_size (example_mapgen 5)) example_map_draws.
Proof.
  split.
  - unfold accepted, known_kind, sizes_ok, square, rectangular, example_mapgen. cbn. lia.
  - unfold draws_ok. split; [|split; [|split; [|split; [|split]]]].
    + intros [|x l]; [constructor|]. cbn. apply Permutation_cons_append.
    + intros l. apply Permutation_refl.
    + intros l. apply Permutation_refl.
    + intros k lo hi H. cbn. lia.
    + cbn. repeat constructor.
    + intros _. cbn. repeat constructor.
Qed.
Example C122_hypotheses_case :
  accepted (example_mapgen 5) /\ draws_ok (application_options (example_mapgen 5) true) (map_size (example_mapgen 5)) example_map_draws /\
  computes example_func ones_of /\ refused (mk_mapgen_options 4 2 3 true 1 0) /\ violates (mk_mapgen_options 4 0 3 true 1 0).
Proof.
  destruct draws_hypotheses as [A B]. split; [exact A|]. split; [exact B|]. split.
  - intros s r x H L. destruct H as [->| ->]; reflexivity.
  - split; [right; split; [|left]|]; unfold violates, known_kind, sizes_ok, square, rectangular; cbn; repeat split; try lia; auto.
Qed.
