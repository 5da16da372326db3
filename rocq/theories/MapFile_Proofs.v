(** Proofs about the files of maps. *)

From Coq Require Import ZArith Permutation.
From Verif Require Import Base BaseLemmas BitVector_Model BitVector_Spec BitVector_Proofs BitMatrix_Model BitMatrix_Spec BitMatrix_Proofs
  Transvection_Model Transvection_Proofs Map_Model Map_Spec Map_Proofs Mimic_Proofs
  Function_Spec Double Controller_Model Controller_Spec Decorator_Model Decorator_Spec Decorator_Proofs Application_Model MapFile_Model MapFile_Spec.
Local Open Scope nat_scope.

(** * Reading what was written *)

(** [read] gives [x] from the text [s] whatever follows, and fails on a truncated text. *)
Definition faithful {T} (read : archive -> outcome (T * archive)) (s : archive) (x : T) : Prop :=
  (forall rest, read (s ++ rest) = Ok (x, rest)) /\
  (forall a c, c <> [] -> s = a ++ c -> read a = Throw OtherException).

Lemma split_prefix {T} (s1 s2 a c : list T) : s1 ++ s2 = a ++ c ->
  (exists e, e <> [] /\ s1 = a ++ e) \/ exists e, a = s1 ++ e /\ s2 = e ++ c.
Proof.
  revert a. induction s1 as [|x s1 IH]; cbn; intros a E.
  - right. exists a. auto.
  - destruct a as [|y a]; cbn in E.
    + left. exists (x :: s1). split; [discriminate|auto].
    + injection E as -> E. destruct (IH a E) as [(e & N & ->)|(e & -> & ->)]; [left|right]; eauto.
Qed.

Lemma faithful_bind {T U} (r1 : archive -> outcome (T * archive)) (k : T -> archive -> outcome (U * archive)) s1 s2 x y :
  faithful r1 s1 x -> faithful (k x) s2 y -> faithful (fun a => '(x, a) <- r1 a ;; k x a) (s1 ++ s2) y.
Proof.
  intros [A1 A2] [B1 B2]. split.
  - intros rest. rewrite <- app_assoc, A1. cbn. apply B1.
  - intros a c N E. apply split_prefix in E as [(e & Ne & E)|(e & -> & E)].
    + rewrite (A2 a e Ne E). reflexivity.
    + rewrite A1. cbn. now apply (B2 e c).
Qed.

Lemma faithful_ret {T} (x : T) : faithful (fun a => Ok (x, a)) [] x.
Proof. split; [reflexivity|]. intros a c N E. symmetry in E. apply app_eq_nil in E. tauto. Qed.

Lemma faithful_ext {T} (r r' : archive -> outcome (T * archive)) s x : (forall a, r a = r' a) -> faithful r' s x -> faithful r s x.
Proof. intros E [A B]. split; intros; rewrite E; eauto. Qed.

Lemma faithful_after {T U} (r : archive -> outcome (T * archive)) (f : T -> outcome U) s x y :
  faithful r s x -> f x = Ok y -> faithful (fun a => '(x, a) <- r a ;; y <- f x ;; Ok (y, a)) s y.
Proof.
  intros A E. rewrite <- (app_nil_r s). apply (faithful_bind r (fun x a => y <- f x ;; Ok (y, a)) s [] x y A).
  apply (faithful_ext _ (fun a => Ok (y, a))); [intros a; now rewrite E|apply faithful_ret].
Qed.

Lemma faithful_number fits z : fits z = true -> faithful (read_number fits) [z] z.
Proof.
  intros E. split; [intros rest; cbn; now rewrite E|]. intros a c N K.
  destruct a as [|y a]; [reflexivity|]. injection K as -> K. symmetry in K. apply app_eq_nil in K. tauto.
Qed.

Lemma faithful_items {T} (read : archive -> outcome (T * archive)) save l : Forall (fun x => faithful read (save x) x) l ->
  faithful (read_items read (length l)) (flat_map save l) l.
Proof.
  induction l as [|x l IH]; intros H; cbn [length flat_map read_items]; [apply faithful_ret|].
  apply (faithful_bind read (fun x a => '(l, a) <- read_items read (length l) a ;; Ok (x :: l, a)) (save x) (flat_map save l) x).
  - now apply Forall_inv in H.
  - apply Forall_inv_tail in H. specialize (IH H).
    rewrite <- (app_nil_r (flat_map save l)).
    apply (faithful_bind (read_items read (length l)) (fun l a => Ok (x :: l, a)) _ [] l); auto. apply faithful_ret.
Qed.

Lemma faithful_vector {T} (read : archive -> outcome (T * archive)) save l : Forall (fun x => faithful read (save x) x) l ->
  faithful (read_vector read) (save_vector save l) l.
Proof.
  intros H. unfold read_vector, save_vector.
  apply (faithful_bind read_size (fun n a => read_items read (Z.to_nat n) a) [Z.of_nat (length l)] _ (Z.of_nat (length l))).
  - apply faithful_number. apply Z.leb_le. lia.
  - rewrite Nat2Z.id. now apply faithful_items.
Qed.

(** ** Bits *)

Definition byte_of (b : bool) : Z := if b then 1 else 0.
Definition bytes (x : bv) : list Z := map byte_of x.

Lemma flat_map_map {A B C} (f : A -> B) (g : B -> list C) l : flat_map g (map f l) = flat_map (fun x => g (f x)) l.
Proof. induction l; cbn; congruence. Qed.

Lemma save_bv_bytes x : save_bv x = save_vector (fun z => [z]) (bytes x).
Proof. unfold save_bv, save_vector, bytes. now rewrite map_length, flat_map_map. Qed.

Lemma save_bm_bytes M : save_bm M = save_vector (save_vector (fun z => [z])) (map bytes M).
Proof.
  unfold save_bm, save_vector at 1 2. rewrite map_length, flat_map_map. f_equal. apply flat_map_ext. intros x. apply save_bv_bytes.
Qed.

Lemma read_byte_faithful b : faithful read_byte [byte_of b] (byte_of b).
Proof.
  unfold read_byte. apply (faithful_ext _ (fun a => '(z, a) <- read_number (fun z => (- 2 ^ 16 <? z) && (z <? 2 ^ 16))%Z a ;; y <- Ok (z mod 256)%Z ;; Ok (y, a))).
  { intros a. reflexivity. }
  apply (faithful_after _ (fun z => Ok (z mod 256)%Z) [byte_of b] (byte_of b)); [|now destruct b].
  apply faithful_number. now destruct b.
Qed.

Lemma read_bv_faithful x : faithful (read_vector read_byte) (save_bv x) (bytes x).
Proof.
  rewrite save_bv_bytes. apply faithful_vector. unfold bytes. rewrite Forall_map. apply Forall_forall.
  intros b _. apply read_byte_faithful.
Qed.

Lemma read_bm_faithful M : faithful (read_vector (read_vector read_byte)) (save_bm M) (map bytes M).
Proof.
  rewrite save_bm_bytes. apply faithful_vector. rewrite Forall_map. apply Forall_forall.
  intros x _. rewrite <- save_bv_bytes. apply read_bv_faithful.
Qed.

Lemma bits_valid_bytes x : bits_valid (bytes x) = true.
Proof. unfold bits_valid, bytes. rewrite forallb_forall. intros z Hz. apply in_map_iff in Hz as ([] & <- & _); reflexivity. Qed.
Lemma to_bits_bytes x : to_bits (bytes x) = x.
Proof. unfold to_bits, bytes. rewrite map_map. rewrite <- (map_id x) at 2. apply map_ext. now intros []. Qed.
Lemma to_bits_bm M : map to_bits (map bytes M) = M.
Proof. rewrite map_map. rewrite <- (map_id M) at 2. apply map_ext. apply to_bits_bytes. Qed.
Lemma valid_bm M : forallb bits_valid (map bytes M) = true.
Proof. rewrite forallb_forall. intros l Hl. apply in_map_iff in Hl as (x & <- & _). apply bits_valid_bytes. Qed.

Lemma read_bytes_exact l rest : Forall (fun z => 0 <= z < 256)%Z l ->
  read_vector read_byte ((Z.of_nat (length l) :: l) ++ rest) = Ok (l, rest).
Proof.
  intros H. assert (F : faithful (read_vector read_byte) (save_vector (fun z => [z]) l) l).
  { apply faithful_vector. apply Forall_forall. intros z Hz. rewrite Forall_forall in H. specialize (H z Hz). unfold read_byte.
    apply (faithful_ext _ (fun a => '(z, a) <- read_number (fun z => (- 2 ^ 16 <? z) && (z <? 2 ^ 16))%Z a ;; y <- Ok (z mod 256)%Z ;; Ok (y, a))); [reflexivity|].
    apply (faithful_after _ (fun z => Ok (z mod 256)%Z) [z] z); [|now rewrite Z.mod_small].
    apply faithful_number. apply andb_true_intro. split; apply Z.ltb_lt; lia. }
  destruct F as [F _]. specialize (F rest). unfold save_vector in F. rewrite <- F. do 3 f_equal. clear. induction l; cbn; congruence.
Qed.
Lemma bits_valid_exact l : bits_valid l = true <-> Forall (fun z => z = 0 \/ z = 1)%Z l.
Proof.
  unfold bits_valid. rewrite forallb_forall, Forall_forall. split; intros H z Hz; specialize (H z Hz).
  - apply orb_prop in H as [H|H]; apply Z.eqb_eq in H; auto.
  - destruct H as [->| ->]; reflexivity.
Qed.

(** ** Maps *)

Lemma load_translation_faithful b : faithful load_translation (save_map (MTranslation b)) (MTranslation b).
Proof.
  apply (faithful_ext _ (fun a => '(l, a) <- read_vector read_byte a ;; m <- (_ <- assertb (bits_valid l) ;; Ok (MTranslation (to_bits l))) ;; Ok (m, a))).
  { intros a. unfold load_translation. destruct (read_vector read_byte a) as [[l a']| |]; cbn; auto. now destruct (bits_valid l). }
  apply (faithful_after _ _ _ (bytes b)); [apply read_bv_faithful|]. rewrite bits_valid_bytes. cbn. now rewrite to_bits_bytes.
Qed.

Lemma read_index_faithful k : (Z.of_nat k < 2 ^ 31)%Z -> faithful read_int [Z.of_nat k] (Z.of_nat k).
Proof. intros H. apply faithful_number. apply andb_true_iff. split; [apply Z.leb_le|apply Z.ltb_lt]; lia. Qed.

Lemma load_permutation_faithful p : Permutation p (seq 0 (length p)) -> Forall (fun k => Z.of_nat k < 2 ^ 31)%Z p ->
  faithful load_permutation (save_map (MPermutation p)) (MPermutation p).
Proof.
  intros HP HF.
  apply (faithful_ext _ (fun a => '(l, a) <- read_vector read_int a ;;
    m <- (_ <- assertb (forallb (Z.leb 0) l) ;; v <- perm_is_valid (map Z.to_nat l) ;; _ <- assertb v ;; Ok (MPermutation (map Z.to_nat l))) ;; Ok (m, a))).
  { intros a. unfold load_permutation. destruct (read_vector read_int a) as [[l a']| |]; cbn [bind]; auto.
    destruct (forallb (Z.leb 0) l); cbn [assertb bind]; auto. destruct (perm_is_valid (map Z.to_nat l)) as [[]| |]; reflexivity. }
  apply (faithful_after _ _ _ (map Z.of_nat p)).
  - cbn [save_map]. assert (E : save_vector save_index p = save_vector (fun z => [z]) (map Z.of_nat p)).
    { unfold save_vector. now rewrite map_length, flat_map_map. }
    rewrite E. apply faithful_vector. rewrite Forall_map. revert HF. apply Forall_impl. apply read_index_faithful.
  - assert (E : map Z.to_nat (map Z.of_nat p) = p).
    { rewrite map_map. rewrite <- (map_id p) at 2. apply map_ext. apply Nat2Z.id. }
    rewrite E. assert (K : forallb (Z.leb 0) (map Z.of_nat p) = true).
    { rewrite forallb_forall. intros z Hz. apply in_map_iff in Hz as (k & <- & _). apply Z.leb_le. lia. }
    rewrite K. cbn [assertb bind]. rewrite (perm_valid_Ok (length p)) by now symmetry. reflexivity.
Qed.

Lemma load_linear_faithful nr nc M : is_matrix nr nc M -> faithful load_linear (save_map (MLinear M)) (MLinear M).
Proof.
  intros HM.
  apply (faithful_ext _ (fun a => '(M, a) <- read_vector (read_vector read_byte) a ;;
    m <- (_ <- assertb (bm_is_valid (map to_bits M) && forallb bits_valid M) ;; Ok (MLinear (map to_bits M))) ;; Ok (m, a))).
  { intros a. unfold load_linear. destruct (read_vector (read_vector read_byte) a) as [[l a']| |]; cbn [bind]; auto.
    destruct (bm_is_valid (map to_bits l) && forallb bits_valid l); reflexivity. }
  apply (faithful_after _ _ _ (map bytes M)); [apply read_bm_faithful|].
  rewrite to_bits_bm, valid_bm. rewrite (proj2 (bm_is_valid_exact M)); [reflexivity|eauto].
Qed.

Lemma load_affine_faithful nr nc M b : is_matrix nr nc M -> length b = nr -> faithful load_affine (save_map (MAffine M b)) (MAffine M b).
Proof.
  intros HM Hb. cbn [save_map].
  apply (faithful_bind (read_vector (read_vector read_byte)) (fun M a =>
    '(b, a) <- read_vector read_byte a ;;
    _ <- assertb (bm_is_valid (map to_bits M) && forallb bits_valid M) ;;
    _ <- assertb (bits_valid b) ;;
    _ <- assertb (length M =? length b) ;;
    Ok (MAffine (map to_bits M) (to_bits b), a)) _ _ (map bytes M)); [apply read_bm_faithful|].
  set (M' := map bytes M).
  apply (faithful_ext _ (fun a => '(b, a) <- read_vector read_byte a ;;
    m <- (_ <- assertb (bm_is_valid (map to_bits M') && forallb bits_valid M') ;; _ <- assertb (bits_valid b) ;;
          _ <- assertb (length M' =? length b) ;; Ok (MAffine (map to_bits M') (to_bits b))) ;; Ok (m, a))).
  { intros a. destruct (read_vector read_byte a) as [[l a']| |]; cbn [bind]; auto.
    destruct (bm_is_valid (map to_bits M') && forallb bits_valid M'); cbn [assertb bind]; auto.
    destruct (bits_valid l); cbn [assertb bind]; auto. destruct (length M' =? length l); reflexivity. }
  apply (faithful_after _ _ _ (bytes b)); [apply read_bv_faithful|]. unfold M'.
  rewrite to_bits_bm, valid_bm, bits_valid_bytes, to_bits_bytes. rewrite (proj2 (bm_is_valid_exact M)) by eauto. cbn [assertb bind andb].
  unfold bytes at 2. rewrite !map_length. destruct HM as (_ & _ & -> & _). rewrite Hb, Nat.eqb_refl. reflexivity.
Qed.

Lemma load_transvection_faithful n tv : tv_ok n tv -> (Z.of_nat (row_index tv) < 2 ^ 31 /\ Z.of_nat (column_index tv) < 2 ^ 31)%Z ->
  faithful load_transvection (save_transvection tv) tv.
Proof.
  intros (_ & _ & N) [A B]. unfold save_transvection, save_index.
  apply (faithful_bind read_int (fun i a => '(j, a) <- read_int a ;;
     _ <- assertb ((0 <=? i) && (0 <=? j) && negb (i =? j))%Z ;; Ok (mk_tv (Z.to_nat i) (Z.to_nat j), a)) _ _ (Z.of_nat (row_index tv))).
  { now apply read_index_faithful. }
  set (i := Z.of_nat (row_index tv)).
  apply (faithful_ext _ (fun a => '(j, a) <- read_int a ;;
    t <- (_ <- assertb ((0 <=? i) && (0 <=? j) && negb (i =? j))%Z ;; Ok (mk_tv (Z.to_nat i) (Z.to_nat j))) ;; Ok (t, a))).
  { intros a. destruct (read_int a) as [[j a']| |]; cbn [bind]; auto. destruct ((0 <=? i) && (0 <=? j) && negb (i =? j))%Z; reflexivity. }
  apply (faithful_after _ _ _ (Z.of_nat (column_index tv))); [now apply read_index_faithful|]. unfold i.
  rewrite (proj2 (Z.leb_le 0 _)), (proj2 (Z.leb_le 0 _)) by lia.
  rewrite (proj2 (Z.eqb_neq _ _)) by lia. cbn [andb negb assertb bind]. rewrite !Nat2Z.id. now destruct tv.
Qed.

Lemma ts_valid_iff ts n : ts_is_valid_n ts n = true <-> Forall (tv_ok n) ts.
Proof.
  unfold ts_is_valid_n. rewrite forallb_forall, Forall_forall. split; intros H tv Hv; specialize (H tv Hv).
  - unfold tv_is_valid_n, tv_is_valid in H. apply andb_true_iff in H as [H K]. apply andb_true_iff in H as [H L].
    apply negb_true_iff in H, K, L. apply Nat.eqb_neq in H. apply Nat.leb_gt in K, L. repeat split; auto.
  - destruct H as (A & B & C). unfold tv_is_valid_n, tv_is_valid. rewrite (proj2 (Nat.eqb_neq _ _)) by auto.
    rewrite (proj2 (Nat.leb_gt n _)), (proj2 (Nat.leb_gt n _)) by auto. reflexivity.
Qed.

Lemma load_ts_affine_faithful ts b : Forall (tv_ok (length b)) ts -> indices_fit (MTsAffine ts b) ->
  faithful load_ts_affine (save_map (MTsAffine ts b)) (MTsAffine ts b).
Proof.
  intros HT HF. cbn [save_map].
  apply (faithful_bind (read_vector read_byte) (fun b a =>
    '(ts, a) <- read_vector load_transvection a ;;
    _ <- assertb (bits_valid b) ;; _ <- assertb (ts_is_valid_n ts (length b)) ;; Ok (MTsAffine ts (to_bits b), a)) _ _ (bytes b)).
  { apply read_bv_faithful. }
  apply (faithful_ext _ (fun a => '(ts, a) <- read_vector load_transvection a ;;
    m <- (_ <- assertb (bits_valid (bytes b)) ;; _ <- assertb (ts_is_valid_n ts (length (bytes b))) ;; Ok (MTsAffine ts (to_bits (bytes b)))) ;; Ok (m, a))).
  { intros a. destruct (read_vector load_transvection a) as [[l a']| |]; cbn [bind]; auto.
    destruct (bits_valid (bytes b)); cbn [assertb bind]; auto. destruct (ts_is_valid_n l (length (bytes b))); reflexivity. }
  apply (faithful_after _ _ _ ts).
  - apply faithful_vector. cbn in HF. rewrite Forall_forall in *. intros tv Hv. now apply (load_transvection_faithful (length b)); auto.
  - rewrite bits_valid_bytes, to_bits_bytes. cbn [assertb bind]. unfold bytes. rewrite map_length.
    rewrite (proj2 (ts_valid_iff ts (length b)) HT). reflexivity.
Qed.

(** * Saving, then loading *)

Lemma rethrow_Ok {T} (x : T) : rethrow (Ok x) = Ok x.
Proof. reflexivity. Qed.

Definition loader (m : hmap) : archive -> outcome (hmap * archive) :=
  match m with
  | MPermutation _ => load_permutation
  | MLinear _ => load_linear
  | MAffine _ _ => load_affine
  | MTsAffine _ _ => load_ts_affine
  | _ => load_translation
  end.
Definition simple (m : hmap) : Prop :=
  match m with MTranslation _ | MPermutation _ | MLinear _ | MAffine _ _ | MTsAffine _ _ => True | _ => False end.

Lemma loader_faithful m i n : simple m -> built m i n -> indices_fit m -> faithful (loader m) (save_map m) m.
Proof.
  intros S B F. destruct B; try (destruct S; fail).
  - apply load_translation_faithful.
  - now apply load_permutation_faithful.
  - now apply (load_linear_faithful nr nc).
  - now apply (load_affine_faithful nr nc).
  - unfold make_injection in H1. destruct (n <? length pos); [discriminate|]. injection H1 as <-. destruct S.
  - unfold make_projection in H1. destruct (n <? length pos); [discriminate|]. injection H1 as <-. destruct S.
  - now apply load_ts_affine_faithful.
  - unfold make_composition in H. apply bind_Ok in H as (x & _ & H). apply bind_Ok in H as (y & _ & H). injection H as <-. destruct S.
Qed.

Lemma load_map_loader m a : simple m -> load_map (kind_of m) (Some a) = ('(m, _) <- rethrow (loader m a) ;; Ok m).
Proof. now destruct m. Qed.

Lemma save_load m i n rest : simple m -> built m i n -> indices_fit m ->
  load_map (kind_of m) (Some (save_map m ++ rest)) = Ok m.
Proof. intros S B F. rewrite load_map_loader by auto. rewrite (proj1 (loader_faithful m i n S B F)). reflexivity. Qed.

Lemma truncated_refused m i n a : simple m -> built m i n -> indices_fit m -> truncated a (save_map m) ->
  load_map (kind_of m) (Some a) = Throw RuntimeError.
Proof.
  intros S B F (c & N & E). rewrite load_map_loader by auto.
  rewrite (proj2 (loader_faithful m i n S B F) a c N E). reflexivity.
Qed.

Lemma composition_faithful p b : Permutation p (seq 0 (length p)) -> Forall (fun k => Z.of_nat k < 2 ^ 31)%Z p ->
  faithful (fun a => '(p, a) <- load_permutation a ;; '(t, a) <- load_translation a ;; Ok ((p, t), a))
    (save_map (MPermutation p) ++ save_map (MTranslation b)) (MPermutation p, MTranslation b).
Proof.
  intros HP HF.
  apply (faithful_bind load_permutation (fun p a => '(t, a) <- load_translation a ;; Ok ((p, t), a)) _ _ (MPermutation p)).
  { now apply load_permutation_faithful. }
  rewrite <- (app_nil_r (save_map (MTranslation b))).
  apply (faithful_bind load_translation (fun t a => Ok ((MPermutation p, t), a)) _ [] (MTranslation b)); [apply load_translation_faithful|apply faithful_ret].
Qed.

Lemma load_composition a : load_map 3 (Some a) =
  ('(q, _) <- rethrow ('(p, a) <- load_permutation a ;; '(t, a) <- load_translation a ;; Ok ((p, t), a)) ;; make_composition (fst q) (snd q)).
Proof.
  unfold load_map. destruct (load_permutation a) as [[p a1]|e|]; cbn [bind rethrow]; auto; [|now destruct e].
  destruct (load_translation a1) as [[t a2]|e|]; cbn [bind rethrow]; auto. now destruct e.
Qed.

Lemma composition_save_load p b rest : Permutation p (seq 0 (length p)) -> Forall (fun k => Z.of_nat k < 2 ^ 31)%Z p -> length b = length p ->
  load_map 3 (Some (save_map (MPermutation p) ++ save_map (MTranslation b) ++ rest)) =
  Ok (MComposition (MPermutation p) (MTranslation b) (repeat false (length b))).
Proof.
  intros HP HF L. rewrite load_composition, app_assoc. rewrite (proj1 (composition_faithful p b HP HF)).
  cbn [bind rethrow fst snd]. unfold make_composition. cbn [map_input_size map_output_size bind]. rewrite L, Nat.eqb_refl. reflexivity.
Qed.

Lemma composition_truncated p b a : Permutation p (seq 0 (length p)) -> Forall (fun k => Z.of_nat k < 2 ^ 31)%Z p ->
  truncated a (save_map (MPermutation p) ++ save_map (MTranslation b)) -> load_map 3 (Some a) = Throw RuntimeError.
Proof.
  intros HP HF (c & N & E). rewrite load_composition. rewrite (proj2 (composition_faithful p b HP HF) a c N E). reflexivity.
Qed.

(** * Loaded maps *)

Lemma rethrow_inv {T} (r : outcome T) x : rethrow r = Ok x -> r = Ok x.
Proof. destruct r as [y|[]|]; cbn; auto; discriminate. Qed.

Lemma assert_inv b u : assertb b = Ok u -> b = true.
Proof. now destruct b. Qed.

Lemma load_translation_sound a m a' : load_translation a = Ok (m, a') -> exists b, m = MTranslation b.
Proof.
  unfold load_translation. intros H. apply bind_Ok in H as ([l a1] & _ & H). apply bind_Ok in H as (u & _ & H). injection H as <- _. eauto.
Qed.

Lemma load_permutation_sound a m a' : load_permutation a = Ok (m, a') -> exists p, m = MPermutation p /\ Permutation p (seq 0 (length p)).
Proof.
  unfold load_permutation. intros H. apply bind_Ok in H as ([l a1] & _ & H). apply bind_Ok in H as (u & _ & H). cbn zeta in H.
  apply bind_Ok in H as (v & Hv & H). apply bind_Ok in H as (w & Hw & H). apply assert_inv in Hw. subst v. injection H as <- _.
  eexists. split; [reflexivity|]. destruct (perm_is_valid_exact (map Z.to_nat l)) as (b & Hb & K). rewrite Hv in Hb. injection Hb as <-. now apply K.
Qed.

Lemma load_map_sound k file m : load_map k file = Ok m -> (1 <= k <= 6)%Z /\ kind_of m = k /\ exists i n, built m i n.
Proof.
  destruct file as [a|]; [|discriminate]. unfold load_map.
  destruct (Z.eq_dec k 1) as [->|N1]; [|destruct (Z.eq_dec k 2) as [->|N2]; [|destruct (Z.eq_dec k 3) as [->|N3];
    [|destruct (Z.eq_dec k 4) as [->|N4]; [|destruct (Z.eq_dec k 5) as [->|N5]; [|destruct (Z.eq_dec k 6) as [->|N6]]]]]].
  - intros H. apply bind_Ok in H as ([m' a'] & H & E). injection E as <-. apply rethrow_inv, load_translation_sound in H as (b & ->).
    split; [lia|]. split; [reflexivity|]. do 2 eexists. constructor.
  - intros H. apply bind_Ok in H as ([m' a'] & H & E). injection E as <-. apply rethrow_inv, load_permutation_sound in H as (p & -> & HP).
    split; [lia|]. split; [reflexivity|]. do 2 eexists. now constructor.
  - intros H. apply bind_Ok in H as ([p t] & H & E). apply rethrow_inv in H. apply bind_Ok in H as ([p' a1] & H & K).
    apply bind_Ok in K as ([t' a2] & K & L). injection L as -> ->.
    apply load_permutation_sound in H as (q & -> & HP). apply load_translation_sound in K as (b & ->).
    pose proof E as E'. unfold make_composition in E. cbn [map_input_size map_output_size bind] in E.
    apply bind_Ok in E as (u & Hu & E). apply assert_inv, Nat.eqb_eq in Hu. injection E as <-.
    split; [lia|]. split; [reflexivity|]. exists (length b), (length q). apply (built_composition (MPermutation q) (MTranslation b) _ _ (length q)); auto.
    + now constructor.
    + rewrite Hu. constructor.
  - intros H. apply bind_Ok in H as ([m' a'] & H & E). injection E as <-. apply rethrow_inv in H. unfold load_linear in H.
    apply bind_Ok in H as ([M a1] & _ & H). apply bind_Ok in H as (u & Hu & H). injection H as <- _.
    apply assert_inv, andb_true_iff in Hu as [Hu _]. apply bm_is_valid_exact in Hu as (nr & nc & HM).
    split; [lia|]. split; [reflexivity|]. exists nc, nr. now constructor.
  - intros H. apply bind_Ok in H as ([m' a'] & H & E). injection E as <-. apply rethrow_inv in H. unfold load_affine in H.
    apply bind_Ok in H as ([M a1] & _ & H). apply bind_Ok in H as ([b a2] & _ & H). apply bind_Ok in H as (u & Hu & H).
    apply bind_Ok in H as (v & _ & H). apply bind_Ok in H as (w & Hw & H). injection H as <- _.
    apply assert_inv, andb_true_iff in Hu as [Hu _]. apply bm_is_valid_exact in Hu as (nr & nc & HM). apply assert_inv, Nat.eqb_eq in Hw.
    split; [lia|]. split; [reflexivity|]. exists nc, nr. constructor; auto. unfold to_bits. rewrite map_length, <- Hw.
    destruct HM as (_ & _ & K & _). now rewrite map_length in K.
  - intros H. apply bind_Ok in H as ([m' a'] & H & E). injection E as <-. apply rethrow_inv in H. unfold load_ts_affine in H.
    apply bind_Ok in H as ([b a1] & _ & H). apply bind_Ok in H as ([ts a2] & _ & H). apply bind_Ok in H as (u & _ & H).
    apply bind_Ok in H as (v & Hv & H). injection H as <- _. apply assert_inv, ts_valid_iff in Hv.
    split; [lia|]. split; [reflexivity|]. do 2 eexists. apply built_ts_affine. unfold to_bits. now rewrite map_length.
  - intros H. exfalso. destruct k as [|p|p]; try discriminate H. do 3 (destruct p as [p|p|]; try discriminate H; try lia).
Qed.

(** * mapgen *)

Definition pieces (m : hmap) : list hmap := match m with MComposition p t _ => [p; t] | _ => [m] end.

Lemma kind_cases (k : Z) : (k = 1 \/ k = 2 \/ k = 3 \/ k = 4 \/ k = 5 \/ k = 6 \/ ~ (1 <= k <= 6))%Z.
Proof. lia. Qed.

Lemma known_kind_iff o : known_kind o <-> (1 <= mg_kind o <= 6)%Z.
Proof. unfold known_kind, square, rectangular. lia. Qed.

Lemma generate_make o d : accepted o -> shuffles (md_perm d) ->
  generate_map o d = (r <- make_map (application_options o true) UB d (map_size o) ;; Ok (option_map pieces r)) /\
  (0 < map_size o)%nat /\ (Z.of_nat (map_size o) < 2 ^ 31)%Z /\
  ~ map_rejected (application_options o true) (map_size o) /\ ~ map_undefined (application_options o true) (map_size o).
Proof.
  intros (HK & ((S1 & S2) & S3 & S4) & HR & H6) HP. apply known_kind_iff in HK.
  unfold generate_map, make_map, map_rejected, map_undefined, map_size, application_options, rectangular in *.
  cbn [mp_kind mp_random mp_input_size mp_surjective mp_ts_length mp_ts_mode].
  destruct (kind_cases (mg_kind o)) as [E|[E|[E|[E|[E|[E|E]]]]]]; [..|lia].
  all: rewrite E in *; cbn [Z.eqb Pos.eqb Z.ltb Z.compare Pos.compare Pos.compare_cont assertb bind].
  1-3: (assert (0 < Z.to_nat (mg_output_size o)) as P by lia; apply Nat.ltb_lt in P as P'; rewrite P';
    split; [|split; [auto|split; [lia|split; [intros [K|[[K _]|[K _]]]; lia|intros [K _]; lia]]]]);
    unfold translation_random, permutation_random; rewrite P'; cbn [assertb bind option_map pieces]; try reflexivity.
  - unfold make_composition. cbn [map_input_size map_output_size bind].
    rewrite <- (Permutation_length (HP (seq 0 _))), seq_length, length_random, Nat.eqb_refl. reflexivity.
  - assert (0 < Z.to_nat (mg_output_size o)) as P by lia; apply Nat.ltb_lt in P as P'; rewrite P'. cbn [assertb bind].
    rewrite (proj2 (Z.leb_gt (mg_input_size o) 0)) by lia.
    split; [|split; [auto|split; [lia|split; [intros [K|[[K [L|[L1 L2]]]|[K _]]]; try lia|intros [K _]; lia]]]].
    + unfold map_some, linear_map_random. destruct (0 <? Z.to_nat (mg_output_size o)); cbn [assertb bind]; auto.
      destruct (0 <? Z.to_nat (mg_input_size o)); cbn [assertb bind]; auto.
      destruct (mg_surjective o); [destruct (_ <? _); auto|destruct (md_matrices d); reflexivity].
      destruct (random_surjective (md_matrices d)) as [[M|]| |]; reflexivity.
    + specialize (HR (or_introl eq_refl) L1). lia.
  - assert (0 < Z.to_nat (mg_output_size o)) as P by lia; apply Nat.ltb_lt in P as P'; rewrite P'. cbn [assertb bind].
    rewrite (proj2 (Z.leb_gt (mg_input_size o) 0)) by lia.
    split; [|split; [auto|split; [lia|split; [intros [K|[[K [L|[L1 L2]]]|[K _]]]; try lia|intros [K _]; lia]]]].
    + unfold map_some, affine_map_random. destruct (0 <? Z.to_nat (mg_output_size o)); cbn [assertb bind]; auto.
      destruct (0 <? Z.to_nat (mg_input_size o)); cbn [assertb bind]; auto.
      match goal with |- context [bind (bind ?x _) _] => destruct x as [[M|]| |] end; reflexivity.
    + specialize (HR (or_intror eq_refl) L1). lia.
  - specialize (H6 eq_refl). assert (0 < Z.to_nat (mg_input_size o)) as P by lia; apply Nat.ltb_lt in P as P'; rewrite P'. cbn [assertb bind].
    split; [|split; [auto|split; [lia|split; [intros [K|[[K _]|[_ [K1 K2]]]]; lia|intros [_ [K|[K _]]]; lia]]]].
    unfold map_some. set (r := ts_affine_map_random _ _ _ _).
    assert (G : forall m, r = Ok (Some m) -> pieces m = [m]).
    { subst r. unfold ts_affine_map_random. intros m H. apply bind_Ok in H as (_ & _ & H). apply bind_Ok in H as (_ & _ & H).
      cbn zeta in H. unfold map_some in H.
      repeat match type of H with (if ?b then _ else _) = _ => destruct b end; try discriminate H.
      all: apply bind_Ok in H as ([ts|] & _ & H); cbn in H; inversion H; reflexivity. }
    clearbody r. destruct r as [[m|]| |]; cbn [bind option_map]; auto. now rewrite (G m eq_refl).
Qed.

Lemma built_fits m i n : built m i n -> (Z.of_nat n < 2 ^ 31)%Z -> indices_fit m.
Proof.
  intros B H. destruct B; cbn [indices_fit]; auto.
  - rewrite Forall_forall. intros k Hk. apply (Permutation_in k) in H0; auto. apply in_seq in H0. lia.
  - unfold make_injection in H2. destruct (n <? length pos); inversion H2. exact I.
  - unfold make_projection in H2. destruct (n <? length pos); inversion H2. exact I.
  - revert H0. apply Forall_impl. intros tv (A & B & _). lia.
  - unfold make_composition in H0. apply bind_Ok in H0 as (x & _ & H0). apply bind_Ok in H0 as (y & _ & H0). inversion H0. exact I.
Qed.

Lemma composition_inv p t buf i n : built (MComposition p t buf) i n -> exists k, built p k n /\ built t i k /\ make_composition p t = Ok (MComposition p t buf).
Proof.
  intros B. inversion B; subst.
  - unfold make_injection in H1. destruct (_ <? _); discriminate.
  - unfold make_projection in H1. destruct (_ <? _); discriminate.
  - pose proof H1 as E. unfold make_composition in E. apply bind_Ok in E as (x & _ & E). apply bind_Ok in E as (y & _ & E). inversion E; subst. eauto.
Qed.

Lemma pieces_faithful m i n : (1 <= kind_of m <= 6)%Z -> built m i n -> (Z.of_nat n < 2 ^ 31)%Z ->
  (forall rest, load_map (kind_of m) (Some (flat_map save_map (pieces m) ++ rest)) = Ok m) /\
  (forall a, truncated a (flat_map save_map (pieces m)) -> load_map (kind_of m) (Some a) = Throw RuntimeError).
Proof.
  intros K B H.
  assert (S : simple m -> pieces m = [m]) by (destruct m; cbn; tauto).
  destruct (Z.eq_dec (kind_of m) 3) as [E|N].
  - destruct m as [| | | | | | |p t buf]; try discriminate E. destruct p; try discriminate E. destruct t; try discriminate E.
    destruct (composition_inv _ _ _ _ _ B) as (k & B1 & B2 & C). rewrite E.
    inversion B1; subst; [|unfold make_injection in H2; destruct (_ <? _); discriminate|unfold make_projection in H2; destruct (_ <? _); discriminate|
      unfold make_composition in H2; apply bind_Ok in H2 as (x & _ & H2); apply bind_Ok in H2 as (y & _ & H2); discriminate H2].
    assert (L : length b = length p).
    { unfold make_composition in C. cbn [map_input_size map_output_size bind] in C. destruct (Nat.eqb_spec (length p) (length b)); [auto|discriminate]. }
    assert (F : Forall (fun k => Z.of_nat k < 2 ^ 31)%Z p) by exact (built_fits _ _ _ B1 H).
    cbn [pieces flat_map]. rewrite app_nil_r. split.
    + intros rest. rewrite <- app_assoc. rewrite composition_save_load by auto. rewrite <- C.
      unfold make_composition. cbn [map_input_size map_output_size bind]. rewrite L, Nat.eqb_refl. reflexivity.
    + intros a T. now apply (composition_truncated p b).
  - assert (SM : simple m).
    { destruct m as [| | | | | | |p t buf]; cbn in K |- *; try exact I; try lia. cbn in N. destruct p; try lia. destruct t; lia. }
    rewrite (S SM). cbn [flat_map]. rewrite app_nil_r. pose proof (built_fits m i n B H) as F. split.
    + intros rest. now apply (save_load m i n).
    + intros a T. now apply (truncated_refused m i n).
Qed.

Lemma mapgen_generated o d : accepted o -> draws_ok (application_options o true) (map_size o) d ->
  let n := map_size o in let i := random_map_input (application_options o true) n in
  ((forall w, mapgen o d w = None) /\ (4 <= mg_kind o)%Z) \/
  exists a m, mapgen o d true = Some (Some a, Exit 0) /\ mapgen o d false = Some (None, Uncaught) /\
    make_map (application_options o true) UB d n = Ok (Some m) /\
    (forall rest, load_map (mg_kind o) (Some (a ++ rest)) = Ok m) /\
    (forall a', truncated a' a -> load_map (mg_kind o) (Some a') = Throw RuntimeError) /\
    kind_of m = mg_kind o /\ built m i n /\
    (square (mg_kind o) -> bijection (map_fn m) n) /\ (mg_surjective o = true -> onto (map_fn m) i n).
Proof.
  intros HA HD n i. destruct (generate_make o d HA (proj1 HD)) as (G & P & L & R & U). fold n in G, P, L, R, U.
  assert (K : (1 <= mg_kind o <= 6)%Z) by (apply known_kind_iff; apply HA).
  destruct (make_map_random_spec (application_options o true) UB d n P) as (_ & _ & H); [cbn; lia|reflexivity|exact HD|].
  destruct (H R U) as [[E M4]|(m & E & KM & B & BJ & ON)].
  - left. split; [|exact M4]. intros w. unfold mapgen. now rewrite G, E.
  - right. exists (flat_map save_map (pieces m)), m. unfold mapgen. rewrite G, E. cbn [bind option_map].
    split; [reflexivity|]. split; [reflexivity|]. split; [reflexivity|].
    cbn [mp_kind application_options] in KM. destruct (pieces_faithful m i n) as [F1 F2]; [rewrite KM; exact K|exact B|exact L|].
    rewrite <- KM. split; [exact F1|]. split; [exact F2|]. split; [reflexivity|]. split; [exact B|]. split; [|exact ON].
    intros Sq. apply BJ; cbn; rewrite <- KM; unfold square in Sq; lia.
Qed.

Lemma mapgen_refused o d w : refused o -> mapgen o d w = Some (None, Exit 1).
Proof.
  unfold refused, mapgen. intros H. assert (G : generate_map o d = Throw RuntimeError); [|now rewrite G].
  unfold generate_map. destruct H as [H|[(S0 & S3 & S4) [(HK & HS & HL)|(HK & HL & HM)]]].
  - rewrite known_kind_iff in H. destruct (mg_kind o) as [|p|p]; try reflexivity. do 3 (destruct p as [p|p|]; try reflexivity; try lia).
  - unfold rectangular in *.
    assert (0 < Z.to_nat (mg_output_size o)) as P1 by lia. assert (0 < Z.to_nat (mg_input_size o)) as P2 by lia.
    assert (Z.to_nat (mg_input_size o) < Z.to_nat (mg_output_size o)) as P3 by lia.
    apply Nat.ltb_lt in P1, P2, P3.
    destruct HK as [E|E]; rewrite E; unfold linear_map_random, affine_map_random; rewrite P1, P2, HS, P3; reflexivity.
  - rewrite HK. unfold ts_affine_map_random. unfold rectangular in *.
    assert (0 < Z.to_nat (mg_input_size o)) as P2 by lia. apply Nat.ltb_lt in P2. rewrite P2. apply Z.leb_le in HL. rewrite HL. cbn [assertb bind].
    repeat (match goal with |- context [(mg_ts_mode o =? ?k)%Z] => destruct (Z.eqb_spec (mg_ts_mode o) k); [lia|] end). reflexivity.
Qed.

Lemma mapgen_violates o d w : violates o -> mapgen o d w = Some (None, Undefined).
Proof.
  unfold violates, mapgen. intros [HK H]. assert (G : generate_map o d = UB); [|now rewrite G].
  apply known_kind_iff in HK. unfold generate_map, rectangular in *.
  destruct (kind_cases (mg_kind o)) as [E|[E|[E|[E|[E|[E|E]]]]]]; [..|lia].
  all: rewrite E in *; unfold translation_random, permutation_random, linear_map_random, affine_map_random.
  1-3: (replace (Z.to_nat (mg_output_size o)) with 0 by lia; reflexivity).
  - destruct (Z_le_dec (mg_output_size o) 0) as [L|L].
    + replace (Z.to_nat (mg_output_size o)) with 0 by lia. reflexivity.
    + replace (Z.to_nat (mg_input_size o)) with 0 by lia. destruct (0 <? Z.to_nat (mg_output_size o)); reflexivity.
  - destruct (Z_le_dec (mg_output_size o) 0) as [L|L].
    + replace (Z.to_nat (mg_output_size o)) with 0 by lia. reflexivity.
    + replace (Z.to_nat (mg_input_size o)) with 0 by lia. destruct (0 <? Z.to_nat (mg_output_size o)); reflexivity.
  - unfold ts_affine_map_random. destruct (Z_le_dec (mg_input_size o) 0) as [L|L].
    { replace (Z.to_nat (mg_input_size o)) with 0 by lia. reflexivity. }
    destruct (0 <? Z.to_nat (mg_input_size o)); cbn [assertb bind]; [|reflexivity].
    destruct (Z.leb_spec 0 (mg_ts_length o)) as [L2|L2]; cbn [assertb bind]; [|reflexivity].
    destruct H as [H|[H|[_ [H|[H1 H2]]]]]; try lia. rewrite H1. change (Z.to_nat 1) with 1.
    destruct (Z.eqb_spec (mg_ts_mode o) 0); [reflexivity|]. destruct (Z.eqb_spec (mg_ts_mode o) 1); [reflexivity|].
    destruct (Z.eqb_spec (mg_ts_mode o) 2); [reflexivity|]. destruct (Z.eqb_spec (mg_ts_mode o) 3); [reflexivity|].
    destruct (Z.eqb_spec (mg_ts_mode o) 4); [reflexivity|]. destruct (Z.eqb_spec (mg_ts_mode o) 5); [reflexivity|]. lia.
Qed.

Lemma options_cases o : (mg_input_size o < 2 ^ 31 /\ mg_output_size o < 2 ^ 31)%Z -> accepted o \/ refused o \/ violates o.
Proof.
  intros S. unfold accepted, refused, violates, sizes_ok, known_kind, square, rectangular.
  destruct (mg_surjective o); lia.
Qed.

(** * The functions made with a loaded map *)

Lemma known_surjective m i n : built m i n -> (square (kind_of m) \/ rectangular (kind_of m) /\ onto (map_fn m) i n) ->
  map_is_surjective m = Ok true.
Proof.
  intros B K. destruct B; try reflexivity.
  - destruct K as [K|[_ K]]; [cbn in K; unfold square in K; lia|].
    destruct (linear_surjective_exact nr nc M H) as (b & -> & E). now rewrite (proj2 E K).
  - destruct K as [K|[_ K]]; [cbn in K; unfold square in K; lia|].
    destruct (affine_surjective_exact nr nc M b H H0) as (c & -> & E). now rewrite (proj2 E K).
  - unfold make_injection in H1. destruct (_ <? _); inversion H1; subst. cbn in K. unfold square, rectangular in K. lia.
  - unfold make_projection in H1. destruct (_ <? _); inversion H1; reflexivity.
  - unfold make_composition in H. apply bind_Ok in H as (x & _ & H). apply bind_Ok in H as (y & _ & H). inversion H; subst.
    cbn in K. unfold square, rectangular in K. destruct outer; try lia. destruct inner; try lia. reflexivity.
Qed.

Lemma loaded_function k file mo d F0 m i n : (0 < k)%Z -> (k <= 6)%Z -> mp_kind (mo_map mo) = k -> mp_random (mo_map mo) = false -> dr_loaded d = load_map k file ->
  (0 < mo_size mo)%Z -> 0 < fp_size (f_props F0) ->
  mo_prior mo = None -> mo_parsed mo = None -> mo_minimize mo = false -> mo_noise mo = None ->
  load_map k file = Ok m -> built m i n ->
  (n <> fp_size (f_props F0) -> make_function_modifier mo d (Ok F0) = Throw RuntimeError) /\
  (n = fp_size (f_props F0) -> exists F, make_function_modifier mo d (Ok F0) = Ok (Some (Some m, F)) /\ fp_size (f_props F) = i).
Proof.
  intros K0 K6 Hk HR HL Hs Hn P1 P2 P3 P4 L B. destruct (map_sizes m i n B) as [SI SO].
  assert (E : make_map (mo_map mo) (dr_loaded d) (dr_map d) (fp_size (f_props F0)) = Ok (Some m)).
  { unfold make_map. rewrite Hk, HR, HL, L. apply Z.ltb_lt in K0. rewrite K0. apply Nat.ltb_lt in Hn. rewrite Hn. cbn [assertb bind].
    destruct (Z.ltb_spec 6 k); [lia|]. reflexivity. }
  split.
  - intros N. destruct (made_errors mo d F0 Hn) as [_ M]. destruct (M Hs) as [_ M']; [lia|]. apply (M' m E). now rewrite SO.
  - intros N. unfold make_function_modifier, make_function. rewrite (proj2 (Z.leb_gt (mo_size mo) 0) Hs). cbn [bind].
    apply Nat.ltb_lt in Hn. rewrite Hn. cbn [assertb bind]. rewrite Hk. apply Z.ltb_lt in K0 as K0'. rewrite K0', E. cbn [bind].
    unfold with_map. rewrite SO, N, Nat.eqb_refl, SI. cbn [bind]. unfold add_prior_noise, add_parsed, add_opposite, add_noise.
    rewrite P1, P2, P3, P4. cbn [bind]. eexists. split; reflexivity.
Qed.
