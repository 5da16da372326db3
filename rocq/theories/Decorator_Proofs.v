From Coq Require Import ZArith Permutation Sorted.
From Verif Require Import Base BaseLemmas BitVector_Model BitVector_Spec GF2 BitVector_Proofs BitMatrix_Spec Transvection_Model Map_Model Map_Spec
  Transvection_Proofs Map_Proofs Neighborhood_Model Function_Spec Walsh_Proofs Algorithm_Proofs Double Controller_Model Controller_Spec Decorator_Model Decorator_Spec.
Local Open Scope nat_scope.

(** * Random maps *)

Lemma samplers_commuting0 sh1 sh2 pick coin n t : shuffles sh1 -> shuffles sh2 -> in_range pick -> 1 < n ->
  exists ts, ts_random_commuting sh1 sh2 pick coin [] n t = Ok ts /\ Forall (tv_ok n) ts.
Proof.
  intros A B C Hn. destruct t as [|t].
  - exists []. split; [|constructor]. unfold ts_random_commuting. apply Nat.ltb_lt in Hn. now rewrite Hn.
  - destruct (samplers_commuting sh1 sh2 pick coin n (S t) A B C Hn) as (ts & E & _ & F & _); [lia|eauto].
Qed.
Lemma samplers_source0 sh1 sh2 pick n t : shuffles sh1 -> shuffles sh2 -> (forall i, in_range (pick i)) -> 1 < n ->
  exists ts, ts_random_unique_source sh1 sh2 pick [] n t = Ok ts /\ Forall (tv_ok n) ts.
Proof.
  intros A B C Hn. destruct t as [|t].
  - exists []. split; [|constructor]. unfold ts_random_unique_source. apply Nat.ltb_lt in Hn. now rewrite Hn.
  - destruct (samplers_unique_source sh1 sh2 pick n (S t) A B C Hn) as (ts & E & _ & F & _); [lia|eauto].
Qed.
Lemma samplers_destination0 sh1 sh2 pick n t : shuffles sh1 -> shuffles sh2 -> (forall i, in_range (pick i)) -> 1 < n ->
  exists ts, ts_random_unique_destination sh1 sh2 pick [] n t = Ok ts /\ Forall (tv_ok n) ts.
Proof.
  intros A B C Hn. destruct t as [|t].
  - exists []. split; [|constructor]. unfold ts_random_unique_destination. apply Nat.ltb_lt in Hn. now rewrite Hn.
  - destruct (samplers_unique_destination sh1 sh2 pick n (S t) A B C Hn) as (ts & E & _ & F & _); [lia|eauto].
Qed.
Lemma samplers_disjoint0 sh1 n t : shuffles sh1 -> 1 < n ->
  exists ts, ts_random_disjoint sh1 [] n t = Ok ts /\ Forall (tv_ok n) ts.
Proof.
  intros A Hn. destruct t as [|t].
  - exists []. split; [|constructor]. unfold ts_random_disjoint. apply Nat.ltb_lt in Hn. now rewrite Hn.
  - destruct (samplers_disjoint sh1 [] n (S t) A Hn) as (ts & E & _ & F & _); [lia|eauto].
Qed.
Lemma samplers_non_commuting0 n t coins draws : 1 < n -> Forall (fun k => k < n) draws ->
  ts_random_non_commuting coins draws [] n t = Ok None \/
  exists ts, ts_random_non_commuting coins draws [] n t = Ok (Some ts) /\ Forall (tv_ok n) ts.
Proof.
  intros Hn HF. destruct t as [|t].
  - right. exists []. split; [|constructor]. unfold ts_random_non_commuting. apply Nat.ltb_lt in Hn. now rewrite Hn.
  - destruct (samplers_non_commuting n (S t) coins draws [] Hn) as [E|(ts & E & _ & F & _)]; [lia|auto|now left|right; eauto].
Qed.

Lemma length_random n bits : length (bv_random (repeat false n) bits) = n.
Proof. now rewrite length_bv_random, repeat_length. Qed.

Lemma bijection_compose f g n : bijection f n -> bijection g n -> bijection (fun x => f (g x)) n.
Proof.
  intros (f' & F) (g' & G). exists (fun x => g' (f' x)). intros x Hx.
  destruct (G x Hx) as (G1 & G2 & G3 & G4). destruct (F (g x) G1) as (F1 & F2 & F3 & F4).
  destruct (F x Hx) as (K1 & K2 & K3 & K4). destruct (G (f' x) K2) as (L1 & L2 & L3 & L4).
  rewrite F3, G3, L4, K4. auto.
Qed.

Lemma ts_affine_map_random_spec n t mode d : 0 < n -> shuffles (md_sh1 d) -> shuffles (md_sh2 d) ->
  (forall i, in_range (md_pick d i)) -> Forall (fun k => k < n) (md_indices d) ->
  ((0 <= t)%Z -> ~ (0 <= mode <= 5)%Z -> ts_affine_map_random n t mode d = Throw RuntimeError) /\
  ((t < 0)%Z \/ n = 1 /\ (0 <= mode <= 5)%Z -> ts_affine_map_random n t mode d = UB) /\
  ((0 <= t)%Z -> 1 < n -> (0 <= mode <= 5)%Z ->
     ts_affine_map_random n t mode d = Ok None \/
     exists ts b, ts_affine_map_random n t mode d = Ok (Some (MTsAffine ts b)) /\ length b = n /\ Forall (tv_ok n) ts).
Proof.
  intros Hn A B C D. unfold ts_affine_map_random. apply Nat.ltb_lt in Hn as Hn'. rewrite Hn'. cbn [assertb bind].
  destruct (Z.leb_spec 0 t) as [Ht|Ht]; cbn [assertb bind].
  2: { split; [lia|]. split; [auto|lia]. }
  set (b := bv_random (repeat false n) (md_bits d)).
  assert (Lb : length b = n) by apply length_random.
  destruct (Z.eqb_spec mode 0) as [->|N0]; [|destruct (Z.eqb_spec mode 1) as [->|N1]; [|destruct (Z.eqb_spec mode 2) as [->|N2];
    [|destruct (Z.eqb_spec mode 3) as [->|N3]; [|destruct (Z.eqb_spec mode 4) as [->|N4]; [|destruct (Z.eqb_spec mode 5) as [->|N5]]]]]].
  all: split; [try (intros; lia); try reflexivity|split; [intros [K|[K1 K2]]; [lia|try lia; rewrite K1; reflexivity]|try lia]].
  all: intros _ H1 _; unfold map_some.
  - destruct (ts_random_spec n (Z.to_nat t) (md_indices d) H1 D) as [->|(ts & -> & _ & F)]; cbn; [now left|right; eauto].
  - destruct (samplers_commuting0 _ _ _ (md_coin d) n (Z.to_nat t) A B (C 0) H1) as (ts & -> & F); cbn; right; eauto.
  - destruct (samplers_source0 _ _ _ n (Z.to_nat t) A B C H1) as (ts & -> & F); cbn; right; eauto.
  - destruct (samplers_destination0 _ _ _ n (Z.to_nat t) A B C H1) as (ts & -> & F); cbn; right; eauto.
  - destruct (samplers_disjoint0 _ n (Z.to_nat t) A H1) as (ts & -> & F); cbn; right; eauto.
  - destruct (samplers_non_commuting0 n (Z.to_nat t) (md_coins d) (md_indices d) H1 D) as [->|(ts & -> & F)]; cbn; [now left|right; eauto].
Qed.

Lemma affine_map_random_spec nr nc surj d : 0 < nr -> 0 < nc -> Forall (is_matrix nr nc) (md_matrices d) ->
  (surj = true /\ nc < nr -> affine_map_random nr nc surj d = Throw RuntimeError) /\
  (surj = false \/ nr <= nc ->
     affine_map_random nr nc surj d = Ok None \/
     exists M b, affine_map_random nr nc surj d = Ok (Some (MAffine M b)) /\ length b = nr /\ is_matrix nr nc M /\
       (surj = true -> onto (map_fn (MAffine M b)) nc nr)).
Proof.
  intros Hr Hc HF. unfold affine_map_random. apply Nat.ltb_lt in Hr as Hr', Hc as Hc'. rewrite Hr', Hc'. cbn [assertb bind].
  set (b := bv_random (repeat false nr) (md_bits d)).
  assert (Lb : length b = nr) by apply length_random. split.
  - intros [-> H]. apply Nat.ltb_lt in H. now rewrite H.
  - intros H. destruct surj.
    + destruct (Nat.ltb_spec nc nr); [destruct H; [discriminate|lia]|].
      destruct (random_surjective_spec nr nc _ HF) as ([M|] & E & H1); rewrite E; cbn [bind option_map]; [right|now left].
      destruct H1 as [H1 H2]. rewrite Forall_forall in HF. exists M, b. split; [auto|]. split; [auto|]. split; [auto|].
      intros _. cbn [map_fn]. apply (onto_xor (mat_vec M) nc nr b Lb); auto.
      intros x Hx. change (mat_vec M x) with (map_fn (MLinear M) x). apply (map_fn_length (MLinear M) nc nr); auto. constructor; auto.
    + destruct (md_matrices d) as [|M l]; cbn; [now left|right]. apply Forall_inv in HF. exists M, b. split; [auto|]. split; [auto|]. split; [auto|discriminate].
Qed.

Lemma make_map_random_spec o loaded d n : 0 < n -> (0 < mp_kind o)%Z -> mp_random o = true -> draws_ok o n d ->
  (map_rejected o n -> make_map o loaded d n = Throw RuntimeError) /\
  (map_undefined o n -> make_map o loaded d n = UB) /\
  (~ map_rejected o n -> ~ map_undefined o n ->
     (make_map o loaded d n = Ok None /\ (4 <= mp_kind o)%Z) \/
     exists m, make_map o loaded d n = Ok (Some m) /\ kind_of m = mp_kind o /\ built m (random_map_input o n) n /\
       (mp_kind o <> 4 -> mp_kind o <> 5 -> bijection (map_fn m) n)%Z /\
       (mp_surjective o = true -> onto (map_fn m) (random_map_input o n) n)).
Proof.
  intros Hn Hk HR (A1 & A2 & A3 & A4 & A5 & A6). unfold make_map, map_rejected, map_undefined, random_map_input.
  apply Nat.ltb_lt in Hn as Hn'. apply Z.ltb_lt in Hk as Hk'. rewrite Hn', Hk', HR. cbn [assertb bind].
  destruct (Z.ltb_spec 6 (mp_kind o)) as [G6|G6]; [split; [auto|split; [lia|intros N _; exfalso; apply N; auto]]|].
  assert (PT : forall m, built m n n -> bijection (map_fn m) n -> built m n n /\ bijection (map_fn m) n /\ onto (map_fn m) n n)
    by (intros; auto using bijection_onto).
  unfold permutation_random, translation_random. rewrite Hn'. cbn [assertb bind].
  set (b := bv_random (repeat false n) (md_bits d)). assert (Lb : length b = n) by apply length_random.
  set (p := md_perm d (seq 0 n)).
  assert (HP : Permutation p (seq 0 (length p)) /\ length p = n).
  { assert (Permutation (seq 0 n) p) as K by apply A1. pose proof (Permutation_length K) as L. rewrite seq_length in L.
    rewrite <- L. split; auto. now symmetry. }
  destruct HP as [HP Lp].
  assert (BT : built (MTranslation b) n n) by (clear - Lb; clearbody b; subst n; constructor).
  assert (BP : built (MPermutation p) n n) by (clear - Lp HP; clearbody p; subst n; now constructor).
  assert (BiT : bijection (map_fn (MTranslation b)) n) by (clear - Lb; clearbody b; subst n; apply translation_bijection).
  assert (BiP : bijection (map_fn (MPermutation p)) n) by (clear - Lp HP; clearbody p; subst n; now apply permutation_bijection).
  destruct (Z.eqb_spec (mp_kind o) 1) as [E|N1];
    [|destruct (Z.eqb_spec (mp_kind o) 2) as [E|N2];
      [|destruct (Z.eqb_spec (mp_kind o) 3) as [E|N3];
        [|destruct (Z.eqb_spec (mp_kind o) 6) as [E|N6]]]].
  - rewrite E. cbn [Z.eqb Pos.eqb orb]. split; [intros [K|[[K _]|[K _]]]; lia|]. split; [intros [K _]; lia|].
    intros _ _. right. eexists. split; [reflexivity|]. split; [reflexivity|]. destruct (PT _ BT BiT) as (? & ? & ?); auto.
  - rewrite E. cbn [Z.eqb Pos.eqb orb]. split; [intros [K|[[K _]|[K _]]]; lia|]. split; [intros [K _]; lia|].
    intros _ _. right. eexists. split; [reflexivity|]. split; [reflexivity|]. destruct (PT _ BP BiP) as (? & ? & ?); auto.
  - rewrite E. cbn [Z.eqb Pos.eqb orb]. split; [intros [K|[[K _]|[K _]]]; lia|]. split; [intros [K _]; lia|].
    intros _ _. right. destruct (make_composition_spec (MPermutation p) (MTranslation b) n n n n BP BT) as [K _].
    destruct (K eq_refl) as (m & Em & Bm & Fm). rewrite Em. cbn [bind]. exists m. split; [reflexivity|].
    split.
    { unfold make_composition in Em. cbn [map_input_size map_output_size bind] in Em. rewrite Lp, Lb, Nat.eqb_refl in Em.
      cbn [assertb bind] in Em. injection Em as <-. reflexivity. }
    destruct (PT m Bm) as (? & ? & ?); auto.
    destruct (bijection_compose _ _ n BiP BiT) as (g & G). exists g. intros x Hx. rewrite !Fm. now apply G.
  - rewrite E. cbn [Z.eqb Pos.eqb orb].
    destruct (ts_affine_map_random_spec n (mp_ts_length o) (mp_ts_mode o) d Hn A2 A3 A4 A5) as (S1 & S2 & S3).
    split; [intros [K|[[K _]|[_ [K1 K2]]]]; [lia|lia|auto]|]. split; [intros [_ K]; auto|].
    intros NR NU. destruct (Z_lt_le_dec (mp_ts_length o) 0) as [L|L]; [exfalso; apply NU; auto|].
    assert (0 <= mp_ts_mode o <= 5)%Z as M.
    { destruct (Z_lt_le_dec (mp_ts_mode o) 0); [exfalso; apply NR; lia|].
      destruct (Z_lt_le_dec 5 (mp_ts_mode o)); [exfalso; apply NR; lia|lia]. }
    assert (1 < n) as N1' by (destruct (Nat.eq_dec n 1); [exfalso; apply NU; auto|lia]).
    destruct (S3 L N1' M) as [K|(ts & c & K & Lc & F)]; [left; split; [exact K|lia]|right].
    exists (MTsAffine ts c). split; [exact K|]. split; [reflexivity|].
    destruct (PT (MTsAffine ts c)) as (? & ? & ?); auto.
    + clear - Lc F. subst n. now constructor.
    + clear - Lc F. subst n. now apply ts_affine_bijection.
  - assert (mp_kind o = 4 \/ mp_kind o = 5)%Z as E45 by lia.
    destruct (Z.leb_spec (mp_input_size o) 0) as [Hi|Hi].
    { split; [auto|]. split; [intros [K _]; lia|]. intros NR _. exfalso. apply NR. right. left. auto. }
    specialize (A6 Hi).
    assert (Hi' : 0 < Z.to_nat (mp_input_size o)) by lia.
    assert (EI : ((mp_kind o =? 4) || (mp_kind o =? 5))%Z = true) by (apply orb_true_iff; rewrite !Z.eqb_eq; exact E45).
    rewrite EI.
    destruct (linear_map_random_spec n _ (mp_surjective o) _ Hn Hi' A6) as (L1 & L2).
    destruct (affine_map_random_spec n _ (mp_surjective o) d Hn Hi' A6) as (F1 & F2).
    assert (RJ : (6 < mp_kind o)%Z \/ (mp_kind o = 4 \/ mp_kind o = 5)%Z /\
        ((mp_input_size o <= 0)%Z \/ mp_surjective o = true /\ (mp_input_size o < Z.of_nat n)%Z) \/
        (mp_kind o = 6 /\ 0 <= mp_ts_length o /\ ~ (0 <= mp_ts_mode o <= 5))%Z <->
        mp_surjective o = true /\ Z.to_nat (mp_input_size o) < n).
    { split.
      - intros [K|[[_ [K|[K1 K2]]]|[K _]]]; try lia. split; [auto|lia].
      - intros [K1 K2]. right. left. split; auto. right. split; auto. lia. }
    rewrite RJ. clear RJ.
    destruct (Z.eqb_spec (mp_kind o) 4) as [E4|N4].
    + split; [intros K; now apply L1|]. split; [intros [K _]; lia|]. intros NR _.
      destruct L2 as (r & Er & Hr).
      { destruct (mp_surjective o); auto. right. apply Nat.nlt_ge. intros K. apply NR. auto. }
      rewrite Er. destruct r as [m|]; [right|left; split; [auto|lia]].
      destruct Hr as (M & -> & _ & BM & OM). exists (MLinear M). split; [auto|]. split; [now rewrite E4|]. split; [auto|]. split; [lia|auto].
    + split; [intros K; now apply F1|]. split; [intros [K _]; lia|]. intros NR _.
      destruct F2 as [Er|(M & c & Er & Lc & HM & OM)].
      { destruct (mp_surjective o); auto. right. apply Nat.nlt_ge. intros K. apply NR. auto. }
      { left; split; [auto|lia]. }
      right. exists (MAffine M c). split; [auto|]. split; [cbn; lia|]. split; [constructor; auto|]. split; [lia|auto].
Qed.

(** * Values *)

Definition serves (F : func) (n : nat) (val : nat -> bv -> dbl) (inv : nat -> f_state F -> Prop) : Prop :=
  inv 0 (f_init F) /\
  (forall k s r x, inv k s -> asks r x -> length x = n ->
     exists s', f_obj F s r = (s', Ok (RValue (val k x))) /\ inv (k + 1) s') /\
  (forall k s r, inv k s -> is_ask r = false -> inv k (fst (f_obj F s r))).
Definition Serves (F : func) (n : nat) (val : nat -> bv -> dbl) : Prop := exists inv, serves F n val inv.

Lemma serves_base F f : computes F f -> Serves F (fp_size (f_props F)) (fun _ => f).
Proof.
  intros H. exists (fun _ _ => True). split; [exact I|]. split; [|auto].
  intros k s r x _ A L. specialize (H s r x A L). destruct (f_obj F s r) as [s' a]. cbn in H. subst a. eauto.
Qed.

Lemma serves_map F m F' i n val : Serves F n val -> fp_size (f_props F) = n -> built m i n -> with_map F m = Ok F' ->
  Serves F' i (fun k x => val k (map_fn m x)) /\ fp_size (f_props F') = i.
Proof.
  intros (inv & I0 & I1 & I2) Hn B E. unfold with_map in E. destruct (map_sizes m i n B) as [Si So].
  rewrite So, Hn, Nat.eqb_refl, Si in E. cbn [bind] in E. injection E as <-. split; [|reflexivity].
  pose (inv' := fun (k : nat) (st : hmap * bv * f_state F) => let '(m', out, s) := st in
    inv k s /\ good m' i n /\ (forall y, map_fn m' y = map_fn m y) /\ (forall k, untouched m' k <-> untouched m k) /\
    length out = n /\ clean m out).
  exists inv'. split; [|split].
  - cbn. split; [exact I0|]. split; [now apply built_good|]. split; [auto|]. split; [tauto|]. split; [apply repeat_length|].
    intros k _. apply nth_repeat.
  - intros k [[m' out] s] r x (J & G & Fm & U & L & C) A Lx.
    destruct (map_apply_good m' i n G x out Lx L) as (m2 & E2 & G2 & F2 & U2 & L2 & C2 & _).
    { intros j Hj. apply C, U, Hj. }
    assert (K : f_obj (mk_func _ (map_obj (f_obj F)) (m, repeat false n, f_init F)
        (mk_fprops i (k <- fp_known (f_props F) ;; if (k : bool) then map_is_surjective m else Ok false)
           (k <- (k <- fp_known (f_props F) ;; if (k : bool) then map_is_surjective m else Ok false) ;;
            if (k : bool) then fp_max (f_props F) else Throw RuntimeError) false)) (m', out, s) r =
      let '(s', a) := f_obj F s (REval (map_fn m' x)) in ((m2, map_fn m' x, s'), a)).
    { destruct A as [->| ->]; cbn; rewrite E2; reflexivity. }
    rewrite K. clear K.
    destruct (I1 k s (REval (map_fn m' x)) (map_fn m' x) J (or_introl eq_refl) L2) as (s' & Es & Js). rewrite Es.
    eexists. split; [now rewrite Fm|]. cbn. split; [exact Js|]. split; [exact G2|].
    split; [intros y; now rewrite F2, Fm|]. split; [intros j; now rewrite U2, U|]. split; [now rewrite <- Fm|].
    intros j Hj. rewrite <- Fm. apply C2, U, Hj.
  - intros k [[m' out] s] r J A. destruct r; try discriminate A; exact J.
Qed.

Lemma sorted_valid l n : StronglySorted lt l -> Forall (fun i => i < n) l -> sbv_is_valid l n = true.
Proof.
  intros HS HF. unfold sbv_is_valid. apply andb_true_iff. split.
  - clear HF. induction HS as [|a l HS IH HA]; auto. destruct l as [|b l]; auto.
    change (is_sorted (a :: b :: l)) with ((a <=? b) && is_sorted (b :: l)).
    rewrite IH, andb_true_r. apply Forall_inv in HA. apply Nat.leb_le. lia.
  - apply forallb_forall. intros i Hi. rewrite Forall_forall in HF. now apply Nat.ltb_lt, HF.
Qed.

Lemma flip_sorted x l : StronglySorted lt l -> Forall (fun i => i < length x) l -> bv_flip_sbv x l = Ok (flipped_at x l).
Proof.
  intros HS HF. rewrite bv_flip_sbv_Ok by now apply sorted_valid. f_equal.
  apply (bv_ext (length x)); [apply length_flips|apply length_flipped_at|]. intros i Hi.
  rewrite nth_flips by auto. unfold flipped_at. rewrite nth_map_seq by auto.
  assert (ND : NoDup l).
  { clear - HS. induction HS as [|a l HS IH HA]; constructor; auto. intros K. rewrite Forall_forall in HA. specialize (HA a K). lia. }
  rewrite (NoDup_count_occ' Nat.eq_dec) in ND. unfold times. destruct (in_dec Nat.eq_dec i l) as [Hj|Hj].
  - rewrite ND by auto. now destruct (nth i x false).
  - rewrite (proj1 (count_occ_not_In Nat.eq_dec l i)) by auto. now rewrite xorb_false_r.
Qed.

Lemma serves_prior F n val flips : Serves F n val -> fp_size (f_props F) = n -> flips_ok n flips ->
  Serves (with_prior_noise F n flips) n (fun k x => val k (flipped_at x (flips k))).
Proof.
  intros (inv & I0 & I1 & I2) Hn HF. exists (fun k st => fst st = k /\ inv k (snd st)). split; [|split].
  - cbn. auto.
  - intros k [j s] r x [<- J] A Lx. cbn [fst snd] in *.
    assert (K : f_obj (with_prior_noise F n flips) (j, s) r =
      let '(s', a) := f_obj F s (REval (flipped_at x (flips j))) in ((j + 1, s'), a)).
    { destruct (HF j) as [H1 H2]. rewrite <- Lx in H2.
      destruct A as [->| ->]; unfold with_prior_noise; cbn [f_obj]; rewrite Hn; unfold prior_obj;
        rewrite Lx, Nat.eqb_refl; cbn [andb assertb bind]; now rewrite (flip_sorted x (flips j) H1 H2). }
    rewrite K. destruct (I1 j s (REval (flipped_at x (flips j))) (flipped_at x (flips j)) J (or_introl eq_refl)) as (s' & Es & Js).
    { now rewrite length_flipped_at. }
    rewrite Es. eexists. split; [reflexivity|]. cbn. auto.
  - intros k [j s] r [<- J] A. destruct r; try discriminate A; cbn; auto.
Qed.

Lemma serves_parsed F n val g : Serves F n val -> Serves (with_parsed F g) n (fun k x => g (val k x)).
Proof.
  intros (inv & I0 & I1 & I2). exists inv. split; [exact I0|]. split.
  - intros k s r x J A Lx. destruct (I1 k s (REval x) x J (or_introl eq_refl) Lx) as (s' & Es & Js).
    exists s'. split; auto. destruct A as [->| ->]; cbn; now rewrite Es.
  - intros k s r J A. destruct r; try discriminate A; exact J.
Qed.

Lemma serves_opposite F n val : Serves F n val -> Serves (with_opposite F) n (fun k x => dneg (val k x)).
Proof.
  intros (inv & I0 & I1 & I2). exists inv. split; [exact I0|]. split.
  - intros k s r x J A Lx. destruct (I1 k s (REval x) x J (or_introl eq_refl) Lx) as (s' & Es & Js).
    exists s'. split; auto. destruct A as [->| ->]; cbn; now rewrite Es.
  - intros k s r J A. destruct r; try discriminate A; cbn; [|exact J].
    specialize (I2 k s (RInc x (dneg value) flipped) J eq_refl). destruct (f_obj F s (RInc x (dneg value) flipped)). exact I2.
Qed.

Lemma serves_noise F n val add : Serves F n val -> Serves (with_noise F add) n (fun k x => add k (val k x)).
Proof.
  intros (inv & I0 & I1 & I2). exists (fun k st => fst st = k /\ inv k (snd st)). split; [cbn; auto|]. split.
  - intros k [j s] r x [<- J] A Lx. cbn [fst snd] in *.
    destruct (I1 j s (REval x) x J (or_introl eq_refl) Lx) as (s' & Es & Js).
    exists (j + 1, s'). split; [destruct A as [->| ->]; cbn; now rewrite Es|cbn; auto].
  - intros k [j s] r [<- J] A. destruct r; try discriminate A; cbn; auto.
Qed.

(** How the function is made *)
Lemma made_by o d F0 m F : make_function_modifier o d (Ok F0) = Ok (Some (m, F)) ->
  0 < fp_size (f_props F0) /\
  exists F1 F2 F3,
    (if (0 <? mp_kind (mo_map o))%Z
     then exists mm, m = Some mm /\ make_map (mo_map o) (dr_loaded d) (dr_map d) (fp_size (f_props F0)) = Ok (Some mm) /\ with_map F0 mm = Ok F1
     else m = None /\ F1 = F0) /\
    add_prior_noise o d (fp_size (f_props F0)) F1 = Ok F2 /\ add_parsed o F2 = Ok F3 /\ F = add_noise o (add_opposite o F3).
Proof.
  intros E. unfold make_function_modifier, make_function in E. destruct (mo_size o <=? 0)%Z; [discriminate|].
  cbn [bind] in E. destruct (Nat.ltb_spec 0 (fp_size (f_props F0))) as [Hn|]; [|discriminate]. cbn [assertb bind] in E.
  split; [exact Hn|]. destruct (0 <? mp_kind (mo_map o))%Z.
  - destruct (make_map _ _ _ _) as [[mm| ]| |] eqn:EM; try discriminate. cbn [bind] in E.
    destruct (with_map F0 mm) as [F1| |] eqn:E1; try discriminate. cbn [bind] in E.
    destruct (add_prior_noise o d _ F1) as [F2| |] eqn:E2; try discriminate. cbn [bind] in E.
    destruct (add_parsed o F2) as [F3| |] eqn:E3; try discriminate. cbn [bind] in E. injection E as <- <-.
    exists F1, F2, F3. split; [eauto|auto].
  - cbn [bind] in E.
    destruct (add_prior_noise o d _ F0) as [F2| |] eqn:E2; try discriminate. cbn [bind] in E.
    destruct (add_parsed o F2) as [F3| |] eqn:E3; try discriminate. cbn [bind] in E. injection E as <- <-.
    exists F0, F2, F3. split; [eauto|auto].
Qed.

Lemma add_noise_size o F : fp_size (f_props (add_noise o F)) = fp_size (f_props F).
Proof. unfold add_noise. now destruct (mo_noise o). Qed.
Lemma add_opposite_size o F : fp_size (f_props (add_opposite o F)) = fp_size (f_props F).
Proof. unfold add_opposite. now destruct (mo_minimize o). Qed.
Lemma add_parsed_size o F F' : add_parsed o F = Ok F' -> fp_size (f_props F') = fp_size (f_props F).
Proof. unfold add_parsed. destruct (mo_parsed o) as [[g|]|]; intros E; try discriminate; now injection E as <-. Qed.
Lemma add_prior_size o d n F F' : add_prior_noise o d n F = Ok F' -> fp_size (f_props F') = fp_size (f_props F).
Proof.
  unfold add_prior_noise. destruct (mo_prior o) as [[kd|]|]; intros E; try discriminate; [|now injection E as <-].
  destruct (nh_make kd n); try discriminate. cbn [bind] in E. now injection E as <-.
Qed.

Lemma with_map_size F m F' i n : fp_size (f_props F) = n -> built m i n -> with_map F m = Ok F' ->
  fp_size (f_props F') = i.
Proof.
  intros Hn B E. unfold with_map in E. destruct (map_sizes m i n B) as [Si So].
  rewrite So, Hn, Nat.eqb_refl, Si in E. cbn [bind] in E. now injection E as <-.
Qed.

Lemma made_size o d F0 m F i : make_function_modifier o d (Ok F0) = Ok (Some (m, F)) ->
  map_fits m i (fp_size (f_props F0)) -> fp_size (f_props F) = i.
Proof.
  intros E HM. destruct (made_by o d F0 m F E) as (Hn & F1 & F2 & F3 & E1 & E2 & E3 & ->).
  rewrite add_noise_size, add_opposite_size, (add_parsed_size _ _ _ E3), (add_prior_size _ _ _ _ _ E2).
  destruct (0 <? mp_kind (mo_map o))%Z.
  - destruct E1 as (mm & -> & _ & E1). now apply (with_map_size F0 mm F1 i (fp_size (f_props F0))).
  - destruct E1 as [-> ->]. now rewrite HM.
Qed.

Lemma Serves_ext F n v w : (forall k x, length x = n -> v k x = w k x) -> Serves F n v -> Serves F n w.
Proof.
  intros H (inv & I0 & I1 & I2). exists inv. split; auto. split; auto. intros k s r x J A L. rewrite <- H by auto. now apply I1.
Qed.

Lemma made_serves o d F0 f m F i : computes F0 f -> make_function_modifier o d (Ok F0) = Ok (Some (m, F)) ->
  map_fits m i (fp_size (f_props F0)) -> (mo_prior o <> None -> i = fp_size (f_props F0) /\ flips_ok i (dr_flips d)) ->
  Serves F i (decorated o m (dr_flips d) f).
Proof.
  intros HC E HM HP. destruct (made_by o d F0 m F E) as (Hn & F1 & F2 & F3 & E1 & E2 & E3 & ->).
  assert (S1 : Serves F1 i (fun _ x => f (match m with None => x | Some m => map_fn m x end)) /\ fp_size (f_props F1) = i).
  { destruct (0 <? mp_kind (mo_map o))%Z.
    - destruct E1 as (mm & -> & _ & E1). apply (serves_map F0 mm F1 i (fp_size (f_props F0)) (fun _ => f)); auto. now apply serves_base.
    - destruct E1 as [-> ->]. cbn in HM. subst i. split; [|reflexivity]. now apply serves_base. }
  destruct S1 as [S1 Z1].
  assert (S2 : Serves F2 i (fun k x => let y := match mo_prior o with None => x | Some _ => flipped_at x (dr_flips d k) end in
    f (match m with None => y | Some m => map_fn m y end))).
  { unfold add_prior_noise in E2. destruct (mo_prior o) as [[kd|]|]; try discriminate.
    - destruct (nh_make kd _); try discriminate. cbn [bind] in E2. injection E2 as <-.
      destruct HP as [Hi HF]; [discriminate|]. rewrite <- Hi.
      exact (serves_prior F1 i _ (dr_flips d) S1 Z1 HF).
    - injection E2 as <-. exact S1. }
  assert (S3 : Serves F3 i (fun k x => let y := match mo_prior o with None => x | Some _ => flipped_at x (dr_flips d k) end in
    let v := f (match m with None => y | Some m => map_fn m y end) in
    match mo_parsed o with Some (Some g) => g v | _ => v end)).
  { unfold add_parsed in E3. destruct (mo_parsed o) as [[g|]|]; try discriminate; injection E3 as <-; [|exact S2].
    exact (serves_parsed F2 i _ g S2). }
  assert (S4 := serves_opposite F3 i _ S3).
  unfold add_noise, add_opposite, decorated. destruct (mo_minimize o).
  - destruct (mo_noise o) as [add|]; [|exact S4]. exact (serves_noise _ i _ add S4).
  - destruct (mo_noise o) as [add|]; [|exact S3]. exact (serves_noise _ i _ add S3).
Qed.

Lemma serves_history F n val rs j c x : Serves F n val -> all_sized n rs ->
  nth_error (calls (f_obj F) (f_init F) rs) j = Some c -> asks (req c) x ->
  res c = Ok (RValue (val (asked (firstn j rs)) x)).
Proof.
  intros (inv & I0 & I1 & I2) HS. 
  assert (G : forall rs j k s c, inv k s -> all_sized n rs -> nth_error (calls (f_obj F) s rs) j = Some c -> asks (req c) x ->
    res c = Ok (RValue (val (k + asked (firstn j rs)) x))).
  { clear rs j c HS. induction rs as [|r rs IH]; intros j k s c J HS E A; [destruct j; discriminate|].
    cbn [calls] in E. destruct (f_obj F s r) as [s' a] eqn:Er.
    assert (HS' : all_sized n rs) by (intros q y Hq; apply HS; now right).
    destruct j as [|j].
    - cbn in E. injection E as <-. cbn [req res] in *. rewrite Nat.add_0_r.
      destruct (I1 k s r x J A (HS r x (or_introl eq_refl) A)) as (s2 & Es & _). rewrite Er in Es. now injection Es as _ ->.
    - cbn [nth_error] in E. unfold asked. cbn [firstn filter]. destruct (is_ask r) eqn:Ea.
      + assert (exists y, asks r y) as (y & Ay) by (destruct r; try discriminate; eexists; [left|right]; reflexivity).
        destruct (I1 k s r y J Ay (HS r y (or_introl eq_refl) Ay)) as (s2 & Es & J2). rewrite Er in Es. injection Es as <- _.
        rewrite (IH j (k + 1) s' c J2 HS' E A). unfold asked. cbn [length]. f_equal. f_equal. f_equal. lia.
      + specialize (I2 k s r J Ea). rewrite Er in I2. now rewrite (IH j k s' c I2 HS' E A). }
  intros E A. exact (G rs j 0 (f_init F) c I0 HS E A).
Qed.

Theorem decorated_values o d F0 f m F i rs j c x : computes F0 f ->
  make_function_modifier o d (Ok F0) = Ok (Some (m, F)) ->
  map_fits m i (fp_size (f_props F0)) -> (mo_prior o <> None -> i = fp_size (f_props F0) /\ flips_ok i (dr_flips d)) ->
  all_sized i rs -> nth_error (calls (f_obj F) (f_init F) rs) j = Some c -> asks (req c) x ->
  fp_size (f_props F) = i /\ res c = Ok (RValue (decorated o m (dr_flips d) f (asked (firstn j rs)) x)).
Proof.
  intros HC E HM HP HS EJ A. split; [now apply (made_size o d F0 m F i)|].
  exact (serves_history F i _ rs j c x (made_serves o d F0 f m F i HC E HM HP) HS EJ A).
Qed.

(** Prior noise with a map which changes the size *)
Lemma prior_noise_size o d F0 m F i rs j c x : make_function_modifier o d (Ok F0) = Ok (Some (m, F)) ->
  map_fits m i (fp_size (f_props F0)) -> mo_prior o <> None -> i <> fp_size (f_props F0) ->
  nth_error (calls (f_obj F) (f_init F) rs) j = Some c -> asks (req c) x -> res c = UB.
Proof.
  intros E HM HP Hi EJ A. destruct (made_by o d F0 m F E) as (Hn & F1 & F2 & F3 & E1 & E2 & E3 & ->).
  assert (Z1 : fp_size (f_props F1) = i).
  { destruct (0 <? mp_kind (mo_map o))%Z.
    - destruct E1 as (mm & -> & _ & E1). now apply (with_map_size F0 mm F1 i (fp_size (f_props F0))).
    - destruct E1 as [-> ->]. now rewrite HM. }
  assert (S2 : forall s r x, asks r x -> snd (f_obj F2 s r) = UB).
  { unfold add_prior_noise in E2. destruct (mo_prior o) as [[kd|]|]; try discriminate; [|congruence].
    destruct (nh_make kd _); try discriminate. cbn [bind] in E2. injection E2 as <-. intros [k s] r y [->| ->]; cbn;
      rewrite Z1, (proj2 (Nat.eqb_neq i _) Hi), andb_false_r; reflexivity. }
  assert (S3 : forall s r x, asks r x -> snd (f_obj F3 s r) = UB).
  { unfold add_parsed in E3. destruct (mo_parsed o) as [[g|]|]; try discriminate; injection E3 as <-; [|exact S2].
    intros s r y HA. specialize (S2 s (REval y) y (or_introl eq_refl)).
    destruct HA as [->| ->]; cbn; destruct (f_obj F2 s (REval y)) as [s' a]; cbn in *; now subst a. }
  assert (S4 : forall s r x, asks r x -> snd (f_obj (add_opposite o F3) s r) = UB).
  { unfold add_opposite. destruct (mo_minimize o); [|exact S3].
    intros s r y HA. specialize (S3 s (REval y) y (or_introl eq_refl)).
    destruct HA as [->| ->]; cbn; destruct (f_obj F3 s (REval y)) as [s' a]; cbn in *; now subst a. }
  assert (S5 : forall s r x, asks r x -> snd (f_obj (add_noise o (add_opposite o F3)) s r) = UB).
  { unfold add_noise. destruct (mo_noise o) as [add|]; [|exact S4].
    intros [k s] r y HA. specialize (S4 s (REval y) y (or_introl eq_refl)).
    destruct HA as [->| ->]; cbn; destruct (f_obj (add_opposite o F3) s (REval y)) as [s' a]; cbn in *; now subst a. }
  clear - EJ A S5. revert EJ. generalize (f_init (add_noise o (add_opposite o F3))). revert j.
  induction rs as [|r rs IH]; intros j s EJ; [destruct j; discriminate|]. cbn [calls] in EJ.
  destruct (f_obj (add_noise o (add_opposite o F3)) s r) as [s' a] eqn:Er. destruct j as [|j]; [|now apply (IH j s')].
  cbn in EJ. injection EJ as <-. cbn in *. specialize (S5 s r x A). now rewrite Er in S5.
Qed.

(** * Maximum *)

Lemma decorated_maximum o d F0 f m F i k0 : computes F0 f -> make_function_modifier o d (Ok F0) = Ok (Some (m, F)) ->
  map_fits m i (fp_size (f_props F0)) -> fp_known (f_props F0) = Ok k0 ->
  exists b, fp_known (f_props F) = Ok b /\
  (b = true -> k0 = true /\ map_onto m i (fp_size (f_props F0)) /\
     mo_parsed o = None /\ mo_minimize o = false /\ mo_noise o = None) /\
  (k0 = true -> match m with None => True | Some mm => map_is_surjective mm = Ok true end ->
     mo_parsed o = None -> mo_minimize o = false -> mo_noise o = None -> b = true) /\
  (if b then fp_max (f_props F) = fp_max (f_props F0) else k0 = false -> fp_max (f_props F0) = Throw RuntimeError -> fp_max (f_props F) = Throw RuntimeError).
Proof.
  intros HC E HM HK. destruct (made_by o d F0 m F E) as (Hn & F1 & F2 & F3 & E1 & E2 & E3 & ->).
  assert (P1 : exists b, fp_known (f_props F1) = Ok b /\ (b = true -> k0 = true /\ map_onto m i (fp_size (f_props F0))) /\
    (k0 = true -> match m with None => True | Some mm => map_is_surjective mm = Ok true end -> b = true) /\
    (if b then fp_max (f_props F1) = fp_max (f_props F0) else k0 = false -> fp_max (f_props F0) = Throw RuntimeError -> fp_max (f_props F1) = Throw RuntimeError)).
  { destruct (0 <? mp_kind (mo_map o))%Z.
    - destruct E1 as (mm & -> & _ & E1). cbn in HM. unfold with_map in E1. destruct (map_sizes mm i _ HM) as [Si So].
      rewrite So, Nat.eqb_refl, Si in E1. cbn [bind] in E1. injection E1 as <-. cbn [f_props fp_known fp_max].
      rewrite HK. cbn [bind]. destruct k0.
      + destruct (surjective_sound mm i _ (built_good _ _ _ HM)) as (b & Eb & Hb). rewrite Eb. cbn [bind]. exists b.
        split; [auto|]. split; [cbn; auto|]. split; [intros _ [= ->]; auto|]. destruct b; [auto|discriminate].
      + exists false. cbn [bind]. split; [auto|]. split; [discriminate|]. split; [discriminate|auto].
    - destruct E1 as [-> ->]. exists k0. split; [auto|]. split; [cbn; auto|]. split; [auto|]. now destruct k0. }
  destruct P1 as (b & Kb & Hb1 & Hb2 & Hb3).
  assert (P2 : fp_known (f_props F2) = fp_known (f_props F1) /\ fp_max (f_props F2) = fp_max (f_props F1)).
  { unfold add_prior_noise in E2. destruct (mo_prior o) as [[kd|]|]; try discriminate.
    - destruct (nh_make kd _); try discriminate. cbn [bind] in E2. now injection E2 as <-.
    - now injection E2 as <-. }
  destruct P2 as [K2 M2]. unfold add_noise, add_opposite.
  unfold add_parsed in E3. destruct (mo_parsed o) as [[g|]|]; [| discriminate |].
  - injection E3 as <-. exists false. destruct (mo_noise o), (mo_minimize o); cbn; repeat split; auto; discriminate.
  - injection E3 as <-. destruct (mo_noise o), (mo_minimize o);
      try (exists false; cbn; repeat split; auto; discriminate).
    exists b. rewrite K2, M2. split; [auto|]. split; [intros ->; destruct (Hb1 eq_refl); auto|]. split; [intros; now apply Hb2|exact Hb3].
Qed.

Lemma decorated_maximum_value o d F0 f m F i v : computes F0 f -> make_function_modifier o d (Ok F0) = Ok (Some (m, F)) ->
  map_fits m i (fp_size (f_props F0)) -> fp_known (f_props F0) = Ok true -> fp_max (f_props F0) = Ok v ->
  maximum_of (fun a b => dle a b = true) (fp_size (f_props F0)) f v ->
  fp_known (f_props F) = Ok true ->
  (mo_prior o <> None -> i = fp_size (f_props F0)) ->
  fp_max (f_props F) = Ok v /\
  (forall k x, length x = i -> dle (decorated o m (dr_flips d) f k x) v = true) /\
  exists x, length x = i /\ (mo_prior o = None -> forall k, decorated o m (dr_flips d) f k x = v).
Proof.
  intros HC E HM HK HMax (U & (y & Ly & Ey)) K HP.
  destruct (decorated_maximum o d F0 f m F i true HC E HM HK) as (b & Kb & H1 & _ & H3).
  rewrite K in Kb. injection Kb as <-. destruct (H1 eq_refl) as (_ & HO & Pp & Pm & Pn). rewrite H3, HMax. split; [auto|].
  unfold decorated. rewrite Pp, Pm, Pn.
  assert (LM : forall x, length x = i -> length (match m with None => x | Some m0 => map_fn m0 x end) = fp_size (f_props F0)).
  { intros x Lx. destruct m as [mm|]; cbn in HM; [now apply (map_fn_length mm i _ x (built_good _ _ _ HM))|lia]. }
  split.
  - intros k x Lx. apply U, LM. destruct (mo_prior o); auto. now rewrite length_flipped_at.
  - destruct m as [mm|]; cbn in HM, HO.
    + destruct (HO y Ly) as (x & Lx & Ex). exists x. split; auto. intros -> _. now rewrite Ex.
    + exists y. split; [lia|]. now intros -> _.
Qed.

(** * Incremental evaluation *)

Lemma decorated_claims_incremental o d F0 m F : make_function_modifier o d (Ok F0) = Ok (Some (m, F)) ->
  mo_minimize o = true -> mo_noise o = None -> fp_inc (f_props F) = true.
Proof.
  intros E Hm Hn. destruct (made_by o d F0 m F E) as (_ & F1 & F2 & F3 & _ & _ & _ & ->).
  unfold add_noise, add_opposite. now rewrite Hm, Hn.
Qed.

Lemma decorated_announces_incremental o d F0 m F : make_function_modifier o d (Ok F0) = Ok (Some (m, F)) ->
  (mo_minimize o = false \/ mo_noise o <> None -> fp_inc (f_props F) = true ->
     m = None /\ mo_prior o = None /\ mo_parsed o = None /\ mo_noise o = None /\ fp_inc (f_props F0) = true) /\
  (m = None -> mo_prior o = None -> mo_parsed o = None -> mo_minimize o = false -> mo_noise o = None -> fp_inc (f_props F) = fp_inc (f_props F0)).
Proof.
  intros E. destruct (made_by o d F0 m F E) as (Hn & F1 & F2 & F3 & E1 & E2 & E3 & ->).
  assert (S1 : fp_inc (f_props F1) = if m then false else fp_inc (f_props F0)).
  { destruct (0 <? mp_kind (mo_map o))%Z; [|destruct E1 as [-> ->]; reflexivity].
    destruct E1 as (mm & -> & _ & E1). unfold with_map in E1. destruct (map_output_size mm =? _); [|discriminate].
    destruct (map_input_size mm); try discriminate. cbn [bind] in E1. injection E1 as <-. reflexivity. }
  unfold add_prior_noise in E2. unfold add_parsed in E3. unfold add_noise, add_opposite.
  destruct (mo_prior o) as [[kd|]|]; try discriminate; [destruct (nh_make kd _); try discriminate; cbn [bind] in E2|]; injection E2 as <-;
    (destruct (mo_parsed o) as [[g|]|]; try discriminate; injection E3 as <-);
    destruct (mo_minimize o), (mo_noise o); cbn [f_props with_noise with_opposite with_parsed with_prior_noise fp_inc default_props];
    rewrite ?S1; (split; [intros [K|K]; try congruence; try discriminate|try congruence; intros -> _ _ _ _; reflexivity]).
  destruct m; [discriminate|auto].
Qed.

Lemma decorated_refuses_incremental o d F0 m F s x v l : make_function_modifier o d (Ok F0) = Ok (Some (m, F)) ->
  m <> None \/ mo_prior o <> None \/ mo_parsed o <> None \/ mo_noise o <> None ->
  snd (f_obj F s (RInc x v l)) = Throw RuntimeError.
Proof.
  intros E H. destruct (made_by o d F0 m F E) as (Hn & F1 & F2 & F3 & E1 & E2 & E3 & ->).
  assert (S1 : m <> None -> forall s v, snd (f_obj F1 s (RInc x v l)) = Throw RuntimeError).
  { intros Hm. destruct (0 <? mp_kind (mo_map o))%Z; [|destruct E1; contradiction].
    destruct E1 as (mm & _ & _ & E1). unfold with_map in E1. destruct (map_output_size mm =? _); [|discriminate].
    destruct (map_input_size mm); try discriminate. cbn [bind] in E1. injection E1 as <-. now intros [[? ?] ?]. }
  assert (S2 : m <> None \/ mo_prior o <> None -> forall s v, snd (f_obj F2 s (RInc x v l)) = Throw RuntimeError).
  { unfold add_prior_noise in E2. destruct (mo_prior o) as [[kd|]|]; try discriminate.
    - destruct (nh_make kd _); try discriminate. cbn [bind] in E2. injection E2 as <-. now intros _ [? ?].
    - injection E2 as <-. intros [K|K]; [now apply S1|congruence]. }
  assert (S3 : m <> None \/ mo_prior o <> None \/ mo_parsed o <> None -> forall s v, snd (f_obj F3 s (RInc x v l)) = Throw RuntimeError).
  { unfold add_parsed in E3. destruct (mo_parsed o) as [[g|]|]; try discriminate; injection E3 as <-; [reflexivity|].
    intros K. apply S2. destruct K as [K|[K|K]]; auto; congruence. }
  assert (S4 : m <> None \/ mo_prior o <> None \/ mo_parsed o <> None -> forall s v, snd (f_obj (add_opposite o F3) s (RInc x v l)) = Throw RuntimeError).
  { intros K. unfold add_opposite. destruct (mo_minimize o); [|now apply S3]. intros s' v'. cbn.
    specialize (S3 K s' (dneg v')). destruct (f_obj F3 s' (RInc x (dneg v') l)) as [? a]. cbn in *. now rewrite S3. }
  revert s. unfold add_noise. destruct (mo_noise o) as [add|]; [now intros [? ?]|]. intros s. apply S4.
  destruct H as [K|[K|[K|K]]]; auto; congruence.
Qed.

Lemma decorated_minimize o d F0 m F rs : make_function_modifier o d (Ok F0) = Ok (Some (m, F)) ->
  m = None -> mo_prior o = None -> mo_parsed o = None -> mo_noise o = None -> mo_minimize o = true ->
  Forall (fun r => match r with REval _ | RInc _ _ _ => True | _ => False end) rs ->
  map res (calls (f_obj F) (f_init F) rs) = map opposite_result (map res (calls (f_obj F0) (f_init F0) (map opposite_request rs))).
Proof.
  intros E -> H1 H2 H3 H4 HF. destruct (made_by o d F0 None F E) as (Hn & F1 & F2 & F3 & E1 & E2 & E3 & ->).
  destruct (0 <? mp_kind (mo_map o))%Z; [destruct E1 as (? & ? & _); discriminate|]. destruct E1 as [_ ->].
  unfold add_prior_noise in E2. rewrite H1 in E2. injection E2 as <-. unfold add_parsed in E3. rewrite H2 in E3. injection E3 as <-.
  unfold add_noise, add_opposite. rewrite H3, H4. unfold with_opposite. cbn [f_obj f_init].
  generalize (f_init F0). induction HF as [|r rs Hr HF IH]; intros s; [reflexivity|]. cbn [map calls].
  destruct r as [x|x v l| |]; try contradiction; cbn [opposite_obj opposite_request].
  - destruct (f_obj F0 s (REval x)) as [s' a]. cbn [map res]. apply (f_equal2 cons); [destruct a as [[[]|]| |]; reflexivity|exact (IH s')].
  - change (opposite v) with (dneg v).
    destruct (f_obj F0 s (RInc x (dneg v) l)) as [s' a]. cbn [map res]. apply (f_equal2 cons); [destruct a as [[[]|]| |]; reflexivity|exact (IH s')].
Qed.

(** * Success and failure *)

Lemma nh_make_ok kd n : 0 < n -> radius_ok kd n -> exists s, nh_make kd n = Ok s.
Proof.
  intros Hn HR. unfold nh_make. apply Nat.ltb_lt in Hn. rewrite Hn. cbn [assertb bind].
  destruct kd; try (eexists; reflexivity); cbn in HR; destruct HR as [H1 H2];
    apply Nat.ltb_lt in H1; apply Nat.leb_le in H2; rewrite H1, H2; eexists; reflexivity.
Qed.

Lemma made_ok o d F0 : (0 < mo_size o)%Z -> 0 < fp_size (f_props F0) ->
  let n := fp_size (f_props F0) in
  let mo := mo_map o in
  (mp_kind mo <= 0)%Z \/ mp_random mo = true /\ draws_ok mo n (dr_map d) /\ ~ map_rejected mo n /\ ~ map_undefined mo n ->
  (match mo_prior o with None => True | Some None => False | Some (Some kd) => radius_ok kd n end) ->
  mo_parsed o <> Some None ->
  (make_function_modifier o d (Ok F0) = Ok None /\ (4 <= mp_kind mo)%Z) \/
  exists m F, make_function_modifier o d (Ok F0) = Ok (Some (m, F)) /\
    if (mp_kind mo <=? 0)%Z then m = None /\ fp_size (f_props F) = n
    else exists mm, m = Some mm /\ kind_of mm = mp_kind mo /\ built mm (random_map_input mo n) n /\
         fp_size (f_props F) = random_map_input mo n.
Proof.
  intros Hs Hn n mo HM HP HE.
  assert (NX : forall m F1, exists F, (F <- add_prior_noise o d n F1 ;; F <- add_parsed o F ;; Ok (Some (m, add_noise o (add_opposite o F))))
    = Ok (Some (m : option hmap, F)) /\ fp_size (f_props F) = fp_size (f_props F1)).
  { intros m F1. assert (exists F2, add_prior_noise o d n F1 = Ok F2) as (F2 & E2).
    { unfold add_prior_noise. destruct (mo_prior o) as [[kd|]|]; [|contradiction|eauto].
      destruct (nh_make_ok kd n Hn HP) as (s & ->). cbn. eauto. }
    assert (exists F3, add_parsed o F2 = Ok F3) as (F3 & E3) by (unfold add_parsed; destruct (mo_parsed o) as [[g|]|]; [eauto|congruence|eauto]).
    rewrite E2. cbn [bind]. rewrite E3. cbn [bind]. eexists. split; [reflexivity|].
    now rewrite add_noise_size, add_opposite_size, (add_parsed_size _ _ _ E3), (add_prior_size _ _ _ _ _ E2). }
  unfold make_function_modifier, make_function. destruct (Z.leb_spec (mo_size o) 0); [lia|]. cbn [bind].
  apply Nat.ltb_lt in Hn as Hn'. rewrite Hn'. cbn [assertb bind]. fold n. fold mo.
  destruct (Z.leb_spec (mp_kind mo) 0) as [K|K].
  - right. rewrite (proj2 (Z.ltb_ge 0 (mp_kind mo)) K). cbn [bind]. destruct (NX None F0) as (F & -> & EF). exists None, F. auto.
  - destruct HM as [|(HR & HD & N1 & N2)]; [lia|]. rewrite (proj2 (Z.ltb_lt 0 (mp_kind mo)) K).
    destruct (make_map_random_spec mo (dr_loaded d) (dr_map d) n Hn K HR HD) as (_ & _ & H3).
    destruct (H3 N1 N2) as [[-> K4]|(mm & -> & Km & Bm & _)]; cbn [bind]; [now left|right].
    assert (exists F1, with_map F0 mm = Ok F1) as (F1 & E1).
    { unfold with_map. destruct (map_sizes mm _ n Bm) as [Si So]. fold n. rewrite So, Nat.eqb_refl, Si. cbn. eauto. }
    rewrite E1. cbn [bind]. destruct (NX (Some mm) F1) as (F & -> & EF). exists (Some mm), F. split; [auto|].
    exists mm. split; [auto|]. split; [auto|]. split; [auto|]. rewrite EF. now apply (with_map_size F0 mm F1 _ n).
Qed.

Lemma made_errors o d F0 : 0 < fp_size (f_props F0) ->
  ((mo_size o <= 0)%Z -> make_function_modifier o d (Ok F0) = Throw RuntimeError) /\
  ((0 < mo_size o)%Z -> (0 < mp_kind (mo_map o))%Z ->
     (forall e, make_map (mo_map o) (dr_loaded d) (dr_map d) (fp_size (f_props F0)) = Throw e -> make_function_modifier o d (Ok F0) = Throw e) /\
     (forall m, make_map (mo_map o) (dr_loaded d) (dr_map d) (fp_size (f_props F0)) = Ok (Some m) ->
        map_output_size m <> fp_size (f_props F0) -> make_function_modifier o d (Ok F0) = Throw RuntimeError)).
Proof.
  intros Hn. apply Nat.ltb_lt in Hn. unfold make_function_modifier, make_function. split.
  - intros H. apply Z.leb_le in H. now rewrite H.
  - intros H K. apply Z.ltb_lt in K. rewrite (proj2 (Z.leb_gt (mo_size o) 0) H). cbn [bind]. rewrite Hn, K. cbn [assertb bind]. split.
    + intros e ->. reflexivity.
    + intros m -> N. cbn [bind]. unfold with_map. apply Nat.eqb_neq in N. now rewrite N.
Qed.
