(** Proofs about the Walsh transforms. *)

From Coq Require Import ZArith NArith Permutation.
From Verif Require Import Base BaseLemmas BitVector_Model BitVector_Spec GF2 BitVector_Proofs
  Iterator_Model Iterator_Proofs Theory_Model Function_Spec Sums Walsh_Model.
Local Open Scope nat_scope.

(** * Hypercube and signs *)

Lemma hypercube_In n x : In x (hypercube n) <-> length x = n.
Proof.
  revert x; induction n as [|n IH]; intros x; cbn [hypercube].
  - destruct x; cbn; [intuition|]. split; [intros [H|[]]; discriminate|discriminate].
  - rewrite in_app_iff, !in_map_iff. split.
    + intros [(y & <- & H)|(y & <- & H)]; cbn; f_equal; now apply IH.
    + destruct x as [|b x]; [discriminate|]. intros H. injection H as H. apply IH in H. destruct b; eauto.
Qed.

Lemma hypercube_NoDup n : NoDup (hypercube n).
Proof.
  induction n as [|n IH]; cbn [hypercube]; [repeat constructor; auto|].
  apply NoDup_app_intro; [apply NoDup_map_inj; [|assumption]; congruence|apply NoDup_map_inj; [|assumption]; congruence|].
  intros x H1 H2. apply in_map_iff in H1 as (y & <- & _). apply in_map_iff in H2 as (z & E & _). discriminate.
Qed.

Lemma hypercube_perm n l : NoDup l -> (forall x, In x l <-> length x = n) -> Permutation l (hypercube n).
Proof.
  intros N H. apply NoDup_Permutation; [assumption|apply hypercube_NoDup|]. intros x. now rewrite hypercube_In.
Qed.

Lemma walsh_sign_dot u x : walsh_sign u x = spin (dot x u).
Proof.
  unfold walsh_sign, spin. enough (Nat.odd (weight (map2 andb x u)) = dot x u) as -> by reflexivity.
  revert u; induction x as [|a x IH]; intros [|b u]; try reflexivity. cbn [map2 dot]. rewrite weight_cons.
  destruct (a && b); cbn [Nat.add]; [|rewrite IH; now destruct (dot x u)]. rewrite Nat.odd_succ, <- Nat.negb_odd, IH. now destruct (dot x u).
Qed.

Lemma sum_hypercube_S n f :
  sum_over (hypercube (S n)) f =
  (sum_over (hypercube n) (fun x => f (false :: x)) + sum_over (hypercube n) (fun x => f (true :: x)))%Z.
Proof. cbn [hypercube]. now rewrite sum_app, !sum_map. Qed.

Lemma sum_hypercube_snoc n f :
  sum_over (hypercube (S n)) f =
  (sum_over (hypercube n) (fun x => f (x ++ [false])) + sum_over (hypercube n) (fun x => f (x ++ [true])))%Z.
Proof.
  revert f; induction n as [|n IH]; intros f.
  { rewrite sum_hypercube_S. reflexivity. }
  rewrite sum_hypercube_S. rewrite (IH (fun x => f (false :: x))), (IH (fun x => f (true :: x))).
  rewrite !(sum_hypercube_S n). cbn [app]. lia.
Qed.

Lemma orthogonal n x y : length x = n -> length y = n ->
  sum_over (hypercube n) (fun u => spin (dot x u) * spin (dot y u))%Z =
  (if list_eq_dec Bool.bool_dec x y then 2 ^ Z.of_nat n else 0)%Z.
Proof.
  revert x y; induction n as [|n IH]; intros x y Hx Hy.
  - destruct x, y; try discriminate. reflexivity.
  - destruct x as [|a x]; [discriminate|]. destruct y as [|b y]; [discriminate|]. injection Hx as Hx. injection Hy as Hy.
    rewrite sum_hypercube_S. cbn [dot].
    rewrite (sum_ext _ (fun u => spin (xorb (a && false) (dot x u)) * spin (xorb (b && false) (dot y u)))%Z
                       (fun u => spin (dot x u) * spin (dot y u))%Z) by (intros u _; rewrite !andb_false_r, !xorb_false_l; reflexivity).
    rewrite (sum_ext _ (fun u => spin (xorb (a && true) (dot x u)) * spin (xorb (b && true) (dot y u)))%Z
                       (fun u => (spin a * spin b) * (spin (dot x u) * spin (dot y u)))%Z).
    2:{ intros u _. rewrite !andb_true_r. destruct a, b, (dot x u), (dot y u); reflexivity. }
    rewrite sum_scale, IH by assumption.
    destruct (list_eq_dec Bool.bool_dec x y) as [<-|Hne].
    + destruct (list_eq_dec Bool.bool_dec (a :: x) (b :: x)) as [E|Hne].
      * injection E as <-. rewrite Nat2Z.inj_succ, Z.pow_succ_r by lia. destruct a; cbn [spin]; lia.
      * destruct a, b; cbn [spin]; try congruence; lia.
    + destruct (list_eq_dec Bool.bool_dec (a :: x) (b :: y)); [congruence|]. lia.
Qed.

(** * Arrays indexed by bit vectors *)

Definition ind (u : bv) : nat := N.to_nat (value_lsb u).
Definition cell (C : list Z) (u : bv) : Z := nth (ind u) C 0%Z.

Lemma ind_lt n u : length u = n -> ind u < 2 ^ n.
Proof. intros H. unfold ind. pose proof (value_lsb_lt u). rewrite H, <- pow2_of_nat in *. lia. Qed.

Lemma ind_inj n u v : length u = n -> length v = n -> ind u = ind v -> u = v.
Proof. intros H1 H2 H. apply (value_lsb_inj n); auto. unfold ind in H. lia. Qed.

Lemma cell_upd_eq n C u a : length C = 2 ^ n -> length u = n -> cell (upd C (ind u) a) u = a.
Proof. intros HC Hu. unfold cell. apply nth_upd_eq. rewrite HC. now apply ind_lt. Qed.

Lemma cell_upd_neq n C u v a : length u = n -> length v = n -> u <> v -> cell (upd C (ind u) a) v = cell C v.
Proof. intros Hu Hv H. unfold cell. apply nth_upd_neq. intros E. apply H. now apply (ind_inj n). Qed.

(** * Direct transform *)

Lemma direct_inner n x value us C : n < 64 -> length x = n -> length C = 2 ^ n -> NoDup us -> (forall u, In u us -> length u = n) ->
  exists C', foldM (fun coefficients u =>
        index <- bv_to_size_type u ;;
        _ <- assertb (N.to_nat index <? length coefficients) ;;
        d <- bv_dot_product x u ;;
        c <- vget coefficients (N.to_nat index) ;;
        vset coefficients (N.to_nat index) (if (d : bool) then (c - value)%Z else (c + value)%Z)) us C = Ok C' /\
    length C' = 2 ^ n /\
    (forall u, In u us -> cell C' u = (cell C u + spin (dot x u) * value)%Z) /\
    (forall u, length u = n -> ~ In u us -> cell C' u = cell C u).
Proof.
  intros Hn Hx HC N. revert C HC. induction N as [|u us Hu N IH]; intros C HC Hl.
  - exists C. repeat split; auto. intros u [].
  - cbn [foldM]. assert (Lu : length u = n) by (apply Hl; cbn; auto).
    rewrite bv_to_size_type_Ok by lia. cbn [bind]. fold (ind u). pose proof (ind_lt n u Lu).
    destruct (Nat.ltb_spec (ind u) (length C)); [|lia]. cbn [assertb bind].
    rewrite bv_dot_product_Ok by lia. cbn [bind]. rewrite (vget_Ok C (ind u) 0%Z) by lia. cbn [bind].
    rewrite vset_Ok by lia. cbn [bind].
    assert (EV : (if dot x u then nth (ind u) C 0 - value else nth (ind u) C 0 + value)%Z = (cell C u + spin (dot x u) * value)%Z)
      by (unfold cell; destruct (dot x u); cbn [spin]; lia).
    rewrite EV. destruct (IH (upd C (ind u) (cell C u + spin (dot x u) * value)%Z)) as (C' & E & L & H1 & H2).
    { now rewrite length_upd. } { intros w Hw. apply Hl. cbn; auto. }
    exists C'. split; [exact E|]. split; [assumption|]. split.
    + intros w [<-|Hw].
      * rewrite H2 by assumption. now apply (cell_upd_eq n).
      * rewrite H1 by assumption. rewrite (cell_upd_neq n); auto; [apply Hl; cbn; auto|]. intros ->. contradiction.
    + intros w Lw Hw. rewrite H2; [|assumption|intros K; apply Hw; cbn; auto]. apply (cell_upd_neq n); auto. intros ->. apply Hw; cbn; auto.
Qed.

Lemma direct_coefficients n f g : 0 < n -> n < 31 -> (forall x, length x = n -> f x = Ok (g x)) ->
  exists C, walsh_transform n f = collect_terms n C /\ length C = 2 ^ n /\
    forall u, length u = n -> cell C u = walsh_coefficient n g u.
Proof.
  intros Hn Hn' Hf. unfold walsh_transform, shift_one. destruct (Nat.ltb_spec n 31); [|lia]. cbn [assertb bind].
  rewrite (hypercube_drain n) by (cbn; rewrite ?repeat_length; lia). cbn [bind].
  destruct (all_bvs_spec n) as (L1 & L2 & L3 & _).
  match goal with |- context [foldM ?b (all_bvs n) _] => set (body := b) end.
  assert (G : forall xs C s, (forall x, In x xs -> length x = n) -> length C = 2 ^ n -> length (hc_current s) = n ->
    exists C' s', foldM body xs (C, s) = Ok (C', s') /\ length C' = 2 ^ n /\
      forall u, length u = n -> cell C' u = (cell C u + sum_over xs (fun x => spin (dot x u) * g x))%Z).
  { induction xs as [|x xs IH]; intros C s Hl HC Hs.
    - exists C, s. repeat split; auto. intros. rewrite sum_nil. lia.
    - cbn [foldM]. unfold body at 1. assert (Lx : length x = n) by (apply Hl; cbn; auto).
      rewrite Hf by assumption. cbn [bind]. rewrite (hypercube_drain n s) by lia. cbn [bind].
      destruct (direct_inner n x (g x) (all_bvs n) C ltac:(lia) Lx HC L2) as (C1 & E & LC1 & H1 & _).
      { intros u. apply L3. }
      rewrite E. cbn [bind]. destruct (IH C1 (mk_hc (bits_of n (2 ^ n - 1)) false)) as (C2 & s2 & E2 & LC2 & H2).
      { intros y Hy. apply Hl. cbn; auto. } { assumption. } { cbn. apply length_bits_of. }
      exists C2, s2. split; [exact E2|]. split; [assumption|]. intros u Hu. rewrite H2, H1 by (assumption || now apply L3).
      rewrite sum_cons. lia. }
  destruct (G (all_bvs n) (repeat 0%Z (2 ^ n)) (hc_make n)) as (C & s & E & LC & HC).
  { intros x. apply L3. } { apply repeat_length. } { apply repeat_length. }
  rewrite E. cbn [bind]. exists C. split; [reflexivity|]. split; [assumption|]. intros u Hu. rewrite HC by assumption.
  assert (cell (repeat 0%Z (2 ^ n)) u = 0%Z) as -> by (unfold cell; apply nth_repeat).
  rewrite Z.add_0_l. unfold walsh_coefficient. fold (sum_over (hypercube n) (fun x => (walsh_sign u x * g x)%Z)).
  rewrite (sum_perm _ (hypercube n)) by (now apply hypercube_perm). apply sum_ext. intros x _. now rewrite walsh_sign_dot.
Qed.

(** * Fast transform *)

Section Fast.
Variables (n : nat) (f : bv -> outcome Z) (g : bv -> Z).
Hypotheses (Hn : 0 < n) (Hn' : n < 31) (Hf : forall x, length x = n -> f x = Ok (g x)).

(** Value read by the stage [k] in the array [C]. *)
Definition fetch (k : nat) (C : list Z) (w : bv) : Z := if k =? 0 then g w else cell C w.

Definition combine (k : nat) (C : list Z) (u : bv) (b : bool) (v : bv) : Z :=
  (fetch k C (u ++ false :: v) + spin b * fetch k C (u ++ true :: v))%Z.

Lemma upd_middle {A} (u : list A) a b v : upd (u ++ a :: v) (length u) b = u ++ b :: v.
Proof. induction u; cbn; [reflexivity|]. now f_equal. Qed.

Lemma butterfly_Ok k C u r v : length u = k -> length (u ++ r) = n -> length v = n - k - 1 -> k < n -> length C = 2 ^ n ->
  exists C', butterfly f k C (u ++ r) v = Ok (C', u ++ true :: v) /\ length C' = 2 ^ n /\
    (forall b, cell C' (u ++ b :: v) = combine k C u b v) /\
    (forall w, length w = n -> (forall b, w <> u ++ b :: v) -> cell C' w = cell C w).
Proof.
  intros Hu Hx Hv Hk HC. unfold butterfly, copy_back. rewrite Hx, Hv.
  destruct (Nat.leb_spec (n - k - 1) n); [|lia]. cbn [assertb bind].
  assert (E : firstn (n - (n - k - 1)) (u ++ r) = u ++ firstn 1 r).
  { rewrite firstn_app, Hu. replace (n - (n - k - 1)) with (k + 1) by lia. rewrite firstn_all2 by lia.
    now replace (k + 1 - k) with 1 by lia. }
  rewrite E. rewrite app_length in Hx. destruct r as [|a r]; [cbn in Hx; lia|]. cbn [firstn].
  rewrite <- app_assoc. cbn [app].
  assert (Lw : forall b, length (u ++ b :: v) = n) by (intros b; rewrite app_length; cbn; lia).
  assert (UM : forall a b, upd (u ++ a :: v) k b = u ++ b :: v) by (intros; rewrite <- Hu; apply upd_middle).
  rewrite vset_Ok by (rewrite Lw; lia). rewrite UM. cbn [bind].
  rewrite bv_to_size_type_Ok by (rewrite Lw; lia). cbn [bind]. fold (ind (u ++ false :: v)).
  pose proof (ind_lt n _ (Lw false)). pose proof (ind_lt n _ (Lw true)).
  destruct (Nat.ltb_spec (ind (u ++ false :: v)) (length C)); [|lia]. cbn [assertb bind].
  rewrite vset_Ok by (rewrite Lw; lia). rewrite UM. cbn [bind].
  rewrite bv_to_size_type_Ok by (rewrite Lw; lia). cbn [bind]. fold (ind (u ++ true :: v)).
  destruct (Nat.ltb_spec (ind (u ++ true :: v)) (length C)); [|lia]. cbn [assertb bind].
  match goal with |- context [bind (if k =? 0 then ?a else ?b) _] =>
    assert (Q : (if k =? 0 then a else b) = Ok (fetch k C (u ++ false :: v), fetch k C (u ++ true :: v))) end.
  { unfold fetch. destruct (k =? 0).
    - rewrite !Hf by apply Lw. reflexivity.
    - rewrite !(vget_Ok C _ 0%Z) by lia. reflexivity. }
  rewrite Q. cbn [bind]. rewrite vset_Ok by lia. cbn [bind]. rewrite vset_Ok by (rewrite length_upd; lia). cbn [bind].
  assert (D : u ++ false :: v <> u ++ true :: v) by (intros K; apply app_inv_head in K; discriminate).
  eexists. split; [reflexivity|]. split; [now rewrite !length_upd|]. split.
  - intros [|].
    + rewrite (cell_upd_eq n) by (rewrite ?length_upd; auto). unfold combine. cbn [spin]. lia.
    + rewrite (cell_upd_neq n) by auto. rewrite (cell_upd_eq n) by auto. unfold combine. cbn [spin]. lia.
  - intros w Lw' Hw. rewrite !(cell_upd_neq n); auto; intros K; apply (Hw false) || apply (Hw true); auto.
Qed.

Lemma combine_ext k C C1 u b v : (forall b, cell C1 (u ++ b :: v) = cell C (u ++ b :: v)) -> combine k C1 u b v = combine k C u b v.
Proof. intros H. unfold combine, fetch. destruct (k =? 0); [reflexivity|]. now rewrite !H. Qed.

Lemma inner_Ok k u vs : length u = k -> k < n -> NoDup vs -> (forall v, In v vs -> length v = n - k - 1) ->
  forall C r, length (u ++ r) = n -> length C = 2 ^ n ->
  exists C' r', foldM (fun '(coefficients, x) v => butterfly f k coefficients x v) vs (C, u ++ r) = Ok (C', u ++ r') /\
    length (u ++ r') = n /\ length C' = 2 ^ n /\
    (forall b v, In v vs -> cell C' (u ++ b :: v) = combine k C u b v) /\
    (forall w, length w = n -> (forall b v, In v vs -> w <> u ++ b :: v) -> cell C' w = cell C w).
Proof.
  intros Hu Hk N. induction N as [|v vs Hv N IH]; intros Hl C r Hx HC.
  - exists C, r. repeat split; auto. intros b v [].
  - cbn [foldM]. assert (Lv : length v = n - k - 1) by (apply Hl; cbn; auto).
    destruct (butterfly_Ok k C u r v Hu Hx Lv Hk HC) as (C1 & E & L1 & H1 & H2). rewrite E. cbn [bind].
    destruct (IH (fun w Hw => Hl w (or_intror Hw)) C1 (true :: v)) as (C2 & r2 & E2 & Lx2 & L2 & K1 & K2).
    { rewrite app_length. cbn. lia. } { assumption. }
    exists C2, r2. split; [exact E2|]. split; [assumption|]. split; [assumption|].
    assert (Lw : forall b w, length w = n - k - 1 -> length (u ++ b :: w) = n) by (intros b w Hw; rewrite app_length; cbn; lia).
    assert (I : forall b b' w w', u ++ b :: w = u ++ b' :: w' -> w = w').
    { intros b b' w w' K. apply app_inv_head in K. congruence. }
    split.
    + intros b w [<-|Hw].
      * rewrite K2, H1; auto. intros b' v' Hv' K. apply I in K. subst. contradiction.
      * rewrite K1 by assumption. apply combine_ext. intros b'. apply H2; [apply Lw, Hl; cbn; auto|].
        intros b2 K. apply I in K. subst. contradiction.
    + intros w Lw' Hw. rewrite K2; [|assumption|intros b v' Hv'; apply Hw; cbn; auto].
      apply H2; [assumption|]. intros b. apply Hw. cbn; auto.
Qed.

Lemma ehc_drain_make k fuel : 2 ^ k < fuel ->
  drain (fun s => Ok (ehc_has_next s)) ehc_next fuel (hc_make k) = Ok (all_bvs k, mk_hc (bits_of k (2 ^ k - 1)) false, true).
Proof. intros H. apply (extended_hypercube_drain k (hc_make k)); [apply repeat_length|assumption]. Qed.

Lemma stage_Ok k us : k < n -> NoDup us -> (forall u, In u us -> length u = k) ->
  forall C x, length x = n -> length C = 2 ^ n ->
  exists C' x', foldM (fun '(coefficients, x) u =>
        x <- copy_front u x ;;
        '(vs, _, _) <- drain (fun s => Ok (ehc_has_next s)) ehc_next (2 ^ (n - k - 1) + 1) (hc_make (n - k - 1)) ;;
        foldM (fun '(coefficients, x) v => butterfly f k coefficients x v) vs (coefficients, x)) us (C, x) = Ok (C', x') /\
    length x' = n /\ length C' = 2 ^ n /\
    (forall u b v, In u us -> length v = n - k - 1 -> cell C' (u ++ b :: v) = combine k C u b v) /\
    (forall u b v, length u = k -> length v = n - k - 1 -> ~ In u us -> cell C' (u ++ b :: v) = cell C (u ++ b :: v)).
Proof.
  intros Hk N. induction N as [|u us Hu N IH]; intros Hl C x Hx HC.
  - exists C, x. repeat split; auto. intros u b v [].
  - cbn [foldM]. assert (Lu : length u = k) by (apply Hl; cbn; auto).
    unfold copy_front at 1. rewrite Lu, Hx. destruct (Nat.leb_spec k n); [|lia]. cbn [assertb bind].
    rewrite ehc_drain_make by lia.
    cbn [bind]. destruct (all_bvs_spec (n - k - 1)) as (_ & A2 & A3 & _).
    destruct (inner_Ok k u (all_bvs (n - k - 1)) Lu Hk A2 (fun v => proj1 (A3 v)) C (skipn k x)) as (C1 & r1 & E1 & Lx1 & L1 & H1 & H2).
    { rewrite app_length, skipn_length. lia. } { assumption. }
    rewrite E1. cbn [bind]. destruct (IH (fun w Hw => Hl w (or_intror Hw)) C1 (u ++ r1) Lx1 L1) as (C2 & x2 & E2 & Lx2 & L2 & K1 & K2).
    rewrite ehc_drain_make in E2 by lia. cbn [bind] in E2. exists C2, x2. split; [exact E2|]. split; [assumption|]. split; [assumption|].
    assert (D : forall u' b v, length u' = k -> length v = n - k - 1 -> u' <> u -> cell C1 (u' ++ b :: v) = cell C (u' ++ b :: v)).
    { intros u' b v Lu' Lv Hne. apply H2; [rewrite app_length; cbn; lia|]. intros b' v' _ K. apply Hne.
      apply app_inj_len in K; [tauto|lia]. }
    split.
    + intros w b v [<-|Hw] Lv.
      * rewrite K2 by assumption. apply H1. now apply A3.
      * rewrite K1 by assumption. apply combine_ext. intros b'. apply D; auto; [apply Hl; cbn; auto|]. intros ->. contradiction.
    + intros w b v Lw Lv Hw. rewrite K2; [|assumption|assumption|intros K; apply Hw; cbn; auto]. apply D; auto. intros ->. apply Hw; cbn; auto.
Qed.

(** Partial transform on the first [k] bits. *)
Definition partial_coefficient (k : nat) (u v : bv) : Z := sum_over (hypercube k) (fun y => spin (dot y u) * g (y ++ v))%Z.

Lemma partial_step k u b v : length u = k ->
  partial_coefficient (S k) (u ++ [b]) v = (partial_coefficient k u (false :: v) + spin b * partial_coefficient k u (true :: v))%Z.
Proof.
  intros Hu. unfold partial_coefficient. rewrite sum_hypercube_snoc, <- sum_scale. f_equal; apply sum_ext; intros y Hy; apply hypercube_In in Hy;
    rewrite dot_app by lia; cbn [dot]; rewrite <- app_assoc; cbn [app].
  - rewrite andb_false_l, xorb_false_l, xorb_false_r. reflexivity.
  - rewrite andb_true_l, xorb_false_r. destruct b, (dot y u); cbn [xorb spin]; lia.
Qed.

Lemma fast_coefficients : exists C, fast_walsh_transform n f = collect_terms n C /\ length C = 2 ^ n /\
    forall u, length u = n -> cell C u = walsh_coefficient n g u.
Proof.
  unfold fast_walsh_transform, shift_one. destruct (Nat.ltb_spec n 31); [|lia]. cbn [assertb bind].
  match goal with |- context [foldM ?b (seq 0 n) _] => set (body := b) end.
  assert (G : forall k, k <= n -> exists C x, foldM body (seq 0 k) (repeat 0%Z (2 ^ n), repeat false n) = Ok (C, x) /\
    length x = n /\ length C = 2 ^ n /\
    (forall u v, length u = k -> length v = n - k -> fetch k C (u ++ v) = partial_coefficient k u v)).
  { induction k as [|k IH]; intros Hk.
    - do 2 eexists. split; [reflexivity|]. split; [apply repeat_length|]. split; [apply repeat_length|].
      intros u v Hu Hv. destruct u; [|discriminate]. unfold fetch, partial_coefficient. cbn [Nat.eqb hypercube app]. rewrite sum_cons, sum_nil. cbn [dot spin app]. lia.
    - destruct IH as (C & x & E & Lx & LC & HC); [lia|]. rewrite seq_S, foldM_app, E. cbn [bind Nat.add foldM].
      unfold body at 1. rewrite ehc_drain_make by lia.
      cbn [bind]. destruct (all_bvs_spec k) as (_ & A2 & A3 & _).
      destruct (stage_Ok k (all_bvs k) ltac:(lia) A2 (fun v => proj1 (A3 v)) C x Lx LC) as (C1 & x1 & E1 & Lx1 & L1 & H1 & _).
      rewrite E1. cbn [bind]. exists C1, x1. split; [reflexivity|]. split; [assumption|]. split; [assumption|].
      intros u' v Hu' Hv. unfold fetch. cbn [Nat.eqb].
      destruct (exists_last (l := u')) as (u & b & ->); [intros ->; discriminate|].
      assert (Lu : length u = k) by (rewrite app_length in Hu'; cbn in Hu'; lia).
      rewrite <- app_assoc. cbn [app]. rewrite H1 by (try apply A3; lia). rewrite partial_step by assumption.
      unfold combine. rewrite !HC by (cbn; lia). reflexivity. }
  destruct (G n (le_n n)) as (C & x & E & _ & LC & HC). rewrite E. cbn [bind]. exists C. split; [reflexivity|]. split; [assumption|].
  intros u Hu. specialize (HC u [] Hu). rewrite app_nil_r in HC. unfold fetch in HC. destruct (Nat.eqb_spec n 0); [lia|].
  rewrite HC by (cbn; lia). unfold partial_coefficient, walsh_coefficient, sum_over. f_equal. apply map_ext. intros y.
  now rewrite walsh_sign_dot, app_nil_r.
Qed.
End Fast.

(** * Terms *)

Lemma collect_terms_Ok n C : n < 64 -> length C = 2 ^ n ->
  collect_terms n C = Ok (filter (fun t => negb (snd t =? 0)%Z) (map (fun u => (u, cell C u)) (all_bvs n))).
Proof.
  intros Hn HC. unfold collect_terms. rewrite HC. unfold all_bvs. rewrite map_map.
  enough (G : forall k a terms, a + k <= 2 ^ n ->
    foldM (fun terms i => c <- vget C i ;; if (c =? 0)%Z then Ok terms else
      u <- bv_from_size_type (repeat false n) (N.of_nat i) ;; feature <- bv_to_vector_bool (repeat false n) u ;;
      Ok (terms ++ [(feature, c)])) (seq a k) terms =
    Ok (terms ++ filter (fun t => negb (snd t =? 0)%Z) (map (fun i => (bits_of n i, cell C (bits_of n i))) (seq a k)))).
  { now rewrite G. }
  induction k as [|k IH]; intros a terms H; cbn [seq foldM map filter]; [now rewrite app_nil_r|].
  rewrite (vget_Ok C a 0%Z) by lia. cbn [bind].
  assert (EC : cell C (bits_of n a) = nth a C 0%Z).
  { unfold cell, ind. rewrite value_bits_of by lia. now rewrite Nat2N.id. }
  cbn [snd]. rewrite EC. destruct (nth a C 0 =? 0)%Z; cbn [negb bind].
  - rewrite IH by lia. reflexivity.
  - rewrite bv_from_size_type_Ok by (rewrite repeat_length; lia). cbn [bind]. rewrite repeat_length. fold (bits_of n a).
    assert (TV : bv_to_vector_bool (repeat false n) (bits_of n a) = Ok (bits_of n a)).
    { unfold bv_to_vector_bool. rewrite repeat_length, length_bits_of, Nat.eqb_refl. cbn [assertb bind]. f_equal.
      rewrite <- (map_id (bits_of n a)) at 2. apply map_ext. intros []; reflexivity. }
    rewrite TV. cbn [bind]. rewrite IH by lia. rewrite <- app_assoc. reflexivity.
Qed.

Lemma walsh_evaluate_Ok terms x : (forall t, In t terms -> length (fst t) = length x) ->
  walsh_evaluate terms x = Ok (sum_over terms (fun t => spin (dot x (fst t)) * snd t)%Z).
Proof.
  intros H. unfold walsh_evaluate. rewrite (foldM_add _ (fun t => spin (dot x (fst t)) * snd t)%Z); [reflexivity|].
  intros t r Ht. rewrite bv_dot_product_Ok by (symmetry; auto). cbn [bind]. destruct (dot x (fst t)); cbn [spin]; f_equal; lia.
Qed.

Theorem walsh_transforms n f g : 0 < n -> n < 31 -> (forall x, length x = n -> f x = Ok (g x)) ->
  exists terms, walsh_transform n f = Ok terms /\ fast_walsh_transform n f = Ok terms /\
    NoDup (map fst terms) /\
    (forall u c, In (u, c) terms <-> length u = n /\ c = walsh_coefficient n g u /\ c <> 0%Z) /\
    (forall x, length x = n -> walsh_evaluate terms x = Ok (2 ^ Z.of_nat n * g x)%Z).
Proof.
  intros H0 Hn Hf. destruct (direct_coefficients n f g H0 Hn Hf) as (C1 & E1 & L1 & H1).
  destruct (fast_coefficients n f g H0 Hn Hf) as (C2 & E2 & L2 & H2).
  destruct (all_bvs_spec n) as (A1 & A2 & A3 & _).
  set (all := map (fun u => (u, walsh_coefficient n g u)) (all_bvs n)).
  exists (filter (fun t => negb (snd t =? 0)%Z) all).
  assert (T : forall C, length C = 2 ^ n -> (forall u, length u = n -> cell C u = walsh_coefficient n g u) ->
    collect_terms n C = Ok (filter (fun t => negb (snd t =? 0)%Z) all)).
  { intros C L H. rewrite collect_terms_Ok by lia. do 2 f_equal. apply map_ext_in. intros u Hu. rewrite H; [reflexivity|]. now apply A3. }
  assert (IN : forall u c, In (u, c) (filter (fun t => negb (snd t =? 0)%Z) all) <-> length u = n /\ c = walsh_coefficient n g u /\ c <> 0%Z).
  { intros u c. rewrite filter_In. unfold all. rewrite in_map_iff. cbn [snd]. rewrite negb_true_iff, Z.eqb_neq. split.
    - intros [(w & E & Hw) Hc]. injection E as <- <-. apply A3 in Hw. auto.
    - intros (Lu & -> & Hc). split; [|assumption]. exists u. split; [reflexivity|]. now apply A3. }
  split; [rewrite E1; now apply T|]. split; [rewrite E2; now apply T|]. split; [|split; [exact IN|]].
  - unfold all. clear - A2. induction (all_bvs n) as [|u l IH]; [constructor|]. inversion A2 as [|? ? Hu Hl]; subst.
    cbn [map filter]. destruct (negb _); cbn [map fst]; [|auto]. constructor; [|auto].
    intros K. apply in_map_iff in K as ((w & c) & <- & K). apply filter_In in K as [K _].
    apply in_map_iff in K as (w' & E & K). injection E as <- <-. contradiction.
  - intros x Hx. rewrite walsh_evaluate_Ok by (intros [u c] Ht; apply IN in Ht; cbn; lia). f_equal.
    rewrite sum_filter. unfold all. rewrite sum_map.
    rewrite (sum_ext _ _ (fun u => sum_over (hypercube n) (fun y => g y * (spin (dot x u) * spin (dot y u)))%Z)).
    + rewrite sum_swap.
      rewrite (sum_ext _ _ (fun y => g y * (if list_eq_dec Bool.bool_dec x y then 2 ^ Z.of_nat n else 0))%Z).
      * rewrite (sum_single (list_eq_dec Bool.bool_dec) _ x); [|apply hypercube_NoDup|now apply hypercube_In|].
        -- destruct (list_eq_dec Bool.bool_dec x x); [|congruence]. ring.
        -- intros y _ Hne. destruct (list_eq_dec Bool.bool_dec x y); [congruence|]. ring.
      * intros y Hy. apply hypercube_In in Hy. rewrite sum_scale. rewrite (sum_perm _ (hypercube n)) by (now apply hypercube_perm).
        now rewrite orthogonal.
    + intros u _. cbn [fst snd].
      transitivity (spin (dot x u) * walsh_coefficient n g u)%Z.
      { destruct (Z.eqb_spec (walsh_coefficient n g u) 0) as [->|]; cbn [negb]; lia. }
      unfold walsh_coefficient. fold (sum_over (hypercube n) (fun x => (walsh_sign u x * g x)%Z)). rewrite <- sum_scale.
      apply sum_ext. intros y _. rewrite walsh_sign_dot. ring.
Qed.

Theorem walsh_value terms x : (forall t, In t terms -> length (fst t) = length x) ->
  walsh_evaluate terms x = Ok (zsum (map (fun t => walsh_sign (fst t) x * snd t)%Z terms)).
Proof.
  intros H. rewrite walsh_evaluate_Ok by assumption. f_equal. apply sum_ext. intros t _. now rewrite walsh_sign_dot.
Qed.
