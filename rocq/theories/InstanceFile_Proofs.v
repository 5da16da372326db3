(** Proofs about the files of functions. *)

From Coq Require Import ZArith NArith QArith Qabs Permutation String.
From Verif Require Import Base BaseLemmas BitVector_Model BitVector_Spec BitVector_Proofs Function_Spec Text_Model Theory_Model Walsh_Model Double
  Controller_Model Controller_Spec Decorator_Model Decorator_Spec FunctionFactory_Model Rounding_Model Rounding_Spec Collection_Model Collection_Spec
  Sums SortedLemmas Theory_Proofs Walsh_Proofs Ising_Proofs Collection_Proofs Nk_Proofs MaxSat_Model MaxSat_Spec MaxSat_Proofs MaxSatFile_Proofs Sudoku_Model SudokuFile_Proofs Application_Model InstanceFile_Model InstanceFile_Spec.
Local Open Scope nat_scope.
Local Open Scope list_scope.
Local Notation len := List.length.
From Verif Require FunctionFactory_Proofs Transform_Proofs Rounding_Proofs.

(** * Reading what was written *)

(** [get] gives [x] from [s] whatever follows, and fails on a truncated text. *)
Definition faithful {T} (get : tokens -> outcome (T * tokens)) (s : tokens) (x : T) : Prop :=
  (forall rest, get (s ++ rest) = Ok (x, rest)) /\
  (forall a c, c <> [] -> s = a ++ c -> get a = Throw OtherException).
(** [get] fails on [s] whatever follows. *)
Definition fails {T} (get : tokens -> outcome (T * tokens)) (s : tokens) : Prop :=
  (forall rest, get (s ++ rest) = Throw OtherException) /\
  (forall a c, c <> [] -> s = a ++ c -> get a = Throw OtherException).

Lemma split_prefix {T} (s1 s2 a c : list T) : s1 ++ s2 = a ++ c ->
  (exists e, e <> [] /\ s1 = a ++ e) \/ exists e, a = s1 ++ e /\ s2 = e ++ c.
Proof.
  revert a. induction s1 as [|x s1 IH]; cbn; intros a E.
  - right. exists a. auto.
  - destruct a as [|y a]; cbn in E.
    + left. exists (x :: s1). split; [discriminate|auto].
    + injection E as -> E. destruct (IH a E) as [(e & N & ->)|(e & -> & ->)]; [left|right]; eauto.
Qed.

Lemma faithful_bind {T U} (r1 : tokens -> outcome (T * tokens)) (k : T -> tokens -> outcome (U * tokens)) s1 s2 x y :
  faithful r1 s1 x -> faithful (k x) s2 y -> faithful (fun a => '(x, a) <- r1 a ;; k x a) (s1 ++ s2) y.
Proof.
  intros [A1 A2] [B1 B2]. split.
  - intros rest. rewrite <- app_assoc, A1. cbn. apply B1.
  - intros a c N E. apply split_prefix in E as [(e & Ne & E)|(e & -> & E)].
    + rewrite (A2 a e Ne E). reflexivity.
    + rewrite A1. cbn. now apply (B2 e c).
Qed.
Lemma fails_second {T U} (r1 : tokens -> outcome (T * tokens)) (k : T -> tokens -> outcome (U * tokens)) s1 s2 x :
  faithful r1 s1 x -> fails (k x) s2 -> fails (fun a => '(x, a) <- r1 a ;; k x a) (s1 ++ s2).
Proof.
  intros [A1 A2] [B1 B2]. split.
  - intros rest. rewrite <- app_assoc, A1. cbn. apply B1.
  - intros a c N E. apply split_prefix in E as [(e & Ne & E)|(e & -> & E)].
    + rewrite (A2 a e Ne E). reflexivity.
    + rewrite A1. cbn. now apply (B2 e c).
Qed.
Lemma fails_first {T U} (r1 : tokens -> outcome (T * tokens)) (k : T -> tokens -> outcome (U * tokens)) s1 s2 :
  fails r1 s1 -> fails (fun a => '(x, a) <- r1 a ;; k x a) (s1 ++ s2).
Proof.
  intros [A1 A2]. split.
  - intros rest. now rewrite <- app_assoc, A1.
  - intros a c N E. apply split_prefix in E as [(e & Ne & E)|(e & -> & E)].
    + now rewrite (A2 a e Ne E).
    + now rewrite A1.
Qed.

Lemma faithful_ret {T} (x : T) : faithful (fun a => Ok (x, a)) [] x.
Proof. split; [reflexivity|]. intros a c N E. symmetry in E. apply app_eq_nil in E. tauto. Qed.

Lemma faithful_map {T U} (r : tokens -> outcome (T * tokens)) (f : T -> U) s x :
  faithful r s x -> faithful (fun a => '(x, a) <- r a ;; Ok (f x, a)) s (f x).
Proof.
  intros A. rewrite <- (app_nil_r s). apply (faithful_bind r (fun x a => Ok (f x, a)) s [] x); [assumption|apply faithful_ret].
Qed.
Lemma fails_map {T U} (r : tokens -> outcome (T * tokens)) (k : T -> tokens -> outcome (U * tokens)) s :
  fails r s -> fails (fun a => '(x, a) <- r a ;; k x a) s.
Proof. intros A. rewrite <- (app_nil_r s). now apply fails_first. Qed.

Lemma one_token (t : token) a c : c <> [] -> [t] = a ++ c -> a = [].
Proof. intros N E. destruct a as [|y a]; [reflexivity|]. injection E as -> E. symmetry in E. apply app_eq_nil in E. tauto. Qed.
Lemma faithful_token {T} (convert : token -> option T) t x : convert t = Some x -> faithful (get_token convert) [t] x.
Proof. intros E. split; [intros rest; cbn; now rewrite E|]. intros a c N K. now rewrite (one_token t a c N K). Qed.
Lemma fails_token {T} (convert : token -> option T) t : convert t = None -> fails (get_token convert) [t].
Proof. intros E. split; [intros rest; cbn; now rewrite E|]. intros a c N K. now rewrite (one_token t a c N K). Qed.

Lemma faithful_items {T} (get : tokens -> outcome (T * tokens)) put l : Forall (fun x => faithful get (put x) x) l ->
  faithful (get_items get (len l)) (flat_map put l) l.
Proof.
  induction l as [|x l IH]; intros H; cbn [len flat_map get_items]; [apply faithful_ret|].
  apply (faithful_bind get (fun x a => '(l, a) <- get_items get (len l) a ;; Ok (x :: l, a)) (put x) (flat_map put l) x).
  - now apply Forall_inv in H.
  - apply Forall_inv_tail in H. apply (faithful_map (get_items get (len l)) (cons x) _ l (IH H)).
Qed.
Lemma fails_items {T} (get : tokens -> outcome (T * tokens)) put (good : T -> Prop) l :
  (forall x, In x l -> good x /\ faithful get (put x) x \/ ~ good x /\ fails get (put x)) -> ~ Forall good l ->
  fails (get_items get (len l)) (flat_map put l).
Proof.
  induction l as [|x l IH]; intros H N; cbn [len flat_map get_items]; [exfalso; auto|].
  destruct (H x (or_introl eq_refl)) as [[G F]|[G F]].
  - apply (fails_second get (fun x a => '(l, a) <- get_items get (len l) a ;; Ok (x :: l, a)) (put x) (flat_map put l) x F).
    apply (fails_map (get_items get (len l)) (fun l a => Ok (x :: l, a))). apply IH; [intros; apply H; now right|auto].
  - now apply (fails_first get (fun x a => '(l, a) <- get_items get (len l) a ;; Ok (x :: l, a))).
Qed.

Lemma faithful_size n : faithful get_size [TInt (Z.of_nat n)] n.
Proof. apply faithful_token. destruct (Z.leb_spec 0 (Z.of_nat n)); [|lia]. now rewrite Nat2Z.id. Qed.
Lemma faithful_vector {T} (get : tokens -> outcome (T * tokens)) put l : Forall (fun x => faithful get (put x) x) l ->
  faithful (get_vector get) (put_vector put l) l.
Proof.
  intros H. unfold get_vector, put_vector.
  apply (faithful_bind get_size (fun n a => get_items get n a) [TInt (Z.of_nat (len l))] _ (len l) l (faithful_size _)). now apply faithful_items.
Qed.
Lemma fails_vector {T} (get : tokens -> outcome (T * tokens)) put (good : T -> Prop) l :
  (forall x, In x l -> good x /\ faithful get (put x) x \/ ~ good x /\ fails get (put x)) -> ~ Forall good l ->
  fails (get_vector get) (put_vector put l).
Proof.
  intros H N. unfold get_vector, put_vector.
  apply (fails_second get_size (fun n a => get_items get n a) [TInt (Z.of_nat (len l))] _ (len l) (faithful_size _)). now apply (fails_items get put good).
Qed.

(** [decides get put good]: what is good is read, the rest is not. *)
Definition decides {T} (get : tokens -> outcome (T * tokens)) (put : T -> tokens) (good : T -> Prop) : Prop :=
  forall x, good x /\ faithful get (put x) x \/ ~ good x /\ fails get (put x).

Lemma Forall_decided {T} (good : T -> Prop) l : (forall x, In x l -> good x \/ ~ good x) -> Forall good l \/ ~ Forall good l.
Proof.
  induction l as [|x l IH]; intros H; [left; constructor|].
  destruct (H x (or_introl eq_refl)) as [G|G].
  - destruct IH as [F|F]; [intros; apply H; now right|left; now constructor|right; intros K; apply F; now inversion K].
  - right. intros K. apply G. now inversion K.
Qed.
Lemma decides_vector {T} (get : tokens -> outcome (T * tokens)) put good : decides get put good ->
  decides (get_vector get) (put_vector put) (Forall good).
Proof.
  intros D l. destruct (Forall_decided good l) as [F|F].
  - intros x _. destruct (D x) as [[G _]|[G _]]; auto.
  - left. split; [assumption|]. apply faithful_vector. revert F. apply Forall_impl. intros x G. destruct (D x) as [[_ F]|[N _]]; tauto.
  - right. split; [assumption|]. apply (fails_vector get put good); auto.
Qed.

Lemma decides_double : decides get_double put_double is_finite.
Proof.
  intros v. destruct v as [| |z|]; [right|right|left|right]; (split; [|first [apply fails_token; reflexivity|apply faithful_token; reflexivity]]);
    try (intros (z' & E); discriminate). now exists z.
Qed.
Lemma decides_int : decides get_int put_int is_int.
Proof.
  intros z. unfold is_int. destruct (int_range z) eqn:E.
  - left. split; [|apply faithful_token; now rewrite E]. unfold int_range in E. apply andb_true_iff in E as [E1 E2].
    apply Z.leb_le in E1. rewrite ?Z.leb_le, ?Z.ltb_lt in E2. lia.
  - right. split; [|apply fails_token; now rewrite E]. unfold int_range in E. intros H.
    apply andb_false_iff in E as [E|E]; rewrite ?Z.leb_gt, ?Z.ltb_ge in E; lia.
Qed.
Lemma faithful_bool b : faithful get_bool (put_bool b) b.
Proof. apply faithful_token. now destruct b. Qed.
Lemma faithful_bits x : faithful (get_vector get_bool) (put_vector put_bool x) x.
Proof. apply faithful_vector. apply Forall_forall. intros b _. apply faithful_bool. Qed.

Lemma decides_term : decides get_term (fun t => put_vector put_bool (fst t) ++ put_double (snd t)) (fun t => is_finite (snd t)).
Proof.
  intros [u c]. cbn [fst snd]. unfold get_term. destruct (decides_double c) as [[G F]|[G F]]; [left|right]; (split; [assumption|]).
  - apply (faithful_bind (get_vector get_bool) (fun u a => '(c, a) <- get_double a ;; Ok (u, c, a)) _ _ u (u, c) (faithful_bits u)).
    apply (faithful_map get_double (fun c => (u, c)) _ c F).
  - apply (fails_second (get_vector get_bool) (fun u a => '(c, a) <- get_double a ;; Ok (u, c, a)) _ _ u (faithful_bits u)).
    apply (fails_map get_double (fun c a => Ok (u, c, a)) _ F).
Qed.

(** ** Instances *)

Definition readable (i : instance) : Prop := finite i /\ ints_fit i /\ match i with IIsing2 _ _ f _ => f <> [] | _ => True end.

Lemma decides_after {T V} (r1 : tokens -> outcome (T * tokens)) put1 good1 (k : T -> tokens -> outcome (V * tokens)) x s2 (good2 : Prop) (y : V) :
  decides r1 put1 good1 -> (good2 /\ faithful (k x) s2 y \/ ~ good2 /\ fails (k x) s2) ->
  (good1 x /\ good2) /\ faithful (fun a => '(x, a) <- r1 a ;; k x a) (put1 x ++ s2) y \/
  ~ (good1 x /\ good2) /\ fails (fun a => '(x, a) <- r1 a ;; k x a) (put1 x ++ s2).
Proof.
  intros D H. destruct (D x) as [[G F]|[G F]].
  - destruct H as [[G2 F2]|[G2 F2]]; [left|right]; (split; [tauto|]); [now apply (faithful_bind r1 k _ _ x)|now apply (fails_second r1 k _ _ x)].
  - right. split; [tauto|]. now apply (fails_first r1 k).
Qed.
Lemma decides_last {T U} (r : tokens -> outcome (T * tokens)) put good (f : T -> U) x :
  decides r put good -> good x /\ faithful (fun a => '(x, a) <- r a ;; Ok (f x, a)) (put x) (f x) \/
  ~ good x /\ fails (fun a => '(x, a) <- r a ;; Ok (f x, a)) (put x).
Proof.
  intros D. destruct (D x) as [[G F]|[G F]]; [left|right]; (split; [assumption|]); [now apply (faithful_map r f)|now apply fails_map].
Qed.

Definition vectors := decides_vector _ _ _ decides_double.
Definition arrays := decides_vector _ _ _ vectors.

Lemma get_put i : (match i with IIsing2 _ _ f _ => f <> [] | _ => True end) ->
  finite i /\ ints_fit i /\ faithful (get_instance (type_of i)) (put_instance i) i \/
  ~ (finite i /\ ints_fit i) /\ fails (get_instance (type_of i)) (put_instance i).
Proof.
  intros W. destruct i as [w|ns fs|l|l|t|l|l q|c f p|r b f p]; cbn [type_of get_instance put_instance finite ints_fit].
  - destruct (decides_last _ _ _ ILinear w vectors) as [[G F]|[G F]]; [left|right]; tauto.
  - destruct (decides_after _ _ _ (fun ns a => '(fs, a) <- get_vector (get_vector get_double) a ;; Ok (INk ns fs, a)) ns
      _ _ _ (decides_vector _ _ _ (decides_vector _ _ _ decides_int)) (decides_last _ _ _ (INk ns) fs arrays)) as [[G F]|[G F]]; [left|right]; tauto.
  - destruct (decides_last _ _ _ IEqualProducts l vectors) as [[G F]|[G F]]; [left|right]; tauto.
  - destruct (decides_last _ _ _ IPartition l (decides_vector _ _ _ decides_int)) as [[G F]|[G F]]; [left|right]; tauto.
  - destruct (decides_last _ _ _ IWalsh t (decides_vector _ _ _ decides_term)) as [[G F]|[G F]]; [left|right]; tauto.
  - destruct (decides_last _ _ _ IWalsh1 l vectors) as [[G F]|[G F]]; [left|right]; tauto.
  - destruct (decides_after _ _ _ (fun l a => '(q, a) <- get_vector (get_vector get_double) a ;; Ok (IWalsh2 l q, a)) l
      _ _ _ vectors (decides_last _ _ _ (IWalsh2 l) q arrays)) as [[G F]|[G F]]; [left|right]; tauto.
  - assert (B : decides get_bool put_bool (fun _ => True)) by (intros b; left; split; [exact I|apply faithful_bool]).
    destruct (decides_after _ _ _ (fun c a => '(f, a) <- get_vector get_double a ;; '(p, a) <- get_bool a ;; Ok (IIsing1 c f p, a)) c
      _ _ _ vectors (decides_after _ _ _ (fun f a => '(p, a) <- get_bool a ;; Ok (IIsing1 c f p, a)) f
      _ _ _ vectors (decides_last _ _ _ (IIsing1 c f) p B))) as [[G F]|[G F]]; [left|right]; tauto.
  - set (last := fun (p : bool) (a : tokens) => _ <- assertb (0 <? len f) ;; Ok (IIsing2 r b f p, a)).
    assert (B : True /\ faithful (fun a => '(p, a) <- get_bool a ;; last p a) (put_bool p) (IIsing2 r b f p) \/
      ~ True /\ fails (fun a => '(p, a) <- get_bool a ;; last p a) (put_bool p)).
    { left. split; [exact I|]. rewrite <- (app_nil_r (put_bool p)). apply (faithful_bind get_bool last _ [] p); [apply faithful_bool|].
      subst last. cbn beta. destruct f; [congruence|]. cbn [len Nat.ltb Nat.leb assertb bind]. apply faithful_ret. }
    destruct (decides_after _ _ _ (fun r a => '(b, a) <- get_vector (get_vector get_double) a ;; '(f, a) <- get_vector (get_vector get_double) a ;;
         '(p, a) <- get_bool a ;; _ <- assertb (0 <? len f) ;; Ok (IIsing2 r b f p, a)) r
      _ _ _ arrays (decides_after _ _ _ (fun b a => '(f, a) <- get_vector (get_vector get_double) a ;;
         '(p, a) <- get_bool a ;; _ <- assertb (0 <? len f) ;; Ok (IIsing2 r b f p, a)) b
      _ _ _ arrays (decides_after _ _ _ (fun f a => '(p, a) <- get_bool a ;; _ <- assertb (0 <? len f) ;; Ok (IIsing2 r b f p, a)) f
      _ _ _ arrays B))) as [[G F]|[G F]]; [left|right]; tauto.
Qed.

Lemma load_put i rest : well_formed i -> finite i -> ints_fit i -> load_instance (type_of i) (Some (Archive (put_instance i ++ rest))) = Ok i.
Proof.
  intros W F R. destruct (get_put i) as [(_ & _ & [H _])|[N _]]; [|unfold load_instance|tauto].
  - destruct i; auto. destruct W as (nr & nc & Hr & Hc & _ & _ & [L _]). intros ->. cbn in L. lia.
  - now rewrite (H rest).
Qed.
Lemma load_bad i rest : well_formed i -> ~ (finite i /\ ints_fit i) -> load_instance (type_of i) (Some (Archive (put_instance i ++ rest))) = Throw RuntimeError.
Proof.
  intros W B. destruct (get_put i) as [(? & ? & _)|[_ [H _]]]; [|tauto|unfold load_instance].
  - destruct i; auto. destruct W as (nr & nc & Hr & Hc & _ & _ & [L _]). intros ->. cbn in L. lia.
  - now rewrite (H rest).
Qed.
Lemma load_truncated i a : well_formed i -> truncated a (put_instance i) -> load_instance (type_of i) (Some (Archive a)) = Throw RuntimeError.
Proof.
  intros W (c & N & E). unfold load_instance. destruct (get_put i) as [(_ & _ & [_ H])|[_ [_ H]]].
  - destruct i; auto. destruct W as (nr & nc & Hr & Hc & _ & _ & [L _]). intros ->. cbn in L. lia.
  - now rewrite (H a c N E).
  - now rewrite (H a c N E).
Qed.

(** * ffgen *)

(** ** Filling vectors *)

(** [g] gives [v k] after [k] draws and makes [a] draws. *)
Definition steps (g : generator) (a : nat) (v : nat -> dbl) : Prop := forall k, g k = (v k, k + a).

Lemma steps_normal o d : steps (scaled_normal (fg_stddev o) (fd_normal d)) 1 (noise o d).
Proof. intros k. unfold scaled_normal, noise. now rewrite Nat.add_1_r. Qed.
Lemma steps_constant c : steps (constant c) 0 (fun _ => c).
Proof. intros k. unfold constant. now rewrite Nat.add_0_r. Qed.

Lemma map_seq_S {A} (f : nat -> A) n : map f (seq 0 (S n)) = f 0 :: map (fun j => f (S j)) (seq 0 n).
Proof. cbn [seq map]. f_equal. rewrite <- seq_shift, map_map. reflexivity. Qed.

Lemma fill_exact g a v : steps g a v -> forall n k, fill n g k = (map (fun j => v (k + j * a)) (seq 0 n), k + n * a).
Proof.
  intros G. induction n as [|n IH]; intros k; [cbn; now rewrite Nat.add_0_r|]. cbn [fill]. rewrite G, IH. rewrite map_seq_S.
  f_equal; [f_equal; [f_equal; lia|apply map_ext; intros j; f_equal; lia]|lia].
Qed.
Lemma fill_pairs_exact g h a b v w : steps g a v -> steps h b w -> forall n k,
  fill_pairs n g h k = (map (fun j => v (k + j * (a + b))) (seq 0 n), map (fun j => w (k + j * (a + b) + a)) (seq 0 n), k + n * (a + b)).
Proof.
  intros G H. induction n as [|n IH]; intros k; [cbn; now rewrite Nat.add_0_r|]. cbn [fill_pairs]. rewrite G, H, IH. rewrite !map_seq_S.
  f_equal; [f_equal; (f_equal; [f_equal; lia|apply map_ext; intros j; f_equal; lia])|lia].
Qed.
Lemma fill_triples_exact g h a b v w : steps g a v -> steps h b w -> forall n k, let s := 2 * a + b in
  fill_triples n g h k = (map (fun j => v (k + j * s)) (seq 0 n), map (fun j => v (k + j * s + a)) (seq 0 n), map (fun j => w (k + j * s + 2 * a)) (seq 0 n), k + n * s).
Proof.
  intros G H. induction n as [|n IH]; intros k s; [cbn; now rewrite Nat.add_0_r|]. cbn [fill_triples]. rewrite !G, H, IH. rewrite !map_seq_S. subst s.
  f_equal; [f_equal; [f_equal|]; (f_equal; [f_equal; lia|apply map_ext; intros j; f_equal; lia])|lia].
Qed.
Lemma fill_grid_exact g h a b v w nc : steps g a v -> steps h b w -> forall nr k, let s := 2 * a + b in
  fill_grid nr nc g h k = (map (fun i => map (fun j => v (k + (i * nc + j) * s)) (seq 0 nc)) (seq 0 nr),
    map (fun i => map (fun j => v (k + (i * nc + j) * s + a)) (seq 0 nc)) (seq 0 nr),
    map (fun i => map (fun j => w (k + (i * nc + j) * s + 2 * a)) (seq 0 nc)) (seq 0 nr)).
Proof.
  intros G H. induction nr as [|nr IH]; intros k s; [reflexivity|]. cbn [fill_grid]. rewrite (fill_triples_exact g h a b v w G H), IH. rewrite !map_seq_S.
  fold s. f_equal; [f_equal|]; f_equal; apply map_ext; intros i; try apply map_ext; try intros j; f_equal; ring.
Qed.
Lemma fill_triangle_exact g v (L st : nat -> nat) : steps g 1 v -> (forall i, st (S i) = st i + L i) -> forall n i0,
  fill_triangle (map L (seq i0 n)) g (st i0) = map (fun i => map (fun j => v (st i + j)) (seq 0 (L i))) (seq i0 n).
Proof.
  intros G S. induction n as [|n IH]; intros i0; [reflexivity|]. cbn [seq map fill_triangle]. rewrite (fill_exact g 1 v G).
  rewrite Nat.mul_1_r, <- S, IH. f_equal. apply map_ext. intros j. f_equal. lia.
Qed.
Lemma successive_exact next : forall n w, len (successive n next w) = n /\
  forall j, j < n -> nth j (successive n next w) (DFin 0) = Nat.iter j next w.
Proof.
  induction n as [|n IH]; intros w; [split; [reflexivity|lia]|]. cbn [successive len]. destruct (IH (next w)) as [L N].
  split; [now rewrite L|]. intros [|j] H; [reflexivity|]. cbn [nth]. rewrite N by lia.
  clear. induction j as [|j IHj]; [reflexivity|]. change (next (Nat.iter j next (next w)) = next (Nat.iter (S j) next w)). now rewrite IHj.
Qed.

Lemma nth_map_seq {A} (f : nat -> A) n j e : j < n -> nth j (map f (seq 0 n)) e = f j.
Proof. intros H. rewrite (nth_indep _ e (f 0)) by now rewrite map_length, seq_length. rewrite map_nth, seq_nth; auto. Qed.
Lemma vector_is_map n f f' : (forall j, j < n -> f j = f' j) -> vector_is n (map f (seq 0 n)) f'.
Proof. intros E. split; [now rewrite map_length, seq_length|]. intros j H. rewrite nth_map_seq by assumption. now apply E. Qed.
Lemma array_is_map nr nc f f' : (forall i j, i < nr -> j < nc -> f i j = f' i j) -> array_is nr nc (map (fun i => map (f i) (seq 0 nc)) (seq 0 nr)) f'.
Proof.
  intros E. split.
  - split; [now rewrite map_length, seq_length|]. rewrite Forall_map. apply Forall_forall. intros i _. now rewrite map_length, seq_length.
  - intros i j Hi Hj. rewrite nth_map_seq by assumption. rewrite nth_map_seq by assumption. now apply E.
Qed.

Lemma successive_is n next w : 0 < n -> let l := successive n next w in
  len l = n /\ nth 0 l (DFin 0) = w /\ forall j, j + 1 < n -> nth (j + 1) l (DFin 0) = next (nth j l (DFin 0)).
Proof.
  intros H l. destruct (successive_exact next n w) as [L N]. fold l in L, N. split; [assumption|]. split; [now apply (N 0)|].
  intros j Hj. rewrite !N by lia. now rewrite Nat.add_1_r.
Qed.

Lemma array_of nr nc m f : array_is nr nc m f -> array nr nc m.
Proof. now intros [A _]. Qed.

(** ** What is written *)

Lemma positive_Ok z : (0 < z)%Z -> positive z = Ok (Z.to_nat z).
Proof. intros H. unfold positive. destruct (Z.ltb_spec 0 z); [reflexivity|lia]. Qed.
Lemma positive_UB z : ~ (0 < z)%Z -> positive z = UB.
Proof. intros H. unfold positive. destruct (Z.ltb_spec 0 z); [lia|reflexivity]. Qed.

Lemma map_const_seq {A} (c : A) n : forall i, map (fun _ => c) (seq i n) = repeat c n.
Proof. induction n as [|n IH]; intros i; cbn [seq map repeat]; [reflexivity|now rewrite IH]. Qed.
Lemma structure_new n k u : 0 < k <= 29 -> k < n -> (forall i j, 0 <= u i j < 1)%Q ->
  exists s, random_structure n k u (mk_nk [] []) = Ok s /\ nk_sites n k (nk_neighbors s) /\ map (@len Q) (nk_functions s) = map (fun _ => 2 ^ (k + 1)) (seq 0 n).
Proof.
  intros K N U. destruct (generate_width n k u (fun _ _ => 0%Q) (mk_nk [] []) K N) as (o' & E & S & _); [split; constructor|assumption|].
  unfold nk_generate in E. destruct (Nat.ltb_spec 0 n); [|lia]. destruct (Nat.ltb_spec 0 k); [|lia]. cbn [assertb bind] in E.
  apply bind_Ok in E as (s & E & E'). apply bind_Ok in E' as (fs & _ & E'). apply Ok_inj in E'. subst o'. cbn [nk_neighbors] in S.
  exists s. split; [assumption|]. split; [assumption|].
  destruct (structure_Ok n k u (mk_nk [] []) ltac:(lia) K U) as (ns & E2 & _).
  { intros i Hi. cbn [nk_neighbors]. rewrite (width_rows [] n (k + 1)) by (try apply repeat_length; auto). lia. }
  rewrite E in E2. injection E2 as ->. cbn [nk_functions]. clear. unfold resize. cbn [len].
  rewrite Nat.sub_0_r. rewrite firstn_nil. cbn [app]. generalize (2 ^ (k + 1)). intros w.
  rewrite map_const_seq. induction n as [|n IH]; [reflexivity|]. cbn [repeat map]. now rewrite repeat_length, IH.
Qed.

Lemma ising_generators_Ok o d choice : (0 <= choice <= 3)%Z -> exists g h a b v w,
  ising_generators o (scaled_normal (fg_stddev o) (fd_normal d)) choice = Ok (g, h) /\ steps g a v /\ steps h b w /\
  match choice with
  | 0%Z => a = 1 /\ b = 1 /\ v = noise o d /\ w = noise o d
  | 1%Z => a = 1 /\ b = 0 /\ v = noise o d /\ w = (fun _ => fg_field o)
  | 2%Z => a = 0 /\ b = 1 /\ v = (fun _ => fg_coupling o) /\ w = noise o d
  | _ => a = 0 /\ b = 0 /\ v = (fun _ => fg_coupling o) /\ w = (fun _ => fg_field o)
  end.
Proof.
  intros H. assert (C : (choice = 0 \/ choice = 1 \/ choice = 2 \/ choice = 3)%Z) by lia.
  destruct C as [->|[->|[->| ->]]]; cbn [ising_generators]; do 6 eexists; (split; [reflexivity|]);
    (split; [first [apply steps_normal|apply steps_constant]|]); (split; [first [apply steps_normal|apply steps_constant]|]); auto.
Qed.


Lemma combine_fst_nth {A B} (l : list A) (l' : list B) j e e' : len l = len l' -> nth j (combine l l') (e, e') = (nth j l e, nth j l' e').
Proof. intros H. now apply combine_nth. Qed.
Lemma map_snd_combine {A B} (l : list A) (l' : list B) : len l = len l' -> map snd (combine l l') = l'.
Proof. revert l'. induction l as [|a l IH]; intros [|b l'] H; cbn in *; try discriminate; [reflexivity|]. f_equal. apply IH. lia. Qed.

Lemma triangle_start i : S i * (S i - 1) / 2 = i * (i - 1) / 2 + i.
Proof.
  replace (S i * (S i - 1)) with (i * (i - 1) + i * 2); [apply Nat.div_add; lia|]. destruct i as [|i]; [reflexivity|].
  replace (S i - 1) with i by lia. replace (S (S i) - 1) with (S i) by lia. ring.
Qed.

Lemma generate_archive o d : accepted o -> options_fit o -> draws_fit o d -> In (fg_type o) archive_types ->
  exists i, generate_function o d = Ok (put_file i) /\ type_of i = fg_type o /\ as_asked o d i /\ well_formed i /\ ints_fit i /\ size_of i = expected_size o.
Proof.
  intros (_ & KG & AO) (FS & FP & _) (DI & DN & _) H.
  unfold known_generator in KG. unfold arguments_ok in AO. unfold generate_function, expected_size.
  cbn [archive_types In] in H. destruct H as [E|[E|[E|[E|[E|[E|[E|[E|[E|[]]]]]]]]]]; rewrite <- E in KG, AO |- *; cbn [Z.eqb Pos.eqb] in *.
  - assert (C : (fg_lin_generator o = 0 \/ fg_lin_generator o = 1 \/ fg_lin_generator o = 2)%Z) by lia.
    set (n := Z.to_nat (fg_size o)). assert (N : 0 < n) by (subst n; lia).
    destruct C as [C|[C|C]]; rewrite C; rewrite positive_Ok by assumption; cbn [bind]; fold n; eexists;
      (split; [reflexivity|]); (split; [reflexivity|]); cbn [as_asked well_formed ints_fit size_of]; rewrite C; fold n.
    + rewrite (fill_exact _ _ _ (steps_normal o d)). cbn [fst]. rewrite map_length, seq_length.
      split; [split; [reflexivity|]|auto]. apply vector_is_map. intros j Hj. f_equal. lia.
    + destruct (successive_is n (fun w => fadd w (fg_lin_distance o)) (fg_lin_initial o) N) as (L & Z0 & S). auto 8.
    + destruct (successive_is n (fun w => fmul w (fg_lin_ratio o)) (fg_lin_initial o) N) as (L & Z0 & S). auto 8.
  - rewrite !positive_Ok by lia. cbn [bind]. set (n := Z.to_nat (fg_size o)). set (k := Z.to_nat (fg_nk_k o)).
    assert (K : 0 < k <= 29) by (subst k; lia). assert (N : k < n) by (subst k n; lia).
    destruct (structure_new n k (fd_neighbors d) K N DN) as (s & -> & S & W). cbn [bind]. rewrite W.
    assert (T := fill_triangle_exact _ _ (fun _ => 2 ^ (k + 1)) (fun i => i * 2 ^ (k + 1)) (steps_normal o d)). cbn beta in T.
    specialize (T ltac:(intros; lia) n 0). rewrite Nat.mul_0_l in T. rewrite T. clear T.
    set (fs := map _ (seq 0 n)).
    assert (A : array_is n (2 ^ (k + 1)) fs (fun i j => noise o d (i * 2 ^ (k + 1) + j))) by (apply array_is_map; auto).
    assert (L : len fs = n) by apply A.
    eexists. split; [reflexivity|]. split; [reflexivity|]. cbn [as_asked well_formed ints_fit size_of]. fold n k. split; [|split; [|split]].
    + split; [eauto|assumption].
    + exists k, (nk_neighbors s). rewrite L. split; [lia|]. split; [reflexivity|]. split; [assumption|]. apply A.
    + rewrite Forall_map. apply Forall_forall. intros row Hr. rewrite Forall_map. apply (In_nth _ _ []) in Hr as (i & Hi & <-).
      destruct S as [SL S]. rewrite SL in Hi. destruct (S i Hi) as (_ & _ & R & _). revert R. apply Forall_impl. intros j Hj. subst n. unfold is_int. lia.
    + assumption.
  - rewrite positive_Ok by assumption. cbn [bind]. set (n := Z.to_nat (fg_size o)). eexists. split; [reflexivity|]. split; [reflexivity|].
    cbn [as_asked well_formed ints_fit size_of]. fold n. rewrite map_length, seq_length. split; [|auto]. now apply vector_is_map.
  - destruct AO as [A1 A2]. rewrite positive_Ok by assumption. cbn [bind]. set (n := Z.to_nat (fg_size o)). unfold partition_random.
    destruct (Nat.ltb_spec 0 n); [|subst n; lia]. destruct (Z.ltb_spec 0 (fg_part_bound o)); [|lia]. cbn [assertb bind].
    eexists. split; [reflexivity|]. split; [reflexivity|]. cbn [as_asked well_formed ints_fit size_of]. fold n. rewrite map_length, seq_length. repeat split; auto.
    + rewrite Forall_map. apply Forall_forall. intros i _. specialize (DI ltac:(lia) i). lia.
    + rewrite Forall_map. apply Forall_forall. intros i _. specialize (DI ltac:(lia) i). unfold is_int. lia.
  - destruct AO as [A1 A2]. rewrite !positive_Ok by assumption. cbn [bind]. set (n := Z.to_nat (fg_size o)). set (m := Z.to_nat (fg_walsh_features o)).
    rewrite (fill_exact _ _ _ (steps_normal o d)). cbn [fst].
    assert (L : len (map (fun i => bv_random (repeat false n) (fd_feature d i)) (seq 0 m)) = len (map (fun j => noise o d (0 + j * 1)) (seq 0 m)))
      by now rewrite !map_length.
    eexists. split; [reflexivity|]. split; [reflexivity|]. cbn [as_asked well_formed ints_fit size_of]. fold n m.
    assert (F : forall j, j < m -> fst (nth j (combine (map (fun i => bv_random (repeat false n) (fd_feature d i)) (seq 0 m)) (map (fun j => noise o d (0 + j * 1)) (seq 0 m))) ([], DFin 0)) =
      map (fd_feature d j) (seq 0 n)).
    { intros j Hj. rewrite combine_fst_nth by assumption. cbn [fst]. rewrite nth_map_seq by assumption. unfold bv_random. now rewrite repeat_length. }
    set (t := combine _ _) in *. assert (LT : len t = m) by (unfold t; rewrite combine_length, <- L, map_length, seq_length; lia).
    assert (M : 0 < m) by (subst m; lia).
    split; [split; [|assumption]|split; [|split; [exact I|]]].
    + unfold t. rewrite map_snd_combine by assumption. apply vector_is_map. intros j Hj. f_equal. lia.
    + exists n. split; [intros ->; cbn in LT; lia|]. apply Forall_forall. intros x Hx. apply (In_nth _ _ ([], DFin 0)) in Hx as (j & Hj & <-).
      rewrite F by lia. now rewrite map_length, seq_length.
    + specialize (F 0 M). destruct t as [|x t]; [cbn in LT; lia|]. cbn [hd nth] in *. now rewrite F, map_length, seq_length.
  - rewrite positive_Ok by assumption. cbn [bind]. set (n := Z.to_nat (fg_size o)). rewrite (fill_exact _ _ _ (steps_normal o d)). cbn [fst].
    eexists. split; [reflexivity|]. split; [reflexivity|]. cbn [as_asked well_formed ints_fit size_of]. fold n. rewrite map_length, seq_length.
    split; [|auto]. apply vector_is_map. intros j Hj. f_equal. lia.
  - set (n := Z.to_nat (fg_size o)).
    assert (C : (fg_walsh2_generator o = 0 \/ fg_walsh2_generator o = 1)%Z) by lia. destruct C as [C|C]; rewrite C; rewrite positive_Ok by assumption; cbn [bind]; fold n.
    + rewrite (fill_exact _ _ _ (steps_normal o d)). 
      assert (T := fill_triangle_exact _ _ (fun i => i) (fun i => n + i * (i - 1) / 2) (steps_normal o d)). cbn beta in T.
      specialize (T ltac:(intros; rewrite triangle_start; lia) n 0). rewrite map_id in T. change (0 * (0 - 1) / 2) with 0 in T.
      replace (0 + n * 1) with (n + 0) by lia. rewrite T. clear T.
      eexists. split; [reflexivity|]. split; [reflexivity|]. cbn [as_asked well_formed ints_fit size_of]. rewrite C. fold n. cbn [Z.eqb].
      rewrite !map_length, !seq_length. split; [split; [reflexivity|split; [|split]]|split; [split; [reflexivity|]|auto]].
      * intros i Hi. rewrite nth_map_seq by assumption. now rewrite map_length, seq_length.
      * apply vector_is_map. intros j Hj. f_equal. lia.
      * intros i j Hi Hj. rewrite nth_map_seq by assumption. rewrite nth_map_seq by assumption. unfold pair_rank. f_equal. lia.
      * intros i Hi. rewrite nth_map_seq by assumption. now rewrite map_length, seq_length.
    + eexists. split; [reflexivity|]. split; [reflexivity|]. cbn [as_asked well_formed ints_fit size_of]. rewrite C. fold n. cbn [Z.eqb Pos.eqb].
      rewrite repeat_length, !map_length, !seq_length. split; [split; [reflexivity|split; [|split]]|split; [split; [reflexivity|]|auto]].
      * intros i Hi. rewrite nth_map_seq by assumption. now rewrite map_length, seq_length.
      * split; [apply repeat_length|]. intros j _. apply nth_repeat.
      * intros i j Hi Hj. rewrite nth_map_seq by assumption. rewrite nth_map_seq by assumption. repeat f_equal. lia.
      * intros i Hi. rewrite nth_map_seq by assumption. now rewrite map_length, seq_length.
  - set (n := Z.to_nat (fg_size o)). assert (N : 0 < n) by (subst n; lia).
    destruct (ising_generators_Ok o d (fg_nn1_generator o) ltac:(lia)) as (g & h & a & b & v & w & EG & G & H & C). rewrite EG. cbn [bind].
    rewrite positive_Ok by assumption. cbn [bind]. fold n. rewrite (fill_pairs_exact g h a b v w G H).
    eexists. split; [reflexivity|]. split; [reflexivity|]. cbn [as_asked well_formed ints_fit size_of]. fold n. rewrite !map_length, !seq_length.
    split; [|auto]. split; [reflexivity|].
    assert (D : (fg_nn1_generator o = 0 \/ fg_nn1_generator o = 1 \/ fg_nn1_generator o = 2 \/ fg_nn1_generator o = 3)%Z) by lia.
    destruct D as [D|[D|[D|D]]]; rewrite D in C |- *; destruct C as (-> & -> & -> & ->); (split; apply vector_is_map; intros j Hj; auto; f_equal; lia).
  - destruct AO as [A1 A2]. set (nr := Z.to_nat (fg_rows o)). set (nc := Z.to_nat (fg_columns o)).
    assert (NR : 0 < nr) by (subst nr; lia). assert (NC : 0 < nc) by (subst nc; lia).
    destruct (ising_generators_Ok o d (fg_nn2_generator o) ltac:(lia)) as (g & h & a & b & v & w & EG & G & H & C). rewrite EG. cbn [bind].
    rewrite !positive_Ok by assumption. cbn [bind]. fold nr nc. rewrite (fill_grid_exact g h a b v w nc G H).
    eexists. split; [reflexivity|]. split; [reflexivity|]. cbn [as_asked well_formed ints_fit size_of]. fold nr nc.
    set (r := map _ (seq 0 nr)). set (bl := map (fun i => map (fun j => v (0 + (i * nc + j) * (2 * a + b) + a)) (seq 0 nc)) (seq 0 nr)). set (f := map (fun i => map (fun j => w _) _) _).
    assert (R : array_is nr nc r (fun i j => v ((i * nc + j) * (2 * a + b)))) by (apply array_is_map; auto).
    assert (B : array_is nr nc bl (fun i j => v ((i * nc + j) * (2 * a + b) + a))) by (apply array_is_map; auto).
    assert (F : array_is nr nc f (fun i j => w ((i * nc + j) * (2 * a + b) + 2 * a))) by (apply array_is_map; auto).
    assert (HD : len f * len (hd [] f) = nr * nc).
    { destruct F as [[FL FR] _]. rewrite FL. destruct f as [|x f']; [cbn in FL; lia|]. apply Forall_inv in FR. cbn [hd]. now rewrite FR. }
    split; [split; [reflexivity|]|split; [exists nr, nc; split; [assumption|split; [assumption|split; [apply R|split; [apply B|apply F]]]]|split; [exact I|assumption]]].
    assert (X : forall m q q', (forall i j, i < nr -> j < nc -> q i j = q' i j) -> array_is nr nc m q -> array_is nr nc m q').
    { intros m q q' EQ [X1 X2]. split; [assumption|]. intros i j Hi Hj. rewrite X2 by assumption. now apply EQ. }
    assert (D : (fg_nn2_generator o = 0 \/ fg_nn2_generator o = 1 \/ fg_nn2_generator o = 2 \/ fg_nn2_generator o = 3)%Z) by lia.
    destruct D as [D|[D|[D|D]]]; rewrite D in C |- *; destruct C as (-> & -> & -> & ->); cbv beta zeta;
      (split; [revert R|split; [revert B|revert F]]); apply X; intros i j Hi Hj; auto; f_equal; lia.
Qed.

(** ** Errors *)

Lemma generate_refused o d : refused o -> generate_function o d = Throw RuntimeError.
Proof.
  intros H. unfold generate_function.
  assert (T : known_type o \/ ~ known_type o).
  { unfold known_type. destruct (in_dec Z.eq_dec (fg_type o) (70 :: 190 :: archive_types)%Z); auto. }
  destruct T as [T|T].
  - destruct H as [H|H]; [tauto|]. unfold known_generator in H. unfold known_type in T. cbn [archive_types In] in T.
    destruct T as [E|[E|[E|[E|[E|[E|[E|[E|[E|[E|[E|[]]]]]]]]]]]]; rewrite <- E in H |- *; try tauto.
    + assert (G : forall a b c : outcome contents, match fg_lin_generator o with 0%Z => a | 1%Z => b | 2%Z => c | _ => Throw RuntimeError end = Throw RuntimeError).
      { intros. destruct (fg_lin_generator o) as [|[p|[p|p|]|]|] eqn:X; auto; lia. }
      apply G.
    + destruct (fg_walsh2_generator o) as [|[p|p|]|] eqn:X; auto; lia.
    + destruct (fg_nn1_generator o) as [|[[p|p|]|[p|p|]|]|] eqn:X; auto; lia.
    + destruct (fg_nn2_generator o) as [|[[p|p|]|[p|p|]|]|] eqn:X; auto; lia.
  - clear H. assert (N : forall z, In z (70 :: 190 :: archive_types)%Z -> fg_type o <> z) by (intros z Hz <-; auto). clear T.
    destruct (fg_type o) as [|p|p]; auto.
    do 8 (destruct p as [p|p|]; auto; try (exfalso; eapply N; [|reflexivity]; cbn; tauto)).
Qed.

Lemma structure_too_many n k u : n <= k -> random_structure n k u (mk_nk [] []) = UB.
Proof.
  intros H. assert (E := generate_too_many n k u (fun _ _ => 0%Q) H). unfold nk_generate in E. unfold random_structure in *.
  destruct (Nat.ltb_spec 0 n); cbn [assertb bind] in *; [|reflexivity]. destruct (Nat.ltb_spec 0 k); cbn [assertb bind] in *; [|reflexivity].
  destruct (k + 1 <=? 30); cbn [assertb bind] in *; [|reflexivity].
  match goal with |- bind ?m _ = UB => destruct m as [ns|e|] end; cbn [bind] in *; try discriminate; [|reflexivity].
  cbn [nk_functions nk_neighbors] in E. destruct (tables_Ok (fun _ _ => 0%Q) (resize n (repeat 0%Q (2 ^ (k + 1))) [])) as (fs' & T & _).
  rewrite T in E. discriminate.
Qed.

Lemma generate_negative o d : negative_solution o -> generate_function o d = Throw OtherException.
Proof. intros (E & P & N). unfold generate_function. rewrite E, P. destruct (Z.ltb_spec (fg_size o) 0); [reflexivity|lia]. Qed.

Ltac refuse := match goal with |- bind (positive ?z) _ = UB =>
  let H := fresh in destruct (Z.lt_decidable 0 z) as [H|H]; [rewrite (positive_Ok z H); cbn [bind]|rewrite (positive_UB z H); reflexivity] end.

Lemma generate_violates o d : known_type o -> known_generator o -> ~ arguments_ok o -> ~ negative_solution o -> draws_fit o d ->
  generate_function o d = UB.
Proof.
  intros KT KG AO NS (DI & DN & _ & _ & _ & DS). unfold known_generator in KG. unfold arguments_ok in AO. unfold negative_solution in NS. unfold generate_function.
  unfold known_type in KT. cbn [archive_types In] in KT.
  destruct KT as [E|[E|[E|[E|[E|[E|[E|[E|[E|[E|[E|[]]]]]]]]]]]]; rewrite <- E in KG, AO, NS |- *.
  - destruct (fg_ms_planted o).
    + destruct (Z.ltb_spec (fg_size o) 0); [tauto|]. refuse. refuse. unfold maxsat_planted.
      destruct (Nat.ltb_spec 0 (Z.to_nat (fg_ms_literals o))); [|lia]. destruct (Nat.ltb_spec 0 (Z.to_nat (fg_ms_clauses o))); [|lia]. cbn [assertb bind].
      unfold bv_random. rewrite map_length, seq_length, repeat_length.
      destruct (Nat.leb_spec (Z.to_nat (fg_ms_literals o)) (Z.to_nat (fg_size o))); [lia|reflexivity].
    + refuse. refuse. refuse. unfold maxsat_random.
      destruct (Nat.ltb_spec 0 (Z.to_nat (fg_size o))); [|lia].
      destruct (Nat.ltb_spec 0 (Z.to_nat (fg_ms_literals o))); [|lia]. destruct (Nat.ltb_spec 0 (Z.to_nat (fg_ms_clauses o))); [|lia]. cbn [assertb bind].
      destruct (Nat.leb_spec (Z.to_nat (fg_ms_literals o)) (Z.to_nat (fg_size o))); [lia|reflexivity].
  - refuse. unfold sudoku_random. set (c := Z.to_nat (fg_sudoku_cells o)). assert (C : 81 < c) by (subst c; lia). clearbody c.
    destruct (Nat.ltb_spec 0 c); [|lia]. cbn [assertb bind].
    rewrite random_full_exact; [|apply Permutation_length in DS; exact DS|apply make_boards]. cbn [bind].
    unfold bv_random_weight. rewrite repeat_length. destruct (Nat.leb_spec c 81); [lia|reflexivity].
  - assert (C : (fg_lin_generator o = 0 \/ fg_lin_generator o = 1 \/ fg_lin_generator o = 2)%Z) by lia.
    destruct C as [C|[C|C]]; rewrite C; now rewrite (positive_UB _ AO).
  - refuse. refuse. set (n := Z.to_nat (fg_size o)). set (k := Z.to_nat (fg_nk_k o)).
    destruct (Nat.leb_spec n k) as [L|L].
    + now rewrite structure_too_many.
    + unfold random_structure. destruct (Nat.ltb_spec 0 n); [|lia]. destruct (Nat.ltb_spec 0 k); [|lia]. cbn [assertb bind].
      destruct (Nat.leb_spec (k + 1) 30); [subst n k; lia|reflexivity].
  - now rewrite (positive_UB _ AO).
  - refuse. unfold partition_random. destruct (Nat.ltb_spec 0 (Z.to_nat (fg_size o))); [|lia]. cbn [assertb bind].
    destruct (Z.ltb_spec 0 (fg_part_bound o)); [tauto|reflexivity].
  - refuse. refuse. tauto.
  - now rewrite (positive_UB _ AO).
  - assert (C : (fg_walsh2_generator o = 0 \/ fg_walsh2_generator o = 1)%Z) by lia. destruct C as [C|C]; rewrite C; now rewrite (positive_UB _ AO).
  - destruct (ising_generators_Ok o d (fg_nn1_generator o) ltac:(lia)) as (g & h & a & b & v & w & EG & _). rewrite EG. cbn [bind]. now rewrite (positive_UB _ AO).
  - destruct (ising_generators_Ok o d (fg_nn2_generator o) ltac:(lia)) as (g & h & a & b & v & w & EG & _). rewrite EG. cbn [bind]. refuse. refuse. tauto.
Qed.

(** * The functions *)

Lemma units_nth l j : nth j (map units l) 0%Z = at_ l j.
Proof. unfold at_. change 0%Z with (units (DFin 0)) at 1. apply map_nth. Qed.
Lemma units_nth2 m i j : nth j (nth i (map (map units) m) []) 0%Z = at2 m i j.
Proof. unfold at2. rewrite <- units_nth. f_equal. change (@nil Z) with (map units []). apply map_nth. Qed.

Lemma sum_n_ext n f g : (forall j, j < n -> f j = g j) -> sum_n n f = sum_n n g.
Proof. intros H. unfold sum_n. f_equal. apply map_ext_in. intros j Hj. apply in_seq in Hj. apply H. lia. Qed.
Lemma zsum_app a b : zsum (a ++ b) = (zsum a + zsum b)%Z.
Proof. unfold zsum. induction a as [|x a IH]; cbn [app fold_right]; [reflexivity|]. rewrite IH. lia. Qed.
Lemma sum_n_S n f : sum_n (n + 1) f = (sum_n n f + f n)%Z.
Proof. unfold sum_n. rewrite Nat.add_1_r, seq_S, map_app, zsum_app. cbn. lia. Qed.
Lemma sum_n_add n f g : sum_n n (fun j => f j + g j)%Z = (sum_n n f + sum_n n g)%Z.
Proof. unfold sum_n. induction (seq 0 n) as [|j l IH]; [reflexivity|]. cbn. unfold zsum in *. lia. Qed.

(** What is asked of the object of an instance: [I] holds of all its states. *)
Definition answers (near : Q -> dbl) (i : instance) (F : func) : Prop :=
  fp_size (f_props F) = size_of i /\
  exists I : f_state F -> Prop, I (f_init F) /\
    forall s r, I s -> proper near i r -> snd (f_obj F s r) = answer near i r /\ I (fst (f_obj F s r)).

Lemma opaque_answers near i n ev : n = size_of i -> has_incremental (type_of i) = false ->
  (forall x, len x = size_of i -> no_overflow i x -> ev x = Ok (value_of near i x)) -> answers near i (opaque_function n ev).
Proof.
  intros N H E. split; [assumption|]. exists (fun _ => True). split; [exact I|]. intros s r _ P. split; [|exact I].
  destruct r as [x|x v l|x v|x]; cbn [opaque_function f_obj plain snd answer proper] in *.
  - destruct P as [L O]. rewrite E by assumption. reflexivity.
  - now rewrite H.
  - reflexivity.
  - destruct P as [L O]. rewrite E by assumption. reflexivity.
Qed.

Lemma buffered_answers near i n ev inc g : n = size_of i -> has_incremental (type_of i) = true ->
  (forall x, value_of near i x = DFin (g x)) ->
  (forall x, len x = n -> ev x = Ok (g x)) ->
  (forall x l, len x = n -> increasing l -> Forall (fun j => j < n) l ->
     inc (repeat false n) x (g x) l = Ok (g (flipped_at x l), repeat false n)) ->
  answers near i (ising_function n ev inc).
Proof.
  intros N H V E K. split; [assumption|]. exists (fun s => s = repeat false n). split; [reflexivity|]. intros s r -> P.
  destruct r as [x|x v l|x v|x]; cbn [ising_function f_obj buffered snd fst answer proper] in *.
  - destruct P as [L _]. rewrite E by congruence. now rewrite V.
  - destruct P as (L & -> & A & B). rewrite <- N in B. rewrite V. cbn [units]. rewrite K by (auto; congruence). rewrite H. cbn [snd fst sum_from]. now rewrite V.
  - auto.
  - destruct P as [L _]. rewrite E by congruence. now rewrite V.
Qed.

Lemma flipped_length' x l : len (flipped_at x l) = len x.
Proof. unfold flipped_at. now rewrite map_length, seq_length. Qed.

Lemma plain_inc_answers near i n ev inc max g : n = size_of i -> has_incremental (type_of i) = true ->
  (forall x, value_of near i x = DFin (g x)) ->
  (forall x, len x = n -> ev x = Ok (DFin (g x))) ->
  (forall x l, len x = n -> increasing l -> Forall (fun j => j < n) l -> inc x (DFin (g x)) l = Ok (DFin (g (flipped_at x l)))) ->
  answers near i (mk_func unit (plain_inc ev inc) tt (mk_fprops n (Ok true) max true)).
Proof.
  intros N H V E K. split; [assumption|]. exists (fun _ => True). split; [exact I|]. intros s r _ P. split; [|exact I].
  destruct r as [x|x v l|x v|x]; cbn [f_obj plain_inc snd fst answer proper] in *.
  - destruct P as [L _]. rewrite E by congruence. now rewrite V.
  - destruct P as (L & -> & A & B). rewrite <- N in B. rewrite V. rewrite K by (auto; congruence). rewrite H. cbn [bind]. now rewrite V.
  - auto.
  - destruct P as [L _]. rewrite E by congruence. now rewrite V.
Qed.

Lemma inc_positions n l : increasing l -> Forall (fun j => j < n) l -> positions n l.
Proof. intros A B. split; [now apply increasing_NoDup|assumption]. Qed.


Lemma map_to_nat_of_nat (m : list (list nat)) : map (map Z.to_nat) (map (map Z.of_nat) m) = m.
Proof. rewrite map_map. rewrite <- (map_id m) at 2. apply map_ext. intros l. rewrite map_map. rewrite <- (map_id l) at 2. apply map_ext. apply Nat2Z.id. Qed.

Lemma array_grid nr nc (m : list (list dbl)) : array nr nc m -> grid nr nc (map (map units) m).
Proof.
  intros [L W]. split; [now rewrite map_length|]. rewrite Forall_map. revert W. apply Forall_impl. intros row H. now rewrite map_length.
Qed.

(** The value of the second Ising model *)
Lemma ising2_value_of near r b f p nr nc x : 0 < nr -> 0 < nc -> array nr nc r -> array nr nc b -> array nr nc f -> len x = nr * nc ->
  exists v, ising2_evaluate (map (map units) r) (map (map units) b) (map (map units) f) p x = Ok v /\ value_of near (IIsing2 r b f p) x = DFin v.
Proof.
  intros NR NC R B F L. rewrite (ising2_value nr nc _ _ _ p NR NC (array_grid _ _ _ R) (array_grid _ _ _ B) (array_grid _ _ _ F) x L).
  eexists. split; [reflexivity|]. cbn [value_of]. destruct F as [FL FW]. rewrite FL.
  assert (HD : len (hd [] f) = nc) by (destruct f; [cbn in FL; lia|]; now apply Forall_inv in FW). rewrite HD. f_equal.
  assert (S1 : forall i j, i < nr -> j < nc -> spin_at x ((if i =? nr then 0 else i) * nc + (if j =? nc then 0 else j)) = spin (nth (i * nc + j) x false)).
  { intros i j Hi Hj. destruct (Nat.eqb_spec i nr); [lia|]. destruct (Nat.eqb_spec j nc); [lia|]. reflexivity. }
  f_equal; [|apply sum_n_ext; intros i Hi; apply sum_n_ext; intros j Hj; rewrite S1 by assumption; unfold entry; now rewrite units_nth2].
  destruct p.
  - assert (X : sum_n nr (fun i => sum_n nc (fun j => at2 r i j * spin_at x ((if (i =? nr)%nat then 0 else i) * nc + (if (j =? nc)%nat then 0 else j)) *
        spin_at x ((if (i =? nr)%nat then 0 else i) * nc + (if (j + 1 =? nc)%nat then 0 else j + 1)))%Z) =
      (sum_n nr (fun i => sum_n (nc - 1) (fun j => entry (map (map units) r) i j * spin (nth (i * nc + j) x false) * spin (nth (i * nc + (j + 1)) x false))) +
       sum_n nr (fun i => entry (map (map units) r) i (nc - 1) * spin (nth (i * nc + (nc - 1)) x false) * spin (nth (i * nc + 0) x false)))%Z).
    { rewrite <- sum_n_add. apply sum_n_ext. intros i Hi. replace nc with ((nc - 1) + 1) at 1 by lia. rewrite sum_n_S. f_equal.
      - apply sum_n_ext. intros j Hj. rewrite S1 by lia. destruct (Nat.eqb_spec i nr); [lia|]. destruct (Nat.eqb_spec (j + 1) nc); [lia|].
        unfold entry. now rewrite units_nth2.
      - rewrite S1 by lia. replace (nc - 1 + 1) with nc by lia. rewrite Nat.eqb_refl. destruct (Nat.eqb_spec i nr); [lia|]. unfold entry. now rewrite units_nth2. }
    assert (Y : sum_n nr (fun i => sum_n nc (fun j => at2 b i j * spin_at x ((if (i =? nr)%nat then 0 else i) * nc + (if (j =? nc)%nat then 0 else j)) *
        spin_at x ((if (i + 1 =? nr)%nat then 0 else i + 1) * nc + (if (j =? nc)%nat then 0 else j)))%Z) =
      (sum_n (nr - 1) (fun i => sum_n nc (fun j => entry (map (map units) b) i j * spin (nth (i * nc + j) x false) * spin (nth ((i + 1) * nc + j) x false))) +
       sum_n nc (fun j => entry (map (map units) b) (nr - 1) j * spin (nth ((nr - 1) * nc + j) x false) * spin (nth (0 * nc + j) x false)))%Z).
    { replace nr with ((nr - 1) + 1) at 1 by lia. rewrite sum_n_S. f_equal.
      - apply sum_n_ext. intros i Hi. apply sum_n_ext. intros j Hj. rewrite S1 by lia. destruct (Nat.eqb_spec j nc); [lia|]. destruct (Nat.eqb_spec (i + 1) nr); [lia|].
        unfold entry. now rewrite units_nth2.
      - apply sum_n_ext. intros j Hj. rewrite S1 by lia. replace (nr - 1 + 1) with nr by lia. rewrite Nat.eqb_refl. destruct (Nat.eqb_spec j nc); [lia|].
        unfold entry. now rewrite units_nth2. }
    rewrite X, Y. lia.
  - rewrite Z.add_0_r. f_equal.
    + apply sum_n_ext. intros i Hi. apply sum_n_ext. intros j Hj. rewrite S1 by lia. destruct (Nat.eqb_spec i nr); [lia|]. destruct (Nat.eqb_spec (j + 1) nc); [lia|].
      unfold entry. now rewrite units_nth2.
    + apply sum_n_ext. intros i Hi. apply sum_n_ext. intros j Hj. rewrite S1 by lia. destruct (Nat.eqb_spec j nc); [lia|]. destruct (Nat.eqb_spec (i + 1) nr); [lia|].
      unfold entry. now rewrite units_nth2.
Qed.

Lemma ising1_value_of near c f p x : 0 < len c -> len f = len c -> len x = len c ->
  exists v, ising1_evaluate (map units c) (map units f) p x = Ok v /\ value_of near (IIsing1 c f p) x = DFin v.
Proof.
  intros N LF L. rewrite (ising1_value (map units c) (map units f) p x) by (rewrite ?map_length; congruence).
  rewrite map_length. eexists. split; [reflexivity|]. cbn [value_of]. f_equal.
  f_equal; [|apply sum_n_ext; intros j Hj; now rewrite units_nth].
  assert (S1 : forall j, j < len c - 1 ->
    (at_ c j * spin_at x j * spin_at x (if (j =? len c - 1)%nat then 0 else j + 1) = nth j (map units c) 0 * spin (nth j x false) * spin (nth (j + 1) x false))%Z).
  { intros j Hj. destruct (Nat.eqb_spec j (len c - 1)); [lia|]. now rewrite units_nth. }
  destruct p.
  - replace (len c) with ((len c - 1) + 1) at 1 by lia. rewrite sum_n_S. rewrite Nat.eqb_refl. rewrite units_nth. f_equal. now apply sum_n_ext.
  - rewrite Z.add_0_r. now apply sum_n_ext.
Qed.

Lemma qsum_map_ext (f g : nat -> Q) l : (forall j, f j = g j) -> qsum (map f l) = qsum (map g l).
Proof. intros H. f_equal. now apply map_ext. Qed.

(** The evaluation of exact sums is a function of the vector. *)
Definition exactly (near : Q -> dbl) (i : instance) (x : bv) : Z := units (value_of near i x).

Lemma instance_answers pf i : respects (pf_near pf) -> well_formed i ->
  exists F, instance_function pf i = Ok F /\ answers (pf_near pf) i F.
Proof.
  intros RN W. destruct i as [w|ns fs|l|l|t|l|l q|c f p|r b f p]; cbn [instance_function].
  - eexists. split; [reflexivity|]. unfold linear_function.
    assert (V : forall x, len x = len (map units w) -> linear_evaluate (map units w) x = Ok (exactly (pf_near pf) (ILinear w) x)).
    { intros x L. rewrite linear_evaluate_Ok, linear_value_sum by assumption. unfold exactly. cbn [value_of units]. rewrite map_length. f_equal.
      apply sum_n_ext. intros j _. now rewrite units_nth. }
    apply (plain_inc_answers _ _ _ _ _ _ (exactly (pf_near pf) (ILinear w))); [apply map_length|reflexivity|reflexivity| |].
    + intros x L. now rewrite V.
    + intros x l L A B. destruct (linear_incremental_right (map units w) x l L (inc_positions _ _ A B)) as (v & v' & E1 & E2 & E3).
      rewrite V in E1 by assumption. rewrite V in E3 by now rewrite flipped_length'. apply Ok_inj in E1. apply Ok_inj in E3. subst v v'.
      rewrite (FunctionFactory_Proofs.linear_shift _ _ _ _ 0%Z _ E2). cbn [bind]. unfold dplus. repeat f_equal. lia.
  - destruct W as (k & nb & N & -> & S & T). eexists. split; [reflexivity|]. apply opaque_answers; [reflexivity|reflexivity|].
    intros x L _. cbn [size_of] in L. assert (A : forallb (forallb (Z.leb 0)) (map (map Z.of_nat) nb) = true).
    { rewrite forallb_forall. intros row Hr. apply in_map_iff in Hr as (r & <- & _). rewrite forallb_forall. intros z Hz.
      apply in_map_iff in Hz as (j & <- & _). apply Z.leb_le. lia. }
    rewrite A. cbn [assertb bind]. rewrite map_to_nat_of_nat.
    destruct (nk_evaluate_Ok (len fs) k (mk_nk nb (map (map rational) fs)) x N) as (v & -> & V); [exact S| |exact L|].
    { destruct T as [T1 T2]. split; [cbn [nk_functions]; now rewrite map_length|]. cbn [nk_functions]. rewrite Forall_map. revert T2. apply Forall_impl.
      intros a Ha. now rewrite map_length. }
    cbn [bind]. cbn [nk_neighbors nk_functions] in V. cbn [value_of]. rewrite map_to_nat_of_nat. f_equal. now apply RN.
  - eexists. split; [reflexivity|]. apply opaque_answers; [reflexivity|reflexivity|]. intros x L _. cbn [size_of] in L.
    destruct (equal_products_value (map rational l) x) as (v & -> & V); [rewrite map_length; lia|]. cbn [bind value_of]. f_equal. now apply RN.
  - eexists. split; [reflexivity|]. apply opaque_answers; [reflexivity|reflexivity|]. intros x L O. cbn [size_of no_overflow] in *.
    rewrite (partition_value l x W L (O false) (O true)). reflexivity.
  - destruct W as (n & NE & TL). destruct t as [|t0 t]; [congruence|]. cbn [vget nth_error bind]. eexists. split; [reflexivity|].
    assert (L0 : len (fst t0) = n) by now apply Forall_inv in TL.
    apply opaque_answers; [reflexivity|reflexivity|]. intros x L _. cbn [size_of hd] in L. rewrite Transform_Proofs.walsh_value.
    + cbn [bind value_of]. repeat f_equal. rewrite map_map. reflexivity.
    + intros t' Ht. apply in_map_iff in Ht as (t1 & <- & Ht). cbn [fst]. rewrite Forall_forall in TL. rewrite (TL t1 Ht). congruence.
  - eexists. split; [reflexivity|].
    assert (V : forall x, len x = len (map units l) -> walsh1_evaluate (map units l) x = Ok (exactly (pf_near pf) (IWalsh1 l) x)).
    { intros x L. rewrite walsh1_value by assumption. unfold exactly. cbn [value_of units]. rewrite map_length. f_equal.
      apply sum_n_ext. intros j _. now rewrite units_nth. }
    apply (plain_inc_answers _ _ _ _ _ _ (exactly (pf_near pf) (IWalsh1 l))); [reflexivity|reflexivity|reflexivity| |].
    + intros x L. now rewrite V by now rewrite map_length.
    + intros x l' L A B. rewrite <- (map_length units l) in L, B. destruct (walsh1_incremental_right (map units l) x l' L (inc_positions _ _ A B)) as (v & v' & E1 & E2 & E3).
      rewrite V in E1 by assumption. rewrite V in E3 by now rewrite flipped_length'. apply Ok_inj in E1. apply Ok_inj in E3. subst v v'.
      cbn [units]. rewrite E2. reflexivity.
  - destruct W as [WL WQ]. eexists. split; [reflexivity|]. apply opaque_answers; [reflexivity|reflexivity|]. intros x L _. cbn [size_of] in L.
    rewrite walsh2_value; rewrite ?map_length; try congruence.
    + cbn [bind value_of]. f_equal. f_equal. rewrite WL, L. f_equal; apply sum_n_ext; intros i Hi; [now rewrite units_nth|]. apply sum_n_ext. intros j Hj. now rewrite units_nth2.
    + intros i Hi. change (@nil Z) with (map units []). rewrite map_nth, map_length. now apply WQ.
  - destruct W as [N LF]. eexists. split; [reflexivity|].
    apply (buffered_answers _ _ _ _ _ (exactly (pf_near pf) (IIsing1 c f p))); [apply map_length|reflexivity|reflexivity| |].
    + intros x L. rewrite map_length in L. destruct (ising1_value_of (pf_near pf) c f p x N LF L) as (v & E & V). rewrite E. unfold exactly. now rewrite V.
    + intros x l L A B. rewrite map_length in L, B |- *.
      destruct (ising1_incremental_right (map units c) (map units f) p x l) as (v & w & E1 & E2 & E3); rewrite ?map_length; auto.
      rewrite map_length in E3. destruct (ising1_value_of (pf_near pf) c f p x N LF L) as (v1 & E & V). unfold exactly. rewrite V. cbn [units].
      rewrite E in E1. apply Ok_inj in E1. subst v1. rewrite E3.
      destruct (ising1_value_of (pf_near pf) c f p (flipped_at x l) N LF) as (w1 & E' & V'); [now rewrite flipped_length'|].
      rewrite E' in E2. apply Ok_inj in E2. subst w1. now rewrite V'.
  - destruct W as (nr & nc & NR & NC & R & B & F).
    assert (HD : vget (map (map units) f) 0 = Ok (map units (hd [] f))) by (destruct F as [FL FW]; destruct f; [cbn in FL; lia|reflexivity]).
    assert (HL : len (hd [] f) = nc) by (destruct F as [FL FW]; destruct f; [cbn in FL; lia|]; now apply Forall_inv in FW).
    assert (LN : len (map (map units) f) * len (map units (hd [] f)) = nr * nc) by (rewrite !map_length, HL; f_equal; apply F).
    rewrite HD. cbn [bind]. rewrite LN. eexists. split; [reflexivity|].
    apply (buffered_answers _ _ _ _ _ (exactly (pf_near pf) (IIsing2 r b f p))); [now rewrite !map_length in LN|reflexivity|reflexivity| |].
    + intros x L. destruct (ising2_value_of (pf_near pf) r b f p nr nc x NR NC R B F L) as (v & E & V). rewrite E. unfold exactly. now rewrite V.
    + intros x l L A Bd.
      destruct (ising2_incremental_right nr nc _ _ _ p NR NC (array_grid _ _ _ R) (array_grid _ _ _ B) (array_grid _ _ _ F) x l L A Bd) as (v & w & E1 & E2 & E3).
      destruct (ising2_value_of (pf_near pf) r b f p nr nc x NR NC R B F L) as (v1 & E & V). unfold exactly. rewrite V. cbn [units].
      rewrite E in E1. apply Ok_inj in E1. subst v1. rewrite E3.
      destruct (ising2_value_of (pf_near pf) r b f p nr nc (flipped_at x l) NR NC R B F) as (w1 & E' & V'); [now rewrite flipped_length'|].
      rewrite E' in E2. apply Ok_inj in E2. subst w1. now rewrite V'.
Qed.

Lemma answers_history near i F rs : answers near i F -> Forall (proper near i) rs -> map res (calls (f_obj F) (f_init F) rs) = map (answer near i) rs.
Proof.
  intros (_ & I & I0 & H). generalize (f_init F) I0. clear I0. induction rs as [|r rs IH]; intros s Is P; [reflexivity|].
  cbn [calls]. destruct (H s r Is (Forall_inv P)) as [E Is']. destruct (f_obj F s r) as [s' a]. cbn [fst snd] in *. cbn [map res]. rewrite E. f_equal.
  apply IH; [assumption|now apply Forall_inv_tail in P].
Qed.

Lemma instance_known pf i F : well_formed i -> instance_function pf i = Ok F ->
  fp_inc (f_props F) = has_incremental (type_of i) /\ fp_known (f_props F) = Ok (maximum_known (type_of i)) /\
  if maximum_known (type_of i) then exists m, fp_max (f_props F) = Ok m /\ greatest_value (pf_near pf) i m else fp_max (f_props F) = Throw RuntimeError.
Proof.
  intros W. destruct i as [w|ns fs|l|l|t|l|l q|c f p|r b f p]; cbn [instance_function]; intros E.
  1, 2, 3, 4, 6, 7, 8: apply Ok_inj in E; subst F; split; [reflexivity|]; split; [reflexivity|]; try reflexivity.
  - cbn. eexists. split; [reflexivity|]. destruct (linear_max (map units w)) as [A (x & L & E)]. rewrite map_length in L.
    assert (V : forall x, len x = len w -> linear_evaluate (map units w) x = Ok (sum_n (len w) (fun j => if nth j x false then at_ w j else 0%Z))).
    { intros y Ly. rewrite linear_evaluate_Ok, linear_value_sum by now rewrite map_length. rewrite map_length. f_equal.
      apply sum_n_ext. intros j _. now rewrite units_nth. }
    split.
    + intros y Ly. cbn [size_of] in Ly. destruct (A y) as (v & Ev & Lv); [now rewrite map_length|]. rewrite V in Ev by assumption. apply Ok_inj in Ev.
      cbn [value_of]. rewrite Ev. cbn [dle]. now apply Z.leb_le.
    + exists x. split; [assumption|]. rewrite V in E by assumption. apply Ok_inj in E. cbn [value_of]. now rewrite E.
  - cbn. eexists. split; [reflexivity|]. destruct (walsh1_max (map units l)) as [A (x & L & E)]. rewrite map_length in L.
    assert (V : forall x, len x = len l -> walsh1_evaluate (map units l) x = Ok (sum_n (len l) (fun j => at_ l j * spin_at x j)%Z)).
    { intros y Ly. rewrite walsh1_value by now rewrite map_length. rewrite map_length. f_equal.
      apply sum_n_ext. intros j _. now rewrite units_nth. }
    split.
    + intros y Ly. cbn [size_of] in Ly. destruct (A y) as (v & Ev & Lv); [now rewrite map_length|]. rewrite V in Ev by assumption. apply Ok_inj in Ev.
      cbn [value_of]. rewrite Ev. cbn [dle]. now apply Z.leb_le.
    + exists x. split; [assumption|]. rewrite V in E by assumption. apply Ok_inj in E. cbn [value_of]. now rewrite E.
  - apply bind_Ok in E as (t0 & _ & E). apply Ok_inj in E. subst F. repeat split.
  - apply bind_Ok in E as (t0 & _ & E). apply Ok_inj in E. subst F. repeat split.
Qed.

(** * Texts *)

Lemma signs_distinct n k e : Forall (clause_of n k) e -> expression_of n e.
Proof. apply Forall_impl. now intros c (_ & H & _). Qed.

Lemma generate_maxsat o d : accepted o -> options_fit o -> draws_fit o d -> fg_type o = 70%Z ->
  let n := Z.to_nat (fg_size o) in
  exists e, generate_function o d = Ok (Text (maxsat_save n e)) /\ maxsat_load (maxsat_save n e) = Ok (n, e) /\
    len e = Z.to_nat (fg_ms_clauses o) /\ Forall (clause_of n (Z.to_nat (fg_ms_literals o))) e /\
    (fg_ms_planted o = true -> Forall (clause_holds (map (fd_solution d) (seq 0 n))) e) /\
    (fg_ms_planted o = false -> forall i c, nth_error e i = Some c -> signs_drawn (fd_sign d i) c).
Proof.
  intros (_ & _ & AO) (FS & _ & FC) (_ & _ & DV & _ & DX & _) E n. unfold arguments_ok in AO. rewrite E in AO. destruct AO as [AL AC].
  set (k := Z.to_nat (fg_ms_literals o)). set (c := Z.to_nat (fg_ms_clauses o)).
  assert (K : 0 < k) by (subst k; lia). assert (N : k <= n) by (subst k n; lia). assert (C : 0 < c) by (subst c; lia).
  unfold generate_function. rewrite E. destruct (fg_ms_planted o) eqn:P.
  - destruct (Z.ltb_spec (fg_size o) 0); [lia|]. rewrite !positive_Ok by lia. cbn [bind]. fold n k c.
    set (sol := bv_random (repeat false n) (fd_solution d)).
    assert (L : len sol = n) by (unfold sol, bv_random; now rewrite map_length, seq_length, repeat_length).
    destruct (maxsat_planted_exact sol k c (fd_variables d) (fd_sign d) (fd_index d) K ltac:(now rewrite L) C DV DX) as (e & -> & LE & F & HS & _).
    cbn [bind]. rewrite L in *. exists e. split; [reflexivity|]. split; [|split; [assumption|split; [assumption|split; [|discriminate]]]].
    + apply maxsat_save_load; [subst n; unfold int_max; lia|rewrite LE; subst c; unfold int_max; lia|now apply signs_distinct in F].
    + intros _. unfold sol, bv_random in HS. now rewrite repeat_length in HS.
  - rewrite !positive_Ok by lia. cbn [bind]. fold n k c.
    destruct (maxsat_random_exact n k c (fd_variables d) (fd_sign d) K N C DV) as (e & -> & LE & F).
    assert (FF : Forall (clause_of n k) e).
    { apply Forall_forall. intros cl Hc. apply In_nth_error in Hc as (i & Hi). now apply (F i). }
    cbn [bind]. exists e. split; [reflexivity|]. split; [|split; [assumption|split; [assumption|split; [discriminate|]]]].
    + apply maxsat_save_load; [subst n; unfold int_max; lia|rewrite LE; subst c; unfold int_max; lia|now apply signs_distinct in FF].
    + intros _ i cl Hi. now apply (F i).
Qed.

Lemma generate_sudoku o d : accepted o -> draws_fit o d -> fg_type o = 190%Z -> forall s0, boards s0 ->
  exists text s x s', generate_function o d = Ok (Text text) /\ sudoku_load s0 text = Ok s /\ s_num s = Some (Z.to_nat (fg_sudoku_cells o)) /\
    len x = Z.to_nat (fg_sudoku_cells o) /\ Forall (fun v => v < 9) x /\ sudoku_evaluate s x = Ok (0%Z, s').
Proof.
  intros (_ & _ & AO) (_ & _ & _ & DE & _ & DS) E s0 B. unfold arguments_ok in AO. rewrite E in AO.
  unfold generate_function. rewrite E. rewrite positive_Ok by lia. cbn [bind].
  destruct (sudoku_random_solvable (fd_shuffle d) (Z.to_nat (fg_sudoku_cells o)) (fd_erased d) sudoku_make s0 DS ltac:(lia) ltac:(lia) DE make_boards B)
    as (s1 & text & s2 & x & s3 & -> & E2 & E3 & A1 & A2 & A3 & A4). cbn [bind]. rewrite E2. cbn [bind]. exists text, s2, x, s3. auto 8.
Qed.

(** * Arithmetic *)

Section Arithmetic.
Local Open Scope Z_scope.

Lemma nearest_scale z e k : 0 <= k -> 0 <= e -> nearest_multiple (z * 2 ^ k) (k + e) = nearest_multiple z e.
Proof.
  intros K E. unfold nearest_multiple. rewrite Z.pow_add_r by assumption. rewrite (Z.mul_comm (2 ^ k)).
  assert (P : 0 < 2 ^ k) by now apply Z.pow_pos_nonneg. assert (D : 0 < 2 ^ e) by now apply Z.pow_pos_nonneg.
  rewrite Z.div_mul_cancel_r by lia. rewrite Z.mul_mod_distr_r by lia.
  set (r := z mod 2 ^ e). set (d := 2 ^ e) in *. set (c := 2 ^ k) in *.
  assert (X : (2 * (r * c) <? d * c) = (2 * r <? d)).
  { destruct (Z.ltb_spec (2 * r) d); [apply Z.ltb_lt|apply Z.ltb_ge]; rewrite Z.mul_assoc; [now apply Z.mul_lt_mono_pos_r|now apply Z.mul_le_mono_pos_r]. }
  assert (Y : (d * c <? 2 * (r * c)) = (d <? 2 * r)).
  { destruct (Z.ltb_spec d (2 * r)); [apply Z.ltb_lt|apply Z.ltb_ge]; rewrite Z.mul_assoc; [now apply Z.mul_lt_mono_pos_r|now apply Z.mul_le_mono_pos_r]. }
  now rewrite X, Y.
Qed.

Lemma rounded_product_scale z : rounded_product (z * 2 ^ 1074) = rounded z.
Proof.
  assert (E : product_exponent (z * 2 ^ 1074) = 1074 + exponent z).
  { unfold product_exponent, exponent. destruct (Z.eq_dec z 0) as [->|NZ]; [reflexivity|].
    rewrite Z.abs_mul, (Z.abs_eq (2 ^ 1074)) by (apply Z.pow_nonneg; lia). rewrite Z.log2_mul_pow2 by lia. lia. }
  unfold rounded_product, rounded, round53. rewrite E. rewrite nearest_scale by (try (unfold exponent); lia).
  replace (1074 + exponent z - 1074) with (exponent z) by lia. reflexivity.
Qed.

Lemma fmul_integers a b : Z.abs (a * b) <= 2 ^ 53 -> fmul (dint a) (dint b) = dint (a * b).
Proof.
  intros H. unfold dint. cbn [fmul]. replace (a * 2 ^ 1074 * (b * 2 ^ 1074)) with (a * b * 2 ^ 1074 * 2 ^ 1074) by ring.
  rewrite rounded_product_scale. apply Rounding_Proofs.rounded_format; [now apply Rounding_Proofs.format_53|].
  rewrite Z.abs_mul, (Z.abs_eq (2 ^ 1074)) by (apply Z.pow_nonneg; lia).
  apply Z.le_lt_trans with (2 ^ 53 * 2 ^ 1074); [apply Z.mul_le_mono_nonneg_r; [apply Z.pow_nonneg; lia|assumption]|].
  rewrite <- Z.pow_add_r by lia. unfold Rounding_Proofs.huge. apply Z.pow_lt_mono_r; lia.
Qed.
Lemma fadd_integers a b : Z.abs (a + b) <= 2 ^ 53 -> fadd (dint a) (dint b) = dint (a + b).
Proof.
  intros H. unfold dint. cbn [fadd]. replace (a * 2 ^ 1074 + b * 2 ^ 1074) with ((a + b) * 2 ^ 1074) by ring.
  apply Rounding_Proofs.rounded_format; [now apply Rounding_Proofs.format_53|].
  rewrite Z.abs_mul, (Z.abs_eq (2 ^ 1074)) by (apply Z.pow_nonneg; lia).
  apply Z.le_lt_trans with (2 ^ 53 * 2 ^ 1074); [apply Z.mul_le_mono_nonneg_r; [apply Z.pow_nonneg; lia|assumption]|].
  rewrite <- Z.pow_add_r by lia. unfold Rounding_Proofs.huge. apply Z.pow_lt_mono_r; lia.
Qed.

Lemma fmul_double k : 0 <= k -> fmul (DFin (2 ^ k)) (dint 2) = if k + 1 <? 2098 then DFin (2 ^ (k + 1)) else DPosInf.
Proof.
  intros K. unfold dint. cbn [fmul]. replace (2 ^ k * (2 * 2 ^ 1074)) with (2 ^ (k + 1) * 2 ^ 1074) by (rewrite Z.pow_add_r by lia; ring).
  rewrite rounded_product_scale. rewrite Rounding_Proofs.rounded_eq.
  assert (F : round53 (2 ^ (k + 1)) = 2 ^ (k + 1)).
  { apply Rounding_Proofs.round53_format. exists 1, (k + 1). split; [lia|]. split; [reflexivity|]. ring. }
  rewrite F. unfold Rounding_Proofs.huge. assert (P : 0 < 2 ^ (k + 1)) by (apply Z.pow_pos_nonneg; lia). assert (P' : 0 < 2 ^ 2098) by (apply Z.pow_pos_nonneg; lia).
  destruct (Z.ltb_spec (k + 1) 2098) as [L|L].
  - destruct (Z.ltb_spec (2 ^ (k + 1)) (2 ^ 2098)) as [_|M]; [|apply Z.pow_le_mono_r_iff in M; lia].
    destruct (Z.ltb_spec (- 2 ^ 2098) (2 ^ (k + 1))); [reflexivity|]. generalize dependent (2 ^ 2098). intros. lia.
  - destruct (Z.ltb_spec (2 ^ (k + 1)) (2 ^ 2098)) as [M|_]; [|reflexivity]. apply Z.pow_lt_mono_r_iff in M; lia.
Qed.

End Arithmetic.

Lemma powers_of_two n w : 0 < n -> nth 0 w (DFin 0) = dint 1 -> (forall j, j + 1 < n -> nth (j + 1) w (DFin 0) = fmul (nth j w (DFin 0)) (dint 2)) ->
  forall j, j < n -> nth j w (DFin 0) = if j <=? 1023 then DFin (2 ^ (1074 + Z.of_nat j)) else DPosInf.
Proof.
  intros N Z0 S j. induction j as [|j IH]; intros H.
  - rewrite Z0. unfold dint. cbn [Nat.leb]. rewrite Z.mul_1_l, Z.add_0_r. reflexivity.
  - specialize (IH ltac:(lia)). rewrite <- Nat.add_1_r. rewrite S by lia. rewrite IH.
    destruct (Nat.leb_spec j 1023) as [L|L].
    + rewrite fmul_double by lia. replace (1074 + Z.of_nat (j + 1))%Z with (1074 + Z.of_nat j + 1)%Z by lia.
      destruct (Z.ltb_spec (1074 + Z.of_nat j + 1) 2098), (Nat.leb_spec (j + 1) 1023); try lia; reflexivity.
    + destruct (Nat.leb_spec (j + 1) 1023); [lia|]. reflexivity.
Qed.

(** * The application *)

Lemma classical_generator o : known_generator o \/ ~ known_generator o.
Proof.
  unfold known_generator. assert (D : forall a b c, (a <= b <= c \/ ~ a <= b <= c)%Z) by (intros; lia).
  destruct (fg_type o) as [|p|p]; auto. do 8 (destruct p as [p|p|]; auto).
Qed.

Lemma load_type k file i : In k archive_types -> load_instance k file = Ok i -> k = type_of i.
Proof.
  intros T L. unfold load_instance in L. destruct file as [[a|t]|]; try discriminate.
  destruct (get_instance k a) as [[j r]|e|] eqn:E; [|destruct e; discriminate|discriminate]. apply Ok_inj in L. subst j.
  cbn [archive_types In] in T. destruct T as [<-|[<-|[<-|[<-|[<-|[<-|[<-|[<-|[<-|[]]]]]]]]]]; cbn [get_instance] in E;
    repeat match type of E with bind ?m _ = _ => let v := fresh "v" in let a := fresh "a" in destruct m as [[v a]|e|]; [|discriminate|discriminate]; cbn [bind] in E end;
    try match type of E with bind ?m _ = _ => destruct m; [|discriminate|discriminate]; cbn [bind] in E end;
    apply Ok_inj in E; injection E as <- <-; reflexivity.
Qed.

Lemma make_loaded pf file o i F : In (fn_type o) archive_types -> (0 < fn_bv_size o)%Z -> load_instance (fn_type o) file = Ok i -> instance_function pf i = Ok F ->
  make_function (with_file pf file o) = Ok F.
Proof.
  intros T N L E. assert (TY := load_type _ _ _ T L). unfold make_function. cbn [with_file fn_bv_size fn_type fn_weights fn_other]. destruct (Z.leb_spec (fn_bv_size o) 0); [lia|].
  cbn [archive_types In] in T. destruct T as [K|[K|[K|[K|[K|[K|[K|[K|[K|[]]]]]]]]]]; rewrite <- K in L, TY |- *; cbn [file_function]; rewrite L; cbn [bind]; try exact E.
  destruct i; try discriminate. exact E.
Qed.

Lemma successive_map n next (f : nat -> dbl) : (forall j, S j < n -> next (f j) = f (S j)) -> successive n next (f 0) = map f (seq 0 n).
Proof.
  revert f. induction n as [|n IH]; intros f H; [reflexivity|]. rewrite map_seq_S. cbn [successive]. f_equal. destruct n as [|n]; [reflexivity|].
  rewrite H by lia. apply (IH (fun j => f (S j))). intros j Hj. apply H. lia.
Qed.
