(** Model of MIMIC: lib/hnco/algorithms/mimic.hh and mimic.cc. Probabilities and
    entropies are exact rational numbers; [lg] is std::log. *)

From Coq Require Import QArith.
From Verif Require Import Base BitVector_Model Map_Model Neighborhood_Model Algorithm_Model Population_Model PopAlgorithm_Model
  ProbabilityVector_Model.
Local Open Scope nat_scope.

(** Members: mimic.hh:59-90. _parameters is a pair of vectors, [mi_p0] and [mi_p1].
    _mean, _entropies and _table are written before they are read in every update
    and are not kept. *)
Record mimic := mk_mimic { mi_pop : population; mi_perm : list nat; mi_p0 : list Q; mi_p1 : list Q }.
Definition mi_put (p : population) (m : mimic) : mimic := mk_mimic p (mi_perm m) (mi_p0 m) (mi_p1 m).

(** Constructor: mimic.hh:116-131; without the base class, see [alg_make]. *)
Definition mimic_make (size n : nat) : outcome mimic :=
  p <- pop_make size n ;;
  _ <- ensureb (1 <? size) ;;
  Ok (mk_mimic p (repeat 0 n) (repeat 0%Q n) (repeat 0%Q n)).

(** _selection_size after construction: mimic.hh:124. *)
Definition default_selection (size : nat) : nat := size / 2.

(** Mimic::sample: mimic.cc:50-64. [u i] is the uniform number drawn for the
    component of rank [i]; bit_random: bit-vector.hh:75. *)
Definition mimic_sample (m : mimic) (x : bv) (u : nat -> Q) : outcome bv :=
  _ <- assertb (length x =? length (mi_perm m)) ;;
  _ <- assertb (length x =? length (mi_p0 m)) ;;
  _ <- assertb (length x =? length (mi_p1 m)) ;;
  v <- perm_is_valid (mi_perm m) ;;
  _ <- assertb v ;;
  p <- vget (mi_p1 m) 0 ;;
  k <- vget (mi_perm m) 0 ;;
  x <- vset x k (qltb (u 0) p) ;;
  foldM (fun x i =>
    j <- vget (mi_perm m) (i - 1) ;;
    b <- vget x j ;;
    p <- vget (if b : bool then mi_p1 m else mi_p0 m) i ;;
    k <- vget (mi_perm m) i ;;
    vset x k (qltb (u i) p)) (seq 1 (length x - 1)) x.

(** _table: mimic.hh:87. *)
Record table := mk_table { c00 : nat; c01 : nat; c10 : nat; c11 : nat }.
(** _table[a][b]++ *)
Definition table_incr (t : table) (a b : bool) : table :=
  match a, b with
  | false, false => mk_table (S (c00 t)) (c01 t) (c10 t) (c11 t)
  | false, true => mk_table (c00 t) (S (c01 t)) (c10 t) (c11 t)
  | true, false => mk_table (c00 t) (c01 t) (S (c10 t)) (c11 t)
  | true, true => mk_table (c00 t) (c01 t) (c10 t) (S (c11 t))
  end.

Definition nat_q (k : nat) : Q := inject_Z (Z.of_nat k).

(** std::min_element: index of the first smallest element. *)
Fixpoint min_from (best : Q) (at_ i : nat) (l : list Q) : nat :=
  match l with
  | [] => at_
  | x :: l' => if qltb x best then min_from x i (S i) l' else min_from best at_ (S i) l'
  end.
Definition min_element (l : list Q) : nat :=
  match l with [] => 0 | x :: l' => min_from x 0 1 l' end.

Section Mimic.
  Variable lg : Q -> Q.

  (** The entropy added by one line of the table: mimic.cc:76-82. *)
  Definition add_row (entropy : Q) (t0 t1 : nat) : Q :=
    let count := t0 + t1 in
    if 0 <? count then
      let entropy := if 0 <? t0 then (entropy + nat_q t0 * lg (nat_q count / nat_q t0))%Q else entropy in
      if 0 <? t1 then (entropy + nat_q t1 * lg (nat_q count / nat_q t1))%Q else entropy
    else entropy.
  (** The parameter of one line of the table: mimic.cc:83. *)
  Definition row_parameter (t0 t1 : nat) : Q :=
    let count := t0 + t1 in if 0 <? count then (nat_q t1 / nat_q count)%Q else (1 # 2)%Q.

  Variables (n selection : nat).

  (** Mimic::compute_conditional_entropy: mimic.cc:66-91. The state is made of
      _parameters[0], _parameters[1] and _entropies. *)
  Definition compute_conditional_entropy (t : table) (index : nat) (s : list Q * list Q * list Q)
      : outcome (list Q * list Q * list Q) :=
    let '(p0, p1, ent) := s in
    _ <- assertb (index <? length ent) ;;
    let entropy := add_row 0 (c00 t) (c01 t) in
    p0 <- vset p0 index (row_parameter (c00 t) (c01 t)) ;;
    let entropy := add_row entropy (c10 t) (c11 t) in
    p1 <- vset p1 index (row_parameter (c10 t) (c11 t)) ;;
    _ <- assertb ((c00 t + c01 t) + (c10 t + c11 t) =? selection) ;;
    _ <- assertb (Qle_bool 0 entropy) ;;
    ent <- vset ent index entropy ;;
    Ok (p0, p1, ent).

  (** The table of the components [first] and [second]: mimic.cc:121-125. *)
  Definition fill_table (p : population) (first second : nat) : outcome table :=
    foldM (fun t k =>
      b <- best_bv p k ;;
      x <- vget b first ;;
      y <- vget b second ;;
      Ok (table_incr t x y)) (seq 0 selection) (mk_table 0 0 0 0).

  (** The choice of the component of rank [i]: mimic.cc:115-138. *)
  Definition mimic_link (p : population) (s : list nat * (list Q * list Q * list Q)) (i : nat)
      : outcome (list nat * (list Q * list Q * list Q)) :=
    let '(perm, q) := s in
    first <- vget perm (i - 1) ;;
    '(p0, p1, ent) <- foldM (fun q j =>
        second <- vget perm j ;;
        _ <- assertb (negb (second =? first)) ;;
        t <- fill_table p first second ;;
        compute_conditional_entropy t j q) (seq i (length perm - i)) q ;;
    let child := i + min_element (skipn i ent) in
    _ <- assertb (child <? length perm) ;;
    '(perm, p0, p1) <-
      (if child =? i then Ok (perm, p0, p1)
       else
         a <- vget perm i ;;
         b <- vget perm child ;;
         perm <- vset perm i b ;;
         perm <- vset perm child a ;;
         a <- vget p0 child ;;
         p0 <- vset p0 i a ;;
         a <- vget p1 child ;;
         p1 <- vset p1 i a ;;
         Ok (perm, p0, p1)) ;;
    v <- perm_is_valid perm ;;
    _ <- assertb v ;;
    Ok (perm, (p0, p1, ent)).

  (** Mimic::update_model: mimic.cc:93-144. *)
  Definition update_model (m : mimic) : outcome mimic :=
    mean <- mean_of_best selection (mi_pop m) n ;;
    let ent := map (fun x => qmin x (1 - x)) mean in
    _ <- assertb (forallb (fun x => Qle_bool 0 x) ent) ;;
    let root := min_element ent in
    _ <- assertb (root <? length (mi_perm m)) ;;
    let perm := identity (length (mi_perm m)) in
    a <- vget perm 0 ;;
    b <- vget perm root ;;
    perm <- vset perm 0 b ;;
    perm <- vset perm root a ;;
    r <- vget mean root ;;
    p0 <- vset (mi_p0 m) 0 r ;;
    p1 <- vset (mi_p1 m) 0 r ;;
    '(perm, (p0, p1, _)) <- foldM (mimic_link (mi_pop m)) (seq 1 (length perm - 1)) (perm, (p0, p1, ent)) ;;
    Ok (mk_mimic (mi_pop m) perm (pv_bound p0 (lower_bound n) (upper_bound n)) (pv_bound p1 (lower_bound n) (upper_bound n))).

  Variable o : objective.
  (** Random numbers of the iteration [t]: uniform draws for individual [k] and rank
      [i], and the shuffle of the sort. *)
  Variables (u : nat -> nat -> nat -> Q) (shs : nat -> list nat -> list nat).
  Variable srt : (nat -> nat -> bool) -> list nat -> list nat.

  (** Mimic::init: mimic.cc:38-48. [sh] is the shuffle of perm_random,
      permutation.hh:60-64. *)
  Definition mimic_init (bit : nat -> bool) (sh : list nat -> list nat) : act (alg mimic) unit :=
    _ <~ aassert (0 <? selection) ;;
    p <~ aget (fun s => mi_pop (a_mem s)) ;;
    _ <~ aassert (selection <? pop_size p) ;;
    _ <~ random_solution o bit ;;
    amodify (fun s =>
      let m := a_mem s in
      put_mem (mk_mimic (mi_pop m) (sh (identity (length (mi_perm m)))) (pv_uniform (mi_p0 m)) (pv_uniform (mi_p1 m))) s).

  (** mimic.cc:149-150 *)
  Definition mimic_sample_all (t : nat) (m : mimic) : outcome (unit * mimic) :=
    bs <- foldM (fun bs k => b <- vget bs k ;; b' <- mimic_sample m b (u t k) ;; vset bs k b')
            (seq 0 (pop_size (mi_pop m))) (p_bvs (mi_pop m)) ;;
    Ok (tt, mi_put (mk_pop bs (p_values (mi_pop m)) (p_perm (mi_pop m))) m).

  (** Mimic::iterate: mimic.cc:146-163. *)
  Definition mimic_iterate (t : nat) : act (alg mimic) unit :=
    _ <~ on_mem (mimic_sample_all t) ;;
    _ <~ eval_pop mi_pop mi_put o ;;
    _ <~ sort_pop mi_pop mi_put (shs t) srt ;;
    _ <~ update_with_best mi_pop ;;
    on_mem (fun m => m <- update_model m ;; Ok (tt, m)).
End Mimic.
