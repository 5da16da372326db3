(** What transvections and maps mean, independently of the code. *)

From Coq Require Import Permutation.
From Verif Require Import Base BitVector_Spec BitMatrix_Spec Transvection_Model Map_Model.

(** The transvection I + B_ij adds component j (column index) to component i
    (row index). *)
Definition tv_action (tv : transvection) (x : list bool) : list bool :=
  map (fun i => if i =? row_index tv then xorb (nth i x false) (nth (column_index tv) x false) else nth i x false)
    (seq 0 (length x)).

Definition tv_ok (n : nat) (tv : transvection) : Prop :=
  row_index tv < n /\ column_index tv < n /\ row_index tv <> column_index tv.

(** Transvections of the list applied from first to last. *)
Definition ts_action (ts : list transvection) (x : list bool) : list bool :=
  fold_left (fun x tv => tv_action tv x) ts x.

(** y where y_(pos_j) = x_j and 0 elsewhere. *)
Definition inject (pos : list nat) (n : nat) (x : list bool) : list bool :=
  map (fun i => existsb (fun j => (nth j pos 0 =? i) && nth j x false) (seq 0 (length pos))) (seq 0 n).

(** The function computed by a map. *)
Fixpoint map_fn (m : hmap) (x : list bool) : list bool :=
  match m with
  | MTranslation b => map2 xorb x b
  | MPermutation p => map (fun k => nth k x false) p
  | MLinear M => mat_vec M x
  | MAffine M b => map2 xorb (mat_vec M x) b
  | MInjection pos n => inject pos n x
  | MProjection pos _ => map (fun k => nth k x false) pos
  | MTsAffine ts b => map2 xorb (ts_action ts x) b
  | MComposition outer inner _ => map_fn outer (map_fn inner x)
  end.

(** Map objects built by the constructors with parameters meeting the
    documented conditions, with input size and output size. *)
Inductive built : hmap -> nat -> nat -> Prop :=
| built_translation b : built (MTranslation b) (length b) (length b)
| built_permutation p : Permutation p (seq 0 (length p)) -> built (MPermutation p) (length p) (length p)
| built_linear nr nc M : is_matrix nr nc M -> built (MLinear M) nc nr
| built_affine nr nc M b : is_matrix nr nc M -> length b = nr -> built (MAffine M b) nc nr
| built_injection pos n m : NoDup pos -> Forall (fun k => k < n) pos ->
    make_injection pos n = Ok m -> built m (length pos) n
| built_projection pos n m : NoDup pos -> Forall (fun k => k < n) pos ->
    make_projection pos n = Ok m -> built m n (length pos)
| built_ts_affine ts b : Forall (tv_ok (length b)) ts -> built (MTsAffine ts b) (length b) (length b)
| built_composition outer inner m i k o : built outer k o -> built inner i k ->
    make_composition outer inner = Ok m -> built m i o.

(** f maps vectors of size i onto all the vectors of size o. *)
Definition onto (f : list bool -> list bool) (i o : nat) : Prop :=
  forall y, length y = o -> exists x, length x = i /\ f x = y.

Definition bijection (f : list bool -> list bool) (n : nat) : Prop :=
  exists g, forall x, length x = n ->
    length (f x) = n /\ length (g x) = n /\ g (f x) = x /\ f (g x) = x.

(** Successive calls map(input, output) on the same map object and the same
    output buffer; the outputs are collected. *)
Fixpoint map_run (m : hmap) (output : list bool) (inputs : list (list bool)) : outcome (list (list bool)) :=
  match inputs with
  | [] => Ok []
  | x :: inputs' =>
      '(m', y) <- map_apply m x output ;;
      ys <- map_run m' y inputs' ;; Ok (y :: ys)
  end.

(** * Transvection sequences *)

(** a then b equals b then a on every vector of size n *)
Definition commute (n : nat) (a b : transvection) : Prop :=
  forall x, length x = n -> tv_action b (tv_action a x) = tv_action a (tv_action b x).

(** the two transvections share no index *)
Definition disjoint (a b : transvection) : Prop :=
  forall i, In i [row_index a; column_index a] -> ~ In i [row_index b; column_index b].

(** every pair of elements is related *)
Definition all_pairs (R : transvection -> transvection -> Prop) (ts : list transvection) : Prop :=
  forall i j a b, i < j -> nth_error ts i = Some a -> nth_error ts j = Some b -> R a b.

(** every pair of consecutive elements is related *)
Definition consecutive_pairs (R : transvection -> transvection -> Prop) (ts : list transvection) : Prop :=
  forall i a b, nth_error ts i = Some a -> nth_error ts (S i) = Some b -> R a b.

(** a shuffle returns a permutation of its argument *)
Definition shuffles {T} (sh : list T -> list T) : Prop := forall l, Permutation l (sh l).

(** uniform draws stay in their range *)
Definition in_range (pick : nat -> nat -> nat) : Prop := forall lo hi, lo <= hi -> lo <= pick lo hi <= hi.

(** * Functions *)

Definition elementary (m : hmap) : Prop := match m with MComposition _ _ _ => False | _ => True end.

(** successive evaluations of a function composed with a map *)
Fixpoint fmc_run {V} (c : fmc V) (xs : list (list bool)) : outcome (list V) :=
  match xs with
  | [] => Ok []
  | x :: xs' => '(c', v) <- fmc_evaluate c x ;; vs <- fmc_run c' xs' ;; Ok (v :: vs)
  end.

(** v is the maximum of f on vectors of size n and is attained *)
Definition maximum_of {V} (le : V -> V -> Prop) (n : nat) (f : list bool -> V) (v : V) : Prop :=
  (forall x, length x = n -> le (f x) v) /\ exists x, length x = n /\ f x = v.
