(** Vocabulary of the statements about algorithms. *)

From Verif Require Import Base BitVector_Model BitVector_Spec Iterator_Model Neighborhood_Model Neighborhood_Spec Algorithm_Model.

(** [r] is the first best element of the list [L], for the values given by [f]. *)
Definition first_best_of {A} (f : A -> Z) (L : list A) (r : A) : Prop :=
  exists L1 L2, L = L1 ++ r :: L2 /\ Forall (fun y => f y < f r)%Z L1 /\ Forall (fun y => f y <= f r)%Z L2.

(** A solution: the first best vector of a list, with its value. *)
Definition first_best (f : list bool -> Z) (L : list (list bool)) (sol : list bool * Z) : Prop :=
  first_best_of f L (fst sol) /\ snd sol = f (fst sol).

(** The function never throws. *)
Definition never_stops (o : objective) : Prop := forall c, o_stop o c = None.

(** Vectors at distance r from x. *)
Definition neighbor (n r : nat) (x y : list bool) : Prop := length y = n /\ length (diffs n x y) = r.
Definition local_maximum (f : list bool -> Z) (n r : nat) (x : list bool) : Prop :=
  forall y, neighbor n r x y -> (f y <= f x)%Z.

(** Neighborhood iterators of dimension n and radius r, as a client can obtain
    them. *)
Definition nit_reachable (n r : nat) (t : nit) : Prop :=
  match t with
  | NSingle s => length (sb_current s) = n /\ r = 1
  | NSphere s => hs_reachable n r s /\ 0 < r
  end.
Definition nit_current (t : nit) : list bool :=
  match t with NSingle s => sb_current s | NSphere s => hs_current s end.

(** The starting point has the right size. *)
Definition start_sized (n : nat) (st : start) : Prop :=
  match st with RandomStart _ => True | StartAt x => length x = n end.

(** Incremental evaluation is right: given the value of x and the positions where y
    differs from x, it returns the value of y. *)
Definition right_increments (n : nat) (o : objective) : Prop :=
  forall x y, length x = n -> length y = n -> o_inc o x (o_value o x) (diffs n x y) = o_value o y.

(** Iterations 0, ..., k - 1 in sequence, without any test. *)
Fixpoint iterations {S} (iterate : nat -> act S unit) (i k : nat) : act S unit :=
  match k with
  | 0 => aret tt
  | S k' => _ <~ iterate i ;; iterations iterate (i + 1) k'
  end.

(** The solution is a vector evaluated so far, with its value. *)
Definition consistent {X} (o : objective) (s : alg X) : Prop :=
  In (fst (a_sol s)) (a_trace s) /\ snd (a_sol s) = o_value o (fst (a_sol s)).

(** The exception comes from the function. *)
Definition thrown_by (o : objective) (e : exn) : Prop := exists c, o_stop o c = Some e.

(** A comparison that never prefers a smaller value: >= and > are examples. *)
Definition ascending (cmp : Z -> Z -> bool) : Prop :=
  forall a b, (cmp a b = true -> (b <= a)%Z) /\ (cmp a b = false -> (a <= b)%Z).

(** Evaluated vectors: none of the last k ones was accepted. *)
Definition rejected_suffix (o : objective) (cmp : Z -> Z -> bool) (v : Z) (k : Z) (T : list (list bool)) : Prop :=
  exists T1 T2, T = T1 ++ T2 /\ T1 <> [] /\ Z.of_nat (length T2) = k /\ forall y, In y T2 -> cmp (o_value o y) v = false.

(** Increments add to the value given, whether or not it is the value of x. *)
Definition additive_increments (n : nat) (o : objective) : Prop :=
  forall x y v, length x = n -> length y = n -> o_inc o x v (diffs n x y) = (v + (o_value o y - o_value o x))%Z.

(** At the end of a run, however it ends, the solution is the first best of all the
    vectors evaluated. *)
Definition run_best {X} (o : objective) (res : res unit) (s' : alg X) : Prop :=
  (a_trace s' <> [] -> first_best (o_value o) (a_trace s') (a_sol s')) /\
  match res with
  | Ret _ => a_trace s' <> []
  | Exc e => o_stop o (length (a_trace s')) = Some e
  | Bad => False
  | Pending => True
  end.

(** The solution is a best vector evaluated so far. *)
Definition top {X} (o : objective) (s : alg X) : Prop :=
  consistent o s /\ forall y, In y (a_trace s) -> (o_value o y <= snd (a_sol s))%Z.

(** A best neighbor *)
Definition best_neighbor o n r x y : Prop := neighbor n r x y /\ forall z, neighbor n r x z -> (o_value o z <= o_value o y)%Z.


(** The states of an algorithm before its i-th iteration. *)
Inductive reached {X} (init : act (alg X) unit) (iterate : nat -> act (alg X) unit) (s0 : alg X) : nat -> alg X -> Prop :=
| reached_start s : init s0 = (Ret tt, s) -> reached init iterate s0 0 (put_last false s)
| reached_next i s s' : reached init iterate s0 i s -> iterate i s = (Ret tt, s') -> reached init iterate s0 (i + 1) s'.
