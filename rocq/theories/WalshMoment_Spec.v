(** Vocabulary for the statements about Walsh moments. *)

From Coq Require Import QArith Qabs.
From Verif Require Import Base BitVector_Model ItEa_Spec WalshMoment_Model.
Local Open Scope nat_scope.

(** The first moment of the component [i] and the second moment of the components [i]
    and [j]; the second moments of a triangular moment are those such that j < i. *)
Definition mom1 (m : moment) (i : nat) : Q := nth i (first_moment m) 0%Q.
Definition mom2 (m : moment) (i j : nat) : Q := nth j (nth i (second_moment m) []) 0%Q.

(** Moments of dimension [n], as built by the constructors *)
Definition shaped (k : kind) (n : nat) (m : moment) : Prop :=
  length (first_moment m) = n /\ length (second_moment m) = n /\
  forall i, i < n -> length (nth i (second_moment m) []) = match k with Triangular => i | Full => n end.

(** The second moments of a full moment are symmetric. *)
Definition symmetric (n : nat) (m : moment) : Prop := forall i j, i < n -> j < n -> (mom2 m i j == mom2 m j i)%Q.

(** The moment [m] of dimension [n] holds the first moments [f1] and second moments [f2];
    if it is full then it is symmetric. *)
Definition holds (k : kind) (n : nat) (m : moment) (f1 : nat -> Q) (f2 : nat -> nat -> Q) : Prop :=
  shaped k n m /\
  (forall i, i < n -> (mom1 m i == f1 i)%Q) /\
  (forall i j, j < i < n -> (mom2 m i j == f2 i j)%Q) /\
  (k = Full -> symmetric n m).

(** Every property of all the entries *)
Definition all_entries (P : Q -> Prop) (n : nat) (m : moment) : Prop :=
  (forall i, i < n -> P (mom1 m i)) /\ (forall i j, j < i < n -> P (mom2 m i j)).
Definition in_interval (lo hi q : Q) : Prop := (lo <= q <= hi)%Q.

(** (-1)^b, and the mean over a list *)
Definition sign (b : bool) : Q := if b then -1 else 1.
Definition sign_at (i : nat) (x : list bool) : Q := sign (nth i x false).
Definition mean {A} (f : A -> Q) (l : list A) : Q := (total f l / inject_Z (Z.of_nat (length l)))%Q.

(** The same numbers in a triangular and in a full moment *)
Definition same_numbers (n : nat) (t f : moment) : Prop :=
  shaped Triangular n t /\ shaped Full n f /\ first_moment t = first_moment f /\ forall i j, j < i < n -> mom2 t i j = mom2 f i j.

(** The number printed at the line [i] and the column [j] *)
Definition printed (m : moment) (i j : nat) : Q := if j <? i then mom2 m i j else if i <? j then mom2 m j i else mom1 m i.

(** All the numbers of a moment, or given by functions *)
Definition listed (n : nat) (f1 : nat -> Q) (f2 : nat -> nat -> Q) : list Q :=
  flat_map (fun i => f1 i :: map (f2 i) (seq 0 i)) (seq 0 n).
Definition numbers (n : nat) (m : moment) : list Q := listed n (mom1 m) (mom2 m).

(** The sum of the squares of all the numbers *)
Definition square (q : Q) : Q := (q * q)%Q.
Definition squares (n : nat) (f1 : nat -> Q) (f2 : nat -> nat -> Q) : Q := total square (listed n f1 f2).

(** The sum over all moments of their product with the signs of [x]:
    sum_i m_i s_i + sum_{j<i} m_ij s_i s_j *)
Definition energy (n : nat) (m : moment) (x : list bool) : Q :=
  total (fun i => mom1 m i * sign_at i x + total (fun j => mom2 m i j * (sign_at i x * sign_at j x)) (seq 0 i))%Q (seq 0 n).

(** The components of [x] are set one after the other in the given order, each one so
    that its sign is the one of d1_i + sum_j d2_ij s_j, where j ranges over the components
    already set. *)
Definition greedy (n : nat) (d1 : nat -> Q) (d2 : nat -> nat -> Q) (order : list nat) (x : list bool) : Prop :=
  length x = n /\
  forall p, p < n -> let i := nth p order 0 in
    (nth i x false = false <-> (0 < d1 i + total (fun j => d2 i j * sign_at j x) (firstn p order))%Q).

(** What the moments of the past samples lack in order to be, with one more sample, in
    proportion to the target *)
Definition residual1 (target : moment) (past : list (list bool)) (i : nat) : Q :=
  (inject_Z (Z.of_nat (length past) + 1) * mom1 target i - total (sign_at i) past)%Q.
Definition residual2 (target : moment) (past : list (list bool)) (i j : nat) : Q :=
  (inject_Z (Z.of_nat (length past) + 1) * printed target i j - total (fun x => sign_at i x * sign_at j x) past)%Q.

(** What the moments of the samples lack in order to be in proportion to the target *)
Definition lack1 (target : moment) (samples : list (list bool)) (i : nat) : Q :=
  (inject_Z (Z.of_nat (length samples)) * mom1 target i - total (sign_at i) samples)%Q.
Definition lack2 (target : moment) (samples : list (list bool)) (i j : nat) : Q :=
  (inject_Z (Z.of_nat (length samples)) * mom2 target i j - total (fun x => sign_at i x * sign_at j x) samples)%Q.

(** A sample of the herding *)
Definition herded (n : nat) (target : moment) (past : list (list bool)) (order : list nat) (x : list bool) : Prop :=
  greedy n (residual1 target past) (residual2 target past) order x.

(** The state of the herding after the samples [past] *)
Definition herding_state (k : kind) (n : nat) (past : list (list bool)) (h : herding) : Prop :=
  shaped k n (h_delta h) /\ shaped k n (h_count h) /\ length (h_perm h) = n /\ h_time h = Z.of_nat (length past) /\
  (forall i, i < n -> (mom1 (h_count h) i == total (sign_at i) past)%Q) /\
  (forall i j, j < i < n -> (mom2 (h_count h) i j == total (fun x => sign_at i x * sign_at j x) past)%Q).

(** Successive samples with the same target; [xs] are the initial contents of the
    vectors. *)
Definition herd (k : kind) (rand : bool) (shs : nat -> list nat -> list nat) (target : moment) (xs : list (list bool)) (h : herding)
    : outcome (list (list bool) * herding) :=
  foldM (fun s x =>
    '(y, h) <- herding_sample k rand (shs (length (fst s))) target x (snd s) ;;
    Ok (fst s ++ [y], h)) xs ([], h).

(** The order in which the components are set *)
Definition bit_order (rand : bool) (sh : list nat -> list nat) (n : nat) : list nat := if rand then sh (seq 0 n) else seq 0 n.

(** [x] with the component [i] set to [b] *)
Definition with_bit (x : list bool) (i : nat) (b : bool) : list bool := upd x i b.

(** How much setting the component [i] to one increases the energy *)
Definition gain (n : nat) (m : moment) (i : nat) (x : list bool) : Q :=
  (energy n m (with_bit x i true) - energy n m (with_bit x i false))%Q.
