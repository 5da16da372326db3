(** Vocabulary of the statements about further functions of the collection. Nothing here
    refers to the model's functions. *)

From Coq Require Import ZArith NArith QArith Qabs Permutation String Ascii.
From Verif Require Import Base BitVector_Model BitVector_Spec Function_Spec Text_Model.
Local Open Scope string_scope.
Local Open Scope list_scope.
Local Open Scope nat_scope.
Local Notation length := List.length.

(** A vector and its complement *)
Definition complement (x : list bool) : list bool := map negb x.

(** * Low autocorrelation binary sequences *)

(** +1 for a one, -1 for a zero *)
Definition sign (b : bool) : Z := if b then 1%Z else (-1)%Z.

(** Autocorrelation at lag k: sum of the s_i s_(i+k) *)
Definition correlation (x : list bool) (k : nat) : Z :=
  sum_n (length x - k) (fun i => sign (nth i x false) * sign (nth (i + k) x false))%Z.

(** Sum of the squares of the autocorrelations at lags 1 to n - 1 *)
Definition energy (x : list bool) : Z := sum_n (length x - 1) (fun k => correlation x (k + 1) * correlation x (k + 1))%Z.

(** Every other bit is flipped. *)
Definition alternate (x : list bool) : list bool := map2 xorb (map Nat.odd (seq 0 (length x))) x.

(** * Partitions *)

(** Sums and products of the numbers selected by the bits equal to [b] *)
Definition part (b : bool) {A} (numbers : list A) (x : list bool) : list A :=
  map fst (filter (fun p => Bool.eqb (snd p) b) (combine numbers x)).
Definition qprod (l : list Q) : Q := fold_right Qmult 1%Q l.

(** * Summation cancellation *)

(** The number encoded by nine bits in two's complement: the first bit is the sign, the other
    ones come least significant first. *)
Definition signed9 (x : list bool) : Z :=
  match x with
  | [] => 0
  | s :: t => Z.of_N (value_lsb t) - (if s then 256 else 0)
  end%Z.

(** The numbers encoded by the consecutive blocks of nine bits, in hundredths *)
Definition hundredths (size : nat) (x : list bool) : list Q :=
  map (fun i => (inject_Z (signed9 (firstn 9 (skipn (9 * i) x))) / 100)%Q) (seq 0 size).

Definition qsum (l : list Q) : Q := fold_right Qplus 0%Q l.

(** y_i = a_i + sin(y_(i-1)), from the term preceding the list *)
Fixpoint sinus_terms (sn : Q -> Q) (previous : Q) (l : list Q) : list Q :=
  match l with
  | [] => []
  | a :: t => (a + sn previous)%Q :: sinus_terms sn (a + sn previous)%Q t
  end.
Definition sinus_sequence (sn : Q -> Q) (l : list Q) : list Q :=
  match l with
  | [] => []
  | a :: t => a :: sinus_terms sn a t
  end.

(** * Factorization *)

(** The number denoted by a vector, most significant bit first *)
Definition value_msb (x : list bool) : Z := Z.of_N (value_lsb (rev x)).

(** Sum of the ranks, starting at one, of the binary digits at which two numbers differ, digits
    of rank [n] and higher being ignored *)
Definition digit_distance (n : nat) (a b : Z) : Z :=
  sum_n n (fun i => if Bool.eqb (Z.testbit a (Z.of_nat i)) (Z.testbit b (Z.of_nat i)) then 0 else Z.of_nat (i + 1))%Z.

(** The product of two numbers greater than one *)
Definition composite (n : Z) : Prop := exists a b, (1 < a /\ 1 < b /\ a * b = n)%Z.

(** * Traveling salesman *)

(** Consecutive pairs of a tour, the last one closing it *)
Definition legs (p : list nat) : list (nat * nat) :=
  match p with
  | [] => []
  | a :: t => combine p (t ++ [a])
  end.

Definition tour_length (d : list (list Z)) (p : list nat) : Z := zsum (map (fun l => entry d (fst l) (snd l)) (legs p)).

Definition symmetric (n : nat) (d : list (list Z)) : Prop :=
  forall i j, i < n -> j < n -> entry d i j = entry d j i.

(** Rank of the pair (i, j), j < i, when pairs are listed row by row *)
Definition pair_rank (i j : nat) : nat := i * (i - 1) / 2 + j.

(** [d] is the integer nearest to the square root of [s], the greater one in case of a tie. *)
Definition nearest_root (s d : Z) : Prop :=
  (0 <= d /\ 4 * s < (2 * d + 1) * (2 * d + 1) /\ (d = 0 \/ (2 * d - 1) * (2 * d - 1) <= 4 * s))%Z.

(** [d] is the least integer not less than the square root of [s] / 10. *)
Definition ceiling_root10 (s d : Z) : Prop :=
  (0 <= d /\ s <= 10 * (d * d) /\ forall e, 0 <= e -> s <= 10 * (e * e) -> d <= e)%Z.

(** * NK landscapes *)

(** An instance for [n] sites with [k] neighbors: each site has a partial function of itself and
    of [k] other sites. *)
Definition nk_sites (n k : nat) (neighbors : list (list nat)) : Prop :=
  length neighbors = n /\
  forall i, i < n -> let row := nth i neighbors [] in
    length row = k + 1 /\ NoDup row /\ Forall (fun j => j < n) row /\ nth k row 0 = i.
Definition nk_tables (n k : nat) {A} (functions : list (list A)) : Prop :=
  length functions = n /\ Forall (fun f => length f = 2 ^ (k + 1)) functions.

(** Contribution of site [i]: the value of its partial function at the bits of its neighbors,
    least significant first *)
Definition contribution (neighbors : list (list nat)) (functions : list (list Q)) (x : list bool) (i : nat) : Q :=
  nth (N.to_nat (value_lsb (map (fun j => nth j x false) (nth i neighbors [])))) (nth i functions []) 0%Q.

(** * Quadratic unconstrained binary optimization *)

Definition bit (b : bool) : Z := if b then 1%Z else 0%Z.

(** x^T Q x, for the upper triangular part of Q *)
Definition quadratic_form (q : list (list Z)) (x : list bool) : Z :=
  sum_n (length x) (fun i => sum_n (length x) (fun j =>
    if i <=? j then (entry q i j * bit (nth i x false) * bit (nth j x false))%Z else 0%Z)).

(** Files: comments, the line p with the dimension and the numbers of elements on the diagonal and
    elsewhere, then the elements (i, j, v), one per line; [show] writes numbers. *)
Definition line_of (s : string) : string := (s ++ String newline "")%string.
Definition qubo_element_text (show : Z -> string) (e : nat * nat * Z) : string :=
  let '(i, j, v) := e in (show_Z (Z.of_nat i) ++ " " ++ show_Z (Z.of_nat j) ++ " " ++ show v)%string.
Definition qubo_text (show : Z -> string) (comments : list string) (n : nat) (diagonal other : Z) (l : list (nat * nat * Z)) : string :=
  String.concat "" (map line_of (map (fun c => String "c" c) comments ++
    [("p qubo 0 " ++ show_Z (Z.of_nat n) ++ " " ++ show_Z diagonal ++ " " ++ show_Z other)%string] ++
    map (qubo_element_text show) l)).
Definition on_diagonal (e : nat * nat * Z) : bool := let '(i, j, _) := e in i =? j.

(** Acceptable elements: upper triangular, and not zero *)
Definition good_element (n : nat) (e : nat * nat * Z) : Prop := let '(i, j, v) := e in i <= j < n /\ v <> 0%Z.

(** The last value given for (i, j), if any *)
Fixpoint last_value (l : list (nat * nat * Z)) (i j : nat) : option Z :=
  match l with
  | [] => None
  | (i', j', v) :: t =>
      match last_value t i j with
      | Some w => Some w
      | None => if (i' =? i) && (j' =? j) then Some v else None
      end
  end.

(** Reading after a blank what was written *)
Definition reads_back (read : istr -> option (Z * istr)) (show : Z -> string) (range : Z -> Prop) : Prop :=
  forall v, range v -> ~ In newline (list_ascii_of_string (show v)) /\
    exists r, read (mk_istr (" " ++ show v)%string false) = Some (v, r).
