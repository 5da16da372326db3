(** Vocabulary for the statements about UMDA with random affine maps. *)

From Coq Require Import QArith.
From Verif Require Import Base BitVector_Model Transvection_Model Map_Spec Population_Model ProbabilityVector_Spec RamUmda_Model.
Local Open Scope nat_scope.

(** The affine map made of transvections [ts], applied from first to last, and the
    translation by [b]. *)
Definition affine (ts : list transvection) (b x : list bool) : list bool := map2 xorb (ts_action ts x) b.

(** [t] transvections and a translation on vectors of size [n] *)
Definition random_map (n t : nat) (ts : list transvection) (b : list bool) : Prop :=
  length ts = t /\ Forall (tv_ok n) ts /\ length b = n.

(** The probabilities [pv] of the bits in the vectors of a list, clamped *)
Definition estimated (n : nat) (l : list (bv * Z)) (pv : list Q) : Prop :=
  length pv = n /\
  forall i, i < n ->
    clamped (1 / inject_Z (Z.of_nat n)) (1 - 1 / inject_Z (Z.of_nat n)) (frequency i l) (nth i pv 0%Q).

(** Individuals seen through a map *)
Definition images (f : list bool -> list bool) (l : list (bv * Z)) : list (bv * Z) := map (fun y => (f (fst y), snd y)) l.

(** Parameters which give valid lengths *)
Definition valid_lengths (c : length_config) : Prop :=
  lc_mode c <> LengthOther /\ (0 <= lc_lower c <= lc_upper c)%Z /\ (0 < lc_period c)%Z /\ (0 < lc_param c < 1)%Q.

(** Draws of the uniform distribution *)
Definition within_lengths (c : length_config) (ud : nat -> Z) : Prop := forall t, (lc_lower c <= ud t <= lc_upper c)%Z.

(** The length used at the iteration [t] of a run started with the length [len], if all
    the iterations so far succeeded *)
Fixpoint length_at (c : length_config) (ud : nat -> Z) (gd : nat -> nat) (len : Z) (t : nat) : outcome Z :=
  match t with
  | 0 => compute_ts_length c 0 (ud 0) (gd 0) len
  | S t' => l <- length_at c ud gd len t' ;; compute_ts_length c t (ud t) (gd t) l
  end.

(** The vector [x] has an image by [f] drawn with the probabilities [pv]. *)
Definition drawn_through (n : nat) (f : list bool -> list bool) (pv : list Q) (u : nat -> Q) (x : list bool) : Prop :=
  length x = n /\ drawn n pv u (f x).

(** The individual [x] generated by the second variant: a mixture, bit by bit, of a
    vector of the latent space and of one of the solution space with the probability
    [pc]; otherwise one of the latent space with the probability [pl]; otherwise one of
    the solution space. *)
Definition generated (n : nat) (f : list bool -> list bool) (pv pvy : list Q) (pc pl uc ul : Q) (u ux : nat -> Q) (coin : nat -> bool) (x : list bool) : Prop :=
  ((uc < pc)%Q -> exists y z, drawn_through n f pvy u y /\ drawn n pv ux z /\ length x = n /\
     forall i, i < n -> nth i x false = nth i (if coin i then y else z) false) /\
  ((pc <= uc)%Q -> (ul < pl)%Q -> drawn_through n f pvy u x) /\
  ((pc <= uc)%Q -> (pl <= ul)%Q -> drawn n pv ux x).
