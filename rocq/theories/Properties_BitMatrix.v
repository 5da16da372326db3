(** Properties C09-C11 and C13: bit matrices over GF(2). *)

From Verif Require Import Base BitVector_Model BitVector_Spec BitMatrix_Model BitMatrix_Spec BitMatrix_Pure BitMatrix_Proofs.

(** C09: bm_solve returns true exactly when A is invertible; then A has become
    the identity and b the unique solution of the original system. *)
Theorem C09_solve : forall n A b, is_matrix n n A -> length b = n ->
  exists r A' b', bm_solve A b = Ok (r, A', b') /\
    (r = true <-> invertible n A) /\
    (r = true -> A' = identity_matrix n /\ length b' = n /\ mat_vec A b' = b /\
       forall x, length x = n -> mat_vec A x = b -> x = b').
Proof. exact bm_solve_correct. Qed.
Print Assumptions C09_solve.

Example C09_case :
  is_matrix 3 3 [[false; true; true]; [true; true; false]; [true; true; true]] /\
  bm_solve [[false; true; true]; [true; true; false]; [true; true; true]] [true; false; true]
  = Ok (true, identity_matrix 3, [false; false; true]) /\
  (exists A' b', bm_solve [[false; true]; [false; true]] [true; false] = Ok (false, A', b')).
Proof. split; [repeat constructor|]. split; [vm_compute; auto|]. do 2 eexists. vm_compute. reflexivity. Qed.

(** C10: bm_invert returns true exactly when M is invertible; then M has become
    the identity and N the two-sided inverse of the original M. *)
Theorem C10_invert : forall n M N, is_matrix n n M -> is_matrix n n N ->
  exists r M' N', bm_invert M N = Ok (r, M', N') /\
    (r = true <-> invertible n M) /\
    (r = true -> M' = identity_matrix n /\ inverse_of n M N').
Proof. exact bm_invert_correct. Qed.
Print Assumptions C10_invert.

Example C10_case :
  bm_invert [[false; true; true]; [true; true; false]; [true; true; true]] (repeat (repeat true 3) 3)
  = Ok (true, identity_matrix 3, [[true; false; true]; [true; true; true]; [false; true; true]]).
Proof. vm_compute. reflexivity. Qed.

(** C11: the row echelon form is an echelon matrix with the same row space, and
    bm_rank of it is the dimension of that space. *)
Theorem C11_echelon_rank : forall nr nc A, is_matrix nr nc A ->
  exists A' piv, bm_row_echelon_form A = Ok A' /\ is_matrix nr nc A' /\
    echelon nr nc A' piv /\
    (forall x, span nc A' x <-> span nc A x) /\
    bm_rank A' = Ok (length piv) /\ dimension nc A (length piv).
Proof. exact bm_echelon_rank_correct. Qed.
Print Assumptions C11_echelon_rank.

(** C11: the dimension is well defined. *)
Theorem C11_dimension_unique : forall n L d d', dimension n L d -> dimension n L d' -> d = d'.
Proof. exact dimension_unique. Qed.
Print Assumptions C11_dimension_unique.

Example C11_case :
  bm_row_echelon_form [[false; true; true]; [false; true; false]; [false; false; true]]
  = Ok [[false; true; true]; [false; false; true]; [false; false; false]] /\
  bm_rank [[false; true; true]; [false; false; true]; [false; false; false]] = Ok 2.
Proof. vm_compute. auto. Qed.

(** C13: transposition exchanges rows and columns and is an involution. *)
Theorem C13_transpose : forall nr nc M, is_matrix nr nc M ->
  exists T, bm_transpose M = Ok T /\ is_matrix nc nr T /\
    forall i j, i < nc -> j < nr -> entry T i j = entry M j i.
Proof. exact transpose_Ok. Qed.
Print Assumptions C13_transpose.

Theorem C13_transpose_involutive : forall nr nc M, is_matrix nr nc M ->
  exists T, bm_transpose M = Ok T /\ bm_transpose T = Ok M.
Proof. exact transpose_involutive. Qed.
Print Assumptions C13_transpose_involutive.

(** C13: bm_multiply is the matrix product on matching sizes and an assertion
    failure otherwise; it is linear and the identity matrix acts as identity. *)
Theorem C13_multiply : forall nr nc M x y, is_matrix nr nc M -> length x = nc -> length y = nr ->
  bm_multiply y M x = Ok (mat_vec M x).
Proof. exact bm_multiply_Ok. Qed.
Print Assumptions C13_multiply.

Theorem C13_multiply_bad_size : forall nr nc M x y, is_matrix nr nc M -> length x <> nc \/ length y <> nr ->
  bm_multiply y M x = UB.
Proof. exact bm_multiply_UB. Qed.
Print Assumptions C13_multiply_bad_size.

Theorem C13_linear : forall nr nc M x y, is_matrix nr nc M -> length x = nc -> length y = nc ->
  mat_vec M (map2 xorb x y) = map2 xorb (mat_vec M x) (mat_vec M y).
Proof. exact mat_vec_linear. Qed.
Print Assumptions C13_linear.

Theorem C13_identity : forall n, 0 < n ->
  bm_identity n = Ok (identity_matrix n) /\ forall x, length x = n -> mat_vec (identity_matrix n) x = x.
Proof. exact (fun n Hn => conj (bm_identity_Ok n Hn) (mat_vec_identity n)). Qed.
Print Assumptions C13_identity.

(** C13: row and column operations. *)
Theorem C13_swap_rows : forall nr nc A i j, is_matrix nr nc A -> i < nr -> j < nr ->
  exists B, bm_swap_rows A i j = Ok B /\ is_matrix nr nc B /\
    (forall k, nth k B [] = if k =? j then nth i A [] else if k =? i then nth j A [] else nth k A []) /\
    bm_swap_rows B i j = Ok A.
Proof. exact swap_rows_correct. Qed.
Print Assumptions C13_swap_rows.

Theorem C13_add_rows : forall nr nc A d s, is_matrix nr nc A -> d < nr -> s < nr -> d <> s ->
  exists B, bm_add_rows A d s = Ok B /\ is_matrix nr nc B /\
    (forall k, nth k B [] = if k =? d then map2 xorb (nth d A []) (nth s A []) else nth k A []) /\
    bm_add_rows B d s = Ok A.
Proof. exact add_rows_correct. Qed.
Print Assumptions C13_add_rows.

Theorem C13_add_columns : forall nr nc A d s, is_matrix nr nc A -> d < nc -> s < nc -> d <> s ->
  exists B, bm_add_columns A d s = Ok B /\ is_matrix nr nc B /\
    (forall k c, k < nr -> c < nc ->
       entry B k c = if c =? d then xorb (entry A k d) (entry A k s) else entry A k c) /\
    bm_add_columns B d s = Ok A.
Proof. exact add_columns_correct. Qed.
Print Assumptions C13_add_columns.

Theorem C13_set_column : forall nr nc A j b, is_matrix nr nc A -> j < nc -> length b = nr ->
  exists B, bm_set_column A j b = Ok B /\ is_matrix nr nc B /\
    (forall k c, k < nr -> c < nc -> entry B k c = if c =? j then nth k b false else entry A k c).
Proof. exact set_column_correct. Qed.
Print Assumptions C13_set_column.

Example C13_case :
  is_matrix 2 3 [[true; false; true]; [false; true; true]] /\
  bm_transpose [[true; false; true]; [false; true; true]] = Ok [[true; false]; [false; true]; [true; true]] /\
  bm_multiply [false; false] [[true; false; true]; [false; true; true]] [true; true; false] = Ok [true; true] /\
  bm_add_columns [[true; false; true]; [false; true; true]] 0 2 = Ok [[false; false; true]; [true; true; true]].
Proof. split; [repeat constructor|]. vm_compute. auto. Qed.

(** C75: the tests of a matrix are exact. *)
Theorem C75_is_valid : forall M, bm_is_valid M = true <-> exists nr nc, is_matrix nr nc M.
Proof. exact bm_is_valid_exact. Qed.
Print Assumptions C75_is_valid.

Theorem C75_is_identity : forall M, exists b, bm_is_identity M = Ok b /\
  (b = true <-> exists n, 0 < n /\ M = identity_matrix n).
Proof. exact is_identity_exact. Qed.
Print Assumptions C75_is_identity.

Theorem C75_is_upper_triangular : forall nr nc M, is_matrix nr nc M ->
  exists b, bm_is_upper_triangular M = Ok b /\
    (b = true <-> forall i j, i < nr -> j < nc -> j < i -> entry M i j = false).
Proof. exact is_upper_triangular_exact. Qed.
Print Assumptions C75_is_upper_triangular.

Example C75_case :
  bm_is_identity [[true; false]; [false; true]] = Ok true /\
  bm_is_identity [[true; false]; [true; true]] = Ok false /\
  bm_is_identity [[true; false; false]; [false; true; false]] = Ok false /\
  bm_is_valid [[true; false]; [false]] = false /\
  bm_is_upper_triangular [[true; true]; [false; false]; [false; true]] = Ok false.
Proof. vm_compute. auto 6. Qed.

(** C76: bm_solve_upper_triangular solves a system with ones on the diagonal; it
    never returns false: with a zero on the diagonal it violates an assertion. *)
Theorem C76_solve_upper_triangular : forall n A b, is_matrix n n A -> length b = n ->
  (forall i j, i < n -> j < n -> j < i -> entry A i j = false) ->
  ((forall i, i < n -> entry A i i = true) /\
   exists b', bm_solve_upper_triangular A b = Ok (true, identity_matrix n, b') /\ length b' = n /\ mat_vec A b' = b /\
     forall x, length x = n -> mat_vec A x = b -> x = b') \/
  ((exists i, i < n /\ entry A i i = false) /\ bm_solve_upper_triangular A b = UB).
Proof.
  intros n A b H L U. destruct (solve_upper_exact n A b H L U) as [(D & b' & E & L' & S & F)|]; [left|now right].
  destruct H as (Hn & _ & W). split; auto. exists b'. split; auto. split; auto.
  split; [|intros x Hx]; rewrite (mat_vec_mulv n n) by auto; auto.
Qed.
Print Assumptions C76_solve_upper_triangular.

Example C76_case :
  bm_solve_upper_triangular [[true; true; true]; [false; true; false]; [false; false; true]] [true; true; true]
  = Ok (true, identity_matrix 3, [true; true; true]) /\
  bm_solve_upper_triangular [[true; true]; [false; false]] [true; false] = UB.
Proof. vm_compute. auto. Qed.
