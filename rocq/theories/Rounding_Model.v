(** Addition and subtraction of doubles with rounding, and the linear functions computed
    with them: lib/hnco/functions/collection/linear-function.cc and
    collection/walsh/walsh-expansion-1.cc and walsh-expansion.cc.  The operations are those of IEEE 754 binary64, with rounding
    to the nearest and ties to even; finite doubles are multiples of 2^-1074 (see Double).
    The sign of zero is not modelled: it has no effect on these functions. *)

From Coq Require Import ZArith.
From Verif Require Import Base BitVector_Model Double.
Local Open Scope nat_scope.

(** The nearest multiple of 2^e, divided by 2^e; the even one for ties *)
Definition nearest_multiple (z e : Z) : Z :=
  let d := (2 ^ e)%Z in
  let q := (z / d)%Z in
  let r := (z mod d)%Z in
  if (2 * r <? d)%Z then q else if (d <? 2 * r)%Z then (q + 1)%Z else if Z.even q then q else (q + 1)%Z.

(** Rounding to 53 bits; below 2^53 multiples of 2^-1074, all numbers are doubles. *)
Definition exponent (z : Z) : Z := Z.max 0 (Z.log2 (Z.abs z) - 52).
Definition round53 (z : Z) : Z := (nearest_multiple z (exponent z) * 2 ^ exponent z)%Z.

(** With overflow: 2^1024 is 2^2098 multiples of 2^-1074. *)
Definition rounded (z : Z) : dbl :=
  let r := round53 z in
  if (r <? 2 ^ 2098)%Z then if (- 2 ^ 2098 <? r)%Z then DFin r else DNegInf else DPosInf.

(** The operators + and - *)
Definition fadd (a b : dbl) : dbl :=
  match a, b with
  | DNaN, _ | _, DNaN => DNaN
  | DPosInf, DNegInf | DNegInf, DPosInf => DNaN
  | DPosInf, _ | _, DPosInf => DPosInf
  | DNegInf, _ | _, DNegInf => DNegInf
  | DFin x, DFin y => rounded (x + y)
  end.
Definition fopp (a : dbl) : dbl :=
  match a with DNaN => DNaN | DPosInf => DNegInf | DNegInf => DPosInf | DFin x => DFin (- x) end.
Definition fsub (a b : dbl) : dbl := fadd a (fopp b).

(** The comparison with the literal 0 *)
Definition fpositive (a : dbl) : bool := dgt a (DFin 0).

(** linear-function.cc:34-42 *)
Definition flinear_maximum (weights : list dbl) : dbl :=
  fold_left (fun result w => if fpositive w then fadd result w else result) weights (DFin 0).

(** linear-function.cc:45-55 *)
Definition flinear_evaluate (weights : list dbl) (x : bv) : outcome dbl :=
  _ <- assertb (length x =? length weights) ;;
  foldM (fun result i =>
    b <- vget x i ;;
    if (b : bool) then w <- vget weights i ;; Ok (fadd result w) else Ok result)
    (seq 0 (length x)) (DFin 0).

(** linear-function.cc:58-69 *)
Definition flinear_incremental (weights : list dbl) (x : bv) (value : dbl) (flipped : list nat) : outcome dbl :=
  foldM (fun value index =>
    b <- vget x index ;;
    w <- vget weights index ;;
    Ok (if (b : bool) then fsub value w else fadd value w)) flipped value.

(** walsh-expansion-1.cc:34-44 *)
Definition fwalsh1_maximum (linear : list dbl) : dbl :=
  fold_left (fun result w => if fpositive w then fadd result w else fsub result w) linear (DFin 0).

(** walsh-expansion-1.cc:47-62 *)
Definition fwalsh1_evaluate (linear : list dbl) (s : bv) : outcome dbl :=
  _ <- assertb (length s =? length linear) ;;
  foldM (fun result i =>
    b <- vget s i ;;
    w <- vget linear i ;;
    Ok (if (b : bool) then fsub result w else fadd result w)) (seq 0 (length linear)) (DFin 0).

(** walsh-expansion.cc:33-44 *)
Definition fwalsh_evaluate (terms : list (bv * dbl)) (x : bv) : outcome dbl :=
  foldM (fun result t =>
    d <- bv_dot_product x (fst t) ;;
    Ok (if (d : bool) then fsub result (snd t) else fadd result (snd t))) terms (DFin 0).
