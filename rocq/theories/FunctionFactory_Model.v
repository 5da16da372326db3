(** Model of CommandLineFunctionFactory::make, lib/hnco/app/function-factory.cc:35-420, for
    the functions which are defined by options (and for the linear functions).

    The options of the functions are in [fn_options].  The instance of LinearFunction read
    from a file is an argument, and so are the functions of the other types (function
    instances read from files, parsed expressions, plugins and Python functions): [fn_other]
    is None for the types which the factory does not know.

    Doubles are exact (Double.v): the sums of LinearFunction are not rounded.  The values of
    the functions of type 0 to 41 and 110 to 130 are integers below 2^53.  Those of LongPath
    are not always: beyond 2^53, where the maximum is not known, the code rounds them. *)

From Coq Require Import ZArith.
From Verif Require Import Base BitVector_Model Theory_Model Double Controller_Model Decorator_Model.
Local Open Scope nat_scope.

(** hnco-options.hh:249-258 *)
Record fn_options := mk_fn_options {
  fn_type : Z;
  fn_bv_size : Z;
  fn_threshold : Z;
  fn_num_traps : Z;
  fn_prefix_length : Z;
  fn_weights : outcome (list Z);
  fn_other : Z -> option (outcome func) }.

(** An integer as a double, and the sum of two doubles when it is exact *)
Definition dint (z : Z) : dbl := DFin (z * 2 ^ 1074).
Definition dplus (v : dbl) (z : Z) : dbl := match v with DFin a => DFin (a + z) | _ => v end.

(** A function which does not provide incremental evaluation: its size, its values (theory.cc,
    jump.cc, four-peaks.cc, trap.cc, long-path.cc, see Theory_Model), whether its maximum is
    known, and its maximum *)
Definition integer_function (n : nat) (ev : bv -> outcome Z) (known : bool) (maximum : outcome Z) : func :=
  mk_func unit (plain (fun x => v <- ev x ;; Ok (dint v))) tt
    (mk_fprops n (Ok known) (v <- maximum ;; Ok (dint v)) false).

(** theory.hh:39-68 and theory.cc:34-50 *)
Definition onemax_function (n : nat) : func :=
  mk_func unit (plain_inc (fun x => Ok (dint (onemax_evaluate x)))
      (fun x v l => d <- onemax_incremental x 0 l ;; Ok (dplus v (d * 2 ^ 1074))))
    tt (mk_fprops n (Ok true) (Ok (dint (onemax_maximum n))) true).

(** linear-function.hh and linear-function.cc:34-69, with weights as multiples of 2^-1074 *)
Definition linear_function (w : list Z) : func :=
  mk_func unit (plain_inc (fun x => v <- linear_evaluate w x ;; Ok (DFin v))
      (fun x v l => d <- linear_incremental w x 0 l ;; Ok (dplus v d)))
    tt (mk_fprops (length w) (Ok true) (Ok (DFin (linear_maximum w))) true).

(** function-factory.cc:53-58 and linear-function.hh:69-73: [w] is an int, which is doubled
    after each weight; an overflow is undefined. *)
Fixpoint doubling_weights (n : nat) (w : Z) : outcome (list Z) :=
  match n with
  | 0 => Ok []
  | S n' =>
      if (w * 2 <? 2 ^ 31)%Z then l <- doubling_weights n' (w * 2)%Z ;; Ok ((w * 2 ^ 1074)%Z :: l)
      else UB
  end.

(** The constructors take numbers of type int: assert on the number of traps (trap.hh:67) and
    on the length of the prefix (long-path.cc:41) *)
Definition positive_int (z : Z) : outcome nat := _ <- assertb (0 <? z)%Z ;; Ok (Z.to_nat z).

(** function-factory.cc:35-420; the exponent is in the file linear-function.hh:72 [assert(n > 0)] *)
Definition make_function (o : fn_options) : outcome func :=
  if (fn_bv_size o <=? 0)%Z then Throw RuntimeError
  else
    let n := Z.to_nat (fn_bv_size o) in
    let t := fn_threshold o in
    match fn_type o with
    | 0%Z => Ok (onemax_function n)
    | 1%Z => w <- fn_weights o ;; Ok (linear_function w)
    | 5%Z => w <- doubling_weights n 1 ;; Ok (linear_function w)
    | 10%Z => Ok (integer_function n (fun x => Ok (leadingones_evaluate x)) true (Ok (leadingones_maximum n)))
    | 11%Z => Ok (integer_function n (ridge_evaluate n) true (Ok (ridge_maximum n)))
    | 20%Z => Ok (integer_function n (fun x => Ok (needle_evaluate x)) true (Ok (needle_maximum n)))
    | 30%Z => _ <- jump_make n t ;; Ok (integer_function n (jump_evaluate n t) true (Ok (jump_maximum n)))
    | 31%Z => _ <- jump_make n t ;; Ok (integer_function n (deceptivejump_evaluate n t) true (Ok (deceptivejump_maximum n t)))
    | 40%Z => m <- peaks_make n t ;; Ok (integer_function n (fun x => Ok (fourpeaks_evaluate t x)) true (Ok m))
    | 41%Z => m <- peaks_make n t ;; Ok (integer_function n (fun x => Ok (sixpeaks_evaluate t x)) true (Ok m))
    | 110%Z =>
        k <- positive_int (fn_num_traps o) ;; s <- trap_make n k ;;
        Ok (integer_function n (trap_evaluate k s) true (Ok (trap_maximum n)))
    | 120%Z => d <- hiff_make n ;; Ok (integer_function n (hiff_evaluate n d) true (Ok (hiff_maximum n d)))
    | 130%Z => Ok (integer_function n (plateau_evaluate n) true (Ok (plateau_maximum n)))
    | 140%Z =>
        k <- positive_int (fn_prefix_length o) ;; _ <- longpath_make n k ;;
        Ok (integer_function n (longpath_evaluate n k) (longpath_has_known_maximum n k) (longpath_maximum n k))
    | t => match fn_other o t with Some F => F | None => Throw RuntimeError end
    end.
