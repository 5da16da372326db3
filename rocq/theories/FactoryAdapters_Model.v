(** Model of the functions over categories and permutations made by
    CommandLineFunctionFactory::make: sudoku, function-factory.cc:203-223, and the traveling
    salesman problem, function-factory.cc:225-232.

    The contents of the file of a sudoku are an argument, None if it cannot be opened; so is
    the matrix of distances of a traveling salesman problem, in units of 2^-1074, whose sums
    are not rounded. *)

From Coq Require Import ZArith NArith String.
From Verif Require Import Base BitVector_Model Representation_Model Collection_Model Sudoku_Model Double Controller_Model Decorator_Model FunctionFactory_Model.
Local Open Scope list_scope.
Local Open Scope nat_scope.

(** The 9 categories of a cell: function-factory.cc:208-222 *)
Definition digit_rep (kind : Z) : outcome (rep N) :=
  match kind with
  | 0%Z => r <- intcat_make 64 9 ;; Ok (intcat_rep r)
  | 1%Z => r <- lincat_make 32 9 ;; Ok (lincat_rep r)
  | _ => Throw RuntimeError
  end.

(** MultivariateFunctionAdapter::evaluate, multivariate-function-adapter.hh:109-113, with a
    function which is an object; the converter is the identity.  After an assertion is violated
    the object does not matter. *)
Definition sudoku_adapter (reps : list (rep N)) : fobj sudoku := fun s r =>
  match r with
  | REval x | RSafe x =>
      match adapter_evaluate reps (fun vs => sudoku_evaluate s (map N.to_nat vs)) x with
      | Ok (v, s') => (s', Ok (RValue (dint v)))
      | Throw e => (s, Throw e)
      | UB => (s, UB)
      end
  | RInc _ _ _ => (s, Throw RuntimeError)
  | RUpdate _ _ => (s, Ok RVoid)
  end.

(** function-factory.cc:203-223, sudoku.hh:97-104, multivariate-function-adapter.hh:85-91 *)
Definition sudoku_function (kind : Z) (file : option string) : outcome func :=
  match file with
  | None => Throw RuntimeError
  | Some text =>
      s <- sudoku_load sudoku_make text ;;
      r <- digit_rep kind ;;
      match s_num s with
      | None => UB
      | Some num =>
          let reps := repeat r num in
          Ok (mk_func sudoku (sudoku_adapter reps) s (default_props (total_size reps) false))
      end
  end.

(** MultivariateFunctionAdapter::describe and Sudoku::describe: the grid which is shown,
    multivariate-function-adapter.hh:127-130, sudoku.cc:201-206 *)
Definition sudoku_describe (reps : list (rep N)) (s : sudoku) (x : bv) : outcome (list (list nat)) :=
  '(vs, _) <- unpack_vars reps x 0 ;;
  s' <- write_variables s (map N.to_nat vs) ;;
  Ok (s_candidate s').

(** PermutationFunctionAdapter, permutation-function-adapter.hh:54-84.  The state is the number
    of permutations unpacked so far: [sh k] is std::shuffle in the unpacking number [k]. *)
Definition tsp_adapter (d : list (list Z)) (r : permrep) (sh : nat -> list nat -> list nat) (srt : (nat -> nat -> bool) -> list nat -> list nat) : fobj nat := fun k q =>
  match q with
  | REval x | RSafe x =>
      (k + 1, _ <- assertb (List.length x =? pr_size r) ;;
              p <- permrep_unpack (sh k) srt r (repeat 0 (List.length d)) x 0 ;;
              v <- tsp_evaluate d p ;;
              Ok (RValue (DFin v)))
  | RInc _ _ _ => (k, Throw RuntimeError)
  | RUpdate _ _ => (k, Ok RVoid)
  end.

(** function-factory.cc:225-232, permutation-function-adapter.hh:64-74; [additional] is the
    number of additional bits per element *)
Definition tsp_function (lg : Z -> nat) (d : list (list Z)) (additional : Z) (sh : nat -> list nat -> list nat) (srt : (nat -> nat -> bool) -> list nat -> list nat) : outcome func :=
  _ <- assertb (0 <? additional)%Z ;;
  r <- permrep_make lg (List.length d) (Z.to_nat additional) ;;
  _ <- ensureb (pr_num r =? List.length d) ;;
  Ok (mk_func nat (tsp_adapter d r sh srt) 0 (default_props (pr_size r) false)).
