(** Common vocabulary of the model: outcomes of C++ calls, list access with
    explicit undefined behaviour, and loops in the outcome monad. *)

From Coq Require Export List Arith ZArith Lia Bool.
Export ListNotations.

(** Exceptions thrown by the library: std::runtime_error (used everywhere),
    hnco::exception::LastEvaluation and hnco::exception::TargetReached
    (lib/hnco/exception.hh:30-43). [OtherException] stands for any exception
    thrown by user code. *)
Inductive exn : Type := RuntimeError | LastEvaluation | TargetReached | OtherException.

(** Outcome of a C++ call: a normal result, an exception, or undefined
    behaviour (out-of-range access or violated [assert]). *)
Inductive outcome (A : Type) : Type :=
| Ok (a : A)
| Throw (e : exn)
| UB.
Arguments Ok {A} a.
Arguments Throw {A} e.
Arguments UB {A}.

Definition bind {A B : Type} (m : outcome A) (k : A -> outcome B) : outcome B :=
  match m with
  | Ok a => k a
  | Throw e => Throw e
  | UB => UB
  end.

Notation "x <- m ;; k" := (bind m (fun x => k))
  (at level 61, m at next level, right associativity).
Notation "' p <- m ;; k" := (bind m (fun x => let p := x in k))
  (at level 61, p pattern, m at next level, right associativity).

(** assert(b) *)
Definition assertb (b : bool) : outcome unit := if b then Ok tt else UB.

(** ensure(b, message): lib/hnco/util.hh:36-40 *)
Definition ensureb (b : bool) : outcome unit := if b then Ok tt else Throw RuntimeError.

(** Element update; identity when the index is out of range. *)
Fixpoint upd {A : Type} (l : list A) (i : nat) (a : A) : list A :=
  match l, i with
  | [], _ => []
  | _ :: t, 0 => a :: t
  | h :: t, S i' => h :: upd t i' a
  end.

(** v[i] as an rvalue: UB when out of range. *)
Definition vget {A : Type} (l : list A) (i : nat) : outcome A :=
  match nth_error l i with Some a => Ok a | None => UB end.

(** v[i] = a: UB when out of range. *)
Definition vset {A : Type} (l : list A) (i : nat) (a : A) : outcome (list A) :=
  if i <? length l then Ok (upd l i a) else UB.

Fixpoint map2 {A B C : Type} (f : A -> B -> C) (l1 : list A) (l2 : list B) : list C :=
  match l1, l2 with
  | a :: t1, b :: t2 => f a b :: map2 f t1 t2
  | _, _ => []
  end.

(** for (x in l) s = body(s, x) *)
Fixpoint foldM {S A : Type} (f : S -> A -> outcome S) (l : list A) (s : S) : outcome S :=
  match l with
  | [] => Ok s
  | a :: t => bind (f s a) (fun s' => foldM f t s')
  end.
