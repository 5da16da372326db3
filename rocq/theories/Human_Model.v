(** Model of the algorithm played by its user: lib/hnco/algorithms/human.cc, made by
    algorithm-factory.cc:120-126.

    The standard input is the list of its words.  The questions, the warnings and the values
    which are printed during the run are left out. *)

From Coq Require Import ZArith String.
From Verif Require Import Base BitVector_Model Double Controller_Model Application_Model Search_Model.
Local Open Scope nat_scope.
Local Open Scope list_scope.

(** What the user answers: a vector, "quit", or nothing for ever, with the words which are left *)
Inductive answer := Answered (x : bv) (rest : list string) | Quit (rest : list string) | Forever.

(** human.cc:33-53: after the end of the input, operator>> gives the empty string, again and again *)
Fixpoint parse_bit_vector (n : nat) (words : list string) : answer :=
  match words with
  | [] => if length (bv_from_string ""%string) <? n then Forever else Answered [] []
  | str :: rest =>
      if String.eqb str "quit"%string then Quit rest
      else
        let candidate := bv_from_string str in
        if length candidate <? n then parse_bit_vector n rest
        else Answered (firstn n candidate) rest
  end.

(** The words which are left, the number of evaluations in the run of maximize and the solution.
    human.cc:56-75 with iterative-algorithm.cc:27-57 and algorithm.cc:44-59; the size is that of
    the solution (algorithm.hh:152). *)
Record human_state := mk_human { hu_words : list string; hu_calls : nat; hu_solution : bv * dbl }.
Definition hu_answer (st : human_state) : answer := parse_bit_vector (length (fst (hu_solution st))) (hu_words st).
Definition human_machine (n : nat) (num : Z) (words : list string) : machine :=
  mk_machine human_state
    (mk_human words 0 (repeat false n, DFin 0))
    (fun st => mk_human (hu_words st) 0 (hu_solution st))
    (fun st =>
       if (negb (hu_calls st =? 0) && (0 <? num)%Z && (num <=? Z.of_nat (hu_calls st - 1))%Z) then MReturn
       else match hu_answer st with
            | Answered x _ => MCall (REval x)
            | Quit _ => MThrow LastEvaluation
            | Forever => MSilent
            end)
    (fun st a =>
       match hu_answer st, a with
       | Answered x rest, Ok (RValue v) =>
           mk_human rest (hu_calls st + 1) (if hu_calls st =? 0 then (x, v) else update_pair x v (hu_solution st))
       | Answered _ rest, _ => mk_human rest (hu_calls st) (hu_solution st)
       | _, _ => st
       end)
    (fun st => st)
    hu_solution.
Definition make_human (num : Z) (words : list string) (n : nat) : outcome machine :=
  _ <- ensureb (0 <? n) ;; Ok (human_machine n num words).
