(** Vocabulary shared by the models of algorithms that handle populations. *)

From Verif Require Import Base BitVector_Model Neighborhood_Model Algorithm_Model Population_Model.

(** for loop over a list of indices *)
Fixpoint afor {S} (f : nat -> act S unit) (l : list nat) : act S unit :=
  match l with
  | [] => aret tt
  | i :: l' => _ <~ f i ;; afor f l'
  end.

(** A computation that does not touch the state *)
Definition lift {S A} (o : outcome A) : act S A := fun s => (of_outcome o, s).

Section PopulationMember.
  (** A population among the members [X] of an algorithm. *)
  Context {X : Type} (get : X -> population) (put : population -> X -> X).

  Definition on_pop (f : population -> outcome population) : act (alg X) unit :=
    on_mem (fun m => p <- f (get m) ;; Ok (tt, put p m)).

  (** Population::evaluate: population.cc:42-50. The evaluation of an individual may
      throw: the values of the previous ones are stored. Parallel evaluation
      (_functions.size() > 1) is not modelled here, see [pop_evaluate_in_parallel]. *)
  Definition eval_pop (o : objective) : act (alg X) unit :=
    p <~ aget (fun s => get (a_mem s)) ;;
    _ <~ aassert (length (p_bvs p) =? length (p_values p)) ;;
    afor (fun i =>
      p <~ aget (fun s => get (a_mem s)) ;;
      b <~ lift (vget (p_bvs p) i) ;;
      v <~ evaluate o b ;;
      on_pop (fun p => vs <- vset (p_values p) i v ;; Ok (mk_pop (p_bvs p) vs (p_perm p))))
      (seq 0 (pop_size p)).

  (** population.sort(); update_solution(population.get_best_bv(), population.get_best_value()) *)
  Definition sort_pop (sh : list nat -> list nat) (srt : (nat -> nat -> bool) -> list nat -> list nat) : act (alg X) unit :=
    on_pop (fun p => Ok (pop_sort sh srt p)).
  Definition update_with_best : act (alg X) unit :=
    p <~ aget (fun s => get (a_mem s)) ;;
    b <~ lift (best_bv p 0) ;;
    v <~ lift (best_value p 0) ;;
    update_solution b v.
End PopulationMember.
