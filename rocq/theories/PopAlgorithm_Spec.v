(** Vocabulary for the statements about algorithms that evaluate several vectors
    per iteration. *)

From Verif Require Import Base BitVector_Model Algorithm_Model Algorithm_Spec.

(** [sol] is a best vector of [T], with its value. *)
Definition top_of (o : objective) (T : list (list bool)) (sol : list bool * Z) : Prop :=
  In (fst sol) T /\ snd sol = o_value o (fst sol) /\ forall y, In y T -> (o_value o y <= snd sol)%Z.

(** The solution takes into account all the evaluations but the last ones, in number
    less than [lag]. *)
Definition lagging {X} (o : objective) (lag : nat) (s : alg X) : Prop :=
  exists pre post, a_trace s = pre ++ post /\ length post < lag /\ top_of o pre (a_sol s).

(** At the end of a run: if it was not interrupted the solution is a best vector
    among all those evaluated; if it was interrupted by an exception, which comes from
    the function, the solution is a best vector among all those evaluated but the last
    ones, in number less than [lag]. *)
Definition run_top {X} (o : objective) (lag : nat) (r : res unit) (s : alg X) : Prop :=
  match r with
  | Ret _ => top_of o (a_trace s) (a_sol s)
  | Exc e => o_stop o (length (a_trace s)) = Some e /\ (a_trace s = [] \/ lagging o lag s)
  | Bad => False
  | Pending => lagging o lag s
  end.
