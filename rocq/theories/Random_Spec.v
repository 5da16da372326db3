(** Vocabulary of the statements about the random number generator. *)

From Coq Require Import ZArith.
From Verif Require Import Base Random_Model.
Local Open Scope nat_scope.

(** The calls which give a seed *)
Definition gives_seed (c : call) (n : Z) : Prop := c = SetSeed n \/ c = SetSeedClock n.

(** The seed given by the last call which gives one, if any; seeds are kept modulo 2^32. *)
Inductive last_seed : list call -> Z -> Prop :=
| never_given cs : (forall c n, In c cs -> ~ gives_seed c n) -> last_seed cs 5489
| given before c n after : gives_seed c n -> (forall c' n', In c' after -> ~ gives_seed c' n') -> last_seed (before ++ c :: after) (n mod 2 ^ 32).

(** What is answered to the calls [cs] after the calls [history] *)
Definition after {S U V : Type} (seeded : Z -> S) (draw_uniform : S -> U * S) (draw_normal : S -> V * S) (draw_bernoulli : S -> bool * S)
    (history cs : list call) : list (answer U V) :=
  skipn (length history) (answers seeded draw_uniform draw_normal draw_bernoulli (history ++ cs)).

(** The numbers drawn one after the other from a state of the engine *)
Inductive drawn {S U V : Type} (draw_uniform : S -> U * S) (draw_normal : S -> V * S) (draw_bernoulli : S -> bool * S) : S -> list call -> list (answer U V) -> Prop :=
| drawn_none s : drawn draw_uniform draw_normal draw_bernoulli s [] []
| drawn_uniform s u s' cs l : draw_uniform s = (u, s') -> drawn draw_uniform draw_normal draw_bernoulli s' cs l ->
    drawn draw_uniform draw_normal draw_bernoulli s (Uniform :: cs) (AUniform u :: l)
| drawn_normal s v s' cs l : draw_normal s = (v, s') -> drawn draw_uniform draw_normal draw_bernoulli s' cs l ->
    drawn draw_uniform draw_normal draw_bernoulli s (Normal :: cs) (ANormal v :: l)
| drawn_bernoulli s b s' cs l : draw_bernoulli s = (b, s') -> drawn draw_uniform draw_normal draw_bernoulli s' cs l ->
    drawn draw_uniform draw_normal draw_bernoulli s (Bernoulli :: cs) (ABernoulli b :: l).
