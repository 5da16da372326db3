(** Model of the random number generator, lib/hnco/random.cc.  The engine is an argument:
    std::mt19937, given by its state after seeding and by what the distributions of the standard
    library draw from it. *)

From Coq Require Import ZArith.
From Verif Require Import Base.
Local Open Scope nat_scope.

Section Generator.
  (** States of the engine, and the values of the three distributions *)
  Context {S U V : Type}.
  Context (seeded : Z -> S)  (** std::mt19937::seed *)
    (draw_uniform : S -> U * S) (draw_normal : S -> V * S) (draw_bernoulli : S -> bool * S).

  (** The static members of Generator, random.hh:34-41 *)
  Record generator := mk_generator { g_engine : S; g_seed : Z }.

  (** Conversion to unsigned, of 32 bits *)
  Definition unsigned_of (z : Z) : Z := (z mod 2 ^ 32)%Z.

  (** random.cc:28-30: the default constructor of the engine seeds it with default_seed, which is
      5489. *)
  Definition default_seed : Z := 5489.
  Definition initial : generator := mk_generator (seeded default_seed) default_seed.

  (** random.cc:33-37 *)
  Definition set_seed (n : Z) (g : generator) : generator :=
    let seed := unsigned_of n in mk_generator (seeded seed) seed.
  (** random.cc:39-43; [count] is what the clock gives *)
  Definition set_seed_clock (count : Z) (g : generator) : generator :=
    let seed := unsigned_of count in mk_generator (seeded seed) seed.
  (** random.cc:45-48 *)
  Definition reset (g : generator) : generator := mk_generator (seeded (g_seed g)) (g_seed g).

  (** random.cc:50-66.  The distributions are local: they keep nothing from one call to the
      next. *)
  Definition uniform (g : generator) : U * generator := let '(u, s) := draw_uniform (g_engine g) in (u, mk_generator s (g_seed g)).
  Definition normal (g : generator) : V * generator := let '(v, s) := draw_normal (g_engine g) in (v, mk_generator s (g_seed g)).
  Definition bernoulli (g : generator) : bool * generator := let '(b, s) := draw_bernoulli (g_engine g) in (b, mk_generator s (g_seed g)).

  (** A call to a member function and what it returns *)
  Inductive call := SetSeed (n : Z) | SetSeedClock (count : Z) | Reset | Uniform | Normal | Bernoulli.
  Inductive answer := Nothing | AUniform (u : U) | ANormal (v : V) | ABernoulli (b : bool).
  Definition perform (g : generator) (c : call) : answer * generator :=
    match c with
    | SetSeed n => (Nothing, set_seed n g)
    | SetSeedClock count => (Nothing, set_seed_clock count g)
    | Reset => (Nothing, reset g)
    | Uniform => let '(u, g) := uniform g in (AUniform u, g)
    | Normal => let '(v, g) := normal g in (ANormal v, g)
    | Bernoulli => let '(b, g) := bernoulli g in (ABernoulli b, g)
    end.
  (** The calls of a program, from the start *)
  Fixpoint calls_from (g : generator) (cs : list call) : list answer * generator :=
    match cs with
    | [] => ([], g)
    | c :: cs => let '(a, g) := perform g c in let '(l, g) := calls_from g cs in (a :: l, g)
    end.
  Definition answers (cs : list call) : list answer := fst (calls_from initial cs).
  Definition final_seed (cs : list call) : Z := g_seed (snd (calls_from initial cs)).
End Generator.
Arguments answer : clear implicits.
