(** Properties of the random number generator: C143. *)

From Coq Require Import ZArith Lia.
From Verif Require Import Base Random_Model Random_Spec.
Local Open Scope nat_scope.

Section Generator.
  Context {S U V : Type} (seeded : Z -> S) (draw_uniform : S -> U * S) (draw_normal : S -> V * S) (draw_bernoulli : S -> bool * S).
  Let run := calls_from seeded draw_uniform draw_normal draw_bernoulli.
  Let start : generator := initial seeded.
  Let final (cs : list call) : generator := snd (run start cs).
  Let after := after seeded draw_uniform draw_normal draw_bernoulli.

  Lemma run_app cs ds : forall g, run g (cs ++ ds) = (fst (run g cs) ++ fst (run (snd (run g cs)) ds), snd (run (snd (run g cs)) ds)).
  Proof using Type.
    unfold run. induction cs as [|c cs IH]; intros g; [cbn [app calls_from fst snd]; now destruct (calls_from _ _ _ _ g ds)|].
    cbn [app calls_from]. destruct (perform seeded draw_uniform draw_normal draw_bernoulli g c) as [a g']. rewrite IH.
    destruct (calls_from seeded draw_uniform draw_normal draw_bernoulli g' cs) as [l g'']. reflexivity.
  Qed.
  Lemma run_length cs : forall g, length (fst (run g cs)) = length cs.
  Proof using Type.
    unfold run. induction cs as [|c cs IH]; intros g; [reflexivity|]. cbn [calls_from]. destruct (perform seeded draw_uniform draw_normal draw_bernoulli g c) as [a g'].
    specialize (IH g'). destruct (calls_from seeded draw_uniform draw_normal draw_bernoulli g' cs) as [l g'']. cbn [fst length] in *. now rewrite IH.
  Qed.
  Lemma after_run h cs : after h cs = fst (run (final h) cs).
  Proof using Type.
    unfold after, Random_Spec.after, answers. fold run. fold start. rewrite run_app. cbn [fst]. rewrite <- (run_length h start), skipn_app, Nat.sub_diag, skipn_all. reflexivity.
  Qed.
  Lemma final_app h cs : final (h ++ cs) = snd (run (final h) cs).
  Proof using Type. unfold final. now rewrite run_app. Qed.

  (** Only the calls which give a seed change the seed. *)
  Lemma quiet_seed cs : (forall c n, In c cs -> ~ gives_seed c n) -> forall g, g_seed (snd (run g cs)) = g_seed g.
  Proof using Type.
    unfold run. induction cs as [|c cs IH]; intros H g; [reflexivity|]. cbn [calls_from].
    destruct (perform seeded draw_uniform draw_normal draw_bernoulli g c) as [a g'] eqn:E.
    assert (G : g_seed g' = g_seed g).
    { destruct c as [n|n| | | |]; cbn [perform] in E.
      - exfalso. apply (H _ n (or_introl eq_refl)). now left.
      - exfalso. apply (H _ n (or_introl eq_refl)). now right.
      - injection E as <- <-. reflexivity.
      - unfold uniform in E. destruct (draw_uniform (g_engine g)). injection E as <- <-. reflexivity.
      - unfold normal in E. destruct (draw_normal (g_engine g)). injection E as <- <-. reflexivity.
      - unfold bernoulli in E. destruct (draw_bernoulli (g_engine g)). injection E as <- <-. reflexivity. }
    specialize (IH (fun c' n' I => H c' n' (or_intror I)) g'). destruct (calls_from seeded draw_uniform draw_normal draw_bernoulli g' cs) as [l g'']. cbn [snd] in *. congruence.
  Qed.

  (** The seed which the generator reports is the last one given. *)
  Theorem C143_seed cs n : last_seed cs n -> final_seed seeded draw_uniform draw_normal draw_bernoulli cs = n.
  Proof using Type.
    unfold final_seed. fold run. fold start. fold (final cs). intros H. inversion H as [cs0 Q|before c n0 rest G Q]; subst.
    - unfold final. now rewrite quiet_seed.
    - rewrite final_app. cbn [calls_from run]. destruct G as [-> | ->]; unfold run; cbn [calls_from perform];
        (match goal with |- context [calls_from ?a ?b ?c ?d ?g rest] => pose proof (quiet_seed rest Q g) as K; unfold run in K; destruct (calls_from a b c d g rest) end; exact K).
  Qed.

  (** Programs which give the same seed get the same numbers, whatever they did before: what follows is a
      function of the seed. *)
  Theorem C143_same_seed h h' c c' n n' cs : gives_seed c n -> gives_seed c' n' -> (n mod 2 ^ 32 = n' mod 2 ^ 32)%Z ->
    after (h ++ [c]) cs = after (h' ++ [c']) cs.
  Proof using Type.
    intros G G' E. rewrite !after_run, !final_app. do 2 f_equal.
    destruct G as [-> | ->], G' as [-> | ->]; unfold run; cbn [calls_from perform snd]; unfold set_seed, set_seed_clock, unsigned_of; now rewrite E.
  Qed.

  (** After reset, the numbers which followed the last seed are drawn again, in whatever way numbers were drawn in
      between; if no seed was given, those from the start of the program. *)
  Theorem C143_replay h c n between cs : gives_seed c n -> (forall c' n', In c' between -> ~ gives_seed c' n') ->
    after (h ++ c :: between ++ [Reset]) cs = after (h ++ [c]) cs.
  Proof using Type.
    intros G Q. replace (h ++ c :: between ++ [Reset]) with ((h ++ [c]) ++ (between ++ [Reset])) by now rewrite <- app_assoc.
    rewrite !after_run, final_app, run_app. cbn [snd]. set (g := final (h ++ [c])). unfold run at 2. cbn [calls_from perform snd]. unfold reset. rewrite (quiet_seed between Q g).
    assert (E : mk_generator (seeded (g_seed g)) (g_seed g) = g).
    { unfold g. rewrite final_app. destruct G as [-> | ->]; reflexivity. }
    now rewrite E.
  Qed.
  Theorem C143_replay_start between cs : (forall c n, In c between -> ~ gives_seed c n) ->
    after (between ++ [Reset]) cs = after [] cs.
  Proof using Type.
    intros Q. rewrite !after_run, final_app. unfold run at 2. cbn [calls_from perform snd]. unfold reset.
    assert (E : g_seed (final between) = 5489%Z) by (unfold final; now rewrite quiet_seed). now rewrite E.
  Qed.

  (** The numbers are those of the distributions, drawn one after the other from the engine seeded
      with the last seed. *)
  Theorem C143_draws h c n cs l : gives_seed c n -> drawn draw_uniform draw_normal draw_bernoulli (seeded (n mod 2 ^ 32)%Z) cs l -> after (h ++ [c]) cs = l.
  Proof using Type.
    intros G D. rewrite after_run, final_app.
    assert (E : g_engine (snd (run (final h) [c])) = seeded (n mod 2 ^ 32)%Z) by (destruct G as [-> | ->]; reflexivity).
    rewrite <- E in D. generalize dependent (snd (run (final h) [c])). intros g D _. remember (g_engine g) as s eqn:Es. revert g Es.
    induction D as [s|s u s' cs l E D IH|s v s' cs l E D IH|s b s' cs l E D IH]; intros g ->; [reflexivity| | |]; unfold run in *; cbn [calls_from perform]; unfold uniform, normal, bernoulli; rewrite E;
      specialize (IH (mk_generator s' (g_seed g)) eq_refl); destruct (calls_from seeded draw_uniform draw_normal draw_bernoulli (mk_generator s' (g_seed g)) cs) as [l' g'];
      cbn [fst] in *; now rewrite IH.
  Qed.

  (** Without any seed, the program is the one with seed 5489: it draws the same numbers at each
      run. *)
  Theorem C143_default cs : after [] cs = after [SetSeed 5489] cs.
  Proof using Type. rewrite !after_run. reflexivity. Qed.
End Generator.
Print Assumptions C143_seed.
Print Assumptions C143_same_seed.
Print Assumptions C143_replay.
Print Assumptions C143_replay_start.
Print Assumptions C143_draws.
Print Assumptions C143_default.

(** A generator whose state is a number: uniform draws it, normal its square. *)
Definition example_seeded (n : Z) : Z := (n + 1)%Z.
Definition example_after : list call -> list call -> list (answer Z Z) :=
  after example_seeded (fun s => (s, (s + 3)%Z)) (fun s => ((s * s)%Z, (s + 5)%Z)) (fun s => (Z.even s, (s + 1)%Z)).
Example C143_case :
  example_after [Uniform; SetSeed 7] [Uniform; Normal; Bernoulli] = [AUniform 8; ANormal 121; ABernoulli true]%Z /\
  example_after [SetSeedClock (7 + 2 ^ 32)] [Uniform; Normal; Bernoulli] = [AUniform 8; ANormal 121; ABernoulli true]%Z /\
  example_after [SetSeed 7; Normal; Uniform; Reset] [Uniform; Normal; Bernoulli] = [AUniform 8; ANormal 121; ABernoulli true]%Z /\
  example_after [Normal; Reset] [Uniform] = [AUniform 5490]%Z /\ example_after [] [Uniform] = [AUniform 5490]%Z /\
  example_after [SetSeed 7; Normal] [Uniform] <> example_after [SetSeed 7] [Uniform] /\
  last_seed [Uniform; SetSeedClock (-1); Normal; Reset] (2 ^ 32 - 1).
Proof.
  repeat match goal with |- _ /\ _ => split end; try (vm_compute; congruence).
  apply (given [Uniform] (SetSeedClock (-1)) (-1) [Normal; Reset]); [now right|]. intros c n [<-|[<-|[]]] [K|K]; discriminate.
Qed.
