(** C146: the Parameter-less Population Pyramid. *)

From Coq Require Import Lia.
From Verif Require Import Base Double Pyramid_Model Pyramid_Spec Pyramid_Proofs.
Local Open Scope nat_scope.

(** For every function, every set of genes, and all vectors [x], of value [v], and [y]:
    let [z] be the vector [x] with the genes of [y].  If it is [x], then nothing is
    evaluated and nothing changes.  Otherwise it is evaluated, and it takes the place of
    [x] if and only if its value is at least [v]; if the function throws an exception then
    it gets out.  The vector [y], a solution of the population, never changes. *)
Theorem C146_donate f n c x y v :
  length x = n -> length y = n -> genes n c ->
  exists z, crossed c x y z /\
    (z = x -> donate f x v y c = Ok (false, x, v, y)) /\
    (z <> x ->
      (forall w, f z = Ok w -> dle v w = true -> donate f x v y c = Ok (true, z, w, y)) /\
      (forall w, f z = Ok w -> dle v w = false -> donate f x v y c = Ok (true, x, v, y)) /\
      (forall e, f z = Throw e -> donate f x v y c = Throw e)).
Proof.
  intros LX LY G. exists (cross c x y). split; [apply cross_crossed; congruence|]. pose proof (donate_spec f n c x v y LX LY G) as D.
  destruct (seen_dec (cross c x y) x) as [EQ|NE]; (split; [intros H; congruence|]); intros NZ; [congruence|]. split; [|split].
  - intros w E L. now rewrite E, L in D.
  - intros w E L. now rewrite E, L in D.
  - intros e E. now rewrite E in D.
Qed.
Print Assumptions C146_donate.

(** Whatever is drawn, and whatever the distances are, the clusters of genes are sets of
    genes, neither empty nor full: no crossover copies a whole solution. *)
Theorem C146_clusters n trees t c :
  orders n trees -> 0 < n -> In c (rebuild_tree n (trees t)) -> proper n c.
Proof. intros O N I. pose proof (rebuild_proper n trees t O N) as H. rewrite Forall_forall in H. now apply H. Qed.
Print Assumptions C146_clusters.

(** One iteration, from a random vector [x].  It is never undefined, it ends, and only the
    exceptions of the function get out.  Otherwise the pyramid keeps its solutions, it
    contains [x], it has at most one more level; the solution [y] which is reached has the
    value which is reported, which is no worse than that of [x] and is that of a solution
    of the pyramid. *)
Theorem C146_iteration n f trees donors p x :
  0 < n -> orders n trees -> (forall x, length x = n -> f x <> UB) -> sound n f p -> length x = n ->
  ends n f (iterate n f trees donors p x) (fun '(q, y, w) =>
    sound n f q /\ extends p q /\ In x (solutions_of q) /\
    length y = n /\ f y = Ok w /\ (exists v, f x = Ok v /\ no_worse v w) /\
    (exists z, In z (solutions_of q) /\ f z = Ok w) /\
    length (y_levels q) <= S (length (y_levels p))).
Proof. intros N O F V L. now apply iterate_spec. Qed.
Print Assumptions C146_iteration.

(** Any number of iterations, from the empty pyramid.  In particular the best solution of
    the pyramid is no worse than the best random vector. *)
Theorem C146_run n f trees donors xs :
  0 < n -> orders n trees -> (forall x, length x = n -> f x <> UB) -> (forall x, In x xs -> length x = n) ->
  ends n f (iterations n f trees donors xs) (fun q =>
    sound n f q /\ (forall x, In x xs -> In x (solutions_of q)) /\ length (y_levels q) <= length xs).
Proof.
  intros N O F LX. pose proof (iterations_from n f trees donors N O F xs pyramid_make (sound_make n f) LX) as H.
  unfold iterations. destruct (foldM _ xs pyramid_make) as [q|e|]; cbn [ends] in *; [|exact H|exact H].
  destruct H as (V & _ & I & L). split; [exact V|]. split; [exact I|exact L].
Qed.
Print Assumptions C146_run.

(** A function which always has a value: the run ends normally. *)
Theorem C146_total n f trees donors xs :
  0 < n -> orders n trees -> (forall x, length x = n -> exists v, f x = Ok v) -> (forall x, In x xs -> length x = n) ->
  exists q, iterations n f trees donors xs = Ok q.
Proof.
  intros N O F LX. assert (FU : forall x, length x = n -> f x <> UB) by (intros x L E; destruct (F x L); congruence).
  pose proof (C146_run n f trees donors xs N O FU LX) as H. destruct (iterations n f trees donors xs) as [q|e|]; [now exists q| |destruct H].
  destruct H as (y & L & E). destruct (F y L). congruence.
Qed.
Print Assumptions C146_total.

(** OneMax with four bits. *)
Definition C146_onemax (x : list bool) : outcome dbl := Ok (DFin (Z.of_nat (length (filter (fun b => b) x)))).
Definition C146_trees (t : nat) : tree_draws := mk_tree_draws [2; 0; 3; 1] (fun s => (t + s, s)) (fun _ => true).
Definition C146_donors (t k : nat) : nat := t + k.
Definition C146_xs : list (list bool) := [[true; false; false; false]; [false; true; true; false]; [false; false; false; true]; [true; false; false; false]].

Example C146_case :
  match iterations 4 C146_onemax C146_trees C146_donors C146_xs with
  | Ok q => map p_solutions (y_levels q) =
      [[[true; false; false; false]; [false; true; true; false]; [false; false; false; true]];
       [[true; true; true; false]; [false; true; true; true]];
       [[true; true; true; true]]]
  | _ => False
  end /\
  donate C146_onemax [true; false; false; false] (DFin 1) [false; true; true; false] [1; 2] = Ok (true, [true; true; true; false], DFin 3, [false; true; true; false]) /\
  donate C146_onemax [true; false; false; false] (DFin 1) [false; true; true; false] [0] = Ok (true, [true; false; false; false], DFin 1, [false; true; true; false]) /\
  donate C146_onemax [true; false; false; false] (DFin 1) [false; true; true; false] [3] = Ok (false, [true; false; false; false], DFin 1, [false; true; true; false]).
Proof. vm_compute. repeat split. Qed.

Example C146_hypotheses :
  orders 4 C146_trees /\ (forall x, length x = 4 -> exists v, C146_onemax x = Ok v) /\ (forall x, length x = 4 -> C146_onemax x <> UB) /\
  (forall x, In x C146_xs -> length x = 4) /\ sound 4 C146_onemax pyramid_make /\ genes 4 [1; 2] /\ length (rebuild_tree 4 (C146_trees 0)) = 6.
Proof.
  split; [|split; [|split; [|split; [|split; [|split]]]]].
  - intros t. cbn. split; [repeat (constructor; [cbn; lia|]); constructor|]. intros i. lia.
  - intros x _. eexists. reflexivity.
  - intros x _. discriminate.
  - intros x H. cbn in H. repeat (destruct H as [<-|H]; [reflexivity|]). destruct H.
  - apply sound_make.
  - split; [repeat (constructor; [cbn; lia|]); constructor|]. intros i H. cbn in H. lia.
  - reflexivity.
Qed.
