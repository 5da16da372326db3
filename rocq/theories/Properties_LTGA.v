(** C147: the Linkage Tree Genetic Algorithm. *)

From Coq Require Import Lia Permutation.
From Verif Require Import Base Double Pyramid_Model Pyramid_Spec Pyramid_Proofs LTGA_Model LTGA_Spec LTGA_Proofs.
Local Open Scope nat_scope.

Section Any.
  Context (n : nat) (f : list bool -> outcome dbl) (trees : nat -> tree_draws) (donors : nat -> nat -> nat -> nat)
    (shuffle : nat -> list (list bool) -> list (list bool)).
  Context (N : 0 < n) (O : orders n trees) (SH : shuffles shuffle).

  (** The initial population: the random vectors, without one of them if their number is
      odd, in pairs; each vector has been evaluated. Only the exceptions of the function get
      out. *)
  Theorem C147_start xs :
    (forall x, length x = n -> f x <> UB) -> (forall x, In x xs -> length x = n) ->
    ends n f (ltga_make f shuffle xs) (fun g => ltga_sound n f g /\ g_set g = [] /\
      exists dropped, Permutation xs (g_solutions g ++ dropped) /\ length dropped = length xs mod 2).
  Proof. intros F L. now apply make_spec. Qed.

  (** One generation: each solution is replaced with one which is no worse; it is the last
      one if and only if the population is made of the same vectors as the previous one. *)
  Theorem C147_iteration g :
    (forall x, length x = n -> f x <> UB) -> ltga_sound n f g ->
    ends n f (ltga_iterate n f trees donors shuffle g) (fun '(g', continue) => ltga_sound n f g' /\
      (exists offspring, Forall2 (improved f) (g_solutions g) offspring /\ Permutation offspring (g_solutions g')) /\
      (continue = false <-> same_elements (g_solutions g') (g_set g)) /\ same_elements (g_set g') (g_solutions g')).
  Proof. intros F V. now apply ltga_iterate_spec. Qed.

  (** A whole run, for any number of generations: if it stops, the population is sound, has
      an even number of solutions, and each random vector but perhaps one is followed by a
      solution which is no worse. *)
  Theorem C147_run fuel xs :
    (forall x, length x = n -> f x <> UB) -> (forall x, In x xs -> length x = n) ->
    ends n f (ltga_run n f trees donors shuffle fuel xs) (fun r => match r with
      | Some g => ltga_sound n f g /\ length (g_solutions g) = 2 * (length xs / 2) /\
          exists kept dropped, Permutation xs (kept ++ dropped) /\ length dropped = length xs mod 2 /\
            forall x, In x kept -> exists y, In y (g_solutions g) /\ improved f x y
      | None => True
      end).
  Proof.
    intros F L. unfold ltga_run. eapply ends_bind; [now apply C147_start|]. intros g (V & _ & d & P & LD).
    pose proof (ltga_loop_spec n f trees donors shuffle N O SH F fuel g V) as H. destruct (ltga_loop n f trees donors shuffle fuel g) as [[g'|]|e|]; cbn [ends] in *; auto.
    destruct H as (V' & LL & E). split; [exact V'|]. split; [|exists (g_solutions g), d; split; [exact P|split; [exact LD|exact E]]].
    apply Permutation_length in P. rewrite app_length in P. pose proof (Nat.div_mod_eq (length xs) 2). lia.
  Qed.

  (** A population of one vector: it is evaluated, it does not enter the population, and the
      algorithm stops at once. *)
  Theorem C147_one fuel x v :
    f x = Ok v -> exists g, ltga_run n f trees donors shuffle (S fuel) [x] = Ok (Some g) /\ g_solutions g = [].
  Proof.
    intros E. unfold ltga_run, ltga_make. cbn [foldM]. rewrite E. cbn [bind].
    assert (S0 : forall t, shuffle t [x] = [x]) by (intros t; apply Permutation_length_1_inv, SH).
    assert (S1 : forall t, shuffle t [] = []) by (intros t; apply Permutation_nil, SH).
    rewrite S0. cbn [binary_insert ltga_loop]. unfold ltga_iterate, generation, offspring_loop. cbn [g_population length seq foldM bind]. rewrite S1.
    cbn [binary_insert bind]. unfold g_solutions, same_set. cbn. eexists. split; reflexivity.
  Qed.

  (** With two vectors or more the first generation is never the last one. *)
  Theorem C147_goes_on xs g g' continue :
    (forall x, length x = n -> f x <> UB) -> (forall x, In x xs -> length x = n) -> 2 <= length xs ->
    ltga_make f shuffle xs = Ok g -> ltga_iterate n f trees donors shuffle g = Ok (g', continue) -> continue = true.
  Proof.
    intros F L2 L MK IT. pose proof (C147_start xs F L2) as H. rewrite MK in H. destruct H as (V & ES & d & P & LD).
    pose proof (C147_iteration g F V) as H. rewrite IT in H. destruct H as (_ & (o & FO & PO) & C & _). destruct continue; [reflexivity|]. exfalso.
    pose proof (same_length _ _ _ _ FO PO) as LL. apply Permutation_length in P. rewrite app_length in P. pose proof (Nat.mod_upper_bound (length xs) 2).
    destruct (g_solutions g') as [|y l] eqn:EG; [cbn in LL; lia|]. pose proof (proj1 C eq_refl y) as D. rewrite ES in D. apply D. now left.
  Qed.

  (** A population all solutions of which are the same vector: nothing more is evaluated
      (whatever the function is), and the algorithm stops after at most two generations. *)
  Theorem C147_converged fuel g x :
    length x = n -> (forall y, In y (g_solutions g) -> y = x) ->
    exists g', ltga_loop n f trees donors shuffle (S (S fuel)) g = Ok (Some g') /\ forall y, In y (g_solutions g') -> y = x.
  Proof.
    intros LX A. destruct (generation_same n f trees donors shuffle g x N O SH LX A) as (g1 & E1 & A1 & S1 & L1).
    cbn [ltga_loop]. unfold ltga_iterate at 1. rewrite E1. cbn [bind]. destruct (same_set (g_solutions g1) (g_set g1)); cbn [bind]; [exists g1; now split|].
    set (h := mk_ltga (g_population g1) (g_fitnesses g1) (g_solutions g1) (g_time g1)).
    destruct (generation_same n f trees donors shuffle h x N O SH LX A1) as (g2 & E2 & A2 & S2 & L2).
    unfold ltga_iterate. rewrite E2. cbn [bind]. replace (same_set (g_solutions g2) (g_set g2)) with true; [cbn [bind]; exists g2; now split|].
    symmetry. apply same_set_spec. rewrite S2. change (g_set h) with (g_solutions g1).
    assert (LL : length (g_solutions g2) = length (g_solutions g1)).
    { rewrite L2. change (g_solutions h) with (g_solutions g1). rewrite L1. set (k := length (g_solutions g) / 2). replace (2 * k / 2) with k by (rewrite Nat.mul_comm; symmetry; apply Nat.div_mul; lia). reflexivity. }
    rewrite (all_same x _ A2), (all_same x _ A1), LL. intros y. reflexivity.
  Qed.
End Any.
Print Assumptions C147_start.
Print Assumptions C147_iteration.
Print Assumptions C147_run.
Print Assumptions C147_one.
Print Assumptions C147_goes_on.
Print Assumptions C147_converged.

(** OneMax with four bits. *)
Definition C147_onemax (x : list bool) : outcome dbl := Ok (DFin (Z.of_nat (length (filter (fun b => b) x)))).
Definition C147_trees (t : nat) : tree_draws := mk_tree_draws [2; 0; 3; 1] (fun s => (t + s, s)) (fun _ => true).
Definition C147_donors (t i k : nat) : nat := t + i + k.
Definition C147_shuffle (t : nat) (l : list (list bool)) : list (list bool) := rev l.
Definition C147_xs : list (list bool) :=
  [[true; false; false; false]; [false; true; true; false]; [false; false; false; true]; [true; false; true; false]; [true; true; false; false]].

Example C147_case :
  match ltga_make C147_onemax C147_shuffle C147_xs with
  | Ok g => g_population g =
      [([true; true; false; false], true); ([true; false; true; false], false); ([false; true; true; false], true); ([false; false; false; true], false)]
  | _ => False
  end /\
  match ltga_run 4 C147_onemax C147_trees C147_donors C147_shuffle 10 C147_xs with
  | Ok (Some g) => g_solutions g = repeat [true; true; true; true] 4
  | _ => False
  end.
Proof. vm_compute. split; reflexivity. Qed.

Example C147_hypotheses :
  orders 4 C147_trees /\ shuffles C147_shuffle /\ (forall x, length x = 4 -> C147_onemax x <> UB) /\ (forall x, In x C147_xs -> length x = 4) /\ 2 <= length C147_xs /\
  exists g, ltga_make C147_onemax C147_shuffle C147_xs = Ok g /\ ltga_sound 4 C147_onemax g.
Proof.
  assert (SH : shuffles C147_shuffle) by (intros t l; apply Permutation_rev).
  assert (F : forall x, length x = 4 -> C147_onemax x <> UB) by discriminate.
  assert (L : forall x, In x C147_xs -> length x = 4).
  { intros x H. cbn in H. repeat (destruct H as [<-|H]; [reflexivity|]). destruct H. }
  assert (O : orders 4 C147_trees).
  { intros t. cbn. split; [repeat (constructor; [cbn; lia|]); constructor|]. intros i. lia. }
  split; [exact O|]. split; [exact SH|]. split; [exact F|]. split; [exact L|]. split; [cbn; lia|].
  pose proof (C147_start 4 C147_onemax C147_donors C147_shuffle SH C147_xs F L) as H.
  destruct (ltga_make C147_onemax C147_shuffle C147_xs) as [g|e|] eqn:E; [|vm_compute in E; discriminate E|vm_compute in E; discriminate E].
  exists g. split; [reflexivity|apply H].
Qed.
