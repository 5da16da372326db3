(** Properties of the basic algorithms: C39-C42 and C59-C61. *)

From Coq Require Import QArith.
From Verif Require Import Base BitVector_Model BitVector_Spec Iterator_Model Map_Spec Neighborhood_Model Neighborhood_Spec
  Algorithm_Model Algorithm_Spec Algorithm_Proofs HillClimbing_Proofs LocalSearch_Proofs.
Local Open Scope nat_scope.

(** An objective for the examples: the number of ones, with incremental evaluation,
    which throws at evaluation number [stop]. *)
Definition ones (x : list bool) : Z := Z.of_nat (length (filter (fun b => b) x)).
Definition example_objective (stop : nat) : objective :=
  mk_objective ones (fun c => if c =? stop then Some LastEvaluation else None) true
    (fun x v l => fold_left (fun v i => if nth i x false then v - 1 else v + 1)%Z l v).
Definition example_draws : draws := mk_draws (fun _ => 1 # 2)%Q [2; 1; 0] 2 [2] [false; true; false; false].
Lemma example_bounds : in_bounds SingleBitFlip 3 example_draws.
Proof. split; [intros i; cbn; split; [discriminate|reflexivity]|]. split; [repeat constructor|]. split; [exact I|repeat constructor]. Qed.

(** ** C39: complete search.  There is an enumeration L of all vectors of size n,
    without repetition, by increasing value of the corresponding number, such that
    the vectors evaluated are the k first ones of L and the solution is the first
    best of them.  Without exception k = 2^n. *)
Theorem C39_complete_search o n fuel s : 0 < n -> 2 ^ n <= fuel -> alg_make n tt = Ok s ->
  exists L, NoDup L /\ (forall x, In x L <-> length x = n) /\ (forall k, k < 2 ^ n -> value_lsb (nth k L []) = N.of_nat k) /\
  exists k, k <= 2 ^ n /\ a_trace (snd (complete_search o n fuel s)) = firstn k L /\
    (0 < k -> first_best (o_value o) (firstn k L) (a_sol (snd (complete_search o n fuel s)))) /\
    match fst (complete_search o n fuel s) with
    | Ret _ => k = 2 ^ n
    | Exc e => k < 2 ^ n /\ o_stop o k = Some e
    | _ => False
    end.
Proof. exact (complete_search_exact o n fuel s). Qed.
Print Assumptions C39_complete_search.

Example C39_case : exists s, alg_make 2 tt = Ok s /\ complete_search (example_objective 9) 2 4 s =
  (Ret tt, mk_alg [[false; false]; [true; false]; [false; true]; [true; true]] ([true; true], 2%Z) false tt).
Proof. eexists. split; reflexivity. Qed.
Example C39_case_stopped : exists s, alg_make 2 tt = Ok s /\ complete_search (example_objective 3) 2 4 s =
  (Exc LastEvaluation, mk_alg [[false; false]; [true; false]; [false; true]] ([true; false], 1%Z) false tt).
Proof. eexists. split; reflexivity. Qed.

(** ** C40: hill climbing.  One iteration of first ascent, the iterator being at
    the solution: either a strictly better neighbor has become the solution, or the
    search is over, the solution is unchanged and it is a local maximum. *)
Theorem C40_first_ascent_iteration o n r fuel i s :
  2 ^ n < fuel -> first_best (o_value o) (a_trace s) (a_sol s) -> length (fst (a_sol s)) = n ->
  nit_reachable n r (a_mem s) -> nit_current (a_mem s) = fst (a_sol s) ->
  match first_iterate o fuel i s with
  | (Ret _, s') => first_best (o_value o) (a_trace s') (a_sol s') /\
      ((neighbor n r (fst (a_sol s)) (fst (a_sol s')) /\ (snd (a_sol s) < snd (a_sol s'))%Z /\ a_last s' = a_last s /\
        nit_reachable n r (a_mem s') /\ nit_current (a_mem s') = fst (a_sol s')) \/
       (a_sol s' = a_sol s /\ a_last s' = true /\ local_maximum (o_value o) n r (fst (a_sol s))))
  | (Exc e, s') => first_best (o_value o) (a_trace s') (a_sol s') /\ a_sol s' = a_sol s /\ thrown_by o e
  | _ => False
  end.
Proof.
  intros F B L R C. pose proof (first_iterate_ok o n r fuel i s F B L R C) as W. apply wp_result in W.
  destruct (first_iterate o fuel i s) as [[a|e| |] s']; [|exact W|exact W|exact (proj2 (proj2 W))].
  destruct W as (W1 & W2 & [(W3 & W4 & W5 & W6)|W3]); split; auto; left; tauto.
Qed.
Print Assumptions C40_first_ascent_iteration.

(** The same for steepest ascent: the neighbor chosen is a best one. *)
Theorem C40_steepest_ascent_iteration o n r pick fuel i s :
  0 < n -> (forall i, in_range (pick i)) -> 2 ^ n < fuel -> top o s -> length (fst (a_sol s)) = n ->
  nit_reachable n r (sa_nit (a_mem s)) -> nit_current (sa_nit (a_mem s)) = fst (a_sol s) -> length (sa_cands (a_mem s)) = n ->
  match steepest_iterate o pick fuel i s with
  | (Ret _, s') => top o s' /\ length (sa_cands (a_mem s')) = n /\ nit_reachable n r (sa_nit (a_mem s')) /\
      ((best_neighbor o n r (fst (a_sol s)) (fst (a_sol s')) /\ (snd (a_sol s) < snd (a_sol s'))%Z /\ a_last s' = a_last s /\
        nit_current (sa_nit (a_mem s')) = fst (a_sol s')) \/
       (a_sol s' = a_sol s /\ a_last s' = true /\ local_maximum (o_value o) n r (fst (a_sol s))))
  | (Exc e, s') => consistent o s' /\ a_sol s' = a_sol s /\ thrown_by o e
  | _ => False
  end.
Proof.
  intros N P F B L R C D. pose proof (steepest_iterate_ok o n r pick fuel i s N P F B L R C D) as W. apply wp_result in W.
  destruct (steepest_iterate o pick fuel i s) as [[a|e| |] s']; [exact W|exact W|exact W|exact (proj2 (proj2 W))].
Qed.
Print Assumptions C40_steepest_ascent_iteration.

(** Whole runs.  They end, after at most 2^n + 1 iterations (the fuel suffices);
    whatever the end the value is the value of the solution; a run which stops by
    itself stops at a local maximum, and if the number of iterations is not limited
    only this or an exception of the function can end it. *)
Theorem C40_first_ascent o n r t st num fuel1 fuel s :
  0 < n -> nit_reachable n r t -> start_sized n st -> 2 ^ n < fuel1 -> 2 ^ n + 1 < fuel -> alg_make n t = Ok s ->
  match loop (hc_alg_init o st) (first_iterate o fuel1) num fuel s with
  | (Ret _, s') => first_best (o_value o) (a_trace s') (a_sol s') /\ length (fst (a_sol s')) = n /\
      (a_last s' = true -> local_maximum (o_value o) n r (fst (a_sol s'))) /\ ((num <= 0)%Z -> a_last s' = true)
  | (Exc e, s') => thrown_by o e /\ (a_trace s' <> [] -> first_best (o_value o) (a_trace s') (a_sol s'))
  | _ => False
  end.
Proof. exact (first_ascent_run o n r t st num fuel1 fuel s). Qed.
Print Assumptions C40_first_ascent.

Theorem C40_steepest_ascent o n r t st pick num fuel1 fuel s :
  0 < n -> nit_reachable n r t -> start_sized n st -> (forall i, in_range (pick i)) ->
  2 ^ n < fuel1 -> 2 ^ n + 1 < fuel -> alg_make n (sahc_make n t) = Ok s ->
  match loop (sahc_init o st) (steepest_iterate o pick fuel1) num fuel s with
  | (Ret _, s') => top o s' /\ length (fst (a_sol s')) = n /\
      (a_last s' = true -> local_maximum (o_value o) n r (fst (a_sol s'))) /\ ((num <= 0)%Z -> a_last s' = true)
  | (Exc e, s') => thrown_by o e /\ (a_trace s' <> [] -> consistent o s')
  | _ => False
  end.
Proof. exact (steepest_ascent_run o n r t st pick num fuel1 fuel s). Qed.
Print Assumptions C40_steepest_ascent.

Example C40_case : exists s s', alg_make 3 (NSingle (mk_sb [false; false; false] true 0)) = Ok s /\ nit_reachable 3 1 (NSingle (mk_sb [false; false; false] true 0)) /\
  loop (hc_alg_init (example_objective 99) (StartAt [true; false; false])) (first_iterate (example_objective 99) 9) 0 10 s = (Ret tt, s') /\
  a_sol s' = ([true; true; true], 3%Z) /\ a_last s' = true /\
  a_trace s' = [[true; false; false]; [false; false; false]; [true; true; false]; [false; true; false]; [true; false; false];
    [true; true; true]; [false; true; true]; [true; false; true]; [true; true; false]].
Proof. eexists _, _. split; [reflexivity|]. split; [split; reflexivity|]. split; [vm_compute; reflexivity|]. repeat split. Qed.

Example C40_case_steepest : exists h s s', hs_make 3 2 = Ok h /\ alg_make 3 (sahc_make 3 (NSphere h)) = Ok s /\ nit_reachable 3 2 (NSphere h) /\
  loop (sahc_init (example_objective 99) (StartAt [true; false; false])) (steepest_iterate (example_objective 99) (fun _ lo _ => lo) 9) 0 10 s = (Ret tt, s') /\
  a_sol s' = ([true; true; true], 3%Z) /\ a_last s' = true.
Proof.
  eexists _, _, _. split; [reflexivity|]. split; [reflexivity|]. split; [split; [now apply hs_reach_make|lia]|]. split; [vm_compute; reflexivity|]. repeat split.
Qed.

(** ** C41: random local search.  Whatever the number of iterations and the point
    where an exception of the function interrupts the search, after finalize the
    value is the value of the solution, and if the comparison is >= or > no vector
    evaluated so far is better.  When the search stops by itself, this is because
    of patience: its last evaluations, in the number given by patience, have all
    been rejected; without limit on iterations nothing else ends it. *)
Theorem C41_random_local_search o n p h ph f0 st d num fuel s :
  0 < n -> nh_reachable n h ph -> start_sized n st ->
  (p_incremental p && o_provides o = true -> right_increments n o) -> (forall i, in_bounds (nh_class h) n (d i)) ->
  alg_make n (mk_rls f0 h) = Ok s ->
  let '(res, s') := loop (rls_init o st) (rls_iterate o p d) num fuel s in
  (a_trace s' <> [] -> consistent o (rls_finalize s') /\
     (ascending (p_compare p) -> forall y, In y (a_trace s') -> (o_value o y <= snd (a_sol (rls_finalize s')))%Z)) /\
  match res with
  | Ret _ => a_trace s' <> [] /\
      (a_last s' = true -> (0 < p_patience p)%Z /\ rls_finalize s' = s' /\ rejected_suffix o (p_compare p) (snd (a_sol s')) (p_patience p) (a_trace s')) /\
      (a_last s' = false -> (0 < num)%Z)
  | Exc e => thrown_by o e
  | Bad => False
  | Pending => True
  end.
Proof. exact (rls_run o n p h ph f0 st d num fuel s). Qed.
Print Assumptions C41_random_local_search.

Lemma ascending_ge : ascending (fun a b => b <=? a)%Z.
Proof. intros a b. rewrite Z.leb_le, Z.leb_gt. lia. Qed.
Lemma ascending_gt : ascending (fun a b => b <? a)%Z.
Proof. intros a b. rewrite Z.ltb_lt, Z.ltb_ge. lia. Qed.

Definition example_parameters := mk_rls_parameters (fun a b => b <=? a)%Z 2 true.
Example C41_case : exists h s, nh_make SingleBitFlip 3 = Ok h /\ alg_make 3 (mk_rls 7 h) = Ok s /\ nh_reachable 3 h Settled /\ in_bounds SingleBitFlip 3 example_draws /\
  let '(res, s') := loop (rls_init (example_objective 2) (StartAt [true; false; false])) (rls_iterate (example_objective 2) example_parameters (fun _ => example_draws)) 4 10 s in
  res = Exc LastEvaluation /\ a_sol s' = ([true; false; false], 2%Z) /\ a_sol (rls_finalize s') = ([true; false; true], 2%Z) /\
  a_trace s' = [[true; false; false]; [true; false; true]].
Proof.
  eexists _, _. split; [reflexivity|]. split; [reflexivity|]. split; [now apply (reach_make 3 SingleBitFlip)|]. split; [exact example_bounds|]. vm_compute. auto.
Qed.

(** ** C42: restart.  After m complete runs of the decorated algorithm, the
    solution is the first best of their m solutions, also when run number m is
    ended by an exception. *)
Theorem C42_restart runs num fuel s r s' : restart runs num fuel s = (r, s') -> 0 < fuel ->
  exists m, (forall j, j < m -> exists p, runs j = Ret p) /\
    (0 < m -> first_best_of snd (map (fun j => match runs j with Ret p => p | _ => ([], 0%Z) end) (seq 0 m)) (a_sol s')) /\
    (m = 0 -> a_sol s' = a_sol s) /\
    match r with
    | Ret _ => (0 < num)%Z /\ Z.of_nat m = num
    | Exc e => runs m = Exc e
    | Bad => runs m = Bad
    | Pending => runs m = Pending \/ m = fuel
    end.
Proof. exact (restart_exact runs num fuel s r s'). Qed.
Print Assumptions C42_restart.

Example C42_case : exists s s', alg_make 2 tt = Ok s /\
  restart (fun i => match i with 0 => Ret ([false; true], 3%Z) | 1 => Ret ([true; true], 5%Z) | 2 => Ret ([true; false], 5%Z) | _ => Exc LastEvaluation end) 0 9 s =
  (Exc LastEvaluation, s') /\ a_sol s' = ([true; true], 5%Z).
Proof. eexists _, _. split; [reflexivity|]. split; reflexivity. Qed.

(** ** C59: the loop of iterative algorithms.  After init, iterations 0, 1, ... run
    one after the other; the loop returns at the first moment when an iteration has
    asked to stop or, for num > 0, when num iterations have run; it is left early
    only if an iteration does not return normally. *)
Theorem C59_loop {X} (init : act (alg X) unit) (iterate : nat -> act (alg X) unit) num fuel s r s' :
  loop init iterate num fuel s = (r, s') ->
  (forall u, fst (init s) <> Ret u) /\ init s = (r, s') \/
  exists s0 k sk, init s = (Ret tt, s0) /\ iterations iterate 0 k (put_last false s0) = (Ret tt, sk) /\
    (forall j sj, j < k -> iterations iterate 0 j (put_last false s0) = (Ret tt, sj) -> a_last sj = false) /\
    ((0 < num)%Z -> (Z.of_nat k <= num)%Z) /\
    match r with
    | Ret _ => s' = sk /\ (a_last sk = true \/ Z.of_nat k = num /\ (0 < num)%Z)
    | Exc e => a_last sk = false /\ ((0 < num)%Z -> (Z.of_nat k < num)%Z) /\ iterate k sk = (Exc e, s')
    | Bad => iterate k sk = (Bad, s')
    | Pending => k = fuel /\ s' = sk \/ iterate k sk = (Pending, s')
    end.
Proof. exact (loop_exact init iterate num fuel s r s'). Qed.
Print Assumptions C59_loop.

Example C59_case : exists s s', alg_make 2 0 = Ok s /\
  loop (amodify (put_last true)) (fun i => amodify (fun s => put_last (i =? 4) (put_mem (a_mem s + 1) s))) 3 9 s = (Ret tt, s') /\ a_mem s' = 3 /\ a_last s' = false.
Proof. eexists _, _. split; [reflexivity|]. split; [vm_compute; reflexivity|]. split; reflexivity. Qed.
Example C59_case_last : exists s s', alg_make 2 0 = Ok s /\
  loop (amodify (put_last true)) (fun i => amodify (fun s => put_last (i =? 4) (put_mem (a_mem s + 1) s))) 0 9 s = (Ret tt, s') /\ a_mem s' = 5 /\ a_last s' = true.
Proof. eexists _, _. split; [reflexivity|]. split; [vm_compute; reflexivity|]. split; reflexivity. Qed.

(** ** C60: random search, random walk (full evaluation) and simulated annealing.
    However and whenever the run ends, the solution is the first best of all the
    vectors evaluated, and the exception, if any, is the one the function raised at
    the next evaluation. *)
Theorem C60_random_search o n c bit bits num fuel s : 0 < n -> alg_make n c = Ok s ->
  let '(res, s') := loop (rs_init o bit) (rs_iterate o bits) num fuel s in run_best o res s'.
Proof. exact (random_search_run o n c bit bits num fuel s). Qed.
Print Assumptions C60_random_search.

Theorem C60_random_walk o n h ph v0 st inc d num fuel s : 0 < n -> nh_reachable n h ph -> start_sized n st ->
  inc && o_provides o = false -> (forall i, in_bounds (nh_class h) n (d i)) -> alg_make n (mk_rw v0 h) = Ok s ->
  let '(res, s') := loop (rw_init o st) (rw_iterate o inc d) num fuel s in run_best o res s'.
Proof. exact (random_walk_run o n h ph v0 st inc d num fuel s). Qed.
Print Assumptions C60_random_walk.

Theorem C60_simulated_annealing o n h ph c0 st bits d0 d trials accept num fuel s : 0 < n -> nh_reachable n h ph -> start_sized n st ->
  (forall i, in_bounds (nh_class h) n (d0 i)) -> (forall i, in_bounds (nh_class h) n (d i)) -> alg_make n (mk_sa c0 h) = Ok s ->
  let '(res, s') := loop (sa_init o n st bits d0 trials) (sa_iterate o d accept) num fuel s in run_best o res s'.
Proof. exact (simulated_annealing_run o n h ph c0 st bits d0 d trials accept num fuel s). Qed.
Print Assumptions C60_simulated_annealing.

Example C60_case : exists h s s', nh_make SingleBitFlip 3 = Ok h /\ alg_make 3 (mk_sa 0 h) = Ok s /\ nh_reachable 3 h Settled /\ in_bounds SingleBitFlip 3 example_draws /\
  loop (sa_init (example_objective 5) 3 (StartAt [true; false; false]) (fun _ _ => false) (fun _ => example_draws) 1) (sa_iterate (example_objective 5) (fun _ => example_draws) (fun _ => true)) 4 10 s
    = (Exc LastEvaluation, s') /\ a_sol s' = ([true; false; true], 2%Z) /\
  a_trace s' = [[true; false; false]; [false; false; false]; [false; false; true]; [true; false; true]; [true; false; false]].
Proof.
  eexists _, _, _. split; [reflexivity|]. split; [reflexivity|]. split; [now apply (reach_make 3 SingleBitFlip)|]. split; [exact example_bounds|].
  split; [vm_compute; reflexivity|]. split; reflexivity.
Qed.

(** ** C61: random walk with incremental evaluation.  The member which holds the
    current value is not initialised: let v0 be what it contains.  For a function
    whose increments are right, every value after the first one is shifted by v0
    minus the value of the starting point, and the solution is chosen with, and
    reported with, the shifted values. *)
Theorem C61_random_walk_shift o n h ph v0 st d num fuel s : 0 < n -> nh_reachable n h ph -> start_sized n st ->
  o_provides o = true -> additive_increments n o -> (forall i, in_bounds (nh_class h) n (d i)) -> alg_make n (mk_rw v0 h) = Ok s ->
  let '(res, s') := loop (rw_init o st) (rw_iterate o true d) num fuel s in
  res <> Bad /\
  forall x0 T, a_trace s' = x0 :: T ->
    rw_value (a_mem s') = (o_value o (last T x0) + (v0 - o_value o x0))%Z /\
    first_best_of snd ((x0, o_value o x0) :: map (fun y => (y, o_value o y + (v0 - o_value o x0))%Z) T) (a_sol s').
Proof. exact (random_walk_shift o n h ph v0 st d num fuel s). Qed.
Print Assumptions C61_random_walk_shift.

(** The value announced, 12, is not the value of the vector announced, 3. *)
Example C61_case : exists h s s', nh_make SingleBitFlip 3 = Ok h /\ alg_make 3 (mk_rw 11 h) = Ok s /\ nh_reachable 3 h Settled /\ in_bounds SingleBitFlip 3 example_draws /\
  loop (rw_init (example_objective 99) (StartAt [true; true; false])) (rw_iterate (example_objective 99) true (fun _ => example_draws)) 2 10 s = (Ret tt, s') /\
  a_sol s' = ([true; true; true], 12%Z) /\ ones [true; true; true] = 3%Z.
Proof.
  eexists _, _, _. split; [reflexivity|]. split; [reflexivity|]. split; [now apply (reach_make 3 SingleBitFlip)|]. split; [exact example_bounds|].
  split; [vm_compute; reflexivity|]. split; reflexivity.
Qed.

(** The increments of the example are right and additive. *)
Lemma ones_as_sum n x : length x = n -> ones x = fold_right Z.add 0%Z (map (fun i => if nth i x false then 1 else 0)%Z (seq 0 n)).
Proof.
  intros <-. induction x as [|a x IH]; [reflexivity|]. cbn [length seq map fold_right nth]. rewrite <- seq_shift, map_map. cbn [nth]. rewrite <- IH.
  unfold ones. destruct a; cbn [filter length]; lia.
Qed.
Lemma increments_fold x l : forall v, fold_left (fun v i => if nth i x false then v - 1 else v + 1)%Z l v =
  (v + fold_right Z.add 0 (map (fun i => if nth i x false then -1 else 1) l))%Z.
Proof. induction l as [|i l IH]; intros v; cbn [fold_left map fold_right]; [lia|]. rewrite IH. destruct (nth i x false); lia. Qed.
Lemma example_additive n stop : additive_increments n (example_objective stop).
Proof.
  intros x y v Hx Hy. cbn [example_objective o_inc o_value]. rewrite increments_fold, (ones_as_sum n x Hx), (ones_as_sum n y Hy). unfold diffs. clear Hx Hy.
  enough (fold_right Z.add 0 (map (fun i => if nth i x false then -1 else 1) (filter (fun i => xorb (nth i x false) (nth i y false)) (seq 0 n))) =
    fold_right Z.add 0 (map (fun i => if nth i y false then 1 else 0) (seq 0 n)) - fold_right Z.add 0 (map (fun i => if nth i x false then 1 else 0) (seq 0 n)))%Z as -> by lia.
  induction (seq 0 n) as [|i l IH]; [reflexivity|]. cbn [filter map fold_right]. destruct (nth i x false) eqn:EX, (nth i y false) eqn:EY; cbn [xorb map fold_right]; rewrite ?EX; lia.
Qed.
Lemma example_right n stop : right_increments n (example_objective stop).
Proof. intros x y Hx Hy. rewrite (example_additive n stop x y _ Hx Hy). ring. Qed.
