(** Properties of the algorithms based on probability vectors: C48 and C63-C66. *)

From Coq Require Import QArith Lqa Permutation.
From Verif Require Import Base BaseLemmas BitVector_Model Representation_Spec Map_Spec Algorithm_Model Algorithm_Spec Algorithm_Proofs
  Population_Model Population_Spec Population_Proofs PopAlgorithm_Model PopAlgorithm_Spec PopAlgorithm_Proofs
  ProbabilityVector_Model ProbabilityVector_Spec ProbabilityVector_Proofs Properties_Algorithm Properties_Population.
Local Open Scope nat_scope.

Lemma eda_start size n m s : eda_make size n = Ok m -> alg_make n m = Ok s ->
  eda_sized size n (a_mem s) /\ a_trace s = [] /\ length (fst (a_sol s)) = n.
Proof.
  intros E1 E2. unfold eda_make in E1. destruct (0 <? size) eqn:Hs.
  2:{ unfold pop_make in E1. rewrite Hs in E1. discriminate. }
  unfold alg_make in E2. destruct (0 <? n) eqn:Hn; [|discriminate]. apply Nat.ltb_lt in Hs, Hn.
  destruct (pop_make_wf size n Hs Hn) as (p & E & W). rewrite E in E1. cbn [bind ensureb] in *. apply Ok_inj in E1, E2. subst. cbn.
  split; [split; [exact W|apply repeat_length]|]. split; [reflexivity|apply repeat_length].
Qed.

Lemma sampler_start n s : alg_make n (sampler_make n) = Ok s -> a_trace s = [] /\ sampler_inv n s.
Proof.
  intros E. unfold alg_make in E. destruct (0 <? n); [|discriminate]. cbn [bind ensureb] in E. apply Ok_inj in E. subst. cbn.
  split; [reflexivity|]. unfold sampler_inv, sampler_sized. cbn. rewrite !repeat_length. auto.
Qed.

(** ** C48: bounds.  For at least two bits, after any run of any of the algorithms
    which went beyond the first evaluation, interrupted or not, all the probabilities
    lie in [1/n, 1 - 1/n]. *)
Theorem C48_umda_within o n size selection u shs srt bit num fuel m s :
  2 <= n -> 0 < selection <= size -> (forall t, shuffles (shs t)) -> sorts srt ->
  eda_make size n = Ok m -> alg_make n m = Ok s ->
  let s' := snd (loop (eda_init o bit) (umda_iterate o n selection u shs srt) num fuel s) in
  a_trace s' <> [] -> length (e_pv (a_mem s')) = n /\ Forall (within n) (e_pv (a_mem s')).
Proof.
  intros Hn HS HH HR E1 E2. destruct (eda_start _ _ _ _ E1 E2) as (SZ & T & L).
  pose proof (umda_run o n size selection u shs srt HH HR HS bit num fuel s Hn SZ T L) as R. unfold eda_done in R.
  destruct (loop _ _ _ _ _) as [r s']. cbn. intros N. destruct R as [_ [R|R]]; [congruence|exact R].
Qed.
Print Assumptions C48_umda_within.

Theorem C48_pbil_within o n size selection rate u shs srt bit num fuel m s :
  2 <= n -> 0 < selection <= size -> (forall t, shuffles (shs t)) -> sorts srt ->
  eda_make size n = Ok m -> alg_make n m = Ok s ->
  let s' := snd (loop (eda_init o bit) (pbil_iterate o n selection rate u shs srt) num fuel s) in
  a_trace s' <> [] -> length (e_pv (a_mem s')) = n /\ Forall (within n) (e_pv (a_mem s')).
Proof.
  intros Hn HS HH HR E1 E2. destruct (eda_start _ _ _ _ E1 E2) as (SZ & T & L).
  pose proof (pbil_run o n size selection rate u shs srt HH HR HS bit num fuel s Hn SZ T L) as R. unfold eda_done in R.
  destruct (loop _ _ _ _ _) as [r s']. cbn. intros N. destruct R as [_ [R|R]]; [congruence|exact R].
Qed.
Print Assumptions C48_pbil_within.

Theorem C48_mmas_within o n rate u cmp bit num fuel s :
  2 <= n -> ascending cmp -> alg_make n (sampler_make n) = Ok s ->
  let s' := snd (loop (mmas_init o n rate bit) (mmas_iterate o n rate u cmp) num fuel s) in
  a_trace s' <> [] -> length (sm_pv (a_mem s')) = n /\ Forall (within n) (sm_pv (a_mem s')).
Proof.
  intros Hn HC E. destruct (sampler_start _ _ E) as (T & SZ). pose proof (mmas_run o n rate u Hn cmp bit num fuel s HC T SZ) as R.
  destruct (loop _ _ _ _ _) as [r s']. cbn. intros N. destruct R as [_ [R|R]]; [congruence|exact R].
Qed.
Print Assumptions C48_mmas_within.

Theorem C48_cga_within o n rate u debug bit num fuel s :
  2 <= n -> alg_make n (sampler_make n) = Ok s ->
  let s' := snd (loop (cga_init o bit) (cga_iterate o n rate u debug) num fuel s) in
  a_trace s' <> [] -> length (sm_pv (a_mem s')) = n /\ Forall (within n) (sm_pv (a_mem s')).
Proof.
  intros Hn E. destruct (sampler_start _ _ E) as (T & SZ). pose proof (cga_run o n rate u Hn debug bit num fuel s T SZ) as R.
  destruct (loop _ _ _ _ _) as [r s']. cbn. intros N. destruct R as [_ [R|R]]; [congruence|exact R].
Qed.
Print Assumptions C48_cga_within.

(** Bounding is clamping: it leaves the probabilities within the bounds unchanged. *)
Theorem C48_bounding pv n i : 2 <= n -> i < length pv ->
  clamped (1 / inject_Z (Z.of_nat n)) (1 - 1 / inject_Z (Z.of_nat n)) (nth i pv 0%Q)
    (nth i (pv_bound pv (lower_bound n) (upper_bound n)) 0%Q).
Proof. exact (bound_nth_clamped pv n i). Qed.
Print Assumptions C48_bounding.

(** With one bit, the lower bound is greater than the upper bound and bounding gives
    one, whatever the probability. With two bits, the bounds are equal to 1/2, hence
    after any run the probabilities are those of the uniform distribution. *)
Theorem C48_few_bits :
  (forall pv, Forall (fun p => p == 1)%Q (pv_bound pv (lower_bound 1) (upper_bound 1))) /\
  (forall p, within 2 p <-> (p == 1 # 2)%Q).
Proof.
  split.
  - intros pv. apply Forall_forall. intros p Hp. unfold pv_bound in Hp. apply in_map_iff in Hp as (q & <- & _).
    assert (L : (lower_bound 1 == 1)%Q) by reflexivity. assert (U : (upper_bound 1 == 0)%Q) by reflexivity.
    unfold qmax, qmin. destruct (qltb q (upper_bound 1)) eqn:E1; [apply qltb_lt in E1|apply qltb_ge in E1];
    match goal with |- context[qltb ?a ?b] => destruct (qltb a b) eqn:E2; [apply qltb_lt in E2|apply qltb_ge in E2] end; lra.
  - intros p. unfold within. cbn [Z.of_nat Pos.of_succ_nat Pos.succ].
    assert (H : (1 / inject_Z 2 == 1 # 2)%Q) by reflexivity. rewrite H. split; intros; lra.
Qed.
Print Assumptions C48_few_bits.

Definition example_u (t k i : nat) : Q := (Z.of_nat ((t * 7 + k * 5 + i * 3) mod 10) # 10)%Q.
Definition example_eda : eda := match eda_make 3 4 with Ok m => m | _ => mk_eda [] (mk_pop [] [] []) end.
Definition example_eda_run (stop : nat) (iterate : objective -> nat -> act (alg eda) unit) : res unit * alg eda :=
  loop (eda_init (example_objective stop) Nat.even) (iterate (example_objective stop)) 3 9
    (mk_alg [] ([false; false; false; false], 0%Z) false example_eda).
Lemma example_start : eda_make 3 4 = Ok example_eda /\
  alg_make 4 example_eda = Ok (mk_alg [] ([false; false; false; false], 0%Z) false example_eda).
Proof. split; reflexivity. Qed.
Example C48_case :
  let '(r, s') := example_eda_run 99 (fun o => umda_iterate o 4 2 example_u (fun _ => @rev nat) insertion_sort) in
  r = Ret tt /\ length (a_trace s') = 10 /\ map Qred (e_pv (a_mem s')) = [3 # 4; 1 # 4; 3 # 4; 3 # 4]%Q.
Proof. vm_compute. repeat split. Qed.
Example C48_case_stopped :
  let '(r, s') := example_eda_run 8 (fun o => pbil_iterate o 4 2 (1 # 3) example_u (fun _ => @rev nat) insertion_sort) in
  r = Exc LastEvaluation /\ length (a_trace s') = 8 /\ map Qred (e_pv (a_mem s')) = [1 # 2; 1 # 2; 1 # 2; 1 # 2]%Q.
Proof. vm_compute. repeat split. Qed.

(** ** C63: learning rules.  One iteration, whatever the state reached: the vectors
    are drawn with the current probabilities and evaluated. UMDA sets probability i to
    the frequency of ones at position i among [selection] best vectors drawn, PBIL
    moves it to this frequency with the learning rate; then it is clamped. If an
    evaluation throws, the probabilities are left unchanged. *)
Theorem C63_umda o n size selection u shs srt t s :
  2 <= n -> 0 < selection <= size -> (forall t, shuffles (shs t)) -> sorts srt ->
  well_formed size n (e_pop (a_mem s)) -> length (e_pv (a_mem s)) = n -> top_of o (a_trace s) (a_sol s) ->
  match umda_iterate o n selection u shs srt t s with
  | (Ret _, s') => learns (fun i _ kept => frequency i kept) o n size selection (u t) s s'
  | (Exc e, s') => e_pv (a_mem s') = e_pv (a_mem s) /\ o_stop o (length (a_trace s')) = Some e
  | _ => False
  end.
Proof.
  intros Hn HS HH HR W L TO.
  pose proof (learn_wp o n size selection u shs srt HH HR HS (fun i _ => frequency i) (fun m => mean_of_best selection (e_pop m) (length (e_pv m))) t s Hn (umda_learn_Ok n size selection HS) (conj W L) TO) as R.
  apply wp_result in R. unfold umda_iterate. destruct (abind _ _ _) as [[a|e| |] s'].
  - apply R.
  - destruct R as (_ & R1 & _ & (e' & R2 & R3)). apply Some_inj in R2. subst. auto.
  - exact R.
  - destruct R as (_ & _ & _ & (e' & R2 & _)). discriminate.
Qed.
Print Assumptions C63_umda.

Theorem C63_pbil o n size selection rate u shs srt t s :
  2 <= n -> 0 < selection <= size -> (forall t, shuffles (shs t)) -> sorts srt ->
  well_formed size n (e_pop (a_mem s)) -> length (e_pv (a_mem s)) = n -> top_of o (a_trace s) (a_sol s) ->
  match pbil_iterate o n selection rate u shs srt t s with
  | (Ret _, s') => learns (fun i p kept => p + rate * (frequency i kept - p))%Q o n size selection (u t) s s'
  | (Exc e, s') => e_pv (a_mem s') = e_pv (a_mem s) /\ o_stop o (length (a_trace s')) = Some e
  | _ => False
  end.
Proof.
  intros Hn HS HH HR W L TO.
  pose proof (learn_wp o n size selection u shs srt HH HR HS (pbil_target rate) (fun m => mean <- mean_of_best selection (e_pop m) n ;; pv_update (e_pv m) mean rate) t s Hn (pbil_learn_Ok n size selection rate HS) (conj W L) TO) as R.
  apply wp_result in R. unfold pbil_iterate. destruct (abind _ _ _) as [[a|e| |] s'].
  - apply R.
  - destruct R as (_ & R1 & _ & (e' & R2 & R3)). apply Some_inj in R2. subst. auto.
  - exact R.
  - destruct R as (_ & _ & _ & (e' & R2 & _)). discriminate.
Qed.
Print Assumptions C63_pbil.

(** MMAS moves the probabilities to the solution with the learning rate, after the
    vector drawn has replaced it if the comparison accepts it. *)
Theorem C63_mmas o n rate u cmp t s :
  2 <= n -> ascending cmp ->
  length (sm_pv (a_mem s)) = n -> length (sm_x (a_mem s)) = n -> length (sm_y (a_mem s)) = n -> length (fst (a_sol s)) = n ->
  top_of o (a_trace s) (a_sol s) ->
  match mmas_iterate o n rate u cmp t s with
  | (Ret _, s') => exists x, drawn n (sm_pv (a_mem s)) (u t 0) x /\ a_trace s' = a_trace s ++ [x] /\
      a_sol s' = (if cmp (o_value o x) (snd (a_sol s)) then (x, o_value o x) else a_sol s) /\
      length (sm_pv (a_mem s')) = n /\
      forall i, i < n -> let p := nth i (sm_pv (a_mem s)) 0%Q in
        clamped (1 / inject_Z (Z.of_nat n)) (1 - 1 / inject_Z (Z.of_nat n))
          (p + rate * ((if nth i (fst (a_sol s')) false then 1 else 0) - p))%Q (nth i (sm_pv (a_mem s')) 0%Q)
  | (Exc e, s') => sm_pv (a_mem s') = sm_pv (a_mem s) /\ a_sol s' = a_sol s /\ a_trace s' = a_trace s /\ o_stop o (length (a_trace s')) = Some e
  | _ => False
  end.
Proof.
  intros Hn HC L1 L2 L3 L4 TO. pose proof (mmas_iterate_wp o n rate u Hn cmp t s HC (conj (conj L1 (conj L2 L3)) L4) TO) as R.
  apply wp_result in R. destruct (mmas_iterate o n rate u cmp t s) as [[a|e| |] s'] eqn:EQ.
  - destruct R as (x & R1 & R2 & R3 & [R4 R5] & _). exists x. auto.
  - unfold mmas_iterate in EQ. destruct (pv_sample_Ok n (sm_pv (a_mem s)) (sm_x (a_mem s)) (u t 0) L1 L2) as (x & EX & _).
    unfold abind, on_mem, aget, evaluate in EQ. rewrite EX in EQ. cbn [bind put_mem a_mem sm_x a_trace a_sol] in EQ.
    destruct (o_stop o (length (a_trace s))) as [e'|] eqn:ST.
    + injection EQ as <- <-. cbn. auto.
    + exfalso. unfold put_trace in EQ. cbn [a_trace a_sol a_last a_mem] in EQ.
      destruct (cmp _ _); unfold set_solution, amodify, aret, mmas_learn, abind, aget, on_mem, put_sol, pv_update in EQ; cbn [a_trace a_sol a_last a_mem sm_pv fst] in EQ;
      rewrite map_length in EQ; destruct (_ =? _); discriminate.
  - exact R.
  - destruct R as (_ & _ & (e' & R2 & _)). discriminate.
Qed.
Print Assumptions C63_mmas.

(** Compact GA adds the learning rate where the better of the two vectors drawn has a
    one and the other a zero, and subtracts it in the opposite case; with equal values
    the first one drawn counts as the better. *)
Theorem C63_cga o n rate u debug t s :
  2 <= n ->
  length (sm_pv (a_mem s)) = n -> length (sm_x (a_mem s)) = n -> length (sm_y (a_mem s)) = n -> length (fst (a_sol s)) = n ->
  top_of o (a_trace s) (a_sol s) ->
  match cga_iterate o n rate u debug t s with
  | (Ret _, s') => exists x y, drawn n (sm_pv (a_mem s)) (u t 0) x /\ drawn n (sm_pv (a_mem s)) (u t 1) y /\
      let '(best, worst) := if (o_value o x <? o_value o y)%Z then (y, x) else (x, y) in
      length (sm_pv (a_mem s')) = n /\
      forall i, i < n -> let p := nth i (sm_pv (a_mem s)) 0%Q in
        clamped (1 / inject_Z (Z.of_nat n)) (1 - 1 / inject_Z (Z.of_nat n))
          (match nth i best false, nth i worst false with true, false => p + rate | false, true => p - rate | _, _ => p end)%Q
          (nth i (sm_pv (a_mem s')) 0%Q)
  | (Exc e, s') => sm_pv (a_mem s') = sm_pv (a_mem s) /\ o_stop o (length (a_trace s')) = Some e
  | _ => False
  end.
Proof.
  intros Hn L1 L2 L3 L4 TO. pose proof (cga_iterate_wp o n rate u Hn debug t s (conj (conj L1 (conj L2 L3)) L4) TO) as R.
  apply wp_result in R. destruct (cga_iterate o n rate u debug t s) as [[a|e| |] s'].
  - destruct R as (x & y & R1 & R2 & _ & [R4 R5] & _). exists x, y. unfold cga_target, cga_winner, cga_loser in R5.
    destruct (o_value o x <? o_value o y)%Z; auto.
  - destruct R as (_ & R1 & (e' & R2 & R3)). apply Some_inj in R2. subst. auto.
  - exact R.
  - destruct R as (_ & _ & (e' & R2 & _)). discriminate.
Qed.
Print Assumptions C63_cga.

Definition example_sampler (pv : list Q) : alg sampler :=
  mk_alg [[true; false; false; true]] ([true; false; false; true], 2%Z) false (mk_sampler pv (repeat false 4) (repeat false 4)).
Example C63_case_mmas :
  let s := example_sampler (repeat (1 # 2)%Q 4) in
  top_of (example_objective 9) (a_trace s) (a_sol s) /\
  let '(r, s') := mmas_iterate (example_objective 9) 4 (1 # 5) example_u (fun a b => b <=? a)%Z 1 s in
  r = Ret tt /\ a_trace s' = [[true; false; false; true]; [false; true; true; false]] /\ fst (a_sol s') = [false; true; true; false] /\
  map Qred (sm_pv (a_mem s')) = [2 # 5; 3 # 5; 3 # 5; 2 # 5]%Q.
Proof. split; [|vm_compute; repeat split]. split; [now left|]. split; [reflexivity|]. intros y [<-|[]]. discriminate. Qed.
Example C63_case_cga :
  let s := example_sampler (repeat (1 # 2)%Q 4) in
  let '(r, s') := cga_iterate (example_objective 9) 4 (1 # 5) example_u false 0 s in
  r = Ret tt /\ a_trace s' = [[true; false; false; true]; [true; true; false; false]; [false; false; true; true]] /\
  map Qred (sm_pv (a_mem s')) = [7 # 10; 7 # 10; 3 # 10; 3 # 10]%Q.
Proof. vm_compute. repeat split. Qed.

(** ** C64: solutions.  The solution of a run of UMDA or PBIL is a best vector
    among all those evaluated; if the function interrupts the run by an exception,
    among all those evaluated except the last incomplete generation.  MMAS takes into
    account all the evaluations, compact GA all but at most one. *)
Theorem C64_umda o n size selection u shs srt bit num fuel m s :
  2 <= n -> 0 < selection <= size -> (forall t, shuffles (shs t)) -> sorts srt ->
  eda_make size n = Ok m -> alg_make n m = Ok s ->
  let '(r, s') := loop (eda_init o bit) (umda_iterate o n selection u shs srt) num fuel s in run_top o size r s'.
Proof.
  intros Hn HS HH HR E1 E2. destruct (eda_start _ _ _ _ E1 E2) as (SZ & T & L).
  pose proof (umda_run o n size selection u shs srt HH HR HS bit num fuel s Hn SZ T L) as R. unfold eda_done in R.
  destruct (loop _ _ _ _ _). apply R.
Qed.
Print Assumptions C64_umda.

Theorem C64_pbil o n size selection rate u shs srt bit num fuel m s :
  2 <= n -> 0 < selection <= size -> (forall t, shuffles (shs t)) -> sorts srt ->
  eda_make size n = Ok m -> alg_make n m = Ok s ->
  let '(r, s') := loop (eda_init o bit) (pbil_iterate o n selection rate u shs srt) num fuel s in run_top o size r s'.
Proof.
  intros Hn HS HH HR E1 E2. destruct (eda_start _ _ _ _ E1 E2) as (SZ & T & L).
  pose proof (pbil_run o n size selection rate u shs srt HH HR HS bit num fuel s Hn SZ T L) as R. unfold eda_done in R.
  destruct (loop _ _ _ _ _). apply R.
Qed.
Print Assumptions C64_pbil.

Theorem C64_nps_pbil o n size selection rate u shs srt bit num fuel m s :
  2 <= n -> 0 < selection <= size -> (forall t, shuffles (shs t)) -> sorts srt ->
  eda_make size n = Ok m -> alg_make n m = Ok s ->
  let '(r, s') := loop (eda_init o bit) (nps_iterate o n selection rate u shs srt) num fuel s in run_top o size r s'.
Proof.
  intros Hn HS HH HR E1 E2. destruct (eda_start _ _ _ _ E1 E2) as (SZ & T & L).
  pose proof (nps_run o n size selection rate u shs srt HH HR HS bit num fuel s Hn SZ T L) as R. unfold eda_done in R.
  destruct (loop _ _ _ _ _). apply R.
Qed.
Print Assumptions C64_nps_pbil.

Theorem C64_mmas o n rate u cmp bit num fuel s :
  2 <= n -> ascending cmp -> alg_make n (sampler_make n) = Ok s ->
  let '(r, s') := loop (mmas_init o n rate bit) (mmas_iterate o n rate u cmp) num fuel s in run_top o 1 r s'.
Proof.
  intros Hn HC E. destruct (sampler_start _ _ E) as (T & SZ). pose proof (mmas_run o n rate u Hn cmp bit num fuel s HC T SZ) as R.
  destruct (loop _ _ _ _ _). apply R.
Qed.
Print Assumptions C64_mmas.

Theorem C64_cga o n rate u debug bit num fuel s :
  2 <= n -> alg_make n (sampler_make n) = Ok s ->
  let '(r, s') := loop (cga_init o bit) (cga_iterate o n rate u debug) num fuel s in run_top o 2 r s'.
Proof.
  intros Hn E. destruct (sampler_start _ _ E) as (T & SZ). pose proof (cga_run o n rate u Hn debug bit num fuel s T SZ) as R.
  destruct (loop _ _ _ _ _). apply R.
Qed.
Print Assumptions C64_cga.

Example C64_case :
  let '(r, s') := example_eda_run 8 (fun o => umda_iterate o 4 2 example_u (fun _ => @rev nat) insertion_sort) in
  r = Exc LastEvaluation /\ length (a_trace s') = 8 /\ a_sol s' = ([true; false; true; false], 2%Z) /\
  In [true; false; true; true] (a_trace s').
Proof. vm_compute. repeat split. do 7 right. now left. Qed.

(** ** C65: NPS-PBIL never learns.  After any run, all the probabilities are 1/2: the
    average of the worst vectors is computed from the best ones, hence the two averages
    cancel. *)
Theorem C65_nps_pbil_never_learns o n size selection rate u shs srt bit num fuel m s :
  2 <= n -> 0 < selection <= size -> (forall t, shuffles (shs t)) -> sorts srt ->
  eda_make size n = Ok m -> alg_make n m = Ok s ->
  let s' := snd (loop (eda_init o bit) (nps_iterate o n selection rate u shs srt) num fuel s) in
  a_trace s' <> [] -> length (e_pv (a_mem s')) = n /\ Forall (fun p => p == 1 # 2)%Q (e_pv (a_mem s')).
Proof.
  intros Hn HS HH HR E1 E2. destruct (eda_start _ _ _ _ E1 E2) as (SZ & T & L).
  pose proof (nps_run o n size selection rate u shs srt HH HR HS bit num fuel s Hn SZ T L) as R. unfold eda_done in R.
  destruct (loop _ _ _ _ _) as [r s']. cbn. intros N. destruct R as [_ [R|R]]; [congruence|exact R].
Qed.
Print Assumptions C65_nps_pbil_never_learns.

Example C65_case :
  let '(r, s') := example_eda_run 99 (fun o => nps_iterate o 4 1 (1 # 3) example_u (fun _ => @rev nat) insertion_sort) in
  r = Ret tt /\ length (a_trace s') = 10 /\ map Qred (e_pv (a_mem s')) = repeat (1 # 2)%Q 4.
Proof. vm_compute. repeat split. Qed.

(** ** C66: compact GA evaluates twice as many vectors when assertions are compiled:
    an assertion calls the function on the two vectors drawn, which have already been
    evaluated. *)
Theorem C66_cga_evaluations o n rate u debug t s :
  2 <= n ->
  length (sm_pv (a_mem s)) = n -> length (sm_x (a_mem s)) = n -> length (sm_y (a_mem s)) = n -> length (fst (a_sol s)) = n ->
  top_of o (a_trace s) (a_sol s) ->
  forall s', cga_iterate o n rate u debug t s = (Ret tt, s') ->
  exists x y, drawn n (sm_pv (a_mem s)) (u t 0) x /\ drawn n (sm_pv (a_mem s)) (u t 1) y /\
    exists again, a_trace s' = a_trace s ++ [x; y] ++ again /\ (if debug then Permutation [x; y] again else again = []).
Proof.
  intros Hn L1 L2 L3 L4 TO s' E. pose proof (cga_iterate_wp o n rate u Hn debug t s (conj (conj L1 (conj L2 L3)) L4) TO) as R.
  apply wp_result in R. rewrite E in R. destruct R as (x & y & R1 & R2 & R3 & _). exists x, y. split; [assumption|]. split; [assumption|].
  eexists. split; [exact R3|]. destruct debug; [|reflexivity]. unfold cga_winner, cga_loser. destruct (_ <? _)%Z; [apply perm_swap|apply Permutation_refl].
Qed.
Print Assumptions C66_cga_evaluations.

Example C66_case :
  let s := example_sampler (repeat (1 # 2)%Q 4) in
  a_trace (snd (cga_iterate (example_objective 9) 4 (1 # 5) example_u true 0 s)) =
    [[true; false; false; true]; [true; true; false; false]; [false; false; true; true]; [true; true; false; false]; [false; false; true; true]].
Proof. vm_compute. repeat split. Qed.
