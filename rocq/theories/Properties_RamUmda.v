(** Properties of UMDA with random affine maps: C94, C95 and C96. *)

From Coq Require Import QArith Lqa Permutation.
From Verif Require Import Base BaseLemmas BitVector_Model Transvection_Model Map_Model Representation_Spec Map_Spec Algorithm_Model Algorithm_Spec Algorithm_Proofs
  Population_Model Population_Spec Population_Proofs PopAlgorithm_Model PopAlgorithm_Spec PopAlgorithm_Proofs
  ProbabilityVector_Model ProbabilityVector_Spec ProbabilityVector_Proofs Properties_Algorithm Properties_Population
  Properties_ProbabilityVector RamUmda_Model RamUmda_Spec RamUmda_Proofs.
Local Open Scope nat_scope.

Lemma ram_start size n len m s : ram_make size n len = Ok m -> alg_make n m = Ok s ->
  ram_sized size n (a_mem s) /\ r_pv (a_mem s) = repeat 0%Q n /\ r_pvy (a_mem s) = repeat 0%Q n /\ r_len (a_mem s) = len /\
  a_trace s = [] /\ length (fst (a_sol s)) = n /\ 0 < size.
Proof.
  intros E1 E2. unfold ram_make in E1. destruct (0 <? size) eqn:Hs.
  2:{ unfold pop_make in E1. rewrite Hs in E1. discriminate. }
  unfold alg_make in E2. destruct (0 <? n) eqn:Hn; [|discriminate]. apply Nat.ltb_lt in Hs, Hn.
  destruct (pop_make_wf size n Hs Hn) as (p & E & W). rewrite E in E1.
  cbn [bind ensureb] in *. apply Ok_inj in E1, E2. subst. unfold ram_sized. cbn [a_mem a_trace a_sol r_x r_y r_pv r_pvy r_len fst]. rewrite !repeat_length. auto 10.
Qed.

(** ** C94: learning through random maps.  One iteration, whatever the state reached.
    The vectors of the population are evaluated; [selection] best ones are seen through
    an affine map made of the current number of transvections; the probabilities are the
    clamped frequencies of ones among their images; the next vectors are those whose
    images are drawn with these probabilities. If an evaluation throws, vectors and
    probabilities are left unchanged. The iteration is not over only if the draws of the
    transvections are not. *)
Theorem C94_iteration o n size selection c ud gd tb td u shs srt t s :
  2 <= n -> 0 < selection <= size -> valid_lengths c -> within_lengths c ud ->
  (forall t, Forall (fun k => k < n) (td t)) -> (forall t, shuffles (shs t)) -> sorts srt ->
  well_formed size n (r_x (a_mem s)) -> well_formed size n (r_y (a_mem s)) ->
  length (r_pv (a_mem s)) = n -> length (r_pvy (a_mem s)) = n -> (0 <= r_len (a_mem s))%Z -> top_of o (a_trace s) (a_sol s) ->
  match ram_iterate o n selection c ud gd tb td u shs srt t s with
  | (Ret _, s') => exists kept ts b,
      a_trace s' = a_trace s ++ p_bvs (r_x (a_mem s)) /\
      best_of selection kept (map (fun x => (x, o_value o x)) (p_bvs (r_x (a_mem s)))) /\
      compute_ts_length c t (ud t) (gd t) (r_len (a_mem s)) = Ok (r_len (a_mem s')) /\
      random_map n (Z.to_nat (r_len (a_mem s'))) ts b /\
      estimated n (images (affine ts b) kept) (r_pv (a_mem s')) /\
      (length (p_bvs (r_x (a_mem s'))) = size /\
       forall k, k < size -> drawn_through n (affine ts b) (r_pv (a_mem s')) (u t k) (nth k (p_bvs (r_x (a_mem s'))) []))
  | (Exc e, s') =>
      o_stop o (length (a_trace s')) = Some e /\
      r_pv (a_mem s') = r_pv (a_mem s) /\ p_bvs (r_x (a_mem s')) = p_bvs (r_x (a_mem s))
  | (Bad, _) => False
  | (Pending, s') =>
      a_trace s' = a_trace s ++ p_bvs (r_x (a_mem s)) /\
      r_pv (a_mem s') = r_pv (a_mem s) /\ p_bvs (r_x (a_mem s')) = p_bvs (r_x (a_mem s))
  end.
Proof.
  intros Hn HS HC HU HD HH HR W WY L0 L1 HL TO.
  pose proof (ram_iterate_wp o n size selection c ud gd tb td u shs srt Hn HS HC HU HD HH HR t s (conj W (conj WY (conj L0 L1))) HL TO) as R.
  apply wp_result in R. destruct (ram_iterate _ _ _ _ _ _ _ _ _ _ _ _ _) as [[a|e| |] s'].
  - destruct R as (kept & ts & b & R1 & R2 & R3 & R4 & R5 & R6 & _ & _ & _ & ((_ & _ & R7 & _) & _) & _). exists kept, ts, b. auto 10.
  - destruct R as (R1 & _ & _ & R4 & _ & R6 & _). auto.
  - exact R.
  - destruct R as (R1 & _ & _ & R4 & _ & R6 & _). auto.
Qed.
Print Assumptions C94_iteration.

(** The same for the second variant: the map, the selection and the probabilities of the
    latent space are as above; each new individual is a mixture, a vector of the latent
    space or one of the solution space (see [generated]). The probabilities of the
    solution space are the frequencies among the first [selection] vectors of the
    population in the order in which they were generated, not among the selected ones. *)
Theorem C94_second_iteration o n size selection c ud gd tb td u shs srt uc ul ux coin pc pl t s :
  2 <= n -> 0 < selection <= size -> valid_lengths c -> within_lengths c ud ->
  (forall t, Forall (fun k => k < n) (td t)) -> (forall t, shuffles (shs t)) -> sorts srt ->
  well_formed size n (r_x (a_mem s)) -> well_formed size n (r_y (a_mem s)) ->
  length (r_pv (a_mem s)) = n -> length (r_pvy (a_mem s)) = n -> (0 <= r_len (a_mem s))%Z -> top_of o (a_trace s) (a_sol s) ->
  match ram2_iterate o n selection c ud gd tb td u shs srt uc ul ux coin pc pl t s with
  | (Ret _, s') => exists kept ts b,
      a_trace s' = a_trace s ++ p_bvs (r_x (a_mem s)) /\
      best_of selection kept (map (fun x => (x, o_value o x)) (p_bvs (r_x (a_mem s)))) /\
      compute_ts_length c t (ud t) (gd t) (r_len (a_mem s)) = Ok (r_len (a_mem s')) /\
      random_map n (Z.to_nat (r_len (a_mem s'))) ts b /\
      estimated n (images (affine ts b) kept) (r_pvy (a_mem s')) /\
      estimated n (map (fun x => (x, o_value o x)) (firstn selection (p_bvs (r_x (a_mem s))))) (r_pv (a_mem s')) /\
      (length (p_bvs (r_x (a_mem s'))) = size /\
       forall k, k < size ->
         generated n (affine ts b) (r_pv (a_mem s')) (r_pvy (a_mem s')) pc pl (uc t k) (ul t k) (u t k) (ux t k) (coin t k)
           (nth k (p_bvs (r_x (a_mem s'))) []))
  | (Exc e, s') =>
      o_stop o (length (a_trace s')) = Some e /\
      r_pv (a_mem s') = r_pv (a_mem s) /\ r_pvy (a_mem s') = r_pvy (a_mem s) /\ p_bvs (r_x (a_mem s')) = p_bvs (r_x (a_mem s))
  | (Bad, _) => False
  | (Pending, s') =>
      a_trace s' = a_trace s ++ p_bvs (r_x (a_mem s)) /\
      r_pvy (a_mem s') = r_pvy (a_mem s) /\ p_bvs (r_x (a_mem s')) = p_bvs (r_x (a_mem s))
  end.
Proof.
  intros Hn HS HC HU HD HH HR W WY L0 L1 HL TO.
  pose proof (ram2_iterate_wp o n size selection c ud gd tb td u shs srt Hn HS HC HU HD HH HR uc ul ux coin pc pl t s (conj W (conj WY (conj L0 L1))) HL TO) as R.
  apply wp_result in R. destruct (ram2_iterate _ _ _ _ _ _ _ _ _ _ _ _ _ _ _ _ _ _ _) as [[a|e| |] s'].
  - destruct R as (kept & ts & b & R1 & R2 & R3 & R4 & R5 & R6 & R7 & _ & _ & _ & ((_ & _ & R8 & _) & _) & _). exists kept, ts, b. auto 10.
  - destruct R as ([R1|[R1 _]] & R2 & _ & R4 & _ & R6 & _); [auto|discriminate].
  - exact R.
  - destruct R as (_ & R2 & _ & R4 & _ & R6 & _). auto.
Qed.
Print Assumptions C94_second_iteration.

(** The random maps are bijections on vectors of size n. *)
Theorem C94_bijection n t ts b : random_map n t ts b -> bijection (affine ts b) n.
Proof. exact (affine_bijection n t ts b). Qed.
Print Assumptions C94_bijection.

(** Every vector has draws which give it through any of the maps, with the
    probabilities learnt. *)
Theorem C94_any_vector n t ts b l pv x :
  2 <= n -> random_map n t ts b -> estimated n l pv -> length x = n ->
  exists u, (forall i, 0 <= u i < 1)%Q /\ drawn_through n (affine ts b) pv u x.
Proof.
  intros Hn RM [L ES] LX. apply (drawn_through_any n t ts b pv x); auto. apply Forall_forall. intros q Hq. apply (In_nth _ _ 0%Q) in Hq as (i & Hi & <-).
  rewrite L in Hi. eapply clamped_in; [|apply (ES i Hi)]. pose proof (half_between n Hn). lra.
Qed.
Print Assumptions C94_any_vector.

(** ** C95: runs.  For at least two bits, a selection between one and the size of the
    population and valid parameters of the lengths, a run of any length of both variants,
    interrupted or not, never fails; it leaves a best vector among those evaluated, up to
    the last generation when it is interrupted. The probabilities lie in [1/n, 1 - 1/n]
    from the first estimation on. *)
Theorem C95_run (second : bool) o n size selection c ud gd tb td u shs srt uc ul ux coin pc pl bit bits num fuel len m s :
  2 <= n -> 0 < selection <= size -> valid_lengths c -> within_lengths c ud -> (0 <= len)%Z ->
  (forall t, Forall (fun k => k < n) (td t)) -> (forall t, shuffles (shs t)) -> sorts srt ->
  ram_make size n len = Ok m -> alg_make n m = Ok s ->
  let '(r, s') := loop (ram_init o bit bits)
    (if second then ram2_iterate o n selection c ud gd tb td u shs srt uc ul ux coin pc pl
     else ram_iterate o n selection c ud gd tb td u shs srt) num fuel s in
  run_top o size r s' /\
  (a_trace s' <> [] ->
   (r_pv (a_mem s') = repeat 0%Q n \/ length (r_pv (a_mem s')) = n /\ Forall (within n) (r_pv (a_mem s'))) /\
   (r_pvy (a_mem s') = repeat 0%Q n \/ length (r_pvy (a_mem s')) = n /\ Forall (within n) (r_pvy (a_mem s'))) /\
   (0 <= r_len (a_mem s'))%Z).
Proof.
  intros Hn HS HC HU HL HD HH HR E1 E2. destruct (ram_start _ _ _ _ _ E1 E2) as (SZ & P1 & P2 & EL & T & LS & _).
  pose proof (ram_run o n size selection c ud gd tb td u shs srt Hn HS HC HU HD HH HR uc ul ux coin pc pl second bit bits num fuel s) as R.
  destruct (loop _ _ _ _ _) as [r s']. destruct R as [R1 R2]; auto.
  - split; [assumption|]. rewrite EL. split; [assumption|]. rewrite P1, P2. split; now left.
  - split; [assumption|]. intros N. destruct R2 as [R2|((_ & _ & S1 & S2) & K2 & K3 & K4)]; [congruence|].
    split; [destruct K3; auto|]. split; [destruct K4; auto|assumption].
Qed.
Print Assumptions C95_run.

(** The constructor throws exactly for an empty population or an empty vector. *)
Theorem C95_make size n len :
  match ram_make size n len with
  | Ok m => 0 < size /\ 0 < n /\ r_len m = len
  | Throw e => e = RuntimeError /\ (n = 0 \/ size = 0)
  | UB => False
  end.
Proof.
  unfold ram_make, pop_make. destruct (Nat.ltb_spec 0 size); cbn [ensureb bind]; [|split; [reflexivity|lia]].
  destruct (Nat.ltb_spec 0 n); cbn [ensureb bind]; [|split; [reflexivity|lia]]. auto.
Qed.
Print Assumptions C95_make.

(** Vectors of one bit, an empty selection or a selection larger than the population
    (the default one is 10, whatever the size of the population) are accepted by
    constructors and setters, but no iteration of both variants returns: assertions or
    bounds are violated, or the probabilities are quotients by zero. *)
Theorem C95_misuse o n size selection c ud gd tb td u shs srt uc ul ux coin pc pl t s :
  n = 1 \/ selection = 0 \/ size < selection -> valid_lengths c -> within_lengths c ud ->
  (forall t, Forall (fun k => k < n) (td t)) -> (forall t, shuffles (shs t)) -> sorts srt -> (forall k, o_stop o k = None) ->
  well_formed size n (r_x (a_mem s)) -> well_formed size n (r_y (a_mem s)) ->
  length (r_pv (a_mem s)) = n -> length (r_pvy (a_mem s)) = n -> (0 <= r_len (a_mem s))%Z -> top_of o (a_trace s) (a_sol s) ->
  (let r := fst (ram_iterate o n selection c ud gd tb td u shs srt t s) in r = Bad \/ r = Pending) /\
  (let r := fst (ram2_iterate o n selection c ud gd tb td u shs srt uc ul ux coin pc pl t s) in r = Bad \/ r = Pending).
Proof.
  intros HS HC HU HD HH HR HO W WY L0 L1 HL TO. pose proof (conj W (conj WY (conj L0 L1))) as SZ. split.
  - now apply (ram_misuse o n size selection c ud gd tb td u shs srt).
  - now apply (ram2_misuse o n size selection c ud gd tb td u shs srt).
Qed.
Print Assumptions C95_misuse.

(** ** C96: lengths.  The number of transvections used at the iteration [t] of a run
    started with [len] transvections. Constant: [len] itself. *)
Theorem C96_constant c ud gd len t : lc_mode c = LengthConstant -> length_at c ud gd len t = Ok len.
Proof. intros H. induction t as [|t IH]; cbn [length_at]; [|rewrite IH; cbn [bind]]; unfold compute_ts_length; now rewrite H. Qed.
Print Assumptions C96_constant.

(** Increasing: one more every [period] iterations, up to the upper bound. *)
Theorem C96_increasing c ud gd len t : lc_mode c = LengthIncreasing -> (0 < lc_period c)%Z ->
  length_at c ud gd len t = Ok (Z.min (lc_upper c) (len + (Z.of_nat t + 1) / lc_period c)).
Proof. exact (increasing_length c ud gd len t). Qed.
Print Assumptions C96_increasing.

(** Decreasing: one less every [period] iterations, down to the lower bound. *)
Theorem C96_decreasing c ud gd len t : lc_mode c = LengthDecreasing -> (0 < lc_period c)%Z ->
  length_at c ud gd len t = Ok (Z.max (lc_lower c) (len - (Z.of_nat t + 1) / lc_period c)).
Proof. exact (decreasing_length c ud gd len t). Qed.
Print Assumptions C96_decreasing.

(** Random lengths lie between the bounds, whatever the former length. *)
Theorem C96_random c ud gd len t : valid_lengths c -> within_lengths c ud ->
  match lc_mode c with
  | LengthUniform => length_at c ud gd len t = Ok (ud t)
  | LengthGeometric => exists l, length_at c ud gd len t = Ok l /\ (0 <= l <= lc_upper c)%Z /\ (Z.of_nat (gd t) <= lc_upper c -> l = Z.of_nat (gd t))%Z
  | LengthReverseGeometric => exists l, length_at c ud gd len t = Ok l /\ (lc_lower c <= l <= lc_upper c)%Z /\ (lc_lower c <= lc_upper c - Z.of_nat (gd t) -> l = lc_upper c - Z.of_nat (gd t))%Z
  | _ => True
  end.
Proof.
  intros (V1 & V2 & V3 & V4) HU.
  assert (P : qltb 0 (lc_param c) && qltb (lc_param c) 1 = true). { apply andb_true_iff. now rewrite !qltb_lt. }
  assert (B : (lc_lower c <=? lc_upper c)%Z = true) by (apply Z.leb_le; lia).
  destruct (lc_mode c) eqn:M; try exact I.
  - induction t as [|t IH]; cbn [length_at]; [|rewrite IH; cbn [bind]]; unfold compute_ts_length; now rewrite M, B.
  - assert (G : length_at c ud gd len t = Ok (Z.min (Z.of_nat (gd t)) (lc_upper c))).
    { induction t as [|t IH]; cbn [length_at]; [|rewrite IH; cbn [bind]]; unfold compute_ts_length; now rewrite M, P. }
    eexists. split; [exact G|]. lia.
  - assert (G : length_at c ud gd len t = Ok (Z.max (lc_upper c - Z.of_nat (gd t)) (lc_lower c))).
    { induction t as [|t IH]; cbn [length_at]; [|rewrite IH; cbn [bind]]; unfold compute_ts_length; now rewrite M, P. }
    eexists. split; [exact G|]. lia.
Qed.
Print Assumptions C96_random.

(** Initialization does not reset the length: a second run starts with the last length
    of the first one. *)
Theorem C96_not_reset o bit bits s : r_len (a_mem (snd (ram_init o bit bits s))) = r_len (a_mem s).
Proof.
  unfold ram_init, random_solution, abind, amodify, aget, evaluate. cbn [put_sol a_trace].
  destruct (o_stop o _); reflexivity.
Qed.
Print Assumptions C96_not_reset.

(** Unknown modes are refused with an exception, a null period is a division by zero. *)
Theorem C96_refused c it ud gd len :
  (lc_mode c = LengthOther -> compute_ts_length c it ud gd len = Throw RuntimeError) /\
  ((lc_mode c = LengthIncreasing \/ lc_mode c = LengthDecreasing) -> lc_period c = 0%Z -> compute_ts_length c it ud gd len = UB).
Proof. unfold compute_ts_length. split; [now intros ->|]. now intros [-> | ->] ->. Qed.
Print Assumptions C96_refused.

(** Runs of two iterations on four bits *)
Definition example_ram : ram := Eval vm_compute in match ram_make 5 4 2 with Ok m => m | _ => mk_ram (mk_pop [] [] []) (mk_pop [] [] []) [] [] 0 end.
Lemma example_ram_make : ram_make 5 4 2 = Ok example_ram /\ alg_make 4 example_ram = Ok (mk_alg [] ([false; false; false; false], 0%Z) false example_ram).
Proof. split; reflexivity. Qed.
Definition example_lengths : length_config := mk_length_config LengthIncreasing 0 20 2 (1 # 10)%Q.
Lemma example_lengths_valid : valid_lengths example_lengths.
Proof. unfold valid_lengths; cbn. repeat split; try discriminate; reflexivity. Qed.
Definition example_td (t : nat) : list nat := if t =? 0 then [1; 1; 3; 0; 2; 1] else [2; 0; 1; 3; 3; 3; 1; 0].
Definition example_tb (t i : nat) : bool := Nat.even (t + i).
Definition example_ram_run (second : bool) (stop : nat) : res unit * alg ram :=
  let o := example_objective stop in
  loop (ram_init o Nat.even (fun i j => Nat.even (i * j + i / 2)))
    (if second then
       ram2_iterate o 4 3 example_lengths (fun _ => 0%Z) (fun _ => 0) example_tb example_td example_u (fun _ => @rev nat) insertion_sort
         (fun t k => if k =? 0 then 0 else 1)%Q (fun t k => if k =? 1 then 0 else 1)%Q (fun t k => example_u (S t) k) (fun t k => Nat.odd) (1 # 2)%Q (1 # 2)%Q
     else
       ram_iterate o 4 3 example_lengths (fun _ => 0%Z) (fun _ => 0) example_tb example_td example_u (fun _ => @rev nat) insertion_sort) 2 9
    (mk_alg [] ([false; false; false; false], 0%Z) false example_ram).
Example C94_case :
  let '(r, s') := example_ram_run false 99 in
  r = Ret tt /\ length (a_trace s') = 11 /\ r_len (a_mem s') = 3%Z /\ map Qred (r_pv (a_mem s')) = [2 # 3; 2 # 3; 3 # 4; 1 # 3]%Q /\
  p_bvs (r_x (a_mem s')) = [[false; true; true; true]; [true; true; true; false]; [false; true; true; true]; [true; true; true; false]; [false; true; true; true]].
Proof. vm_compute. repeat split. Qed.
Example C94_case_second :
  let '(r, s') := example_ram_run true 99 in
  r = Ret tt /\ length (a_trace s') = 11 /\ map Qred (r_pv (a_mem s')) = [1 # 3; 2 # 3; 2 # 3; 1 # 3]%Q /\
  map Qred (r_pvy (a_mem s')) = [2 # 3; 2 # 3; 3 # 4; 1 # 3]%Q /\
  p_bvs (r_x (a_mem s')) = [[false; true; true; true]; [true; true; true; false]; [false; false; true; true]; [false; true; true; false]; [false; false; true; true]].
Proof. vm_compute. repeat split. Qed.
Example C95_case :
  let '(r, s') := example_ram_run false 8 in
  r = Exc LastEvaluation /\ length (a_trace s') = 8 /\ a_sol s' = ([true; true; true; true], 4%Z) /\ r_len (a_mem s') = 2%Z.
Proof. vm_compute. repeat split. Qed.
Example C96_case : length_at example_lengths (fun _ => 0%Z) (fun _ => 0) 2 50 = Ok 20%Z /\ length_at example_lengths (fun _ => 0%Z) (fun _ => 0) 2 6 = Ok 5%Z.
Proof. vm_compute. split; reflexivity. Qed.
