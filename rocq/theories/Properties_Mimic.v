(** Properties of MIMIC: C92 and C93. *)

From Coq Require Import QArith Lqa Permutation.
From Verif Require Import Base BaseLemmas BitVector_Model Representation_Spec Map_Spec Algorithm_Model Algorithm_Spec Algorithm_Proofs
  Population_Model Population_Spec Population_Proofs PopAlgorithm_Model PopAlgorithm_Spec PopAlgorithm_Proofs
  ProbabilityVector_Model ProbabilityVector_Spec ProbabilityVector_Proofs Properties_Algorithm Properties_Population
  Properties_ProbabilityVector Mimic_Model Mimic_Spec Mimic_Proofs.
Local Open Scope nat_scope.

Lemma mimic_start size n m s : mimic_make size n = Ok m -> alg_make n m = Ok s ->
  well_formed size n (mi_pop (a_mem s)) /\ length (mi_perm (a_mem s)) = n /\ length (mi_p0 (a_mem s)) = n /\ length (mi_p1 (a_mem s)) = n /\
  a_trace s = [] /\ length (fst (a_sol s)) = n /\ 1 < size.
Proof.
  intros E1 E2. unfold mimic_make in E1. destruct (0 <? size) eqn:Hs.
  2:{ unfold pop_make in E1. rewrite Hs in E1. discriminate. }
  unfold alg_make in E2. destruct (0 <? n) eqn:Hn; [|discriminate]. apply Nat.ltb_lt in Hs, Hn.
  destruct (pop_make_wf size n Hs Hn) as (p & E & W). rewrite E in E1. destruct (Nat.ltb_spec 1 size); [|discriminate].
  cbn [bind ensureb] in *. apply Ok_inj in E1, E2. subst. cbn. rewrite !repeat_length. repeat split; auto; apply W.
Qed.

(** ** C92: learning.  One iteration, whatever the state reached. The vectors are drawn
    along the current chain and evaluated; then the chain is the greedy one for
    [selection] best of them (see [chain]). The logarithm is any function which is not
    negative from 1 on. If an evaluation throws, the chain is left unchanged. *)
Theorem C92_iteration lg o n size selection u shs srt t s :
  2 <= n -> 0 < selection < size -> (forall x, (1 <= x)%Q -> (0 <= lg x)%Q) ->
  (forall t, shuffles (shs t)) -> sorts srt ->
  well_formed size n (mi_pop (a_mem s)) -> Permutation (seq 0 n) (mi_perm (a_mem s)) ->
  length (mi_p0 (a_mem s)) = n -> length (mi_p1 (a_mem s)) = n -> top_of o (a_trace s) (a_sol s) ->
  match mimic_iterate lg n selection o u shs srt t s with
  | (Ret _, s') => exists sampled kept,
      length sampled = size /\
      (forall k, k < size ->
         drawn_along n (mi_perm (a_mem s)) (mi_p0 (a_mem s)) (mi_p1 (a_mem s)) (u t k) (nth k sampled [])) /\
      a_trace s' = a_trace s ++ sampled /\
      best_of selection kept (map (fun x => (x, o_value o x)) sampled) /\
      chain lg n kept (mi_perm (a_mem s')) (mi_p0 (a_mem s')) (mi_p1 (a_mem s'))
  | (Exc e, s') =>
      o_stop o (length (a_trace s')) = Some e /\
      mi_perm (a_mem s') = mi_perm (a_mem s) /\ mi_p0 (a_mem s') = mi_p0 (a_mem s) /\ mi_p1 (a_mem s') = mi_p1 (a_mem s)
  | _ => False
  end.
Proof.
  intros Hn HS HL HH HR W P L0 L1 TO.
  pose proof (mimic_iterate_wp lg o n size selection u shs srt HL HH HR HS t s (conj W (conj P (conj L0 L1))) TO) as R.
  apply wp_result in R. destruct (mimic_iterate _ _ _ _ _ _ _ _ _) as [[a|e| |] s'].
  - destruct R as (sampled & kept & R1 & R2 & R3 & R4 & R5 & _). exists sampled, kept. repeat (split; [assumption|]). now apply R5.
  - destruct R as (_ & (e' & R2 & R3) & R4). apply Some_inj in R2. subst. auto.
  - exact R.
  - destruct R as (_ & (e' & R2 & _) & _). discriminate.
Qed.
Print Assumptions C92_iteration.

(** The first vectors are uniform: the parameters are all 1/2 after the initialization. *)
Theorem C92_initialization o n selection bit sh s :
  let '(r, s') := mimic_init selection o bit sh s in
  r = Ret tt -> shuffles sh -> length (mi_perm (a_mem s)) = n -> length (mi_p0 (a_mem s)) = n -> length (mi_p1 (a_mem s)) = n ->
  Permutation (seq 0 n) (mi_perm (a_mem s')) /\
  mi_p0 (a_mem s') = repeat (1 # 2)%Q n /\ mi_p1 (a_mem s') = repeat (1 # 2)%Q n /\ mi_pop (a_mem s') = mi_pop (a_mem s).
Proof.
  unfold mimic_init, abind, aassert, aget. destruct (0 <? selection); [|intros; discriminate].
  destruct (selection <? pop_size (mi_pop (a_mem s))); [|intros; discriminate].
  unfold random_solution, abind, amodify, aget, evaluate. cbn [put_sol a_trace].
  destruct (o_stop o (length (a_trace s))); [intros; discriminate|]. cbn.
  intros _ HS LP L0 L1. unfold pv_uniform. rewrite LP, L0, L1. auto.
Qed.
Print Assumptions C92_initialization.

(** With at least two bits, every vector has draws which give it at any iteration. *)
Theorem C92_any_vector n perm p0 p1 x :
  2 <= n -> Permutation (seq 0 n) perm -> length p0 = n -> length p1 = n ->
  Forall (within n) p0 -> Forall (within n) p1 -> length x = n ->
  exists u, (forall i, 0 <= u i < 1)%Q /\ drawn_along n perm p0 p1 u x.
Proof. exact (drawn_any n perm p0 p1 x). Qed.
Print Assumptions C92_any_vector.

(** The draws determine the vector. *)
Theorem C92_determined n perm p0 p1 u x y :
  0 < n -> Permutation (seq 0 n) perm -> drawn_along n perm p0 p1 u x -> drawn_along n perm p0 p1 u y -> x = y.
Proof.
  intros Hn HP (LX & X0 & XS) (LY & Y0 & YS).
  assert (A : forall i, i < n -> nth (nth i perm 0) x false = nth (nth i perm 0) y false).
  { assert (B : forall a b : bool, (a = true <-> b = true) -> a = b) by (intros [] [] [H1 H2]; auto; try (symmetry; auto); discriminate H1 || (specialize (H1 eq_refl); discriminate) || auto).
    induction i as [|i IH]; intros Hi.
    - apply B. rewrite X0, Y0. reflexivity.
    - apply B. rewrite (XS (S i)), (YS (S i)) by lia. replace (S i - 1) with i by lia. rewrite IH by lia. reflexivity. }
  apply (nth_ext _ _ false false); [congruence|]. intros j Hj. rewrite LX in Hj.
  assert (I : In j perm) by (apply (Permutation_in _ HP), in_seq; lia). apply (In_nth _ _ 0) in I as (i & Hi & <-).
  apply A. now rewrite (perm_seq_length _ _ HP) in Hi.
Qed.
Print Assumptions C92_determined.

(** ** C93: runs.  Whatever the size of the problem, a run of any length, interrupted
    or not, never fails; it leaves a best vector among those evaluated, up to the last
    generation when it is interrupted; the chain orders all the components; with at
    least two bits the parameters lie in [1/n, 1 - 1/n]. *)
Theorem C93_run lg o n size selection u shs srt bit sh num fuel m s :
  0 < selection < size -> (forall x, (1 <= x)%Q -> (0 <= lg x)%Q) -> (forall t, shuffles (shs t)) -> shuffles sh -> sorts srt ->
  mimic_make size n = Ok m -> alg_make n m = Ok s ->
  let '(r, s') := loop (mimic_init selection o bit sh) (mimic_iterate lg n selection o u shs srt) num fuel s in
  run_top o size r s' /\
  (a_trace s' <> [] ->
   Permutation (seq 0 n) (mi_perm (a_mem s')) /\ length (mi_p0 (a_mem s')) = n /\ length (mi_p1 (a_mem s')) = n /\
   (2 <= n -> Forall (within n) (mi_p0 (a_mem s')) /\ Forall (within n) (mi_p1 (a_mem s')))).
Proof.
  intros HS HL HH HSH HR E1 E2. destruct (mimic_start _ _ _ _ E1 E2) as (W & LP & L0 & L1 & T & LS & _).
  pose proof (mimic_run lg o n size selection u shs srt HL HH HR HS bit sh num fuel s HSH W LP L0 L1 T LS) as R.
  destruct (loop _ _ _ _ _) as [r s']. destruct R as [R1 R2]. split; [assumption|]. intros N. destruct R2 as [R2|R2]; [congruence|exact R2].
Qed.
Print Assumptions C93_run.

(** The selection size given by the constructor is valid whenever the constructor does
    not throw, which happens exactly for populations of less than two individuals or an
    empty vector. *)
Theorem C93_make size n :
  match mimic_make size n with
  | Ok _ => 0 < n /\ 0 < default_selection size < size
  | Throw e => e = RuntimeError /\ (n = 0 \/ size <= 1)
  | UB => False
  end.
Proof.
  unfold mimic_make, pop_make. destruct (Nat.ltb_spec 0 size); cbn [ensureb bind]; [|split; [reflexivity|lia]].
  destruct (Nat.ltb_spec 0 n); cbn [ensureb bind]; [|split; [reflexivity|lia]].
  destruct (Nat.ltb_spec 1 size); cbn [ensureb bind]; [|split; [reflexivity|lia]].
  split; [assumption|]. unfold default_selection. split; [apply Nat.div_str_pos; lia|apply Nat.div_lt; lia].
Qed.
Print Assumptions C93_make.

(** set_selection_size does not check its argument: other sizes violate an assertion at
    the first step of any run, before any evaluation. *)
Theorem C93_bad_selection lg o n size selection u shs srt bit sh num fuel m s :
  selection = 0 \/ size <= selection -> mimic_make size n = Ok m -> alg_make n m = Ok s ->
  loop (mimic_init selection o bit sh) (mimic_iterate lg n selection o u shs srt) num fuel s = (Bad, s).
Proof.
  intros HS E1 E2. destruct (mimic_start _ _ _ _ E1 E2) as ((_ & _ & W3 & _) & _).
  unfold loop, mimic_init, abind, aassert, aget. destruct (Nat.ltb_spec 0 selection); [|reflexivity].
  unfold pop_size. rewrite W3. destruct (Nat.ltb_spec selection size); [lia|reflexivity].
Qed.
Print Assumptions C93_bad_selection.

(** A run of two iterations on four bits *)
Definition example_lg (x : Q) : Q := (x - 1)%Q.
Lemma example_lg_pos x : (1 <= x)%Q -> (0 <= example_lg x)%Q.
Proof. unfold example_lg. lra. Qed.
Definition example_mimic : mimic := Eval vm_compute in match mimic_make 5 4 with Ok m => m | _ => mk_mimic (mk_pop [] [] []) [] [] [] end.
Lemma example_mimic_make : mimic_make 5 4 = Ok example_mimic /\ alg_make 4 example_mimic = Ok (mk_alg [] ([false; false; false; false], 0%Z) false example_mimic).
Proof. split; reflexivity. Qed.
Definition example_mimic_run (stop : nat) : res unit * alg mimic :=
  loop (mimic_init 3 (example_objective stop) Nat.even (@rev nat)) (mimic_iterate example_lg 4 3 (example_objective stop) example_u (fun _ => @rev nat) insertion_sort) 2 9
    (mk_alg [] ([false; false; false; false], 0%Z) false example_mimic).
Example C92_case :
  let '(r, s') := example_mimic_run 99 in
  r = Ret tt /\ length (a_trace s') = 11 /\ mi_perm (a_mem s') = [1; 2; 0; 3] /\
  map Qred (mi_p0 (a_mem s')) = [3 # 4; 1 # 2; 2 # 3; 1 # 4]%Q /\ map Qred (mi_p1 (a_mem s')) = [3 # 4; 1 # 4; 1 # 2; 3 # 4]%Q.
Proof. vm_compute. repeat split. Qed.
Example C93_case :
  let '(r, s') := example_mimic_run 8 in
  r = Exc LastEvaluation /\ length (a_trace s') = 8 /\ a_sol s' = ([true; false; true; false], 2%Z).
Proof. vm_compute. repeat split. Qed.
