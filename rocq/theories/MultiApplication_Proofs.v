(** Proofs about the application for several objectives. *)

From Coq Require Import ZArith.
From Verif Require Import Base BaseLemmas BitVector_Model BitVector_Spec Algorithm_Model Pareto_Model Pareto_Spec Pareto_Proofs Nsga2_Model Nsga2_Spec
  Application_Model MultiApplication_Model MultiApplication_Spec.
From Verif Require Properties_Population.
Local Open Scope nat_scope.

Lemma firstn_snoc_nth {A} (l : list A) i d : i < length l -> firstn (S i) l = firstn i l ++ [nth i l d].
Proof.
  revert i. induction l as [|a l IH]; intros [|i] H; cbn [length] in H; [lia|lia|reflexivity|]. cbn [firstn nth app]. f_equal. apply IH. lia.
Qed.

Lemma print_all {A} (print : list Z -> bv -> A) (value : bv -> list Z) (xs : list bv) (fronts : list nat) :
  length fronts = length xs -> (forall i, i < length xs -> nth i fronts 0 = 0) ->
  foldM (fun out i =>
    front <- vget fronts i ;;
    if front =? 0 then
      v <- vget (map value xs) i ;;
      x <- vget xs i ;;
      Ok (out ++ [print v x])
    else Ok out) (seq 0 (length xs)) [] = Ok (map (fun x => print (value x) x) xs).
Proof.
  intros L Z. assert (G : forall k, k <= length xs -> foldM (fun out i =>
    front <- vget fronts i ;;
    if front =? 0 then v <- vget (map value xs) i ;; x <- vget xs i ;; Ok (out ++ [print v x]) else Ok out)
    (seq (length xs - k) k) (map (fun x => print (value x) x) (firstn (length xs - k) xs)) = Ok (map (fun x => print (value x) x) xs)).
  { induction k as [|k IH]; intros Hk; cbn [seq foldM].
    - rewrite Nat.sub_0_r, firstn_all. reflexivity.
    - set (i := length xs - S k) in *. assert (Hi : i < length xs) by lia.
      unfold vget at 1. rewrite (nth_error_nth' fronts 0) by lia. cbn [bind]. rewrite (Z i Hi). cbn [Nat.eqb].
      unfold vget at 1. rewrite (nth_error_nth' (map value xs) (value [])) by (rewrite map_length; lia). cbn [bind]. rewrite map_nth.
      unfold vget at 1. rewrite (nth_error_nth' xs []) by lia. cbn [bind].
      replace (S i) with (length xs - k) by lia. rewrite <- IH by lia. f_equal.
      replace (length xs - k) with (S i) by lia. rewrite (firstn_snoc_nth xs i []) by exact Hi. rewrite map_app. reflexivity. }
  specialize (G (length xs) (le_n _)). rewrite Nat.sub_diag in G. exact G.
Qed.

Lemma manage_Ok op ord m (value : bv -> list Z) xs : visits ord -> (forall x, In x xs -> length (value x) = m) ->
  (forall x y, In x xs -> In y xs -> ~ pareto_better (value x) (value y)) ->
  mo_manage op ord (mk_mpop xs (map value xs)) = Some (printed op value xs, Ok None).
Proof.
  intros V S ND. unfold mo_manage. cbn [m_bvs m_values].
  assert (SS : same_sizes m (map value xs)) by (apply Forall_map, Forall_forall; exact S).
  destruct (Properties_Population.C47_fronts m (map value xs) ord (length xs) (repeat 0 (length xs)) SS V) as (F & E & LF & H);
    [rewrite map_length; lia|rewrite repeat_length, map_length; reflexivity|].
  rewrite E. rewrite map_length in LF, H.
  assert (Z : forall i, i < length xs -> nth i F 0 = 0).
  { intros i Hi. apply H; [exact Hi|]. apply Properties_Population.C47_first_front. rewrite map_length. intros j Hj.
    rewrite !(nth_indep (map value xs) [] (value [])), !map_nth by (rewrite map_length; lia). apply ND; now apply nth_In. }
  rewrite (print_all MoDescription value xs F LF Z), (print_all (fun v _ => MoFront v) value xs F LF Z).
  unfold mo_when, mo_then, printed. destruct (mo_print_description op), (mo_print_front op); cbn [fst snd]; rewrite ?app_nil_r; reflexivity.
Qed.

Lemma early op f : no_question op ->
  mo_init op = ([], Ok None) /\ mo_then (mo_warning op f) (mo_information op f) = (warned op (mf_size f), Ok None).
Proof.
  intros (A & B & C & D & E). unfold mo_init, mo_then, mo_warning, mo_information, mo_when, warned. rewrite A, C, D, E.
  destruct (Z.ltb_spec (mo_threads op) 1); [lia|]. split; [reflexivity|]. destruct (Z.of_nat (mf_size f) =? mo_bv_size op)%Z; reflexivity.
Qed.

Lemma program_early op f d : no_question op ->
  mo_program op (Ok f) d =
    match mo_make_algorithm op (mf_size f) (mo_outputs (mf_objective f)) (md_made d) with
    | Throw e => Some (mo_end (warned op (mf_size f), Throw e))
    | UB => Some (mo_end (warned op (mf_size f), UB))
    | Ok c =>
        match nsga2_minimize (mf_objective f) (md_srt d) (mo_parameters op) (md_bits d) (md_first d) (md_sh d) (md_garbage d) (md_breeding d)
                (md_generations d) (md_last d) (mo_num_iterations op) (mk_mstate [] c) with
        | (Pending, _) => None
        | (Exc e, _) => Some (mo_end (announced op (mf_size f), Throw e))
        | (Bad, _) => Some (mo_end (announced op (mf_size f), UB))
        | (Ret _, s) =>
            match mo_manage op (md_print d) (ns_solutions (ms_mem s)) with
            | None => None
            | Some p => Some (mo_end (mo_then (announced op (mf_size f), Ok None) p))
            end
        end
    end.
Proof. intros Q. destruct (early op f Q) as [E1 E2]. unfold mo_program. rewrite E1, E2. reflexivity. Qed.
