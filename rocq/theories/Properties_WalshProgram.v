(** Properties of the spectrum printed by the application: C131. *)

From Coq Require Import ZArith NArith QArith Permutation Sorted Lia.
From Verif Require Import Base BaseLemmas BitVector_Model BitVector_Spec Iterator_Proofs Function_Spec Walsh_Model Transform_Proofs Representation_Spec Map_Model
  Double Controller_Model Controller_Spec Decorator_Model ControllerStack_Spec Application_Model Application_Spec Properties_Application
  WalshProgram_Model WalshProgram_Spec WalshProgram_Proofs.
Local Close Scope Q_scope.
Local Open Scope nat_scope.

(** * C131: the spectrum printed by --fn-walsh-transform *)

Section Walsh.
  Context (srt : (walsh_term -> walsh_term -> bool) -> list walsh_term -> list walsh_term) (HS : sorts srt).
  Context (ap : app_options) (co : controller_options) (m : option hmap) (F : func) (target : option dbl) (f : bv -> dbl) (g : bv -> Z).
  Let n := fp_size (f_props F).
  Context (HO : optimizes ap) (HC : make_function_controller co F = Ok (middle_of co, target)).
  Context (HT : total (f_obj F) (f_init F) n f) (HG : forall x, length x = n -> f x = DFin (g x)).

  Lemma walsh_run : 0 < n -> walsh_program srt ap co (Ok (Some (m, F))) =
    match terms <- fast_walsh_transform n (through co target n f) ;; print_spectrum srt terms with
    | Ok spectrum => Some ([], spectrum, Exit 0)
    | Throw e => Some ([], [], snd (end_of_program ([], Throw e)))
    | UB => Some ([], [], Undefined)
    end.
  Proof using HO HC HT HG.
    intros Hn. destruct HO as (H1 & H2 & H3 & H4 & H5 & H6 & H7). unfold walsh_program, app_init. rewrite H1. destruct (Z.ltb_spec (ap_threads ap) 1); [lia|]. rewrite HC.
    unfold load_solution, print_information. rewrite H3, H4, H5, H6, H7. cbn [when andthen fst snd app]. fold n.
    rewrite (transform_controlled (f_obj F) co target (f_init F) n f g Hn HT HG). destruct (bind _ _) as [l|e|]; reflexivity.
  Qed.

  (** The budget is enough for all the vectors, and none reaches the target. *)
  Definition uninterrupted : Prop :=
    ((co_budget co <= 0)%Z \/ (Z.of_nat (2 ^ n) <= co_budget co)%Z) /\ forall t x, target = Some t -> length x = n -> dge (f x) t = false.

  Let through_free x : uninterrupted -> length x = n -> through co target n f x = Ok (g x).
  Proof.
    intros [HB HF] L. unfold through. destruct (sequential_cases co f n x L) as (_ & _ & ->); [|exact HB]. rewrite (HG x L). unfold seen_through.
    destruct target as [t|]; [|reflexivity]. specialize (HF t x eq_refl L). rewrite (HG x L) in HF. now rewrite HF.
  Qed.

  (** If the function is not constant, then its spectrum is printed: the features which are not
      empty and whose coefficients are not negligible, by decreasing amplitudes. *)
  Theorem C131_spectrum : 0 < n < 31 -> uninterrupted -> ~ constant n g ->
    exists l, walsh_program srt ap co (Ok (Some (m, F))) = Some ([], l, Exit 0) /\ is_spectrum n g l.
  Proof.
    intros Hn HU NC. rewrite walsh_run by lia.
    destruct (walsh_transforms n (through co target n f) g ltac:(lia) ltac:(lia) (fun x L => through_free x HU L)) as (terms & _ & -> & ND & IN & _). cbn [bind].
    destruct (spectrum_printed srt n g terms HS Hn ND IN) as [_ H]. destruct (H NC) as (l & -> & S). exists l. split; [reflexivity|exact S].
  Qed.

  (** For a constant function, the program reads a term which does not exist, or violates an
      assertion if the function is zero. *)
  Theorem C131_constant : 0 < n < 31 -> uninterrupted -> constant n g -> walsh_program srt ap co (Ok (Some (m, F))) = Some ([], [], Undefined).
  Proof.
    intros Hn HU NC. rewrite walsh_run by lia.
    destruct (walsh_transforms n (through co target n f) g ltac:(lia) ltac:(lia) (fun x L => through_free x HU L)) as (terms & _ & -> & ND & IN & _). cbn [bind].
    destruct (spectrum_printed srt n g terms HS Hn ND IN) as [H _]. rewrite (H NC). reflexivity.
  Qed.

  (** If the budget is less than the number of vectors, or if one of them reaches the target, then
      the program prints nothing and ends with an error. *)
  Theorem C131_interrupted : 0 < n < 31 ->
    (0 < co_budget co < Z.of_nat (2 ^ n))%Z \/ (exists t x, target = Some t /\ length x = n /\ dge (f x) t = true) ->
    walsh_program srt ap co (Ok (Some (m, F))) = Some ([], [], Exit 1).
  Proof.
    intros Hn HI. rewrite walsh_run by lia.
    assert (TH : forall x, length x = n -> (exists z, through co target n f x = Ok z) \/ exists e, stopping e /\ through co target n f x = Throw e).
    { intros x L. unfold through. destruct (sequential_cases co f n x L) as ([-> | ->] & _ & _); unfold seen_through; rewrite ?(HG x L).
      - destruct target as [t|]; [destruct (dge (DFin (g x)) t)|]; [right; exists TargetReached; split; [now right|reflexivity]|left; eexists; reflexivity..].
      - right. exists LastEvaluation. split; [now left|]. destruct target; reflexivity. }
    destruct (interrupted n (through co target n f) Hn TH) as (e & [-> | ->] & ->); [|reflexivity..].
    destruct HI as [HB|(t & x & -> & L & R)].
    - destruct (all_bvs_spec n) as (A1 & A2 & A3 & A4). set (k := Z.to_nat (co_budget co)). assert (B : k < 2 ^ n) by lia.
      exists (nth k (all_bvs n) []), LastEvaluation. assert (L : length (nth k (all_bvs n) []) = n) by (apply A3, nth_In; lia). split; [exact L|].
      unfold through. destruct (sequential_cases co f n _ L) as (_ & E & _). rewrite E; [destruct target; reflexivity|lia|rewrite A4 by exact B; lia].
    - destruct (TH x L) as [[z E]|(e & _ & E)]; [|eauto]. exfalso. unfold through in E. destruct (sequential_cases co f n x L) as ([E'|E'] & _ & _); rewrite E' in E; cbn in E; [rewrite R in E|]; discriminate.
  Qed.

  (** A function of zero bits is not even evaluated; with 31 bits or more the size of the table
      overflows. *)
  Theorem C131_sizes : n = 0 \/ 31 <= n -> walsh_program srt ap co (Ok (Some (m, F))) = Some ([], [], Undefined).
  Proof.
    intros Hn. destruct HO as (H1 & H2 & H3 & H4 & H5 & H6 & H7). unfold walsh_program, app_init. rewrite H1. destruct (Z.ltb_spec (ap_threads ap) 1); [lia|]. rewrite HC.
    unfold load_solution, print_information. rewrite H3, H4, H5, H6, H7. cbn [when andthen fst snd app]. fold n. destruct Hn as [-> |Hn].
    - assert (E : print_spectrum srt [] = UB).
      { unfold print_spectrum. cbv zeta. cbn [map]. match goal with |- context [srt ?lt ?l] => destruct (HS lt l coefficient_order) as [P _]; apply Permutation_nil in P; rewrite P end. reflexivity. }
      change (snd (fast_walsh_transform_with _ 0 _)) with (Some (Ok ([] : list walsh_term))). cbn [bind]. rewrite E. reflexivity.
    - unfold fast_walsh_transform_with, shift_one. destruct (Nat.ltb_spec n 31); [lia|]. reflexivity.
  Qed.
End Walsh.
Print Assumptions C131_spectrum.
Print Assumptions C131_constant.
Print Assumptions C131_interrupted.
Print Assumptions C131_sizes.

(** The first amplitude is one, and all of them are at most one. *)
Theorem C131_amplitudes n g l : is_spectrum n g l ->
  (exists k a l', l = (k, a) :: l' /\ (a == 1)%Q) /\ Forall (fun p => 1 <= fst p <= n /\ ((1 # 10000000000) < snd p <= 1)%Q) l.
Proof.
  intros (norm & us & [(u0 & F0 & E0) GM] & PN & ND & IN & SO & F2).
  assert (DV : forall z, (inject_Z z / inject_Z norm <= 1 <-> (z <= norm)%Z)%Q /\ ((1 # 10000000000) < inject_Z z / inject_Z norm <-> (norm < 10 ^ 10 * z)%Z)%Q).
  { intros z. destruct norm as [|q|q]; try lia. unfold Qle, Qlt, Qdiv, Qmult, Qinv, inject_Z. cbn [Qnum Qden]. change (10 ^ 10)%Z with 10000000000%Z. lia. }
  assert (I0 : In u0 us) by (apply IN; split; [exact F0|]; rewrite E0; change (10 ^ 10)%Z with 10000000000%Z; lia).
  split.
  - destruct F2 as [|u [k a] us l [_ EA] _]; [destruct I0|]. exists k, a, l. split; [reflexivity|]. cbn [snd] in EA. rewrite EA.
    assert (strength n g u = norm) as ->.
    { apply Z.le_antisymm; [apply GM; now apply IN; left|]. apply StronglySorted_inv in SO as [_ SO]. rewrite Forall_forall in SO. destruct I0 as [->|I0]; [lia|]. specialize (SO u0 I0). cbv beta in SO. lia. }
    unfold Qdiv. apply Qmult_inv_r. intros E. unfold Qeq, inject_Z in E. cbn in E. lia.
  - assert (A : forall u, In u us -> feature n u /\ (norm < 10 ^ 10 * strength n g u)%Z) by (intros u; apply IN). clear IN SO ND I0.
    induction F2 as [|u p us l [E1 E2] _ IH]; constructor; [|apply IH; intros v Hv; apply A; now right].
    destruct (A u (or_introl eq_refl)) as [[L W] B]. rewrite E1. split; [split; [lia|]|].
    + rewrite <- L. apply GF2.weight_le.
    + rewrite E2. split; [now apply DV|]. apply DV. apply GM. now split.
Qed.
Print Assumptions C131_amplitudes.

(** A sort *)
Fixpoint place (lt : walsh_term -> walsh_term -> bool) (a : walsh_term) (l : list walsh_term) : list walsh_term :=
  match l with
  | [] => [a]
  | b :: t => if lt b a then b :: place lt a t else a :: l
  end.
Definition sort_terms (lt : walsh_term -> walsh_term -> bool) (l : list walsh_term) : list walsh_term := fold_right (place lt) [] l.
Lemma place_perm lt a l : Permutation (a :: l) (place lt a l).
Proof. induction l as [|b l IH]; cbn; [reflexivity|]. destruct (lt b a); [|reflexivity]. rewrite perm_swap. now constructor. Qed.
Lemma sort_terms_sorts : sorts sort_terms.
Proof.
  intros lt l (O1 & O2 & O3). unfold sort_terms. induction l as [|a l [IH1 IH2]]; cbn; [split; [reflexivity|constructor]|].
  split; [rewrite <- place_perm; now constructor|]. revert IH2. generalize (fold_right (place lt) [] l). clear l IH1.
  induction 1 as [|b l S IH F]; cbn; [repeat constructor|]. destruct (lt b a) eqn:E.
  - constructor; [assumption|]. apply (Permutation_Forall (place_perm lt a l)). constructor; [|assumption].
    destruct (lt a b) eqn:E'; [|reflexivity]. pose proof (O2 _ _ _ E E') as P. now rewrite O1 in P.
  - constructor; [constructor; assumption|]. constructor; [assumption|]. rewrite Forall_forall in *. intros c Hc. eapply O3; [now apply F|assumption].
Qed.

(** A function of three bits, which is 4 if the two first bits are equal and 0 otherwise, and 1
    more for the third bit; its spectrum, without budget, with a budget of 8 and 7 evaluations,
    and with the target 5; and a constant function *)
Definition example_values (x : bv) : Z :=
  match x with
  | [a; b; c] => ((if Bool.eqb a b then 4 else 0) + (if c then 1 else 0))%Z
  | _ => 0%Z
  end.
Definition walsh_example (g : bv -> Z) : func := mk_func unit (plain (fun x => Ok (DFin (g x)))) tt (mk_fprops 3 (Ok false) (Throw RuntimeError) false).
Example C131_case :
  let ap := example_app None false false false in
  let run g co := walsh_program sort_terms ap co (Ok (Some (None, walsh_example g))) in
  let spectrum := [(2, (16 # 16)%Q); (1, (4 # 16)%Q)] in
  let co budget target := mk_controller_options budget false false false target false in
  run example_values (co 0%Z None) = Some ([], spectrum, Exit 0) /\ run example_values (co 8%Z None) = Some ([], spectrum, Exit 0) /\
  run example_values (co 7%Z None) = Some ([], [], Exit 1) /\ run example_values (co 0%Z (Some (DFin 5))) = Some ([], [], Exit 1) /\
  run example_values (co 0%Z (Some (DFin 6))) = Some ([], spectrum, Exit 0) /\
  run (fun _ => 3%Z) (co 0%Z None) = Some ([], [], Undefined) /\ run (fun _ => 0%Z) (co 0%Z None) = Some ([], [], Undefined).
Proof. repeat split; vm_compute; reflexivity. Qed.

(** The hypotheses of the theorems hold for it. *)
Example C131_hypotheses :
  let F := walsh_example example_values in
  let co := mk_controller_options 8 true false false (Some (DFin 6)) false in
  let f x := DFin (example_values x) in
  sorts sort_terms /\ optimizes (example_app None false false false) /\ make_function_controller co F = Ok (middle_of co, Some (DFin 6)) /\
  total (f_obj F) (f_init F) 3 f /\ uninterrupted co F (Some (DFin 6)) f /\ ~ constant 3 example_values.
Proof.
  split; [exact sort_terms_sorts|]. split; [repeat split; cbn; lia|]. split; [reflexivity|]. split.
  { intros xs _. induction xs as [|x xs IH]; [reflexivity|]. cbn. now rewrite <- IH. }
  split.
  - split; [right; cbn; lia|]. intros t x E L. injection E as <-. destruct x as [|a [|b [|c [|]]]]; try discriminate L. destruct a, b, c; reflexivity.
  - intros C. specialize (C [true; true; true] [true; false; true] eq_refl eq_refl). discriminate C.
Qed.
