(** Properties of the population algorithms which the application makes from its options: C125. *)

From Coq Require Import ZArith QArith Lia.
From Verif Require Import Base BaseLemmas BitVector_Model BitVector_Spec Map_Model Map_Spec Representation_Spec Neighborhood_Model Neighborhood_Spec
  Population_Model Population_Spec Properties_Population Double Controller_Model Controller_Spec Decorator_Model Decorator_Spec ControllerStack_Spec Application_Model Application_Spec
  Search_Model Search_Spec Properties_Decorator Properties_Application Algorithm_Model Algorithm_Spec PopAlgorithm_Spec EvolutionaryAlgorithm_Model EvolutionaryAlgorithm_Spec
  Properties_EvolutionaryAlgorithm AlgorithmMachine_Model AlgorithmMachine_Spec AlgorithmMachine_Proofs AlgorithmPrograms_Proofs Properties_AlgorithmMachine
  PopulationMachine_Model PopulationMachine_Spec PopulationRuns_Proofs PopulationCosts_Proofs PopulationPrograms_Proofs.
Local Open Scope nat_scope.

(** * C125: population algorithms, from the options to what is printed *)

(** [iterations] bounds the number of iterations explored. *)
Theorem C125_program ap co m F mid target i n f g o d po pd srt psrt debug neighbors iterations garbage garbage' bounds others :
  0 < i -> population_options_ok o po i -> population_draws_ok pd i -> sorts srt -> partially_sorts psrt ->
  optimizes ap -> ap_restart ap = false -> make_function_controller co F = Ok (mid, target) ->
  map_fits m i n -> kind_known m -> fp_size (f_props F) = i -> total (f_obj F) (f_init F) i f -> finite_values i f g ->
  exists N, forall fuel, N < fuel ->
  let p := program ap co (Ok (Some (m, F)))
             (make_algorithm o d neighbors iterations garbage (make_population_algorithm o po pd srt psrt debug iterations garbage' bounds others)) fuel in
  (exists r x success, p = Some (report ap co m i r x success) /\
     rs_success r = (match co_stop_on_maximum co, co_target co with false, None => None | _, _ => Some success end) /\
     population_ends o po debug co target f i r x success) \/
  (p = None /\
     (population_draws_last pd i -> (ao_num_iterations o <= 0 \/ Z.of_nat iterations <= ao_num_iterations o)%Z /\
        (co_cache co = false -> (0 < co_budget co)%Z -> (first_generation o po + Z.of_nat iterations * generation_calls o po debug <= co_budget co)%Z))).
Proof.
  intros N OK DO SR PS HO HR HC HM HK HF HT HV.
  exact (population_program ap co m F mid target i n f g o d po pd srt psrt debug neighbors iterations garbage garbage' bounds others N OK DO SR PS HO HR HC HM HK HF HT HV).
Qed.
Print Assumptions C125_program.

Lemma calls_positive o po debug i : population_options_ok o po i -> (1 <= first_generation o po)%Z /\ (1 <= generation_calls o po debug)%Z.
Proof.
  intros (OT & _ & O1 & O2 & O3 & O4 & O5 & _). unfold first_generation, starts_with_population, generation_calls.
  destruct OT as [T|[T|[T|[T|[T|[T|[T|[T|[T|[T|[]]]]]]]]]]]; rewrite <- T in *; cbn [Z.eqb Pos.eqb orb]; cbn [In] in O5;
    repeat match goal with H : ?a = ?a -> _ |- _ => specialize (H eq_refl) end; try (specialize (O5 ltac:(auto))); destruct debug; lia.
Qed.

(** The program ends if the number of iterations or, without cache, that of evaluations is
    bounded.  The value which is shown is that of the solution which is shown if there is no
    budget or if the target is reached, and always for the algorithms which evaluate one
    vector in every iteration. *)
Corollary C125_ends ap co m F mid target i n f g o d po pd srt psrt debug neighbors iterations garbage garbage' bounds others :
  0 < i -> population_options_ok o po i -> population_draws_ok pd i -> sorts srt -> partially_sorts psrt ->
  optimizes ap -> ap_restart ap = false -> make_function_controller co F = Ok (mid, target) ->
  map_fits m i n -> kind_known m -> fp_size (f_props F) = i -> total (f_obj F) (f_init F) i f -> finite_values i f g ->
  population_draws_last pd i ->
  (0 < ao_num_iterations o < Z.of_nat iterations)%Z \/ (co_cache co = false /\ (0 < co_budget co < Z.of_nat iterations)%Z) ->
  exists N, forall fuel, N < fuel -> exists r x success,
    program ap co (Ok (Some (m, F)))
      (make_algorithm o d neighbors iterations garbage (make_population_algorithm o po pd srt psrt debug iterations garbage' bounds others)) fuel =
      Some (report ap co m i r x success) /\
    length x = i /\
    ((co_budget co <= 0)%Z \/ success = true \/ generation_size o po = 1%Z /\ starts_with_population o = false -> rs_value r = Some (f x)) /\
    (starts_with_population o = false \/ (po_mu po <= co_budget co)%Z \/ (co_budget co <= 0)%Z -> exists v, rs_value r = Some v /\ dle (f x) v = true) /\
    (success = true -> exists t, target = Some t /\ dge (f x) t = true) /\
    (co_cache co = false -> (0 < co_budget co)%Z -> (Z.of_nat (rs_total r) <= co_budget co)%Z).
Proof.
  intros N OK DO SR PS HO HR HC HM HK HF HT HV DL E.
  destruct (C125_program ap co m F mid target i n f g o d po pd srt psrt debug neighbors iterations garbage garbage' bounds others) as [M H]; auto.
  assert (RX : forall x, length x = i -> dle (f x) (f x) = true) by (intros x Lx; rewrite (HV x Lx); apply Z.leb_refl).
  exists M. intros fuel HFu. destruct (H fuel HFu) as [(r & x & success & P & _ & L)|(_ & D)].
  - exists r, x, success. split; [exact P|].
    destruct L as [T r x S1 S2 S3 S4 S5 S6 S7 S8|T1 T2 r x S1 S2 S3 S4 S5 S6 S7|T r S1 S2 S3 S4 S5 S6 S7|T r x t S1 S2 S3 S4 S5 S6 S7].
    + rewrite Forall_forall in S1. destruct S6 as [S6 S6']. split; [auto|]. split; [auto|]. split; [eauto|]. split; [discriminate|].
      intros C B. destruct S7 as (S7 & _). specialize (S5 C B). lia.
    + pose proof S1 as F1. apply Forall_app in F1 as [F1 F2]. pose proof F1 as F1'. rewrite Forall_forall in F1'. pose proof S7 as [Sx _]. split; [auto|]. split; [|split; [|split; [discriminate|]]].
      * intros [X|[X|[X _]]]; [lia|discriminate|]. destruct T2; [|cbn in S6; lia]. rewrite app_nil_r in *. now apply (best_value co i f g HV T1).
      * intros _. destruct S5 as (_ & _ & Ta). destruct Ta as (_ & k & z & (R1 & R2 & _) & R3 & _); [destruct T1; [destruct Sx|discriminate]|].
        exists (f z). split; [exact R3|]. destruct (In_nth_error (Search_Spec.valued f (T1 ++ T2)) (x, f x)) as (j & Ej); [apply in_map_iff; exists x; split; [reflexivity|apply in_app_iff; auto]|].
        destruct (R2 _ _ _ Ej) as [X|X]; [|exact X]. rewrite (HV x) in X by auto. discriminate.
      * intros C B. destruct S5 as (S5 & _). rewrite (S3 C). lia.
    + split; [apply repeat_length|]. split; [intros [X|[X|[_ X]]]; [lia|discriminate|congruence]|]. split; [intros [X|[X|X]]; [congruence|lia|lia]|]. split; [discriminate|].
      intros C B. destruct S5 as (S5 & _). rewrite (S3 C). lia.
    + rewrite Forall_forall in S1. assert (Lx : length x = i) by (apply S1, in_app_iff; cbn; auto). split; [exact Lx|]. split; [auto|]. split; [eauto|]. split; [eauto|].
      intros C B. destruct S6 as (S6 & _). specialize (S5 C B). lia.
  - exfalso. destruct (D DL) as [D1 D2]. destruct E as [E|[E1 E2]]; [lia|]. specialize (D2 E1 ltac:(lia)).
    destruct (calls_positive o po debug i OK) as [C1 C2].
    assert (Z.of_nat iterations * 1 <= Z.of_nat iterations * generation_calls o po debug)%Z by (apply Z.mul_le_mono_nonneg_l; lia). lia.
Qed.
Print Assumptions C125_ends.

(** Options which are refused: a size which is null is an error; one which is negative is an
    uncaught exception.  The (1+(lambda,lambda)) GA takes lambda from the option for mu. *)
Definition population_sizes (o : algo_options) (po : population_options) : list Z :=
  let t := ao_algorithm o in
  if ((t =? 310) || (t =? 320))%Z then [po_mu po; po_lambda po]
  else if (t =? 330)%Z then [po_lambda po]
  else if ((t =? 400) || (t =? 450))%Z then [po_mu po]
  else if ((t =? 500) || (t =? 501) || (t =? 600))%Z then [po_population_size po]
  else [].

Lemma factory_fails ap co m F mid target i factory fuel r : fp_size (f_props F) = i -> optimizes ap -> make_function_controller co F = Ok (mid, target) ->
  factory i = r -> (forall A, r <> Ok A) -> program ap co (Ok (Some (m, F))) factory fuel = Some ([], match r with Throw e => ending_of e | _ => Undefined end).
Proof.
  intros HF HO HC E ND. destruct HO as (H1 & H2 & H3 & H4 & H5 & H6 & H7). unfold program, app_init. rewrite H1.
  destruct (Z.ltb_spec (ap_threads ap) 1); [lia|]. rewrite HC. unfold load_solution, print_information. rewrite H3, H4, H5, H6, H7.
  cbn [when andthen snd fst app]. rewrite HF, E. destruct r as [A|e|]; [now destruct (ND A)|now destruct e|reflexivity].
Qed.

Theorem C125_sizes ap co m F mid target i o d po pd srt psrt debug neighbors iterations garbage garbage' bounds others fuel l1 z l2 : 0 < i -> fp_size (f_props F) = i ->
  optimizes ap -> make_function_controller co F = Ok (mid, target) ->
  let p := program ap co (Ok (Some (m, F)))
             (make_algorithm o d neighbors iterations garbage (make_population_algorithm o po pd srt psrt debug iterations garbage' bounds others)) fuel in
  (population_sizes o po = l1 ++ z :: l2 -> Forall (Z.lt 0) l1 -> (z <= 0)%Z -> p = Some ([], if (z <? 0)%Z then Uncaught else Exit 1)) /\
  (ao_algorithm o = 320%Z -> (0 < po_lambda po < po_mu po)%Z -> p = Some ([], Exit 1)).
Proof.
  intros N HF HO HC p.
  assert (PZ : (z <= 0)%Z -> population_size z = Throw (if (z <? 0)%Z then OtherException else RuntimeError)).
  { intros H. unfold population_size, vector_size. destruct (Z.ltb_spec z 0); [reflexivity|]. assert (z = 0)%Z as -> by lia. reflexivity. }
  split.
  - intros ES HP HZ. specialize (PZ HZ). set (r := Throw (if (z <? 0)%Z then OtherException else RuntimeError) : outcome machine).
    assert (K : make_algorithm o d neighbors iterations garbage (make_population_algorithm o po pd srt psrt debug iterations garbage' bounds others) i = r).
    { unfold population_sizes in ES. unfold make_algorithm, make_population_algorithm. cbv zeta.
      destruct (Z.eqb_spec (ao_algorithm o) 310) as [T|_]; [|destruct (Z.eqb_spec (ao_algorithm o) 320) as [T|_]]; [| |destruct (Z.eqb_spec (ao_algorithm o) 330) as [T|_]];
        [| | |destruct (Z.eqb_spec (ao_algorithm o) 400) as [T|_]]; [| | | |destruct (Z.eqb_spec (ao_algorithm o) 450) as [T|_]]; [| | | | |destruct (Z.eqb_spec (ao_algorithm o) 500) as [T|_]];
        [| | | | | |destruct (Z.eqb_spec (ao_algorithm o) 501) as [T|_]]; [| | | | | | |destruct (Z.eqb_spec (ao_algorithm o) 600) as [T|_]]; cbn [orb] in ES.
      9: now destruct l1.
      all: rewrite T; cbn [existsb other_types Z.eqb Pos.eqb orb].
      3-8: destruct l1 as [|a l1]; [injection ES as -> _; rewrite PZ; reflexivity|destruct l1; discriminate ES].
      all: destruct l1 as [|a [|b l1]]; [injection ES as -> _; rewrite PZ; reflexivity| |destruct l1; discriminate ES].
      all: injection ES as <- -> _; inversion HP as [|? ? HP1 _]; destruct (population_sized _ HP1) as (-> & _); cbn [bind]; rewrite PZ; reflexivity. }
    unfold p. rewrite (factory_fails ap co m F mid target i _ fuel r HF HO HC K) by discriminate. unfold r. now destruct (z <? 0)%Z.
  - intros T [O1 O2]. unfold p. rewrite (factory_fails ap co m F mid target i _ fuel (Throw RuntimeError) HF HO HC); [reflexivity| |discriminate].
    unfold make_algorithm, make_population_algorithm. cbv zeta. rewrite T. cbn [existsb other_types Z.eqb Pos.eqb orb].
    destruct (population_sized (po_mu po)) as (-> & P1 & Z1); [lia|]. destruct (population_sized (po_lambda po)) as (-> & P2 & Z2); [lia|]. cbn [bind].
    unfold mucl_make. destruct (pop_making i (Z.to_nat (po_mu po)) N P1) as (pp & Ep). destruct (pop_making i (Z.to_nat (po_lambda po)) N P2) as (qq & Eq). rewrite Ep, Eq. cbn [bind].
    unfold comma_make, pop_size. rewrite (proj1 (proj1 (pop_made _ _ _ Ep))), (proj1 (proj1 (pop_made _ _ _ Eq))). destruct (Nat.leb_spec (Z.to_nat (po_mu po)) (Z.to_nat (po_lambda po))); [lia|]. reflexivity.
Qed.
Print Assumptions C125_sizes.

(** The genetic algorithm with a tournament size out of its range fails without any
    evaluation. *)
Theorem C125_tournament ap co m F mid target i n f g o d po pd srt psrt debug neighbors iterations garbage garbage' bounds others :
  0 < i -> population_draws_ok pd i -> sorts srt -> partially_sorts psrt ->
  optimizes ap -> ap_restart ap = false -> make_function_controller co F = Ok (mid, target) ->
  map_fits m i n -> kind_known m -> fp_size (f_props F) = i -> total (f_obj F) (f_init F) i f -> finite_values i f g ->
  ao_algorithm o = 400%Z -> (0 < po_mu po)%Z -> (po_tournament_size po < 2 \/ po_mu po <= po_tournament_size po)%Z ->
  exists N, forall fuel, N < fuel ->
  program ap co (Ok (Some (m, F)))
    (make_algorithm o d neighbors iterations garbage (make_population_algorithm o po pd srt psrt debug iterations garbage' bounds others)) fuel = Some ([], Exit 1).
Proof.
  intros N DO SR PS HO HR HC HM HK HF HT HV T O WT. destruct (population_sized (po_mu po) O) as (E1 & P1 & Z1). set (mu := Z.to_nat (po_mu po)) in *.
  destruct (pop_making i mu N P1) as (pp & Ep). destruct (nh_making i N) as (h & Eh). assert (Sp := proj1 (pop_made i mu pp Ep)).
  assert (Em : exists x, ga_make i mu bounds = Ok (mk_ea pp pp h x)).
  { unfold ga_make. rewrite Ep. cbn [bind]. unfold comma_make, pop_size. rewrite Nat.leb_refl. cbn [ensureb bind].
    assert (Ev : length (p_bvs pp) =? length (p_values pp) = true).
    { apply Nat.eqb_eq. revert Ep. unfold pop_make. destruct (0 <? mu); [|discriminate]. destruct (0 <? i); [|discriminate]. cbn [ensureb bind]. intros E. apply Ok_inj in E as <-. cbn. now rewrite !repeat_length. }
    unfold tournament_make. rewrite Ev. cbn [ensureb bind]. rewrite Eh. eexists. reflexivity. }
  destruct Em as (x & Em). destruct DO as (D1 & D2 & D3 & D4 & D5 & D6 & D7).
  set (run := fun k ob => loop (ga_init ob (Z.to_nat (po_tournament_size po)) (small_rate i (mutation_rate po i)) (ao_allow_no_mutation o) (pd_bits pd k) (pd_first_tournament pd k) (pd_first_shuffle pd k) srt)
      (ga_iterate ob (pd_cross pd k) (pd_coins pd k) (pd_tournament1 pd k) (pd_tournament2 pd k) (pd_mutations pd k) (pd_shuffle pd k) psrt) (ao_num_iterations o) iterations).
  set (s0 := mk_alg [] (repeat false i, 0%Z) false (mk_ea pp pp h x)).
  assert (RR : forall ob, run 0 ob s0 = (Exc RuntimeError, s0)).
  { intros ob. pose proof (C69_run ob i mu (pd_cross pd 0) (pd_coins pd 0) _ _ _ _ _ (Z.to_nat (po_tournament_size po)) (small_rate i (mutation_rate po i)) (ao_allow_no_mutation o) (pd_bits pd 0)
        _ _ _ _ (ao_num_iterations o) iterations _ _ D6 D7 D4 D5 PS D2 D1 SR Em (made_alg i _ N)) as RR.
    assert (B : (2 <=? Z.to_nat (po_tournament_size po)) && (Z.to_nat (po_tournament_size po) <? mu) = false).
    { apply Bool.andb_false_iff. destruct WT; [left; apply Nat.leb_gt; lia|right; apply Nat.ltb_ge; lia]. }
    rewrite B in RR. unfold run. fold s0 in RR. destruct (loop _ _ _ _ _) as [r s]. now destruct RR as [-> ->]. }
  exists 0. intros fuel HFu.
  assert (PE : program_ends ap co m i target f g (run 0) (fun s => s) s0 (program ap co (Ok (Some (m, F)))
    (make_algorithm o d neighbors iterations garbage (make_population_algorithm o po pd srt psrt debug iterations garbage' bounds others)) fuel)).
  { apply (algorithm_program ap co m F _ mid target i n f g run (fun s => s) s0); auto.
    - apply ad_ga.
    - intros ob _. rewrite RR. cbn. split; [constructor|apply repeat_length].
    - rewrite HF. unfold make_algorithm, make_population_algorithm. cbv zeta. rewrite T. cbn [existsb other_types Z.eqb Pos.eqb orb]. rewrite E1. cbn [bind]. rewrite Em. cbn [bind]. rewrite made_alg by exact N. reflexivity.
    - rewrite RR. exact HFu. }
  inversion PE as [s' r ER|s' r ER|s' y r t ER|s' e ER HM' EP|s' ER|s' ER]; rewrite RR in ER; try discriminate. injection ER as <- _. reflexivity.
Qed.
Print Assumptions C125_tournament.

(** The program depends only on the options of the algorithm which it runs: an option which
    is not given is the same as its default value, and the others have no effect, for
    example lambda on the (1+(lambda,lambda)) GA. *)
Lemma program_factory ap co m F factory factory' fuel : factory (fp_size (f_props F)) = factory' (fp_size (f_props F)) ->
  program ap co (Ok (Some (m, F))) factory fuel = program ap co (Ok (Some (m, F))) factory' fuel.
Proof.
  intros E. unfold program. destruct (app_init ap) as [out [[]| |]]; try reflexivity. destruct (make_function_controller co F) as [[mid target]| |]; try reflexivity.
  cbv zeta. now rewrite E.
Qed.
Lemma make_algorithm_others o d neighbors iterations garbage others others' n : others n = others' n ->
  make_algorithm o d neighbors iterations garbage others n = make_algorithm o d neighbors iterations garbage others' n.
Proof. intros E. unfold make_algorithm. rewrite E. reflexivity. Qed.
Lemma small_rate_given n po po' :
  given_or (1 / inject_Z (Z.of_nat n)) (po_mutation_rate po) = given_or (1 / inject_Z (Z.of_nat n)) (po_mutation_rate po') -> mutation_rate po n = mutation_rate po' n.
Proof. exact (fun E => E). Qed.
Lemma make_population_options o po po' pd srt psrt debug iterations garbage bounds others n : same_population_options (ao_algorithm o) n po po' ->
  make_population_algorithm o po pd srt psrt debug iterations garbage bounds others n = make_population_algorithm o po' pd srt psrt debug iterations garbage bounds others n.
Proof.
  intros (S1 & S2 & S3 & S4 & S5 & S6 & S7 & S8 & S9 & S10). unfold make_population_algorithm. cbv zeta.
  assert (M : In (ao_algorithm o) [301; 310; 320; 400]%Z -> mutation_rate po n = mutation_rate po' n) by (intros I; apply small_rate_given, S1, I). clear S1.
  assert (M2 : ao_algorithm o = 330%Z -> rate_or (tr_min n) (po_mutation_rate po) = rate_or (tr_min n) (po_mutation_rate po')) by exact S2. clear S2.
  assert (M3 : ao_algorithm o = 301%Z -> saea_settings o po n = saea_settings o po' n).
  { intros T. unfold saea_settings. rewrite (M ltac:(rewrite T; cbn; auto)). destruct (S3 T) as (E & -> & -> & ->). change rate_or with given_or. rewrite E. reflexivity. } clear S3.
  assert (M4 : ao_algorithm o = 800%Z -> mmas_compare po = mmas_compare po') by (intros T; unfold mmas_compare; rewrite (S10 T); reflexivity). clear S10.
  destruct (Z.eqb_spec (ao_algorithm o) 301) as [T|_]; [rewrite (M3 T); reflexivity|]. clear M3.
  Ltac holds T L := rewrite L by (rewrite T; cbn; auto 10).
  destruct (Z.eqb_spec (ao_algorithm o) 310) as [T|_]; [holds T M; holds T S4; holds T S5; reflexivity|].
  destruct (Z.eqb_spec (ao_algorithm o) 320) as [T|_]; [holds T M; holds T S4; holds T S5; reflexivity|].
  destruct (Z.eqb_spec (ao_algorithm o) 330) as [T|_]; [holds T S5; rewrite (M2 T); reflexivity|].
  destruct (Z.eqb_spec (ao_algorithm o) 400) as [T|_]; [holds T M; holds T S4; rewrite (S6 T); reflexivity|].
  destruct (Z.eqb_spec (ao_algorithm o) 450) as [T|_]; [holds T S4; rewrite (S7 T); reflexivity|].
  destruct (Z.eqb_spec (ao_algorithm o) 500) as [T|_]; [holds T S9; destruct (S8 ltac:(rewrite T; cbn; auto)) as [-> ->]; reflexivity|].
  destruct (Z.eqb_spec (ao_algorithm o) 501) as [T|_]; [holds T S9; destruct (S8 ltac:(rewrite T; cbn; auto)) as [-> ->]; reflexivity|].
  destruct (Z.eqb_spec (ao_algorithm o) 600) as [T|_]; [destruct (S8 ltac:(rewrite T; cbn; auto)) as [-> ->]; reflexivity|].
  destruct (Z.eqb_spec (ao_algorithm o) 700) as [T|_]; [holds T S9; reflexivity|].
  destruct (Z.eqb_spec (ao_algorithm o) 800) as [T|_]; [holds T S9; rewrite (M4 T); reflexivity|]. reflexivity.
Qed.
Theorem C125_options ap co m F o d po po' pd srt psrt debug neighbors iterations garbage garbage' bounds others fuel :
  let p po := program ap co (Ok (Some (m, F))) (make_algorithm o d neighbors iterations garbage (make_population_algorithm o po pd srt psrt debug iterations garbage' bounds others)) fuel in
  same_population_options (ao_algorithm o) (fp_size (f_props F)) po po' -> p po = p po'.
Proof. intros p SO. apply program_factory, make_algorithm_others, make_population_options, SO. Qed.
Print Assumptions C125_options.

(** Three bits *)
Definition example_population : population_options := mk_population_options 3 4 2 (1 # 2) 4 2 (1 # 3) None None (1 # 1) 2 2 true.
Definition example_population_draws : population_draws :=
  mk_population_draws (fun _ _ => false) (fun _ k j => j <? k) (fun _ => @rev nat) (fun _ => @rev nat) (fun _ t k lo hi => lo) (fun _ t k => example_moves (t + k))
    (fun _ _ => @rev nat) (fun _ _ => @rev nat) (fun _ _ _ => @rev nat) (fun _ _ _ => @rev nat) (fun _ _ k => k =? 1) (fun _ _ k j => k =? j)
    (fun _ t k j => (Z.of_nat ((t * 7 + k * 5 + j * 3) mod 10) # 10)%Q) (fun _ _ => 1 # 2)%Q (fun _ _ => 1) (fun _ _ lo _ => lo) (fun _ _ lo _ => lo).
Definition example_population_run (co : controller_options) (t num : Z) (po : population_options) :=
  program (example_app None false false false) co (example_made 0)
    (make_algorithm (example_algo t num 0 false) example_algo_draws 9 20 0
       (make_population_algorithm (example_algo t num 0 false) po example_population_draws insertion_sort (fun _ => insertion_sort) true 20 0 (0, 0) (fun _ => UB))) 100.

(** Two iterations of every algorithm; the two-rate EA requires more bits. *)
Example C125_case : let co := example_co 0 false in let run t := example_population_run co t 2 example_population in
  run 301%Z = example_shown 2 3 3 None [true; true; false] /\
  run 310%Z = example_shown 3 9 11 None [true; true; true] /\
  run 320%Z = example_shown 2 6 9 None [true; true; false] /\
  run 330%Z = Some ([], Undefined) /\
  run 400%Z = example_shown 3 7 9 None [true; true; true] /\
  run 500%Z = example_shown 2 2 9 None [true; true; false] /\
  run 501%Z = example_shown 2 2 9 None [true; true; false] /\
  run 600%Z = example_shown 2 2 9 None [true; true; false] /\
  run 700%Z = example_shown 2 2 9 None [true; true; false] /\
  run 800%Z = example_shown 2 2 3 None [true; true; false].
Proof. vm_compute. repeat split. Qed.

(** With a budget less than mu, the (mu+lambda) EA and the genetic algorithm print the zero
    vector with the best value evaluated; out of budget in a generation, the (mu,lambda) EA prints a
    solution whose value is not the one which is printed; no limit; with a target. *)
Example C125_budget :
  example_population_run (example_co 2 false) 310 0 example_population = example_shown 1 2 2 None [false; false; false] /\
  example_population_run (example_co 2 false) 400 0 example_population = example_shown 1 2 2 None [false; false; false] /\
  example_population_run (example_co 6 false) 320 0 example_population = example_shown 2 6 6 None [true; false; false] /\
  example_population_run (example_co 0 false) 800 0 example_population = None /\
  example_population_run (example_co 0 true) 400 0 example_population = example_shown 3 7 7 (Some true) [true; true; true].
Proof. vm_compute. repeat split. Qed.

(** Refused options *)
Definition example_sizes (mu lambda tournament size : Z) : population_options :=
  mk_population_options mu lambda tournament (1 # 2) size 1 (1 # 3) None None (1 # 1) 2 2 true.
Example C125_refused : let run t po := example_population_run (example_co 3 false) t 0 po in
  run 310%Z (example_sizes 3 0 2 4) = Some ([], Exit 1) /\
  run 310%Z (example_sizes 3 (-1) 2 4) = Some ([], Uncaught) /\
  run 320%Z (example_sizes 3 2 2 4) = Some ([], Exit 1) /\
  run 400%Z (example_sizes 3 0 3 4) = Some ([], Exit 1) /\
  run 450%Z (example_sizes 0 5 2 4) = Some ([], Exit 1) /\
  run 600%Z (example_sizes 3 2 2 (-4)) = Some ([], Uncaught).
Proof. vm_compute. repeat split. Qed.

(** The hypotheses hold for these examples. *)
Example C125_hypotheses :
  (forall t, In t population_algorithms -> t <> 330%Z -> population_options_ok (example_algo t 2 0 false) example_population 3) /\
  population_options_ok (example_algo 330 2 0 false) example_population 8 /\
  population_draws_ok example_population_draws 3 /\ population_draws_last example_population_draws 3.
Proof.
  split; [|split; [|split]].
  - intros t Ht N. split; [exact Ht|]. cbn. repeat (split; [intros; try lia; auto|]). lia.
  - split; [cbn; auto 10|]. cbn. split; [discriminate|]. split; [discriminate|]. split; [discriminate|]. split; [|split; [discriminate|split; intros; lia]].
    intros _. split; [lia|]. split; [lia|discriminate].
  - assert (R := rev_shuffles).
    split; [exact R|]. split; [exact R|]. split; [intros t k lo hi H; cbn; lia|]. split; [|split; [intros; exact R|split; intros; exact R]].
    intros t k. split; [intros i; cbn; split; [discriminate|reflexivity]|]. split; [|split; [exact I|repeat constructor]].
    constructor; [apply Nat.mod_upper_bound; lia|repeat constructor].
  - intros t k. apply example_plenty.
Qed.
Example C125_defaults : let a := mk_population_options 3 4 2 (1 # 2) 4 2 (1 # 3) None None 1 2 2 true in let b r := mk_population_options 3 4 2 (1 # 2) 4 2 (1 # 3) (Some (r / 3)%Q) (Some (1 / 9)%Q) 1 2 2 true in
  (forall t, In t [301; 310; 320; 400; 450; 500; 501; 600; 700; 800]%Z -> same_population_options t 3 a (b 1%Q)) /\ same_population_options 330 3 a (b 2%Q) /\
  same_population_options 450 3 (mk_population_options 3 4 2 (1 # 2) 4 2 (1 # 3) None None 1 2 2 true) (mk_population_options 3 9 2 (1 # 2) 4 2 (1 # 3) None None 1 2 2 true).
Proof.
  split; [|split].
  - intros t Ht. unfold same_population_options. cbn [po_mu po_lambda po_tournament_size po_crossover_bias po_population_size po_selection_size po_learning_rate po_mutation_rate po_mutation_rate_min
      po_mutation_rate_max po_update_strength po_coefficient po_mmas_strict given_or]. repeat split; auto. intros ->. exfalso. cbn in Ht. lia.
  - repeat split; auto; cbn; intuition discriminate.
  - repeat split; auto; cbn; intuition discriminate.
Qed.
