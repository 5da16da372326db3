(** C49, C77, C78: MAX-SAT and MAX-NAE-3SAT. *)

From Coq Require Import ZArith QArith String Ascii.
From Verif Require Import Base BaseLemmas BitVector_Model Text_Model Text_Proofs Map_Spec MaxSat_Model MaxSat_Spec MaxSat_Proofs
  MaxSatFile_Proofs.
Local Close Scope Q_scope.
Local Open Scope string_scope.
Local Open Scope list_scope.
Local Open Scope nat_scope.

(** C49 The value is the number of clauses that hold; it is the number of clauses
    exactly when all of them hold. *)
Theorem C49_evaluate : forall (e : list (list Z)) (x : list bool),
  expression_of (List.length x) e ->
  exists k, maxsat_evaluate e x = Ok k /\ counts (clause_holds x) e k /\ k <= List.length e /\
            (k = List.length e <-> Forall (clause_holds x) e).
Proof. exact maxsat_evaluate_exact. Qed.
Print Assumptions C49_evaluate.

Example C49_case_evaluate :
  maxsat_evaluate [[1; -2]; [2; 3]; [-1; -3]]%Z [true; false; true] = Ok 2 /\
  maxsat_evaluate [[1; -2]; [2; 3]; [-1; -3]]%Z [true; false; false] = Ok 2 /\
  maxsat_evaluate [[1; -2]; [2; 3]; [-1; -3]]%Z [false; false; true] = Ok 3 /\
  expression_of 3 [[1; -2]; [2; 3]; [-1; -3]]%Z.
Proof. repeat split; repeat constructor; cbn; lia. Qed.

(** C49 Random instances: c clauses on k distinct variables each, in order, the signs
    given by the coins. *)
Theorem C49_random : forall n k c (u : nat -> nat -> Q) (coin : nat -> nat -> bool),
  0 < k -> k <= n -> 0 < c -> (forall i j, (0 <= u i j)%Q /\ (u i j < 1)%Q) ->
  exists e, maxsat_random n k c u coin = Ok e /\ List.length e = c /\
            forall i cl, nth_error e i = Some cl -> clause_of n k cl /\ signs_drawn (coin i) cl.
Proof. exact maxsat_random_exact. Qed.
Print Assumptions C49_random.

(** C49 Every such instance can be drawn. *)
Theorem C49_random_any : forall n k (e : list (list Z)),
  0 < k -> k <= n -> 0 < List.length e -> Forall (clause_of n k) e ->
  exists (u : nat -> nat -> Q) coin, (forall i j, (0 <= u i j)%Q /\ (u i j < 1)%Q) /\
    maxsat_random n k (List.length e) u coin = Ok e.
Proof. exact maxsat_random_any. Qed.
Print Assumptions C49_random_any.

Example C49_case_random :
  maxsat_random 3 2 2 (fun i j => if (i =? 0) && (j =? 1) then 9#10 else 0)%Q (fun i j => i <? j) =
  Ok [[-1; 3]; [-1; -2]]%Z.
Proof. vm_compute. reflexivity. Qed.

(** C49 Planted instances: the solution given satisfies all the clauses; they are those
    of a random instance in which one literal, drawn, of each clause that does not hold
    has been negated. *)
Theorem C49_planted : forall (solution : list bool) k c (u : nat -> nat -> Q) coin (pick : nat -> nat -> nat -> nat),
  0 < k -> k <= List.length solution -> 0 < c -> (forall i j, (0 <= u i j)%Q /\ (u i j < 1)%Q) ->
  (forall i lo hi, lo <= hi -> lo <= pick i lo hi <= hi) ->
  exists e, maxsat_planted solution k c u coin pick = Ok e /\ List.length e = c /\
            Forall (clause_of (List.length solution) k) e /\
            Forall (clause_holds solution) e /\
            maxsat_evaluate e solution = Ok c /\
            exists e0, maxsat_random (List.length solution) k c u coin = Ok e0 /\
              forall i cl0 cl, nth_error e0 i = Some cl0 -> nth_error e i = Some cl ->
                (clause_holds solution cl0 -> cl = cl0) /\
                (~ clause_holds solution cl0 -> exists t l, t < k /\ nth_error cl0 t = Some l /\ cl = upd cl0 t (- l)%Z).
Proof. exact maxsat_planted_exact. Qed.
Print Assumptions C49_planted.

Example C49_case_planted :
  maxsat_planted [true; true; false] 2 2 (fun i j => if (i =? 0) && (j =? 1) then 9#10 else 0)%Q (fun i j => i <? j) (fun _ lo hi => hi) =
  Ok [[-1; -3]; [-1; 2]]%Z.
Proof. vm_compute. reflexivity. Qed.

(** C77 A saved instance is loaded back, if its sizes are ints and it has a variable and
    a clause. *)
Theorem C77_save_load : forall n (e : list (list Z)),
  (0 < Z.of_nat n < 2 ^ 31)%Z -> (0 < Z.of_nat (List.length e) < 2 ^ 31)%Z -> expression_of n e ->
  maxsat_load (maxsat_save n e) = Ok (n, e).
Proof. intros n e Hn He. apply maxsat_save_load; unfold int_max; lia. Qed.
Print Assumptions C77_save_load.

(** C77 Whatever the text, what is loaded is an instance: evaluating it reads the bit
    vector at valid positions only. A file without specification and without clause is
    accepted. *)
Theorem C77_load_sound : forall text n e, maxsat_load text = Ok (n, e) ->
  expression_of n e /\ (0 < n /\ 0 < List.length e \/ n = 0 /\ e = []) /\
  forall x, List.length x = n -> exists k, maxsat_evaluate e x = Ok k.
Proof.
  intros text n e H. apply maxsat_load_sound in H as (He & H). split; [assumption|]. split; [assumption|].
  intros x <-. destruct (maxsat_evaluate_exact e x He) as (k & E & _). eauto.
Qed.
Print Assumptions C77_load_sound.

(** C77 A last line of spaces and tabs makes load read an uninitialised variable. *)
Theorem C77_blank_line : forall n (e : list (list Z)) b,
  (0 < Z.of_nat n < 2 ^ 31)%Z -> (0 < Z.of_nat (List.length e) < 2 ^ 31)%Z -> expression_of n e ->
  b <> "" -> (forall c, In c (list_ascii_of_string b) -> c = " "%char \/ c = "009"%char) ->
  maxsat_load (maxsat_save n e ++ b) = UB.
Proof.
  intros n e b Hn Hl He Hb Hc. apply maxsat_load_blank; auto; try (unfold int_max; lia).
  clear Hb. induction b as [|c b IH]; [reflexivity|]. cbn [all_chars]. rewrite IH by (intros; apply Hc; now right).
  rewrite andb_true_r. destruct (Hc c (or_introl eq_refl)) as [->| ->]; reflexivity.
Qed.
Print Assumptions C77_blank_line.

(** The character at the end of lines is code 10. *)
Example C77_case :
  maxsat_save 12 [[1; -12]; []; [5]]%Z =
    "c HNCO AbstractMaxSat::save
p cnf 12 3
1 -12 0
0
5 0
" /\
  maxsat_load "c comment
p cnf 3 2
 1	-2 0 ignored

3 0" = Ok (3, [[1; -2]; [3]]%Z) /\
  maxsat_load "p cnf 3 1
4 0" = Throw RuntimeError /\
  maxsat_load "1 0" = Throw RuntimeError /\
  maxsat_load "p cnf 3 1
1 2" = Throw RuntimeError /\
  maxsat_load "p cnf 3 2
1 2 0" = Throw RuntimeError /\
  maxsat_load "" = Ok (0, []).
Proof. vm_compute. repeat split. Qed.

(** C78 The value is the number of clauses with both true and false literals; the
    complement of a bit vector has the same value. *)
Theorem C78_nae : forall (e : list (list Z)) (x : list bool),
  expression_of (List.length x) e -> Forall (fun c => List.length c = 3) e ->
  (exists k, nae_evaluate e x = Ok k /\ counts (not_all_equal x) e k /\ k <= List.length e /\
             (k = List.length e <-> Forall (not_all_equal x) e)) /\
  nae_evaluate e (map negb x) = nae_evaluate e x.
Proof. intros e x H H3. split; [now apply nae_evaluate_exact|now apply nae_evaluate_complement]. Qed.
Print Assumptions C78_nae.

(** C78 What is loaded meets these hypotheses; a saved instance is loaded back when all
    its clauses have three literals, refused otherwise. *)
Theorem C78_load : forall text n e, nae_load text = Ok (n, e) ->
  maxsat_load text = Ok (n, e) /\ expression_of n e /\ Forall (fun c => List.length c = 3) e.
Proof. exact nae_load_sound. Qed.
Print Assumptions C78_load.

Theorem C78_save_load : forall n (e : list (list Z)),
  (0 < Z.of_nat n < 2 ^ 31)%Z -> (0 < Z.of_nat (List.length e) < 2 ^ 31)%Z -> expression_of n e ->
  (Forall (fun c => List.length c = 3) e -> nae_load (maxsat_save n e) = Ok (n, e)) /\
  (~ Forall (fun c => List.length c = 3) e -> nae_load (maxsat_save n e) = Throw RuntimeError).
Proof. intros n e Hn He. apply nae_save_load; unfold int_max; lia. Qed.
Print Assumptions C78_save_load.

Example C78_case :
  nae_evaluate [[1; -2; 3]; [1; 2; 3]]%Z [true; true; true] = Ok 1 /\
  nae_evaluate [[1; -2; 3]; [1; 2; 3]]%Z [false; false; false] = Ok 1 /\
  nae_evaluate [[1; -2; 3]; [1; 2; 3]]%Z [true; true; false] = Ok 2 /\
  nae_load "p cnf 2 1
1 2 0" = Throw RuntimeError.
Proof. vm_compute. repeat split. Qed.
