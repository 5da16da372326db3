(** Model of MaxSat and MaxNae3Sat: lib/hnco/functions/collection/max-sat.{hh,cc}.
    An expression is a list of clauses, a clause a list of literals, a literal a non
    null integer. Counts of clauses, which are exact doubles, are naturals. *)

From Coq Require Import ZArith QArith String Ascii.
From Verif Require Import Base BitVector_Model Text_Model.
Local Open Scope string_scope.
Local Open Scope list_scope.
Local Open Scope nat_scope.

(** The tests of max-sat.cc:244-245, 269-270 and 290-291 *)
Definition literal_true (x : bv) (lit : Z) : outcome bool :=
  if (0 <? lit)%Z then vget x (Z.to_nat (lit - 1))
  else if (lit <? 0)%Z then b <- vget x (Z.to_nat (- lit - 1)) ;; Ok (negb b)
  else Ok false.

(** The loops with break: max-sat.cc:241-249 and 267-274 *)
Fixpoint clause_true (x : bv) (clause : list Z) : outcome bool :=
  match clause with
  | [] => Ok false
  | lit :: rest => b <- literal_true x lit ;; if (b : bool) then Ok true else clause_true x rest
  end.

(** MaxSat::evaluate: max-sat.cc:261-278 *)
Definition maxsat_evaluate (expression : list (list Z)) (x : bv) : outcome nat :=
  foldM (fun result clause => b <- clause_true x clause ;; Ok (if (b : bool) then result + 1 else result)) expression 0.

(** MaxNae3Sat::evaluate: max-sat.cc:281-300 *)
Definition nae_evaluate (expression : list (list Z)) (x : bv) : outcome nat :=
  foldM (fun result clause =>
    t <- foldM (fun t lit => b <- literal_true x lit ;; Ok (if (b : bool) then t + 1 else t)) clause 0 ;;
    Ok (if negb (t =? 0) && negb (t =? 3) then result + 1 else result)) expression 0.

(** Random clause: max-sat.cc:203-212 and 230-239. [x] is the mask drawn, [coin c] the
    result of Generator::bernoulli for the c-th literal. The clause has size [k]. *)
Definition random_literals (k : nat) (x : bv) (coin : nat -> bool) : outcome (list Z * nat) :=
  foldM (fun '(clause, count) j =>
    b <- vget x j ;;
    if (b : bool) then
      clause <- vset clause count (if coin count then Z.of_nat (j + 1) else - Z.of_nat (j + 1))%Z ;;
      Ok (clause, count + 1)
    else Ok (clause, count)) (seq 0 (List.length x)) (repeat 0%Z k, 0).

Definition random_clause (k : nat) (x : bv) (coin : nat -> bool) : outcome (list Z) :=
  '(clause, count) <- random_literals k x coin ;;
  _ <- assertb (count =? bv_hamming_weight x) ;;
  Ok clause.

(** MaxSat::random(int n, int k, int c): max-sat.cc:189-214. [u i] are the uniform draws
    of the i-th call of bv_random, [coin i] the coins of clause i. *)
Definition maxsat_random (n k c : nat) (u : nat -> nat -> Q) (coin : nat -> nat -> bool) : outcome (list (list Z)) :=
  _ <- assertb (0 <? n) ;; _ <- assertb (0 <? k) ;; _ <- assertb (0 <? c) ;; _ <- assertb (k <=? n) ;;
  '(e, _) <- foldM (fun '(e, x) i =>
      '(x, _) <- bv_random_weight x k (u i) ;;
      clause <- random_clause k x (coin i) ;;
      Ok (e ++ [clause], x)) (seq 0 c) ([], repeat false n) ;;
  Ok e.

(** The clause is made true by changing the sign of a literal drawn: max-sat.cc:241-254 *)
Definition plant (solution : bv) (pick : nat -> nat -> nat) (clause : list Z) : outcome (list Z) :=
  ok <- clause_true solution clause ;;
  if (ok : bool) then Ok clause
  else
    let index := pick 0 (List.length clause - 1) in
    lit <- vget clause index ;;
    vset clause index (- lit)%Z.

(** MaxSat::random(const bit_vector_t& solution, int k, int c): max-sat.cc:217-258 *)
Definition maxsat_planted (solution : bv) (k c : nat) (u : nat -> nat -> Q) (coin : nat -> nat -> bool)
    (pick : nat -> nat -> nat -> nat) : outcome (list (list Z)) :=
  _ <- assertb (0 <? k) ;; _ <- assertb (0 <? c) ;; _ <- assertb (k <=? List.length solution) ;;
  '(e, _) <- foldM (fun '(e, x) i =>
      '(x, _) <- bv_random_weight x k (u i) ;;
      clause <- random_clause k x (coin i) ;;
      clause <- plant solution (pick i) clause ;;
      Ok (e ++ [clause], x)) (seq 0 c) ([], repeat false (List.length solution)) ;;
  v <- maxsat_evaluate e solution ;;
  _ <- assertb (v =? List.length e) ;;
  Ok e.

(** ** Files *)

(** AbstractMaxSat::save_: max-sat.cc:152-164 *)
Definition save_clause (clause : list Z) : string :=
  (fold_right (fun l s => show_Z l ++ " " ++ s) "0" clause)%string.
Definition maxsat_save (n : nat) (expression : list (list Z)) : string :=
  ("c HNCO AbstractMaxSat::save" ++ String newline
   ("p cnf " ++ show_Z (Z.of_nat n) ++ " " ++ show_Z (Z.of_nat (List.length expression)) ++ String newline
    (fold_right (fun c s => save_clause c ++ String newline s) "" expression)))%string.

(** eat_white and has_next_variable: max-sat.cc:37-57; [None] when there is none *)
Definition has_next_variable (i : istr) : option istr :=
  if is_eof i then None
  else
    match skip (fun c => (nat_of_ascii c =? 32) || (nat_of_ascii c =? 9)) (is_text i) with
    | EmptyString => None
    | s => Some (mk_istr s false)
    end.

(** The while loop of max-sat.cc:121-135. [n] is the variable n, None when it is not
    initialised. Each iteration reads at least a character: [fuel] is the length of the
    line. *)
Fixpoint read_clause (fuel num_variables : nat) (i : istr) (clause : list Z) (n : option Z) : outcome (list Z * option Z) :=
  match fuel with
  | 0 => UB
  | S fuel' =>
      match has_next_variable i with
      | None => Ok (clause, n)
      | Some i =>
          match read_int i with
          | None => Throw RuntimeError
          | Some (z, i') =>
              if (z =? 0)%Z then Ok (clause, Some z)
              else
                _ <- assertb (int_range (- z)) ;; (* no overflow *)
                let v := if (0 <? z)%Z then z else (- z)%Z in
                if (Z.of_nat num_variables <? v)%Z then Throw RuntimeError
                else read_clause fuel' num_variables i' (clause ++ [z]) (Some z)
          end
      end
  end.

(** The specification line: max-sat.cc:86-107; number of variables and of clauses *)
Definition read_spec (line : string) : outcome (nat * Z) :=
  match read_word (open_string line) with
  | None => Throw RuntimeError
  | Some (w, i) =>
      if negb (String.eqb w "p") then Throw RuntimeError
      else
        match read_word i with
        | None => Throw RuntimeError
        | Some (w, i) =>
            if negb (String.eqb w "cnf") then Throw RuntimeError
            else
              match read_int i with
              | None => Throw RuntimeError
              | Some (n, i) =>
                  if (n <=? 0)%Z then Throw RuntimeError
                  else
                    match read_int i with
                    | None => Throw RuntimeError
                    | Some (c, _) => if (c <=? 0)%Z then Throw RuntimeError else Ok (Z.to_nat n, c)
                    end
              end
        end
  end.

(** One line: max-sat.cc:73-142. The state is the expression and the specification
    (_num_variables, num_clauses), None before the p line. *)
Definition load_line (st : list (list Z) * option (nat * Z)) (line : string) : outcome (list (list Z) * option (nat * Z)) :=
  let '(e, spec) := st in
  match line with
  | EmptyString => Ok st
  | String c _ =>
      if Ascii.eqb c "c" then Ok st
      else if Ascii.eqb c "p" then
        match spec with
        | Some _ => Throw RuntimeError
        | None => s <- read_spec line ;; Ok (e, Some s)
        end
      else
        match spec with
        | None => Throw RuntimeError
        | Some (nv, nc) =>
            '(clause, n) <- read_clause (S (String.length line)) nv (open_string line) [] None ;;
            match n with
            | None => UB (* reads an uninitialised variable *)
            | Some n => if (n =? 0)%Z then Ok (e ++ [clause], spec) else Throw RuntimeError
            end
        end
  end.

(** AbstractMaxSat::load_: max-sat.cc:60-149; number of variables and expression *)
Definition maxsat_load (text : string) : outcome (nat * list (list Z)) :=
  '(e, spec) <- foldM load_line (split_lines text) ([], None) ;;
  let '(nv, nc) := match spec with Some s => s | None => (0, 0%Z) end in
  if (Z.of_nat (List.length e) =? nc)%Z then Ok (nv, e) else Throw RuntimeError.

(** MaxNae3Sat::load: max-sat.hh:178-183 *)
Definition nae_load (text : string) : outcome (nat * list (list Z)) :=
  r <- maxsat_load text ;;
  if forallb (fun c => List.length c =? 3) (snd r) then Ok r else Throw RuntimeError.
