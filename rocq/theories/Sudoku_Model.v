(** Model of Sudoku: lib/hnco/functions/collection/sudoku.{hh,cc}. *)

From Coq Require Import ZArith QArith String Ascii.
From Verif Require Import Base BitVector_Model Text_Model.
Local Open Scope string_scope.
Local Open Scope list_scope.
Local Open Scope nat_scope.

(** board[i][j] *)
Definition bget {A} (b : list (list A)) (i j : nat) : outcome A := r <- vget b i ;; vget r j.
Definition bset {A} (b : list (list A)) (i j : nat) (a : A) : outcome (list (list A)) :=
  r <- vget b i ;; r' <- vset r j a ;; vset b i r'.

(** The object: sudoku.hh:46-56. _num_variables is not initialised by the constructor
    (None); _counts is local here. *)
Record sudoku := mk_sudoku {
  s_instance : list (list ascii);
  s_candidate : list (list nat);
  s_num : option nat }.

(** sudoku.hh:79-83 *)
Definition sudoku_make : sudoku := mk_sudoku (repeat (repeat zero 9) 9) (repeat (repeat 0 9) 9) None.

(** for i, for j: the cells in reading order *)
Definition cells : list (nat * nat) := list_prod (seq 0 9) (seq 0 9).

Definition is_dot (c : ascii) : bool := Ascii.eqb c ".".

(** One character: sudoku.cc:70-79. [line] has at least 9 characters. *)
Definition load_char (i : nat) (line : string) (s : sudoku) (j : nat) : outcome sudoku :=
  match String.get j line with
  | None => UB
  | Some c =>
      if is_dot c || (is_digit c && negb (Ascii.eqb c "0")) then
        inst <- bset (s_instance s) i j c ;;
        if is_dot c then Ok (mk_sudoku inst (s_candidate s) (option_map S (s_num s)))
        else
          _ <- assertb (48 <? nat_of_ascii c) ;;
          cand <- bset (s_candidate s) i j (nat_of_ascii c - 48) ;;
          Ok (mk_sudoku inst cand (s_num s))
      else Throw RuntimeError
  end.

(** The loop of sudoku.cc:61-86 from line [i]; what an exception leaves in the object is
    not modelled. *)
Fixpoint load_rows (lines : list string) (i : nat) (s : sudoku) : outcome sudoku :=
  match lines with
  | [] => Throw RuntimeError
  | line :: lines' =>
      if String.length line <? 9 then Throw RuntimeError
      else
        s <- foldM (load_char i line) (seq 0 9) s ;;
        if i + 1 =? 9 then Ok s else load_rows lines' (i + 1) s
  end.

(** Sudoku::load_: sudoku.cc:56-87 *)
Definition sudoku_load (s : sudoku) (text : string) : outcome sudoku :=
  load_rows (split_lines text) 0 (mk_sudoku (s_instance s) (s_candidate s) (Some 0)).

(** print_board without pretty print, Sudoku::save_: sudoku.cc:37-54, 89-93 *)
Fixpoint string_of (l : list ascii) (rest : string) : string :=
  match l with [] => rest | c :: l' => String c (string_of l' rest) end.
Definition sudoku_save (s : sudoku) : outcome string :=
  lines <- foldM (fun t i =>
      row <- foldM (fun r j => c <- bget (s_instance s) i j ;; Ok (r ++ [c])) (seq 0 9) [] ;;
      Ok (t ++ row ++ [newline])) (seq 0 9) [] ;;
  Ok (string_of lines "").

(** Sudoku::random: sudoku.cc:95-124. [sh] is std::shuffle, [u] the uniform draws. *)
Definition sudoku_digit (p : nat) : ascii := ascii_of_nat (49 + p).

Definition random_full (perm : list nat) (inst : list (list ascii)) : outcome (list (list ascii)) :=
  inst <- foldM (fun b j => p <- vget perm j ;; bset b 0 j (sudoku_digit p)) (seq 0 9) inst ;;
  inst <- foldM (fun b i => foldM (fun b j => c <- bget b (i - 1) ((j + 3) mod 9) ;; bset b i j c) (seq 0 9) b)
            (seq 1 2) inst ;;
  foldM (fun b bi => foldM (fun b bj => foldM (fun b i => foldM (fun b j =>
      c <- bget b (3 * (bi - 1) + i) (3 * bj + (j + 1) mod 3) ;; bset b (3 * bi + i) (3 * bj + j) c)
    (seq 0 3) b) (seq 0 3) b) (seq 0 3) b) (seq 1 2) inst.

Definition sudoku_random (sh : list nat -> list nat) (c : nat) (u : nat -> Q) (s : sudoku) : outcome sudoku :=
  _ <- assertb (0 <? c) ;;
  inst <- random_full (sh (seq 0 9)) (s_instance s) ;;
  '(erase, _) <- bv_random_weight (repeat false 81) c u ;;
  inst <- foldM (fun b '(i, j) => e <- vget erase (i + 9 * j) ;; if (e : bool) then bset b i j "."%char else Ok b) cells inst ;;
  Ok (mk_sudoku inst (s_candidate s) (s_num s)).

(** Sudoku::write_variables: sudoku.cc:132-141 *)
Definition write_variables (s : sudoku) (x : list nat) : outcome sudoku :=
  '(cand, index) <- foldM (fun '(cand, index) '(i, j) =>
      c <- bget (s_instance s) i j ;;
      if is_dot c then
        v <- vget x index ;; cand <- bset cand i j (v + 1) ;; Ok (cand, index + 1)
      else Ok (cand, index)) cells (s_candidate s, 0) ;;
  _ <- assertb (index =? List.length x) ;;
  Ok (mk_sudoku (s_instance s) cand (s_num s)).

(** The counts of the digits of some cells: sudoku.cc:154-161, 168-175, 184-192 *)
Definition count_digits (cand : list (list nat)) (l : list (nat * nat)) : outcome (list nat) :=
  counts <- foldM (fun counts '(i, j) =>
      d <- bget cand i j ;;
      _ <- assertb (0 <? d) ;;
      _ <- assertb (d <? 10) ;;
      k <- vget counts d ;;
      vset counts d (k + 1)) l (repeat 0 10) ;;
  k0 <- vget counts 0 ;;
  _ <- assertb (k0 =? 0) ;;
  Ok counts.

(** result += ...: sudoku.cc:162-163, and 176-178, 193-195 where counts equal to 1 are
    left out ([skip1]) *)
Definition add_defects (skip1 : bool) (counts : list nat) (result : Z) : outcome Z :=
  foldM (fun result k =>
    c <- vget counts k ;;
    if skip1 && (c =? 1) then Ok result else Ok (result + Z.abs (Z.of_nat c - 1))%Z) (seq 1 9) result.

Definition check_unit (skip1 : bool) (cand : list (list nat)) (l : list (nat * nat)) (result : Z) : outcome Z :=
  counts <- count_digits cand l ;; add_defects skip1 counts result.

(** Sudoku::evaluate: sudoku.cc:143-199; the value and the object afterwards *)
Definition sudoku_evaluate (s : sudoku) (x : list nat) : outcome (Z * sudoku) :=
  match s_num s with
  | None => UB (* reads an uninitialised variable *)
  | Some n =>
      _ <- assertb (List.length x =? n) ;;
      s <- write_variables s x ;;
      result <- foldM (fun r i => check_unit false (s_candidate s) (map (fun j => (i, j)) (seq 0 9)) r) (seq 0 9) 0%Z ;;
      result <- foldM (fun r j => check_unit true (s_candidate s) (map (fun i => (i, j)) (seq 0 9)) r) (seq 0 9) result ;;
      result <- foldM (fun r a => foldM (fun r b =>
          check_unit true (s_candidate s) (map (fun '(i, j) => (a + i, b + j)) (list_prod (seq 0 3) (seq 0 3))) r)
        [0; 3; 6] r) [0; 3; 6] result ;;
      Ok ((- result)%Z, s)
  end.
