(** C50, C79: sudoku. *)

From Coq Require Import ZArith QArith String Ascii Permutation.
From Verif Require Import Base BaseLemmas BitVector_Model Text_Model Sudoku_Model Sudoku_Spec Sudoku_Proofs SudokuFile_Proofs.
Local Close Scope Q_scope.
Local Open Scope string_scope.
Local Open Scope list_scope.
Local Open Scope nat_scope.

(** An object whose boards have 9 rows of 9 cells: all objects, see [C50_objects] *)
Definition object (s : sudoku) : Prop := grid (s_instance s) /\ grid (s_candidate s).

(** An object into which a problem has been loaded *)
Definition holds_problem (s : sudoku) : Prop :=
  problem (s_instance s) /\ grid (s_candidate s) /\ s_num s = Some (List.length (empty_cells (s_instance s))) /\
  forall i j, i < 9 -> j < 9 -> cell dot (s_instance s) i j <> dot ->
    cell 0 (s_candidate s) i j = digit_of (cell dot (s_instance s) i j).

(** C50 A random instance has the number of empty cells asked for and its other cells are
    those of a solved grid; saved then loaded by any object, some filling of its empty
    cells evaluates to 0. *)
Theorem C50_random : forall (sh : list nat -> list nat) c (u : nat -> Q) s,
  Permutation (sh (seq 0 9)) (seq 0 9) -> 0 < c -> c <= 81 -> (forall i, (0 <= u i)%Q /\ (u i < 1)%Q) -> object s ->
  exists s' g, sudoku_random sh c u s = Ok s' /\ problem (s_instance s') /\ List.length (empty_cells (s_instance s')) = c /\
    solved g /\
    (forall i j, i < 9 -> j < 9 -> cell dot (s_instance s') i j <> dot -> digit_of (cell dot (s_instance s') i j) = g i j) /\
    s_candidate s' = s_candidate s /\ s_num s' = s_num s.
Proof. exact sudoku_random_exact. Qed.
Print Assumptions C50_random.

Theorem C50_solvable : forall (sh : list nat -> list nat) c (u : nat -> Q) s s0,
  Permutation (sh (seq 0 9)) (seq 0 9) -> 0 < c -> c <= 81 -> (forall i, (0 <= u i)%Q /\ (u i < 1)%Q) -> object s -> object s0 ->
  exists s1 text s2 x s3, sudoku_random sh c u s = Ok s1 /\ sudoku_save s1 = Ok text /\ sudoku_load s0 text = Ok s2 /\
    s_num s2 = Some c /\ List.length x = c /\ Forall (fun v => v < 9) x /\ sudoku_evaluate s2 x = Ok (0%Z, s3).
Proof. exact sudoku_random_solvable. Qed.
Print Assumptions C50_solvable.

(** C50 The instance must be saved and loaded before it is evaluated: the object which
    generated it does not know its number of variables. *)
Theorem C50_not_loaded : forall (sh : list nat -> list nat) c (u : nat -> Q) s' x,
  sudoku_random sh c u sudoku_make = Ok s' -> sudoku_evaluate s' x = UB.
Proof.
  intros sh c u s' x H. unfold sudoku_random in H. apply bind_Ok in H as (? & _ & H). apply bind_Ok in H as (? & _ & H).
  apply bind_Ok in H as ((? & ?) & _ & H). apply bind_Ok in H as (? & _ & H). apply Ok_inj in H. now subst.
Qed.
Print Assumptions C50_not_loaded.

(** C50 All the objects have boards of the right size. *)
Theorem C50_objects : object sudoku_make /\
  (forall s, holds_problem s -> object s).
Proof. split; [exact make_boards|]. intros s ((H & _) & H' & _). now split. Qed.
Print Assumptions C50_objects.

(** C79 The value is minus the sum, over the rows, columns and blocks of the completed
    grid, and over the digits, of the difference between the number of occurrences and 1;
    it is 0 exactly when the grid is solved, and negative otherwise. The object can be
    evaluated again. *)
Theorem C79_evaluate : forall s x, holds_problem s ->
  List.length x = List.length (empty_cells (s_instance s)) -> Forall (fun v => v < 9) x ->
  exists s' g, sudoku_evaluate s x = Ok ((- defects g)%Z, s') /\ completes (s_instance s) x g /\
    (defects g = 0%Z <-> solved g) /\ (0 <= defects g)%Z /\
    s_instance s' = s_instance s /\ holds_problem s'.
Proof. exact sudoku_evaluate_exact. Qed.
Print Assumptions C79_evaluate.

(** C79 Otherwise an assertion is violated. *)
Theorem C79_preconditions : forall s x, holds_problem s ->
  List.length x <> List.length (empty_cells (s_instance s)) \/ ~ Forall (fun v => v < 9) x -> sudoku_evaluate s x = UB.
Proof. exact sudoku_evaluate_UB. Qed.
Print Assumptions C79_preconditions.

(** C79 Loading accepts exactly the texts whose first nine lines begin with nine dots or
    digits from 1 to 9, and gives these cells; it throws runtime_error otherwise. *)
Definition readable (lines : list string) : Prop :=
  9 <= List.length lines /\
  forall i, i < 9 -> 9 <= String.length (nth i lines "") /\
    forall j, j < 9 -> exists c, String.get j (nth i lines "") = Some c /\ (c = "."%char \/ 49 <= nat_of_ascii c <= 57).

Theorem C79_load : forall s text, object s ->
  (readable (split_lines text) ->
     exists s', sudoku_load s text = Ok s' /\ holds_problem s' /\
       forall i j, i < 9 -> j < 9 -> String.get j (nth i (split_lines text) "") = Some (cell dot (s_instance s') i j)) /\
  (~ readable (split_lines text) -> sudoku_load s text = Throw RuntimeError).
Proof. exact sudoku_load_exact. Qed.
Print Assumptions C79_load.

(** C79 A saved problem is loaded back. *)
Theorem C79_save_load : forall s s0, problem (s_instance s) -> object s0 ->
  exists text s', sudoku_save s = Ok text /\ sudoku_load s0 text = Ok s' /\ holds_problem s' /\ s_instance s' = s_instance s.
Proof. exact sudoku_save_load. Qed.
Print Assumptions C79_save_load.

(** ** Example *)

Definition example_text : string :=
"12345678.
456789123
789123456
231564897
564897231
897231564
312645978
645978312
97.312645
".

Example C79_case :
  match sudoku_load sudoku_make example_text with
  | Ok s => match sudoku_evaluate s [8; 7] with
            | Ok (v, s') => v = 0%Z /\ match sudoku_evaluate s' [8; 8] with Ok (w, _) => w = (-6)%Z | _ => False end
            | _ => False
            end /\ s_num s = Some 2 /\ sudoku_save s = Ok example_text
  | _ => False
  end /\
  sudoku_load sudoku_make "123" = Throw RuntimeError.
Proof. vm_compute. repeat split. Qed.

Example C50_case :
  match sudoku_random (@rev nat) 3 (fun i => if i <? 70 then 99#100 else 0)%Q sudoku_make with
  | Ok s => sudoku_save s = Ok
"98765432.
654321987
321987654
879546213
546213879
213879546
798465132
4651327.8
1327984.5
"
  | _ => False
  end /\ Permutation (rev (seq 0 9)) (seq 0 9).
Proof. split; [vm_compute; reflexivity|]. symmetry. apply Permutation_rev. Qed.
