(** Model of the Bayesian networks of hBOA: lib/fast-efficient-p3/HBOA.cpp, classes
    Bayesian_Tree and Bayesian_Forest.

    Simplified: which splits are chosen among those allowed, and when no more is wanted,
    are arguments (they depend on scores computed with doubles, and on shuffles); the order
    of the trees is an argument, std::sort being free to order ties; random numbers are
    arguments. *)

From Verif Require Import Base.
Local Open Scope nat_scope.

(** HBOA.h:84-97: a leaf with the solutions which reach it, or a node with the index which
    it tests *)
Inductive tree :=
| Leaf (solutions : list (list bool))
| Node (index : nat) (zero one : tree).

(** Bayesian_Tree::split, HBOA.cpp:224-244, of the leaf at the end of a path (true means
    right); the paths which do not lead to a leaf change nothing, as the options which do
    not point to a leaf are filtered out (440-455). *)
Fixpoint split (t : tree) (path : list bool) (new_index : nat) : tree :=
  match t, path with
  | Leaf solutions, [] =>
      Node new_index (Leaf (filter (fun s => negb (nth new_index s false)) solutions)) (Leaf (filter (fun s => nth new_index s false) solutions))
  | Node index zero one, b :: path =>
      if b : bool then Node index zero (split one path new_index) else Node index (split zero path new_index) one
  | _, _ => t
  end.

(** If the path leads to a leaf *)
Fixpoint leaf_at (t : tree) (path : list bool) : bool :=
  match t, path with
  | Leaf _, [] => true
  | Node _ zero one, b :: path => leaf_at (if b : bool then one else zero) path
  | _, _ => false
  end.

(** The sets prev and post, HBOA.h:118-123, and the trees *)
Record forest := mk_forest {
  fo_prev : nat -> list nat;
  fo_post : nat -> list nat;
  fo_trees : nat -> tree }.

Definition set_at {A : Type} (m : nat -> A) (i : nat) (a : A) : nat -> A := fun j => if j =? i then a else m j.
Definition memb (i : nat) (l : list nat) : bool := existsb (Nat.eqb i) l.

(** std::unordered_set::insert of a range *)
Definition insert_all (s new : list nat) : list nat := s ++ filter (fun i => negb (memb i s)) new.

(** Bayesian_Forest::Bayesian_Forest (HBOA.cpp:326-335), add_solution (338-343), and the
    beginning of build_forest (346-361) *)
Definition forest_make (selected : list (list bool)) : forest :=
  mk_forest (fun i => [i]) (fun i => [i]) (fun _ => Leaf selected).

(** One turn of the loop, HBOA.cpp:370-395; the tree, the path to its leaf and the index *)
Definition choice : Type := nat * list bool * nat.
Definition grow_one (n : nat) (fo : forest) (c : choice) : forest :=
  let '(t, path, new_index) := c in
  if (t <? n) && (new_index <? n) && leaf_at (fo_trees fo t) path && negb (memb new_index (fo_post fo t)) then
    let post := fold_left (fun post upstream => set_at post upstream (insert_all (post upstream) (post t))) (fo_prev fo new_index) (fo_post fo) in
    let prev := fold_left (fun prev down => set_at prev down (insert_all (prev down) (prev new_index))) (post t) (fo_prev fo) in
    mk_forest prev post (set_at (fo_trees fo) t (split (fo_trees fo t) path new_index))
  else fo.

(** Bayesian_Forest::build_forest, HBOA.cpp:346-401 *)
Definition build_forest (n : nat) (selected : list (list bool)) (choices : list choice) : forest :=
  fold_left (grow_one n) choices (forest_make selected).

(** Bayesian_Tree::set_bit, HBOA.cpp:305-323, for the tree of the bit [t]; [coin] is the
    Bernoulli draw, of probability counts[1] / solutions.size() (1/2 if there is no
    solution). The leaves have pointers to the solutions, which may be replaced before the
    draw; but they were counted when the leaf was made (210-221), and only the counts are
    used. *)
Definition ones (t : nat) (solutions : list (list bool)) : nat := length (filter (fun s => nth t s false) solutions).
Fixpoint set_bit (coin : nat -> nat -> bool) (t : nat) (tr : tree) (x : list bool) : outcome (list bool) :=
  match tr with
  | Leaf solutions => vset x t (coin (ones t solutions) (length solutions))
  | Node index zero one =>
      b <- vget x index ;;
      if b : bool then set_bit coin t one x else set_bit coin t zero x
  end.

(** Bayesian_Forest::generate, HBOA.cpp:404-408; there is one draw for each bit. *)
Definition generate (coins : nat -> nat -> nat -> bool) (fo : forest) (ordering : list nat) (x : list bool) : outcome (list bool) :=
  foldM (fun x t => set_bit (coins t) t (fo_trees fo t) x) ordering x.
