(** Model of the files of functions: the program ffgen, app/ffgen.cc, which writes them, and
    CommandLineFunctionFactory::make, lib/hnco/app/function-factory.cc, for the functions
    which are read from files; lib/hnco/serialization.hh.

    A text archive of Boost is the list of its numbers, as in MapFile_Model, but integers and
    doubles are distinguished: doubles are written with 17 significant digits, hence read
    without any loss, unless they are infinite or not numbers, in which case the extraction
    fails.  The header of the archive and the versions of the classes, which are the same in
    all the files, are left out.  Simplification: the extraction of an integer where a double
    was written fails (it actually reads the digits before the point). *)

From Coq Require Import ZArith QArith String Ascii.
From Verif Require Import Base BitVector_Model Text_Model Theory_Model Walsh_Model Double Controller_Model Decorator_Model FunctionFactory_Model
  Rounding_Model Collection_Model MaxSat_Model Sudoku_Model Application_Model.
Local Open Scope string_scope.
Local Open Scope list_scope.
Local Open Scope nat_scope.

Inductive token := TInt (z : Z) | TReal (v : dbl).
Definition tokens := list token.

(** ** Functions which are read from archives *)

Inductive instance :=
| ILinear (weights : list dbl)
| INk (neighbors : list (list Z)) (functions : list (list dbl))
| IEqualProducts (numbers : list dbl)
| IPartition (numbers : list Z)
| IWalsh (terms : list (list bool * dbl))
| IWalsh1 (linear : list dbl)
| IWalsh2 (linear : list dbl) (quadratic : list (list dbl))
| IIsing1 (coupling field : list dbl) (periodic : bool)
| IIsing2 (right below field : list (list dbl)) (periodic : bool).

(** ** Writing *)

Definition put_vector {T} (put : T -> tokens) (l : list T) : tokens := TInt (Z.of_nat (len l)) :: flat_map put l.
Definition put_int (z : Z) : tokens := [TInt z].
Definition put_double (v : dbl) : tokens := [TReal v].
Definition put_bool (b : bool) : tokens := [TInt (if b then 1 else 0)%Z].

(** linear-function.hh:47-51, nk-landscape.hh:52-57, equal-products.hh:66-70,
    partition.hh:59-63, walsh-expansion.hh:59-63 and walsh-term.hh:46-51,
    walsh-expansion-1.hh:56-60, walsh-expansion-2.hh:56-61,
    nearest-neighbor-ising-model-1.hh:71-77, nearest-neighbor-ising-model-2.hh:73-80 *)
Definition put_instance (i : instance) : tokens :=
  match i with
  | ILinear w => put_vector put_double w
  | INk neighbors functions => put_vector (put_vector put_int) neighbors ++ put_vector (put_vector put_double) functions
  | IEqualProducts l => put_vector put_double l
  | IPartition l => put_vector put_int l
  | IWalsh terms => put_vector (fun t => put_vector put_bool (fst t) ++ put_double (snd t)) terms
  | IWalsh1 l => put_vector put_double l
  | IWalsh2 l q => put_vector put_double l ++ put_vector (put_vector put_double) q
  | IIsing1 c f p => put_vector put_double c ++ put_vector put_double f ++ put_bool p
  | IIsing2 r b f p =>
      put_vector (put_vector put_double) r ++ put_vector (put_vector put_double) b ++ put_vector (put_vector put_double) f ++ put_bool p
  end.

(** ** Reading *)

Definition get_token {T} (convert : token -> option T) (a : tokens) : outcome (T * tokens) :=
  match a with
  | [] => Throw OtherException
  | t :: a' => match convert t with Some x => Ok (x, a') | None => Throw OtherException end
  end.
Definition get_size : tokens -> outcome (nat * tokens) :=
  get_token (fun t => match t with TInt z => if (0 <=? z)%Z then Some (Z.to_nat z) else None | TReal _ => None end).
Definition get_int : tokens -> outcome (Z * tokens) :=
  get_token (fun t => match t with TInt z => if int_range z then Some z else None | TReal _ => None end).
Definition get_double : tokens -> outcome (dbl * tokens) :=
  get_token (fun t => match (match t with TReal v => v | TInt z => rounded (z * 2 ^ 1074) end) with DFin z => Some (DFin z) | _ => None end).
Definition get_bool : tokens -> outcome (bool * tokens) :=
  get_token (fun t => match t with TInt 0 => Some false | TInt 1 => Some true | _ => None end).

Fixpoint get_items {T} (get : tokens -> outcome (T * tokens)) (n : nat) (a : tokens) : outcome (list T * tokens) :=
  match n with
  | 0 => Ok ([], a)
  | S n' =>
      '(x, a) <- get a ;;
      '(l, a) <- get_items get n' a ;; Ok (x :: l, a)
  end.
Definition get_vector {T} (get : tokens -> outcome (T * tokens)) (a : tokens) : outcome (list T * tokens) :=
  '(n, a) <- get_size a ;; get_items get n a.
Definition get_term (a : tokens) : outcome (list bool * dbl * tokens) :=
  '(u, a) <- get_vector get_bool a ;; '(c, a) <- get_double a ;; Ok (u, c, a).

(** The operators >> of the classes, at the same lines as above except
    nearest-neighbor-ising-model-1.hh:80-87 and nearest-neighbor-ising-model-2.hh:83-91, where
    get_bv_size() requires a row *)
Definition get_instance (k : Z) (a : tokens) : outcome (instance * tokens) :=
  match k with
  | 1%Z => '(w, a) <- get_vector get_double a ;; Ok (ILinear w, a)
  | 60%Z =>
      '(ns, a) <- get_vector (get_vector get_int) a ;;
      '(fs, a) <- get_vector (get_vector get_double) a ;; Ok (INk ns fs, a)
  | 90%Z => '(l, a) <- get_vector get_double a ;; Ok (IEqualProducts l, a)
  | 91%Z => '(l, a) <- get_vector get_int a ;; Ok (IPartition l, a)
  | 160%Z => '(l, a) <- get_vector get_term a ;; Ok (IWalsh l, a)
  | 161%Z => '(l, a) <- get_vector get_double a ;; Ok (IWalsh1 l, a)
  | 162%Z =>
      '(l, a) <- get_vector get_double a ;;
      '(q, a) <- get_vector (get_vector get_double) a ;; Ok (IWalsh2 l q, a)
  | 171%Z =>
      '(c, a) <- get_vector get_double a ;;
      '(f, a) <- get_vector get_double a ;;
      '(p, a) <- get_bool a ;; Ok (IIsing1 c f p, a)
  | 172%Z =>
      '(r, a) <- get_vector (get_vector get_double) a ;;
      '(b, a) <- get_vector (get_vector get_double) a ;;
      '(f, a) <- get_vector (get_vector get_double) a ;;
      '(p, a) <- get_bool a ;;
      _ <- assertb (0 <? len f) ;; Ok (IIsing2 r b f p, a)
  | _ => Throw RuntimeError
  end.

(** What a file contains: an archive, or another text *)
Inductive contents := Archive (a : tokens) | Text (s : string).

(** load_from_archive, serialization.hh:43-56; the file is None when it cannot be opened.  A
    text without the signature of archives is refused. *)
Definition load_instance (k : Z) (file : option contents) : outcome instance :=
  match file with
  | Some (Archive a) =>
      match get_instance k a with
      | Ok (i, _) => Ok i
      | Throw OtherException => Throw RuntimeError
      | Throw e => Throw e
      | UB => UB
      end
  | _ => Throw RuntimeError
  end.

(** ** The functions of the factory *)

(** Arithmetic and texts of the platform: the double nearest to a rational number, the
    extraction of a float, and the text of an archive *)
Record platform := mk_platform {
  pf_near : Q -> dbl;
  pf_float : istr -> option (Z * istr);
  pf_text : tokens -> string }.

(** The finite doubles as multiples of 2^-1074; those which are read are finite. *)
Definition units (v : dbl) : Z := match v with DFin z => z | _ => 0%Z end.
Definition rational (v : dbl) : Q := (inject_Z (units v) / inject_Z (2 ^ 1074))%Q.

(** A function of size [n] without incremental evaluation and whose maximum is not known,
    function.hh:62-94 *)
Definition opaque_function (n : nat) (ev : bv -> outcome dbl) : func :=
  mk_func unit (plain ev) tt (mk_fprops n (Ok false) (Throw RuntimeError) false).

(** A function with incremental evaluation and with a buffer of flipped bits
    (nearest-neighbor-ising-model-1.cc and nearest-neighbor-ising-model-2.cc); the buffer
    after an error is not modelled.  Finite numbers are added to the value given: it is kept
    when it is not finite. *)
Definition sum_from (v : dbl) (d : Z) : dbl := match v with DFin _ => DFin d | _ => v end.
Definition buffered (ev : bv -> outcome Z) (inc : bv -> bv -> Z -> list nat -> outcome (Z * bv)) : fobj bv := fun flips r =>
  match r with
  | REval x | RSafe x => (flips, v <- ev x ;; Ok (RValue (DFin v)))
  | RInc x v l =>
      match inc flips x (units v) l with
      | Ok (d, flips') => (flips', Ok (RValue (sum_from v d)))
      | Throw e => (flips, Throw e)
      | UB => (flips, UB)
      end
  | RUpdate _ _ => (flips, Ok RVoid)
  end.
Definition ising_function (n : nat) (ev : bv -> outcome Z) (inc : bv -> bv -> Z -> list nat -> outcome (Z * bv)) : func :=
  mk_func bv (buffered ev inc) (repeat false n) (mk_fprops n (Ok false) (Throw RuntimeError) true).

(** The function of an instance.  Sums are exact; those of NkLandscape and the products of
    EqualProducts are exact before the result is rounded.  get_bv_size() of WalshExpansion
    requires a term (walsh-expansion.hh:143-146): this is checked here although the
    application calls it later.  The neighbors of an NkLandscape index a vector
    (nk-landscape.cc:80): a negative number is out of bounds. *)
Definition instance_function (pf : platform) (i : instance) : outcome func :=
  match i with
  | ILinear w => Ok (linear_function (map units w))
  | INk neighbors functions =>
      Ok (opaque_function (len functions) (fun x =>
        _ <- assertb (forallb (forallb (Z.leb 0)) neighbors) ;;
        v <- nk_evaluate (mk_nk (map (map Z.to_nat) neighbors) (map (map rational) functions)) x ;; Ok (pf_near pf v)))
  | IEqualProducts l =>
      Ok (opaque_function (len l) (fun x => v <- equal_products_evaluate (map rational l) x ;; Ok (pf_near pf v)))
  | IPartition l => Ok (opaque_function (len l) (fun x => v <- partition_evaluate l x ;; Ok (dint v)))
  | IWalsh terms =>
      t <- vget terms 0 ;;
      Ok (opaque_function (len (fst t)) (fun x => v <- walsh_evaluate (map (fun t => (fst t, units (snd t))) terms) x ;; Ok (DFin v)))
  | IWalsh1 l =>
      let w := map units l in
      Ok (mk_func unit (plain_inc (fun x => v <- walsh1_evaluate w x ;; Ok (DFin v))
            (fun x v l => d <- walsh1_incremental w x (units v) l ;; Ok (sum_from v d)))
          tt (mk_fprops (len l) (Ok true) (Ok (DFin (walsh1_maximum w))) true))
  | IWalsh2 l q =>
      Ok (opaque_function (len q) (fun x => v <- walsh2_evaluate (map units l) (map (map units) q) x ;; Ok (DFin v)))
  | IIsing1 c f p =>
      let c := map units c in
      let f := map units f in
      Ok (ising_function (len c) (ising1_evaluate c f p) (ising1_incremental c f p))
  | IIsing2 r b f p =>
      let r := map (map units) r in
      let b := map (map units) b in
      let f := map (map units) f in
      row <- vget f 0 ;;
      Ok (ising_function (len f * len row) (ising2_evaluate r b f p) (ising2_incremental r b f p))
  end.

(** The stream of a text file *)
Definition open_text (pf : platform) (file : option contents) : outcome string :=
  match file with
  | None => Throw RuntimeError
  | Some (Archive a) => Ok (pf_text pf a)
  | Some (Text s) => Ok s
  end.

(** function-factory.cc:46-51, 92-115, 125-136 and 179-208; [None] for the types which are
    not read from such files.  The values of MaxSat and MaxNae3Sat are counts of clauses. *)
Definition file_function (pf : platform) (file : option contents) (k : Z) : option (outcome func) :=
  match k with
  | 50%Z => Some (
      s <- open_text pf file ;; q <- qubo_load (pf_float pf) [] s ;;
      Ok (opaque_function (len q) (fun x => v <- qubo_evaluate q x ;; Ok (DFin v))))
  | 70%Z => Some (
      s <- open_text pf file ;; '(n, e) <- maxsat_load s ;;
      Ok (opaque_function n (fun x => v <- maxsat_evaluate e x ;; Ok (dint (Z.of_nat v)))))
  | 71%Z => Some (
      s <- open_text pf file ;; '(n, e) <- nae_load s ;;
      Ok (opaque_function n (fun x => v <- nae_evaluate e x ;; Ok (dint (Z.of_nat v)))))
  | 1%Z | 60%Z | 90%Z | 91%Z | 160%Z | 161%Z | 162%Z | 171%Z | 172%Z => Some (i <- load_instance k file ;; instance_function pf i)
  | _ => None
  end.

(** The options of the application with the file which its path designates; the types which
    are neither defined by options nor read from files are those of [o]. *)
Definition with_file (pf : platform) (file : option contents) (o : fn_options) : fn_options :=
  mk_fn_options (fn_type o) (fn_bv_size o) (fn_threshold o) (fn_num_traps o) (fn_prefix_length o)
    (i <- load_instance 1 file ;; match i with ILinear w => Ok (map units w) | _ => UB end)
    (fun k => match file_function pf file k with Some F => Some F | None => fn_other o k end).

(** ** ffgen *)

(** The operator times *)
Definition product_exponent (p : Z) : Z := Z.max 1074 (Z.log2 (Z.abs p) - 52).
(** [p] is a multiple of 2^-2148. *)
Definition rounded_product (p : Z) : dbl :=
  let e := product_exponent p in
  let r := (nearest_multiple p e * 2 ^ (e - 1074))%Z in
  if (r <? 2 ^ 2098)%Z then if (- 2 ^ 2098 <? r)%Z then DFin r else DNegInf else DPosInf.
Definition infinite (positive : bool) : dbl := if positive then DPosInf else DNegInf.
Definition fmul (a b : dbl) : dbl :=
  match a, b with
  | DNaN, _ | _, DNaN => DNaN
  | DFin x, DFin y => rounded_product (x * y)
  | DFin x, DPosInf | DPosInf, DFin x => if (x =? 0)%Z then DNaN else infinite (0 <? x)%Z
  | DFin x, DNegInf | DNegInf, DFin x => if (x =? 0)%Z then DNaN else infinite (x <? 0)%Z
  | DPosInf, DPosInf | DNegInf, DNegInf => DPosInf
  | DPosInf, DNegInf | DNegInf, DPosInf => DNegInf
  end.

(** ffgen-options.hh:51-170 *)
Record ffgen_options := mk_ffgen_options {
  fg_type : Z;
  fg_size : Z;
  fg_stddev : dbl;
  fg_lin_generator : Z;
  fg_lin_initial : dbl;
  fg_lin_distance : dbl;
  fg_lin_ratio : dbl;
  fg_nk_k : Z;
  fg_ms_clauses : Z;
  fg_ms_literals : Z;
  fg_ms_planted : bool;
  fg_ep_bound : dbl;
  fg_part_bound : Z;
  fg_walsh_features : Z;
  fg_walsh2_generator : Z;
  fg_walsh2_alpha : dbl;
  fg_nn1_generator : Z;
  fg_nn2_generator : Z;
  fg_rows : Z;
  fg_columns : Z;
  fg_coupling : dbl;
  fg_field : dbl;
  fg_periodic : bool;
  fg_sudoku_cells : Z }.

(** The draws: of Generator::normal and Generator::uniform as doubles, in the order of the
    calls; of the numbers of a partition; of the bits of each feature; of the neighbors of an
    NkLandscape; of the solution, the variables, the signs and the changes of sign of a
    MaxSat instance; of the permutation and of the empty cells of a sudoku; and the function
    std::pow. *)
Record ffgen_draws := mk_ffgen_draws {
  fd_normal : nat -> dbl;
  fd_uniform : nat -> dbl;
  fd_int : nat -> Z;
  fd_feature : nat -> nat -> bool;
  fd_neighbors : nat -> nat -> Q;
  fd_solution : nat -> bool;
  fd_variables : nat -> nat -> Q;
  fd_sign : nat -> nat -> bool;
  fd_index : nat -> nat -> nat -> nat;
  fd_shuffle : list nat -> list nat;
  fd_erased : nat -> Q;
  fd_pow : dbl -> dbl -> dbl }.

(** A generator of numbers: from the number of normal draws made before, a number and the
    number of draws made after *)
Definition generator := nat -> dbl * nat.
Definition scaled_normal (stddev : dbl) (normal : nat -> dbl) : generator := fun k => (fmul stddev (normal k), S k).
Definition constant (v : dbl) : generator := fun k => (v, k).

Fixpoint fill (n : nat) (g : generator) (k : nat) : list dbl * nat :=
  match n with
  | 0 => ([], k)
  | S n' => let '(v, k) := g k in let '(l, k) := fill n' g k in (v :: l, k)
  end.
(** The lambda expressions of ffgen.cc:55 and 62, and linear-function.hh:71-75 *)
Fixpoint successive (n : nat) (next : dbl -> dbl) (w : dbl) : list dbl :=
  match n with 0 => [] | S n' => w :: successive n' next (next w) end.
(** nearest-neighbor-ising-model-1.hh:124-132 *)
Fixpoint fill_pairs (n : nat) (g h : generator) (k : nat) : list dbl * list dbl * nat :=
  match n with
  | 0 => ([], [], k)
  | S n' =>
      let '(a, k) := g k in let '(b, k) := h k in
      let '(la, lb, k) := fill_pairs n' g h k in (a :: la, b :: lb, k)
  end.
(** nearest-neighbor-ising-model-2.hh:132-143 *)
Fixpoint fill_triples (n : nat) (g h : generator) (k : nat) : list dbl * list dbl * list dbl * nat :=
  match n with
  | 0 => ([], [], [], k)
  | S n' =>
      let '(a, k) := g k in let '(b, k) := g k in let '(c, k) := h k in
      let '(la, lb, lc, k) := fill_triples n' g h k in (a :: la, b :: lb, c :: lc, k)
  end.
Fixpoint fill_grid (nr nc : nat) (g h : generator) (k : nat) : list (list dbl) * list (list dbl) * list (list dbl) :=
  match nr with
  | 0 => ([], [], [])
  | S nr' =>
      let '(la, lb, lc, k) := fill_triples nc g h k in
      let '(ma, mb, mc) := fill_grid nr' nc g h k in (la :: ma, lb :: mb, lc :: mc)
  end.
(** walsh-expansion-2.hh:93-103: rows of increasing sizes; row 0 is empty *)
Fixpoint fill_triangle (rows : list nat) (g : generator) (k : nat) : list (list dbl) :=
  match rows with
  | [] => []
  | i :: rows' => let '(l, k) := fill i g k in l :: fill_triangle rows' g k
  end.

(** What is written: an object, or the text of MaxSat or Sudoku *)
Definition put_file (i : instance) : contents := Archive (put_instance i).

(** The assertion n > 0 of the functions generate *)
Definition positive (z : Z) : outcome nat := _ <- assertb (0 <? z)%Z ;; Ok (Z.to_nat z).

(** The choice of generators of ffgen.cc:107-135 and 149-181 *)
Definition ising_generators (o : ffgen_options) (normal : generator) (choice : Z) : outcome (generator * generator) :=
  match choice with
  | 0%Z => Ok (normal, normal)
  | 1%Z => Ok (normal, constant (fg_field o))
  | 2%Z => Ok (constant (fg_coupling o), normal)
  | 3%Z => Ok (constant (fg_coupling o), constant (fg_field o))
  | _ => Throw RuntimeError
  end.

(** ffgen.cc:39-294, without the writing *)
Definition generate_function (o : ffgen_options) (d : ffgen_draws) : outcome contents :=
  let normal := scaled_normal (fg_stddev o) (fd_normal d) in
  match fg_type o with
  | 1%Z => (* ffgen.cc:39-73 *)
      match fg_lin_generator o with
      | 0%Z => n <- positive (fg_size o) ;; Ok (put_file (ILinear (fst (fill n normal 0))))
      | 1%Z => n <- positive (fg_size o) ;; Ok (put_file (ILinear (successive n (fun w => fadd w (fg_lin_distance o)) (fg_lin_initial o))))
      | 2%Z => n <- positive (fg_size o) ;; Ok (put_file (ILinear (successive n (fun w => fmul w (fg_lin_ratio o)) (fg_lin_initial o))))
      | _ => Throw RuntimeError
      end
  | 60%Z => (* ffgen.cc:206-213 and nk-landscape.hh:88-98; the object is new *)
      n <- positive (fg_size o) ;; k <- positive (fg_nk_k o) ;;
      s <- random_structure n k (fd_neighbors d) (mk_nk [] []) ;;
      Ok (put_file (INk (map (map Z.of_nat) (nk_neighbors s)) (fill_triangle (map (@len Q) (nk_functions s)) normal 0)))
  | 70%Z => (* ffgen.cc:215-232; the constructor of a vector throws length_error on negative sizes *)
      if fg_ms_planted o then
        if (fg_size o <? 0)%Z then Throw OtherException
        else
          let solution := bv_random (repeat false (Z.to_nat (fg_size o))) (fd_solution d) in
          k <- positive (fg_ms_literals o) ;; c <- positive (fg_ms_clauses o) ;;
          e <- maxsat_planted solution k c (fd_variables d) (fd_sign d) (fd_index d) ;;
          Ok (Text (maxsat_save (len solution) e))
      else
        n <- positive (fg_size o) ;; k <- positive (fg_ms_literals o) ;; c <- positive (fg_ms_clauses o) ;;
        e <- maxsat_random n k c (fd_variables d) (fd_sign d) ;;
        Ok (Text (maxsat_save n e))
  | 90%Z => (* ffgen.cc:234-242 *)
      n <- positive (fg_size o) ;;
      Ok (put_file (IEqualProducts (map (fun i => fmul (fg_ep_bound o) (fd_uniform d i)) (seq 0 n))))
  | 91%Z => (* ffgen.cc:244-251 *)
      n <- positive (fg_size o) ;;
      l <- partition_random n (fg_part_bound o) (fd_int d) ;; Ok (put_file (IPartition l))
  | 160%Z => (* ffgen.cc:253-260 and walsh-expansion.hh:85-101 *)
      n <- positive (fg_size o) ;; m <- positive (fg_walsh_features o) ;;
      Ok (put_file (IWalsh (combine (map (fun i => bv_random (repeat false n) (fd_feature d i)) (seq 0 m)) (fst (fill m normal 0)))))
  | 161%Z => (* ffgen.cc:262-269 *)
      n <- positive (fg_size o) ;; Ok (put_file (IWalsh1 (fst (fill n normal 0))))
  | 162%Z => (* ffgen.cc:76-99 and walsh-expansion-2.cc:82-100 *)
      match fg_walsh2_generator o with
      | 0%Z =>
          n <- positive (fg_size o) ;;
          let '(l, k) := fill n normal 0 in
          Ok (put_file (IWalsh2 l (fill_triangle (seq 0 n) normal k)))
      | 1%Z =>
          n <- positive (fg_size o) ;;
          Ok (put_file (IWalsh2 (repeat (DFin 0) n)
            (map (fun i => map (fun j => fd_pow d (dint (Z.of_nat (i - j))) (fopp (fg_walsh2_alpha o))) (seq 0 i)) (seq 0 n))))
      | _ => Throw RuntimeError
      end
  | 171%Z => (* ffgen.cc:102-141 *)
      '(g, h) <- ising_generators o normal (fg_nn1_generator o) ;;
      n <- positive (fg_size o) ;;
      let '(c, f, _) := fill_pairs n g h 0 in Ok (put_file (IIsing1 c f (fg_periodic o)))
  | 172%Z => (* ffgen.cc:144-192; the size is that of the grid *)
      '(g, h) <- ising_generators o normal (fg_nn2_generator o) ;;
      nr <- positive (fg_rows o) ;; nc <- positive (fg_columns o) ;;
      let '(r, b, f) := fill_grid nr nc g h 0 in Ok (put_file (IIsing2 r b f (fg_periodic o)))
  | 190%Z => (* ffgen.cc:283-288 *)
      c <- positive (fg_sudoku_cells o) ;;
      s <- sudoku_random (fd_shuffle d) c (fd_erased d) sudoku_make ;;
      t <- sudoku_save s ;; Ok (Text t)
  | _ => Throw RuntimeError
  end.

(** main, ffgen.cc:297-319: the file which is written, if any, and the end of the program; a
    file which cannot be opened is a runtime_error. *)
Definition ffgen (o : ffgen_options) (d : ffgen_draws) (writable : bool) : option contents * ending :=
  match generate_function o d with
  | Ok c => if writable then (Some c, Exit 0) else (None, Exit 1)
  | Throw OtherException => (None, Uncaught)
  | Throw _ => (None, Exit 1)
  | UB => (None, Undefined)
  end.
