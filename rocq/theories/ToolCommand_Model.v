(** Model of mapgen, ffgen and hnco-mo, from the words of their command lines: app/mapgen.cc,
    app/ffgen.cc, app/hnco-mo.cc and the options which they read.

    What is outside of the programs is in [surroundings]: the doubles which texts denote, the
    random numbers given the seed, whether files can be written, and the functions of hnco-mo.
    The accessors of options with a default value do not throw (C137_accessors): the values
    which are read here after a failure are those of no run. *)

From Coq Require Import ZArith String.
From Verif Require Import Base Double Decorator_Model Application_Model MapFile_Model InstanceFile_Model MultiApplication_Model Options_Model ToolOptions_Model.
Local Open Scope string_scope.
Local Open Scope list_scope.
Local Open Scope nat_scope.

Record surroundings := mk_surroundings {
  su_double : string -> dbl;  (** std::atof *)
  su_writable : string -> bool;  (** by the path *)
  su_map : option Z -> map_draws;  (** given the seed *)
  su_function : option Z -> ffgen_draws;
  su_multi : option Z -> mo_draws;
  su_small : string -> nat -> bool;  (** p < 1 / sqrt(n), neighborhood.hh:285 *)
  su_probability : string -> Z;  (** a crossover probability, see C121_crossover_probability *)
  su_objectives : options -> outcome mo_function }.  (** the functions of hnco-mo, by the options *)

(** Accessors *)
Definition int_of (t : tool) (st : options) (name : string) : Z := match get t st name with Ok (VInt z) => z | _ => 0%Z end.
Definition text_from (t : tool) (st : options) (name : string) : string := match get t st name with Ok (VText s) => s | _ => "" end.
Definition real_from (t : tool) (st : options) (name : string) : string := match get t st name with Ok (VReal s) => s | _ => "" end.
Definition flag_of (t : tool) (st : options) (name : string) : bool := match with_option t st name with Ok b => b | _ => false end.

(** mapgen.cc:131-134, ffgen.cc:305-308: get_seed gives an int (mapgen-options.hh:102,
    ffgen-options.hh:275), which becomes unsigned, random.hh:43 *)
Definition int_seed (t : tool) (st : options) : option Z :=
  if flag_of t st "seed" then Some (int_of t st "seed" mod 2 ^ 32)%Z else None.
(** multiobjective/app/application.cc:54-57 *)
Definition unsigned_seed (st : options) : option Z :=
  if flag_of HncoMo st "seed" then match get HncoMo st "seed" with Ok (VUnsigned z) => Some z | _ => None end else None.

(** ** mapgen *)

(** mapgen.cc:38-121 *)
Definition mapgen_settings (st : options) : mapgen_options :=
  let int := int_of Mapgen st in
  mk_mapgen_options (int "map") (int "input_size") (int "output_size") (flag_of Mapgen st "surjective") (int "ts_length") (int "ts_sampling_mode").
(** mapgen.cc:124-145: the path of the file which is written with what it contains, if any, and
    the end of the program *)
Definition mapgen_program (W : surroundings) (words : list string) : option (option (string * archive) * ending) :=
  match make_options Mapgen false words with
  | Ended _ e => Some (None, e)
  | Parsed st =>
      let path := text_from Mapgen st "path" in
      match mapgen (mapgen_settings st) (su_map W (int_seed Mapgen st)) (su_writable W path) with
      | None => None
      | Some (file, e) => Some (match file with Some a => Some (path, a) | None => None end, e)
      end
  end.

(** ** ffgen *)

(** ffgen.cc:39-294 *)
Definition ffgen_settings (W : surroundings) (st : options) : ffgen_options :=
  let int := int_of Ffgen st in
  let real name := su_double W (real_from Ffgen st name) in
  mk_ffgen_options (int "function") (int "bv_size") (real "stddev") (int "lin_generator") (real "lin_initial_weight") (real "lin_distance") (real "lin_ratio")
    (int "nk_k") (int "ms_num_clauses") (int "ms_num_literals_per_clause") (flag_of Ffgen st "ms_planted_solution") (real "ep_upper_bound") (int "part_upper_bound")
    (int "walsh_num_features") (int "walsh2_generator") (real "walsh2_ising_alpha") (int "nn1_generator") (int "nn2_generator") (int "nn2_num_rows")
    (int "nn2_num_columns") (real "coupling_constant") (real "field_constant") (flag_of Ffgen st "periodic_boundary_conditions") (int "sudoku_num_empty_cells").
(** ffgen.cc:297-319 *)
Definition ffgen_program (W : surroundings) (words : list string) : option (string * contents) * ending :=
  match make_options Ffgen false words with
  | Ended _ e => (None, e)
  | Parsed st =>
      let path := text_from Ffgen st "path" in
      let '(file, e) := ffgen (ffgen_settings W st) (su_function W (int_seed Ffgen st)) (su_writable W path) in
      (match file with Some c => Some (path, c) | None => None end, e)
  end.

(** ** hnco-mo *)

(** The cases of multiobjective/app/function-factory.cc:46-129 *)
Definition mo_cases : list Z := [520; 521; 522; 523; 524; 530; 531; 532; 533; 534; 1100]%Z.
(** multiobjective/app/function-factory.cc:38-136 *)
Definition mo_function_factory (W : surroundings) (st : options) : outcome mo_function :=
  if (int_of HncoMo st "bv_size" <=? 0)%Z then Throw RuntimeError
  else if existsb (Z.eqb (int_of HncoMo st "function")) mo_cases then su_objectives W st
  else Throw RuntimeError.
(** The rate of mutation: 1 / n (nsga2.hh:156), else that of the option (algorithm-factory.cc:47-48) *)
Definition mo_rate (W : surroundings) (st : options) (n : nat) : bool :=
  if flag_of HncoMo st "ea_mutation_rate" then su_small W (real_from HncoMo st "ea_mutation_rate") n else 1 <? n.
(** multiobjective/app/application.cc and algorithm-factory.cc *)
Definition mo_settings (W : surroundings) (st : options) (n : nat) : mo_options :=
  let int := int_of HncoMo st in
  let flag := flag_of HncoMo st in
  mk_mo_options (flag "print_default_parameters") (int "num_threads") (int "bv_size") (flag "fn_get_bv_size") (flag "fn_get_output_size") (flag "fn_display")
    (int "algorithm") (int "ea_mu") (int "ea_tournament_size") (mo_rate W st n) (flag "ea_allow_no_mutation")
    (su_probability W (real_from HncoMo st "ea_crossover_probability")) (int "num_iterations") (flag "print_parameters") (flag "print_description")
    (flag "print_pareto_front").
Definition mo_size (made : outcome mo_function) : nat := match made with Ok f => mf_size f | _ => 0 end.
(** hnco-mo.cc:30-43 *)
Definition hnco_mo_program (W : surroundings) (words : list string) : option (list mo_output * ending) :=
  match make_options HncoMo false words with
  | Ended _ e => Some ([], e)
  | Parsed st =>
      let made := mo_function_factory W st in
      mo_program (mo_settings W st (mo_size made)) made (su_multi W (unsigned_seed st))
  end.
