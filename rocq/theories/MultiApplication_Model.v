(** Model of the application for several objectives:
    lib/hnco/multiobjective/app/application.cc, algorithm-factory.cc and app/hnco-mo.cc.

    The format of numbers, the display of functions and the clock are not modelled.  The warning
    is printed on the error output, as are the messages of exceptions. *)

From Coq Require Import ZArith String.
From Verif Require Import Base BitVector_Model Algorithm_Model Pareto_Model Nsga2_Model Representation_Model ParsedFunction_Model Application_Model.
Local Open Scope nat_scope.

(** ** Options and outputs *)

Record mo_options := mk_mo_options {
  mo_print_default : bool;
  mo_threads : Z;
  mo_bv_size : Z;
  mo_ask_size : bool;
  mo_ask_outputs : bool;
  mo_ask_display : bool;
  mo_algorithm : Z;
  mo_mu : Z;
  mo_tournament : Z;
  mo_small_rate : bool;  (** the mutation rate is less than 1 / sqrt(n) *)
  mo_allow_no_mutation : bool;
  mo_crossover_probability : Z;
  mo_num_iterations : Z;
  mo_print_parameters : bool;
  mo_print_description : bool;
  mo_print_front : bool }.

(** What is printed; a description is seen as the vector described by the function, with the
    objectives printed before. *)
Inductive mo_output :=
| MoParameters
| MoWarning (option size : Z)
| MoSize (n : nat)
| MoOutputs (m : nat)
| MoDisplay
| MoDescription (values : list Z) (x : bv)
| MoFront (values : list Z).

(** A part of the program, as in [Application_Model] *)
Definition mo_part : Type := list mo_output * outcome (option nat).
Definition mo_then (a b : mo_part) : mo_part :=
  match snd a with
  | Ok None => (fst a ++ fst b, snd b)
  | _ => a
  end.
Definition mo_when (b : bool) (p : mo_part) : mo_part := if b then p else ([], Ok None).

(** The function: the size of bit vectors and the objectives *)
Record mo_function := mk_mo_function { mf_size : nat; mf_objective : mobjective }.

(** The parsed function made by [mo_make], multivariate-function-adapter.hh:103-132: it throws no exception *)
Definition parsed_function {D : Type} (eval : string -> list D -> D) (to_double : D -> Z) (f : list (rep D) * mparsed * bool) : mo_function :=
  let '(reps, p, absolute) := f in
  let m := length (mp_expressions p) in
  mk_mo_function (total_size reps)
    (mk_mobjective (fun x => match madapter_evaluate eval reps p (convert to_double absolute) x m with Ok v => v | _ => [] end) (fun _ => None) m).

(** ** Parts *)

(** application.cc:44-67 *)
Definition mo_init (op : mo_options) : mo_part :=
  if mo_print_default op then ([MoParameters], Ok (Some 0))
  else if (mo_threads op <? 1)%Z then ([], Throw RuntimeError)
  else ([], Ok None).

(** application.cc:78-82 *)
Definition mo_warning (op : mo_options) (f : mo_function) : mo_part :=
  mo_when (negb (Z.of_nat (mf_size f) =? mo_bv_size op)%Z) ([MoWarning (mo_bv_size op) (Z.of_nat (mf_size f))], Ok None).

(** application.cc:86-104 *)
Definition mo_information (op : mo_options) (f : mo_function) : mo_part :=
  mo_then (mo_when (mo_ask_size op) ([MoSize (mf_size f)], Ok (Some 0)))
 (mo_then (mo_when (mo_ask_outputs op) ([MoOutputs (mo_outputs (mf_objective f))], Ok (Some 0)))
          (mo_when (mo_ask_display op) ([MoDisplay], Ok (Some 0)))).

(** application.cc:106-111 and algorithm-factory.cc:31-57: a negative population size is refused by
    the constructor of std::vector (std::length_error) after the sizes have been checked by
    algorithm.hh:85-91. *)
Definition mo_make_algorithm (op : mo_options) (n m : nat) (garbage : nat * nat) : outcome nsga2 :=
  if (mo_algorithm op =? 100)%Z then
    if (mo_mu op <? 0)%Z then
      _ <- ensureb (0 <? n) ;;
      _ <- ensureb (0 <? m) ;;
      Throw OtherException
    else nsga2_make n m (Z.to_nat (mo_mu op)) garbage
  else Throw RuntimeError.

(** The parameters set by algorithm-factory.cc:42-48; the crossover probability is set, but
    _do_crossover (nsga2.hh:92) is not made from it. *)
Definition mo_parameters (op : mo_options) : nsga2_parameters :=
  mk_nsga2_parameters (Z.to_nat (mo_tournament op)) (mo_small_rate op) (mo_allow_no_mutation op).

(** application.cc:128-160; [ord] is the order in which sets are visited *)
Definition mo_manage (op : mo_options) (ord : nat -> nat -> list nat -> list nat) (solutions : mpop) : option mo_part :=
  let size := length (m_bvs solutions) in
  match compute_fronts (m_values solutions) ord size (repeat 0 size) with
  | None => None
  | Some (Throw e) => Some ([], Throw e)
  | Some UB => Some ([], UB)
  | Some (Ok fronts) =>
      let each (print : list Z -> bv -> mo_output) : mo_part :=
        match foldM (fun out i =>
          front <- vget fronts i ;;
          if front =? 0 then
            v <- vget (m_values solutions) i ;;
            x <- vget (m_bvs solutions) i ;;
            Ok (out ++ [print v x])
          else Ok out) (seq 0 size) [] with
        | Ok out => (out, Ok None)
        | Throw e => ([], Throw e)
        | UB => ([], UB)
        end in
      Some (mo_then (mo_when (mo_print_description op) (each MoDescription))
                    (mo_when (mo_print_front op) (each (fun v _ => MoFront v))))
  end.

(** ** The program *)

(** hnco-mo.cc:30-43 *)
Definition mo_end (p : mo_part) : list mo_output * ending :=
  (fst p,
   match snd p with
   | Ok (Some code) => Exit code
   | Ok None => Exit 0
   | Throw OtherException => Uncaught
   | Throw _ => Exit 1
   | UB => Undefined
   end).

(** The random numbers, uninitialised members and library functions used by a run *)
Record mo_draws := mk_mo_draws {
  md_srt : (nat -> nat -> bool) -> list nat -> list nat;
  md_made : nat * nat; md_bits : nat -> nat -> bool; md_first : nat -> nat -> list nat -> list nat; md_sh : list nat -> list nat;
  md_garbage : nat * nat; md_breeding : breeding; md_generations : nat -> generation_draws;
  md_last : nat -> nat -> list nat -> list nat; md_print : nat -> nat -> list nat -> list nat }.

(** application.cc:162-172 and 113-126.  [made] is what the function factory gives: the generator
    is reset before each copy is made, and the algorithm uses the first one only
    (algorithm.hh:71-77).  [None] if a loop of random draws has not ended. *)
Definition mo_program (op : mo_options) (made : outcome mo_function) (d : mo_draws) : option (list mo_output * ending) :=
  match mo_init op with
  | (out, Ok None) =>
      match made with
      | Throw e => Some (mo_end (out, Throw e))
      | UB => Some (mo_end (out, UB))
      | Ok f =>
          let o := mf_objective f in
          match mo_then (mo_warning op f) (mo_information op f) with
          | (out, Ok None) =>
              match mo_make_algorithm op (mf_size f) (mo_outputs o) (md_made d) with
              | Throw e => Some (mo_end (out, Throw e))
              | UB => Some (mo_end (out, UB))
              | Ok c =>
                  let out := out ++ (if mo_print_parameters op then [MoParameters] else []) in
                  match nsga2_minimize o (md_srt d) (mo_parameters op) (md_bits d) (md_first d) (md_sh d) (md_garbage d) (md_breeding d)
                          (md_generations d) (md_last d) (mo_num_iterations op) (mk_mstate [] c) with
                  | (Pending, _) => None
                  | (Exc e, _) => Some (mo_end (out, Throw e))
                  | (Bad, _) => Some (mo_end (out, UB))
                  | (Ret _, s) =>
                      match mo_manage op (md_print d) (ns_solutions (ms_mem s)) with
                      | None => None
                      | Some p => Some (mo_end (mo_then (out, Ok None) p))
                      end
                  end
              end
          | p => Some (mo_end p)
          end
      end
  | p => Some (mo_end p)
  end.
