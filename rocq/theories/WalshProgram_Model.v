(** Model of the option --fn-walsh-transform of hnco: application.cc:133-157 and
    function.cc:76-130, with a function which is an object.

    Values are finite, in units of 2^-1074, and sums are not rounded; a function which gives
    another value is not modelled (None).  Amplitudes are rational numbers, and 1e-10 is exact.
    The warning for more than 15 bits, on the standard error, is left out. *)

From Coq Require Import ZArith NArith QArith.
From Verif Require Import Base BitVector_Model Map_Model Iterator_Model Walsh_Model Double Controller_Model Decorator_Model Application_Model.
Local Close Scope Q_scope.
Local Open Scope nat_scope.

(** Computations with the state of the function; [None] for what is not modelled *)
Definition eff (S A : Type) : Type := S -> S * option (outcome A).
Definition eret {S A} (a : outcome A) : eff S A := fun s => (s, Some a).
Definition ebind {S A B} (m : eff S A) (k : A -> eff S B) : eff S B := fun s =>
  match m s with
  | (s, Some (Ok a)) => k a s
  | (s, Some (Throw e)) => (s, Some (Throw e))
  | (s, Some UB) => (s, Some UB)
  | (s, None) => (s, None)
  end.
Fixpoint efold {S A X} (f : A -> X -> eff S A) (l : list X) (a : A) : eff S A :=
  match l with
  | [] => eret (Ok a)
  | x :: l' => ebind (f a x) (efold f l')
  end.

(** fn->evaluate(x) *)
Definition ask {S} (o : fobj S) (x : bv) : eff S Z := fun s =>
  let '(s', a) := o s (REval x) in
  (s', match a with
       | Ok (RValue (DFin z)) => Some (Ok z)
       | Ok (RValue _) => None
       | Ok RVoid => Some UB
       | Throw e => Some (Throw e)
       | UB => Some UB
       end).

(** function.cc:92-110: body of the inner loop *)
Definition butterfly_with {S} (o : fobj S) (k : nat) (coefficients : list Z) (x : bv) (v : bv) : eff S (list Z * bv) :=
  ebind (eret (x <- copy_back v x ;;
               x0 <- vset x k false ;;
               index0 <- bv_to_size_type x0 ;;
               _ <- assertb (N.to_nat index0 <? length coefficients) ;;
               x1 <- vset x0 k true ;;
               index1 <- bv_to_size_type x1 ;;
               _ <- assertb (N.to_nat index1 <? length coefficients) ;;
               Ok (x0, x1, N.to_nat index0, N.to_nat index1)))
  (fun '(x0, x1, index0, index1) =>
  ebind (if k =? 0 then ebind (ask o x0) (fun f0 => ebind (ask o x1) (fun f1 => eret (Ok (f0, f1))))
         else eret (f0 <- vget coefficients index0 ;; f1 <- vget coefficients index1 ;; Ok (f0, f1)))
  (fun '(f0, f1) =>
  eret (coefficients <- vset coefficients index0 (f0 + f1)%Z ;;
        coefficients <- vset coefficients index1 (f0 - f1)%Z ;;
        Ok (coefficients, x1)))).

(** function.cc:76-130; as in [fast_walsh_transform], a loop over an iterator is modelled by
    draining the iterator first. *)
Definition fast_walsh_transform_with {S} (o : fobj S) (n : nat) : eff S (list walsh_term) :=
  ebind (eret (shift_one n)) (fun size =>
  ebind (efold (fun '(coefficients, x) k =>
      ebind (eret (drain (fun s => Ok (ehc_has_next s)) ehc_next (2 ^ k + 1) (hc_make k))) (fun '(us, _, _) =>
      efold (fun '(coefficients, x) u =>
        ebind (eret (copy_front u x)) (fun x =>
        ebind (eret (drain (fun s => Ok (ehc_has_next s)) ehc_next (2 ^ (n - k - 1) + 1) (hc_make (n - k - 1)))) (fun '(vs, _, _) =>
        efold (fun '(coefficients, x) v => butterfly_with o k coefficients x v) vs (coefficients, x))))
        us (coefficients, x))) (seq 0 n) (repeat 0%Z size, repeat false n))
  (fun '(coefficients, _) => eret (collect_terms n coefficients))).

(** application.cc:138-154; [srt] is std::sort, the comparison being greater coefficients
    first *)
Definition print_spectrum (srt : (walsh_term -> walsh_term -> bool) -> list walsh_term -> list walsh_term)
    (terms : list walsh_term) : outcome (list (nat * Q)) :=
  let terms := map (fun t => (fst t, Z.abs (snd t))) terms in
  let terms := srt (fun a b => (snd b <? snd a)%Z) terms in
  _ <- assertb (0 <? length terms) ;;
  t <- vget terms 0 ;;
  norm <- (if bv_hamming_weight_vb (fst t) =? 0 then t <- vget terms 1 ;; Ok (snd t) else Ok (snd t)) ;;
  Ok (flat_map (fun t =>
        let weight := bv_hamming_weight_vb (fst t) in
        let amplitude := (inject_Z (snd t) / inject_Z norm)%Q in
        if negb (Qle_bool amplitude (1 # 10000000000)) && (0 <? weight) then [(weight, amplitude)] else []) terms).

(** application.cc:317-326 with the option --fn-walsh-transform, and 133-157: what is printed
    before, the spectrum and the end of the program *)
Definition walsh_program (srt : (walsh_term -> walsh_term -> bool) -> list walsh_term -> list walsh_term)
    (ap : app_options) (co : controller_options) (made : outcome (option (option hmap * func))) : option (list output * list (nat * Q) * ending) :=
  let before (p : part) := Some (fst (end_of_program p), [], snd (end_of_program p)) in
  match app_init ap with
  | (out, Ok None) =>
      match made with
      | Ok None => None
      | Throw e => before (out, Throw e)
      | UB => before (out, UB)
      | Ok (Some (m, F)) =>
          match make_function_controller co F with
          | Throw e => before (out, Throw e)
          | UB => before (out, UB)
          | Ok (mid, target) =>
              let n := fp_size (f_props F) in
              let o := controlled_obj mid target (f_obj F) in
              let s := controlled_init mid n (f_init F) in
              match andthen (load_solution ap m F o s) (print_information ap mid (f_props F)) with
              | (out, Ok None) =>
                  match snd (fast_walsh_transform_with o n s) with
                  | None => None
                  | Some terms =>
                      match terms <- terms ;; print_spectrum srt terms with
                      | Ok spectrum => Some (out, spectrum, Exit 0)
                      | Throw e => before (out, Throw e)
                      | UB => before (out, UB)
                      end
                  end
              | p => before p
              end
          end
      end
  | p => before p
  end.
