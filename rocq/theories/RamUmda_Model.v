(** Model of UMDA with random affine maps:
    lib/hnco/algorithms/probability-vector/ram-umda.hh and ram-umda.cc.
    Probabilities are exact rational numbers. Populations are evaluated sequentially. *)

From Coq Require Import QArith.
From Verif Require Import Base BitVector_Model Transvection_Model Map_Model Neighborhood_Model Algorithm_Model Population_Model PopAlgorithm_Model
  ProbabilityVector_Model EvolutionaryAlgorithm_Model.
Local Open Scope nat_scope.

(** TsLengthMode: ram-umda.hh:38-53; [LengthOther] is any other integer. *)
Inductive length_mode := LengthConstant | LengthIncreasing | LengthDecreasing | LengthUniform | LengthGeometric
  | LengthReverseGeometric | LengthOther.

(** Parameters: ram-umda.hh:106-116, except _ts_length. *)
Record length_config := mk_length_config { lc_mode : length_mode; lc_lower : Z; lc_upper : Z; lc_period : Z; lc_param : Q }.
Definition default_length_config : length_config := mk_length_config LengthConstant 0 20 10000 (1 # 10)%Q.

(** Members: ram-umda.hh:86-108 and 155, _pv of pv-algorithm.hh:38. The maps and the
    temporary vectors are overwritten before they are read and are not kept. *)
Record ram := mk_ram { r_x : population; r_y : population; r_pv : list Q; r_pvy : list Q; r_len : Z }.
Definition r_put (p : population) (m : ram) : ram := mk_ram p (r_y m) (r_pv m) (r_pvy m) (r_len m).

(** Constructors: ram-umda.hh:55-62 and 139-142; [len] is _ts_length, 10 by default. *)
Definition ram_make (size n : nat) (len : Z) : outcome ram :=
  px <- pop_make size n ;;
  py <- pop_make size n ;;
  Ok (mk_ram px py (repeat 0%Q n) (repeat 0%Q n) len).
Definition default_selection_size : nat := 10.

(** RamUmda::compute_ts_length: ram-umda.cc:77-123. [it] is _iteration, [ud] is drawn
    by std::uniform_int_distribution (undefined if the bounds are reversed), [gd] by
    std::geometric_distribution (undefined if its parameter is not between 0 and 1). *)
Definition compute_ts_length (c : length_config) (it : nat) (ud : Z) (gd : nat) (len : Z) : outcome Z :=
  match lc_mode c with
  | LengthConstant => Ok len
  | LengthIncreasing =>
      if (lc_period c =? 0)%Z then UB
      else
        let len := if (Z.rem (Z.of_nat it + 1) (lc_period c) =? 0)%Z then (len + 1)%Z else len in
        Ok (Z.min len (lc_upper c))
  | LengthDecreasing =>
      if (lc_period c =? 0)%Z then UB
      else
        let len := if (Z.rem (Z.of_nat it + 1) (lc_period c) =? 0)%Z then (len - 1)%Z else len in
        Ok (Z.max len (lc_lower c))
  | LengthUniform => if (lc_lower c <=? lc_upper c)%Z then Ok ud else UB
  | LengthGeometric =>
      if qltb 0 (lc_param c) && qltb (lc_param c) 1 then Ok (Z.min (Z.of_nat gd) (lc_upper c)) else UB
  | LengthReverseGeometric =>
      if qltb 0 (lc_param c) && qltb (lc_param c) 1 then Ok (Z.max (lc_upper c - Z.of_nat gd) (lc_lower c)) else UB
  | LengthOther => Throw RuntimeError
  end.

(** TsAffineMap::random with SamplingMode::unconstrained: map.cc:193-206. [bits] are
    those of the translation, [draws] the indices of the transvections; [Ok None]
    when they run out. *)
Definition ts_affine_random (n : nat) (t : Z) (bits : nat -> bool) (draws : list nat) : outcome (option (list transvection * bv)) :=
  _ <- assertb (0 <? n) ;;
  _ <- assertb (0 <=? t)%Z ;;
  r <- ts_random n (Z.to_nat t) draws ;;
  Ok (option_map (fun ts => (ts, bv_random (repeat false n) bits)) r).

(** A computation that may not have returned yet *)
Definition lift_opt {S A} (o : outcome (option A)) : act S A := fun s =>
  (match o with Ok (Some a) => Ret a | Ok None => Pending | Throw e => Exc e | UB => Bad end, s).

(** Selected individuals sent to the latent space: ram-umda.cc:60-61 and 158-159. *)
Definition to_latent (selection : nat) (mp : hmap) (x : population) (ys : list bv) : outcome (list bv) :=
  foldM (fun ys i =>
    b <- best_bv x i ;;
    out <- vget ys i ;;
    '(_, z) <- map_apply mp b out ;;
    vset ys i z) (seq 0 selection) ys.

(** Average of the first vectors: ram-umda.cc:64-68, 145-149 and 162-166. *)
Definition mean_of_first (n selection size : nat) (bs : list bv) : outcome (list Q) :=
  m <- foldM (fun m i => b <- vget bs i ;; pv_add m b) (seq 0 selection) (repeat 0%Q size) ;;
  m <- pv_average m selection ;;
  Ok (pv_bound m (lower_bound n) (upper_bound n)).

Section Ram.
  Variables (o : objective) (n selection : nat) (c : length_config).
  (** Random numbers of the iteration [t]: those of the length, of the map, of the new
      individuals and the shuffle of the sort. *)
  Variables (ud : nat -> Z) (gd : nat -> nat) (tb : nat -> nat -> bool) (td : nat -> list nat).
  Variables (u : nat -> nat -> nat -> Q) (shs : nat -> list nat -> list nat).
  Variable srt : (nat -> nat -> bool) -> list nat -> list nat.

  (** RamUmda::init and RamUmda2::init: ram-umda.cc:34-40 and 125-131. *)
  Definition ram_init (bit : nat -> bool) (bits : nat -> nat -> bool) : act (alg ram) unit :=
    _ <~ random_solution o bit ;;
    amodify (fun s => put_mem (r_put (pop_random bits (r_x (a_mem s))) (a_mem s)) s).

  (** ram-umda.cc:45-51 and 136-142 *)
  Definition ram_generation (t : nat) : act (alg ram) unit :=
    _ <~ eval_pop r_x r_put o ;;
    _ <~ sort_pop r_x r_put (shs t) srt ;;
    update_with_best r_x.

  (** ram-umda.cc:54-57 and 152-155; the two maps *)
  Definition ram_maps (t : nat) : act (alg ram) (hmap * hmap) :=
    _ <~ on_mem (fun m =>
      len <- compute_ts_length c t (ud t) (gd t) (r_len m) ;;
      Ok (tt, mk_ram (r_x m) (r_y m) (r_pv m) (r_pvy m) len)) ;;
    len <~ aget (fun s => r_len (a_mem s)) ;;
    p <~ lift_opt (ts_affine_random n len (tb t) (td t)) ;;
    inv <~ lift (ts_affine_invert (fst p) (snd p)) ;;
    aret (MTsAffine (fst p) (snd p), inv).

  (** RamUmda::iterate: ram-umda.cc:42-75. *)
  Definition ram_iterate (t : nat) : act (alg ram) unit :=
    _ <~ ram_generation t ;;
    maps <~ ram_maps t ;;
    on_mem (fun m =>
      ys <- to_latent selection (fst maps) (r_x m) (p_bvs (r_y m)) ;;
      pv <- mean_of_first n selection (length (r_pv m)) ys ;;
      xs <- foldM (fun xs k =>
              a <- pv_sample pv (repeat false n) (u t k) ;;
              out <- vget xs k ;;
              '(_, z) <- map_apply (snd maps) a out ;;
              vset xs k z) (seq 0 (pop_size (r_x m))) (p_bvs (r_x m)) ;;
      Ok (tt, mk_ram (mk_pop xs (p_values (r_x m)) (p_perm (r_x m)))
                (mk_pop ys (p_values (r_y m)) (p_perm (r_y m))) pv (r_pvy m) (r_len m))).

  (** Draws of RamUmda2 for the individual [k] of the iteration [t]: the two tests, the
      draws in the solution space and the coins of the crossover. *)
  Variables (uc ul : nat -> nat -> Q) (ux : nat -> nat -> nat -> Q) (coin : nat -> nat -> nat -> bool).
  (** _crossover_probability and _latent_space_probability: ram-umda.hh:161-163 *)
  Variables (pc pl : Q).

  (** RamUmda2::iterate: ram-umda.cc:133-185. *)
  Definition ram2_iterate (t : nat) : act (alg ram) unit :=
    _ <~ ram_generation t ;;
    _ <~ on_mem (fun m =>
      pv <- mean_of_first n selection (length (r_pv m)) (p_bvs (r_x m)) ;;
      Ok (tt, mk_ram (r_x m) (r_y m) pv (r_pvy m) (r_len m))) ;;
    maps <~ ram_maps t ;;
    on_mem (fun m =>
      ys <- to_latent selection (fst maps) (r_x m) (p_bvs (r_y m)) ;;
      pvy <- mean_of_first n selection (length (r_pvy m)) ys ;;
      xs <- foldM (fun xs k =>
              out <- vget xs k ;;
              z <-
                (if qltb (uc t k) pc then
                   a <- pv_sample pvy (repeat false n) (u t k) ;;
                   '(_, b) <- map_apply (snd maps) a (repeat false n) ;;
                   c <- pv_sample (r_pv m) (repeat false n) (ux t k) ;;
                   uniform_crossover (coin t k) b c out
                 else if qltb (ul t k) pl then
                   a <- pv_sample pvy (repeat false n) (u t k) ;;
                   '(_, b) <- map_apply (snd maps) a out ;;
                   Ok b
                 else pv_sample (r_pv m) out (ux t k)) ;;
              vset xs k z) (seq 0 (pop_size (r_x m))) (p_bvs (r_x m)) ;;
      Ok (tt, mk_ram (mk_pop xs (p_values (r_x m)) (p_perm (r_x m)))
                (mk_pop ys (p_values (r_y m)) (p_perm (r_y m))) (r_pv m) pvy (r_len m))).
End Ram.
