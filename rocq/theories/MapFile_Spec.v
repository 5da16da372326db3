(** What the files of maps should contain, independently of the code. *)

From Coq Require Import ZArith.
From Verif Require Import Base Transvection_Model Map_Model Decorator_Model MapFile_Model.
Local Open Scope nat_scope.

(** The maps which mapgen can be asked, and the options of the application for the same map *)
Definition square (kind : Z) : Prop := (kind = 1 \/ kind = 2 \/ kind = 3 \/ kind = 6)%Z.
Definition rectangular (kind : Z) : Prop := (kind = 4 \/ kind = 5)%Z.

(** The size of the output of the map: the input size stands for it with sequences of
    transvections. *)
Definition map_size (o : mapgen_options) : nat :=
  Z.to_nat (if (mg_kind o =? 6)%Z then mg_input_size o else mg_output_size o).
Definition application_options (o : mapgen_options) (random : bool) : map_options :=
  mk_map_options (mg_kind o) random (mg_input_size o) (mg_surjective o) (mg_ts_length o) (mg_ts_mode o).

Definition known_kind (o : mapgen_options) : Prop := square (mg_kind o) \/ rectangular (mg_kind o).

(** All the sizes which are used are positive, and of type int. *)
Definition sizes_ok (o : mapgen_options) : Prop :=
  (mg_input_size o < 2 ^ 31 /\ mg_output_size o < 2 ^ 31)%Z /\
  (mg_kind o <> 6 -> 0 < mg_output_size o)%Z /\
  (rectangular (mg_kind o) \/ mg_kind o = 6 -> 0 < mg_input_size o)%Z.

(** A map is written. *)
Definition accepted (o : mapgen_options) : Prop :=
  known_kind o /\ sizes_ok o /\
  (rectangular (mg_kind o) -> mg_surjective o = true -> mg_output_size o <= mg_input_size o)%Z /\
  (mg_kind o = 6 -> 1 < mg_input_size o /\ 0 <= mg_ts_length o /\ 0 <= mg_ts_mode o <= 5)%Z.

(** An error is reported. *)
Definition refused (o : mapgen_options) : Prop :=
  ~ known_kind o \/
  sizes_ok o /\
  ((rectangular (mg_kind o) /\ mg_surjective o = true /\ mg_input_size o < mg_output_size o) \/
   (mg_kind o = 6 /\ 0 <= mg_ts_length o /\ ~ (0 <= mg_ts_mode o <= 5)))%Z.

(** An assertion is violated. *)
Definition violates (o : mapgen_options) : Prop :=
  known_kind o /\
  ((mg_kind o <> 6 /\ mg_output_size o <= 0) \/
   ((rectangular (mg_kind o) \/ mg_kind o = 6) /\ mg_input_size o <= 0) \/
   (mg_kind o = 6 /\ (mg_ts_length o < 0 \/ mg_input_size o = 1 /\ 0 <= mg_ts_mode o <= 5)))%Z.

(** Indices are of type int. *)
Definition indices_fit (m : hmap) : Prop :=
  match m with
  | MPermutation p => Forall (fun k => Z.of_nat k < 2 ^ 31)%Z p
  | MTsAffine ts _ => Forall (fun tv => Z.of_nat (row_index tv) < 2 ^ 31 /\ Z.of_nat (column_index tv) < 2 ^ 31)%Z ts
  | _ => True
  end.

(** [a] is the beginning of [b], without its end. *)
Definition truncated (a b : archive) : Prop := exists c, c <> [] /\ b = a ++ c.
