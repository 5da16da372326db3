(** Model of the iterators: lib/hnco/iterator.hh, lib/hnco/iterator.cc and
    lib/hnco/neighborhoods/neighborhood-iterator.cc. *)

From Verif Require Import Base BitVector_Model.

(** The client's loop "while (it.has_next()) use(it.next())", as found in
    algorithms/complete-search.cc:42-43.  The boolean of the result tells that
    [has_next] returned false (the fuel was sufficient). *)
Section Drain.
  Variable St : Type.
  Variable has_next : St -> outcome bool.
  Variable next : St -> outcome (bv * St).
  Fixpoint drain (fuel : nat) (s : St) : outcome (list bv * St * bool) :=
    match fuel with
    | 0 => Ok ([], s, false)
    | S fuel' =>
        h <- has_next s ;;
        if (h : bool) then
          '(x, s') <- next s ;;
          '(l, s'', b) <- drain fuel' s' ;;
          Ok (x :: l, s'', b)
        else Ok ([], s, true)
    end.
End Drain.
Arguments drain {St}.

(** * Hypercube iterators *)

(** iterator.hh:34-62: _current and _initial_state *)
Record hc_state := mk_hc { hc_current : bv; hc_initial : bool }.

(** iterator.hh:54 *)
Definition hc_init (s : hc_state) : hc_state := mk_hc (hc_current s) true.

(** iterator.hh:47-48: constructor *)
Definition hc_make (n : nat) : hc_state := mk_hc (repeat false n) true.

(** iterator.cc:29-36 *)
Definition hc_has_next (s : hc_state) : bool :=
  if hc_initial s then 0 <? length (hc_current s)
  else existsb (fun b => negb b) (hc_current s).

(** iterator.cc:48-55: binary adder *)
Fixpoint hc_increment (x : bv) : bv :=
  match x with
  | [] => []
  | b :: x' => if b then false :: hc_increment x' else true :: x'
  end.

(** iterator.cc:38-59 *)
Definition hc_next (s : hc_state) : outcome (bv * hc_state) :=
  _ <- assertb (hc_has_next s) ;;
  let cur := if hc_initial s then bv_clear (hc_current s) else hc_increment (hc_current s) in
  Ok (cur, mk_hc cur false).

(** iterator.cc:62-69 *)
Definition ehc_has_next (s : hc_state) : bool :=
  if hc_initial s then true
  else existsb (fun b => negb b) (hc_current s).

(** iterator.cc:72-93 *)
Definition ehc_next (s : hc_state) : outcome (bv * hc_state) :=
  _ <- assertb (ehc_has_next s) ;;
  let cur :=
    if hc_initial s
    then (if 0 <? length (hc_current s) then bv_clear (hc_current s) else hc_current s)
    else hc_increment (hc_current s) in
  Ok (cur, mk_hc cur false).

(** * Single bit flip iterator *)

(** neighborhood-iterator.hh:56-77; [sb_index] is uninitialised (arbitrary)
    until the first call of next *)
Record sb_state := mk_sb { sb_current : bv; sb_initial : bool; sb_index : nat }.

Definition sb_init (s : sb_state) : sb_state := mk_sb (sb_current s) true (sb_index s).

(** neighborhood-iterator.cc:32-38 *)
Definition sb_set_origin (s : sb_state) (x : bv) : outcome sb_state :=
  _ <- assertb (length x =? length (sb_current s)) ;;
  Ok (mk_sb x (sb_initial s) (sb_index s)).

(** neighborhood-iterator.cc:40-47 *)
Definition sb_has_next (s : sb_state) : bool :=
  if sb_initial s then 0 <? length (sb_current s)
  else sb_index s + 1 <? length (sb_current s).

(** neighborhood-iterator.cc:50-70 *)
Definition sb_next (s : sb_state) : outcome (bv * sb_state) :=
  _ <- assertb (sb_has_next s) ;;
  if sb_initial s then
    cur <- bv_flip (sb_current s) 0 ;;
    Ok (cur, mk_sb cur false 0)
  else
    cur1 <- bv_flip (sb_current s) (sb_index s) ;;
    let index := sb_index s + 1 in
    cur2 <- bv_flip cur1 index ;;
    Ok (cur2, mk_sb cur2 false index).

(** * Hamming sphere iterator *)

(** neighborhood-iterator.hh:96-120 *)
Record hs_state :=
  mk_hs { hs_current : bv; hs_initial : bool; hs_radius : nat; hs_indexes : list nat }.

(** neighborhood-iterator.cc:72-80: constructor; r and n are non negative here *)
Definition hs_make (n r : nat) : outcome hs_state :=
  _ <- assertb (r <=? n) ;;
  Ok (mk_hs (repeat false n) true r (repeat 0 r)).

Definition hs_init (s : hs_state) : hs_state :=
  mk_hs (hs_current s) true (hs_radius s) (hs_indexes s).

(** neighborhood-iterator.cc:32-38 *)
Definition hs_set_origin (s : hs_state) (x : bv) : outcome hs_state :=
  _ <- assertb (length x =? length (hs_current s)) ;;
  Ok (mk_hs x (hs_initial s) (hs_radius s) (hs_indexes s)).

(** Loop "for (; i >= 0; i--) if (_bit_indexes[i] < _bit_indexes[i + 1] - 1)"
    of neighborhood-iterator.cc:97-99 and 122-123, where [i] is one above the
    first index tried; returns the index found. *)
Fixpoint hs_scan (idx : list nat) (i : nat) : outcome (option nat) :=
  match i with
  | 0 => Ok None
  | S i' =>
      a <- vget idx i' ;;
      b <- vget idx (i' + 1) ;;
      if a <? b - 1 then Ok (Some i') else hs_scan idx i'
  end.

(** neighborhood-iterator.cc:91-101 and 116-127: the index that can be
    incremented, the last one being limited by the dimension *)
Definition hs_find (n r : nat) (idx : list nat) : outcome (option nat) :=
  a <- vget idx (r - 1) ;;
  if a <? n - 1 then Ok (Some (r - 1)) else hs_scan idx (r - 1).

(** neighborhood-iterator.cc:82-102 *)
Definition hs_has_next (s : hs_state) : outcome bool :=
  if hs_initial s then Ok ((0 <? length (hs_current s)) && (0 <? hs_radius s))
  else if hs_radius s <=? 0 then Ok false
  else
    o <- hs_find (length (hs_current s)) (hs_radius s) (hs_indexes s) ;;
    Ok (match o with Some _ => true | None => false end).

(** Increment index [i] and restart the following ones (std::iota),
    neighborhood-iterator.cc:119 and 124-125 *)
Definition hs_advance (idx : list nat) (i : nat) : outcome (list nat) :=
  a <- vget idx i ;;
  Ok (firstn i idx ++ (a + 1) :: seq (a + 2) (length idx - (i + 1))).

(** neighborhood-iterator.cc:104-135 *)
Definition hs_next (s : hs_state) : outcome (bv * hs_state) :=
  h <- hs_has_next s ;;
  _ <- assertb h ;;
  '(cur, idx) <-
    (if hs_initial s then Ok (hs_current s, seq 0 (length (hs_indexes s)))
     else
       cur <- bv_flip_sbv (hs_current s) (hs_indexes s) ;;
       o <- hs_find (length cur) (hs_radius s) (hs_indexes s) ;;
       match o with
       | Some i => idx <- hs_advance (hs_indexes s) i ;; Ok (cur, idx)
       | None => Ok (cur, hs_indexes s)
       end) ;;
  cur' <- bv_flip_sbv cur idx ;;
  Ok (cur', mk_hs cur' false (hs_radius s) idx).

(** States of a Hamming sphere iterator of dimension [n] and radius [r] that a
    client can reach through its interface. *)
Inductive hs_reachable (n r : nat) : hs_state -> Prop :=
| hs_reach_make s : hs_make n r = Ok s -> hs_reachable n r s
| hs_reach_origin s x s' : hs_reachable n r s -> hs_set_origin s x = Ok s' -> hs_reachable n r s'
| hs_reach_init s : hs_reachable n r s -> hs_reachable n r (hs_init s)
| hs_reach_next s x s' : hs_reachable n r s -> hs_next s = Ok (x, s') -> hs_reachable n r s'.
