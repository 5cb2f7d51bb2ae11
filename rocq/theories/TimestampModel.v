(** TimestampModel.v -- vital/types/timestamp.h, timestamp.cxx, timestamp_config.h.
    Not modelled: pretty_print, the conversions from and to seconds. *)
From Coq Require Import ZArith Bool List.
From Verif Require Import Base Numbers Stream.
Import ListNotations.
Local Open Scope Z_scope.

(** timestamp.h 64-260 *)
Record timestamp := mkTs { ts_valid_time : bool; ts_valid_frame : bool; ts_time : Z; ts_frame : Z; ts_domain : Z }.
(** timestamp.cxx 41-56 *)
Definition ts_default : timestamp := mkTs false false 0 0 0.
Definition ts_new (t f : Z) : timestamp := mkTs true true t f 0.
(** timestamp.cxx 60-108: the setters *)
Definition set_time_usec (x : timestamp) (t : Z) : timestamp := mkTs true (ts_valid_frame x) t (ts_frame x) (ts_domain x).
Definition set_frame (x : timestamp) (f : Z) : timestamp := mkTs (ts_valid_time x) true (ts_time x) f (ts_domain x).
Definition set_invalid (x : timestamp) : timestamp := mkTs false false (ts_time x) (ts_frame x) (ts_domain x).
Definition set_domain (x : timestamp) (d : Z) : timestamp := mkTs (ts_valid_time x) (ts_valid_frame x) (ts_time x) (ts_frame x) d.
Definition is_valid (x : timestamp) : bool := ts_valid_time x && ts_valid_frame x.
(** timestamp.cxx 120-143 operator< *)
Definition ts_lt (a b : timestamp) : bool :=
  if negb (ts_domain a =? ts_domain b) then false
  else if ts_valid_time a && ts_valid_time b then ts_time a <? ts_time b
  else if ts_valid_frame a && ts_valid_frame b then ts_frame a <? ts_frame b
  else false.
(** timestamp.cxx 147-168 operator> *)
Definition ts_gt (a b : timestamp) : bool :=
  if negb (ts_domain a =? ts_domain b) then false
  else if ts_valid_time a && ts_valid_time b then ts_time a >? ts_time b
  else if ts_valid_frame a && ts_valid_frame b then ts_frame a >? ts_frame b
  else false.
(** timestamp.cxx 172-192 operator== *)
Definition ts_eq (a b : timestamp) : bool :=
  if negb (ts_domain a =? ts_domain b) then false
  else if ts_valid_time a && ts_valid_time b then ts_time a =? ts_time b
  else if ts_valid_frame a && ts_valid_frame b then ts_frame a =? ts_frame b
  else false.
(** timestamp.cxx 196-216 operator!= *)
Definition ts_ne (a b : timestamp) : bool :=
  if negb (ts_domain a =? ts_domain b) then false
  else if ts_valid_time a && ts_valid_time b then negb (ts_time a =? ts_time b)
  else if ts_valid_frame a && ts_valid_frame b then negb (ts_frame a =? ts_frame b)
  else false.

(** Programs: constructors and setters. *)
Inductive tsop := TsTime (t : Z) | TsFrame (f : Z) | TsInvalid | TsDomain (d : Z).
Definition ts_step (x : timestamp) (o : tsop) : timestamp :=
  match o with TsTime t => set_time_usec x t | TsFrame f => set_frame x f | TsInvalid => set_invalid x | TsDomain d => set_domain x d end.

(** timestamp_config.h 88-96: the text of a timestamp in a config block *)
Definition ts_to_text (x : timestamp) : str := dec (ts_time x) ++ L " " ++ dec (ts_frame x).
(** timestamp_config.h 57-73: None when the value read is one of the two
    uninitialised local variables (undefined behaviour). *)
Definition ts_of_text (value : str) : option timestamp :=
  let '(t, s1) := extract_i64 (open_str value) in
  let '(f, _) := extract_i64 s1 in
  match t, f with
  | Some t, Some f => Some (set_frame (set_time_usec ts_default t) f)
  | _, _ => None
  end.
