(** ProcTimeModel.v -- the times of a process and its timeouts
    (vital/kwiversys/ProcessUNIX.c 2128-2268, 969-971, 1135).  Simplifications: the
    numbers of seconds and microseconds do not overflow [long]; what gettimeofday
    returns is a parameter. *)
From Coq Require Import ZArith Bool.
From Flocq Require Import IEEE754.BinarySingleNaN.
From Verif Require Import GeoModel.
Open Scope Z_scope.

Record ptime := Time { sec : Z; usec : Z }.
(** 2241-2245: kwsysProcessTimeLess. *)
Definition time_less (a b : ptime) : bool := (sec a <? sec b) || ((sec a =? sec b) && (usec a <? usec b)).
(** 2248-2258: kwsysProcessTimeAdd. *)
Definition time_add (a b : ptime) : ptime :=
  let s := sec a + sec b in
  let u := usec a + usec b in
  if 1000000 <? u then Time (s + 1) (u - 1000000) else Time s u.
(** 2261-2271: kwsysProcessTimeSubtract. *)
Definition time_subtract (a b : ptime) : ptime :=
  let s := sec a - sec b in
  let u := usec a - usec b in
  if u <? 0 then Time (s - 1) (u + 1000000) else Time s u.
(** Conversion of a double to [long]: undefined for values that do not fit. *)
Definition to_long (x : dbl) : option Z :=
  if is_finite x then let t := Btrunc x in if (- 2 ^ 63 <=? t) && (t <? 2 ^ 63) then Some t else None else None.
(** 2232-2238: kwsysProcessTimeFromDouble. *)
Definition time_from_double (d : dbl) : option ptime :=
  match to_long d with
  | None => None
  | Some s => match to_long (Bmult mode_NE (Bminus mode_NE d (dint s)) (dint 1000000)) with Some u => Some (Time s u) | None => None end
  end.

(** The fields involved: Timeout, StartTime, TimeoutTime. *)
Record deadlines := Deadlines { d_timeout : dbl; d_start : ptime; d_deadline : ptime }.
(** 969-971: Execute. *)
Definition started (timeout : dbl) (now : ptime) : deadlines := Deadlines timeout now (Time (-1) (-1)).
(** 2132-2166: kwsysProcessGetTimeoutTime.  [None]: a conversion is undefined. *)
Definition get_timeout_time (c : deadlines) (user : option dbl) (now : ptime) : option (deadlines * ptime * bool) :=
  match (if dlt (dint 0) (d_timeout c) && (sec (d_deadline c) <? 0)
         then match time_from_double (d_timeout c) with Some l => Some (Deadlines (d_timeout c) (d_start c) (time_add (d_start c) l)) | None => None end
         else Some c) with
  | None => None
  | Some c =>
      let t := d_deadline c in
      match user with
      | None => Some (c, t, false)
      | Some u =>
          match time_from_double u with
          | None => None
          | Some l => let ut := time_add now l in
                      if (sec t <? 0) || time_less ut t then Some (c, ut, true) else Some (c, t, false)
          end
      end
  end.
(** 2171-2210: kwsysProcessGetTimeoutLeft.  The result: whether the time has
    arrived, and otherwise what is stored as the length, if anything. *)
Inductive left := Expired | NoTimeout | Remains (t : ptime).
Definition get_timeout_left (t : ptime) (user : option dbl) (zero_is_expired : bool) (now : ptime) : left :=
  if sec t <? 0 then NoTimeout
  else
    let l := time_subtract t now in
    let l := if (sec l <? 0) && match user with Some u => dle u (dint 0) | None => false end then Time 0 0 else l in
    if (sec l <? 0) || ((sec l =? 0) && (usec l =? 0) && zero_is_expired) then Expired else Remains l.
