(** ProcTimeSpec.v -- times as numbers of microseconds. *)
From Coq Require Import ZArith Reals.
From Verif Require Import ProcTimeModel.
Open Scope Z_scope.
Definition micro (t : ptime) : Z := sec t * 1000000 + usec t.
(** As gettimeofday gives it, and as struct timeval requires. *)
Definition normal (t : ptime) : Prop := 0 <= usec t < 1000000.
(** What the additions give. *)
Definition nearly (t : ptime) : Prop := 0 <= usec t <= 1000000.
(** [t] is the duration of [d] seconds, in whole microseconds (rounded down, up to
    the rounding of the multiplication). *)
Definition lasts (t : ptime) (d : R) : Prop := (d * 1000000 - 1 - 1 / 2 ^ 34 < IZR (micro t) <= d * 1000000 + 1 / 2 ^ 34)%R.
