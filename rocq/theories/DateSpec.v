(** DateSpec.v -- the forms of __DATE__ and __TIMESTAMP__. *)
From Coq Require Import ZArith.
From Verif Require Import Base.

Definition months : list str := [L "Jan"; L "Feb"; L "Mar"; L "Apr"; L "May"; L "Jun"; L "Jul"; L "Aug"; L "Sep"; L "Oct"; L "Nov"; L "Dec"].
Definition ten : list ascii := ["0"; "1"; "2"; "3"; "4"; "5"; "6"; "7"; "8"; "9"]%char.
(** A digit and its value. *)
Definition dig (n : nat) (c : ascii) : Prop := nth_error ten n = Some c.
(** Two digits, or a blank and a digit; four digits. *)
Definition two (n : nat) (s : str) : Prop := exists a b x y, s = [x; y] /\ dig b y /\ n = 10 * a + b /\ (dig a x \/ a = 0 /\ x = " "%char).
Definition four (n : nat) (s : str) : Prop := exists a b c d x y z w, s = [x; y; z; w] /\ dig a x /\ dig b y /\ dig c z /\ dig d w /\ n = 1000 * a + 100 * b + 10 * c + d.
(** p occurs in h at place k, for the first time. *)
Definition first_at (h p : str) (k : nat) : Prop := (exists a b, h = a ++ p ++ b /\ length a = k) /\ forall a b, h = a ++ p ++ b -> k <= length a.
Definition occurs (h p : str) : Prop := exists a b, h = a ++ p ++ b.
