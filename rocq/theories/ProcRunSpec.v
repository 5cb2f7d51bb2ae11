(** ProcRunSpec.v -- what a user of a running process relies on (C139). *)
From Coq Require Import List Arith ZArith Bool Ascii.
Import ListNotations.
From Verif Require Import Base ProcRunModel.
Open Scope nat_scope.

(** Standard output (false) or standard error (true). *)
Definition stream (err : bool) (s : sys) : out := if err then p_err s else p_out s.
(** The data WaitForData has returned for a stream, in order. *)
Fixpoint told (err : bool) (rs : list reply) : str :=
  match rs with
  | [] => []
  | Got (Data x b) :: rs => if Bool.eqb x err then b ++ told err rs else told err rs
  | _ :: rs => told err rs
  end.
(** Exit values are a byte, signals 1 to 126. *)
Definition possible (m : move) : Prop :=
  match m with
  | End _ (Exit v) => (0 <= v < 256)%Z
  | End _ (Signal n _) => (0 < n < 127)%Z
  | _ => True
  end.
Definition sound_turns (ts : list turn) : Prop := Forall (fun t => Forall possible (moves t)) ts.
Definition sound (x : op) : Prop :=
  match x with
  | Outside m => possible m
  | WaitData _ _ ts | WaitExit _ ts => sound_turns ts
  | Kill => True
  end.
(** The caller takes all data before it waits for the exit. *)
Definition asking (x : op) : Prop := match x with WaitData wanted _ _ => wanted = true | WaitExit _ _ => False | _ => True end.
(** Killed, timed out, or select failed. *)
Definition dead (s : sys) : bool := killed s || expired s || selerr s.
(** Waited for, and its status kept. *)
Definition reaped (c : cmd) : Prop := exists e, child c = Gone e /\ code c = status e.
(** Nothing will happen outside any more: all children have ended, nobody else
    reaps, all writing ends are closed. *)
Definition ended (c : cmd) : Prop := match child c with Zombie _ | Gone _ => True | _ => False end.
Definition quiet (s : sys) : Prop := Forall ended (cmds s) /\ forall err, writer (stream err s) = false.
(** select reports whatever is ready. *)
Definition calm : turn := Turn false [] (Ready true true true).
Definition calm_turns : list turn := repeat calm 3.
