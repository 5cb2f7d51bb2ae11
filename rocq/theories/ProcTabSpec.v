(** ProcTabSpec.v -- which processes are registered, which have been told that a
    child ended, and how often the table has become empty, from the calls and what
    they returned. *)
From Coq Require Import List Arith ZArith Bool.
Import ListNotations.
From Verif Require Import ProcTabModel.

Fixpoint remove_first (x : nat) (l : list nat) : list nat :=
  match l with [] => [] | y :: r => if Nat.eqb y x then r else y :: remove_first x r end.
Definition reg_step (l : list nat) (ev : tev * Z) : list nat :=
  match ev with
  | (EAdd cp _ _, 1%Z) => l ++ [cp]
  | (ERemove cp _, _) => remove_first cp l
  | _ => l
  end.
Definition registered (tr : list (tev * Z)) : list nat := fold_left reg_step tr [].
(** The events with what was registered before each. *)
Fixpoint with_reg (l : list nat) (tr : list (tev * Z)) : list (list nat * (tev * Z)) :=
  match tr with [] => [] | ev :: r => (l, ev) :: with_reg (reg_step l ev) r end.
Definition nonempty (l : list nat) : bool := match l with [] => false | _ => true end.
(** How often the last process was removed. *)
Definition cycles (tr : list (tev * Z)) : nat :=
  length (filter (fun x => nonempty (fst x) && negb (nonempty (reg_step (fst x) (snd x)))) (with_reg [] tr)).
(** The last event that settles whether process [q] has been told: a child that
    ended while it was registered, or a new pipe, or reading the pipe.  [told]: it
    has certainly been told; [maybe]: it may have been -- the signal came while
    the process was being removed. *)
Definition mem (q : nat) (l : list nat) : bool := existsb (Nat.eqb q) l.
Definition told_step (q : nat) (b : bool) (x : list nat * (tev * Z)) : bool :=
  match fst (snd x) with
  | EAdd cp _ _ => if Nat.eqb q cp then false else b
  | EDrain cp => if Nat.eqb q cp then false else b
  | EChild => if mem q (fst x) then true else b
  | ERemove cp (Some _) => if mem q (remove_first cp (fst x)) then true else b
  | ERemove cp None => b
  end.
Definition maybe_step (q : nat) (b : bool) (x : list nat * (tev * Z)) : bool :=
  match fst (snd x) with
  | EAdd cp _ _ => if Nat.eqb q cp then false else b
  | EDrain cp => if Nat.eqb q cp then false else b
  | EChild | ERemove _ (Some _) => if mem q (fst x) then true else b
  | ERemove _ None => b
  end.
Definition told (q : nat) (tr : list (tev * Z)) : bool := fold_left (told_step q) (with_reg [] tr) false.
Definition maybe (q : nat) (tr : list (tev * Z)) : bool := fold_left (maybe_step q) (with_reg [] tr) false.
