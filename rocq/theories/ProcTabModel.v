(** ProcTabModel.v -- the table of running processes and the signal handlers
    (vital/kwiversys/ProcessUNIX.c 2741-2975).  A process object is a number.
    Simplifications: Count and Size are unbounded; sigaction does not fail;
    signals arrive between the functions or (during a removal) between two writes
    to the array; delivery of SIGINT/SIGTERM, which ends the program, is not
    modelled. *)
From Coq Require Import List Arith ZArith.
Import ListNotations.
From Verif Require Import Base.
Open Scope nat_scope.

Inductive action := Default | User (n : nat) | Ours.
(** 2741-2754.  [arr = None]: the null pointer; a slot holding [None] has not been
    written.  [pend cp]: the bytes in the signal pipe of cp.  The saved actions are
    static objects, so zero, which is SIG_DFL, at first. *)
Record tab := Tab { count : nat; size : nat; arr : option (list (option nat));
  act_chld : action; act_int : action; act_term : action;
  old_chld : action; old_int : action; old_term : action; pend : nat -> nat }.
Definition tab0 (c i t : action) : tab := Tab 0 0 None c i t Default Default Default (fun _ => 0).
Definition set_pend (p : nat -> nat) (cp n : nat) : nat -> nat := fun q => if Nat.eqb q cp then n else p q.
Definition cells (a : option (list (option nat))) : list (option nat) := match a with Some l => l | None => [] end.

(** Reading and writing Processes[i]; [None]: outside the block, or not yet
    written. *)
Definition slot (a : option (list (option nat))) (i : nat) : option nat :=
  match nth_error (cells a) i with Some (Some cp) => Some cp | _ => None end.
Definition put_slot (a : option (list (option nat))) (i : nat) (v : nat) : option (option (list (option nat))) :=
  if Nat.ltb i (length (cells a)) then Some (Some (lupd (cells a) i (Some v))) else None.

(** 2777-2892: kwsysProcessesAdd.  [pipes]: the pipe is created and its flags are
    set (the pipe is new, hence empty); [alloc]: malloc succeeds. *)
Definition tab_add (cp : nat) (pipes alloc : bool) (t : tab) : option (tab * Z) :=
  let t := Tab (count t) (size t) (arr t) (act_chld t) (act_int t) (act_term t) (old_chld t) (old_int t) (old_term t) (set_pend (pend t) cp 0) in
  if negb pipes then Some (t, 0%Z)
  else
    let grow := Nat.eqb (count t) (size t) in
    if grow && negb alloc then Some (t, 0%Z)
    else
      let size' := if grow then (if Nat.eqb (size t) 0 then 4 else size t * 2) else size t in
      if grow && negb (Nat.leb (count t) (length (cells (arr t))) && Nat.leb (count t) size') then None
      else
        let a := if grow then Some (firstn (count t) (cells (arr t)) ++ repeat None (size' - count t)) else arr t in
        match put_slot a (count t) cp with
        | None => None
        | Some a =>
            let n := S (count t) in
            if Nat.eqb n 1 then
              (** the third sigaction stores into OldSigIntAction again (2884) *)
              let old_int1 := act_int t in
              let old_int2 := act_term t in
              Some (Tab n size' a Ours Ours Ours (act_chld t) old_int2 (old_term t) (pend t), 1%Z)
            else Some (Tab n size' a (act_chld t) (act_int t) (act_term t) (old_chld t) (old_int t) (old_term t) (pend t), 1%Z)
        end.

(** 2956-2975: the handler on SIGCHLD, over the table with [n] slots left to visit
    from slot [i]: one byte is read if there is one, then one is written. *)
Fixpoint notify (n i : nat) (a : option (list (option nat))) (p : nat -> nat) : option (nat -> nat) :=
  match n with
  | 0 => Some p
  | S n => match slot a i with
           | None => None
           | Some cp => notify n (S i) a (set_pend p cp (p cp - 1 + 1))
           end
  end.
Definition on_child (n : nat) (a : option (list (option nat))) (t : tab) : option (nat -> nat) :=
  match act_chld t with Ours => notify n 0 a (pend t) | _ => Some (pend t) end.

(** 2895-2945: kwsysProcessesRemove: the search, the shift of [n] slots from slot
    [i] on, and the rest.  The array is changed in place, and the signal handler
    sees it with the old count: [sig = Some j] says that SIGCHLD arrives after [j]
    writes (or at the end of the loop if there are fewer). *)
Fixpoint find_slot (n i : nat) (a : option (list (option nat))) (cp : nat) : option (option nat) :=
  match n with
  | 0 => Some None
  | S n => match slot a i with
           | None => None
           | Some q => if Nat.eqb q cp then Some (Some i) else find_slot n (S i) a cp
           end
  end.
Fixpoint shift (n i : nat) (a : option (list (option nat))) : option (option (list (option nat))) :=
  match n with
  | 0 => Some a
  | S n => match slot a (S i) with
           | None => None
           | Some q => match put_slot a i q with Some a => shift n (S i) a | None => None end
           end
  end.
Definition tab_remove (cp : nat) (sig : option nat) (t : tab) : option tab :=
  match find_slot (count t) 0 (arr t) cp with
  | None => None
  | Some None => match sig with
                 | None => Some t
                 | Some _ => match on_child (count t) (arr t) t with
                             | Some p => Some (Tab (count t) (size t) (arr t) (act_chld t) (act_int t) (act_term t) (old_chld t) (old_int t) (old_term t) p)
                             | None => None
                             end
                 end
  | Some (Some i) =>
      let n := count t - 1 in
      let seen := match sig with
                  | None => Some (pend t)
                  | Some j => match shift (Nat.min j (n - i)) i (arr t) with Some a => on_child (count t) a t | None => None end
                  end in
      match seen, shift (n - i) i (arr t) with
      | Some p, Some a =>
          if Nat.eqb n 0 then Some (Tab 0 0 None (old_chld t) (old_int t) (old_term t) (old_chld t) (old_int t) (old_term t) p)
          else Some (Tab n (size t) a (act_chld t) (act_int t) (act_term t) (old_chld t) (old_int t) (old_term t) p)
      | _, _ => None
      end
  end.

(** What happens to the table.  [EDrain]: WaitForData reads the signal pipe (up to
    1024 bytes at once, 1215-1224). *)
Inductive tev := EAdd (cp : nat) (pipes alloc : bool) | ERemove (cp : nat) (sig : option nat) | EChild | EDrain (cp : nat).
Definition tab_step (e : tev) (t : tab) : option (tab * Z) :=
  let with_pend p := Tab (count t) (size t) (arr t) (act_chld t) (act_int t) (act_term t) (old_chld t) (old_int t) (old_term t) p in
  match e with
  | EAdd cp pipes alloc => tab_add cp pipes alloc t
  | ERemove cp sig => match tab_remove cp sig t with Some t => Some (t, 0%Z) | None => None end
  | EChild => match on_child (count t) (arr t) t with Some p => Some (with_pend p, 0%Z) | None => None end
  | EDrain cp => Some (with_pend (set_pend (pend t) cp (pend t cp - 1024)), 0%Z)
  end.
Fixpoint tab_run (es : list tev) (t : tab) : option (tab * list Z) :=
  match es with
  | [] => Some (t, [])
  | e :: r => match tab_step e t with
              | Some (t, v) => match tab_run r t with Some (t, vs) => Some (t, v :: vs) | None => None end
              | None => None
              end
  end.
