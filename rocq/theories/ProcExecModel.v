(** ProcExecModel.v -- starting a process: kwsysProcess_Execute and what it calls
    (vital/kwiversys/ProcessUNIX.c 737-1069, 1606-1690, 1695-1757, 1762-1772,
    1834-2020, 2081-2130, 2777-2830, 2895-2935): which descriptors are opened and
    closed, which children are started, killed and waited for, whatever system call
    fails.  Not detached.  Simplifications: a call is not interrupted; the answers of
    the system are a list; new descriptors are above 2 (0, 1 and 2 are open); memory
    for the table of processes is asked for every time; the working directory is
    only a pair of calls that may fail; contents of messages are left out. *)
From Coq Require Import List ZArith Bool.
Import ListNotations.
From Verif Require Import Base.
Open Scope Z_scope.

(** The answer to a system call: it succeeds, with two new descriptors if it makes
    some, or it fails. *)
Inductive answer := Ok (a b : Z) | Fail.
(** The descriptors open in this process; the answers to come; not part of the
    program: closes of descriptors that are not open, descriptors of the caller that
    were handed over, descriptors nobody knows any more, the pipes made (reading and
    writing end), how many children were started. *)
Record os := Os { fds : list Z; answers : list answer; bad : nat; given : list Z; leaked : list Z; made : list (Z * Z); forks : nat }.
(** PipeReadEnds, PipeChildStd, SignalPipe. *)
Record cp := Cp { r_out : Z; r_err : Z; r_sig : Z; c_in : Z; c_out : Z; c_err : Z; sg : Z }.
(** Where a pipe goes: a file, the parent's descriptor, the caller's pipe, or the
    object (for stdin: nowhere). *)
Inductive target := ToFile | ToParent | ToNative (p0 p1 : Z) | ToObject.
Record config := Config { t_in : target; t_out : target; t_err : target; workdir : bool; merge : bool; commands : nat }.

Definition mem (x : Z) (l : list Z) : bool := existsb (Z.eqb x) l.
Fixpoint remove1 (x : Z) (l : list Z) : list Z := match l with [] => [] | y :: r => if Z.eqb x y then r else y :: remove1 x r end.
Definition tail_answers (s : os) : os := Os (fds s) (tl (answers s)) (bad s) (given s) (leaked s) (made s) (forks s).
(** A call that makes no descriptor; the first of [n] that fails ends it. *)
Definition call (s : os) : os * bool := (tail_answers s, match answers s with Ok _ _ :: _ => true | _ => false end).
Fixpoint calls (n : nat) (s : os) : os * bool :=
  match n with O => (s, true) | S n => match call s with (s, true) => calls n s | (s, false) => (s, false) end end.
(** pipe(2) and open(2). *)
Definition pipe (s : os) : os * option (Z * Z) :=
  match answers s with
  | Ok a b :: _ => if (2 <? a) && (2 <? b) && negb (a =? b) && negb (mem a (fds s)) && negb (mem b (fds s))
                   then (Os (a :: b :: fds s) (tl (answers s)) (bad s) (given s) (leaked s) ((a, b) :: made s) (forks s), Some (a, b)) else (tail_answers s, None)
  | _ => (tail_answers s, None)
  end.
Definition open_file (s : os) : os * option Z :=
  match answers s with
  | Ok a _ :: _ => if (2 <? a) && negb (mem a (fds s)) then (Os (a :: fds s) (tl (answers s)) (bad s) (given s) (leaked s) (made s) (forks s), Some a) else (tail_answers s, None)
  | _ => (tail_answers s, None)
  end.
(** 1762-1772: kwsysProcessCleanupDescriptor: the variable is -1 afterwards if it was
    above 2. *)
Definition close (v : Z) (s : os) : os :=
  if 2 <? v then if mem v (fds s) then Os (remove1 v (fds s)) (answers s) (bad s) (given s) (leaked s) (made s) (forks s) else Os (fds s) (answers s) (S (bad s)) (given s) (leaked s) (made s) (forks s) else s.
Definition after_close (v : Z) : Z := if 2 <? v then -1 else v.
Definition hand_over (v : Z) (s : os) : os := Os (fds s) (answers s) (bad s) (v :: given s) (leaked s) (made s) (forks s).
Definition forget (v : Z) (s : os) : os := Os (fds s) (answers s) (bad s) (given s) (v :: leaked s) (made s) (forks s).

(** 2777-2830: kwsysProcessesAdd. *)
Definition processes_add (s : os) (c : cp) : os * cp * bool :=
  match pipe s with
  | (s, None) => (s, c, false)
  | (s, Some (a, b)) => let '(s, ok) := calls 7 s in (s, Cp (r_out c) (r_err c) a (c_in c) (c_out c) (c_err c) b, ok)
  end.
(** 804-845: the standard input of the first command. *)
Definition set_in (c : cp) v := Cp (r_out c) (r_err c) (r_sig c) v (c_out c) (c_err c) (sg c).
Definition setup_in (t : target) (s : os) (c : cp) : os * cp * bool :=
  match t with
  | ToFile => match open_file s with (s, None) => (s, set_in c (-1), false) | (s, Some a) => let '(s, ok) := call s in (s, set_in c a, ok) end
  | ToParent => (s, set_in c 0, true)
  | ToNative p0 _ => let '(s, ok) := calls 2 (hand_over p0 s) in (s, set_in c p0, ok)
  | ToObject => (s, set_in c (-1), true)
  end.
(** 847-969 (two copies of the same text), 2081-2130: an output pipe: first always a
    pipe, then what replaces its writing end.  The result: read end, child's end. *)
Definition setup_out (parent : Z) (t : target) (s : os) : os * Z * Z * bool :=
  match pipe s with
  | (s, None) => (s, -1, -1, false)
  | (s, Some (a, b)) =>
      match calls 4 s with
      | (s, false) => (s, a, b, false)
      | (s, true) =>
          match t with
          | ToObject => (s, a, b, true)
          | ToParent => (close b s, a, parent, true)
          | ToFile =>
              let s := close b s in let b := after_close b in
              match open_file s with
              | (s, None) => (s, a, b, false)
              | (s, Some f) => match call s with (s, true) => (s, a, f, true) | (s, false) => (forget f s, a, b, false) end
              end
          | ToNative _ p1 =>
              let s := close b s in let b := after_close b in
              match calls 2 s with (s, true) => (hand_over p1 s, a, p1, true) | (s, false) => (s, a, b, false) end
          end
      end
  end.
Definition setup_stdout (t : target) (s : os) (c : cp) : os * cp * bool :=
  let '(s, a, b, ok) := setup_out 1 t s in (s, Cp a (r_err c) (r_sig c) (c_in c) b (c_err c) (sg c), ok).
Definition setup_stderr (t : target) (s : os) (c : cp) : os * cp * bool :=
  let '(s, a, b, ok) := setup_out 2 t s in (s, Cp (r_out c) a (r_sig c) (c_in c) (c_out c) b (sg c), ok).

(** ForkPIDs[i]: 0, a child with its standard descriptors (1900-1932), -1. *)
Inductive kid := NoChild | Child (i o e : Z) | MinusOne.
(** fork(2). *)
Definition fork (s : os) : os * bool :=
  match call s with (s, true) => (Os (fds s) (answers s) (bad s) (given s) (leaked s) (made s) (S (forks s)), true) | (s, false) => (s, false) end.
(** 1834-2020: kwsysProcessCreate, the parent's side. *)
Definition create (i o e : Z) (s : os) : os * kid * bool :=
  match pipe s with
  | (s, None) => (s, NoChild, false)
  | (s, Some (e0, e1)) =>
      match pipe s with
      | (s, None) => (close e1 (close e0 s), NoChild, false)
      | (s, Some (g0, g1)) =>
          match calls 3 s with
          | (s, false) => (close g1 (close g0 (close e1 (close e0 s))), NoChild, false)
          | (s, true) =>
              match fork s with
              | (s, false) => (close g1 (close g0 (close e1 (close e0 s))), MinusOne, false)
              | (s, true) =>
                  match call (close g1 (close e1 s)) with
                  | (s, false) => (close g0 (close e0 s), Child i o e, false)
                  | (s, true) =>
                      match call (close g0 s) with
                      | (s, false) => (close e0 s, Child i o e, false)
                      | (s, true) => let '(s, ok) := call s in (close e0 s, Child i o e, ok)
                      end
                  end
              end
          end
      end
  end.
Definition close_unless (v w : Z) (s : os) : os := if v =? w then s else close v s.
(** 976-1045: the commands, [k] of them left. *)
Fixpoint commands_loop (k : nat) (next : Z) (m : bool) (c : cp) (s : os) : os * list kid * bool :=
  match k with
  | O => (s, [], true)
  | S k' =>
      let std_in := next in
      match (match k' with
             | O => (s, Some (-1, c_out c))
             | S _ =>
                 match pipe s with
                 | (s, None) => (close_unless next (c_in c) s, None)
                 | (s, Some (a, b)) =>
                     match calls 2 s with
                     | (s, false) => (close_unless next (c_in c) (close b (close a s)), None)
                     | (s, true) => (s, Some (a, b))
                     end
                 end
             end) with
      | (s, None) => (s, [], false)
      | (s, Some (next, std_out)) =>
          let std_err := if m then c_out c else c_err c in
          let '(s, kd, res) := create std_in std_out std_err s in
          let s := close_unless std_in (c_in c) s in
          let s := close_unless std_out (c_out c) s in
          let s := if m then s else close_unless std_err (c_err c) s in
          if res then let '(s, ks, ok) := commands_loop k' next m c s in (s, kd :: ks, ok)
          else (close_unless next (c_in c) s, [kd], false)
      end
  end.
(** 1695-1757: kwsysProcessCleanup.  [signalled]: what kill(2) and waitpid(2) are
    called for: a child, or everybody (-1). *)
Definition cleanup_fds (s : os) (c : cp) : os :=
  close (c_err c) (close (c_out c) (close (c_in c) (close (r_sig c) (close (r_err c) (close (r_out c) (close (sg c) s)))))).
Inductive signalled := OneChild | Everybody.
Definition killing (ks : list kid) : list signalled := flat_map (fun k => match k with NoChild => [] | Child _ _ _ => [OneChild] | MinusOne => [Everybody] end) ks.
(** The result: state Executing; or Error, with what was killed and waited for; or
    Error without memory or commands. *)
Inductive result := Running (ks : list kid) | Failed (ks : list kid) (done : list signalled) | NotStarted.
(** 737-1069: kwsysProcess_Execute. *)
Definition execute (g : config) (s : os) : os * cp * result :=
  let c := Cp (-1) (-1) (-1) (-1) (-1) (-1) (-1) in
  match commands g with
  | O => (s, c, NotStarted)
  | _ =>
      match calls (if workdir g then 3 else 2) s with
      | (s, false) => (s, c, NotStarted)
      | (s, true) =>
          let fails s c := (cleanup_fds s c, c, Failed [] []) in
          match calls (if workdir g then 2 else 0) s with
          | (s, false) => fails s c
          | (s, true) =>
              match processes_add s c with
              | (s, c, false) => fails s c
              | (s, c, true) =>
                  match setup_in (t_in g) s c with
                  | (s, c, false) => fails s c
                  | (s, c, true) =>
                      match setup_stdout (t_out g) s c with
                      | (s, c, false) => fails s c
                      | (s, c, true) =>
                          match setup_stderr (t_err g) s c with
                          | (s, c, false) => fails s c
                          | (s, c, true) =>
                              match commands_loop (commands g) (c_in c) (merge g) c s with
                              | (s, ks, false) => (cleanup_fds s c, c, Failed ks (killing ks))
                              | (s, ks, true) => (close (c_err c) (close (c_out c) (close (c_in c) s)),
                                  Cp (r_out c) (r_err c) (r_sig c) (after_close (c_in c)) (after_close (c_out c)) (after_close (c_err c)) (sg c), Running ks)
                              end
                          end
                      end
                  end
              end
          end
      end
  end.
