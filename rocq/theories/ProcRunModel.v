(** ProcRunModel.v -- a running process: WaitForData, WaitForExit, Kill
    (vital/kwiversys/ProcessUNIX.c 1106-1325, 1412-1541, 1670-1826, 2026-2076), with
    select (KWSYSPE_USE_SELECT), not detached, from the end of Execute on.  The
    kernel and the children are part of the state; what they do between the calls
    and while select waits is a list of moves.  Simplifications: nothing is
    interrupted (EINTR), a read returns what the pipe holds, up to 1024 bytes;
    sigprocmask does not fail; the settings do not change meanwhile. *)
From Coq Require Import List Arith ZArith Bool Ascii.
Import ListNotations.
From Verif Require Import Base.
Open Scope nat_scope.

(** The reading end of an output pipe: PipeReadEnds[i] >= 0, membership in PipeSet,
    the bytes in the pipe, whether some process can still write to it; [ours]: the
    pipe was made by Execute (otherwise the output goes elsewhere).  [written]: all
    bytes ever written, not part of the program's state. *)
Record out := Out { ours : bool; is_open : bool; in_set : bool; bytes : str; writer : bool; written : str }.
(** The signal pipe: read end, membership in PipeSet, a byte inside (there is never
    more than one, C137), write end. *)
Record sigp := Sigp { g_open : bool; g_set : bool; g_byte : bool; g_writer : bool }.
(** How a child ended; what the child is doing ([Gone]: reaped here; [Stolen]:
    reaped by someone else); ForkPIDs[i] <> 0; CommandExitCodes[i]. *)
Inductive ending := Exit (v : Z) | Signal (n : Z) (core : bool).
Inductive kid := Running | Zombie (e : ending) | Gone (e : ending) | Stolen.
Record cmd := Cmd { child : kid; pid : bool; code : Z }.
Inductive pstate := Executing | Exited | Exception | Killed | Expired | Error.
(** [stray]: the number of times kill() was called for a process that is not a
    child any more. *)
Record sys := Sys { p_out : out; p_err : out; p_sig : sigp; left : Z; cmds : list cmd; cmds_left : Z;
  killed : bool; expired : bool; selerr : bool; st : pstate; value : Z; stray : nat }.
(** The status waitpid reports (Linux). *)
Definition status (e : ending) : Z := match e with Exit v => (v * 256)%Z | Signal n core => (n + if core then 128 else 0)%Z end.
(** After Execute (1047-1068), for [n] commands. *)
Definition fresh (o : bool) : out := Out o o false [] o [].
Definition executed (n : nat) (o e : bool) : sys :=
  Sys (fresh o) (fresh e) (Sigp true false false true) 3 (repeat (Cmd Running true 0%Z) n) (Z.of_nat n) false false false Executing 1%Z 0.

Definition with_pipes (s : sys) o e g l := Sys o e g l (cmds s) (cmds_left s) (killed s) (expired s) (selerr s) (st s) (value s) (stray s).
Definition with_cmds (s : sys) g cs n z := Sys (p_out s) (p_err s) g (left s) cs n (killed s) (expired s) (selerr s) z (value s) (stray s).
Definition with_flags (s : sys) k e r := Sys (p_out s) (p_err s) (p_sig s) (left s) (cmds s) (cmds_left s) k e r (st s) (value s) (stray s).
Definition with_state (s : sys) z v := Sys (p_out s) (p_err s) (p_sig s) (left s) (cmds s) (cmds_left s) (killed s) (expired s) (selerr s) z v (stray s).

(** What happens outside: children write, close and end; another child of the
    program ends, or someone else reaps one of these.  SIGCHLD reaches the handler
    (C137), which finds the write end or not. *)
Inductive move := Write (err : bool) (b : str) | Close (err : bool) | End (i : nat) (e : ending) | Steal (i : nat) | Poke.
Definition write_to (b : str) (o : out) : out := if writer o then Out (ours o) (is_open o) (in_set o) (if is_open o then bytes o ++ b else bytes o) (writer o) (written o ++ b) else o.
Definition close_writer (o : out) : out := Out (ours o) (is_open o) (in_set o) (bytes o) false (written o).
Definition on_sigchld (g : sigp) : sigp := Sigp (g_open g) (g_set g) (g_writer g) (g_writer g).
Fixpoint change_kid (i : nat) (k : kid) (l : list cmd) : option (list cmd) :=
  match l, i with
  | [], _ => None
  | c :: r, 0 => match child c with Running => Some (Cmd k (pid c) (code c) :: r) | _ => None end
  | c :: r, S i => match change_kid i k r with Some r => Some (c :: r) | None => None end
  end.
Definition moved (m : move) (s : sys) : sys :=
  match m with
  | Write false b => with_pipes s (write_to b (p_out s)) (p_err s) (p_sig s) (left s)
  | Write true b => with_pipes s (p_out s) (write_to b (p_err s)) (p_sig s) (left s)
  | Close false => with_pipes s (close_writer (p_out s)) (p_err s) (p_sig s) (left s)
  | Close true => with_pipes s (p_out s) (close_writer (p_err s)) (p_sig s) (left s)
  | End i e => match change_kid i (Zombie e) (cmds s) with Some l => with_cmds s (on_sigchld (p_sig s)) l (cmds_left s) (st s) | None => s end
  | Steal i => match change_kid i Stolen (cmds s) with Some l => with_cmds s (on_sigchld (p_sig s)) l (cmds_left s) (st s) | None => s end
  | Poke => with_pipes s (p_out s) (p_err s) (on_sigchld (p_sig s)) (left s)
  end.

(** 2026-2076: kwsysProcessDestroy: one loop over the commands. *)
Fixpoint reap (l : list cmd) (n : Z) (w : bool) (z : pstate) : list cmd * Z * bool * pstate :=
  match l with
  | [] => ([], n, w, z)
  | c :: r =>
      if pid c then
        match child c with
        | Running => let '(r, n, w, z) := reap r n w z in (c :: r, n, w, z)
        | Zombie e => let n := (n - 1)%Z in let w := if Z.eqb n 0 then false else w in
                      let '(r, n, w, z) := reap r n w z in (Cmd (Gone e) false (status e) :: r, n, w, z)
        | Gone _ | Stolen => let '(r, n, w, z) := reap r n w Error in (c :: r, n, w, z)
        end
      else let '(r, n, w, z) := reap r n w z in (c :: r, n, w, z)
  end.
Definition destroy (s : sys) : sys :=
  let '(l, n, w, z) := reap (cmds s) (cmds_left s) (g_writer (p_sig s)) (st s) in
  with_cmds s (Sigp (g_open (p_sig s)) (g_set (p_sig s)) (g_byte (p_sig s)) w) l n z.

(** 1412-1541 kwsysProcess_Kill and 1788-1826 kwsysProcessClosePipes: the pipes are
    closed, the children killed and reaped (waitpid's status is not kept), their
    ForkPIDs stay. *)
Definition shut (o : out) : out := Out (ours o) false false [] (writer o) (written o).
Definition opens (s : sys) : Z := ((if is_open (p_out s) then 1 else 0) + (if is_open (p_err s) then 1 else 0) + (if g_open (p_sig s) then 1 else 0))%Z.
Definition kill_kid (c : cmd) : cmd :=
  if pid c then Cmd (match child c with Running => Gone (Signal 9 false) | Zombie e => Gone e | k => k end) true (code c) else c.
Definition strays (l : list cmd) : nat := length (filter (fun c => pid c && match child c with Gone _ | Stolen => true | _ => false end) l).
Definition kill (s : sys) : sys :=
  match st s with
  | Executing => Sys (shut (p_out s)) (shut (p_err s)) (Sigp false false false false) (left s - opens s) (map kill_kid (cmds s)) 0 true (expired s) (selerr s) Executing (value s) (stray s + strays (cmds s))
  | _ => s
  end.

(** 1195-1257: reading the pipes reported ready; [None]: nothing to report. *)
Definition read_out (o : out) : out * option str * Z :=
  if is_open o && in_set o then
    match bytes o with
    | _ :: _ => (Out (ours o) true false (skipn 1024 (bytes o)) (writer o) (written o), Some (firstn 1024 (bytes o)), 0%Z)
    | [] => if writer o then (Out (ours o) true false [] true (written o), None, 0%Z)
            else (Out (ours o) false false [] false (written o), None, 1%Z)
    end
  else (o, None, 0%Z).
Definition scan_sig (s : sys) : sys :=
  let g := p_sig s in
  if g_open g && g_set g then
    if g_byte g then destroy (with_pipes s (p_out s) (p_err s) (Sigp true false false (g_writer g)) (left s))
    else if g_writer g then with_pipes s (p_out s) (p_err s) (Sigp true false false true) (left s)
    else with_pipes s (p_out s) (p_err s) (Sigp false false false false) (left s - 1)
  else s.
Definition scan (wanted : bool) (s : sys) : sys * option (bool * str) :=
  let '(o, b, k) := read_out (p_out s) in
  let s := with_pipes s o (p_err s) (p_sig s) (left s - k) in
  match b, wanted with
  | Some b, true => (s, Some (false, b))
  | _, _ =>
      let '(e, b, k) := read_out (p_err s) in
      let s := with_pipes s (p_out s) e (p_sig s) (left s - k) in
      match b, wanted with
      | Some b, true => (s, Some (true, b))
      | _, _ => (scan_sig s, None)
      end
  end.
(** What select does: [Ready o e g] says about which of the pipes with something to
    read (or at their end) it reports. *)
Inductive answer := Ready (o e g : bool) | TimedOut | Fails.
Record turn := Turn { late : bool; moves : list move; result : answer }.
Definition put_set (b : bool) (o : out) : out := Out (ours o) (is_open o) b (bytes o) (writer o) (written o).
Definition readable (o : out) : bool := is_open o && (match bytes o with [] => false | _ => true end || negb (writer o)).
Definition sig_readable (g : sigp) : bool := g_open g && (g_byte g || negb (g_writer g)).
Inductive round := Report (err : bool) (b : str) | Again | ExpiredNow | AllClosed.
(** 1186-1325: kwsysProcessWaitForPipe. *)
Definition wait_for_pipe (wanted : bool) (t : turn) (s : sys) : sys * round :=
  match scan wanted s with
  | (s, Some (err, b)) => (s, Report err b)
  | (s, None) =>
      let s := with_pipes s (put_set false (p_out s)) (put_set false (p_err s)) (Sigp (g_open (p_sig s)) false (g_byte (p_sig s)) (g_writer (p_sig s))) (left s) in
      if late t then (s, ExpiredNow)
      else if negb (is_open (p_out s) || is_open (p_err s) || g_open (p_sig s)) then (s, AllClosed)
      else
        let s := fold_left (fun s m => moved m s) (moves t) s in
        match result t with
        | Ready o e g => (with_pipes s (put_set (o && readable (p_out s)) (p_out s)) (put_set (e && readable (p_err s)) (p_err s))
                            (Sigp (g_open (p_sig s)) (g && sig_readable (p_sig s)) (g_byte (p_sig s)) (g_writer (p_sig s))) (left s), Again)
        | TimedOut => (s, ExpiredNow)
        | Fails => let s := kill s in (with_flags s false (expired s) true, Again)
        end
  end.
(** What WaitForData returns; [Waiting]: it has not returned after the turns
    given. *)
Inductive ret := Waiting | Data (err : bool) (b : str) | Timeout | NoPipe.
Fixpoint wait_loop (wanted user : bool) (ts : list turn) (s : sys) : sys * ret :=
  if Z.ltb 0 (left s) then
    match ts with
    | [] => (s, Waiting)
    | t :: ts => match wait_for_pipe wanted t s with
                 | (s, Again) => wait_loop wanted user ts s
                 | (s, Report e b) => (s, Data e b)
                 | (s, AllClosed) => (s, NoPipe)
                 | (s, ExpiredNow) => if user then (s, Timeout) else (with_flags (kill s) false true (selerr s), NoPipe)
                 end
    end
  else (s, NoPipe).
(** 1106-1182: kwsysProcess_WaitForData; [user]: the caller's timeout is the
    earlier one. *)
Definition wait_for_data (wanted user : bool) (ts : list turn) (s : sys) : sys * ret :=
  match st s with
  | Executing => if killed s || expired s then (s, NoPipe) else wait_loop wanted user ts s
  | _ => (s, NoPipe)
  end.
(** WIFEXITED, WEXITSTATUS, WIFSIGNALED. *)
Definition if_exited (z : Z) : bool := Z.eqb (Z.land z 127) 0.
Definition exit_status (z : Z) : Z := Z.land (Z.shiftr z 8) 255.
Definition if_signaled (z : Z) : bool := let t := Z.land z 127 in Z.ltb 0 t && Z.ltb t 127.
(** 1412-1484: kwsysProcess_WaitForExit: 1, 0, or [None] as long as it waits.
    (Without a place for data WaitForData never returns a pipe.)  Cleanup (1670)
    closes everything. *)
Definition cleanup (s : sys) : sys :=
  with_pipes s (shut (p_out s)) (shut (p_err s)) (Sigp false false false false) (left s).
Definition wait_for_exit (user : bool) (ts : list turn) (s : sys) : sys * option Z :=
  match st s with
  | Executing =>
      match wait_for_data false user ts s with
      | (s, Waiting) => (s, None)
      | (s, Timeout) => (s, Some 0%Z)
      | (s, _) =>
          (match st s with
           | Error => cleanup s
           | _ =>
               if selerr s then with_state (cleanup s) Error (value s)
               else
                 let z := code (last (cmds s) (Cmd Running false 0%Z)) in
                 cleanup (if killed s then with_state s Killed (value s)
                          else if expired s then with_state s Expired (value s)
                          else if if_exited z then with_state s Exited (exit_status z)
                          else if if_signaled z then with_state s Exception (value s)
                          else with_state s Error (value s))
           end, Some 1%Z)
      end
  | _ => (s, Some 1%Z)
  end.
(** The caller's side: moves outside, calls. *)
Inductive op := Outside (m : move) | WaitData (wanted user : bool) (ts : list turn) | WaitExit (user : bool) (ts : list turn) | Kill.
Inductive reply := Nothing | Got (r : ret) | Done (z : option Z).
Definition do_op (x : op) (s : sys) : sys * reply :=
  match x with
  | Outside m => (moved m s, Nothing)
  | WaitData wanted user ts => let '(s, r) := wait_for_data wanted user ts s in (s, Got r)
  | WaitExit user ts => let '(s, r) := wait_for_exit user ts s in (s, Done r)
  | Kill => (kill s, Nothing)
  end.
Fixpoint do_ops (xs : list op) (s : sys) : sys * list reply :=
  match xs with
  | [] => (s, [])
  | x :: xs => let '(s, r) := do_op x s in let '(s, rs) := do_ops xs s in (s, r :: rs)
  end.
