(** ProcModel.v -- the settings of a process object
    (vital/kwiversys/ProcessUNIX.c 313-705): commands, timeout, working directory,
    the three pipes and the options, and how Execute chooses what a pipe is
    connected to (808-868, 881-937, 941-997).  Simplifications: malloc and strdup
    do not fail; the strings given are C strings (no NUL byte); the doubles are
    those of GeoModel.v.  In the functions [None] for a process is the null
    pointer. *)
From Coq Require Import ZArith.
From Verif Require Import Base GeoModel CmdModel.
Open Scope nat_scope.

(** One pipe: PipeFileX, PipeSharedX, PipeNativeX (282-295). *)
Record pipe := Pipe { p_file : option str; p_shared : Z; p_native : Z * Z }.
Record proc := Proc {
  commands : list (list str); timeout : dbl; workdir : option str;
  pin : pipe; pout : pipe; perr : pipe;
  o_detach : Z; o_merge : Z; o_verbatim : Z; o_group : Z }.
(** Process.h.in 348-354, 217-224. *)
Definition STDIN : Z := 1.  Definition STDOUT : Z := 2.  Definition STDERR : Z := 3.
Definition opt_detach : Z := 1.  Definition opt_merge : Z := 2.  Definition opt_verbatim : Z := 3.  Definition opt_group : Z := 4.

(** 313-338: kwsysProcess_New. *)
Definition no_native : Z * Z := (-1, -1)%Z.
Definition proc_new : proc :=
  Proc [] (dint 0) None (Pipe None 1 no_native) (Pipe None 0 no_native) (Pipe None 0 no_native) 0 0 0 0.

Definition with_commands (p : proc) c := Proc c (timeout p) (workdir p) (pin p) (pout p) (perr p) (o_detach p) (o_merge p) (o_verbatim p) (o_group p).
Definition with_pipe (p : proc) (k : Z) (q : pipe) : proc :=
  if Z.eqb k STDIN then Proc (commands p) (timeout p) (workdir p) q (pout p) (perr p) (o_detach p) (o_merge p) (o_verbatim p) (o_group p)
  else if Z.eqb k STDOUT then Proc (commands p) (timeout p) (workdir p) (pin p) q (perr p) (o_detach p) (o_merge p) (o_verbatim p) (o_group p)
  else if Z.eqb k STDERR then Proc (commands p) (timeout p) (workdir p) (pin p) (pout p) q (o_detach p) (o_merge p) (o_verbatim p) (o_group p)
  else p.
(** The [switch(prPipe)] of the setters; [None] is the default case. *)
Definition get_pipe (p : proc) (k : Z) : option pipe :=
  if Z.eqb k STDIN then Some (pin p) else if Z.eqb k STDOUT then Some (pout p) else if Z.eqb k STDERR then Some (perr p) else None.

(** 406-494: kwsysProcess_AddCommand; the array without its final NULL.  [None]:
    the parser of verbatim commands ran into undefined behaviour. *)
Definition add_command (cp : option proc) (command : option (list str)) : option (option proc * Z) :=
  match cp, command with
  | Some p, Some (c0 :: rest) =>
      if Z.eqb (o_verbatim p) 0 then Some (Some (with_commands p (commands p ++ [c0 :: rest])), 1%Z)
      else match parse_command (fun _ => true) c0 0 with
           | CUndef => None
           | CNull _ => Some (cp, 0%Z)
           | CArray _ [] _ => Some (cp, 0%Z)
           | CArray _ args _ => Some (Some (with_commands p (commands p ++ [map (fun a => removelast (snd a)) args])), 1%Z)
           end
  | _, _ => Some (cp, 0%Z)
  end.
(** 376-403: kwsysProcess_SetCommand. *)
Definition set_command (cp : option proc) (command : option (list str)) : option (option proc * Z) :=
  match cp with
  | None => Some (None, 0%Z)
  | Some p =>
      let p := with_commands p [] in
      match command with
      | Some _ => add_command (Some p) command
      | None => Some (Some p, 1%Z)
      end
  end.
(** 497-508: kwsysProcess_SetTimeout. *)
Definition set_timeout (cp : option proc) (t : dbl) : option proc :=
  match cp with
  | None => None
  | Some p => Some (Proc (commands p) (if dlt t (dint 0) then dint 0 else t) (workdir p) (pin p) (pout p) (perr p) (o_detach p) (o_merge p) (o_verbatim p) (o_group p))
  end.
(** 511-540: kwsysProcess_SetWorkingDirectory; [same] says that the pointer given
    is the stored one. *)
Definition set_dir (p : proc) d := Proc (commands p) (timeout p) d (pin p) (pout p) (perr p) (o_detach p) (o_merge p) (o_verbatim p) (o_group p).
Definition set_working_directory (cp : option proc) (dir : option str) : option proc * Z :=
  match cp with
  | None => (None, 0%Z)
  | Some p =>
      match workdir p, dir with
      | None, None => (cp, 1%Z)
      | Some w, Some d => if str_eqb w d then (cp, 1%Z) else (Some (set_dir p (Some d)), 1%Z)
      | _, _ => (Some (set_dir p dir), 1%Z)
      end
  end.

(** 543-644: the three setters of a pipe call each other; [fuel] bounds the depth
    of the calls ([None] when it is not enough). *)
Inductive psetter := SFile (f : option str) | SShared (s : Z) | SNative (n : option (Z * Z)).
Fixpoint pipe_set (fuel : nat) (c : psetter) (q : pipe) : option pipe :=
  match fuel with
  | 0 => None
  | S fuel =>
      match c with
      | SFile f =>
          let q := Pipe f (p_shared q) (p_native q) in
          match f with
          | Some _ => match pipe_set fuel (SNative None) q with
                      | Some q => pipe_set fuel (SShared 0) q
                      | None => None
                      end
          | None => Some q
          end
      | SShared s =>
          let q := Pipe (p_file q) (if Z.eqb s 0 then 0 else 1)%Z (p_native q) in
          if Z.eqb s 0 then Some q
          else match pipe_set fuel (SFile None) q with
               | Some q => pipe_set fuel (SNative None) q
               | None => None
               end
      | SNative n =>
          let q := Pipe (p_file q) (p_shared q) (match n with Some ab => ab | None => no_native end) in
          match n with
          | Some _ => match pipe_set fuel (SFile None) q with
                      | Some q => pipe_set fuel (SShared 0) q
                      | None => None
                      end
          | None => Some q
          end
      end
  end.
Definition pipe_call (cp : option proc) (k : Z) (c : psetter) : option (option proc * Z) :=
  match cp with
  | None => Some (None, 0%Z)
  | Some p => match get_pipe p k with
              | None => Some (cp, 0%Z)
              | Some q => match pipe_set 2 c q with Some q => Some (Some (with_pipe p k q), 1%Z) | None => None end
              end
  end.
(** 543-580: SetPipeFile returns 1 or 0; 583-605 and 608-644: SetPipeShared and
    SetPipeNative return nothing. *)
Definition set_pipe_file cp k f := pipe_call cp k (SFile f).
Definition set_pipe_shared cp k s := pipe_call cp k (SShared s).
Definition set_pipe_native cp k n := pipe_call cp k (SNative n).

(** 647-682: GetOption and SetOption. *)
Definition get_option (cp : option proc) (id : Z) : Z :=
  match cp with
  | None => 0%Z
  | Some p => if Z.eqb id opt_detach then o_detach p else if Z.eqb id opt_merge then o_merge p
              else if Z.eqb id opt_verbatim then o_verbatim p else if Z.eqb id opt_group then o_group p else 0%Z
  end.
Definition set_option (cp : option proc) (id v : Z) : option proc :=
  match cp with
  | None => None
  | Some p =>
      let mk d m ve g := Some (Proc (commands p) (timeout p) (workdir p) (pin p) (pout p) (perr p) d m ve g) in
      if Z.eqb id opt_detach then mk v (o_merge p) (o_verbatim p) (o_group p)
      else if Z.eqb id opt_merge then mk (o_detach p) v (o_verbatim p) (o_group p)
      else if Z.eqb id opt_verbatim then mk (o_detach p) (o_merge p) v (o_group p)
      else if Z.eqb id opt_group then mk (o_detach p) (o_merge p) (o_verbatim p) v
      else cp
  end.

(** What Execute connects a pipe to: 808-868 (standard input, where the last case
    is a pipe that is closed at once), 881-937, 941-997. *)
Inductive wired := ToFile (f : str) | ToParent | ToNative (a b : Z) | ToObject.
Definition connect (input : bool) (q : pipe) : wired :=
  match p_file q with
  | Some f => ToFile f
  | None => if negb (Z.eqb (p_shared q) 0) then ToParent
            else if Z.leb 0 (if input then fst (p_native q) else snd (p_native q)) then ToNative (fst (p_native q)) (snd (p_native q))
            else ToObject
  end.
Definition wiring (p : proc) (k : Z) : wired :=
  match get_pipe p k with Some q => connect (Z.eqb k STDIN) q | None => ToObject end.

(** The calls that change the settings, on an existing object.  The result is
    the value returned; [None] for the functions that return nothing. *)
Inductive pcall :=
| ASet (command : option (list str)) | AAdd (command : option (list str)) | ATimeout (t : dbl) | ADir (d : option str)
| APipe (k : Z) (s : psetter) | AOption (id v : Z).
Definition do_call (c : pcall) (p : proc) : option (option proc * option Z) :=
  match c with
  | ASet cmd => match set_command (Some p) cmd with Some (q, r) => Some (q, Some r) | None => None end
  | AAdd cmd => match add_command (Some p) cmd with Some (q, r) => Some (q, Some r) | None => None end
  | ATimeout t => Some (set_timeout (Some p) t, None)
  | ADir d => let '(q, r) := set_working_directory (Some p) d in Some (q, Some r)
  | APipe k (SFile f) => match set_pipe_file (Some p) k f with Some (q, r) => Some (q, Some r) | None => None end
  | APipe k (SShared s) => match set_pipe_shared (Some p) k s with Some (q, _) => Some (q, None) | None => None end
  | APipe k (SNative n) => match set_pipe_native (Some p) k n with Some (q, _) => Some (q, None) | None => None end
  | AOption id v => Some (set_option (Some p) id v, None)
  end.
Fixpoint do_calls (h : list pcall) (p : proc) : option (proc * list (option Z)) :=
  match h with
  | [] => Some (p, [])
  | c :: r => match do_call c p with
              | Some (Some q, v) => match do_calls r q with Some (q, vs) => Some (q, v :: vs) | None => None end
              | _ => None
              end
  end.
