(** ErrModel.v -- how an error inside the C++ code reaches a Python caller:
    STANDARD_CATCH and POPULATE_EH (vital/bindings/c/helpers/c_utils.h 57-118), the
    catches of vital/bindings/c/config_block.cxx 395-425 (read_config_file_helper) and
    472-485 (file_write), vital/bindings/c/error_handle.cxx, and the class
    VitalErrorHandle (vital/bindings/python/vital/util/error_handle.py).

    Simplifications: malloc does not fail; log output is left out; a C string thrown is
    not NULL; an exception text has fewer than 2^31 bytes.  What the C++ code inside a C
    function does (return or throw) is given with the call. *)
From Coq Require Import ZArith List Bool Ascii String Lia.
From Verif Require Import Base RegexModel.
Import ListNotations.
Local Open Scope Z_scope.

(** What C++ code may throw; [Std] stands for every class derived from
    std::exception, the four named ones are those of config_block_exception.h that
    are caught by name. *)
Inductive std_class := CfgNotFound | CfgNotRead | CfgNotParsed | CfgWrite | StdOther.
Inductive thrown := Std (c : std_class) (what : str) | CharPtr (s : str) | Anything.
(** C functions by their catches: file_read(_from_standard_location), file_write, all others. *)
Inductive cfun := FileRead | FileWrite | OtherFun.
(** A C function either returns a value or its C++ code throws. *)
Inductive cdone := Returned (v : Z) | Threw (t : thrown).

(** config_block.cxx 395-425 and 472-485: caught before STANDARD_CATCH sees it,
    with error code; [e.what()] is a C string. *)
Definition inner_catch (f : cfun) (t : thrown) : option (Z * str) :=
  match f, t with
  | FileRead, Std CfgNotFound w => Some (1, c_str w)
  | FileRead, Std CfgNotRead w => Some (2, c_str w)
  | FileRead, Std CfgNotParsed w => Some (3, c_str w)
  | FileWrite, Std CfgWrite w => Some (1, c_str w)
  | _, _ => None
  end.
(** c_utils.h 89-118: code and message. *)
Definition standard_catch (t : thrown) : Z * str :=
  match t with
  | Std _ w => (-1, L "Caught exception in C interface: " ++ c_str w)
  | CharPtr s => (-1, L "Caught error message: " ++ c_str s)
  | Anything => (-1, L "Caught other exception")
  end.

(** Classes of Python exceptions (vital/exceptions/*.py) and others. *)
Inductive pycls := VitalBaseException | ConfigIo | ConfigNotFound | ConfigNotRead | ConfigNotParsed | ConfigWrite | NoSuchValue | PyOther (n : nat).
Definition pyexc := (pycls * str)%type.
Definition dict := list (Z * pycls).
Fixpoint dget (k : Z) (d : dict) : option pycls :=
  match d with [] => None | (k', c) :: d' => if k =? k' then Some c else dget k d' end.
Fixpoint dset (k : Z) (c : pycls) (d : dict) : dict :=
  match d with [] => [(k, c)] | (k', c') :: d' => if k =? k' then (k, c) :: d' else (k', c') :: dset k c d' end.
(** dict.update *)
Definition dupdate (d m : dict) : dict := fold_left (fun d e => dset (fst e) (snd e) d) m d.

(** Memory: message blocks are numbered in the order of allocation; [b_live] says
    whether the block is still allocated. *)
Record block := Blk { b_text : str; b_live : bool }.
(** A VitalErrorHandle with its C structure. *)
Record handle := Hd { h_code : Z; h_msg : option nat; h_map : dict }.
Record state := St { st_handles : list (nat * handle); st_blocks : list block }.
Definition hget (h : nat) (s : state) : option handle := option_map snd (find (fun e => Nat.eqb (fst e) h) (st_handles s)).
Definition hset (h : nat) (x : handle) (s : state) : state := St ((h, x) :: filter (fun e => negb (Nat.eqb (fst e) h)) (st_handles s)) (st_blocks s).
Definition hdel (h : nat) (s : state) : state := St (filter (fun e => negb (Nat.eqb (fst e) h)) (st_handles s)) (st_blocks s).

Section Alloc.
(** The number of bytes that may be written in a block that malloc(n) gives. *)
Variable cap : nat -> nat.

(** c_utils.h 69-73 (and the copies in config_block.cxx): the old message is not
    freed; strcpy writes one byte more than was asked for.  None: written past the
    end of the block. *)
Definition populate (h : nat) (x : handle) (code : Z) (msg : str) (s : state) : option state :=
  if Nat.ltb (cap (List.length msg)) (S (List.length msg)) then None
  else Some (hset h (Hd code (Some (List.length (st_blocks s))) (h_map x)) (St (st_handles s) (st_blocks s ++ [Blk msg true]))).

(** Control flow of Python statements: go on, return a value, an exception is
    raised, undefined behaviour, or a program Python does not allow (unknown object). *)
Inductive flow := Go | Ret (v : Z) | Exc (e : pyexc) | Crash | Stuck.
Inductive stmt :=
| New (h : nat)                                  (* h = VitalErrorHandle() *)
| SetMap (h : nat) (m : dict)                    (* h.set_exception_map(m) *)
| Call (f : cfun) (h : option nat) (r : cdone)   (* f(..., h) or f(..., None) *)
| RetCall (f : cfun) (h : option nat) (r : cdone)(* return f(..., h) *)
| Propagate (h : nat)                            (* h.propagate_exception() *)
| Return (v : Z)
| Raise (e : pyexc)
| With (h : nat) (body : list stmt)              (* with h: body *)
| Try (body handler : list stmt)                 (* try: body except: handler *)
| Drop (h : nat).                                (* h is collected *)

(** A call: the value the C function returns (0 / false / NULL after an error). *)
Definition ccall (f : cfun) (h : option nat) (r : cdone) (s : state) : state * (Z + flow) :=
  match r with
  | Returned v => (s, inl v)
  | Threw t =>
    match inner_catch f t, h with
    | Some _, None => (s, inr Crash)                       (* eh->error_code with eh NULL *)
    | None, None => (s, inl 0)                             (* c_utils.h 67 *)
    | o, Some h' =>
      let '(code, msg) := match o with Some cm => cm | None => standard_catch t end in
      match hget h' s with
      | None => (s, inr Stuck)
      | Some x => match populate h' x code msg s with None => (s, inr Crash) | Some s' => (s', inl 0) end
      end
    end
  end.
(** error_handle.py 67-84; message of a handle with a code is the text of its block. *)
Definition propagate (h : nat) (s : state) : flow :=
  match hget h s with
  | None => Stuck
  | Some x =>
    if h_code x =? 0 then Go
    else match h_msg x with
         | None => Exc (VitalBaseException, L "None")
         | Some b => match nth_error (st_blocks s) b with
                     | Some (Blk t true) => Exc (match dget (h_code x) (h_map x) with Some c => c | None => VitalBaseException end, t)
                     | _ => Crash
                     end
         end
  end.
(** vital_eh_destroy, error_handle.cxx 52-62. *)
Definition destroy (h : nat) (s : state) : state * flow :=
  match hget h s with
  | None => (s, Stuck)
  | Some x =>
    match h_msg x with
    | None => (hdel h s, Go)
    | Some b => match nth_error (st_blocks s) b with
                | Some (Blk t true) => (hdel h (St (st_handles s) (lupd (st_blocks s) b (Blk t false))), Go)
                | _ => (s, Crash)
                end
    end
  end.

Definition seq (run : stmt -> state -> state * flow) : list stmt -> state -> state * flow :=
  fix go l s := match l with
                | [] => (s, Go)
                | c :: l' => match run c s with (s', Go) => go l' s' | r => r end
                end.
Fixpoint exec (c : stmt) (s : state) : state * flow :=
  match c with
  | New h => match hget h s with Some _ => (s, Stuck) | None => (hset h (Hd 0 None []) s, Go) end
  | SetMap h m => match hget h s with None => (s, Stuck) | Some x => (hset h (Hd (h_code x) (h_msg x) (dupdate (h_map x) m)) s, Go) end
  | Call f h r => match ccall f h r s with (s', inl _) => (s', Go) | (s', inr fl) => (s', fl) end
  | RetCall f h r => match ccall f h r s with (s', inl v) => (s', Ret v) | (s', inr fl) => (s', fl) end
  | Propagate h => (s, propagate h s)
  | Return v => (s, Ret v)
  | Raise e => (s, Exc e)
  | With h body =>
    (* error_handle.py 46-53: an exception of the body goes on; else __exit__ may raise *)
    match hget h s with
    | None => (s, Stuck)
    | Some _ =>
      let '(s', fl) := seq exec body s in
      match fl with
      | Go | Ret _ => (s', match propagate h s' with Go => fl | p => p end)
      | _ => (s', fl)
      end
    end
  | Try body handler =>
    let '(s', fl) := seq exec body s in
    match fl with Exc _ => seq exec handler s' | _ => (s', fl) end
  | Drop h => destroy h s
  end.
Definition run (l : list stmt) : state * flow := seq exec l (St [] []).
End Alloc.

(** The Python methods that use a handle: config_block.py 84-96, 428-437, 235-239,
    and all others (with VitalErrorHandle() as eh: return f(..., eh)). *)
Definition io_map : dict := [(-1, ConfigIo); (1, ConfigNotFound); (2, ConfigNotRead); (3, ConfigNotParsed)].
Definition from_file (r : cdone) : list stmt := [New 0; With 0 [SetMap 0 io_map; RetCall FileRead (Some 0%nat) r]].
Definition write_file (r : cdone) : list stmt := [New 0; With 0 [SetMap 0 [(-1, ConfigIo); (1, ConfigWrite)]; Call FileWrite (Some 0%nat) r]].
Definition get_value_bool (r : cdone) : list stmt := [New 0; With 0 [SetMap 0 [(-1, NoSuchValue)]; RetCall OtherFun (Some 0%nat) r]].
Definition method (r : cdone) : list stmt := [New 0; With 0 [RetCall OtherFun (Some 0%nat) r]].
