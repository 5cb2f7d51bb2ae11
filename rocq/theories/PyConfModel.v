(** PyConfModel.v -- the configuration block through the C and Python
    interfaces: vital/bindings/c/config_block.cxx and
    vital/bindings/python/vital/config_block.py over ConfigModel.v.

    A Python ConfigBlock is a C handle: NULL ([None]) or a block of the heap
    (that a handle which is not NULL is known to the C side is C102).  Texts
    cross the border as C strings and are cut at their first NUL on the way in
    and on the way out ([c_str]).  The C functions catch every exception
    (STANDARD_CATCH, c_utils.h 88-116) and return NULL, false or nothing.  The
    lists made by make_string_list and the error messages are one byte too short
    for their terminator (C71); the model takes them as if the byte after them
    were free.  Reading and writing files is C21-C26. *)
From Coq Require Import ZArith List Bool.
Import ListNotations.
From Verif Require Import Base ConfigModel RegexModel.

Record pst := mkP { p_heap : heap; p_obj : list (option nat) }.
Definition pst0 : pst := mkP [] [].
(** The handle of Python object x. *)
Definition handle (s : pst) (x : nat) : option nat := nth x (p_obj s) None.

(** Results: a value, a Python exception, undefined behaviour. *)
Inductive pyexc := NullPointer (* ValueError: NULL pointer access *) | NoSuchValueExc.
Inductive pres (A : Type) := PRet (a : A) | PRaise (e : pyexc) | PBad.
Arguments PRet {A} a. Arguments PRaise {A} e. Arguments PBad {A}.

(** A C function with a result and a value [d] to return on an exception. *)
Definition c_ret {A B} (r : res A) (d : B) (f : A -> B) : pres B :=
  match r with Ok a => PRet (f a) | Throw _ => PRet d | UB | NoFuel => PBad end.

(** config_block.py 172-202 with config_block.cxx 190-203. *)
Definition pc_get (s : pst) (x : nat) (key : str) (default : option str) : pres (option str) :=
  match handle s x with
  | None => PRet default
  | Some id => c_ret (get_string (p_heap s) id (c_str key)) default (fun v => Some (c_str v))
  end.
(** config_block.py 204-238 with config_block.cxx 206-218 and 238-251. *)
Definition pc_get_bool (s : pst) (x : nat) (key : str) (default : option bool) : pres bool :=
  match handle s x with
  | None => PRaise NoSuchValueExc
  | Some id =>
    match (match default with
           | None => get_value bool_cast (p_heap s) id (c_str key)
           | Some d => get_value_def bool_cast (p_heap s) id (c_str key) d end) with
    | Ok b => PRet b
    | Throw _ => PRaise NoSuchValueExc
    | UB | NoFuel => PBad
    end
  end.
(** config_block.py 240-266 with config_block.cxx 254-267: a ctypes pointer is
    never None, so the NULL of a failure is dereferenced. *)
Definition pc_descr (s : pst) (x : nat) (key : str) : pres (option str) :=
  match handle s x with
  | None => PRaise NullPointer
  | Some id => match get_description (p_heap s) id (c_str key) with
               | Ok d => PRet (Some (c_str (c_str d)))
               | Throw _ => PRaise NullPointer
               | UB | NoFuel => PBad
               end
  end.
(** config_block.py 121-135 with config_block.cxx 143-153. *)
Definition pc_name (s : pst) (x : nat) : pres str :=
  match handle s x with
  | None => PRaise NullPointer
  | Some id => match nth_error (p_heap s) id with Some b => PRet (c_str (b_name b)) | None => PBad end
  end.
(** config_block.py 363-377, 315-330 with config_block.cxx 356-367, 314-325. *)
Definition pc_has (s : pst) (x : nat) (key : str) : pres bool :=
  match handle s x with
  | None => PRet false
  | Some id => c_ret (has_value (p_heap s) id (c_str key)) false (fun b => b)
  end.
Definition pc_is_ro (s : pst) (x : nat) (key : str) : pres bool :=
  match handle s x with
  | None => PRet false
  | Some id => c_ret (is_read_only (p_heap s) id (c_str key)) false (fun b => b)
  end.
(** config_block.py 379-402 with config_block.cxx 370-390. *)
Definition pc_keys (s : pst) (x : nat) : pres (list str) :=
  match handle s x with
  | None => PRet []
  | Some id => c_ret (available_values (p_heap s) id) [] (map c_str)
  end.
(** config_block.py 437-449: a dictionary, as an association map. *)
Fixpoint dict_of (s : pst) (x : nat) (keys : list str) (d : smap (option str)) : pres (smap (option str)) :=
  match keys with
  | [] => PRet d
  | k :: r => match pc_get s x k None with
              | PRet v => dict_of s x r (sset k v d)
              | PRaise e => PRaise e
              | PBad => PBad
              end
  end.
Definition pc_as_dict (s : pst) (x : nat) : pres (smap (option str)) :=
  match pc_keys s x with PRet keys => dict_of s x keys [] | PRaise e => PRaise e | PBad => PBad end.

(** The calls that change something.  Those on an object that does not exist
    are errors of the Python program and left out. *)
Inductive pcop :=
| PcNew (name : str)                              (* ConfigBlock(name), ConfigBlock() *)
| PcSub (x : nat) (key : str)                     (* x.subblock(key) *)
| PcView (x : nat) (key : str)                    (* x.subblock_view(key) *)
| PcSet (x : nat) (key value : str) (descr : option str)
| PcUnset (x : nat) (key : str)
| PcMark (x : nat) (key : str)
| PcMerge (x y : nat).

(** A C function that makes a new block: its handle, or NULL after an
    exception.  [None]: undefined behaviour. *)
Definition c_null (s : pst) : pst := mkP (p_heap s) (p_obj s ++ [None]).
Definition c_new (s : pst) (p : heap * res nat) : option pst :=
  match snd p with
  | Ok id => Some (mkP (fst p) (p_obj s ++ [Some id]))
  | Throw _ => Some (mkP (fst p) (p_obj s ++ [None]))
  | UB | NoFuel => None
  end.
(** A C function without a result: exceptions are dropped. *)
Definition c_do (s : pst) (p : heap * res unit) : option pst :=
  match snd p with Ok _ | Throw _ => Some (mkP (fst p) (p_obj s)) | UB | NoFuel => None end.
Definition pc_step (s : pst) (o : pcop) : option pst :=
  match o with
  | PcNew name => c_new s (empty_config (p_heap s) (c_str name))     (* .py 96-114, .cxx 102-128 *)
  | PcSub x key => match handle s x with                             (* .py 137-151, .cxx 156-169 *)
                   | None => Some (c_null s)
                   | Some id => c_new s (subblock (p_heap s) id (c_str key)) end
  | PcView x key => match handle s x with                            (* .py 153-170, .cxx 173-186 *)
                    | None => Some (c_null s)
                    | Some id => c_new s (subblock_view (p_heap s) id (c_str key)) end
  | PcSet x key v d => match handle s x with                         (* .py 268-299, .cxx 270-297 *)
                       | None => Some s
                       | Some id => c_do s (i_set_value (p_heap s) id (c_str key) (c_str v) (match d with None => [] | Some t => c_str t end)) end
  | PcUnset x key => match handle s x with                           (* .py 301-313, .cxx 301-310 *)
                     | None => Some s | Some id => c_do s (unset_value (p_heap s) id (c_str key)) end
  | PcMark x key => match handle s x with                            (* .py 332-345, .cxx 328-337 *)
                    | None => Some s | Some id => c_do s (mark_read_only (p_heap s) id (c_str key)) end
  | PcMerge x y => match handle s x, handle s y with                 (* .py 347-361, .cxx 341-352 *)
                   | Some a, Some b => c_do s (merge_config (p_heap s) a b)
                   | _, _ => Some s end
  end.
Definition pc_run (ops : list pcop) : option pst :=
  fold_left (fun s o => match s with Some s => pc_step s o | None => None end) ops (Some pst0).
