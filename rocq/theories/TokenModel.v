(** TokenModel.v -- the token expander as an object: token types registered with
    it (vital/config/token_expander.cxx 62-138, token_type_symtab.cxx,
    token_type_env.cxx, token_type_sysenv.cxx, token_type_config.cxx), their
    lifetime, and subjects that may contain NUL.

    Token type objects live in a heap; [None] is an object that has been
    deleted.  A configuration block is a number; what it holds, the environment
    and the system information are given at the time of a call. *)
From Coq Require Import List Bool Arith Ascii.
Import ListNotations.
From Verif Require Import Base ExpandModel RegexModel.

Inductive kind := KSym (table : smap str) | KEnv | KSysenv | KConfig (blk : nat).
Record tobj := mkT { t_name : str; t_kind : kind }.
Record tstate := mkTS { t_heap : list (option tobj); t_types : smap nat }.
Definition tstate0 : tstate := mkTS [] [].
Definition tobj_at (s : tstate) (id : nat) : option tobj := nth id (t_heap s) None.

(** What the outside world answers: getenv, the 16 facts of SystemInformation
    (texts), get_value<string> of a block. *)
Record outside := mkOut { o_env : str -> option str; o_sys : str -> str; o_cfg : nat -> str -> option str }.
(** token_type_sysenv.cxx 62-224: the names it knows. *)
Definition sysenv_names : list str :=
  [L "cwd"; L "numproc"; L "totalvirtualmemory"; L "availablevirtualmemory"; L "totalphysicalmemory"; L "availablephysicalmemory"; L "hostname"; L "domainname";
   L "osname"; L "osdescription"; L "osplatform"; L "osversion"; L "is64bits"; L "iswindows"; L "islinux"; L "isapple"].
(** lookup_entry: the return code and the result, [res] being the text in the
    caller's variable before the call (symtab.cxx 68-83, env.cxx 52-71,
    sysenv.cxx 58-227, config.cxx 52-72). *)
Definition lookup_entry (w : outside) (o : tobj) (name res : str) : bool * str :=
  match t_kind o with
  | KSym t => match sfind name t with Some v => (true, v) | None => (false, []) end
  | KEnv => match o_env w (c_str name) with Some v => (true, v) | None => (false, []) end
  | KSysenv => if existsb (str_eqb name) sysenv_names then (true, o_sys w name) else (false, res)
  | KConfig b => match o_cfg w b name with Some v => (true, v) | None => (false, res) end
  end.

Inductive top :=
| TNew (name : str) (k : kind)      (* new token_type_...; a symbol table starts empty, see [new_kind] *)
| TAdd (id : nat)                   (* expander.add_token_type( id ) *)
| TEntry (id : nat) (key v : str)   (* symtab add_entry *)
| TRem (id : nat) (key : str).      (* symtab remove_entry *)
Definition new_kind (k : kind) : kind := match k with KSym _ => KSym [] | _ => k end.
Definition new_name (name : str) (k : kind) : str := match k with KSym _ => name | KEnv => L "ENV" | KSysenv => L "SYSENV" | KConfig _ => L "CONFIG" end.
(** [None]: undefined behaviour (use of a deleted object, double delete). *)
Definition tstep (s : tstate) (o : top) : option tstate :=
  match o with
  | TNew name k => Some (mkTS (t_heap s ++ [Some (mkT (new_name name k) (new_kind k))]) (t_types s))
  | TAdd id =>      (* 62-71: the new shared_ptr replaces, and so deletes, what was there *)
    match tobj_at s id with
    | None => None
    | Some ob =>
      match sfind (t_name ob) (t_types s) with
      | None => Some (mkTS (t_heap s) (sset (t_name ob) id (t_types s)))
      | Some old =>
        match tobj_at s old with
        | None => None
        | Some _ => Some (mkTS (lupd (t_heap s) old None) (sset (t_name ob) id (t_types s)))
        end
      end
    end
  | TEntry id key v =>
    match tobj_at s id with
    | Some (mkT n (KSym t)) => Some (mkTS (lupd (t_heap s) id (Some (mkT n (KSym (sset key v t))))) (t_types s))
    | _ => None
    end
  | TRem id key =>
    match tobj_at s id with
    | Some (mkT n (KSym t)) => Some (mkTS (lupd (t_heap s) id (Some (mkT n (KSym (serase key t))))) (t_types s))
    | _ => None
    end
  end.
Definition trun (ops : list top) : option tstate :=
  fold_left (fun s o => match s with Some s => tstep s o | None => None end) ops (Some tstate0).

(** token_expander.cxx 84-138 on any subject: exp.find works on the C string of
    the remaining text. *)
Fixpoint expand_obj (n : nat) (s : tstate) (w : outside) (text : str) : option str :=
  match n with
  | O => None
  | S n' =>
    match find_match (c_str text) with
    | None => Some text
    | Some (pre, ty, nm, _) =>
      let rest := skipn (length pre + length (match_text ty nm)) text in
      match sfind ty (t_types s) with
      | Some id =>
        match tobj_at s id with
        | None => None
        | Some ob => option_map (fun r => pre ++ snd (lookup_entry w ob nm []) ++ r) (expand_obj n' s w rest)
        end
      | None => option_map (fun r => pre ++ match_text ty nm ++ r) (expand_obj n' s w rest)
      end
    end
  end.
Definition expand_token (s : tstate) (w : outside) (text : str) : option str := expand_obj (S (length text)) s w text.
