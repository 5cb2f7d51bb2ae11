(** EnvModel.v -- SystemTools::GetEnv, PutEnv and UnPutEnv
    (vital/kwiversys/SystemTools.cxx 456-483, 493-509, 587-608), with the branches
    KWSYS_CXX_HAS_SETENV and KWSYS_CXX_HAS_UNSETENV of Linux, and the C library's
    getenv, setenv and unsetenv on the array [environ] of "NAME=VALUE" texts.
    A [std::string] may contain NUL bytes; [c_str] shows the bytes before the
    first.  setenv does not run out of memory. *)
From Verif Require Import Base.

Definition environ := list str.
Definition c_str (s : str) : str := take_while (fun c => negb (Ascii.eqb c "000")) s.
(** Does an entry belong to the name? (the name, then "=") *)
Fixpoint value_of (name entry : str) : option str :=
  match name, entry with
  | [], c :: v => if Ascii.eqb c "=" then Some v else None
  | x :: n, c :: e => if Ascii.eqb x c then value_of n e else None
  | _, [] => None
  end.
(** getenv: the first entry of the name (glibc: none for the empty name). *)
Fixpoint lookup (env : environ) (name : str) : option str :=
  match env with
  | [] => None
  | e :: env => match value_of name e with Some v => Some v | None => lookup env name end
  end.
Definition getenv (env : environ) (name : str) : option str :=
  match name with [] => None | _ => lookup env name end.
Definition has_eq (s : str) : bool := existsb (Ascii.eqb "="%char) s.
(** setenv(name, value, 1): replaces the first entry of the name or adds one at
    the end; EINVAL for an empty name or one with "=". *)
Fixpoint put (env : environ) (name entry : str) : environ :=
  match env with
  | [] => [entry]
  | e :: env => match value_of name e with Some _ => entry :: env | None => e :: put env name entry end
  end.
Definition setenv (env : environ) (name value : str) : environ * bool :=
  match name with
  | [] => (env, false)
  | _ => if has_eq name then (env, false) else (put env name (name ++ "="%char :: value), true)
  end.
(** unsetenv: removes all entries of the name. *)
Definition unsetenv (env : environ) (name : str) : environ :=
  match name with
  | [] => env
  | _ => if has_eq name then env else filter (fun e => match value_of name e with Some _ => false | None => true end) env
  end.
(** [env.find('=')], as the text before it and the text behind it. *)
Fixpoint split_eq (s : str) : option (str * str) :=
  match s with
  | [] => None
  | c :: s => if Ascii.eqb c "=" then Some ([], s) else match split_eq s with Some (a, b) => Some (c :: a, b) | None => None end
  end.

(** 456-483: GetEnv; the overload with a result leaves it alone when there is no
    such variable. *)
Definition get_env (env : environ) (key : str) : option str := getenv env (c_str key).
Definition get_env_into (env : environ) (key result : str) : bool * str :=
  match getenv env (c_str key) with Some v => (true, v) | None => (false, result) end.
(** 496-509: kwsysUnPutEnv; its result is 0. *)
Definition un_put_env_raw (env : environ) (s : str) : environ :=
  match split_eq s with
  | Some (name, _) => unsetenv env (c_str name)
  | None => unsetenv env (c_str s)
  end.
(** 605-608: UnPutEnv. *)
Definition un_put_env (env : environ) (s : str) : environ * bool := (un_put_env_raw env s, true).
(** 591-603: PutEnv.  [env.c_str() + pos + 1] is the text behind the "=" up to
    the next NUL. *)
Definition put_env (env : environ) (s : str) : environ * bool :=
  match split_eq s with
  | Some (name, rest) => setenv env (c_str name) (c_str rest)
  | None => (un_put_env_raw env s, true)
  end.
