(** TouchModel.v -- SystemTools::Touch and FileTimeCompare
    (vital/kwiversys/SystemTools.cxx 1211-1232, 1317-1356, 1396-1426), with the
    branches KWSYS_CXX_HAS_UTIMENSAT and KWSYS_CXX_STAT_HAS_ST_MTIM of Linux.
    The file system is a function from names to what they stand for; names are
    not aliases of each other (no links), and nobody else changes it. *)
From Coq Require Import ZArith.
From Verif Require Import Base.

Record entry := Entry { e_readable : bool; e_writable : bool; e_owned : bool; e_sec : Z; e_nsec : Z; e_bytes : str }.
Definition fsys := str -> option entry.
Definition set_entry (fs : fsys) (p : str) (e : entry) : fsys := fun q => if str_dec q p then Some e else fs q.
(** A name as the system calls take it: the empty one stands for nothing. *)
Definition at_name (fs : fsys) (p : str) : option entry := match p with [] => None | _ => fs p end.

(** 1211-1232: FileExists: access(R_OK). *)
Definition file_exists (fs : fsys) (p : str) : bool :=
  match p with [] => false | _ => match at_name fs p with Some e => e_readable e | None => false end end.
(** fopen(p, "a+b"): opens for reading and appending; makes an empty file if there
    is none and [can_create] the name. *)
Definition fopen_append (can_create : str -> bool) (now : Z * Z) (fs : fsys) (p : str) : option fsys :=
  match at_name fs p with
  | Some e => if (e_readable e && e_writable e)%bool then Some fs else None
  | None => match p with
            | [] => None
            | _ => if can_create p then Some (set_entry fs p (Entry true true true (fst now) (snd now) [])) else None
            end
  end.
(** utimensat with UTIME_OMIT and UTIME_NOW: the owner may set the time of
    modification to now. *)
Definition utime_now (now : Z * Z) (fs : fsys) (p : str) : option fsys :=
  match at_name fs p with
  | Some e => if e_owned e then Some (set_entry fs p (Entry (e_readable e) (e_writable e) (e_owned e) (fst now) (snd now) (e_bytes e))) else None
  | None => None
  end.
(** 1317-1356: Touch. *)
Definition touch (can_create : str -> bool) (now : Z * Z) (fs : fsys) (p : str) (create : bool) : fsys * bool :=
  if negb (file_exists fs p) then
    if create then
      match fopen_append can_create now fs p with
      | Some fs' => (fs', true)
      | None => (fs, false)
      end
    else (fs, true)
  else match utime_now now fs p with
       | Some fs' => (fs', true)
       | None => (fs, false)
       end.
(** 1396-1426: FileTimeCompare: the value returned and the one stored. *)
Definition file_time_compare (fs : fsys) (f1 f2 : str) : bool * Z :=
  match at_name fs f1 with
  | None => (false, 0%Z)
  | Some s1 =>
      match at_name fs f2 with
      | None => (false, 0%Z)
      | Some s2 =>
          (true,
           if Z.ltb (e_sec s1) (e_sec s2) then (-1)%Z
           else if Z.ltb (e_sec s2) (e_sec s1) then 1%Z
           else if Z.ltb (e_nsec s1) (e_nsec s2) then (-1)%Z
           else if Z.ltb (e_nsec s2) (e_nsec s1) then 1%Z
           else 0%Z)
      end
  end.
