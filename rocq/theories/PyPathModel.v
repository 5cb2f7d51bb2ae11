(** PyPathModel.v -- looking for the C library:
    vital/bindings/python/vital/util/find_vital_library.py.in 47-170 (Linux),
    over models of Python's posixpath.join, dirname, normpath, abspath and
    expanduser and str.split (library code).  The file system is what isdir and
    listdir say; listdir lists in any order and may raise. *)
From Coq Require Import Ascii List Bool Arith.
Import ListNotations.
From Verif Require Import Base.

Definition slash : ascii := "/"%char.
Definition is_slash (c : ascii) : bool := Ascii.eqb c slash.
(** s.split(c): always at least one piece. *)
Fixpoint py_split (c : ascii) (s : str) : list str :=
  match s with
  | [] => [[]]
  | x :: r => if Ascii.eqb x c then [] :: py_split c r
              else match py_split c r with [] => [[x]] | p :: ps => (x :: p) :: ps end
  end.
(** c.join(l). *)
Fixpoint py_join (c : ascii) (l : list str) : str :=
  match l with [] => [] | [p] => p | p :: ps => p ++ c :: py_join c ps end.
Fixpoint lstrip (f : ascii -> bool) (s : str) : str :=
  match s with [] => [] | x :: r => if f x then lstrip f r else s end.
Definition rstrip (f : ascii -> bool) (s : str) : str := rev (lstrip f (rev s)).
Definition strip (f : ascii -> bool) (s : str) : str := rstrip f (lstrip f s).
Definition is_abs (s : str) : bool := match s with x :: _ => is_slash x | [] => false end.
(** posixpath.join(a, b). *)
Definition path_join (a b : str) : str :=
  if is_abs b then b
  else match rev a with [] => b | x :: _ => if is_slash x then a ++ b else a ++ slash :: b end.
(** The text up to and with the last slash. *)
Fixpoint head_rev (s : str) : str := match s with [] => [] | x :: r => if is_slash x then s else head_rev r end.
(** posixpath.dirname. *)
Definition py_dirname (p : str) : str :=
  let head := rev (head_rev (rev p)) in
  if forallb is_slash head then head else rstrip is_slash head.
(** posixpath.normpath. *)
Definition dotdot : str := ["."; "."]%char.
Definition dot : str := ["."]%char.
Definition norm_step (abs : bool) (acc : list str) (c : str) : list str :=     (* acc: newest first *)
  if str_eqb c [] || str_eqb c dot then acc
  else if negb (str_eqb c dotdot) || (negb abs && match acc with [] => true | _ => false end) || match acc with x :: _ => str_eqb x dotdot | [] => false end
  then c :: acc
  else match acc with _ :: r => r | [] => [] end.
Definition initial_slashes (p : str) : nat :=
  match p with
  | x :: r => if is_slash x then
                match r with
                | y :: r' => if is_slash y then match r' with z :: _ => if is_slash z then 1 else 2 | [] => 2 end else 1
                | [] => 1
                end
              else 0
  | [] => 0
  end.
Definition py_normpath (p : str) : str :=
  match p with
  | [] => dot
  | _ =>
    let n := initial_slashes p in
    let comps := rev (fold_left (norm_step (0 <? n)) (py_split slash p) []) in
    match repeat slash n ++ py_join slash comps with [] => dot | r => r end
  end.
Definition py_abspath (cwd p : str) : str := py_normpath (if is_abs p then p else path_join cwd p).
(** posixpath.expanduser; [home u] is the home directory of user [u], of the
    current user for the empty name. *)
Definition py_expanduser (home : str -> option str) (p : str) : str :=
  match p with
  | x :: r =>
    if Ascii.eqb x "~"%char then
      let fix cut (s : str) : str * str := match s with [] => ([], []) | c :: q => if is_slash c then ([], s) else let (a, b) := cut q in (c :: a, b) end in
      let (user, rest) := cut r in
      match home user with
      | None => p
      | Some h => match rstrip is_slash h ++ rest with [] => [slash] | q => q end
      end
    else p
  | [] => p
  end.

(** ---- the finder ---- *)
Record dirs := mkDirs { d_isdir : str -> bool; d_list : str -> option (list str) }.
(** 47-48: re.compile("(?:lib)?vital_c.(?:so|dylib|dll).*").match(f); a dot is
    any character but a newline. *)
Definition after_name (s : str) : bool :=
  match s with
  | c :: r => negb (Ascii.eqb c (ascii_of_nat 10)) && (is_prefix (L "so") r || is_prefix (L "dylib") r || is_prefix (L "dll") r)
  | [] => false
  end.
Definition with_name (name s : str) : bool := is_prefix name s && after_name (skipn (length name) s).
Definition lib_match (name f : str) : bool := (is_prefix (L "lib") f && with_name name (skipn 3 f)) || with_name name f.
(** 57-68. *)
Definition lib_dirs : list str := [L "lib64"; L "lib"].
Inductive found := Found (p : str) | Nothing | ListError | NoEnd.
(** 90-98: one directory.  [inl]: done; [inr hit]. *)
Fixpoint try_dirs (fs : dirs) (m : str -> bool) (d : str) (ls : list str) (hit : bool) : found + bool :=
  match ls with
  | [] => inr hit
  | l :: r =>
    let ld := path_join d l in
    if d_isdir fs ld then
      match d_list fs ld with
      | None => inl ListError
      | Some names => match find m names with Some f => inl (Found (path_join ld f)) | None => try_dirs fs m d r true end
      end
    else try_dirs fs m d r hit
  end.
(** 71-106: the loop goes on until dirname gives the same directory again. *)
Fixpoint search_up_f (n : nat) (fs : dirs) (m : str -> bool) (d : str) (prev : option str) : found :=
  match n with
  | 0 => NoEnd
  | S n =>
    if match prev with Some q => str_eqb d q | None => false end then Nothing
    else match try_dirs fs m d lib_dirs false with
         | inl r => r
         | inr true => Nothing
         | inr false => search_up_f n fs m (py_dirname d) (Some d)
         end
  end.
Definition search_up (fs : dirs) (m : str -> bool) (d : str) : found := search_up_f (length d + 3) fs m d None.
(** 138-146. *)
Fixpoint search_all (fs : dirs) (m : str -> bool) (ds : list str) : found :=
  match ds with
  | [] => Nothing
  | d :: r => match search_up fs m d with Nothing => search_all fs m r | x => x end
  end.
(** 121-150: [build] the build directory written in by CMake, [here] the
    directory of this file, [env] LD_LIBRARY_PATH.  KeyError: not set;
    RuntimeError: not found. *)
Inductive lib_result := LibPath (p : str) | LibKeyError | LibListError | LibNotFound | LibNoEnd.
Definition search_dirs (build here env : str) : list str :=
  let l := here :: py_split ":"%char env in match build with [] => l | _ => build :: l end.
Definition find_path (build here : str) (cache : option str) (env : option str) (fs : dirs) : option str * lib_result :=
  match cache with
  | Some ((_ :: _) as p) => (cache, LibPath p)
  | _ =>
    match env with
    | None => (cache, LibKeyError)
    | Some e =>
      match search_all fs (lib_match (L "vital_c")) (search_dirs build here e) with
      | Found p => (Some p, LibPath p)
      | Nothing => (cache, LibNotFound)
      | ListError => (cache, LibListError)
      | NoEnd => (cache, LibNoEnd)
      end
    end
  end.
(** Calls one after the other, in worlds that may change between them. *)
Fixpoint find_calls (build here : str) (cache : option str) (worlds : list (option str * dirs)) : list lib_result :=
  match worlds with
  | [] => []
  | (env, fs) :: r => let (c, x) := find_path build here cache env fs in x :: find_calls build here c r
  end.
