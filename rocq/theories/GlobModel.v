(** GlobModel.v -- vital/kwiversys/Glob.cxx: from glob patterns to regular
    expressions, and the search for files.  UNIX build (KWSYS_GLOB_CASE_INDEPENDENT
    and KWSYS_GLOB_SUPPORT_NETWORK_PATHS are not defined). *)
From Coq Require Import List Ascii Bool Arith.
Import ListNotations.
From Verif Require Import Base RegexModel PathModel.

(** 117-132: an optional complementation, then a ']' that belongs to the text. *)
Definition take_mark (r : str) : str * str := match r with c :: q => if (Ascii.eqb c "!" || Ascii.eqb c "^")%bool then ([c], q) else ([], r) | [] => ([], []) end.
Definition take_close (r : str) : str * str := match r with c :: q => if Ascii.eqb c "]" then ([c], q) else ([], r) | [] => ([], []) end.
(** 117-142: the text between an opening bracket and its closing bracket. *)
Definition bracket (r : str) : option str :=
  let '(m, r1) := take_mark r in
  let '(b, r2) := take_close r1 in
  let t := take_while (fun c => negb (Ascii.eqb c "]")) r2 in
  if length t <? length r2 then Some (m ++ b ++ t) else None.
(** 163-172 *)
Definition double_backslashes (t : str) : str := flat_map (fun c => if Ascii.eqb c "\" then [c; c] else [c]) t.
(** 148-175 *)
Definition bracket_regex (b : str) : str :=
  L "[" ++ match b with c :: r => if Ascii.eqb c "!" then L "^" ++ double_backslashes r else double_backslashes b | [] => [] end ++ L "]".
(** 94-213: the loop; [skip] characters have been consumed already. *)
Fixpoint convert (skip : nat) (p : str) : str :=
  match p with
  | [] => []
  | c :: r =>
    match skip with
    | S k => convert k r
    | O =>
      if Ascii.eqb c "*" then L "[^/]*" ++ convert 0 r
      else if Ascii.eqb c "?" then L "[^/]" ++ convert 0 r
      else if Ascii.eqb c "[" then
        match bracket r with
        | None => L "\[" ++ convert 0 r
        | Some b => bracket_regex b ++ convert (S (length b)) r
        end
      else (if (is_alpha c || is_digit c)%bool then [c] else ["\"%char; c]) ++ convert 0 r
    end
  end.
(** 88-216: PatternToRegex *)
Definition pattern_to_regex (whole : bool) (p : str) : str :=
  (if whole then L "^" else []) ++ convert 0 p ++ (if whole then L "$" else []).

(** What the file system shows: the names listed in a directory (Directory::Load;
    None when it cannot be opened) and what each one is: a directory, a symbolic
    link to a directory, or anything else.  Directories are numbered (two names of
    one directory have one number, as GetRealPath has one text for it); [g_open]
    is the directory that a path names.  The path dir/name is taken to lead to
    the entry name of the directory dir. *)
Inductive ent := EFile | EDir (n : nat) | ELink (n : nat).
Record gfs := mkGfs { g_ents : nat -> option (list (str * ent)); g_open : str -> option nat }.
(** Glob.cxx 58-73: the settings. *)
Record gopts := mkOpts { o_recurse : bool; o_links : bool; o_list_dirs : bool; o_recurse_list_dirs : bool }.
(** Internals->Files, FollowedSymlinkCount and the messages, in one list. *)
Inductive out := OFile (p : str) | OFollow | OCycle.

(** The answer of Expressions[i].find(fname); [n] bounds the matcher. *)
Definition hit (n : nat) (x : option regexp) (name : str) : option bool :=
  match x with
  | None => Some false
  | Some x => match find_string n x name with MRes b _ => Some b | _ => None end
  end.
(** The loop over the names of a directory: "." and ".." are skipped. *)
Fixpoint each (f : str -> ent -> option (list out)) (l : list (str * ent)) : option (list out) :=
  match l with
  | [] => Some []
  | (name, e) :: r =>
    if (str_eqb name (L ".") || str_eqb name (L ".."))%bool then each f r
    else match f name e, each f r with Some a, Some b => Some (a ++ b) | _, _ => None end
  end.
Definition real_name (first : bool) (dir name : str) : str := if first then dir ++ name else dir ++ L "/" ++ name.
(** 221-334: RecurseDirectory; [visited] is VisitedSymlinks.  GetRealPath is taken
    to succeed. *)
Fixpoint recurse (n : nat) (w : gfs) (o : gopts) (x : option regexp) (depth : nat) (first : bool) (dir : str) (node : nat) (visited : list nat) : option (list out) :=
  match depth with
  | O => None
  | S depth' =>
    match g_ents w node with
    | None => Some []
    | Some l =>
      each (fun name e =>
        let p := real_name first dir name in
        let file := match hit n x name with Some true => Some [OFile p] | Some false => Some [] | None => None end in
        match e with
        | EFile => file
        | EDir d =>
          match recurse n w o x depth' false p d visited with
          | Some fs => Some ((if o_recurse_list_dirs o then [OFile p] else []) ++ fs)
          | None => None
          end
        | ELink d =>
          if o_links o then
            if existsb (Nat.eqb node) visited then Some [OFollow; OCycle]
            else match recurse n w o x depth' false p d (visited ++ [node]) with
                 | Some fs => Some ([OFollow] ++ (if o_recurse_list_dirs o then [OFile p] else []) ++ fs)
                 | None => None
                 end
          else file
        end) l
    end
  end.
(** 338-408: ProcessDirectory; [xs] are the expressions from [start] on. *)
Fixpoint process (n depth : nat) (w : gfs) (o : gopts) (xs : list (option regexp)) (first : bool) (dir : str) (node : nat) : option (list out) :=
  match xs with
  | [] => Some []
  | x :: xs' =>
    match xs', o_recurse o with
    | [], true => recurse n w o x depth first dir node []
    | _, _ =>
      match g_ents w node with
      | None => Some []
      | Some l =>
        each (fun name e =>
          let p := real_name first dir name in
          let isdir := match e with EFile => false | _ => true end in
          match xs' with
          | [] => if (negb (o_list_dirs o) && isdir)%bool then Some []
                  else match hit n x name with Some true => Some [OFile p] | Some false => Some [] | None => None end
          | _ => match e with
                 | EFile => Some []
                 | EDir d | ELink d => match hit n x name with Some true => process n depth w o xs' false p d | Some false => Some [] | None => None end
                 end
          end) l
      end
    end
  end.
(** 425-442: the last slash before the first wildcard. *)
Fixpoint last_slash (prev : ascii) (cc last : nat) (s : str) : nat :=
  match s with
  | [] => last
  | c :: r =>
    let last' := if ((0 <? cc) && Ascii.eqb c slash && negb (Ascii.eqb prev "\"))%bool then cc else last in
    if ((0 <? cc) && (Ascii.eqb c "[" || Ascii.eqb c "?" || Ascii.eqb c "*") && negb (Ascii.eqb prev "\"))%bool then last'
    else last_slash c (S cc) last' r
  end.
(** 481-503: the pieces between slashes that are not empty. *)
Fixpoint components_from (cur s : str) : list str :=
  match s with
  | [] => match cur with [] => [] | _ => [cur] end
  | c :: r => if Ascii.eqb c slash then match cur with [] => components_from [] r | _ => cur :: components_from [] r end else components_from (cur ++ [c]) r
  end.
(** 517-522: AddExpression; the copies made by the vector behave as the
    original (RegularExpression.cxx 46-71). *)
Fixpoint expressions (ps : list str) : option (list (option regexp)) :=
  match ps with
  | [] => Some []
  | p :: r => match compile_string (pattern_to_regex true p), expressions r with COk x, Some l => Some (x :: l) | _, _ => None end
  end.
(** 411-514: FindFiles, with Relative empty.  [n] bounds the matcher and the depth. *)
Definition find_files (n : nat) (w : gfs) (o : gopts) (cwd inexpr : str) : option (list out) :=
  let expr := if file_is_full_path inexpr then inexpr else cwd ++ L "/" ++ inexpr in
  let ls := last_slash NUL 0 0 expr in
  let skip := if 0 <? ls then ls else if (Ascii.eqb (nth 1 expr NUL) ":" && negb (Ascii.eqb (nth 0 expr NUL) slash))%bool then 2 else 0 in
  match expressions (components_from [] (skipn skip expr)) with
  | None => None
  | Some xs =>
    let dir := if 0 <? skip then firstn skip expr ++ L "/" else L "/" in
    match g_open w dir with
    | None => Some []
    | Some node => process n n w o xs true dir node
    end
  end.
Definition files_of (l : list out) : list str := flat_map (fun o => match o with OFile p => [p] | _ => [] end) l.
