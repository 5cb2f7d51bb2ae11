(** TreeModel.v -- SystemTools::RemoveADirectory, RemoveFile, FileIsDirectory,
    FileIsSymlink and Directory::Load (vital/kwiversys/SystemTools.cxx,
    Directory.cxx), over a file system with symbolic links.

    One process.  The file system is a list of places; a place is the list of names
    below the root.  Directories have no hard links, files may be anything that
    unlink(2) removes.  Permission bits are not modelled: which calls the system
    refuses is given by [deny], any function of call and place (so the chmod of
    RemoveADirectory is left out). *)
From Coq Require Import List Ascii String Bool Arith.
Import ListNotations.
From Verif Require Import Base PathModel.

Definition place := list str.
Inductive kind := KDir | KFile (data : str) | KLink (target : str).
Definition fsys := list (place * kind).
Definition place_dec (a b : place) : {a = b} + {a <> b} := list_eq_dec str_dec a b.
Fixpoint look (f : fsys) (l : place) : option kind :=
  match f with [] => None | (x, k) :: r => if place_dec x l then Some k else look r l end.
(** The root is always a directory. *)
Definition at_place (f : fsys) (l : place) : option kind := match l with [] => Some KDir | _ => look f l end.
(** The names in a directory, in the order of readdir(3) (any order), without . and .. *)
Definition names_in (f : fsys) (l : place) : list str :=
  flat_map (fun e => match fst e with [] => [] | x => if place_dec (removelast x) l then [List.last x []] else [] end) f.
Definition drop (f : fsys) (l : place) : fsys := filter (fun e => if place_dec (fst e) l then false else true) f.

(** path_resolution(7).  A path is cut at each slash; an empty name or . stays in the
    directory.  [follow]: what to do with a link in the last name.  Up to [n] links. *)
Inductive errno := ENOENT | ENOTDIR | ELOOP | EOTHER.
Fixpoint cut (cur s : str) : list str :=
  match s with [] => [cur] | c :: r => if Ascii.eqb c slash then cur :: cut [] r else cut (cur ++ [c]) r end.
Definition is_abs (s : str) : bool := match s with c :: _ => Ascii.eqb c slash | [] => false end.
Definition stays (n : str) : bool := (str_eqb n [] || str_eqb n (L "."))%bool.
Section Walk.
Variable f : fsys.
Variable follow : bool.
(** The names of [todo], at a directory.  [n]: links still allowed. *)
Fixpoint walk (n : nat) : list str -> place -> place + errno :=
  fix names (todo : list str) (cur : place) {struct todo} : place + errno :=
    match todo with
    | [] => inl cur
    | x :: rest =>
        match at_place f cur with
        | None => inr ENOENT
        | Some KDir =>
            if stays x then names rest cur
            else if str_eqb x (L "..") then names rest (removelast cur)
            else match at_place f (cur ++ [x]) with
                 | Some (KLink t) =>
                     if (match rest with [] => negb follow | _ => false end)%bool then inl (cur ++ [x])
                     else match n with
                          | O => inr ELOOP
                          | S n' => match t with [] => inr ENOENT | _ => walk n' (cut [] t ++ rest) (if is_abs t then [] else cur) end
                          end
                 | _ => names rest (cur ++ [x])
                 end
        | Some _ => inr ENOTDIR
        end
    end.
End Walk.
Definition MAXLINKS : nat := 40.
(** The place a path names (it may hold nothing). *)
Definition resolve (f : fsys) (cwd : place) (follow : bool) (p : str) : place + errno :=
  match p with [] => inr ENOENT | _ => walk f follow MAXLINKS (cut [] p) (if is_abs p then [] else cwd) end.
Definition stat_at (f : fsys) (cwd : place) (follow : bool) (p : str) : option kind :=
  match resolve f cwd follow p with inl l => at_place f l | inr _ => None end.

(** SystemTools.cxx 3213-3260: FileIsDirectory: one slash or backslash at the end is
    dropped (not after a colon, not from "/"). *)
Definition chop (name : str) : str :=
  match rev name with
  | c :: d :: r => if ((Ascii.eqb c slash || Ascii.eqb c backslash) && negb (Ascii.eqb d ":"))%bool then rev (d :: r) else name
  | _ => name
  end.
Definition file_is_directory (f : fsys) (cwd : place) (name : str) : bool :=
  match name with [] => false | _ => match stat_at f cwd true (chop name) with Some KDir => true | _ => false end end.
(** SystemTools.cxx 3262-3286: FileIsSymlink. *)
Definition file_is_symlink (f : fsys) (cwd : place) (name : str) : bool :=
  match stat_at f cwd false name with Some (KLink _) => true | _ => false end.

(** What the system refuses. *)
Inductive call := COpendir | CUnlink | CRmdir.
Section Calls.
Variable deny : call -> place -> bool.
Variable cwd : place.
(** unlink(2) *)
Definition sys_unlink (f : fsys) (p : str) : fsys * option errno :=
  match resolve f cwd false p with
  | inr e => (f, Some e)
  | inl l => match at_place f l with
             | None => (f, Some ENOENT)
             | Some KDir => (f, Some EOTHER)
             | Some _ => if deny CUnlink l then (f, Some EOTHER) else (drop f l, None)
             end
  end.
(** SystemTools.cxx 2758-2798 *)
Definition remove_file (f : fsys) (source : str) : fsys * bool :=
  match sys_unlink f source with
  | (f', None) => (f', true)
  | (f', Some ENOENT) => (f', true)
  | (f', Some _) => (f', false)
  end.
(** rmdir(2): slashes at the end do not make it follow a link; a last name . or .. is
    refused, as is a directory that is not empty, and the root. *)
Fixpoint strip_slashes (r : str) : str := match r with c :: r' => if Ascii.eqb c slash then strip_slashes r' else r | [] => [] end.
Definition no_trailing (p : str) : str := rev (strip_slashes (rev p)).
Definition last_name (p : str) : str := List.last (cut [] p) [].
Definition sys_rmdir (f : fsys) (p : str) : fsys * bool :=
  let q := no_trailing p in
  if (str_eqb (last_name q) (L ".") || str_eqb (last_name q) (L ".."))%bool then (f, false)
  else match resolve f cwd false q with
       | inr _ => (f, false)
       | inl l => match at_place f l with
                  | Some KDir => match l, names_in f l with
                                 | _ :: _, [] => if deny CRmdir l then (f, false) else (drop f l, true)
                                 | _, _ => (f, false)
                                 end
                  | _ => (f, false)
                  end
       end.
(** Directory.cxx 205-224: Load; the files stay empty when the directory cannot be opened. *)
Definition load (f : fsys) (name : str) : list str :=
  match resolve f cwd true name with
  | inl l => match at_place f l with
             | Some KDir => if deny COpendir l then [] else [L "."; L ".."] ++ names_in f l
             | _ => []
             end
  | inr _ => []
  end.
(** SystemTools.cxx 2800-2850: RemoveADirectory; None: the recursion went deeper than [fuel]. *)
Fixpoint remove_a_directory (fuel : nat) (f : fsys) (source : str) : option (fsys * bool) :=
  match fuel with
  | O => None
  | S fuel' =>
      let fix entries (f : fsys) (files : list str) : option (fsys * bool) :=
        match files with
        | [] => Some (sys_rmdir f source)
        | x :: rest =>
            if (str_eqb x (L ".") || str_eqb x (L ".."))%bool then entries f rest
            else
              let full := source ++ [slash] ++ x in
              if (file_is_directory f cwd full && negb (file_is_symlink f cwd full))%bool then
                match remove_a_directory fuel' f full with
                | None => None
                | Some (f', true) => entries f' rest
                | Some (f', false) => Some (f', false)
                end
              else match remove_file f full with
                   | (f', true) => entries f' rest
                   | (f', false) => Some (f', false)
                   end
        end in
      entries f (load f source)
  end.
End Calls.
