(** MkdirModel.v -- SystemTools::MakeDirectory (vital/kwiversys/SystemTools.cxx)
    and the path checks of algo/image_io.cxx, over a small file system. *)
From Coq Require Import List Ascii Bool Arith.
Import ListNotations.
From Verif Require Import Base PathModel.

(** The file system as the calls see it: no links, one process; a location is
    the list of names below the root.  Directories and other files. *)
Record fs := mkFs { f_dir : list str -> bool; f_file : list str -> bool }.
Fixpoint loc_eqb (a b : list str) : bool :=
  match a, b with [] , [] => true | x :: a', y :: b' => (str_eqb x y && loc_eqb a' b')%bool | _, _ => false end.
Definition f_present (f : fs) (l : list str) : bool := (f_dir f l || f_file f l)%bool.

(** What the kernel does with a path name: names between slashes, from the root
    or the working directory [cwd]; every name passed through must be a directory. *)
Fixpoint names_from (cur s : str) : list str :=
  match s with
  | [] => match cur with [] => [] | _ => [cur] end
  | c :: r => if Ascii.eqb c slash then match cur with [] => names_from [] r | _ => cur :: names_from [] r end else names_from (cur ++ [c]) r
  end.
Definition step_dir (f : fs) (at_ : option (list str)) (n : str) : option (list str) :=
  match at_ with
  | None => None
  | Some l => if f_dir f l then Some (if str_eqb n (L ".") then l else if str_eqb n (L "..") then removelast l else l ++ [n]) else None
  end.
Definition start (cwd : list str) (p : str) : list str := match p with c :: _ => if Ascii.eqb c slash then [] else cwd | [] => cwd end.
Definition resolve (f : fs) (cwd : list str) (p : str) : option (list str) :=
  match p with [] => None | _ => fold_left (step_dir f) (names_from [] p) (Some (start cwd p)) end.
(** SystemTools::FileExists (access R_OK; every file is taken to be readable) and FileIsDirectory (stat), SystemTools.cxx 1180-1230, 3016-3056.
    A trailing slash after a file name is not looked at. *)
Definition file_exists (f : fs) (cwd : list str) (p : str) : bool := match resolve f cwd p with Some l => f_present f l | None => false end.
Definition file_is_directory (f : fs) (cwd : list str) (p : str) : bool := match resolve f cwd p with Some l => f_dir f l | None => false end.
(** mkdir(2): [can] says where this process may create. *)
Inductive mkres := MkOk | MkExist | MkOther.
Definition mkdir (can : list str -> bool) (f : fs) (cwd : list str) (p : str) : fs * mkres :=
  match resolve f cwd p with
  | None => (f, MkOther)
  | Some l => if f_present f l then (f, MkExist)
              else if can l then (mkFs (fun x => (loc_eqb x l || f_dir f x)%bool) (f_file f), MkOk) else (f, MkOther)
  end.
(** SystemTools.cxx 747-752: the texts before each slash. *)
Fixpoint tops (pre s : str) : list str :=
  match s with [] => [] | c :: r => if Ascii.eqb c slash then pre :: tops (pre ++ [c]) r else tops (pre ++ [c]) r end.
(** SystemTools.cxx 733-772: MakeDirectory. *)
Definition make_directory (e : penv) (can : list str -> bool) (f : fs) (cwd : list str) (path : str) : option (fs * bool) :=
  if file_exists f cwd path then Some (f, file_is_directory f cwd path)
  else match path with
  | [] => Some (f, false)
  | _ => match convert_to_unix_slashes e path with
         | None => None
         | Some dir =>
           let f1 := fold_left (fun f t => fst (mkdir can f cwd t)) (tops [] dir) f in
           let '(f2, r) := mkdir can f1 cwd dir in
           Some (f2, match r with MkOther => false | _ => true end)
         end
  end.

(** algo/image_io.cxx 58-75: load; what is thrown, or None when load_ is called. *)
Inductive path_error := PathNotExists (p : str) | PathNotAFile (p : str) | PathNotADirectory (p : str).
Definition image_load_guard (f : fs) (cwd : list str) (filename : str) : option path_error :=
  if negb (file_exists f cwd filename) then Some (PathNotExists filename)
  else if file_is_directory f cwd filename then Some (PathNotAFile filename) else None.
(** algo/image_io.cxx 78-97: save; outer None: the path functions do not end. *)
Definition image_save_guard (fuel : nat) (e : penv) (f : fs) (cwd : list str) (filename : str) : option (option path_error) :=
  match collapse_full_path fuel e filename None with
  | None => None
  | Some full => match get_filename_path e full with
    | None => None
    | Some dir => Some (if negb (file_exists f cwd dir) then Some (PathNotExists dir)
                        else if negb (file_is_directory f cwd dir) then Some (PathNotADirectory dir) else None)
    end
  end.
