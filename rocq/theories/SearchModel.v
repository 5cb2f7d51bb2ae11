(** SearchModel.v -- looking for programs, libraries and files
    (vital/kwiversys/SystemTools.cxx 2955-3202, 3347-3450, 4360-4452, 4547-4612).

    The environment [penv] and the path functions are those of PathModel.v; the
    answers of access and stat do not change during a call.  Simplifications:
    the Linux branches of the #ifs (no extensions, no .framework, no .lib);
    strings have no NUL byte where the code passes them through a C string.
    [None] stands for "no result": a recursion of CollapseFullPath deeper than
    [fuel] (see C85), or a loop not finished after [fuel] rounds. *)
From Verif Require Import Base ConfigModel PathModel.

(** [FileExists(p) && !FileIsDirectory(p)] *)
Definition usable (e : penv) (p : str) : bool := e_exists e p && negb (e_isdir e p).

(** 2969-3068: FindProgram. *)
Definition find_program (fuel : nat) (e : penv) (name : str) (user : list str) (no_system : bool) : option str :=
  if usable e name then collapse_full_path fuel e name None
  else match (if no_system then Some [] else get_path e (L "PATH")) with
       | None => None
       | Some sys =>
           match find (fun p => usable e (p ++ name)) (map add_slash (sys ++ user)) with
           | Some p => collapse_full_path fuel e (p ++ name) None
           | None => Some []
           end
       end.
(** 2955-2966: FindProgram of a [const char *]; [None] is NULL. *)
Definition find_program_c (fuel : nat) (e : penv) (name : option str) (user : list str) (no_system : bool) : option str :=
  match name with
  | None | Some [] => Some []
  | Some n => find_program fuel e n user no_system
  end.
(** 3070-3089: FindProgram of several names. *)
Fixpoint find_programs (fuel : nat) (e : penv) (names : list str) (user : list str) (no_system : bool) : option str :=
  match names with
  | [] => Some []
  | n :: r => match find_program fuel e n user no_system with
              | None => None
              | Some [] => find_programs fuel e r user no_system
              | Some p => Some p
              end
  end.

(** 3096-3202: FindLibrary; the five tries in one directory, 3145-3196. *)
Definition lib_try (e : penv) (p name : str) : option str :=
  if usable e (p ++ L "lib" ++ name ++ L ".so") then Some (p ++ L "lib" ++ name ++ L ".so")
  else if usable e (p ++ L "lib" ++ name ++ L ".a") then Some (p ++ L "lib" ++ name ++ L ".a")
  else if usable e (p ++ L "lib" ++ name ++ L ".sl") then Some (p ++ L "lib" ++ name ++ L ".sl")
  else if usable e (p ++ L "lib" ++ name ++ L ".dylib") then Some (p ++ L "lib" ++ name ++ L ".dylib")
  else if usable e (p ++ L "lib" ++ name ++ L ".dll") then Some (p ++ L "lib" ++ name ++ L ".dll")
  else None.
Fixpoint lib_loop (fuel : nat) (e : penv) (name : str) (path : list str) : option str :=
  match path with
  | [] => Some []
  | p :: r => match lib_try e p name with
              | Some t => collapse_full_path fuel e t None
              | None => lib_loop fuel e name r
              end
  end.
Definition find_library (fuel : nat) (e : penv) (name : str) (user : list str) : option str :=
  if usable e name then collapse_full_path fuel e name None
  else match get_path e (L "PATH") with
       | None => None
       | Some sys => lib_loop fuel e name (map add_slash (sys ++ user))
       end.

(** 3354-3385: SplitProgramPath; the return value, dir, file. *)
Definition split_program_path (e : penv) (in_name : str) : option (bool * str * str) :=
  match convert_to_unix_slashes e in_name with
  | None => None
  | Some d =>
      let '(dir, file) :=
        if e_isdir e d then (d, [])
        else match rsplit slash d with
             | Some (a, b) => (a, b)
             | None => ([], d)
             end in
      if nonempty dir && negb (e_isdir e dir) then Some (false, in_name, file) else Some (true, dir, file)
  end.
(** 3347-3352: GetProgramPath. *)
Definition get_program_path (e : penv) (in_name : str) : option str :=
  match split_program_path e in_name with Some (_, dir, _) => Some dir | None => None end.

(** 3387-3450: FindProgramPath.  [Null]: a NULL exeName appended to a string. *)
Inductive located_program := Found (path : str) | Failed (msg : str) | Null.
Definition quoted (s : str) : str := L "    """ ++ s ++ L """" ++ [ascii_of_nat 10].
Definition find_program_path (fuel : nat) (e : penv) (argv0 exe build prefix : option str) : option located_program :=
  let self0 := match argv0 with Some a => a | None => [] end in
  match convert_to_unix_slashes e self0 with
  | None => None
  | Some self1 =>
  match find_program fuel e self1 [] false with
  | None => None
  | Some self2 =>
    match (if negb (e_exists e self2) then
             match build with
             | Some b => match exe with Some x => Some (b ++ L "/bin/" ++ L "." ++ L "/" ++ x) | None => None end
             | None => Some self2
             end
           else Some self2) with
    | None => Some Null
    | Some self3 =>
    match (match prefix with
           | Some i => if negb (e_exists e self3)
                       then match exe with Some x => Some (i ++ L "/bin/" ++ x, [self0; self3]) | None => None end
                       else Some (self3, [self0])
           | None => Some (self3, [self0])
           end) with
    | None => Some Null
    | Some (self4, failures) =>
      if negb (e_exists e self4) then
        Some (Failed (L "Can not find the command line program " ++ match exe with Some x => x | None => [] end ++ [ascii_of_nat 10] ++
                      match argv0 with Some a => L "  argv[0] = """ ++ a ++ L """" ++ [ascii_of_nat 10] | None => [] end ++
                      L "  Attempted paths:" ++ [ascii_of_nat 10] ++ concat (map quoted (failures ++ [self4]))))
      else Some (Found self4)
    end
    end
  end
  end.

(** 4377-4391: the directory looked in. *)
Definition real_dir (e : penv) (dir : str) : option str := if e_isdir e dir then Some dir else get_filename_path e dir.
(** 4398-4406: [need_slash]. *)
Definition sep_after (dir : str) : str :=
  match dir with [] => [] | _ => if is_sep (last dir " "%char) then [] else [slash] end.
(** 4360-4452 with try_filename_dirs = 0; [Some (Some f)]: true, f found. *)
Definition locate0 (e : penv) (filename dir : str) : option (option str) :=
  let base := get_filename_name filename in
  match real_dir e dir with
  | None => None
  | Some d =>
      if nonempty base && e_exists e (d ++ sep_after d ++ base) then Some (Some (d ++ sep_after d ++ base)) else Some None
  end.
(** 4422-4447: the do-while loop. *)
Fixpoint locate_loop (fuel : nat) (e : penv) (base dir filename_dir bases : str) : option (option str) :=
  match fuel with
  | O => None
  | S n =>
      match get_filename_path e filename_dir with
      | None => None
      | Some fd =>
          match get_filename_name fd with
          | [] => Some None
          | b => let bases1 := b ++ [slash] ++ bases in
                 match locate0 e base (dir ++ sep_after dir ++ bases1) with
                 | None => None
                 | Some (Some f) => Some (Some f)
                 | Some None => locate_loop n e base dir fd bases1
                 end
          end
      end
  end.
(** 4360-4452; [None] arguments are NULL. *)
Definition locate_file_in_dir (fuel : nat) (e : penv) (filename dir : option str) (try_dirs : bool) : option (option str) :=
  match filename, dir with
  | Some f, Some dir =>
      let base := get_filename_name f in
      match real_dir e dir with
      | None => None
      | Some d =>
          if nonempty base then
            if e_exists e (d ++ sep_after d ++ base) then Some (Some (d ++ sep_after d ++ base))
            else if try_dirs then locate_loop fuel e base d f [] else Some None
          else Some None
      end
  | _, _ => Some None
  end.

(** ---- 4547-4612: SplitProgramFromArgs.  [ex] is FileExists, [fp] is
    FindProgram with no extra directories. ---- *)
(** [s.rfind(' ', pos)]; [None] as [pos] is npos, as a result too. *)
Fixpoint rfind_space (s : str) (pos : nat) : option nat :=
  if Ascii.eqb (nth pos s "000"%char) " " && Nat.ltb pos (length s) then Some pos
  else match pos with O => None | S p => rfind_space s p end.
Definition rfind_at (s : str) (pos : option nat) : option nat :=
  match s with
  | [] => None
  | _ => rfind_space s (match pos with Some p => Nat.min p (length s - 1) | None => length s - 1 end)
  end.
(** 4581-4586, 4595-4600: trailing blanks are erased; [program[npos]] is UB. *)
Fixpoint strip_blanks (n : nat) (program : str) : res str :=
  match program with
  | [] => UB
  | _ => if Ascii.eqb (last program "000"%char) " "
         then match n with O => NoFuel | S n => strip_blanks n (removelast program) end
         else Ok program
  end.
(** 4572-4607. *)
Fixpoint peel (fuel : nat) (ex : str -> bool) (fp : str -> str) (dir : str) (space : option nat) : res (str * str) :=
  match space with
  | None => Ok ([], [])
  | Some pos =>
      match fuel with
      | O => NoFuel
      | S n =>
          let try_prog := firstn pos dir in
          if ex try_prog then rbind (strip_blanks (length try_prog) try_prog) (fun p => Ok (p, skipn pos dir))
          else match fp try_prog with
               | [] => peel n ex fp dir (rfind_at dir (match pos with O => None | S p => Some p end))
               | prog => rbind (strip_blanks (length prog) prog) (fun p => Ok (p, skipn pos dir))
               end
      end
  end.
Definition split_program_from_args (fuel : nat) (ex : str -> bool) (fp : str -> str) (path : str) : res (str * str) :=
  if ex path then Ok (path, [])
  else match fp path with
       | [] => peel fuel ex fp path (rfind_at path None)
       | prog => Ok (prog, [])
       end.
