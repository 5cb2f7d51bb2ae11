(** PathModel.v -- the path functions of vital/kwiversys/SystemTools.cxx that
    vital calls, as compiled on UNIX (not _WIN32, __CYGWIN__, __APPLE__, __VMS).
    Strings hold no NUL character (the code goes through c_str()). *)
From Coq Require Import List Ascii Bool Arith.
Import ListNotations.
From Verif Require Import Base.

(** What the functions ask the system: HOME, the home directory of a user
    (getpwnam), getcwd, other environment variables, access(R_OK) and stat, and
    the contents of TranslationMap in key order (SystemTools.cxx 5330-5391). *)
Record penv := mkPenv {
  e_home : option str;
  e_pw : str -> option str;
  e_cwd : option str;
  e_var : str -> option str;
  e_exists : str -> bool;
  e_isdir : str -> bool;
  e_trans : list (str * str)
}.

Definition slash : ascii := "/"%char.
Definition backslash : ascii := "\"%char.
Definition is_sep (c : ascii) : bool := (Ascii.eqb c slash || Ascii.eqb c backslash)%bool.

(** std::string::find(c) and rfind(c): the text before and after. *)
Fixpoint fsplit (c : ascii) (s : str) : option (str * str) :=
  match s with
  | [] => None
  | x :: r => if Ascii.eqb x c then Some ([], r)
              else match fsplit c r with Some (a, b) => Some (x :: a, b) | None => None end
  end.
Fixpoint rsplit (c : ascii) (s : str) : option (str * str) :=
  match s with
  | [] => None
  | x :: r => match rsplit c r with
              | Some (a, b) => Some (x :: a, b)
              | None => if Ascii.eqb x c then Some ([], r) else None
              end
  end.

(** SystemTools.cxx 4170-4184: GetFilenameName. *)
Definition get_filename_name (s : str) : str := match rsplit slash s with Some (_, b) => b | None => s end.
(** 4192-4204: GetFilenameExtension. *)
Definition get_filename_extension (s : str) : str :=
  match fsplit "." (get_filename_name s) with Some (_, b) => "."%char :: b | None => [] end.
(** 4210-4222: GetFilenameLastExtension. *)
Definition get_filename_last_extension (s : str) : str :=
  match rsplit "." (get_filename_name s) with Some (_, b) => "."%char :: b | None => [] end.
(** 4228-4240: GetFilenameWithoutExtension. *)
Definition get_filename_without_extension (s : str) : str :=
  match fsplit "." (get_filename_name s) with Some (a, _) => a | None => get_filename_name s end.
(** 4248-4261: GetFilenameWithoutLastExtension. *)
Definition get_filename_without_last_extension (s : str) : str :=
  match rsplit "." (get_filename_name s) with Some (a, _) => a | None => get_filename_name s end.

(** strstr *)
Fixpoint find_sub (pat s : str) : option (str * str) :=
  if is_prefix pat s then Some ([], skipn (length pat) s)
  else match s with
       | [] => None
       | c :: r => match find_sub pat r with Some (a, b) => Some (c :: a, b) | None => None end
       end.
(** SystemTools.cxx 776-836: ReplaceString (the do-while loop over strstr). *)
Fixpoint replace_loop (fuel : nat) (pat w s : str) : option str :=
  match fuel with
  | O => None
  | S n => match find_sub pat s with
           | None => Some s
           | Some (a, b) => match replace_loop n pat w b with Some r => Some (a ++ w ++ r) | None => None end
           end
  end.
Definition replace_string (source pat w : str) : option str :=
  match pat with [] => Some source | _ => replace_loop (S (length source)) pat w source end.

(** 2004-2012: backslashes not followed by a blank become slashes. *)
Fixpoint conv_slashes (s : str) : str :=
  match s with
  | [] => []
  | c :: r => (if (Ascii.eqb c backslash && negb (match r with d :: _ => Ascii.eqb d " " | [] => false end))%bool then slash else c) :: conv_slashes r
  end.
(** 2014-2032: two slashes in a row; the character in front of them may be any,
    but there must be one (pos1 starts at the second character).  The characters
    after the current one are not yet converted. *)
Fixpoint two_slashes (s : str) : bool :=
  match s with
  | [] => false
  | c :: r => ((Ascii.eqb c slash && match r with d :: _ => Ascii.eqb d slash | [] => false end) || two_slashes r)%bool
  end.
Definition has_double_slash (s : str) : bool := match s with [] => false | _ :: r => two_slashes r end.
(** 2042-2060: leading ~ or ~user. *)
Definition expand_tilde (e : penv) (p : str) : str :=
  match p with
  | c :: r =>
    if Ascii.eqb c "~" then
      match r with
      | [] => match e_home e with Some h => h ++ r | None => p end
      | d :: _ =>
        if Ascii.eqb d slash then match e_home e with Some h => h ++ r | None => p end
        else let user := take_while (fun x => negb (Ascii.eqb x slash)) r in
             let rest := drop_while (fun x => negb (Ascii.eqb x slash)) r in
             match e_pw e user with Some d => d ++ rest | None => p end
      end
    else p
  | [] => []
  end.
(** 2062-2073: trailing slash. *)
Definition strip_trailing (p : str) : str :=
  let size := length p in
  if ((1 <? size) && Ascii.eqb (last p " "%char) slash && negb ((size =? 3) && Ascii.eqb (nth 1 p " "%char) ":"))%bool then removelast p else p.
(** SystemTools.cxx 1996-2075: ConvertToUnixSlashes. *)
Definition convert_to_unix_slashes (e : penv) (path : str) : option str :=
  let p := conv_slashes path in
  match (if has_double_slash path then replace_string p [slash; slash] [slash] else Some p) with
  | None => None
  | Some [] => Some []
  | Some p => Some (strip_trailing (expand_tilde e p))
  end.

(** SystemTools.cxx 4141-4164: GetFilenamePath. *)
Definition get_filename_path (e : penv) (filename : str) : option str :=
  match convert_to_unix_slashes e filename with
  | None => None
  | Some fn =>
    match rsplit slash fn with
    | Some (ret, _) =>
      if ((length ret =? 2) && Ascii.eqb (nth 1 ret " "%char) ":")%bool then Some (ret ++ [slash])
      else match ret with [] => Some [slash] | _ => Some ret end
    | None => Some []
    end
  end.
(** 4854-4857: GetParentDirectory. *)
Definition get_parent_directory := get_filename_path.

(** 3865-3948: SplitPathRootComponent; root and remaining path. *)
Definition split_root (p : str) : str * str :=
  match p with
  | a :: b :: r =>
    if ((Ascii.eqb a slash && Ascii.eqb b slash) || (Ascii.eqb a backslash && Ascii.eqb b backslash))%bool then ([slash; slash], r)
    else if is_sep a then ([slash], b :: r)
    else if Ascii.eqb b ":" then
      match r with
      | c :: r' => if is_sep c then ([a; ":"%char; slash], r') else ([a; ":"%char], r)
      | [] => ([a; ":"%char], r)
      end
    else if Ascii.eqb a "~" then
      let user := take_while (fun x => negb (Ascii.eqb x slash)) (b :: r) in
      let rest := drop_while (fun x => negb (Ascii.eqb x slash)) (b :: r) in
      (a :: user ++ [slash], match rest with _ :: t => t | [] => [] end)
    else ([], p)
  | [a] =>
    if is_sep a then ([slash], [])
    else if Ascii.eqb a "~" then (["~"%char; slash], [])
    else ([], p)
  | [] => ([], [])
  end.
(** 4003-4023: the remaining components. *)
Fixpoint pieces_from (cur s : str) : list str :=
  match s with
  | [] => [cur]
  | c :: r => if is_sep c then cur :: pieces_from [] r else pieces_from (cur ++ [c]) r
  end.
Definition pieces (s : str) : list str := match s with [] => [] | _ => pieces_from [] s end.
(** 3991-3995: one trailing separator of the home directory is dropped. *)
Definition drop_last_sep (s : str) : str := match s with [] => [] | _ => if is_sep (last s " "%char) then removelast s else s end.
(** SystemTools.cxx 3951-4024: SplitPath with expand_home_dir = true.  The call
    for the home directory is recursive ([fuel]; None: deeper than that). *)
Fixpoint split_path (fuel : nat) (e : penv) (p : str) : option (list str) :=
  match fuel with
  | O => None
  | S n =>
    let '(root, rest) := split_root p in
    match root with
    | c :: _ =>
      if Ascii.eqb c "~" then
        let root := removelast root in
        let homedir := if length root =? 1 then match e_home e with Some h => h | None => [] end
                       else match e_pw e (tl root) with Some d => d | None => [] end in
        match split_path n e (drop_last_sep homedir) with
        | Some comps => Some (comps ++ pieces rest)
        | None => None
        end
      else Some (root :: pieces rest)
    | [] => Some (root :: pieces rest)
    end
  end.

(** SystemTools.cxx 3530-3554: SystemToolsAppendComponents. *)
Definition append_component (out : list str) (c : str) : list str :=
  if str_eqb c (L "..") then (if 1 <? length out then removelast out else out)
  else if (negb (match c with [] => true | _ => false end) && negb (str_eqb c (L ".")))%bool then out ++ [c]
  else out.
Definition append_components (out comps : list str) : list str := fold_left append_component comps out.
(** 4029-4066: JoinPath. *)
Fixpoint join_rest (l : list str) : str := match l with [] => [] | c :: r => slash :: c ++ join_rest r end.
Definition join_path (l : list str) : str :=
  match l with
  | [] => []
  | [a] => a
  | a :: b :: r => a ++ b ++ join_rest r
  end.
(** 3499-3528: CheckTranslationPath. *)
Definition check_translation (e : penv) (path : str) : str :=
  if length path <? 2 then path
  else removelast (fold_left (fun p ab => if is_prefix (fst ab) p then snd ab ++ skipn (length (fst ab)) p else p) (e_trans e) (path ++ [slash])).
(** SystemTools.cxx 3556-3625 and 3627-3680: CollapseFullPath; [base] is None for
    the overload without base or with a null base. *)
Definition collapse_full_path (fuel : nat) (e : penv) (in_path : str) (base : option str) : option str :=
  match split_path fuel e in_path with
  | None => None
  | Some pc =>
    match (match nth 0 pc [] with
           | [] => match (match base with Some b => split_path fuel e b
                                        | None => match e_cwd e with Some cwd => split_path fuel e cwd | None => Some [[]] end end) with
                   | None => None
                   | Some bc => Some (append_components [nth 0 bc []] (tl bc))
                   end
           | _ => Some []
           end) with
    | None => None
    | Some out => Some (check_translation e (join_path (append_components out pc)))
    end
  end.

(** 4457-4501: FileIsFullPath. *)
Definition file_is_full_path (s : str) : bool :=
  match s with [] => false | c :: _ => (Ascii.eqb c "~" || Ascii.eqb c slash)%bool end.

(** 1841-1865: SplitString(p, '/', true); a piece has at least one character
    if there is one left, so a separator at its start belongs to it. *)
Fixpoint split_string_from (started : bool) (cur s : str) : list str :=
  match s with
  | [] => [cur]
  | c :: r => if (started && Ascii.eqb c slash)%bool then cur :: split_string_from false [] r else split_string_from true (cur ++ [c]) r
  end.
Definition split_string (p : str) : list str :=
  match p with
  | [] => []
  | c :: r => if Ascii.eqb c slash then [slash] :: split_string_from false [] r else split_string_from false [] p
  end.
(** 3701-3722: the common start is dropped from both. *)
Fixpoint drop_common (l r : list str) : nat * list str * list str :=
  match l, r with
  | a :: l', b :: r' => if str_eqb a b then let '(n, x, y) := drop_common l' r' in (S n, x, y) else (0, l, r)
  | _, _ => (0, l, r)
  end.
Definition nonempty (s : str) : bool := match s with [] => false | _ => true end.
(** 3757-3768 *)
Definition add_relative (acc c : str) : str :=
  (if (nonempty acc && negb (Ascii.eqb (last acc " "%char) slash))%bool then acc ++ [slash] else acc) ++ c.
(** SystemTools.cxx 3683-3770: RelativePath. *)
Definition relative_path (fuel : nat) (e : penv) (local remote : str) : option str :=
  if negb (file_is_full_path local) then Some []
  else if negb (file_is_full_path remote) then Some []
  else match collapse_full_path fuel e local None, collapse_full_path fuel e remote None with
  | Some l, Some r =>
    let '(same, ls, rs) := drop_common (split_string l) (split_string r) in
    if same =? 0 then Some remote
    else Some (fold_left add_relative (map (fun _ => L "../") (filter nonempty ls) ++ filter nonempty rs) [])
  | _, _ => None
  end.

(** 4859-4875: IsSubDirectory. *)
Definition is_sub_directory (e : penv) (csubdir cdir : str) : option bool :=
  match cdir with
  | [] => Some false
  | _ => match convert_to_unix_slashes e csubdir, convert_to_unix_slashes e cdir with
         | Some subdir, Some dir =>
           if ((length dir <? length subdir) && Ascii.eqb (nth (length dir) subdir " "%char) slash)%bool
           then Some (str_eqb (firstn (length dir) subdir) dir) else Some false
         | _, _ => None
         end
  end.

(** SystemTools.cxx 409-454: GetPath; [env] is the variable. *)
Fixpoint split_colons (cur s : str) : list str :=
  match s with
  | [] => []
  | c :: r => if Ascii.eqb c ":" then cur :: split_colons [] r else split_colons (cur ++ [c]) r
  end.
Fixpoint map_opt {A B} (f : A -> option B) (l : list A) : option (list B) :=
  match l with [] => Some [] | a :: r => match f a, map_opt f r with Some b, Some bs => Some (b :: bs) | _, _ => None end end.
Definition get_path (e : penv) (env : str) : option (list str) :=
  match e_var e env with
  | None => Some []
  | Some v =>
    let v := match v with [] => [] | _ => if Ascii.eqb (last v " "%char) ":" then v else v ++ L ":" end in
    map_opt (convert_to_unix_slashes e) (split_colons [] v)
  end.
(** 2866-2910: FindName. *)
Definition add_slash (p : str) : str := match p with [] => [slash] | _ => if Ascii.eqb (last p " "%char) slash then p else p ++ [slash] end.
Definition find_name (e : penv) (name : str) (user_paths : list str) (no_system_path : bool) : option str :=
  match (if no_system_path then Some [] else
         match get_path e (L "CMAKE_FILE_PATH"), get_path e (L "PATH") with Some a, Some b => Some (a ++ b) | _, _ => None end) with
  | None => None
  | Some sys =>
    Some (match find (fun p => e_exists e (p ++ name)) (map add_slash (sys ++ user_paths)) with Some p => p ++ name | None => [] end)
  end.
(** 2917-2929: FindFile; 2936-2948: FindDirectory. *)
Definition find_file (fuel : nat) (e : penv) (name : str) (user_paths : list str) (no_system_path : bool) : option str :=
  match find_name e name user_paths no_system_path with
  | None => None
  | Some t => if (nonempty t && negb (e_isdir e t))%bool then collapse_full_path fuel e t None else Some []
  end.
Definition find_directory (fuel : nat) (e : penv) (name : str) (user_paths : list str) (no_system_path : bool) : option str :=
  match find_name e name user_paths no_system_path with
  | None => None
  | Some t => if (nonempty t && e_isdir e t)%bool then collapse_full_path fuel e t None else Some []
  end.
(** 4085-4106: Split(str, lines, separator): the lines and whether the text ended with the separator. *)
Fixpoint split_sep_from (sep : ascii) (cur s : str) : list str * bool :=
  match s with
  | [] => match cur with [] => ([], true) | _ => ([cur], false) end
  | c :: r => if Ascii.eqb c sep then let '(l, b) := split_sep_from sep [] r in (cur :: l, b) else split_sep_from sep (cur ++ [c]) r
  end.
Definition split_sep (sep : ascii) (s : str) : list str * bool := split_sep_from sep [] s.
