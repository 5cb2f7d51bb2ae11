(** ParserModel.v -- model of vital/config/config_parser.cxx (class priv,
    lines 130-721, and parse_config, 770-774).

    Not modelled: logging, m_last_line, m_current_file, block names and start
    lines kept for messages only, message texts of exceptions, errno. *)
From Verif Require Import Base ConfigModel ExpandModel.

(** A path names nothing readable, a directory or a file with a content.
    (kwiversys FileExists tests read access, so unreadable = NoFile.) *)
Inductive node := NoFile | Dir | File (content : str).

(** Everything outside the parser: the file system, the environment, and the
    kwiversys path functions, all arbitrary. *)
Record world := mkW {
  w_fs : str -> node;
  w_env : str -> option str;          (* SystemTools::GetEnv *)
  w_sysenv : str -> str;              (* token_type_sysenv::lookup_entry, "" when unknown *)
  w_full : str -> bool;               (* SystemTools::FileIsFullPath *)
  w_dirname : str -> str;             (* SystemTools::GetFilenamePath *)
  w_collapse : str -> str;            (* SystemTools::CollapseFullPath *)
  w_syspath : list str;               (* $CMAKE_FILE_PATH and $PATH entries *)
  w_search : list str }.              (* m_search_path, set by add_search_path *)

Definition file_exists (w : world) (p : str) : bool :=
  match w_fs w p with NoFile => false | _ => true end.
Definition is_dir (w : world) (p : str) : bool :=
  match w_fs w p with Dir => true | _ => false end.

(** std::getline over a whole stream. *)
Fixpoint lines_of (s : str) : list str :=
  match s with
  | [] => []
  | c :: r => if Ascii.eqb c "010" then [] :: lines_of r
              else match lines_of r with
                   | [] => [[c]]
                   | l :: ls => (c :: l) :: ls
                   end
  end.
(** config_parser.cxx 494-510: one line with outer white space and comment
    removed; [] means the line is skipped. *)
Definition cut_comment (s : str) : str := take_while (fun c => negb (Ascii.eqb c "#")) s.
Definition clean (line : str) : str :=
  let l1 := trim line in
  match l1 with
  | [] => []
  | _ => if existsb (fun c => Ascii.eqb c "#") l1 then trim (cut_comment l1) else l1
  end.

(** config_parser.cxx 477-519 get_line: (line, remaining stream, line number). *)
Fixpoint get_line (lines : list str) (num : Z) : option (str * list str * Z) :=
  match lines with
  | [] => None
  | l :: ls => match clean l with
               | [] => get_line ls (num + 1)
               | c => Some (c, ls, (num + 1)%Z)
               end
  end.

(** config_parser.cxx 541-542: re_word and re_flag anchored at the start.
    re_word: a letter, then at least two of the class below, not ending in
    ':'.  Greedy matching with back-off gives the longest such prefix
    (RegexProps3.v proves that the modelled engine finds exactly this). *)
Definition word_char (c : ascii) : bool :=
  is_alpha c || is_digit c || Ascii.eqb c "-" || Ascii.eqb c "." || Ascii.eqb c ":" ||
  Ascii.eqb c "/" || Ascii.eqb c "_".
Definition back_off (s : str) : str := rev (drop_while (fun c => Ascii.eqb c ":") (rev s)).
Definition match_word (s : str) : option (str * str) :=
  match s with
  | c :: r =>
    if is_alpha c then
      let body := back_off (take_while word_char r) in
      if Nat.leb 2 (length body) then Some (c :: body, skipn (length body) r) else None
    else None
  | [] => None
  end.
Definition flag_char (c : ascii) : bool := is_alpha c || Ascii.eqb c ",".
Definition match_flag (s : str) : option (str * str) :=
  match s with
  | "["%char :: r =>
    let body := take_while flag_char r in
    match body, drop_while flag_char r with
    | _ :: _, "]"%char :: rest => Some ("["%char :: body ++ ["]"%char], rest)
    | _, _ => None
    end
  | _ => None
  end.

Inductive tok := TWord | TFlag | TAssign | TLocal | TError | TEof.

(** Members of priv that influence behaviour. *)
Record pst := mkP {
  p_heap : heap;            (* m_config_block is object 0 *)
  p_sym : smap str;         (* m_symtab *)
  p_ctx : str;              (* m_current_context *)
  p_blocks : list str;      (* m_block_stack: the previous contexts *)
  p_incs : list str;        (* m_include_stack, innermost first *)
  p_count : nat;            (* m_file_count *)
  p_err : bool;             (* m_parse_error *)
  p_line : Z;               (* m_line_number *)
  p_tl : str }.             (* m_token_line *)

Definition with_tl st tl := mkP (p_heap st) (p_sym st) (p_ctx st) (p_blocks st) (p_incs st) (p_count st) (p_err st) (p_line st) tl.
Definition with_line st n := mkP (p_heap st) (p_sym st) (p_ctx st) (p_blocks st) (p_incs st) (p_count st) (p_err st) n (p_tl st).
Definition with_err st := mkP (p_heap st) (p_sym st) (p_ctx st) (p_blocks st) (p_incs st) (p_count st) true (p_line st) (p_tl st).
Definition with_heap st h := mkP h (p_sym st) (p_ctx st) (p_blocks st) (p_incs st) (p_count st) (p_err st) (p_line st) (p_tl st).
Definition with_sym st s := mkP (p_heap st) s (p_ctx st) (p_blocks st) (p_incs st) (p_count st) (p_err st) (p_line st) (p_tl st).
Definition with_ctx st c b := mkP (p_heap st) (p_sym st) c b (p_incs st) (p_count st) (p_err st) (p_line st) (p_tl st).
Definition with_incs st i n := mkP (p_heap st) (p_sym st) (p_ctx st) (p_blocks st) i n (p_err st) (p_line st) (p_tl st).

(** config_parser.cxx 605-608 flush_line. *)
Definition flush_line st := with_tl st [].

(** config_parser.cxx 536-596 get_token: (type, value, state, stream). *)
Definition scan (tl : str) : tok * str * str :=   (* token, value, rest of line *)
  if str_eqb (firstn 2 tl) (L ":=") then (TLocal, trim (skipn 2 tl), [])
  else match tl with
  | "="%char :: r => (TAssign, trim r, [])
  | _ =>
    match match_flag tl with
    | Some (f, r) => (TFlag, f, trim r)
    | None =>
      match match_word tl with
      | Some (wd, r) => (TWord, wd, trim r)
      | None => (TError, tl, [])
      end
    end
  end.
Definition get_token (st : pst) (ls : list str) : tok * str * pst * list str :=
  let fetched :=
    match p_tl st with
    | [] => match get_line ls (p_line st) with
            | None => None
            | Some (l, ls', n) => Some (with_tl (with_line st n) l, ls')
            end
    | _ => Some (st, ls)
    end in
  match fetched with
  | None => (TEof, [], with_line st (p_line st + Z.of_nat (length ls)), [])
  | Some (st1, ls1) =>
    let '(t, v, rest) := scan (p_tl st1) in
    let st2 := with_tl st1 rest in
    (t, v, match t with TError => with_err st2 | _ => st2 end, ls1)
  end.

(** token types registered at 142-145: ENV, SYSENV, CONFIG and LOCAL. *)
Definition token_lookup (w : world) (st : pst) : token_types := fun ty =>
  if str_eqb ty (L "ENV") then Some (fun n => match w_env w n with Some v => v | None => [] end)
  else if str_eqb ty (L "SYSENV") then Some (w_sysenv w)
  else if str_eqb ty (L "CONFIG") then
    Some (fun n => match get_string (p_heap st) 0 n with Ok v => v | _ => [] end)
  else if str_eqb ty (L "LOCAL") then
    Some (fun n => match sfind n (p_sym st) with Some v => v | None => [] end)
  else None.

(** kwiversys/SystemTools.cxx 2865-2929 FindName and FindFile with
    no_system_path = false, as called by resolve_file_name. *)
Definition slash (p : str) : str :=
  match rev p with "/"%char :: _ => p | _ => p ++ L "/" end.
Definition find_name (w : world) (name : str) (paths : list str) : str :=
  match find (fun p => file_exists w (slash p ++ name)) (w_syspath w ++ paths) with
  | Some p => slash p ++ name
  | None => []
  end.
Definition find_file (w : world) (name : str) (paths : list str) : str :=
  match find_name w name paths with
  | [] => []
  | t => if is_dir w t then [] else w_collapse w t
  end.

(** config_parser.cxx 186-191 and 658-662. *)
Definition dir_of (w : world) (file : str) : str :=
  match w_dirname w file with [] => L "." | d => d end.
(** 652-671: the directories of the include stack, innermost first, without repeats. *)
Fixpoint dedup (seen : list str) (l : list str) : list str :=
  match l with
  | [] => []
  | d :: r => if existsb (str_eqb d) seen then dedup seen r else d :: dedup (d :: seen) r
  end.
(** config_parser.cxx 636-674 resolve_file_name. *)
Definition resolve_file_name (w : world) (incs : list str) (name : str) : str :=
  if w_full w name then name
  else match find_file w name (w_search w) with
       | [] => find_file w name (dedup [] (map (dir_of w) incs))
       | r => r
       end.

(** Exceptions leaving the parser. *)
Inductive pexn :=
| FileNotFound (path : str)        (* config_file_not_found_exception *)
| NotParsed (file : str)           (* config_file_not_parsed_exception *)
| CfgExn (e : exn).                (* thrown by the config block *)

Inductive presult :=
| PDone (st : pst)
| PThrow (e : pexn) (st : pst)     (* the parser state when the exception left *)
| PStuck                           (* outcome excluded by theorem: UB in the config block *)
| PFuel.                           (* loop bound of the model exhausted *)

(** config_parser.cxx 387-406: the flags loop; the fuel is the number of
    characters left, each flag consumes some. (read_only, token after the flags) *)
Fixpoint contains (pat s : str) : bool :=
  is_prefix pat s || match s with [] => false | _ :: r => contains pat r end.
Fixpoint flags (n : nat) (ro : bool) (t : tok) (v : str) (st : pst) (ls : list str)
  : option (bool * tok * str * pst * list str) :=
  match t with
  | TFlag =>
    match n with
    | O => None
    | S n' =>
      let is_ro := contains (L "[RO]") (map to_upper v) in
      let st1 := if is_ro then st else with_err st in
      let '(t2, v2, st2, ls2) := get_token st1 ls in
      flags n' (ro || is_ro) t2 v2 st2 ls2
    end
  | _ => Some (ro, t, v, st, ls)
  end.

(** 416-434: m_config_block->set_value, set_location, mark_read_only. *)
Definition assign (h : heap) (key val file : str) (line : Z) (ro : bool) : heap * res unit :=
  match i_set_value h 0 key val [] with
  | (h1, Ok _) =>
    match set_location h1 0 key file line with
    | (h2, Ok _) => if ro then mark_read_only h2 0 key else (h2, Ok tt)
    | r => r
    end
  | r => r
  end.

(** Total number of characters (plus one per line) still to be read. *)
Definition weight (tl : str) (ls : list str) : nat :=
  length tl + list_sum (map (fun l => S (length l)) ls).

(** config_parser.cxx 199-229: end of the current file. *)
Definition on_eof (file : str) (st1 : pst) : presult :=
  let st2 := with_incs st1 (tl (p_incs st1)) (pred (p_count st1)) in
  match p_count st2 with
  | O =>
    let st3 := match p_blocks st2 with
               | [] => st2
               | _ => with_err (with_ctx st2 (p_ctx st2) [])
               end in
    if p_err st3 then PThrow (NotParsed file) st3 else PDone st3
  | _ => PDone st2
  end.

(** config_parser.cxx 232-459: one statement whose first token is (t, v),
    followed by [rec] = the rest of the loop.  An include calls [rec] on the
    other file's stream (process_file, 159-184) and then goes on. *)
Definition stmt_include (rec : str -> pst -> list str -> presult) (w : world) (file : str)
           (st1 : pst) (ls1 : list str) : presult :=        (* 232-281 *)
  let name := expand (token_lookup w st1) (p_tl st1) in
  let path := resolve_file_name w (p_incs st1) name in
  match path with
  | [] => PThrow (FileNotFound name) st1
  | _ =>
    let st2 := flush_line st1 in
    match w_fs w path with
    | NoFile => PThrow (FileNotFound name) st2
    | Dir => PThrow (FileNotFound path) st2
    | File content =>
      let st3 := with_incs (with_line (with_tl st2 []) 0) (path :: p_incs st2) (S (p_count st2)) in
      match rec path st3 (lines_of content) with
      | PDone st4 => rec file (with_line st4 (p_line st1)) ls1
      | r => r
      end
    end
  end.
Definition stmt_block (rec : str -> pst -> list str -> presult) (file : str)
           (st1 : pst) (ls1 : list str) : presult :=        (* 284-318 *)
  let '(t2, v2, st2, ls2) := get_token st1 ls1 in
  match t2 with
  | TWord =>
    rec file (flush_line (with_ctx st2 (p_ctx st2 ++ v2 ++ block_sep) (p_ctx st2 :: p_blocks st2))) ls2
  | _ => rec file (flush_line (with_err st2)) ls2
  end.
Definition stmt_endblock (rec : str -> pst -> list str -> presult) (file : str)
           (st1 : pst) (ls1 : list str) : presult :=        (* 321-341 *)
  let st2 := flush_line st1 in
  match p_blocks st2 with
  | [] => PThrow (NotParsed file) st2
  | c :: bs => rec file (with_ctx st2 c bs) ls1
  end.
Definition stmt_entry (rec : str -> pst -> list str -> presult) (w : world) (file : str) (rel : bool)
           (t2 : tok) (v2 : str) (st2 : pst) (ls2 : list str) : presult :=   (* 358-459 *)
  match t2 with
  | TWord =>
    let '(t3, v3, st3, ls3) := get_token st2 ls2 in
    match flags (S (weight (p_tl st3) ls3)) false t3 v3 st3 ls3 with
    | None => PFuel
    | Some (ro, t4, v4, st4, ls4) =>
      match t4 with
      | TAssign =>
        let key := p_ctx st4 ++ v2 in
        let val0 := expand (token_lookup w st4) v4 in
        let val := if rel then dir_of w file ++ L "/" ++ val0 else val0 in
        match assign (p_heap st4) key val file (p_line st4) ro with
        | (h', Ok _) => rec file (with_heap st4 h') ls4
        | (h', Throw e) => PThrow (CfgExn e) (with_heap st4 h')
        | _ => PStuck
        end
      | TLocal =>
        rec file (with_sym st4 (sset v2 (expand (token_lookup w st4) v4) (p_sym st4))) ls4
      | _ => rec file (flush_line (with_err st4)) ls4
      end
    end
  | _ => rec file (flush_line (with_err st2)) ls2
  end.
Definition stmt (rec : str -> pst -> list str -> presult) (w : world) (file : str)
           (t : tok) (v : str) (st1 : pst) (ls1 : list str) : presult :=
  if str_eqb v (L "include") then stmt_include rec w file st1 ls1
  else if str_eqb v (L "block") then stmt_block rec file st1 ls1
  else if str_eqb v (L "endblock") then stmt_endblock rec file st1 ls1
  else if str_eqb v (L "relativepath") then                 (* 344-355 *)
    let '(t', v', st', ls') := get_token st1 ls1 in
    stmt_entry rec w file true t' v' st' ls'
  else stmt_entry rec w file false t v st1 ls1.

(** config_parser.cxx 193-460: the statement loop of process_file. *)
Fixpoint loop (n : nat) (w : world) (file : str) (st : pst) (ls : list str) {struct n} : presult :=
  match n with
  | O => PFuel
  | S n' =>
    let '(t, v, st1, ls1) := get_token st ls in
    match t with
    | TEof => on_eof file st1
    | _ => stmt (fun f s l => loop n' w f s l) w file t v st1 ls1
    end
  end.

(** config_parser.cxx 159-184 process_file for the main file: opening a
    directory succeeds on POSIX and reads nothing. *)
Definition process_main (n : nat) (w : world) (file : str) (st : pst) : presult :=
  let st1 := with_line (with_tl st []) 0 in
  let enter := with_incs st1 (file :: p_incs st1) (S (p_count st1)) in
  match w_fs w file with
  | NoFile => PThrow (FileNotFound file) st1
  | Dir => loop n w file enter []
  | File content => loop n w file enter (lines_of content)
  end.

(** config_parser.cxx 133-146: a fresh parser with its empty config block. *)
Definition fresh : pst := mkP [new_block [] None] [] [] [] [] 0 false 0 [].

(** parse_config on a fresh parser (as read_config_file does). *)
Definition parse (n : nat) (w : world) (file : str) : presult := process_main n w file fresh.
