(** ParserSpec.v -- the configuration file language, declaratively: which
    texts are well formed and what they define.  No error handling, no loop
    bounds, no token buffers: a text with an error has no derivation. *)
From Verif Require Import Base ConfigModel ConfigSpec ExpandSpec ParserModel.

(** What a physical line says: the text before its first '#', without outer blanks. *)
Definition says (line text : str) : Prop :=
  exists a, (line = a \/ exists b, line = a ++ L "#" ++ b) /\ ~ In "#"%char a /\ is_trim a text.

Inductive token := Word (s : str) | Flag (s : str) | Assign (v : str) | Define (v : str).

Definition word_symbol (c : ascii) : Prop :=
  is_alpha c = true \/ is_digit c = true \/ In c (L "-.:/_").
(** Names: at least three characters, a letter first, not ending in a colon. *)
Definition is_word (s : str) : Prop :=
  exists c m e, s = c :: m ++ [e] /\ is_alpha c = true /\ m <> [] /\
    (forall x, In x (m ++ [e]) -> word_symbol x) /\ e <> ":"%char.
Definition is_flag (s : str) : Prop :=
  exists m, s = L "[" ++ m ++ L "]" /\ m <> [] /\
    forall x, In x m -> is_alpha x = true \/ x = ","%char.

(** First token of a non-blank text and what follows it on the line. *)
Inductive lexes : str -> token -> str -> Prop :=
| lx_define r t : is_trim r t -> lexes (L ":=" ++ r) (Define t) []
| lx_assign r t : is_trim r t -> lexes (L "=" ++ r) (Assign t) []
| lx_flag f r t : is_flag f -> is_trim r t -> lexes (f ++ r) (Flag f) t
| lx_word s r t : is_word s -> (forall s' r', s ++ r = s' ++ r' -> is_word s' -> length s' <= length s) ->
    is_trim r t -> lexes (s ++ r) (Word s) t.

(** A place in a file: rest of the current line, the lines after it, and the
    number of the current line. *)
Record pos := mkPos { here : str; after : list str; num : Z }.

Inductive next : pos -> token -> pos -> Prop :=
| nx_blank l ls n t p : says l [] -> next (mkPos [] ls (n + 1)) t p -> next (mkPos [] (l :: ls) n) t p
| nx_line l ls n c t r : says l c -> c <> [] -> lexes c t r ->
    next (mkPos [] (l :: ls) n) t (mkPos r ls (n + 1))
| nx_rest c ls n t r : c <> [] -> lexes c t r -> next (mkPos c ls n) t (mkPos r ls n).

Definition eol (p : pos) : pos := mkPos [] (after p) (num p).
Definition text (t : token) : str := match t with Word s | Flag s | Assign s | Define s => s end.
Definition keywords : list str := [L "include"; L "block"; L "endblock"; L "relativepath"].

(** Any number of flags, all of them [RO] up to case; true iff there is one. *)
Inductive ro_flags : pos -> bool -> token -> pos -> Prop :=
| rf_none p t p' : next p t p' -> (forall s, t <> Flag s) -> ro_flags p false t p'
| rf_one p s p1 b t p' : next p (Flag s) p1 -> map to_upper s = L "[RO]" -> ro_flags p1 b t p' ->
    ro_flags p true t p'.

(** What has been defined so far. *)
Record sst := mkS {
  s_cfg : heap;                          (* the configuration (object 0) *)
  s_sym : smap str;                      (* local definitions *)
  s_names : list str;                    (* open blocks, outermost first *)
  s_files : list str;                    (* files being read, innermost first *)
  s_log : list (str * str * bool) }.     (* assignments made: key, value, read-only *)

(** What macros refer to: ENV, SYSENV, CONFIG, LOCAL. *)
Definition macros (w : world) (s : sst) (ty : str) : option (str -> str) :=
  if str_eqb ty (L "ENV") then Some (fun n => match w_env w n with Some v => v | None => [] end)
  else if str_eqb ty (L "SYSENV") then Some (w_sysenv w)
  else if str_eqb ty (L "CONFIG") then
    Some (fun n => match get_string (s_cfg s) 0 n with Ok v => v | _ => [] end)
  else if str_eqb ty (L "LOCAL") then
    Some (fun n => match sfind n (s_sym s) with Some v => v | None => [] end)
  else None.

(** [relativepath] in front of an entry. *)
Inductive lhs : pos -> bool -> str -> pos -> Prop :=
| lhs_plain p k p' : next p (Word k) p' -> ~ In k keywords -> lhs p false k p'
| lhs_rel p t p1 k p' : next p t p1 -> text t = L "relativepath" -> next p1 (Word k) p' -> lhs p true k p'.

(** The rest of a file from a place on is well formed and takes the
    definitions [s] to [s'].  (As in the code, the directives are recognised
    by the text of the token alone.) *)
Inductive good (w : world) (file : str) : pos -> sst -> sst -> Prop :=
| g_eof ls n s : (forall l, In l ls -> says l []) -> good w file (mkPos [] ls n) s s
| g_block p t p1 nm p2 s s' :
    next p t p1 -> text t = L "block" -> next p1 (Word nm) p2 ->
    good w file (eol p2) (mkS (s_cfg s) (s_sym s) (s_names s ++ [nm]) (s_files s) (s_log s)) s' ->
    good w file p s s'
| g_end p t p1 s ns nm s' :
    next p t p1 -> text t = L "endblock" -> s_names s = ns ++ [nm] ->
    good w file (eol p1) (mkS (s_cfg s) (s_sym s) ns (s_files s) (s_log s)) s' ->
    good w file p s s'
| g_include p t p1 name path content s s1 s' :
    next p t p1 -> text t = L "include" -> expands (macros w s) (here p1) name ->
    path = resolve_file_name w (s_files s) name -> path <> [] -> w_fs w path = File content ->
    good w path (mkPos [] (lines_of content) 0)
      (mkS (s_cfg s) (s_sym s) (s_names s) (path :: s_files s) (s_log s)) s1 ->
    good w file (eol p1) (mkS (s_cfg s1) (s_sym s1) (s_names s1) (s_files s) (s_log s1)) s' ->
    good w file p s s'
| g_entry p rel k p1 ro v p2 v1 v2 h1 h2 h3 s s' :
    lhs p rel k p1 -> ro_flags p1 ro (Assign v) p2 ->
    expands (macros w s) v v1 -> v2 = (if rel then dir_of w file ++ L "/" ++ v1 else v1) ->
    i_set_value (s_cfg s) 0 (abs_key (s_names s) k) v2 [] = (h1, Ok tt) ->
    set_location h1 0 (abs_key (s_names s) k) file (num p2) = (h2, Ok tt) ->
    h3 = (if ro then fst (mark_read_only h2 0 (abs_key (s_names s) k)) else h2) ->
    good w file p2 (mkS h3 (s_sym s) (s_names s) (s_files s)
                       (s_log s ++ [(abs_key (s_names s) k, v2, ro)])) s' ->
    good w file p s s'
| g_define p rel k p1 ro v p2 v1 s s' :
    lhs p rel k p1 -> ro_flags p1 ro (Define v) p2 -> expands (macros w s) v v1 ->
    good w file p2 (mkS (s_cfg s) (sset k v1 (s_sym s)) (s_names s) (s_files s) (s_log s)) s' ->
    good w file p s s'.

Definition s_init (file : str) : sst := mkS [new_block [] None] [] [] [file] [].

(** A configuration file that defines [s]: a readable file, well formed, all blocks closed. *)
Definition defines (w : world) (file : str) (s : sst) : Prop :=
  exists lines, match w_fs w file with
                | NoFile => False | Dir => lines = [] | File c => lines = lines_of c
                end /\
    good w file (mkPos [] lines 0) (s_init file) s /\ s_names s = [].

(** [f] may include [g]: some line of [f] says "... include NAME", and NAME,
    after some macro expansion and search, names the readable file [g]. *)
Definition includes (w : world) (f g : str) : Prop :=
  exists content line q a arg known name files c,
    w_fs w f = File content /\ In line (lines_of content) /\
    says line (q ++ L "include" ++ a) /\ is_trim a arg /\ expands known arg name /\
    g = resolve_file_name w files name /\ w_fs w g = File c.

(** The non-blank texts of a list of physical lines. *)
Inductive reads : list str -> list str -> Prop :=
| reads_nil : reads [] []
| reads_blank l ls cs : says l [] -> reads ls cs -> reads (l :: ls) cs
| reads_text l c ls cs : says l c -> c <> [] -> reads ls cs -> reads (l :: ls) (c :: cs).

(** Two worlds that differ only in blanks and comments inside files. *)
Definition same_texts (w1 w2 : world) : Prop :=
  (forall p, match w_fs w1 p, w_fs w2 p with
             | NoFile, NoFile | Dir, Dir => True
             | File c1, File c2 => exists cs, reads (lines_of c1) cs /\ reads (lines_of c2) cs
             | _, _ => False
             end) /\
  w_env w1 = w_env w2 /\ w_sysenv w1 = w_sysenv w2 /\ w_full w1 = w_full w2 /\
  w_dirname w1 = w_dirname w2 /\ w_collapse w1 = w_collapse w2 /\
  w_syspath w1 = w_syspath w2 /\ w_search w1 = w_search w2.

(** Same key/value/description/read-only content, or the same exception. *)
Definition same_content (h1 h2 : heap) : Prop :=
  available_values h1 0 = available_values h2 0 /\
  forall k, has_value h1 0 k = has_value h2 0 k /\ get_string h1 0 k = get_string h2 0 k /\
            get_description h1 0 k = get_description h2 0 k /\ is_read_only h1 0 k = is_read_only h2 0 k.
Definition same_outcome (r1 r2 : presult) : Prop :=
  match r1, r2 with
  | PDone s1, PDone s2 => same_content (p_heap s1) (p_heap s2)
  | PThrow e1 s1, PThrow e2 s2 => e1 = e2 /\ same_content (p_heap s1) (p_heap s2)
  | PFuel, PFuel => True
  | _, _ => False
  end.
