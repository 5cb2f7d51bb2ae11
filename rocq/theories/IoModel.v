(** IoModel.v -- model of vital/config/config_block_io.cxx (Linux branches).
    Not modelled: logging, the creation of missing directories and the ofstream
    of write_config_file (the text written is the model's result). *)
From Verif Require Import Base Numbers ConfigModel ExpandModel ParserModel TokenizeModel.

(** config_block_io.cxx 132-163: the words of one line of the comment; the
    result is the list of lines flushed, the last one being the final flush. *)
Definition line_width : nat := 80.
Fixpoint fill (words : list str) (line : str) (spaces : nat) : list str :=
  match words with
  | [] => [line]
  | [] :: ws => fill ws line (S spaces)
  | w :: ws =>
    if Nat.ltb line_width (length line + spaces + length w)
    then line :: fill ws (L "#" ++ repeat " "%char 1 ++ w) 1
    else fill ws (line ++ repeat " "%char spaces ++ w) 1
  end.
Definition eol_of (l : str) : str := l ++ ["010"%char].
Definition comment_lines (comment : str) : list str :=
  concat (map (fun block => fill (tokenize block [] (L " ") false) (L "#") 1)
              (tokenize comment [] ["010"%char] false)).
(** config_block_io.cxx 107-171 write_cb_comment. *)
Definition write_cb_comment (comment : str) : str :=
  ["010"%char] ++ concat (map eol_of (comment_lines comment)).

(** std::sort of strings. *)
Fixpoint insert (k : str) (l : list str) : list str :=
  match l with
  | [] => [k]
  | x :: r => match str_cmp x k with Lt => x :: insert k r | _ => k :: l end
  end.
Definition sort (l : list str) : list str := fold_right insert [] l.

Inductive wexn := NoParameters | WCfg (e : exn).
Inductive wres := WOk | WThrow (e : wexn) | WStuck.
Definition of_res {A} (r : res A) : wres :=
  match r with Ok _ => WOk | Throw e => WThrow (WCfg e) | _ => WStuck end.

(** config_block_io.cxx 420-451: (text written, outcome). *)
Fixpoint write_loop (h : heap) (id : nat) (prev_had_descr : bool) (keys : list str) : str * wres :=
  match keys with
  | [] => ([], WOk)
  | key :: rest =>
    match get_description h id key with
    | Ok descr =>
      let '(head, prev) :=
        match descr with
        | [] => if prev_had_descr then (["010"%char], false) else ([], false)
        | _ => (write_cb_comment descr, true)
        end in
      match get_string h id key with
      | Ok v =>
        match get_location h id key with
        | Ok loc =>
          let here := match loc with
                      | Some (file, line) => eol_of (L "# defined - " ++ file ++ L ":" ++ dec line)
                      | None => []
                      end in
          let '(out, r) := write_loop h id prev rest in
          (head ++ eol_of (key ++ L " = " ++ v) ++ here ++ out, r)
        | r => (head ++ eol_of (key ++ L " = " ++ v), of_res r)
        end
      | r => (head ++ key ++ L " = ", of_res r)
      end
    | r => ([], of_res r)
    end
  end.
(** config_block_io.cxx 404-453 write_config. *)
Definition write_config (h : heap) (id : nat) : str * wres :=
  match available_values h id with
  | Ok [] => ([], WThrow NoParameters)
  | Ok keys => write_loop h id false (sort keys)
  | r => ([], of_res r)
  end.

(** kwiversys/SystemTools.cxx 409-454 GetPath, POSIX; [conv] is ConvertToUnixSlashes. *)
Definition get_path (conv : str -> str) (value : option str) : list str :=
  match value with
  | None => []
  | Some v =>
    let v' := match rev v with [] => v | c :: _ => if Ascii.eqb c ":" then v else v ++ L ":" end in
    map conv (removelast (tokenize v' [] (L ":") false))
  end.

(** config_block_io.cxx 81-99 application_paths. *)
Definition application_paths (paths : list str) (app ver : str) : list str :=
  concat (map (fun path => let app_path := path ++ L "/" ++ app in
                 match ver with [] => [] | _ => [app_path ++ L "/" ++ ver] end ++ [app_path]) paths).

(** config_block_io.cxx 178-262 config_file_paths (neither _WIN32 nor __APPLE__). *)
Definition config_file_paths (env : str -> option str) (conv : str -> str) (app ver prefix : str) : list str :=
  let home_dir := match env (L "HOME") with
                  | Some (c :: r) => [(c :: r) ++ L "/.config"]
                  | _ => []
                  end in
  let config_paths := get_path conv (env (L "XDG_CONFIG_HOME")) ++ home_dir ++ [L "/etc/xdg"; L "/etc"] in
  let nonstandard_prefix := negb (str_eqb prefix []) && negb (str_eqb prefix (L "/usr")) && negb (str_eqb prefix (L "/usr/local")) in
  let data_paths := [L "/usr/local/share"; L "/usr/share"] ++
                    (if nonstandard_prefix then [prefix ++ L "/share"] else []) in
  get_path conv (env (L "KWIVER_CONFIG_PATH")) ++
  application_paths config_paths app ver ++
  map (fun p => p ++ L "/config") (application_paths data_paths app ver) ++
  (if nonstandard_prefix then [prefix ++ L "/share/config"; prefix ++ L "/config"] else []).

(** Results of the readers: the configuration, or the exception thrown. *)
Inductive rresult := RDone (cfg : heap) | RThrow (e : pexn) | RStuck | RFuel.
Definition with_search (w : world) (paths : list str) : world :=
  mkW (w_fs w) (w_env w) (w_sysenv w) (w_full w) (w_dirname w) (w_collapse w) (w_syspath w) paths.

(** config_block_io.cxx 266-288 read_config_file( path, search ). *)
Definition read_file (n : nat) (w : world) (search : list str) (file : str) : rresult :=
  match w_fs w file with
  | File _ => match parse n (with_search w search) file with
              | PDone st => RDone (p_heap st)
              | PThrow e _ => RThrow e
              | PStuck => RStuck
              | PFuel => RFuel
              end
  | _ => RThrow (FileNotFound file)
  end.

(** config->merge_config( result ): two separate blocks put side by side. *)
Definition merge_into (cfg result : heap) : heap * res unit :=
  let '(h, r) := merge_config (cfg ++ result) 0 (length cfg) in (firstn (length cfg) h, r).

(** config_block_io.cxx 318-350: the search loop. *)
Fixpoint search_loop (n : nat) (w : world) (search : list str) (name : str) (merge : bool)
         (dirs : list str) (result : option heap) : rresult :=
  match dirs with
  | [] => match result with Some h => RDone h | None => RThrow (FileNotFound name) end
  | d :: ds =>
    let path := d ++ L "/" ++ name in
    match w_fs w path with
    | File _ =>
      match read_file n w search path with
      | RDone cfg =>
        if negb merge then RDone cfg
        else match result with
             | None => search_loop n w search name merge ds (Some cfg)
             | Some r =>
               match merge_into cfg r with
               | (h, Ok _) => search_loop n w search name merge ds (Some h)
               | (_, Throw e) => RThrow (CfgExn e)
               | _ => RStuck
               end
             end
      | r => r
      end
    | _ => search_loop n w search name merge ds result
    end
  end.
(** config_block_io.cxx 292-362 read_config_file( name, app, version, prefix, merge ). *)
Definition read_config (n : nat) (w : world) (conv : str -> str) (name app ver prefix : str) (merge : bool) : rresult :=
  let paths := config_file_paths (w_env w) conv app ver prefix in
  if w_full w name then read_file n w paths name
  else search_loop n w paths name merge (paths ++ [L "."]) None.
