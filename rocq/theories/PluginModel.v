(** PluginModel.v -- vital/algorithm_plugin_manager.cxx (the loading of plugin
    modules; its two once-only functions are in OnceModel.v), CMake/templates/
    cxx/plugin_shell.cxx and the listing of vital/tools/plugin_explorer.cxx. *)
From Coq Require Import ZArith.
From Verif Require Import Base PathModel ConfigModel TokenizeModel AlgoModel.

Section Plugin.
(** The contents of the registrar, which only the modules change. *)
Variable R : Type.

(** What the entry point of a module, register_algo_impls, does: the registrar
    afterwards and the number returned, or None when it throws. *)
Definition entry := R -> R * option Z.
(** CMake/templates/cxx/plugin_shell.cxx 56-79: private_register_algo_impls. *)
Definition private_register (f : entry) (r : R) : R * Z :=
  match f r with (r', Some n) => (r', n) | (r', None) => (r', (-1)%Z) end.

(** The surroundings: the environment variable KWIVER_PLUGIN_PATH, the compiled
    DEFAULT_MODULE_PATHS and SHARED_LIB_SUFFIX, the file system as FileExists,
    FileIsDirectory and readdir show it, and the files that dlopen opens with
    the entry point dlsym finds in them. *)
Record pworld := mkWorld {
  w_env : option str;
  w_default : str;
  w_suffix : str;
  w_exists : str -> bool;
  w_isdir : str -> bool;
  w_list : str -> option (list str);
  w_lib : str -> option (option entry) }.

(** The manager (lines 96-102) with the registrar, the libraries opened and not
    closed (one entry per handle, oldest first) and, for the statements, the
    files that were passed to dlopen. *)
Record pm := mkPm { p_paths : list str; p_mods : smap str; p_reg : R; p_open : list str; p_tried : list str }.

(** Lines 285-305: the constructor.  PATH_SEPARATOR_CHAR is ':' (UNIX). *)
Definition new_manager (w : pworld) (r : R) : pm :=
  mkPm (match w_env w with Some s => fst (split_sep ":" s) | None => [] end ++ fst (split_sep ":" (w_default w))) [] r [] [].

(** Line 250: the key of a module. *)
Definition module_key (path : str) : str := get_filename_name (get_filename_without_last_extension path).

(** Lines 208-256: register_from_module. *)
Definition register_from_module (w : pworld) (p : pm) (path : str) : pm * bool :=
  let p1 := mkPm (p_paths p) (p_mods p) (p_reg p) (p_open p) (p_tried p ++ [path]) in
  match w_lib w path with
  | None => (p1, false)
  | Some None => (p1, false)
  | Some (Some f) =>
    let '(r', n) := private_register f (p_reg p) in
    if (0 <? n)%Z then (mkPm (p_paths p1) (p_mods p1) r' (p_open p1) (p_tried p1), false)
    else (mkPm (p_paths p1) (sset (module_key path) path (p_mods p1)) r' (p_open p1 ++ [path]) (p_tried p1), true)
  end.

(** Lines 168-175: the test of one directory entry. *)
Definition accept (w : pworld) (name file : str) : bool :=
  (str_eqb (get_filename_last_extension file) (w_suffix w)
   && ((length name =? 0) || str_eqb (get_filename_without_extension file) name)
   && negb (w_isdir w file))%bool.

(** Lines 140-191: load_modules_in_directory. *)
Definition load_modules_in_directory (w : pworld) (name : str) (p : pm) (dir : str) : pm :=
  if length dir =? 0 then p
  else if negb (w_exists w dir) then p
  else if negb (w_isdir w dir) then p
  else match w_list w dir with
       | None => p
       | Some files =>
         fold_left (fun p f => let file := dir ++ L "/" ++ f in if accept w name file then fst (register_from_module w p file) else p) files p
       end.

(** Lines 118-131, 353-360: load_from_search_paths and register_plugins. *)
Definition register_plugins (w : pworld) (name : str) (p : pm) : pm :=
  fold_left (load_modules_in_directory w name) (p_paths p) p.
(** Lines 366-372. *)
Definition add_search_path (dir : str) (p : pm) : pm :=
  mkPm (p_paths p ++ [dir]) (p_mods p) (p_reg p) (p_open p) (p_tried p).
(** Lines 375-381. *)
Definition get_search_path (p : pm) : list str := p_paths p.
(** Lines 264-273: in key order, as the map is walked. *)
Definition registered_module_names (p : pm) : list str := skeys (p_mods p).

(** Calls on the manager, in any order. *)
Inductive pcall := AddPath (dir : str) | Register (name : str).
Definition pstep (w : pworld) (p : pm) (c : pcall) : pm :=
  match c with AddPath d => add_search_path d p | Register n => register_plugins w n p end.
Definition prun (w : pworld) (p : pm) (cs : list pcall) : pm := fold_left (pstep w) cs p.
End Plugin.
Arguments mkWorld {R}. Arguments mkPm {R}.
Arguments w_env {R}. Arguments w_default {R}. Arguments w_suffix {R}. Arguments w_exists {R}. Arguments w_isdir {R}. Arguments w_list {R}. Arguments w_lib {R}.
Arguments p_paths {R}. Arguments p_mods {R}. Arguments p_reg {R}. Arguments p_open {R}. Arguments p_tried {R}.
Arguments new_manager {R}. Arguments register_from_module {R}. Arguments accept {R}. Arguments load_modules_in_directory {R}.
Arguments register_plugins {R}. Arguments add_search_path {R}. Arguments get_search_path {R}. Arguments registered_module_names {R}.
Arguments pstep {R}. Arguments prun {R}. Arguments private_register {R}.

(** tools/plugin_explorer.cxx 73-99: detailed_algo, for one registered name:
    the type and implementation shown and the object made, UB when there is no
    second token or the pointer is null. *)
Definition detail {A} (g : reg A) (name : str) : reg A * res (str * str * nat) :=
  match tokenize name [] (L ":") false with
  | t :: i :: _ =>
    match create g t i with
    | (g', Ok (Some o)) => (g', Ok (t, i, o))
    | (g', _) => (g', UB)
    end
  | _ => (g, UB)
  end.
Fixpoint details {A} (g : reg A) (names : list str) : reg A * res (list (str * str * nat)) :=
  match names with
  | [] => (g, Ok [])
  | n :: r =>
    match detail g n with
    | (g1, Ok d) => match details g1 r with (g2, Ok ds) => (g2, Ok (d :: ds)) | (g2, _) => (g2, UB) end
    | (g1, _) => (g1, UB)
    end
  end.
(** registered_names() with no argument (algorithm.h 92): every name. *)
Definition detailed_algo {A} (g : reg A) : reg A * res (list (str * str * nat)) := details g (registered_names g []).
