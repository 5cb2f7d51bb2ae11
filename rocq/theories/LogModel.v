(** LogModel.v -- vital/logger: default_logger.cxx, kwiver_logger.cxx,
    kwiver_logger_manager.cxx, location_info.cxx. *)
From Coq Require Import List Ascii Bool Arith ZArith.
Import ListNotations.
From Verif Require Import Base Numbers RegexModel PathModel ConfigModel.

Definition newline : ascii := "010"%char.
(** kwiver_logger.h 68-75 *)
Inductive level := NONE | TRACE | DEBUG | INFO | WARN | ERROR | FATAL.
Definition level_num (l : level) : nat := match l with NONE => 1 | TRACE => 2 | DEBUG => 3 | INFO => 4 | WARN => 5 | ERROR => 6 | FATAL => 7 end.
(** kwiver_logger.cxx 67-83: get_level_string *)
Definition level_string (l : level) : str :=
  match l with TRACE => L "TRACE" | DEBUG => L "DEBUG" | INFO => L "INFO" | WARN => L "WARN" | ERROR => L "ERROR" | FATAL => L "FATAL" | NONE => L "<unknown>" end.
(** default_logger.cxx 76-86: is_..._enabled; the same comparison for each level. *)
Definition enabled (current lev : level) : bool := level_num current <=? level_num lev.
(** The lines that repeated getline takes from a text. *)
Fixpoint getlines (s : str) : list str :=
  match s with
  | [] => []
  | c :: r =>
    if Ascii.eqb c newline then [] :: getlines r
    else match getlines r with [] => [[c]] | l :: ls => (c :: l) :: ls end
  end.
(** 169-209: log_message_i, what it inserts into the stream, one << after the
    other.  [buf] is the text of strftime, [ms] the milliseconds of the clock. *)
Definition line_pieces (buf : str) (ms : Z) (lev : level) (loc part : str) : list str :=
  [buf; L "."; dec (ms mod 1000); L " "; level_string lev; L " "; loc; part; [newline]].
Definition message_pieces (buf : str) (ms : Z) (lev : level) (loc msg : str) : list str :=
  flat_map (line_pieces buf ms lev loc) (getlines msg).

(** location_info.cxx 76-145.  rfind("::"): the text before and after. *)
Fixpoint rsplit_colons (s : str) : option (str * str) :=
  match s with
  | [] => None
  | c :: r =>
    match rsplit_colons r with
    | Some (a, b) => Some (c :: a, b)
    | None => match r with d :: t => if (Ascii.eqb c ":" && Ascii.eqb d ":")%bool then Some ([], t) else None | [] => None end
    end
  end.
Definition no_params (s : str) : str := match fsplit "(" s with Some (a, _) => a | None => s end.
(** 92-118: get_method_name *)
Definition method_name (sig : str) : str :=
  let t := no_params sig in
  let t := match rsplit_colons t with Some (_, b) => b | None => t end in
  match rsplit " " t with Some (_, b) => b | None => t end.
(** 122-155: get_class_name *)
Definition class_name (sig : str) : str :=
  let t := no_params sig in
  let t := match rsplit " " t with Some (_, b) => b | None => t end in
  match rsplit_colons t with Some (a, _) => a | None => [] end.
(** 213-223: log_message with a location. *)
Definition location_text (file : str) (line : Z) : str := get_filename_name file ++ L "(" ++ dec line ++ L "): ".

(** Any number of threads log through default loggers (0, 1, ...).  A thread
    reads the level of the logger (89-163), reads the clock, waits for the lock
    (195), writes piece by piece and releases the lock. *)
Record msg := mkM { m_logger : nat; m_level : level; m_loc : str; m_text : str }.
Inductive tpc := TOut | TCheck (m : msg) | TWait (m : msg) (ps : list str) | TWrite (m : msg) (ps : list str).
Record lstate := mkL {
  l_levels : nat -> level;
  l_lock : option nat;
  l_out : list str;                       (* what the stream received *)
  l_pc : nat -> tpc;
  l_taken : list (nat * msg * list str);  (* messages that have the lock or had it, in that order: thread, message, its pieces *)
  l_sent : list (nat * msg) }.            (* messages that passed the level check *)
Definition lset (f : nat -> tpc) (t : nat) (p : tpc) : nat -> tpc := fun u => if u =? t then p else f u.
Definition linit : lstate := mkL (fun _ => TRACE) None [] (fun _ => TOut) [] [].
Inductive lstep (s : lstate) (t : nat) : lstate -> Prop :=
| ls_call m : l_pc s t = TOut -> lstep s t (mkL (l_levels s) (l_lock s) (l_out s) (lset (l_pc s) t (TCheck m)) (l_taken s) (l_sent s))
| ls_level g lev : l_pc s t = TOut -> lstep s t (mkL (fun u => if u =? g then lev else l_levels s u) (l_lock s) (l_out s) (l_pc s) (l_taken s) (l_sent s))
| ls_off m : l_pc s t = TCheck m -> enabled (l_levels s (m_logger m)) (m_level m) = false ->
    lstep s t (mkL (l_levels s) (l_lock s) (l_out s) (lset (l_pc s) t TOut) (l_taken s) (l_sent s))
| ls_on m buf ms : l_pc s t = TCheck m -> enabled (l_levels s (m_logger m)) (m_level m) = true ->
    lstep s t (mkL (l_levels s) (l_lock s) (l_out s) (lset (l_pc s) t (TWait m (message_pieces buf ms (m_level m) (m_loc m) (m_text m)))) (l_taken s) (l_sent s ++ [(t, m)]))
| ls_lock m ps : l_pc s t = TWait m ps -> l_lock s = None ->
    lstep s t (mkL (l_levels s) (Some t) (l_out s) (lset (l_pc s) t (TWrite m ps)) (l_taken s ++ [(t, m, ps)]) (l_sent s))
| ls_write m p ps : l_pc s t = TWrite m (p :: ps) ->
    lstep s t (mkL (l_levels s) (l_lock s) (l_out s ++ [p]) (lset (l_pc s) t (TWrite m ps)) (l_taken s) (l_sent s))
| ls_unlock m : l_pc s t = TWrite m [] ->
    lstep s t (mkL (l_levels s) None (l_out s) (lset (l_pc s) t TOut) (l_taken s) (l_sent s)).
Inductive lreach : lstate -> Prop :=
| lr_init : lreach linit
| lr_step s t s' : lreach s -> lstep s t s' -> lreach s'.

(** default_logger.cxx 245-262, kwiver_logger_manager.cxx 165-205: loggers by
    name.  A factory is dead once the caller of set_logger_factory has dropped it;
    a logger lives as long as its handle. *)
Record logger := mkLg { lg_name : str; lg_level : level; lg_factory : nat }.
Record mgr := mkMgr { g_cur : nat; g_maps : list (smap nat); g_dead : list nat; g_heap : list logger }.
Definition mgr0 : mgr := mkMgr 0 [[]] [] [].
(** get_logger( char const* ) *)
Definition get_logger_c (name : str) (g : mgr) : nat * mgr :=
  let m := nth (g_cur g) (g_maps g) [] in
  match sfind name m with
  | Some h => (h, g)
  | None => let h := length (g_heap g) in (h, mkMgr (g_cur g) (lupd (g_maps g) (g_cur g) (sset name h m)) (g_dead g) (g_heap g ++ [mkLg name TRACE (g_cur g)]))
  end.
(** get_logger( std::string const& ) goes through c_str(). *)
Definition get_logger (name : str) (g : mgr) : nat * mgr := get_logger_c (c_str name) g.
Definition set_level (h : nat) (lev : level) (g : mgr) : mgr :=
  match nth_error (g_heap g) h with
  | Some l => mkMgr (g_cur g) (g_maps g) (g_dead g) (lupd (g_heap g) h (mkLg (lg_name l) lev (lg_factory l)))
  | None => g
  end.
Definition get_level (h : nat) (g : mgr) : option level := option_map lg_level (nth_error (g_heap g) h).
Definition get_name (h : nat) (g : mgr) : option str := option_map lg_name (nth_error (g_heap g) h).
(** 188-195: set_logger_factory with a new default factory; the old one goes to
    the caller, who drops it. *)
Definition set_factory (g : mgr) : mgr := mkMgr (length (g_maps g)) (g_maps g ++ [[]]) (g_dead g ++ [g_cur g]) (g_heap g).
(** kwiver_logger.cxx 94-99: get_factory_name of a logger, through m_factory. *)
Definition factory_name (h : nat) (g : mgr) : res str :=
  match nth_error (g_heap g) h with
  | Some l => if existsb (Nat.eqb (lg_factory l)) (g_dead g) then UB else Ok (L "default_logger factory")
  | None => UB
  end.
Inductive lop := LGet (name : str) | LLevel (h : nat) (lev : level) | LFactory.
Definition lrun1 (g : mgr) (o : lop) : mgr := match o with LGet n => snd (get_logger n g) | LLevel h lev => set_level h lev g | LFactory => set_factory g end.
Definition lrun (ops : list lop) (g : mgr) : mgr := fold_left lrun1 ops g.

(** kwiver_logger_manager.cxx 98-142, 216-248: the choice of the back end.
    [open] is OpenLibrary, then GetSymbolAddress, then the entry function. *)
Inductive backend := Plugin (lib : str) (fac : nat) | Builtin.
Inductive note := NoteError (lib : str) | NoteInfo.
Definition load_factory (open : str -> option (option (option nat))) (lib : str) : option (option nat) :=
  match open lib with Some (Some f) => Some f | _ => None end.
(** The pair is the back end (None: a NULL factory) and what is written to cerr. *)
Definition choose (env : option str) (open : str -> option (option (option nat))) : option backend * list note :=
  let lib := match env with Some l => l | None => L "vital_logger_plugin.so" end in
  match load_factory open lib with
  | Some (Some f) => (Some (Plugin lib f), [])
  | Some None => (None, [])
  | None => (Some Builtin, [match env with Some l => NoteError l | None => NoteInfo end])
  end.
