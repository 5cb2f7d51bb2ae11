(** ConfigModel.v -- model of vital/config/config_block.{h,cxx}.

    A heap of config_block objects; a handle (config_block_sptr) is an index.
    A view (subblock_view) is an object with a parent.  Objects are never
    freed in the model: shared_ptr keeps every parent alive as long as a view
    exists, and unreachable objects are unobservable. *)
From Verif Require Import Base.

(** Exceptions thrown by config_block (vital/config/config_block_exception.h). *)
Inductive exn :=
| NoSuchValue (key : str)                    (* no_such_configuration_value_exception *)
| SetOnReadOnly (key cur new : str)          (* set_on_read_only_value_exception *)
| UnsetOnReadOnly (key cur : str)            (* unset_on_read_only_value_exception *)
| BadCast (key value : str).                 (* bad_config_block_cast_exception *)

(** [UB]: undefined behaviour (invalid handle, erase(end())).
    [NoFuel]: the parent chain is longer than the heap -- excluded by theorem. *)
Inductive res (A : Type) :=
| Ok (a : A)
| Throw (e : exn)
| UB
| NoFuel.
Arguments Ok {A} a. Arguments Throw {A} e. Arguments UB {A}. Arguments NoFuel {A}.

Definition rbind {A B} (r : res A) (f : A -> res B) : res B :=
  match r with Ok a => f a | Throw e => Throw e | UB => UB | NoFuel => NoFuel end.

(** config_block.cxx 54-60 ltrim, 63-69 rtrim, 72-77 trim. *)
Definition ltrim (s : str) : str := drop_while is_space s.
Definition rtrim (s : str) : str := rev (drop_while is_space (rev s)).
Definition trim (s : str) : str := ltrim (rtrim s).

(** config_block.cxx 80-83: str.substr(0, pfx.size()) == pfx. *)
Definition starts_with (s pfx : str) : bool := str_eqb (firstn (List.length pfx) s) pfx.

(** config_block.cxx 89-90. *)
Definition block_sep : str := L ":".
Definition global_value : str := L "_global".

(** config_block.cxx 488-495. *)
Definition does_not_begin_with (key name : str) : bool :=
  negb (starts_with key (name ++ block_sep)) &&
  negb (starts_with key (global_value ++ block_sep)).

(** config_block.cxx 509-518. *)
Definition strip_block_name (subblock key : str) : str :=
  if negb (starts_with key (subblock ++ block_sep)) then key
  else skipn (List.length subblock + List.length block_sep) key.

(** config_block.h 379-425: data members. m_ro_list is a std::set, modelled
    as a map to unit; source_location is (file, line). *)
Record block := mkBlock {
  b_parent : option nat;
  b_name : str;
  b_store : smap str;
  b_descr : smap str;
  b_ro : smap unit;
  b_loc : smap (str * Z) }.

Definition heap := list block.

(** config_block.cxx 313-323 constructor. *)
Definition new_block (name : str) (parent : option nat) : block :=
  mkBlock parent name [] [] [] [].

(** Overwrite object [i] of the heap. *)
Definition upd (h : heap) (i : nat) (b : block) : heap := lupd h i b.

(** The functions that recurse through m_parent carry fuel [n]; the public
    entry points below use [S (length h)], which always suffices. *)

(** config_block.cxx 299-309 has_value. *)
Fixpoint has_value_f (n : nat) (h : heap) (id : nat) (key : str) : res bool :=
  match n with
  | O => NoFuel
  | S n' =>
    match nth_error h id with
    | None => UB
    | Some b =>
      match b_parent b with
      | Some p => has_value_f n' h p (b_name b ++ block_sep ++ key)
      | None => Ok (shas key (b_store b))
      end
    end
  end.

(** config_block.cxx 344-361 i_get_value: missing keys give "". *)
Fixpoint i_get_value_f (n : nat) (h : heap) (id : nat) (key : str) : res str :=
  match n with
  | O => NoFuel
  | S n' =>
    match nth_error h id with
    | None => UB
    | Some b =>
      match b_parent b with
      | Some p => i_get_value_f n' h p (b_name b ++ block_sep ++ key)
      | None => Ok (match sfind key (b_store b) with Some v => v | None => [] end)
      end
    end
  end.

(** config_block.cxx 164-180 get_description. *)
Fixpoint get_description_f (n : nat) (h : heap) (id : nat) (key : str) : res str :=
  match n with
  | O => NoFuel
  | S n' =>
    match nth_error h id with
    | None => UB
    | Some b =>
      match b_parent b with
      | Some p => get_description_f n' h p (b_name b ++ block_sep ++ key)
      | None => match sfind key (b_descr b) with
                | Some d => Ok d
                | None => Throw (NoSuchValue key)
                end
      end
    end
  end.

(** config_block.cxx 226-231 is_read_only: this object's own list only. *)
Definition is_read_only_b (b : block) (key : str) : bool := shas key (b_ro b).

(** config_block.cxx 366-395 i_set_value (view case calls the parent's
    set_value<std::string>, config_block.h 748-757, which is i_set_value).
    The current value in the exception is get_value<string>(key, ""). *)
Fixpoint i_set_value_f (n : nat) (h : heap) (id : nat) (key value descr : str)
  : heap * res unit :=
  match n with
  | O => (h, NoFuel)
  | S n' =>
    match nth_error h id with
    | None => (h, UB)
    | Some b =>
      match b_parent b with
      | Some p => i_set_value_f n' h p (b_name b ++ block_sep ++ key) value descr
      | None =>
        if is_read_only_b b key then
          (h, Throw (SetOnReadOnly key
                 (match sfind key (b_store b) with Some v => v | None => [] end) value))
        else
          let store' := sset key (trim value) (b_store b) in
          let descr' :=
            if negb (shas key (b_descr b)) || negb (Nat.eqb (List.length descr) 0)
            then sset key descr (b_descr b) else b_descr b in
          (upd h id (mkBlock (b_parent b) (b_name b) store' descr' (b_ro b) (b_loc b)), Ok tt)
      end
    end
  end.

(** config_block.cxx 185-221 unset_value.  [m_descr_store.erase(j)] with
    j == end() is undefined behaviour. *)
Fixpoint unset_value_f (n : nat) (h : heap) (id : nat) (key : str) : heap * res unit :=
  match n with
  | O => (h, NoFuel)
  | S n' =>
    match nth_error h id with
    | None => (h, UB)
    | Some b =>
      match b_parent b with
      | Some p => unset_value_f n' h p (b_name b ++ block_sep ++ key)
      | None =>
        if is_read_only_b b key then
          (h, Throw (UnsetOnReadOnly key
                 (match sfind key (b_store b) with Some v => v | None => [] end)))
        else
          match sfind key (b_store b) with
          | None => (h, Throw (NoSuchValue key))
          | Some _ =>
            match sfind key (b_descr b) with
            | None => (h, UB)
            | Some _ =>
              (upd h id (mkBlock (b_parent b) (b_name b)
                           (serase key (b_store b)) (serase key (b_descr b))
                           (b_ro b)
                           (match sfind key (b_loc b) with
                            | Some _ => serase key (b_loc b)
                            | None => b_loc b
                            end)), Ok tt)
            end
          end
      end
    end
  end.

(** config_block.cxx 264-294 available_values. *)
Fixpoint available_values_f (n : nat) (h : heap) (id : nat) : res (list str) :=
  match n with
  | O => NoFuel
  | S n' =>
    match nth_error h id with
    | None => UB
    | Some b =>
      match b_parent b with
      | Some p =>
        rbind (available_values_f n' h p) (fun parent_keys =>
          Ok (map (strip_block_name (b_name b))
                  (filter (fun k => negb (does_not_begin_with k (b_name b))) parent_keys)))
      | None => Ok (skeys (b_store b))
      end
    end
  end.

Definition fuel (h : heap) : nat := S (List.length h).
Definition has_value h := has_value_f (fuel h) h.
Definition i_get_value h := i_get_value_f (fuel h) h.
Definition get_description h := get_description_f (fuel h) h.
Definition i_set_value h := i_set_value_f (fuel h) h.
Definition unset_value h := unset_value_f (fuel h) h.
Definition available_values h := available_values_f (fuel h) h.

(** config_block.cxx 101-108 empty_config. *)
Definition empty_config (h : heap) (name : str) : heap * res nat :=
  (h ++ [new_block name None], Ok (List.length h)).

(** config_block.cxx 155-160 subblock_view. *)
Definition subblock_view (h : heap) (id : nat) (key : str) : heap * res nat :=
  match nth_error h id with
  | None => (h, UB)
  | Some _ => (h ++ [new_block key (Some id)], Ok (List.length h))
  end.

(** config_block.h 555-576 get_value<T>; [cast] is config_block_get_value_cast<T>,
    None meaning it throws bad_config_block_cast.  find_value: .cxx 328-339. *)
Definition get_value {T} (cast : str -> option T) (h : heap) (id : nat) (key : str) : res T :=
  rbind (has_value h id key) (fun ex =>
    if ex then
      rbind (i_get_value h id key) (fun v =>
        match cast v with Some t => Ok t | None => Throw (BadCast key v) end)
    else Throw (NoSuchValue key)).

(** config_block.cxx 470-476: the std::string cast is the identity. *)
Definition get_string (h : heap) (id : nat) (key : str) : res str := get_value (fun v => Some v) h id key.

(** config_block.h 581-594 get_value<T>(key, def): catch(...) gives def. *)
Definition get_value_def {T} (cast : str -> option T) (h : heap) (id : nat) (key : str) (def : T) : res T :=
  match get_value cast h id key with
  | Throw _ => Ok def
  | r => r
  end.

(** config_block.cxx 429-465 bool cast. *)
Definition bool_cast (value : str) : option bool :=
  let value_lower := map to_lower value in
  if str_eqb value_lower (L "true") || str_eqb value_lower (L "yes") || str_eqb value_lower (L "1")
  then Some true
  else if str_eqb value_lower (L "false") || str_eqb value_lower (L "no") || str_eqb value_lower (L "0")
  then Some false
  else None.

(** config_block.h 724-733 set_value<bool> with description. *)
Definition set_bool_descr (h : heap) (id : nat) (key : str) (v : bool) (d : str) :=
  i_set_value h id key (if v then L "true" else L "false") d.
(** config_block.h 681-692 set_value<T> without description, T = bool: the
    default cast prints the bool with operator<< (no boolalpha), i.e. 1 or 0. *)
Definition set_bool (h : heap) (id : nat) (key : str) (v : bool) :=
  i_set_value h id key (if v then L "1" else L "0") [].

(** config_block.cxx 236-241 mark_read_only: this object's own list. *)
Definition mark_read_only (h : heap) (id : nat) (key : str) : heap * res unit :=
  match nth_error h id with
  | None => (h, UB)
  | Some b => (upd h id (mkBlock (b_parent b) (b_name b) (b_store b) (b_descr b)
                            (sset key tt (b_ro b)) (b_loc b)), Ok tt)
  end.
Definition is_read_only (h : heap) (id : nat) (key : str) : res bool :=
  match nth_error h id with None => UB | Some b => Ok (is_read_only_b b key) end.

(** config_block.cxx 399-404 set_location, 408-423 get_location. *)
Definition set_location (h : heap) (id : nat) (key file : str) (line : Z) : heap * res unit :=
  match nth_error h id with
  | None => (h, UB)
  | Some b => (upd h id (mkBlock (b_parent b) (b_name b) (b_store b) (b_descr b)
                            (b_ro b) (sset key (file, line) (b_loc b))), Ok tt)
  end.
Definition get_location (h : heap) (id : nat) (key : str) : res (option (str * Z)) :=
  match nth_error h id with None => UB | Some b => Ok (sfind key (b_loc b)) end.

(** config_block.cxx 246-259 merge_config; the key list is read first. *)
Fixpoint merge_loop (h : heap) (this conf : nat) (keys : list str) : heap * res unit :=
  match keys with
  | [] => (h, Ok tt)
  | key :: rest =>
    match get_string h conf key with
    | Ok val =>
      match get_description h conf key with
      | Ok descr =>
        match i_set_value h this key val descr with
        | (h', Ok _) => merge_loop h' this conf rest
        | (h', r) => (h', r)
        end
      | Throw e => (h, Throw e) | UB => (h, UB) | NoFuel => (h, NoFuel)
      end
    | Throw e => (h, Throw e) | UB => (h, UB) | NoFuel => (h, NoFuel)
    end
  end.
Definition merge_config (h : heap) (this conf : nat) : heap * res unit :=
  match available_values h conf with
  | Ok keys => merge_loop h this conf keys
  | Throw e => (h, Throw e) | UB => (h, UB) | NoFuel => (h, NoFuel)
  end.

(** config_block.cxx 129-150 subblock.  The new block is built privately
    ([conf] is not in the heap yet); if get_description throws it is dropped. *)
Definition fresh_set (conf : block) (key value descr : str) : block :=
  match i_set_value_f 1 [conf] 0 key value descr with
  | (c :: _, Ok _) => c
  | _ => conf
  end.
Fixpoint subblock_loop (h : heap) (id : nat) (key : str) (conf : block) (keys : list str) : res block :=
  match keys with
  | [] => Ok conf
  | key_name :: rest =>
    if does_not_begin_with key_name key then subblock_loop h id key conf rest
    else
      rbind (i_get_value h id key_name) (fun v =>
      rbind (get_description h id key_name) (fun d =>
        subblock_loop h id key (fresh_set conf (strip_block_name key key_name) v d) rest))
  end.
Definition subblock (h : heap) (id : nat) (key : str) : heap * res nat :=
  match rbind (available_values h id) (subblock_loop h id key (new_block key None)) with
  | Ok conf => (h ++ [conf], Ok (List.length h))
  | Throw e => (h, Throw e) | UB => (h, UB) | NoFuel => (h, NoFuel)
  end.

(** config_block.cxx 523-552 print, as the list of printed records
    (key, "[RO]" shown?, value, location); number formatting not modelled.
    On a throw the lines already written are lost in the model. *)
Fixpoint print_loop (h : heap) (id : nat) (keys : list str)
  : res (list (str * bool * str * option (str * Z))) :=
  match keys with
  | [] => Ok []
  | key :: rest =>
    rbind (get_string h id key) (fun val =>
    rbind (is_read_only h id key) (fun ro =>
    rbind (get_location h id key) (fun loc =>
    rbind (print_loop h id rest) (fun out => Ok ((key, ro, val, loc) :: out)))))
  end.
Definition print (h : heap) (id : nat) := rbind (available_values h id) (print_loop h id).

(** ------------------------------------------------------------------
    The public interface as an operation language, for histories. *)
Inductive op :=
| ONew (name : str)
| OView (id : nat) (key : str)
| OSub (id : nat) (key : str)
| OSet (id : nat) (key value descr : str)
| OUnset (id : nat) (key : str)
| OMarkRO (id : nat) (key : str)
| OSetLoc (id : nat) (key file : str) (line : Z)
| OMerge (this conf : nat)
| OGet (id : nat) (key : str)
| OHas (id : nat) (key : str)
| ODesc (id : nat) (key : str)
| OAvail (id : nat)
| OIsRO (id : nat) (key : str)
| OGetLoc (id : nat) (key : str).

Inductive val :=
| VUnit | VId (n : nat) | VStr (s : str) | VBool (b : bool) | VKeys (l : list str)
| VLoc (o : option (str * Z)).

Definition rmap {A B} (f : A -> B) (r : res A) : res B := rbind r (fun a => Ok (f a)).
Definition lift {A} (f : A -> val) (p : heap * res A) : heap * res val := (fst p, rmap f (snd p)).

Definition step (h : heap) (o : op) : heap * res val :=
  match o with
  | ONew name => lift VId (empty_config h name)
  | OView id key => lift VId (subblock_view h id key)
  | OSub id key => lift VId (subblock h id key)
  | OSet id key v d => lift (fun _ => VUnit) (i_set_value h id key v d)
  | OUnset id key => lift (fun _ => VUnit) (unset_value h id key)
  | OMarkRO id key => lift (fun _ => VUnit) (mark_read_only h id key)
  | OSetLoc id key f l => lift (fun _ => VUnit) (set_location h id key f l)
  | OMerge a b => lift (fun _ => VUnit) (merge_config h a b)
  | OGet id key => (h, rmap VStr (get_string h id key))
  | OHas id key => (h, rmap VBool (has_value h id key))
  | ODesc id key => (h, rmap VStr (get_description h id key))
  | OAvail id => (h, rmap VKeys (available_values h id))
  | OIsRO id key => (h, rmap VBool (is_read_only h id key))
  | OGetLoc id key => (h, rmap VLoc (get_location h id key))
  end.

(** A history: run the operations in order, collecting the outcomes. *)
Fixpoint run (h : heap) (ops : list op) : heap * list (res val) :=
  match ops with
  | [] => (h, [])
  | o :: rest =>
    let '(h1, r) := step h o in
    let '(h2, rs) := run h1 rest in (h2, r :: rs)
  end.

(** Reachable heaps: those produced from the empty heap by some history. *)
Definition reachable (h : heap) : Prop := exists ops, fst (run [] ops) = h.
