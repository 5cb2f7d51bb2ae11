(** AlgoModel.v -- vital/registrar.h and vital/algo/algorithm.{h,cxx,txx}.

    An algorithm object is a state of type [A]; its virtual functions are given
    by a [vtable].  A shared pointer is an index into the list of objects, or
    None for a null pointer.  Simplified: the static type [Self] of an
    algorithm_def is its static_type_name; logging is left out. *)
From Verif Require Import Base ConfigModel.

(** algorithm.h 60-158: the virtual functions.  [v_type] is
    algorithm_def::type_name (algorithm.h 277), the name of the definition the
    object derives from; [v_set] gives the state after set_configuration. *)
Record vtable (A : Type) := mkVT {
  v_type : A -> str;
  v_impl : A -> str;
  v_descr : A -> str;
  v_get : A -> heap -> heap * res nat;
  v_set : A -> heap -> nat -> heap * res A;
  v_check : A -> heap -> nat -> heap * res bool }.
Arguments v_type {A}. Arguments v_impl {A}. Arguments v_descr {A}. Arguments v_get {A}. Arguments v_set {A}. Arguments v_check {A}.

Section Algo.
Variable A : Type.
Variable vt : vtable A.

(** registrar.h 68-76, 181-190: one map per type; [g_alg] is the map of type
    algorithm, [g_def] the maps of the algorithm_def types. *)
Record reg := mkReg { g_objs : list A; g_alg : smap nat; g_def : smap (smap nat) }.
Definition reg0 : reg := mkReg [] [] [].
Definition def_map (g : reg) (T : str) : smap nat := match sfind T (g_def g) with Some m => m | None => [] end.

(** algorithm.txx 54-66 register_instance, with registrar.h 101-120
    register_item for the two maps. *)
Definition register_instance (g : reg) (inst : option nat) : reg * res bool :=
  match inst with
  | None => (g, Ok false)
  | Some o =>
    match nth_error (g_objs g) o with
    | None => (g, UB)
    | Some a =>
      let qualified := v_type vt a ++ L ":" ++ v_impl vt a in
      (mkReg (g_objs g) (sset qualified o (g_alg g))
             (sset (v_type vt a) (sset (v_impl vt a) o (def_map g (v_type vt a))) (g_def g)), Ok true)
    end
  end.
(** registrar.h 163-173 find *)
Definition find_alg (g : reg) (name : str) : option nat := sfind name (g_alg g).
Definition find_def (g : reg) (T name : str) : option nat := sfind name (def_map g T).

(** algorithm.h 381-384, 387-390: the copy constructor of the implementation
    (copies the whole state). *)
Definition clone (g : reg) (o : nat) : reg * res (option nat) :=
  match nth_error (g_objs g) o with
  | None => (g, UB)
  | Some a => (mkReg (g_objs g ++ [a]) (g_alg g) (g_def g), Ok (Some (List.length (g_objs g))))
  end.
(** algorithm.cxx 75-89 algorithm::create *)
Definition create (g : reg) (type_name impl_name : str) : reg * res (option nat) :=
  match find_alg g (type_name ++ L ":" ++ impl_name) with
  | None => (g, Ok None)
  | Some o => clone g o
  end.
(** algorithm.txx 70-84 algorithm_def<Self>::create *)
Definition create_def (g : reg) (T impl_name : str) : reg * res (option nat) :=
  match find_def g T impl_name with
  | None => (g, Ok None)
  | Some o => clone g o
  end.

(** algorithm.cxx 92-115 registered_names, with registrar.h 128-138 *)
Definition registered_names (g : reg) (type_name : str) : list str :=
  if str_eqb type_name [] then skeys (g_alg g)
  else
    let prefix := type_name ++ L ":" in
    map (skipn (List.length prefix)) (filter (is_prefix prefix) (skeys (g_alg g))).
(** algorithm.txx 88-94 *)
Definition registered_names_def (g : reg) (T : str) : list str := skeys (def_map g T).
(** algorithm.cxx 118-126 *)
Definition has_type_name (g : reg) (type_name : str) : bool := match registered_names g type_name with [] => false | _ => true end.
(** algorithm.cxx 129-138: std::find in the vector of names *)
Definition has_impl_name (g : reg) (type_name impl_name : str) : bool := existsb (str_eqb impl_name) (registered_names g type_name).
(** algorithm.txx 98-106 *)
Definition has_impl_name_def (g : reg) (T impl_name : str) : bool := existsb (str_eqb impl_name) (registered_names_def g T).

(** algorithm.cxx 149-166: the description put on the "type" key; find() gives a
    null pointer if the listed name is not registered under type_name. *)
Fixpoint comment_loop (g : reg) (type_name : str) (names : list str) (acc : str) : res str :=
  match names with
  | [] => Ok acc
  | n :: rest =>
    match find_alg g (type_name ++ L ":" ++ n) with
    | None => UB
    | Some o =>
      match nth_error (g_objs g) o with
      | None => UB
      | Some a =>
        let acc1 := acc ++ ["010"%char; "009"%char] ++ L "- " ++ n in
        comment_loop g type_name rest (if str_eqb (v_descr vt a) [] then acc1 else acc1 ++ L " :: " ++ v_descr vt a)
      end
    end
  end.
Definition type_comment (g : reg) (type_name name : str) : res str :=
  comment_loop g type_name (registered_names g type_name)
    (L "Algorithm to use for '" ++ name ++ L "'." ++ ["010"%char] ++ L "Must be one of the following options:").
Definition type_key (name : str) : str := name ++ block_sep ++ L "type".
Definition impl_block (name impl : str) : str := name ++ block_sep ++ impl.

(** algorithm.cxx 142-180 get_nested_algo_configuration.  The view is made
    before get_configuration is called (C++ leaves the order open). *)
Definition get_nested (g : reg) (h : heap) (type_name name : str) (config : nat) (nested : option nat) : heap * res unit :=
  match type_comment g type_name name with
  | Ok comment =>
    match nested with
    | Some o =>
      match nth_error (g_objs g) o with
      | None => (h, UB)
      | Some a =>
        match i_set_value h config (type_key name) (v_impl vt a) comment with
        | (h1, Ok _) =>
          match subblock_view h1 config (impl_block name (v_impl vt a)) with
          | (h2, Ok view) =>
            match v_get vt a h2 with
            | (h3, Ok conf) => merge_config h3 view conf
            | (h3, Throw e) => (h3, Throw e) | (h3, UB) => (h3, UB) | (h3, NoFuel) => (h3, NoFuel)
            end
          | (h2, Throw e) => (h2, Throw e) | (h2, UB) => (h2, UB) | (h2, NoFuel) => (h2, NoFuel)
          end
        | (h1, r) => (h1, r)
        end
      end
    | None =>
      match has_value h config (type_key name) with
      | Ok true => (h, Ok tt)
      | Ok false => i_set_value h config (type_key name) [] comment
      | Throw e => (h, Throw e) | UB => (h, UB) | NoFuel => (h, NoFuel)
      end
    end
  | Throw e => (h, Throw e) | UB => (h, UB) | NoFuel => (h, NoFuel)
  end.

(** algorithm.cxx 185-206 set_nested_algo_configuration; [nested] is the
    reference parameter.  If set_configuration throws, the new object stays
    as it was cloned. *)
Definition set_nested (g : reg) (h : heap) (type_name name : str) (config : nat) (nested : option nat)
  : reg * heap * option nat * res unit :=
  match has_value h config (type_key name) with
  | Ok true =>
    match get_string h config (type_key name) with
    | Ok iname =>
      if has_impl_name g type_name iname then
        match create g type_name iname with
        | (g1, Ok (Some o)) =>
          match subblock_view h config (impl_block name iname) with
          | (h1, Ok view) =>
            match nth_error (g_objs g1) o with
            | None => (g1, h1, Some o, UB)
            | Some a =>
              match v_set vt a h1 view with
              | (h2, Ok a') => (mkReg (lupd (g_objs g1) o a') (g_alg g1) (g_def g1), h2, Some o, Ok tt)
              | (h2, Throw e) => (g1, h2, Some o, Throw e)
              | (h2, UB) => (g1, h2, Some o, UB)
              | (h2, NoFuel) => (g1, h2, Some o, NoFuel)
              end
            end
          | (h1, Throw e) => (g1, h1, Some o, Throw e) | (h1, UB) => (g1, h1, Some o, UB) | (h1, NoFuel) => (g1, h1, Some o, NoFuel)
          end
        | (g1, Ok None) => (g1, h, None, UB)   (* null pointer *)
        | (g1, Throw e) => (g1, h, nested, Throw e) | (g1, UB) => (g1, h, nested, UB) | (g1, NoFuel) => (g1, h, nested, NoFuel)
        end
      else (g, h, nested, Ok tt)
    | Throw e => (g, h, nested, Throw e) | UB => (g, h, nested, UB) | NoFuel => (g, h, nested, NoFuel)
    end
  | Ok false => (g, h, nested, Ok tt)
  | Throw e => (g, h, nested, Throw e) | UB => (g, h, nested, UB) | NoFuel => (g, h, nested, NoFuel)
  end.

(** algorithm.txx 139-154: the algorithm_def version; a dynamic cast to Self
    succeeds for the objects that derive from Self; an exception leaves the
    caller's pointer alone. *)
Definition set_nested_def (g : reg) (h : heap) (T name : str) (config : nat) (nested : option nat)
  : reg * heap * option nat * res unit :=
  match set_nested g h T name config nested with
  | (g1, h1, Some o, Ok tt) =>
    match nth_error (g_objs g1) o with
    | None => (g1, h1, nested, UB)
    | Some a => (g1, h1, (if str_eqb (v_type vt a) T then Some o else None), Ok tt)
    end
  | (g1, h1, None, Ok tt) => (g1, h1, None, Ok tt)
  | (g1, h1, _, r) => (g1, h1, nested, r)
  end.

(** algorithm.cxx 210-251 check_nested_algo_configuration *)
Definition check_nested (g : reg) (h : heap) (type_name name : str) (config : nat) : heap * res bool :=
  match has_value h config (type_key name) with
  | Ok false => (h, Ok false)
  | Ok true =>
    match get_string h config (type_key name) with
    | Ok iname =>
      if has_impl_name g type_name iname then
        match find_alg g (type_name ++ L ":" ++ iname) with
        | None => (h, UB)
        | Some o =>
          match nth_error (g_objs g) o with
          | None => (h, UB)
          | Some a =>
            match subblock_view h config (impl_block name iname) with
            | (h1, Ok view) => v_check vt a h1 view
            | (h1, Throw e) => (h1, Throw e) | (h1, UB) => (h1, UB) | (h1, NoFuel) => (h1, NoFuel)
            end
          end
        end
      else (h, Ok false)
    | Throw e => (h, Throw e) | UB => (h, UB) | NoFuel => (h, NoFuel)
    end
  | Throw e => (h, Throw e) | UB => (h, UB) | NoFuel => (h, NoFuel)
  end.

(** Histories of the registry: objects are made by anyone, change state, are
    registered (also null pointers) and created from the registry. *)
Inductive rop :=
| RNew (a : A)
| RChange (o : nat) (a : A)
| RRegister (inst : option nat)
| RCreate (type_name impl_name : str)
| RCreateDef (T impl_name : str).
(** What a call did, seen from outside: the definition and implementation name
    of a registered object at the time of the call. *)
Inductive event :=
| EQuiet
| ERegistered (T impl : str) (o : nat)
| ERefused.
Definition rstep (g : reg) (op : rop) : reg * event :=
  match op with
  | RNew a => (mkReg (g_objs g ++ [a]) (g_alg g) (g_def g), EQuiet)
  | RChange o a =>
    (* the definition an object derives from cannot change *)
    match nth_error (g_objs g) o with
    | Some b => if str_eqb (v_type vt b) (v_type vt a) then (mkReg (lupd (g_objs g) o a) (g_alg g) (g_def g), EQuiet) else (g, EQuiet)
    | None => (g, EQuiet)
    end
  | RRegister inst =>
    match register_instance g inst, inst with
    | (g1, Ok true), Some o =>
      match nth_error (g_objs g) o with
      | Some a => (g1, ERegistered (v_type vt a) (v_impl vt a) o)
      | None => (g1, ERefused)
      end
    | (g1, _), _ => (g1, ERefused)
    end
  | RCreate t i => (fst (create g t i), EQuiet)
  | RCreateDef t i => (fst (create_def g t i), EQuiet)
  end.
Fixpoint rrun (g : reg) (ops : list rop) : reg * list event :=
  match ops with
  | [] => (g, [])
  | o :: rest => let '(g1, e) := rstep g o in let '(g2, es) := rrun g1 rest in (g2, e :: es)
  end.
End Algo.
Arguments mkReg {A}. Arguments g_objs {A}. Arguments g_alg {A}. Arguments g_def {A}. Arguments reg0 {A}. Arguments def_map {A}.
Arguments register_instance {A}. Arguments find_alg {A}. Arguments find_def {A}. Arguments clone {A}. Arguments create {A}. Arguments create_def {A}.
Arguments registered_names {A}. Arguments registered_names_def {A}. Arguments has_type_name {A}. Arguments has_impl_name {A}. Arguments has_impl_name_def {A}.
Arguments comment_loop {A}. Arguments type_comment {A}. Arguments get_nested {A}. Arguments set_nested {A}. Arguments set_nested_def {A}. Arguments check_nested {A}.
Arguments RNew {A}. Arguments RChange {A}. Arguments RRegister {A}. Arguments RCreate {A}. Arguments RCreateDef {A}. Arguments rstep {A}. Arguments rrun {A}.
