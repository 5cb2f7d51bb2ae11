(** ConfigSpec.v -- small independent specification of config blocks.

    A configuration is ONE flat table per root block; a handle is a root and
    a list of block names (outermost first).  Nothing here recurses through
    parents. *)
From Verif Require Import Base ConfigModel.

(** "s without its leading and trailing white space", declaratively. *)
Definition is_trim (s t : str) : Prop :=
  exists a b, s = a ++ t ++ b /\
    (forall c, In c a -> is_space c = true) /\ (forall c, In c b -> is_space c = true) /\
    (forall c r, t = c :: r -> is_space c = false) /\
    (forall c r, t = r ++ [c] -> is_space c = false).

(** The absolute key of [key] seen from below the blocks [path]. *)
Definition abs_key (path : list str) (key : str) : str :=
  concat (map (fun n => n ++ L ":") path) ++ key.

(** [resolves h id r path]: handle [id] is the root block [r] seen through the
    nested views named [path]. *)
Inductive resolves (h : heap) : nat -> nat -> list str -> Prop :=
| resolves_root id b :
    nth_error h id = Some b -> b_parent b = None -> resolves h id id []
| resolves_view id b p r path :
    nth_error h id = Some b -> b_parent b = Some p -> resolves h p r path ->
    resolves h id r (path ++ [b_name b]).

(** Two (handle, key) pairs name the same stored entry. *)
Definition same_entry (h : heap) (id1 : nat) (k1 : str) (id2 : nat) (k2 : str) : Prop :=
  exists r p1 p2, resolves h id1 r p1 /\ resolves h id2 r p2 /\ abs_key p1 k1 = abs_key p2 k2.

(** ---------- the flat machine ---------- *)
Record fobj := mkF {
  f_root : nat;                    (* index of the root block *)
  f_path : list str;               (* names of the enclosing views *)
  f_table : smap (str * str);      (* root blocks: key -> (value, description) *)
  f_flags : smap unit;             (* keys marked through THIS handle *)
  f_locs : smap (str * Z) }.       (* locations set through THIS handle *)
Definition flat := list fobj.

Definition fupd (f : flat) (i : nat) (b : fobj) : flat := lupd f i b.

Definition with_table o t := mkF (f_root o) (f_path o) t (f_flags o) (f_locs o).
Definition with_locs o l := mkF (f_root o) (f_path o) (f_table o) (f_flags o) l.
Definition with_flags o l := mkF (f_root o) (f_path o) (f_table o) l (f_locs o).

(** Find the root object and absolute key behind a handle. *)
Definition locate {A} (f : flat) (id : nat) (key : str)
           (bad : A) (k : nat -> fobj -> str -> A) : A :=
  match nth_error f id with
  | None => bad
  | Some o => match nth_error f (f_root o) with
              | None => bad
              | Some r => k (f_root o) r (abs_key (f_path o) key)
              end
  end.

Definition value_or_empty (r : fobj) (K : str) : str :=
  match sfind K (f_table r) with Some (v, _) => v | None => [] end.

Definition fset (f : flat) (id : nat) (key v d : str) : flat * res unit :=
  locate f id key (f, UB) (fun ri r K =>
    if shas K (f_flags r) then (f, Throw (SetOnReadOnly K (value_or_empty r K) v))
    else let d' := match sfind K (f_table r), d with
                   | Some (_, dold), [] => dold
                   | _, _ => d
                   end in
         (fupd f ri (with_table r (sset K (trim v, d') (f_table r))), Ok tt)).

Definition funset (f : flat) (id : nat) (key : str) : flat * res unit :=
  locate f id key (f, UB) (fun ri r K =>
    if shas K (f_flags r) then (f, Throw (UnsetOnReadOnly K (value_or_empty r K)))
    else match sfind K (f_table r) with
         | None => (f, Throw (NoSuchValue K))
         | Some _ => (fupd f ri (with_locs (with_table r (serase K (f_table r)))
                                           (serase K (f_locs r))), Ok tt)
         end).

Definition fget (f : flat) (id : nat) (key : str) : res str :=
  locate f id key UB (fun _ r K =>
    match sfind K (f_table r) with Some (v, _) => Ok v | None => Throw (NoSuchValue key) end).
Definition fhas (f : flat) (id : nat) (key : str) : res bool :=
  locate f id key UB (fun _ r K => Ok (shas K (f_table r))).
Definition fdesc (f : flat) (id : nat) (key : str) : res str :=
  locate f id key UB (fun _ r K =>
    match sfind K (f_table r) with Some (_, d) => Ok d | None => Throw (NoSuchValue K) end).

(** Keys seen below one block name: 'name:k' as k, and '_global:' keys as they are. *)
Definition visible (name k : str) : bool :=
  is_prefix (name ++ L ":") k || is_prefix (L "_global:") k.
Definition relative (name k : str) : str :=
  if is_prefix (name ++ L ":") k then skipn (List.length name + 1) k else k.
Definition below (keys : list str) (name : str) : list str :=
  map (relative name) (filter (visible name) keys).

Definition favail (f : flat) (id : nat) : res (list str) :=
  match nth_error f id with
  | None => UB
  | Some o => match nth_error f (f_root o) with
              | None => UB
              | Some r => Ok (fold_left below (f_path o) (skeys (f_table r)))
              end
  end.

Fixpoint fmerge_loop (f : flat) (this conf : nat) (keys : list str) : flat * res unit :=
  match keys with
  | [] => (f, Ok tt)
  | k :: rest =>
    match fget f conf k, fdesc f conf k with
    | Ok v, Ok d => match fset f this k v d with
                    | (f', Ok _) => fmerge_loop f' this conf rest
                    | (f', r) => (f', r)
                    end
    | Ok _, Throw e => (f, Throw e) | Ok _, UB => (f, UB) | Ok _, NoFuel => (f, NoFuel)
    | Throw e, _ => (f, Throw e) | UB, _ => (f, UB) | NoFuel, _ => (f, NoFuel)
    end
  end.
Definition fmerge (f : flat) (this conf : nat) : flat * res unit :=
  match favail f conf with
  | Ok keys => fmerge_loop f this conf keys
  | Throw e => (f, Throw e) | UB => (f, UB) | NoFuel => (f, NoFuel)
  end.

(** subblock: copy the visible entries into a fresh table. *)
Fixpoint fsub_loop (f : flat) (id : nat) (name : str) (t : smap (str * str)) (keys : list str)
  : res (smap (str * str)) :=
  match keys with
  | [] => Ok t
  | k :: rest =>
    if visible name k then
      match fdesc f id k with
      | Ok d => let v := match fget f id k with Ok v => v | _ => [] end in
                let k' := relative name k in
                let d' := match sfind k' t, d with Some (_, dold), [] => dold | _, _ => d end in
                fsub_loop f id name (sset k' (trim v, d') t) rest
      | Throw e => Throw e | UB => UB | NoFuel => NoFuel
      end
    else fsub_loop f id name t rest
  end.
Definition fsub (f : flat) (id : nat) (name : str) : flat * res nat :=
  match rbind (favail f id) (fsub_loop f id name []) with
  | Ok t => (f ++ [mkF (List.length f) [] t [] []], Ok (List.length f))
  | Throw e => (f, Throw e) | UB => (f, UB) | NoFuel => (f, NoFuel)
  end.

Definition flift {A} (g : A -> val) (p : flat * res A) : flat * res val := (fst p, rmap g (snd p)).

Definition fstep (f : flat) (o : op) : flat * res val :=
  match o with
  | ONew name => (f ++ [mkF (List.length f) [] [] [] []], Ok (VId (List.length f)))
  | OView id name =>
      match nth_error f id with
      | None => (f, UB)
      | Some o => (f ++ [mkF (f_root o) (f_path o ++ [name]) [] [] []], Ok (VId (List.length f)))
      end
  | OSub id name => flift VId (fsub f id name)
  | OSet id key v d => flift (fun _ => VUnit) (fset f id key v d)
  | OUnset id key => flift (fun _ => VUnit) (funset f id key)
  | OMarkRO id key =>
      match nth_error f id with
      | None => (f, UB)
      | Some o => (fupd f id (with_flags o (sset key tt (f_flags o))), Ok VUnit)
      end
  | OSetLoc id key file line =>
      match nth_error f id with
      | None => (f, UB)
      | Some o => (fupd f id (with_locs o (sset key (file, line) (f_locs o))), Ok VUnit)
      end
  | OMerge a b => flift (fun _ => VUnit) (fmerge f a b)
  | OGet id key => (f, rmap VStr (fget f id key))
  | OHas id key => (f, rmap VBool (fhas f id key))
  | ODesc id key => (f, rmap VStr (fdesc f id key))
  | OAvail id => (f, rmap VKeys (favail f id))
  | OIsRO id key => (f, match nth_error f id with
                        | None => UB | Some o => Ok (VBool (shas key (f_flags o))) end)
  | OGetLoc id key => (f, match nth_error f id with
                          | None => UB | Some o => Ok (VLoc (sfind key (f_locs o))) end)
  end.

Fixpoint frun (f : flat) (ops : list op) : flat * list (res val) :=
  match ops with
  | [] => (f, [])
  | o :: rest =>
    let '(f1, r) := fstep f o in
    let '(f2, rs) := frun f1 rest in (f2, r :: rs)
  end.
