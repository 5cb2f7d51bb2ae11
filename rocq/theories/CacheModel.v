(** CacheModel.v -- the C interface's handles: SharedPointerCache
    (vital/bindings/c/helpers/c_utils.h 135-279), the algorithm handle functions
    of DEFINE_COMMON_ALGO_API (helpers/algorithm.h 72-247) and the camera map
    functions of camera_map.cxx 53-129.

    A pointer is a Z, 0 being NULL.  A shared pointer is an address and the
    object it owns (a number).  std::map is a function to option; size_t is Z
    modulo 2^64.  Exceptions are results: STANDARD_CATCH turns them into an
    error handle (its message text is CStringModel's business). *)
From Coq Require Import ZArith List Bool.
Import ListNotations.
Local Open Scope Z_scope.

Definition size_t (z : Z) : Z := z mod 2 ^ 64.
Definition upd {A} (f : Z -> A) (p : Z) (v : A) : Z -> A := fun q => if q =? p then v else f q.

Record sptr := mkSp { s_addr : Z; s_obj : nat }.
(** c_utils.h 264-272: cache_ and ref_count_cache_. *)
Record cache := mkCache { c_ptr : Z -> option sptr; c_ref : Z -> option Z }.
Definition empty_cache : cache := mkCache (fun _ => None) (fun _ => None).
Inductive result := Done | Got (s : sptr) | NullPointer | NoEntry.

(** std::map::operator[] on the counters: a missing one starts at 0. *)
Definition ref_at (c : cache) (p : Z) : Z := match c_ref c p with Some n => n | None => 0 end.

(** c_utils.h 178-199: store. *)
Definition store (c : cache) (s : sptr) : cache * result :=
  if s_addr s =? 0 then (c, NullPointer)
  else match c_ptr c (s_addr s) with
       | None => (mkCache (upd (c_ptr c) (s_addr s) (Some s)) (upd (c_ref c) (s_addr s) (Some 1)), Done)
       | Some _ => (mkCache (c_ptr c) (upd (c_ref c) (s_addr s) (Some (size_t (ref_at c (s_addr s) + 1)))), Done)
       end.
(** c_utils.h 202-229: get. *)
Definition get (c : cache) (p : Z) : result :=
  if p =? 0 then NullPointer else match c_ptr c p with Some s => Got s | None => NoEntry end.
(** c_utils.h 232-260: erase. *)
Definition erase (c : cache) (p : Z) : cache * result :=
  if p =? 0 then (c, NullPointer)
  else match c_ptr c p with
       | None => (c, Done)
       | Some _ =>
         let n := size_t (ref_at c p - 1) in
         if n <=? 0 then (mkCache (upd (c_ptr c) p None) (upd (c_ref c) p None), Done)
         else (mkCache (c_ptr c) (upd (c_ref c) p (Some n)), Done)
       end.

Inductive op := Store (s : sptr) | Erase (p : Z).
Definition do_op (c : cache) (o : op) : cache := match o with Store s => fst (store c s) | Erase p => fst (erase c p) end.
Definition run (h : list op) : cache := fold_left do_op h empty_cache.

(** ---- Algorithm handles: one cache for all algorithms and one per type. ---- *)
Record caches := mkCaches { k_all : cache; k_type : nat -> cache }.
Definition empty_caches : caches := mkCaches empty_cache (fun _ => empty_cache).
Definition updn {A} (f : nat -> A) (i : nat) (v : A) : nat -> A := fun j => if Nat.eqb j i then v else f j.
(** Two statements in a row; an exception skips the second. *)
Definition store2 (k : caches) (i : nat) (s : sptr) : caches * result :=
  match store (k_all k) s with
  | (a, Done) => let (t, r) := store (k_type k i) s in (mkCaches a (updn (k_type k) i t), r)
  | (a, r) => (mkCaches a (k_type k), r)
  end.
Definition erase2 (k : caches) (i : nat) (p : Z) : caches * result :=
  match erase (k_all k) p with
  | (a, Done) => let (t, r) := erase (k_type k i) p in (mkCaches a (updn (k_type k) i t), r)
  | (a, r) => (mkCaches a (k_type k), r)
  end.
(** What a call gives its caller: a handle (0 if none), or an exception. *)
Inductive answer := Handle (p : Z) | Error.
Definition answer_of (r : result) (p : Z) : answer := match r with Done => Handle p | _ => Error end.
(** helpers/algorithm.h 85-100: create; [made] is what type::create gave. *)
Definition create (k : caches) (i : nat) (made : option sptr) : caches * answer :=
  match made with
  | Some s => let (k', r) := store2 k i s in (k', answer_of r (s_addr s))
  | None => (k, Handle 0)
  end.
(** helpers/algorithm.h 102-110: destroy. *)
Definition destroy (k : caches) (i : nat) (p : Z) : caches * answer := let (k', r) := erase2 k i p in (k', answer_of r 0).
(** helpers/algorithm.h 222-247: clone; a null clone throws a string. *)
Definition clone (k : caches) (i : nat) (p : Z) (made : option sptr) : caches * answer :=
  if p =? 0 then (k, Handle 0)
  else match get (k_type k i) p with
       | Got _ => match made with Some s => let (k', r) := store2 k i s in (k', answer_of r (s_addr s)) | None => (k, Error) end
       | _ => (k, Error)
       end.
(** helpers/algorithm.h 156-194: set_type_config, with the new value of *algo.
    [nested] is what set_nested_algo_configuration left in algo_sptr when
    called with the handle's object: unchanged, another object, or an
    exception. *)
Inductive nested := Unchanged | Replaced (s : option sptr) | Threw.
Definition set_type_config (k : caches) (i : nat) (algo : Z) (n : nested) : caches * answer * Z :=
  match (if algo =? 0 then Some None else match get (k_type k i) algo with Got s => Some (Some s) | _ => None end) with
  | None => (k, Error, algo)
  | Some orig =>
    let orig_ptr := match orig with Some s => s_addr s | None => 0 end in
    match n with
    | Threw => (k, Error, algo)
    | Unchanged => (k, Handle 0, algo)
    | Replaced o =>
      let new_ptr := match o with Some s => s_addr s | None => 0 end in
      if orig_ptr =? new_ptr then (k, Handle 0, algo)
      else
        let '(k1, r1) := if orig_ptr =? 0 then (k, Done) else erase2 k i orig_ptr in
        match r1 with
        | Done =>
          match o with
          | Some s => let (k2, r) := store2 k1 i s in match r with Done => (k2, Handle 0, s_addr s) | _ => (k2, Error, algo) end
          | None => (k1, Error, algo)      (* store(NULL) throws *)
          end
        | _ => (k1, Error, algo)
        end
    end
  end.
(** Calls a client can make on type [i]. *)
Inductive call := Create (i : nat) (made : option sptr) | Destroy (i : nat) (p : Z) | Clone (i : nat) (p : Z) (made : option sptr) | SetType (i : nat) (p : Z) (n : nested).
Definition do_call (k : caches) (c : call) : caches :=
  match c with
  | Create i m => fst (create k i m)
  | Destroy i p => fst (destroy k i p)
  | Clone i p m => fst (clone k i p m)
  | SetType i p n => fst (fst (set_type_config k i p n))
  end.

(** ---- Camera maps: camera_map.cxx 53-77 (new) and 103-129 (get_map). ---- *)
(** std::map keyed by frame number, as a list sorted by key. *)
Fixpoint fset (m : list (Z * sptr)) (f : Z) (s : sptr) : list (Z * sptr) :=
  match m with
  | [] => [(f, s)]
  | (g, t) :: r => if f <? g then (f, s) :: m else if f =? g then (f, s) :: r else (g, t) :: fset r f s
  end.
(** The loop of lines 68-71; [None] is the exception of get. *)
Fixpoint map_loop (c : cache) (items : list (Z * Z)) (m : list (Z * sptr)) : option (list (Z * sptr)) :=
  match items with
  | [] => Some m
  | (f, p) :: r => match get c p with Got s => map_loop c r (fset m f s) | _ => None end
  end.
(** [items] is (frame_numbers[i], cameras[i]) for i < length, [] when either
    array is NULL (lines 60-63). *)
Definition camera_map_new (c : cache) (items : list (Z * Z)) : option (list (Z * sptr)) := map_loop c items [].
(** Lines 115-128: frame numbers narrowed to unsigned int; each camera is
    stored in the camera cache (again). *)
Fixpoint get_map_loop (c : cache) (m : list (Z * sptr)) : cache * list (Z * Z) * bool :=
  match m with
  | [] => (c, [], true)
  | (f, s) :: r =>
    match store c s with
    | (c', Done) => let '(c'', out, ok) := get_map_loop c' r in (c'', (f mod 2 ^ 32, s_addr s) :: out, ok)
    | (c', _) => (c', [], false)
    end
  end.
Definition camera_map_get_map (c : cache) (m : list (Z * sptr)) : cache * list (Z * Z) * bool := get_map_loop c m.

(** ---- algorithm.cxx (bindings) 109-122: check_impl_configuration.  The
    verdict of the algorithm is computed and dropped. ---- *)
Definition check_impl_configuration (k : caches) (blocks : cache) (algo cb : Z) (verdict : sptr -> sptr -> bool) : bool :=
  match get (k_all k) algo, get blocks cb with
  | Got a, Got b => let _ := verdict a b in false
  | _, _ => false
  end.
(** helpers/algorithm.h 196-210: check_type_config returns it. *)
Definition check_type_config (blocks : cache) (cb : Z) (verdict : sptr -> bool) : bool :=
  match get blocks cb with Got b => verdict b | _ => false end.
