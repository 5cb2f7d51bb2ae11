(** PyModel.v -- who owns what in the Python interface:
    vital/bindings/python/vital/util/VitalObject.py and the classes derived
    from it (config_block.py, track.py, track_set.py, image_container.py,
    camera.py, camera_map.py, algo/*.py).

    A Python object refers to a ctypes pointer object (_inst_ptr, a "cell") and
    perhaps to the object it is a shallow copy of (_parent).  A cell's content is
    a C handle: the address and the C++ object it was handed out for; address 0
    is NULL.  The C side is the shared pointer cache of the class
    (CacheModel.v); for algorithms, which live in two caches, C69 shows that
    both go through the same steps.  Python collects an object after the last
    reference to it is gone, _parent references included; reference cycles and
    the end of the interpreter are left out. *)
From Coq Require Import ZArith List Bool.
Import ListNotations.
From Verif Require Import Base CacheModel.

Record pyobj := mkPy { o_cell : nat; o_parent : option nat }.
Record py := mkW { y_cache : cache; y_cells : list sptr; y_objs : list (option pyobj) }.
Definition null : sptr := mkSp 0 0.
Definition py0 : py := mkW empty_cache [] [].
Definition cell_at (w : py) (n : nat) : sptr := nth n (y_cells w) null.
Definition obj_at (w : py) (i : nat) : option pyobj := nth i (y_objs w) None.

Inductive pyop :=
| PNew (s : sptr)               (* a C function made, or returned again, s: constructors, from_file, subblock, clone, track, ... *)
| PNull                         (* a C function failed and returned NULL *)
| PCopy (i : nat)               (* from_c_pointer(obj.c_pointer, shallow_copy_of=obj) *)
| PAlias (i : nat)              (* from_c_pointer(obj.c_pointer), the parent forgotten *)
| PSetConfig (i : nat) (s : sptr)   (* algorithm.py 300-332: set_config that replaced the instance *)
| PDel (i : nat).               (* __del__ *)

(** The C functions that hand out a handle store it first; [None]: they caught
    an exception and return NULL instead. *)
Definition hand_out (c : cache) (s : sptr) : cache * sptr := match store c s with (c', Done) => (c', s) | (c', _) => (c', null) end.
(** VitalObject.py 99-101 (and the constructors of the derived classes): a new
    object with a cell of its own and no parent. *)
Definition py_new (w : py) (s : sptr) : py :=
  let (c, h) := hand_out (y_cache w) s in
  mkW c (y_cells w ++ [h]) (y_objs w ++ [Some (mkPy (length (y_cells w)) None)]).
(** from_c_pointer 79-148: the new object refers to the same ctypes pointer
    object. *)
Definition py_again (w : py) (i : nat) (parent : option nat) : py :=
  match obj_at w i with
  | Some o => mkW (y_cache w) (y_cells w) (y_objs w ++ [Some (mkPy (o_cell o) parent)])
  | None => w
  end.
(** algorithm.py 328-332 hands the address of the cell to set_type_config
    (helpers/algorithm.h 156-194), which erases the old handle and stores the
    new one and writes it into the cell. *)
Definition py_set_config (w : py) (i : nat) (s : sptr) : py :=
  match obj_at w i with
  | Some o =>
    let old := s_addr (cell_at w (o_cell o)) in
    if (old =? s_addr s)%Z then w
    else
      let c1 := if (old =? 0)%Z then y_cache w else fst (erase (y_cache w) old) in
      match store c1 s with
      | (c2, Done) => mkW c2 (lupd (y_cells w) (o_cell o) s) (y_objs w)
      | (c2, _) => mkW c2 (y_cells w) (y_objs w)
      end
  | None => w
  end.
(** VitalObject.py 150-152; _destroy calls erase (some classes only for a
    handle that is not NULL, which makes no difference to the cache). *)
Definition py_del (w : py) (i : nat) : py :=
  match obj_at w i with
  | Some o =>
    mkW (match o_parent o with None => fst (erase (y_cache w) (s_addr (cell_at w (o_cell o)))) | Some _ => y_cache w end)
        (y_cells w) (lupd (y_objs w) i None)
  | None => w
  end.
Definition py_step (w : py) (o : pyop) : py :=
  match o with
  | PNew s => py_new w s
  | PNull => mkW (y_cache w) (y_cells w ++ [null]) (y_objs w ++ [Some (mkPy (length (y_cells w)) None)])
  | PCopy i => py_again w i (Some i)
  | PAlias i => py_again w i None
  | PSetConfig i s => py_set_config w i s
  | PDel i => py_del w i
  end.
Definition py_run (ops : list pyop) : py := fold_left py_step ops py0.
