(** OwnModel.v -- kwiversys::auto_ptr (vital/kwiversys/auto_ptr.hxx.in, the
    branch with auto_ptr_ref).  Objects, auto_ptr variables and auto_ptr_ref
    values are numbered in the order of their creation; a variable or an object
    that does not exist any more keeps its number.  Types of the objects
    (auto_ptr<Y> to auto_ptr<X>) are left out: the members are the same. *)
From Coq Require Import List Bool Arith.
Import ListNotations.
From Verif Require Import Base.

Record mem := Mem {
  m_alive : list bool;                     (* objects: still there? *)
  m_ptr : list (option (option nat));      (* auto_ptr: x_ (None inside: null); None: destroyed *)
  m_ref : list (option nat);               (* auto_ptr_ref: p_ *)
  m_log : list nat }.                      (* objects destroyed, the last first *)
Definition start : mem := Mem [] [] [] [].
(** delete p: nothing for a null pointer; undefined for an object that is not there. *)
Definition delete (p : option nat) (m : mem) : option mem :=
  match p with
  | None => Some m
  | Some o => if nth o (m_alive m) false then Some (Mem (lupd (m_alive m) o false) (m_ptr m) (m_ref m) (o :: m_log m)) else None
  end.
Definition set_ptr (a : nat) (x : option nat) (m : mem) : mem := Mem (m_alive m) (lupd (m_ptr m) a (Some x)) (m_ref m) (m_log m).
(** auto_ptr.hxx.in 151-154: x_ as get() gives it; [None]: no such variable. *)
Definition get (a : nat) (m : mem) : option (option nat) := nth a (m_ptr m) None.
(** 159-164 *)
Definition release (a : nat) (m : mem) : option (option nat * mem) :=
  match get a m with
  | None => None
  | Some x => Some (x, set_ptr a None m)
  end.
(** 168-176 *)
Definition reset (a : nat) (p : option nat) (m : mem) : option mem :=
  match get a m with
  | None => None
  | Some x => if (match x, p with Some u, Some v => u =? v | None, None => true | _, _ => false end) then Some m
              else match delete x m with None => None | Some m => Some (set_ptr a p m) end
  end.
(** 109-111 from a pointer and 190-192 from an auto_ptr_ref: the new variable has the next number. *)
Definition ctor (p : option nat) (m : mem) : mem := Mem (m_alive m) (m_ptr m ++ [Some p]) (m_ref m) (m_log m).
(** 84-88, 116-119: from another auto_ptr; 180-183: the conversion operator makes the same. *)
Definition copy_ctor (b : nat) (m : mem) : option mem := match release b m with None => None | Some (x, m) => Some (ctor x m) end.
(** 92-97, 123-127 *)
Definition assign (a b : nat) (m : mem) : option mem := match release b m with None => None | Some (x, m) => reset a x m end.
(** 130-134 *)
Definition dtor (a : nat) (m : mem) : option mem :=
  match get a m with
  | None => None
  | Some x => match delete x m with None => None | Some m => Some (Mem (m_alive m) (lupd (m_ptr m) a None) (m_ref m) (m_log m)) end
  end.
(** 207-210: conversion to auto_ptr_ref *)
Definition to_ref (a : nat) (m : mem) : option mem :=
  match release a m with None => None | Some (x, m) => Some (Mem (m_alive m) (m_ptr m) (m_ref m ++ [x]) (m_log m)) end.
(** 190-192 *)
Definition from_ref (r : nat) (m : mem) : option mem := match nth_error (m_ref m) r with None => None | Some p => Some (ctor p m) end.
(** 197-201 *)
Definition assign_ref (a r : nat) (m : mem) : option mem := match nth_error (m_ref m) r with None => None | Some p => reset a p m end.
(** 137-140: the object that operator* refers to. *)
Definition deref (a : nat) (m : mem) : option nat :=
  match get a m with Some (Some o) => if nth o (m_alive m) false then Some o else None | _ => None end.

(** What a program does. *)
Inductive op :=
| ONew                                (* new X: a pointer the program owns *)
| ODelete (o : nat)                   (* delete of an object through such a pointer *)
| OCtor (p : option nat) | OCopy (b : nat) | OAssign (a b : nat) | ODtor (a : nat)
| ORelease (a : nat) | OReset (a : nat) (p : option nat)
| OToRef (a : nat) | OFromRef (r : nat) | OAssignRef (a r : nat).
Definition exec (i : op) (m : mem) : option mem :=
  match i with
  | ONew => Some (Mem (m_alive m ++ [true]) (m_ptr m) (m_ref m) (m_log m))
  | ODelete o => delete (Some o) m
  | OCtor p => Some (ctor p m)
  | OCopy b => copy_ctor b m
  | OAssign a b => assign a b m
  | ODtor a => dtor a m
  | ORelease a => match release a m with Some (_, m) => Some m | None => None end
  | OReset a p => reset a p m
  | OToRef a => to_ref a m
  | OFromRef r => from_ref r m
  | OAssignRef a r => assign_ref a r m
  end.
Fixpoint run (l : list op) (m : mem) : option mem :=
  match l with [] => Some m | i :: l => match exec i m with None => None | Some m => run l m end end.
