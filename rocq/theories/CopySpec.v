(** CopySpec.v -- words for speaking about copies (C121). *)
From Coq Require Import Ascii String List Bool Arith.
Import ListNotations.
From Verif Require Import Base TreeModel TreeSpec CopyModel.

(** The path leads to a directory. *)
Definition leads_to_dir (f : fsys) (cwd : place) (p : str) : Prop := exists l, resolve f cwd true p = inl l /\ at_place f l = Some KDir.
(** x is what follows the last slash of p (all of p without a slash). *)
Definition last_part (p x : str) : Prop := ~ In "/"%char x /\ (p = x \/ exists a, p = a ++ "/"%char :: x).
(** The name under which a copy is to be found. *)
Inductive lands (f : fsys) (cwd : place) (source destination : str) : str -> Prop :=
| lands_dir x : leads_to_dir f cwd destination -> last_part source x -> lands f cwd source destination (destination ++ L "/" ++ x)
| lands_file : ~ leads_to_dir f cwd destination -> lands f cwd source destination destination.
(** The path is a name of a file with these bytes. *)
Definition holds (f : fsys) (cwd : place) (p : str) (d : str) : Prop := exists l, resolve f cwd true p = inl l /\ at_place f l = Some (KFile d).
(** Nothing changed except at w, and some new directories. *)
Definition only_at (f f' : fsys) (w : place) : Prop := forall x, x <> w -> at_place f' x = at_place f x \/ (at_place f x = None /\ at_place f' x = Some KDir).
(** On the way to l there are directories only, or nothing. *)
Definition open_way (f : fsys) (l : place) : Prop := forall p t, l = p ++ t -> at_place f p = None \/ at_place f p = Some KDir.
(** Copying A to B does not meet a file where a directory is to be, or the other way round, nor links. *)
Definition fits (f : fsys) (A B : place) : Prop := forall r,
  match at_place f (A ++ r) with
  | Some KDir => at_place f (B ++ r) = None \/ at_place f (B ++ r) = Some KDir
  | Some (KFile _) => at_place f (B ++ r) = None \/ exists b, at_place f (B ++ r) = Some (KFile b)
  | Some (KLink _) => False
  | None => True
  end.
