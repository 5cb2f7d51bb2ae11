(** TreeSpec.v -- words for speaking about file trees (C119, C120). *)
From Coq Require Import Ascii String List Bool Arith.
Import ListNotations.
From Verif Require Import Base PathModel TreeModel.

(** x is l or lies below it. *)
Definition below (l x : place) : Prop := exists t, x = l ++ t.
Fixpoint belowb (l x : place) : bool :=
  match l, x with [], _ => true | _, [] => false | a :: l', b :: x' => (str_eqb a b && belowb l' x')%bool end.
(** A name that a directory entry can have. *)
Definition proper (x : str) : Prop := x <> [] /\ x <> L "." /\ x <> L ".." /\ ~ In slash x.
(** One thing at a place; what holds it is a directory. *)
Record WF (f : fsys) : Prop := {
  wf_nodup : NoDup (map fst f);
  wf_name : forall x k, In (x, k) f -> x <> [] /\ proper (List.last x []) /\ at_place f (removelast x) = Some KDir }.
(** The file system with the directory at l empty. *)
Definition emptied (f : fsys) (l : place) : fsys := filter (fun e => (negb (belowb l (fst e)) || if place_dec (fst e) l then true else false)%bool) f.
Definition ends_backslash (x : str) : Prop := exists y, x = y ++ [backslash].
