(** OwnSpec.v -- who owns an object. *)
From Coq Require Import List Bool Arith.
Import ListNotations.
From Verif Require Import Base OwnModel.

Inductive owner := Program | Auto (a : nat) | Ref (r : nat) | Gone.
(** Which objects, auto_ptrs and auto_ptr_refs there are: the owner of each
    object made so far, whether each auto_ptr is still there and whether each
    auto_ptr_ref is still unused. *)
Record world := World { w_own : nat -> owner; w_objs : nat; w_ptrs : list bool; w_refs : list bool }.
Definition empty : world := World (fun _ => Program) 0 [] [].
Definition is_owner (x y : owner) : bool :=
  match x, y with Program, Program => true | Auto a, Auto b => a =? b | Ref a, Ref b => a =? b | Gone, Gone => true | _, _ => false end.
(** What x owned is y's. *)
Definition hand (x y : owner) (f : nat -> owner) : nat -> owner := fun o => if is_owner (f o) x then y else f o.
Definition give (p : option nat) (y : owner) (f : nat -> owner) : nat -> owner := fun o => match p with Some q => if q =? o then y else f o | None => f o end.
Definition off (i : nat) (l : list bool) : list bool := lupd l i false.
Definition has (i : nat) (l : list bool) : Prop := nth i l false = true.
Definition mine (p : option nat) (w : world) : Prop := match p with None => True | Some o => o < w_objs w /\ w_own w o = Program end.

(** A program hands over only what it owns, uses only the auto_ptrs that are
    there and each auto_ptr_ref once ... *)
Definition allowed (w : world) (i : op) : Prop :=
  match i with
  | ONew => True
  | ODelete o => mine (Some o) w
  | OCtor p => mine p w
  | OCopy b => has b (w_ptrs w)
  | OAssign a b => has a (w_ptrs w) /\ has b (w_ptrs w)
  | ODtor a => has a (w_ptrs w)
  | ORelease a => has a (w_ptrs w)
  | OReset a p => has a (w_ptrs w) /\ (mine p w \/ exists o, p = Some o /\ o < w_objs w /\ w_own w o = Auto a)
  | OToRef a => has a (w_ptrs w)
  | OFromRef r => has r (w_refs w)
  | OAssignRef a r => has a (w_ptrs w) /\ has r (w_refs w)
  end.
(** ... and then this is what happens to the objects. *)
Definition effect (w : world) (i : op) : world :=
  let f := w_own w in let new := length (w_ptrs w) in
  match i with
  | ONew => World (give (Some (w_objs w)) Program f) (S (w_objs w)) (w_ptrs w) (w_refs w)
  | ODelete o => World (give (Some o) Gone f) (w_objs w) (w_ptrs w) (w_refs w)
  | OCtor p => World (give p (Auto new) f) (w_objs w) (w_ptrs w ++ [true]) (w_refs w)
  | OCopy b => World (hand (Auto b) (Auto new) f) (w_objs w) (w_ptrs w ++ [true]) (w_refs w)
  | OAssign a b => World (if a =? b then f else hand (Auto b) (Auto a) (hand (Auto a) Gone f)) (w_objs w) (w_ptrs w) (w_refs w)
  | ODtor a => World (hand (Auto a) Gone f) (w_objs w) (off a (w_ptrs w)) (w_refs w)
  | ORelease a => World (hand (Auto a) Program f) (w_objs w) (w_ptrs w) (w_refs w)
  | OReset a p => World (match p with
                         | Some o => if is_owner (f o) (Auto a) then f else give p (Auto a) (hand (Auto a) Gone f)
                         | None => hand (Auto a) Gone f
                         end) (w_objs w) (w_ptrs w) (w_refs w)
  | OToRef a => World (hand (Auto a) (Ref (length (w_refs w))) f) (w_objs w) (w_ptrs w) (w_refs w ++ [true])
  | OFromRef r => World (hand (Ref r) (Auto new) f) (w_objs w) (w_ptrs w ++ [true]) (off r (w_refs w))
  | OAssignRef a r => World (hand (Ref r) (Auto a) (hand (Auto a) Gone f)) (w_objs w) (w_ptrs w) (off r (w_refs w))
  end.
Inductive follows : world -> list op -> world -> Prop :=
| follows_nil w : follows w [] w
| follows_cons w i l w' : allowed w i -> follows (effect w i) l w' -> follows w (i :: l) w'.
