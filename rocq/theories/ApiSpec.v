(** ApiSpec.v -- what a client of the C functions may assume (C109). *)
From Coq Require Import ZArith List Bool Arith.
Import ListNotations.
From Verif Require Import Base CacheModel ApiModel.

(** Object [o] is there, with this address and content. *)
Definition object (w : world) (o : nat) (a : Z) (c : content) : Prop := exists n, nth o (w_heap w) None = Some (mkCell n a c).
Definition exists_ (w : world) (o : nat) : Prop := nth o (w_heap w) None <> None.
(** Who may use an object: C++ code outside, a handle, a track set that is in
    use itself. *)
Inductive held (w : world) : nat -> Prop :=
| held_cxx o : In o (w_ext w) -> held w o
| held_handle k p o : obj_of (cache_of w k) p = Some o -> held w o
| held_member s a l o : held w s -> object w s a (CSet l) -> In o l -> held w o.

(** What the C++ side may do: a new object is at an address no object there has,
    and a new track set is built from tracks that are there. *)
Definition can_make (w : world) (a : Z) (c : content) : Prop :=
  a <> 0%Z /\ (forall o c', ~ object w o a c') /\ (forall l t, c = CSet l -> In t l -> exists a' n, object w t a' (CTrk n)).
Definition can_give (k : cls) (w : world) (x : cxx) : Prop :=
  match x with
  | XThrow | XNull => True
  | XOld o => exists a c, object w o a c /\ cls_of c = k
  | XNew a c => can_make w a c /\ cls_of c = k
  end.
(** Calls allowed: no NULL image or file name; C++ code hands in, and lets go
    of, only pointers it holds. *)
Definition legal (w : world) (c : api) : Prop :=
  match c with
  | ImgNew i a => exists img, i = Some img /\ can_make w a (CImg img)
  | ImgFromSptr (Some o) => In o (w_ext w) /\ can_give KImg w (XOld o)
  | SetFromSptr (Some o) => In o (w_ext w) /\ can_give KSet w (XOld o)
  | TrkNew a => can_make w a (CTrk 0)
  | SetNew ps a => forall os, objs_of (w_trk w) ps = Some os -> can_make w a (CSet os)
  | SetFromFile f x => f <> None /\ can_give KSet w x
  | SetWrite _ f _ | Save _ f _ _ => f <> None
  | Load _ f x => f <> None /\ can_give KImg w x
  | Convert _ _ x => can_give KImg w x
  | Track _ _ _ _ _ x => can_give KSet w x
  | CxxNew a c => can_make w a c
  | CxxDrop o => In o (w_ext w)
  | _ => True
  end.
(** Histories of legal calls with what they returned, newest first. *)
Inductive hist (algs : nat -> cache) : world -> list (api * ret) -> Prop :=
| hist0 : hist algs (world0 algs) []
| hist_step w l c w' r e : hist algs w l -> legal w c -> step w c = Some (w', r, e) -> hist algs w' ((c, r) :: l).

(** Handles handed out and given back. *)
Definition gives (c : api) : option cls :=
  match c with
  | ImgNew _ _ | ImgFromSptr _ | Load _ _ _ | Convert _ _ _ => Some KImg
  | TrkNew _ => Some KTrk
  | SetNew _ _ | SetFromSptr _ | SetFromFile _ _ | Track _ _ _ _ _ _ => Some KSet
  | _ => None
  end.
Definition cls_eqb (a b : cls) : bool := match a, b with KImg, KImg | KTrk, KTrk | KSet, KSet => true | _, _ => false end.
Definition handed (k : cls) (p : Z) (e : api * ret) : bool :=
  match e with (c, (VHandle q, _)) => match gives c with Some k' => cls_eqb k k' && (p =? q)%Z | None => false end | _ => false end.
Definition given_back (k : cls) (p : Z) (e : api * ret) : bool :=
  match fst e with
  | ImgDestroy q => cls_eqb k KImg && (p =? q)%Z
  | TrkDestroy q => cls_eqb k KTrk && (p =? q)%Z
  | SetDestroy q => cls_eqb k KSet && (p =? q)%Z
  | _ => false
  end.
(** How often a handle is still to be given back. *)
Fixpoint open (k : cls) (p : Z) (l : list (api * ret)) : nat :=
  match l with
  | [] => 0
  | e :: l => if handed k p e then S (open k p l) else if given_back k p e then pred (open k p l) else open k p l
  end.
