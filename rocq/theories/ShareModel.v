(** ShareModel.v -- objects behind shared pointers: vital/types/homography_f2w.cxx,
    homography_f2f.cxx (who shares the homography), and the simple containers of
    feature_set.h, descriptor_set.h, match_set.h, landmark_map.h, camera_map.h.

    A program has shared pointers to mutable objects (a homography_<T> is
    changed with get_matrix(), a feature_ or landmark_ with its setters),
    vectors and maps of such pointers, f2w/f2f homographies and simple sets.
    The content of an object is of any type [M]; inverse and product of
    homographies are parameters.  An f2w_homography is an f2f one whose two
    frames are equal and which has no inverse or product: only the sharing is
    modelled here.  Objects are never reclaimed while a pointer to them exists;
    reclaiming others cannot be observed, so they just stay. *)
From Coq Require Import List Bool ZArith Lia.
Import ListNotations.
From Verif Require Import Base.

Definition ptr := option nat.               (* a shared_ptr: null or an object *)
Record f2x := F2X { x_h : ptr; x_from : Z; x_to : Z }.
(** std::map<int64, shared_ptr>: ascending keys. *)
Definition kmap := list (Z * ptr).
Fixpoint k_set (m : kmap) (k : Z) (p : ptr) : kmap :=
  match m with
  | [] => [(k, p)]
  | (k', p') :: r => if (k <? k')%Z then (k, p) :: m else if (k =? k')%Z then (k, p) :: r else (k', p') :: k_set r k p
  end.
(** A simple_*_set / simple_*_map: its data_ member. *)
Inductive box := BVec (v : list ptr) | BMap (m : kmap).

Section S.
Context {M : Type} (ident : M) (inv : M -> option M) (mul : M -> M -> M).
Record st := St { cells : list M; ptrs : list ptr; vecs : list (list ptr); maps : list kmap; fs : list f2x; boxes : list box }.
Definition st0 : st := St [] [] [] [] [] [].

Inductive op :=
| PNew (m : M) | PNull | PSet (p : nat) (m : M) | PRead (p : nat)
| VNew | VPush (v p : nat) | VStore (v i p : nat) | VRead (v : nat)
| KNew | KSet (m : nat) (k : Z) (p : nat) | KRead (m : nat)
| FId (frame : Z) | FNew (p : nat) (from to : Z) | FMat (m : M) (from to : Z) | FCopy (f : nat) | FAssign (f g : nat) | FGet (f : nat) | FRead (f : nat)
| FInv (f : nat) | FMul (f g : nat)
| BNewV (v : nat) | BNewK (m : nat) | BSize (b : nat) | BGet (b : nat) | BCopy (b : nat).

Inductive out :=
| ODone | OVal (m : M) | ONum (n : nat) | OF (m : M) (from to : Z) | OList (l : list (option M)) | OMap (l : list (Z * option M)) | OThrow | OIllTyped.

Definition cell (s : st) (p : ptr) : option M := match p with Some c => nth_error (cells s) c | None => None end.
(** What a vector of pointers shows. *)
Definition look (s : st) (v : list ptr) : list (option M) := map (cell s) v.
Definition lookk (s : st) (m : kmap) : list (Z * option M) := map (fun kp => (fst kp, cell s (snd kp))) m.

Definition add_ptr (s : st) (p : ptr) : st := St (cells s) (ptrs s ++ [p]) (vecs s) (maps s) (fs s) (boxes s).
Definition add_cell (s : st) (m : M) : st := St (cells s ++ [m]) (ptrs s) (vecs s) (maps s) (fs s) (boxes s).
Definition set_cell (s : st) (c : nat) (m : M) : st := St (lupd (cells s) c m) (ptrs s) (vecs s) (maps s) (fs s) (boxes s).
Definition add_vec (s : st) (v : list ptr) : st := St (cells s) (ptrs s) (vecs s ++ [v]) (maps s) (fs s) (boxes s).
Definition set_vec (s : st) (i : nat) (v : list ptr) : st := St (cells s) (ptrs s) (lupd (vecs s) i v) (maps s) (fs s) (boxes s).
Definition add_map (s : st) (m : kmap) : st := St (cells s) (ptrs s) (vecs s) (maps s ++ [m]) (fs s) (boxes s).
Definition set_map (s : st) (i : nat) (m : kmap) : st := St (cells s) (ptrs s) (vecs s) (lupd (maps s) i m) (fs s) (boxes s).
Definition add_f (s : st) (f : f2x) : st := St (cells s) (ptrs s) (vecs s) (maps s) (fs s ++ [f]) (boxes s).
Definition set_f (s : st) (i : nat) (f : f2x) : st := St (cells s) (ptrs s) (vecs s) (maps s) (lupd (fs s) i f) (boxes s).
Definition add_box (s : st) (b : box) : st := St (cells s) (ptrs s) (vecs s) (maps s) (fs s) (boxes s ++ [b]).

(** A new homography of content m inside a new f2w/f2f object: homography_f2w.cxx
    44-67, homography_f2f.cxx 46-77, homography_f2f.h 62-70. *)
Definition fresh_f (s : st) (m : M) (from to : Z) : st := add_f (add_cell s m) (F2X (Some (length (cells s))) from to).

(** [None]: a null pointer is followed (or a variable does not exist). *)
Definition step (s : st) (o : op) : option (st * out) :=
  match o with
  | PNew m => Some (add_ptr (add_cell s m) (Some (length (cells s))), ODone)
  | PNull => Some (add_ptr s None, ODone)
  | PSet p m => match nth_error (ptrs s) p with Some (Some c) => Some (set_cell s c m, ODone) | _ => None end
  | PRead p => match nth_error (ptrs s) p with Some p => match cell s p with Some m => Some (s, OVal m) | None => None end | None => None end
  | VNew => Some (add_vec s [], ODone)
  | VPush v p => match nth_error (vecs s) v, nth_error (ptrs s) p with Some l, Some x => Some (set_vec s v (l ++ [x]), ODone) | _, _ => None end
  | VStore v i p => match nth_error (vecs s) v, nth_error (ptrs s) p with
                    | Some l, Some x => if i <? length l then Some (set_vec s v (lupd l i x), ODone) else None | _, _ => None end
  | VRead v => match nth_error (vecs s) v with Some l => Some (s, OList (look s l)) | None => None end
  | KNew => Some (add_map s [], ODone)
  | KSet m k p => match nth_error (maps s) m, nth_error (ptrs s) p with Some l, Some x => Some (set_map s m (k_set l k x), ODone) | _, _ => None end
  | KRead m => match nth_error (maps s) m with Some l => Some (s, OMap (lookk s l)) | None => None end
  (* homography_f2w.cxx 44-50, homography_f2f.cxx 46-52 *)
  | FId fr => Some (fresh_f s ident fr fr, ODone)
  (* homography_f2w.cxx 53-59, homography_f2f.cxx 55-64: h->clone() *)
  | FNew p a b => match nth_error (ptrs s) p with Some (Some c) => match nth_error (cells s) c with Some m => Some (fresh_f s m a b, ODone) | None => None end | _ => None end
  (* homography_f2f.h 62-70 *)
  | FMat m a b => Some (fresh_f s m a b, ODone)
  (* homography_f2w.cxx 61-67, homography_f2f.cxx 66-73: h.h_->clone() *)
  | FCopy f => match nth_error (fs s) f with
               | Some x => match cell s (x_h x) with Some m => Some (fresh_f s m (x_from x) (x_to x), ODone) | None => None end | None => None end
  (* no operator= is declared: the generated one assigns the shared pointer *)
  | FAssign f g => match nth_error (fs s) f, nth_error (fs s) g with Some _, Some y => Some (set_f s f y, ODone) | _, _ => None end
  (* homography_f2w.cxx 69-75, homography_f2f.cxx 76-82: return this->h_ *)
  | FGet f => match nth_error (fs s) f with Some x => Some (add_ptr s (x_h x), ODone) | None => None end
  | FRead f => match nth_error (fs s) f with
               | Some x => match cell s (x_h x) with Some m => Some (s, OF m (x_from x) (x_to x)) | None => None end | None => None end
  (* homography_f2f.cxx 100-105: inverse() makes a homography, which the constructor clones *)
  | FInv f => match nth_error (fs s) f with
              | Some x => match cell s (x_h x) with
                          | Some m => match inv m with
                                      | Some i => Some (fresh_f (add_cell s i) i (x_to x) (x_from x), ODone)
                                      | None => Some (s, OThrow) end
                          | None => None end
              | None => None end
  (* homography_f2f.cxx 108-120 *)
  | FMul f g => match nth_error (fs s) f, nth_error (fs s) g with
                | Some x, Some y => if (x_from x =? x_to y)%Z
                                    then match cell s (x_h x), cell s (x_h y) with
                                         | Some m, Some n => Some (fresh_f s (mul m n) (x_from y) (x_to x), ODone) | _, _ => None end
                                    else Some (s, OThrow)
                | _, _ => None end
  (* feature_set.h 79-80, descriptor_set.h 84-85, match_set.h 75-76: data_( features ) *)
  | BNewV v => match nth_error (vecs s) v with Some l => Some (add_box s (BVec l), ODone) | None => None end
  (* landmark_map.h 77-78, camera_map.h 76-77 *)
  | BNewK m => match nth_error (maps s) m with Some l => Some (add_box s (BMap l), ODone) | None => None end
  (* size() *)
  | BSize b => match nth_error (boxes s) b with Some (BVec l) => Some (s, ONum (length l)) | Some (BMap l) => Some (s, ONum (length l)) | None => None end
  (* features(), descriptors(), matches(), landmarks(), cameras(): return data_ *)
  | BGet b => match nth_error (boxes s) b with Some (BVec l) => Some (add_vec s l, ODone) | Some (BMap l) => Some (add_map s l, ODone) | None => None end
  | BCopy b => match nth_error (boxes s) b with Some x => Some (add_box s x, ODone) | None => None end
  end.
Fixpoint run (s : st) (p : list op) : option st :=
  match p with [] => Some s | o :: r => match step s o with Some (s', _) => run s' r | None => None end end.
End S.
