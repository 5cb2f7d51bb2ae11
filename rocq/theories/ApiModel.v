(** ApiModel.v -- the C functions for image containers, tracks, track sets and
    the three algorithm interfaces: vital/bindings/c/image_container.cxx 45-177,
    track.cxx 51-100, track_set.cxx 56-151, algo_def/image_io.cxx 46-72,
    algo_def/convert_image.cxx 47-62, algo_def/track_features.cxx 49-95, over the
    shared pointer caches of CacheModel.v.

    C++ objects live in a heap and carry the count of the shared pointers to
    them; the last one to go deletes the object, and a track set then lets go of
    its tracks.  Copies of a shared pointer made and dropped within one function
    are left out.  [w_ext] is what C++ code outside these functions holds.
    What an algorithm (or read_track_file) does is given with the call. *)
From Coq Require Import ZArith List Bool Arith.
Import ListNotations.
From Verif Require Import Base CacheModel.
From Verif Require ImageModel.

Inductive content := CImg (i : ImageModel.image) | CTrk (states : nat) | CSet (tracks : list nat).
Record cell := mkCell { x_refs : nat; x_addr : Z; x_con : content }.
Definition heap := list (option cell).
Record world := mkWorld { w_heap : heap; w_img : cache; w_trk : cache; w_set : cache; w_alg : nat -> cache; w_ext : list nat }.
Definition world0 (algs : nat -> cache) : world := mkWorld [] empty_cache empty_cache empty_cache algs [].
Definition cell_at (h : heap) (o : nat) : option cell := nth o h None.
(** Copying and dropping one shared pointer to [o]; [None]: [o] is deleted
    already (undefined behaviour). *)
Definition acquire (h : heap) (o : nat) : option heap :=
  match cell_at h o with Some x => Some (lupd h o (Some (mkCell (S (x_refs x)) (x_addr x) (x_con x)))) | None => None end.
Fixpoint acquires (h : heap) (os : list nat) : option heap :=
  match os with [] => Some h | o :: r => match acquire h o with Some h => acquires h r | None => None end end.
(** One reference less; the members of what was deleted by that. *)
Definition drop (h : heap) (o : nat) : option (heap * list nat) :=
  match cell_at h o with
  | Some x =>
    match x_refs x with
    | 0 => None
    | 1 => Some (lupd h o None, match x_con x with CSet l => l | _ => [] end)
    | S n => Some (lupd h o (Some (mkCell n (x_addr x) (x_con x))), [])
    end
  | None => None
  end.
(** Tracks have no members: two levels are enough. *)
Fixpoint drops (h : heap) (os : list nat) : option heap :=
  match os with [] => Some h | o :: r => match drop h o with Some (h, _) => drops h r | None => None end end.
Definition release (h : heap) (o : nat) : option heap := match drop h o with Some (h, l) => drops h l | None => None end.
(** new T: the object, one reference to it held by the caller. *)
Definition make (h : heap) (addr : Z) (con : content) : option (heap * nat) :=
  match acquires h (match con with CSet l => l | _ => [] end) with
  | Some h => Some (h ++ [Some (mkCell 1 addr con)], length h)
  | None => None
  end.

Inductive cls := KImg | KTrk | KSet.
Definition cls_of (c : content) : cls := match c with CImg _ => KImg | CTrk _ => KTrk | CSet _ => KSet end.
Definition cache_of (w : world) (k : cls) : cache := match k with KImg => w_img w | KTrk => w_trk w | KSet => w_set w end.
Definition with_heap (w : world) (h : heap) : world := mkWorld h (w_img w) (w_trk w) (w_set w) (w_alg w) (w_ext w).
Definition with_cache (w : world) (k : cls) (c : cache) : world :=
  match k with
  | KImg => mkWorld (w_heap w) c (w_trk w) (w_set w) (w_alg w) (w_ext w)
  | KTrk => mkWorld (w_heap w) (w_img w) c (w_set w) (w_alg w) (w_ext w)
  | KSet => mkWorld (w_heap w) (w_img w) (w_trk w) c (w_alg w) (w_ext w)
  end.
Definition with_ext (w : world) (e : list nat) : world := mkWorld (w_heap w) (w_img w) (w_trk w) (w_set w) (w_alg w) e.

(** What a call gives back: the value returned and whether the error handle was
    filled in. *)
Inductive value := VHandle (p : Z) | VNum (n : Z) | VBool (b : bool) | VImage (i : option ImageModel.image) | VSptr (o : option nat) | VVoid.
Definition ret := (value * bool)%type.
(** Calls made on C++ objects. *)
Inductive event :=
| EvLoad (a : nat) (file : str) | EvSave (a : nat) (file : str) (img : nat) | EvConvert (a img : nat)
| EvTrack (a prev : nat) (frame : Z) (img : nat) (mask : option nat) | EvRead (file : str) | EvWrite (set : nat) (file : str).
(** What such a call gives: an exception, a null pointer, an object there
    already, a new object. *)
Inductive cxx := XThrow | XNull | XOld (o : nat) | XNew (addr : Z) (con : content).
Definition step_result := option (world * ret * list event).

(** CACHE.store( sptr ): a new entry is one more reference. *)
Definition store_in (k : cls) (w : world) (o : nat) : option (world * bool) :=
  match cell_at (w_heap w) o with
  | None => None
  | Some x =>
    match store (cache_of w k) (mkSp (x_addr x) o) with
    | (c, Done) =>
      match c_ptr (cache_of w k) (x_addr x) with
      | Some _ => Some (with_cache w k c, true)
      | None => match acquire (w_heap w) o with Some h => Some (with_cache (with_heap w h) k c, true) | None => None end
      end
    | (c, _) => Some (with_cache w k c, false)
    end
  end.
(** CACHE.erase( ptr ). *)
Definition erase_in (k : cls) (w : world) (p : Z) : option (world * bool) :=
  match erase (cache_of w k) p with
  | (c, Done) =>
    match c_ptr (cache_of w k) p, c_ptr c p with
    | Some s, None => match release (w_heap w) (s_obj s) with Some h => Some (with_cache (with_heap w h) k c, true) | None => None end
    | _, _ => Some (with_cache w k c, true)
    end
  | (c, _) => Some (with_cache w k c, false)
  end.
(** Storing a result and handing out its address.  The local shared pointer to
    a new object goes at the end of the function. *)
Definition hand (k : cls) (has_eh : bool) (w : world) (x : cxx) : option (world * ret) :=
  let fail w := Some (w, (VHandle 0, has_eh)) in
  match x with
  | XThrow | XNull => fail w
  | XOld o =>
    match store_in k w o, cell_at (w_heap w) o with
    | Some (w, true), Some x => Some (w, (VHandle (x_addr x), false))
    | Some (w, false), _ => fail w
    | _, _ => None
    end
  | XNew addr con =>
    match make (w_heap w) addr con with
    | None => None
    | Some (h, o) =>
      match store_in k (with_heap w h) o with
      | None => None
      | Some (w, ok) =>
        match release (w_heap w) o with
        | None => None
        | Some h => Some (with_heap w h, if ok then (VHandle addr, false) else (VHandle 0, has_eh))
        end
      end
    end
  end.
Definition with_events (r : option (world * ret)) (e : list event) : step_result := match r with Some (w, v) => Some (w, v, e) | None => None end.
Definition plain (w : world) (v : value) (eh : bool) : step_result := Some (w, (v, eh), []).
(** A handle of a class, as the object it stands for: CACHE.get. *)
Definition obj_of (c : cache) (p : Z) : option nat := match get c p with Got s => Some (s_obj s) | _ => None end.
(** Algorithm types: 0 image_io, 1 convert_image, 2 track_features. *)
Definition IO := 0%nat. Definition CONV := 1%nat. Definition TRACKER := 2%nat.

Inductive api :=
| ImgNew (img : option ImageModel.image) (addr : Z) | ImgFromSptr (o : option nat) | ImgToSptr (p : Z) | ImgDestroy (p : Z)
| ImgSize (p : Z) | ImgWidth (p : Z) | ImgHeight (p : Z) | ImgDepth (p : Z) | ImgGet (p : Z)
| TrkNew (addr : Z) | TrkDestroy (p : Z) | TrkSize (p : Z) | TrkEmpty (p : Z)
| SetNew (ps : list Z) (addr : Z) | SetFromSptr (o : option nat) | SetFromFile (file : option str) (got : cxx)
| SetDestroy (p : Z) | SetSize (p : Z) | SetWrite (p : Z) (file : option str) (ok : bool)
| Load (a : Z) (file : option str) (got : cxx) | Save (a : Z) (file : option str) (p : Z) (ok : bool)
| Convert (a p : Z) (got : cxx) | Track (a prev : Z) (frame : Z) (p : Z) (mask : option Z) (got : cxx)
| CxxNew (addr : Z) (con : content) | CxxDrop (o : nat).     (* C++ code outside: make an object, let go of one *)

(** A read of an object through its handle. *)
Definition read_in (k : cls) (w : world) (p : Z) (dflt : value) (eh : bool) (f : content -> value) : step_result :=
  match obj_of (cache_of w k) p with
  | None => plain w dflt eh
  | Some o => match cell_at (w_heap w) o with Some x => plain w (f (x_con x)) false | None => None end
  end.
Definition num_of (f : ImageModel.image -> Z) (c : content) : value := VNum (match c with CImg i => f i | _ => 0%Z end).
Fixpoint objs_of (c : cache) (ps : list Z) : option (list nat) :=
  match ps with
  | [] => Some []
  | p :: r => match obj_of c p with Some o => option_map (cons o) (objs_of c r) | None => None end
  end.
Fixpoint remove1 (x : nat) (l : list nat) : list nat :=
  match l with [] => [] | y :: r => if Nat.eqb x y then r else y :: remove1 x r end.

Definition step (w : world) (c : api) : step_result :=
  match c with
  | ImgNew img addr =>      (* image_container.cxx 97-108; a NULL image is dereferenced *)
    match img with Some i => with_events (hand KImg false w (XNew addr (CImg i))) [] | None => None end
  | ImgFromSptr o => with_events (hand KImg false w (match o with Some o => XOld o | None => XNull end)) []   (* 70-79 *)
  | ImgToSptr p =>          (* 82-90 *)
    match obj_of (w_img w) p with
    | None => plain w (VSptr None) false
    | Some o => match acquire (w_heap w) o with Some h => plain (with_ext (with_heap w h) (o :: w_ext w)) (VSptr (Some o)) false | None => None end
    end
  | ImgDestroy p => match erase_in KImg w p with Some (w, ok) => plain w VVoid (negb ok) | None => None end   (* 111-119 *)
  | ImgSize p => read_in KImg w p (VNum 0) false (num_of ImageModel.img_size)     (* 122-130: error handle 0 *)
  | ImgWidth p => read_in KImg w p (VNum 0) false (num_of ImageModel.i_w)         (* 133-141 *)
  | ImgHeight p => read_in KImg w p (VNum 0) false (num_of ImageModel.i_h)        (* 144-152 *)
  | ImgDepth p => read_in KImg w p (VNum 0) false (num_of ImageModel.i_d)         (* 155-163 *)
  | ImgGet p => read_in KImg w p (VImage None) false (fun c => VImage (match c with CImg i => Some i | _ => None end))   (* 166-177: a copy sharing the memory *)
  | TrkNew addr => with_events (hand KTrk false w (XNew addr (CTrk 0))) []        (* track.cxx 51-61 *)
  | TrkDestroy p => match erase_in KTrk w p with Some (w, ok) => plain w VVoid (negb ok) | None => None end   (* 64-73 *)
  | TrkSize p => read_in KTrk w p (VNum 0) true (fun c => VNum (match c with CTrk n => Z.of_nat n | _ => 0%Z end))      (* 75-85 *)
  | TrkEmpty p => read_in KTrk w p (VBool true) true (fun c => VBool (match c with CTrk 0 => true | _ => false end))    (* 88-99 *)
  | SetNew ps addr =>       (* track_set.cxx 56-75 *)
    match objs_of (w_trk w) ps with
    | None => plain w (VHandle 0) false
    | Some os => with_events (hand KSet false w (XNew addr (CSet os))) []
    end
  | SetFromSptr o => with_events (hand KSet false w (match o with Some o => XOld o | None => XNull end)) []    (* 79-90 *)
  | SetFromFile file got => match file with Some f => with_events (hand KSet true w got) [EvRead f] | None => None end  (* 94-106 *)
  | SetDestroy p => match erase_in KSet w p with Some (w, ok) => plain w VVoid (negb ok) | None => None end    (* 110-119 *)
  | SetSize p => read_in KSet w p (VNum 0) true (fun c => VNum (match c with CSet l => Z.of_nat (length l) | _ => 0%Z end))  (* 123-133 *)
  | SetWrite p file ok =>   (* 137-150 *)
    match file with
    | None => None
    | Some f => match obj_of (w_set w) p with None => plain w VVoid true | Some o => Some (w, (VVoid, negb ok), [EvWrite o f]) end
    end
  | Load a file got =>      (* image_io.cxx 47-58 *)
    match file with
    | None => None
    | Some f => match obj_of (w_alg w IO) a with None => plain w (VHandle 0) true | Some ao => with_events (hand KImg true w got) [EvLoad ao f] end
    end
  | Save a file p ok =>     (* 62-72 *)
    match file with
    | None => None
    | Some f =>
      match obj_of (w_img w) p, obj_of (w_alg w IO) a with
      | Some o, Some ao => Some (w, (VVoid, negb ok), [EvSave ao f o])
      | _, _ => plain w VVoid true
      end
    end
  | Convert a p got =>      (* convert_image.cxx 47-62 *)
    match obj_of (w_img w) p, obj_of (w_alg w CONV) a with
    | Some o, Some ao => with_events (hand KImg true w got) [EvConvert ao o]
    | _, _ => plain w (VHandle 0) true
    end
  | Track a prev frame p mask got =>   (* track_features.cxx 50-69 and, with a mask, 73-95 *)
    match obj_of (w_alg w TRACKER) a, obj_of (w_set w) prev, obj_of (w_img w) p, (match mask with None => Some None | Some m => option_map Some (obj_of (w_img w) m) end) with
    | Some ao, Some po, Some o, Some mo => with_events (hand KSet true w got) [EvTrack ao po (frame mod 2 ^ 32)%Z o mo]
    | _, _, _, _ => plain w (VHandle 0) true
    end
  | CxxNew addr con =>
    match make (w_heap w) addr con with Some (h, o) => plain (with_ext (with_heap w h) (o :: w_ext w)) (VSptr (Some o)) false | None => None end
  | CxxDrop o =>
    match release (w_heap w) o with Some h => plain (with_ext (with_heap w h) (remove1 o (w_ext w))) VVoid false | None => None end
  end.
