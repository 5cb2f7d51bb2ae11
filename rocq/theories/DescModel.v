(** DescModel.v -- feature descriptors: vital/types/descriptor.h
    (descriptor_array_of, descriptor_fixed, descriptor_dynamic), with the
    memory they own.

    A program makes descriptor objects, copies and assigns them with the copy
    constructor and the assignment operator the compiler generates (neither is
    declared in descriptor.h), writes elements through raw_data(), reads them
    back and destroys them.  Memory is made of bytes; a byte that was never
    written is indeterminate ([None]).  Elements are their object
    representation: sizeof(T) bytes.  static_cast<double>(T) is the parameter
    [conv].  Not modelled: running out of memory, T with a constructor,
    assignment through the base class (which copies nothing). *)
From Coq Require Import Ascii List Bool NArith Arith.
Import ListNotations.
From Verif Require Import Base.
Local Open Scope N_scope.

Definition cell := option ascii.
Inductive block := Live (b : list cell) | Freed.
(** descriptor.h 112-134 ([DFixed]: T data_[N] is inside the object) and
    138-179 ([DDyn]: T* data_, size_t length_). *)
Inductive obj :=
| DFixed (sz : N) (n : N) (data : list cell)
| DDyn (sz : N) (ptr : nat) (len : N)
| Dead.
Record st := St { heap : list block; objs : list obj }.
Definition st0 : st := St [] [].

Inductive op :=
| NewFixed (sz n : N)               (* descriptor_fixed<T,n>() *)
| NewDyn (sz len : N)               (* descriptor_dynamic<T>(len) *)
| CopyCtor (h : nat)                (* D b(a) *)
| Assign (h1 h2 : nat)              (* a = b *)
| Write (h : nat) (i : N) (v : list ascii) (* raw_data()[i] = v *)
| Destroy (h : nat)
| Size (h : nat) | NumBytes (h : nat) | AsBytes (h : nat) | AsDouble (h : nat).

Inductive out (D : Type) :=
| ODone | OHandle (h : nat) | ONum (n : N) | OBytes (b : list cell) | ODoubles (l : list D)
| OBadAlloc                          (* new T[len] throws std::bad_array_new_length *)
| OIllTyped.                         (* the program does not compile *)
Arguments ODone {D}. Arguments OHandle {D} h. Arguments ONum {D} n. Arguments OBytes {D} b.
Arguments ODoubles {D} l. Arguments OBadAlloc {D}. Arguments OIllTyped {D}.

(** The largest array: PTRDIFF_MAX. *)
Definition max_array : N := 2 ^ 63 - 1.
Definition size_t_mod : N := 2 ^ 64.

Definition indet (n : N) : list cell := repeat None (N.to_nat n).
Definition bkt (s : st) (p : nat) : option (list cell) :=
  match nth_error (heap s) p with Some (Live b) => Some b | _ => None end.

(** size(): descriptor.h 121, 158. *)
Definition o_size (o : obj) : N := match o with DFixed _ n _ => n | DDyn _ _ l => l | Dead => 0 end.
Definition o_sz (o : obj) : N := match o with DFixed sz _ _ => sz | DDyn sz _ _ => sz | Dead => 0 end.
(** num_bytes(): descriptor.h 81. *)
Definition o_num_bytes (o : obj) : N := (o_size o * o_sz o) mod size_t_mod.
(** The memory raw_data() points to: descriptor.h 124-127, 161-164; [None] is
    memory that has been freed. *)
Definition o_raw (s : st) (o : obj) : option (list cell) :=
  match o with DFixed _ _ d => Some d | DDyn _ p _ => bkt s p | Dead => None end.

Definition sub {A} (l : list A) (i n : N) : list A := firstn (N.to_nat n) (skipn (N.to_nat i) l).
Definition splice {A} (l : list A) (i : N) (v : list A) : list A :=
  firstn (N.to_nat i) l ++ v ++ skipn (N.to_nat i + length v) l.
(** All bytes determinate. *)
Fixpoint determinate (l : list cell) : option (list ascii) :=
  match l with
  | [] => Some []
  | Some c :: r => match determinate r with Some t => Some (c :: t) | None => None end
  | None :: _ => None
  end.

Section Step.
Context {D : Type} (conv : list ascii -> D).

(** as_bytes(): descriptor.h 84-89; the copied range must be inside the memory. *)
Definition as_bytes (s : st) (o : obj) : option (list cell) :=
  match o_raw s o with
  | Some d => if o_num_bytes o <=? N.of_nat (length d) then Some (sub d 0 (o_num_bytes o)) else None
  | None => None
  end.
(** as_double(): descriptor.h 93-103; element i is the sz bytes at i*sz, reading an
    indeterminate element is undefined. *)
Fixpoint doubles (d : list cell) (sz : N) (i : N) (n : nat) : option (list D) :=
  match n with
  | O => Some []
  | S n' =>
      if (i + 1) * sz <=? N.of_nat (length d) then
        match determinate (sub d (i * sz) sz) with
        | Some v => match doubles d sz (i + 1) n' with Some r => Some (conv v :: r) | None => None end
        | None => None
        end
      else None
  end.
Definition as_double (s : st) (o : obj) : option (list D) :=
  match o_raw s o with Some d => doubles d (o_sz o) 0 (N.to_nat (o_size o)) | None => None end.

Definition set_obj (s : st) (h : nat) (o : obj) : st := St (heap s) (lupd (objs s) h o).
Definition new_obj (s : st) (o : obj) : st := St (heap s) (objs s ++ [o]).
Definition get (s : st) (h : nat) : option obj :=
  match nth_error (objs s) h with Some Dead => None | o => o end.

(** One operation; [None] is undefined behaviour. *)
Definition step (s : st) (o : op) : option (st * out D) :=
  match o with
  (* 117: data_ is left uninitialised; an array that is too large does not compile *)
  | NewFixed sz n =>
      if (0 <? sz) && (0 <? n) && (n * sz <=? max_array)
      then Some (new_obj s (DFixed sz n (indet (n * sz))), OHandle (length (objs s)))
      else Some (s, OIllTyped)
  (* 150-152 *)
  | NewDyn sz len =>
      if negb (0 <? sz) then Some (s, OIllTyped)
      else if len * sz <=? max_array
      then Some (St (heap s ++ [Live (indet (len * sz))]) (objs s ++ [DDyn sz (length (heap s)) len]), OHandle (length (objs s)))
      else Some (s, OBadAlloc)
  (* the implicitly defined copy constructor copies the members: the array, or the pointer *)
  | CopyCtor h =>
      match get s h with Some x => Some (new_obj s x, OHandle (length (objs s))) | None => None end
  (* the implicitly defined assignment likewise *)
  | Assign h1 h2 =>
      match get s h1, get s h2 with
      | Some (DFixed sz n _), Some (DFixed sz' n' d') =>
          if (sz =? sz') && (n =? n') then Some (set_obj s h1 (DFixed sz n d'), ODone) else Some (s, OIllTyped)
      | Some (DDyn sz _ _), Some (DDyn sz' p' l') =>
          if sz =? sz' then Some (set_obj s h1 (DDyn sz p' l'), ODone) else Some (s, OIllTyped)
      | Some _, Some _ => Some (s, OIllTyped)
      | _, _ => None
      end
  | Write h i v =>
      match get s h with
      | Some x =>
          if negb (N.of_nat (length v) =? o_sz x) then Some (s, OIllTyped) else
          match o_raw s x with
          | Some d =>
              if (i + 1) * o_sz x <=? N.of_nat (length d) then
                let d' := splice d (i * o_sz x) (map Some v) in
                match x with
                | DFixed sz n _ => Some (set_obj s h (DFixed sz n d'), ODone)
                | DDyn _ p _ => Some (St (lupd (heap s) p (Live d')) (objs s), ODone)
                | Dead => None
                end
              else None
          | None => None
          end
      | None => None
      end
  (* 155: delete [] data_ *)
  | Destroy h =>
      match get s h with
      | Some (DDyn _ p _) =>
          match bkt s p with
          | Some _ => Some (St (lupd (heap s) p Freed) (lupd (objs s) h Dead), ODone)
          | None => None
          end
      | Some _ => Some (set_obj s h Dead, ODone)
      | None => None
      end
  | Size h => match get s h with Some x => Some (s, ONum (o_size x)) | None => None end
  | NumBytes h => match get s h with Some x => Some (s, ONum (o_num_bytes x)) | None => None end
  | AsBytes h =>
      match get s h with
      | Some x => match as_bytes s x with Some b => Some (s, OBytes b) | None => None end
      | None => None
      end
  | AsDouble h =>
      match get s h with
      | Some x => match as_double s x with Some b => Some (s, ODoubles b) | None => None end
      | None => None
      end
  end.

(** A whole program. *)
Fixpoint run (s : st) (p : list op) : option st :=
  match p with
  | [] => Some s
  | o :: r => match step s o with Some (s', _) => run s' r | None => None end
  end.
End Step.
