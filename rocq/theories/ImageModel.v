(** ImageModel.v -- model of vital/types/image.h, image.cxx and
    vital/bindings/c/image.cxx (vital_image_new_from_data).

    Memory is a list of blocks (None: freed); a pointer is a block number and
    an offset, or null.  Every read or write outside a live block is undefined
    behaviour ([None]).  size_t arithmetic is modulo 2^64.  Simplifications:
    pointer arithmetic that goes out of bounds without an access, and signed
    overflow of ptrdiff_t products, are not treated as undefined behaviour;
    blocks owned by an image are never freed (shared_ptr keeps them alive);
    [new] does not throw. *)
From Coq Require Import List ZArith Lia Bool.
Import ListNotations.
From Verif Require Import Base.
Local Open Scope Z_scope.

Record blk := mkBlk { k_size : Z; k_byte : Z -> Z }.
Definition mem := list (option blk).
Definition ptr := option (nat * Z).
Definition padd (p : ptr) (n : Z) : ptr := match p with Some (b, o) => Some (b, o + n) | None => None end.

Definition load (m : mem) (p : ptr) : option Z :=
  match p with
  | Some (b, o) =>
    match nth_error m b with
    | Some (Some k) => if (0 <=? o) && (o <? k_size k) then Some (k_byte k o) else None
    | _ => None
    end
  | None => None
  end.
Definition store (m : mem) (p : ptr) (v : Z) : option mem :=
  match p with
  | Some (b, o) =>
    match nth_error m b with
    | Some (Some k) =>
      if (0 <=? o) && (o <? k_size k)
      then Some (lupd m b (Some (mkBlk (k_size k) (fun x => if x =? o then v else k_byte k x))))
      else None
    | _ => None
    end
  | None => None
  end.
(** new char[n]; the bytes are whatever [junk] says. *)
Definition alloc (m : mem) (n : Z) (junk : Z -> Z) : mem * nat := (m ++ [Some (mkBlk n junk)], length m).
Definition free (m : mem) (p : ptr) : option mem :=
  match p with
  | None => Some m
  | Some (b, o) => match nth_error m b with Some (Some _) => if o =? 0 then Some (lupd m b None) else None | _ => None end
  end.

Definition size_t (z : Z) : Z := z mod 2 ^ 64.
(** conversion size_t -> ptrdiff_t *)
Definition ptrdiff (z : Z) : Z := let u := size_t z in if u <? 2 ^ 63 then u else u - 2 ^ 64.

(** image.h 57-101 image_memory. *)
Record imem := mkIM { m_data : ptr; m_size : Z }.
(** image.cxx 43-48 *)
Definition im_default : imem := mkIM None 0.
(** image.cxx 52-57 *)
Definition im_new (m : mem) (n : Z) (junk : Z -> Z) : mem * imem :=
  let '(m', b) := alloc m n junk in (m', mkIM (Some (b, 0)) n).
(** std::memcpy (a zero length copy does not look at the pointers). *)
Fixpoint memcpy (n : nat) (m : mem) (dst src : ptr) : option mem :=
  match n with
  | O => Some m
  | S n' =>
    match load m src with
    | Some v => match store m dst v with
                | Some m' => memcpy n' m' (padd dst 1) (padd src 1)
                | None => None
                end
    | None => None
    end
  end.
(** image.cxx 61-67 copy constructor *)
Definition im_copy (m : mem) (other : imem) (junk : Z -> Z) : option (mem * imem) :=
  let '(m', self) := im_new m (m_size other) junk in
  match memcpy (Z.to_nat (m_size other)) m' (m_data self) (m_data other) with
  | Some m'' => Some (m'', self)
  | None => None
  end.
(** image.cxx 79-101 operator=; [same] is [this == &other]. *)
Definition im_assign (m : mem) (self other : imem) (same : bool) (junk : Z -> Z) : option (mem * imem) :=
  if same then Some (m, self)
  else
    let step1 :=
      if negb (m_size self =? m_size other) then
        match free m (m_data self) with
        | None => None
        | Some m1 =>
          if 0 <? m_size other
          then let '(m2, b) := alloc m1 (m_size other) junk in Some (m2, mkIM (Some (b, 0)) (m_size other))
          else Some (m1, mkIM None (m_size other))
        end
      else Some (m, self) in
    match step1 with
    | None => None
    | Some (m', self') =>
      match memcpy (Z.to_nat (m_size self')) m' (m_data self') (m_data other) with
      | Some m'' => Some (m'', self')
      | None => None
      end
    end.

(** image.h 110-330 image; [i_mem] is what data_ points at. *)
Record image := mkImage { i_mem : option imem; i_first : ptr; i_w : Z; i_h : Z; i_d : Z; i_ws : Z; i_hs : Z; i_ds : Z }.
(** image.cxx 117-128 *)
Definition img_default : image := mkImage None None 0 0 0 0 0 0.
(** image.cxx 132-149 *)
Definition img_new (m : mem) (w h d : Z) (interleave : bool) (junk : Z -> Z) : mem * image :=
  let '(m', im) := im_new m (size_t (w * h * d)) junk in
  (m', if interleave then mkImage (Some im) (m_data im) w h d (ptrdiff d) (ptrdiff (d * w)) 1
       else mkImage (Some im) (m_data im) w h d 1 (ptrdiff w) (ptrdiff (w * h))).
(** image.cxx 153-182: views on existing memory. *)
Definition img_view (mm : option imem) (first : ptr) (w h d ws hs ds : Z) : image := mkImage mm first w h d ws hs ds.
(** image.cxx 222-231 size() *)
Definition img_size (a : image) : Z := match i_mem a with Some im => m_size im | None => 0 end.

(** image.h 259-302 operator(); also the lookups of at(). *)
Inductive access := OutOfRange | Addr (p : ptr).
Definition pix3 (a : image) (i j k : Z) : access :=
  if (i_w a <=? i) || (i_h a <=? j) || (i_d a <=? k) then OutOfRange
  else Addr (padd (i_first a) (i_ws a * i + i_hs a * j + i_ds a * k)).
Definition pix2 (a : image) (i j : Z) : access :=
  if (i_w a <=? i) || (i_h a <=? j) then OutOfRange
  else Addr (padd (i_first a) (i_ws a * i + i_hs a * j)).
Inductive outcome (A : Type) := Good (x : A) | Thrown | Undefined.
Arguments Good {A} x. Arguments Thrown {A}. Arguments Undefined {A}.
Definition of_opt {A} (o : option A) : outcome A := match o with Some x => Good x | None => Undefined end.
Definition read3 (m : mem) (a : image) (i j k : Z) : outcome Z :=
  match pix3 a i j k with OutOfRange => Thrown | Addr p => of_opt (load m p) end.
Definition read2 (m : mem) (a : image) (i j : Z) : outcome Z :=
  match pix2 a i j with OutOfRange => Thrown | Addr p => of_opt (load m p) end.
Definition write3 (m : mem) (a : image) (i j k v : Z) : outcome mem :=
  match pix3 a i j k with OutOfRange => Thrown | Addr p => of_opt (store m p v) end.
(** image.h 234-251 at() *)
Definition at2 (m : mem) (a : image) (i j : Z) : outcome (Z * Z * Z) :=
  if (i_w a <=? i) || (i_h a <=? j) then Thrown
  else
    let px k := load m (padd (i_first a) (i_ws a * i + i_hs a * j + i_ds a * k)) in
    if i_d a <? 3 then
      match load m (padd (i_first a) (i_ws a * i + i_hs a * j)) with Some v => Good (v, v, v) | None => Undefined end
    else match px 0, px 1, px 2 with Some r, Some g, Some b => Good (r, g, b) | _, _, _ => Undefined end.

(** image.cxx 268-290 set_size *)
Definition set_size (m : mem) (a : image) (w h d : Z) (junk : Z -> Z) : mem * image :=
  if (w =? i_w a) && (h =? i_h a) && (d =? i_d a) then (m, a)
  else
    let '(m', im) := im_new m (size_t (w * h * d)) junk in
    let ws := if (i_ws a =? 0) || negb (i_ws a =? ptrdiff d) then 1 else i_ws a in
    (m', mkImage (Some im) (m_data im) w h d ws (ptrdiff (w * ws)) (if ws =? 1 then ptrdiff (w * h) else 1)).

(** The loop counters are unsigned int: with a bound of 2^32 or more the loop
    never ends and runs out of every buffer. *)
Definition count (n : Z) : option nat := if n <? 2 ^ 32 then Some (Z.to_nat n) else None.
(** image.cxx 250-263 *)
Fixpoint copy_w (n : nat) (m : mem) (src dst : ptr) (so sd : Z) : option mem :=
  match n with
  | O => Some m
  | S n' => match load m src with
            | Some v => match store m dst v with Some m' => copy_w n' m' (padd src so) (padd dst sd) so sd | None => None end
            | None => None
            end
  end.
Fixpoint copy_h (n nw : nat) (m : mem) (src dst : ptr) (so sd : Z) (wo wd : Z) : option mem :=
  match n with
  | O => Some m
  | S n' => match copy_w nw m src dst wo wd with
            | Some m' => copy_h n' nw m' (padd src so) (padd dst sd) so sd wo wd
            | None => None
            end
  end.
Fixpoint copy_d (n nh nw : nat) (m : mem) (src dst : ptr) (so sd : Z) (ho hd wo wd : Z) : option mem :=
  match n with
  | O => Some m
  | S n' => match copy_h nh nw m src dst ho hd wo wd with
            | Some m' => copy_d n' nh nw m' (padd src so) (padd dst sd) so sd ho hd wo wd
            | None => None
            end
  end.
(** image.cxx 235-264 copy_from: the receiver [a] is changed. *)
Definition copy_from (m : mem) (a b : image) (junk : Z -> Z) : option (mem * image) :=
  let '(m', a') := set_size m a (i_w b) (i_h b) (i_d b) junk in
  match count (i_d a'), count (i_h a'), count (i_w a') with
  | Some nd, Some nh, Some nw =>
    match copy_d nd nh nw m' (i_first b) (i_first a') (i_ds b) (i_ds a') (i_hs b) (i_hs a') (i_ws b) (i_ws a') with
    | Some m'' => Some (m'', a')
    | None => None
    end
  | _, _, _ => None
  end.

(** image.cxx 294-317 equal_content: the loops, stopping at the first difference. *)
Fixpoint eq_i (n : nat) (i : Z) (m : mem) (a b : image) (j k : Z) : outcome bool :=
  match n with
  | O => Good true
  | S n' => match read3 m a i j k, read3 m b i j k with
            | Good x, Good y => if negb (x =? y) then Good false else eq_i n' (i + 1) m a b j k
            | Thrown, _ | _, Thrown => Thrown
            | _, _ => Undefined
            end
  end.
Fixpoint eq_j (n : nat) (j : Z) (nw : nat) (m : mem) (a b : image) (k : Z) : outcome bool :=
  match n with
  | O => Good true
  | S n' => match eq_i nw 0 m a b j k with
            | Good true => eq_j n' (j + 1) nw m a b k
            | r => r
            end
  end.
Fixpoint eq_k (n : nat) (k : Z) (nh nw : nat) (m : mem) (a b : image) : outcome bool :=
  match n with
  | O => Good true
  | S n' => match eq_j nh 0 nw m a b k with
            | Good true => eq_k n' (k + 1) nh nw m a b
            | r => r
            end
  end.
Definition equal_content (m : mem) (a b : image) : outcome bool :=
  if negb (i_w a =? i_w b) || negb (i_h a =? i_h b) || negb (i_d a =? i_d b) then Good false
  else match count (i_d a), count (i_h a), count (i_w a) with
       | Some nd, Some nh, Some nw => eq_k nd 0 nh nw m a b
       | _, _, _ => Undefined
       end.

(** image.cxx 321-362 transform_image *)
Fixpoint tr0 (n : nat) (op : Z -> Z) (m : mem) (p : ptr) (s : Z) : option mem :=
  match n with
  | O => Some m
  | S n' => match load m p with
            | Some v => match store m p (op v) with Some m' => tr0 n' op m' (padd p s) s | None => None end
            | None => None
            end
  end.
Fixpoint tr1 (n n0 : nat) (op : Z -> Z) (m : mem) (p : ptr) (s s0 : Z) : option mem :=
  match n with
  | O => Some m
  | S n' => match tr0 n0 op m p s0 with Some m' => tr1 n' n0 op m' (padd p s) s s0 | None => None end
  end.
Fixpoint tr2 (n n1 n0 : nat) (op : Z -> Z) (m : mem) (p : ptr) (s s1 s0 : Z) : option mem :=
  match n with
  | O => Some m
  | S n' => match tr1 n1 n0 op m p s1 s0 with Some m' => tr2 n' n1 n0 op m' (padd p s) s s1 s0 | None => None end
  end.
Definition b2n (b : bool) : nat := if b then 1%nat else 0%nat.
Definition transform_image (m : mem) (a : image) (op : Z -> Z) : option mem :=
  let wBh := i_ws a <? i_hs a in
  let dBh := i_ds a <? i_hs a in
  let dBw := i_ds a <? i_ws a in
  let w_idx := (b2n (negb wBh) + b2n dBw)%nat in
  let h_idx := (b2n wBh + b2n dBh)%nat in
  let d_idx := (b2n (negb dBw) + b2n (negb dBh))%nat in
  (* an index never assigned keeps an indeterminate value: modelled by None *)
  let put := fun {A} (x y z : A) => lupd (lupd (lupd [None; None; None] w_idx (Some x)) h_idx (Some y)) d_idx (Some z) in
  match put (i_w a) (i_h a) (i_d a), put (i_ws a) (i_hs a) (i_ds a) with
  | [Some l0; Some l1; Some l2], [Some s0; Some s1; Some s2] =>
    match count l2, count l1, count l0 with
    | Some n2, Some n1, Some n0 => tr2 n2 n1 n0 op m (i_first a) s2 s1 s0
    | _, _, _ => None
    end
  | _, _ => None
  end.

(** vital/bindings/c/image.cxx 70-99 vital_image_new_from_data.  unsigned * int
    is computed modulo 2^32 and converted to int; the sum of the three ints must
    not overflow. *)
Definition int32 (z : Z) : Z := let u := z mod 2 ^ 32 in if u <? 2 ^ 31 then u else u - 2 ^ 32.
Definition sum32 (x y z : Z) : option Z :=
  let s1 := x + y in let s := s1 + z in
  if (- 2 ^ 31 <=? s1) && (s1 <? 2 ^ 31) && (- 2 ^ 31 <=? s) && (s <? 2 ^ 31) then Some s else None.
Definition data_d_idx (depth d ds : Z) : Z :=
  if 0 <=? ds then int32 (d * ds) else int32 (size_t (size_t (depth - d - 1) * (- ds))).
Fixpoint data_w (n : nat) (w : Z) (m : mem) (a : image) (first : ptr) (h d ws h_idx d_idx : Z) : outcome mem :=
  match n with
  | O => Good m
  | S n' =>
    match sum32 (int32 (w * ws)) h_idx d_idx with
    | None => Undefined
    | Some o =>
      match load m (padd first o) with
      | None => Undefined
      | Some v => match write3 m a w h d v with
                  | Good m' => data_w n' (w + 1) m' a first h d ws h_idx d_idx
                  | r => r
                  end
      end
    end
  end.
Fixpoint data_h (n : nat) (h : Z) (nw : nat) (m : mem) (a : image) (first : ptr) (d ws hs d_idx : Z) : outcome mem :=
  match n with
  | O => Good m
  | S n' => match data_w nw 0 m a first h d ws (int32 (h * hs)) d_idx with
            | Good m' => data_h n' (h + 1) nw m' a first d ws hs d_idx
            | r => r
            end
  end.
Fixpoint data_d (n : nat) (d : Z) (nh nw : nat) (m : mem) (a : image) (first : ptr) (depth ws hs ds : Z) : outcome mem :=
  match n with
  | O => Good m
  | S n' => match data_h nh 0 nw m a first d ws hs (data_d_idx depth d ds) with
            | Good m' => data_d n' (d + 1) nh nw m' a first depth ws hs ds
            | r => r
            end
  end.
Definition new_from_data (m : mem) (first : ptr) (w h d ws hs ds : Z) (junk : Z -> Z) : outcome (mem * image) :=
  let '(m', a) := img_new m w h d false junk in
  match count d, count h, count w with
  | Some nd, Some nh, Some nw =>
    match data_d nd 0 nh nw m' a first d ws hs ds with Good m'' => Good (m'', a) | Thrown => Thrown | Undefined => Undefined end
  | _, _, _ => Undefined
  end.
