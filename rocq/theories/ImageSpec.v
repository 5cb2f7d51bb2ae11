(** ImageSpec.v -- what pixels and their addresses are. *)
From Coq Require Import List ZArith.
From Verif Require Import Base ImageModel.
Local Open Scope Z_scope.

(** The coordinates of an image and the address of a pixel. *)
Definition inside (a : image) (i j k : Z) : Prop := 0 <= i < i_w a /\ 0 <= j < i_h a /\ 0 <= k < i_d a.
Definition address (a : image) (i j k : Z) : ptr := padd (i_first a) (i * i_ws a + j * i_hs a + k * i_ds a).
Definition pixel_of (a : image) (p : ptr) : Prop := exists i j k, inside a i j k /\ p = address a i j k.

(** All pixels lie in live memory. *)
Definition valid (m : mem) (a : image) : Prop := forall i j k, inside a i j k -> exists v, load m (address a i j k) = Some v.
(** Different coordinates have different addresses. *)
Definition distinct (a : image) : Prop := forall i j k i' j' k', inside a i j k -> inside a i' j' k' ->
  address a i j k = address a i' j' k' -> i = i' /\ j = j' /\ k = k'.
Definition disjoint (a b : image) : Prop := forall p, pixel_of a p -> ~ pixel_of b p.
Definition same_dims (a b : image) : Prop := i_w a = i_w b /\ i_h a = i_h b /\ i_d a = i_d b.
(** Loops count with 32 bits, so all of the library needs this. *)
Definition countable (a : image) : Prop := i_w a < 2 ^ 32 /\ i_h a < 2 ^ 32 /\ i_d a < 2 ^ 32.
(** Equal pixels, seen in two memory states. *)
Definition same_pixels (m : mem) (a : image) (m' : mem) (a' : image) : Prop :=
  same_dims a a' /\ forall i j k, inside a i j k -> load m (address a i j k) = load m' (address a' i j k).

(** An image_memory object: its bytes are live, it owns a whole block. *)
Definition mem_ok (m : mem) (x : imem) : Prop :=
  0 <= m_size x /\
  (forall o, 0 <= o < m_size x -> exists v, load m (padd (m_data x) o) = Some v) /\
  (m_data x = None \/ exists b k, m_data x = Some (b, 0) /\ nth_error m b = Some (Some k)).
(** The blocks of two objects differ. *)
Definition separate (x y : imem) : Prop :=
  forall b o b' o', m_data x = Some (b, o) -> m_data y = Some (b', o') -> b <> b'.
Definition same_bytes (m : mem) (x : imem) (m' : mem) (y : imem) : Prop :=
  m_size x = m_size y /\ forall o, 0 <= o < m_size x -> load m (padd (m_data x) o) = load m' (padd (m_data y) o).
(** What an [int] can hold. *)
Definition fits32 (z : Z) : Prop := - 2 ^ 31 <= z < 2 ^ 31.
(** Where channel [k] starts; a negative step means the channels are stored in
    reverse order, [first] being the lowest one. *)
Definition channel (depth ds k : Z) : Z := if 0 <=? ds then k * ds else (depth - 1 - k) * (- ds).
