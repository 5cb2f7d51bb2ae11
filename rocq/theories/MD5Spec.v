(** MD5Spec.v -- RFC 1321, written down without looking at MD5.c: padding, the 64
    steps with their closed forms, and the table of sines. *)
From Coq Require Import ZArith List Bool Reals.
Import ListNotations.
Local Open Scope Z_scope.

(** Words of 32 bits. *)
Definition add32 (x y : Z) : Z := (x + y) mod 2 ^ 32.
Definition not32 (x : Z) : Z := 2 ^ 32 - 1 - x.
(** X <<< s: the 32 bits moved circularly to the left. *)
Definition rot32 (x s : Z) : Z := (x * 2 ^ s) mod 2 ^ 32 + x / 2 ^ (32 - s).

(** Section 3.4: step i = 0..63 works on (a, b, c, d). *)
Definition aux (i : nat) (x y z : Z) : Z :=
  if Nat.ltb i 16 then Z.lor (Z.land x y) (Z.land (not32 x) z)
  else if Nat.ltb i 32 then Z.lor (Z.land x z) (Z.land y (not32 z))
  else if Nat.ltb i 48 then Z.lxor x (Z.lxor y z)
  else Z.lxor y (Z.lor x (not32 z)).
Definition which (i : nat) : nat :=
  if Nat.ltb i 16 then i
  else if Nat.ltb i 32 then (1 + 5 * i) mod 16
  else if Nat.ltb i 48 then (5 + 3 * i) mod 16
  else (7 * i) mod 16.
Definition shifts (i : nat) : Z :=
  nth (i mod 4) (if Nat.ltb i 16 then [7; 12; 17; 22] else if Nat.ltb i 32 then [5; 9; 14; 20] else if Nat.ltb i 48 then [4; 11; 16; 23] else [6; 10; 15; 21]) 0.
(** T[i]: the integer part of 4294967296 times abs(sin(i)), i in radians.  ([Int_part]
    is the floor.) *)
Definition sine (i : nat) : Z := Int_part (4294967296 * Rabs (sin (INR i))).

Definition quad := (Z * Z * Z * Z)%type.
Section Table.
Variable T : nat -> Z.
Definition step (X : nat -> Z) (q : quad) (i : nat) : quad :=
  let '(a, b, c, d) := q in
  (d, add32 b (rot32 (add32 (add32 (add32 a (aux i b c d)) (X (which i))) (T (S i))) (shifts i)), b, c).
(** A block of 64 bytes: 16 words, the low byte first. *)
Definition word (block : list Z) (k : nat) : Z :=
  let b j := nth (4 * k + j) block 0 in b 0%nat + 256 * b 1%nat + 256 ^ 2 * b 2%nat + 256 ^ 3 * b 3%nat.
Definition process (q : quad) (block : list Z) : quad :=
  let '(a, b, c, d) := q in
  let '(a', b', c', d') := fold_left (step (word block)) (seq 0 64) q in
  (add32 a a', add32 b b', add32 c c', add32 d d').
(** Section 3.3 *)
Definition start : quad := (0x67452301, 0xefcdab89, 0x98badcfe, 0x10325476).
(** The blocks of a text whose length is a multiple of 64. *)
Definition block (l : list Z) (i : nat) : list Z := firstn 64 (skipn (64 * i) l).
Definition absorb (q : quad) (l : list Z) : quad := fold_left (fun q i => process q (block l i)) (seq 0 (length l / 64)) q.
(** n as k bytes, low byte first. *)
Fixpoint le_bytes (k : nat) (n : Z) : list Z := match k with O => [] | S k' => n mod 256 :: le_bytes k' (n / 256) end.
(** Sections 3.1, 3.2: one bit 1 (in a byte), zeros up to 56 modulo 64 bytes, the
    length in bits modulo 2^64. *)
Definition padded (msg p : list Z) : Prop :=
  exists k, (k < 64)%nat /\ ((length msg + 1 + k) mod 64 = 56)%nat /\
    p = msg ++ [128] ++ repeat 0 k ++ le_bytes 8 ((8 * Z.of_nat (length msg)) mod 2 ^ 64).
Definition digest_bytes (q : quad) : list Z := let '(a, b, c, d) := q in le_bytes 4 a ++ le_bytes 4 b ++ le_bytes 4 c ++ le_bytes 4 d.
Definition is_md5 (msg digest : list Z) : Prop := exists p, padded msg p /\ digest = digest_bytes (absorb start p).
End Table.
