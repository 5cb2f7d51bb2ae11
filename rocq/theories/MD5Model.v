(** MD5Model.v -- vital/kwiversys/MD5.c: the MD5 digest of a byte sequence that is
    appended in pieces.

    A byte is a Z in [0, 256), an md5_word_t one in [0, 2^32).  malloc does not fail.
    The bytes of [buf] are arbitrary at first.  Both ways of reading the 16 words of
    a block (little-endian in place or by memcpy, big-endian by shifts) give the
    same words.  The caller's data has the length given. *)
From Coq Require Import ZArith List Bool Ascii String.
Import ListNotations.
Local Open Scope Z_scope.

Definition w32 (z : Z) : Z := z mod 2 ^ 32.
(** MD5.c 115: ~0 as md5_word_t. *)
Definition T_MASK : Z := 0xffffffff.
Definition wnot (x : Z) : Z := Z.lxor T_MASK x.
(** MD5.c 116-179. *)
Definition tm (c : Z) : Z := Z.lxor T_MASK c.
Definition T1 : Z := tm 0x28955b87.
Definition T2 : Z := tm 0x173848a9.
Definition T3 : Z := 0x242070db.
Definition T4 : Z := tm 0x3e423111.
Definition T5 : Z := tm 0x0a83f050.
Definition T6 : Z := 0x4787c62a.
Definition T7 : Z := tm 0x57cfb9ec.
Definition T8 : Z := tm 0x02b96afe.
Definition T9 : Z := 0x698098d8.
Definition T10 : Z := tm 0x74bb0850.
Definition T11 : Z := tm 0x0000a44e.
Definition T12 : Z := tm 0x76a32841.
Definition T13 : Z := 0x6b901122.
Definition T14 : Z := tm 0x02678e6c.
Definition T15 : Z := tm 0x5986bc71.
Definition T16 : Z := 0x49b40821.
Definition T17 : Z := tm 0x09e1da9d.
Definition T18 : Z := tm 0x3fbf4cbf.
Definition T19 : Z := 0x265e5a51.
Definition T20 : Z := tm 0x16493855.
Definition T21 : Z := tm 0x29d0efa2.
Definition T22 : Z := 0x02441453.
Definition T23 : Z := tm 0x275e197e.
Definition T24 : Z := tm 0x182c0437.
Definition T25 : Z := 0x21e1cde6.
Definition T26 : Z := tm 0x3cc8f829.
Definition T27 : Z := tm 0x0b2af278.
Definition T28 : Z := 0x455a14ed.
Definition T29 : Z := tm 0x561c16fa.
Definition T30 : Z := tm 0x03105c07.
Definition T31 : Z := 0x676f02d9.
Definition T32 : Z := tm 0x72d5b375.
Definition T33 : Z := tm 0x0005c6bd.
Definition T34 : Z := tm 0x788e097e.
Definition T35 : Z := 0x6d9d6122.
Definition T36 : Z := tm 0x021ac7f3.
Definition T37 : Z := tm 0x5b4115bb.
Definition T38 : Z := 0x4bdecfa9.
Definition T39 : Z := tm 0x0944b49f.
Definition T40 : Z := tm 0x4140438f.
Definition T41 : Z := 0x289b7ec6.
Definition T42 : Z := tm 0x155ed805.
Definition T43 : Z := tm 0x2b10cf7a.
Definition T44 : Z := 0x04881d05.
Definition T45 : Z := tm 0x262b2fc6.
Definition T46 : Z := tm 0x1924661a.
Definition T47 : Z := 0x1fa27cf8.
Definition T48 : Z := tm 0x3b53a99a.
Definition T49 : Z := tm 0x0bd6ddbb.
Definition T50 : Z := 0x432aff97.
Definition T51 : Z := tm 0x546bdc58.
Definition T52 : Z := tm 0x036c5fc6.
Definition T53 : Z := 0x655b59c3.
Definition T54 : Z := tm 0x70f3336d.
Definition T55 : Z := tm 0x00100b82.
Definition T56 : Z := tm 0x7a7ba22e.
Definition T57 : Z := 0x6fa87e4f.
Definition T58 : Z := tm 0x01d3191f.
Definition T59 : Z := tm 0x5cfebceb.
Definition T60 : Z := 0x4e0811a1.
Definition T61 : Z := tm 0x08ac817d.
Definition T62 : Z := tm 0x42c50dca.
Definition T63 : Z := 0x2ad7d2bb.
Definition T64 : Z := tm 0x14792c6e.

(** MD5.c 250. *)
Definition rotate_left (x n : Z) : Z := Z.lor (w32 (Z.shiftl x n)) (Z.shiftr x (32 - n)).
(** MD5.c 255, 281, 307, 333. *)
Definition fF (x y z : Z) : Z := Z.lor (Z.land x y) (Z.land (wnot x) z).
Definition fG (x y z : Z) : Z := Z.lor (Z.land x z) (Z.land y (wnot z)).
Definition fH (x y z : Z) : Z := Z.lxor (Z.lxor x y) z.
Definition fI (x y z : Z) : Z := Z.lxor y (Z.lor x (wnot z)).
(** The local variables a, b, c, d. *)
Record regs := Regs { ra : Z; rb : Z; rc : Z; rd : Z }.
Inductive reg := RA | RB | RC | RD.
Definition get (r : reg) (s : regs) : Z := match r with RA => ra s | RB => rb s | RC => rc s | RD => rd s end.
Definition put (r : reg) (v : Z) (s : regs) : regs :=
  match r with
  | RA => Regs v (rb s) (rc s) (rd s) | RB => Regs (ra s) v (rc s) (rd s)
  | RC => Regs (ra s) (rb s) v (rd s) | RD => Regs (ra s) (rb s) (rc s) v
  end.
(** MD5.c 256-258 (282-284, 308-310, 334-336): SET(a, b, c, d, k, s, Ti) in a round with function f. *)
Inductive op := SET (f : Z -> Z -> Z -> Z) (a b c d : reg) (k : nat) (s : Z) (ti : Z).
Definition run_op (X : list Z) (s : regs) (o : op) : regs :=
  match o with
  | SET f a b c d k n ti =>
      let t := w32 (w32 (w32 (get a s + f (get b s) (get c s) (get d s)) + nth k X 0) + ti) in
      put a (w32 (rotate_left t n + get b s)) s
  end.
(** MD5.c 259-354: the 64 operations. *)
Definition round_ops : list op := [
  SET fF RA RB RC RD 0 7 T1; SET fF RD RA RB RC 1 12 T2; SET fF RC RD RA RB 2 17 T3; SET fF RB RC RD RA 3 22 T4;
  SET fF RA RB RC RD 4 7 T5; SET fF RD RA RB RC 5 12 T6; SET fF RC RD RA RB 6 17 T7; SET fF RB RC RD RA 7 22 T8;
  SET fF RA RB RC RD 8 7 T9; SET fF RD RA RB RC 9 12 T10; SET fF RC RD RA RB 10 17 T11; SET fF RB RC RD RA 11 22 T12;
  SET fF RA RB RC RD 12 7 T13; SET fF RD RA RB RC 13 12 T14; SET fF RC RD RA RB 14 17 T15; SET fF RB RC RD RA 15 22 T16;
  SET fG RA RB RC RD 1 5 T17; SET fG RD RA RB RC 6 9 T18; SET fG RC RD RA RB 11 14 T19; SET fG RB RC RD RA 0 20 T20;
  SET fG RA RB RC RD 5 5 T21; SET fG RD RA RB RC 10 9 T22; SET fG RC RD RA RB 15 14 T23; SET fG RB RC RD RA 4 20 T24;
  SET fG RA RB RC RD 9 5 T25; SET fG RD RA RB RC 14 9 T26; SET fG RC RD RA RB 3 14 T27; SET fG RB RC RD RA 8 20 T28;
  SET fG RA RB RC RD 13 5 T29; SET fG RD RA RB RC 2 9 T30; SET fG RC RD RA RB 7 14 T31; SET fG RB RC RD RA 12 20 T32;
  SET fH RA RB RC RD 5 4 T33; SET fH RD RA RB RC 8 11 T34; SET fH RC RD RA RB 11 16 T35; SET fH RB RC RD RA 14 23 T36;
  SET fH RA RB RC RD 1 4 T37; SET fH RD RA RB RC 4 11 T38; SET fH RC RD RA RB 7 16 T39; SET fH RB RC RD RA 10 23 T40;
  SET fH RA RB RC RD 13 4 T41; SET fH RD RA RB RC 0 11 T42; SET fH RC RD RA RB 3 16 T43; SET fH RB RC RD RA 6 23 T44;
  SET fH RA RB RC RD 9 4 T45; SET fH RD RA RB RC 12 11 T46; SET fH RC RD RA RB 15 16 T47; SET fH RB RC RD RA 2 23 T48;
  SET fI RA RB RC RD 0 6 T49; SET fI RD RA RB RC 7 10 T50; SET fI RC RD RA RB 14 15 T51; SET fI RB RC RD RA 5 21 T52;
  SET fI RA RB RC RD 12 6 T53; SET fI RD RA RB RC 3 10 T54; SET fI RC RD RA RB 10 15 T55; SET fI RB RC RD RA 1 21 T56;
  SET fI RA RB RC RD 8 6 T57; SET fI RD RA RB RC 15 10 T58; SET fI RC RD RA RB 6 15 T59; SET fI RB RC RD RA 13 21 T60;
  SET fI RA RB RC RD 4 6 T61; SET fI RD RA RB RC 11 10 T62; SET fI RC RD RA RB 2 15 T63; SET fI RB RC RD RA 9 21 T64].
(** MD5.c 197-247: the words of a block. *)
Definition word_at (data : list Z) (i : nat) : Z :=
  nth (4 * i) data 0 + Z.shiftl (nth (4 * i + 1) data 0) 8 + Z.shiftl (nth (4 * i + 2) data 0) 16 + Z.shiftl (nth (4 * i + 3) data 0) 24.
Definition words (data : list Z) : list Z := map (word_at data) (seq 0 16).
(** MD5.c 183-363: md5_process on the digest buffer. *)
Definition md5_process (s : regs) (data : list Z) : regs :=
  let r := fold_left (run_op (words data)) round_ops s in
  Regs (w32 (ra s + ra r)) (w32 (rb s + rb r)) (w32 (rc s + rc r)) (w32 (rd s + rd r)).

(** MD5.c 104-108. *)
Record md5_state := Md5 { count0 : Z; count1 : Z; abcd : regs; buf : list Z }.
(** MD5.c 366-373. *)
Definition md5_init (s : md5_state) : md5_state :=
  Md5 0 0 (Regs 0x67452301 (Z.lxor T_MASK 0x10325476) (Z.lxor T_MASK 0x67452301) 0x10325476) (buf s).
(** memcpy(buf + i, l, length of l) *)
Definition memcpy_at (b : list Z) (i : nat) (l : list Z) : list Z := firstn i b ++ l ++ skipn (i + List.length l) b.
(** MD5.c 404-406: the full blocks; what is left of the data. *)
Fixpoint full_blocks (fuel : nat) (r : regs) (p : list Z) : regs * list Z :=
  match fuel with
  | O => (r, p)
  | S f => if 64 <=? Z.of_nat (List.length p) then full_blocks f (md5_process r (firstn 64 p)) (skipn 64 p) else (r, p)
  end.
(** MD5.c 376-411. *)
Definition md5_append (s : md5_state) (data : list Z) : md5_state :=
  let nbytes := Z.of_nat (List.length data) in
  let offset := Z.land (Z.shiftr (count0 s) 3) 63 in
  let nbits := w32 (Z.shiftl nbytes 3) in
  if nbytes <=? 0 then s
  else
    let c1 := w32 (count1 s + w32 (Z.shiftr nbytes 29)) in
    let c0 := w32 (count0 s + nbits) in
    let c1 := if c0 <? nbits then w32 (c1 + 1) else c1 in
    let rest (r : regs) (b : list Z) (p : list Z) :=
      let '(r, lft) := full_blocks (List.length p) r p in
      Md5 c0 c1 r (match lft with [] => b | _ => memcpy_at b 0 lft end) in
    if offset =? 0 then rest (abcd s) (buf s) data
    else
      let copy := if 64 <? offset + nbytes then 64 - offset else nbytes in
      let b := memcpy_at (buf s) (Z.to_nat offset) (firstn (Z.to_nat copy) data) in
      if offset + copy <? 64 then Md5 c0 c1 (abcd s) b
      else rest (md5_process (abcd s) b) b (skipn (Z.to_nat copy) data).
(** The low byte of w >> n. *)
Definition byte_of (w n : Z) : Z := Z.land (Z.shiftr w n) 255.
Definition bytes_of (w : Z) : list Z := [byte_of w 0; byte_of w 8; byte_of w 16; byte_of w 24].
(** MD5.c 416-421. *)
Definition pad : list Z := 128 :: repeat 0 63.
(** MD5.c 414-434: the digest. *)
Definition md5_finish (s : md5_state) : md5_state * list Z :=
  let data := bytes_of (count0 s) ++ bytes_of (count1 s) in
  let s := md5_append s (firstn (Z.to_nat (Z.land (w32 (55 - Z.shiftr (count0 s) 3)) 63 + 1)) pad) in
  let s := md5_append s data in
  (s, bytes_of (ra (abcd s)) ++ bytes_of (rb (abcd s)) ++ bytes_of (rc (abcd s)) ++ bytes_of (rd (abcd s))).

(** MD5.c 479-491: kwsysMD5_Append; with a negative length the data is a C string
    (the bytes before the first 0). *)
Fixpoint c_bytes (l : list Z) : list Z := match l with [] => [] | x :: r => if x =? 0 then [] else x :: c_bytes r end.
Definition kw_append (s : md5_state) (data : list Z) (length : Z) : md5_state :=
  md5_append s (if length <? 0 then c_bytes data else firstn (Z.to_nat length) data).
(** MD5.c 508-526. *)
Definition hex : list ascii := list_ascii_of_string "0123456789abcdef".
Definition to_hex (digest : list Z) : list ascii :=
  flat_map (fun d => [nth (Z.to_nat (Z.shiftr d 4)) hex "?"%char; nth (Z.to_nat (Z.land d 15)) hex "?"%char]) digest.
