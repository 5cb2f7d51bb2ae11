(** Base64Model.v -- vital/kwiversys/Base64.c.

    A byte is a Z in 0..255.  Buffers are lists; every read and write is
    checked, and an access outside a buffer makes the result [None] (undefined
    behaviour in C).  Simplifications: the input and output buffers do not
    overlap, and addresses do not wrap. *)
From Coq Require Import ZArith Bool Ascii String List.
Import ListNotations.
Local Open Scope Z_scope.

Definition rd (b : list Z) (i : nat) : option Z := nth_error b i.
Definition wr (b : list Z) (i : nat) (v : Z) : option (list Z) :=
  if (i <? length b)%nat then Some (firstn i b ++ v :: skipn (S i) b) else None.
Notation "x <- a ;; b" := (match a with Some x => b | None => None end) (at level 61, a at next level, right associativity).

(** Base64.c 22-25: kwsysBase64EncodeTable, with the terminating NUL. *)
Definition encode_table : list Z :=
  map (fun c => Z.of_nat (nat_of_ascii c))
    (list_ascii_of_string "ABCDEFGHIJKLMNOPQRSTUVWXYZabcdefghijklmnopqrstuvwxyz0123456789+/") ++ [0].
(** Base64.c 28-63: kwsysBase64DecodeTable (255 is 0xFF). *)
Definition decode_table : list Z :=
  [
   255; 255; 255; 255; 255; 255; 255; 255; 255; 255; 255; 255; 255; 255; 255; 255;
   255; 255; 255; 255; 255; 255; 255; 255; 255; 255; 255; 255; 255; 255; 255; 255;
   255; 255; 255; 255; 255; 255; 255; 255; 255; 255; 255; 62; 255; 255; 255; 63;
   52; 53; 54; 55; 56; 57; 58; 59; 60; 61; 255; 255; 255; 0; 255; 255;
   255; 0; 1; 2; 3; 4; 5; 6; 7; 8; 9; 10; 11; 12; 13; 14;
   15; 16; 17; 18; 19; 20; 21; 22; 23; 24; 25; 255; 255; 255; 255; 255;
   255; 26; 27; 28; 29; 30; 31; 32; 33; 34; 35; 36; 37; 38; 39; 40;
   41; 42; 43; 44; 45; 46; 47; 48; 49; 50; 51; 255; 255; 255; 255; 255;
   255; 255; 255; 255; 255; 255; 255; 255; 255; 255; 255; 255; 255; 255; 255; 255;
   255; 255; 255; 255; 255; 255; 255; 255; 255; 255; 255; 255; 255; 255; 255; 255;
   255; 255; 255; 255; 255; 255; 255; 255; 255; 255; 255; 255; 255; 255; 255; 255;
   255; 255; 255; 255; 255; 255; 255; 255; 255; 255; 255; 255; 255; 255; 255; 255;
   255; 255; 255; 255; 255; 255; 255; 255; 255; 255; 255; 255; 255; 255; 255; 255;
   255; 255; 255; 255; 255; 255; 255; 255; 255; 255; 255; 255; 255; 255; 255; 255;
   255; 255; 255; 255; 255; 255; 255; 255; 255; 255; 255; 255; 255; 255; 255; 255;
   255; 255; 255; 255; 255; 255; 255; 255; 255; 255; 255; 255; 255; 255; 255; 255].

(** Base64.c 66-69. *)
Definition enc_char (c : Z) : option Z := rd encode_table (Z.to_nat (c mod 256)).
(** Base64.c 72-75. *)
Definition dec_char (c : Z) : option Z := rd decode_table (Z.to_nat c).
Definition EQ : Z := 61.   (* '=' *)

(** Base64.c 79-85: kwsysBase64_Encode3(ptr, optr). *)
Definition encode3 (src : list Z) (p : nat) (dest : list Z) (o : nat) : option (list Z) :=
  s0 <- rd src p ;; c <- enc_char (Z.land (Z.shiftr s0 2) 63) ;; dest <- wr dest o c ;;
  s1 <- rd src (p + 1) ;; c <- enc_char (Z.lor (Z.land (Z.shiftl s0 4) 48) (Z.land (Z.shiftr s1 4) 15)) ;; dest <- wr dest (o + 1) c ;;
  s2 <- rd src (p + 2) ;; c <- enc_char (Z.lor (Z.land (Z.shiftl s1 2) 60) (Z.land (Z.shiftr s2 6) 3)) ;; dest <- wr dest (o + 2) c ;;
  c <- enc_char (Z.land s2 63) ;; wr dest (o + 3) c.
(** Base64.c 89-95. *)
Definition encode2 (src : list Z) (p : nat) (dest : list Z) (o : nat) : option (list Z) :=
  s0 <- rd src p ;; c <- enc_char (Z.land (Z.shiftr s0 2) 63) ;; dest <- wr dest o c ;;
  s1 <- rd src (p + 1) ;; c <- enc_char (Z.lor (Z.land (Z.shiftl s0 4) 48) (Z.land (Z.shiftr s1 4) 15)) ;; dest <- wr dest (o + 1) c ;;
  c <- enc_char (Z.land (Z.shiftl s1 2) 60) ;; dest <- wr dest (o + 2) c ;;
  wr dest (o + 3) EQ.
(** Base64.c 99-105. *)
Definition encode1 (src : list Z) (p : nat) (dest : list Z) (o : nat) : option (list Z) :=
  s0 <- rd src p ;; c <- enc_char (Z.land (Z.shiftr s0 2) 63) ;; dest <- wr dest o c ;;
  c <- enc_char (Z.land (Z.shiftl s0 4) 48) ;; dest <- wr dest (o + 1) c ;;
  dest <- wr dest (o + 2) EQ ;; wr dest (o + 3) EQ.

(** Base64.c 129-134: while ((end - ptr) >= 3).  Running out of fuel is [None];
    [encode] gives more fuel than iterations. *)
Fixpoint enc_loop (fuel : nat) (input : list Z) (p e : nat) (output : list Z) (o : nat) : option (list Z * nat * nat) :=
  match fuel with
  | O => None
  | S f =>
    if (3 <=? e - p)%nat then
      output <- encode3 input p output o ;; enc_loop f input (p + 3) e output (o + 4)
    else Some (output, p, o)
  end.
(** Base64.c 118-161: kwsysBase64_Encode; the final contents of the output
    buffer and the return value. *)
Definition encode (input : list Z) (len : nat) (output : list Z) (mark_end : bool) : option (list Z * nat) :=
  r <- enc_loop (S len) input 0 len output 0 ;;
  let '(output, p, o) := r in
  if (len - p =? 2)%nat then output <- encode2 input p output o ;; Some (output, o + 4)%nat
  else if (len - p =? 1)%nat then output <- encode1 input p output o ;; Some (output, o + 4)%nat
  else if mark_end then
    output <- wr output (o + 3) EQ ;; output <- wr output (o + 2) EQ ;; output <- wr output (o + 1) EQ ;; output <- wr output o EQ ;;
    Some (output, o + 4)%nat
  else Some (output, o).

(** Base64.c 165-198: kwsysBase64_Decode3; the new contents of [dest] and the
    return value. *)
Definition decode3 (src : list Z) (p : nat) (dest : list Z) (o : nat) : option (list Z * nat) :=
  s0 <- rd src p ;; s1 <- rd src (p + 1) ;; s2 <- rd src (p + 2) ;; s3 <- rd src (p + 3) ;;
  d0 <- dec_char s0 ;; d1 <- dec_char s1 ;; d2 <- dec_char s2 ;; d3 <- dec_char s3 ;;
  if (d0 =? 255) || (d1 =? 255) || (d2 =? 255) || (d3 =? 255) then Some (dest, 0%nat)
  else
    dest <- wr dest o (Z.lor (Z.land (Z.shiftl d0 2) 252) (Z.land (Z.shiftr d1 4) 3)) ;;
    dest <- wr dest (o + 1) (Z.lor (Z.land (Z.shiftl d1 4) 240) (Z.land (Z.shiftr d2 2) 15)) ;;
    dest <- wr dest (o + 2) (Z.lor (Z.land (Z.shiftl d2 6) 192) (Z.land (Z.shiftr d3 0) 63)) ;;
    if s2 =? EQ then Some (dest, 1%nat) else if s3 =? EQ then Some (dest, 2%nat) else Some (dest, 3%nat).

(** Base64.c 221-234: the loop bounded by the input.  The flag tells a return
    from inside the loop. *)
Fixpoint dec_loop_in (fuel : nat) (input : list Z) (p e : nat) (output : list Z) (o : nat) : option (list Z * nat) :=
  match fuel with
  | O => None
  | S f =>
    if (p <? e)%nat then
      r <- decode3 input p output o ;;
      let '(output, n) := r in
      if (n <? 3)%nat then Some (output, o + n)%nat else dec_loop_in f input (p + 4) e output (o + n)
    else Some (output, o)
  end.
(** Base64.c 237-248: the loop bounded by the output. *)
Fixpoint dec_loop_out (fuel : nat) (input : list Z) (p : nat) (output : list Z) (o oend : nat) : option (bool * list Z * nat * nat) :=
  match fuel with
  | O => None
  | S f =>
    if (3 <=? oend - o)%nat then
      r <- decode3 input p output o ;;
      let '(output, n) := r in
      if (n <? 3)%nat then Some (true, output, p, o + n)%nat else dec_loop_out f input (p + 4) output (o + n) oend
    else Some (false, output, p, o)
  end.
(** Base64.c 210-279: kwsysBase64_Decode.  [temp] is uninitialised in C; what
    it holds does not matter because only bytes written by Decode3 are read. *)
Definition decode (input : list Z) (len : nat) (output : list Z) (max_input_length : nat) : option (list Z * nat) :=
  if negb (max_input_length =? 0)%nat then dec_loop_in (S max_input_length) input 0 max_input_length output 0
  else
    r <- dec_loop_out (S len) input 0 output 0 len ;;
    let '(returned, output, p, o) := r in
    if returned then Some (output, o)
    else if (len - o =? 2)%nat then
      r <- decode3 input p [0; 0; 0] 0 ;;
      let '(temp, n) := r in
      if (2 <=? n)%nat then
        t0 <- rd temp 0 ;; output <- wr output o t0 ;; t1 <- rd temp 1 ;; output <- wr output (o + 1) t1 ;; Some (output, o + 2)%nat
      else if (0 <? n)%nat then t0 <- rd temp 0 ;; output <- wr output o t0 ;; Some (output, o + 1)%nat
      else Some (output, o)
    else if (len - o =? 1)%nat then
      r <- decode3 input p [0; 0; 0] 0 ;;
      let '(temp, n) := r in
      if (0 <? n)%nat then t0 <- rd temp 0 ;; output <- wr output o t0 ;; Some (output, o + 1)%nat
      else Some (output, o)
    else Some (output, o).
