(** CStrModel.v -- the char-pointer helpers of SystemTools
    (vital/kwiversys/SystemTools.cxx 1566-1614, 1640-1805, 2591-2602).

    A char array is a block of bytes, each perhaps not yet written; a [char *]
    argument is a block seen from its start, or NULL.  Reading or writing
    outside a block, or reading a byte never written, is [UB].  Simplification:
    [new char[n]] does not fail; blocks do not overlap; tolower is total on
    bytes ("C" locale, glibc tables). *)
From Verif Require Import Base ConfigModel.

Definition blk := list (option ascii).
Definition nulc : ascii := "000"%char.

Notation "'do' x <- a ; b" := (rbind a (fun x => b)) (at level 200, x binder, a at level 100, b at level 200).

(** A byte read or written through a pointer. *)
Definition rd (b : blk) (i : nat) : res ascii :=
  match nth_error b i with Some (Some c) => Ok c | _ => UB end.
Definition wr (b : blk) (i : nat) (c : ascii) : res blk :=
  if Nat.ltb i (length b) then Ok (lupd b i (Some c)) else UB.
(** [new char[n]] *)
Definition new_blk (n : nat) : blk := repeat None n.

(** ---- library functions: strlen, strcpy, strcat, strncmp == 0 ---- *)
Fixpoint strlen_f (f : nat) (b : blk) (i : nat) : res nat :=
  match f with
  | O => NoFuel
  | S f => do c <- rd b i ; if Ascii.eqb c nulc then Ok 0 else do n <- strlen_f f b (S i) ; Ok (S n)
  end.
Definition strlen (b : blk) (i : nat) : res nat := strlen_f (S (length b)) b i.
Fixpoint strcpy_f (f : nat) (dst : blk) (di : nat) (src : blk) (si : nat) : res blk :=
  match f with
  | O => NoFuel
  | S f => do c <- rd src si ; do dst1 <- wr dst di c ;
           if Ascii.eqb c nulc then Ok dst1 else strcpy_f f dst1 (S di) src (S si)
  end.
Definition strcpy (dst : blk) (di : nat) (src : blk) : res blk := strcpy_f (S (length src)) dst di src 0.
Definition strcat (dst : blk) (di : nat) (src : blk) : res blk :=
  do n <- strlen dst di ; strcpy dst (di + n) src.
Fixpoint strncmp0 (n : nat) (a : blk) (i : nat) (b : blk) (j : nat) : res bool :=
  match n with
  | O => Ok true
  | S n => do x <- rd a i ; do y <- rd b j ;
           if negb (Ascii.eqb x y) then Ok false
           else if Ascii.eqb x nulc then Ok true else strncmp0 n a (S i) b (S j)
  end.

(** SystemTools.cxx 1797-1805 *)
Definition duplicate_string (s : option blk) : res (option blk) :=
  match s with
  | Some b => do n <- strlen b 0 ; do d <- strcpy (new_blk (n + 1)) 0 b ; Ok (Some d)
  | None => Ok None
  end.

(** SystemTools.cxx 1566-1585 *)
Definition append_strings2 (s1 s2 : option blk) : res (option blk) :=
  match s1, s2 with
  | None, _ => duplicate_string s2
  | _, None => duplicate_string s1
  | Some b1, Some b2 =>
      do len1 <- strlen b1 0 ; do len2 <- strlen b2 0 ;
      do n1 <- strcpy (new_blk (len1 + len2 + 1)) 0 b1 ;
      do n2 <- strcat n1 len1 b2 ; Ok (Some n2)
  end.

(** SystemTools.cxx 1587-1613 *)
Definition append_strings3 (s1 s2 s3 : option blk) : res (option blk) :=
  match s1, s2, s3 with
  | None, _, _ => append_strings2 s2 s3
  | _, None, _ => append_strings2 s1 s3
  | _, _, None => append_strings2 s1 s2
  | Some b1, Some b2, Some b3 =>
      do len1 <- strlen b1 0 ; do len2 <- strlen b2 0 ; do len3 <- strlen b3 0 ;
      do n1 <- strcpy (new_blk (len1 + len2 + len3 + 1)) 0 b1 ;
      do n2 <- strcat n1 len1 b2 ;
      do n3 <- strcat n2 (len1 + len2) b3 ; Ok (Some n3)
  end.

(** SystemTools.cxx 1640-1656 *)
Fixpoint count_char_f (f : nat) (b : blk) (i : nat) (c : ascii) (count : nat) : res nat :=
  match f with
  | O => NoFuel
  | S f => do x <- rd b i ;
           if Ascii.eqb x nulc then Ok count
           else count_char_f f b (S i) c (if Ascii.eqb x c then S count else count)
  end.
Definition count_char (s : option blk) (c : ascii) : res nat :=
  match s with Some b => count_char_f (S (length b)) b 0 c 0 | None => Ok 0 end.

(** The search of one character in [toremove], lines 1669-1674: the character
    it stopped at ([*str2]). *)
Fixpoint scan_f (f : nat) (b : blk) (j : nat) (x : ascii) : res ascii :=
  match f with
  | O => NoFuel
  | S f => do y <- rd b j ;
           if negb (Ascii.eqb y nulc) && negb (Ascii.eqb x y) then scan_f f b (S j) x else Ok y
  end.
(** SystemTools.cxx 1659-1682; [None] for [toremove] is a NULL pointer. *)
Fixpoint remove_chars_f (f : nat) (b : blk) (i : nat) (rm : option blk) (clean : blk) (p : nat) : res blk :=
  match f with
  | O => NoFuel
  | S f => do x <- rd b i ;
           if Ascii.eqb x nulc then wr clean p nulc
           else match rm with
                | None => UB
                | Some r =>
                    do y <- scan_f (S (length r)) r 0 x ;
                    if Ascii.eqb y nulc
                    then do clean1 <- wr clean p x ; remove_chars_f f b (S i) rm clean1 (S p)
                    else remove_chars_f f b (S i) rm clean p
                end
  end.
Definition remove_chars (s : option blk) (rm : option blk) : res (option blk) :=
  match s with
  | None => Ok None
  | Some b => do n <- strlen b 0 ; do d <- remove_chars_f (S (length b)) b 0 rm (new_blk (n + 1)) 0 ; Ok (Some d)
  end.

(** SystemTools.cxx 1685-1703; [char] compares as the byte for these ASCII bounds
    (bytes above 127 are negative or above 'F': rejected either way). *)
Definition upper_hex (x : ascii) : bool :=
  let n := code x in (((48 <=? n) && (n <=? 57)) || ((65 <=? n) && (n <=? 70)))%N.
Fixpoint remove_hex_f (f : nat) (b : blk) (i : nat) (clean : blk) (p : nat) : res blk :=
  match f with
  | O => NoFuel
  | S f => do x <- rd b i ;
           if Ascii.eqb x nulc then wr clean p nulc
           else if upper_hex x then do clean1 <- wr clean p x ; remove_hex_f f b (S i) clean1 (S p)
           else remove_hex_f f b (S i) clean p
  end.
Definition remove_chars_but_upper_hex (s : option blk) : res (option blk) :=
  match s with
  | None => Ok None
  | Some b => do n <- strlen b 0 ; do d <- remove_hex_f (S (length b)) b 0 (new_blk (n + 1)) 0 ; Ok (Some d)
  end.

(** The inner loop of ReplaceChars, lines 1714-1721, on the character [*ptr]. *)
Fixpoint replace_scan_f (f : nat) (b : blk) (i : nat) (r : blk) (j : nat) (rep : ascii) : res blk :=
  match f with
  | O => NoFuel
  | S f => do y <- rd r j ;
           if Ascii.eqb y nulc then Ok b
           else do x <- rd b i ;
                do b1 <- (if Ascii.eqb x y then wr b i rep else Ok b) ;
                replace_scan_f f b1 i r (S j) rep
  end.
(** SystemTools.cxx 1706-1726; the array is changed in place. *)
Fixpoint replace_chars_f (f : nat) (b : blk) (i : nat) (r : blk) (rep : ascii) : res blk :=
  match f with
  | O => NoFuel
  | S f => do x <- rd b i ;
           if Ascii.eqb x nulc then Ok b
           else do b1 <- replace_scan_f (S (length r)) b i r 0 rep ; replace_chars_f f b1 (S i) r rep
  end.
Definition replace_chars (s : option blk) (r : blk) (rep : ascii) : res (option blk) :=
  match s with
  | None => Ok None
  | Some b => do b1 <- replace_chars_f (S (length b)) b 0 r rep ; Ok (Some b1)
  end.

(** SystemTools.cxx 1729-1737, 1751-1759 *)
Definition string_starts_with (s1 s2 : option blk) : res bool :=
  match s1, s2 with
  | Some b1, Some b2 =>
      do len1 <- strlen b1 0 ; do len2 <- strlen b2 0 ;
      if Nat.leb len2 len1 then strncmp0 len2 b1 0 b2 0 else Ok false
  | _, _ => Ok false
  end.
Definition string_ends_with (s1 s2 : option blk) : res bool :=
  match s1, s2 with
  | Some b1, Some b2 =>
      do len1 <- strlen b1 0 ; do len2 <- strlen b2 0 ;
      if Nat.leb len2 len1 then strncmp0 len2 b1 (len1 - len2) b2 0 else Ok false
  | _, _ => Ok false
  end.
(** The overloads whose first argument is a std::string, lines 1740-1748 and
    1762-1770: [s1] may contain NUL bytes; c_str() is [s1] and a NUL. *)
Definition c_str (s : str) : blk := map Some s ++ [Some nulc].
Definition std_starts_with (s1 : str) (s2 : option blk) : res bool :=
  match s2 with
  | Some b2 => do len2 <- strlen b2 0 ;
      if Nat.leb len2 (length s1) then strncmp0 len2 (c_str s1) 0 b2 0 else Ok false
  | None => Ok false
  end.
Definition std_ends_with (s1 : str) (s2 : option blk) : res bool :=
  match s2 with
  | Some b2 => do len2 <- strlen b2 0 ;
      if Nat.leb len2 (length s1) then strncmp0 len2 (c_str s1) (length s1 - len2) b2 0 else Ok false
  | None => Ok false
  end.

(** SystemTools.cxx 1773-1794; the result is the offset of the pointer in [s1].
    (The last decrement forms a pointer before the array, which is never
    dereferenced; that is not modelled as an error.) *)
Fixpoint find_last_f (k : nat) (b1 b2 : blk) (len2 : nat) : res (option nat) :=
  do e <- strncmp0 len2 b1 k b2 0 ;
  if (e : bool) then Ok (Some k)
  else match k with O => Ok None | S k' => find_last_f k' b1 b2 len2 end.
Definition find_last_string (s1 s2 : option blk) : res (option nat) :=
  match s1, s2 with
  | Some b1, Some b2 =>
      do len1 <- strlen b1 0 ; do len2 <- strlen b2 0 ;
      if Nat.leb len2 len1 then find_last_f (len1 - len2) b1 b2 len2 else Ok None
  | _, _ => Ok None
  end.

(** SystemTools.cxx 2591-2602 *)
Definition lc (c : ascii) : Z := Z.of_N (code (to_lower c)).
Fixpoint strucmp_f (f : nat) (a b : blk) (i : nat) : res Z :=
  match f with
  | O => NoFuel
  | S f => do x <- rd a i ;
           if Ascii.eqb x nulc then do y <- rd b i ; Ok (lc x - lc y)%Z
           else do y <- rd b i ;
                if (lc x =? lc y)%Z then strucmp_f f a b (S i) else Ok (lc x - lc y)%Z
  end.
Definition strucmp (a b : blk) : res Z := strucmp_f (S (length a)) a b 0.
