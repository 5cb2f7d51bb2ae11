(** LineModel.v -- SystemTools::GetLineFromStream
    (vital/kwiversys/SystemTools.cxx 4643-4722).

    The stream is its unread bytes and its three state bits.  Not modelled: a
    streambuf that throws or fails in the middle of a read (badbit set by the
    library), an exception mask on the stream, concurrent writers of the file. *)
From Verif Require Import Base ConfigModel.

Record istr := IStr { is_rest : str; is_eof : bool; is_fail : bool; is_bad : bool }.

(** [std::ios::good], [operator!] (= [fail()]: failbit or badbit). *)
Definition is_good (s : istr) : bool := negb (is_eof s || is_fail s || is_bad s).
Definition is_not (s : istr) : bool := is_fail s || is_bad s.

(** [is.clear(is.rdstate() & ~std::ios::failbit)], SystemTools.cxx 4680. *)
Definition clear_fail (s : istr) : istr := IStr (is_rest s) (is_eof s) false (is_bad s).

Definition nl : ascii := "010"%char.
Definition cr : ascii := "013"%char.
Definition nul : ascii := "000"%char.

(** The character loop of [std::istream::getline(char *s, n)] (library; the
    order of the tests is the standard's: end of file, delimiter, room): stores
    at most [room] characters; result: stored characters, unread rest. *)
Fixpoint gl_store (room : nat) (s : str) : str * str :=
  match room, s with
  | O, _ => ([], s)
  | _, [] => ([], [])
  | S room', c :: s' =>
      if Ascii.eqb c nl then ([], s)
      else let '(a, r) := gl_store room' s' in (c :: a, r)
  end.

(** [is.getline(buffer, n)]: the sentry refuses a stream that is not good;
    result: characters stored (the terminating NUL follows them), gcount,
    stream.  SystemTools.cxx 4681 (library function, modelled after
    [istream.unformatted]). *)
Definition is_getline (n : nat) (s : istr) : str * nat * istr :=
  if negb (is_good s) then ([], 0, IStr (is_rest s) (is_eof s) true (is_bad s))
  else
    let '(a, r) := gl_store (n - 1) (is_rest s) in
    let '(count, r', eofb, failb) :=
      match r with
      | [] => (length a, [], true, false)
      | c :: r0 => if Ascii.eqb c nl then (S (length a), r0, false, false)
                   else (length a, r, false, true)
      end in
    (a, count, IStr r' eofb (failb || Nat.eqb count 0) false).

(** The bytes of a char array as a C string: up to the first NUL ([strlen],
    [append] of a [const char *]). *)
Fixpoint cstr (b : str) : str :=
  match b with
  | [] => []
  | c :: b' => if Ascii.eqb c nul then [] else c :: cstr b'
  end.

(** The while loop, SystemTools.cxx 4678-4716. [left] is [leftToRead]. *)
Fixpoint glfs_loop (fuel n : nat) (s : istr) (line : str) (left : Z) (haveData haveNl : bool)
  : res (str * bool * bool * istr) :=
  if haveNl || (left =? 0)%Z then Ok (line, haveData, haveNl, s)
  else
    let '(buffer, gcount, s1) := is_getline n (clear_fail s) in
    if Nat.eqb gcount 0 then Ok (line, haveData, haveNl, s1)
    else
      match fuel with
      | O => NoFuel
      | S fuel' =>
          let len := length (cstr buffer) in
          let haveNl1 := Nat.ltb len gcount in
          let buffer1 :=
            if Nat.ltb 0 len && Ascii.eqb (nth (len - 1) buffer nul) cr
            then lupd buffer (len - 1) nul else buffer in
          let '(buffer2, left1) :=
            if (0 <? left)%Z then
              if (left <? Z.of_nat len)%Z
              then (lupd buffer1 (Z.to_nat (left - 1)) nul, 0%Z)
              else (buffer1, (left - Z.of_nat len)%Z)
            else (buffer1, left) in
          if (0 <? left)%Z && (left <? Z.of_nat len)%Z && (Z.of_nat n <=? left - 1)%Z
          then UB (* buffer[leftToRead-1] outside the array *)
          else glfs_loop fuel' n s1 (line ++ cstr buffer2) left1 true haveNl1
      end.

(** SystemTools.cxx 4646-4722; result: return value, [line], [*has_newline],
    stream.  The fuel is one more than the bytes left. *)
Definition get_line_n (n : nat) (s : istr) (limit : Z) : res (bool * str * bool * istr) :=
  if is_not s then Ok (false, [], false, s)
  else match glfs_loop (S (length (is_rest s))) n s [] limit false false with
       | Ok (line, haveData, haveNl, s') => Ok (haveData, line, haveNl, s')
       | Throw e => Throw e
       | UB => UB
       | NoFuel => NoFuel
       end.

(** [const int bufferSize = 1024], SystemTools.cxx 4651. *)
Definition bufferSize : nat := 1024.
Definition get_line_from_stream (s : istr) (limit : Z) := get_line_n bufferSize s limit.

(** The idiom of the callers: [while (GetLineFromStream(is, line, &nl)) ...];
    result: the lines seen with their newline flags. *)
Fixpoint read_lines (fuel : nat) (s : istr) (limit : Z) : res (list (str * bool) * istr) :=
  match fuel with
  | O => NoFuel
  | S fuel' =>
      match get_line_from_stream s limit with
      | Ok (true, line, has_nl, s') =>
          match read_lines fuel' s' limit with
          | Ok (ls, s'') => Ok ((line, has_nl) :: ls, s'')
          | Throw e => Throw e
          | UB => UB
          | NoFuel => NoFuel
          end
      | Ok (false, _, _, s') => Ok ([], s')
      | Throw e => Throw e
      | UB => UB
      | NoFuel => NoFuel
      end
  end.

(** A freshly opened stream on a file with these bytes. *)
Definition fresh (b : str) : istr := IStr b false false false.
