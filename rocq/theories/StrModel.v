(** StrModel.v -- the std::string helpers of SystemTools
    (vital/kwiversys/SystemTools.cxx 1485-1564, 1615-1637, 1807-1838, 1936-1968,
    2142-2171, 4084-4138, 4623-4641).

    Simplification: <cctype> is the "C" locale, total on bytes (see Base.v); a
    [const char *] is the list of its bytes before the NUL. *)
From Verif Require Import Base ConfigModel.

(** [for (size_t i = a; i < a + k; i++) n[i] = f i] *)
Definition for_set (a k : nat) (f : nat -> option ascii) (n : str) : str :=
  fold_left (fun n i => match f i with Some c => lupd n i c | None => n end) (seq a k) n.
(** [s[i]] *)
Definition chr (s : str) (i : nat) : ascii := nth i s "000"%char.
(** [n.resize(k)] of an empty string *)
Definition zeros (k : nat) : str := repeat "000"%char k.

(** SystemTools.cxx 1487-1501 *)
Definition capitalized (s : str) : str :=
  match s with
  | [] => []
  | _ => for_set 1 (length s - 1) (fun i => Some (to_lower (chr s i)))
                 (lupd (zeros (length s)) 0 (to_upper (chr s 0)))
  end.

(** The test of lines 1516 and 1537. *)
Definition word_letter (s : str) (i : nat) : bool :=
  is_alpha (chr s i) && (Nat.eqb i 0 || is_space (chr s (i - 1))).
(** SystemTools.cxx 1504-1522 *)
Definition capitalized_words (s : str) : str :=
  for_set 0 (length s) (fun i => if word_letter s i then Some (to_upper (chr s i)) else None) s.
(** SystemTools.cxx 1525-1543 *)
Definition uncapitalized_words (s : str) : str :=
  for_set 0 (length s) (fun i => if word_letter s i then Some (to_lower (chr s i)) else None) s.

(** SystemTools.cxx 1546-1564 *)
Definition add_space_between (s : str) : str :=
  match s with
  | [] => []
  | _ => fold_left (fun n i =>
           (if is_upper (chr s i) && negb (is_space (chr s (i - 1))) && negb (is_upper (chr s (i - 1)))
            then n ++ [" "%char] else n) ++ [chr s i])
           (seq 1 (length s - 1)) [chr s 0]
  end.

(** SystemTools.cxx 1616-1637 *)
Definition lower_case (s : str) : str := for_set 0 (length s) (fun i => Some (to_lower (chr s i))) (zeros (length s)).
Definition upper_case (s : str) : str := for_set 0 (length s) (fun i => Some (to_upper (chr s i))) (zeros (length s)).

(** [s.substr(pos, n)] for [pos <= size()]. *)
Definition substr (s : str) (pos n : nat) : str := firstn n (skipn pos s).

(** SystemTools.cxx 1808-1838 *)
Definition crop_string (s : str) (max_len : nat) : str :=
  if Nat.eqb (length s) 0 || Nat.eqb max_len 0 || Nat.leb (length s) max_len then s
  else
    let middle := max_len / 2 in
    let n := substr s 0 middle ++ skipn (length s - (max_len - middle)) s in
    if Nat.ltb 2 max_len then
      let n := lupd n middle "."%char in
      if Nat.ltb 3 max_len then
        let n := lupd n (middle - 1) "."%char in
        if Nat.ltb 4 max_len then lupd n (middle + 1) "."%char else n
      else n
    else n.

(** SystemTools.cxx 1936-1968; [None] is a NULL pointer.  The inner loop
    (1952-1961) stops at the first match. *)
Fixpoint esc_scan (chars : str) (c esc : ascii) : str :=
  match chars with
  | [] => []
  | p :: r => if Ascii.eqb c p then [esc] else esc_scan r c esc
  end.
Fixpoint escape_loop (s chars : str) (esc : ascii) (n : str) : str :=
  match s with
  | [] => n
  | c :: s' => escape_loop s' chars esc ((n ++ esc_scan chars c esc) ++ [c])
  end.
Definition escape_chars (s : option str) (chars : option str) (esc : ascii) : str :=
  match s with
  | None => []
  | Some s => match chars with
              | None | Some [] => s
              | Some ch => escape_loop s ch esc []
              end
  end.

(** [s.find("//", pos)] *)
Fixpoint find_ss (s : str) (i : nat) : option nat :=
  match s with
  | c :: ((d :: _) as s') => if Ascii.eqb c "/" && Ascii.eqb d "/" then Some i else find_ss s' (S i)
  | _ => None
  end.
Definition find_ss_from (s : str) (pos : nat) : option nat :=
  if Nat.leb pos (length s) then find_ss (skipn pos s) pos else None.
(** SystemTools.cxx 2148-2152 *)
Fixpoint squeeze_loop (fuel : nat) (s : str) (pos : nat) : res str :=
  match fuel with
  | O => NoFuel
  | S fuel' => match find_ss_from s pos with
               | Some p => squeeze_loop fuel' (firstn p s ++ skipn (S p) s) p
               | None => Ok s
               end
  end.
(** SystemTools.cxx 2158-2168; stops at a NUL like the pointer loop. *)
Fixpoint esc_spaces (s : str) (lastch : ascii) (r : str) : str :=
  match s with
  | [] => r
  | c :: s' => if Ascii.eqb c "000"%char then r
               else esc_spaces s' c ((if Ascii.eqb c " " && negb (Ascii.eqb lastch "\") then r ++ ["\"%char] else r) ++ [c])
  end.
(** SystemTools.cxx 2143-2171; ConvertToOutputPath (2173-2180) calls it on this platform. *)
Definition convert_to_unix_output_path (path : str) : res str :=
  rbind (squeeze_loop (S (length path)) path 1) (fun ret =>
  Ok (if existsb (fun c => Ascii.eqb c " ") ret then esc_spaces ret "001"%char [] else ret)).

(** [data.find_first_of(sep, lpos)] *)
Fixpoint find_from (s : str) (sep : ascii) (i : nat) : option nat :=
  match s with
  | [] => None
  | c :: s' => if Ascii.eqb c sep then Some i else find_from s' sep (S i)
  end.
(** SystemTools.cxx 4085-4106; the vector is appended to. *)
Fixpoint split_loop (fuel : nat) (data : str) (lpos : nat) (sep : ascii) (lines : list str) : res (bool * list str) :=
  match fuel with
  | O => NoFuel
  | S fuel' =>
      if Nat.ltb lpos (length data) then
        match find_from (skipn lpos data) sep lpos with
        | None => Ok (false, lines ++ [skipn lpos data])
        | Some rpos => split_loop fuel' data (rpos + 1) sep (lines ++ [substr data lpos (rpos - lpos)])
        end
      else Ok (true, lines)
  end.
Definition split_sep (s : str) (sep : ascii) (lines : list str) := split_loop (S (length s)) s 0 sep lines.
(** SystemTools.cxx 4109-4138 *)
Fixpoint split_lines_loop (fuel : nat) (data : str) (lpos : nat) (lines : list str) : res (bool * list str) :=
  match fuel with
  | O => NoFuel
  | S fuel' =>
      if Nat.ltb lpos (length data) then
        match find_from (skipn lpos data) "010"%char lpos with
        | None => Ok (false, lines ++ [skipn lpos data])
        | Some rpos =>
            let line := if Nat.ltb lpos rpos && Ascii.eqb (chr data (rpos - 1)) "013"%char
                        then substr data lpos (rpos - 1 - lpos) else substr data lpos (rpos - lpos) in
            split_lines_loop fuel' data (rpos + 1) (lines ++ [line])
        end
      else Ok (true, lines)
  end.
Definition split_lines (s : str) (lines : list str) := split_lines_loop (S (length s)) s 0 lines.

(** [permited_chars], lines 4631-4634 *)
Definition permitted : str := L "_abcdefghijklmnopqrstuvwxyzABCDEFGHIJKLMNOPQRSTUVWXYZ0123456789".
Definition inb (c : ascii) (l : str) : bool := existsb (Ascii.eqb c) l.
(** [str.find_first_not_of(set, pos)] *)
Fixpoint find_not_of (s : str) (set : str) (i : nat) : option nat :=
  match s with
  | [] => None
  | c :: s' => if inb c set then find_not_of s' set (S i) else Some i
  end.
Fixpoint cident_loop (fuel : nat) (s : str) (pos : nat) : res str :=
  match fuel with
  | O => NoFuel
  | S fuel' => match find_not_of (skipn pos s) permitted pos with
               | Some p => cident_loop fuel' (lupd s p "_"%char) p
               | None => Ok s
               end
  end.
(** SystemTools.cxx 4623-4641 *)
Definition make_c_identifier (s : str) : res str :=
  let s1 := match s with
            | c :: _ => if inb c (L "0123456789") then L "_" ++ s else s
            | [] => s
            end in
  cident_loop (S (length s1)) s1 0.
