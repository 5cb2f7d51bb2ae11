(** OutPathSpec.v -- what the property C132 speaks of, without the model. *)
From Verif Require Import Base.

(** Each run of the byte c becomes one. *)
Fixpoint one_each (c : ascii) (s : str) : str :=
  match s with
  | x :: ((y :: _) as r) => if (Ascii.eqb x c && Ascii.eqb y c)%bool then one_each c r else x :: one_each c r
  | _ => s
  end.
(** The same, with the first byte left alone. *)
Definition one_each_but_first (c : ascii) (s : str) : str :=
  match s with [] => [] | x :: r => x :: one_each c r end.
(** Every blank not behind a backslash gets one in front. *)
Fixpoint guard (behind : bool) (s : str) : str :=
  match s with
  | [] => []
  | x :: r => (if (Ascii.eqb x " " && negb behind)%bool then ["\"%char] else []) ++ x :: guard (Ascii.eqb x "\") r
  end.

(** How a POSIX shell splits a text into words, for texts whose only bytes with
    a meaning to it are blanks and backslashes: a backslash stands for the byte
    after it (a last one for itself), other blanks end a word.
    [w] is the word being read, if one has begun. *)
Fixpoint words (w : option str) (s : str) : list str :=
  match s with
  | [] => match w with Some w => [w] | None => [] end
  | x :: r =>
      let before := match w with Some w => w | None => [] end in
      if Ascii.eqb x "\" then match r with [] => [before ++ [x]] | y :: r => words (Some (before ++ [y])) r end
      else if Ascii.eqb x " " then match w with Some w => w :: words None r | None => words None r end
      else words (Some (before ++ [x])) r
  end.
Definition shell_words (s : str) : list str := words None s.

(** Bytes without a meaning to a POSIX shell in the middle of a word. *)
Definition ordinary (c : ascii) : Prop :=
  is_alpha c = true \/ is_digit c = true \/ In c (L "/._-+,:@%=").
