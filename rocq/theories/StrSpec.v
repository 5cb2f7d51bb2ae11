(** StrSpec.v -- words, identifiers and shell words, without the code. *)
From Verif Require Import Base.

(** Position [i] of [s] starts a word: first in the string or after a space. *)
Definition starts_word (s : str) (i : nat) : Prop :=
  i = 0 \/ exists j c, i = S j /\ nth_error s j = Some c /\ is_space c = true.

(** [t] is [s] with a blank put between a character that is neither a space nor
    an upper case letter, and an upper case letter. *)
Inductive spaced : str -> str -> Prop :=
| sp_nil : spaced [] []
| sp_one c : spaced [c] [c]
| sp_gap x y s t : is_upper y = true -> is_space x = false -> is_upper x = false ->
    spaced (y :: s) t -> spaced (x :: y :: s) (x :: " "%char :: t)
| sp_same x y s t : ~ (is_upper y = true /\ is_space x = false /\ is_upper x = false) ->
    spaced (y :: s) t -> spaced (x :: y :: s) (x :: t).

(** A C identifier: a letter or underscore, then letters, digits, underscores. *)
Definition id_char (c : ascii) : bool := is_alpha c || is_digit c || Ascii.eqb c "_".
Definition c_identifier (s : str) : Prop :=
  match s with [] => False | c :: _ => is_digit c = false /\ forallb id_char s = true end.

(** Every run of slashes made one slash. *)
Fixpoint squeeze (s : str) : str :=
  match s with
  | [] => []
  | c :: r => match r with
              | d :: _ => if Ascii.eqb c "/" && Ascii.eqb d "/" then squeeze r else c :: squeeze r
              | [] => [c]
              end
  end.

(** How a shell splits what it reads into words: a backslash makes the next
    character an ordinary one, a blank ends a word. [cur] is the word so far. *)
Fixpoint shell_words (s : str) (cur : option str) : list str :=
  match s with
  | [] => match cur with Some w => [w] | None => [] end
  | c :: s' =>
      if Ascii.eqb c "\" then
        match s' with
        | d :: s'' => shell_words s'' (Some (match cur with Some w => w | None => [] end ++ [d]))
        | [] => [match cur with Some w => w | None => [] end]
        end
      else if Ascii.eqb c " " then match cur with Some w => w :: shell_words s' None | None => shell_words s' None end
      else shell_words s' (Some (match cur with Some w => w | None => [] end ++ [c]))
  end.

(** Taking the escape characters out again. *)
Fixpoint unescape (esc : ascii) (s : str) : str :=
  match s with
  | [] => []
  | c :: r => if Ascii.eqb c esc then match r with d :: r' => d :: unescape esc r' | [] => [] end
              else c :: unescape esc r
  end.

(** The text made of pieces each followed by [sep], and a last piece. *)
Definition pieces (sep : str) (ls : list str) (last : str) : str := concat (map (fun l => l ++ sep) ls) ++ last.
