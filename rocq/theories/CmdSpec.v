(** CmdSpec.v -- what a command line means (vital/kwiversys/System.h.in 34-51).
    Independent of the parser. *)
From Coq Require Import List Ascii.
Import ListNotations.
From Verif Require Import Base.

(** The text between two quotes [q], and what it stands for: a backslash makes
    the next character, whatever it is, stand for itself. *)
Inductive quoted (q : ascii) : str -> str -> Prop :=
| q_nil : quoted q [] []
| q_char c r o : c <> q -> c <> "\"%char -> quoted q r o -> quoted q (c :: r) (c :: o)
| q_esc c r o : quoted q r o -> quoted q ("\"%char :: c :: r) (c :: o).
(** The pieces of an argument. *)
Inductive piece : str -> str -> Prop :=
| p_plain c : c <> "\"%char -> c <> "'"%char -> c <> """"%char -> is_space c = false -> piece [c] [c]
| p_esc c : piece ["\"%char; c] [c]
| p_single r o : quoted "'"%char r o -> piece ("'"%char :: r ++ ["'"%char]) o
| p_double r o : quoted """"%char r o -> piece (""""%char :: r ++ [""""%char]) o.
Inductive pieces : str -> str -> Prop :=
| ps_nil : pieces [] []
| ps_cons a o r o' : piece a o -> pieces r o' -> pieces (a ++ r) (o ++ o').
(** An argument has at least one piece. *)
Definition word (raw o : str) : Prop := raw <> [] /\ pieces raw o.
Definition spaces (s : str) : Prop := forall c, In c s -> is_space c = true.
(** A complete command line: arguments with space between them. *)
Inductive command : str -> list str -> Prop :=
| cm_end sp : spaces sp -> command sp []
| cm_word sp raw o rest args : spaces sp -> word raw o -> (rest = [] \/ exists c r, rest = c :: r /\ is_space c = true) -> command rest args ->
    command (sp ++ raw ++ rest) (o :: args).
(** No backslash is waiting for its character. *)
Inductive settled : str -> Prop :=
| st_nil : settled []
| st_char c r : c <> "\"%char -> settled r -> settled (c :: r)
| st_esc c r : settled r -> settled ("\"%char :: c :: r).
(** Any text: a backslash at the very end is dropped, a missing quote added. *)
Definition means (cmd : str) (args : list str) : Prop :=
  exists s, settled s /\ (cmd = s \/ cmd = s ++ ["\"%char]) /\
  (command s args \/ command (s ++ ["'"%char]) args \/ command (s ++ [""""%char]) args).
