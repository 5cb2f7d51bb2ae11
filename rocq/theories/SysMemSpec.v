(** SysMemSpec.v -- what /proc/meminfo says (C142). *)
From Coq Require Import List ZArith Bool Ascii String.
Import ListNotations.
From Verif Require Import Base SysMemModel.
Open Scope Z_scope.
Open Scope list_scope.

(** A text of lines, as the kernel writes it. *)
Definition is_line (l : str) : Prop := ~ In NL l /\ (length l <= 1000)%nat.
Definition text_of (lines : list str) : str := concat (map (fun l => l ++ [NL]) lines).
(** A number in decimal. *)
Inductive written : str -> Z -> Prop :=
| WOne c : is_digit c = true -> written [c] (Z.of_nat (nat_of_ascii c) - 48)
| WMore l c n : written l n -> is_digit c = true -> written (l ++ [c]) (10 * n + (Z.of_nat (nat_of_ascii c) - 48)).
(** The line "key   number rest". *)
Definition says (key line : str) (n : Z) : Prop :=
  exists blanks d rest, line = key ++ blanks ++ d ++ rest /\ Forall (fun c => is_space c = true) blanks /\ written d n /\ n < 2 ^ 64 /\ match rest with [] => True | c :: _ => is_digit c = false end.
(** The first line for a key, or none. *)
Definition first_line (key : str) (lines : list str) (n : Z) : Prop :=
  exists before line after, lines = before ++ line :: after /\ says key line n /\ Forall (fun l => is_prefix key l = false) before.
Definition absent (key : str) (lines : list str) : Prop := Forall (fun l => is_prefix key l = false) lines.
(** A release of the kernel: "major.minor..." *)
Definition release_of (major minor : Z) (r : str) : Prop := exists a b rest, r = a ++ ["."%char] ++ b ++ rest /\ written a major /\ written b minor /\ hd "."%char a <> "0"%char.
