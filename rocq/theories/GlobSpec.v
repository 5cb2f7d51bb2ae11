(** GlobSpec.v -- glob patterns and what they match. *)
From Coq Require Import List Ascii Bool Arith.
Import ListNotations.
From Verif Require Import Base RegexSpec.

Inductive gitem := GStar | GOne | GSet (neg : bool) (cs : list (ascii * ascii)) | GChr (c : ascii).
(** An asterisk stands for any text without a slash, a question mark for any
    character but a slash, a bracket expression for a character of (not of) the
    set, every other character for itself. *)
Inductive glob_match : list gitem -> str -> Prop :=
| gm_end : glob_match [] []
| gm_star l a b : ~ In "/"%char a -> glob_match l b -> glob_match (GStar :: l) (a ++ b)
| gm_one l c b : c <> "/"%char -> glob_match l b -> glob_match (GOne :: l) (c :: b)
| gm_set neg cs l c b : class_has neg cs c -> glob_match l b -> glob_match (GSet neg cs :: l) (c :: b)
| gm_chr c l b : glob_match l b -> glob_match (GChr c :: l) (c :: b).
(** How a pattern is read.  A bracket expression is '[', an optional '!' or '^',
    at least one character (a ']' coming first belongs to it) and ']'; ranges
    are as in regular expressions.  A '[' that is not closed stands for itself. *)
Definition unmarked (t : str) : str := match t with c :: r => if (Ascii.eqb c "!" || Ascii.eqb c "^")%bool then r else t | [] => [] end.
Definition closed (t : str) : Prop := exists b r, b <> [] /\ unmarked t = b ++ "]"%char :: r.
Inductive glob_text : str -> list gitem -> Prop :=
| gl_end : glob_text [] []
| gl_star t l : glob_text t l -> glob_text ("*"%char :: t) (GStar :: l)
| gl_one t l : glob_text t l -> glob_text ("?"%char :: t) (GOne :: l)
| gl_set b cs t l : class_body b cs -> (forall c r, b = c :: r -> c <> "!"%char /\ c <> "^"%char) -> glob_text t l -> glob_text (L "[" ++ b ++ L "]" ++ t) (GSet false cs :: l)
| gl_not m b cs t l : m = "!"%char \/ m = "^"%char -> class_body b cs -> glob_text t l -> glob_text (L "[" ++ [m] ++ b ++ L "]" ++ t) (GSet true cs :: l)
| gl_open t l : ~ closed t -> glob_text t l -> glob_text ("["%char :: t) (GChr "[" :: l)
| gl_chr c t l : c <> "*"%char -> c <> "?"%char -> c <> "["%char -> glob_text t l -> glob_text (c :: t) (GChr c :: l).
(** Room needed by the compiled pattern. *)
Definition item_size (i : gitem) : nat := match i with GStar => 17 | GSet _ cs => 4 + 2 * ranges_size cs | _ => 5 end.
Definition glob_size (l : list gitem) : nat := list_sum (map item_size l).
