(** CStrSpec.v -- what a C string is. *)
From Verif Require Import Base.

(** [b] holds the string [s]: its bytes, none of them NUL, then a NUL. *)
Definition cstring (b : list (option ascii)) (s : str) : Prop :=
  ~ In "000"%char s /\ exists junk, b = map Some s ++ Some "000"%char :: junk.

(** A freshly allocated array that holds [s] and has no byte too many. *)
Definition exactly (s : str) : list (option ascii) := map Some s ++ [Some "000"%char].

Definition memc (c : ascii) (l : str) : bool := existsb (Ascii.eqb c) l.

(** [s2] is found in [s1] at offset [i]. *)
Definition occurs_at (s1 s2 : str) (i : nat) : Prop :=
  exists a b, s1 = a ++ s2 ++ b /\ length a = i.
