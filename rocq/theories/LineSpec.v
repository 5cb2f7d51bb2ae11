(** LineSpec.v -- what reading lines means, without the code. *)
From Verif Require Import Base.

(** A line without its trailing carriage return, if it has one. *)
Definition drop_cr (l : str) : str :=
  match rev l with
  | c :: r => if Ascii.eqb c "013"%char then rev r else l
  | [] => l
  end.

(** [l] cut into pieces of [m] bytes, the last one of 1 to [m] bytes. *)
Inductive cut (m : nat) : str -> list str -> Prop :=
| cut_nil : cut m [] []
| cut_last p : 0 < length p <= m -> cut m p [p]
| cut_more p r ps : length p = m -> r <> [] -> cut m r ps -> cut m (p ++ r) (p :: ps).

(** Every piece without its trailing carriage return. *)
Definition without_crs (ps : list str) : str := concat (map drop_cr ps).

(** A line: no newline and no NUL byte. *)
Definition plain (l : str) : Prop := ~ In "010"%char l /\ ~ In "000"%char l.

(** A carriage return can only be the last byte. *)
Definition cr_only_last (l : str) : Prop :=
  forall a b, l = a ++ "013"%char :: b -> b = [].
