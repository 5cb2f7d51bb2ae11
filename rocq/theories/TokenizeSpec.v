(** TokenizeSpec.v -- cutting a text at every delimiter. *)
From Verif Require Import Base.

Inductive splits (d : ascii -> Prop) : str -> list str -> Prop :=
| sp_last t : (forall c, In c t -> ~ d c) -> splits d t [t]
| sp_more t c s ts : (forall x, In x t -> ~ d x) -> d c -> splits d s ts -> splits d (t ++ c :: s) (t :: ts).

Definition nonempty (t : str) : bool := match t with [] => false | _ => true end.

(** Putting the parts back together with one delimiter. *)
Fixpoint join (c : ascii) (ts : list str) : str :=
  match ts with [] => [] | [t] => t | t :: r => t ++ c :: join c r end.
Definition count (c : ascii) (s : str) : nat := length (filter (Ascii.eqb c) s).
