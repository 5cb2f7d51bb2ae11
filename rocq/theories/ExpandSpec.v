(** ExpandSpec.v -- what macro expansion means, declaratively. *)
From Verif Require Import Base.

(** [m] is the macro reference $T{n}. *)
Definition is_ref (t n m : str) : Prop :=
  m = L "$" ++ t ++ L "{" ++ n ++ L "}" /\
  (exists c r, t = c :: r /\ is_alpha c = true /\
     forall x, In x r -> is_alpha x = true \/ is_digit x = true \/ x = "_"%char) /\
  (forall x, In x n -> is_alpha x = true \/ is_digit x = true \/ x = "."%char \/ x = "_"%char \/ x = ":"%char).

(** No macro reference begins inside the first [length pre] characters of [pre ++ rest]. *)
Definition no_ref_in (pre rest : str) : Prop :=
  forall a b, pre = a ++ b -> b <> [] -> forall t n m tl, is_ref t n m -> b ++ rest <> m ++ tl.

(** A single left to right pass: the text is cut at its leftmost
    non-overlapping references; each is replaced at once, everything else is
    kept, and the replacement is never looked at again. *)
Inductive expands (known : str -> option (str -> str)) : str -> str -> Prop :=
| ex_end s : no_ref_in s [] -> expands known s s
| ex_ref pre t n m rest out lookup :
    no_ref_in pre (m ++ rest) -> is_ref t n m -> known t = Some lookup -> expands known rest out ->
    expands known (pre ++ m ++ rest) (pre ++ lookup n ++ out)
| ex_unknown pre t n m rest out :
    no_ref_in pre (m ++ rest) -> is_ref t n m -> known t = None -> expands known rest out ->
    expands known (pre ++ m ++ rest) (pre ++ m ++ out).
