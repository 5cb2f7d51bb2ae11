(** FmtSpec.v -- formats and what printf writes. *)
From Coq Require Import ZArith.
From Verif Require Import Base FmtModel.

(** A format is made of text, "%%" and conversions: '%', flags (or digits and
    other characters that are no letters), a letter, the argument, and what
    printf writes for it. *)
Inductive piece := Text (t : str) | Percent | Conv (flags : str) (c : ascii) (a : varg) (out : str).
Definition fmt (p : piece) : str := match p with Text t => t | Percent => L "%%" | Conv fl c _ _ => L "%" ++ fl ++ [c] end.
Definition written (p : piece) : str := match p with Text t => t | Percent => L "%" | Conv _ _ _ o => o end.
Definition args (p : piece) : list varg := match p with Conv _ _ a _ => [a] | _ => [] end.
Definition format_of (l : list piece) : str := concat (map fmt l).
Definition output_of (l : list piece) : str := concat (map written l).
Definition args_of (l : list piece) : list varg := concat (map args l).
(** The pieces the function understands. *)
Definition floating (c : ascii) : Prop := c = "e"%char \/ c = "f"%char \/ c = "g"%char.
Definition typed (c : ascii) (a : varg) : Prop :=
  match a with
  | VStr _ => c = "s"%char
  | VDouble => floating c
  | VInt _ => c <> "s"%char /\ ~ floating c
  | VOther => False
  end.
Definition understood (p : piece) : Prop :=
  match p with
  | Text t => ~ In "%"%char t
  | Percent => True
  | Conv fl c a _ => (forall x, In x fl -> is_alpha x = false) /\ hd "x"%char fl <> "%"%char /\ is_alpha c = true /\ typed c a
  end.
(** What is added for a conversion. *)
Definition share (p : piece) : nat := match p with Conv _ _ (VStr (Some s)) _ => length s | Conv _ _ (VStr None) _ => 0 | Conv _ _ _ _ => 64 | _ => 0 end.
(** An int in decimal, and a field of a given width. *)
Fixpoint digits_of (fuel : nat) (n : N) (r : str) : str :=
  match fuel with
  | 0 => r
  | S f => let r := ascii_of_N (48 + n mod 10) :: r in if (n / 10 =? 0)%N then r else digits_of f (n / 10) r
  end.
Definition decimal (z : Z) : str := (if (z <? 0)%Z then L "-" else []) ++ digits_of 10 (Z.abs_N z) [].
Definition field (w : nat) (s : str) : str := repeat " "%char (w - length s) ++ s.
Definition is_int (z : Z) : Prop := (-2147483648 <= z < 2147483648)%Z.
(** Conversions as C defines them, without flags, or with a width:
    %s, %c, %d and %i, %5s, %7d. *)
Inductive plain : piece -> Prop :=
| plain_text t : ~ In "%"%char t -> plain (Text t)
| plain_percent : plain Percent
| plain_s s : plain (Conv [] "s" (VStr (Some s)) s)
| plain_c z : plain (Conv [] "c" (VInt z) [ascii_of_N (Z.to_N (z mod 256))])
| plain_d z : is_int z -> plain (Conv [] "d" (VInt z) (decimal z))
| plain_i z : is_int z -> plain (Conv [] "i" (VInt z) (decimal z)).
