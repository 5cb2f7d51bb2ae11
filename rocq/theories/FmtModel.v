(** FmtModel.v -- SystemTools::EstimateFormatLength
    (vital/kwiversys/SystemTools.cxx 1868-1934).  Reading past the end of the
    format, or an argument of another type than the one there or one that is
    not there, is undefined ([None]).  size_t does not overflow. *)
From Coq Require Import ZArith.
From Verif Require Import Base.

(** What va_arg can fetch: a char pointer (NULL or a text), an int, a double,
    anything else. *)
Inductive varg := VStr (s : option str) | VInt (z : Z) | VDouble | VOther.
(** 1892-1895: the loop over characters that are no letters -- the rest from the letter on;
    at the end of the format the loop goes on past it. *)
Fixpoint to_letter (cur : str) : option (ascii * str) :=
  match cur with
  | [] => None
  | c :: r => if is_alpha c then Some (c, r) else to_letter r
  end.
(** 1896-1922: the switch: what is added, and the arguments left. *)
Definition eat (c : ascii) (ap : list varg) : option (nat * list varg) :=
  if Ascii.eqb c "s" then
    match ap with VStr (Some s) :: ap => Some (length s, ap) | VStr None :: ap => Some (0, ap) | _ => None end
  else if Ascii.eqb c "e" || Ascii.eqb c "f" || Ascii.eqb c "g" then
    match ap with VDouble :: ap => Some (64, ap) | _ => None end
  else match ap with VInt _ :: ap => Some (64, ap) | _ => None end.
(** 1884-1931: the loop; fuel: every turn moves cur. *)
Fixpoint scan (fuel : nat) (cur : str) (ap : list varg) (len : nat) : option nat :=
  match fuel with
  | 0 => None
  | S n =>
    match cur with
    | [] => Some len
    | c :: cur =>
      if Ascii.eqb c "%" then
        match cur with
        | d :: r => if Ascii.eqb d "%" then scan n r ap len
                    else match to_letter cur with
                         | None => None
                         | Some (k, r) => match eat k ap with None => None | Some (m, ap) => scan n r ap (len + m) end
                         end
        | [] => None
        end
      else scan n cur ap len
    end
  end.
(** static_cast<int>: two's complement. *)
Definition to_int (n : nat) : Z := let z := (Z.of_nat n mod 4294967296)%Z in if (z <? 2147483648)%Z then z else (z - 4294967296)%Z.
(** 1868-1934 *)
Definition estimate (format : option str) (ap : list varg) : option Z :=
  match format with
  | None => Some 0%Z
  | Some f => match scan (S (length f)) f ap (length f) with Some n => Some (to_int n) | None => None end
  end.
