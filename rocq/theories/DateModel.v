(** DateModel.v -- SystemTools::ConvertDateMacroString and
    ConvertTimeStampMacroString (vital/kwiversys/SystemTools.cxx 2650-2693,
    2695-2745).  A buffer is a list of bytes of which some are not initialised
    ([None]); reading such a byte or one outside the buffer is undefined. *)
From Coq Require Import ZArith.
From Verif Require Import Base.

Inductive dres (A : Type) := Ret (a : A) | Undef.
Arguments Ret {A} a. Arguments Undef {A}.
Definition cells := list (option ascii).
Definition NUL : ascii := "000".
(** strcpy of a C string into a buffer of n bytes (the callers check the length). *)
Definition strcpy (n : nat) (s : str) : cells := map Some s ++ [Some NUL] ++ repeat None (n - S (length s)).
Fixpoint put (b : cells) (i : nat) (c : ascii) : cells :=
  match b, i with
  | [], _ => []
  | _ :: b, 0 => Some c :: b
  | x :: b, S i => x :: put b i c
  end.
(** The C string that begins at the first byte. *)
Fixpoint text_at (b : cells) : dres str :=
  match b with
  | Some c :: b => if Ascii.eqb c NUL then Ret [] else match text_at b with Ret s => Ret (c :: s) | Undef => Undef end
  | _ => Undef
  end.
(** strstr: the first place. *)
Fixpoint strstr (h n : str) : option nat :=
  if is_prefix n h then Some 0 else match h with [] => None | _ :: h => match strstr h n with Some k => Some (S k) | None => None end end.
(** atoi: blanks, a sign, digits (no overflow: the texts are short). *)
Definition digit (c : ascii) : Z := (Z.of_N (N_of_ascii c) - 48)%Z.
Fixpoint digits (v : Z) (s : str) : Z :=
  match s with c :: s => if is_digit c then digits (v * 10 + digit c)%Z s else v | [] => v end.
Definition atoi_text (s : str) : Z :=
  match drop_while is_space s with
  | c :: r => if Ascii.eqb c "-" then (- digits 0 r)%Z else if Ascii.eqb c "+" then digits 0 r else digits 0 (c :: r)
  | [] => 0%Z
  end.
(** atoi reads no further than the first byte that is no digit; since all the
    bytes before the end of the text are there, reading the text to its end
    differs only if the end is missing. *)
Definition atoi (b : cells) : dres Z := match text_at b with Ret s => Ret (atoi_text s) | Undef => Undef end.
(** 2672 *)
Definition month_names : str := L "JanFebMarAprMayJunJulAugSepOctNovDec".
(** The fields of struct tm that are set; tm_isdst = -1, tm_wday = tm_yday = 0. *)
Record tm := Tm { t_year : Z; t_mon : Z; t_mday : Z; t_hour : Z; t_min : Z; t_sec : Z }.

Section M.
(** mktime: any function. *)
Context (mktime : tm -> Z).
(** 2650-2693; the result and, if true, what is stored in *tmt. *)
Definition convert_date (s : option str) (tmt : bool) : dres (option Z) :=
  match s with
  | None => Ret None
  | Some s =>
    if negb tmt || (11 <? length s) then Ret None
    else let buffer := put (strcpy 12 s) 3 NUL in
      match text_at buffer with
      | Undef => Undef
      | Ret needle => match strstr month_names needle with
        | None => Ret None
        | Some p => match atoi (skipn 4 buffer), atoi (skipn 7 buffer) with
          | Ret day, Ret year => Ret (Some (mktime (Tm (year - 1900) (Z.of_nat (p / 3)) day 0 0 0)))
          | _, _ => Undef
          end
        end
      end
  end.
(** 2695-2745 *)
Definition convert_timestamp (s : option str) (tmt : bool) : dres (option Z) :=
  match s with
  | None => Ret None
  | Some s =>
    if negb tmt || (26 <? length s) then Ret None
    else let buffer := put (strcpy 27 s) 7 NUL in
      match text_at (skipn 4 buffer) with
      | Undef => Undef
      | Ret needle => match strstr month_names needle with
        | None => Ret None
        | Some p => match atoi (skipn 8 buffer), atoi (skipn 11 buffer), atoi (skipn 14 buffer), atoi (skipn 17 buffer), atoi (skipn 20 buffer) with
          | Ret day, Ret hour, Ret min, Ret sec, Ret year => Ret (Some (mktime (Tm (year - 1900) (Z.of_nat (p / 3)) day hour min sec)))
          | _, _, _, _, _ => Undef
          end
        end
      end
  end.
End M.
