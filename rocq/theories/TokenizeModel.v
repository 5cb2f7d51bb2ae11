(** TokenizeModel.v -- vital/util/tokenize.h 55-93. *)
From Verif Require Import Base.

(** find_first_of( delimiters ) splits the rest of the text into the part
    before the delimiter and the part from it on. *)
Definition is_delim (delims : str) (c : ascii) : bool := existsb (Ascii.eqb c) delims.
Definition push (trim_empty : bool) (tokens : list str) (t : str) : list str :=
  if negb (Nat.eqb (length t) 0) || negb trim_empty then tokens ++ [t] else tokens.
(** One iteration per token; the fuel (text length + 1) is proved enough. *)
Fixpoint tokenize_f (n : nat) (s : str) (tokens : list str) (delims : str) (trim_empty : bool) : list str :=
  match n with
  | O => tokens
  | S n' =>
    let t := take_while (fun c => negb (is_delim delims c)) s in
    match drop_while (fun c => negb (is_delim delims c)) s with
    | [] => push trim_empty tokens t
    | _ :: rest => tokenize_f n' rest (push trim_empty tokens t) delims trim_empty
    end
  end.
Definition tokenize (s : str) (tokens : list str) (delims : str) (trim_empty : bool) : list str :=
  tokenize_f (S (length s)) s tokens delims trim_empty.
