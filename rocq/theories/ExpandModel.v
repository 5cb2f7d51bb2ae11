(** ExpandModel.v -- model of vital/config/token_expander.cxx.

    The regular expression of line 89 (a dollar sign, a type name made of a letter
    and any number of letters, digits and underscores, an opening brace, an
    optional non-empty name of letters, digits, '.', '_' and ':', a closing
    brace) is modelled by a hand written matcher for exactly this pattern;
    RegexProps3.v proves that the modelled kwiversys engine (RegexModel.v)
    compiles the pattern and finds exactly what this matcher finds.  Because '{' and
    '}' are in neither character class, the greedy match is the only match.
    kwiversys matches on the C string: subjects are assumed to be NUL free. *)
From Verif Require Import Base.

Definition type_char (c : ascii) : bool := is_alpha c || is_digit c || Ascii.eqb c "_".
Definition name_char (c : ascii) : bool :=
  is_alpha c || is_digit c || Ascii.eqb c "." || Ascii.eqb c "_" || Ascii.eqb c ":".

(** The pattern tried at the head of [s]: (match(1), match(2), text after the match). *)
Definition match_here (s : str) : option (str * str * str) :=
  match s with
  | "$"%char :: c :: r =>
    if is_alpha c then
      let ty := c :: take_while type_char r in
      match drop_while type_char r with
      | "{"%char :: r2 =>
        let nm := take_while name_char r2 in
        match drop_while name_char r2 with
        | "}"%char :: r3 => Some (ty, nm, r3)
        | _ => None
        end
      | _ => None
      end
    else None
  | _ => None
  end.

(** exp.find(): the leftmost position where the pattern matches:
    (text before, match(1), match(2), text after). *)
Fixpoint find_match (s : str) : option (str * str * str * str) :=
  match match_here s with
  | Some (ty, nm, rest) => Some ([], ty, nm, rest)
  | None =>
    match s with
    | [] => None
    | c :: r => match find_match r with
                | Some (pre, ty, nm, rest) => Some (c :: pre, ty, nm, rest)
                | None => None
                end
    end
  end.

(** exp.match(0). *)
Definition match_text (ty nm : str) : str := L "$" ++ ty ++ L "{" ++ nm ++ L "}".

(** m_typeList: a token type name is known iff [tt ty] is Some; the function is
    its lookup_entry, a failed lookup leaving the empty string. *)
Definition token_types := str -> option (str -> str).

(** token_expander.cxx 84-138 expand_token; the fuel bounds the number of
    matches, each of which consumes at least one character. *)
Fixpoint expand_f (n : nat) (tt : token_types) (s : str) : option str :=
  match n with
  | O => None
  | S n' =>
    match find_match s with
    | None => Some s
    | Some (pre, ty, nm, rest) =>
      match expand_f n' tt rest with
      | None => None
      | Some r =>
        Some (match tt ty with
              | Some lookup => pre ++ lookup nm ++ r
              | None => pre ++ match_text ty nm ++ r
              end)
      end
    end
  end.
(** The fuel [S (length s)] is proved sufficient (expand_total). *)
Definition expand (tt : token_types) (s : str) : str :=
  match expand_f (S (length s)) tt s with Some r => r | None => [] end.
