(** RegexSpec.v -- regular expressions, what they match, and their syntax. *)
From Coq Require Import List Ascii Bool Arith.
Import ListNotations.
From Verif Require Import Base.

Inductive re :=
| Eps | Bol | Eol | Any | Cls (neg : bool) (cs : list (ascii * ascii)) | Chr (c : ascii)
| Grp (n : nat) (r : re) | Star (r : re) | Plus (r : re) | Opt (r : re)
| Seq (a b : re) | Alt (a b : re).

(** A class is a list of character ranges, possibly negated. *)
Definition upto (lo hi : ascii) (c : ascii) : Prop := nat_of_ascii lo <= nat_of_ascii c <= nat_of_ascii hi.
Definition class_in (cs : list (ascii * ascii)) (c : ascii) : Prop := exists lo hi, In (lo, hi) cs /\ upto lo hi c.
Definition class_has (neg : bool) (cs : list (ascii * ascii)) (c : ascii) : Prop := if neg then ~ class_in cs c else class_in cs c.
(** [matches s r i j]: in the text [s], [r] matches from position i to j. *)
Inductive matches (s : str) : re -> nat -> nat -> Prop :=
| m_eps i : matches s Eps i i
| m_bol : matches s Bol 0 0
| m_eol : matches s Eol (length s) (length s)
| m_any i c : nth_error s i = Some c -> matches s Any i (S i)
| m_cls neg cs i c : nth_error s i = Some c -> class_has neg cs c -> matches s (Cls neg cs) i (S i)
| m_chr c i : nth_error s i = Some c -> matches s (Chr c) i (S i)
| m_grp n r i j : matches s r i j -> matches s (Grp n r) i j
| m_star_nil r i : matches s (Star r) i i
| m_star_more r i j k : matches s r i j -> matches s (Star r) j k -> matches s (Star r) i k
| m_plus r i j k : matches s r i j -> matches s (Star r) j k -> matches s (Plus r) i k
| m_opt_nil r i : matches s (Opt r) i i
| m_opt r i j : matches s r i j -> matches s (Opt r) i j
| m_seq a b i j k : matches s a i j -> matches s b j k -> matches s (Seq a b) i k
| m_alt_l a b i j : matches s a i j -> matches s (Alt a b) i j
| m_alt_r a b i j : matches s b i j -> matches s (Alt a b) i j.

(** The ways to match, best first: earlier alternatives before later ones, one
    more repetition before none.  A way is the end position and the positions
    where groups were entered and left, latest first. *)
Inductive ev := Enter (n i : nat) | Leave (n j : nat).
Definition way := (nat * list ev)%type.
Definition ways_then (l : list way) (f : nat -> list way) : list way :=
  flat_map (fun '(j, e) => map (fun '(k, e') => (k, e' ++ e)) (f j)) l.
Fixpoint repeat_ways (k : nat) (f : nat -> list way) (i : nat) : list way :=
  match k with O => [(i, [])] | S k' => ways_then (f i) (repeat_ways k' f) ++ [(i, [])] end.
Definition one_char (s : str) (ok : ascii -> bool) (i : nat) : list way :=
  match nth_error s i with Some c => if ok c then [(S i, [])] else [] | None => [] end.
Definition cls_ok (neg : bool) (cs : list (ascii * ascii)) (c : ascii) : bool :=
  xorb neg (existsb (fun '(lo, hi) => (nat_of_ascii lo <=? nat_of_ascii c) && (nat_of_ascii c <=? nat_of_ascii hi)) cs).
Fixpoint ways (s : str) (r : re) (i : nat) : list way :=
  match r with
  | Eps => [(i, [])]
  | Bol => if i =? 0 then [(i, [])] else []
  | Eol => if length s <=? i then [(i, [])] else []
  | Any => one_char s (fun _ => true) i
  | Cls neg cs => one_char s (cls_ok neg cs) i
  | Chr c => one_char s (Ascii.eqb c) i
  | Grp n r => map (fun '(j, e) => (j, Leave n j :: e ++ [Enter n i])) (ways s r i)
  (* a repetition takes at least one character *)
  | Star r => repeat_ways (length s) (ways s r) i
  | Plus r => ways_then (ways s r i) (repeat_ways (length s) (ways s r))
  | Opt r => ways s r i ++ [(i, [])]
  | Seq a b => ways_then (ways s a i) (ways s b)
  | Alt a b => ways s a i ++ ways s b i
  end.
(** Where group [n] began and ended last. *)
Fixpoint entered (n : nat) (e : list ev) : option nat :=
  match e with [] => None | Enter m i :: r => if m =? n then Some i else entered n r | Leave _ _ :: r => entered n r end.
Fixpoint left_at (n : nat) (e : list ev) : option nat :=
  match e with [] => None | Leave m i :: r => if m =? n then Some i else left_at n r | Enter _ _ :: r => left_at n r end.

(** The groups of an expression: number and body. *)
Fixpoint groups (r : re) : list (nat * re) :=
  match r with
  | Grp n r => (n, r) :: groups r
  | Star r | Plus r | Opt r => groups r
  | Seq a b | Alt a b => groups a ++ groups b
  | _ => []
  end.

(** Bytes that suffice for the program of an expression: five for a character,
    four and one per member for a class, twelve for an operator or a group. *)
Fixpoint ranges_size (cs : list (ascii * ascii)) : nat := match cs with [] => 0 | (lo, hi) :: r => S (nat_of_ascii hi - nat_of_ascii lo) + ranges_size r end.
Fixpoint re_size (r : re) : nat :=
  match r with
  | Eps => 0
  | Bol | Eol | Any => 3
  | Cls _ cs => 4 + ranges_size cs
  | Chr _ => 5
  | Grp _ r | Star r | Plus r | Opt r => 12 + re_size r
  | Seq a b => re_size a + re_size b
  | Alt a b => re_size a + re_size b + 6
  end.

(** The syntax.  [class_text prev t cs]: [t] is the rest of a character class
    after the character [prev], up to the closing bracket, adding [cs]. *)
Inductive class_text : ascii -> str -> list (ascii * ascii) -> Prop :=
| ct_end p : class_text p [] []
| ct_last_dash p : class_text p (L "-") [("-", "-")%char]
| ct_range p q t cs : q <> "]"%char -> nat_of_ascii p <= nat_of_ascii q -> class_text q t cs -> class_text p ("-"%char :: q :: t) ((p, q) :: cs)
| ct_char p q t cs : q <> "]"%char -> q <> "-"%char -> class_text q t cs -> class_text p (q :: t) ((q, q) :: cs).
(** The whole class between brackets, after an optional '^'. *)
Inductive class_body : str -> list (ascii * ascii) -> Prop :=
| cb p t cs : class_text p t cs -> class_body (p :: t) ((p, p) :: cs).
Definition special (c : ascii) : Prop := In c (L "^$.[()|?+*\").

(** [g_alt n t r n']: the text [t] denotes [r]; its groups are numbered from n
    up to n' - 1 in the order of their opening parentheses. *)
Inductive g_alt : nat -> str -> re -> nat -> Prop :=
| ga_one n t r n' : g_branch n t r n' -> g_alt n t r n'
| ga_more n t1 r1 n1 t2 r2 n2 : g_branch n t1 r1 n1 -> g_alt n1 t2 r2 n2 -> g_alt n (t1 ++ L "|" ++ t2) (Alt r1 r2) n2
with g_branch : nat -> str -> re -> nat -> Prop :=
| gb_nil n : g_branch n [] Eps n
| gb_cons n t1 r1 n1 t2 r2 n2 : g_piece n t1 r1 n1 -> g_branch n1 t2 r2 n2 -> g_branch n (t1 ++ t2) (Seq r1 r2) n2
with g_piece : nat -> str -> re -> nat -> Prop :=
| gp_atom n t r n' : g_atom n t r n' -> g_piece n t r n'
| gp_star n t r n' : g_atom n t r n' -> ~ matches [] r 0 0 -> g_piece n (t ++ L "*") (Star r) n'
| gp_plus n t r n' : g_atom n t r n' -> ~ matches [] r 0 0 -> g_piece n (t ++ L "+") (Plus r) n'
| gp_opt n t r n' : g_atom n t r n' -> g_piece n (t ++ L "?") (Opt r) n'
with g_atom : nat -> str -> re -> nat -> Prop :=
| gt_bol n : g_atom n (L "^") Bol n
| gt_eol n : g_atom n (L "$") Eol n
| gt_any n : g_atom n (L ".") Any n
| gt_chr n c : ~ special c -> g_atom n [c] (Chr c) n
| gt_esc n c : g_atom n ["\"%char; c] (Chr c) n
| gt_cls n t cs : class_body t cs -> (forall p r, t = p :: r -> p <> "^"%char) -> g_atom n (L "[" ++ t ++ L "]") (Cls false cs) n
| gt_not n t cs : class_body t cs -> g_atom n (L "[^" ++ t ++ L "]") (Cls true cs) n
| gt_grp n t r n' : n < 10 -> g_alt (S n) t r n' -> g_atom n (L "(" ++ t ++ L ")") (Grp n r) n'.
