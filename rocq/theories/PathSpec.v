(** PathSpec.v -- lexical meaning of path names. *)
From Coq Require Import List Ascii Bool Arith.
Import ListNotations.
From Verif Require Import Base PathModel.

(** Moving from a directory (the names below the root) along one name. *)
Definition walk (dir : list str) (c : str) : list str :=
  if str_eqb c [] then dir else if str_eqb c (L ".") then dir else if str_eqb c (L "..") then removelast dir else dir ++ [c].
(** The text of a location: the root, then the names with slashes between. *)
Fixpoint slashed (names : list str) : str := match names with [] => [] | [n] => n | n :: r => n ++ slash :: slashed r end.
Definition text_of (root : str) (names : list str) : str := root ++ slashed names.
(** A proper name: not empty, "." or "..", and without separators. *)
Definition no_sep (s : str) : Prop := forall c, In c s -> is_sep c = false.
Definition proper (n : str) : Prop := n <> [] /\ n <> L "." /\ n <> L ".." /\ no_sep n.
(** Roots of full paths: "/", "//", a drive "x:/" or "x:". *)
Definition full_root (r : str) : Prop :=
  r = [slash] \/ r = [slash; slash] \/ exists x, is_sep x = false /\ x <> "~"%char /\ (r = [x; ":"%char; slash] \/ r = [x; ":"%char]).

(** The root and the names of a path, home directories expanded. *)
Inductive parts (e : penv) : str -> str -> list str -> Prop :=
| parts_plain p root rest : split_root p = (root, rest) -> (forall r, root <> "~"%char :: r) -> parts e p root (pieces rest)
| parts_home p u rest home root comps : split_root p = ("~"%char :: u, rest) ->
    home = (if length (removelast ("~"%char :: u)) =? 1 then match e_home e with Some h => h | None => [] end
            else match e_pw e (tl (removelast ("~"%char :: u))) with Some d => d | None => [] end) ->
    parts e (drop_last_sep home) root comps -> parts e p root (comps ++ pieces rest).
(** Where a path leads, starting in [base] (or the working directory) when it is relative. *)
Inductive located (e : penv) (base : option str) (p : str) : str -> list str -> Prop :=
| located_full root comps : parts e p root comps -> root <> [] -> located e base p root (fold_left walk comps [])
| located_base b broot bcomps comps : parts e p [] comps -> base = Some b -> parts e b broot bcomps ->
    located e base p broot (fold_left walk comps (fold_left walk bcomps []))
| located_cwd cwd broot bcomps comps : parts e p [] comps -> base = None -> e_cwd e = Some cwd -> parts e cwd broot bcomps ->
    located e base p broot (fold_left walk comps (fold_left walk bcomps []))
| located_none comps : parts e p [] comps -> base = None -> e_cwd e = None -> located e base p [] (fold_left walk comps []).
